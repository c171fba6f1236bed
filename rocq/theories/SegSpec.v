(** * Specification of sfl::segmented_vector

    The elements are kept in segments of [SS] elements each (the template
    parameter N).  Nothing here mentions the code. *)

From Verif Require Export SeqSpec SegAlgo.
Open Scope Z_scope.

Section seg.
  Context `{Env} `{SegSize}.

  (** The state a user can see: the allocator, the addresses of the segments, the
      number of free places before the first element (0 for segmented_vector),
      the elements. *)
  Record sabs := SAbs {
    s_alloc : nat;
    s_segs : list loc;
    s_front : Z;
    s_elems : list V;
  }.
  Definition s_size (A : sabs) : Z := Z.of_nat (length (s_elems A)).
  (** One place, the last one, is never used. *)
  Definition s_cap (A : sabs) : Z := SS * Z.of_nat (length (s_segs A)) - 1.

  (** The address of element [i]. *)
  Definition elem_at (A : sabs) (i : nat) : option loc :=
    let k := s_front A + Z.of_nat i in
    (fun b => b +ₗ (k mod SS)) <$> (s_segs A !! Z.to_nat (k / SS)).

  (** Storage for [n] more places than there are, at the back: segments are
      added, none is replaced. *)
  Definition more_segs (n : Z) : Z := if n <=? 0 then 0 else n / SS + 1.
  (** The same at the front. *)
  Definition more_front (n : Z) : Z := if n <=? 0 then 0 else (n + SS - 1) / SS.
  Definition extended (A A' : sabs) : Prop := exists new, s_segs A' = s_segs A ++ new.
  Definition grows_back (n : Z) (A A' : sabs) : Prop :=
    exists new, s_segs A' = s_segs A ++ new /\ Z.of_nat (length new) = more_segs n.

  (** ** Storage after a call that returns *)
  Definition sv_storage (o : vop) (A A' : sabs) : Prop :=
    let missing := Z.of_nat (needed o (s_elems A)) - s_cap A in
    s_front A' = s_front A /\
    match o with
    | OEmplace _ _ | OEmplaceBack _ | OInsertN _ _ _ | OInsertRange _ _
    | OResize _ _ | OAssignN _ _ | OAssignRange _ | OReserve _ =>
        grows_back missing A A' /\
        (* as long as the capacity is within max_size(), the size stays within it *)
        (s_cap A <= max_size -> s_cap A + missing <= max_size)
    | OInsertInput _ _ | OAssignInput _ =>
        extended A A' /\ (missing <= 0 -> s_segs A' = s_segs A)
    | OShrink => s_segs A' = take (Z.to_nat (s_size A / SS + 1)) (s_segs A)
    | OSelfMove => length (s_segs A') = 1%nat
    | _ => s_segs A' = s_segs A
    end.

  (** ** Exceptions *)

  (** Calls after whose failure the elements are the same as before. *)
  Definition sv_strong (o : vop) (A : sabs) : Prop :=
    match o with
    | OEmplaceBack x => x_moves x = false
    | OEmplace i x => x_moves x = false /\ i = length (s_elems A)
    | OInsertN i _ _ | OInsertRange i _ => i = length (s_elems A)
    | OResize _ _ | OReserve _ | OShrink | OAt _ | OSelfMove => True
    | _ => False
    end.
  (** Bounds on the number of elements after a failure. *)
  Definition sv_exn_size (o : vop) (l l' : list V) : Prop :=
    match o with
    | OEmplace _ _ | OInsertN _ _ _ | OInsertRange _ _ | OInsertInput _ _ =>
        (length l <= length l' <= needed o l)%nat
    | OAssignInput vs => (length l <= length l' <= Nat.max (length l) (length vs))%nat
    | _ => length l' = length l
    end.

  (** Functions that may need more storage. *)
  Definition sv_grows (o : vop) : bool :=
    match o with
    | OEmplace _ _ | OEmplaceBack _ | OInsertN _ _ _ | OInsertRange _ _ | OInsertInput _ _
    | OResize _ _ | OAssignN _ _ | OAssignRange _ | OAssignInput _ | OReserve _ => true
    | _ => false
    end.

  (** State after a call that throws [e]. *)
  Definition sv_exn (o : vop) (A : sabs) (e : exn) (A' : sabs) : Prop :=
    let l := s_elems A in
    let needed := Z.of_nat (needed o l) in
    s_alloc A' = s_alloc A /\
    s_front A' = s_front A /\
    sv_exn_size o l (s_elems A') /\
    (sv_strong o A -> s_elems A' = l) /\
    (* segments are only ever given back by shrink_to_fit *)
    (match o with OShrink => True | _ => extended A A' /\ (needed <= s_cap A -> s_segs A' = s_segs A) end) /\
    match e with
    | ELength => sv_grows o = true /\ max_size < needed /\ (is_input o = false -> A' = A)
    | EOutOfRange => (exists i, o = OAt i /\ (length l <= i)%nat) /\ A' = A
    | EBadAlloc =>
        match o with
        | OShrink => s_segs A' = take (Z.to_nat (s_size A / SS + 1)) (s_segs A)
        | OInsertInput _ _ | OAssignInput _ => True
        | OSelfMove => A' = A
        | _ => s_cap A < needed /\ A' = A
        end
    | EUser =>
        match o with
        | OEmplace _ _ | OEmplaceBack _ | OInsertN _ _ _ | OInsertRange _ _ | OInsertInput _ _
        | OErase _ | OEraseRange _ _ | OAssignN _ _ | OAssignRange _ | OAssignInput _
        | OSet _ _ | OEraseIf _ => True
        | OResize n _ => (length l < n)%nat
        | _ => False
        end
    end.

  (** The documented preconditions; arguments may refer to elements of the
      container itself. *)
  Definition sv_pre (o : vop) (size : nat) : bool := seq_pre o size.

  (** ** Constructors *)
  Definition sv_fresh (n : nat) (A : sabs) : Prop :=
    s_front A = 0 /\ Z.of_nat (length (s_segs A)) = Z.of_nat n / SS + 1.
  Definition sv_k_post (c : vctor) (A : sabs) : Prop :=
    s_alloc A = k_alloc c /\ s_elems A = k_elems c /\
    match c with
    | KInput _ vs => s_front A = 0 /\ Z.of_nat (length vs) <= s_cap A
    | _ => sv_fresh (length (k_elems c)) A
    end.

  (** Constructors from another object [B], which becomes [B']. *)
  Definition sv_empty (A A' : sabs) : Prop :=
    s_alloc A' = s_alloc A /\ s_elems A' = [] /\ sv_fresh 0 A'.
  Definition sv_moved (B B' : sabs) : Prop :=
    s_alloc B' = s_alloc B /\ s_segs B' = s_segs B /\ s_front B' = s_front B /\
    s_elems B' = vmoved <$> s_elems B.
  Definition sv_k2_post (c : vctor2) (B A B' : sabs) : Prop :=
    s_elems A = s_elems B /\
    let copied a := s_alloc A = a /\ sv_fresh (length (s_elems B)) A in
    match c with
    | FromCopy => copied (soccc (s_alloc B)) /\ B' = B
    | FromCopyAlloc a => copied a /\ B' = B
    | FromMove => A = B /\ sv_empty B B'
    | FromMoveAlloc a =>
        if decide (a = s_alloc B) then A = B /\ sv_empty B B' else copied a /\ sv_moved B B'
    end.
  (** Unlike that of vector, the move constructor allocates, and may fail. *)
  Definition sv_k2_exn (c : vctor2) (B : sabs) (e : exn) (B' : sabs) : Prop :=
    k_exn (s_elems B) e /\
    match c with
    | FromCopy | FromCopyAlloc _ => B' = B
    | FromMove => e = EBadAlloc /\ B' = B
    | FromMoveAlloc a =>
        s_alloc B' = s_alloc B /\ s_segs B' = s_segs B /\ s_front B' = s_front B /\
        length (s_elems B') = length (s_elems B) /\
        (e <> EUser -> B' = B) /\ (a = s_alloc B -> e = EBadAlloc)
    end.

  (** ** Functions of two objects *)
  Definition sv_copy_alloc (A B : sabs) : nat := if pocca then s_alloc B else s_alloc A.
  Definition sv_move_alloc (A B : sabs) : nat := if pocma then s_alloc B else s_alloc A.
  (** swap() of containers with different allocators goes wrong even if the
      allocators are to be swapped (finding in DESIGN.md). *)
  Definition sv_pre2 (o : vop2) (A B : sabs) : Prop :=
    match o with
    | PSwap => s_alloc A = s_alloc B
    | _ => True
    end.
  (** Where the elements of the target of an assignment are: in the same
      segments as before, and new ones if needed; in new ones if the allocator
      changes.  [fr]: the first element stays where it is. *)
  Definition sv_assigned (fr change : bool) (A B A' : sabs) : Prop :=
    s_elems A' = s_elems B /\
    (change = false ->
       (fr = true -> s_front A' = s_front A) /\ grows_back (s_size B - s_cap A) A A').
  Definition sv_post2 (fr : bool) (o : vop2) (A B : sabs) (r : rval) (A' B' : sabs) : Prop :=
    match o with
    | PCopy =>
        r = RUnit /\ s_alloc A' = sv_copy_alloc A B /\
        sv_assigned fr (pocca && negb (s_alloc A =? s_alloc B)%nat) A B A' /\ B' = B
    | PMove =>
        r = RUnit /\ s_alloc A' = sv_move_alloc A B /\
        if decide (s_alloc A = s_alloc B) then A' = B /\ sv_empty B B'
        else sv_assigned fr pocma A B A' /\ sv_moved B B'
    | PSwap => r = RUnit /\ A' = B /\ B' = A
    | PEq eqv => A' = A /\ B' = B /\ exists b, r = RBool b /\
        (b = true <-> Forall2 (fun x y => eqv x y = true) (s_elems A) (s_elems B))
    | PLt lt => A' = A /\ B' = B /\ exists b, r = RBool b /\
        (b = true <-> lexicographic lt (s_elems A) (s_elems B))
    end.
  Definition sv_exn2 (o : vop2) (A B : sabs) (e : exn) (A' B' : sabs) : Prop :=
    match o with
    | PCopy =>
        k_exn (s_elems B) e /\ B' = B /\
        ((e = EBadAlloc /\ A' = A) \/ s_alloc A' = sv_copy_alloc A B)
    | PMove =>
        k_exn (s_elems B) e /\
        (s_alloc A = s_alloc B -> e = EBadAlloc /\ A' = A /\ B' = B) /\
        s_alloc B' = s_alloc B /\ s_segs B' = s_segs B /\ s_front B' = s_front B /\
        length (s_elems B') = length (s_elems B) /\
        ((e = EBadAlloc /\ A' = A) \/ s_alloc A' = sv_move_alloc A B)
    | PSwap => False
    | PEq _ | PLt _ => e = EUser /\ A' = A /\ B' = B
    end.
End seg.
