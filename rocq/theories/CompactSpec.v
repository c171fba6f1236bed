(** * Specification of sfl::compact_vector

    The abstract state is that of vector ([vabs]); capacity() is always size(). *)

From Verif Require Export SeqSpec.
Open Scope Z_scope.

Section spec.
  Context `{Env}.

  Definition compact (A : vabs) : Prop := q_cap A = Z.of_nat (length (q_elems A)).

  (** Preconditions.  [b = false]: the client avoids those assign calls that replace
      the storage by a block of a different nonzero size. *)
  Definition compact_pre (b : bool) (o : vop) (size : nat) : bool :=
    seq_pre o size &&
    match o with
    | OReserve _ | OShrink => false     (* no such members *)
    | OAssignN n _ => b || (n =? size)%nat || (n =? 0)%nat
    | OAssignRange vs => b || (length vs =? size)%nat || (length vs =? 0)%nat
    | _ => true
    end.

  (** The elements of the old storage after they have been transferred to new
      storage: moved from, unless moving may throw and copying is possible. *)
  Definition relocated (l : list V) : list V :=
    if nothrow_move || negb copyable then vmoved <$> l else l.

  (** A call that returns.  [resize(n, v[j])] reads [v[j]] after the old elements have
      been transferred. *)
  Definition compact_post (o : vop) (l : list V) (r : rval) (l' : list V) : Prop :=
    match o with
    | OResize n x =>
        exists v, arg_value (if decide (length l < n)%nat then relocated l else l) x = Some v /\
          r = RUnit /\ l' = take n l ++ replicate (n - length l) v
    | OSelfMove => r = RUnit /\ l' = []
    | OCapacity => r = RNum (Z.of_nat (length l)) /\ l' = l
    | _ => seq_post 0 o l r l'
    end.

  (** Calls that keep the storage. *)
  Definition in_place (o : vop) (l : list V) : Prop :=
    match o with
    | OAt _ | OGet _ | OFront | OBack | OSet _ _ | OSize | OCapacity => True
    | OInsertN _ n _ => n = 0%nat
    | OInsertRange _ vs | OInsertInput _ vs => vs = []
    | OEraseRange i j => i = j
    | OResize n _ | OAssignN n _ => n = length l
    | OAssignRange vs => length vs = length l
    | _ => False
    end.

  (** Calls after whose failure nothing has changed. *)
  Definition compact_strong (o : vop) (l : list V) : Prop :=
    match o with
    | OEmplace _ x | OEmplaceBack x => x_moves x = false /\ nothrow_move || copyable = true
    | OInsertN _ _ _ | OErase _ | OEraseRange _ _ | OPopBack => nothrow_move || copyable = true
    | OInsertRange _ _ => nothrow_move = false /\ copyable = true
    | OResize n _ =>
        nothrow_move = false /\ copyable = true \/
        (n < length l)%nat /\ nothrow_move || copyable = true
    | OAt _ | OGet _ | OFront | OBack | OSize | OCapacity | OClear => True
    | _ => False
    end.

  Definition compact_exn_size (o : vop) (l l' : list V) : Prop :=
    match o with
    | OInsertInput _ vs => (length l <= length l' < length l + length vs)%nat
    | OAssignN _ _ | OAssignRange _ => length l' = length l \/ l' = []
    | OAssignInput vs => (length l' < length vs)%nat
    | _ => length l' = length l
    end.

  (** A call that throws [e]. *)
  Definition compact_exn (o : vop) (A : vabs) (e : exn) (A' : vabs) : Prop :=
    let l := q_elems A in
    q_alloc A' = q_alloc A /\
    compact_exn_size o l (q_elems A') /\
    (compact_strong o l -> A' = A) /\
    (is_assign o = false -> is_input o = false -> q_data A' = q_data A) /\
    (in_place o l -> q_data A' = q_data A) /\
    match e with
    | ELength => max_size < Z.of_nat (needed o l) /\ (is_input o = false -> A' = A)
    | EOutOfRange => (exists i, o = OAt i /\ (length l <= i)%nat) /\ A' = A
    | EBadAlloc =>
        ~ in_place o l /\ o <> OClear /\ o <> OSelfMove /\
        match o with
        | OAssignN _ _ | OAssignRange _ | OInsertInput _ _ | OAssignInput _ | OEraseIf _ => True
        | _ => A' = A
        end
    | EUser =>
        match o with
        | OClear | OSelfMove | OAt _ | OGet _ | OFront | OBack | OSize | OCapacity => False
        | _ => True
        end
    end.

  (** Constructors: those of vector. *)
  Definition compact_k_post (c : vctor) (A : vabs) : Prop :=
    q_alloc A = k_alloc c /\ q_elems A = k_elems c.

  (** Functions of two objects, with allocators [a1], [a2] and sizes [n1], [n2]. *)
  Definition compact_pre2 (b : bool) (o : vop2) (a1 n1 a2 n2 : nat) : bool :=
    match o with
    | PCopy => b || (n2 =? 0)%nat || ((n2 =? n1)%nat && (negb pocca || (a1 =? a2)%nat))
    | PMove => b || pocma || (a1 =? a2)%nat || (n2 =? n1)%nat || (n2 =? 0)%nat
    | PSwap => pocs || (a1 =? a2)%nat
    | _ => true
    end.
  Definition compact_post2 (o : vop2) (A B : vabs) (r : rval) (A' B' : vabs) : Prop :=
    match o with
    | PCopy =>
        r = RUnit /\ q_alloc A' = copy_alloc A B /\ q_elems A' = q_elems B /\ B' = B /\
        ((pocca = false \/ q_alloc A = q_alloc B) -> length (q_elems B) = length (q_elems A) ->
         q_data A' = q_data A)
    | PMove =>
        r = RUnit /\
        if decide (move_alloc A B = q_alloc B) then A' = B /\ B' = empty_like B
        else q_alloc A' = move_alloc A B /\ q_elems A' = q_elems B /\
             q_alloc B' = q_alloc B /\ same_storage B B' /\ q_elems B' = vmoved <$> q_elems B /\
             (length (q_elems B) = length (q_elems A) -> q_data A' = q_data A)
    | PSwap => r = RUnit /\ A' = B /\ B' = A
    | PEq eqv => A' = A /\ B' = B /\ exists b, r = RBool b /\
        (b = true <-> Forall2 (fun x y => eqv x y = true) (q_elems A) (q_elems B))
    | PLt lt => A' = A /\ B' = B /\ exists b, r = RBool b /\
        (b = true <-> lexicographic lt (q_elems A) (q_elems B))
    end.
  Definition compact_exn2 (o : vop2) (A B : vabs) (e : exn) (A' B' : vabs) : Prop :=
    match o with
    | PCopy =>
        k_exn (q_elems B) e /\ q_alloc A' = copy_alloc A B /\ B' = B /\
        (length (q_elems A') = length (q_elems A) \/ q_elems A' = [])
    | PMove =>
        k_exn (q_elems B) e /\ move_alloc A B <> q_alloc B /\ q_alloc A' = move_alloc A B /\
        q_alloc B' = q_alloc B /\ same_storage B B' /\ length (q_elems B') = length (q_elems B) /\
        (length (q_elems A') = length (q_elems A) \/ q_elems A' = [])
    | PSwap => False
    | PEq _ | PLt _ => e = EUser /\ A' = A /\ B' = B
    end.
End spec.
