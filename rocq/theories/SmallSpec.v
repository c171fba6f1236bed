(** * Specification of sfl::small_vector<T, N>

    Member functions on one object are specified in [SeqSpec] with [base] = N.
    Here: the functions of two objects.  An abstract small vector is the address
    of the storage inside the object and the visible state of [SeqSpec].  The
    elements are inside the object exactly if capacity() is N. *)

From Verif Require Export SeqSpec.
Open Scope Z_scope.

Section small.
  Context `{Env}.
  Variable N : nat.
  Notation NZ := (Z.of_nat N).

  Definition inside (A : vabs) : Prop := q_cap A = NZ.
  (** The source of an element-wise move: as many elements, all moved from. *)
  Definition moved_each (B B' : vabs) : Prop :=
    q_alloc B' = q_alloc B /\ same_storage B B' /\ q_elems B' = vmoved <$> q_elems B.
  (** The capacity of an object just filled with the elements of [B]. *)
  Definition room_for (B : vabs) : Z := Z.max NZ (Z.of_nat (length (q_elems B))).
  (** Storage that is handed over: obtained from an allocator that the receiver
      may use to give it back. *)
  Definition handed_over (a : nat) (B : vabs) : Prop := ~ inside B /\ a = q_alloc B.
  Definition handed_over_dec a B : {handed_over a B} + {~ handed_over a B}.
  Proof. unfold handed_over, inside. destruct (decide (q_cap B = NZ)), (decide (a = q_alloc B)); (left; tauto) || (right; tauto). Defined.

  (** [B]: source, [A]: new object, [B']: source afterwards. *)
  Definition move_made (a : nat) (B A B' : vabs) : Prop :=
    if handed_over_dec a B then A = B /\ B' = empty_like B
    else q_alloc A = a /\ q_cap A = room_for B /\ moved_each B B'.
  Definition small_k2_post (c : vctor2) (B A B' : vabs) : Prop :=
    q_elems A = q_elems B /\
    match c with
    | FromCopy => q_alloc A = soccc (q_alloc B) /\ q_cap A = room_for B /\ B' = B
    | FromCopyAlloc a => q_alloc A = a /\ q_cap A = room_for B /\ B' = B
    | FromMove => move_made (q_alloc B) B A B'
    | FromMoveAlloc a => move_made a B A B'
    end.
  Definition move_failed (a : nat) (B : vabs) (e : exn) (B' : vabs) : Prop :=
    ~ handed_over a B /\ q_alloc B' = q_alloc B /\ same_storage B B' /\
    length (q_elems B') = length (q_elems B) /\ (e <> EUser -> B' = B) /\
    (inside B -> e = EUser /\ nothrow_move = false).
  Definition small_k2_exn (c : vctor2) (B : vabs) (e : exn) (B' : vabs) : Prop :=
    k_exn (q_elems B) e /\
    match c with
    | FromCopy | FromCopyAlloc _ => B' = B
    | FromMove => move_failed (q_alloc B) B e B'
    | FromMoveAlloc a => move_failed a B e B'
    end.

  (** The library asks for [pocs = true \/ equal allocators]; that is not enough:
      see the refuted property about swap. *)
  Definition small_pre2 (o : vop2) (A B : vabs) : Prop :=
    match o with
    | PSwap => q_alloc A = q_alloc B \/
               pocs = true /\ (nothrow_move = true \/ (inside A <-> inside B))
    | _ => True
    end.

  (** Storage of the target of an element-wise assignment; [flag]: the allocator
      is replaced. *)
  Definition kept_storage (flag : bool) (A B A' : vabs) : Prop :=
    if decide (Z.of_nat (length (q_elems B)) <= q_cap A /\ (flag = false \/ q_alloc A = q_alloc B))
    then same_storage A A' else q_cap A' = room_for B.

  Definition small_post2 (o : vop2) (A B : vabs) (r : rval) (A' B' : vabs) : Prop :=
    match o with
    | PCopy =>
        r = RUnit /\ q_alloc A' = copy_alloc A B /\ q_elems A' = q_elems B /\ B' = B /\
        kept_storage pocca A B A'
    | PMove =>
        r = RUnit /\
        if handed_over_dec (move_alloc A B) B then A' = B /\ B' = empty_like B
        else q_alloc A' = move_alloc A B /\ q_elems A' = q_elems B /\ moved_each B B' /\
             kept_storage pocma A B A'
    | PSwap =>
        r = RUnit /\
        q_alloc A' = q_alloc B /\ q_elems A' = q_elems B /\ q_cap A' = q_cap B /\
        q_alloc B' = q_alloc A /\ q_elems B' = q_elems A /\ q_cap B' = q_cap A /\
        (* elements outside of the objects stay where they are *)
        (~ inside B -> q_data A' = q_data B) /\ (~ inside A -> q_data B' = q_data A)
    | PEq eqv => A' = A /\ B' = B /\ exists b, r = RBool b /\
        (b = true <-> Forall2 (fun x y => eqv x y = true) (q_elems A) (q_elems B))
    | PLt lt => A' = A /\ B' = B /\ exists b, r = RBool b /\
        (b = true <-> lexicographic lt (q_elems A) (q_elems B))
    end.
  Definition small_exn2 (o : vop2) (A B : vabs) (e : exn) (A' B' : vabs) : Prop :=
    match o with
    | PCopy => k_exn (q_elems B) e /\ q_alloc A' = copy_alloc A B /\ B' = B
    | PMove =>
        k_exn (q_elems B) e /\ ~ handed_over (move_alloc A B) B /\ q_alloc A' = move_alloc A B /\
        q_alloc B' = q_alloc B /\ same_storage B B' /\ length (q_elems B') = length (q_elems B)
    | PSwap =>
        (* an element operation failed: sizes and storage are as before, but the
           allocators have been exchanged already *)
        e = EUser /\ (inside A \/ inside B) /\
        q_alloc A' = q_alloc B /\ q_alloc B' = q_alloc A /\
        same_storage A A' /\ same_storage B B' /\
        length (q_elems A') = length (q_elems A) /\ length (q_elems B') = length (q_elems B)
    | PEq _ | PLt _ => e = EUser /\ A' = A /\ B' = B
    end.

  (** Abstract objects with the address of their internal storage. *)
  Definition sabs := (loc * vabs)%type.
End small.
