(** * Specification of the sequence containers

    What a user of sfl::vector (and of its relatives) relies on, in terms of
    lists.  Nothing here mentions the code. *)

From Verif Require Export Lang.
Open Scope Z_scope.

Section seq.
  Context `{Env}.

  (** Arguments passed to member functions: none (value-initialisation), a value
      unrelated to the container, or a reference to element [j] of the container
      itself, to be copied or moved from. *)
  Inductive xarg :=
    | XDef
    | XVal (v : V)
    | XCopy (j : nat)
    | XMove (j : nat).

  (** Calls of member functions; positions are given by their distance from
      begin(). *)
  Inductive vop :=
    | OEmplace (i : nat) (x : xarg)           (* emplace(pos, x), insert(pos, x) *)
    | OEmplaceBack (x : xarg)                 (* emplace_back(x), push_back(x) *)
    | OInsertN (i n : nat) (x : xarg)         (* insert(pos, n, x) *)
    | OInsertRange (i : nat) (vs : list V)    (* insert(pos, first, last), forward iterators; insert(pos, ilist) *)
    | OInsertInput (i : nat) (vs : list V)    (* the same, input iterators *)
    | OPopBack
    | OErase (i : nat)
    | OEraseRange (i j : nat)
    | OResize (n : nat) (x : xarg)            (* resize(n), resize(n, x) *)
    | OAssignN (n : nat) (v : V)              (* assign(n, v) *)
    | OAssignRange (vs : list V)              (* assign(first, last), assign(ilist), = ilist *)
    | OAssignInput (vs : list V)
    | OClear
    | OReserve (n : nat)
    | OShrink                                 (* shrink_to_fit() *)
    | OAt (i : nat)                           (* at(i) *)
    | OGet (i : nat)                          (* c[i] *)
    | OFront
    | OBack
    | OSet (i : nat) (v : V)                  (* c[i] = v, through any reference or iterator *)
    | OSize
    | OCapacity
    | OEraseIf (p : V -> bool)                (* erase_if(c, p), erase(c, value) *)
    | OSelfMove.                              (* c = std::move(c) *)

  (** Results; iterators are given by their distance from begin(). *)
  Inductive rval :=
    | RUnit
    | RIdx (k : Z)
    | RVal (v : V)
    | RNum (z : Z)
    | RBool (b : bool).

  (** The state of a sequence container a user can see: its allocator, data(),
      the elements, capacity(). *)
  Record vabs := VAbs {
    q_alloc : nat;
    q_data : loc;
    q_elems : list V;
    q_cap : Z;
  }.

  (** The value an argument denotes at the time of the call. *)
  Definition arg_value (l : list V) (x : xarg) : option V :=
    match x with
    | XDef => Some vdef
    | XVal v => Some v
    | XCopy j | XMove j => l !! j
    end.
  (** The container after its element has been moved from. *)
  Definition arg_rest (l : list V) (x : xarg) : list V :=
    match x with
    | XMove j => match l !! j with Some v => <[j := vmoved v]> l | None => l end
    | _ => l
    end.
  Definition x_moves (x : xarg) : bool := match x with XMove _ => true | _ => false end.
  Definition x_ok (size : nat) (x : xarg) : bool :=
    match x with
    | XCopy j | XMove j => (j <? size)%nat
    | _ => true
    end.

  (** Documented preconditions, for a container of the given size. *)
  Definition seq_pre (o : vop) (size : nat) : bool :=
    match o with
    | OEmplace i x => (i <=? size)%nat && x_ok size x
    | OEmplaceBack x => x_ok size x
    | OInsertN i n x => (i <=? size)%nat && x_ok size x && negb (x_moves x)
    | OInsertRange i _ | OInsertInput i _ => (i <=? size)%nat
    | OPopBack | OFront | OBack => (0 <? size)%nat
    | OErase i | OGet i | OSet i _ => (i <? size)%nat
    | OEraseRange i j => (i <=? j)%nat && (j <=? size)%nat
    | OResize n x => x_ok size x && negb (x_moves x)
    | _ => true
    end.

  (** Effect of a call that returns.  [base]: the capacity of the storage inside the
      object: 0 for vector, N for small_vector<T, N> and static_vector<T, N>. *)
  Definition seq_post (base : Z) (o : vop) (l : list V) (r : rval) (l' : list V) : Prop :=
    match o with
    | OEmplace i x =>
        exists v, arg_value l x = Some v /\ r = RIdx (Z.of_nat i) /\
          l' = take i (arg_rest l x) ++ [v] ++ drop i (arg_rest l x)
    | OEmplaceBack x =>
        exists v, arg_value l x = Some v /\ r = RIdx (Z.of_nat (length l)) /\
          l' = arg_rest l x ++ [v]
    | OInsertN i n x =>
        exists v, arg_value l x = Some v /\ r = RIdx (Z.of_nat i) /\
          l' = take i l ++ replicate n v ++ drop i l
    | OInsertRange i vs | OInsertInput i vs =>
        r = RIdx (Z.of_nat i) /\ l' = take i l ++ vs ++ drop i l
    | OPopBack => r = RUnit /\ exists v, l = l' ++ [v]
    | OErase i => r = RIdx (Z.of_nat i) /\ l' = take i l ++ drop (S i) l
    | OEraseRange i j => r = RIdx (Z.of_nat i) /\ l' = take i l ++ drop j l
    | OResize n x =>
        exists v, arg_value l x = Some v /\ r = RUnit /\
          l' = take n l ++ replicate (n - length l) v
    | OAssignN n v => r = RUnit /\ l' = replicate n v
    | OAssignRange vs | OAssignInput vs => r = RUnit /\ l' = vs
    | OClear => r = RUnit /\ l' = []
    | OReserve _ | OShrink => r = RUnit /\ l' = l
    | OAt i | OGet i => exists v, l !! i = Some v /\ r = RVal v /\ l' = l
    | OFront => exists v, head l = Some v /\ r = RVal v /\ l' = l
    | OBack => exists v, last l = Some v /\ r = RVal v /\ l' = l
    | OSet i v => r = RUnit /\ l' = <[i := v]> l
    | OSize => r = RNum (Z.of_nat (length l)) /\ l' = l
    | OCapacity => (exists c, r = RNum c) /\ l' = l
    | OEraseIf p =>
        l' = List.filter (fun v => negb (p v)) l /\
        r = RNum (Z.of_nat (length (List.filter p l)))
    | OSelfMove => r = RUnit /\ (l' = [] \/ 0 < base /\ l' = vmoved <$> l)
    end.

  (** ** Storage *)

  (** The growth policy: at least what is needed, at least one and a half times
      the old capacity as far as max_size() allows. *)
  Definition growth (len cap n : Z) : Z := Z.max (len + n) (Z.min max_size (cap + cap / 2)).

  Definition same_storage (A A' : vabs) : Prop := q_data A' = q_data A /\ q_cap A' = q_cap A.

  (** Elements an operation has to find room for. *)
  Definition needed (o : vop) (l : list V) : nat :=
    match o with
    | OEmplace _ _ | OEmplaceBack _ => S (length l)
    | OInsertN _ n _ => length l + n
    | OInsertRange _ vs | OInsertInput _ vs => length l + length vs
    | OResize n _ | OAssignN n _ | OReserve n => n
    | OAssignRange vs | OAssignInput vs => length vs
    | _ => length l
    end.

  Definition seq_storage (base : Z) (o : vop) (A A' : vabs) : Prop :=
    let len := Z.of_nat (length (q_elems A)) in
    let cap := q_cap A in
    match o with
    | OEmplace _ _ | OEmplaceBack _ | OInsertN _ _ _ | OInsertRange _ _ =>
        if decide (Z.of_nat (needed o (q_elems A)) <= cap) then same_storage A A'
        else q_cap A' = Z.max base (growth len cap (Z.of_nat (needed o (q_elems A)) - len))
    | OInsertInput _ _ | OAssignInput _ =>
        Z.of_nat (needed o (q_elems A)) <= cap -> same_storage A A'
    | OResize n _ | OAssignN n _ | OReserve n =>
        if decide (Z.of_nat n <= cap) then same_storage A A' else q_cap A' = Z.max base (Z.of_nat n)
    | OAssignRange vs =>
        if decide (Z.of_nat (length vs) <= cap) then same_storage A A'
        else q_cap A' = Z.max base (Z.of_nat (length vs))
    | OShrink =>
        q_cap A' = Z.min cap (Z.max base len) /\ (cap <= Z.max base len -> same_storage A A')
    | OSelfMove =>
        (* storage from the allocator is given back; elements inside the object
           are moved from, one by one *)
        (q_elems A' = [] /\ q_cap A' = 0) \/
        (0 < base /\ q_elems A' = vmoved <$> q_elems A /\ same_storage A A')
    | _ => same_storage A A'
    end.

  (** ** Exceptions *)

  Definition is_input (o : vop) : bool :=
    match o with OInsertInput _ _ | OAssignInput _ => true | _ => false end.
  Definition is_assign (o : vop) : bool :=
    match o with OAssignN _ _ | OAssignRange _ | OAssignInput _ => true | _ => false end.

  (** Calls after whose failure nothing has changed. *)
  Definition strong (o : vop) (A : vabs) : Prop :=
    let l := q_elems A in
    let fits := Z.of_nat (needed o l) <= q_cap A in
    match o with
    | OEmplaceBack x => x_moves x = false /\ (nothrow_move || copyable = true \/ fits)
    | OEmplace i x =>
        x_moves x = false /\
        ((~ fits /\ nothrow_move || copyable = true) \/ (fits /\ i = length l))
    | OInsertN i n x => (~ fits /\ nothrow_move || copyable = true) \/ (fits /\ i = length l)
    | OInsertRange i vs =>
        (~ fits /\ nothrow_move = false /\ copyable = true) \/ (fits /\ i = length l)
    | OResize _ _ => nothrow_move || copyable = true \/ fits
    | OReserve _ | OShrink => nothrow_move || copyable = true
    | OAt _ | OGet _ | OFront | OBack | OSize | OCapacity | OClear | OPopBack => True
    | _ => False
    end.

  (** Bounds on the number of elements after a failure. *)
  Definition exn_size (o : vop) (l l' : list V) : Prop :=
    match o with
    | OEmplace _ _ | OInsertN _ _ _ | OInsertRange _ _ | OInsertInput _ _ =>
        (length l <= length l' <= needed o l)%nat
    | OAssignN _ _ | OAssignRange _ => length l' = length l \/ l' = []
    | OAssignInput vs => (length l <= length l' <= length l + length vs)%nat
    | _ => length l' = length l
    end.

  (** State after a call that throws [e]. *)
  Definition seq_exn (base : Z) (o : vop) (A : vabs) (e : exn) (A' : vabs) : Prop :=
    let l := q_elems A in
    q_alloc A' = q_alloc A /\
    exn_size o l (q_elems A') /\
    (strong o A -> A' = A) /\
    (* storage is given up only by assignments and by element-wise insertion *)
    (is_assign o = false -> is_input o = false -> same_storage A A') /\
    (Z.of_nat (needed o l) <= q_cap A -> same_storage A A') /\
    (* erase does not touch elements before the position *)
    match o with
    | OErase i | OEraseRange i _ => take i (q_elems A') = take i l
    | _ => True
    end /\
    match e with
    | ELength =>
        max_size < Z.of_nat (needed o l) /\ (is_input o = false -> A' = A)
    | EOutOfRange => (exists i, o = OAt i /\ (length l <= i)%nat) /\ A' = A
    | EBadAlloc =>
        (q_cap A < Z.of_nat (needed o l) \/ o = OShrink \/ is_input o = true) /\
        (is_assign o = false -> is_input o = false -> A' = A)
    | EUser =>
        match o with
        | OClear | OPopBack | OAt _ | OGet _ | OFront | OBack | OSize | OCapacity => False
        | OSelfMove => 0 < base
        | OReserve n => q_cap A < Z.of_nat n
        | OResize n _ => (length l < n)%nat
        | _ => True
        end
    end.

  (** ** Constructors *)
  Inductive vctor :=
    | KDefault (a : nat)                      (* vector(alloc) *)
    | KFill (a : nat) (n : nat) (x : option V)  (* vector(n, alloc), vector(n, v, alloc) *)
    | KRange (a : nat) (vs : list V)          (* vector(first, last, alloc), forward iterators; ilist *)
    | KInput (a : nat) (vs : list V).         (* input iterators *)

  Definition k_alloc (c : vctor) : nat :=
    match c with KDefault a => a | KFill a _ _ => a | KRange a _ => a | KInput a _ => a end.
  Definition k_elems (c : vctor) : list V :=
    match c with
    | KDefault _ => []
    | KFill _ n None => replicate n vdef
    | KFill _ n (Some v) => replicate n v
    | KRange _ vs | KInput _ vs => vs
    end.
  Definition k_post (base : Z) (c : vctor) (A : vabs) : Prop :=
    q_alloc A = k_alloc c /\ q_elems A = k_elems c /\
    match c with
    | KInput _ vs => Z.max base (Z.of_nat (length vs)) <= q_cap A
    | _ => q_cap A = Z.max base (Z.of_nat (length (k_elems c)))
    end.
  (** Why a constructor given [l] elements may throw. *)
  Definition k_exn (l : list V) (e : exn) : Prop :=
    match e with
    | ELength => max_size < Z.of_nat (length l)
    | EOutOfRange => False
    | _ => True
    end.

  (** Constructors from another object. *)
  Inductive vctor2 :=
    | FromCopy
    | FromCopyAlloc (a : nat)
    | FromMove
    | FromMoveAlloc (a : nat).

  (** Functions of two objects *)
  Inductive vop2 :=
    | PCopy                                   (* x = y *)
    | PMove                                   (* x = std::move(y) *)
    | PSwap
    | PEq (r : V -> V -> bool)                (* x == y *)
    | PLt (lt : V -> V -> bool).              (* x < y *)

  (** Lexicographic order: the first position at which the two lists are not
      equivalent decides; a proper prefix is smaller. *)
  Definition agree (lt : V -> V -> bool) (l1 l2 : list V) (k : nat) : Prop :=
    forall j x y, (j < k)%nat -> l1 !! j = Some x -> l2 !! j = Some y ->
      lt x y = false /\ lt y x = false.
  Definition lexicographic (lt : V -> V -> bool) (l1 l2 : list V) : Prop :=
    (exists k x y, l1 !! k = Some x /\ l2 !! k = Some y /\ lt x y = true /\ agree lt l1 l2 k) \/
    ((length l1 < length l2)%nat /\ agree lt l1 l2 (length l1)).
End seq.

(** ** Two-object functions of sfl::vector *)
Section vec2.
  Context `{Env}.

  Definition empty_like (A : vabs) : vabs := VAbs (q_alloc A) null [] 0.

  (** [B]: source, [A]: new object, [B']: source afterwards. *)
  Definition vec_k2_post (c : vctor2) (B A B' : vabs) : Prop :=
    q_elems A = q_elems B /\
    match c with
    | FromCopy => q_alloc A = soccc (q_alloc B) /\ q_cap A = Z.of_nat (length (q_elems B)) /\ B' = B
    | FromCopyAlloc a => q_alloc A = a /\ q_cap A = Z.of_nat (length (q_elems B)) /\ B' = B
    | FromMove => A = B /\ B' = empty_like B
    | FromMoveAlloc a =>
        if decide (a = q_alloc B) then A = B /\ B' = empty_like B
        else q_alloc A = a /\ q_cap A = Z.of_nat (length (q_elems B)) /\
             q_alloc B' = q_alloc B /\ same_storage B B' /\ q_elems B' = vmoved <$> q_elems B
    end.
  Definition vec_k2_exn (c : vctor2) (B : vabs) (e : exn) (B' : vabs) : Prop :=
    k_exn (q_elems B) e /\
    match c with
    | FromCopy | FromCopyAlloc _ => B' = B
    | FromMove => False
    | FromMoveAlloc a =>
        a <> q_alloc B /\ q_alloc B' = q_alloc B /\ same_storage B B' /\
        length (q_elems B') = length (q_elems B) /\ (e <> EUser -> B' = B)
    end.

  (** Allocators after the operation. *)
  Definition copy_alloc (A B : vabs) : nat := if pocca then q_alloc B else q_alloc A.
  Definition move_alloc (A B : vabs) : nat := if pocma then q_alloc B else q_alloc A.

  Definition vec_pre2 (o : vop2) (A B : vabs) : Prop :=
    match o with
    | PSwap => pocs = true \/ q_alloc A = q_alloc B
    | _ => True
    end.
  Definition vec_post2 (o : vop2) (A B : vabs) (r : rval) (A' B' : vabs) : Prop :=
    match o with
    | PCopy =>
        r = RUnit /\ q_alloc A' = copy_alloc A B /\ q_elems A' = q_elems B /\ B' = B /\
        (* the target keeps its storage if it is big enough and its allocator is kept *)
        ((pocca = false \/ q_alloc A = q_alloc B) -> Z.of_nat (length (q_elems B)) <= q_cap A ->
         same_storage A A')
    | PMove =>
        r = RUnit /\
        if decide (move_alloc A B = q_alloc B) then A' = B /\ B' = empty_like B
        else q_alloc A' = move_alloc A B /\ q_elems A' = q_elems B /\
             q_alloc B' = q_alloc B /\ same_storage B B' /\ q_elems B' = vmoved <$> q_elems B /\
             (Z.of_nat (length (q_elems B)) <= q_cap A -> same_storage A A')
    | PSwap => r = RUnit /\ A' = B /\ B' = A
    | PEq eqv => A' = A /\ B' = B /\ exists b, r = RBool b /\
        (b = true <-> Forall2 (fun x y => eqv x y = true) (q_elems A) (q_elems B))
    | PLt lt => A' = A /\ B' = B /\ exists b, r = RBool b /\
        (b = true <-> lexicographic lt (q_elems A) (q_elems B))
    end.
  Definition vec_exn2 (o : vop2) (A B : vabs) (e : exn) (A' B' : vabs) : Prop :=
    match o with
    | PCopy => k_exn (q_elems B) e /\ q_alloc A' = copy_alloc A B /\ B' = B
    | PMove =>
        k_exn (q_elems B) e /\ move_alloc A B <> q_alloc B /\ q_alloc A' = move_alloc A B /\
        q_alloc B' = q_alloc B /\ same_storage B B' /\ length (q_elems B') = length (q_elems B)
    | PSwap => False
    | PEq _ | PLt _ => e = EUser /\ A' = A /\ B' = B
    end.
End vec2.
