(** * Specification of the ordered flat containers

    sfl::static_flat_set / small_flat_set, ..._map, ..._multiset, ..._multimap in
    terms of lists and of the comparator.  Nothing here mentions the code. *)

From Verif Require Export SeqSpec.
Open Scope Z_scope.

(** Keys of elements and comparators.  For a set the key of an element is the
    element itself and there is nothing else in it; for a map an element is a
    pair.  A comparator is an object (stored in the container); [less c] is what
    it computes. *)
Class Keyed `{E : Env} := {
  Key : Type;
  key : V -> Key;
  Cmp : Type;
  less : Cmp -> Key -> Key -> bool;
  (* maps only *)
  Mapped : Type;
  mapped : V -> Mapped;
  entry : Key -> Mapped -> V;
  mdef : Mapped;                     (* the value of T() *)
  mjunk : nat -> Mapped;             (* value left by a throwing assignment to it->second *)
  key_entry : forall k m, key (entry k m) = k;
  mapped_entry : forall k m, mapped (entry k m) = m;
}.

(** Which of the eight containers. *)
Record fkind := FKind {
  multi : bool;                      (* multiset, multimap *)
  is_map : bool;                     (* map, multimap *)
}.

Section flat.
  Context `{Keyed}.

  (** What C++ demands of a comparator. *)
  Definition strict_weak (r : Key -> Key -> bool) : Prop :=
    (forall x, r x x = false) /\
    (forall x y z, r x y = true -> r y z = true -> r x z = true) /\
    (forall x y z, r x z = true -> r x y = true \/ r y z = true).

  Definition equiv (c : Cmp) (x y : Key) : Prop := less c x y = false /\ less c y x = false.
  (** Element [i] of [l] has a key equivalent to [k]. *)
  Definition found (c : Cmp) (l : list V) (k : Key) (i : nat) : Prop :=
    exists w, l !! i = Some w /\ equiv c (key w) k.
  Definition absent (c : Cmp) (l : list V) (k : Key) : Prop := forall i, ~ found c l k i.

  (** Positions characterised by the comparator. *)
  Definition lower_pos (c : Cmp) (l : list V) (k : Key) (i : nat) : Prop :=
    (i <= length l)%nat /\ forall j w, l !! j = Some w -> (less c (key w) k = true <-> (j < i)%nat).
  Definition upper_pos (c : Cmp) (l : list V) (k : Key) (i : nat) : Prop :=
    (i <= length l)%nat /\ forall j w, l !! j = Some w -> (less c k (key w) = false <-> (j < i)%nat).

  Definition equivb (c : Cmp) (k : Key) (v : V) : bool :=
    negb (less c (key v) k) && negb (less c k (key v)).

  (** Member functions.  Positions and hints are given by their distance from
      begin(). *)
  Inductive fop :=
    | FEmplace (x : xarg)                  (* emplace(args...) *)
    | FInsert (x : xarg)                   (* insert(value) *)
    | FEmplaceHint (h : nat) (x : xarg)    (* emplace_hint(hint, args...) *)
    | FInsertHint (h : nat) (x : xarg)     (* insert(hint, value) *)
    | FInsertRange (vs : list V)           (* insert(first, last), insert(ilist) *)
    | FAssignList (vs : list V)            (* c = ilist *)
    | FErase (i : nat)
    | FEraseRange (i j : nat)
    | FEraseKey (k : Key)
    | FEraseIf (p : V -> bool)             (* sfl::erase_if(c, p) *)
    | FClear
    | FFind (k : Key)
    | FLower (k : Key)
    | FUpper (k : Key)
    | FEqualRange (k : Key)
    | FCount (k : Key)
    | FContains (k : Key)
    | FSize
    (* map only *)
    | FTryEmplace (k : Key) (m : Mapped)
    | FTryEmplaceHint (h : nat) (k : Key) (m : Mapped)
    | FInsertOrAssign (k : Key) (m : Mapped)
    | FInsertOrAssignHint (h : nat) (k : Key) (m : Mapped)
    | FAt (k : Key)
    | FIndex (k : Key)                     (* c[k] *)
    (* map and multimap *)
    | FPut (i : nat) (m : Mapped).         (* (begin() + i)->second = m *)

  (** Results. *)
  Inductive frv :=
    | One (r : rval)
    | PosNew (i : nat) (b : bool)          (* std::pair<iterator, bool> *)
    | PosRange (i j : nat)                 (* std::pair<iterator, iterator> *)
    | TheMapped (m : Mapped).              (* the value of a T& *)
  Definition Pos (i : nat) : frv := One (RIdx (Z.of_nat i)).
  Definition Num (n : nat) : frv := One (RNum (Z.of_nat n)).

  Variable kd : fkind.

  (** The invariant: keys strictly increase (set, map) or do not decrease
      (multiset, multimap). *)
  Definition in_order (c : Cmp) (x y : Key) : Prop :=
    if multi kd then less c y x = false else less c x y = true.
  Definition ordered (c : Cmp) (l : list V) : Prop :=
    forall i j x y, (i < j)%nat -> l !! i = Some x -> l !! j = Some y -> in_order c (key x) (key y).

  (** [l'] is [l] after inserting [v]; [i], [b]: the position of the new or the
      already present element and whether [v] was inserted. *)
  Definition inserted (c : Cmp) (v : V) (l : list V) (i : nat) (b : bool) (l' : list V) : Prop :=
    (multi kd = false /\ b = false /\ found c l (key v) i /\ l' = l) \/
    ((multi kd = false -> absent c l (key v)) /\ b = true /\ (i <= length l)%nat /\
     l' = take i l ++ v :: drop i l /\ ordered c l').
  Fixpoint inserted_all (c : Cmp) (vs : list V) (l l' : list V) : Prop :=
    match vs with
    | [] => l' = l
    | v :: vs' => exists i b l1, inserted c v l i b l1 /\ inserted_all c vs' l1 l'
    end.

  (** [insert(value)] returns a pair for sets and maps, an iterator for the multi
      variants and if a hint is given. *)
  Definition ins_result (hinted : bool) (i : nat) (b : bool) : frv :=
    if hinted || multi kd then Pos i else PosNew i b.

  (** Arguments: values, references to elements of the container (not moving from
      them, keys are const), for emplace also none. *)
  Definition fx_ok (size : nat) (x : xarg) : bool := x_ok size x && negb (x_moves x).
  Definition fi_ok (size : nat) (x : xarg) : bool :=
    fx_ok size x && match x with XDef => false | _ => true end.

  (** Documented preconditions for a container of the given size; [room n]: the
      container can take [n] more elements. *)
  Definition flat_pre (room : nat -> bool) (whole : nat -> bool) (o : fop) (size : nat) : bool :=
    match o with
    | FEmplace x => fx_ok size x && room 1%nat
    | FInsert x => fi_ok size x && room 1%nat
    | FEmplaceHint h x => fx_ok size x && (h <=? size)%nat && room 1%nat
    | FInsertHint h x => fi_ok size x && (h <=? size)%nat && room 1%nat
    | FInsertRange vs => room (length vs)
    | FAssignList vs => whole (length vs)
    | FErase i => (i <? size)%nat
    | FEraseRange i j => (i <=? j)%nat && (j <=? size)%nat
    | FTryEmplace _ _ | FInsertOrAssign _ _ | FIndex _ => is_map kd && negb (multi kd) && room 1%nat
    | FTryEmplaceHint h _ _ | FInsertOrAssignHint h _ _ =>
        is_map kd && negb (multi kd) && (h <=? size)%nat && room 1%nat
    | FAt _ => is_map kd && negb (multi kd)
    | FPut i _ => is_map kd && (i <? size)%nat
    | _ => true
    end.

  (** Elements an operation may add. *)
  Definition adds (o : fop) : nat :=
    match o with
    | FEmplace _ | FInsert _ | FEmplaceHint _ _ | FInsertHint _ _ | FTryEmplace _ _
    | FTryEmplaceHint _ _ _ | FInsertOrAssign _ _ | FInsertOrAssignHint _ _ _ | FIndex _ => 1
    | FInsertRange vs => length vs
    | _ => 0
    end.
  Definition is_lookup (o : fop) : bool :=
    match o with
    | FFind _ | FLower _ | FUpper _ | FEqualRange _ | FCount _ | FContains _ | FSize | FAt _ => true
    | _ => false
    end.

  (** Effect of a call that returns, whatever the comparator and the order of the
      elements.  [raw]: assigning a list copies it as it is (see the refuted
      property). *)
  Definition flat_always (raw : bool) (o : fop) (l : list V) (r : frv) (l' : list V) : Prop :=
    match o with
    | FErase i => r = Pos i /\ l' = take i l ++ drop (S i) l
    | FEraseRange i j => r = Pos i /\ l' = take i l ++ drop j l
    | FEraseKey _ => (length l' <= length l)%nat
    | FEraseIf p =>
        l' = List.filter (fun v => negb (p v)) l /\ r = Num (length (List.filter p l))
    | FClear => r = One RUnit /\ l' = []
    | FSize => r = Num (length l) /\ l' = l
    | FAssignList vs =>
        r = One RUnit /\ (raw = true -> l' = vs) /\ (length l' <= length vs)%nat
    | FPut i m => r = One RUnit /\ exists v, l !! i = Some v /\ l' = <[i := entry (key v) m]> l
    | _ =>
        if is_lookup o then l' = l else (length l <= length l' <= length l + adds o)%nat
    end.

  (** Effect of a call that returns, if the comparator is a strict weak order and
      the elements are ordered (for [FAssignList]: whatever the old elements). *)
  Definition flat_sorted (c : Cmp) (raw : bool) (o : fop) (l : list V) (r : frv) (l' : list V) : Prop :=
    match o with
    | FEmplace x | FInsert x =>
        exists v i b, arg_value l x = Some v /\ inserted c v l i b l' /\ r = ins_result false i b
    | FEmplaceHint _ x | FInsertHint _ x =>
        exists v i b, arg_value l x = Some v /\ inserted c v l i b l' /\ r = ins_result true i b
    | FInsertRange vs => r = One RUnit /\ inserted_all c vs l l'
    | FAssignList vs => raw = false -> inserted_all c vs [] l'
    | FEraseKey k =>
        l' = List.filter (fun v => negb (equivb c k v)) l /\
        r = Num (length (List.filter (equivb c k) l))
    | FFind k =>
        (exists i, r = Pos i /\ found c l k i /\ forall j, found c l k j -> (i <= j)%nat) \/
        (r = Pos (length l) /\ absent c l k)
    | FLower k => exists i, r = Pos i /\ lower_pos c l k i
    | FUpper k => exists i, r = Pos i /\ upper_pos c l k i
    | FEqualRange k => exists i j, r = PosRange i j /\ lower_pos c l k i /\ upper_pos c l k j
    | FCount k => r = Num (length (List.filter (equivb c k) l))
    | FContains k => exists b, r = One (RBool b) /\ (b = true <-> exists i, found c l k i)
    | FTryEmplace k m => exists i b, inserted c (entry k m) l i b l' /\ r = PosNew i b
    | FTryEmplaceHint _ k m => exists i b, inserted c (entry k m) l i b l' /\ r = Pos i
    | FInsertOrAssign k m =>
        (exists i w, l !! i = Some w /\ equiv c (key w) k /\ l' = <[i := entry (key w) m]> l /\
                     r = PosNew i false) \/
        (exists i, inserted c (entry k m) l i true l' /\ r = PosNew i true)
    | FInsertOrAssignHint _ k m =>
        (exists i w, l !! i = Some w /\ equiv c (key w) k /\ l' = <[i := entry (key w) m]> l /\
                     r = Pos i) \/
        (exists i, inserted c (entry k m) l i true l' /\ r = Pos i)
    | FAt k => exists i w, l !! i = Some w /\ equiv c (key w) k /\ r = TheMapped (mapped w)
    | FIndex k =>
        exists i b w, inserted c (entry k mdef) l i b l' /\ l' !! i = Some w /\ r = TheMapped (mapped w)
    | FErase _ | FEraseRange _ _ | FEraseIf _ | FClear | FSize | FPut _ _ => True
    end.

  Definition replaces_all (o : fop) : Prop := match o with FAssignList _ => True | _ => False end.
  Definition flat_post (c : Cmp) (raw : bool) (o : fop) (l : list V) (r : frv) (l' : list V) : Prop :=
    flat_always raw o l r l' /\
    (strict_weak (less c) -> ordered c l \/ replaces_all o -> flat_sorted c raw o l r l').

  (** The number of elements the container must be able to hold. *)
  Definition flat_need (o : fop) (l : list V) : nat :=
    match o with FAssignList vs => length vs | _ => length l + adds o end.

  (** Insertion of one element behind all others. *)
  Definition at_end (c : Cmp) (o : fop) (l : list V) : Prop :=
    match o with
    | FEmplace x | FInsert x | FEmplaceHint _ x | FInsertHint _ x =>
        exists v, arg_value l x = Some v /\ forall j w, l !! j = Some w -> less c (key w) (key v) = true
    | FTryEmplace k _ | FTryEmplaceHint _ k _ | FInsertOrAssign k _ | FInsertOrAssignHint _ k _ | FIndex k =>
        forall j w, l !! j = Some w -> less c (key w) k = true
    | _ => False
    end.

  (** A call that throws.  [allocates]: the container has an allocator;
      [robust]: moving all elements elsewhere cannot lose any. *)
  Definition flat_exn (c : Cmp) (raw allocates robust : bool)
      (o : fop) (l : list V) (e : exn) (l' : list V) : Prop :=
    match o with
    | FErase i => length l' = length l /\ take i l' = take i l
    | FEraseRange i _ => length l' = length l /\ take i l' = take i l
    | FEraseKey _ => length l' = length l
    | FEraseIf _ => (length l' <= length l)%nat
    | FClear => False
    | FAssignList vs => if raw then length l' = length l else (length l' <= length vs)%nat
    | FPut i _ => exists v t, l !! i = Some v /\ l' = <[i := entry (key v) (mjunk t)]> l
    | _ =>
        if is_lookup o then l' = l else (length l <= length l' <= length l + adds o)%nat
    end /\
    (strict_weak (less c) -> ordered c l -> robust = true -> at_end c o l -> l' = l) /\
    match e with
    | EOutOfRange =>
        exists k, o = FAt k /\ (strict_weak (less c) -> ordered c l -> absent c l k)
    | EUser => o <> FSize
    | ELength | EBadAlloc =>
        allocates = true /\
        match o with
        | FInsertRange _ | FAssignList _ => True
        | _ => adds o = 1%nat /\ l' = l
        end
    end.

  (** Constructors: default, and from a range or list; with a comparator and (for
      the small containers) an allocator. *)
  Inductive fctor :=
    | NewEmpty (c : Cmp) (a : nat)
    | NewRange (c : Cmp) (a : nat) (vs : list V).
  Definition fc_cmp (k : fctor) : Cmp := match k with NewEmpty c _ | NewRange c _ _ => c end.
  Definition fc_alloc (k : fctor) : nat := match k with NewEmpty _ a | NewRange _ a _ => a end.
  Definition fc_vals (k : fctor) : list V := match k with NewEmpty _ _ => [] | NewRange _ _ vs => vs end.
  Definition fctor_post (k : fctor) (l : list V) : Prop :=
    (length l <= length (fc_vals k))%nat /\
    (strict_weak (less (fc_cmp k)) -> inserted_all (fc_cmp k) (fc_vals k) [] l).
End flat.
