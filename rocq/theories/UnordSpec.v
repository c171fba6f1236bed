(** * Specification of the unordered flat containers

    sfl::static_unordered_flat_set / small_unordered_flat_set, ..._map,
    ..._multiset, ..._multimap in terms of lists, of the key equality and of
    permutations.  Nothing here mentions the code. *)

From Coq Require Export Permutation.
From Verif Require Export FlatSpec.
Open Scope Z_scope.

Section unord.
  Context `{Keyed}.

  (** The class [Keyed] is shared with the ordered containers.  The function object
      stored in the container is here the key equality; [same c] is what it
      computes. *)
  Definition same (c : Cmp) (x y : Key) : bool := less c x y.

  (** What C++ demands of a key equality. *)
  Definition self_equal (c : Cmp) : Prop := forall x, same c x x = true.
  Definition equality_ok (c : Cmp) : Prop :=
    self_equal c /\
    (forall x y, same c x y = true -> same c y x = true) /\
    (forall x y z, same c x y = true -> same c y z = true -> same c x z = true).

  (** Does [v] have the key [k]? *)
  Definition has (c : Cmp) (k : Key) (v : V) : bool := same c (key v) k.
  Definition lacks (c : Cmp) (k : Key) (v : V) : bool := negb (has c k v).
  (** Element [i] is the first one with the key [k]. *)
  Definition first_at (c : Cmp) (l : list V) (k : Key) (i : nat) : Prop :=
    exists w, l !! i = Some w /\ has c k w = true /\
      forall j w', (j < i)%nat -> l !! j = Some w' -> has c k w' = false.
  Definition missing (c : Cmp) (l : list V) (k : Key) : Prop :=
    forall i w, l !! i = Some w -> has c k w = false.
  (** No key occurs twice. *)
  Definition distinct (c : Cmp) (l : list V) : Prop :=
    forall i j x y, i <> j -> l !! i = Some x -> l !! j = Some y -> same c (key x) (key y) = false.

  (** Two lists with the same elements up to order and the equality [eqv] of
      elements. *)
  Definition same_elements (eqv : V -> V -> bool) (l l' : list V) : Prop :=
    exists l2, Permutation l l2 /\ Forall2 (fun x y => eqv x y = true) l2 l'.

  (** Member functions.  Positions and hints are given by their distance from
      begin(). *)
  Inductive uop :=
    | UEmplace (x : xarg)                  (* emplace(args...) *)
    | UInsert (x : xarg)                   (* insert(value) *)
    | UEmplaceHint (h : nat) (x : xarg)    (* emplace_hint(hint, args...) *)
    | UInsertHint (h : nat) (x : xarg)     (* insert(hint, value) *)
    | UInsertRange (vs : list V)           (* insert(first, last), insert(ilist) *)
    | UAssignList (vs : list V)            (* c = ilist *)
    | UErase (i : nat)
    | UEraseRange (i j : nat)
    | UEraseKey (k : Key)                  (* erase(k), k outside of the container *)
    | UEraseKeyOf (i : nat)                (* erase(key of begin()[i]), by reference *)
    | UEraseIf (p : V -> bool)             (* sfl::erase_if(c, p) *)
    | UClear
    | UFind (k : Key)
    | UCount (k : Key)
    | UContains (k : Key)
    | USize
    (* map only *)
    | UTryEmplace (k : Key) (m : Mapped)
    | UTryEmplaceHint (h : nat) (k : Key) (m : Mapped)
    | UInsertOrAssign (k : Key) (m : Mapped)
    | UInsertOrAssignHint (h : nat) (k : Key) (m : Mapped)
    | UAt (k : Key)
    | UIndex (k : Key)                     (* c[k] *)
    (* map and multimap *)
    | UPut (i : nat) (m : Mapped).         (* (begin() + i)->second = m *)

  Variable kd : fkind.
  (** Assigning a list copies it as it is (see the refuted property). *)
  Variable raw : bool.
  (** [emplace] appends the element before it looks for its key. *)
  Variable eager : bool.

  (** [l'] is [l] after inserting [v]; [i], [b]: the position of the new or the
      already present element and whether [v] was inserted. *)
  Definition uinserted (c : Cmp) (v : V) (l : list V) (i : nat) (b : bool) (l' : list V) : Prop :=
    (multi kd = false /\ b = false /\ first_at c l (key v) i /\ l' = l) \/
    ((multi kd = false -> missing c l (key v)) /\ b = true /\ i = length l /\ l' = l ++ [v]).
  Fixpoint uinserted_all (c : Cmp) (vs : list V) (l l' : list V) : Prop :=
    match vs with
    | [] => l' = l
    | v :: vs' => exists i b l1, uinserted c v l i b l1 /\ uinserted_all c vs' l1 l'
    end.

  (** The last element takes the place of element [i]. *)
  Definition erased_at (i : nat) (l l' : list V) : Prop :=
    exists a x b, l = a ++ x :: b /\ length a = i /\
      ((b = [] /\ l' = a) \/ (exists b' y, b = b' ++ [y] /\ l' = a ++ y :: b')).
  (** As many of the last elements as needed take the places of the elements [i],
      ..., [j - 1]. *)
  Definition erased_range (i j : nat) (l l' : list V) : Prop :=
    exists a x b, l = a ++ x ++ b /\ length a = i /\ (i + length x)%nat = j /\
      ((length b <= length x)%nat /\ l' = a ++ b \/
       (exists b1 b2, b = b1 ++ b2 /\ length b2 = length x /\ l' = a ++ b2 ++ b1)).
  (** [erase(key)]: all elements with the key, for the unique containers the first
      one. *)
  Definition erased_key (c : Cmp) (k : Key) (l : list V) (r : frv) (l' : list V) : Prop :=
    if multi kd then
      Permutation (List.filter (lacks c k) l) l' /\ r = Num (length (List.filter (has c k) l))
    else
      (missing c l k /\ r = Num 0 /\ l' = l) \/
      (exists i, first_at c l k i /\ r = Num 1 /\ erased_at i l l').

  (** Documented preconditions for a container of the given size; [room n]: the
      container can take [n] more elements. *)
  Definition unord_pre (room : nat -> bool) (whole : nat -> bool) (o : uop) (size : nat) : bool :=
    match o with
    | UEmplace x => fx_ok size x && room 1%nat
    | UInsert x => fi_ok size x && room 1%nat
    | UEmplaceHint h x => fx_ok size x && (h <=? size)%nat && room 1%nat
    | UInsertHint h x => fi_ok size x && (h <=? size)%nat && room 1%nat
    | UInsertRange vs => room (length vs)
    | UAssignList vs => whole (length vs)
    | UErase i => (i <? size)%nat
    | UEraseRange i j => (i <=? j)%nat && (j <=? size)%nat
    | UEraseKeyOf i => negb (multi kd) && (i <? size)%nat
    | UTryEmplace _ _ | UInsertOrAssign _ _ | UIndex _ => is_map kd && negb (multi kd) && room 1%nat
    | UTryEmplaceHint h _ _ | UInsertOrAssignHint h _ _ =>
        is_map kd && negb (multi kd) && (h <=? size)%nat && room 1%nat
    | UAt _ => is_map kd && negb (multi kd)
    | UPut i _ => is_map kd && (i <? size)%nat
    | _ => true
    end.

  (** Elements an operation may add. *)
  Definition uadds (o : uop) : nat :=
    match o with
    | UEmplace _ | UInsert _ | UEmplaceHint _ _ | UInsertHint _ _ | UTryEmplace _ _
    | UTryEmplaceHint _ _ _ | UInsertOrAssign _ _ | UInsertOrAssignHint _ _ _ | UIndex _ => 1
    | UInsertRange vs => length vs
    | _ => 0
    end.
  Definition u_lookup (o : uop) : bool :=
    match o with UFind _ | UCount _ | UContains _ | USize | UAt _ => true | _ => false end.
  (** The number of elements the container must be able to hold. *)
  Definition unord_need (o : uop) (l : list V) : nat :=
    match o with UAssignList vs => length vs | _ => length l + uadds o end.

  (** Result and effect of inserting the value of an argument. *)
  Definition insert_post (c : Cmp) (hinted : bool) (x : xarg) (l : list V) (r : frv) (l' : list V) : Prop :=
    exists v i b, arg_value l x = Some v /\ uinserted c v l i b l' /\ r = ins_result kd hinted i b.

  (** Effect of a call that returns.  An eager [emplace] looks for the key of the new
      element itself, so keys must equal themselves. *)
  Definition unord_post (c : Cmp) (o : uop) (l : list V) (r : frv) (l' : list V) : Prop :=
    match o with
    | UEmplace x =>
        (length l <= length l' <= S (length l))%nat /\
        ((eager = true -> multi kd = false -> self_equal c) -> insert_post c false x l r l')
    | UEmplaceHint _ x =>
        (length l <= length l' <= S (length l))%nat /\
        ((eager = true -> multi kd = false -> self_equal c) -> insert_post c true x l r l')
    | UInsert x => insert_post c false x l r l'
    | UInsertHint _ x => insert_post c true x l r l'
    | UInsertRange vs => r = One RUnit /\ uinserted_all c vs l l'
    | UAssignList vs => r = One RUnit /\ if raw then l' = vs else uinserted_all c vs [] l'
    | UErase i => r = Pos i /\ erased_at i l l'
    | UEraseRange i j => r = Pos i /\ erased_range i j l l'
    | UEraseKey k => erased_key c k l r l'
    | UEraseKeyOf i => exists w, l !! i = Some w /\ erased_key c (key w) l r l'
    | UEraseIf p =>
        Permutation (List.filter (fun v => negb (p v)) l) l' /\ r = Num (length (List.filter p l))
    | UClear => r = One RUnit /\ l' = []
    | UFind k =>
        l' = l /\
        ((exists i, first_at c l k i /\ r = Pos i) \/ (missing c l k /\ r = Pos (length l)))
    | UCount k =>
        l' = l /\
        r = Num (if multi kd then length (List.filter (has c k) l) else if existsb (has c k) l then 1 else 0)
    | UContains k => l' = l /\ r = One (RBool (existsb (has c k) l))
    | USize => l' = l /\ r = Num (length l)
    | UTryEmplace k m => exists i b, uinserted c (entry k m) l i b l' /\ r = PosNew i b
    | UTryEmplaceHint _ k m => exists i b, uinserted c (entry k m) l i b l' /\ r = Pos i
    | UInsertOrAssign k m =>
        (exists i w, l !! i = Some w /\ first_at c l k i /\ l' = <[i := entry (key w) m]> l /\
                     r = PosNew i false) \/
        (missing c l k /\ l' = l ++ [entry k m] /\ r = PosNew (length l) true)
    | UInsertOrAssignHint _ k m =>
        (exists i w, l !! i = Some w /\ first_at c l k i /\ l' = <[i := entry (key w) m]> l /\
                     r = Pos i) \/
        (missing c l k /\ l' = l ++ [entry k m] /\ r = Pos (length l))
    | UAt k => l' = l /\ exists i w, l !! i = Some w /\ first_at c l k i /\ r = TheMapped (mapped w)
    | UIndex k =>
        exists i b w, uinserted c (entry k mdef) l i b l' /\ l' !! i = Some w /\ r = TheMapped (mapped w)
    | UPut i m => r = One RUnit /\ exists v, l !! i = Some v /\ l' = <[i := entry (key v) m]> l
    end.

  (** A call that throws.  [allocates]: the container has an allocator;
      [robust]: moving all elements elsewhere cannot lose any. *)
  Definition unord_exn (c : Cmp) (allocates robust : bool)
      (o : uop) (l : list V) (e : exn) (l' : list V) : Prop :=
    match o with
    | UEmplace x | UEmplaceHint _ x =>
        (length l <= length l' <= S (length l))%nat /\
        (robust = true ->
         l' = l \/ (eager = true /\ multi kd = false /\ exists v, arg_value l x = Some v /\ l' = l ++ [v]))
    | UInsert _ | UInsertHint _ _ | UTryEmplace _ _ | UTryEmplaceHint _ _ _ | UIndex _ =>
        length l' = length l /\ (robust = true -> l' = l)
    | UInsertOrAssign k _ | UInsertOrAssignHint _ k _ =>
        length l' = length l /\
        (robust = true ->
         l' = l \/ exists i w t, first_at c l k i /\ l !! i = Some w /\ l' = <[i := entry (key w) (mjunk t)]> l)
    | UInsertRange vs =>
        (length l <= length l' <= length l + length vs)%nat /\
        (robust = true -> exists n, uinserted_all c (take n vs) l l')
    | UAssignList vs =>
        if raw then length l' = length l
        else (length l' <= length vs)%nat /\ (robust = true -> exists n, uinserted_all c (take n vs) [] l')
    | UErase i =>
        length l' = length l /\ forall j, j <> i -> S j <> length l -> l' !! j = l !! j
    | UEraseRange i _ => length l' = length l /\ take i l' = take i l
    | UEraseKey _ | UEraseKeyOf _ | UEraseIf _ => (length l' <= length l)%nat
    | UClear => False
    | UPut i _ => exists v t, l !! i = Some v /\ l' = <[i := entry (key v) (mjunk t)]> l
    | UFind _ | UCount _ | UContains _ | USize | UAt _ => l' = l
    end /\
    match e with
    | EOutOfRange => exists k, o = UAt k /\ missing c l k
    | EUser => o <> USize
    | ELength | EBadAlloc =>
        allocates = true /\
        match o with
        | UInsertRange _ | UAssignList _ => True
        | _ => uadds o = 1%nat /\ l' = l
        end
    end.

  (** Constructors are those of the ordered containers: from a range or list. *)
  Definition uctor_post (k : fctor) (l : list V) : Prop :=
    (length l <= length (fc_vals k))%nat /\
    ((eager = true -> multi kd = false -> self_equal (fc_cmp k)) ->
     uinserted_all (fc_cmp k) (fc_vals k) [] l).
End unord.
