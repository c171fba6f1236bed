(** * Specification of the functions of the ordered flat containers that take an
      argument of a type other than the key type

    These functions exist if the comparator is transparent ([Compare::is_transparent]).
    All they know of the argument is how it compares with the elements.  Nothing
    here mentions the code. *)

From Verif Require Export FlatSpec.
Open Scope Z_scope.

Section het.
  Context `{KD : Keyed}.

  (** An argument [x]: [before x v] is the value of [comp(v, x)], [behind x v] that
      of [comp(x, v)] (for maps: with the key of the element [v]). *)
  Record probe := Probe { before : V -> bool; behind : V -> bool }.

  (** [x] splits the elements into those before [x] (the first [m]), those
      equivalent to [x] (up to position [n]) and those behind. *)
  Definition splits (x : probe) (l : list V) (m n : nat) : Prop :=
    (m <= n <= length l)%nat /\
    forall j w, l !! j = Some w ->
      (before x w = true <-> (j < m)%nat) /\ (behind x w = false <-> (j < n)%nat).
  (** [x] compares with the elements as the key [k] does. *)
  Definition stands_for (c : Cmp) (x : probe) (k : Key) (l : list V) : Prop :=
    forall w, w ∈ l -> before x w = less c (key w) k /\ behind x w = less c k (key w).

  (** Member functions; [v] is the element made from [x] if one is needed:
      [value_type(x)] or, for a map, the pair of [Key(x)] and the other arguments. *)
  Inductive hop :=
    | HLower (x : probe)
    | HUpper (x : probe)
    | HEqualRange (x : probe)
    | HFind (x : probe)
    | HCount (x : probe)
    | HContains (x : probe)
    | HErase (x : probe)
    (* set: insert(x), map: try_emplace(x, args...) *)
    | HInsert (x : probe) (v : V)
    | HInsertHint (h : nat) (x : probe) (v : V)
    (* map only *)
    | HAssign (x : probe) (k : Key) (m : Mapped)                (* insert_or_assign(x, obj) *)
    | HAssignHint (h : nat) (x : probe) (k : Key) (m : Mapped)
    | HAt (x : probe)
    | HIndex (x : probe) (k : Key).                             (* c[x] *)

  Definition probe_of (o : hop) : probe :=
    match o with
    | HLower x | HUpper x | HEqualRange x | HFind x | HCount x | HContains x | HErase x
    | HInsert x _ | HInsertHint _ x _ | HAssign x _ _ | HAssignHint _ x _ _ | HAt x | HIndex x _ => x
    end.
  (** The element an insertion would add. *)
  Definition new_elem (o : hop) : option V :=
    match o with
    | HInsert _ v | HInsertHint _ _ v => Some v
    | HAssign _ k m | HAssignHint _ _ k m => Some (entry k m)
    | HIndex _ k => Some (entry k mdef)
    | _ => None
    end.

  Variable kd : fkind.

  (** Documented preconditions; [room]: one more element is possible. *)
  Definition het_pre (room : bool) (o : hop) (size : nat) : bool :=
    match o with
    | HInsert _ _ => negb (multi kd) && room
    | HInsertHint h _ _ => negb (multi kd) && room && (h <=? size)%nat
    | HAssign _ _ _ | HIndex _ _ => is_map kd && negb (multi kd) && room
    | HAssignHint h _ _ _ => is_map kd && negb (multi kd) && room && (h <=? size)%nat
    | HAt _ => is_map kd && negb (multi kd)
    | _ => true
    end.

  (** A call that returns, whatever the comparator computes. *)
  Definition het_always (o : hop) (l l' : list V) : Prop :=
    match new_elem o with
    | Some _ => (length l <= length l' <= S (length l))%nat
    | None => match o with HErase _ => (length l' <= length l)%nat | _ => l' = l end
    end.

  (** A call that returns, if [m] elements are before the argument and [n - m] are
      equivalent to it. *)
  Definition put_at (i : nat) (v : V) (l : list V) : list V := take i l ++ v :: drop i l.
  Definition het_result (o : hop) (m n : nat) (l : list V) (r : frv) (l' : list V) : Prop :=
    match o with
    | HLower _ => r = Pos m
    | HUpper _ => r = Pos n
    | HEqualRange _ => r = PosRange m n
    | HFind _ => r = Pos (if (m <? n)%nat then m else length l)
    | HContains _ => r = One (RBool (m <? n)%nat)
    | HCount _ => r = Num (if multi kd then (n - m)%nat else if (m <? n)%nat then 1%nat else 0%nat)
    | HErase _ =>
        if multi kd then l' = take m l ++ drop n l /\ r = Num (n - m)
        else if (m <? n)%nat then l' = take m l ++ drop (S m) l /\ r = Num 1
        else l' = l /\ r = Num 0
    | HInsert _ v =>
        if (m <? n)%nat then l' = l /\ r = PosNew m false else l' = put_at m v l /\ r = PosNew m true
    | HInsertHint _ _ v => r = Pos m /\ l' = if (m <? n)%nat then l else put_at m v l
    | HAssign _ k d =>
        if (m <? n)%nat
        then exists w, l !! m = Some w /\ l' = <[m := entry (key w) d]> l /\ r = PosNew m false
        else l' = put_at m (entry k d) l /\ r = PosNew m true
    | HAssignHint _ _ k d =>
        r = Pos m /\
        if (m <? n)%nat
        then exists w, l !! m = Some w /\ l' = <[m := entry (key w) d]> l
        else l' = put_at m (entry k d) l
    | HAt _ => exists w, (m < n)%nat /\ l !! m = Some w /\ r = TheMapped (mapped w)
    | HIndex _ k =>
        if (m <? n)%nat then l' = l /\ exists w, l !! m = Some w /\ r = TheMapped (mapped w)
        else l' = put_at m (entry k mdef) l /\ r = TheMapped mdef
    end.
  Definition het_post (o : hop) (l : list V) (r : frv) (l' : list V) : Prop :=
    het_always o l l' /\ forall m n, splits (probe_of o) l m n -> het_result o m n l r l'.

  (** A call that throws.  [allocates]: the container has an allocator; [robust]:
      moving all elements elsewhere cannot lose any. *)
  Definition het_exn (allocates robust : bool) (o : hop) (l : list V) (e : exn) (l' : list V) : Prop :=
    match new_elem o with
    | Some _ =>
        (length l <= length l' <= S (length l))%nat /\
        (robust = true -> splits (probe_of o) l (length l) (length l) -> l' = l)
    | None => length l' = length l /\ match o with HErase _ => True | _ => l' = l end
    end /\
    match e with
    | EUser => True
    | EOutOfRange => exists x, o = HAt x /\ forall m n, splits x l m n -> m = n
    | ELength | EBadAlloc => allocates = true /\ l' = l /\ new_elem o <> None
    end.
End het.
