(** * Specification of the functions of the unordered flat containers that take an
      argument of a type other than the key type

    These functions exist if the key equality is transparent
    ([KeyEqual::is_transparent]).  All they know of the argument is with which
    elements it compares equal: the argument [x] is the function that maps an element
    [v] to the value of [key_equal(v, x)] (for maps: with the key of [v]).  Nothing
    here mentions the code. *)

From Verif Require Export UnordSpec.
Open Scope Z_scope.

Section uhet.
  Context `{KD : Keyed}.
  Notation probe := (V -> bool).

  (** Element [i] is the first one equal to the argument; no element is. *)
  Definition first_hit (x : probe) (l : list V) (i : nat) : Prop :=
    exists w, l !! i = Some w /\ x w = true /\ forall j w', (j < i)%nat -> l !! j = Some w' -> x w' = false.
  Definition no_hit (x : probe) (l : list V) : Prop := forall j w, l !! j = Some w -> x w = false.

  (** Member functions; [v] is the element made from [x] if one is needed:
      [value_type(x)] or, for a map, the pair of [Key(x)] and the other arguments. *)
  Inductive yop :=
    | YFind (x : probe)
    | YCount (x : probe)
    | YContains (x : probe)
    | YErase (x : probe)
    (* set: insert(x), map: try_emplace(x, args...) *)
    | YInsert (x : probe) (v : V)
    | YInsertHint (h : nat) (x : probe) (v : V)
    (* map only *)
    | YAssign (x : probe) (k : Key) (m : Mapped)                (* insert_or_assign(x, obj) *)
    | YAssignHint (h : nat) (x : probe) (k : Key) (m : Mapped)
    | YAt (x : probe)
    | YIndex (x : probe) (k : Key).                             (* c[x] *)

  Definition arg_y (o : yop) : probe :=
    match o with
    | YFind x | YCount x | YContains x | YErase x | YInsert x _ | YInsertHint _ x _ | YAssign x _ _
    | YAssignHint _ x _ _ | YAt x | YIndex x _ => x
    end.
  (** The element an insertion would add. *)
  Definition new_y (o : yop) : option V :=
    match o with
    | YInsert _ v | YInsertHint _ _ v => Some v
    | YAssign _ k m | YAssignHint _ _ k m => Some (entry k m)
    | YIndex _ k => Some (entry k mdef)
    | _ => None
    end.

  Variable kd : fkind.

  (** Documented preconditions; [room]: one more element is possible. *)
  Definition uhet_pre (room : bool) (o : yop) (size : nat) : bool :=
    match o with
    | YInsert _ _ => negb (multi kd) && room
    | YInsertHint h _ _ => negb (multi kd) && room && (h <=? size)%nat
    | YAssign _ _ _ | YIndex _ _ => is_map kd && negb (multi kd) && room
    | YAssignHint h _ _ _ => is_map kd && negb (multi kd) && room && (h <=? size)%nat
    | YAt _ => is_map kd && negb (multi kd)
    | _ => true
    end.

  (** An insertion: an element equal to the argument is at [i], the elements become
      [upd i l l'], or there is none and [v] is appended. *)
  Definition yput (x : probe) (v : V) (upd : nat -> list V -> list V -> Prop)
      (l : list V) (i : nat) (b : bool) (l' : list V) : Prop :=
    if b then no_hit x l /\ i = length l /\ l' = l ++ [v]
    else first_hit x l i /\ upd i l l'.
  Definition as_was (i : nat) (l l' : list V) : Prop := l' = l.
  Definition mapped_set (d : Mapped) (i : nat) (l l' : list V) : Prop :=
    exists w, l !! i = Some w /\ l' = <[i := entry (key w) d]> l.

  (** A call that returns. *)
  Definition uhet_post (o : yop) (l : list V) (r : frv) (l' : list V) : Prop :=
    match o with
    | YFind x =>
        l' = l /\ ((exists i, first_hit x l i /\ r = Pos i) \/ (no_hit x l /\ r = Pos (length l)))
    | YCount x =>
        l' = l /\ r = Num (if multi kd then length (List.filter x l) else if existsb x l then 1 else 0)
    | YContains x => l' = l /\ r = One (RBool (existsb x l))
    | YErase x =>
        if multi kd then
          Permutation (List.filter (fun v => negb (x v)) l) l' /\ r = Num (length (List.filter x l))
        else
          (no_hit x l /\ r = Num 0 /\ l' = l) \/
          (exists i, first_hit x l i /\ r = Num 1 /\ erased_at i l l')
    | YInsert x v => exists i b, yput x v as_was l i b l' /\ r = PosNew i b
    | YInsertHint _ x v => exists i b, yput x v as_was l i b l' /\ r = Pos i
    | YAssign x k d => exists i b, yput x (entry k d) (mapped_set d) l i b l' /\ r = PosNew i b
    | YAssignHint _ x k d => exists i b, yput x (entry k d) (mapped_set d) l i b l' /\ r = Pos i
    | YAt x => l' = l /\ exists i w, first_hit x l i /\ l !! i = Some w /\ r = TheMapped (mapped w)
    | YIndex x k =>
        exists i b w, yput x (entry k mdef) as_was l i b l' /\ l' !! i = Some w /\ r = TheMapped (mapped w)
    end.

  (** A call that throws.  [allocates]: the container has an allocator; [robust]:
      moving all elements elsewhere cannot lose any. *)
  Definition uhet_exn (allocates robust : bool) (o : yop) (l : list V) (e : exn) (l' : list V) : Prop :=
    match o with
    | YErase _ => (length l' <= length l)%nat
    | YInsert _ _ | YInsertHint _ _ _ | YIndex _ _ => length l' = length l /\ (robust = true -> l' = l)
    | YAssign x _ _ | YAssignHint _ x _ _ =>
        length l' = length l /\
        (robust = true ->
         l' = l \/ exists i w t, first_hit x l i /\ l !! i = Some w /\ l' = <[i := entry (key w) (mjunk t)]> l)
    | _ => l' = l
    end /\
    match e with
    | EUser => True
    | EOutOfRange => exists x, o = YAt x /\ no_hit x l
    | ELength | EBadAlloc => allocates = true /\ l' = l /\ new_y o <> None
    end.
End uhet.
