(** * What insertion and erasure in sfl::devector cost *)

From Verif Require Export DevSpec.
Open Scope Z_scope.

Section spec.
  Context `{Env}.
  (** Where a call inserts and how many elements; [size]: elements before the call.
      [None]: not an insertion, or one from input iterators. *)
  Definition dev_inserts (o : dop) (size : nat) : option (nat * nat) :=
    match o with
    | DEmplace i _ => Some (i, 1%nat)
    | DEmplaceFront _ => Some (0%nat, 1%nat)
    | DEmplaceBack _ => Some (size, 1%nat)
    | DInsertN i n _ => Some (i, n)
    | DInsertRange i vs => Some (i, length vs)
    | _ => None
    end.
  (** The end at which room for the new elements is needed: the nearer one. *)
  Definition front_side (o : dop) (g : geom) : bool :=
    match o with
    | DEmplace i _ => emplace_front_side i g
    | DEmplaceFront _ => true
    | DInsertN i _ _ | DInsertRange i _ => near_front i g
    | _ => false
    end.
  Definition near_room (o : dop) (g : geom) : Z := if front_side o g then g_front g else g_back g.
  (** The number of elements between the position and the nearer end. *)
  Definition near (i size : nat) : nat := Nat.min i (size - i).

  (** What a removal costs. *)
  Definition dev_removes (o : dop) (size : nat) : option nat :=
    match o with
    | DPopFront | DPopBack | DClear => Some 0%nat
    | DErase i => Some (Nat.min i (size - S i))
    | DEraseRange i j => Some (if Nat.eqb i j then 0%nat else Nat.min i (size - j))
    | _ => None
    end.
End spec.
