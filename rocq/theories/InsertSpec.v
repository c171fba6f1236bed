(** * What insertion and erasure in vector, small_vector and static_vector cost *)

From Verif Require Export SeqSpec.

Section spec.
  Context `{Env}.
  (** How many elements a call adds. *)
  Definition grows (o : vop) : nat :=
    match o with
    | OEmplace _ _ | OEmplaceBack _ => 1
    | OInsertN _ n _ => n
    | OInsertRange _ vs | OInsertInput _ vs => length vs
    | _ => 0
    end.
  (** The number of operations if no reallocation is necessary; [n]: elements before the
      call.  The documentation
      promises a cost linear in the number of elements inserted plus linear in
      the distance from the position to the end.  [None]: not a call of an insertion
      or erasure. *)
  Definition steps (o : vop) (n : nat) : option nat :=
    match o with
    | OEmplace i _ => Some (if Nat.eqb i n then 1 else n - i + 2)
    | OEmplaceBack _ => Some 1
    | OInsertN i k _ => Some (if Nat.eqb k 0 then 0 else k + (n - i) + 1)
    | OInsertRange i vs => Some (if Nat.eqb (length vs) 0 then 0 else length vs + (n - i))
    | OInsertInput i vs => Some (if Nat.eqb i n then length vs else length vs * (n - i + 2))
    | OPopBack | OClear => Some 0
    | OErase i => Some (n - S i)
    | OEraseRange i j => Some (if Nat.eqb i j then 0 else n - j)
    | _ => None
    end%nat.

  (** insert(pos, first, last) with input iterators. *)
  Definition input_op (o : vop) : bool := match o with OInsertInput _ _ => true | _ => false end.
End spec.
