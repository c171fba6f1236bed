(** * What insertion and erasure in the segmented containers cost

    For segmented_vector, [steps] of InsertSpec.v is the number of operations. *)

From Verif Require Export InsertSpec DevInsertSpec SegDevSpec.
Open Scope Z_scope.

Section spec.
  Context `{Env} `{SegSize}.
  (** The number of operations of segmented_devector: only the elements between the position and
      the nearer end are moved.  [n]: elements before the call; [None]: not a call of
      an insertion or erasure. *)
  Definition segd_steps (o : dop) (n : nat) : option nat :=
    match o with
    | DEmplace i _ => Some (if Nat.eqb (near i n) 0 then 1 else near i n + 2)
    | DEmplaceFront _ | DEmplaceBack _ => Some 1
    | DInsertN i k _ => Some (if Nat.eqb k 0 then 0 else k + near i n + 1)
    | DInsertRange i vs => Some (if Nat.eqb (length vs) 0 then 0 else length vs + near i n)
    | _ => dev_removes o n
    end%nat.
  (** How many elements a call adds, and at which end room is needed. *)
  Definition segd_grows (o : dop) : nat :=
    match o with
    | DEmplace _ _ | DEmplaceFront _ | DEmplaceBack _ => 1
    | DInsertN _ n _ => n
    | DInsertRange _ vs => length vs
    | _ => 0
    end%nat.
  Definition segd_room (o : dop) (A : sabs) : Z :=
    match o with
    | DEmplace i _ | DInsertN i _ _ | DInsertRange i _ =>
        if Z.of_nat i <? s_size A - Z.of_nat i then s_front A else s_cap A - s_front A - s_size A
    | DEmplaceFront _ => s_front A
    | _ => s_cap A - s_front A - s_size A
    end.

  (** Blocks allocated for [k] more elements, at most, if there is room for [room]. *)
  Definition allocs (k : Z) : Z := k / SS + 2.
  Definition extra (room k : Z) : Z := if k <=? room then 0 else allocs k.
End spec.
