(** * What changing the size or the capacity costs *)

From Coq Require Import ZArith.
From Verif Require Export SeqSpec DevSpec.
Open Scope Z_scope.

Section spec.
  Context `{Env}.
  (** [resize], [reserve], [shrink_to_fit] with [s] elements and capacity [cap]: the number of
      elements constructed, copied or moved ... *)
  Definition resize_steps (o : vop) (s : nat) (cap : Z) : option nat :=
    match o with
    | OResize n _ => Some (if Nat.leb n s then 0 else if (Z.of_nat n <=? cap)%Z then n - s else n)%nat
    | OReserve n => Some (if (Z.of_nat n <=? cap)%Z then 0%nat else s)
    | OShrink => Some (if (Z.of_nat s <? cap)%Z then s else 0%nat)
    | _ => None
    end.
  (** ... and whether the storage is replaced. *)
  Definition replaces (o : vop) (s : nat) (cap : Z) : nat :=
    match o with
    | OResize n _ | OReserve n => if (Z.of_nat n <=? cap)%Z then 0%nat else 1%nat
    | OShrink => if (Z.of_nat s <? cap)%Z then 1%nat else 0%nat
    | _ => 0%nat
    end.
  (** The same for a devector with [front] free places before the elements and [cap] places.
      Operations and allocations together. *)
  Definition dev_resize_cost (o : dop) (s : nat) (front cap : Z) : option nat :=
    let grow n room := ((n - s) + if (Z.of_nat n <=? room)%Z then 0 else s + 1)%nat in
    match o with
    | DResize n _ => Some (if Nat.leb n s then 0%nat else grow n cap)
    | DResizeFront n _ => Some (if Nat.leb n s then 0%nat else grow n (front + Z.of_nat s))
    | DResizeBack n _ => Some (if Nat.leb n s then 0%nat else grow n (cap - front))
    | DReserveFront n => Some (if (Z.of_nat n <=? front + Z.of_nat s)%Z then 0 else s + 1)%nat
    | DReserveBack n => Some (if (Z.of_nat n <=? cap - front)%Z then 0 else s + 1)%nat
    | DShrink => Some (if (Z.of_nat s <? cap)%Z then (if Nat.eqb s 0 then 0 else s + 1) else 0)%nat
    | _ => None
    end.
End spec.
