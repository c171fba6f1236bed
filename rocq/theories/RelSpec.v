(** * What the six relational operators mean *)

From Verif Require Export SeqSpec.

Inductive relop := REq | RNe | RLt | RGt | RLe | RGe.

Section spec.
  Context `{Env}.
  (** [eqv] and [lt] are [operator==] and [operator<] of the elements: less in one direction
      at most, and equal exactly if less in neither. *)
  Definition consistent (eqv lt : V -> V -> bool) : Prop :=
    (forall x y, lt x y = true -> lt y x = false) /\
    (forall x y, eqv x y = true <-> lt x y = false /\ lt y x = false).
  Definition transitive_lt (lt : V -> V -> bool) : Prop :=
    (forall x y z, lt x y = true -> lt y z = true -> lt x z = true) /\
    (forall x y z, lt x y = false -> lt y x = false -> lt y z = false -> lt z y = false -> lt x z = false /\ lt z x = false).
  Definition same_elems (eqv : V -> V -> bool) (l1 l2 : list V) : Prop := Forall2 (fun x y => eqv x y = true) l1 l2.
  Definition related (o : relop) (eqv lt : V -> V -> bool) (l1 l2 : list V) : Prop :=
    match o with
    | REq => same_elems eqv l1 l2
    | RNe => ~ same_elems eqv l1 l2
    | RLt => lexicographic lt l1 l2
    | RGt => lexicographic lt l2 l1
    | RLe => lexicographic lt l1 l2 \/ same_elems eqv l1 l2
    | RGe => lexicographic lt l2 l1 \/ same_elems eqv l1 l2
    end.
End spec.
