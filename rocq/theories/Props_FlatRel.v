(** * The relational operators of the flat containers (C78)

    [eqv], [lt]: [operator==] and [operator<] of the elements; the comparator of the containers
    takes no part.  [consistent], [related o]: RelSpec.v.  [equality], [same_elements]: the
    same elements in any order (see C43). *)

From Verif Require Import FlatRel VectorDemo.
Open Scope Z_scope.

(** ** Ordered flat containers: six operators *)
Theorem C78_flat_compare : forall (E : Env) fl, sane fl ->
  forall o eqv lt x l y l' w hf,
  consistent eqv lt -> holds2 (is_flat fl) x l y l' w hf ->
  match compare_ (flat_rel fl) o eqv lt (x, y) w with
  | Ok r (x', y') w' =>
      holds2 (is_flat fl) x' l y' l' w' hf /\ exists b, r = RBool b /\ (b = true <-> related o eqv lt l l')
  | Exn e (x', y') w' => e = EUser /\ holds2 (is_flat fl) x' l y' l' w' hf
  | UB => False
  end.
Proof. exact @flat_compare. Qed.
Print Assumptions C78_flat_compare.
(** Static sets with two and three elements, small multisets inside and outside the object. *)
Example C78_flat_case : let E := calm in let KD := calm_set in
  consistent (H := E) Nat.eqb Nat.ltb /\
  (exists x y w hf xy w', holds2 (is_flat (StaticF 4)) x [1; 4]%nat y [1; 3; 5]%nat w hf /\
    compare_ (flat_rel (StaticF 4)) RGt (Nat.eqb : V -> V -> bool) Nat.ltb (x, y) w = Ok (RBool true) xy w') /\
  (exists x y w hf xy w', holds2 (is_flat (SmallF 2)) x [1; 4]%nat y [1; 4; 4]%nat w hf /\
    compare_ (flat_rel (SmallF 2)) RGe (Nat.eqb : V -> V -> bool) Nat.ltb (x, y) w = Ok (RBool false) xy w').
Proof.
  intros E KD. split; [exact nat_consistent|]. split.
  - apply (static_pair_ok (KD := KD) 4 set_ true [4; 1]%nat [5; 3; 1]%nat). vm_compute. reflexivity.
  - apply (small_pair_ok (KD := KD) 2 multiset_ true (ltac:(vm_compute; discriminate)) [4; 1]%nat [4; 1; 4]%nat). vm_compute. reflexivity.
Qed.

(** ** Unordered flat containers: [!=] *)
Theorem C78_unord_differ : forall (E : Env) fl, sane fl ->
  forall e x l y l' w hf,
  equality e -> holds2 (is_flat fl) x l y l' w hf ->
  match unord_differ fl e (x, y) w with
  | Ok r (x', y') w' =>
      holds2 (is_flat fl) x' l y' l' w' hf /\ exists b, r = RBool b /\ (b = true <-> ~ same_elements e l l')
  | Exn ex (x', y') w' => ex = EUser /\ holds2 (is_flat fl) x' l y' l' w' hf
  | UB => False
  end.
Proof. exact @unord_differ_ok. Qed.
Print Assumptions C78_unord_differ.
Example C78_unord_case : let E := calm in
  equality (Nat.eqb : V -> V -> bool) /\
  (exists x y w hf xy w', holds2 (is_flat (StaticF 4)) x [1; 4; 4]%nat y [1; 1; 4]%nat w hf /\
    unord_differ (StaticF 4) (Nat.eqb : V -> V -> bool) (x, y) w = Ok (RBool true) xy w') /\
  (exists x y w hf xy w', holds2 (is_flat (SmallF 2)) x [1; 4; 4]%nat y [1; 4; 4]%nat w hf /\
    unord_differ (SmallF 2) (Nat.eqb : V -> V -> bool) (x, y) w = Ok (RBool false) xy w').
Proof.
  intros E. split; [split_and!; intros *; rewrite ?Nat.eqb_eq; intros; try congruence|]. split.
  - apply (static_pair_ok (KD := calm_set) 4 multiset_ true [4; 1; 4]%nat [1; 4; 1]%nat). vm_compute. reflexivity.
  - apply (small_pair_ok (KD := calm_set) 2 multiset_ true (ltac:(vm_compute; discriminate)) [4; 1; 4]%nat [4; 4; 1]%nat). vm_compute. reflexivity.
Qed.
