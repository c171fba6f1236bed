(** * Cost of the relational operators of the ordered flat containers (C80)

    [compare_most]: see Props_RelCost.v. *)

From Verif Require Import FlatRelCost VectorDemo.
Open Scope Z_scope.

Theorem C80_flat_compare_cost : forall (E : Env) fl o eqv lt x l y l' w hf,
  holds2 (is_flat fl) x l y l' w hf ->
  match compare_ (flat_rel fl) o eqv lt (x, y) w with
  | Ok _ _ w' | Exn _ _ w' => (tick w' <= tick w + compare_most o (length l) (length l'))%nat
  | UB => True
  end.
Proof. exact @flat_compare_cost. Qed.
Print Assumptions C80_flat_compare_cost.
Example C80_flat_case : let E := calm in let KD := calm_set in
  compare_most RLe 2 3 = 4%nat /\
  (exists x y w hf xy w', holds2 (is_flat (StaticF 4)) x [1; 4]%nat y [1; 3; 5]%nat w hf /\
    compare_ (flat_rel (StaticF 4)) RLe (Nat.eqb : V -> V -> bool) Nat.ltb (x, y) w = Ok (RBool false) xy w') /\
  (exists x y w hf xy w', holds2 (is_flat (SmallF 2)) x [1; 4]%nat y [1; 4; 4]%nat w hf /\
    compare_ (flat_rel (SmallF 2)) RNe (Nat.eqb : V -> V -> bool) Nat.ltb (x, y) w = Ok (RBool true) xy w').
Proof.
  intros E KD. split; [reflexivity|]. split.
  - apply (static_pair_ok (KD := KD) 4 set_ true [4; 1]%nat [5; 3; 1]%nat). vm_compute. reflexivity.
  - apply (small_pair_ok (KD := KD) 2 multiset_ true (ltac:(vm_compute; discriminate)) [4; 1]%nat [4; 1; 4]%nat). vm_compute. reflexivity.
Qed.
