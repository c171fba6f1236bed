(** * Cost of [swap] (C77)

    [tick w] counts the operations of the element type and the allocations performed so far.
    [w' = w]: nothing at all happened to memory, no element was touched, and the allocator
    was not called.  [swap_steps] (SwapCost.v): three operations for each pair of elements
    stored inside both objects, one for each element that moves to the other object. *)

From Verif Require Import VectorDemo AssignMore SwapCost.
Open Scope Z_scope.

Theorem C77_vector_swap_cost : forall (E : Env) x y w r xy w', vec_run2 PSwap (x, y) w = Ok r xy w' -> w' = w.
Proof. exact @vec_swap_cost. Qed.
Print Assumptions C77_vector_swap_cost.
Example C77_vector_case : let E := calm in
  let A := VAbs 7 (2, 0) [5]%nat 1 in let B := VAbs 7 (1, 0) [10; 20; 30]%nat 3 in
  exists x y w hf x' y' w', holds2 is_vec x A y B w hf /\ vec_run2 PSwap (x, y) w = Ok RUnit (x', y') w'.
Proof.
  intros E A B.
  apply (vec_case2_ok (E := E) [@New E vector 1 (@KRange E 7 [10; 20; 30]%nat); @New E vector 0 (@KRange E 7 [5]%nat)] 0 1); [done|vm_compute; reflexivity].
Qed.
Theorem C77_compact_vector_swap_cost : forall (E : Env) x y w r xy w',
  compact_run2 code_undo PSwap (x, y) w = Ok r xy w' -> w' = w.
Proof. exact @compact_swap_cost. Qed.
Print Assumptions C77_compact_vector_swap_cost.
Example C77_compact_case : let E := calm in
  let A := VAbs 7 (2, 0) [5]%nat 1 in let B := VAbs 7 (1, 0) [10; 20; 30]%nat 3 in
  exists x y w hf x' y' w', holds2 is_compact x A y B w hf /\ compact_run2 code_undo PSwap (x, y) w = Ok RUnit (x', y') w'.
Proof.
  intros E A B.
  apply (compact_case2_ok (E := E) [@New E (compact_vector code_undo false) 1 (@KRange E 7 [10; 20; 30]%nat);
    @New E (compact_vector code_undo false) 0 (@KRange E 7 [5]%nat)] 0 1); [done|vm_compute; reflexivity].
Qed.
Theorem C77_devector_swap_cost : forall (E : Env) x y w r xy w', dv_run2 false PSwap (x, y) w = Ok r xy w' -> w' = w.
Proof. exact @dev_swap_cost. Qed.
Print Assumptions C77_devector_swap_cost.
Example C77_dev_case : let E := calm in
  let A := DAbs 7 (2, 0) 0 [5]%nat 1 in let B := DAbs 7 (1, 0) 0 [10; 20; 30]%nat 3 in
  exists x y w hf x' y' w', holds2 is_dev x A y B w hf /\ dv_run2 false PSwap (x, y) w = Ok RUnit (x', y') w'.
Proof.
  intros E A B.
  apply (dev_case2_ok (E := E) [@New E (devector false) 1 (@KRange E 7 [10; 20; 30]%nat); @New E (devector false) 0 (@KRange E 7 [5]%nat)] 0 1); [done|vm_compute; reflexivity].
Qed.

(** sfl::static_vector: linear. *)
Theorem C77_static_vector_swap_cost : forall (E : Env) N x (A : tabs) y (B : tabs) w hf r xy w',
  holds2 (is_static N) x A y B w hf -> static_run2 N PSwap (x, y) w = Ok r xy w' ->
  tick w' = (tick w + swap_steps true true (length A.2) (length B.2))%nat.
Proof. exact @static_swap_cost. Qed.
Print Assumptions C77_static_vector_swap_cost.
Example C77_static_case : let E := calm in
  swap_steps true true 1 3 = 5%nat /\
  exists x A y B w hf x' y' w', holds2 (is_static 4) x A y B w hf /\ length A.2 = 1%nat /\ length B.2 = 3%nat /\
    static_run2 4 PSwap (x, y) w = Ok RUnit (x', y') w'.
Proof.
  intros E. split; [reflexivity|].
  edestruct (static_case2_ok (E := E) 4 [@New E (static_vector 4) 0 (@TRange E [5]%nat); @New E (static_vector 4) 1 (@TRange E [10; 20; 30]%nat)] 0 1 (static_run2 4 PSwap))
    as (x & y & w & hf & x' & y' & w' & Hxy & Hr); [done|vm_compute; reflexivity|].
  do 4 eexists. do 5 eexists. split; [exact Hxy|]. split; [reflexivity|]. split; [reflexivity|exact Hr].
Qed.
(** sfl::small_vector: constant if the elements of both are in blocks of their own. *)
Theorem C77_small_vector_swap_cost : forall (E : Env) N x (A : SmallSpec.sabs) y (B : SmallSpec.sabs) w hf r xy w',
  holds2 (is_small N) x A y B w hf -> small_run2 N PSwap (x, y) w = Ok r xy w' ->
  tick w' = (tick w + swap_steps (loc_eqb (q_data A.2) A.1) (loc_eqb (q_data B.2) B.1)
                        (length (q_elems A.2)) (length (q_elems B.2)))%nat.
Proof. exact @small_swap_cost. Qed.
Print Assumptions C77_small_vector_swap_cost.
(** One has its element inside, the other does not. *)
Example C77_small_case : let E := calm in
  swap_steps true false 1 4 = 1%nat /\
  exists x A y B w hf x' y' w', holds2 (is_small 3) x A y B w hf /\
    loc_eqb (q_data A.2) A.1 = true /\ loc_eqb (q_data B.2) B.1 = false /\
    small_run2 3 PSwap (x, y) w = Ok RUnit (x', y') w'.
Proof.
  intros E. split; [reflexivity|].
  edestruct (small_case2_ok (E := E) 3 (ltac:(vm_compute; discriminate)) [@New E (small_vector 3) 0 (@KRange E 7 [5]%nat); @New E (small_vector 3) 1 (@KRange E 7 [10; 20; 30; 40]%nat)] 0 1 (small_run2 3 PSwap))
    as (x & y & w & hf & x' & y' & w' & Hxy & Hr); [done|vm_compute; reflexivity|].
  do 4 eexists. do 5 eexists. split; [exact Hxy|]. split; [vm_compute; reflexivity|]. split; [vm_compute; reflexivity|exact Hr].
Qed.
