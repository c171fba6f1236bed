(** * Cost of construction (C73)

    [tick w] counts the operations of the element type and the allocations performed so
    far.  [one_block n] (CtorSpec.v): one operation for each of [n] elements and one
    allocation, nothing if [n] is 0. *)

From Verif Require Import VectorDemo CtorRefuted.
Open Scope Z_scope.

(** ** From nothing, [n] values, or a range *)
Theorem C73_vector_ctor_cost : forall (E : Env) c w hf x u w',
  holds0 w hf -> build vector c tt w = Ok x u w' ->
  let n := length (k_elems c) in
  if k_input c then (tick w' <= tick w + 6 * n)%nat else tick w' = (tick w + one_block n)%nat.
Proof. exact @vec_ctor_cost. Qed.
Print Assumptions C73_vector_ctor_cost.
Example C73_vector_case : let E := calm in
  holds0 w0 ∅ /\ exists x w', build vector (KInput 7 [10; 20; 30; 40; 50]%nat) tt w0 = Ok x tt w'.
Proof.
  intros E. split; [apply w0_holds|].
  edestruct (returned_ok (build vector (@KInput E 7 [10; 20; 30; 40; 50]%nat) tt w0)) as ([] & w' & H);
    [vm_compute; reflexivity|]. by do 2 eexists.
Qed.
Theorem C73_small_vector_ctor_cost : forall (E : Env) N, Z.of_nat N <= max_size ->
  forall c w hf x u w',
  holds0 w hf -> build (small_vector N) c tt w = Ok x u w' ->
  let n := length (k_elems c) in
  if k_input c then (tick w' <= tick w + 6 * n)%nat
  else tick w' = (tick w + n + if (n <=? N)%nat then 0 else 1)%nat.
Proof. exact @small_ctor_cost. Qed.
Print Assumptions C73_small_vector_ctor_cost.
Example C73_small_case : let E := calm in
  holds0 w0 ∅ /\ exists x w', build (small_vector 3) (KRange 7 [10; 20; 30; 40; 50]%nat) tt w0 = Ok x tt w'.
Proof.
  intros E. split; [apply w0_holds|].
  edestruct (returned_ok (build (small_vector 3) (@KRange E 7 [10; 20; 30; 40; 50]%nat) tt w0)) as ([] & w' & H);
    [vm_compute; reflexivity|]. by do 2 eexists.
Qed.
Theorem C73_static_vector_ctor_cost : forall (E : Env) N c w x u w',
  build (static_vector N) c tt w = Ok x u w' -> tick w' = (tick w + length (t_elems c))%nat.
Proof. exact @static_ctor_cost. Qed.
Print Assumptions C73_static_vector_ctor_cost.
Example C73_static_case : let E := calm in
  holds0 w0 ∅ /\ exists x w', build (static_vector 5) (TRange [10; 20; 30; 40]%nat) tt w0 = Ok x tt w'.
Proof.
  intros E. split; [apply w0_holds|].
  edestruct (returned_ok (build (static_vector 5) (@TRange E [10; 20; 30; 40]%nat) tt w0)) as ([] & w' & H);
    [vm_compute; reflexivity|]. by do 2 eexists.
Qed.
Theorem C73_devector_ctor_cost : forall (E : Env) c w hf x u w',
  holds0 w hf -> build (devector false) c tt w = Ok x u w' ->
  let n := length (k_elems c) in
  if k_input c then (tick w' <= tick w + 10 * n)%nat else tick w' = (tick w + one_block n)%nat.
Proof. exact @dev_ctor_cost. Qed.
Print Assumptions C73_devector_ctor_cost.
Example C73_dev_case : let E := calm in
  holds0 w0 ∅ /\ exists x w', build (devector false) (KInput 7 [10; 20; 30; 40; 50]%nat) tt w0 = Ok x tt w'.
Proof.
  intros E. split; [apply w0_holds|].
  edestruct (returned_ok (build (devector false) (@KInput E 7 [10; 20; 30; 40; 50]%nat) tt w0)) as ([] & w' & H);
    [vm_compute; reflexivity|]. by do 2 eexists.
Qed.
(** sfl::compact_vector: linear except from input iterators, there the number is
    quadratic. *)
Theorem C73_compact_vector_ctor_cost : forall (E : Env) c w hf x u w',
  holds0 w hf -> build (compact_vector code_undo false) c tt w = Ok x u w' ->
  let n := length (k_elems c) in
  if k_input c then (n * (n + 1) <= 2 * (tick w' - tick w) <= n * (n + 3))%nat
  else tick w' = (tick w + one_block n)%nat.
Proof. exact @compact_ctor_cost. Qed.
Print Assumptions C73_compact_vector_ctor_cost.
Example C73_compact_case : let E := calm in
  holds0 w0 ∅ /\ exists x w', build (compact_vector code_undo false) (KFill 7 5 None) tt w0 = Ok x tt w'.
Proof.
  intros E. split; [apply w0_holds|].
  edestruct (returned_ok (build (compact_vector code_undo false) (@KFill E 7 5 None) tt w0)) as ([] & w' & H);
    [vm_compute; reflexivity|]. by do 2 eexists.
Qed.
(** "Linear in std::distance(first, last)" (compact_vector.md 198) is false: an element
    is appended at a time, each moves all those before it into a new block. *)
Theorem C73_compact_vector_input_linear_refuted : forall (E : Env) (l : list V),
  (forall k t, may_throw k t = false) -> Z.of_nat (length l) <= max_size ->
  exists x w, build (compact_vector code_undo false) (KInput 0 l) tt w0 = Ok x tt w /\
    (length l * (length l + 1) <= 2 * tick w)%nat.
Proof. exact @compact_input_square. Qed.
Print Assumptions C73_compact_vector_input_linear_refuted.
Example C73_refuted_case : let E := calm in
  (forall k t, may_throw k t = false) /\ Z.of_nat (length (replicate 98 0%nat)) <= max_size.
Proof. intros E. split; [by intros [] t|vm_compute; discriminate]. Qed.

(** ** From another object

    Nothing if the storage is taken over ([k2_same]), otherwise like the range
    constructor. *)
Theorem C73_vector_copy_move_cost : forall (E : Env) c y B w hf x y' w',
  holds is_vec y B w hf -> build2 vector c y w = Ok x y' w' ->
  tick w' = (tick w + if k2_same c (q_alloc B) then 0 else one_block (length (q_elems B)))%nat.
Proof. exact @vec_ctor2_cost. Qed.
Print Assumptions C73_vector_copy_move_cost.
Example C73_vector_copy_case : let E := calm in
  exists y w hf x y' w', holds is_vec y (VAbs 7 (1, 0) [10; 20; 30]%nat 3) w hf /\ build2 vector (FromMoveAlloc 8) y w = Ok x y' w'.
Proof.
  intros E.
  edestruct (vec_case_ok (E := E) [@New E vector 0 (@KRange E 7 [10; 20; 30]%nat)] 0 (build2 vector (FromMoveAlloc 8)))
    as (y & w & hf & y' & w' & Hy & Hr); [vm_compute; reflexivity|].
  exists y, w, hf. eexists. exists y', w'. by split.
Qed.
Theorem C73_compact_vector_copy_move_cost : forall (E : Env) c y (B : vabs) w hf x y' w',
  holds is_compact y B w hf -> build2 (compact_vector code_undo false) c y w = Ok x y' w' ->
  tick w' = (tick w + if k2_same c (q_alloc B) then 0 else one_block (length (q_elems B)))%nat.
Proof. exact @compact_ctor2_cost. Qed.
Print Assumptions C73_compact_vector_copy_move_cost.
Example C73_compact_vector_copy_case : let E := calm in
  exists y w hf x y' w', holds is_compact y (VAbs 7 (1, 0) [10; 20; 30]%nat 3) w hf /\ build2 (compact_vector code_undo false) (FromMoveAlloc 8) y w = Ok x y' w'.
Proof.
  intros E.
  edestruct (compact_case_ok (E := E) [@New E (compact_vector code_undo false) 0 (@KRange E 7 [10; 20; 30]%nat)] 0 (build2 (compact_vector code_undo false) (FromMoveAlloc 8)))
    as (y & w & hf & y' & w' & Hy & Hr); [vm_compute; reflexivity|].
  exists y, w, hf. eexists. exists y', w'. by split.
Qed.
Theorem C73_devector_copy_move_cost : forall (E : Env) c y (B : dabs) w hf x y' w',
  holds is_dev y B w hf -> build2 (devector false) c y w = Ok x y' w' ->
  tick w' = (tick w + if k2_same c (e_alloc B) then 0 else one_block (length (e_elems B)))%nat.
Proof. exact @dev_ctor2_cost. Qed.
Print Assumptions C73_devector_copy_move_cost.
Example C73_devector_copy_case : let E := calm in
  exists y w hf x y' w', holds is_dev y (DAbs 7 (1, 0) 0 [10; 20; 30]%nat 3) w hf /\ build2 (devector false) (FromMoveAlloc 8) y w = Ok x y' w'.
Proof.
  intros E.
  edestruct (dev_case_ok (E := E) [@New E (devector false) 0 (@KRange E 7 [10; 20; 30]%nat)] 0 (build2 (devector false) (FromMoveAlloc 8)))
    as (y & w & hf & y' & w' & Hy & Hr); [vm_compute; reflexivity|].
  exists y, w, hf. eexists. exists y', w'. by split.
Qed.
(** sfl::small_vector: the elements have to be moved if they are in the object itself. *)
Theorem C73_small_vector_copy_move_cost : forall (E : Env) N c y (B : sabs) w hf x y' w',
  holds (is_small N) y B w hf -> build2 (small_vector N) c y w = Ok x y' w' ->
  let n := length (q_elems B.2) in
  tick w' = (tick w + if k2_copy c then n + (if (n <=? N)%nat then 0 else 1)
                      else if loc_eqb (q_data B.2) B.1 then n
                      else if k2_same c (q_alloc B.2) then 0 else n + (if (n <=? N)%nat then 0 else 1))%nat.
Proof. exact @small_ctor2_cost. Qed.
Print Assumptions C73_small_vector_copy_move_cost.
Example C73_small_vector_copy_case : let E := calm in
  exists y w hf x y' w', holds (is_small 3) y ((-1, 0), VAbs 7 (2, 0) [10; 20; 30; 40]%nat 4) w hf /\ build2 (small_vector 3) (FromMoveAlloc 8) y w = Ok x y' w'.
Proof.
  intros E.
  edestruct (small_case_ok (E := E) 3 (ltac:(vm_compute; discriminate)) [@New E (small_vector 3) 0 (@KRange E 7 [10; 20; 30; 40]%nat)] 0 (build2 (small_vector 3) (FromMoveAlloc 8)))
    as (y & w & hf & y' & w' & Hy & Hr); [vm_compute; reflexivity|].
  exists y, w, hf. eexists. exists y', w'. by split.
Qed.
Theorem C73_static_vector_copy_move_cost : forall (E : Env) N c y (B : tabs) w hf x y' w',
  holds (is_static N) y B w hf -> build2 (static_vector N) c y w = Ok x y' w' ->
  tick w' = (tick w + length B.2)%nat.
Proof. exact @static_ctor2_cost. Qed.
Print Assumptions C73_static_vector_copy_move_cost.
Example C73_static_vector_copy_case : let E := calm in
  exists y w hf x y' w', holds (is_static 5) y ((-1, 0), [10; 20; 30; 40]%nat) w hf /\ build2 (static_vector 5) TMove y w = Ok x y' w'.
Proof.
  intros E.
  edestruct (static_case_ok (E := E) 5 [@New E (static_vector 5) 0 (@TRange E [10; 20; 30; 40]%nat)] 0 (build2 (static_vector 5) TMove))
    as (y & w & hf & y' & w' & Hy & Hr); [vm_compute; reflexivity|].
  exists y, w, hf. eexists. exists y', w'. by split.
Qed.
(** "Linear in N in the worst case" (small_vector.md 276) is false for unequal allocators:
    every element of the storage outside the object is moved, [N] does not matter. *)
Theorem C73_small_vector_move_linear_N_refuted : forall (E : Env) N v m,
  (forall k t, may_throw k t = false) -> Z.of_nat N <= max_size -> Z.of_nat m <= max_size ->
  exists y w x y' w', build (small_vector N) (KRange 0 (replicate m v)) tt w0 = Ok y tt w /\
    build2 (small_vector N) (FromMoveAlloc 1) y w = Ok x y' w' /\ (tick w + m <= tick w')%nat.
Proof. exact @small_move_size. Qed.
Print Assumptions C73_small_vector_move_linear_N_refuted.
Example C73_small_refuted_case : let E := calm in
  (forall k t, may_throw k t = false) /\ Z.of_nat 2 <= max_size /\ Z.of_nat 98 <= max_size.
Proof. intros E. split; [by intros [] t|]. split; vm_compute; discriminate. Qed.
