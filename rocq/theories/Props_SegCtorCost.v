(** * Cost of the construction of the segmented containers (C73)

    [tick w] counts the operations of the element type and the allocations performed so
    far; [SS]: elements per segment.  There is an allocation for the table and one for
    each of the [n / SS + 1] segments, also if there are no elements. *)

From Verif Require Import SegCtorCost.
Open Scope Z_scope.

Theorem C73_segmented_vector_ctor_cost : forall (E : Env) (SZ : SegSize) ra c w x u w',
  build (segvec ra) c tt w = Ok x u w' ->
  let n := length (k_elems c) in
  if k_input c then (tick w' <= tick w + 2 + 4 * n)%nat
  else Z.of_nat (tick w') = Z.of_nat (tick w) + Z.of_nat n + (Z.of_nat n / SS + 2).
Proof. exact @seg_ctor_cost. Qed.
Print Assumptions C73_segmented_vector_ctor_cost.
Example C73_segmented_vector_case : let E := calm in let SZ := seg4 in
  exists x w', build (segvec true) (KInput 7 [10; 20; 30; 40; 50]%nat) tt w0 = Ok x tt w'.
Proof.
  intros E SZ.
  edestruct (returned_ok (build (segvec true) (@KInput E 7 [10; 20; 30; 40; 50]%nat) tt w0)) as ([] & w' & H);
    [vm_compute; reflexivity|]. by do 2 eexists.
Qed.
(** Copy and move construction.  Taking over the storage of another object costs two
    allocations: the other object gets new storage. *)
Theorem C73_segmented_vector_copy_move_cost : forall (E : Env) (SZ : SegSize) ra c y (B : sabs) w hf x y' w',
  holds (is_seg false) y B w hf -> build2 (segvec ra) c y w = Ok x y' w' ->
  let n := length (s_elems B) in
  if k2_same c (s_alloc B) then tick w' = (tick w + 2)%nat
  else Z.of_nat (tick w') = Z.of_nat (tick w) + Z.of_nat n + (Z.of_nat n / SS + 2).
Proof. exact @seg_ctor2_cost. Qed.
Print Assumptions C73_segmented_vector_copy_move_cost.
Example C73_segmented_vector_copy_case : let E := calm in let SZ := seg4 in
  exists y w hf x y' w', holds (is_seg false) y (SAbs 7 [(2, 0); (3, 0)] 0 [10; 20; 30; 40; 50; 60]%nat) w hf /\
    build2 (segvec true) (FromMoveAlloc 8) y w = Ok x y' w'.
Proof.
  intros E SZ.
  edestruct (seg_case_ok (E := E) (SZ := SZ) (ra := true) [@New E (segvec true) 0 (@KRange E 7 [10; 20; 30; 40; 50; 60]%nat)] 0
    (build2 (segvec true) (FromMoveAlloc 8))) as (y & w & hf & y' & w' & Hy & Hr); [vm_compute; reflexivity|].
  exists y, w, hf. eexists. exists y', w'. by split.
Qed.
Theorem C73_segmented_devector_ctor_cost : forall (E : Env) (SZ : SegSize) ra c w x u w',
  build (segdev ra) c tt w = Ok x u w' ->
  let n := length (k_elems c) in
  if k_input c then (tick w' <= tick w + 2 + 4 * n)%nat
  else Z.of_nat (tick w') = Z.of_nat (tick w) + Z.of_nat n + (Z.of_nat n / SS + 2).
Proof. exact @segd_ctor_cost. Qed.
Print Assumptions C73_segmented_devector_ctor_cost.
Example C73_segmented_devector_case : let E := calm in let SZ := seg4 in
  exists x w', build (segdev true) (KInput 7 [10; 20; 30; 40; 50]%nat) tt w0 = Ok x tt w'.
Proof.
  intros E SZ.
  edestruct (returned_ok (build (segdev true) (@KInput E 7 [10; 20; 30; 40; 50]%nat) tt w0)) as ([] & w' & H);
    [vm_compute; reflexivity|]. by do 2 eexists.
Qed.
(** Copy and move construction.  Taking over the storage of another object costs two
    allocations: the other object gets new storage. *)
Theorem C73_segmented_devector_copy_move_cost : forall (E : Env) (SZ : SegSize) ra c y (B : sabs) w hf x y' w',
  holds (is_seg true) y B w hf -> build2 (segdev ra) c y w = Ok x y' w' ->
  let n := length (s_elems B) in
  if k2_same c (s_alloc B) then tick w' = (tick w + 2)%nat
  else Z.of_nat (tick w') = Z.of_nat (tick w) + Z.of_nat n + (Z.of_nat n / SS + 2).
Proof. exact @segd_ctor2_cost. Qed.
Print Assumptions C73_segmented_devector_copy_move_cost.
Example C73_segmented_devector_copy_case : let E := calm in let SZ := seg4 in
  exists y w hf x y' w', holds (is_seg true) y (SAbs 7 [(2, 0); (3, 0)] 0 [10; 20; 30; 40; 50; 60]%nat) w hf /\
    build2 (segdev true) (FromMoveAlloc 8) y w = Ok x y' w'.
Proof.
  intros E SZ.
  edestruct (segd_case_ok (E := E) (SZ := SZ) (ra := true) [@New E (segdev true) 0 (@KRange E 7 [10; 20; 30; 40; 50; 60]%nat)] 0
    (build2 (segdev true) (FromMoveAlloc 8))) as (y & w & hf & y' & w' & Hy & Hr); [vm_compute; reflexivity|].
  exists y, w, hf. eexists. exists y', w'. by split.
Qed.
