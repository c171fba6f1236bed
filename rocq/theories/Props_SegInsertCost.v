(** * Cost of insertion and erasure in the segmented containers (C71)

    [tick w] counts the operations of the element type and the allocations performed
    so far.  [steps] (InsertSpec.v) and [segd_steps] (SegInsertSpec.v) give the number of
    operations of the element type; [extra room k] bounds the number of allocations:
    none if there is room for the [k] new elements, else at most [k / SS + 2]. *)

From Verif Require Import SegInsertCost SegRuns.
Open Scope Z_scope.

(** ** segmented_vector: the new elements and those behind the position *)
Theorem C71_segmented_vector_insert_cost : forall (E : Env) (SZ : SegSize) ra o x (A : sabs) w hf r x' w' c,
  steps o (length (s_elems A)) = Some c -> input_op o = false -> sv_pre o (length (s_elems A)) = true ->
  holds (is_seg false) x A w hf -> seg_call ra o x w = Ok r x' w' ->
  Z.of_nat (tick w) + Z.of_nat c <= Z.of_nat (tick w') <=
    Z.of_nat (tick w) + Z.of_nat c + extra (s_cap A - s_size A) (Z.of_nat (grows o)).
Proof. exact @seg_insert_cost. Qed.
Print Assumptions C71_segmented_vector_insert_cost.
(** Three copies of an element of the container before the second of six; two free places. *)
Example C71_vector_case : let E := calm in let SZ := seg4 in
  let A := SAbs 7 [(2, 0); (3, 0)] 0 [10; 20; 30; 40; 50; 60]%nat in
  let o := OInsertN 1 3 (XCopy 4) in
  steps o 6 = Some 9%nat /\ sv_pre o 6 = true /\ extra (s_cap A - s_size A) (Z.of_nat (grows o)) = 2 /\
  exists x w hf x' w', holds (is_seg false) x A w hf /\ seg_call true o x w = Ok (RIdx 1) x' w'.
Proof.
  intros E SZ A o. split; [reflexivity|]. split; [reflexivity|]. split; [reflexivity|].
  apply (seg_case_ok (E := E) (SZ := SZ) (ra := true)
    [@New E (segvec true) 0 (@KRange E 7 [10; 20; 30; 40; 50; 60]%nat)] 0); vm_compute; reflexivity.
Qed.

(** ** segmented_devector: the new elements and those between the position and the nearer end

    With or without room: the storage grows by segments, elements stay where they are. *)
Theorem C71_segmented_devector_insert_cost : forall (E : Env) (SZ : SegSize) ra o x (A : sabs) w hf r x' w' c,
  segd_steps o (length (s_elems A)) = Some c -> sd_pre o (sd_geom A) = true ->
  holds (is_seg true) x A w hf -> segd_call ra o x w = Ok r x' w' ->
  Z.of_nat (tick w) + Z.of_nat c <= Z.of_nat (tick w') <=
    Z.of_nat (tick w) + Z.of_nat c + extra (segd_room o A) (Z.of_nat (segd_grows o)).
Proof. exact @segd_insert_cost. Qed.
Print Assumptions C71_segmented_devector_insert_cost.
(** Two elements before the second of six, no room at the front: one element moves. *)
Example C71_devector_case : let E := calm in let SZ := seg4 in
  let A := SAbs 7 [(2, 0); (3, 0)] 0 [10; 20; 30; 40; 50; 60]%nat in
  let o := DInsertRange 1 [1; 2]%nat in
  segd_steps o 6 = Some 3%nat /\ sd_pre o (sd_geom A) = true /\ extra (segd_room o A) (Z.of_nat (segd_grows o)) = 2 /\
  exists x w hf x' w', holds (is_seg true) x A w hf /\ segd_call true o x w = Ok (RIdx 1) x' w'.
Proof.
  intros E SZ A o. split; [reflexivity|]. split; [reflexivity|]. split; [reflexivity|].
  apply (segd_case_ok (E := E) (SZ := SZ) (ra := true)
    [@New E (segdev true) 0 (@KRange E 7 [10; 20; 30; 40; 50; 60]%nat)] 0); vm_compute; reflexivity.
Qed.

(** ** A range given by input iterators

    The elements are inserted one by one: the product, not the sum. *)
Theorem C71_segmented_vector_input_cost : forall (E : Env) (SZ : SegSize) ra i vs x (A : sabs) w hf r x' w',
  (i <= length (s_elems A))%nat -> holds (is_seg false) x A w hf -> seg_call ra (OInsertInput i vs) x w = Ok r x' w' ->
  let c := Z.of_nat (if Nat.eqb i (length (s_elems A)) then 1 else length (s_elems A) - i + 2)%nat in
  Z.of_nat (tick w) + Z.of_nat (length vs) * c <= Z.of_nat (tick w') <=
    Z.of_nat (tick w) + Z.of_nat (length vs) * (c + allocs 1).
Proof. exact @seg_input_cost. Qed.
Print Assumptions C71_segmented_vector_input_cost.
Example C71_vector_input_case : let E := calm in let SZ := seg4 in
  let A := SAbs 7 [(2, 0); (3, 0)] 0 [10; 20; 30; 40; 50; 60]%nat in
  exists x w hf x' w', holds (is_seg false) x A w hf /\ seg_call true (OInsertInput 2 [1; 2; 3]%nat) x w = Ok (RIdx 2) x' w'.
Proof.
  intros E SZ A.
  apply (seg_case_ok (E := E) (SZ := SZ) (ra := true)
    [@New E (segvec true) 0 (@KRange E 7 [10; 20; 30; 40; 50; 60]%nat)] 0); vm_compute; reflexivity.
Qed.
Theorem C71_segmented_devector_input_cost : forall (E : Env) (SZ : SegSize) ra i vs x (A : sabs) w hf r x' w',
  (i <= length (s_elems A))%nat -> holds (is_seg true) x A w hf -> segd_call ra (DInsertInput i vs) x w = Ok r x' w' ->
  Z.of_nat (tick w) + Z.of_nat (length vs) * (Z.of_nat (near i (length (s_elems A))) + 1) <= Z.of_nat (tick w') <=
    Z.of_nat (tick w) + Z.of_nat (length vs) * (Z.of_nat (length (s_elems A) - i) + 2 + allocs 1).
Proof. exact @segd_input_cost. Qed.
Print Assumptions C71_segmented_devector_input_cost.
Example C71_devector_input_case : let E := calm in let SZ := seg4 in
  let A := SAbs 7 [(2, 0); (3, 0)] 0 [10; 20; 30; 40; 50; 60]%nat in near 2 6 = 2%nat /\
  exists x w hf x' w', holds (is_seg true) x A w hf /\ segd_call true (DInsertInput 2 [1; 2; 3]%nat) x w = Ok (RIdx 2) x' w'.
Proof.
  intros E SZ A. split; [reflexivity|].
  apply (segd_case_ok (E := E) (SZ := SZ) (ra := true)
    [@New E (segdev true) 0 (@KRange E 7 [10; 20; 30; 40; 50; 60]%nat)] 0); vm_compute; reflexivity.
Qed.
(** "Linear in [distance(first, last)] plus linear in [distance(pos, end())]" is documented for
    input iterators as well: not so, for [n] elements before the first of [m]. *)
Theorem C71_segmented_vector_input_linear_refuted : forall (E : Env) (SZ : SegSize) ra v m n,
  (forall k t, may_throw k t = false) -> (1 <= m)%nat -> Z.of_nat (m + n) <= max_size ->
  exists x w r x' w',
    build (segvec ra) (KRange 0 (replicate m v)) tt w0 = Ok x tt w /\
    seg_call ra (OInsertInput 0 (replicate n v)) x w = Ok r x' w' /\ (tick w + n * (m + 2) <= tick w')%nat.
Proof. exact @seg_input_product. Qed.
Print Assumptions C71_segmented_vector_input_linear_refuted.
Example C71_refuted_case : let E := calm in
  (forall k t, may_throw k t = false) /\ Z.of_nat (48 + 48) <= max_size.
Proof. intros E. split; [by intros [] t|vm_compute; discriminate]. Qed.
