(** * Cost of [resize], [reserve] and [shrink_to_fit] of the segmented containers (C76)

    [tick w] counts the operations of the element type (constructions, copies, moves and
    assignments; not destructions) and the allocations performed so far.  [seg_constructs],
    [seg_allocs] and their counterparts for the devector are in SegResizeCost.v; [extra room k]
    bounds the allocations for [k] elements where there is room for [room]. *)

From Verif Require Import SegResizeCost SegRuns.
Open Scope Z_scope.

(** ** Segmented containers: the new elements are constructed, no element is moved *)
Theorem C76_segmented_vector_resize_cost : forall (E : Env) (SZ : SegSize) ra o x (A : sabs) w hf r x' w' c,
  seg_constructs o (length (s_elems A)) = Some c ->
  holds (is_seg false) x A w hf -> seg_call ra o x w = Ok r x' w' ->
  Z.of_nat (tick w) + Z.of_nat c <= Z.of_nat (tick w') <= Z.of_nat (tick w) + Z.of_nat c + seg_allocs o A.
Proof. exact @seg_resize_cost. Qed.
Print Assumptions C76_segmented_vector_resize_cost.
Example C76_segmented_vector_case : let E := calm in let SZ := seg4 in
  let A := SAbs 7 [(2, 0); (3, 0)] 0 [10; 20; 30; 40; 50; 60]%nat in
  let o := OResize 9 (XCopy 4) in
  seg_constructs o 6 = Some 3%nat /\ seg_allocs o A = 4 /\
  exists x w hf x' w', holds (is_seg false) x A w hf /\ seg_call true o x w = Ok RUnit x' w'.
Proof.
  intros E SZ A o. split; [reflexivity|]. split; [reflexivity|].
  apply (seg_case_ok (E := E) (SZ := SZ) (ra := true)
    [@New E (segvec true) 0 (@KRange E 7 [10; 20; 30; 40; 50; 60]%nat)] 0); vm_compute; reflexivity.
Qed.
Theorem C76_segmented_devector_resize_cost : forall (E : Env) (SZ : SegSize) ra o x (A : sabs) w hf r x' w' c,
  segd_constructs o (length (s_elems A)) = Some c ->
  holds (is_seg true) x A w hf -> segd_call ra o x w = Ok r x' w' ->
  Z.of_nat (tick w) + Z.of_nat c <= Z.of_nat (tick w') <= Z.of_nat (tick w) + Z.of_nat c + segd_allocs o A.
Proof. exact @segd_resize_cost. Qed.
Print Assumptions C76_segmented_devector_resize_cost.
Example C76_segmented_devector_case : let E := calm in let SZ := seg4 in
  let A := SAbs 7 [(2, 0); (3, 0)] 2 [30; 40; 50; 60]%nat in
  let o := DResizeFront 9 (XVal 5%nat) in
  segd_constructs o 4 = Some 5%nat /\ segd_allocs o A = 4 /\
  exists x w hf x' w', holds (is_seg true) x A w hf /\ segd_call true o x w = Ok RUnit x' w'.
Proof.
  intros E SZ A o. split; [reflexivity|]. split; [reflexivity|].
  apply (segd_case_ok (E := E) (SZ := SZ) (ra := true)
    [@New E (segdev true) 0 (@KRange E 7 [10; 20; 30; 40; 50; 60]%nat);
     @Do E (segdev true) 0 (@DPopFront E); @Do E (segdev true) 0 (@DPopFront E)] 0); vm_compute; reflexivity.
Qed.
