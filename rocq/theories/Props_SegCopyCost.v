(** * Cost of copy assignment and of element-wise move assignment of the segmented containers (C79)

    [tick w] counts the operations of the element type and the allocations performed so far.
    [replaced prop A B]: the allocator propagates and the two differ; then the storage is
    replaced by a table and one segment, two allocations ([new_storage]), with room for
    [room_after] elements.  [extra room n] bounds the allocations for [n] elements where there
    is room for [room]; it is 0 if they fit.  (SegCopyCost.v) *)

From Verif Require Import SegCopyCost SegRuns.
Open Scope Z_scope.

Theorem C79_segmented_vector_copy_cost : forall (E : Env) (SZ : SegSize) x (A : sabs) y B w hf r xy w',
  holds2 (is_seg false) x A y B w hf -> sq_run2 sv_assign_range PCopy (x, y) w = Ok r xy w' ->
  let n := s_size B in let b := replaced pocca A B in
  Z.of_nat (tick w) + new_storage b + n <= Z.of_nat (tick w') <= Z.of_nat (tick w) + new_storage b + n + extra (room_after b A) n.
Proof. exact @seg_copy_cost. Qed.
Print Assumptions C79_segmented_vector_copy_cost.
Theorem C79_segmented_devector_copy_cost : forall (E : Env) (SZ : SegSize) x (A : sabs) y B w hf r xy w',
  holds2 (is_seg true) x A y B w hf -> sq_run2 sd_assign_range PCopy (x, y) w = Ok r xy w' ->
  let n := s_size B in let b := replaced pocca A B in
  Z.of_nat (tick w) + new_storage b + n <= Z.of_nat (tick w') <= Z.of_nat (tick w) + new_storage b + n + extra (room_after b A) n.
Proof. exact @segd_copy_cost. Qed.
Print Assumptions C79_segmented_devector_copy_cost.
(** The allocators differ and propagate. *)
Example C79_segmented_vector_copy_case : let E := calm_prop in let SZ := seg4 in
  let A := SAbs 8 [(2, 0)] 0 [10; 20; 30]%nat in let B := SAbs 7 [(4, 0); (5, 0)] 0 [1; 2; 3; 4; 5]%nat in
  replaced pocca A B = true /\
  exists x y w hf x' y' w', holds2 (is_seg false) x A y B w hf /\
    sq_run2 sv_assign_range PCopy (x, y) w = Ok RUnit (x', y') w'.
Proof.
  intros E SZ A B. split; [reflexivity|].
  apply (seg_case2_ok (E := E) (SZ := SZ) (ra := true)
    [@New E (segvec true) 0 (@KRange E 8 [10; 20; 30]%nat);
     @New E (segvec true) 1 (@KRange E 7 [1; 2; 3; 4; 5]%nat)] 0 1); [done|vm_compute; reflexivity].
Qed.
(** They do not, and there is no room for all elements. *)
Example C79_segmented_devector_copy_case : let E := calm in let SZ := seg4 in
  let A := SAbs 7 [(2, 0)] 0 [10; 20; 30]%nat in let B := SAbs 7 [(4, 0); (5, 0)] 0 [1; 2; 3; 4; 5]%nat in
  replaced pocca A B = false /\ s_cap A = 3 /\
  exists x y w hf x' y' w', holds2 (is_seg true) x A y B w hf /\
    sq_run2 sd_assign_range PCopy (x, y) w = Ok RUnit (x', y') w'.
Proof.
  intros E SZ A B. split; [reflexivity|]. split; [reflexivity|].
  apply (segd_case2_ok (E := E) (SZ := SZ) (ra := true)
    [@New E (segdev true) 0 (@KRange E 7 [10; 20; 30]%nat);
     @New E (segdev true) 1 (@KRange E 7 [1; 2; 3; 4; 5]%nat)] 0 1); [done|vm_compute; reflexivity].
Qed.

(** ** Move assignment with different allocators *)
Theorem C79_segmented_vector_move_each_cost : forall (E : Env) (SZ : SegSize) x (A : sabs) y B w hf r xy w',
  holds2 (is_seg false) x A y B w hf -> s_alloc A <> s_alloc B -> sq_run2 sv_assign_range PMove (x, y) w = Ok r xy w' ->
  let n := s_size B in let b := replaced pocma A B in
  Z.of_nat (tick w) + new_storage b + n <= Z.of_nat (tick w') <= Z.of_nat (tick w) + new_storage b + n + extra (room_after b A) n.
Proof. exact @seg_move_each_cost. Qed.
Print Assumptions C79_segmented_vector_move_each_cost.
Theorem C79_segmented_devector_move_each_cost : forall (E : Env) (SZ : SegSize) x (A : sabs) y B w hf r xy w',
  holds2 (is_seg true) x A y B w hf -> s_alloc A <> s_alloc B -> sq_run2 sd_assign_range PMove (x, y) w = Ok r xy w' ->
  let n := s_size B in let b := replaced pocma A B in
  Z.of_nat (tick w) + new_storage b + n <= Z.of_nat (tick w') <= Z.of_nat (tick w) + new_storage b + n + extra (room_after b A) n.
Proof. exact @segd_move_each_cost. Qed.
Print Assumptions C79_segmented_devector_move_each_cost.
Example C79_segmented_vector_move_case : let E := calm in let SZ := seg4 in
  let A := SAbs 8 [(2, 0)] 0 [10; 20; 30]%nat in let B := SAbs 7 [(4, 0); (5, 0)] 0 [1; 2; 3; 4; 5]%nat in
  s_alloc A <> s_alloc B /\ replaced pocma A B = false /\
  exists x y w hf x' y' w', holds2 (is_seg false) x A y B w hf /\
    sq_run2 sv_assign_range PMove (x, y) w = Ok RUnit (x', y') w'.
Proof.
  intros E SZ A B. split; [done|]. split; [reflexivity|].
  apply (seg_case2_ok (E := E) (SZ := SZ) (ra := true)
    [@New E (segvec true) 0 (@KRange E 8 [10; 20; 30]%nat);
     @New E (segvec true) 1 (@KRange E 7 [1; 2; 3; 4; 5]%nat)] 0 1); [done|vm_compute; reflexivity].
Qed.
Example C79_segmented_devector_move_case : let E := calm_prop in let SZ := seg4 in
  let A := SAbs 8 [(2, 0)] 0 [10; 20; 30]%nat in let B := SAbs 7 [(4, 0); (5, 0)] 0 [1; 2; 3; 4; 5]%nat in
  s_alloc A <> s_alloc B /\ replaced pocma A B = true /\
  exists x y w hf x' y' w', holds2 (is_seg true) x A y B w hf /\
    sq_run2 sd_assign_range PMove (x, y) w = Ok RUnit (x', y') w'.
Proof.
  intros E SZ A B. split; [done|]. split; [reflexivity|].
  apply (segd_case2_ok (E := E) (SZ := SZ) (ra := true)
    [@New E (segdev true) 0 (@KRange E 8 [10; 20; 30]%nat);
     @New E (segdev true) 1 (@KRange E 7 [1; 2; 3; 4; 5]%nat)] 0 1); [done|vm_compute; reflexivity].
Qed.
