(** * Cost of [swap] and of move assignment of the segmented containers (C77)

    [tick w] counts the operations of the element type and the allocations performed so far;
    [w' = w]: memory is as it was and the allocator was not called.  [extra room k] bounds the
    allocations for [k] elements where there is room for [room]. *)

From Verif Require Import SegSwapCost SegRuns.
Open Scope Z_scope.

Theorem C77_segmented_vector_swap_cost : forall (E : Env) (SZ : SegSize) x y w r xy w',
  sq_run2 sv_assign_range PSwap (x, y) w = Ok r xy w' -> w' = w.
Proof. exact (fun E SZ x y w r xy w' => @sg_swap_cost E SZ x y w r xy w' sv_assign_range). Qed.
Print Assumptions C77_segmented_vector_swap_cost.
Theorem C77_segmented_devector_swap_cost : forall (E : Env) (SZ : SegSize) x y w r xy w',
  sq_run2 sd_assign_range PSwap (x, y) w = Ok r xy w' -> w' = w.
Proof. exact (fun E SZ x y w r xy w' => @sg_swap_cost E SZ x y w r xy w' sd_assign_range). Qed.
Print Assumptions C77_segmented_devector_swap_cost.
Example C77_segmented_swap_case : let E := calm in let SZ := seg4 in
  let A := SAbs 7 [(2, 0)] 0 [10; 20; 30]%nat in let B := SAbs 7 [(4, 0); (5, 0)] 0 [1; 2; 3; 4; 5]%nat in
  exists x y w hf x' y' w', holds2 (is_seg false) x A y B w hf /\
    sq_run2 sv_assign_range PSwap (x, y) w = Ok RUnit (x', y') w'.
Proof.
  intros E SZ A B.
  apply (seg_case2_ok (E := E) (SZ := SZ) (ra := true)
    [@New E (segvec true) 0 (@KRange E 7 [10; 20; 30]%nat);
     @New E (segvec true) 1 (@KRange E 7 [1; 2; 3; 4; 5]%nat)] 0 1); [done|vm_compute; reflexivity].
Qed.
Example C77_segmented_devector_swap_case : let E := calm in let SZ := seg4 in
  let A := SAbs 7 [(2, 0)] 0 [10; 20; 30]%nat in let B := SAbs 7 [(4, 0); (5, 0)] 0 [1; 2; 3; 4; 5]%nat in
  exists x y w hf x' y' w', holds2 (is_seg true) x A y B w hf /\
    sq_run2 sd_assign_range PSwap (x, y) w = Ok RUnit (x', y') w'.
Proof.
  intros E SZ A B.
  apply (segd_case2_ok (E := E) (SZ := SZ) (ra := true)
    [@New E (segdev true) 0 (@KRange E 7 [10; 20; 30]%nat);
     @New E (segdev true) 1 (@KRange E 7 [1; 2; 3; 4; 5]%nat)] 0 1); [done|vm_compute; reflexivity].
Qed.

(** ** Move assignment: the storage changes hands if the allocators are equal; the source gets
    a new table and a segment, which makes two allocations. *)
Theorem C77_segmented_vector_move_cost : forall (E : Env) (SZ : SegSize) x (A : sabs) y B w hf r xy w',
  holds2 (is_seg false) x A y B w hf -> s_alloc A = s_alloc B ->
  sq_run2 sv_assign_range PMove (x, y) w = Ok r xy w' -> tick w' = (tick w + 2)%nat.
Proof. exact (fun E SZ => @seg_move_same_cost E SZ false sv_assign_range). Qed.
Print Assumptions C77_segmented_vector_move_cost.
Theorem C77_segmented_devector_move_cost : forall (E : Env) (SZ : SegSize) x (A : sabs) y B w hf r xy w',
  holds2 (is_seg true) x A y B w hf -> s_alloc A = s_alloc B ->
  sq_run2 sd_assign_range PMove (x, y) w = Ok r xy w' -> tick w' = (tick w + 2)%nat.
Proof. exact (fun E SZ => @seg_move_same_cost E SZ true sd_assign_range). Qed.
Print Assumptions C77_segmented_devector_move_cost.
Example C77_segmented_move_case : let E := calm in let SZ := seg4 in
  let A := SAbs 7 [(2, 0)] 0 [10; 20; 30]%nat in let B := SAbs 7 [(4, 0); (5, 0)] 0 [1; 2; 3; 4; 5]%nat in
  s_alloc A = s_alloc B /\ exists x y w hf x' y' w', holds2 (is_seg true) x A y B w hf /\
    sq_run2 sd_assign_range PMove (x, y) w = Ok RUnit (x', y') w'.
Proof.
  intros E SZ A B. split; [reflexivity|].
  apply (segd_case2_ok (E := E) (SZ := SZ) (ra := true)
    [@New E (segdev true) 0 (@KRange E 7 [10; 20; 30]%nat);
     @New E (segdev true) 1 (@KRange E 7 [1; 2; 3; 4; 5]%nat)] 0 1); [done|vm_compute; reflexivity].
Qed.
(** Otherwise, and if they do not propagate, each element is moved once. *)
Theorem C77_segmented_vector_move_elements_cost : forall (E : Env) (SZ : SegSize) x (A : sabs) y B w hf r xy w',
  holds2 (is_seg false) x A y B w hf -> s_alloc A <> s_alloc B -> pocma = false ->
  sq_run2 sv_assign_range PMove (x, y) w = Ok r xy w' ->
  let n := s_size B in Z.of_nat (tick w) + n <= Z.of_nat (tick w') <= Z.of_nat (tick w) + n + extra (s_cap A) n.
Proof. exact @seg_move_other_cost. Qed.
Print Assumptions C77_segmented_vector_move_elements_cost.
Theorem C77_segmented_devector_move_elements_cost : forall (E : Env) (SZ : SegSize) x (A : sabs) y B w hf r xy w',
  holds2 (is_seg true) x A y B w hf -> s_alloc A <> s_alloc B -> pocma = false ->
  sq_run2 sd_assign_range PMove (x, y) w = Ok r xy w' ->
  let n := s_size B in Z.of_nat (tick w) + n <= Z.of_nat (tick w') <= Z.of_nat (tick w) + n + extra (s_cap A) n.
Proof. exact @segd_move_other_cost. Qed.
Print Assumptions C77_segmented_devector_move_elements_cost.
Example C77_segmented_move_elements_case : let E := calm in let SZ := seg4 in
  let A := SAbs 7 [(2, 0)] 0 [10; 20; 30]%nat in let B := SAbs 8 [(4, 0); (5, 0)] 0 [1; 2; 3; 4; 5]%nat in
  s_alloc A <> s_alloc B /\ pocma = false /\ exists x y w hf x' y' w', holds2 (is_seg false) x A y B w hf /\
    sq_run2 sv_assign_range PMove (x, y) w = Ok RUnit (x', y') w'.
Proof.
  intros E SZ A B. split; [discriminate|]. split; [reflexivity|].
  apply (seg_case2_ok (E := E) (SZ := SZ) (ra := true)
    [@New E (segvec true) 0 (@KRange E 7 [10; 20; 30]%nat);
     @New E (segvec true) 1 (@KRange E 8 [1; 2; 3; 4; 5]%nat)] 0 1); [done|vm_compute; reflexivity].
Qed.
