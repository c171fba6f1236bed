(** * Cost of [resize], [reserve] and [shrink_to_fit] (C76)

    [tick w] counts the operations of the element type (constructions, copies, moves and
    assignments; not destructions) and the allocations performed so far.  [resize_steps],
    [replaces] and [dev_resize_cost] are in ResizeSpec.v. *)

From Verif Require Import VectorDemo AssignMore ResizeCost.
Open Scope Z_scope.

(** ** vector: [resize] is linear in the difference, and in [n] if the storage is replaced;
    [reserve] and [shrink_to_fit] are linear in the size *)
Theorem C76_vector_resize_cost : forall (E : Env) o x (A : vabs) w hf r x' w' c,
  resize_steps o (length (q_elems A)) (q_cap A) = Some c ->
  holds is_vec x A w hf -> vec_call o x w = Ok r x' w' ->
  (tick w + c <= tick w' <= tick w + c + replaces o (length (q_elems A)) (q_cap A))%nat.
Proof. exact @vec_resize_cost. Qed.
Print Assumptions C76_vector_resize_cost.
(** One element more than there is room for: all six are constructed or moved. *)
Example C76_vector_case : let E := calm in
  let A := VAbs 7 (1, 0) [10; 20; 30; 40; 50]%nat 5 in let o := OResize 6 (XCopy 2) in
  resize_steps o 5 (q_cap A) = Some 6%nat /\ replaces o 5 (q_cap A) = 1%nat /\
  exists x w hf x' w', holds is_vec x A w hf /\ vec_call o x w = Ok RUnit x' w'.
Proof.
  intros E A o. split; [reflexivity|]. split; [reflexivity|].
  apply (vec_case_ok (E := E) [@New E vector 0 (@KRange E 7 [10; 20; 30; 40; 50]%nat)] 0); vm_compute; reflexivity.
Qed.

(** ** small_vector *)
Theorem C76_small_vector_resize_cost : forall (E : Env) N o x (A : SmallSpec.sabs) w hf r x' w' c,
  resize_steps o (length (q_elems A.2)) (q_cap A.2) = Some c -> o <> OShrink ->
  holds (is_small N) x A w hf -> small_call N o x w = Ok r x' w' ->
  (tick w + c <= tick w' <= tick w + c + replaces o (length (q_elems A.2)) (q_cap A.2))%nat.
Proof. exact @small_resize_cost. Qed.
Print Assumptions C76_small_vector_resize_cost.
Example C76_small_vector_case : let E := calm in
  let A := ((-1, 0), VAbs 7 (2, 0) [10; 20; 30]%nat 3) in let o := OReserve 8 in
  resize_steps o 3 3 = Some 3%nat /\ replaces o 3 3 = 1%nat /\
  exists x w hf x' w', holds (is_small 2) x A w hf /\ small_call 2 o x w = Ok RUnit x' w'.
Proof.
  intros E A o. split; [reflexivity|]. split; [reflexivity|].
  apply (small_case_ok (E := E) 2 (ltac:(vm_compute; discriminate)) [@New E (small_vector 2) 0 (@KRange E 7 [10; 20; 30]%nat)] 0); vm_compute; reflexivity.
Qed.
(** [shrink_to_fit] leaves elements alone that are in the object. *)
Theorem C76_small_vector_shrink_cost : forall (E : Env) N x (A : SmallSpec.sabs) w hf r x' w',
  holds (is_small N) x A w hf -> small_call N OShrink x w = Ok r x' w' ->
  let s := length (q_elems A.2) in
  (tick w' <= tick w + s + 1)%nat /\ ((s <= N)%nat -> v_first x.2 = x.1 -> tick w' = tick w).
Proof. exact @small_shrink_cost. Qed.
Print Assumptions C76_small_vector_shrink_cost.
Example C76_small_vector_shrink_case : let E := calm in
  let A := ((-1, 0), VAbs 7 (3, 0) [10; 20; 30]%nat 8) in
  exists x w hf x' w', holds (is_small 2) x A w hf /\ small_call 2 OShrink x w = Ok RUnit x' w'.
Proof.
  intros E A.
  apply (small_case_ok (E := E) 2 (ltac:(vm_compute; discriminate)) [@New E (small_vector 2) 0 (@KRange E 7 [10; 20; 30]%nat);
    @Do E (small_vector 2) 0 (OReserve 8)] 0); vm_compute; reflexivity.
Qed.

(** Three elements in a small_vector with room for four: the second part applies. *)
Example C76_small_vector_shrink_inside : let E := calm in
  let A := ((-1, 0), VAbs 7 (-1, 0) [10; 20; 30]%nat 4) in
  exists x w hf x' w', holds (is_small 4) x A w hf /\ small_call 4 OShrink x w = Ok RUnit x' w'.
Proof.
  intros E A.
  apply (small_case_ok (E := E) 4 (ltac:(vm_compute; discriminate)) [@New E (small_vector 4) 0 (@KRange E 7 [10; 20; 30]%nat)] 0); vm_compute; reflexivity.
Qed.

(** ** static_vector, compact_vector *)
Theorem C76_static_vector_resize_cost : forall (E : Env) N n a x (A : tabs) w hf r x' w',
  holds (is_static N) x A w hf -> static_call N (OResize n a) x w = Ok r x' w' ->
  tick w' = (tick w + (n - length A.2))%nat.
Proof. exact @static_resize_cost. Qed.
Print Assumptions C76_static_vector_resize_cost.
Example C76_static_vector_case : let E := calm in
  let A := ((-1, 0), [10; 20; 30]%nat) in
  exists x w hf x' w', holds (is_static 5) x A w hf /\ static_call 5 (OResize 5 (XCopy 1)) x w = Ok RUnit x' w'.
Proof.
  intros E A. apply (static_case_ok (E := E) 5 [@New E (static_vector 5) 0 (@TRange E [10; 20; 30]%nat)] 0); vm_compute; reflexivity.
Qed.
(** Capacity and size of a compact_vector are the same: [n] operations and an allocation. *)
Theorem C76_compact_vector_resize_cost : forall (E : Env) n a x (A : vabs) w hf r x' w',
  holds is_compact x A w hf -> compact_call (OResize n a) x w = Ok r x' w' ->
  tick w' = (tick w + if Nat.eqb n (length (q_elems A)) then 0 else n + if Nat.eqb n 0 then 0 else 1)%nat.
Proof. exact @compact_resize_cost. Qed.
Print Assumptions C76_compact_vector_resize_cost.
Example C76_compact_vector_case : let E := calm in
  let A := VAbs 7 (1, 0) [10; 20; 30]%nat 3 in
  exists x w hf x' w', holds is_compact x A w hf /\ compact_call (OResize 2 (XVal 9%nat)) x w = Ok RUnit x' w'.
Proof.
  intros E A.
  apply (compact_case_ok (E := E) [@New E (compact_vector code_undo false) 0 (@KRange E 7 [10; 20; 30]%nat)] 0); vm_compute; reflexivity.
Qed.

(** ** devector: exact, with and without reallocation *)
Theorem C76_devector_resize_cost : forall (E : Env) o x A w hf r x' w' c,
  dev_resize_cost o (length (e_elems A)) (e_front A) (e_cap A) = Some c ->
  holds is_dev x A w hf -> dev_call o x w = Ok r x' w' -> tick w' = (tick w + c)%nat.
Proof. exact @dev_resize_run. Qed.
Print Assumptions C76_devector_resize_cost.
(** Three elements more at the front, where there is no room: six operations and an allocation. *)
Example C76_devector_case : let E := calm in
  let A := DAbs 7 (1, 0) 0 [10; 20; 30]%nat 3 in let o := DResizeFront 6 (XVal 9%nat) in
  dev_resize_cost o 3 0 3 = Some 7%nat /\
  exists x w hf x' w', holds is_dev x A w hf /\ dev_call o x w = Ok RUnit x' w'.
Proof.
  intros E A o. split; [reflexivity|].
  apply (dev_case_ok (E := E) [@New E (devector false) 0 (@KRange E 7 [10; 20; 30]%nat)] 0); vm_compute; reflexivity.
Qed.
