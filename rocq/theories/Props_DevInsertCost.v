(** * Cost of insertion and erasure in sfl::devector (C70)

    [tick w] counts the operations of the element type and the allocations performed
    so far.  [dev_inserts o s = Some (i, n)] (DevInsertSpec.v): call [o] on a container
    of [s] elements inserts [n] elements before element [i]. *)

From Verif Require Import DevInsertRefuted.
Open Scope Z_scope.

(** ** With room at the nearer end: the new elements, and the elements between the
    position and the nearer end *)
Theorem C70_devector_insert_near : forall (E : Env) o x (A : dabs) w hf r x' w' i n,
  dev_inserts o (length (e_elems A)) = Some (i, n) -> (i <= length (e_elems A))%nat -> (0 < n)%nat ->
  holds is_dev x A w hf -> Z.of_nat n <= near_room o (geom_of A) -> dev_call o x w = Ok r x' w' ->
  (tick w + near i (length (e_elems A)) + n <= tick w' <= tick w + near i (length (e_elems A)) + 2 * n + 1)%nat.
Proof. exact @dev_insert_near. Qed.
Print Assumptions C70_devector_insert_near.
(** Three elements before the second of five, four free places at the front. *)
Example C70_near_case : let E := calm in let A := DAbs 7 (2, 0) 4 [10; 20; 30; 40; 50]%nat 9 in
  dev_inserts (DInsertRange 1 [1; 2; 3]%nat) 5 = Some (1, 3)%nat /\
  Z.of_nat 3 <= near_room (DInsertRange 1 [1; 2; 3]%nat) (geom_of A) /\ near 1 5 = 1%nat /\
  exists x w hf x' w', holds is_dev x A w hf /\
    dev_call (DInsertRange 1 [1; 2; 3]%nat) x w = Ok (RIdx 1) x' w'.
Proof.
  intros E A. split; [reflexivity|]. split; [vm_compute; discriminate|]. split; [reflexivity|].
  apply (dev_case_ok (E := E) [@New E (devector false) 0 (@KRange E 7 [10; 20; 30; 40; 50]%nat);
    @Do E (devector false) 0 (DReserveFront 9)] 0); vm_compute; reflexivity.
Qed.

(** ** In any case: every element, old or new *)
Theorem C70_devector_insert_upper : forall (E : Env) o x (A : dabs) w hf r x' w' i n,
  dev_inserts o (length (e_elems A)) = Some (i, n) -> (i <= length (e_elems A))%nat ->
  holds is_dev x A w hf -> dev_call o x w = Ok r x' w' ->
  (tick w' <= tick w + length (e_elems A) + 2 * n + 2)%nat.
Proof. exact @dev_insert_any. Qed.
Print Assumptions C70_devector_insert_upper.
(** Four elements before the second of five, seven free places at the back only: the elements are shifted. *)
Example C70_upper_case : let E := calm in let A := DAbs 7 (2, 0) 0 [10; 20; 30; 40; 50]%nat 12 in
  dev_inserts (DInsertN 1 4 (XVal 9%nat)) 5 = Some (1, 4)%nat /\
  exists x w hf x' w', holds is_dev x A w hf /\
    dev_call (DInsertN 1 4 (XVal 9%nat)) x w = Ok (RIdx 1) x' w'.
Proof.
  intros E A. split; [reflexivity|].
  apply (dev_case_ok (E := E) [@New E (devector false) 0 (@KRange E 7 [10; 20; 30; 40; 50]%nat);
    @Do E (devector false) 0 (DReserveBack 12)] 0); vm_compute; reflexivity.
Qed.
(** A full container always moves all its elements. *)
Theorem C70_devector_insert_full : forall (E : Env) o x (A : dabs) w hf r x' w' i n,
  dev_inserts o (length (e_elems A)) = Some (i, n) -> (i <= length (e_elems A))%nat -> (0 < n)%nat ->
  holds is_dev x A w hf -> e_cap A = Z.of_nat (length (e_elems A)) -> dev_call o x w = Ok r x' w' ->
  (tick w + length (e_elems A) + n + 1 <= tick w')%nat.
Proof. exact @dev_insert_full. Qed.
Print Assumptions C70_devector_insert_full.
Example C70_full_case : let E := calm in let A := DAbs 7 (1, 0) 0 [10; 20; 30; 40; 50]%nat 5 in
  dev_inserts (DEmplace 4 (XMove 1)) 5 = Some (4, 1)%nat /\
  exists x w hf x' w', holds is_dev x A w hf /\
    dev_call (DEmplace 4 (XMove 1)) x w = Ok (RIdx 4) x' w'.
Proof.
  intros E A. split; [reflexivity|].
  apply (dev_case_ok (E := E) [@New E (devector false) 0 (@KRange E 7 [10; 20; 30; 40; 50]%nat)] 0); vm_compute; reflexivity.
Qed.

(** ** Erasure, exactly: the elements between the erased ones and the nearer end *)
Theorem C70_devector_erase_cost : forall (E : Env) o x (A : dabs) w hf r x' w' c,
  dev_removes o (length (e_elems A)) = Some c -> holds is_dev x A w hf ->
  dev_call o x w = Ok r x' w' -> tick w' = (tick w + c)%nat.
Proof. exact @dev_remove_cost. Qed.
Print Assumptions C70_devector_erase_cost.
Example C70_erase_case : let E := calm in let A := DAbs 7 (1, 0) 0 [10; 20; 30; 40; 50]%nat 5 in
  dev_removes (DEraseRange 1 3) 5 = Some 1%nat /\ dev_removes (DErase 3) 5 = Some 1%nat /\
  exists x w hf x' w', holds is_dev x A w hf /\
    dev_call (DEraseRange 1 3) x w = Ok (RIdx 1) x' w'.
Proof.
  intros E A. split; [reflexivity|]. split; [reflexivity|].
  apply (dev_case_ok (E := E) [@New E (devector false) 0 (@KRange E 7 [10; 20; 30; 40; 50]%nat)] 0); vm_compute; reflexivity.
Qed.

(** ** The documented bounds

    "Constant plus linear in [min(distance(begin(), pos), distance(pos, end()))]" is not a
    bound for one call: inserting before the second element moves all [m] elements
    if there is no room (the distance is 1). *)
Theorem C70_devector_min_distance_refuted : forall (E : Env) v m,
  (forall k t, may_throw k t = false) -> (1 <= m)%nat -> 2 * Z.of_nat m <= max_size ->
  exists x w r x' w',
    build (devector false) (KRange 0 (replicate m v)) tt w0 = Ok x tt w /\
    dev_call (DEmplace 1 (XVal v)) x w = Ok r x' w' /\ (tick w + m + 2 <= tick w')%nat.
Proof. exact @insert_second. Qed.
Print Assumptions C70_devector_min_distance_refuted.
(** The same is documented for [insert(pos, n, value)], where it cannot be: [n] copies
    are constructed, wherever they go (in an empty container the distance is 0). *)
Theorem C70_devector_insert_n_refuted : forall (E : Env) v n,
  (forall k t, may_throw k t = false) -> (1 <= n)%nat -> Z.of_nat n <= max_size ->
  exists x w r x' w',
    build (devector false) (KRange 0 []) tt w0 = Ok x tt w /\
    dev_call (DInsertN 0 n (XVal v)) x w = Ok r x' w' /\ (tick w + n + 1 <= tick w')%nat.
Proof. exact @insert_copies. Qed.
Print Assumptions C70_devector_insert_n_refuted.
Example C70_refuted_case : let E := calm in
  (forall k t, may_throw k t = false) /\ 2 * Z.of_nat 48 <= max_size.
Proof. intros E. split; [by intros [] t|vm_compute; discriminate]. Qed.
