(** * assign(n, value) with an element of the container as value (C72)

    [vec_assign_own n i] is the call [c.assign(n, c[i])], and so on (OwnContig.v,
    OwnDev.v). *)

From Verif Require Import OwnContig OwnDev.
Open Scope Z_scope.
Notation fits := SmallProofs.fits.

(** ** Enough storage: n copies of the value the element had before the call *)
Theorem C72_vector_assign_own : forall (E : Env) n i v x A w hf,
  holds is_vec x A w hf -> q_elems A !! i = Some v -> Z.of_nat n <= q_cap A ->
  match vec_assign_own n i x w with
  | Ok r x' w' => exists A',
      (r = RUnit /\ A' = VAbs (q_alloc A) (q_data A) (replicate n v) (q_cap A)) /\
      holds is_vec x' A' w' hf /\ quiet w w'
  | Exn e x' w' => exists A',
      (e = EUser /\ exists l', length l' = length (q_elems A) /\ A' = VAbs (q_alloc A) (q_data A) l' (q_cap A)) /\
      holds is_vec x' A' w' hf /\ reason e w w'
  | UB => False
  end.
Proof. exact @vec_assign_own_ok. Qed.
Print Assumptions C72_vector_assign_own.
(** The element is overwritten, or destroyed, during the call. *)
Example C72_vector_case : let E := calm in let A := VAbs 7 (2, 0) [10; 20; 30]%nat 8 in
  q_elems A !! 2%nat = Some 30%nat /\ Z.of_nat 5 <= q_cap A /\ Z.of_nat 2 <= q_cap A /\
  (exists x w hf x' w', holds is_vec x A w hf /\ vec_assign_own 5 2 x w = Ok RUnit x' w') /\
  exists x w hf x' w', holds is_vec x A w hf /\ vec_assign_own 2 2 x w = Ok RUnit x' w'.
Proof.
  intros E A. split; [reflexivity|]. split; [vm_compute; discriminate|]. split; [vm_compute; discriminate|].
  split; apply (vec_case_ok (E := E) [@New E vector 0 (@KRange E 7 [10; 20; 30]%nat); @Do E vector 0 (OReserve 8)] 0); vm_compute; reflexivity.
Qed.
Theorem C72_small_vector_assign_own : forall (E : Env) N n i v x (A : sabs) w hf,
  fits N -> holds (is_small N) x A w hf -> q_elems A.2 !! i = Some v -> Z.of_nat n <= q_cap A.2 ->
  match small_assign_own N n i x w with
  | Ok r x' w' => exists A' : sabs,
      (r = RUnit /\ A' = (A.1, VAbs (q_alloc A.2) (q_data A.2) (replicate n v) (q_cap A.2))) /\
      holds (is_small N) x' A' w' hf /\ quiet w w'
  | Exn e x' w' => exists A' : sabs,
      (e = EUser /\ exists l', length l' = length (q_elems A.2) /\
         A' = (A.1, VAbs (q_alloc A.2) (q_data A.2) l' (q_cap A.2))) /\
      holds (is_small N) x' A' w' hf /\ reason e w w'
  | UB => False
  end.
Proof. exact @small_assign_own_ok. Qed.
Print Assumptions C72_small_vector_assign_own.
Example C72_small_case : let E := calm in let A : sabs := ((-1, 0), VAbs 7 (-1, 0) [10; 20; 30]%nat 6) in
  fits 6 /\ q_elems A.2 !! 1%nat = Some 20%nat /\ Z.of_nat 6 <= q_cap A.2 /\
  exists x w hf x' w', holds (is_small 6) x A w hf /\ small_assign_own 6 6 1 x w = Ok RUnit x' w'.
Proof.
  intros E A. split; [vm_compute; discriminate|]. split; [reflexivity|]. split; [vm_compute; discriminate|].
  apply (small_case_ok (E := E) 6 (ltac:(vm_compute; discriminate)) [@New E (small_vector 6) 0 (@KRange E 7 [10; 20; 30]%nat)] 0); vm_compute; reflexivity.
Qed.
Theorem C72_static_vector_assign_own : forall (E : Env) N n i v x (A : tabs) w hf,
  holds (is_static N) x A w hf -> A.2 !! i = Some v -> (n <= N)%nat ->
  match static_assign_own N n i x w with
  | Ok r x' w' => exists A' : tabs,
      (r = RUnit /\ A' = (A.1, replicate n v)) /\ holds (is_static N) x' A' w' hf /\ quiet w w'
  | Exn e x' w' => exists A' : tabs,
      (e = EUser /\ exists l', length l' = length A.2 /\ A' = (A.1, l')) /\
      holds (is_static N) x' A' w' hf /\ reason e w w'
  | UB => False
  end.
Proof. exact @static_assign_own_ok. Qed.
Print Assumptions C72_static_vector_assign_own.
Example C72_static_case : let E := calm in let A : tabs := ((-1, 0), [10; 20; 30]%nat) in
  A.2 !! 2%nat = Some 30%nat /\ (1 <= 5)%nat /\
  exists x w hf x' w', holds (is_static 5) x A w hf /\ static_assign_own 5 1 2 x w = Ok RUnit x' w'.
Proof.
  intros E A. split; [reflexivity|]. split; [lia|].
  apply (static_case_ok (E := E) 5 [@New E (static_vector 5) 0 (@TRange E [10; 20; 30]%nat)] 0); vm_compute; reflexivity.
Qed.
(** compact_vector: the storage is kept only if the number of elements stays the same. *)
Theorem C72_compact_vector_assign_own : forall (E : Env) i v x A w hf,
  holds is_compact x A w hf -> q_elems A !! i = Some v ->
  match compact_assign_own (length (q_elems A)) i x w with
  | Ok r x' w' => exists A',
      (r = RUnit /\ A' = VAbs (q_alloc A) (q_data A) (replicate (length (q_elems A)) v) (q_cap A)) /\
      holds is_compact x' A' w' hf /\ quiet w w'
  | Exn e x' w' => exists A',
      (e = EUser /\ exists l', length l' = length (q_elems A) /\ A' = VAbs (q_alloc A) (q_data A) l' (q_cap A)) /\
      holds is_compact x' A' w' hf /\ reason e w w'
  | UB => False
  end.
Proof. exact @compact_assign_own_ok. Qed.
Print Assumptions C72_compact_vector_assign_own.
Example C72_compact_case : let E := calm in let A := VAbs 7 (1, 0) [10; 20; 30]%nat 3 in
  q_elems A !! 1%nat = Some 20%nat /\
  exists x w hf x' w', holds is_compact x A w hf /\ compact_assign_own (length (q_elems A)) 1 x w = Ok RUnit x' w'.
Proof.
  intros E A. split; [reflexivity|].
  apply (compact_case_ok (E := E) [@New E (compact_vector code_undo false) 0 (@KRange E 7 [10; 20; 30]%nat)] 0); vm_compute; reflexivity.
Qed.
(** devector: room at either end counts. *)
Theorem C72_devector_assign_own : forall (E : Env) n i v x A w hf,
  holds is_dev x A w hf -> e_elems A !! i = Some v -> Z.of_nat n <= e_cap A ->
  match dev_assign_own n i x w with
  | Ok r x' w' => exists A',
      (r = RUnit /\ A' = DAbs (e_alloc A) (e_bos A) (Z.min (e_front A) (e_cap A - Z.of_nat n)) (replicate n v) (e_cap A)) /\
      holds is_dev x' A' w' hf /\ quiet w w'
  | Exn e x' w' => exists A',
      (e = EUser /\ exists l', A' = DAbs (e_alloc A) (e_bos A) (e_front A) l' (e_cap A)) /\
      holds is_dev x' A' w' hf /\ reason e w w'
  | UB => False
  end.
Proof. exact @dev_assign_own_ok. Qed.
Print Assumptions C72_devector_assign_own.
Example C72_devector_case : let E := calm in let A := DAbs 7 (2, 0) 4 [10; 20; 30]%nat 7 in
  e_elems A !! 1%nat = Some 20%nat /\ Z.of_nat 6 <= e_cap A /\
  exists x w hf x' w', holds is_dev x A w hf /\ dev_assign_own 6 1 x w = Ok RUnit x' w'.
Proof.
  intros E A. split; [reflexivity|]. split; [vm_compute; discriminate|].
  apply (dev_case_ok (E := E) [@New E (devector false) 0 (@KRange E 7 [10; 20; 30]%nat); @Do E (devector false) 0 (DReserveFront 7)] 0); vm_compute; reflexivity.
Qed.

(** ** Reallocation: false

    The documentation asks nothing of [value] ("Replaces the contents of the container
    with `n` copies of value `value`").  When the storage is replaced the old elements
    are gone before [value] is read for the first time. *)
Theorem C72_vector_assign_own_refuted : exists (E : Env) n i v x A w hf,
  holds is_vec x A w hf /\ q_elems A !! i = Some v /\ Z.of_nat n <= max_size /\ vec_assign_own n i x w = UB.
Proof.
  exists calm, 4%nat, 1%nat, 20%nat.
  edestruct (vec_case_ub (E := calm) [@New calm vector 0 (@KRange calm 7 [10; 20; 30]%nat)] 0 _
    (@vec_assign_own calm 4 1)) as (x & w & hf & Hx & Hr); [vm_compute; reflexivity|].
  exists x. eexists _, w, hf. split; [exact Hx|]. split; [reflexivity|]. split; [vm_compute; discriminate|exact Hr].
Qed.
Print Assumptions C72_vector_assign_own_refuted.
Theorem C72_small_vector_assign_own_refuted : exists (E : Env) N n i v x (A : sabs) w hf,
  fits N /\ holds (is_small N) x A w hf /\ q_elems A.2 !! i = Some v /\ Z.of_nat n <= max_size /\
  small_assign_own N n i x w = UB.
Proof.
  exists calm, 3%nat, 4%nat, 1%nat, 20%nat.
  edestruct (small_case_ub (E := calm) 3 (ltac:(vm_compute; discriminate)) [@New calm (small_vector 3) 0 (@KRange calm 7 [10; 20; 30]%nat)] 0 _
    (@small_assign_own calm 3 4 1)) as (x & w & hf & Hx & Hr); [vm_compute; reflexivity|].
  exists x. eexists _, w, hf. split; [vm_compute; discriminate|]. split; [exact Hx|]. split; [reflexivity|]. split; [vm_compute; discriminate|exact Hr].
Qed.
Print Assumptions C72_small_vector_assign_own_refuted.
(** Even to fewer elements. *)
Theorem C72_compact_vector_assign_own_refuted : exists (E : Env) n i v x A w hf,
  holds is_compact x A w hf /\ q_elems A !! i = Some v /\ (n < length (q_elems A))%nat /\ compact_assign_own n i x w = UB.
Proof.
  exists calm, 2%nat, 1%nat, 20%nat.
  edestruct (compact_case_ub (E := calm) [@New calm (compact_vector code_undo false) 0 (@KRange calm 7 [10; 20; 30]%nat)] 0
    (@compact_assign_own calm 2 1)) as (x & w & hf & Hx & Hr); [vm_compute; reflexivity|].
  exists x. eexists _, w, hf. split; [exact Hx|]. split; [reflexivity|]. split; [vm_compute; lia|exact Hr].
Qed.
Print Assumptions C72_compact_vector_assign_own_refuted.
Theorem C72_devector_assign_own_refuted : exists (E : Env) n i v x A w hf,
  holds is_dev x A w hf /\ e_elems A !! i = Some v /\ Z.of_nat n <= max_size /\ dev_assign_own n i x w = UB.
Proof.
  exists calm, 4%nat, 1%nat, 20%nat.
  edestruct (dev_case_ub (E := calm) [@New calm (devector false) 0 (@KRange calm 7 [10; 20; 30]%nat)] 0 _
    (@dev_assign_own calm 4 1)) as (x & w & hf & Hx & Hr); [vm_compute; reflexivity|].
  exists x. eexists _, w, hf. split; [exact Hx|]. split; [reflexivity|]. split; [vm_compute; discriminate|exact Hr].
Qed.
Print Assumptions C72_devector_assign_own_refuted.
