(** * assign(n, value) with an element of the container as value: segmented containers (C72)

    [seg_assign_own n i] is the call [c.assign(n, c[i])] (OwnSeg.v).  Elements stay where
    they are when the storage grows, so there is no condition on [n]. *)

From Verif Require Import OwnSeg SegRuns.
Open Scope Z_scope.

Theorem C72_segmented_vector_assign_own : forall (E : Env) (SZ : SegSize) n i v x (A : sabs) w hf,
  holds (is_seg false) x A w hf -> s_elems A !! i = Some v ->
  match seg_assign_own n i x w with
  | Ok r x' w' => exists A' : sabs,
      (r = RUnit /\ exists new, A' = SAbs (s_alloc A) (s_segs A ++ new) (s_front A) (replicate n v) /\
         (Z.of_nat n <= s_cap A -> new = [])) /\
      holds (is_seg false) x' A' w' hf /\ quiet w w'
  | Exn e x' w' => exists A' : sabs,
      (exists new l', A' = SAbs (s_alloc A) (s_segs A ++ new) (s_front A) l' /\ length l' = length (s_elems A) /\
         (e <> EUser -> new = [] /\ l' = s_elems A /\ s_cap A < Z.of_nat n)) /\
      holds (is_seg false) x' A' w' hf /\ reason e w w'
  | UB => False
  end.
Proof. exact @seg_assign_own_ok. Qed.
Print Assumptions C72_segmented_vector_assign_own.
(** Two segments of four, then four more. *)
Example C72_segvec_case : let E := calm in let SZ := seg4 in
  let A := SAbs 7 [(2, 0); (3, 0)] 0 [10; 20; 30; 40; 50; 60]%nat in
  s_elems A !! 4%nat = Some 50%nat /\
  exists x w hf x' w', holds (is_seg false) x A w hf /\ seg_assign_own 20 4 x w = Ok RUnit x' w'.
Proof.
  intros E SZ A. split; [reflexivity|].
  apply (seg_case_ok (E := E) (SZ := SZ) (ra := true)
    [@New E (segvec true) 0 (@KRange E 7 [10; 20; 30; 40; 50; 60]%nat)] 0); vm_compute; reflexivity.
Qed.
Theorem C72_segmented_devector_assign_own : forall (E : Env) (SZ : SegSize) n i v x (A : sabs) w hf,
  holds (is_seg true) x A w hf -> s_elems A !! i = Some v ->
  match segd_assign_own n i x w with
  | Ok r x' w' => exists A' : sabs,
      (r = RUnit /\ exists new, A' = SAbs (s_alloc A) (s_segs A ++ new)
           (s_front A - Z.max 0 (Z.min (s_front A) (Z.of_nat n - (s_cap A - s_front A)))) (replicate n v) /\
         (Z.of_nat n <= s_cap A -> new = [])) /\
      holds (is_seg true) x' A' w' hf /\ quiet w w'
  | Exn e x' w' => exists A' : sabs,
      (exists new l', A' = SAbs (s_alloc A) (s_segs A ++ new) (s_front A) l' /\
         (length (s_elems A) <= length l' <= Nat.max n (length (s_elems A)))%nat /\
         (e <> EUser -> new = [] /\ l' = s_elems A /\ s_cap A < Z.of_nat n)) /\
      holds (is_seg true) x' A' w' hf /\ reason e w w'
  | UB => False
  end.
Proof. exact @segd_assign_own_ok. Qed.
Print Assumptions C72_segmented_devector_assign_own.
Example C72_segdev_case : let E := calm in let SZ := seg4 in
  let A := SAbs 7 [(2, 0); (3, 0)] 0 [10; 20; 30; 40; 50; 60]%nat in
  s_elems A !! 4%nat = Some 50%nat /\
  exists x w hf x' w', holds (is_seg true) x A w hf /\ segd_assign_own 20 4 x w = Ok RUnit x' w'.
Proof.
  intros E SZ A. split; [reflexivity|].
  apply (segd_case_ok (E := E) (SZ := SZ) (ra := true)
    [@New E (segdev true) 0 (@KRange E 7 [10; 20; 30; 40; 50; 60]%nat)] 0); vm_compute; reflexivity.
Qed.
