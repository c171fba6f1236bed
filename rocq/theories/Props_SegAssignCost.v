(** * Cost of [assign] in the segmented containers (C75)

    [tick w] counts the operations of the element type and the allocations performed
    so far.  [assigns] and [dev_assigns] (AssignSpec.v) give the number of elements after
    the call; [extra room k] bounds the number of allocations: none if the [k] elements fit
    into the [room] places there are, else at most [k / SS + 2]. *)

From Verif Require Import SegAssignCost SegRuns.
Open Scope Z_scope.

(** ** [assign(n, value)], [assign(first, last)], [assign(ilist)]

    One operation per element, however many elements there were. *)
Theorem C75_segmented_vector_assign_cost : forall (E : Env) (SZ : SegSize) ra o x (A : sabs) w hf r x' w' n,
  assigns o = Some n -> holds (is_seg false) x A w hf -> seg_call ra o x w = Ok r x' w' ->
  Z.of_nat (tick w) + Z.of_nat n <= Z.of_nat (tick w') <= Z.of_nat (tick w) + Z.of_nat n + extra (s_cap A) (Z.of_nat n).
Proof. exact @seg_assign_cost. Qed.
Print Assumptions C75_segmented_vector_assign_cost.
(** Nine values over six, with room for seven. *)
Example C75_vector_case : let E := calm in let SZ := seg4 in
  let A := SAbs 7 [(2, 0); (3, 0)] 0 [10; 20; 30; 40; 50; 60]%nat in
  let o := OAssignN 9 5%nat in
  assigns o = Some 9%nat /\ s_cap A = 7 /\ extra (s_cap A) 9 = 4 /\
  exists x w hf x' w', holds (is_seg false) x A w hf /\ seg_call true o x w = Ok RUnit x' w'.
Proof.
  intros E SZ A o. split; [reflexivity|]. split; [reflexivity|]. split; [reflexivity|].
  apply (seg_case_ok (E := E) (SZ := SZ) (ra := true)
    [@New E (segvec true) 0 (@KRange E 7 [10; 20; 30; 40; 50; 60]%nat)] 0); vm_compute; reflexivity.
Qed.

Theorem C75_segmented_devector_assign_cost : forall (E : Env) (SZ : SegSize) ra o x (A : sabs) w hf r x' w' n,
  dev_assigns o = Some n -> holds (is_seg true) x A w hf -> segd_call ra o x w = Ok r x' w' ->
  Z.of_nat (tick w) + Z.of_nat n <= Z.of_nat (tick w') <= Z.of_nat (tick w) + Z.of_nat n + extra (s_cap A) (Z.of_nat n).
Proof. exact @segd_assign_cost. Qed.
Print Assumptions C75_segmented_devector_assign_cost.
(** Seven values over four: two places in front of the elements, one behind them; no allocation. *)
Example C75_devector_case : let E := calm in let SZ := seg4 in
  let A := SAbs 7 [(2, 0); (3, 0)] 2 [30; 40; 50; 60]%nat in
  let o := DAssignRange [1; 2; 3; 4; 5; 6; 7]%nat in
  dev_assigns o = Some 7%nat /\ extra (s_cap A) 7 = 0 /\
  exists x w hf x' w', holds (is_seg true) x A w hf /\ segd_call true o x w = Ok RUnit x' w'.
Proof.
  intros E SZ A o. split; [reflexivity|]. split; [reflexivity|].
  apply (segd_case_ok (E := E) (SZ := SZ) (ra := true)
    [@New E (segdev true) 0 (@KRange E 7 [10; 20; 30; 40; 50; 60]%nat);
     @Do E (segdev true) 0 (@DPopFront E); @Do E (segdev true) 0 (@DPopFront E)] 0); vm_compute; reflexivity.
Qed.

(** ** [assign(first, last)] with input iterators

    Linear as well: at most three allocations per element. *)
Theorem C75_segmented_vector_assign_input_cost : forall (E : Env) (SZ : SegSize) ra vs x w r x' w',
  seg_call ra (OAssignInput vs) x w = Ok r x' w' -> (tick w + length vs <= tick w' <= tick w + 4 * length vs)%nat.
Proof. exact @seg_assign_input_cost. Qed.
Print Assumptions C75_segmented_vector_assign_input_cost.
Example C75_vector_input_case : let E := calm in let SZ := seg4 in
  let A := SAbs 7 [(2, 0); (3, 0)] 0 [10; 20; 30; 40; 50; 60]%nat in
  exists x w hf x' w', holds (is_seg false) x A w hf /\
    seg_call true (OAssignInput [1; 2; 3; 4; 5; 6; 7; 8; 9]%nat) x w = Ok RUnit x' w'.
Proof.
  intros E SZ A.
  apply (seg_case_ok (E := E) (SZ := SZ) (ra := true)
    [@New E (segvec true) 0 (@KRange E 7 [10; 20; 30; 40; 50; 60]%nat)] 0); vm_compute; reflexivity.
Qed.

Theorem C75_segmented_devector_assign_input_cost : forall (E : Env) (SZ : SegSize) ra vs x w r x' w',
  segd_call ra (DAssignInput vs) x w = Ok r x' w' -> (tick w + length vs <= tick w' <= tick w + 4 * length vs)%nat.
Proof. exact @segd_assign_input_cost. Qed.
Print Assumptions C75_segmented_devector_assign_input_cost.
Example C75_devector_input_case : let E := calm in let SZ := seg4 in
  let A := SAbs 7 [(2, 0); (3, 0)] 0 [10; 20; 30; 40; 50; 60]%nat in
  exists x w hf x' w', holds (is_seg true) x A w hf /\
    segd_call true (DAssignInput [1; 2; 3]%nat) x w = Ok RUnit x' w'.
Proof.
  intros E SZ A.
  apply (segd_case_ok (E := E) (SZ := SZ) (ra := true)
    [@New E (segdev true) 0 (@KRange E 7 [10; 20; 30; 40; 50; 60]%nat)] 0); vm_compute; reflexivity.
Qed.
