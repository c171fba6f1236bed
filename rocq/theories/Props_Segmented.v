(** * Properties of segmented_vector and segmented_devector

    The client programs are in SegRuns.v. *)

From Verif Require Import SegRuns.
Open Scope Z_scope.

(** ** Swap (C29)

    If the allocators propagate on swap and are different, then after [swap] each
    container has the allocator of the other one's storage: the destructors
    release memory with the wrong allocator.  Without [swap], or with equal
    allocators, the same program runs to its end. *)
Theorem C29_swap_refuted : exists (E : Env) (SZ : SegSize) (a b : nat),
  pocs = true /\
  make_and_destroy E SZ true (sg_fresh a, sg_fresh b) w0 = UB /\
  returned (make_and_destroy E SZ false (sg_fresh a, sg_fresh b) w0) = Some tt /\
  returned (make_and_destroy E SZ true (sg_fresh a, sg_fresh a) w0) = Some tt.
Proof. exists calm_prop, seg4, 1%nat, 2%nat. split_and!; vm_compute; reflexivity. Qed.
Print Assumptions C29_swap_refuted.

(** ** Inserting a range into a segmented_devector (C30)

    Inserting a range at the end of a container with fewer elements before
    [last_] than the range has reads the table before its first entry; appending
    the same elements one by one is fine. *)
Theorem C30_insert_range_refuted : exists (E : Env) (SZ : SegSize) (n : Z) (vs : list V),
  insert_at_end E SZ n vs (sg_fresh 1) w0 = UB /\
  returned (push_all E SZ n vs (sg_fresh 1) w0) = Some tt.
Proof. exists calm, seg4, 3, [7; 8; 9; 10]%nat. split; vm_compute; reflexivity. Qed.
Print Assumptions C30_insert_range_refuted.
(** The empty container, one element. *)
Theorem C30_insert_range_empty_refuted : exists (E : Env) (SZ : SegSize) (v : V),
  insert_at_end E SZ 0 [v] (sg_fresh 1) w0 = UB.
Proof. exists calm, seg4, 7%nat. vm_compute. reflexivity. Qed.
Print Assumptions C30_insert_range_empty_refuted.

(** ** max_size (C31)

    Once the capacity exceeds [max_size()] (it is rounded up to whole segments),
    the check of [grow_storage] subtracts it from [max_size()] in unsigned
    arithmetic and never fails again. *)
Theorem C31_size_within_max_refuted : exists (E : Env) (SZ : SegSize) (vs : list V) (n : Z),
  returned (append_all E SZ 9 vs (sg_fresh 1) w0) = Some n /\ max_size < n.
Proof.
  exists (limit 10 ltac:(lia)), seg4, (replicate 31 7%nat), 40. split; vm_compute; reflexivity.
Qed.
Print Assumptions C31_size_within_max_refuted.

(** ** A queue (C51)

    A segmented_devector never reuses the segments that [pop_front] has left
    behind: used as a queue of at most two elements, its capacity grows with the
    number of elements that have passed through it, until it throws
    length_error. *)
Theorem C51_queue_refuted : exists (E : Env) (SZ : SegSize) (v : V),
  2 <= max_size /\
  returned (queue E SZ 90 v (sg_fresh 1) w0) = Some 1 /\
  thrown (queue E SZ 100 v (sg_fresh 1) w0) = Some ELength.
Proof.
  exists (limit 99 ltac:(lia)), seg4, 7%nat. split; [vm_compute; discriminate|]. split; vm_compute; reflexivity.
Qed.
Print Assumptions C51_queue_refuted.
