(** * Properties of sfl::segmented_vector (C27, C28, parts of C29 and C31)

    [holds (is_seg false) x A w hf]: in world [w] the object [x] is a segmented_vector with
    allocator [s_alloc A] and elements [s_elems A], kept in segments of [SS] places at the
    addresses [s_segs A] (SegMem.v); the rest of memory is [hf].  [seg_call ra o x w] runs
    the member function call [o]; [ra]: iterator pairs passed to it are random access
    iterators.  [sv_pre] is the precondition (SegSpec.v). *)

From Verif Require Import SegThms SegRuns.
Open Scope Z_scope.

(** ** C28: sequence semantics

    Every call that returns.  [seq_post] is the list operation (SeqSpec.v), [sv_storage]
    says which segments there are afterwards. *)
Theorem C28_segmented_vector_sequence : forall (E : Env) (SZ : SegSize) ra o x (A : sabs) w hf r x' w',
  holds (is_seg false) x A w hf -> sv_pre o (length (s_elems A)) = true -> seg_call ra o x w = Ok r x' w' ->
  exists A', holds (is_seg false) x' A' w' hf /\ s_alloc A' = s_alloc A /\
    seq_post 0 o (s_elems A) r (s_elems A') /\ sv_storage o A A' /\
    (o = OCapacity -> r = RNum (s_cap A)) /\ fired w' = fired w.
Proof. exact @seg_returns. Qed.
Print Assumptions C28_segmented_vector_sequence.
(** Five copies of an element of the container are inserted; a segment is added. *)
Example C28_case : let E := calm in let SZ := seg4 in let A := SAbs 7 [(2, 0); (3, 0)] 0 [10; 20; 30; 40]%nat in
  sv_pre (OInsertN 2 5 (XCopy 3)) (length (s_elems A)) = true /\
  exists x w hf x' w', holds (is_seg false) x A w hf /\
    seg_call true (OInsertN 2 5 (XCopy 3)) x w = Ok (RIdx 2) x' w'.
Proof.
  intros E SZ A. split; [reflexivity|].
  apply (seg_case_ok (E := E) (SZ := SZ) (ra := true)
    [@New E (segvec true) 0 (@KRange E 7 [10; 20; 30; 40]%nat)] 0); vm_compute; reflexivity.
Qed.
(** If nothing can throw, calls return, or report that the size is too big or the index
    out of range. *)
Theorem C28_segmented_vector_total : forall (E : Env) (SZ : SegSize) ra o x (A : sabs) w hf,
  (forall k t, may_throw k t = false) ->
  holds (is_seg false) x A w hf -> sv_pre o (length (s_elems A)) = true ->
  match seg_call ra o x w with
  | Ok r x' w' => exists A', holds (is_seg false) x' A' w' hf /\ s_alloc A' = s_alloc A /\
      seq_post 0 o (s_elems A) r (s_elems A') /\ sv_storage o A A'
  | Exn e x' w' => (e = ELength /\ max_size < Z.of_nat (needed o (s_elems A)) \/
      e = EOutOfRange /\ exists i, o = OAt i /\ (length (s_elems A) <= i)%nat) /\
      exists A', holds (is_seg false) x' A' w' hf /\ sv_exn o A e A'
  | UB => False
  end.
Proof. exact @seg_calm. Qed.
Print Assumptions C28_segmented_vector_total.
Example C28_total_case : let E := calm in let SZ := seg4 in let A := SAbs 7 [(2, 0)] 0 [10; 20; 30]%nat in
  (forall k t, may_throw k t = false) /\ sv_pre (OInsertRange 1 [5; 6; 7; 8; 9]%nat) (length (s_elems A)) = true /\
  exists x w hf x' w', holds (is_seg false) x A w hf /\
    seg_call false (OInsertRange 1 [5; 6; 7; 8; 9]%nat) x w = Ok (RIdx 1) x' w'.
Proof.
  intros E SZ A. split; [by intros [] t|]. split; [reflexivity|].
  apply (seg_case_ok (E := E) (SZ := SZ) (ra := true)
    [@New E (segvec true) 0 (@KRange E 7 [10; 20; 30]%nat)] 0); vm_compute; reflexivity.
Qed.
(** at() *)
Theorem C28_segmented_vector_at : forall (E : Env) (SZ : SegSize) ra i x (A : sabs) w hf,
  holds (is_seg false) x A w hf ->
  match seg_call ra (OAt i) x w with
  | Ok r _ _ => exists v, s_elems A !! i = Some v /\ r = RVal v
  | Exn e x' w' => s_elems A !! i = None /\ e = EOutOfRange /\ holds (is_seg false) x' A w' hf
  | UB => False
  end.
Proof. exact @seg_at_eval. Qed.
Print Assumptions C28_segmented_vector_at.
Example C28_at_case : let E := calm in let SZ := seg4 in let A := SAbs 7 [(2, 0)] 0 [10; 20; 30]%nat in
  exists x w hf x' w', holds (is_seg false) x A w hf /\ seg_call true (OAt 3) x w = Exn EOutOfRange x' w'.
Proof.
  intros E SZ A. apply (seg_case_exn (E := E) (SZ := SZ) (ra := true)
    [@New E (segvec true) 0 (@KRange E 7 [10; 20; 30]%nat)] 0); vm_compute; reflexivity.
Qed.

(** ** C28: exceptions and memory

    Whatever throws, and whenever: the container is valid afterwards, and all else in
    memory is as before.  [sv_exn] says more about the state. *)
Theorem C28_segmented_vector_safe : forall (E : Env) (SZ : SegSize) ra o x (A : sabs) w hf,
  holds (is_seg false) x A w hf -> sv_pre o (length (s_elems A)) = true ->
  match seg_call ra o x w with
  | Ok _ x' w' => exists A', holds (is_seg false) x' A' w' hf
  | Exn e x' w' => exists A', holds (is_seg false) x' A' w' hf /\ sv_exn o A e A' /\ reason e w w'
  | UB => False
  end.
Proof. exact @seg_safe. Qed.
Print Assumptions C28_segmented_vector_safe.
(** The second move assignment of the elements after the position throws. *)
Example C28_safe_case : let E := throws_at 13 in let SZ := seg4 in
  let A := SAbs 7 [(2, 0); (3, 0)] 0 [10; 20; 30; 40]%nat in
  sv_pre (OInsertN 2 5 (XVal 6%nat)) (length (s_elems A)) = true /\
  exists x w hf x' w', holds (is_seg false) x A w hf /\
    seg_call true (OInsertN 2 5 (XVal 6%nat)) x w = Exn EUser x' w'.
Proof.
  intros E SZ A. split; [reflexivity|].
  apply (seg_case_exn (E := E) (SZ := SZ) (ra := true)
    [@New E (segvec true) 0 (@KRange E 7 [10; 20; 30; 40]%nat)] 0); vm_compute; reflexivity.
Qed.
Theorem C28_segmented_vector_constructors : forall (E : Env) (SZ : SegSize) ra c w hf,
  holds0 w hf ->
  match build (segvec ra) c tt w with
  | Ok x _ w' => exists A, holds (is_seg false) x A w' hf /\ sv_k_post c A /\ quiet w w'
  | Exn e _ w' => holds0 w' hf /\ k_exn (k_elems c) e /\ reason e w w'
  | UB => False
  end.
Proof. exact @seg_ctor_safe. Qed.
Print Assumptions C28_segmented_vector_constructors.
(** The allocation of the second segment fails. *)
Example C28_constructor_case : let E := throws_at 5 in let SZ := seg4 in
  holds0 w0 ∅ /\ exists w', build (segvec true) (KInput 7 [10; 20; 30; 40; 50]%nat) tt w0 = Exn EBadAlloc tt w'.
Proof.
  intros E SZ. split; [apply w0_holds|].
  edestruct (thrown_exn (build (segvec true) (@KInput E 7 [10; 20; 30; 40; 50]%nat) tt w0) EBadAlloc) as ([] & w' & H);
    [vm_compute; reflexivity|]. by exists w'.
Qed.
Theorem C28_segmented_vector_constructors2 : forall (E : Env) (SZ : SegSize) ra c y (B : sabs) w hf,
  holds (is_seg false) y B w hf ->
  match build2 (segvec ra) c y w with
  | Ok x y' w' => exists A B', holds2 (is_seg false) x A y' B' w' hf /\ sv_k2_post c B A B' /\ quiet w w'
  | Exn e y' w' => exists B', holds (is_seg false) y' B' w' hf /\ sv_k2_exn c B e B' /\ reason e w w'
  | UB => False
  end.
Proof. exact @seg_ctor2_safe. Qed.
Print Assumptions C28_segmented_vector_constructors2.
(** The move constructor allocates, and that may fail. *)
Example C28_constructor2_case : let E := throws_at 5 in let SZ := seg4 in
  exists y w hf y' w', holds (is_seg false) y (SAbs 7 [(2, 0)] 0 [10; 20; 30]%nat) w hf /\
  build2 (segvec true) FromMove y w = Exn EBadAlloc y' w'.
Proof.
  intros E SZ. apply (seg_case_exn (E := E) (SZ := SZ) (ra := true)
    [@New E (segvec true) 0 (@KRange E 7 [10; 20; 30]%nat)] 0); vm_compute; reflexivity.
Qed.
(** Copy and move assignment, swap (see C29 for its precondition), comparison. *)
Theorem C28_segmented_vector_two : forall (E : Env) (SZ : SegSize) o x (A : sabs) y B w hf,
  holds2 (is_seg false) x A y B w hf -> sv_pre2 o A B ->
  match sq_run2 sv_assign_range o (x, y) w with
  | Ok r (x', y') w' =>
      exists A' B', holds2 (is_seg false) x' A' y' B' w' hf /\ sv_post2 true o A B r A' B' /\ quiet w w'
  | Exn e (x', y') w' =>
      exists A' B', holds2 (is_seg false) x' A' y' B' w' hf /\ sv_exn2 o A B e A' B' /\ reason e w w'
  | UB => False
  end.
Proof. exact (fun E SZ => @seg_two_safe E SZ true). Qed.
Print Assumptions C28_segmented_vector_two.
Example C28_two_case : let E := calm in let SZ := seg4 in
  let A := SAbs 7 [(2, 0)] 0 [10; 20; 30]%nat in let B := SAbs 8 [(4, 0); (5, 0)] 0 [1; 2; 3; 4; 5]%nat in
  sv_pre2 PMove A B /\
  exists x y w hf x' y' w', holds2 (is_seg false) x A y B w hf /\
    sq_run2 sv_assign_range PMove (x, y) w = Ok RUnit (x', y') w'.
Proof.
  intros E SZ A B. split; [done|].
  apply (seg_case2_ok (E := E) (SZ := SZ) (ra := true)
    [@New E (segvec true) 0 (@KRange E 7 [10; 20; 30]%nat);
     @New E (segvec true) 1 (@KRange E 8 [1; 2; 3; 4; 5]%nat)] 0 1); [done|vm_compute; reflexivity].
Qed.
Theorem C28_segmented_vector_destructor : forall (E : Env) (SZ : SegSize) x (A : sabs) w hf,
  holds (is_seg false) x A w hf ->
  match sq_destructor x w with
  | Ok _ _ w' => holds0 w' hf
  | _ => False
  end.
Proof. exact (fun E SZ => @seg_dtor_safe E SZ true). Qed.
Print Assumptions C28_segmented_vector_destructor.
(** Histories of any number of segmented_vectors. *)
Theorem C28_segmented_vector_history : forall (E : Env) (SZ : SegSize) ra (cs : list (cmd (segvec ra))) w,
  wf_world w ->
  exists os P w' A h,
    exec_all (segvec ra) cs ∅ w = Some (os, P, w') /\ atrace (segvec_spec ra) cs ∅ os A /\
    pool_mem (S := segvec_spec ra) (is_seg false) P A h /\ h ##ₘ heap w /\ heap w' = h ∪ heap w /\
    ((forall e, Threw e ∉ os) -> fired w' = fired w).
Proof. exact @seg_history. Qed.
Print Assumptions C28_segmented_vector_history.
Theorem C28_segmented_vector_no_leak : forall (E : Env) (SZ : SegSize) ra (cs : list (cmd (segvec ra))) w,
  wf_world w ->
  exists os w', exec_all (segvec ra) (cs ++ (Drop <$> created cs)) ∅ w = Some (os, ∅, w') /\
                heap w' = heap w.
Proof. exact @seg_no_leak. Qed.
Print Assumptions C28_segmented_vector_no_leak.
Example C28_history_case : let E := throws_at 14 in let SZ := seg4 in
  wf_world w0 /\
  exists P w', exec_all (segvec false)
    [@New E (segvec false) 0 (@KRange E 7 [10; 20; 30]%nat);
     @New E (segvec false) 1 (@KRange E 7 [5]%nat);
     @Do E (segvec false) 0 (OEmplaceBack (XMove 1));
     @Do E (segvec false) 0 (OInsertN 2 2 (XCopy 3));
     @Do E (segvec false) 0 (OInsertN 2 2 (XCopy 3));
     @Do2 E (segvec false) 0 1 PSwap;
     @Do E (segvec false) 1 (OErase 0);
     @Drop E (segvec false) 1;
     @Do E (segvec false) 1 OClear] ∅ w0 =
    Some ([Created; Created; Returned (RIdx 3); Threw EUser; Returned (RIdx 2); Returned RUnit;
           Returned (RIdx 0); Dropped; Skipped], P, w').
Proof.
  intros E SZ. split; [apply w0_wf|]. apply outcomes_ok. vm_compute. reflexivity.
Qed.

(** ** C27: references stay valid

    Element [j] is at address [p]; the call does not remove it, assign to it or move
    from it ([sv_keeps]; for push_back and pop_back: any other element).  Then [c[j]] is
    at address [p] afterwards, and its value is the same. *)
Theorem C27_segmented_vector_references : forall (E : Env) (SZ : SegSize) ra o x (A : sabs) w hf r x' w' j v p,
  holds (is_seg false) x A w hf -> sv_pre o (length (s_elems A)) = true -> seg_call ra o x w = Ok r x' w' ->
  sv_keeps o (length (s_elems A)) j -> s_elems A !! j = Some v -> elem_at A j = Some p ->
  s_ref j x w = Ok p x w /\ s_ref j x' w' = Ok p x' w' /\ heap w' !! p = Some (Live v).
Proof. exact @seg_references. Qed.
Print Assumptions C27_segmented_vector_references.
(** push_back when all segments are full. *)
Example C27_case : let E := calm in let SZ := seg4 in let A := SAbs 7 [(2, 0)] 0 [10; 20; 30]%nat in
  sv_pre (OEmplaceBack (XCopy 1)) (length (s_elems A)) = true /\
  sv_keeps (OEmplaceBack (XCopy 1)) (length (s_elems A)) 1 /\
  s_elems A !! 1%nat = Some 20%nat /\ elem_at A 1 = Some (2, 1) /\
  exists x w hf x' w', holds (is_seg false) x A w hf /\
    seg_call true (OEmplaceBack (XCopy 1)) x w = Ok (RIdx 3) x' w'.
Proof.
  intros E SZ A. split; [reflexivity|]. split; [exact I|]. split; [reflexivity|]. split; [reflexivity|].
  apply (seg_case_ok (E := E) (SZ := SZ) (ra := true)
    [@New E (segvec true) 0 (@KRange E 7 [10; 20; 30]%nat)] 0); vm_compute; reflexivity.
Qed.
(** If a function that adds elements at the end, or reserve() or shrink_to_fit(), throws,
    the elements and their addresses are the same as before. *)
Theorem C27_segmented_vector_strong : forall (E : Env) (SZ : SegSize) ra o x (A : sabs) w hf e x' w',
  holds (is_seg false) x A w hf -> sv_pre o (length (s_elems A)) = true -> sv_strong o A ->
  seg_call ra o x w = Exn e x' w' ->
  exists A', holds (is_seg false) x' A' w' hf /\ s_alloc A' = s_alloc A /\ s_elems A' = s_elems A /\
    forall j p, (j < length (s_elems A))%nat -> elem_at A j = Some p -> elem_at A' j = Some p.
Proof. exact @seg_strong. Qed.
Print Assumptions C27_segmented_vector_strong.
(** The segment has been added, then copying the element throws. *)
Example C27_strong_case : let E := throws_at 6 in let SZ := seg4 in
  let A := SAbs 7 [(2, 0)] 0 [10; 20; 30]%nat in
  sv_pre (OEmplaceBack (XCopy 1)) (length (s_elems A)) = true /\ sv_strong (OEmplaceBack (XCopy 1)) A /\
  exists x w hf x' w', holds (is_seg false) x A w hf /\
    seg_call true (OEmplaceBack (XCopy 1)) x w = Exn EUser x' w'.
Proof.
  intros E SZ A. split; [reflexivity|]. split; [reflexivity|].
  apply (seg_case_exn (E := E) (SZ := SZ) (ra := true)
    [@New E (segvec true) 0 (@KRange E 7 [10; 20; 30]%nat)] 0); vm_compute; reflexivity.
Qed.

(** ** C29: swap

    If the allocators are equal, each container has the memory of the other one
    afterwards, whatever propagate_on_container_swap says.  Different allocators are in
    Props_Segmented.v. *)
Theorem C29_segmented_vector_swap_partial : forall (E : Env) (SZ : SegSize) x (A : sabs) y B w hf,
  holds2 (is_seg false) x A y B w hf -> s_alloc A = s_alloc B ->
  match sq_run2 sv_assign_range PSwap (x, y) w with
  | Ok r (x', y') w' => r = RUnit /\ holds2 (is_seg false) x' B y' A w' hf
  | _ => False
  end.
Proof. exact (fun E SZ => @seg_swap E SZ true). Qed.
Print Assumptions C29_segmented_vector_swap_partial.
Example C29_case : let E := calm_prop in let SZ := seg4 in
  let A := SAbs 7 [(2, 0)] 0 [10; 20; 30]%nat in let B := SAbs 7 [(4, 0); (5, 0)] 0 [1; 2; 3; 4; 5]%nat in
  pocs = true /\ s_alloc A = s_alloc B /\ exists x y w hf, holds2 (is_seg false) x A y B w hf.
Proof.
  intros E SZ A B. split; [reflexivity|]. split; [reflexivity|].
  edestruct (seg_case2_ok (E := E) (SZ := SZ) (ra := true)
    [@New E (segvec true) 0 (@KRange E 7 [10; 20; 30]%nat);
     @New E (segvec true) 1 (@KRange E 7 [1; 2; 3; 4; 5]%nat)] 0 1 (ret tt) A B)
    as (x & y & w & hf & _ & _ & _ & H & _); [done|vm_compute; reflexivity|]. by exists x, y, w, hf.
Qed.

(** ** C31: max_size()

    As long as the capacity is at most [max_size()], so is the size after every call
    but those with input iterators.  length_error is thrown only if [max_size()] would
    be exceeded (C28_segmented_vector_safe).  The other case is in Props_Segmented.v. *)
Theorem C31_segmented_vector_size_partial : forall (E : Env) (SZ : SegSize) ra o x (A : sabs) w hf r x' w',
  holds (is_seg false) x A w hf -> sv_pre o (length (s_elems A)) = true ->
  s_cap A <= max_size -> is_input o = false ->
  seg_call ra o x w = Ok r x' w' ->
  exists A', holds (is_seg false) x' A' w' hf /\ s_size A' <= max_size.
Proof. exact @seg_within_max. Qed.
Print Assumptions C31_segmented_vector_size_partial.
Example C31_case : let E := limit 11 ltac:(lia) in let SZ := seg4 in
  let A := SAbs 7 [(2, 0); (3, 0); (4, 0)] 0 [1; 2; 3; 4; 5; 6; 7; 8; 9; 10; 11]%nat in
  sv_pre (OEmplaceBack XDef) (length (s_elems A)) = true /\ s_cap A <= max_size /\
  exists x w hf x' w', holds (is_seg false) x A w hf /\
    seg_call true (OEmplaceBack XDef) x w = Exn ELength x' w'.
Proof.
  intros E SZ A. split; [reflexivity|]. split; [vm_compute; discriminate|].
  apply (seg_case_exn (E := E) (SZ := SZ) (ra := true)
    [@New E (segvec true) 0 (@KRange E 7 [1; 2; 3; 4; 5; 6; 7; 8; 9; 10; 11]%nat)] 0); vm_compute; reflexivity.
Qed.
