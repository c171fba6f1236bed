(** * Properties of sfl::segmented_devector (C52, C53, parts of C27, C29, C30 and C31)

    [holds (is_seg true) x A w hf]: in world [w] the object [x] is a segmented_devector
    with allocator [s_alloc A] and elements [s_elems A], kept in segments of [SS] places at
    the addresses [s_segs A], [s_front A] of the places free before the first element
    (SegMem.v); the rest of memory is [hf].  [segd_call ra o x w] runs the member function
    call [o]; [ra]: iterator pairs passed to it are random access iterators.  [sd_pre] is
    the precondition (SegDevSpec.v). *)

From Verif Require Import SegDevThms.
Open Scope Z_scope.

(** ** C52: double-ended sequence semantics

    Every call that returns.  [dev_post] is the list operation (DevSpec.v), [sd_storage]
    says which segments there are afterwards, and where the first element is. *)
Theorem C52_segmented_devector_sequence : forall (E : Env) (SZ : SegSize) ra o x (A : sabs) w hf r x' w',
  holds (is_seg true) x A w hf -> sd_pre o (sd_geom A) = true -> segd_call ra o x w = Ok r x' w' ->
  exists A', holds (is_seg true) x' A' w' hf /\ s_alloc A' = s_alloc A /\
    dev_post o (sd_geom A) (s_elems A) r (s_elems A') /\ sd_storage o A A' /\ fired w' = fired w.
Proof. exact @segd_returns. Qed.
Print Assumptions C52_segmented_devector_sequence.
(** Five copies of an element of the container are inserted near the front; two segments
    are added there. *)
Example C52_case : let E := calm in let SZ := seg4 in let A := SAbs 7 [(2, 0); (3, 0)] 0 [10; 20; 30; 40]%nat in
  sd_pre (DInsertN 1 5 (XCopy 3)) (sd_geom A) = true /\ near_front 1 (sd_geom A) = true /\
  exists x w hf x' w', holds (is_seg true) x A w hf /\
    segd_call true (DInsertN 1 5 (XCopy 3)) x w = Ok (RIdx 1) x' w'.
Proof.
  intros E SZ A. split; [reflexivity|]. split; [reflexivity|].
  apply (segd_case_ok (E := E) (SZ := SZ) (ra := true)
    [@New E (segdev true) 0 (@KRange E 7 [10; 20; 30; 40]%nat)] 0); vm_compute; reflexivity.
Qed.
(** If nothing can throw, calls return, or report that the capacity is too big ([sd_exn])
    or the index out of range. *)
Theorem C52_segmented_devector_total : forall (E : Env) (SZ : SegSize) ra o x (A : sabs) w hf,
  (forall k t, may_throw k t = false) ->
  holds (is_seg true) x A w hf -> sd_pre o (sd_geom A) = true ->
  match segd_call ra o x w with
  | Ok r x' w' => exists A', holds (is_seg true) x' A' w' hf /\ s_alloc A' = s_alloc A /\
      dev_post o (sd_geom A) (s_elems A) r (s_elems A') /\ sd_storage o A A'
  | Exn e x' w' => (e = ELength \/ e = EOutOfRange /\ exists i, o = DAt i /\ (length (s_elems A) <= i)%nat) /\
      exists A', holds (is_seg true) x' A' w' hf /\ sd_exn o A e A'
  | UB => False
  end.
Proof. exact @segd_calm. Qed.
Print Assumptions C52_segmented_devector_total.
Example C52_total_case : let E := calm in let SZ := seg4 in
  let A := SAbs 7 [(4, 0); (2, 0)] 3 [5; 10; 20; 30]%nat in
  (forall k t, may_throw k t = false) /\ sd_pre (DInsertRange 2 [6; 7; 8; 9]%nat) (sd_geom A) = true /\
  exists x w hf x' w', holds (is_seg true) x A w hf /\
    segd_call false (DInsertRange 2 [6; 7; 8; 9]%nat) x w = Ok (RIdx 2) x' w'.
Proof.
  intros E SZ A. split; [by intros [] t|]. split; [reflexivity|].
  apply (segd_case_ok (E := E) (SZ := SZ) (ra := true)
    [@New E (segdev true) 0 (@KRange E 7 [10; 20; 30]%nat);
     @Do E (segdev true) 0 (DEmplaceFront (@XVal E 5%nat))] 0); vm_compute; reflexivity.
Qed.
(** at() *)
Theorem C52_segmented_devector_at : forall (E : Env) (SZ : SegSize) ra i x (A : sabs) w hf,
  holds (is_seg true) x A w hf ->
  match segd_call ra (DAt i) x w with
  | Ok r _ _ => exists v, s_elems A !! i = Some v /\ r = RVal v
  | Exn e x' w' => s_elems A !! i = None /\ e = EOutOfRange /\ holds (is_seg true) x' A w' hf
  | UB => False
  end.
Proof. exact @segd_at_eval. Qed.
Print Assumptions C52_segmented_devector_at.
Example C52_at_case : let E := calm in let SZ := seg4 in let A := SAbs 7 [(2, 0)] 0 [10; 20; 30]%nat in
  exists x w hf x' w', holds (is_seg true) x A w hf /\ segd_call true (DAt 3) x w = Exn EOutOfRange x' w'.
Proof.
  intros E SZ A. apply (segd_case_exn (E := E) (SZ := SZ) (ra := true)
    [@New E (segdev true) 0 (@KRange E 7 [10; 20; 30]%nat)] 0); vm_compute; reflexivity.
Qed.

(** ** C52: exceptions and memory

    Whatever throws, and whenever: the container is valid afterwards, and all else in
    memory is as before.  [sd_exn] says more about the state. *)
Theorem C52_segmented_devector_safe : forall (E : Env) (SZ : SegSize) ra o x (A : sabs) w hf,
  holds (is_seg true) x A w hf -> sd_pre o (sd_geom A) = true ->
  match segd_call ra o x w with
  | Ok _ x' w' => exists A', holds (is_seg true) x' A' w' hf
  | Exn e x' w' => exists A', holds (is_seg true) x' A' w' hf /\ sd_exn o A e A' /\ reason e w w'
  | UB => False
  end.
Proof. exact @segd_safe. Qed.
Print Assumptions C52_segmented_devector_safe.
(** Elements are being moved towards the front, in new segments, when one of them throws. *)
Example C52_safe_case : let E := throws_at 14 in let SZ := seg4 in
  let A := SAbs 7 [(2, 0); (3, 0)] 0 [10; 20; 30; 40; 50]%nat in
  sd_pre (DInsertN 2 5 (XVal 6%nat)) (sd_geom A) = true /\ near_front 2 (sd_geom A) = true /\
  exists x w hf x' w', holds (is_seg true) x A w hf /\
    segd_call true (DInsertN 2 5 (XVal 6%nat)) x w = Exn EUser x' w'.
Proof.
  intros E SZ A. split; [reflexivity|]. split; [reflexivity|].
  apply (segd_case_exn (E := E) (SZ := SZ) (ra := true)
    [@New E (segdev true) 0 (@KRange E 7 [10; 20; 30; 40; 50]%nat)] 0); vm_compute; reflexivity.
Qed.
Theorem C52_segmented_devector_constructors : forall (E : Env) (SZ : SegSize) ra c w hf,
  holds0 w hf ->
  match build (segdev ra) c tt w with
  | Ok x _ w' => exists A, holds (is_seg true) x A w' hf /\ sv_k_post c A /\ quiet w w'
  | Exn e _ w' => holds0 w' hf /\ k_exn (k_elems c) e /\ reason e w w'
  | UB => False
  end.
Proof. exact @segd_ctor_safe. Qed.
Print Assumptions C52_segmented_devector_constructors.
(** The allocation of the second segment fails. *)
Example C52_constructor_case : let E := throws_at 5 in let SZ := seg4 in
  holds0 w0 ∅ /\ exists w', build (segdev true) (KInput 7 [10; 20; 30; 40; 50]%nat) tt w0 = Exn EBadAlloc tt w'.
Proof.
  intros E SZ. split; [apply w0_holds|].
  edestruct (thrown_exn (build (segdev true) (@KInput E 7 [10; 20; 30; 40; 50]%nat) tt w0) EBadAlloc) as ([] & w' & H);
    [vm_compute; reflexivity|]. by exists w'.
Qed.
Theorem C52_segmented_devector_constructors2 : forall (E : Env) (SZ : SegSize) ra c y (B : sabs) w hf,
  holds (is_seg true) y B w hf ->
  match build2 (segdev ra) c y w with
  | Ok x y' w' => exists A B', holds2 (is_seg true) x A y' B' w' hf /\ sv_k2_post c B A B' /\ quiet w w'
  | Exn e y' w' => exists B', holds (is_seg true) y' B' w' hf /\ sv_k2_exn c B e B' /\ reason e w w'
  | UB => False
  end.
Proof. exact @segd_ctor2_safe. Qed.
Print Assumptions C52_segmented_devector_constructors2.
(** The move constructor allocates, and that may fail. *)
Example C52_constructor2_case : let E := throws_at 5 in let SZ := seg4 in
  exists y w hf y' w', holds (is_seg true) y (SAbs 7 [(2, 0)] 0 [10; 20; 30]%nat) w hf /\
  build2 (segdev true) FromMove y w = Exn EBadAlloc y' w'.
Proof.
  intros E SZ. apply (segd_case_exn (E := E) (SZ := SZ) (ra := true)
    [@New E (segdev true) 0 (@KRange E 7 [10; 20; 30]%nat)] 0); vm_compute; reflexivity.
Qed.
(** Copy and move assignment, swap (see C29 for its precondition), comparison. *)
Theorem C52_segmented_devector_two : forall (E : Env) (SZ : SegSize) o x (A : sabs) y B w hf,
  holds2 (is_seg true) x A y B w hf -> sv_pre2 o A B ->
  match sq_run2 sd_assign_range o (x, y) w with
  | Ok r (x', y') w' =>
      exists A' B', holds2 (is_seg true) x' A' y' B' w' hf /\ sv_post2 false o A B r A' B' /\ quiet w w'
  | Exn e (x', y') w' =>
      exists A' B', holds2 (is_seg true) x' A' y' B' w' hf /\ sv_exn2 o A B e A' B' /\ reason e w w'
  | UB => False
  end.
Proof. exact (fun E SZ => @segd_two_safe E SZ true). Qed.
Print Assumptions C52_segmented_devector_two.
(** Copy assignment to a container with free places at the front. *)
Example C52_two_case : let E := calm in let SZ := seg4 in
  let A := SAbs 7 [(2, 0)] 1 [20; 30]%nat in let B := SAbs 8 [(4, 0); (5, 0)] 0 [1; 2; 3; 4; 5]%nat in
  sv_pre2 PCopy A B /\
  exists x y w hf x' y' w', holds2 (is_seg true) x A y B w hf /\
    sq_run2 sd_assign_range PCopy (x, y) w = Ok RUnit (x', y') w'.
Proof.
  intros E SZ A B. split; [done|].
  apply (segd_case2_ok (E := E) (SZ := SZ) (ra := true)
    [@New E (segdev true) 0 (@KRange E 7 [10; 20; 30]%nat);
     @New E (segdev true) 1 (@KRange E 8 [1; 2; 3; 4; 5]%nat);
     @Do E (segdev true) 0 DPopFront] 0 1); [done|vm_compute; reflexivity].
Qed.
Theorem C52_segmented_devector_destructor : forall (E : Env) (SZ : SegSize) x (A : sabs) w hf,
  holds (is_seg true) x A w hf ->
  match sq_destructor x w with
  | Ok _ _ w' => holds0 w' hf
  | _ => False
  end.
Proof. exact (fun E SZ => @segd_dtor_safe E SZ true). Qed.
Print Assumptions C52_segmented_devector_destructor.
(** Histories of any number of segmented_devectors. *)
Theorem C52_segmented_devector_history : forall (E : Env) (SZ : SegSize) ra (cs : list (cmd (segdev ra))) w,
  wf_world w ->
  exists os P w' A h,
    exec_all (segdev ra) cs ∅ w = Some (os, P, w') /\ atrace (segdev_spec ra) cs ∅ os A /\
    pool_mem (S := segdev_spec ra) (is_seg true) P A h /\ h ##ₘ heap w /\ heap w' = h ∪ heap w /\
    ((forall e, Threw e ∉ os) -> fired w' = fired w).
Proof. exact @segd_history. Qed.
Print Assumptions C52_segmented_devector_history.
Theorem C52_segmented_devector_no_leak : forall (E : Env) (SZ : SegSize) ra (cs : list (cmd (segdev ra))) w,
  wf_world w ->
  exists os w', exec_all (segdev ra) (cs ++ (Drop <$> created cs)) ∅ w = Some (os, ∅, w') /\
                heap w' = heap w.
Proof. exact @segd_no_leak. Qed.
Print Assumptions C52_segmented_devector_no_leak.
Example C52_history_case : let E := throws_at 14 in let SZ := seg4 in
  wf_world w0 /\
  exists P w', exec_all (segdev false)
    [@New E (segdev false) 0 (@KRange E 7 [10; 20; 30]%nat);
     @New E (segdev false) 1 (@KRange E 7 [5]%nat);
     @Do E (segdev false) 0 (DEmplaceFront (XMove 1));
     @Do E (segdev false) 0 (DInsertN 2 2 (XCopy 3));
     @Do E (segdev false) 0 (DInsertN 2 2 (XCopy 3));
     @Do2 E (segdev false) 0 1 PSwap;
     @Do E (segdev false) 1 (DErase 0);
     @Do E (segdev false) 1 DRoomFront;
     @Drop E (segdev false) 1;
     @Do E (segdev false) 1 DClear] ∅ w0 =
    Some ([Created; Created; Returned (RIdx 0); Threw EUser; Returned (RIdx 2); Returned RUnit;
           Returned (RIdx 0); Returned (RNum 4); Dropped; Skipped], P, w').
Proof.
  intros E SZ. split; [apply w0_wf|]. apply outcomes_ok. vm_compute. reflexivity.
Qed.

(** ** C53: resize(n) appends or removes at the end

    The claim is false: if there is not enough room at the back, but free places at the
    front, elements are put before the first one. *)
Theorem C53_segmented_devector_resize_refuted :
  exists (E : Env) (SZ : SegSize) ra n v x (A : sabs) w hf r x' w' (A' : sabs),
    holds (is_seg true) x A w hf /\ segd_call ra (DResize n (XVal v)) x w = Ok r x' w' /\
    holds (is_seg true) x' A' w' hf /\ (length (s_elems A) < n)%nat /\
    s_elems A' <> s_elems A ++ replicate (n - length (s_elems A)) v.
Proof. exact segd_resize_refuted. Qed.
Print Assumptions C53_segmented_devector_resize_refuted.
(** It holds if there is no room at the front or enough at the back. *)
Theorem C53_segmented_devector_resize_partial : forall (E : Env) (SZ : SegSize) ra n v x (A : sabs) w hf r x' w',
  holds (is_seg true) x A w hf ->
  (s_front A = 0 \/ Z.of_nat n <= s_cap A - s_front A) ->
  segd_call ra (DResize n (XVal v)) x w = Ok r x' w' ->
  exists A', holds (is_seg true) x' A' w' hf /\
    s_elems A' = take n (s_elems A) ++ replicate (n - length (s_elems A)) v.
Proof. exact @segd_resize_back. Qed.
Print Assumptions C53_segmented_devector_resize_partial.
Example C53_case : let E := calm in let SZ := seg4 in let A := SAbs 7 [(2, 0); (3, 0)] 1 [20; 30; 40; 50]%nat in
  (s_front A = 0 \/ 6 <= s_cap A - s_front A) /\
  exists x w hf x' w', holds (is_seg true) x A w hf /\ segd_call true (DResize 6 (XVal 4%nat)) x w = Ok RUnit x' w'.
Proof.
  intros E SZ A. split; [right; vm_compute; discriminate|].
  apply (segd_case_ok (E := E) (SZ := SZ) (ra := true)
    [@New E (segdev true) 0 (@KRange E 7 [10; 20; 30; 40; 50]%nat); @Do E (segdev true) 0 DPopFront] 0); vm_compute; reflexivity.
Qed.

(** ** C27: references stay valid

    Element [j] is at address [p]; the call does not remove it, assign to it or move
    from it, and it becomes element [j'] ([sd_keeps]; for push_front and push_back: every
    element, for pop_front and pop_back: every other element).  Then [c[j']] is
    at address [p] afterwards, and its value is the same. *)
Theorem C27_segmented_devector_references : forall (E : Env) (SZ : SegSize) ra o x (A : sabs) w hf r x' w' j j' v p,
  holds (is_seg true) x A w hf -> sd_pre o (sd_geom A) = true -> segd_call ra o x w = Ok r x' w' ->
  sd_keeps o A j j' -> s_elems A !! j = Some v -> elem_at A j = Some p ->
  s_ref j x w = Ok p x w /\ s_ref j' x' w' = Ok p x' w' /\ heap w' !! p = Some (Live v).
Proof. exact @segd_references. Qed.
Print Assumptions C27_segmented_devector_references.
(** push_front when there are no free places. *)
Example C27_devector_case : let E := calm in let SZ := seg4 in let A := SAbs 7 [(2, 0)] 0 [10; 20; 30]%nat in
  sd_pre (DEmplaceFront (XCopy 1)) (sd_geom A) = true /\
  sd_keeps (DEmplaceFront (XCopy 1)) A 1 2 /\
  s_elems A !! 1%nat = Some 20%nat /\ elem_at A 1 = Some (2, 1) /\
  exists x w hf x' w', holds (is_seg true) x A w hf /\
    segd_call true (DEmplaceFront (XCopy 1)) x w = Ok (RIdx 0) x' w'.
Proof.
  intros E SZ A. split; [reflexivity|]. split; [done|]. split; [reflexivity|]. split; [reflexivity|].
  apply (segd_case_ok (E := E) (SZ := SZ) (ra := true)
    [@New E (segdev true) 0 (@KRange E 7 [10; 20; 30]%nat)] 0); vm_compute; reflexivity.
Qed.
(** If a function that adds elements at one end, or reserve_front(), reserve_back() or
    shrink_to_fit(), throws, the elements and their addresses are the same as before. *)
Theorem C27_segmented_devector_strong : forall (E : Env) (SZ : SegSize) ra o x (A : sabs) w hf e x' w',
  holds (is_seg true) x A w hf -> sd_pre o (sd_geom A) = true -> sd_strong o A ->
  segd_call ra o x w = Exn e x' w' ->
  exists A', holds (is_seg true) x' A' w' hf /\ s_alloc A' = s_alloc A /\ s_elems A' = s_elems A /\
    forall j p, (j < length (s_elems A))%nat -> elem_at A j = Some p -> elem_at A' j = Some p.
Proof. exact @segd_strong. Qed.
Print Assumptions C27_segmented_devector_strong.
(** The segment has been added, then copying the element throws. *)
Example C27_devector_strong_case : let E := throws_at 7 in let SZ := seg4 in
  let A := SAbs 7 [(2, 0)] 0 [10; 20; 30]%nat in
  sd_pre (DEmplaceFront (XCopy 1)) (sd_geom A) = true /\ sd_strong (DEmplaceFront (XCopy 1)) A /\
  exists x w hf x' w', holds (is_seg true) x A w hf /\
    segd_call true (DEmplaceFront (XCopy 1)) x w = Exn EUser x' w'.
Proof.
  intros E SZ A. split; [reflexivity|]. split; [reflexivity|].
  apply (segd_case_exn (E := E) (SZ := SZ) (ra := true)
    [@New E (segdev true) 0 (@KRange E 7 [10; 20; 30]%nat)] 0); vm_compute; reflexivity.
Qed.

(** ** C29: swap

    If the allocators are equal, each container has the memory of the other one
    afterwards, whatever propagate_on_container_swap says.  Different allocators are in
    Props_Segmented.v. *)
Theorem C29_segmented_devector_swap_partial : forall (E : Env) (SZ : SegSize) x (A : sabs) y B w hf,
  holds2 (is_seg true) x A y B w hf -> s_alloc A = s_alloc B ->
  match sq_run2 sd_assign_range PSwap (x, y) w with
  | Ok r (x', y') w' => r = RUnit /\ holds2 (is_seg true) x' B y' A w' hf
  | _ => False
  end.
Proof. exact (fun E SZ => @segd_swap E SZ true). Qed.
Print Assumptions C29_segmented_devector_swap_partial.
Example C29_devector_case : let E := calm_prop in let SZ := seg4 in
  let A := SAbs 7 [(2, 0)] 1 [20; 30]%nat in let B := SAbs 7 [(4, 0); (5, 0)] 0 [1; 2; 3; 4; 5]%nat in
  pocs = true /\ s_alloc A = s_alloc B /\ exists x y w hf, holds2 (is_seg true) x A y B w hf.
Proof.
  intros E SZ A B. split; [reflexivity|]. split; [reflexivity|].
  edestruct (segd_case2_ok (E := E) (SZ := SZ) (ra := true)
    [@New E (segdev true) 0 (@KRange E 7 [10; 20; 30]%nat);
     @New E (segdev true) 1 (@KRange E 7 [1; 2; 3; 4; 5]%nat);
     @Do E (segdev true) 0 DPopFront] 0 1 (ret tt) A B)
    as (x & y & w & hf & _ & _ & _ & H & _); [done|vm_compute; reflexivity|]. by exists x, y, w, hf.
Qed.

(** ** C30: inserting a range

    Memory safe if the position is in the first half of the container, or the range is
    not longer than the number of places before end().  The other case is in
    Props_Segmented.v. *)
Theorem C30_insert_range_partial : forall (E : Env) (SZ : SegSize) ra i vs x (A : sabs) w hf,
  holds (is_seg true) x A w hf -> (i <= length (s_elems A))%nat ->
  (2 * Z.of_nat i < s_size A \/ Z.of_nat (length vs) <= s_front A + s_size A) ->
  match segd_call ra (DInsertRange i vs) x w with
  | Ok r x' w' => exists A', holds (is_seg true) x' A' w' hf /\ r = RIdx (Z.of_nat i) /\
      s_elems A' = take i (s_elems A) ++ vs ++ drop i (s_elems A)
  | Exn _ x' w' => exists A', holds (is_seg true) x' A' w' hf
  | UB => False
  end.
Proof. exact @segd_insert_range. Qed.
Print Assumptions C30_insert_range_partial.
Example C30_partial_case : let E := calm in let SZ := seg4 in
  let A := SAbs 7 [(2, 0)] 0 [10; 20; 30]%nat in
  (3 <= length (s_elems A))%nat /\ 3 <= s_front A + s_size A /\
  exists x w hf x' w', holds (is_seg true) x A w hf /\
    segd_call true (DInsertRange 3 [6; 7; 8]%nat) x w = Ok (RIdx 3) x' w'.
Proof.
  intros E SZ A. split; [reflexivity|]. split; [vm_compute; discriminate|].
  apply (segd_case_ok (E := E) (SZ := SZ) (ra := true)
    [@New E (segdev true) 0 (@KRange E 7 [10; 20; 30]%nat)] 0); vm_compute; reflexivity.
Qed.

(** ** C31: max_size()

    As long as the capacity is at most [max_size()], so is the size after every call
    but those with input iterators.  The other case is in Props_Segmented.v. *)
Theorem C31_segmented_devector_size_partial : forall (E : Env) (SZ : SegSize) ra o x (A : sabs) w hf r x' w',
  holds (is_seg true) x A w hf -> sd_pre o (sd_geom A) = true ->
  s_cap A <= max_size -> d_input o = false ->
  segd_call ra o x w = Ok r x' w' ->
  exists A', holds (is_seg true) x' A' w' hf /\ s_size A' <= max_size.
Proof. exact @segd_within_max. Qed.
Print Assumptions C31_segmented_devector_size_partial.
Example C31_devector_case : let E := limit 11 ltac:(lia) in let SZ := seg4 in
  let A := SAbs 7 [(2, 0); (3, 0); (4, 0)] 0 [1; 2; 3; 4; 5; 6; 7; 8; 9; 10; 11]%nat in
  sd_pre (DEmplaceFront XDef) (sd_geom A) = true /\ s_cap A <= max_size /\
  exists x w hf x' w', holds (is_seg true) x A w hf /\
    segd_call true (DEmplaceFront XDef) x w = Exn ELength x' w'.
Proof.
  intros E SZ A. split; [reflexivity|]. split; [vm_compute; discriminate|].
  apply (segd_case_exn (E := E) (SZ := SZ) (ra := true)
    [@New E (segdev true) 0 (@KRange E 7 [1; 2; 3; 4; 5; 6; 7; 8; 9; 10; 11]%nat)] 0); vm_compute; reflexivity.
Qed.
