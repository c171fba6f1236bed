(** * Properties of sfl::devector (C22 - C25, C45, C46, C48 - C50)

    [holds is_dev x A w hf]: in world [w] the object [x] is a devector with allocator
    [e_alloc A] and elements [e_elems A], in a block of [e_cap A] places that begins at
    [e_bos A], [e_front A] of them free before the first element (DevMem.v); the rest of
    memory is [hf].  [dev_call o x w] runs the member function call [o] of the code as
    it is; [dev_doc] is its documented precondition (DevSpec.v). *)

From Verif Require Import DevDemo.
Open Scope Z_scope.

(** ** C22: sequence semantics

    Every call that returns, in every environment and every geometry.  [dev_post] is the
    list operation, [dev_storage_post] says where the elements are afterwards. *)
Theorem C22_devector_sequence : forall (E : Env) o x (A : dabs) w hf r x' w',
  holds is_dev x A w hf -> dev_doc o (geom_of A) = true -> dev_call o x w = Ok r x' w' ->
  exists A', holds is_dev x' A' w' hf /\ e_alloc A' = e_alloc A /\
    dev_post o (geom_of A) (e_elems A) r (e_elems A') /\ dev_storage_post o A A' /\ fired w' = fired w.
Proof. exact @dev_returns. Qed.
Print Assumptions C22_devector_sequence.
(** An element of the container is inserted before itself; the elements are shifted
    towards the back because there is no room at the front. *)
Example C22_case : let E := calm in let A := DAbs 7 (2, 0) 0 [10; 20; 30; 40]%nat 9 in
  dev_doc (DEmplace 1 (XCopy 3)) (geom_of A) = true /\
  make_room (emplace_front_side 1 (geom_of A)) 1 (geom_of A) = (false, Geom 1 5 9) /\
  exists x w hf x' w', holds is_dev x A w hf /\
    dev_call (DEmplace 1 (XCopy 3)) x w = Ok (RIdx 1) x' w'.
Proof.
  intros E A. split; [reflexivity|]. split; [reflexivity|].
  apply (dev_case_ok (E := E) [@New E (devector false) 0 (@KRange E 7 [10; 20; 30; 40]%nat);
    @Do E (devector false) 0 (DReserveBack 9)] 0); vm_compute; reflexivity.
Qed.
Example C22_case_growth : let E := calm in let A := DAbs 7 (1, 0) 0 [10; 20; 30; 40]%nat 4 in
  dev_doc (DInsertRange 3 [5; 6; 7]%nat) (geom_of A) = true /\
  exists x w hf x' w', holds is_dev x A w hf /\
    dev_call (DInsertRange 3 [5; 6; 7]%nat) x w = Ok (RIdx 3) x' w'.
Proof.
  intros E A. split; [reflexivity|].
  apply (dev_case_ok (E := E) [@New E (devector false) 0 (@KRange E 7 [10; 20; 30; 40]%nat)] 0); vm_compute; reflexivity.
Qed.
(** If nothing can throw, calls return or report that the size is too big.  Excluded:
    self move assignment with room at the front (C24), and input iterator insertions
    that meet a hazard of C23. *)
Theorem C22_devector_total : forall (E : Env) o x (A : dabs) w hf,
  (forall k t, may_throw k t = false) ->
  holds is_dev x A w hf -> dev_doc o (geom_of A) = true ->
  (o = DSelfMove -> e_front A = 0) -> (d_input o = true -> dev_hazard o (geom_of A) = false) ->
  match dev_call o x w with
  | Ok r x' w' => exists A', holds is_dev x' A' w' hf /\ e_alloc A' = e_alloc A /\
      dev_post o (geom_of A) (e_elems A) r (e_elems A') /\ dev_storage_post o A A'
  | Exn e x' w' => (e = ELength \/ e = EOutOfRange /\ exists i, o = DAt i) /\
      exists A', holds is_dev x' A' w' hf /\ dev_exn o A e A'
  | UB => False
  end.
Proof. exact @dev_calm. Qed.
Print Assumptions C22_devector_total.
(** The geometry of the double destruction below, without exceptions. *)
Example C22_total_case : let E := calm in
  let A := DAbs 7 (2, 0) 7 [1; 2; 3; 4; 5; 6; 7; 8; 9; 10; 11]%nat 18 in
  (forall k t, may_throw k t = false) /\ dev_doc (DEmplace 6 (XVal 77%nat)) (geom_of A) = true /\
  dev_hazard (DEmplace 6 (XVal 77%nat)) (geom_of A) = true /\
  exists x w hf x' w', holds is_dev x A w hf /\ dev_call (DEmplace 6 (XVal 77%nat)) x w = Ok (RIdx 6) x' w'.
Proof.
  intros E A. split; [by intros [] t|]. split; [reflexivity|]. split; [reflexivity|].
  apply (dev_case_ok (E := E) [@New E (devector false) 0 (@KRange E 7 [1; 2; 3; 4; 5; 6; 7; 8; 9; 10; 11]%nat);
    @Do E (devector false) 0 (DReserveFront 18)] 0); vm_compute; reflexivity.
Qed.
Theorem C22_devector_bounds : forall (E : Env) x (A : dabs) w hf,
  holds is_dev x A w hf ->
  0 <= e_front A /\ e_front A + Z.of_nat (length (e_elems A)) <= e_cap A <= max_size.
Proof. exact @dev_bounds. Qed.
Print Assumptions C22_devector_bounds.

(** ** C23: exceptions

    The claim is false in two geometries.  Inserting near the front when the elements
    are shifted towards the back ([leaks]): constructed elements are left behind outside
    of the container and are never destroyed. *)
Theorem C23_devector_leak_refuted : exists (E : Env) o x (A : dabs) w hf x' w' p,
  holds is_dev x A w hf /\ dev_doc o (geom_of A) = true /\
  dev_call o x w = Exn EUser x' w' /\ stray x' w' p.
Proof. exact dev_leak_refuted. Qed.
Print Assumptions C23_devector_leak_refuted.
(** Inserting near the back when the elements are shifted towards the front
    ([double_destroys]): elements of the container have been destroyed, and the
    destructor destroys them again. *)
Theorem C23_devector_double_destroy_refuted : exists (E : Env) o x (A : dabs) w hf x' w' p,
  holds is_dev x A w hf /\ dev_doc o (geom_of A) = true /\
  dev_call o x w = Exn EUser x' w' /\ hole x' w' p /\ dv_destructor x' w' = UB.
Proof. exact dev_double_destroy_refuted. Qed.
Print Assumptions C23_devector_double_destroy_refuted.
(** In all other geometries ([dev_hazard] is false) the claim holds, for every member
    function and every throw point. *)
Theorem C23_devector_safe_partial : forall (E : Env) o x (A : dabs) w hf,
  holds is_dev x A w hf -> dev_doc o (geom_of A) = true -> dev_hazard o (geom_of A) = false ->
  match dev_call o x w with
  | Ok _ x' w' => exists A', holds is_dev x' A' w' hf
  | Exn e x' w' => exists A', holds is_dev x' A' w' hf /\ dev_exn o A e A' /\ reason e w w'
  | UB => False
  end.
Proof. exact @dev_safe. Qed.
Print Assumptions C23_devector_safe_partial.
(** Three copies are inserted near the back after shifting towards the front. *)
Example C23_case : let E := throws_at 15 in let A := DAbs 7 (2, 0) 7 [10; 20; 30; 40]%nat 11 in
  dev_doc (DInsertN 3 3 (XVal 5%nat)) (geom_of A) = true /\
  dev_hazard (DInsertN 3 3 (XVal 5%nat)) (geom_of A) = false /\
  make_room (near_front 3 (geom_of A)) 3 (geom_of A) = (false, Geom 4 7 11) /\
  exists x w hf x' w', holds is_dev x A w hf /\
    dev_call (DInsertN 3 3 (XVal 5%nat)) x w = Exn EUser x' w'.
Proof.
  intros E A. split; [reflexivity|]. split; [reflexivity|]. split; [reflexivity|].
  apply (dev_case_exn (E := E) [@New E (devector false) 0 (@KRange E 7 [10; 20; 30; 40]%nat);
    @Do E (devector false) 0 (DReserveFront 11)] 0); vm_compute; reflexivity.
Qed.
(** With two corrections of the scope guards ("fixed" in Devector.v) the claim holds in
    all geometries. *)
Theorem C23_devector_corrected : forall (E : Env) o x (A : dabs) w hf,
  holds is_dev x A w hf -> dev_doc o (geom_of A) = true ->
  match corrected_call o x w with
  | Ok r x' w' => exists A', holds is_dev x' A' w' hf /\ dpost o A r A' /\ quiet w w'
  | Exn e x' w' => exists A', holds is_dev x' A' w' hf /\ dev_exn o A e A' /\ reason e w w'
  | UB => False
  end.
Proof. exact @corrected_ok. Qed.
Print Assumptions C23_devector_corrected.
Example C23_corrected_case : let E := throws_at 33 in
  let A := DAbs 7 (2, 0) 7 [1; 2; 3; 4; 5; 6; 7; 8; 9; 10; 11]%nat 18 in
  dev_doc (DEmplace 6 (XVal 77%nat)) (geom_of A) = true /\ dev_hazard (DEmplace 6 (XVal 77%nat)) (geom_of A) = true /\
  exists x w hf x' w', holds is_dev x A w hf /\ corrected_call (DEmplace 6 (XVal 77%nat)) x w = Exn EUser x' w'.
Proof.
  intros E A. split; [reflexivity|]. split; [reflexivity|].
  apply (dev_case_exn (E := E) [@New E (devector false) 0 (@KRange E 7 [1; 2; 3; 4; 5; 6; 7; 8; 9; 10; 11]%nat);
    @Do E (devector false) 0 (DReserveFront 18)] 0); vm_compute; reflexivity.
Qed.
Theorem C23_devector_constructors_safe : forall (E : Env) c w hf,
  holds0 w hf ->
  match build (devector false) c tt w with
  | Ok x _ w' => exists A, holds is_dev x A w' hf /\ dev_k_post c A /\ quiet w w'
  | Exn e _ w' => holds0 w' hf /\ dev_k_exn c e /\ reason e w w'
  | UB => False
  end.
Proof. exact @dev_ctor_safe. Qed.
Print Assumptions C23_devector_constructors_safe.
Example C23_constructor_case : let E := throws_at 5 in
  holds0 w0 ∅ /\ exists w', build (devector false) (KInput 7 [10; 20; 30]%nat) tt w0 = Exn EUser tt w'.
Proof.
  intros E. split; [apply w0_holds|].
  edestruct (thrown_exn (build (devector false) (@KInput E 7 [10; 20; 30]%nat) tt w0) EUser) as ([] & w' & H);
    [vm_compute; reflexivity|]. by exists w'.
Qed.
Theorem C23_devector_constructors2 : forall (E : Env) c y (B : dabs) w hf,
  holds is_dev y B w hf ->
  match build2 (devector false) c y w with
  | Ok x y' w' => exists A B', holds2 is_dev x A y' B' w' hf /\ dev_k2_post c B A B' /\ quiet w w'
  | Exn e y' w' => exists B', holds is_dev y' B' w' hf /\ dev_k2_exn c B e B' /\ reason e w w'
  | UB => False
  end.
Proof. exact @dev_ctor2_safe. Qed.
Print Assumptions C23_devector_constructors2.
Example C23_constructor2_case : let E := throws_at 6 in
  exists y w hf y' w', holds is_dev y (DAbs 7 (1, 0) 1 [20; 30]%nat 3) w hf /\
  build2 (devector false) (FromMoveAlloc 8) y w = Exn EUser y' w'.
Proof.
  intros E. apply (dev_case_exn (E := E) [@New E (devector false) 0 (@KRange E 7 [10; 20; 30]%nat);
    @Do E (devector false) 0 DPopFront] 0); vm_compute; reflexivity.
Qed.
Theorem C23_devector_destructor_safe : forall (E : Env) x (A : dabs) w hf,
  holds is_dev x A w hf ->
  match dv_destructor x w with
  | Ok _ _ w' => holds0 w' hf
  | _ => False
  end.
Proof. exact @dev_dtor_safe. Qed.
Print Assumptions C23_devector_destructor_safe.
(** Histories of any number of devectors; calls that meet one of the hazards are
    skipped (outcome [Skipped]). *)
Theorem C23_devector_history : forall (E : Env) (cs : list (cmd (devector false))) w,
  wf_world w ->
  exists os P w' A h,
    exec_all (devector false) cs ∅ w = Some (os, P, w') /\ atrace (devector_spec false) cs ∅ os A /\
    pool_mem (S := devector_spec false) is_dev P A h /\ h ##ₘ heap w /\ heap w' = h ∪ heap w /\
    ((forall e, Threw e ∉ os) -> fired w' = fired w).
Proof. exact @dev_history. Qed.
Print Assumptions C23_devector_history.
Theorem C23_devector_no_leak : forall (E : Env) (cs : list (cmd (devector false))) w,
  wf_world w ->
  exists os w', exec_all (devector false) (cs ++ (Drop <$> created cs)) ∅ w = Some (os, ∅, w') /\
                heap w' = heap w.
Proof. exact @dev_no_leak. Qed.
Print Assumptions C23_devector_no_leak.
Example C23_history_case : let E := throws_at 20 in
  wf_world w0 /\
  exists P w', exec_all (devector false)
    [@New E (devector false) 0 (@KRange E 7 [10; 20; 30]%nat);
     @New E (devector false) 1 (@KRange E 8 [5]%nat);
     @Do E (devector false) 0 (DEmplaceFront (XCopy 1));
     @Do E (devector false) 0 (DInsertN 2 2 (XVal 6%nat));
     @Do E (devector false) 0 (DInsertN 2 2 (XVal 6%nat));
     @Do2 E (devector false) 0 1 PSwap;
     @Do2 E (devector false) 1 0 PCopy;
     @NewFrom E (devector false) 2 1 FromMove; @Drop E (devector false) 0] ∅ w0
    = Some ([Created; Created; Returned (RIdx 0); Returned (RIdx 2); Threw EUser; Skipped; Returned RUnit; Created; Dropped], P, w').
Proof. intros E. split; [apply w0_wf|]. apply outcomes_ok. vm_compute. reflexivity. Qed.

(** ** C24: storage released by assignment

    The claim is false whenever there is room before the first element of a target that
    gives its storage back: reset() passes first_ instead of bos_ to deallocate.  This
    happens in every move assignment between equal allocators (and for propagating
    ones), in copy assignment with propagating unequal allocators, and in self move
    assignment. *)
Theorem C24_devector_assignment_refuted : forall (E : Env) o x (A : dabs) y (B : dabs) w hf,
  holds2 is_dev x A y B w hf -> dev_hazard2 o A B -> dv_run2 false o (x, y) w = UB.
Proof. exact @dev_two_ub. Qed.
Print Assumptions C24_devector_assignment_refuted.
Example C24_refuted_case :
  let E := calm in exists x (A : dabs) y (B : dabs) w hf,
    holds2 is_dev x A y B w hf /\ dev_hazard2 (@PMove E) A B /\ e_alloc A = e_alloc B.
Proof. exact dev_reset_case. Qed.
Theorem C24_devector_self_move_refuted : forall (E : Env) x (A : dabs) w hf,
  holds is_dev x A w hf -> 0 < e_front A -> dev_call DSelfMove x w = UB.
Proof. exact @self_move_ub. Qed.
Print Assumptions C24_devector_self_move_refuted.
Example C24_self_move_case : let E := calm in
  exists x w hf, holds is_dev x (DAbs 7 (1, 0) 1 [20]%nat 2) w hf.
Proof.
  intros E. apply (dev_case (E := E) [@New E (devector false) 0 (@KRange E 7 [10; 20]%nat);
    @Do E (devector false) 0 DPopFront] 0); vm_compute; reflexivity.
Qed.
(** In all other cases assignment, swap and comparisons do what they should. *)
Theorem C24_devector_two_objects_partial : forall (E : Env) o x (A : dabs) y (B : dabs) w hf,
  holds2 is_dev x A y B w hf -> dev_pre2 o A B -> ~ dev_hazard2 o A B ->
  match dv_run2 false o (x, y) w with
  | Ok r (x', y') w' =>
      exists A' B', holds2 is_dev x' A' y' B' w' hf /\ dev_post2 o A B r A' B' /\ quiet w w'
  | Exn e (x', y') w' =>
      exists A' B', holds2 is_dev x' A' y' B' w' hf /\ dev_exn2 o A B e A' B' /\ reason e w w'
  | UB => False
  end.
Proof. exact @dev_two_safe. Qed.
Print Assumptions C24_devector_two_objects_partial.
Example C24_two_case : let E := throws_at 8 in
  let A := DAbs 7 (1, 0) 1 [6]%nat 2 in let B := DAbs 8 (2, 0) 0 [10; 20; 30]%nat 3 in
  dev_pre2 PCopy A B /\ ~ dev_hazard2 PCopy A B /\
  exists x y w hf x' y' w', holds2 is_dev x A y B w hf /\ dv_run2 false PCopy (x, y) w = Exn EUser (x', y') w'.
Proof.
  intros E A B. split; [done|]. split; [by intros [? _]|].
  apply (dev_case2_exn (E := E) [@New E (devector false) 0 (@KRange E 7 [5; 6]%nat); @Do E (devector false) 0 DPopFront;
    @New E (devector false) 1 (@KRange E 8 [10; 20; 30]%nat)] 0 1); [done|vm_compute; reflexivity].
Qed.

(** ** C25: arguments that refer to elements

    The claim is false.  resize, resize_front and resize_back that need new storage read
    the value after its element is gone ... *)
Theorem C25_devector_resize_refuted : exists (E : Env) n j, forall o, self_resize o n j ->
  exists x (A : dabs) w hf,
    holds is_dev x A w hf /\ (forall k t, may_throw k t = false) /\
    (j < length (e_elems A))%nat /\ Z.of_nat n <= max_size /\
    dev_call o x w = UB.
Proof. exact dev_self_resize_refuted. Qed.
Print Assumptions C25_devector_resize_refuted.
(** ... and insert(pos, n, value) reads it after elements have been shifted. *)
Theorem C25_devector_insert_refuted :
  exists (E : Env) i n j x (A : dabs) w hf r x' w' (A' : dabs) v,
    holds is_dev x A w hf /\ e_elems A !! j = Some v /\ (i <= length (e_elems A))%nat /\
    dev_call (DInsertN i n (XCopy j)) x w = Ok r x' w' /\ dev_view x' w' = Some A' /\
    e_elems A' <> take i (e_elems A) ++ replicate n v ++ drop i (e_elems A).
Proof. exact dev_self_insert_refuted. Qed.
Print Assumptions C25_devector_insert_refuted.
(** It holds for the single element functions, and for resize if the storage is kept. *)
Theorem C25_devector_alias_partial : forall (E : Env) o x (A : dabs) w hf (j : nat) (v : V) r x' w',
  holds is_dev x A w hf -> e_elems A !! j = Some v ->
  dev_doc o (geom_of A) = true -> dev_call o x w = Ok r x' w' ->
  exists A', holds is_dev x' A' w' hf /\
    let l := e_elems A in let l' := e_elems A' in
    match o with
    | DEmplace i (XCopy k) => k = j -> l' = take i l ++ [v] ++ drop i l
    | DEmplaceFront (XCopy k) => k = j -> l' = [v] ++ l
    | DEmplaceBack (XCopy k) => k = j -> l' = l ++ [v]
    | DEmplace i (XMove k) =>
        k = j -> l' = take i (<[j := vmoved v]> l) ++ [v] ++ drop i (<[j := vmoved v]> l)
    | DEmplaceFront (XMove k) => k = j -> l' = [v] ++ <[j := vmoved v]> l
    | DEmplaceBack (XMove k) => k = j -> l' = <[j := vmoved v]> l ++ [v]
    | DResizeFront n (XCopy k) => k = j -> l' = replicate (n - length l) v ++ drop (length l - n) l
    | DResizeBack n (XCopy k) => k = j -> l' = take n l ++ replicate (n - length l) v
    | DResize n (XCopy k) => k = j -> l' = resized (geom_of A) n v l
    | _ => True
    end.
Proof. exact @dev_alias. Qed.
Print Assumptions C25_devector_alias_partial.
Example C25_case : let E := calm in let A := DAbs 7 (1, 0) 0 [10; 20; 30]%nat 3 in
  e_elems A !! 2%nat = Some 30%nat /\ dev_doc (DEmplaceFront (XMove 2)) (geom_of A) = true /\
  exists x w hf x' w', holds is_dev x A w hf /\ dev_call (DEmplaceFront (XMove 2)) x w = Ok (RIdx 0) x' w'.
Proof.
  intros E A. split; [reflexivity|]. split; [reflexivity|].
  apply (dev_case_ok (E := E) [@New E (devector false) 0 (@KRange E 7 [10; 20; 30]%nat)] 0); vm_compute; reflexivity.
Qed.
Example C25_resize_case : let E := calm in let A := DAbs 7 (2, 0) 0 [10; 20; 30]%nat 6 in
  e_elems A !! 1%nat = Some 20%nat /\ dev_doc (DResizeBack 5 (XCopy 1)) (geom_of A) = true /\
  exists x w hf x' w', holds is_dev x A w hf /\ dev_call (DResizeBack 5 (XCopy 1)) x w = Ok RUnit x' w'.
Proof.
  intros E A. split; [reflexivity|]. split; [reflexivity|].
  apply (dev_case_ok (E := E) [@New E (devector false) 0 (@KRange E 7 [10; 20; 30]%nat);
    @Do E (devector false) 0 (DReserveBack 6)] 0); vm_compute; reflexivity.
Qed.

(** ** C48: resize(n) appends or removes at the end

    The claim is false: if there is not enough room at the back, but enough in total,
    elements are put before the first one. *)
Theorem C48_devector_resize_refuted :
  exists (E : Env) n v x (A : dabs) w hf r x' w' (A' : dabs),
    holds is_dev x A w hf /\ dev_call (DResize n (XVal v)) x w = Ok r x' w' /\ holds is_dev x' A' w' hf /\
    (length (e_elems A) < n)%nat /\
    e_elems A' <> e_elems A ++ replicate (n - length (e_elems A)) v.
Proof. exact dev_resize_refuted. Qed.
Print Assumptions C48_devector_resize_refuted.
(** It holds if there is no room at the front or enough at the back. *)
Theorem C48_devector_resize_partial : forall (E : Env) n v x (A : dabs) w hf r x' w',
  holds is_dev x A w hf ->
  (e_front A = 0 \/ Z.of_nat n <= e_cap A - e_front A) ->
  dev_call (DResize n (XVal v)) x w = Ok r x' w' ->
  exists A', holds is_dev x' A' w' hf /\
    e_elems A' = take n (e_elems A) ++ replicate (n - length (e_elems A)) v.
Proof. exact @dev_resize_back. Qed.
Print Assumptions C48_devector_resize_partial.
Example C48_case : let E := calm in let A := DAbs 7 (1, 0) 0 [10; 20; 30]%nat 3 in
  (e_front A = 0 \/ 5 <= e_cap A - e_front A) /\
  exists x w hf x' w', holds is_dev x A w hf /\ dev_call (DResize 5 (XVal 4%nat)) x w = Ok RUnit x' w'.
Proof.
  intros E A. split; [by left|].
  apply (dev_case_ok (E := E) [@New E (devector false) 0 (@KRange E 7 [10; 20; 30]%nat)] 0); vm_compute; reflexivity.
Qed.

(** ** C49: adding one element has no effect if it throws

    The claim is false for elements that can be copied, but whose move constructor may
    throw: when the storage grows they are moved. *)
Theorem C49_devector_push_back_refuted :
  exists (E : Env) v x (A : dabs) w hf e x' w' (A' : dabs),
    copyable = true /\ holds is_dev x A w hf /\ dev_call (DEmplaceBack (XVal v)) x w = Exn e x' w' /\
    holds is_dev x' A' w' hf /\ e_elems A' <> e_elems A.
Proof. exact dev_push_back_refuted. Qed.
Print Assumptions C49_devector_push_back_refuted.
(** [dev_strong] is when it holds: there is room at that end, or the storage grows and
    moving elements cannot throw.  (Not: when the elements are shifted.)  The reserve
    functions and resize without growth are covered, too. *)
Theorem C49_devector_strong_partial : forall (E : Env) o x (A : dabs) w hf e x' w',
  holds is_dev x A w hf -> dev_doc o (geom_of A) = true -> dev_strong o A ->
  dev_call o x w = Exn e x' w' -> x' = x /\ heap w' = heap w.
Proof. exact @dev_strong_ok. Qed.
Print Assumptions C49_devector_strong_partial.
Example C49_case : let E := demo (fun k t => match k with KEmplace => Nat.eqb t 4 | _ => false end) true true false in
  let A := DAbs 7 (1, 0) 0 [10; 20; 30]%nat 3 in
  dev_doc (DEmplaceBack (XVal 4%nat)) (geom_of A) = true /\ dev_strong (DEmplaceBack (XVal 4%nat)) A /\
  exists x w hf x' w', holds is_dev x A w hf /\ dev_call (DEmplaceBack (XVal 4%nat)) x w = Exn EUser x' w'.
Proof.
  intros E A. split; [reflexivity|]. split; [split; [done|right; done]|].
  apply (dev_case_exn (E := E) [@New E (devector false) 0 (@KRange E 7 [10; 20; 30]%nat)] 0); vm_compute; reflexivity.
Qed.

(** ** C50: length_error exactly if the new size is too big

    The claim is false: the storage grows by half, without regard to max_size(). *)
Theorem C50_devector_growth_refuted :
  exists (E : Env) v x (A : dabs) w hf x' w',
    holds is_dev x A w hf /\ Z.of_nat (length (e_elems A)) + 1 <= max_size /\
    dev_call (DEmplaceBack (XVal v)) x w = Exn ELength x' w'.
Proof. exact dev_growth_refuted. Qed.
Print Assumptions C50_devector_growth_refuted.
(** A call that returns has not exceeded max_size(), and with the intended growth within
    max_size() there is no length_error. *)
Theorem C50_devector_length_error_partial : forall (E : Env) at_front a x (A : dabs) w hf,
  holds is_dev x A w hf -> x_ok (length (e_elems A)) a = true ->
  g_cap (make_room at_front 1 (geom_of A)).2 <= max_size ->
  match dev_call (if at_front : bool then DEmplaceFront a else DEmplaceBack a) x w with
  | Ok _ _ _ => Z.of_nat (length (e_elems A)) + 1 <= max_size
  | Exn e _ _ => e = EBadAlloc \/ e = EUser
  | UB => False
  end.
Proof. exact @dev_length_error. Qed.
Print Assumptions C50_devector_length_error_partial.
Example C50_case : let E := calm in let A := DAbs 7 (1, 0) 0 [10; 20; 30]%nat 3 in
  x_ok 3 (XCopy 1) = true /\ g_cap (make_room true 1 (geom_of A)).2 <= max_size /\
  exists x w hf, holds is_dev x A w hf.
Proof.
  intros E A. split; [reflexivity|]. split; [vm_compute; discriminate|].
  apply (dev_case (E := E) [@New E (devector false) 0 (@KRange E 7 [10; 20; 30]%nat)] 0); vm_compute; reflexivity.
Qed.

(** ** C45, C46 *)
Theorem C45_devector_at : forall (E : Env) i x (A : dabs) w hf,
  holds is_dev x A w hf ->
  dev_call (DAt i) x w =
    match e_elems A !! i with
    | Some v => Ok (RVal v) x w
    | None => Exn EOutOfRange x w
    end.
Proof. exact @dev_at_eval. Qed.
Print Assumptions C45_devector_at.
Theorem C46_devector_erase_if : forall (E : Env) p x (A : dabs) w hf r x' w',
  holds is_dev x A w hf -> dev_call (DEraseIf p) x w = Ok r x' w' ->
  exists A', holds is_dev x' A' w' hf /\
    e_elems A' = List.filter (fun v => negb (p v)) (e_elems A) /\
    r = RNum (Z.of_nat (length (e_elems A) - length (e_elems A'))%nat) /\
    e_bos A' = e_bos A /\ e_cap A' = e_cap A.
Proof. exact @dev_erase_if. Qed.
Print Assumptions C46_devector_erase_if.
Example C46_devector_case : let E := calm in let A := DAbs 7 (1, 0) 1 [20; 30; 20]%nat 4 in
  exists x w hf x' w', holds is_dev x A w hf /\
    dev_call (DEraseIf (Nat.eqb 20)) x w = Ok (RNum 2) x' w'.
Proof.
  intros E A.
  apply (dev_case_ok (E := E) [@New E (devector false) 0 (@KRange E 7 [10; 20; 30; 20]%nat);
    @Do E (devector false) 0 DPopFront] 0); vm_compute; reflexivity.
Qed.
