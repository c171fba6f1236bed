(** * Properties of sfl::compact_vector (C14 - C17, C45, C46)

    [holds is_compact x A w hf]: in world [w] the object [x] is a compact vector with
    allocator [q_alloc A] and elements [q_elems A] in a block of exactly that many
    elements (CompactMem.v); the rest of memory is [hf].  [compact_call o x w] runs the
    member function call [o]. *)

From Verif Require Import CompactThms.
Open Scope Z_scope.

(** ** C14: sequence semantics, capacity() == size()

    Every call that returns, in every environment.  [compact_post] is the list
    operation; see C17 for the case where it is not the one documented. *)
Theorem C14_compact_vector_sequence : forall (E : Env) o x (A : vabs) w hf r x' w',
  holds is_compact x A w hf -> compact_pre true o (length (q_elems A)) = true ->
  compact_call o x w = Ok r x' w' ->
  exists A', holds is_compact x' A' w' hf /\ q_alloc A' = q_alloc A /\
    compact_post o (q_elems A) r (q_elems A') /\ (in_place o (q_elems A) -> q_data A' = q_data A) /\
    fired w' = fired w.
Proof. exact @compact_returns. Qed.
Print Assumptions C14_compact_vector_sequence.
(** Two copies of an element of the vector itself are inserted in front of it. *)
Example C14_case : let E := calm in let A := VAbs 7 (1, 0) [10; 20; 30]%nat 3 in
  compact_pre true (OInsertN 1 2 (XCopy 2)) 3 = true /\
  exists x w hf x' w', holds is_compact x A w hf /\
    compact_call (OInsertN 1 2 (XCopy 2)) x w = Ok (RIdx 1) x' w'.
Proof.
  intros E A. split; [reflexivity|].
  apply (compact_case_ok (E := E) [@New E (compact_vector code_undo false) 0 (@KRange E 7 [10; 20; 30]%nat)] 0); vm_compute; reflexivity.
Qed.
Example C14_case_assign : let E := calm in let A := VAbs 7 (1, 0) [10; 20; 30]%nat 3 in
  compact_pre true (OAssignN 5 4%nat) 3 = true /\
  exists x w hf x' w', holds is_compact x A w hf /\
    compact_call (OAssignN 5 4%nat) x w = Ok RUnit x' w'.
Proof.
  intros E A. split; [reflexivity|].
  apply (compact_case_ok (E := E) [@New E (compact_vector code_undo false) 0 (@KRange E 7 [10; 20; 30]%nat)] 0); vm_compute; reflexivity.
Qed.
(** The allocation: none if empty, else the allocator's record of the block says size(). *)
Theorem C14_compact_vector_exact_allocation : forall (E : Env) x (A : vabs) w hf,
  holds is_compact x A w hf ->
  q_cap A = Z.of_nat (length (q_elems A)) /\
  (q_elems A = [] -> q_data A = null) /\
  (q_elems A <> [] -> heap w !! (q_data A +ₗ hdr_off) = Some (Hdr (q_alloc A) (Z.of_nat (length (q_elems A))))).
Proof. exact @compact_block. Qed.
Print Assumptions C14_compact_vector_exact_allocation.
Example C14_allocation_case : let E := calm in
  exists x w hf, holds is_compact x (VAbs 7 (2, 0) [10; 30]%nat 2) w hf.
Proof.
  intros E. apply (compact_case (E := E)
    [@New E (compact_vector code_undo false) 0 (@KRange E 7 [10; 20; 30]%nat);
     @Do E (compact_vector code_undo false) 0 (OErase 1)] 0); vm_compute; reflexivity.
Qed.
(** Assignment, swap, comparisons that return. *)
Theorem C14_compact_vector_two_objects : forall (E : Env) o x (A : vabs) y (B : vabs) w hf r x' y' w',
  holds2 is_compact x A y B w hf ->
  compact_pre2 true o (q_alloc A) (length (q_elems A)) (q_alloc B) (length (q_elems B)) = true ->
  compact_run2 code_undo o (x, y) w = Ok r (x', y') w' ->
  exists A' B', holds2 is_compact x' A' y' B' w' hf /\ compact_post2 o A B r A' B' /\ fired w' = fired w.
Proof. exact @compact_two_returns. Qed.
Print Assumptions C14_compact_vector_two_objects.
Example C14_two_case : let E := calm in
  let A := VAbs 7 (1, 0) [5]%nat 1 in let B := VAbs 8 (2, 0) [10; 20; 30]%nat 3 in
  compact_pre2 true PMove 7 1 8 3 = true /\
  exists x y w hf x' y' w', holds2 is_compact x A y B w hf /\ compact_run2 code_undo PMove (x, y) w = Ok RUnit (x', y') w'.
Proof.
  intros E A B. split; [reflexivity|].
  apply (compact_case2_ok (E := E) [@New E (compact_vector code_undo false) 0 (@KRange E 7 [5]%nat);
    @New E (compact_vector code_undo false) 1 (@KRange E 8 [10; 20; 30]%nat)] 0 1); [done|vm_compute; reflexivity].
Qed.

(** ** C15: exception safety

    [compact_pre false] excludes the assign calls treated under C16. *)
Theorem C15_compact_vector_safe : forall (E : Env) o x (A : vabs) w hf,
  holds is_compact x A w hf -> compact_pre false o (length (q_elems A)) = true ->
  match compact_call o x w with
  | Ok r x' w' => exists A', holds is_compact x' A' w' hf /\ q_alloc A' = q_alloc A /\
      compact_post o (q_elems A) r (q_elems A') /\
      (in_place o (q_elems A) -> q_data A' = q_data A) /\ quiet w w'
  | Exn e x' w' => exists A', holds is_compact x' A' w' hf /\ compact_exn o A e A' /\ reason e w w'
  | UB => False
  end.
Proof. exact @compact_call_ok. Qed.
Print Assumptions C15_compact_vector_safe.
Example C15_case : let E := throws_at 6 in let A := VAbs 7 (1, 0) [10; 20; 30]%nat 3 in
  compact_pre false (OInsertN 1 2 (XVal 4%nat)) 3 = true /\
  exists x w hf x' w', holds is_compact x A w hf /\
    compact_call (OInsertN 1 2 (XVal 4%nat)) x w = Exn EUser x' w'.
Proof.
  intros E A. split; [reflexivity|].
  apply (compact_case_exn (E := E) [@New E (compact_vector code_undo false) 0 (@KRange E 7 [10; 20; 30]%nat)] 0); vm_compute; reflexivity.
Qed.
(** Nothing at all has changed if moving elements cannot throw or they can be copied. *)
Theorem C15_compact_vector_strong : forall (E : Env) o x (A : vabs) w hf e x' w',
  holds is_compact x A w hf -> compact_pre false o (length (q_elems A)) = true ->
  compact_strong o (q_elems A) -> compact_call o x w = Exn e x' w' ->
  x' = x /\ heap w' = heap w.
Proof. exact @compact_strong_ok. Qed.
Print Assumptions C15_compact_vector_strong.
Example C15_strong_case : let E := throws_at 6 in let A := VAbs 7 (1, 0) [10; 20; 30]%nat 3 in
  compact_pre false (OErase 0) 3 = true /\ compact_strong (OErase 0) (q_elems A) /\
  exists x w hf x' w', holds is_compact x A w hf /\ compact_call (OErase 0) x w = Exn EUser x' w'.
Proof.
  intros E A. split; [reflexivity|]. split; [reflexivity|].
  apply (compact_case_exn (E := E) [@New E (compact_vector code_undo false) 0 (@KRange E 7 [10; 20; 30]%nat)] 0); vm_compute; reflexivity.
Qed.
Theorem C15_compact_vector_constructors_safe : forall (E : Env) c w hf,
  holds0 w hf ->
  match build (compact_vector code_undo false) c tt w with
  | Ok x _ w' => exists A, holds is_compact x A w' hf /\ q_alloc A = k_alloc c /\ q_elems A = k_elems c /\ quiet w w'
  | Exn e _ w' => holds0 w' hf /\ k_exn (k_elems c) e /\ reason e w w'
  | UB => False
  end.
Proof. exact @compact_ctor_safe. Qed.
Print Assumptions C15_compact_vector_constructors_safe.
Example C15_constructor_case : let E := throws_at 4 in
  holds0 w0 ∅ /\ exists w', build (compact_vector code_undo false) (KInput 7 [10; 20; 30]%nat) tt w0 = Exn EUser tt w'.
Proof.
  intros E. split; [apply w0_holds|].
  edestruct (thrown_exn (build (compact_vector code_undo false) (@KInput E 7 [10; 20; 30]%nat) tt w0) EUser) as ([] & w' & H);
    [vm_compute; reflexivity|]. by exists w'.
Qed.
(** Copy and move construction. *)
Theorem C15_compact_vector_constructors2 : forall (E : Env) c y (B : vabs) w hf,
  holds is_compact y B w hf ->
  match build2 (compact_vector code_undo false) c y w with
  | Ok x y' w' => exists A B', holds2 is_compact x A y' B' w' hf /\ vec_k2_post c B A B' /\ quiet w w'
  | Exn e y' w' => exists B', holds is_compact y' B' w' hf /\ vec_k2_exn c B e B' /\ reason e w w'
  | UB => False
  end.
Proof. exact @compact_ctor2_safe. Qed.
Print Assumptions C15_compact_vector_constructors2.
Example C15_constructor2_case : let E := throws_at 6 in
  exists y w hf y' w', holds is_compact y (VAbs 7 (1, 0) [10; 20; 30]%nat 3) w hf /\
  build2 (compact_vector code_undo false) (FromMoveAlloc 8) y w = Exn EUser y' w'.
Proof.
  intros E. apply (compact_case_exn (E := E) [@New E (compact_vector code_undo false) 0 (@KRange E 7 [10; 20; 30]%nat)] 0); vm_compute; reflexivity.
Qed.
(** Swap and comparisons without restriction; copy assignment from a vector that is empty
    or of equal size; move assignment when the storage is taken over, or as for copy. *)
Theorem C15_compact_vector_two_objects : forall (E : Env) o x (A : vabs) y (B : vabs) w hf,
  holds2 is_compact x A y B w hf ->
  compact_pre2 false o (q_alloc A) (length (q_elems A)) (q_alloc B) (length (q_elems B)) = true ->
  match compact_run2 code_undo o (x, y) w with
  | Ok r (x', y') w' =>
      exists A' B', holds2 is_compact x' A' y' B' w' hf /\ compact_post2 o A B r A' B' /\ quiet w w'
  | Exn e (x', y') w' =>
      exists A' B', holds2 is_compact x' A' y' B' w' hf /\ compact_exn2 o A B e A' B' /\ reason e w w'
  | UB => False
  end.
Proof. exact @compact_two_ok. Qed.
Print Assumptions C15_compact_vector_two_objects.
Example C15_two_case : let E := throws_at 9 in
  let A := VAbs 7 (1, 0) [5; 6; 7]%nat 3 in let B := VAbs 8 (2, 0) [10; 20; 30]%nat 3 in
  compact_pre2 false PCopy 7 3 8 3 = true /\
  exists x y w hf x' y' w', holds2 is_compact x A y B w hf /\ compact_run2 code_undo PCopy (x, y) w = Exn EUser (x', y') w'.
Proof.
  intros E A B. split; [reflexivity|].
  apply (compact_case2_exn (E := E) [@New E (compact_vector code_undo false) 0 (@KRange E 7 [5; 6; 7]%nat);
    @New E (compact_vector code_undo false) 1 (@KRange E 8 [10; 20; 30]%nat)] 0 1); [done|vm_compute; reflexivity].
Qed.
Theorem C15_compact_vector_destructor_safe : forall (E : Env) x (A : vabs) w hf,
  holds is_compact x A w hf ->
  match compact_destructor x w with
  | Ok _ _ w' => holds0 w' hf
  | _ => False
  end.
Proof. exact @compact_dtor_safe. Qed.
Print Assumptions C15_compact_vector_destructor_safe.
(** Histories of any number of compact vectors. *)
Theorem C15_compact_vector_history : forall (E : Env) (cs : list (cmd (compact_vector code_undo false))) w,
  wf_world w ->
  exists os P w' A h,
    exec_all (compact_vector code_undo false) cs ∅ w = Some (os, P, w') /\
    atrace (compact_spec code_undo false) cs ∅ os A /\
    pool_mem (S := compact_spec code_undo false) is_compact P A h /\ h ##ₘ heap w /\ heap w' = h ∪ heap w /\
    ((forall e, Threw e ∉ os) -> fired w' = fired w).
Proof. exact @compact_history. Qed.
Print Assumptions C15_compact_vector_history.
Theorem C15_compact_vector_no_leak : forall (E : Env) (cs : list (cmd (compact_vector code_undo false))) w,
  wf_world w ->
  exists os w', exec_all (compact_vector code_undo false) (cs ++ (Drop <$> created cs)) ∅ w = Some (os, ∅, w') /\
                heap w' = heap w.
Proof. exact @compact_no_leak. Qed.
Print Assumptions C15_compact_vector_no_leak.
Example C15_history_case : let E := throws_at 11 in
  wf_world w0 /\
  exists P w', exec_all (compact_vector code_undo false)
    [@New E (compact_vector code_undo false) 0 (@KRange E 7 [10; 20; 30]%nat);
     @New E (compact_vector code_undo false) 1 (@KRange E 8 [5]%nat);
     @Do E (compact_vector code_undo false) 0 (OEmplaceBack (XCopy 1));
     @Do E (compact_vector code_undo false) 0 (OResize 1 XDef);
     @Do E (compact_vector code_undo false) 0 (OResize 1 XDef);
     @Do2 E (compact_vector code_undo false) 0 1 PSwap;
     @NewFrom E (compact_vector code_undo false) 2 1 FromMove; @Drop E (compact_vector code_undo false) 0] ∅ w0
    = Some ([Created; Created; Returned (RIdx 3); Threw EBadAlloc; Returned RUnit; Skipped; Created; Dropped], P, w').
Proof. intros E. split; [apply w0_wf|]. apply outcomes_ok. vm_compute. reflexivity. Qed.

(** ** C16: assign

    The claim is false.  When an element constructor throws in assign, the catch block calls
    clear(), which gives the new block back with size 0 instead of the size it was
    allocated with. *)
Theorem C16_compact_vector_assign_refuted : exists (E : Env) x (A : vabs) w hf,
  holds is_compact x A w hf /\ compact_pre true (OAssignN 2 (vmoved vdef)) (length (q_elems A)) = true /\
  compact_call (OAssignN 2 (vmoved vdef)) x w = UB.
Proof.
  exists (throws_at 6).
  edestruct (compact_case_ub (E := throws_at 6)
    [@New (throws_at 6) (compact_vector code_undo false) 0 (@KRange (throws_at 6) 7 [10; 20; 30]%nat)] 0
    (run_compact code_undo (@OAssignN (throws_at 6) 2 (@vmoved (throws_at 6) (@vdef (throws_at 6)))))) as (x & w & hf & Hx & Hr); [vm_compute; reflexivity|].
  exists x. eexists _, w, hf. split; [exact Hx|]. split; [reflexivity|exact Hr].
Qed.
Print Assumptions C16_compact_vector_assign_refuted.
(** What is left of the claim: assign is safe if no element operation throws, whatever
    the allocator does (and, by [C15_compact_vector_safe], always if the number of
    elements stays the same or becomes 0). *)
Theorem C16_compact_vector_assign_partial : forall (E : Env) o x (A : vabs) w hf,
  no_throw -> holds is_compact x A w hf -> compact_pre true o (length (q_elems A)) = true ->
  match compact_call o x w with
  | Ok r x' w' => exists A', holds is_compact x' A' w' hf /\ q_alloc A' = q_alloc A /\
      compact_post o (q_elems A) r (q_elems A') /\
      (in_place o (q_elems A) -> q_data A' = q_data A) /\ quiet w w'
  | Exn e x' w' => exists A', holds is_compact x' A' w' hf /\ compact_exn o A e A' /\ reason e w w'
  | UB => False
  end.
Proof. exact @compact_assign_calm. Qed.
Print Assumptions C16_compact_vector_assign_partial.
Example C16_case : let E := demo (fun k t => match k with KAlloc => Nat.eqb t 4 | _ => false end) true true false in
  let A := VAbs 7 (1, 0) [10; 20; 30]%nat 3 in
  no_throw /\ compact_pre true (OAssignN 2 4%nat) 3 = true /\
  exists x w hf x' w', holds is_compact x A w hf /\ compact_call (OAssignN 2 4%nat) x w = Exn EBadAlloc x' w'.
Proof.
  intros E A. split; [intros [] t Hk; try done; by destruct t as [|[|[|[|[|?]]]]]|]. split; [reflexivity|].
  apply (compact_case_exn (E := E) [@New E (compact_vector code_undo false) 0 (@KRange E 7 [10; 20; 30]%nat)] 0); vm_compute; reflexivity.
Qed.
Theorem C16_compact_vector_two_objects_partial : forall (E : Env) o x (A : vabs) y (B : vabs) w hf,
  no_throw -> holds2 is_compact x A y B w hf ->
  compact_pre2 true o (q_alloc A) (length (q_elems A)) (q_alloc B) (length (q_elems B)) = true ->
  match compact_run2 code_undo o (x, y) w with
  | Ok r (x', y') w' =>
      exists A' B', holds2 is_compact x' A' y' B' w' hf /\ compact_post2 o A B r A' B' /\ quiet w w'
  | Exn e (x', y') w' =>
      exists A' B', holds2 is_compact x' A' y' B' w' hf /\ compact_exn2 o A B e A' B' /\ reason e w w'
  | UB => False
  end.
Proof. exact @compact_two_calm. Qed.
Print Assumptions C16_compact_vector_two_objects_partial.
Example C16_two_case : let E := demo (fun k t => match k with KAlloc => Nat.eqb t 6 | _ => false end) true true false in
  let A := VAbs 7 (1, 0) [5]%nat 1 in let B := VAbs 8 (2, 0) [10; 20; 30]%nat 3 in
  no_throw /\ compact_pre2 true PCopy 7 1 8 3 = true /\
  exists x y w hf x' y' w', holds2 is_compact x A y B w hf /\ compact_run2 code_undo PCopy (x, y) w = Exn EBadAlloc (x', y') w'.
Proof.
  intros E A B. split; [by intros [] t Hk|]. split; [reflexivity|].
  apply (compact_case2_exn (E := E) [@New E (compact_vector code_undo false) 0 (@KRange E 7 [5]%nat);
    @New E (compact_vector code_undo false) 1 (@KRange E 8 [10; 20; 30]%nat)] 0 1); [done|vm_compute; reflexivity].
Qed.
(** The size handed to deallocate is the only problem: the same code with catch blocks that
    give back [n] elements satisfies the claim in every environment. *)
Theorem C16_compact_vector_repaired : forall (E : Env) o x (A : vabs) w hf,
  holds is_compact x A w hf -> compact_pre true o (length (q_elems A)) = true ->
  match repaired_call o x w with
  | Ok r x' w' => exists A', holds is_compact x' A' w' hf /\ q_alloc A' = q_alloc A /\
      compact_post o (q_elems A) r (q_elems A') /\
      (in_place o (q_elems A) -> q_data A' = q_data A) /\ quiet w w'
  | Exn e x' w' => exists A', holds is_compact x' A' w' hf /\ compact_exn o A e A' /\ reason e w w'
  | UB => False
  end.
Proof. exact @compact_assign_fixed. Qed.
Print Assumptions C16_compact_vector_repaired.
Example C16_repaired_case : let E := throws_at 6 in let A := VAbs 7 (1, 0) [10; 20; 30]%nat 3 in
  compact_pre true (OAssignN 2 4%nat) 3 = true /\
  exists x w hf x' w', holds is_compact x A w hf /\ repaired_call (OAssignN 2 4%nat) x w = Exn EUser x' w'.
Proof.
  intros E A. split; [reflexivity|].
  apply (compact_case_exn (E := E) [@New E (compact_vector code_undo false) 0 (@KRange E 7 [10; 20; 30]%nat)] 0); vm_compute; reflexivity.
Qed.

(** ** C17: resize(n, value)

    The claim is false: [resize(5, v[0])] of [10; 20; 30] appends moved-from values. *)
Theorem C17_compact_vector_resize_refuted : exists (E : Env) x (A : vabs) w hf (v : V) r x' w' A',
  holds is_compact x A w hf /\ q_elems A !! 0%nat = Some v /\
  compact_call (OResize 5 (XCopy 0)) x w = Ok r x' w' /\
  holds is_compact x' A' w' hf /\
  q_elems A' <> q_elems A ++ [v; v].
Proof.
  exists calm.
  edestruct (compact_case_wrong (E := calm)
    [@New calm (compact_vector code_undo false) 0 (@KRange calm 7 [10; 20; 30]%nat)] 0
    (run_compact code_undo (@OResize calm 5 (@XCopy calm 0)))) as (x & w & hf & r & x' & w' & Hx & Hr & Hx'); [vm_compute; reflexivity| |].
  - intros x w r x' w' hf Hx Hr.
    edestruct (@compact_returns calm) as (A' & H & _); [exact Hx| |exact Hr|by exists A']. reflexivity.
  - exists x. eexists _, w, hf, 10%nat, r, x', w', _. split; [exact Hx|]. split; [reflexivity|].
    split; [exact Hr|]. split; [exact Hx'|]. vm_compute. discriminate.
Qed.
Print Assumptions C17_compact_vector_resize_refuted.
(** What resize(n, v[j]) does: copies of v[j] only if elements are copied to the new
    storage, otherwise of the moved-from element. *)
Theorem C17_compact_vector_resize_element_partial : forall (E : Env) n j v x (A : vabs) w hf r x' w',
  holds is_compact x A w hf -> q_elems A !! j = Some v -> compact_call (OResize n (XCopy j)) x w = Ok r x' w' ->
  exists A', holds is_compact x' A' w' hf /\
    q_elems A' = take n (q_elems A) ++ replicate (n - length (q_elems A))
                   (if nothrow_move || negb copyable then vmoved v else v).
Proof. exact @compact_resize_value. Qed.
Print Assumptions C17_compact_vector_resize_element_partial.
Example C17_element_case : let E := throws_at 1000 in let A := VAbs 7 (1, 0) [10; 20; 30]%nat 3 in
  nothrow_move || negb copyable = false /\ q_elems A !! 1%nat = Some 20%nat /\
  exists x w hf x' w', holds is_compact x A w hf /\ compact_call (OResize 5 (XCopy 1)) x w = Ok RUnit x' w'.
Proof.
  intros E A. split; [reflexivity|]. split; [reflexivity|].
  apply (compact_case_ok (E := E) [@New E (compact_vector code_undo false) 0 (@KRange E 7 [10; 20; 30]%nat)] 0); vm_compute; reflexivity.
Qed.
(** resize(n) and resize(n, value) with a value that is not an element. *)
Theorem C17_compact_vector_resize_outside : forall (E : Env) n a x (A : vabs) w hf r x' w',
  match a with XDef => True | XVal _ => True | _ => False end ->
  holds is_compact x A w hf -> compact_call (OResize n a) x w = Ok r x' w' ->
  exists A', holds is_compact x' A' w' hf /\
    q_elems A' = take n (q_elems A) ++ replicate (n - length (q_elems A))
                   match a with XVal v => v | _ => vdef end.
Proof. exact @compact_resize_outside. Qed.
Print Assumptions C17_compact_vector_resize_outside.
Example C17_outside_case : let E := calm in let A := VAbs 7 (1, 0) [10; 20; 30]%nat 3 in
  exists x w hf x' w', holds is_compact x A w hf /\ compact_call (OResize 5 (XVal 4%nat)) x w = Ok RUnit x' w'.
Proof.
  intros E A.
  apply (compact_case_ok (E := E) [@New E (compact_vector code_undo false) 0 (@KRange E 7 [10; 20; 30]%nat)] 0); vm_compute; reflexivity.
Qed.

(** ** C45, C46 *)
Theorem C45_compact_vector_at : forall (E : Env) i x (A : vabs) w hf,
  holds is_compact x A w hf ->
  compact_call (OAt i) x w =
    match q_elems A !! i with
    | Some v => Ok (RVal v) x w
    | None => Exn EOutOfRange x w
    end.
Proof. exact @compact_at_ok. Qed.
Print Assumptions C45_compact_vector_at.
Theorem C46_compact_vector_erase_if : forall (E : Env) p x (A : vabs) w hf r x' w',
  holds is_compact x A w hf -> compact_call (OEraseIf p) x w = Ok r x' w' ->
  exists A', holds is_compact x' A' w' hf /\
    q_elems A' = List.filter (fun v => negb (p v)) (q_elems A) /\
    r = RNum (Z.of_nat (length (q_elems A) - length (q_elems A'))%nat).
Proof. exact @compact_erase_if_ok. Qed.
Print Assumptions C46_compact_vector_erase_if.
Example C46_compact_case : let E := calm in let A := VAbs 7 (1, 0) [10; 20; 30]%nat 3 in
  exists x w hf x' w', holds is_compact x A w hf /\
    compact_call (OEraseIf (Nat.eqb 20)) x w = Ok (RNum 1) x' w'.
Proof.
  intros E A.
  apply (compact_case_ok (E := E) [@New E (compact_vector code_undo false) 0 (@KRange E 7 [10; 20; 30]%nat)] 0); vm_compute; reflexivity.
Qed.
