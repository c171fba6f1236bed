(** * Properties of sfl::vector (C01 - C10, C45, C46)

    [holds is_vec x A w hf]: in world [w] the object [x] is a vector with abstract
    value [A] (VecMem.v), and the rest of memory is [hf].  [vec_call o x w] runs the
    member function call [o] on [x] in [w]. *)

From Verif Require Import VectorThms VectorDemo.
Open Scope Z_scope.

(** ** C01: a call that returns performs the list operation and returns the
    documented position. *)
Theorem C01_vector_sequence : forall (E : Env) o x A w hf r x' w',
  holds is_vec x A w hf -> seq_pre o (length (q_elems A)) = true ->
  vec_call o x w = Ok r x' w' ->
  exists A', holds is_vec x' A' w' hf /\ seq_post 0 o (q_elems A) r (q_elems A').
Proof. exact @vec_returns. Qed.
Print Assumptions C01_vector_sequence.

(** Two copies of the last element are inserted in front of the second one; the
    vector has to reallocate. *)
Example C01_case : let E := calm in let A := VAbs 7 (1, 0) [10; 20; 30]%nat 3 in
  seq_pre (OInsertN 1 2 (XCopy 2)) 3 = true /\
  exists x w hf x' w', holds is_vec x A w hf /\
    vec_call (OInsertN 1 2 (XCopy 2)) x w = Ok (RIdx 1) x' w'.
Proof.
  intros E A. split; [first [reflexivity|vm_compute; reflexivity|simpl; lia|reflexivity]|]. 
  apply (vec_case_ok (E := E) [@New E vector 0 (@KRange E 7 [10; 20; 30]%nat)] 0); vm_compute; reflexivity.
Qed.
(** An erase in the middle of a vector with spare capacity. *)
Example C01_case2 : let E := calm in let A := VAbs 7 (2, 0) [10; 20; 30]%nat 5 in
  seq_pre (OEraseRange 0 2) 3 = true /\
  exists x w hf x' w', holds is_vec x A w hf /\
    vec_call (OEraseRange 0 2) x w = Ok (RIdx 0) x' w'.
Proof.
  intros E A. split; [first [reflexivity|vm_compute; reflexivity|simpl; lia|reflexivity]|]. 
  apply (vec_case_ok (E := E) [@New E vector 0 (@KRange E 7 [10; 20; 30]%nat); @Do E vector 0 (OReserve 5)] 0); vm_compute; reflexivity.
Qed.

(** ** C02: no undefined behaviour, exact ownership.  [is_vec] says that the
    memory owned is one block of capacity() cells whose first size() cells are
    live, and [hf], everything else, is unchanged. *)
Theorem C02_vector_members_safe : forall (E : Env) o x A w hf,
  holds is_vec x A w hf -> seq_pre o (length (q_elems A)) = true ->
  match vec_call o x w with
  | Ok _ x' w' | Exn _ x' w' => exists A', holds is_vec x' A' w' hf
  | UB => False
  end.
Proof. exact @vec_safe. Qed.
Print Assumptions C02_vector_members_safe.

(** A throwing environment: the fifth operation (copying the first element into the
    new block) throws. *)
Example C02_case : let E := throws_at 5 in let A := VAbs 7 (1, 0) [10; 20; 30]%nat 3 in
  seq_pre (OEmplace 1 (XVal 15%nat)) 3 = true /\
  exists x w hf x' w', holds is_vec x A w hf /\
    vec_call (OEmplace 1 (XVal 15%nat)) x w = Exn EUser x' w'.
Proof.
  intros E A. split; [first [reflexivity|vm_compute; reflexivity|simpl; lia|reflexivity]|]. 
  apply (vec_case_exn (E := E) [@New E vector 0 (@KRange E 7 [10; 20; 30]%nat)] 0); vm_compute; reflexivity.
Qed.

Theorem C02_vector_constructors_safe : forall (E : Env) c w hf,
  holds0 w hf ->
  match build vector c tt w with
  | Ok x _ w' => exists A, holds is_vec x A w' hf /\ k_post 0 c A /\ quiet w w'
  | Exn e _ w' => holds0 w' hf /\ k_exn (k_elems c) e /\ reason e w w'
  | UB => False
  end.
Proof. exact @vec_ctor_safe. Qed.
Print Assumptions C02_vector_constructors_safe.
Example C02_constructor_case : let E := throws_at 2 in
  holds0 w0 ∅ /\ exists w', build vector (KRange 7 [10; 20; 30]%nat) tt w0 = Exn EUser tt w'.
Proof.
  intros E. split; [apply w0_holds|].
  edestruct (thrown_exn (build vector (@KRange E 7 [10; 20; 30]%nat) tt w0) EUser) as ([] & w' & H);
    [vm_compute; reflexivity|]. by exists w'.
Qed.

Theorem C02_vector_constructors2_safe : forall (E : Env) c y B w hf,
  holds is_vec y B w hf ->
  match build2 vector c y w with
  | Ok x y' w' => exists A B', holds2 is_vec x A y' B' w' hf /\ vec_k2_post c B A B' /\ quiet w w'
  | Exn e y' w' => exists B', holds is_vec y' B' w' hf /\ vec_k2_exn c B e B' /\ reason e w w'
  | UB => False
  end.
Proof. exact @vec_ctor2_safe. Qed.
Print Assumptions C02_vector_constructors2_safe.
Example C02_constructor2_case : let E := throws_at 6 in
  exists y w hf y' w', holds is_vec y (VAbs 7 (1, 0) [10; 20; 30]%nat 3) w hf /\
  build2 vector (FromMoveAlloc 8) y w = Exn EUser y' w'.
Proof. intros E. apply (vec_case_exn (E := E) [@New E vector 0 (@KRange E 7 [10; 20; 30]%nat)] 0); vm_compute; reflexivity. Qed.

Theorem C02_vector_destructor_safe : forall (E : Env) x A w hf,
  holds is_vec x A w hf ->
  match destructor_ vec_storage x w with
  | Ok _ _ w' => holds0 w' hf
  | _ => False
  end.
Proof. exact @vec_dtor_safe. Qed.
Print Assumptions C02_vector_destructor_safe.
Example C02_destructor_case : let E := calm in
  exists x w hf, holds is_vec x (VAbs 7 (1, 0) [10; 20; 30]%nat 3) w hf.
Proof. intros E. apply (vec_case (E := E) [@New E vector 0 (@KRange E 7 [10; 20; 30]%nat)] 0); vm_compute; reflexivity. Qed.

(** ** C03: exceptions reach the caller (none is swallowed), are thrown for a
    reason, and leave a valid vector. *)
Theorem C03_vector_basic_guarantee : forall (E : Env) o x A w hf e x' w',
  holds is_vec x A w hf -> seq_pre o (length (q_elems A)) = true ->
  vec_call o x w = Exn e x' w' ->
  exists A', holds is_vec x' A' w' hf /\ q_alloc A' = q_alloc A /\
             exn_size o (q_elems A) (q_elems A') /\ reason e w w'.
Proof. exact @vec_throws. Qed.
Print Assumptions C03_vector_basic_guarantee.
Theorem C03_vector_no_exception_lost : forall (E : Env) o x A w hf r x' w',
  holds is_vec x A w hf -> seq_pre o (length (q_elems A)) = true ->
  vec_call o x w = Ok r x' w' -> fired w' = fired w.
Proof. exact @vec_no_swallow. Qed.
Print Assumptions C03_vector_no_exception_lost.
(** The move assignment of the second shifted element throws. *)
Example C03_case : let E := throws_at 9 in let A := VAbs 7 (2, 0) [10; 20; 30]%nat 5 in
  seq_pre (OErase 0) 3 = true /\
  exists x w hf x' w', holds is_vec x A w hf /\
    vec_call (OErase 0) x w = Exn EUser x' w'.
Proof.
  intros E A. split; [first [reflexivity|vm_compute; reflexivity|simpl; lia|reflexivity]|]. 
  apply (vec_case_exn (E := E) [@New E vector 0 (@KRange E 7 [10; 20; 30]%nat); @Do E vector 0 (OReserve 5)] 0); vm_compute; reflexivity.
Qed.
Example C03_case2 : let E := calm in let A := VAbs 7 (1, 0) [10; 20; 30]%nat 3 in
  seq_pre (OResize 6 (XCopy 1)) 3 = true /\
  exists x w hf x' w', holds is_vec x A w hf /\
    vec_call (OResize 6 (XCopy 1)) x w = Ok RUnit x' w'.
Proof.
  intros E A. split; [first [reflexivity|vm_compute; reflexivity|simpl; lia|reflexivity]|]. 
  apply (vec_case_ok (E := E) [@New E vector 0 (@KRange E 7 [10; 20; 30]%nat)] 0); vm_compute; reflexivity.
Qed.

(** ** C04: strong guarantee: the object and the whole heap are unchanged. *)
Theorem C04_vector_strong_documented : forall (E : Env) o x A w hf e x' w',
  holds is_vec x A w hf -> nothrow_move || copyable = true ->
  (exists n, o = OReserve n) \/ o = OShrink \/ (exists v, o = OEmplaceBack (XVal v)) ->
  vec_call o x w = Exn e x' w' ->
  x' = x /\ heap w' = heap w.
Proof. exact @vec_strong_documented. Qed.
Print Assumptions C04_vector_strong_documented.
(** More calls with the strong guarantee: see [strong]. *)
Theorem C04_vector_strong : forall (E : Env) o x A w hf e x' w',
  holds is_vec x A w hf -> seq_pre o (length (q_elems A)) = true -> strong o A ->
  vec_call o x w = Exn e x' w' ->
  x' = x /\ heap w' = heap w.
Proof. exact @vec_strong. Qed.
Print Assumptions C04_vector_strong.
(** push_back reallocates and the copy of the second element throws. *)
Example C04_case : let E := throws_at 7 in let A := VAbs 7 (1, 0) [10; 20; 30]%nat 3 in
  nothrow_move || copyable = true /\
  exists x w hf x' w', holds is_vec x A w hf /\
    vec_call (OEmplaceBack (XVal 40%nat)) x w = Exn EUser x' w'.
Proof.
  intros E A. split; [first [reflexivity|vm_compute; reflexivity|simpl; lia|reflexivity]|]. 
  apply (vec_case_exn (E := E) [@New E vector 0 (@KRange E 7 [10; 20; 30]%nat)] 0); vm_compute; reflexivity.
Qed.
Example C04_case2 : let E := throws_at 6 in let A := VAbs 7 (1, 0) [10; 20; 30]%nat 3 in
  seq_pre (OEmplace 1 (XCopy 0)) 3 = true /\
  strong (OEmplace 1 (XCopy 0)) A /\
  exists x w hf x' w', holds is_vec x A w hf /\
    vec_call (OEmplace 1 (XCopy 0)) x w = Exn EUser x' w'.
Proof.
  intros E A. split; [first [reflexivity|vm_compute; reflexivity|simpl; lia|split; [reflexivity|]; left; split; [simpl; lia|reflexivity]]|]. split; [first [reflexivity|vm_compute; reflexivity|simpl; lia|split; [reflexivity|]; left; split; [simpl; lia|reflexivity]]|]. 
  apply (vec_case_exn (E := E) [@New E vector 0 (@KRange E 7 [10; 20; 30]%nat)] 0); vm_compute; reflexivity.
Qed.

(** ** C05: capacity laws *)
Theorem C05_vector_size_capacity : forall (E : Env) x A w hf,
  holds is_vec x A w hf -> Z.of_nat (length (q_elems A)) <= q_cap A <= max_size.
Proof. exact @vec_bounds. Qed.
Print Assumptions C05_vector_size_capacity.
Theorem C05_vector_capacity : forall (E : Env) o x A w hf r x' w',
  holds is_vec x A w hf -> seq_pre o (length (q_elems A)) = true ->
  vec_call o x w = Ok r x' w' ->
  exists A', holds is_vec x' A' w' hf /\
    match o with
    | OReserve n => q_cap A' = Z.max (q_cap A) (Z.of_nat n)
    | OShrink => q_cap A' = Z.of_nat (length (q_elems A'))
    | OClear | OPopBack | OErase _ | OEraseRange _ _ | OEraseIf _ | OSet _ _ => q_cap A' = q_cap A
    | OResize n _ | OAssignN n _ => q_cap A' = Z.max (q_cap A) (Z.of_nat n)
    | OAssignRange vs => q_cap A' = Z.max (q_cap A) (Z.of_nat (length vs))
    | OEmplace _ _ | OEmplaceBack _ | OInsertN _ _ _ | OInsertRange _ _ =>
        let size' := Z.of_nat (length (q_elems A')) in
        q_cap A' = if size' <=? q_cap A then q_cap A
                   else Z.max size' (Z.min max_size (q_cap A + q_cap A / 2))
    | OCapacity => r = RNum (q_cap A) /\ q_cap A' = q_cap A
    | _ => True
    end.
Proof. exact @vec_capacity. Qed.
Print Assumptions C05_vector_capacity.
(** A call that needs more than max_size() elements throws length_error before
    doing anything: neither the object nor the world changes. *)
Theorem C05_vector_length_error : forall (E : Env) o x A w hf,
  holds is_vec x A w hf -> seq_pre o (length (q_elems A)) = true ->
  is_input o = false -> max_size < Z.of_nat (needed o (q_elems A)) ->
  vec_call o x w = Exn ELength x w.
Proof. exact @vec_length_error. Qed.
Print Assumptions C05_vector_length_error.
Example C05_case : let E := calm in let A := VAbs 7 (2, 0) [10; 20; 30]%nat 5 in
  seq_pre (OInsertRange 1 [1; 2; 3]%nat) 3 = true /\
  exists x w hf x' w', holds is_vec x A w hf /\
    (vec_call (OInsertRange 1 [1; 2; 3]%nat);; vec_call OCapacity)%prog x w = Ok (RNum 7) x' w'.
Proof.
  intros E A. split; [first [reflexivity|vm_compute; reflexivity|simpl; lia|reflexivity]|]. 
  apply (vec_case_ok (E := E) [@New E vector 0 (@KRange E 7 [10; 20; 30]%nat); @Do E vector 0 (OReserve 5)] 0); vm_compute; reflexivity.
Qed.
Example C05_case2 : let E := calm in let A := VAbs 7 (1, 0) [10; 20; 30]%nat 3 in
  seq_pre (OInsertN 1 98 (XCopy 2)) 3 = true /\
  max_size < Z.of_nat (needed (OInsertN 1 98 (XCopy 2)) (q_elems A)) /\
  exists x w hf, holds is_vec x A w hf.
Proof.
  intros E A. split; [reflexivity|]. split; [vm_compute; reflexivity|].
  apply (vec_case (E := E) [@New E vector 0 (@KRange E 7 [10; 20; 30]%nat)] 0); vm_compute; reflexivity.
Qed.

(** ** C06: arguments that are references to elements of the same vector denote
    the value the element had at the time of the call. *)
Theorem C06_vector_aliasing : forall (E : Env) (o : vop) x A w hf (j : nat) (v : V) r x' w',
  holds is_vec x A w hf -> q_elems A !! j = Some v ->
  seq_pre o (length (q_elems A)) = true -> vec_call o x w = Ok r x' w' ->
  exists A', holds is_vec x' A' w' hf /\
    match o with
    | OEmplace i (XCopy k) => k = j -> q_elems A' = take i (q_elems A) ++ [v] ++ drop i (q_elems A)
    | OEmplaceBack (XCopy k) => k = j -> q_elems A' = q_elems A ++ [v]
    | OInsertN i n (XCopy k) =>
        k = j -> q_elems A' = take i (q_elems A) ++ replicate n v ++ drop i (q_elems A)
    | OResize n (XCopy k) =>
        k = j -> q_elems A' = take n (q_elems A) ++ replicate (n - length (q_elems A)) v
    | OEmplace i (XMove k) =>
        k = j -> q_elems A' = take i (<[j := vmoved v]> (q_elems A)) ++ [v] ++
                              drop i (<[j := vmoved v]> (q_elems A))
    | OEmplaceBack (XMove k) => k = j -> q_elems A' = <[j := vmoved v]> (q_elems A) ++ [v]
    | _ => True
    end.
Proof. exact @vec_alias. Qed.
Print Assumptions C06_vector_aliasing.
(** Without reallocation, the element referred to is itself shifted. *)
Example C06_case : let E := calm in let A := VAbs 7 (2, 0) [10; 20; 30]%nat 5 in
  seq_pre (OInsertN 1 2 (XCopy 2)) 3 = true /\
  q_elems A !! 2%nat = Some 30%nat /\
  exists x w hf x' w', holds is_vec x A w hf /\
    vec_call (OInsertN 1 2 (XCopy 2)) x w = Ok (RIdx 1) x' w'.
Proof.
  intros E A. split; [first [reflexivity|vm_compute; reflexivity|simpl; lia|reflexivity]|]. split; [first [reflexivity|vm_compute; reflexivity|simpl; lia|reflexivity]|]. 
  apply (vec_case_ok (E := E) [@New E vector 0 (@KRange E 7 [10; 20; 30]%nat); @Do E vector 0 (OReserve 5)] 0); vm_compute; reflexivity.
Qed.

(** ** C07: copy assignment, move assignment, swap and comparisons *)
Theorem C07_vector_two_objects : forall (E : Env) o x A y B w hf,
  holds2 is_vec x A y B w hf -> vec_pre2 o A B ->
  match vec_run2 o (x, y) w with
  | Ok r (x', y') w' =>
      exists A' B', holds2 is_vec x' A' y' B' w' hf /\ vec_post2 o A B r A' B' /\ quiet w w'
  | Exn e (x', y') w' =>
      exists A' B', holds2 is_vec x' A' y' B' w' hf /\ vec_exn2 o A B e A' B' /\ reason e w w'
  | UB => False
  end.
Proof. exact @vec_two_safe. Qed.
Print Assumptions C07_vector_two_objects.
(** Move assignment between unequal allocators that do not propagate, and swap
    of unequal propagating ones. *)
Example C07_case : let E := calm in
  let A := VAbs 8 (2, 0) [10; 20; 30]%nat 3 in let B := VAbs 7 (1, 0) [10; 20; 30]%nat 3 in
  vec_pre2 PMove A B /\
  exists x y w hf x' y' w', holds2 is_vec x A y B w hf /\ vec_run2 PMove (x, y) w = Ok RUnit (x', y') w'.
Proof.
  intros E A B. split; [exact I|].
  apply (vec_case2_ok (E := E) [@New E vector 1 (@KRange E 7 [10; 20; 30]%nat); @NewFrom E vector 0 1 (FromCopyAlloc 8)] 0 1); [done|vm_compute; reflexivity].
Qed.
Example C07_case2 : let E := calm_prop in
  let A := VAbs 8 (2, 0) [10; 20; 30]%nat 3 in let B := VAbs 7 (1, 0) [10; 20; 30]%nat 3 in
  vec_pre2 PSwap A B /\
  exists x y w hf x' y' w', holds2 is_vec x A y B w hf /\ vec_run2 PSwap (x, y) w = Ok RUnit (x', y') w'.
Proof.
  intros E A B. split; [left; reflexivity|].
  apply (vec_case2_ok (E := E) [@New E vector 1 (@KRange E 7 [10; 20; 30]%nat); @NewFrom E vector 0 1 (FromCopyAlloc 8)] 0 1); [done|vm_compute; reflexivity].
Qed.

(** ** C08: pushing elements costs a constant number of element operations and
    allocations per element, amortised ([tick] counts both). *)
Theorem C08_vector_push_back_amortised : forall (E : Env) vs x A w hf x' w',
  holds is_vec x A w hf -> push_all vs x w = Ok tt x' w' ->
  exists A', holds is_vec x' A' w' hf /\ q_elems A' = q_elems A ++ vs /\
    (tick w <= tick w' <= tick w + 2 * length vs + 4 * (length (q_elems A) + length vs))%nat.
Proof. exact @push_all_amortised. Qed.
Print Assumptions C08_vector_push_back_amortised.
Example C08_case : let E := calm in
  exists x w hf x' w', holds is_vec x (VAbs 7 null [] 0) w hf /\
    push_all (seq 1 20) x w = Ok tt x' w'.
Proof. intros E. apply (vec_case_ok (E := E) [@New E vector 0 (@KDefault E 7)] 0); vm_compute; reflexivity. Qed.

(** ** C09: as long as capacity() is not exceeded, data() and capacity() stay, on
    return and on an exception ... *)
Theorem C09_vector_storage_stable : forall (E : Env) o x A w hf,
  holds is_vec x A w hf -> seq_pre o (length (q_elems A)) = true ->
  Z.of_nat (needed o (q_elems A)) <= q_cap A ->
  o <> OShrink -> o <> OSelfMove ->
  match vec_call o x w with
  | Ok _ x' w' | Exn _ x' w' =>
      exists A', holds is_vec x' A' w' hf /\ q_data A' = q_data A /\ q_cap A' = q_cap A
  | UB => False
  end.
Proof. exact @vec_stable. Qed.
Print Assumptions C09_vector_storage_stable.
(** ... and elements in front of the affected position keep their values. *)
Theorem C09_vector_prefix_stable : forall (E : Env) o x A w hf r x' w',
  holds is_vec x A w hf -> seq_pre o (length (q_elems A)) = true -> moving_arg o = false ->
  vec_call o x w = Ok r x' w' ->
  exists A', holds is_vec x' A' w' hf /\
    forall i v, (i < touched_from o (q_elems A))%nat -> q_elems A !! i = Some v -> q_elems A' !! i = Some v.
Proof. exact @vec_prefix. Qed.
Print Assumptions C09_vector_prefix_stable.
Example C09_case : let E := calm in let A := VAbs 7 (2, 0) [10; 20; 30]%nat 5 in
  seq_pre (OInsertN 1 2 (XCopy 2)) 3 = true /\
  Z.of_nat (needed (OInsertN 1 2 (XCopy 2)) (q_elems A)) <= q_cap A /\
  exists x w hf x' w', holds is_vec x A w hf /\
    vec_call (OInsertN 1 2 (XCopy 2)) x w = Ok (RIdx 1) x' w'.
Proof.
  intros E A. split; [first [reflexivity|vm_compute; reflexivity|simpl; lia|reflexivity]|]. split; [first [reflexivity|vm_compute; reflexivity|simpl; lia|reflexivity]|]. 
  apply (vec_case_ok (E := E) [@New E vector 0 (@KRange E 7 [10; 20; 30]%nat); @Do E vector 0 (OReserve 5)] 0); vm_compute; reflexivity.
Qed.

(** ** C10: every history of any number of vectors, with exceptions along the
    way, is free of undefined behaviour, agrees with the specification, and
    owns exactly the memory of the living vectors ... *)
Theorem C10_vector_history : forall (E : Env) (cs : list (cmd vector)) w,
  wf_world w ->
  exists os P w' A h,
    exec_all vector cs ∅ w = Some (os, P, w') /\ atrace vector_spec cs ∅ os A /\
    pool_mem (S := vector_spec) is_vec P A h /\ h ##ₘ heap w /\ heap w' = h ∪ heap w /\
    ((forall e, Threw e ∉ os) -> fired w' = fired w).
Proof. exact @vec_history. Qed.
Print Assumptions C10_vector_history.
(** ... and after destroying all vectors the heap is as it was before. *)
Theorem C10_vector_no_leak : forall (E : Env) (cs : list (cmd vector)) w,
  wf_world w ->
  exists os w', exec_all vector (cs ++ (Drop <$> created cs)) ∅ w = Some (os, ∅, w') /\
                heap w' = heap w.
Proof. exact @vec_no_leak. Qed.
Print Assumptions C10_vector_no_leak.
Example C10_case : let E := throws_at 12 in
  wf_world w0 /\
  exists P w', exec_all vector
    [@New E vector 0 (KRange 7 [10; 20; 30]%nat); @NewFrom E vector 1 0 FromCopy; @Do2 E vector 0 1 PSwap;
     @Do E vector 0 (OInsertN 1 2 (XCopy 0)); @Do E vector 1 (OErase 0); @Do E vector 0 (OErase 9); @Drop E vector 0] ∅ w0
    = Some ([Created; Created; Returned RUnit; Threw EUser; Returned (RIdx 0); Skipped; Dropped], P, w').
Proof. intros E. split; [apply w0_wf|]. apply outcomes_ok. vm_compute. reflexivity. Qed.

(** ** C45: at() is bounds checked and changes nothing. *)
Theorem C45_vector_at : forall (E : Env) i x A w hf,
  holds is_vec x A w hf ->
  vec_call (OAt i) x w =
    match q_elems A !! i with
    | Some v => Ok (RVal v) x w
    | None => Exn EOutOfRange x w
    end.
Proof. exact @vec_at_ok. Qed.
Print Assumptions C45_vector_at.
Example C45_case : let E := calm in
  exists x w hf, holds is_vec x (VAbs 7 (1, 0) [10; 20; 30]%nat 3) w hf.
Proof. intros E. apply (vec_case (E := E) [@New E vector 0 (@KRange E 7 [10; 20; 30]%nat)] 0); vm_compute; reflexivity. Qed.

(** ** C46: erase_if / erase(c, value) keep exactly the elements that do not
    match, in order, and return the number of elements removed. *)
Theorem C46_vector_erase_if : forall (E : Env) p x A w hf r x' w',
  holds is_vec x A w hf -> vec_call (OEraseIf p) x w = Ok r x' w' ->
  exists A', holds is_vec x' A' w' hf /\
    q_elems A' = List.filter (fun v => negb (p v)) (q_elems A) /\
    r = RNum (Z.of_nat (length (q_elems A) - length (q_elems A'))%nat) /\
    q_data A' = q_data A /\ q_cap A' = q_cap A.
Proof. exact @vec_erase_if. Qed.
Print Assumptions C46_vector_erase_if.
Example C46_case : let E := calm in let A := VAbs 7 (1, 0) [10; 20; 30]%nat 3 in
  exists x w hf x' w', holds is_vec x A w hf /\
    vec_call (OEraseIf (Nat.eqb 20)) x w = Ok (RNum 1) x' w'.
Proof.
  intros E A. 
  apply (vec_case_ok (E := E) [@New E vector 0 (@KRange E 7 [10; 20; 30]%nat)] 0); vm_compute; reflexivity.
Qed.
