(** * Properties of sfl::small_vector<T, N> (C18 - C21, C45, C46)

    [holds (is_small N) x A w hf]: in world [w] the object [x] is a small vector;
    [A.1] is the address of the storage inside the object and [A.2] the visible
    state (SmallMem.v); the rest of memory is [hf].  [small_call N o x w] runs the
    member function call [o].  N is any number up to max_size(). *)

From Verif Require Import SmallThms.
Open Scope Z_scope.

(** ** C18: sequence semantics in both storages *)
Theorem C18_small_vector_sequence : forall (E : Env) N, Z.of_nat N <= max_size ->
  forall o x (A : sabs) w hf r x' w',
  holds (is_small N) x A w hf -> seq_pre o (length (q_elems A.2)) = true ->
  small_call N o x w = Ok r x' w' ->
  exists A' : sabs, holds (is_small N) x' A' w' hf /\ A'.1 = A.1 /\
    seq_post (Z.of_nat N) o (q_elems A.2) r (q_elems A'.2).
Proof. exact @small_returns. Qed.
Print Assumptions C18_small_vector_sequence.

(** Two copies of the last element are inserted: the elements leave the object. *)
Example C18_case : let E := calm in let A : sabs := ((-1, 0), VAbs 7 (-1, 0) [10; 20]%nat 3) in
  Z.of_nat 3 <= max_size /\
  seq_pre (OInsertN 1 2 (XCopy 1)) 2 = true /\
  exists x w hf x' w', holds (is_small 3) x A w hf /\
    small_call 3 (OInsertN 1 2 (XCopy 1)) x w = Ok (RIdx 1) x' w'.
Proof.
  intros E A. split; [vm_compute; discriminate|]. split; [reflexivity|]. 
  apply (small_case_ok (E := E) 3 (ltac:(vm_compute; discriminate)) [@New E (small_vector 3) 0 (@KRange E 7 [10; 20]%nat)] 0); vm_compute; reflexivity.
Qed.
(** The elements return into the object. *)
Example C18_case2 : let E := calm in let A : sabs := ((-1, 0), VAbs 7 (2, 0) [10; 20]%nat 4) in
  Z.of_nat 3 <= max_size /\
  seq_pre OShrink 2 = true /\
  exists x w hf x' w', holds (is_small 3) x A w hf /\
    small_call 3 OShrink x w = Ok (RUnit) x' w'.
Proof.
  intros E A. split; [vm_compute; discriminate|]. split; [reflexivity|]. 
  apply (small_case_ok (E := E) 3 (ltac:(vm_compute; discriminate)) [@New E (small_vector 3) 0 (@KRange E 7 [10; 20; 30; 40]%nat); @Do E (small_vector 3) 0 (OEraseRange 2 4)] 0); vm_compute; reflexivity.
Qed.

(** Capacities; [capacity() >= N] is kept by every call but a move from the object. *)
Theorem C18_small_vector_capacity : forall (E : Env) N, Z.of_nat N <= max_size ->
  forall o x (A : sabs) w hf r x' w',
  holds (is_small N) x A w hf -> seq_pre o (length (q_elems A.2)) = true ->
  small_call N o x w = Ok r x' w' ->
  exists A' : sabs, holds (is_small N) x' A' w' hf /\
    let NZ := Z.of_nat N in
    let cap := q_cap A.2 in let cap' := q_cap A'.2 in
    let size' := Z.of_nat (length (q_elems A'.2)) in
    match o with
    | OReserve n => cap' = if Z.of_nat n <=? cap then cap else Z.max NZ (Z.of_nat n)
    | OShrink => cap' = Z.min cap (Z.max NZ size')
    | OClear | OPopBack | OErase _ | OEraseRange _ _ | OEraseIf _ | OSet _ _ => cap' = cap
    | OResize _ _ | OAssignN _ _ | OAssignRange _ => cap' = if size' <=? cap then cap else Z.max NZ size'
    | OEmplace _ _ | OEmplaceBack _ | OInsertN _ _ _ | OInsertRange _ _ =>
        cap' = if size' <=? cap then cap
               else Z.max NZ (Z.max size' (Z.min max_size (cap + cap / 2)))
    | OCapacity => r = RNum cap /\ cap' = cap
    | _ => True
    end /\
    (o <> OSelfMove -> is_input o = false -> NZ <= cap -> NZ <= cap').
Proof. exact @small_capacity. Qed.
Print Assumptions C18_small_vector_capacity.
Theorem C18_small_vector_bounds : forall (E : Env) N x (A : sabs) w hf,
  holds (is_small N) x A w hf ->
  Z.of_nat (length (q_elems A.2)) <= q_cap A.2 <= max_size /\
  (Z.of_nat N <= q_cap A.2 \/ q_cap A.2 = 0 /\ q_elems A.2 = []).
Proof. exact @small_bounds. Qed.
Print Assumptions C18_small_vector_bounds.
Theorem C18_small_vector_length_error : forall (E : Env) N, Z.of_nat N <= max_size ->
  forall o x (A : sabs) w hf,
  holds (is_small N) x A w hf -> seq_pre o (length (q_elems A.2)) = true ->
  is_input o = false -> max_size < Z.of_nat (needed o (q_elems A.2)) ->
  small_call N o x w = Exn ELength x w.
Proof. exact @small_length_error. Qed.
Print Assumptions C18_small_vector_length_error.
Example C18_capacity_case : let E := calm in let A : sabs := ((-1, 0), VAbs 7 (2, 0) [10; 20; 30; 40]%nat 4) in
  Z.of_nat 3 <= max_size /\
  seq_pre (OEmplace 1 (XMove 3)) 4 = true /\
  exists x w hf x' w', holds (is_small 3) x A w hf /\
    small_call 3 (OEmplace 1 (XMove 3)) x w = Ok (RIdx 1) x' w'.
Proof.
  intros E A. split; [vm_compute; discriminate|]. split; [reflexivity|]. 
  apply (small_case_ok (E := E) 3 (ltac:(vm_compute; discriminate)) [@New E (small_vector 3) 0 (@KRange E 7 [10; 20; 30; 40]%nat)] 0); vm_compute; reflexivity.
Qed.
Example C18_length_error_case : let E := calm in let A : sabs := ((-1, 0), VAbs 7 (-1, 0) [10; 20]%nat 3) in
  seq_pre (OInsertN 1 99 (XCopy 1)) 2 = true /\
  max_size < Z.of_nat (needed (OInsertN 1 99 (XCopy 1)) (q_elems A.2)) /\
  exists x w hf, holds (is_small 3) x A w hf.
Proof.
  intros E A. split; [reflexivity|]. split; [vm_compute; reflexivity|].
  apply (small_case (E := E) 3 (ltac:(vm_compute; discriminate)) [@New E (small_vector 3) 0 (@KRange E 7 [10; 20]%nat)] 0); vm_compute; reflexivity.
Qed.

(** The clause "capacity() >= N always" is false: the source of a move construction
    that hands its block over reports capacity() = 0. *)
Theorem C18_small_vector_capacity_N_refuted :
  exists (E : Env) N x (A : sabs) w hf x' w',
    Z.of_nat N <= max_size /\ holds (is_small N) x A w hf /\
    small_call N OCapacity x w = Ok (RNum 0) x' w' /\ 0 < Z.of_nat N.
Proof. exact small_capacity_N_refuted. Qed.
Print Assumptions C18_small_vector_capacity_N_refuted.

(** Arguments that refer to elements of the same small_vector. *)
Theorem C18_small_vector_aliasing : forall (E : Env) N, Z.of_nat N <= max_size ->
  forall (o : vop) x (A : sabs) (w : world) hf (j : nat) (v : V) r x' w',
  holds (is_small N) x A w hf -> q_elems A.2 !! j = Some v ->
  seq_pre o (length (q_elems A.2)) = true -> small_call N o x w = Ok r x' w' ->
  exists A' : sabs, holds (is_small N) x' A' w' hf /\
    let l := q_elems A.2 in let l' := q_elems A'.2 in
    match o with
    | OEmplace i (XCopy k) => k = j -> l' = take i l ++ [v] ++ drop i l
    | OEmplaceBack (XCopy k) => k = j -> l' = l ++ [v]
    | OInsertN i n (XCopy k) => k = j -> l' = take i l ++ replicate n v ++ drop i l
    | OResize n (XCopy k) => k = j -> l' = take n l ++ replicate (n - length l)%nat v
    | OEmplace i (XMove k) =>
        k = j -> l' = take i (<[j := vmoved v]> l) ++ [v] ++ drop i (<[j := vmoved v]> l)
    | OEmplaceBack (XMove k) => k = j -> l' = <[j := vmoved v]> l ++ [v]
    | _ => True
    end.
Proof. exact @small_alias. Qed.
Print Assumptions C18_small_vector_aliasing.
Example C18_aliasing_case : let E := calm in let A : sabs := ((-1, 0), VAbs 7 (-1, 0) [10; 20; 30]%nat 3) in
  Z.of_nat 3 <= max_size /\
  q_elems A.2 !! 1%nat = Some 20%nat /\
  seq_pre (OEmplaceBack (XMove 1)) 3 = true /\
  exists x w hf x' w', holds (is_small 3) x A w hf /\
    small_call 3 (OEmplaceBack (XMove 1)) x w = Ok (RIdx 3) x' w'.
Proof.
  intros E A. split; [vm_compute; discriminate|]. split; [reflexivity|]. split; [reflexivity|]. 
  apply (small_case_ok (E := E) 3 (ltac:(vm_compute; discriminate)) [@New E (small_vector 3) 0 (@KRange E 7 [10; 20; 30]%nat)] 0); vm_compute; reflexivity.
Qed.

(** While capacity() suffices, data() and capacity() stay, and so do the elements
    in front of the affected position. *)
Theorem C18_small_vector_storage_stable : forall (E : Env) N, Z.of_nat N <= max_size ->
  forall o x (A : sabs) w hf,
  holds (is_small N) x A w hf -> seq_pre o (length (q_elems A.2)) = true ->
  Z.of_nat (needed o (q_elems A.2)) <= q_cap A.2 ->
  o <> OShrink -> o <> OSelfMove ->
  match small_call N o x w with
  | Ok _ x' w' | Exn _ x' w' =>
      exists A' : sabs, holds (is_small N) x' A' w' hf /\ q_data A'.2 = q_data A.2 /\ q_cap A'.2 = q_cap A.2
  | UB => False
  end.
Proof. exact @small_stable. Qed.
Print Assumptions C18_small_vector_storage_stable.
Theorem C18_small_vector_prefix_stable : forall (E : Env) N, Z.of_nat N <= max_size ->
  forall o x (A : sabs) w hf r x' w',
  holds (is_small N) x A w hf -> seq_pre o (length (q_elems A.2)) = true -> moving_arg o = false ->
  small_call N o x w = Ok r x' w' ->
  exists A' : sabs, holds (is_small N) x' A' w' hf /\
    forall i v, (i < touched_from o (q_elems A.2))%nat -> q_elems A.2 !! i = Some v -> q_elems A'.2 !! i = Some v.
Proof. exact @small_prefix. Qed.
Print Assumptions C18_small_vector_prefix_stable.
Example C18_stable_case : let E := calm in let A : sabs := ((-1, 0), VAbs 7 (-1, 0) [10; 20]%nat 3) in
  Z.of_nat 3 <= max_size /\
  seq_pre (OEmplace 1 (XCopy 1)) 2 = true /\
  Z.of_nat (needed (OEmplace 1 (XCopy 1)) (q_elems A.2)) <= q_cap A.2 /\
  exists x w hf x' w', holds (is_small 3) x A w hf /\
    small_call 3 (OEmplace 1 (XCopy 1)) x w = Ok (RIdx 1) x' w'.
Proof.
  intros E A. split; [vm_compute; discriminate|]. split; [first [reflexivity|vm_compute; discriminate]|]. split; [first [reflexivity|vm_compute; discriminate]|]. 
  apply (small_case_ok (E := E) 3 (ltac:(vm_compute; discriminate)) [@New E (small_vector 3) 0 (@KRange E 7 [10; 20]%nat)] 0); vm_compute; reflexivity.
Qed.

(** ** C19: exception safety *)
Theorem C19_small_vector_members_safe : forall (E : Env) N, Z.of_nat N <= max_size ->
  forall o x (A : sabs) w hf,
  holds (is_small N) x A w hf -> seq_pre o (length (q_elems A.2)) = true ->
  match small_call N o x w with
  | Ok _ x' w' | Exn _ x' w' => exists A', holds (is_small N) x' A' w' hf
  | UB => False
  end.
Proof. exact @small_safe. Qed.
Print Assumptions C19_small_vector_members_safe.
Theorem C19_small_vector_basic_guarantee : forall (E : Env) N, Z.of_nat N <= max_size ->
  forall o x (A : sabs) w hf e x' w',
  holds (is_small N) x A w hf -> seq_pre o (length (q_elems A.2)) = true ->
  small_call N o x w = Exn e x' w' ->
  exists A' : sabs, holds (is_small N) x' A' w' hf /\ q_alloc A'.2 = q_alloc A.2 /\
             exn_size o (q_elems A.2) (q_elems A'.2) /\ reason e w w'.
Proof. exact @small_throws. Qed.
Print Assumptions C19_small_vector_basic_guarantee.
Theorem C19_small_vector_no_exception_lost : forall (E : Env) N, Z.of_nat N <= max_size ->
  forall o x (A : sabs) w hf r x' w',
  holds (is_small N) x A w hf -> seq_pre o (length (q_elems A.2)) = true ->
  small_call N o x w = Ok r x' w' -> fired w' = fired w.
Proof. exact @small_no_swallow. Qed.
Print Assumptions C19_small_vector_no_exception_lost.
(** Copying an element out of the internal storage throws. *)
Example C19_case : let E := throws_at 4 in let A : sabs := ((-1, 0), VAbs 7 (-1, 0) [10; 20; 30]%nat 3) in
  Z.of_nat 3 <= max_size /\
  seq_pre (OEmplace 1 (XVal 15%nat)) 3 = true /\
  exists x w hf x' w', holds (is_small 3) x A w hf /\
    small_call 3 (OEmplace 1 (XVal 15%nat)) x w = Exn EUser x' w'.
Proof.
  intros E A. split; [vm_compute; discriminate|]. split; [reflexivity|]. 
  apply (small_case_exn (E := E) 3 (ltac:(vm_compute; discriminate)) [@New E (small_vector 3) 0 (@KRange E 7 [10; 20; 30]%nat)] 0); vm_compute; reflexivity.
Qed.
Example C19_case2 : let E := throws_at 6 in let A : sabs := ((-1, 0), VAbs 7 (2, 0) [10; 20; 30; 40]%nat 4) in
  Z.of_nat 3 <= max_size /\
  seq_pre (OErase 0) 4 = true /\
  exists x w hf x' w', holds (is_small 3) x A w hf /\
    small_call 3 (OErase 0) x w = Exn EUser x' w'.
Proof.
  intros E A. split; [vm_compute; discriminate|]. split; [reflexivity|]. 
  apply (small_case_exn (E := E) 3 (ltac:(vm_compute; discriminate)) [@New E (small_vector 3) 0 (@KRange E 7 [10; 20; 30; 40]%nat); @Do E (small_vector 3) 0 (OGet 1)] 0); vm_compute; reflexivity.
Qed.

(** Calls with the strong guarantee (see [strong]) leave the object and all memory
    as they were. *)
Theorem C19_small_vector_strong : forall (E : Env) N, Z.of_nat N <= max_size ->
  forall o x (A : sabs) w hf e x' w',
  holds (is_small N) x A w hf -> seq_pre o (length (q_elems A.2)) = true -> strong o A.2 ->
  small_call N o x w = Exn e x' w' ->
  x' = x /\ heap w' = heap w.
Proof. exact @small_strong. Qed.
Print Assumptions C19_small_vector_strong.
Example C19_strong_case : let E := throws_at 5 in let A : sabs := ((-1, 0), VAbs 7 (-1, 0) [10; 20; 30]%nat 3) in
  Z.of_nat 3 <= max_size /\
  seq_pre (OEmplaceBack (XVal 40%nat)) 3 = true /\
  strong (OEmplaceBack (XVal 40%nat)) A.2 /\
  exists x w hf x' w', holds (is_small 3) x A w hf /\
    small_call 3 (OEmplaceBack (XVal 40%nat)) x w = Exn EUser x' w'.
Proof.
  intros E A. split; [vm_compute; discriminate|]. split; [first [reflexivity|split; [reflexivity|left; reflexivity]]|]. split; [first [reflexivity|split; [reflexivity|left; reflexivity]]|]. 
  apply (small_case_exn (E := E) 3 (ltac:(vm_compute; discriminate)) [@New E (small_vector 3) 0 (@KRange E 7 [10; 20; 30]%nat)] 0); vm_compute; reflexivity.
Qed.

Theorem C19_small_vector_constructors_safe : forall (E : Env) N, Z.of_nat N <= max_size ->
  forall c w hf,
  holds0 w hf ->
  match build (small_vector N) c tt w with
  | Ok x _ w' => exists A : sabs, holds (is_small N) x A w' hf /\ k_post (Z.of_nat N) c A.2 /\ quiet w w'
  | Exn e _ w' => holds0 w' hf /\ k_exn (k_elems c) e /\ reason e w w'
  | UB => False
  end.
Proof. exact @small_ctor_safe. Qed.
Print Assumptions C19_small_vector_constructors_safe.
Example C19_constructor_case : let E := throws_at 2 in
  holds0 w0 ∅ /\ exists w', build (small_vector 3) (KRange 7 [10; 20; 30]%nat) tt w0 = Exn EUser tt w'.
Proof.
  intros E. split; [apply w0_holds|].
  edestruct (thrown_exn (build (small_vector 3) (@KRange E 7 [10; 20; 30]%nat) tt w0) EUser) as ([] & w' & H);
    [vm_compute; reflexivity|]. by exists w'.
Qed.
Theorem C19_small_vector_destructor_safe : forall (E : Env) N, Z.of_nat N <= max_size ->
  forall x (A : sabs) w hf,
  holds (is_small N) x A w hf ->
  match kill (small_vector N) x w with
  | Ok _ _ w' => holds0 w' hf
  | _ => False
  end.
Proof. exact @small_dtor_safe. Qed.
Print Assumptions C19_small_vector_destructor_safe.
Example C19_destructor_case : let E := calm in
  exists x w hf, holds (is_small 3) x ((-1, 0), VAbs 7 (2, 0) [10; 20; 30; 40]%nat 4) w hf.
Proof.
  intros E. apply (small_case (E := E) 3 (ltac:(vm_compute; discriminate)) [@New E (small_vector 3) 0 (@KRange E 7 [10; 20; 30; 40]%nat)] 0); vm_compute; reflexivity.
Qed.

(** Histories of any number of small vectors. *)
Theorem C19_small_vector_history : forall (E : Env) N, Z.of_nat N <= max_size ->
  forall (cs : list (cmd (small_vector N))) w,
  wf_world w ->
  exists os P w' A h,
    exec_all (small_vector N) cs ∅ w = Some (os, P, w') /\ atrace (small_spec N) cs ∅ os A /\
    pool_mem (S := small_spec N) (is_small N) P A h /\ h ##ₘ heap w /\ heap w' = h ∪ heap w /\
    ((forall e, Threw e ∉ os) -> fired w' = fired w).
Proof. exact @small_history. Qed.
Print Assumptions C19_small_vector_history.
Theorem C19_small_vector_no_leak : forall (E : Env) N, Z.of_nat N <= max_size ->
  forall (cs : list (cmd (small_vector N))) w,
  wf_world w ->
  exists os w', exec_all (small_vector N) (cs ++ (Drop <$> created cs)) ∅ w = Some (os, ∅, w') /\
                heap w' = heap w.
Proof. exact @small_no_leak. Qed.
Print Assumptions C19_small_vector_no_leak.
Example C19_history_case : let E := throws_at 8 in
  wf_world w0 /\
  exists P w', exec_all (small_vector 2)
    [@New E (small_vector 2) 0 (@KRange E 7 [10; 20; 30]%nat); @New E (small_vector 2) 1 (@KRange E 7 [5]%nat);
     @Do2 E (small_vector 2) 0 1 PSwap;
     @Do E (small_vector 2) 0 (OInsertN 1 2 (XCopy 0)); @Do E (small_vector 2) 1 (OErase 0);
     @Do E (small_vector 2) 0 (OErase 9); @NewFrom E (small_vector 2) 2 1 FromMove; @Drop E (small_vector 2) 0] ∅ w0
    = Some ([Created; Created; Returned RUnit; Threw EUser; Returned (RIdx 0); Skipped; Created; Dropped], P, w').
Proof. intros E. split; [apply w0_wf|]. apply outcomes_ok. vm_compute. reflexivity. Qed.

(** ** C20: copy/move construction, copy/move assignment, swap, comparisons *)
Theorem C20_small_vector_constructors2 : forall (E : Env) N, Z.of_nat N <= max_size ->
  forall c y (B : sabs) w hf,
  holds (is_small N) y B w hf ->
  match build2 (small_vector N) c y w with
  | Ok x y' w' => exists A B' : sabs, holds2 (is_small N) x A y' B' w' hf /\ B'.1 = B.1 /\
                    small_k2_post N c B.2 A.2 B'.2 /\ quiet w w'
  | Exn e y' w' => exists B' : sabs, holds (is_small N) y' B' w' hf /\ B'.1 = B.1 /\
                    small_k2_exn N c B.2 e B'.2 /\ reason e w w'
  | UB => False
  end.
Proof. exact @small_ctor2_safe. Qed.
Print Assumptions C20_small_vector_constructors2.
(** A move constructor that moves element-wise fails at the second element. *)
Example C20_constructor2_case : let E := throws_at 4 in
  exists y w hf y' w', holds (is_small 3) y ((-1, 0), VAbs 7 (-1, 0) [10; 20; 30]%nat 3) w hf /\
  build2 (small_vector 3) FromMove y w = Exn EUser y' w'.
Proof.
  intros E. apply (small_case_exn (E := E) 3 (ltac:(vm_compute; discriminate)) [@New E (small_vector 3) 0 (@KRange E 7 [10; 20; 30]%nat)] 0); vm_compute; reflexivity.
Qed.
Theorem C20_small_vector_two_objects : forall (E : Env) N, Z.of_nat N <= max_size ->
  forall o x (A : sabs) y (B : sabs) w hf,
  holds2 (is_small N) x A y B w hf -> small_pre2 N o A.2 B.2 ->
  match small_run2 N o (x, y) w with
  | Ok r (x', y') w' =>
      exists A' B' : sabs, holds2 (is_small N) x' A' y' B' w' hf /\ A'.1 = A.1 /\ B'.1 = B.1 /\
        small_post2 N o A.2 B.2 r A'.2 B'.2 /\ quiet w w'
  | Exn e (x', y') w' =>
      exists A' B' : sabs, holds2 (is_small N) x' A' y' B' w' hf /\ A'.1 = A.1 /\ B'.1 = B.1 /\
        small_exn2 N o A.2 B.2 e A'.2 B'.2 /\ reason e w w'
  | UB => False
  end.
Proof. exact @small_two_safe. Qed.
Print Assumptions C20_small_vector_two_objects.
(** Move assignment from outside storage between unequal allocators; swap of inside
    and outside storage with unequal propagating allocators. *)
Example C20_case : let E := calm in
  let A : sabs := ((-1, 0), VAbs 8 (-1, 0) [5]%nat 3) in
  let B : sabs := ((-2, 0), VAbs 7 (3, 0) [10; 20; 30; 40]%nat 4) in
  small_pre2 3 PMove A.2 B.2 /\
  exists x y w hf x' y' w', holds2 (is_small 3) x A y B w hf /\ small_run2 3 PMove (x, y) w = Ok RUnit (x', y') w'.
Proof.
  intros E A B. split; [exact I|].
  apply (small_case2_ok (E := E) 3 (ltac:(vm_compute; discriminate)) [@New E (small_vector 3) 0 (@KRange E 8 [5]%nat); @New E (small_vector 3) 1 (@KRange E 7 [10; 20; 30; 40]%nat)] 0 1); [done|vm_compute; reflexivity].
Qed.
Example C20_case2 : let E := calm_prop in
  let A : sabs := ((-1, 0), VAbs 8 (-1, 0) [5]%nat 3) in
  let B : sabs := ((-2, 0), VAbs 7 (3, 0) [10; 20; 30; 40]%nat 4) in
  small_pre2 3 PSwap A.2 B.2 /\
  exists x y w hf x' y' w', holds2 (is_small 3) x A y B w hf /\ small_run2 3 PSwap (x, y) w = Ok RUnit (x', y') w'.
Proof.
  intros E A B. split; [right; split; [reflexivity|left; reflexivity]|].
  apply (small_case2_ok (E := E) 3 (ltac:(vm_compute; discriminate)) [@New E (small_vector 3) 0 (@KRange E 8 [5]%nat); @New E (small_vector 3) 1 (@KRange E 7 [10; 20; 30; 40]%nat)] 0 1); [done|vm_compute; reflexivity].
Qed.

(** ** C21: after swap, returning or not, both objects can be destroyed.  Proved for
    equal allocators, for elements whose move cannot throw, and for two objects that
    are both inside or both outside; the destructor gives every block back to the
    allocator of the object, and a block given to the wrong allocator is UB. *)
Theorem C21_small_vector_swap_partial : forall (E : Env) N, Z.of_nat N <= max_size ->
  forall x (A : sabs) y (B : sabs) w hf,
  holds2 (is_small N) x A y B w hf ->
  (q_alloc A.2 = q_alloc B.2 \/
   pocs = true /\ (nothrow_move = true \/ (inside N A.2 <-> inside N B.2))) ->
  match small_run2 N PSwap (x, y) w with
  | Ok _ (x', y') w' | Exn _ (x', y') w' =>
      match kill (small_vector N) x' w' with
      | Ok _ _ w1 =>
          match kill (small_vector N) y' w1 with
          | Ok _ _ w2 => heap w2 = hf
          | _ => False
          end
      | _ => False
      end
  | UB => False
  end.
Proof. exact @small_swap_kill. Qed.
Print Assumptions C21_small_vector_swap_partial.
Example C21_case : let E := demo (fun _ t' => Nat.eqb 7 t') false true true in
  let A : sabs := ((-1, 0), VAbs 8 (-1, 0) [5]%nat 3) in
  let B : sabs := ((-2, 0), VAbs 7 (-2, 0) [10; 20; 30]%nat 3) in
  small_pre2 3 PSwap A.2 B.2 /\
  exists x y w hf x' y' w', holds2 (is_small 3) x A y B w hf /\ small_run2 3 PSwap (x, y) w = Exn EUser (x', y') w'.
Proof.
  intros E A B. split; [right; split; [reflexivity|right; unfold inside; simpl; lia]|].
  apply (small_case2_exn (E := E) 3 (ltac:(vm_compute; discriminate)) [@New E (small_vector 3) 0 (@KRange E 8 [5]%nat); @New E (small_vector 3) 1 (@KRange E 7 [10; 20; 30]%nat)] 0 1); [done|vm_compute; reflexivity].
Qed.
(** Otherwise it is false: propagating unequal allocators, one object inside, one
    outside, and an element move that throws.  swap has exchanged the allocators
    but not the blocks, and destroying the second object gives its block to the
    wrong allocator. *)
Theorem C21_small_vector_swap_refuted :
  exists (E : Env) N x (A : sabs) y (B : sabs) w hf e x' y' w',
    Z.of_nat N <= max_size /\ pocs = true /\ holds2 (is_small N) x A y B w hf /\
    small_run2 N PSwap (x, y) w = Exn e (x', y') w' /\
    kill (small_vector N) y' w' = UB.
Proof. exact small_swap_refuted. Qed.
Print Assumptions C21_small_vector_swap_refuted.

(** ** C45, C46 *)
Theorem C45_small_vector_at : forall (E : Env) N, Z.of_nat N <= max_size ->
  forall i x (A : sabs) w hf,
  holds (is_small N) x A w hf ->
  small_call N (OAt i) x w =
    match q_elems A.2 !! i with
    | Some v => Ok (RVal v) x w
    | None => Exn EOutOfRange x w
    end.
Proof. exact @small_at_ok. Qed.
Print Assumptions C45_small_vector_at.
Theorem C46_small_vector_erase_if : forall (E : Env) N, Z.of_nat N <= max_size ->
  forall p x (A : sabs) w hf r x' w',
  holds (is_small N) x A w hf -> small_call N (OEraseIf p) x w = Ok r x' w' ->
  exists A' : sabs, holds (is_small N) x' A' w' hf /\
    q_elems A'.2 = List.filter (fun v => negb (p v)) (q_elems A.2) /\
    r = RNum (Z.of_nat (length (q_elems A.2) - length (q_elems A'.2))%nat) /\
    q_data A'.2 = q_data A.2 /\ q_cap A'.2 = q_cap A.2.
Proof. exact @small_erase_if. Qed.
Print Assumptions C46_small_vector_erase_if.
Example C46_small_case : let E := calm in let A : sabs := ((-1, 0), VAbs 7 (-1, 0) [10; 20; 30]%nat 3) in
  Z.of_nat 3 <= max_size /\
  exists x w hf x' w', holds (is_small 3) x A w hf /\
    small_call 3 (OEraseIf (Nat.eqb 20)) x w = Ok (RNum 1) x' w'.
Proof.
  intros E A. split; [vm_compute; discriminate|]. 
  apply (small_case_ok (E := E) 3 (ltac:(vm_compute; discriminate)) [@New E (small_vector 3) 0 (@KRange E 7 [10; 20; 30]%nat)] 0); vm_compute; reflexivity.
Qed.
