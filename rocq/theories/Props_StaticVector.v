(** * Properties of sfl::static_vector<T, N> (C11 - C13, C45, C46)

    [holds (is_static N) x A w hf]: in world [w] the object [x] is a static vector
    with the elements [A.2] in the array at [A.1] inside the object (StaticMem.v);
    the rest of memory is [hf].  [static_call N o x w] runs the member function call
    [o].  N is arbitrary, 0 included. *)

From Verif Require Import StaticThms.
Open Scope Z_scope.

(** ** C11: a bounded sequence in the array *)
Theorem C11_static_vector_sequence : forall (E : Env) N o x (A : tabs) w hf r x' w',
  holds (is_static N) x A w hf -> static_pre N o (length A.2) = true ->
  static_call N o x w = Ok r x' w' ->
  exists A' : tabs, holds (is_static N) x' A' w' hf /\ A'.1 = A.1 /\ static_post N o A.2 r A'.2.
Proof. exact @static_returns. Qed.
Print Assumptions C11_static_vector_sequence.
(** The static vector is filled up to its capacity by copies of its own last element. *)
Example C11_case : let E := calm in let A : tabs := ((-1, 0), [10; 20]%nat) in
  static_pre 4 (OInsertN 1 2 (XCopy 1)) 2 = true /\
  exists x w hf x' w', holds (is_static 4) x A w hf /\
    static_call 4 (OInsertN 1 2 (XCopy 1)) x w = Ok (RIdx 1) x' w'.
Proof.
  intros E A. split; [reflexivity|].
  apply (static_case_ok (E := E) 4 [@New E (static_vector 4) 0 (@TRange E [10; 20]%nat)] 0); vm_compute; reflexivity.
Qed.

(** Nothing outside the array changes ([hf] stays), no block is allocated ([next]
    stays), size() <= N; also when the call throws. *)
Theorem C11_static_vector_bounded : forall (E : Env) N o x (A : tabs) w hf,
  holds (is_static N) x A w hf -> static_pre N o (length A.2) = true ->
  match static_call N o x w with
  | Ok _ x' w' | Exn _ x' w' =>
      next w' = next w /\
      exists A' : tabs, holds (is_static N) x' A' w' hf /\ A'.1 = A.1 /\ (length A'.2 <= N)%nat
  | UB => False
  end.
Proof. exact @static_bounded. Qed.
Print Assumptions C11_static_vector_bounded.
Theorem C11_static_vector_aliasing : forall (E : Env) N (o : vop) x (A : tabs) (w : world) hf (j : nat) (v : V) r x' w',
  holds (is_static N) x A w hf -> A.2 !! j = Some v ->
  static_pre N o (length A.2) = true -> static_call N o x w = Ok r x' w' ->
  exists A' : tabs, holds (is_static N) x' A' w' hf /\
    let l := A.2 in let l' := A'.2 in
    match o with
    | OEmplace i (XCopy k) => k = j -> l' = take i l ++ [v] ++ drop i l
    | OEmplaceBack (XCopy k) => k = j -> l' = l ++ [v]
    | OInsertN i n (XCopy k) => k = j -> l' = take i l ++ replicate n v ++ drop i l
    | OResize n (XCopy k) => k = j -> l' = take n l ++ replicate (n - length l)%nat v
    | OEmplace i (XMove k) =>
        k = j -> l' = take i (<[j := vmoved v]> l) ++ [v] ++ drop i (<[j := vmoved v]> l)
    | OEmplaceBack (XMove k) => k = j -> l' = <[j := vmoved v]> l ++ [v]
    | _ => True
    end.
Proof. exact @static_alias. Qed.
Print Assumptions C11_static_vector_aliasing.
Example C11_aliasing_case : let E := calm in let A : tabs := ((-1, 0), [10; 20; 30]%nat) in
  A.2 !! 2%nat = Some 30%nat /\ static_pre 4 (OEmplace 0 (XMove 2)) 3 = true /\
  exists x w hf x' w', holds (is_static 4) x A w hf /\
    static_call 4 (OEmplace 0 (XMove 2)) x w = Ok (RIdx 0) x' w'.
Proof.
  intros E A. split; [reflexivity|]. split; [reflexivity|].
  apply (static_case_ok (E := E) 4 [@New E (static_vector 4) 0 (@TRange E [10; 20; 30]%nat)] 0); vm_compute; reflexivity.
Qed.
(** Elements in front of the affected position keep their value (and, the array being
    fixed, their address). *)
Theorem C11_static_vector_prefix_stable : forall (E : Env) N o x (A : tabs) w hf r x' w',
  holds (is_static N) x A w hf -> static_pre N o (length A.2) = true -> moving_arg o = false ->
  static_call N o x w = Ok r x' w' ->
  exists A' : tabs, holds (is_static N) x' A' w' hf /\
    forall i v, (i < touched_from o A.2)%nat -> A.2 !! i = Some v -> A'.2 !! i = Some v.
Proof. exact @static_prefix. Qed.
Print Assumptions C11_static_vector_prefix_stable.
Example C11_prefix_case : let E := calm in let A : tabs := ((-1, 0), [10; 20; 30]%nat) in
  static_pre 4 (OErase 1) 3 = true /\ touched_from (OErase 1) A.2 = 1%nat /\
  exists x w hf x' w', holds (is_static 4) x A w hf /\ static_call 4 (OErase 1) x w = Ok (RIdx 1) x' w'.
Proof.
  intros E A. split; [reflexivity|]. split; [reflexivity|].
  apply (static_case_ok (E := E) 4 [@New E (static_vector 4) 0 (@TRange E [10; 20; 30]%nat)] 0); vm_compute; reflexivity.
Qed.

(** ** C12: exception safety *)
Theorem C12_static_vector_basic_guarantee : forall (E : Env) N o x (A : tabs) w hf e x' w',
  holds (is_static N) x A w hf -> static_pre N o (length A.2) = true ->
  static_call N o x w = Exn e x' w' ->
  exists A' : tabs, holds (is_static N) x' A' w' hf /\ A'.1 = A.1 /\ static_exn o A.2 e A'.2 /\ reason e w w'.
Proof. exact @static_throws. Qed.
Print Assumptions C12_static_vector_basic_guarantee.
Theorem C12_static_vector_no_exception_lost : forall (E : Env) N o x (A : tabs) w hf r x' w',
  holds (is_static N) x A w hf -> static_pre N o (length A.2) = true ->
  static_call N o x w = Ok r x' w' -> fired w' = fired w.
Proof. exact @static_no_swallow. Qed.
Print Assumptions C12_static_vector_no_exception_lost.
(** Moving the elements behind the position throws halfway. *)
Example C12_case : let E := throws_at 6 in let A : tabs := ((-1, 0), [10; 20; 30]%nat) in
  static_pre 5 (OInsertN 0 2 (XVal 7%nat)) 3 = true /\
  exists x w hf x' w', holds (is_static 5) x A w hf /\
    static_call 5 (OInsertN 0 2 (XVal 7%nat)) x w = Exn EUser x' w'.
Proof.
  intros E A. split; [reflexivity|].
  apply (static_case_exn (E := E) 5 [@New E (static_vector 5) 0 (@TRange E [10; 20; 30]%nat)] 0); vm_compute; reflexivity.
Qed.
Theorem C12_static_vector_strong : forall (E : Env) N o x (A : tabs) w hf e x' w',
  holds (is_static N) x A w hf -> static_pre N o (length A.2) = true -> static_strong o A.2 ->
  static_call N o x w = Exn e x' w' ->
  x' = x /\ heap w' = heap w.
Proof. exact @static_strong_ok. Qed.
Print Assumptions C12_static_vector_strong.
Example C12_strong_case : let E := throws_at 3 in let A : tabs := ((-1, 0), [10; 20; 30]%nat) in
  static_pre 5 (OEmplaceBack (XVal 7%nat)) 3 = true /\ static_strong (OEmplaceBack (XVal 7%nat)) A.2 /\
  exists x w hf x' w', holds (is_static 5) x A w hf /\
    static_call 5 (OEmplaceBack (XVal 7%nat)) x w = Exn EUser x' w'.
Proof.
  intros E A. split; [reflexivity|]. split; [reflexivity|].
  apply (static_case_exn (E := E) 5 [@New E (static_vector 5) 0 (@TRange E [10; 20; 30]%nat)] 0); vm_compute; reflexivity.
Qed.
Theorem C12_static_vector_constructors_safe : forall (E : Env) N c w hf,
  holds0 w hf -> t_pre N c = true ->
  match build (static_vector N) c tt w with
  | Ok x _ w' => exists A : tabs, holds (is_static N) x A w' hf /\ A.2 = t_elems c /\ quiet w w'
  | Exn e _ w' => holds0 w' hf /\ e = EUser /\ reason e w w'
  | UB => False
  end.
Proof. exact @static_ctor_safe. Qed.
Print Assumptions C12_static_vector_constructors_safe.
Example C12_constructor_case : let E := throws_at 2 in
  holds0 w0 ∅ /\ exists w', build (static_vector 3) (TInput [10; 20; 30]%nat) tt w0 = Exn EUser tt w'.
Proof.
  intros E. split; [apply w0_holds|].
  edestruct (thrown_exn (build (static_vector 3) (@TInput E [10; 20; 30]%nat) tt w0) EUser) as ([] & w' & H);
    [vm_compute; reflexivity|]. by exists w'.
Qed.
(** Copy and move construction. *)
Theorem C12_static_vector_constructors2 : forall (E : Env) N c y (B : tabs) w hf,
  holds (is_static N) y B w hf ->
  match build2 (static_vector N) c y w with
  | Ok x y' w' => exists A B' : tabs, holds2 (is_static N) x A y' B' w' hf /\ static_k2_post c B A B' /\ quiet w w'
  | Exn e y' w' => exists B' : tabs, holds (is_static N) y' B' w' hf /\ static_k2_exn c B e B' /\ reason e w w'
  | UB => False
  end.
Proof. exact @static_ctor2_safe. Qed.
Print Assumptions C12_static_vector_constructors2.
Example C12_constructor2_case : let E := throws_at 4 in
  exists y w hf y' w', holds (is_static 3) y ((-1, 0), [10; 20; 30]%nat) w hf /\
  build2 (static_vector 3) TMove y w = Exn EUser y' w'.
Proof.
  intros E. apply (static_case_exn (E := E) 3 [@New E (static_vector 3) 0 (@TRange E [10; 20; 30]%nat)] 0); vm_compute; reflexivity.
Qed.
(** Assignment, swap, comparisons. *)
Theorem C12_static_vector_two_objects : forall (E : Env) N o x (A : tabs) y (B : tabs) w hf,
  holds2 (is_static N) x A y B w hf ->
  match static_run2 N o (x, y) w with
  | Ok r (x', y') w' =>
      exists A' B' : tabs, holds2 (is_static N) x' A' y' B' w' hf /\ static_post2 o A B r A' B' /\ quiet w w'
  | Exn e (x', y') w' =>
      exists A' B' : tabs, holds2 (is_static N) x' A' y' B' w' hf /\ static_exn2 o A B e A' B' /\ reason e w w'
  | UB => False
  end.
Proof. exact @static_two_safe. Qed.
Print Assumptions C12_static_vector_two_objects.
Example C12_two_case : let E := throws_at 5 in
  let A : tabs := ((-1, 0), [5]%nat) in let B : tabs := ((-2, 0), [10; 20; 30]%nat) in
  exists x y w hf x' y' w', holds2 (is_static 3) x A y B w hf /\ static_run2 3 PCopy (x, y) w = Exn EUser (x', y') w'.
Proof.
  intros E A B.
  apply (static_case2_exn (E := E) 3 [@New E (static_vector 3) 0 (@TRange E [5]%nat); @New E (static_vector 3) 1 (@TRange E [10; 20; 30]%nat)] 0 1); [done|vm_compute; reflexivity].
Qed.
Theorem C12_static_vector_destructor_safe : forall (E : Env) N x (A : tabs) w hf,
  holds (is_static N) x A w hf ->
  match kill (static_vector N) x w with
  | Ok _ _ w' => holds0 w' hf
  | _ => False
  end.
Proof. exact @static_dtor_safe. Qed.
Print Assumptions C12_static_vector_destructor_safe.
Example C12_destructor_case : let E := calm in
  exists x w hf, holds (is_static 3) x ((-1, 0), [10; 20]%nat) w hf.
Proof.
  intros E. apply (static_case (E := E) 3 [@New E (static_vector 3) 0 (@TRange E [10; 20]%nat)] 0); vm_compute; reflexivity.
Qed.
(** Histories of any number of static vectors. *)
Theorem C12_static_vector_history : forall (E : Env) N (cs : list (cmd (static_vector N))) w,
  wf_world w ->
  exists os P w' A h,
    exec_all (static_vector N) cs ∅ w = Some (os, P, w') /\ atrace (static_spec N) cs ∅ os A /\
    pool_mem (S := static_spec N) (is_static N) P A h /\ h ##ₘ heap w /\ heap w' = h ∪ heap w /\
    ((forall e, Threw e ∉ os) -> fired w' = fired w).
Proof. exact @static_history. Qed.
Print Assumptions C12_static_vector_history.
Theorem C12_static_vector_no_leak : forall (E : Env) N (cs : list (cmd (static_vector N))) w,
  wf_world w ->
  exists os w', exec_all (static_vector N) (cs ++ (Drop <$> created cs)) ∅ w = Some (os, ∅, w') /\
                heap w' = heap w.
Proof. exact @static_no_leak. Qed.
Print Assumptions C12_static_vector_no_leak.
Example C12_history_case : let E := throws_at 6 in
  wf_world w0 /\
  exists P w', exec_all (static_vector 4)
    [@New E (static_vector 4) 0 (@TRange E [10; 20; 30]%nat); @New E (static_vector 4) 1 (@TRange E [5]%nat);
     @Do E (static_vector 4) 0 (OEmplaceBack (XVal 1%nat)); @Do E (static_vector 4) 0 (OEmplaceBack (XVal 2%nat));
     @Do2 E (static_vector 4) 0 1 PSwap; @Do2 E (static_vector 4) 0 1 PSwap;
     @NewFrom E (static_vector 4) 2 1 TMove; @Drop E (static_vector 4) 0] ∅ w0
    = Some ([Created; Created; Returned (RIdx 3); Skipped; Threw EUser; Returned RUnit; Created; Dropped], P, w').
Proof. intros E. split; [apply w0_wf|]. apply outcomes_ok. vm_compute. reflexivity. Qed.

(** ** C13: swap *)
Theorem C13_static_vector_swap : forall (E : Env) N x (A : tabs) y (B : tabs) w hf,
  holds2 (is_static N) x A y B w hf ->
  match static_run2 N PSwap (x, y) w with
  | Ok _ (x', y') w' => holds2 (is_static N) x' (A.1, B.2) y' (B.1, A.2) w' hf
  | Exn e (x', y') w' => exists l1 l2, holds2 (is_static N) x' (A.1, l1) y' (B.1, l2) w' hf /\
      length l1 = length A.2 /\ length l2 = length B.2 /\ e = EUser /\ reason e w w'
  | UB => False
  end.
Proof. exact @static_swap_ok. Qed.
Print Assumptions C13_static_vector_swap.
Theorem C13_static_vector_swap_destroy : forall (E : Env) N x (A : tabs) y (B : tabs) w hf,
  holds2 (is_static N) x A y B w hf ->
  match static_run2 N PSwap (x, y) w with
  | Ok _ (x', y') w' | Exn _ (x', y') w' =>
      match kill (static_vector N) x' w' with
      | Ok _ _ w1 =>
          match kill (static_vector N) y' w1 with
          | Ok _ _ w2 => heap w2 = hf
          | _ => False
          end
      | _ => False
      end
  | UB => False
  end.
Proof. exact @static_swap_kill. Qed.
Print Assumptions C13_static_vector_swap_destroy.
Example C13_case : let E := calm in
  let A : tabs := ((-1, 0), [5]%nat) in let B : tabs := ((-2, 0), [10; 20; 30]%nat) in
  exists x y w hf x' y' w', holds2 (is_static 3) x A y B w hf /\ static_run2 3 PSwap (x, y) w = Ok RUnit (x', y') w'.
Proof.
  intros E A B.
  apply (static_case2_ok (E := E) 3 [@New E (static_vector 3) 0 (@TRange E [5]%nat); @New E (static_vector 3) 1 (@TRange E [10; 20; 30]%nat)] 0 1); [done|vm_compute; reflexivity].
Qed.
Example C13_case2 : let E := throws_at 8 in
  let A : tabs := ((-1, 0), [5; 6]%nat) in let B : tabs := ((-2, 0), [10; 20; 30]%nat) in
  exists x y w hf x' y' w', holds2 (is_static 3) x A y B w hf /\ static_run2 3 PSwap (x, y) w = Exn EUser (x', y') w'.
Proof.
  intros E A B.
  apply (static_case2_exn (E := E) 3 [@New E (static_vector 3) 0 (@TRange E [5; 6]%nat); @New E (static_vector 3) 1 (@TRange E [10; 20; 30]%nat)] 0 1); [done|vm_compute; reflexivity].
Qed.

(** ** C45, C46 *)
Theorem C45_static_vector_at : forall (E : Env) N i x (A : tabs) w hf,
  holds (is_static N) x A w hf ->
  static_call N (OAt i) x w =
    match A.2 !! i with
    | Some v => Ok (RVal v) x w
    | None => Exn EOutOfRange x w
    end.
Proof. exact @static_at_ok. Qed.
Print Assumptions C45_static_vector_at.
Theorem C46_static_vector_erase_if : forall (E : Env) N p x (A : tabs) w hf r x' w',
  holds (is_static N) x A w hf -> static_call N (OEraseIf p) x w = Ok r x' w' ->
  exists A' : tabs, holds (is_static N) x' A' w' hf /\
    A'.2 = List.filter (fun v => negb (p v)) A.2 /\
    r = RNum (Z.of_nat (length A.2 - length A'.2)%nat).
Proof. exact @static_erase_if. Qed.
Print Assumptions C46_static_vector_erase_if.
Example C46_static_case : let E := calm in let A : tabs := ((-1, 0), [10; 20; 30]%nat) in
  exists x w hf x' w', holds (is_static 3) x A w hf /\
    static_call 3 (OEraseIf (Nat.eqb 20)) x w = Ok (RNum 1) x' w'.
Proof.
  intros E A.
  apply (static_case_ok (E := E) 3 [@New E (static_vector 3) 0 (@TRange E [10; 20; 30]%nat)] 0); vm_compute; reflexivity.
Qed.
