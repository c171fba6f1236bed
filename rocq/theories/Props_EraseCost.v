(** * Cost of erase_if (C68)

    [tick w] counts the operations of the element type, the calls of predicates and
    comparators and the allocations performed so far.  The documentation promises
    for every container: linear. *)

From Verif Require Import VectorDemo DevDemo EraseRefuted.
Open Scope Z_scope.

(** ** vector, small_vector, static_vector, devector

    One call of the predicate and at most one assignment per element. *)
Theorem C68_vector_erase_if_linear : forall (E : Env) p x A w hf r x' w',
  holds is_vec x A w hf -> vec_call (OEraseIf p) x w = Ok r x' w' ->
  let n := length (q_elems A) in (tick w + n <= tick w' <= tick w + 2 * n)%nat.
Proof. exact @vec_erase_if_cost. Qed.
Print Assumptions C68_vector_erase_if_linear.
Example C68_vector_case : let E := calm in let A := VAbs 7 (1, 0) [10; 20; 30]%nat 3 in
  exists x w hf x' w', holds is_vec x A w hf /\
    vec_call (OEraseIf (Nat.eqb 20)) x w = Ok (RNum 1) x' w'.
Proof.
  intros E A.
  apply (vec_case_ok (E := E) [@New E vector 0 (@KRange E 7 [10; 20; 30]%nat)] 0); vm_compute; reflexivity.
Qed.
Theorem C68_small_vector_erase_if_linear : forall (E : Env) N p x (A : sabs) w hf r x' w',
  holds (is_small N) x A w hf -> small_call N (OEraseIf p) x w = Ok r x' w' ->
  let n := length (q_elems A.2) in (tick w + n <= tick w' <= tick w + 2 * n)%nat.
Proof. exact @small_erase_if_cost. Qed.
Print Assumptions C68_small_vector_erase_if_linear.
Example C68_small_case : let E := calm in let A : sabs := ((-1, 0), VAbs 7 (-1, 0) [10; 20; 30]%nat 3) in
  exists x w hf x' w', holds (is_small 3) x A w hf /\
    small_call 3 (OEraseIf (Nat.eqb 20)) x w = Ok (RNum 1) x' w'.
Proof.
  intros E A.
  apply (small_case_ok (E := E) 3 (ltac:(vm_compute; discriminate)) [@New E (small_vector 3) 0 (@KRange E 7 [10; 20; 30]%nat)] 0); vm_compute; reflexivity.
Qed.
Theorem C68_static_vector_erase_if_linear : forall (E : Env) N p x (A : tabs) w hf r x' w',
  holds (is_static N) x A w hf -> static_call N (OEraseIf p) x w = Ok r x' w' ->
  let n := length A.2 in (tick w + n <= tick w' <= tick w + 2 * n)%nat.
Proof. exact @static_erase_if_cost. Qed.
Print Assumptions C68_static_vector_erase_if_linear.
Example C68_static_case : let E := calm in let A : tabs := ((-1, 0), [10; 20; 30]%nat) in
  exists x w hf x' w', holds (is_static 3) x A w hf /\
    static_call 3 (OEraseIf (Nat.eqb 20)) x w = Ok (RNum 1) x' w'.
Proof.
  intros E A.
  apply (static_case_ok (E := E) 3 [@New E (static_vector 3) 0 (@TRange E [10; 20; 30]%nat)] 0); vm_compute; reflexivity.
Qed.
Theorem C68_devector_erase_if_linear : forall (E : Env) p x (A : dabs) w hf r x' w',
  holds is_dev x A w hf -> dev_call (DEraseIf p) x w = Ok r x' w' ->
  let n := length (e_elems A) in (tick w + n <= tick w' <= tick w + 2 * n)%nat.
Proof. exact @dev_erase_if_cost. Qed.
Print Assumptions C68_devector_erase_if_linear.
Example C68_devector_case : let E := calm in let A := DAbs 7 (1, 0) 1 [20; 30; 20]%nat 4 in
  exists x w hf x' w', holds is_dev x A w hf /\
    dev_call (DEraseIf (Nat.eqb 20)) x w = Ok (RNum 2) x' w'.
Proof.
  intros E A.
  apply (dev_case_ok (E := E) [@New E (devector false) 0 (@KRange E 7 [10; 20; 30; 20]%nat);
    @Do E (devector false) 0 DPopFront] 0); vm_compute; reflexivity.
Qed.

(** ** The unordered flat containers: the last element takes the place of the one
    erased. *)
Theorem C68_unordered_erase_if_linear : forall (E : Env) (KD : Keyed) fl kd c p x l w hf r x' w',
  holds (is_flat fl) x l w hf -> unord_call fl kd c (UEraseIf p) x w = Ok r x' w' ->
  (tick w' <= tick w + 2 * length l)%nat.
Proof. exact @unord_erase_if_upper. Qed.
Print Assumptions C68_unordered_erase_if_linear.
Example C68_unord_case : let E := calm in let KD := calm_eset in
  exists x w hf x' w', holds (is_flat (StaticF 6)) x [4; 7; 6; 5; 8]%nat w hf /\
    unord_call (StaticF 6) set_ true (UEraseIf Nat.even) x w = Ok (Num 3) x' w'.
Proof.
  intros E KD.
  apply (static_udemo (KD := KD) 6 set_ true [4; 7; 6; 5; 8]%nat []). vm_compute. reflexivity.
Qed.

(** ** The ordered flat containers

    Every element that matches is erased on its own, which moves all those behind
    it.  If all match, the cost is exactly [n * (n + 1) / 2]. *)
Theorem C68_flat_erase_all : forall (E : Env) (KD : Keyed) fl kd c p x l w hf r x' w',
  (forall v, p v = true) ->
  holds (is_flat fl) x l w hf -> flat_call fl kd c (FEraseIf p) x w = Ok r x' w' ->
  (2 * tick w' = 2 * tick w + length l * (length l + 1))%nat.
Proof. exact @flat_erase_if_all. Qed.
Print Assumptions C68_flat_erase_all.
Example C68_flat_case : let E := calm in let KD := calm_set in
  exists x w hf x' w', holds (is_flat (StaticF 4)) x [1; 2; 4; 5]%nat w hf /\
    flat_call (StaticF 4) set_ true (FEraseIf (fun _ => true)) x w = Ok (Num 4) x' w'.
Proof.
  intros E KD.
  apply (static_demo (KD := KD) 4 set_ true [5; 4; 2; 1]%nat []). vm_compute. reflexivity.
Qed.
(** So no constant [K] is enough, here for static_flat_multiset<int, N>. *)
Theorem C68_flat_erase_if_linear_refuted : let E := calm in let KD := calm_set in
  forall K : nat, exists N (vs : list V) x w r x' w',
    flat_new (StaticF N) multiset_ (NewRange true 0 vs) tt w0 = Ok x tt w /\
    flat_call (StaticF N) multiset_ true (FEraseIf (fun _ => true)) x w = Ok r x' w' /\
    (K * length vs < tick w' - tick w)%nat.
Proof. exact erase_if_not_linear. Qed.
Print Assumptions C68_flat_erase_if_linear_refuted.
(** It is never worse than that. *)
Theorem C68_flat_erase_if_upper : forall (E : Env) (KD : Keyed) fl kd c p x l w hf r x' w',
  holds (is_flat fl) x l w hf -> flat_call fl kd c (FEraseIf p) x w = Ok r x' w' ->
  (2 * tick w' <= 2 * tick w + length l * (length l + 1))%nat.
Proof. exact @flat_erase_if_upper. Qed.
Print Assumptions C68_flat_erase_if_upper.   (* case: C68_flat_case *)
