(** * Cost of insertion and erasure in the middle (C69)

    [tick w] counts the operations of the element type and the allocations performed
    so far; [steps o n] (InsertSpec.v) is the number for call [o] on a container of [n]
    elements: the elements inserted plus the distance from the position to the end,
    except for input iterators. *)

From Verif Require Import VectorDemo InsertRefuted.
Open Scope Z_scope.

(** ** Without reallocation, exactly *)
Theorem C69_vector_insert_cost : forall (E : Env) o x A w hf r x' w' c,
  steps o (length (q_elems A)) = Some c ->
  holds is_vec x A w hf -> Z.of_nat (length (q_elems A) + grows o) <= q_cap A ->
  vec_call o x w = Ok r x' w' -> tick w' = (tick w + c)%nat.
Proof. exact @vec_steps. Qed.
Print Assumptions C69_vector_insert_cost.
Example C69_vector_case : let E := calm in let A := VAbs 7 (2, 0) [10; 20; 30]%nat 8 in
  steps (OInsertRange 1 [1; 2; 3]%nat) 3 = Some 5%nat /\
  Z.of_nat (length (q_elems A) + grows (OInsertRange 1 [1; 2; 3]%nat)) <= q_cap A /\
  exists x w hf x' w', holds is_vec x A w hf /\
    vec_call (OInsertRange 1 [1; 2; 3]%nat) x w = Ok (RIdx 1) x' w'.
Proof.
  intros E A. split; [reflexivity|]. split; [vm_compute; discriminate|].
  apply (vec_case_ok (E := E) [@New E vector 0 (@KRange E 7 [10; 20; 30]%nat); @Do E vector 0 (OReserve 8)] 0); vm_compute; reflexivity.
Qed.
Theorem C69_small_vector_insert_cost : forall (E : Env) N o x (A : sabs) w hf r x' w' c,
  steps o (length (q_elems A.2)) = Some c ->
  holds (is_small N) x A w hf -> Z.of_nat (length (q_elems A.2) + grows o) <= q_cap A.2 ->
  small_call N o x w = Ok r x' w' -> tick w' = (tick w + c)%nat.
Proof. exact @small_steps. Qed.
Print Assumptions C69_small_vector_insert_cost.
Example C69_small_case : let E := calm in let A : sabs := ((-1, 0), VAbs 7 (-1, 0) [10; 20; 30]%nat 6) in
  steps (OInsertN 1 3 (XCopy 2)) 3 = Some 6%nat /\
  Z.of_nat (length (q_elems A.2) + grows (OInsertN 1 3 (XCopy 2))) <= q_cap A.2 /\
  exists x w hf x' w', holds (is_small 6) x A w hf /\
    small_call 6 (OInsertN 1 3 (XCopy 2)) x w = Ok (RIdx 1) x' w'.
Proof.
  intros E A. split; [reflexivity|]. split; [vm_compute; discriminate|].
  apply (small_case_ok (E := E) 6 (ltac:(vm_compute; discriminate)) [@New E (small_vector 6) 0 (@KRange E 7 [10; 20; 30]%nat)] 0); vm_compute; reflexivity.
Qed.
Theorem C69_static_vector_insert_cost : forall (E : Env) N o x (A : tabs) w hf r x' w' c,
  steps o (length A.2) = Some c ->
  holds (is_static N) x A w hf -> (length A.2 + grows o <= N)%nat ->
  static_call N o x w = Ok r x' w' -> tick w' = (tick w + c)%nat.
Proof. exact @static_call_steps. Qed.
Print Assumptions C69_static_vector_insert_cost.
Example C69_static_case : let E := calm in let A : tabs := ((-1, 0), [10; 20; 30]%nat) in
  steps (OInsertInput 1 [1; 2]%nat) 3 = Some 8%nat /\
  (length A.2 + grows (OInsertInput 1 [1; 2]%nat) <= 5)%nat /\
  exists x w hf x' w', holds (is_static 5) x A w hf /\
    static_call 5 (OInsertInput 1 [1; 2]%nat) x w = Ok (RIdx 1) x' w'.
Proof.
  intros E A. split; [reflexivity|]. split; [vm_compute; lia|].
  apply (static_case_ok (E := E) 5 [@New E (static_vector 5) 0 (@TRange E [10; 20; 30]%nat)] 0); vm_compute; reflexivity.
Qed.

(** ** With or without reallocation: an allocation and one operation for every
    element, old or new.  Not for input iterators. *)
Theorem C69_vector_insert_upper : forall (E : Env) o x A w hf r x' w' c,
  steps o (length (q_elems A)) = Some c -> input_op o = false ->
  holds is_vec x A w hf -> vec_call o x w = Ok r x' w' ->
  (tick w' <= tick w + length (q_elems A) + grows o + 1)%nat.
Proof. exact @vec_any_steps. Qed.
Print Assumptions C69_vector_insert_upper.   (* case: C69_vector_case *)
Theorem C69_small_vector_insert_upper : forall (E : Env) N o x (A : sabs) w hf r x' w' c,
  steps o (length (q_elems A.2)) = Some c -> input_op o = false ->
  holds (is_small N) x A w hf -> small_call N o x w = Ok r x' w' ->
  (tick w' <= tick w + length (q_elems A.2) + grows o + 1)%nat.
Proof. exact @small_any_steps. Qed.
Print Assumptions C69_small_vector_insert_upper.
Example C69_small_grow_case : let E := calm in let A : sabs := ((-1, 0), VAbs 7 (-1, 0) [10; 20; 30]%nat 3) in
  steps (OInsertN 1 3 (XCopy 2)) 3 = Some 6%nat /\ input_op (OInsertN 1 3 (XCopy 2)) = false /\
  exists x w hf x' w', holds (is_small 3) x A w hf /\
    small_call 3 (OInsertN 1 3 (XCopy 2)) x w = Ok (RIdx 1) x' w'.
Proof.
  intros E A. split; [reflexivity|]. split; [reflexivity|].
  apply (small_case_ok (E := E) 3 (ltac:(vm_compute; discriminate)) [@New E (small_vector 3) 0 (@KRange E 7 [10; 20; 30]%nat)] 0); vm_compute; reflexivity.
Qed.

(** ** A range given by input iterators

    The elements are inserted one by one, each moves all those behind it: the cost
    is the product of the length and the distance ([C69_static_vector_insert_cost]
    etc.), not the sum.  No constant [K] is enough. *)
Theorem C69_input_linear_refuted : let E := calm in
  forall K : nat, exists N (l vs : list V) x w r x' w',
    build (static_vector N) (TRange l) tt w0 = Ok x tt w /\
    static_call N (OInsertInput 0 vs) x w = Ok r x' w' /\
    (K * (length vs + length l) < tick w' - tick w)%nat.
Proof. exact insert_input_not_linear. Qed.
Print Assumptions C69_input_linear_refuted.
