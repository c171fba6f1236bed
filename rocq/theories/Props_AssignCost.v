(** * Cost of assignment (C74)

    [tick w] counts the operations of the element type and the allocations performed so
    far.  [assigns o = Some n] (AssignSpec.v): [o] is [assign] of [n] copies of a value or of
    a range of [n] elements given by forward iterators. *)

From Verif Require Import VectorDemo AssignMore.
Open Scope Z_scope.

(** ** [assign] *)
Theorem C74_vector_assign_cost : forall (E : Env) o n x A w hf r x' w',
  assigns o = Some n -> holds is_vec x A w hf -> vec_call o x w = Ok r x' w' ->
  (tick w + n <= tick w' <= tick w + n + 1)%nat /\ (Z.of_nat n <= q_cap A -> tick w' = (tick w + n)%nat).
Proof. exact @vec_assign_cost. Qed.
Print Assumptions C74_vector_assign_cost.
Example C74_vector_case : let E := calm in
  let A := VAbs 7 (2, 0) [10; 20; 30]%nat 8 in
  assigns (OAssignN 5 9%nat) = Some 5%nat /\ exists x w hf x' w', holds is_vec x A w hf /\
    vec_call (OAssignN 5 9%nat) x w = Ok RUnit x' w'.
Proof.
  intros E A. split; [reflexivity|].
  apply (vec_case_ok (E := E) [@New E vector 0 (@KRange E 7 [10; 20; 30]%nat); @Do E vector 0 (OReserve 8)] 0); vm_compute; reflexivity.
Qed.
(** sfl::small_vector: also no allocation if the elements fit in the internal storage. *)
Theorem C74_small_vector_assign_cost : forall (E : Env) N o n x (A : SmallSpec.sabs) w hf r x' w',
  assigns o = Some n -> holds (is_small N) x A w hf -> small_call N o x w = Ok r x' w' ->
  (tick w + n <= tick w' <= tick w + n + 1)%nat /\
  (Z.of_nat n <= Z.max (Z.of_nat N) (q_cap A.2) -> tick w' = (tick w + n)%nat).
Proof. exact @small_assign_cost. Qed.
Print Assumptions C74_small_vector_assign_cost.
Example C74_small_case : let E := calm in
  let A := ((-1, 0), VAbs 7 (2, 0) [10; 20; 30]%nat 3) in
  assigns (OAssignRange [1; 2; 3; 4]%nat) = Some 4%nat /\ exists x w hf x' w', holds (is_small 2) x A w hf /\
    small_call 2 (OAssignRange [1; 2; 3; 4]%nat) x w = Ok RUnit x' w'.
Proof.
  intros E A. split; [reflexivity|].
  apply (small_case_ok (E := E) 2 (ltac:(vm_compute; discriminate)) [@New E (small_vector 2) 0 (@KRange E 7 [10; 20; 30]%nat)] 0); vm_compute; reflexivity.
Qed.
Theorem C74_static_vector_assign_cost : forall (E : Env) N o n x w r x' w',
  assigns o = Some n -> static_call N o x w = Ok r x' w' -> tick w' = (tick w + n)%nat.
Proof. exact @static_assign_cost. Qed.
Print Assumptions C74_static_vector_assign_cost.
Example C74_static_case : let E := calm in
  let A := ((-1, 0), [10; 20; 30]%nat) in
  assigns (OAssignN 5 9%nat) = Some 5%nat /\ exists x w hf x' w', holds (is_static 5) x A w hf /\
    static_call 5 (OAssignN 5 9%nat) x w = Ok RUnit x' w'.
Proof.
  intros E A. split; [reflexivity|].
  apply (static_case_ok (E := E) 5 [@New E (static_vector 5) 0 (@TRange E [10; 20; 30]%nat)] 0); vm_compute; reflexivity.
Qed.
(** sfl::compact_vector: a new block unless the number of elements stays the same. *)
Theorem C74_compact_vector_assign_cost : forall (E : Env) o n x (A : vabs) w hf r x' w',
  assigns o = Some n -> holds is_compact x A w hf -> compact_call o x w = Ok r x' w' ->
  tick w' = (tick w + n + if Nat.eqb n (length (q_elems A)) || Nat.eqb n 0 then 0 else 1)%nat.
Proof. exact @compact_assign_cost. Qed.
Print Assumptions C74_compact_vector_assign_cost.
Example C74_compact_case : let E := calm in
  let A := VAbs 7 (1, 0) [10; 20; 30]%nat 3 in
  assigns (OAssignN 2 9%nat) = Some 2%nat /\ exists x w hf x' w', holds is_compact x A w hf /\
    compact_call (OAssignN 2 9%nat) x w = Ok RUnit x' w'.
Proof.
  intros E A. split; [reflexivity|].
  apply (compact_case_ok (E := E) [@New E (compact_vector code_undo false) 0 (@KRange E 7 [10; 20; 30]%nat)] 0); vm_compute; reflexivity.
Qed.
(** sfl::devector: if the elements do not fit, the old ones are moved to a new block before
    they are assigned to; there are fewer than [n] of them. *)
Theorem C74_devector_assign_cost : forall (E : Env) o n x A w hf r x' w',
  dev_assigns o = Some n -> holds is_dev x A w hf -> dev_call o x w = Ok r x' w' ->
  tick w' = (tick w + n + if (Z.of_nat n <=? e_cap A)%Z then 0 else length (e_elems A) + 1)%nat.
Proof. exact @dev_assign_cost. Qed.
Print Assumptions C74_devector_assign_cost.
Example C74_dev_case : let E := calm in
  let A := DAbs 7 (1, 0) 0 [10; 20; 30]%nat 3 in
  dev_assigns (DAssignN 5 9%nat) = Some 5%nat /\ exists x w hf x' w', holds is_dev x A w hf /\
    dev_call (DAssignN 5 9%nat) x w = Ok RUnit x' w'.
Proof.
  intros E A. split; [reflexivity|].
  apply (dev_case_ok (E := E) [@New E (devector false) 0 (@KRange E 7 [10; 20; 30]%nat)] 0); vm_compute; reflexivity.
Qed.

(** ** [assign] from input iterators *)
Theorem C74_vector_assign_input_cost : forall (E : Env) vs x A w hf r x' w',
  holds is_vec x A w hf -> vec_call (OAssignInput vs) x w = Ok r x' w' ->
  (tick w' <= tick w + 6 * length vs)%nat.
Proof. exact @vec_input_cost. Qed.
Print Assumptions C74_vector_assign_input_cost.
Example C74_vector_input_case : let E := calm in
  let A := VAbs 7 (1, 0) [10; 20; 30]%nat 3 in
  exists x w hf x' w', holds is_vec x A w hf /\ vec_call (OAssignInput [1; 2; 3; 4; 5]%nat) x w = Ok RUnit x' w'.
Proof. intros E A. apply (vec_case_ok (E := E) [@New E vector 0 (@KRange E 7 [10; 20; 30]%nat)] 0); vm_compute; reflexivity. Qed.
Theorem C74_small_vector_assign_input_cost : forall (E : Env) N, Z.of_nat N <= max_size ->
  forall vs x (A : SmallSpec.sabs) w hf r x' w',
  holds (is_small N) x A w hf -> small_call N (OAssignInput vs) x w = Ok r x' w' ->
  (tick w' <= tick w + 6 * length vs)%nat.
Proof. exact @small_input_cost. Qed.
Print Assumptions C74_small_vector_assign_input_cost.
Example C74_small_input_case : let E := calm in
  let A := ((-1, 0), VAbs 7 (2, 0) [10; 20; 30]%nat 3) in
  exists x w hf x' w', holds (is_small 2) x A w hf /\ small_call 2 (OAssignInput [1; 2; 3; 4; 5]%nat) x w = Ok RUnit x' w'.
Proof.
  intros E A.
  apply (small_case_ok (E := E) 2 (ltac:(vm_compute; discriminate)) [@New E (small_vector 2) 0 (@KRange E 7 [10; 20; 30]%nat)] 0); vm_compute; reflexivity.
Qed.
Theorem C74_static_vector_assign_input_cost : forall (E : Env) N vs x w r x' w',
  static_call N (OAssignInput vs) x w = Ok r x' w' -> tick w' = (tick w + length vs)%nat.
Proof. exact @static_input_cost. Qed.
Print Assumptions C74_static_vector_assign_input_cost.
Example C74_static_input_case : let E := calm in
  let A := ((-1, 0), [10; 20; 30]%nat) in
  exists x w hf x' w', holds (is_static 5) x A w hf /\ static_call 5 (OAssignInput [1; 2; 3; 4; 5]%nat) x w = Ok RUnit x' w'.
Proof.
  intros E A.
  apply (static_case_ok (E := E) 5 [@New E (static_vector 5) 0 (@TRange E [10; 20; 30]%nat)] 0); vm_compute; reflexivity.
Qed.
Theorem C74_devector_assign_input_cost : forall (E : Env) vs x A w hf r x' w',
  holds is_dev x A w hf -> dev_call (DAssignInput vs) x w = Ok r x' w' ->
  (tick w' <= tick w + 10 * length vs)%nat.
Proof. exact @dev_input_cost. Qed.
Print Assumptions C74_devector_assign_input_cost.
Example C74_dev_input_case : let E := calm in
  let A := DAbs 7 (1, 0) 0 [10; 20; 30]%nat 3 in
  exists x w hf x' w', holds is_dev x A w hf /\ dev_call (DAssignInput [1; 2; 3; 4; 5]%nat) x w = Ok RUnit x' w'.
Proof. intros E A. apply (dev_case_ok (E := E) [@New E (devector false) 0 (@KRange E 7 [10; 20; 30]%nat)] 0); vm_compute; reflexivity. Qed.
(** sfl::compact_vector, for which no complexity is documented: quadratic. *)
Theorem C74_compact_vector_assign_input_cost : forall (E : Env) vs x (A : vabs) w hf r x' w',
  holds is_compact x A w hf -> compact_call (OAssignInput vs) x w = Ok r x' w' ->
  let n := length vs in (n * (n + 1) <= 2 * (tick w' - tick w) <= n * (n + 3))%nat.
Proof. exact @compact_input_cost. Qed.
Print Assumptions C74_compact_vector_assign_input_cost.
Example C74_compact_input_case : let E := calm in
  let A := VAbs 7 (1, 0) [10; 20; 30]%nat 3 in
  exists x w hf x' w', holds is_compact x A w hf /\ compact_call (OAssignInput [1; 2; 3; 4; 5]%nat) x w = Ok RUnit x' w'.
Proof.
  intros E A.
  apply (compact_case_ok (E := E) [@New E (compact_vector code_undo false) 0 (@KRange E 7 [10; 20; 30]%nat)] 0); vm_compute; reflexivity.
Qed.

(** ** Copy and move assignment

    Nothing if the storage is taken over ([takes_over], AssignSpec.v), otherwise one
    operation for each element of the other object and at most one allocation. *)
Theorem C74_vector_operator_cost : forall (E : Env) o x A y B w hf r xy w',
  assigns2 o = true -> holds2 is_vec x A y B w hf -> vec_run2 o (x, y) w = Ok r xy w' ->
  let n := length (q_elems B) in
  if takes_over o (q_alloc A) (q_alloc B) then tick w' = tick w else (tick w + n <= tick w' <= tick w + n + 1)%nat.
Proof. exact @vec_assign2_cost. Qed.
Print Assumptions C74_vector_operator_cost.
Example C74_vector_operator_case : let E := calm in
  let A := VAbs 8 (2, 0) [5]%nat 1 in let B := VAbs 7 (1, 0) [10; 20; 30]%nat 3 in
  assigns2 PMove = true /\
  exists x y w hf x' y' w', holds2 is_vec x A y B w hf /\ vec_run2 PMove (x, y) w = Ok RUnit (x', y') w'.
Proof.
  intros E A B. split; [reflexivity|].
  apply (vec_case2_ok (E := E) [@New E vector 1 (@KRange E 7 [10; 20; 30]%nat); @New E vector 0 (@KRange E 8 [5]%nat)] 0 1); [done|vm_compute; reflexivity].
Qed.
(** sfl::small_vector: elements in the internal storage of the other object cannot be taken
    over. *)
Theorem C74_small_vector_operator_cost : forall (E : Env) N o x (A : SmallSpec.sabs) y (B : SmallSpec.sabs) w hf r xy w',
  assigns2 o = true -> holds2 (is_small N) x A y B w hf -> small_run2 N o (x, y) w = Ok r xy w' ->
  let n := length (q_elems B.2) in
  if takes_over o (q_alloc A.2) (q_alloc B.2) && negb (loc_eqb (q_data B.2) B.1) then tick w' = tick w
  else (tick w + n <= tick w' <= tick w + n + if (n <=? N)%nat then 0 else 1)%nat.
Proof. exact @small_assign2_cost. Qed.
Print Assumptions C74_small_vector_operator_cost.
Example C74_small_operator_case : let E := calm in
  exists x A y B w hf x' y' w', holds2 (is_small 3) x A y B w hf /\ takes_over PMove (q_alloc A.2) (q_alloc B.2) && negb (loc_eqb (q_data B.2) B.1) = true /\
    small_run2 3 PMove (x, y) w = Ok RUnit (x', y') w'.
Proof.
  intros E.
  edestruct (small_case2_ok (E := E) 3 (ltac:(vm_compute; discriminate)) [@New E (small_vector 3) 0 (@KRange E 7 [5]%nat); @New E (small_vector 3) 1 (@KRange E 7 [10; 20; 30; 40]%nat)] 0 1 (small_run2 3 PMove))
    as (x & y & w & hf & x' & y' & w' & Hxy & Hr); [done|vm_compute; reflexivity|].
  do 4 eexists. do 5 eexists. split; [exact Hxy|]. split; [vm_compute; reflexivity|exact Hr].
Qed.
Theorem C74_static_vector_operator_cost : forall (E : Env) N o x (A : tabs) y (B : tabs) w hf r xy w',
  assigns2 o = true -> holds2 (is_static N) x A y B w hf -> static_run2 N o (x, y) w = Ok r xy w' ->
  tick w' = (tick w + length B.2)%nat.
Proof. exact @static_assign2_cost. Qed.
Print Assumptions C74_static_vector_operator_cost.
Example C74_static_operator_case : let E := calm in
  exists x A y B w hf x' y' w', holds2 (is_static 4) x A y B w hf /\ static_run2 4 PCopy (x, y) w = Ok RUnit (x', y') w'.
Proof.
  intros E.
  edestruct (static_case2_ok (E := E) 4 [@New E (static_vector 4) 0 (@TRange E [5]%nat); @New E (static_vector 4) 1 (@TRange E [10; 20; 30]%nat)] 0 1 (static_run2 4 PCopy))
    as (x & y & w & hf & x' & y' & w' & Hxy & Hr); [done|vm_compute; reflexivity|].
  do 4 eexists. do 5 eexists. split; [exact Hxy|exact Hr].
Qed.
Theorem C74_compact_vector_operator_cost : forall (E : Env) o x (A : vabs) y (B : vabs) w hf r xy w',
  assigns2 o = true -> holds2 is_compact x A y B w hf -> compact_run2 code_undo o (x, y) w = Ok r xy w' ->
  let n := length (q_elems B) in
  if takes_over o (q_alloc A) (q_alloc B) then tick w' = tick w else (tick w + n <= tick w' <= tick w + n + 1)%nat.
Proof. exact @compact_assign2_cost. Qed.
Print Assumptions C74_compact_vector_operator_cost.
Example C74_compact_operator_case : let E := calm in
  let A := VAbs 8 (2, 0) [5]%nat 1 in let B := VAbs 7 (1, 0) [10; 20; 30]%nat 3 in
  assigns2 PCopy = true /\
  exists x y w hf x' y' w', holds2 is_compact x A y B w hf /\ compact_run2 code_undo PCopy (x, y) w = Ok RUnit (x', y') w'.
Proof.
  intros E A B. split; [reflexivity|].
  apply (compact_case2_ok (E := E) [@New E (compact_vector code_undo false) 1 (@KRange E 7 [10; 20; 30]%nat);
    @New E (compact_vector code_undo false) 0 (@KRange E 8 [5]%nat)] 0 1); [done|vm_compute; reflexivity].
Qed.
Theorem C74_devector_operator_cost : forall (E : Env) o x A y B w hf r xy w',
  assigns2 o = true -> holds2 is_dev x A y B w hf -> dv_run2 false o (x, y) w = Ok r xy w' ->
  let n := length (e_elems B) in
  if takes_over o (e_alloc A) (e_alloc B) then tick w' = tick w else (tick w + n <= tick w' <= tick w + 2 * n + 1)%nat.
Proof. exact @dev_assign2_cost. Qed.
Print Assumptions C74_devector_operator_cost.
Example C74_dev_operator_case : let E := calm in
  let A := DAbs 8 (2, 0) 0 [5]%nat 1 in let B := DAbs 7 (1, 0) 0 [10; 20; 30]%nat 3 in
  assigns2 PMove = true /\
  exists x y w hf x' y' w', holds2 is_dev x A y B w hf /\ dv_run2 false PMove (x, y) w = Ok RUnit (x', y') w'.
Proof.
  intros E A B. split; [reflexivity|].
  apply (dev_case2_ok (E := E) [@New E (devector false) 1 (@KRange E 7 [10; 20; 30]%nat); @New E (devector false) 0 (@KRange E 8 [5]%nat)] 0 1); [done|vm_compute; reflexivity].
Qed.
