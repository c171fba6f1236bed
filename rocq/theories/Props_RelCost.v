(** * Cost of the relational operators (C80)

    [tick w] counts the operations of the element type, comparisons among them, and the
    allocations performed so far.  [compare_most o a b] (RelCost.v): for [==] and [!=], none
    if the sizes [a] and [b] differ and [a] otherwise; for the others, two for each element of
    the shorter container.  That the behaviour is defined is part of C78. *)

From Verif Require Import RelCost VectorDemo AssignMore SegRuns.
Open Scope Z_scope.

Theorem C80_vector_compare_cost : forall (E : Env) o eqv lt x (A : vabs) y B w hf,
  holds2 is_vec x A y B w hf ->
  match compare_ vec_run2 o eqv lt (x, y) w with
  | Ok _ _ w' | Exn _ _ w' => (tick w' <= tick w + compare_most o (length (q_elems A)) (length (q_elems B)))%nat
  | UB => True
  end.
Proof. exact @vec_compare_cost. Qed.
Print Assumptions C80_vector_compare_cost.
Example C80_vector_case : let E := calm in 
  compare_most RLe 3 2 = 4%nat /\
  exists x A y B w hf x' y' w', holds2 is_vec x A y B w hf /\ q_elems A = [10; 20; 30]%nat /\ q_elems B = [10; 25]%nat /\
    compare_ vec_run2 RLe Nat.eqb Nat.ltb (x, y) w = Ok (RBool true) (x', y') w'.
Proof.
  intros E. split; [reflexivity|].
  edestruct (vec_case2_ok (E := E) [@New E (vector) 0 (@KRange E 7 [10; 20; 30]%nat); @New E (vector) 1 (@KRange E 7 [10; 25]%nat)] 0 1 (compare_ vec_run2 RLe (Nat.eqb : @V E -> @V E -> bool) Nat.ltb))
    as (x & y & w & hf & x' & y' & w' & Hxy & Hr); [done|vm_compute; reflexivity|].
  do 4 eexists. do 5 eexists. split; [exact Hxy|]. split; [reflexivity|]. split; [reflexivity|exact Hr].
Qed.
Theorem C80_small_vector_compare_cost : forall (E : Env) N o eqv lt x (A : SmallSpec.sabs) y B w hf,
  holds2 (is_small N) x A y B w hf ->
  match compare_ (small_run2 N) o eqv lt (x, y) w with
  | Ok _ _ w' | Exn _ _ w' => (tick w' <= tick w + compare_most o (length (q_elems A.2)) (length (q_elems B.2)))%nat
  | UB => True
  end.
Proof. exact @small_compare_cost. Qed.
Print Assumptions C80_small_vector_compare_cost.
Example C80_small_vector_case : let E := calm in 
  compare_most RLe 3 2 = 4%nat /\
  exists x A y B w hf x' y' w', holds2 (is_small 3) x A y B w hf /\ q_elems A.2 = [10; 20; 30]%nat /\ q_elems B.2 = [10; 25]%nat /\
    compare_ (small_run2 3) RLe Nat.eqb Nat.ltb (x, y) w = Ok (RBool true) (x', y') w'.
Proof.
  intros E. split; [reflexivity|].
  edestruct (small_case2_ok (E := E) 3 (ltac:(vm_compute; discriminate)) [@New E (small_vector 3) 0 (@KRange E 7 [10; 20; 30]%nat); @New E (small_vector 3) 1 (@KRange E 7 [10; 25]%nat)] 0 1 (compare_ (small_run2 3) RLe (Nat.eqb : @V E -> @V E -> bool) Nat.ltb))
    as (x & y & w & hf & x' & y' & w' & Hxy & Hr); [done|vm_compute; reflexivity|].
  do 4 eexists. do 5 eexists. split; [exact Hxy|]. split; [reflexivity|]. split; [reflexivity|exact Hr].
Qed.
Theorem C80_static_vector_compare_cost : forall (E : Env) N o eqv lt x (A : tabs) y B w hf,
  holds2 (is_static N) x A y B w hf ->
  match compare_ (static_run2 N) o eqv lt (x, y) w with
  | Ok _ _ w' | Exn _ _ w' => (tick w' <= tick w + compare_most o (length (A.2)) (length (B.2)))%nat
  | UB => True
  end.
Proof. exact @static_compare_cost. Qed.
Print Assumptions C80_static_vector_compare_cost.
Example C80_static_vector_case : let E := calm in 
  compare_most RLe 3 2 = 4%nat /\
  exists x A y B w hf x' y' w', holds2 (is_static 4) x A y B w hf /\ A.2 = [10; 20; 30]%nat /\ B.2 = [10; 25]%nat /\
    compare_ (static_run2 4) RLe Nat.eqb Nat.ltb (x, y) w = Ok (RBool true) (x', y') w'.
Proof.
  intros E. split; [reflexivity|].
  edestruct (static_case2_ok (E := E) 4 [@New E (static_vector 4) 0 (@TRange E [10; 20; 30]%nat); @New E (static_vector 4) 1 (@TRange E [10; 25]%nat)] 0 1 (compare_ (static_run2 4) RLe (Nat.eqb : @V E -> @V E -> bool) Nat.ltb))
    as (x & y & w & hf & x' & y' & w' & Hxy & Hr); [done|vm_compute; reflexivity|].
  do 4 eexists. do 5 eexists. split; [exact Hxy|]. split; [reflexivity|]. split; [reflexivity|exact Hr].
Qed.
Theorem C80_compact_vector_compare_cost : forall (E : Env) o eqv lt x (A : vabs) y B w hf,
  holds2 is_compact x A y B w hf ->
  match compare_ (compact_run2 code_undo) o eqv lt (x, y) w with
  | Ok _ _ w' | Exn _ _ w' => (tick w' <= tick w + compare_most o (length (q_elems A)) (length (q_elems B)))%nat
  | UB => True
  end.
Proof. exact @compact_compare_cost. Qed.
Print Assumptions C80_compact_vector_compare_cost.
Example C80_compact_vector_case : let E := calm in 
  compare_most RLe 3 2 = 4%nat /\
  exists x A y B w hf x' y' w', holds2 is_compact x A y B w hf /\ q_elems A = [10; 20; 30]%nat /\ q_elems B = [10; 25]%nat /\
    compare_ (compact_run2 code_undo) RLe Nat.eqb Nat.ltb (x, y) w = Ok (RBool true) (x', y') w'.
Proof.
  intros E. split; [reflexivity|].
  edestruct (compact_case2_ok (E := E) [@New E (compact_vector code_undo false) 0 (@KRange E 7 [10; 20; 30]%nat); @New E (compact_vector code_undo false) 1 (@KRange E 7 [10; 25]%nat)] 0 1 (compare_ (compact_run2 code_undo) RLe (Nat.eqb : @V E -> @V E -> bool) Nat.ltb))
    as (x & y & w & hf & x' & y' & w' & Hxy & Hr); [done|vm_compute; reflexivity|].
  do 4 eexists. do 5 eexists. split; [exact Hxy|]. split; [reflexivity|]. split; [reflexivity|exact Hr].
Qed.
Theorem C80_devector_compare_cost : forall (E : Env) o eqv lt x (A : dabs) y B w hf,
  holds2 is_dev x A y B w hf ->
  match compare_ (dv_run2 false) o eqv lt (x, y) w with
  | Ok _ _ w' | Exn _ _ w' => (tick w' <= tick w + compare_most o (length (e_elems A)) (length (e_elems B)))%nat
  | UB => True
  end.
Proof. exact @dev_compare_cost. Qed.
Print Assumptions C80_devector_compare_cost.
Example C80_devector_case : let E := calm in 
  compare_most RLe 3 2 = 4%nat /\
  exists x A y B w hf x' y' w', holds2 is_dev x A y B w hf /\ e_elems A = [10; 20; 30]%nat /\ e_elems B = [10; 25]%nat /\
    compare_ (dv_run2 false) RLe Nat.eqb Nat.ltb (x, y) w = Ok (RBool true) (x', y') w'.
Proof.
  intros E. split; [reflexivity|].
  edestruct (dev_case2_ok (E := E) [@New E (devector false) 0 (@KRange E 7 [10; 20; 30]%nat); @New E (devector false) 1 (@KRange E 7 [10; 25]%nat)] 0 1 (compare_ (dv_run2 false) RLe (Nat.eqb : @V E -> @V E -> bool) Nat.ltb))
    as (x & y & w & hf & x' & y' & w' & Hxy & Hr); [done|vm_compute; reflexivity|].
  do 4 eexists. do 5 eexists. split; [exact Hxy|]. split; [reflexivity|]. split; [reflexivity|exact Hr].
Qed.
Theorem C80_segmented_vector_compare_cost : forall (E : Env) (SZ : SegSize) o eqv lt x (A : SegSpec.sabs) y B w hf,
  holds2 (is_seg false) x A y B w hf ->
  match compare_ (sq_run2 sv_assign_range) o eqv lt (x, y) w with
  | Ok _ _ w' | Exn _ _ w' => (tick w' <= tick w + compare_most o (length (s_elems A)) (length (s_elems B)))%nat
  | UB => True
  end.
Proof. exact (fun E SZ => @sg_compare_cost E SZ false sv_assign_range). Qed.
Print Assumptions C80_segmented_vector_compare_cost.
Example C80_segmented_vector_case : let E := calm in let SZ := seg4 in
  compare_most RLe 3 2 = 4%nat /\
  exists x A y B w hf x' y' w', holds2 (is_seg false) x A y B w hf /\ s_elems A = [10; 20; 30]%nat /\ s_elems B = [10; 25]%nat /\
    compare_ (sq_run2 sv_assign_range) RLe Nat.eqb Nat.ltb (x, y) w = Ok (RBool true) (x', y') w'.
Proof.
  intros E SZ. split; [reflexivity|].
  edestruct (seg_case2_ok (E := E) (SZ := SZ) (ra := true) [@New E (segvec true) 0 (@KRange E 7 [10; 20; 30]%nat); @New E (segvec true) 1 (@KRange E 7 [10; 25]%nat)] 0 1 (compare_ (sq_run2 sv_assign_range) RLe (Nat.eqb : @V E -> @V E -> bool) Nat.ltb))
    as (x & y & w & hf & x' & y' & w' & Hxy & Hr); [done|vm_compute; reflexivity|].
  do 4 eexists. do 5 eexists. split; [exact Hxy|]. split; [reflexivity|]. split; [reflexivity|exact Hr].
Qed.
Theorem C80_segmented_devector_compare_cost : forall (E : Env) (SZ : SegSize) o eqv lt x (A : SegSpec.sabs) y B w hf,
  holds2 (is_seg true) x A y B w hf ->
  match compare_ (sq_run2 sd_assign_range) o eqv lt (x, y) w with
  | Ok _ _ w' | Exn _ _ w' => (tick w' <= tick w + compare_most o (length (s_elems A)) (length (s_elems B)))%nat
  | UB => True
  end.
Proof. exact (fun E SZ => @sg_compare_cost E SZ true sd_assign_range). Qed.
Print Assumptions C80_segmented_devector_compare_cost.
Example C80_segmented_devector_case : let E := calm in let SZ := seg4 in
  compare_most RLe 3 2 = 4%nat /\
  exists x A y B w hf x' y' w', holds2 (is_seg true) x A y B w hf /\ s_elems A = [10; 20; 30]%nat /\ s_elems B = [10; 25]%nat /\
    compare_ (sq_run2 sd_assign_range) RLe Nat.eqb Nat.ltb (x, y) w = Ok (RBool true) (x', y') w'.
Proof.
  intros E SZ. split; [reflexivity|].
  edestruct (segd_case2_ok (E := E) (SZ := SZ) (ra := true) [@New E (segdev true) 0 (@KRange E 7 [10; 20; 30]%nat); @New E (segdev true) 1 (@KRange E 7 [10; 25]%nat)] 0 1 (compare_ (sq_run2 sd_assign_range) RLe (Nat.eqb : @V E -> @V E -> bool) Nat.ltb))
    as (x & y & w & hf & x' & y' & w' & Hxy & Hr); [done|vm_compute; reflexivity|].
  do 4 eexists. do 5 eexists. split; [exact Hxy|]. split; [reflexivity|]. split; [reflexivity|exact Hr].
Qed.
