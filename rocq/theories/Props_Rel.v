(** * The relational operators (C78)

    [eqv], [lt]: [operator==] and [operator<] of the elements; [consistent]: never less both
    ways, and equal exactly if less in neither.  [related o] (RelSpec.v): what the operator
    [o] should say of the two sequences of elements.  An operator of the elements may throw;
    nothing else does, and both objects stay as they are. *)

From Verif Require Import RelThms VectorDemo AssignMore SegRuns.
Open Scope Z_scope.

Theorem C78_vector_compare : forall (E : Env) o eqv lt x (A : vabs) y B w hf,
  consistent eqv lt -> holds2 is_vec x A y B w hf ->
  match compare_ vec_run2 o eqv lt (x, y) w with
  | Ok r (x', y') w' =>
      (exists A' B', holds2 is_vec x' A' y' B' w' hf /\ A = A' /\ B = B') /\
      exists b, r = RBool b /\ (b = true <-> related o eqv lt (q_elems A) (q_elems B))
  | Exn e (x', y') w' => e = EUser /\ exists A' B', holds2 is_vec x' A' y' B' w' hf /\ A = A' /\ B = B'
  | UB => False
  end.
Proof. exact @vec_compare. Qed.
Print Assumptions C78_vector_compare.
Example C78_vector_case : let E := calm in 
  consistent (H := E) Nat.eqb Nat.ltb /\
  exists x A y B w hf x' y' w', holds2 is_vec x A y B w hf /\ q_elems A = [10; 20; 30]%nat /\ q_elems B = [10; 25]%nat /\
    compare_ vec_run2 RLe Nat.eqb Nat.ltb (x, y) w = Ok (RBool true) (x', y') w'.
Proof.
  intros E. split; [exact nat_consistent|].
  edestruct (vec_case2_ok (E := E) [@New E (vector) 0 (@KRange E 7 [10; 20; 30]%nat); @New E (vector) 1 (@KRange E 7 [10; 25]%nat)] 0 1 (compare_ vec_run2 RLe (Nat.eqb : @V E -> @V E -> bool) Nat.ltb))
    as (x & y & w & hf & x' & y' & w' & Hxy & Hr); [done|vm_compute; reflexivity|].
  do 4 eexists. do 5 eexists. split; [exact Hxy|]. split; [reflexivity|]. split; [reflexivity|exact Hr].
Qed.
Theorem C78_small_vector_compare : forall (E : Env) N, Z.of_nat N <= max_size ->
  forall o eqv lt x (A : SmallSpec.sabs) y B w hf,
  consistent eqv lt -> holds2 (is_small N) x A y B w hf ->
  match compare_ (small_run2 N) o eqv lt (x, y) w with
  | Ok r (x', y') w' =>
      (exists A' B', holds2 (is_small N) x' A' y' B' w' hf /\ A = A' /\ B = B') /\
      exists b, r = RBool b /\ (b = true <-> related o eqv lt (q_elems A.2) (q_elems B.2))
  | Exn e (x', y') w' => e = EUser /\ exists A' B', holds2 (is_small N) x' A' y' B' w' hf /\ A = A' /\ B = B'
  | UB => False
  end.
Proof. exact @small_compare. Qed.
Print Assumptions C78_small_vector_compare.
Example C78_small_vector_case : let E := calm in 
  consistent (H := E) Nat.eqb Nat.ltb /\
  exists x A y B w hf x' y' w', holds2 (is_small 3) x A y B w hf /\ q_elems A.2 = [10; 20; 30]%nat /\ q_elems B.2 = [10; 25]%nat /\
    compare_ (small_run2 3) RLe Nat.eqb Nat.ltb (x, y) w = Ok (RBool true) (x', y') w'.
Proof.
  intros E. split; [exact nat_consistent|].
  edestruct (small_case2_ok (E := E) 3 (ltac:(vm_compute; discriminate)) [@New E (small_vector 3) 0 (@KRange E 7 [10; 20; 30]%nat); @New E (small_vector 3) 1 (@KRange E 7 [10; 25]%nat)] 0 1 (compare_ (small_run2 3) RLe (Nat.eqb : @V E -> @V E -> bool) Nat.ltb))
    as (x & y & w & hf & x' & y' & w' & Hxy & Hr); [done|vm_compute; reflexivity|].
  do 4 eexists. do 5 eexists. split; [exact Hxy|]. split; [reflexivity|]. split; [reflexivity|exact Hr].
Qed.
Theorem C78_static_vector_compare : forall (E : Env) N o eqv lt x (A : tabs) y B w hf,
  consistent eqv lt -> holds2 (is_static N) x A y B w hf ->
  match compare_ (static_run2 N) o eqv lt (x, y) w with
  | Ok r (x', y') w' =>
      (exists A' B', holds2 (is_static N) x' A' y' B' w' hf /\ A = A' /\ B = B') /\
      exists b, r = RBool b /\ (b = true <-> related o eqv lt (A.2) (B.2))
  | Exn e (x', y') w' => e = EUser /\ exists A' B', holds2 (is_static N) x' A' y' B' w' hf /\ A = A' /\ B = B'
  | UB => False
  end.
Proof. exact @static_compare. Qed.
Print Assumptions C78_static_vector_compare.
Example C78_static_vector_case : let E := calm in 
  consistent (H := E) Nat.eqb Nat.ltb /\
  exists x A y B w hf x' y' w', holds2 (is_static 4) x A y B w hf /\ A.2 = [10; 20; 30]%nat /\ B.2 = [10; 25]%nat /\
    compare_ (static_run2 4) RLe Nat.eqb Nat.ltb (x, y) w = Ok (RBool true) (x', y') w'.
Proof.
  intros E. split; [exact nat_consistent|].
  edestruct (static_case2_ok (E := E) 4 [@New E (static_vector 4) 0 (@TRange E [10; 20; 30]%nat); @New E (static_vector 4) 1 (@TRange E [10; 25]%nat)] 0 1 (compare_ (static_run2 4) RLe (Nat.eqb : @V E -> @V E -> bool) Nat.ltb))
    as (x & y & w & hf & x' & y' & w' & Hxy & Hr); [done|vm_compute; reflexivity|].
  do 4 eexists. do 5 eexists. split; [exact Hxy|]. split; [reflexivity|]. split; [reflexivity|exact Hr].
Qed.
Theorem C78_compact_vector_compare : forall (E : Env) o eqv lt x (A : vabs) y B w hf,
  consistent eqv lt -> holds2 is_compact x A y B w hf ->
  match compare_ (compact_run2 code_undo) o eqv lt (x, y) w with
  | Ok r (x', y') w' =>
      (exists A' B', holds2 is_compact x' A' y' B' w' hf /\ A = A' /\ B = B') /\
      exists b, r = RBool b /\ (b = true <-> related o eqv lt (q_elems A) (q_elems B))
  | Exn e (x', y') w' => e = EUser /\ exists A' B', holds2 is_compact x' A' y' B' w' hf /\ A = A' /\ B = B'
  | UB => False
  end.
Proof. exact @compact_compare. Qed.
Print Assumptions C78_compact_vector_compare.
Example C78_compact_vector_case : let E := calm in 
  consistent (H := E) Nat.eqb Nat.ltb /\
  exists x A y B w hf x' y' w', holds2 is_compact x A y B w hf /\ q_elems A = [10; 20; 30]%nat /\ q_elems B = [10; 25]%nat /\
    compare_ (compact_run2 code_undo) RLe Nat.eqb Nat.ltb (x, y) w = Ok (RBool true) (x', y') w'.
Proof.
  intros E. split; [exact nat_consistent|].
  edestruct (compact_case2_ok (E := E) [@New E (compact_vector code_undo false) 0 (@KRange E 7 [10; 20; 30]%nat); @New E (compact_vector code_undo false) 1 (@KRange E 7 [10; 25]%nat)] 0 1 (compare_ (compact_run2 code_undo) RLe (Nat.eqb : @V E -> @V E -> bool) Nat.ltb))
    as (x & y & w & hf & x' & y' & w' & Hxy & Hr); [done|vm_compute; reflexivity|].
  do 4 eexists. do 5 eexists. split; [exact Hxy|]. split; [reflexivity|]. split; [reflexivity|exact Hr].
Qed.
Theorem C78_devector_compare : forall (E : Env) o eqv lt x (A : dabs) y B w hf,
  consistent eqv lt -> holds2 is_dev x A y B w hf ->
  match compare_ (dv_run2 false) o eqv lt (x, y) w with
  | Ok r (x', y') w' =>
      (exists A' B', holds2 is_dev x' A' y' B' w' hf /\ A = A' /\ B = B') /\
      exists b, r = RBool b /\ (b = true <-> related o eqv lt (e_elems A) (e_elems B))
  | Exn e (x', y') w' => e = EUser /\ exists A' B', holds2 is_dev x' A' y' B' w' hf /\ A = A' /\ B = B'
  | UB => False
  end.
Proof. exact @dev_compare. Qed.
Print Assumptions C78_devector_compare.
Example C78_devector_case : let E := calm in 
  consistent (H := E) Nat.eqb Nat.ltb /\
  exists x A y B w hf x' y' w', holds2 is_dev x A y B w hf /\ e_elems A = [10; 20; 30]%nat /\ e_elems B = [10; 25]%nat /\
    compare_ (dv_run2 false) RLe Nat.eqb Nat.ltb (x, y) w = Ok (RBool true) (x', y') w'.
Proof.
  intros E. split; [exact nat_consistent|].
  edestruct (dev_case2_ok (E := E) [@New E (devector false) 0 (@KRange E 7 [10; 20; 30]%nat); @New E (devector false) 1 (@KRange E 7 [10; 25]%nat)] 0 1 (compare_ (dv_run2 false) RLe (Nat.eqb : @V E -> @V E -> bool) Nat.ltb))
    as (x & y & w & hf & x' & y' & w' & Hxy & Hr); [done|vm_compute; reflexivity|].
  do 4 eexists. do 5 eexists. split; [exact Hxy|]. split; [reflexivity|]. split; [reflexivity|exact Hr].
Qed.
Theorem C78_segmented_vector_compare : forall (E : Env) (SZ : SegSize) o eqv lt x (A : SegSpec.sabs) y B w hf,
  consistent eqv lt -> holds2 (is_seg false) x A y B w hf ->
  match compare_ (sq_run2 sv_assign_range) o eqv lt (x, y) w with
  | Ok r (x', y') w' =>
      (exists A' B', holds2 (is_seg false) x' A' y' B' w' hf /\ A = A' /\ B = B') /\
      exists b, r = RBool b /\ (b = true <-> related o eqv lt (s_elems A) (s_elems B))
  | Exn e (x', y') w' => e = EUser /\ exists A' B', holds2 (is_seg false) x' A' y' B' w' hf /\ A = A' /\ B = B'
  | UB => False
  end.
Proof. exact @seg_compare. Qed.
Print Assumptions C78_segmented_vector_compare.
Example C78_segmented_vector_case : let E := calm in let SZ := seg4 in
  consistent (H := E) Nat.eqb Nat.ltb /\
  exists x A y B w hf x' y' w', holds2 (is_seg false) x A y B w hf /\ s_elems A = [10; 20; 30]%nat /\ s_elems B = [10; 25]%nat /\
    compare_ (sq_run2 sv_assign_range) RLe Nat.eqb Nat.ltb (x, y) w = Ok (RBool true) (x', y') w'.
Proof.
  intros E SZ. split; [exact nat_consistent|].
  edestruct (seg_case2_ok (E := E) (SZ := SZ) (ra := true) [@New E (segvec true) 0 (@KRange E 7 [10; 20; 30]%nat); @New E (segvec true) 1 (@KRange E 7 [10; 25]%nat)] 0 1 (compare_ (sq_run2 sv_assign_range) RLe (Nat.eqb : @V E -> @V E -> bool) Nat.ltb))
    as (x & y & w & hf & x' & y' & w' & Hxy & Hr); [done|vm_compute; reflexivity|].
  do 4 eexists. do 5 eexists. split; [exact Hxy|]. split; [reflexivity|]. split; [reflexivity|exact Hr].
Qed.
Theorem C78_segmented_devector_compare : forall (E : Env) (SZ : SegSize) o eqv lt x (A : SegSpec.sabs) y B w hf,
  consistent eqv lt -> holds2 (is_seg true) x A y B w hf ->
  match compare_ (sq_run2 sd_assign_range) o eqv lt (x, y) w with
  | Ok r (x', y') w' =>
      (exists A' B', holds2 (is_seg true) x' A' y' B' w' hf /\ A = A' /\ B = B') /\
      exists b, r = RBool b /\ (b = true <-> related o eqv lt (s_elems A) (s_elems B))
  | Exn e (x', y') w' => e = EUser /\ exists A' B', holds2 (is_seg true) x' A' y' B' w' hf /\ A = A' /\ B = B'
  | UB => False
  end.
Proof. exact @segd_compare. Qed.
Print Assumptions C78_segmented_devector_compare.
Example C78_segmented_devector_case : let E := calm in let SZ := seg4 in
  consistent (H := E) Nat.eqb Nat.ltb /\
  exists x A y B w hf x' y' w', holds2 (is_seg true) x A y B w hf /\ s_elems A = [10; 20; 30]%nat /\ s_elems B = [10; 25]%nat /\
    compare_ (sq_run2 sd_assign_range) RLe Nat.eqb Nat.ltb (x, y) w = Ok (RBool true) (x', y') w'.
Proof.
  intros E SZ. split; [exact nat_consistent|].
  edestruct (segd_case2_ok (E := E) (SZ := SZ) (ra := true) [@New E (segdev true) 0 (@KRange E 7 [10; 20; 30]%nat); @New E (segdev true) 1 (@KRange E 7 [10; 25]%nat)] 0 1 (compare_ (sq_run2 sd_assign_range) RLe (Nat.eqb : @V E -> @V E -> bool) Nat.ltb))
    as (x & y & w & hf & x' & y' & w' & Hxy & Hr); [done|vm_compute; reflexivity|].
  do 4 eexists. do 5 eexists. split; [exact Hxy|]. split; [reflexivity|]. split; [reflexivity|exact Hr].
Qed.

(** ** The operators together order the sequences: exactly one of [<], [==], [>] holds of any
    two, and [<] is transitive if it is for the elements. *)
Theorem C78_exactly_one : forall (E : Env) (eqv lt : V -> V -> bool) (l1 l2 : list V), consistent eqv lt ->
  (related RLt eqv lt l1 l2 /\ ~ related REq eqv lt l1 l2 /\ ~ related RGt eqv lt l1 l2) \/
  (related REq eqv lt l1 l2 /\ ~ related RLt eqv lt l1 l2 /\ ~ related RGt eqv lt l1 l2) \/
  (related RGt eqv lt l1 l2 /\ ~ related RLt eqv lt l1 l2 /\ ~ related REq eqv lt l1 l2).
Proof. exact @one_relation. Qed.
Print Assumptions C78_exactly_one.
Theorem C78_less_transitive : forall (E : Env) (lt : V -> V -> bool) (l1 : list V), transitive_lt lt ->
  (forall x y, lt x y = true -> lt y x = false) -> forall l2 l3,
  lexicographic lt l1 l2 -> lexicographic lt l2 l3 -> lexicographic lt l1 l3.
Proof. exact @lex_trans. Qed.
Print Assumptions C78_less_transitive.
Example C78_order_case : let E := calm in
  consistent (H := E) Nat.eqb Nat.ltb /\ transitive_lt (H := E) Nat.ltb /\
  lexicographic (Nat.ltb : @V E -> @V E -> bool) [1; 2]%nat [1; 2; 0]%nat /\
  lexicographic (Nat.ltb : @V E -> @V E -> bool) [1; 2; 0]%nat [1; 3]%nat.
Proof. exact nat_order_case. Qed.
