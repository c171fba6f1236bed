(** * Iterators at different positions differ (C82)

    [nth i] and [nth j] compare equal exactly if [i] and [j] are the same; [nth 0] is [begin()]
    and [nth (size())] is [end()], and no other position compares equal to them.  [loc_eqb],
    [it_eqb]: [operator==] of the iterators.  That [nth] succeeds exactly up to the number of
    elements is C81. *)

From Verif Require Import NthEq VectorDemo AssignMore SegRuns.
Open Scope Z_scope.

Theorem C82_vector_positions : forall (E : Env) x (A : vabs) w hf,
  holds is_vec x A w hf ->
  forall i j p q xi wi xj wj, 0 <= i -> 0 <= j -> nth_ i x w = Ok p xi wi -> nth_ j x w = Ok q xj wj ->
  loc_eqb p q = (i =? j) /\ loc_eqb p (v_first x) = (i =? 0) /\ loc_eqb p (v_last x) = (i =? Z.of_nat (length (q_elems A))).
Proof. exact @vec_distinct. Qed.
Print Assumptions C82_vector_positions.
Example C82_vector_case : let E := calm in 
  exists x A w hf x' w', (holds is_vec x A w hf /\ q_elems A = [10; 20; 30; 40; 50]%nat) /\
    (p <- nth_ 3;; q <- nth_ 5;; o <- getS;; ret (loc_eqb p q, loc_eqb q (v_last o)))%prog x w = Ok (false, true) x' w'.
Proof.
  intros E.
  edestruct (vec_case_ok (E := E) [@New E (vector) 0 (@KRange E 7 [10; 20; 30; 40; 50]%nat)] 0 ((p <- nth_ 3;; q <- nth_ 5;; o <- getS;; ret (loc_eqb p q, loc_eqb q (v_last o)))%prog)) as (x & w & hf & x' & w' & Hx & Hr); [vm_compute; reflexivity|].
  do 6 eexists. split; [split; [exact Hx|reflexivity]|exact Hr].
Qed.
Theorem C82_small_vector_positions : forall (E : Env) N x (A : SmallSpec.sabs) w hf,
  holds (is_small N) x A w hf ->
  forall i j p q xi wi xj wj, 0 <= i -> 0 <= j -> nth_ i x.2 w = Ok p xi wi -> nth_ j x.2 w = Ok q xj wj ->
  loc_eqb p q = (i =? j) /\ loc_eqb p (v_first x.2) = (i =? 0) /\ loc_eqb p (v_last x.2) = (i =? Z.of_nat (length (q_elems A.2))).
Proof. exact @small_distinct. Qed.
Print Assumptions C82_small_vector_positions.
Example C82_small_vector_case : let E := calm in 
  exists x A w hf x' w', (holds (is_small 3) x A w hf /\ q_elems A.2 = [10; 20; 30; 40; 50]%nat) /\
    (member (fun _ => (p <- nth_ 3;; q <- nth_ 5;; o <- getS;; ret (loc_eqb p q, loc_eqb q (v_last o)))%prog)) x w = Ok (false, true) x' w'.
Proof.
  intros E.
  edestruct (small_case_ok (E := E) 3 (ltac:(vm_compute; discriminate)) [@New E (small_vector 3) 0 (@KRange E 7 [10; 20; 30; 40; 50]%nat)] 0 ((member (fun _ => (p <- nth_ 3;; q <- nth_ 5;; o <- getS;; ret (loc_eqb p q, loc_eqb q (v_last o)))%prog)))) as (x & w & hf & x' & w' & Hx & Hr); [vm_compute; reflexivity|].
  do 6 eexists. split; [split; [exact Hx|reflexivity]|exact Hr].
Qed.
Theorem C82_static_vector_positions : forall (E : Env) N x (A : tabs) w hf,
  holds (is_static N) x A w hf ->
  forall i j p q xi wi xj wj, 0 <= i -> 0 <= j -> nth_ i x.2 w = Ok p xi wi -> nth_ j x.2 w = Ok q xj wj ->
  loc_eqb p q = (i =? j) /\ loc_eqb p (v_first x.2) = (i =? 0) /\ loc_eqb p (v_last x.2) = (i =? Z.of_nat (length (A.2))).
Proof. exact @static_distinct. Qed.
Print Assumptions C82_static_vector_positions.
Example C82_static_vector_case : let E := calm in 
  exists x A w hf x' w', (holds (is_static 6) x A w hf /\ A.2 = [10; 20; 30; 40; 50]%nat) /\
    (member (fun _ => (p <- nth_ 3;; q <- nth_ 5;; o <- getS;; ret (loc_eqb p q, loc_eqb q (v_last o)))%prog)) x w = Ok (false, true) x' w'.
Proof.
  intros E.
  edestruct (static_case_ok (E := E) 6 [@New E (static_vector 6) 0 (@TRange E [10; 20; 30; 40; 50]%nat)] 0 ((member (fun _ => (p <- nth_ 3;; q <- nth_ 5;; o <- getS;; ret (loc_eqb p q, loc_eqb q (v_last o)))%prog)))) as (x & w & hf & x' & w' & Hx & Hr); [vm_compute; reflexivity|].
  do 6 eexists. split; [split; [exact Hx|reflexivity]|exact Hr].
Qed.
Theorem C82_compact_vector_positions : forall (E : Env) x (A : vabs) w hf,
  holds is_compact x A w hf ->
  forall i j p q xi wi xj wj, 0 <= i -> 0 <= j -> nth_ i x w = Ok p xi wi -> nth_ j x w = Ok q xj wj ->
  loc_eqb p q = (i =? j) /\ loc_eqb p (v_first x) = (i =? 0) /\ loc_eqb p (v_last x) = (i =? Z.of_nat (length (q_elems A))).
Proof. exact @compact_distinct. Qed.
Print Assumptions C82_compact_vector_positions.
Example C82_compact_vector_case : let E := calm in 
  exists x A w hf x' w', (holds is_compact x A w hf /\ q_elems A = [10; 20; 30; 40; 50]%nat) /\
    (p <- nth_ 3;; q <- nth_ 5;; o <- getS;; ret (loc_eqb p q, loc_eqb q (v_last o)))%prog x w = Ok (false, true) x' w'.
Proof.
  intros E.
  edestruct (compact_case_ok (E := E) [@New E (compact_vector code_undo false) 0 (@KRange E 7 [10; 20; 30; 40; 50]%nat)] 0 ((p <- nth_ 3;; q <- nth_ 5;; o <- getS;; ret (loc_eqb p q, loc_eqb q (v_last o)))%prog)) as (x & w & hf & x' & w' & Hx & Hr); [vm_compute; reflexivity|].
  do 6 eexists. split; [split; [exact Hx|reflexivity]|exact Hr].
Qed.
Theorem C82_devector_positions : forall (E : Env) x (A : dabs) w hf,
  holds is_dev x A w hf ->
  forall i j p q xi wi xj wj, 0 <= i -> 0 <= j -> dv_nth i x w = Ok p xi wi -> dv_nth j x w = Ok q xj wj ->
  loc_eqb p q = (i =? j) /\ loc_eqb p (d_first x) = (i =? 0) /\ loc_eqb p (d_last x) = (i =? Z.of_nat (length (e_elems A))).
Proof. exact @dev_distinct. Qed.
Print Assumptions C82_devector_positions.
Example C82_devector_case : let E := calm in 
  exists x A w hf x' w', (holds is_dev x A w hf /\ e_elems A = [10; 20; 30; 40; 50]%nat) /\
    (p <- dv_nth 3;; q <- dv_nth 5;; o <- getS;; ret (loc_eqb p q, loc_eqb q (d_last o)))%prog x w = Ok (false, true) x' w'.
Proof.
  intros E.
  edestruct (dev_case_ok (E := E) [@New E (devector false) 0 (@KRange E 7 [10; 20; 30; 40; 50]%nat)] 0 ((p <- dv_nth 3;; q <- dv_nth 5;; o <- getS;; ret (loc_eqb p q, loc_eqb q (d_last o)))%prog)) as (x & w & hf & x' & w' & Hx & Hr); [vm_compute; reflexivity|].
  do 6 eexists. split; [split; [exact Hx|reflexivity]|exact Hr].
Qed.
Theorem C82_segmented_vector_positions : forall (E : Env) (SZ : SegSize) x (A : SegSpec.sabs) w hf,
  holds (is_seg false) x A w hf ->
  forall i j p q xi wi xj wj, 0 <= i -> 0 <= j -> sv_nth i x w = Ok p xi wi -> sv_nth j x w = Ok q xj wj ->
  it_eqb p q = (i =? j) /\ it_eqb p (sg_first x) = (i =? 0) /\ it_eqb p (sg_last x) = (i =? Z.of_nat (length (s_elems A))).
Proof. exact @seg_distinct. Qed.
Print Assumptions C82_segmented_vector_positions.
Example C82_segmented_vector_case : let E := calm in let SZ := seg4 in
  exists x A w hf x' w', (holds (is_seg false) x A w hf /\ s_elems A = [10; 20; 30; 40; 50]%nat) /\
    (p <- sv_nth 3;; q <- sv_nth 5;; o <- getS;; ret (it_eqb p q, it_eqb q (sg_last o)))%prog x w = Ok (false, true) x' w'.
Proof.
  intros E SZ.
  edestruct (seg_case_ok (E := E) (SZ := SZ) (ra := true) [@New E (segvec true) 0 (@KRange E 7 [10; 20; 30; 40; 50]%nat)] 0 ((p <- sv_nth 3;; q <- sv_nth 5;; o <- getS;; ret (it_eqb p q, it_eqb q (sg_last o)))%prog)) as (x & w & hf & x' & w' & Hx & Hr); [vm_compute; reflexivity|].
  do 6 eexists. split; [split; [exact Hx|reflexivity]|exact Hr].
Qed.
Theorem C82_segmented_devector_positions : forall (E : Env) (SZ : SegSize) x (A : SegSpec.sabs) w hf,
  holds (is_seg true) x A w hf ->
  forall i j p q xi wi xj wj, 0 <= i -> 0 <= j -> sd_nth i x w = Ok p xi wi -> sd_nth j x w = Ok q xj wj ->
  it_eqb p q = (i =? j) /\ it_eqb p (sg_first x) = (i =? 0) /\ it_eqb p (sg_last x) = (i =? Z.of_nat (length (s_elems A))).
Proof. exact @segd_distinct. Qed.
Print Assumptions C82_segmented_devector_positions.
Example C82_segmented_devector_case : let E := calm in let SZ := seg4 in
  exists x A w hf x' w', (holds (is_seg true) x A w hf /\ s_elems A = [10; 20; 30; 40; 50]%nat) /\
    (p <- sd_nth 3;; q <- sd_nth 5;; o <- getS;; ret (it_eqb p q, it_eqb q (sg_last o)))%prog x w = Ok (false, true) x' w'.
Proof.
  intros E SZ.
  edestruct (segd_case_ok (E := E) (SZ := SZ) (ra := true) [@New E (segdev true) 0 (@KRange E 7 [10; 20; 30; 40; 50]%nat)] 0 ((p <- sd_nth 3;; q <- sd_nth 5;; o <- getS;; ret (it_eqb p q, it_eqb q (sg_last o)))%prog)) as (x & w & hf & x' & w' & Hx & Hr); [vm_compute; reflexivity|].
  do 6 eexists. split; [split; [exact Hx|reflexivity]|exact Hr].
Qed.
(** The sixteen flat containers. *)
Theorem C82_flat_positions : forall (E : Env) fl x l w hf,
  holds (is_flat fl) x l w hf ->
  forall i j p q xi wi xj wj, 0 <= i -> 0 <= j -> nth_ i x.2 w = Ok p xi wi -> nth_ j x.2 w = Ok q xj wj ->
  loc_eqb p q = (i =? j) /\ loc_eqb p (v_first x.2) = (i =? 0) /\ loc_eqb p (v_last x.2) = (i =? Z.of_nat (length (l))).
Proof. exact @flat_distinct. Qed.
Print Assumptions C82_flat_positions.
Example C82_flat_case : let E := calm in let KD := calm_set in
  exists x w hf x' w', holds (is_flat (SmallF 3)) x [1; 2; 4; 5]%nat w hf /\
    (member (fun _ => (p <- nth_ 3;; q <- nth_ 4;; o <- getS;; ret (loc_eqb p q, loc_eqb q (v_last o)))%prog)) x w = Ok (false, true) x' w'.
Proof.
  intros E KD.
  apply (small_look (KD := KD) 3 set_ true (ltac:(vm_compute; discriminate)) [5; 4; 2; 1]%nat). vm_compute. reflexivity.
Qed.
