(** * [nth] and [index_of] (C81)

    [nth i] succeeds exactly if [i] is at most the number of elements; otherwise the assertion
    fails.  If it succeeds, [index_of] of the iterator is [i], reading through the iterator
    gives element [i] if there is one, and neither the container nor anything else changes.
    For small_vector and static_vector [x.2] are the pointers of the object. *)

From Verif Require Import NthFlat VectorDemo AssignMore SegRuns.
Open Scope Z_scope.

Theorem C81_vector_nth : forall (E : Env) x (A : vabs) w hf i,
  holds is_vec x A w hf -> 0 <= i ->
  match nth_ i x w with
  | Ok p x' w' => x' = x /\ w' = w /\ i <= Z.of_nat (length (q_elems A)) /\ index_of_ p x w = Ok i x w /\
      forall v, q_elems A !! Z.to_nat i = Some v -> read p x w = Ok v x w
  | Exn _ _ _ => False
  | UB => Z.of_nat (length (q_elems A)) < i
  end.
Proof. exact @vec_nth_right. Qed.
Print Assumptions C81_vector_nth.
Example C81_vector_case : let E := calm in 
  exists x A w hf x' w', (holds is_vec x A w hf /\ q_elems A = [10; 20; 30; 40; 50]%nat) /\
    (p <- nth_ 4;; k <- index_of_ p;; v <- read p;; ret (k, v))%prog x w = Ok (4, 50%nat) x' w'.
Proof.
  intros E.
  edestruct (vec_case_ok (E := E) [@New E (vector) 0 (@KRange E 7 [10; 20; 30; 40; 50]%nat)] 0 ((p <- nth_ 4;; k <- index_of_ p;; v <- read p;; ret (k, v))%prog)) as (x & w & hf & x' & w' & Hx & Hr); [vm_compute; reflexivity|].
  do 6 eexists. split; [split; [exact Hx|reflexivity]|exact Hr].
Qed.
Theorem C81_small_vector_nth : forall (E : Env) N x (A : SmallSpec.sabs) w hf i,
  holds (is_small N) x A w hf -> 0 <= i ->
  match nth_ i x.2 w with
  | Ok p x' w' => x' = x.2 /\ w' = w /\ i <= Z.of_nat (length (q_elems A.2)) /\ index_of_ p x.2 w = Ok i x.2 w /\
      forall v, q_elems A.2 !! Z.to_nat i = Some v -> read p x.2 w = Ok v x.2 w
  | Exn _ _ _ => False
  | UB => Z.of_nat (length (q_elems A.2)) < i
  end.
Proof. exact @small_nth_right. Qed.
Print Assumptions C81_small_vector_nth.
Example C81_small_vector_case : let E := calm in 
  exists x A w hf x' w', (holds (is_small 3) x A w hf /\ q_elems A.2 = [10; 20; 30; 40; 50]%nat) /\
    (member (fun _ => (p <- nth_ 4;; k <- index_of_ p;; v <- read p;; ret (k, v))%prog)) x w = Ok (4, 50%nat) x' w'.
Proof.
  intros E.
  edestruct (small_case_ok (E := E) 3 (ltac:(vm_compute; discriminate)) [@New E (small_vector 3) 0 (@KRange E 7 [10; 20; 30; 40; 50]%nat)] 0 ((member (fun _ => (p <- nth_ 4;; k <- index_of_ p;; v <- read p;; ret (k, v))%prog)))) as (x & w & hf & x' & w' & Hx & Hr); [vm_compute; reflexivity|].
  do 6 eexists. split; [split; [exact Hx|reflexivity]|exact Hr].
Qed.
Theorem C81_static_vector_nth : forall (E : Env) N x (A : tabs) w hf i,
  holds (is_static N) x A w hf -> 0 <= i ->
  match nth_ i x.2 w with
  | Ok p x' w' => x' = x.2 /\ w' = w /\ i <= Z.of_nat (length (A.2)) /\ index_of_ p x.2 w = Ok i x.2 w /\
      forall v, A.2 !! Z.to_nat i = Some v -> read p x.2 w = Ok v x.2 w
  | Exn _ _ _ => False
  | UB => Z.of_nat (length (A.2)) < i
  end.
Proof. exact @static_nth_right. Qed.
Print Assumptions C81_static_vector_nth.
Example C81_static_vector_case : let E := calm in 
  exists x A w hf x' w', (holds (is_static 6) x A w hf /\ A.2 = [10; 20; 30; 40; 50]%nat) /\
    (member (fun _ => (p <- nth_ 4;; k <- index_of_ p;; v <- read p;; ret (k, v))%prog)) x w = Ok (4, 50%nat) x' w'.
Proof.
  intros E.
  edestruct (static_case_ok (E := E) 6 [@New E (static_vector 6) 0 (@TRange E [10; 20; 30; 40; 50]%nat)] 0 ((member (fun _ => (p <- nth_ 4;; k <- index_of_ p;; v <- read p;; ret (k, v))%prog)))) as (x & w & hf & x' & w' & Hx & Hr); [vm_compute; reflexivity|].
  do 6 eexists. split; [split; [exact Hx|reflexivity]|exact Hr].
Qed.
Theorem C81_compact_vector_nth : forall (E : Env) x (A : vabs) w hf i,
  holds is_compact x A w hf -> 0 <= i ->
  match nth_ i x w with
  | Ok p x' w' => x' = x /\ w' = w /\ i <= Z.of_nat (length (q_elems A)) /\ index_of_ p x w = Ok i x w /\
      forall v, q_elems A !! Z.to_nat i = Some v -> read p x w = Ok v x w
  | Exn _ _ _ => False
  | UB => Z.of_nat (length (q_elems A)) < i
  end.
Proof. exact @compact_nth_right. Qed.
Print Assumptions C81_compact_vector_nth.
Example C81_compact_vector_case : let E := calm in 
  exists x A w hf x' w', (holds is_compact x A w hf /\ q_elems A = [10; 20; 30; 40; 50]%nat) /\
    (p <- nth_ 4;; k <- index_of_ p;; v <- read p;; ret (k, v))%prog x w = Ok (4, 50%nat) x' w'.
Proof.
  intros E.
  edestruct (compact_case_ok (E := E) [@New E (compact_vector code_undo false) 0 (@KRange E 7 [10; 20; 30; 40; 50]%nat)] 0 ((p <- nth_ 4;; k <- index_of_ p;; v <- read p;; ret (k, v))%prog)) as (x & w & hf & x' & w' & Hx & Hr); [vm_compute; reflexivity|].
  do 6 eexists. split; [split; [exact Hx|reflexivity]|exact Hr].
Qed.
Theorem C81_devector_nth : forall (E : Env) x (A : dabs) w hf i,
  holds is_dev x A w hf -> 0 <= i ->
  match dv_nth i x w with
  | Ok p x' w' => x' = x /\ w' = w /\ i <= Z.of_nat (length (e_elems A)) /\ dv_index_of p x w = Ok i x w /\
      forall v, e_elems A !! Z.to_nat i = Some v -> read p x w = Ok v x w
  | Exn _ _ _ => False
  | UB => Z.of_nat (length (e_elems A)) < i
  end.
Proof. exact @dev_nth_right. Qed.
Print Assumptions C81_devector_nth.
Example C81_devector_case : let E := calm in 
  exists x A w hf x' w', (holds is_dev x A w hf /\ e_elems A = [10; 20; 30; 40; 50]%nat) /\
    (p <- dv_nth 4;; k <- dv_index_of p;; v <- read p;; ret (k, v))%prog x w = Ok (4, 50%nat) x' w'.
Proof.
  intros E.
  edestruct (dev_case_ok (E := E) [@New E (devector false) 0 (@KRange E 7 [10; 20; 30; 40; 50]%nat)] 0 ((p <- dv_nth 4;; k <- dv_index_of p;; v <- read p;; ret (k, v))%prog)) as (x & w & hf & x' & w' & Hx & Hr); [vm_compute; reflexivity|].
  do 6 eexists. split; [split; [exact Hx|reflexivity]|exact Hr].
Qed.
Theorem C81_segmented_vector_nth : forall (E : Env) (SZ : SegSize) x (A : SegSpec.sabs) w hf i,
  holds (is_seg false) x A w hf -> 0 <= i ->
  match sv_nth i x w with
  | Ok p x' w' => x' = x /\ w' = w /\ i <= Z.of_nat (length (s_elems A)) /\ sq_offset p x w = Ok i x w /\
      forall v, s_elems A !! Z.to_nat i = Some v -> read (it_deref p) x w = Ok v x w
  | Exn _ _ _ => False
  | UB => Z.of_nat (length (s_elems A)) < i
  end.
Proof. exact @seg_nth_right. Qed.
Print Assumptions C81_segmented_vector_nth.
Example C81_segmented_vector_case : let E := calm in let SZ := seg4 in
  exists x A w hf x' w', (holds (is_seg false) x A w hf /\ s_elems A = [10; 20; 30; 40; 50]%nat) /\
    (p <- sv_nth 4;; k <- sq_offset p;; v <- read (it_deref p);; ret (k, v))%prog x w = Ok (4, 50%nat) x' w'.
Proof.
  intros E SZ.
  edestruct (seg_case_ok (E := E) (SZ := SZ) (ra := true) [@New E (segvec true) 0 (@KRange E 7 [10; 20; 30; 40; 50]%nat)] 0 ((p <- sv_nth 4;; k <- sq_offset p;; v <- read (it_deref p);; ret (k, v))%prog)) as (x & w & hf & x' & w' & Hx & Hr); [vm_compute; reflexivity|].
  do 6 eexists. split; [split; [exact Hx|reflexivity]|exact Hr].
Qed.
Theorem C81_segmented_devector_nth : forall (E : Env) (SZ : SegSize) x (A : SegSpec.sabs) w hf i,
  holds (is_seg true) x A w hf -> 0 <= i ->
  match sd_nth i x w with
  | Ok p x' w' => x' = x /\ w' = w /\ i <= Z.of_nat (length (s_elems A)) /\ sq_offset p x w = Ok i x w /\
      forall v, s_elems A !! Z.to_nat i = Some v -> read (it_deref p) x w = Ok v x w
  | Exn _ _ _ => False
  | UB => Z.of_nat (length (s_elems A)) < i
  end.
Proof. exact @segd_nth_right. Qed.
Print Assumptions C81_segmented_devector_nth.
Example C81_segmented_devector_case : let E := calm in let SZ := seg4 in
  exists x A w hf x' w', (holds (is_seg true) x A w hf /\ s_elems A = [10; 20; 30; 40; 50]%nat) /\
    (p <- sd_nth 4;; k <- sq_offset p;; v <- read (it_deref p);; ret (k, v))%prog x w = Ok (4, 50%nat) x' w'.
Proof.
  intros E SZ.
  edestruct (segd_case_ok (E := E) (SZ := SZ) (ra := true) [@New E (segdev true) 0 (@KRange E 7 [10; 20; 30; 40; 50]%nat)] 0 ((p <- sd_nth 4;; k <- sq_offset p;; v <- read (it_deref p);; ret (k, v))%prog)) as (x & w & hf & x' & w' & Hx & Hr); [vm_compute; reflexivity|].
  do 6 eexists. split; [split; [exact Hx|reflexivity]|exact Hr].
Qed.

(** ** The sixteen flat containers

    [fl] is the flavour, with or without an allocator; ordered and unordered containers have
    the same layout. *)
Theorem C81_flat_nth : forall (E : Env) fl x l w hf i,
  holds (is_flat fl) x l w hf -> 0 <= i ->
  match nth_ i x.2 w with
  | Ok p x' w' => x' = x.2 /\ w' = w /\ i <= Z.of_nat (length l) /\ index_of_ p x.2 w = Ok i x.2 w /\
      forall v, l !! Z.to_nat i = Some v -> read p x.2 w = Ok v x.2 w
  | Exn _ _ _ => False
  | UB => Z.of_nat (length l) < i
  end.
Proof. exact @flat_nth_right. Qed.
Print Assumptions C81_flat_nth.
(** A static_flat_set and a small_flat_set; the program also reads the element. *)
Example C81_flat_case : let E := calm in let KD := calm_set in
  (exists x w hf x' w', holds (is_flat (StaticF 4)) x [1; 2; 4; 5]%nat w hf /\
    member (fun _ => p <- nth_ 2;; k <- index_of_ p;; v <- read p;; ret (k, v))%prog x w = Ok (2, 4%nat) x' w') /\
  (exists x w hf x' w', holds (is_flat (SmallF 3)) x [1; 2; 4; 5]%nat w hf /\
    member (fun _ => p <- nth_ 3;; k <- index_of_ p;; v <- read p;; ret (k, v))%prog x w = Ok (3, 5%nat) x' w').
Proof.
  intros E KD. split.
  - apply (static_look (KD := KD) 4 set_ true [5; 4; 2; 1]%nat). vm_compute. reflexivity.
  - apply (small_look (KD := KD) 3 set_ true (ltac:(vm_compute; discriminate)) [5; 4; 2; 1]%nat). vm_compute. reflexivity.
Qed.
