(** * Cost of the relational operators *)

From iris.proofmode Require Import tactics.
From Verif Require Export ResizeCost RelThms SegSwapCost.
From Coq Require Import Lia ZifyBool.
Open Scope Z_scope.

(** Comparisons of elements needed at most for containers of [a] and [b] elements. *)
Definition compare_most (o : relop) (a b : nat) : nat :=
  match o with
  | REq | RNe => if Nat.eqb a b then a else 0%nat
  | _ => (2 * Nat.min a b)%nat
  end.

Section generic.
  Context `{E : Env}.
  Definition at_most {St A} (m : M St A) (s : St) (w : world) (c : nat) : Prop :=
    match m s w with
    | Ok _ _ w' | Exn _ _ w' => (tick w' <= tick w + c)%nat
    | UB => True
    end.
  Lemma most_bounded {St A} (m : M St A) s w c : bounded m c -> at_most m s w c.
  Proof. intros Hm. specialize (Hm s w). unfold at_most. destruct (m s w); [lia|lia|done]. Qed.
  Lemma most_bool {St} (m : M St bool) s w c : at_most m s w c -> at_most (bool_result m) s w c.
  Proof. unfold at_most, bool_result, bind, ret. by destruct (m s w). Qed.
  Lemma most_member2 (m : M (vdata * vdata) bool) (x y : loc * vdata) w c : at_most m (x.2, y.2) w c -> at_most (member2 (fun _ _ => m)) (x, y) w c.
  Proof. unfold at_most, member2. cbn [fst snd]. by destruct (m _ w). Qed.
  Lemma bounded_test2 {St} r p q : bounded (test2_ r p q : M St bool) 1.
  Proof.
    unfold test2_. apply bounded_bind0; [apply bounded_read|]. intros v. apply bounded_bind0; [apply bounded_read|]. intros u.
    apply bounded_bind_r; [apply bounded_step|]. intros _. apply bounded_ret.
  Qed.
  Lemma bounded_equal {St} r n : forall p q, bounded (equal_ r p q n : M St bool) n.
  Proof.
    induction n as [|n IH]; intros p q; cbn [equal_]; [apply bounded_ret|]. apply (bounded_bind _ _ 1 n); [apply bounded_test2|].
    intros []; [apply IH|]. eapply bounded_mono; [apply bounded_ret|lia].
  Qed.
  Lemma bounded_lexcmp {St} lt n : forall p q m, bounded (lexcmp_ lt p n q m : M St bool) (2 * Nat.min n m).
  Proof.
    induction n as [|n IH]; intros p q [|m]; cbn [lexcmp_]; try (eapply bounded_mono; [apply bounded_ret|lia]).
    eapply bounded_mono; [apply (bounded_bind _ _ 1 (1 + 2 * Nat.min n m)); [apply bounded_test2|]|lia].
    intros []; [eapply bounded_mono; [apply bounded_ret|lia]|]. apply (bounded_bind _ _ 1 (2 * Nat.min n m)); [apply bounded_test2|].
    intros []; [|apply IH]. eapply bounded_mono; [apply bounded_ret|lia].
  Qed.

  Context {O A : Type} (R : O -> A -> heapm -> Prop) (els : A -> nat) (run2 : vop2 -> M (O * O) rval).
  Context (Heq : forall eqv x a y b w hf, holds2 R x a y b w hf -> at_most (run2 (PEq eqv)) (x, y) w (compare_most REq (els a) (els b))).
  Context (Hlt : forall lt x a y b w hf, holds2 R x a y b w hf -> at_most (run2 (PLt lt)) (x, y) w (compare_most RLt (els a) (els b))).
  Lemma most_negated (m : M (O * O) rval) s w c : at_most m s w c -> at_most (negated m) s w c.
  Proof. unfold at_most, negated. destruct (m s w) as [[] ? ?| |]; done. Qed.
  Lemma most_flipped (m : M (O * O) rval) x y w c : at_most m (y, x) w c -> at_most (flipped m) (x, y) w c.
  Proof. unfold at_most, flipped. cbn [fst snd]. by destruct (m (y, x) w). Qed.
  Lemma compare_most_ok o eqv lt x a y b w hf : holds2 R x a y b w hf ->
    at_most (compare_ run2 o eqv lt) (x, y) w (compare_most o (els a) (els b)).
  Proof.
    intros Hxy. pose proof (holds2_sym R _ _ _ _ _ _ Hxy) as Hyx. destruct o; cbn [compare_].
    - by eapply Heq.
    - by eapply most_negated, Heq.
    - by eapply Hlt.
    - eapply most_flipped. cbn. rewrite Nat.min_comm. by eapply Hlt.
    - eapply most_negated, most_flipped. cbn. rewrite Nat.min_comm. by eapply Hlt.
    - by eapply most_negated, Hlt.
  Qed.
End generic.

Section each.
  Context `{E : Env}.
  (** After both sizes have been determined. *)
  Lemma most_two {O T} (size : M O Z) (x y : O) w (k : Z -> Z -> M (O * O) T) (a b : Z) c :
    (size x w = Ok a x w \/ size x w = UB) -> (size y w = Ok b y w \/ size y w = UB) ->
    at_most (k a b) (x, y) w c -> at_most (n1 <- on1 size;; n2 <- on2 size;; k n1 n2)%prog (x, y) w c.
  Proof.
    intros H1 H2 Hk. unfold at_most, bind, on1, on2. cbn [fst snd]. destruct H1 as [->| ->]; [|done]. cbn [fst snd].
    by destruct H2 as [->| ->].
  Qed.
  Lemma size_runs (x : vdata) w : size_ x w = Ok ((v_last x).2 - (v_first x).2) x w \/ size_ x w = UB.
  Proof. unfold size_, bind, getS, ptr_sub. destruct (_ =? _); [by left|by right]. Qed.
  Lemma dsize_runs (x : ddata) w : dv_size x w = Ok ((d_last x).2 - (d_first x).2) x w \/ dv_size x w = UB.
  Proof. unfold dv_size, bind, getS, ptr_sub. destruct (_ =? _); [by left|by right]. Qed.
  Lemma eq_most eqv (x y : vdata) w a b : (v_last x).2 - (v_first x).2 = Z.of_nat a -> (v_last y).2 - (v_first y).2 = Z.of_nat b ->
    at_most (eq_ eqv) (x, y) w (compare_most REq a b).
  Proof.
    intros Ha Hb. eapply most_two; [apply size_runs|apply size_runs|]. rewrite Ha Hb. unfold at_most, bind, getS. cbn [fst snd compare_most].
    destruct (Z.eqb_spec (Z.of_nat a) (Z.of_nat b)) as [He|He].
    - replace (Nat.eqb a b) with true by lia. rewrite Nat2Z.id. apply most_bounded, bounded_equal.
    - cbn. lia.
  Qed.
  Lemma lt_most lt (x y : vdata) w a b : (v_last x).2 - (v_first x).2 = Z.of_nat a -> (v_last y).2 - (v_first y).2 = Z.of_nat b ->
    at_most (lt_ lt) (x, y) w (compare_most RLt a b).
  Proof.
    intros Ha Hb. eapply most_two; [apply size_runs|apply size_runs|]. rewrite Ha Hb. unfold at_most, bind, getS. cbn [fst snd compare_most].
    rewrite !Nat2Z.id. apply most_bounded, bounded_lexcmp.
  Qed.
  Lemma vec_len x (A : vabs) m : is_vec x A m -> (v_last x).2 - (v_first x).2 = Z.of_nat (length (q_elems A)).
  Proof. intros [I1 I2 I3 I4 I5 I6 I7 I8]. rewrite I3 I2. cbn. lia. Qed.
  Lemma static_len N x (A : tabs) m : is_static N x A m -> (v_last x.2).2 - (v_first x.2).2 = Z.of_nat (length A.2).
  Proof. intros HI. rewrite (it_data _ _ _ _ HI). cbn. lia. Qed.
  Lemma vec_compare_cost o eqv lt x (A : vabs) y B w hf : holds2 is_vec x A y B w hf ->
    at_most (compare_ vec_run2 o eqv lt) (x, y) w (compare_most o (length (q_elems A)) (length (q_elems B))).
  Proof.
    apply (compare_most_ok is_vec (fun A => length (q_elems A)) vec_run2); clear; intros r x A y B w hf (_ & m1 & m2 & H1 & H2 & _).
    - apply (most_bool (eq_ r)), eq_most; by eapply vec_len.
    - apply (most_bool (lt_ r)), lt_most; by eapply vec_len.
  Qed.
  Lemma compact_compare_cost o eqv lt x (A : vabs) y B w hf : holds2 is_compact x A y B w hf ->
    at_most (compare_ (compact_run2 code_undo) o eqv lt) (x, y) w (compare_most o (length (q_elems A)) (length (q_elems B))).
  Proof.
    apply (compare_most_ok is_compact (fun A => length (q_elems A)) (compact_run2 code_undo)); clear; intros r x A y B w hf (_ & m1 & m2 & [H1 _] & [H2 _] & _).
    - apply (most_bool (eq_ r)), eq_most; by eapply vec_len.
    - apply (most_bool (lt_ r)), lt_most; by eapply vec_len.
  Qed.
  Lemma small_compare_cost N o eqv lt x (A : SmallSpec.sabs) y B w hf : holds2 (is_small N) x A y B w hf ->
    at_most (compare_ (small_run2 N) o eqv lt) (x, y) w (compare_most o (length (q_elems A.2)) (length (q_elems B.2))).
  Proof.
    apply (compare_most_ok (is_small N) (fun A => length (q_elems A.2)) (small_run2 N)); clear; intros r x A y B w hf (_ & m1 & m2 & H1 & H2 & _).
    - apply (most_bool (member2 (fun _ _ => eq_ r))), most_member2, eq_most; by eapply small_dims.
    - apply (most_bool (member2 (fun _ _ => lt_ r))), most_member2, lt_most; by eapply small_dims.
  Qed.
  Lemma static_compare_cost N o eqv lt x (A : tabs) y B w hf : holds2 (is_static N) x A y B w hf ->
    at_most (compare_ (static_run2 N) o eqv lt) (x, y) w (compare_most o (length A.2) (length B.2)).
  Proof.
    apply (compare_most_ok (is_static N) (fun A => length A.2) (static_run2 N)); clear; intros r x A y B w hf (_ & m1 & m2 & H1 & H2 & _).
    - apply (most_bool (member2 (fun _ _ => eq_ r))), most_member2, eq_most; by eapply static_len.
    - apply (most_bool (member2 (fun _ _ => lt_ r))), most_member2, lt_most; by eapply static_len.
  Qed.
  Lemma dev_len x A m : is_dev x A m -> (d_last x).2 - (d_first x).2 = Z.of_nat (length (e_elems A)).
  Proof. intros HI. destruct (dev_dims _ _ _ HI) as (Hs & _). lia. Qed.
  Lemma dev_compare_cost o eqv lt x A y B w hf : holds2 is_dev x A y B w hf ->
    at_most (compare_ (dv_run2 false) o eqv lt) (x, y) w (compare_most o (length (e_elems A)) (length (e_elems B))).
  Proof.
    apply (compare_most_ok is_dev (fun A => length (e_elems A)) (dv_run2 false)); clear; intros r x A y B w hf (_ & m1 & m2 & H1 & H2 & _);
      apply dev_len in H1, H2.
    - apply (most_bool (dv_eq r)). eapply most_two; [apply dsize_runs|apply dsize_runs|]. rewrite H1 H2. unfold at_most, bind, getS. cbn [fst snd compare_most].
      destruct (Z.eqb_spec (Z.of_nat (length (e_elems A))) (Z.of_nat (length (e_elems B)))).
      + replace (Nat.eqb _ _) with true by lia. rewrite Nat2Z.id. apply most_bounded, bounded_equal.
      + cbn. lia.
    - apply (most_bool (dv_lt r)). eapply most_two; [apply dsize_runs|apply dsize_runs|]. rewrite H1 H2. unfold at_most, bind, getS. cbn [fst snd compare_most].
      rewrite !Nat2Z.id. apply most_bounded, bounded_lexcmp.
  Qed.
  Context `{SZ : SegSize}.
  Lemma bounded_s_equal {St} r n : forall p q, bounded (s_equal r p q n : M St bool) n.
  Proof.
    induction n as [|n IH]; intros p q; cbn [s_equal]; [apply bounded_ret|]. apply (bounded_bind _ _ 1 n); [apply bounded_test2|].
    intros []; [|eapply bounded_mono; [apply bounded_ret|lia]].
    apply bounded_bind0; [apply bounded_it_succ|]. intros p'. apply bounded_bind0; [apply bounded_it_succ|]. intros q'. apply IH.
  Qed.
  Lemma bounded_s_lexcmp {St} lt n : forall p q m, bounded (s_lexcmp lt p n q m : M St bool) (2 * Nat.min n m).
  Proof.
    induction n as [|n IH]; intros p q [|m]; cbn [s_lexcmp]; try (eapply bounded_mono; [apply bounded_ret|lia]).
    eapply bounded_mono; [apply (bounded_bind _ _ 1 (1 + 2 * Nat.min n m)); [apply bounded_test2|]|lia].
    intros []; [eapply bounded_mono; [apply bounded_ret|lia]|]. apply (bounded_bind _ _ 1 (2 * Nat.min n m)); [apply bounded_test2|].
    intros []; [eapply bounded_mono; [apply bounded_ret|lia]|].
    apply bounded_bind0; [apply bounded_it_succ|]. intros p'. apply bounded_bind0; [apply bounded_it_succ|]. intros q'. apply IH.
  Qed.
  (** After both sizes have been determined. *)
  Lemma most_sizes dev {T} x A y B w hf (k : Z -> Z -> M (sgdata * sgdata) T) c : holds2 (is_seg dev) x A y B w hf ->
    at_most (k (s_size A) (s_size B)) (x, y) w c ->
    at_most (n1 <- on1 sq_size;; n2 <- on2 sq_size;; k n1 n2)%prog (x, y) w c.
  Proof.
    intros Hxy Hk. destruct (holds2_first _ _ _ _ _ _ _ Hxy) as [hf1 Hx]. destruct (holds2_second _ _ _ _ _ _ _ Hxy) as [hf2 Hy].
    destruct (seg_dims _ _ _ _ _ Hx) as (tb & lo & hi & Hd & _). destruct (seg_dims _ _ _ _ _ Hy) as (tb' & lo' & hi' & Hd' & _).
    unfold at_most, bind at 1, on1. cbn [fst snd]. pose proof (bounded_size x w) as Hb1.
    destruct (sq_size x w) as [z x' w'|e x' w'|] eqn:H1; [|lia|done].
    destruct (look_size _ _ _ _ _ _ _ Hd w _ _ _ (fun p => eq_refl) H1) as (-> & -> & ->).
    unfold bind, on2. cbn [fst snd]. pose proof (bounded_size y w) as Hb2.
    destruct (sq_size y w) as [z y' w'|e y' w'|] eqn:H2; [|lia|done].
    destruct (look_size _ _ _ _ _ _ _ Hd' w _ _ _ (fun p => eq_refl) H2) as (-> & -> & ->). exact Hk.
  Qed.
  Lemma sg_compare_cost dev ar o eqv lt x (A : SegSpec.sabs) y B w hf : holds2 (is_seg dev) x A y B w hf ->
    at_most (compare_ (sq_run2 ar) o eqv lt) (x, y) w (compare_most o (length (s_elems A)) (length (s_elems B))).
  Proof.
    apply (compare_most_ok (is_seg dev) (fun A => length (s_elems A)) (sq_run2 ar)); clear; intros r x A y B w hf H.
    - apply (most_bool (sq_eq r)). eapply most_sizes; [exact H|]. unfold at_most, bind, getS. cbn [fst snd compare_most]. unfold s_size.
      destruct (Z.eqb_spec (Z.of_nat (length (s_elems A))) (Z.of_nat (length (s_elems B)))).
      + replace (Nat.eqb _ _) with true by lia. rewrite Nat2Z.id. apply most_bounded, bounded_s_equal.
      + cbn. lia.
    - apply (most_bool (sq_lt r)). eapply most_sizes; [exact H|]. unfold at_most, bind, getS. cbn [fst snd compare_most]. unfold s_size.
      rewrite !Nat2Z.id. apply most_bounded, bounded_s_lexcmp.
  Qed.
End each.
