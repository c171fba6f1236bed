(** * Cost of assignment to the contiguous containers *)

From iris.proofmode Require Import tactics.
From Verif Require Export CtorCost AssignSpec.
From Coq Require Import Lia ZifyBool.
Open Scope Z_scope.

Section inplace.
  Context `{E : Env}.
  Lemma takes_size_then {A} (k : Z -> M vdata A) lo hi : (forall z, takes (k z) lo hi) -> takes (bind size_ k) lo hi.
  Proof.
    intros Hk. apply takes_bind0; [|done]. apply takes_bind0; [apply takes_get|]. intros o.
    intros s w r s' w' Hr. unfold ptr_sub in Hr. destruct (_ =? _); [|done]. injection Hr as <- <- <-. lia.
  Qed.
  Lemma takes_cap_then {A} (k : Z -> M vdata A) lo hi : (forall z, takes (k z) lo hi) -> takes (bind capacity_ k) lo hi.
  Proof.
    intros Hk. apply takes_bind0; [|done]. apply takes_bind0; [apply takes_get|]. intros o.
    intros s w r s' w' Hr. unfold ptr_sub in Hr. destruct (_ =? _); [|done]. injection Hr as <- <- <-. lia.
  Qed.
  Lemma takes_then0 {St A B} (m : M St A) (k : A -> M St B) n : takes m n n -> (forall a, takes (k a) 0 0) -> takes (bind m k) n n.
  Proof. intros H1 H2. eapply takes_mono; [apply (takes_bind _ _ n n 0 0 H1 H2)|lia..]. Qed.
  Lemma takes_fill_inplace n a : takes (assign_fill_inplace n a) n n.
  Proof.
    apply takes_bind0; [apply takes_get|]. intros o. apply takes_size_then. intros size. cbv zeta.
    apply takes_then0; [|intros; apply takes_mod]. destruct (n <=? size).
    - apply takes_then0; [|intros; apply takes_destroy]. eapply takes_mono; [apply takes_fill|..]; unfold loc_add; cbn [fst snd]; lia.
    - eapply takes_mono; [eapply takes_bind; [apply takes_fill|intros; apply takes_uninit_fill]|..]; unfold loc_add; cbn [fst snd]; lia.
  Qed.
  Lemma takes_range_inplace srcs : takes (assign_range_inplace srcs) (Z.of_nat (length srcs)) (Z.of_nat (length srcs)).
  Proof.
    apply takes_bind0; [apply takes_get|]. intros o. apply takes_size_then. intros size. cbv zeta. destruct (_ <=? size).
    - apply takes_then0; [apply takes_assign_loop|]. intros nl. apply takes_bind0; [apply takes_destroy|]. intros; apply takes_mod.
    - eapply takes_mono; [eapply takes_bind; [apply takes_assign_loop|intros; apply takes_then0; [apply takes_uninit_loop|intros; apply takes_mod]]|..];
        rewrite take_length drop_length; lia.
  Qed.

  Section storage.
    Variable st : storage.
    Hypothesis Hrel : forall p n, takes (release st p n) 0 0.
    Variable c : Z -> Z.
    Hypothesis Hre : forall n, takes (restock st n) 0 (c n).
    Hypothesis Hc : forall n, 0 <= c n.
    Lemma takes_reset n lo hi : takes (restock st n) lo hi -> takes (reset_ st n) lo hi.
    Proof using Hrel.
      intros H. apply takes_bind0; [apply takes_get|]. intros o. apply takes_bind0; [apply takes_destroy|]. intros _.
      apply takes_sub. intros _. apply takes_bind0; [apply Hrel|]. intros _. done.
    Qed.
    Lemma takes_assign_fill n a : 0 <= n -> takes (assign_fill_ st n a) n (n + c n).
    Proof using Hrel Hre Hc.
      pose proof (Hc n). intros Hn. apply takes_bind0; [apply takes_check|]. intros _. apply takes_cap_then. intros cap. destruct (n <=? cap).
      - eapply takes_mono; [apply takes_fill_inplace|lia..].
      - eapply takes_mono; [eapply takes_bind; [apply takes_reset, Hre|]|..].
        + intros _. apply takes_bind0; [apply takes_get|]. intros o. apply takes_then0; [apply takes_fill_n|intros; apply takes_mod].
        + lia.
        + lia.
    Qed.
    Lemma takes_assign_range srcs : let n := Z.of_nat (length srcs) in takes (assign_range_ st srcs) n (n + c n).
    Proof using Hrel Hre Hc.
      intros n. pose proof (Hc n). apply takes_bind0; [apply takes_check|]. intros _. apply takes_cap_then. intros cap. destruct (_ <=? cap).
      - eapply takes_mono; [apply takes_range_inplace|lia..].
      - eapply takes_mono; [eapply takes_bind; [apply takes_reset, Hre|]|..].
        + intros _. apply takes_bind0; [apply takes_get|]. intros o. apply takes_then0; [apply takes_uninit_loop|intros; apply takes_mod].
        + fold n. lia.
        + change (Z.of_nat (length srcs)) with n. lia.
    Qed.
    (** No allocation if the elements fit. *)
    Lemma fits_no_more n x w cap (m k : M vdata unit) u x' w' : (v_eos x).2 - (v_first x).2 = cap -> n <= cap -> takes m n n ->
      (check_size n;; c <- capacity_;; if n <=? c then m else k)%prog x w = Ok u x' w' ->
      Z.of_nat (tick w') = Z.of_nat (tick w) + n.
    Proof using.
      intros Hx Hn Hm Hr. apply run_bind in Hr as ([] & x1 & w1 & H1 & Hr).
      unfold check_size in H1. destruct (_ <? _); [done|]. injection H1 as <- <-.
      apply run_bind in Hr as (z & x1 & w1 & H1 & Hr). unfold capacity_, getS, ptr_sub in H1. unfold bind in H1.
      destruct (_ =? _); [|done]. injection H1 as <- <- <-. rewrite Hx in Hr. replace (n <=? cap) with true in Hr by lia.
      apply Hm in Hr. lia.
    Qed.
    Lemma takes_call o n : assigns o = Some n ->
      match o with OAssignN n v => takes (assign_fill_ st (Z.of_nat n) (AVal v)) (Z.of_nat n) (Z.of_nat n + c (Z.of_nat n))
                 | OAssignRange vs => takes (assign_range_ st (AVal <$> vs)) (Z.of_nat (length vs)) (Z.of_nat (length vs) + c (Z.of_nat (length vs)))
                 | _ => True end.
    Proof using Hrel Hre Hc.
      destruct o; try done; intros _; [apply takes_assign_fill; lia|].
      pose proof (takes_assign_range (AVal <$> vs)) as H. by rewrite fmap_length in H.
    Qed.
  End storage.

  Lemma vec_release p n : takes (release vec_storage p n) 0 0.
  Proof. apply takes_bind0; [apply takes_get|]. intros o. apply takes_bounded, bounded_deallocate. Qed.
  Lemma vec_restock n : takes (restock vec_storage n) 0 1.
  Proof.
    apply takes_bind0; [apply takes_mod|]. intros _. destruct (_ <? _); [|eapply takes_mono; [apply takes_ret|lia..]].
    apply takes_bind0; [apply takes_get|]. intros o.
    eapply takes_mono; [eapply takes_bind; [apply takes_allocate|intros; apply takes_mod]|..]; unfold block1; destruct (n =? 0); lia.
  Qed.
  Lemma vec_restock0 : takes (restock vec_storage 0) 0 0.
  Proof. apply takes_bind0; [apply takes_mod|]. intros _. apply takes_ret. Qed.
  Lemma small_release N ib p n : takes (release (small_storage N ib) p n) 0 0.
  Proof. cbn. destruct (loc_eqb _ _); [apply takes_ret|]. apply takes_bind0; [apply takes_get|]. intros o. apply takes_bounded, bounded_deallocate. Qed.
  Definition over (N : nat) (n : Z) : Z := if Z.of_nat N <? n then 1 else 0.
  Lemma over_nonneg N n : 0 <= over N n.
  Proof. unfold over. case_match; lia. Qed.
  Lemma small_restock N ib n : takes (restock (small_storage N ib) n) 0 (over N n).
  Proof.
    apply takes_bind0; [apply takes_mod|]. intros _. unfold over. destruct (_ <? _); [|eapply takes_mono; [apply takes_ret|lia..]].
    apply takes_bind0; [apply takes_get|]. intros o.
    eapply takes_mono; [eapply takes_bind; [apply takes_allocate|intros; apply takes_mod]|..]; unfold block1; destruct (n =? 0); lia.
  Qed.
  Lemma small_restockN N ib : takes (restock (small_storage N ib) (Z.of_nat N)) 0 0.
  Proof. apply takes_bind0; [apply takes_mod|]. intros _. rewrite Z.ltb_irrefl. apply takes_ret. Qed.
End inplace.

Section calls.
  Context `{E : Env}.
  Lemma run_unit {St} (m : M St unit) x w r x' w' : (m;; ret RUnit)%prog x w = Ok r x' w' -> m x w = Ok tt x' w' /\ r = RUnit.
  Proof. intros Hr. apply run_bind in Hr as ([] & x1 & w1 & H1 & Hr). injection Hr as <- <- <-. done. Qed.
  Lemma st_call_cost st (Hrel : forall p n, takes (release st p n) 0 0) c (Hre : forall n, takes (restock st n) 0 (c n)) (Hc : forall n, 0 <= c n)
      (m : M vdata rval) o n x w r x' w' : assigns o = Some n ->
    m = match o with OAssignN n v => as_unit (assign_fill_ st (Z.of_nat n) (AVal v))
                   | OAssignRange vs => as_unit (assign_range_ st (AVal <$> vs)) | _ => m end ->
    m x w = Ok r x' w' ->
    Z.of_nat (tick w + n) <= Z.of_nat (tick w') <= Z.of_nat (tick w + n) + c (Z.of_nat n) /\
    (Z.of_nat n <= (v_eos x).2 - (v_first x).2 -> tick w' = (tick w + n)%nat).
  Proof.
    intros Ho Hm Hr. pose proof (takes_call st Hrel c Hre Hc o n Ho) as Ht. rewrite Hm in Hr. destruct o; try done; injection Ho as <-.
    - apply run_unit in Hr as [Hr _]. split; [apply Ht in Hr; lia|]. intros Hx.
      assert (Z.of_nat (tick w') = Z.of_nat (tick w) + Z.of_nat n0); [|lia].
      eapply fits_no_more; [done|exact Hx|apply takes_fill_inplace|exact Hr].
    - apply run_unit in Hr as [Hr _]. split; [apply Ht in Hr; lia|]. intros Hx.
      assert (Z.of_nat (tick w') = Z.of_nat (tick w) + Z.of_nat (length vs)); [|lia].
      rewrite -(fmap_length AVal vs) in Hx |- *.
      eapply fits_no_more; [done|exact Hx|apply takes_range_inplace|exact Hr].
  Qed.
  Lemma vec_assign_cost o n x A w hf r x' w' : assigns o = Some n -> holds is_vec x A w hf -> vec_call o x w = Ok r x' w' ->
    (tick w + n <= tick w' <= tick w + n + 1)%nat /\ (Z.of_nat n <= q_cap A -> tick w' = (tick w + n)%nat).
  Proof.
    intros Ho (_ & m & [_ I2 _ I4 _ _ _ _] & _) Hr.
    destruct (st_call_cost vec_storage vec_release (fun _ => 1) vec_restock ltac:(done) (vec_call o) o n x w r x' w' Ho) as [H1 H2];
      [destruct o; done|done|]. split; [lia|]. intros Hn. apply H2. rewrite I4 I2. cbn. lia.
  Qed.
End calls.

Section more_calls.
  Context `{E : Env}.
  Lemma run_member {T} (m : loc -> M vdata T) x w r x' w' : member m x w = Ok r x' w' ->
    x'.1 = x.1 /\ m x.1 x.2 w = Ok r x'.2 w'.
  Proof. unfold member. destruct (m x.1 x.2 w); try done. by intros [= <- <- <-]. Qed.
  Lemma small_assign_cost N o n x (A : SmallSpec.sabs) w hf r x' w' : assigns o = Some n -> holds (is_small N) x A w hf ->
    small_call N o x w = Ok r x' w' ->
    (tick w + n <= tick w' <= tick w + n + 1)%nat /\
    (Z.of_nat n <= Z.max (Z.of_nat N) (q_cap A.2) -> tick w' = (tick w + n)%nat).
  Proof.
    intros Ho (_ & m & HI & _) Hr. unfold small_call in Hr. apply run_member in Hr as [_ Hr].
    destruct (st_call_cost (small_storage N x.1) (small_release N x.1) (over N) (small_restock N x.1) (over_nonneg N)
      (run_vop (small_storage N x.1) (small_special N x.1) o) o n x.2 w r x'.2 w' Ho) as [H1 H2];
      [destruct o; done|done|].
    assert (Z.of_nat n <= q_cap A.2 -> tick w' = (tick w + n)%nat) as H3.
    { intros Hn. apply H2. rewrite (is_eos _ _ _ _ HI) (is_first _ _ _ _ HI). cbn. lia. }
    unfold over in H1. split; [case_match; lia|]. intros Hn. destruct (decide (Z.of_nat n <= q_cap A.2)); [by apply H3|].
    replace (_ <? _) with false in H1 by lia. lia.
  Qed.
  Lemma static_assign_cost N o n x w r x' w' : assigns o = Some n -> static_call N o x w = Ok r x' w' -> tick w' = (tick w + n)%nat.
  Proof.
    intros Ho Hr. unfold static_call in Hr. apply run_member in Hr as [_ Hr].
    destruct o; try done; injection Ho as <-; cbn in Hr; apply run_unit in Hr as [Hr _];
      apply run_bind in Hr as ([] & s1 & w1 & H1 & Hr); unfold assert_ in H1; destruct (_ <=? _); try done; injection H1 as <- <-.
    - apply takes_fill_inplace in Hr. lia.
    - apply takes_range_inplace in Hr. rewrite fmap_length in Hr. lia.
  Qed.
  Lemma takes_compact_clear : takes compact_clear 0 0.
  Proof.
    apply takes_bind0; [apply takes_get|]. intros o. apply takes_bind0; [apply takes_destroy|]. intros _. apply takes_sub. intros _.
    apply takes_bind0; [apply takes_bounded, bounded_deallocate|]. intros _. apply takes_mod.
  Qed.
  Lemma run_size x w z x' w' : size_ x w = Ok z x' w' -> x' = x /\ w' = w /\ z = (v_last x).2 - (v_first x).2.
  Proof. unfold size_, getS, ptr_sub, bind. destruct (_ =? _); [|done]. by intros [= <- <- <-]. Qed.
  Lemma compact_assign_cost o n x (A : vabs) w hf r x' w' : assigns o = Some n -> holds is_compact x A w hf ->
    compact_call o x w = Ok r x' w' ->
    tick w' = (tick w + n + if Nat.eqb n (length (q_elems A)) || Nat.eqb n 0 then 0 else 1)%nat.
  Proof.
    intros Ho (_ & m & [[I1 I2 I3 I4 I5 I6 I7 I8] _] & _) Hr.
    assert ((v_last x).2 - (v_first x).2 = Z.of_nat (length (q_elems A))) as Hlen by (rewrite I3 I2; cbn; lia).
    assert (Z.of_nat (tick w') = Z.of_nat (tick w) + Z.of_nat n + if Z.of_nat n =? Z.of_nat (length (q_elems A)) then 0 else block1 (Z.of_nat n)) as H.
    { destruct o; try done; injection Ho as <-.
      - change (as_unit (compact_assign_fill code_undo (Z.of_nat n0) (AVal v)) x w = Ok r x' w') in Hr. apply run_unit in Hr as [Hr _].
        apply run_bind in Hr as ([] & s1 & w1 & H1 & Hr). unfold check_size in H1. destruct (_ <? _); [done|]. injection H1 as <- <-.
        apply run_bind in Hr as (z & s1 & w1 & H1 & Hr). apply run_size in H1 as (-> & -> & ->). rewrite Hlen in Hr.
        apply run_bind in Hr as (o & s1 & w1 & H1 & Hr). injection H1 as <- <- <-. destruct (_ =? _) eqn:Hn.
        + apply takes_fill in Hr. lia.
        + assert (takes (compact_clear;; p <- allocate (v_alloc x) (Z.of_nat n0);; set_storage p p;;
            try_ (nl <- uninitialized_fill_n_a p (Z.to_nat (Z.of_nat n0)) (AVal v);; set_storage p nl) (code_undo (Z.of_nat n0)))%prog
            (block1 (Z.of_nat n0) + Z.of_nat n0) (block1 (Z.of_nat n0) + Z.of_nat n0)) as Ht; [|apply Ht in Hr; lia].
          apply takes_bind0; [apply takes_compact_clear|]. intros _. apply takes_bind; [apply takes_allocate|]. intros p.
          apply takes_bind0; [apply takes_mod|]. intros _. apply takes_try. rewrite Nat2Z.id. apply takes_then0; [apply takes_fill_n|intros; apply takes_mod].
      - change (as_unit (compact_assign_range code_undo (AVal <$> vs)) x w = Ok r x' w') in Hr. apply run_unit in Hr as [Hr _].
        unfold compact_assign_range in Hr. rewrite fmap_length in Hr. cbv zeta in Hr.
        apply run_bind in Hr as ([] & s1 & w1 & H1 & Hr). unfold check_size in H1. destruct (_ <? _); [done|]. injection H1 as <- <-.
        apply run_bind in Hr as (z & s1 & w1 & H1 & Hr). apply run_size in H1 as (-> & -> & ->). rewrite Hlen in Hr.
        apply run_bind in Hr as (o & s1 & w1 & H1 & Hr). injection H1 as <- <- <-. destruct (_ =? _) eqn:Hn.
        + apply run_bind in Hr as (p & s1 & w1 & H1 & Hr). injection Hr as <- <-. apply takes_assign_loop in H1. rewrite fmap_length in H1. lia.
        + assert (takes (compact_clear;; p <- allocate (v_alloc x) (Z.of_nat (length vs));; set_storage p p;;
            try_ (nl <- uninitialized_copy_a (AVal <$> vs) p;; set_storage p nl) (code_undo (Z.of_nat (length vs))))%prog
            (block1 (Z.of_nat (length vs)) + Z.of_nat (length vs)) (block1 (Z.of_nat (length vs)) + Z.of_nat (length vs))) as Ht; [|apply Ht in Hr; lia].
          apply takes_bind0; [apply takes_compact_clear|]. intros _. apply takes_bind; [apply takes_allocate|]. intros p.
          apply takes_bind0; [apply takes_mod|]. intros _. apply takes_try. apply takes_then0; [|intros; apply takes_mod].
          eapply takes_mono; [apply takes_uninit_loop|rewrite fmap_length; lia..]. }
    unfold block1 in H. destruct (Nat.eqb n (length _)) eqn:?, (Nat.eqb n 0) eqn:?; cbn [orb];
      destruct (Z.of_nat n =? Z.of_nat (length _)) eqn:?, (Z.of_nat n =? 0) eqn:?; lia.
  Qed.
End more_calls.
