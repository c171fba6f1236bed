(** * Cost of changing the size or the capacity *)

From iris.proofmode Require Import tactics.
From Verif Require Export AssignMore ResizeSpec.
From Coq Require Import Lia ZifyBool.
Open Scope Z_scope.

Section vec.
  Context `{E : Env}.
  Lemma run_cap x w z x' w' : capacity_ x w = Ok z x' w' -> x' = x /\ w' = w /\ z = (v_eos x).2 - (v_first x).2.
  Proof. unfold capacity_, getS, ptr_sub, bind. destruct (_ =? _); [|done]. by intros [= <- <- <-]. Qed.
  Lemma run_check n (x : vdata) w u x' w' : check_size n x w = Ok u x' w' -> x' = x /\ w' = w.
  Proof. unfold check_size. destruct (_ <? _); [done|]. by intros [= _ <- <-]. Qed.
  Lemma takes_truncate n : takes (truncate n) 0 0.
  Proof. apply takes_bind0; [apply takes_get|]. intros o. cbv zeta. apply takes_bind0; [apply takes_destroy|]. intros; apply takes_mod. Qed.

  Section storage.
    Context (st : storage) (Hac : forall n, bounded (acquire st n) 1) (Hrs : forall f l e, bounded (replace_storage st f l e) 0).
    Context (x : vdata) (s : nat) (cap : Z).
    Hypothesis Hs : (v_last x).2 - (v_first x).2 = Z.of_nat s.
    Hypothesis Hc : (v_eos x).2 - (v_first x).2 = cap.
    Hypothesis Hfit : Z.of_nat s <= cap.
    Lemma resize_cost n a w u x' w' : resize_ st (Z.of_nat n) a x w = Ok u x' w' ->
      let c := (if Nat.leb n s then 0 else if (Z.of_nat n <=? cap)%Z then n - s else n)%nat in
      (tick w + c <= tick w' <= tick w + c + if (Z.of_nat n <=? cap)%Z then 0 else 1)%nat.
    Proof using Hac Hrs Hs Hc Hfit.
      intros Hr c. apply run_bind in Hr as (? & s1 & w1 & H1 & Hr). apply run_check in H1 as [-> ->].
      apply run_bind in Hr as (z & s1 & w1 & H1 & Hr). apply run_size in H1 as (-> & -> & ->). rewrite Hs in Hr.
      apply run_bind in Hr as (o & s1 & w1 & H1 & Hr). injection H1 as <- <- <-.
      apply run_bind in Hr as (z & s1 & w1 & H1 & Hr). apply run_cap in H1 as (-> & -> & ->). rewrite Hc in Hr.
      subst c. destruct (Z.of_nat n <? Z.of_nat s) eqn:H1.
      { apply takes_truncate in Hr. replace (Nat.leb n s) with true by lia. replace (Z.of_nat n <=? cap) with true by lia. lia. }
      destruct (Z.of_nat s <? Z.of_nat n) eqn:H2.
      - replace (Nat.leb n s) with false by lia. cbv zeta in Hr. destruct (cap <? Z.of_nat n) eqn:H3.
        + replace (Z.of_nat n <=? cap) with false by lia. apply run_bind in Hr as (p & s1 & w1 & H4 & Hr). injection Hr as _ _ <-.
          apply (realloc_append_cost st Hac Hrs _ _ _ _ (Z.of_nat (Z.to_nat (Z.of_nat n - Z.of_nat s)))) in H4; [lia|].
          intros q. apply takes_then0; [apply takes_fill_n|]. intros; apply takes_ret.
        + replace (Z.of_nat n <=? cap) with true by lia.
          apply run_bind in Hr as (p & s1 & w1 & H4 & Hr). apply takes_fill_n in H4. apply takes_mod in Hr. lia.
      - injection Hr as _ _ <-. replace (Nat.leb n s) with true by lia. replace (Z.of_nat n <=? cap) with true by lia. lia.
    Qed.
  End storage.
  Lemma relocate_takes n x w u x' w' : relocate_ n x w = Ok u x' w' ->
    let z := (v_last x).2 - (v_first x).2 in Z.of_nat (tick w') = Z.of_nat (tick w) + z + block1 n.
  Proof.
    intros Hr z. apply run_bind in Hr as (o & s1 & w1 & H1 & Hr). injection H1 as <- <- <-.
    apply run_bind in Hr as (b & s1 & w1 & H1 & Hr). apply takes_allocate in H1. cbv zeta in Hr.
    apply run_bind in Hr as (nl & s2 & w2 & H2 & Hr). apply run_try in H2. apply takes_uninit_mine in H2.
    apply (takes_bounded _ (bounded_replace _ _ _)) in Hr. subst z. lia.
  Qed.
  Lemma vec_resize_cost o x A w hf r x' w' c : resize_steps o (length (q_elems A)) (q_cap A) = Some c ->
    holds is_vec x A w hf -> vec_call o x w = Ok r x' w' ->
    (tick w + c <= tick w' <= tick w + c + replaces o (length (q_elems A)) (q_cap A))%nat.
  Proof.
    intros Ho (_ & m & [I1 I2 I3 I4 I5 I6 I7 I8] & _) Hr.
    assert ((v_last x).2 - (v_first x).2 = Z.of_nat (length (q_elems A))) as Hs by (rewrite I3 I2; cbn; lia).
    assert ((v_eos x).2 - (v_first x).2 = q_cap A) as Hc by (rewrite I4 I2; cbn; lia).
    assert (Z.of_nat (length (q_elems A)) <= q_cap A) as Hfit by lia.
    destruct o as [| | | | | | | |n a| | | | |n| | | | | | | | | | ]; try done; injection Ho as <-; cbn [replaces].
    - change (as_unit (resize_ vec_storage (Z.of_nat n) (arg_of x a)) x w = Ok r x' w') in Hr. apply run_unit in Hr as [Hr _].
      exact (resize_cost vec_storage bounded_acquire bounded_replace x _ _ Hs Hc Hfit _ _ _ _ _ _ Hr).
    - change (as_unit (vec_reserve (Z.of_nat n)) x w = Ok r x' w') in Hr. apply run_unit in Hr as [Hr _].
      apply run_bind in Hr as (? & s1 & w1 & H1 & Hr). apply run_check in H1 as [-> ->].
      apply run_bind in Hr as (z & s1 & w1 & H1 & Hr). apply run_cap in H1 as (-> & -> & ->). rewrite Hc in Hr.
      destruct (q_cap A <? Z.of_nat n) eqn:Hn.
      + replace (Z.of_nat n <=? q_cap A) with false by lia. apply relocate_takes in Hr. rewrite Hs in Hr. unfold block1 in Hr. destruct (_ =? 0); lia.
      + replace (Z.of_nat n <=? q_cap A) with true by lia. injection Hr as _ <-. lia.
    - change (as_unit vec_shrink_to_fit x w = Ok r x' w') in Hr. apply run_unit in Hr as [Hr _].
      apply run_bind in Hr as (z & s1 & w1 & H1 & Hr). apply run_size in H1 as (-> & -> & ->). rewrite Hs in Hr.
      apply run_bind in Hr as (z & s1 & w1 & H1 & Hr). apply run_cap in H1 as (-> & -> & ->). rewrite Hc in Hr.
      destruct (_ <? _).
      + apply relocate_takes in Hr. rewrite Hs in Hr. unfold block1 in Hr. destruct (_ =? 0); lia.
      + injection Hr as _ <-. lia.
  Qed.

  (** ** sfl::small_vector *)
  Lemma small_relocate_takes N ib n x w u x' w' : small_relocate N ib n x w = Ok u x' w' ->
    let z := (v_last x).2 - (v_first x).2 in
    if (n <=? Z.of_nat N) && loc_eqb (v_first x) ib then tick w' = tick w
    else Z.of_nat (tick w') = Z.of_nat (tick w) + z + if n <=? Z.of_nat N then 0 else block1 n.
  Proof.
    intros Hr z. apply run_bind in Hr as (o & s1 & w1 & H1 & Hr). injection H1 as <- <- <-.
    destruct (n <=? Z.of_nat N) eqn:Hn; cbn [andb].
    - destruct (loc_eqb _ _). { by injection Hr as _ _ <-. }
      apply run_bind in Hr as (nl & s2 & w2 & H2 & Hr). apply takes_uninit_mine in H2.
      assert (takes (destroy_a (v_first x) (v_last x);; cap <- ptr_sub (v_eos x) (v_first x);;
        deallocate (v_alloc x) (v_first x) cap;; modS (with_storage ib nl (ib +ₗ Z.of_nat N)))%prog 0 0) as Ht.
      { apply takes_bind0; [apply takes_destroy|]. intros _. apply takes_sub. intros _.
        apply takes_bind0; [apply takes_bounded, bounded_deallocate|]. intros; apply takes_mod. }
      apply Ht in Hr. subst z. lia.
    - apply run_bind in Hr as (b & s1 & w1 & H1 & Hr). apply takes_allocate in H1.
      apply run_bind in Hr as (nl & s2 & w2 & H2 & Hr). apply run_try in H2. apply takes_uninit_mine in H2.
      apply (takes_bounded _ (bounded_replace_s N ib _ _ _)) in Hr. subst z. lia.
  Qed.
  Lemma small_dims N x (A : SmallSpec.sabs) m : is_small N x A m ->
    (v_last x.2).2 - (v_first x.2).2 = Z.of_nat (length (q_elems A.2)) /\ (v_eos x.2).2 - (v_first x.2).2 = q_cap A.2 /\
    Z.of_nat (length (q_elems A.2)) <= q_cap A.2.
  Proof. intros HI. pose proof (is_size _ _ _ _ HI). rewrite (is_last _ _ _ _ HI) (is_eos _ _ _ _ HI) (is_first _ _ _ _ HI). cbn. lia. Qed.
  Lemma small_internal N x (A : SmallSpec.sabs) m : is_small N x A m -> loc_eqb (v_first x.2) x.1 = true -> q_cap A.2 = Z.of_nat N.
  Proof.
    intros HI He. rewrite (is_buf _ _ _ _ HI) (is_first _ _ _ _ HI) in He. pose proof (is_ib _ _ _ _ HI) as Hb.
    assert (q_data A.2 = A.1) as Hd.
    { unfold loc_eqb in He. destruct (q_data A.2), A.1. cbn in *. f_equal; lia. }
    destruct (is_state _ _ _ _ HI) as [[H _]|[[H1 H2]|(H1 & H2 & H3)]]; [done| |].
    - rewrite -Hd H2 in Hb. destruct (decide (N = 0%nat)) as [->|]; [done|]. cbn in Hb. lia.
    - rewrite -Hd in Hb. destruct (decide (N = 0%nat)) as [HN|]; [rewrite Hb in H2; cbn in H2; lia|lia].
  Qed.
  Lemma small_resize_cost N o x (A : SmallSpec.sabs) w hf r x' w' c : resize_steps o (length (q_elems A.2)) (q_cap A.2) = Some c -> o <> OShrink ->
    holds (is_small N) x A w hf -> small_call N o x w = Ok r x' w' ->
    (tick w + c <= tick w' <= tick w + c + replaces o (length (q_elems A.2)) (q_cap A.2))%nat.
  Proof.
    intros Ho Hsh (_ & m & HI & _) Hr. destruct (small_dims _ _ _ _ HI) as (Hs & Hc & Hfit).
    unfold small_call in Hr. apply run_member in Hr as [_ Hr].
    destruct o as [| | | | | | | |n a| | | | |n| | | | | | | | | | ]; try done; injection Ho as <-; cbn [replaces].
    - change (as_unit (resize_ (small_storage N x.1) (Z.of_nat n) (arg_of x.2 a)) x.2 w = Ok r x'.2 w') in Hr. apply run_unit in Hr as [Hr _].
      exact (resize_cost (small_storage N x.1) (bounded_acquire_s N x.1) (bounded_replace_s N x.1) x.2 _ _ Hs Hc Hfit _ _ _ _ _ _ Hr).
    - change (as_unit (small_reserve N x.1 (Z.of_nat n)) x.2 w = Ok r x'.2 w') in Hr. apply run_unit in Hr as [Hr _].
      apply run_bind in Hr as (? & s1 & w1 & H1 & Hr). apply run_check in H1 as [-> ->].
      apply run_bind in Hr as (z & s1 & w1 & H1 & Hr). apply run_cap in H1 as (-> & -> & ->). rewrite Hc in Hr.
      destruct (q_cap A.2 <? Z.of_nat n) eqn:Hn.
      + replace (Z.of_nat n <=? q_cap A.2) with false by lia. apply small_relocate_takes in Hr. rewrite Hs in Hr.
        destruct ((Z.of_nat n <=? Z.of_nat N) && loc_eqb (v_first x.2) x.1) eqn:Hin.
        * apply andb_prop in Hin as [H1 H2]. pose proof (small_internal _ _ _ _ HI H2). lia.
        * unfold block1 in Hr. repeat case_match; lia.
      + replace (Z.of_nat n <=? q_cap A.2) with true by lia. injection Hr as _ <-. lia.
  Qed.
  (** [shrink_to_fit]: elements that are in the object stay there. *)
  Lemma small_shrink_cost N x (A : SmallSpec.sabs) w hf r x' w' : holds (is_small N) x A w hf -> small_call N OShrink x w = Ok r x' w' ->
    let s := length (q_elems A.2) in (tick w' <= tick w + s + 1)%nat /\ ((s <= N)%nat -> v_first x.2 = x.1 -> tick w' = tick w).
  Proof.
    intros (_ & m & HI & _) Hr s. destruct (small_dims _ _ _ _ HI) as (Hs & Hc & Hfit).
    unfold small_call in Hr. apply run_member in Hr as [_ Hr].
    change (as_unit (small_shrink_to_fit N x.1) x.2 w = Ok r x'.2 w') in Hr. apply run_unit in Hr as [Hr _].
    apply run_bind in Hr as (z & s1 & w1 & H1 & Hr). apply run_size in H1 as (-> & -> & ->). rewrite Hs in Hr.
    apply run_bind in Hr as (z & s1 & w1 & H1 & Hr). apply run_cap in H1 as (-> & -> & ->). rewrite Hc in Hr. fold s in Hr, Hs.
    destruct (_ <? _); [|injection Hr as _ <-; split; [lia|done]].
    apply small_relocate_takes in Hr. rewrite Hs in Hr. unfold block1 in Hr. split.
    - repeat case_match; lia.
    - intros Hn Hf. rewrite Hf loc_eqb_same in Hr. replace (Z.of_nat s <=? Z.of_nat N) with true in Hr by lia. done.
  Qed.

  (** ** sfl::static_vector, sfl::compact_vector *)
  Lemma static_resize_cost N n a x (A : tabs) w hf r x' w' : holds (is_static N) x A w hf ->
    static_call N (OResize n a) x w = Ok r x' w' -> tick w' = (tick w + (n - length A.2))%nat.
  Proof.
    intros (_ & m & HI & _) Hr. unfold static_call in Hr. apply run_member in Hr as [_ Hr].
    assert ((v_last x.2).2 - (v_first x.2).2 = Z.of_nat (length A.2)) as Hs by (rewrite (it_data _ _ _ _ HI); cbn; lia).
    change (as_unit (static_resize N (Z.of_nat n) (arg_of x.2 a)) x.2 w = Ok r x'.2 w') in Hr. apply run_unit in Hr as [Hr _].
    apply run_bind in Hr as ([] & s1 & w1 & H1 & Hr); unfold assert_ in H1; destruct (_ <=? _); try done; injection H1 as <- <-.
    apply run_bind in Hr as (z & s1 & w1 & H1 & Hr). apply run_size in H1 as (-> & -> & ->). rewrite Hs in Hr.
    apply run_bind in Hr as (o & s1 & w1 & H1 & Hr). injection H1 as <- <- <-.
    destruct (_ <? _) eqn:H1 in Hr. { apply takes_truncate in Hr. lia. }
    destruct (_ <? _) eqn:H2 in Hr.
    - apply run_bind in Hr as (p & s1 & w1 & H4 & Hr). apply takes_fill_n in H4. apply takes_mod in Hr. lia.
    - injection Hr as _ <-. lia.
  Qed.
  Lemma takes_rebuild n mk lo hi : (forall p, takes (mk p) lo hi) -> takes (rebuild n mk) (block1 n + lo) (block1 n + hi).
  Proof.
    intros Hmk. apply takes_bind0; [apply takes_get|]. intros o. apply takes_bind; [apply takes_allocate|]. intros p.
    eapply takes_mono; [eapply takes_bind; [apply takes_local; eapply takes_bind; [apply takes_try, Hmk|intros; apply takes_bounded, bounded_getl]|]|..].
    - intros q. apply takes_bind0; [apply takes_destroy|]. intros _. apply takes_sub. intros _.
      apply takes_bind0; [apply takes_bounded, bounded_deallocate|]. intros; apply takes_mod.
    - lia.
    - lia.
  Qed.
  Lemma compact_resize_cost n a x (A : vabs) w hf r x' w' : holds is_compact x A w hf ->
    compact_call (OResize n a) x w = Ok r x' w' ->
    tick w' = (tick w + if Nat.eqb n (length (q_elems A)) then 0 else n + if Nat.eqb n 0 then 0 else 1)%nat.
  Proof.
    intros (_ & m & [[I1 I2 I3 I4 I5 I6 I7 I8] _] & _) Hr.
    assert ((v_last x).2 - (v_first x).2 = Z.of_nat (length (q_elems A))) as Hs by (rewrite I3 I2; cbn; lia).
    change (as_unit (compact_resize (Z.of_nat n) (arg_of x a)) x w = Ok r x' w') in Hr. apply run_unit in Hr as [Hr _].
    apply run_bind in Hr as (z & s1 & w1 & H1 & Hr). apply run_size in H1 as (-> & -> & ->). rewrite Hs in Hr.
    destruct (_ =? _) eqn:Hn in Hr. { injection Hr as _ <-. replace (Nat.eqb n _) with true by lia. lia. }
    replace (Nat.eqb n (length (q_elems A))) with false by lia.
    apply run_bind in Hr as (? & s1 & w1 & H1 & Hr). apply run_check in H1 as [-> ->].
    apply run_bind in Hr as (o & s1 & w1 & H1 & Hr). injection H1 as <- <- <-.
    assert (Z.of_nat (tick w') = Z.of_nat (tick w) + (block1 (Z.of_nat n) + Z.of_nat n)) as H.
    2:{ unfold block1 in H. destruct (_ =? 0) eqn:?; destruct (Nat.eqb n 0) eqn:?; lia. }
    eapply (takes_rebuild _ _ (Z.of_nat n) (Z.of_nat n)) in Hr; [lia|]. intros p. destruct (_ <? _) eqn:Hlt.
    - eapply takes_mono; [eapply takes_bind; [apply takes_uninit_mine|]|..].
      + intros q. apply takes_bind0; [apply takes_bounded, bounded_setl|]. intros _.
        apply takes_then0; [apply takes_fill_n|intros; apply takes_bounded, bounded_setl].
      + lia.
      + lia.
    - apply takes_then0; [|intros; apply takes_bounded, bounded_setl].
      eapply takes_mono; [apply takes_uninit_mine|..]; unfold loc_add; cbn; lia.
  Qed.

  (** ** sfl::devector *)
  Lemma grow_front_cost add x w x' w' : 0 < add -> 0 <= (d_eos x).2 - (d_bos x).2 -> dv_grow_front add x w = Ok tt x' w' ->
    Z.of_nat (tick w') = Z.of_nat (tick w) + 1 + ((d_last x).2 - (d_first x).2).
  Proof.
    intros Hadd Hcap Hr. apply run_bind in Hr as (c & s1 & w1 & H1 & Hr). apply run_dcap in H1 as (-> & -> & ->).
    destruct (_ <? _); [done|]. cbv zeta in Hr. apply run_bind in Hr as (o & s1 & w1 & H1 & Hr). injection H1 as <- <- <-.
    apply run_bind in Hr as (z & s1 & w1 & H1 & Hr). unfold ptr_sub in H1. destruct (_ =? _); [|done]. injection H1 as <- <- <-.
    apply relocate_cost in Hr; [|lia]. cbv zeta in Hr. lia.
  Qed.
  Lemma relocate_none x w x' w' : (d_last x).2 - (d_first x).2 = 0 -> dv_relocate 0 0 x w = Ok tt x' w' -> tick w' = tick w.
  Proof.
    intros Hz Hr. apply run_bind in Hr as (o & s1 & w1 & H1 & Hr). injection H1 as <- <- <-.
    apply run_bind in Hr as (b & s1 & w1 & H1 & Hr). apply takes_allocate in H1. unfold block1 in H1. cbn in H1. cbv zeta in Hr.
    apply run_bind in Hr as (nl & s2 & w2 & H2 & Hr). apply run_try in H2. apply takes_uninit_mine in H2. apply takes_replace in Hr. lia.
  Qed.
  Lemma dev_resize_run o x A w hf r x' w' c : dev_resize_cost o (length (e_elems A)) (e_front A) (e_cap A) = Some c ->
    holds is_dev x A w hf -> dev_call o x w = Ok r x' w' -> tick w' = (tick w + c)%nat.
  Proof.
    intros Ho (_ & m & HI & _) Hr. destruct (dev_dims _ _ _ HI) as (Hs & Hf & Hc & Hfit).
    set (s := length (e_elems A)) in *. set (front := e_front A) in *. set (cap := e_cap A) in *.
    destruct o; try done; injection Ho as <-; unfold dev_call, run_dop in Hr; cbn in Hr; apply run_unit in Hr as [Hr _].
    - (* resize *)
      apply run_bind in Hr as (z & s1 & w1 & H1 & Hr). apply run_dsize in H1 as (-> & -> & ->). rewrite Hs in Hr.
      apply run_bind in Hr as (o & s1 & w1 & H1 & Hr). injection H1 as <- <- <-. destruct (_ <=? _) eqn:Hn1 in Hr.
      { replace (Nat.leb n s) with true by lia. apply run_bind in Hr as (? & s1 & w1 & H1 & Hr). apply takes_destroy in H1. apply takes_mod in Hr. lia. }
      replace (Nat.leb n s) with false by lia.
      apply run_bind in Hr as (ab & s1 & w1 & H1 & Hr). apply run_dback in H1 as (-> & -> & ->).
      destruct (_ <=? _) eqn:Hn2 in Hr.
      { replace (Z.of_nat n <=? cap) with true by lia. apply run_bind in Hr as (? & s1 & w1 & H1 & Hr). apply takes_fill_n in H1. apply takes_mod in Hr. lia. }
      apply run_bind in Hr as (af & s1 & w1 & H1 & Hr). apply run_dfront in H1 as (-> & -> & ->). rewrite Hf in Hr.
      destruct (_ <=? _) eqn:Hn3 in Hr.
      { replace (Z.of_nat n <=? cap) with true by lia.
        apply run_bind in Hr as (u2 & s2 & w2 & H2 & Hr). apply takes_uninit_fill in H2.
        apply run_bind in Hr as (u3 & s3 & w3 & H3 & Hr). apply takes_mod in H3. cbv zeta in Hr.
        apply run_bind in Hr as (u4 & s4 & w4 & H4 & Hr). apply takes_uninit_fill in H4. unfold loc_add in H4. cbn in H4.
        apply takes_mod in Hr. lia. }
      replace (Z.of_nat n <=? cap) with false by lia.
      apply run_bind in Hr as ([] & x1 & w1 & H1 & Hr). apply grow_back_cost in H1 as (Ht1 & Hz & Hb); [|lia|lia]. rewrite Hs in Ht1 Hz. rewrite Hf in Hb.
      apply run_bind in Hr as (o & s1 & w2 & H2 & Hr). injection H2 as <- <- <-.
      apply run_bind in Hr as (nl & s3 & w4 & H4 & Hr). apply takes_fill_n in H4.
      apply run_bind in Hr as (u3 & s4 & w5 & H5 & Hr). apply takes_mod in H5.
      apply run_bind in Hr as (u4 & s5 & w6 & H6 & Hr). apply takes_uninit_fill in H6. apply takes_mod in Hr. lia.
    - (* resize_front *)
      apply run_bind in Hr as (z & s1 & w1 & H1 & Hr). apply run_dsize in H1 as (-> & -> & ->). rewrite Hs in Hr.
      apply run_bind in Hr as (o & s1 & w1 & H1 & Hr). injection H1 as <- <- <-. destruct (_ <=? _) eqn:Hn1 in Hr.
      { replace (Nat.leb n s) with true by lia. apply run_bind in Hr as (? & s1 & w1 & H1 & Hr). apply takes_destroy in H1. apply takes_mod in Hr. lia. }
      replace (Nat.leb n s) with false by lia.
      apply run_bind in Hr as (af & s1 & w1 & H1 & Hr). apply run_dfront in H1 as (-> & -> & ->). rewrite Hf in Hr.
      apply run_bind in Hr as (u0 & x1 & w1 & H1 & Hr).
      assert (Z.of_nat (tick w1) = Z.of_nat (tick w) + if Z.of_nat n <=? front + Z.of_nat s then 0 else Z.of_nat s + 1) as Ht.
      { destruct (_ <? _) eqn:Hn2 in H1.
        - destruct u0. apply grow_front_cost in H1; [|lia|lia]. replace (_ <=? _) with false by lia. lia.
        - injection H1 as _ _ <-. replace (_ <=? _) with true by lia. lia. }
      apply run_bind in Hr as (o & s1 & w2 & H2 & Hr). injection H2 as <- <- <-. cbv zeta in Hr.
      apply run_bind in Hr as (? & s2 & w2 & H2 & Hr). apply takes_uninit_fill in H2. unfold loc_add in H2. cbn in H2. apply takes_mod in Hr.
      destruct (Z.leb_spec (Z.of_nat n) (front + Z.of_nat s)); lia.
    - (* resize_back *)
      apply run_bind in Hr as (z & s1 & w1 & H1 & Hr). apply run_dsize in H1 as (-> & -> & ->). rewrite Hs in Hr.
      apply run_bind in Hr as (o & s1 & w1 & H1 & Hr). injection H1 as <- <- <-. destruct (_ <=? _) eqn:Hn1 in Hr.
      { replace (Nat.leb n s) with true by lia. apply run_bind in Hr as (? & s1 & w1 & H1 & Hr). apply takes_destroy in H1. apply takes_mod in Hr. lia. }
      replace (Nat.leb n s) with false by lia.
      apply run_bind in Hr as (af & s1 & w1 & H1 & Hr). apply run_dback in H1 as (-> & -> & ->).
      apply run_bind in Hr as (u0 & x1 & w1 & H1 & Hr).
      assert (Z.of_nat (tick w1) = Z.of_nat (tick w) + if Z.of_nat n <=? cap - front then 0 else Z.of_nat s + 1) as Ht.
      { destruct (_ <? _) eqn:Hn2 in H1.
        - destruct u0. apply grow_back_cost in H1 as (H1 & _); [|lia|lia]. replace (_ <=? _) with false by lia. lia.
        - injection H1 as _ _ <-. replace (_ <=? _) with true by lia. lia. }
      apply run_bind in Hr as (o & s1 & w2 & H2 & Hr). injection H2 as <- <- <-.
      apply run_bind in Hr as (? & s2 & w2 & H2 & Hr). apply takes_fill_n in H2. apply takes_mod in Hr.
      destruct (Z.leb_spec (Z.of_nat n) (cap - front)); lia.
    - (* reserve_front *)
      apply run_bind in Hr as (ab & s1 & w1 & H1 & Hr). apply run_dback in H1 as (-> & -> & ->). destruct (_ <? _); [done|].
      apply run_bind in Hr as (z & s1 & w1 & H1 & Hr). apply run_dsize in H1 as (-> & -> & ->). rewrite Hs in Hr.
      apply run_bind in Hr as (af & s1 & w1 & H1 & Hr). apply run_dfront in H1 as (-> & -> & ->). rewrite Hf in Hr.
      destruct (_ <? _) eqn:Hn in Hr.
      + cbv zeta in Hr. apply run_bind in Hr as (o & s1 & w1 & H1 & Hr). injection H1 as <- <- <-.
        apply run_bind in Hr as (z & s1 & w1 & H1 & Hr). unfold ptr_sub in H1. destruct (_ =? _) in H1; [|done]. injection H1 as <- <- <-.
        apply relocate_cost in Hr as [Hr _]; [|lia]. replace (_ <=? _) with false by lia. lia.
      + injection Hr as _ <-. replace (_ <=? _) with true by lia. lia.
    - (* reserve_back *)
      apply run_bind in Hr as (af & s1 & w1 & H1 & Hr). apply run_dfront in H1 as (-> & -> & ->). rewrite Hf in Hr. destruct (_ <? _); [done|].
      apply run_bind in Hr as (z & s1 & w1 & H1 & Hr). apply run_dsize in H1 as (-> & -> & ->). rewrite Hs in Hr.
      apply run_bind in Hr as (ab & s1 & w1 & H1 & Hr). apply run_dback in H1 as (-> & -> & ->).
      destruct (_ <? _) eqn:Hn in Hr.
      + apply relocate_cost in Hr as [Hr _]; [|lia]. replace (_ <=? _) with false by lia. lia.
      + injection Hr as _ <-. replace (_ <=? _) with true by lia. lia.
    - (* shrink_to_fit *)
      apply run_bind in Hr as (z & s1 & w1 & H1 & Hr). apply run_dsize in H1 as (-> & -> & ->). rewrite Hs in Hr.
      apply run_bind in Hr as (z & s1 & w1 & H1 & Hr). apply run_dcap in H1 as (-> & -> & ->). rewrite Hc in Hr.
      destruct (_ <? _) eqn:Hn in Hr.
      + replace (Z.of_nat s <? cap) with true by lia. destruct (Nat.eqb s 0) eqn:H0.
        * assert (Z.of_nat s = 0) as Hz by lia. rewrite Hz in Hr. apply relocate_none in Hr; lia.
        * apply relocate_cost in Hr as [Hr _]; lia.
      + injection Hr as _ <-. replace (Z.of_nat s <? cap) with false by lia. lia.
  Qed.
End vec.
