(** * Cost of the construction of the contiguous containers *)

From iris.proofmode Require Import tactics.
From Verif Require Export InsertCost CtorSpec SmallCost CompactThms DevCost.
From Coq Require Import Lia ZifyBool.
Open Scope Z_scope.

Section blocks.
  Context `{E : Env}.
  Definition block1 (n : Z) : Z := if n =? 0 then 0 else 1.
  Lemma takes_allocate {St} a n : takes (allocate a n : M St loc) (block1 n) (block1 n).
  Proof.
    intros s w r s' w'. unfold allocate, block1. destruct (n =? 0). { intros [= <- <- <-]. lia. }
    destruct (n <? 0); [done|]. destruct (may_throw _ _); [done|]. intros [= <- <- <-]. cbn. lia.
  Qed.
  Lemma takes_check n : takes (check_size n) 0 0.
  Proof. unfold check_size. destruct (_ <? _); [apply takes_throw|apply takes_ret]. Qed.
  Lemma takes_fill_n {St} p n a : takes (uninitialized_fill_n_a p n a : M St loc) (Z.of_nat n) (Z.of_nat n).
  Proof. eapply takes_mono; [apply takes_uninit_loop|rewrite replicate_length; lia..]. Qed.

  Section storage.
    Variable st : storage.
    Variable c : Z -> Z.
    Hypothesis Hac : forall n, takes (init_acquire st n) (c n) (c n).
    Lemma takes_init_range srcs : let n := Z.of_nat (length srcs) in
      takes (init_range_ st srcs) (c n + n) (c n + n).
    Proof using Hac.
      intros n. apply takes_bind0; [apply takes_check|]. intros _. apply takes_bind; [apply Hac|]. intros _.
      apply takes_bind0; [apply takes_get|]. intros o. apply takes_try.
      eapply takes_mono; [apply (takes_bind _ _ n n 0 0)|..]; [apply takes_uninit_loop|intros; apply takes_mod|lia..].
    Qed.
    Lemma takes_init_fill k a : takes (init_fill_ st (Z.of_nat k) a) (c (Z.of_nat k) + Z.of_nat k) (c (Z.of_nat k) + Z.of_nat k).
    Proof using Hac.
      apply takes_bind0; [apply takes_check|]. intros _. apply takes_bind; [apply Hac|]. intros _.
      apply takes_bind0; [apply takes_get|]. intros o. apply takes_try. rewrite Nat2Z.id.
      eapply takes_mono; [apply (takes_bind _ _ (Z.of_nat k) (Z.of_nat k) 0 0)|..]; [apply takes_fill_n|intros; apply takes_mod|lia..].
    Qed.
    Lemma takes_ctor k : k_input k = false -> c 0 = 0 ->
      let n := Z.of_nat (length (k_elems k)) in takes (run_ctor st k) (c n + n) (c n + n).
    Proof using Hac.
      intros Hk H0 n. subst n. destruct k as [a|a m [v|]|a vs|a vs]; try done; cbn [run_ctor k_elems].
      - cbn. rewrite H0. apply takes_ret.
      - rewrite replicate_length. apply takes_init_fill.
      - rewrite replicate_length. apply takes_init_fill.
      - pose proof (takes_init_range (AVal <$> vs)) as H. by rewrite fmap_length in H.
    Qed.
  End storage.
  Lemma vec_init_takes n : takes (init_acquire vec_storage n) (block1 n) (block1 n).
  Proof.
    apply takes_bind0; [apply takes_get|]. intros o.
    eapply takes_mono; [apply (takes_bind _ _ (block1 n) (block1 n) 0 0)|..]; [apply takes_allocate|intros; apply takes_mod|lia..].
  Qed.
  Definition small1 (N : nat) (n : Z) : Z := if Z.of_nat N <? n then 1 else 0.
  Lemma small_init_takes N ib n : takes (init_acquire (small_storage N ib) n) (small1 N n) (small1 N n).
  Proof.
    unfold small1. cbn. destruct (_ <? _) eqn:Hn; [|apply takes_ret].
    apply takes_bind0; [apply takes_get|]. intros o.
    eapply takes_mono; [apply (takes_bind _ _ (block1 n) (block1 n) 0 0)|..]; [apply takes_allocate|intros; apply takes_mod|..];
      unfold block1; destruct (n =? 0) eqn:?; lia.
  Qed.
End blocks.

Section vec.
  Context `{E : Env}.
  Lemma constructed {O} (o : O) m w x u' w' : construct_obj o m tt w = Ok x u' w' -> m o w = Ok tt x w'.
  Proof. unfold construct_obj. destruct (m o w) as [[] o' w1| |]; try done. by intros [= <- <- <-]. Qed.
  Lemma run_try {St T} (m : M St T) c s w r s' w' : try_ m c s w = Ok r s' w' -> m s w = Ok r s' w'.
  Proof. unfold try_. destruct (m s w) as [| e s1 w1|]; try done. destruct (c s1 w1); done. Qed.

  Lemma vec_append_call v x A w hf p x' w' : holds is_vec x A w hf ->
    emplace_back_ vec_storage (AVal v) x w = Ok p x' w' ->
    exists r, vec_call (OEmplaceBack (XVal v)) x w = Ok r x' w'.
  Proof.
    intros Hx Hr. pose proof (vec_call_ok (OEmplaceBack (XVal v)) x A w hf Hx eq_refl) as H.
    assert (vec_call (OEmplaceBack (XVal v)) x w = (k <- ptr_sub p (v_first x');; ret (RIdx k))%prog x' w') as Hc.
    { change (as_idx (emplace_back_ vec_storage (AVal v)) x w = (k <- ptr_sub p (v_first x');; ret (RIdx k))%prog x' w').
      unfold as_idx, bind. by rewrite Hr. }
    rewrite Hc in H |- *. revert H. unfold ptr_sub, bind, ret, ub. destruct (_ =? _); [eauto|done].
  Qed.
  Lemma vec_append_push vs : forall x A w hf x' w', holds is_vec x A w hf ->
    append_loop vec_storage (AVal <$> vs) x w = Ok tt x' w' -> push_all vs x w = Ok tt x' w'.
  Proof.
    induction vs as [|v vs IH]; intros x A w hf x' w' Hx Hr; [done|]. cbn [fmap list_fmap append_loop] in Hr.
    apply run_bind in Hr as (p & x1 & w1 & H1 & Hr).
    destruct (vec_append_call v x A w hf p x1 w1 Hx H1) as (r & Hc). cbn [push_all]. unfold bind. rewrite Hc.
    pose proof (vec_call_ok (OEmplaceBack (XVal v)) x A w hf Hx eq_refl) as H. rewrite Hc in H.
    destruct H as (A1 & _ & Hx1 & _). by eapply IH.
  Qed.

  Lemma vec_ctor_cost c w hf x u w' : holds0 w hf -> build vector c tt w = Ok x u w' ->
    let n := length (k_elems c) in
    if k_input c then (tick w' <= tick w + 6 * n)%nat else tick w' = (tick w + one_block n)%nat.
  Proof.
    intros Hw Hr n. destruct (k_input c) eqn:Hk.
    - destruct c as [| | |a vs]; try done. cbn in n. apply constructed, run_try in Hr.
      pose proof (vec_ctor_safe (KDefault a) w hf Hw) as H. cbn [build vector] in H.
      cbv [construct_obj run_ctor ret] in H.
      destruct H as (A & HA & (_ & HL & _) & _).
      pose proof (vec_append_push vs _ A w hf x w' HA Hr) as Hp.
      destruct (push_all_amortised vs _ A w hf x w' HA Hp) as (A' & _ & _ & Ht). cbn in HL. rewrite HL in Ht. cbn in Ht.
      subst n. lia.
    - apply constructed in Hr. eapply (takes_ctor vec_storage block1 vec_init_takes c Hk eq_refl) in Hr.
      fold n in Hr. unfold one_block, block1 in *. destruct (_ =? 0) eqn:?; destruct (Nat.eqb n 0) eqn:?; lia.
  Qed.
End vec.

Section small.
  Context `{E : Env}.
  Context (N : nat) (HN : Z.of_nat N <= max_size).
  Notation st ib := (small_storage N ib).
  Lemma small_constructed o m u w x u' w' : construct_small N o m u w = Ok x u' w' ->
    exists w1, tick w1 = tick w /\ construct_small N o (fun _ => ret tt) u w = Ok (x.1, o x.1) tt w1 /\
      m x.1 (o x.1) w1 = Ok tt x.2 w'.
  Proof using.
    intros Hr. apply run_bind in Hr as (ib & [] & w1 & H1 & Hr). apply run_try in Hr.
    destruct (m ib (o ib) w1) as [[] o' w2| |] eqn:Hm; try done. injection Hr as <- <- <-. cbn.
    assert (tick w1 = tick w) as Ht.
    { clear -H1. unfold buffer in H1. destruct (Nat.eqb N 0); [unfold ret in H1; congruence|]. unfold enter in H1. injection H1 as _ _ <-. done. }
    exists w1. split; [done|]. split; [|done]. unfold construct_small, bind. destruct u. rewrite H1. done.
  Qed.
  Lemma small_append_call v x A w hf p x' w' : holds (is_small N) x A w hf ->
    emplace_back_ (st x.1) (AVal v) x.2 w = Ok p x' w' ->
    exists r, small_call N (OEmplaceBack (XVal v)) x w = Ok r (x.1, x') w'.
  Proof using HN.
    intros Hx Hr. pose proof (small_call_ok N HN (OEmplaceBack (XVal v)) x A w hf Hx eq_refl) as H.
    assert (run_vop (st x.1) (small_special N x.1) (OEmplaceBack (XVal v)) x.2 w = (k <- ptr_sub p (v_first x');; ret (RIdx k))%prog x' w') as Hc.
    { change (as_idx (emplace_back_ (st x.1) (AVal v)) x.2 w = (k <- ptr_sub p (v_first x');; ret (RIdx k))%prog x' w').
      unfold as_idx, bind. by rewrite Hr. }
    unfold small_call, member in H |- *. rewrite Hc in H |- *. revert H. unfold ptr_sub, bind, ret, ub. destruct (_ =? _); [eauto|done].
  Qed.
  Lemma small_append_push ib vs : forall s A w hf s' w', holds (is_small N) (ib, s) A w hf ->
    append_loop (st ib) (AVal <$> vs) s w = Ok tt s' w' -> small_push_all N vs (ib, s) w = Ok tt (ib, s') w'.
  Proof using HN.
    induction vs as [|v vs IH]; intros s A w hf s' w' Hx Hr. { by injection Hr as <- <-. }
    cbn [fmap list_fmap append_loop] in Hr.
    apply run_bind in Hr as (p & x1 & w1 & H1 & Hr).
    destruct (small_append_call v (ib, s) A w hf p x1 w1 Hx H1) as (r & Hc). cbn [small_push_all]. unfold bind. rewrite Hc.
    pose proof (small_call_ok N HN (OEmplaceBack (XVal v)) (ib, s) A w hf Hx eq_refl) as H. rewrite Hc in H.
    destruct H as (A1 & _ & Hx1 & _). by eapply IH.
  Qed.
  Lemma small_ctor_cost c w hf x u w' : holds0 w hf -> build (small_vector N) c tt w = Ok x u w' ->
    let n := length (k_elems c) in
    if k_input c then (tick w' <= tick w + 6 * n)%nat
    else tick w' = (tick w + n + if (n <=? N)%nat then 0 else 1)%nat.
  Proof using HN.
    intros Hw Hr n. apply small_constructed in Hr as (w1 & Ht1 & H1 & Hr). destruct (k_input c) eqn:Hk.
    - destruct c as [| | |a vs]; try done. cbn in n. apply run_try in Hr.
      pose proof (small_ctor_safe N HN (KDefault a) w hf Hw) as H.
      change (build (small_vector N) (KDefault a) tt w) with
        (construct_small N (fun ib => small_empty N ib a) (fun _ => ret tt) tt w) in H.
      change (k_alloc (KInput a vs)) with a in H1, Hr. rewrite H1 in H.
      destruct H as (A & HA & (_ & HL & _) & _). destruct x as [ib s]. cbn [fst snd] in *.
      pose proof (small_append_push ib vs _ A w1 hf s w' HA Hr) as Hp.
      destruct (small_push_all_amortised N HN vs _ A w1 hf _ w' HA Hp) as (A' & _ & _ & Ht). cbn in HL. rewrite HL in Ht. cbn in Ht.
      subst n. lia.
    - eapply (takes_ctor (st x.1) (small1 N) (small_init_takes N x.1) c Hk) in Hr; [|unfold small1; case_match; lia].
      fold n in Hr. unfold small1 in *. destruct (_ <? _) eqn:?; destruct (n <=? N)%nat eqn:?; lia.
  Qed.
End small.

Section static.
  Context `{E : Env}.
  Lemma static_append_cost N srcs : forall s w s' w',
    static_append N srcs s w = Ok tt s' w' -> tick w' = (tick w + length srcs)%nat.
  Proof.
    induction srcs as [|a srcs IH]; intros s w s' w' Hr; cbn [static_append length] in *. { injection Hr as <- <-. lia. }
    apply run_bind in Hr as (p & s1 & w1 & H1 & Hr). apply IH in Hr.
    apply run_bind in H1 as (b & s2 & w2 & H2 & H1). apply full_run in H2 as [-> ->].
    apply run_bind in H1 as ([] & s2 & w2 & H2 & H1). destruct (negb _) in H2; [|done]. injection H2 as <- <-.
    apply back_inplace_run in H1. lia.
  Qed.
  Lemma static_ctor_cost N c w x u w' : build (static_vector N) c tt w = Ok x u w' ->
    tick w' = (tick w + length (t_elems c))%nat.
  Proof.
    intros Hr. apply small_constructed in Hr as (w1 & Ht1 & _ & Hr). rewrite -Ht1. clear Ht1.
    assert (forall n a s w s' w', static_init_fill N (Z.of_nat n) a s w = Ok tt s' w' -> tick w' = (tick w + n)%nat) as Hfill.
    { clear. intros n a s w s' w' Hr. assert (takes (static_init_fill N (Z.of_nat n) a) (Z.of_nat n) (Z.of_nat n)) as H.
      { apply takes_bind0; [apply takes_assert; lia|]. intros _. apply takes_bind0; [apply takes_get|]. intros o. rewrite Nat2Z.id.
        eapply takes_mono; [apply (takes_bind _ _ (Z.of_nat n) (Z.of_nat n) 0 0)|..]; [apply takes_fill_n|intros; apply takes_mod|lia..]. }
      apply H in Hr. lia. }
    destruct c as [|n [v|]|vs|vs]; cbn [static_run_ctor t_elems] in *.
    - injection Hr as _ <-. cbn. lia.
    - rewrite replicate_length. by eapply Hfill.
    - rewrite replicate_length. by eapply Hfill.
    - assert (takes (static_init_range N (AVal <$> vs)) (Z.of_nat (length vs)) (Z.of_nat (length vs))) as H; [|apply H in Hr; lia].
      apply takes_bind0; [apply takes_assert; lia|]. intros _. apply takes_bind0; [apply takes_get|]. intros o.
      eapply takes_mono; [apply (takes_bind _ _ (Z.of_nat (length vs)) (Z.of_nat (length vs)) 0 0)|..];
        [eapply takes_mono; [apply takes_uninit_loop|rewrite fmap_length; lia..]|intros; apply takes_mod|lia..].
    - apply run_try in Hr. apply static_append_cost in Hr. by rewrite fmap_length in Hr.
  Qed.
End static.

Section compact.
  Context `{E : Env}.
  Lemma bounded_new_capacity_c n : bounded (new_capacity compact_storage n) 0.
  Proof.
    apply bounded_bind0; [apply bounded_size|]. intros s. apply bounded_bind0; [apply bounded_capacity|].
    intros c. destruct (calc_cap compact_storage s c n); [apply bounded_ret|apply bounded_throw].
  Qed.
  Lemma compact_back_cost a s w r s' w' : compact_emplace_back a s w = Ok r s' w' ->
    let z := (v_last s).2 - (v_first s).2 in
    Z.of_nat (tick w) + z + 1 <= Z.of_nat (tick w') <= Z.of_nat (tick w) + z + 2.
  Proof.
    intros Hr z. apply run_bind in Hr as (o & s1 & w1 & H1 & Hr). injection H1 as <- <- <-.
    apply run_bind in Hr as (k & s1 & w1 & H1 & Hr). destruct (offset_value _ _ _ _ _ _ H1) as (-> & -> & _).
    apply run_bind in Hr as (nc & s2 & w2 & H2 & Hr).
    assert (s2 = s) as ->.
    { revert H2. unfold new_capacity, size_, capacity_, bind, getS, ptr_sub, ret, ub, throw.
      repeat (destruct (_ =? _)); try done. destruct (calc_cap _ _ _ _); congruence. }
    apply (takes_bounded _ (bounded_new_capacity_c 1)) in H2.
    apply (realloc_insert_cost compact_storage bounded_acquire bounded_replace _ _ _ _ _ 1) in Hr; [|intros; apply takes_construct].
    subst z. lia.
  Qed.
  Lemma compact_append_call v x A w hf p x' w' : holds is_compact x A w hf ->
    compact_emplace_back (AVal v) x w = Ok p x' w' ->
    exists r, compact_call (OEmplaceBack (XVal v)) x w = Ok r x' w'.
  Proof.
    intros Hx Hr. pose proof (compact_call_ok (OEmplaceBack (XVal v)) x A w hf Hx eq_refl) as H.
    assert (compact_call (OEmplaceBack (XVal v)) x w = (k <- ptr_sub p (v_first x');; ret (RIdx k))%prog x' w') as Hc.
    { change (as_idx (compact_emplace_back (AVal v)) x w = (k <- ptr_sub p (v_first x');; ret (RIdx k))%prog x' w').
      unfold as_idx, bind. by rewrite Hr. }
    rewrite Hc in H |- *. revert H. unfold ptr_sub, bind, ret, ub. destruct (_ =? _); [eauto|done].
  Qed.
  (** The sum of [z + 1], [z + 2], ... *)
  Lemma compact_append_cost vs : forall x (A : vabs) w hf x' w', holds is_compact x A w hf ->
    compact_append (AVal <$> vs) x w = Ok tt x' w' ->
    let z := length (q_elems A) in let n := length vs in
    (2 * tick w + n * (2 * z + n + 1) <= 2 * tick w' <= 2 * tick w + n * (2 * z + n + 3))%nat.
  Proof.
    induction vs as [|v vs IH]; intros x A w hf x' w' Hx Hr z n. { injection Hr as <- <-. subst n. cbn. lia. }
    cbn [fmap list_fmap compact_append] in Hr.
    apply run_bind in Hr as (p & x1 & w1 & H1 & Hr). pose proof (compact_back_cost _ _ _ _ _ _ H1) as Hc. cbn zeta in Hc.
    destruct (compact_append_call v x A w hf p x1 w1 Hx H1) as (r & Hcall).
    pose proof (compact_call_ok (OEmplaceBack (XVal v)) x A w hf Hx eq_refl) as H. rewrite Hcall in H.
    destruct H as (A1 & Hx1 & _ & (v' & Hv' & _ & Hl) & _).
    destruct Hx as (_ & m & [[I1 I2 I3 I4 I5 I6 I7 I8] _] & _). rewrite I3 I2 in Hc. cbn in Hc.
    specialize (IH x1 A1 w1 hf x' w' Hx1 Hr). cbn zeta in IH. rewrite Hl app_length in IH. cbn [length] in IH.
    change (arg_rest (q_elems A) (XVal v)) with (q_elems A) in IH. clear -Hc IH.
    subst z n. cbn [length]. set (L := length (q_elems A)) in *. set (n := length vs) in *. clearbody L n.
    assert (tick w + L + 1 <= tick w1 <= tick w + L + 2)%nat by lia. nia.
  Qed.
  Lemma compact_ctor_cost c w hf x u w' : holds0 w hf -> build (compact_vector code_undo false) c tt w = Ok x u w' ->
    let n := length (k_elems c) in
    if k_input c then (n * (n + 1) <= 2 * (tick w' - tick w) <= n * (n + 3))%nat else tick w' = (tick w + one_block n)%nat.
  Proof.
    intros Hw Hr n. destruct (k_input c) eqn:Hk.
    - destruct c as [| | |a vs]; try done. cbn in n. apply constructed, run_try in Hr.
      pose proof (compact_ctor_safe (KDefault a) w hf Hw) as H. cbn [build compact_vector] in H.
      cbv [construct_obj compact_run_ctor ret] in H.
      destruct H as (A & HA & _ & HL & _).
      pose proof (compact_append_cost vs _ A w hf x w' HA Hr) as Ht. cbn in HL. rewrite HL in Ht. cbn in Ht.
      subst n. lia.
    - apply constructed in Hr.
      assert (compact_run_ctor c = run_ctor compact_storage c) as Hc by (by destruct c as [|? ? []| |]).
      rewrite Hc in Hr. eapply (takes_ctor compact_storage block1 vec_init_takes c Hk eq_refl) in Hr.
      fold n in Hr. unfold one_block, block1 in *. destruct (_ =? 0) eqn:?; destruct (Nat.eqb n 0) eqn:?; lia.
  Qed.
End compact.

Section dev.
  Context `{E : Env}.
  Lemma dev_append_call v x A w hf p x' w' : holds is_dev x A w hf ->
    dv_emplace_back false (AVal v) x w = Ok p x' w' ->
    exists r, dev_call (DEmplaceBack (XVal v)) x w = Ok r x' w'.
  Proof.
    intros Hx Hr. pose proof (dev_call_ok (DEmplaceBack (XVal v)) x A w hf Hx eq_refl) as H.
    assert (dev_call (DEmplaceBack (XVal v)) x w = (k <- ptr_sub p (d_first x');; ret (RIdx k))%prog x' w') as Hc.
    { change (d_idx (dv_emplace_back false (AVal v)) x w = (k <- ptr_sub p (d_first x');; ret (RIdx k))%prog x' w').
      unfold d_idx, bind. by rewrite Hr. }
    rewrite Hc in H |- *. revert H. unfold ptr_sub, bind, ret, ub. destruct (_ =? _); [eauto|]. intros H. by destruct H.
  Qed.
  Lemma dev_append_push vs : forall x A w hf x' w', holds is_dev x A w hf ->
    dv_append_loop false (AVal <$> vs) x w = Ok tt x' w' -> dev_push_all (pair false <$> vs) x w = Ok tt x' w'.
  Proof.
    induction vs as [|v vs IH]; intros x A w hf x' w' Hx Hr; [done|]. cbn [fmap list_fmap dv_append_loop] in Hr.
    apply run_bind in Hr as (p & x1 & w1 & H1 & Hr).
    destruct (dev_append_call v x A w hf p x1 w1 Hx H1) as (r & Hc). cbn [fmap list_fmap dev_push_all]. unfold bind. rewrite Hc.
    destruct (dev_push_state false v x A w hf r x1 w1 Hx Hc) as (A1 & Hx1 & _). by eapply IH.
  Qed.
  Lemma dev_ctor_cost c w hf x u w' : holds0 w hf -> build (devector false) c tt w = Ok x u w' ->
    let n := length (k_elems c) in
    if k_input c then (tick w' <= tick w + 10 * n)%nat else tick w' = (tick w + one_block n)%nat.
  Proof.
    intros Hw Hr n. destruct (k_input c) eqn:Hk.
    - destruct c as [| | |a vs]; try done. cbn in n. apply constructed, run_try in Hr.
      pose proof (dev_ctor_safe (KDefault a) w hf Hw) as H. cbn [build devector] in H.
      cbv [construct_obj dv_ctor ret] in H.
      destruct H as (A & HA & (_ & HL & _) & _).
      pose proof (dev_append_push vs _ A w hf x w' HA Hr) as Hp.
      destruct (dev_push_all_amortised _ _ A w hf x w' HA Hp) as (A' & _ & _ & Ht). cbn in HL. rewrite HL fmap_length in Ht. cbn in Ht.
      subst n. lia.
    - apply constructed in Hr.
      assert (takes (dv_ctor false c) (Z.of_nat (one_block n)) (Z.of_nat (one_block n))) as H; [|apply H in Hr; lia].
      assert (forall m : nat, Z.of_nat (one_block m) = block1 (Z.of_nat m) + Z.of_nat m) as Hb.
      { intros m. unfold one_block, block1. destruct (_ =? 0) eqn:?; destruct (Nat.eqb m 0) eqn:?; lia. }
      assert (forall k, takes (dv_check_size k) 0 0) as Hch.
      { intros k. unfold dv_check_size. case_match; [apply takes_throw|apply takes_ret]. }
      assert (forall m a, takes (dv_init_fill (Z.of_nat m) a) (Z.of_nat (one_block m)) (Z.of_nat (one_block m))) as Hfill.
      { intros m a. rewrite Hb. apply takes_bind0; [apply Hch|]. intros _. apply takes_bind0; [apply takes_get|]. intros o.
        apply takes_bind; [apply takes_allocate|]. intros p. apply takes_bind0; [apply takes_mod|]. intros _. apply takes_try. rewrite Nat2Z.id.
        eapply takes_mono; [apply (takes_bind _ _ (Z.of_nat m) (Z.of_nat m) 0 0)|..]; [apply takes_fill_n|intros; apply takes_mod|lia..]. }
      subst n. destruct c as [a|a m [v|]|a vs|a vs]; try done; cbn [dv_ctor k_elems].
      + apply takes_ret.
      + rewrite replicate_length. apply Hfill.
      + rewrite replicate_length. apply Hfill.
      + rewrite Hb. unfold dv_init_range. rewrite fmap_length. apply takes_bind0; [apply Hch|]. intros _. apply takes_bind0; [apply takes_get|]. intros o.
        apply takes_bind; [apply takes_allocate|]. intros p. apply takes_bind0; [apply takes_mod|]. intros _. apply takes_try.
        eapply takes_mono; [apply (takes_bind _ _ (Z.of_nat (length vs)) (Z.of_nat (length vs)) 0 0)|..];
        [eapply takes_mono; [apply takes_uninit_loop|rewrite fmap_length; lia..]|intros; apply takes_mod|lia..].
  Qed.
End dev.

(** ** Copy and move constructors *)
Section two.
  Context `{E : Env}.
  Lemma run_on1 {S1 S2 T} (m : M S1 T) (x : S1) (y : S2) w r xy w' : on1 m (x, y) w = Ok r xy w' ->
    exists x', xy = (x', y) /\ m x w = Ok r x' w'.
  Proof. unfold on1. cbn. destruct (m x w); try done. intros [= <- <- <-]. eauto. Qed.
  Lemma run_range {St} mk p q (s : St) w l s' w' : range mk p q s w = Ok l s' w' ->
    s' = s /\ w' = w /\ Z.of_nat (length l) = q.2 - p.2.
  Proof.
    unfold range, bind, range_len, ret. destruct (_ =? _); [|done]. destruct (_ <=? _) eqn:H; [|done].
    intros [= <- <- <-]. rewrite refs_length. split; [done|]. split; [done|]. lia.
  Qed.
  Lemma constructed_from {O} (o : O) m y w x y' w' : construct_from o m y w = Ok x y' w' -> m (o, y) w = Ok tt (x, y') w'.
  Proof. unfold construct_from. destruct (m (o, y) w) as [[] [o' s'] w1|e [o' s'] w1|]; try done. by intros [= <- <- <-]. Qed.
  Lemma init_list_cost st c mk p q x y w xy w' (Hac : forall n, takes (init_acquire st n) (c n) (c n)) :
    (srcs <- range mk p q;; on1 (S2 := vdata) (init_range_ st srcs))%prog (x, y) w = Ok tt xy w' ->
    Z.of_nat (tick w') = Z.of_nat (tick w) + c (q.2 - p.2) + (q.2 - p.2).
  Proof.
    intros Hr. apply run_bind in Hr as (l & xy1 & w1 & H1 & Hr). apply run_range in H1 as (-> & -> & Hl).
    apply run_on1 in Hr as (x' & -> & Hr). apply (takes_init_range st c Hac) in Hr. rewrite Hl in Hr. lia.
  Qed.
  Lemma one_block_Z n : Z.of_nat (one_block n) = block1 (Z.of_nat n) + Z.of_nat n.
  Proof. unfold one_block, block1. destruct (_ =? 0) eqn:?; destruct (Nat.eqb n 0) eqn:?; lia. Qed.

  Lemma vec_build2_cost c y B w m x y' w' : is_vec y B m -> construct_from (vec_empty 0) (vec_build2 c) y w = Ok x y' w' ->
    tick w' = (tick w + if k2_same c (q_alloc B) then 0 else one_block (length (q_elems B)))%nat.
  Proof.
    intros [I1 I2 I3 I4 I5 I6 I7 I8] Hr. apply constructed_from in Hr.
    assert ((v_last y).2 - (v_first y).2 = Z.of_nat (length (q_elems B))) as Hlen by (rewrite I3 I2; cbn; lia).
    assert (forall a xy w', vec_initialize_copy (vec_empty a, y) w = Ok tt xy w' -> tick w' = (tick w + one_block (length (q_elems B)))%nat) as Hcopy.
    { intros a xy w1 H. apply run_bind in H as (oo & s1 & w2 & H1 & H). injection H1 as <- <- <-.
      apply (init_list_cost _ block1) in H; [|apply vec_init_takes]. cbn [snd] in H. rewrite Hlen in H. pose proof (one_block_Z (length (q_elems B))). lia. }
    assert (forall a xy w', vec_initialize_move (vec_empty a, y) w = Ok tt xy w' ->
      tick w' = (tick w + if Nat.eqb a (q_alloc B) then 0 else one_block (length (q_elems B)))%nat) as Hmove.
    { intros a xy w1 H. apply run_bind in H as (oo & s1 & w2 & H1 & H). injection H1 as <- <- <-. cbn [fst snd] in H. rewrite I1 in H.
      change (v_alloc (vec_empty a)) with a in H. destruct (Nat.eqb a (q_alloc B)). { injection H as <- <-. lia. }
      apply (init_list_cost _ block1) in H; [|apply vec_init_takes]. rewrite Hlen in H. pose proof (one_block_Z (length (q_elems B))). lia. }
    destruct c; cbn [vec_build2] in Hr; apply run_bind in Hr as (oo & s1 & w2 & H1 & Hr); injection H1 as <- <- <-;
      apply run_bind in Hr as ([] & s1 & w2 & H1 & Hr); injection H1 as <- <-; cbn [k2_same snd] in *.
    - by eapply Hcopy.
    - by eapply Hcopy.
    - apply Hmove in Hr. by rewrite I1 Nat.eqb_refl in Hr.
    - by eapply Hmove.
  Qed.
  Lemma vec_ctor2_cost c y B w hf x y' w' : holds is_vec y B w hf -> build2 vector c y w = Ok x y' w' ->
    tick w' = (tick w + if k2_same c (q_alloc B) then 0 else one_block (length (q_elems B)))%nat.
  Proof. intros (_ & m & Hm & _). by eapply vec_build2_cost. Qed.
  Lemma compact_ctor2_cost c y (B : vabs) w hf x y' w' : holds is_compact y B w hf -> build2 (compact_vector code_undo false) c y w = Ok x y' w' ->
    tick w' = (tick w + if k2_same c (q_alloc B) then 0 else one_block (length (q_elems B)))%nat.
  Proof. intros (_ & m & [Hm _] & _). by eapply vec_build2_cost. Qed.

  Lemma small_constructed_from N o m y w x y' w' : construct_small_from N o m y w = Ok x y' w' ->
    exists w1, tick w1 = tick w /\ m x.1 y.1 (o x.1, y.2) w1 = Ok tt (x.2, y'.2) w'.
  Proof.
    intros Hr. apply run_bind in Hr as (ib & y1 & w1 & H1 & Hr). apply run_try in Hr.
    assert (tick w1 = tick w /\ y1 = y) as [Ht ->].
    { clear -H1. unfold buffer in H1. destruct (Nat.eqb N 0); [unfold ret in H1; by injection H1 as _ <- <-|].
      unfold enter in H1. by injection H1 as _ <- <-. }
    destruct (m ib y.1 (o ib, y.2) w1) as [[] [o1 o2] w2| |] eqn:Hm; try done. injection Hr as <- <- <-.
    exists w1. by split.
  Qed.
  Lemma static_ctor2_cost N c y (B : tabs) w hf x y' w' : holds (is_static N) y B w hf -> build2 (static_vector N) c y w = Ok x y' w' ->
    tick w' = (tick w + length B.2)%nat.
  Proof.
    intros (_ & m & [_ I2 _ _ _] & _) Hr. apply small_constructed_from in Hr as (w1 & <- & Hr).
    assert ((v_last y.2).2 - (v_first y.2).2 = Z.of_nat (length B.2)) as Hlen by (rewrite I2; cbn; lia).
    destruct c; apply run_bind in Hr as (oo & s1 & w2 & H1 & Hr); injection H1 as <- <- <-; cbn [fst snd] in Hr.
    - apply run_bind in Hr as (l & s1 & w2 & H1 & Hr). apply run_range in H1 as (-> & -> & Hl).
      apply run_bind in Hr as (nl & s1 & w2 & H1 & Hr). apply takes_uninit_loop in H1.
      destruct s1 as [s1 s2]. apply run_on1 in Hr as (x1 & _ & Hr). injection Hr as _ <-. lia.
    - apply run_bind in Hr as (nl & s1 & w2 & H1 & Hr). apply takes_uninit_move in H1.
      destruct s1 as [s1 s2]. apply run_on1 in Hr as (x1 & _ & Hr). injection Hr as _ <-. lia.
  Qed.
  (** [internal]: the elements of the source are in the object itself. *)
  Lemma small_ctor2_cost N c y (B : SmallSpec.sabs) w hf x y' w' : holds (is_small N) y B w hf -> build2 (small_vector N) c y w = Ok x y' w' ->
    let n := length (q_elems B.2) in
    tick w' = (tick w + if k2_copy c then n + (if (n <=? N)%nat then 0 else 1)
                        else if loc_eqb (q_data B.2) B.1 then n
                        else if k2_same c (q_alloc B.2) then 0 else n + (if (n <=? N)%nat then 0 else 1))%nat.
  Proof.
    intros (_ & m & [I1 I2 I3 I4 I5 I6 I7 I8 I9] & _) Hr n. apply small_constructed_from in Hr as (w1 & <- & Hr).
    assert ((v_last y.2).2 - (v_first y.2).2 = Z.of_nat n) as Hlen by (rewrite I4 I3; cbn; lia).
    assert (small1 N (Z.of_nat n) = Z.of_nat (if (n <=? N)%nat then 0 else 1)%nat) as Hone.
    { unfold small1. destruct (_ <? _) eqn:?; destruct (n <=? N)%nat eqn:?; lia. }
    assert (forall a xy w', small_initialize_copy N x.1 (small_empty N x.1 a, y.2) w1 = Ok tt xy w' ->
      tick w' = (tick w1 + (n + if (n <=? N)%nat then 0 else 1))%nat) as Hcopy.
    { intros a xy w2 H. apply run_bind in H as (oo & s1 & w3 & H1 & H). injection H1 as <- <- <-.
      apply (init_list_cost _ (small1 N)) in H; [|apply small_init_takes]. cbn [snd] in H. rewrite Hlen in H. lia. }
    assert (forall a xy w', small_initialize_move N x.1 y.1 (small_empty N x.1 a, y.2) w1 = Ok tt xy w' ->
      tick w' = (tick w1 + if loc_eqb (q_data B.2) B.1 then n
                        else if Nat.eqb a (q_alloc B.2) then 0 else n + (if (n <=? N)%nat then 0 else 1))%nat) as Hmove.
    { intros a xy w2 H. apply run_bind in H as (oo & s1 & w3 & H1 & H). injection H1 as <- <- <-. cbn [fst snd] in H.
      change (v_alloc (small_empty N x.1 a)) with a in H.
      rewrite I2 I3 I1 in H. destruct (loc_eqb (q_data B.2) B.1).
      { apply run_bind in H as (nl & s1 & w3 & H1 & H). apply takes_uninit_move in H1.
        assert (w3 = w2) as -> by (unfold on1, set_last, modS in H; cbn in H; congruence). rewrite -I3 Hlen in H1. lia. }
      destruct (Nat.eqb a (q_alloc B.2)). { injection H as <- <-. lia. }
      apply (init_list_cost _ (small1 N)) in H; [|apply small_init_takes]. rewrite -I3 Hlen in H. lia. }
    destruct c; cbn [small_build2] in Hr; apply run_bind in Hr as (oo & s1 & w2 & H1 & Hr); injection H1 as <- <- <-;
      apply run_bind in Hr as ([] & s1 & w2 & H1 & Hr); injection H1 as <- <-; cbn [k2_same k2_copy snd] in *.
    - by eapply Hcopy.
    - by eapply Hcopy.
    - apply Hmove in Hr. by rewrite I2 Nat.eqb_refl in Hr.
    - by eapply Hmove.
  Qed.

  Lemma takes_dv_init_range srcs : let n := Z.of_nat (length srcs) in takes (dv_init_range srcs) (block1 n + n) (block1 n + n).
  Proof.
    intros n. apply takes_bind0; [unfold dv_check_size; case_match; [apply takes_throw|apply takes_ret]|]. intros _.
    apply takes_bind0; [apply takes_get|]. intros o.
    apply takes_bind; [apply takes_allocate|]. intros p. apply takes_bind0; [apply takes_mod|]. intros _. apply takes_try.
    eapply takes_mono; [apply (takes_bind _ _ n n 0 0)|..]; [apply takes_uninit_loop|intros; apply takes_mod|lia..].
  Qed.
  Lemma dev_ctor2_cost c y B w hf x y' w' : holds is_dev y B w hf -> build2 (devector false) c y w = Ok x y' w' ->
    tick w' = (tick w + if k2_same c (e_alloc B) then 0 else one_block (length (e_elems B)))%nat.
  Proof.
    intros (_ & m & HI & _) Hr. apply constructed_from in Hr.
    assert ((d_last y).2 - (d_first y).2 = Z.of_nat (length (e_elems B)) /\ d_alloc y = e_alloc B) as [Hlen I1].
    { destruct HI as [H1 H2 H3 H4 _ _ _ _ _ _]. rewrite H4 H3; cbn; split; [lia|done]. }
    assert (forall mk x xy w', (srcs <- range mk (d_first y) (d_last y);; on1 (S2 := ddata) (dv_init_range srcs))%prog (x, y) w = Ok tt xy w' ->
      tick w' = (tick w + one_block (length (e_elems B)))%nat) as Hlist.
    { intros mk x0 xy w0 H. apply run_bind in H as (l & xy1 & w1 & H1 & H). apply run_range in H1 as (-> & -> & Hl).
      apply run_on1 in H as (x1 & -> & H). apply takes_dv_init_range in H. rewrite Hl Hlen in H.
      pose proof (one_block_Z (length (e_elems B))). lia. }
    assert (forall a xy w', dv_initialize_copy (dev_empty a, y) w = Ok tt xy w' -> tick w' = (tick w + one_block (length (e_elems B)))%nat) as Hcopy.
    { intros a xy w1 H. apply run_bind in H as (oo & s1 & w2 & H1 & H). injection H1 as <- <- <-. by apply Hlist in H. }
    assert (forall a xy w', dv_initialize_move (dev_empty a, y) w = Ok tt xy w' ->
      tick w' = (tick w + if Nat.eqb a (e_alloc B) then 0 else one_block (length (e_elems B)))%nat) as Hmove.
    { intros a xy w1 H. apply run_bind in H as (oo & s1 & w2 & H1 & H). injection H1 as <- <- <-. cbn [fst snd] in H. rewrite I1 in H.
      change (d_alloc (dev_empty a)) with a in H. destruct (Nat.eqb a (e_alloc B)). { injection H as <- <-. lia. }
      by apply Hlist in H. }
    destruct c; cbn [dv_ctor2] in Hr; apply run_bind in Hr as (oo & s1 & w2 & H1 & Hr); injection H1 as <- <- <-;
      apply run_bind in Hr as ([] & s1 & w2 & H1 & Hr); injection H1 as <- <-; cbn [k2_same snd] in *.
    - by eapply Hcopy.
    - by eapply Hcopy.
    - apply Hmove in Hr. by rewrite I1 Nat.eqb_refl in Hr.
    - by eapply Hmove.
  Qed.
End two.
