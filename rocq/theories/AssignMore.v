(** * Cost of assignment: input iterators, sfl::devector, copy and move assignment *)

From iris.proofmode Require Import tactics.
From Verif Require Export AssignCost.
From Coq Require Import Lia ZifyBool.
Open Scope Z_scope.

(** ** Input iterators: the old elements are assigned to, the rest is appended *)
Section input.
  Context `{E : Env}.
  (** The source is split where the loop stops; for the first part alone the loop ends in
      the same state. *)
  Lemma input_split vs : forall curr last x w c rest x1 w1,
    assign_input_loop curr last (AVal <$> vs) x w = Ok (c, rest) x1 w1 ->
    exists l1 l2, vs = l1 ++ l2 /\ rest = AVal <$> l2 /\ x1 = x /\ tick w1 = (tick w + length l1)%nat /\
      assign_input_loop curr last (AVal <$> l1) x w = Ok (c, []) x w1 /\ (l2 <> [] -> c = last).
  Proof.
    induction vs as [|v vs IH]; intros curr last x w c rest x1 w1 Hr; cbn [fmap list_fmap assign_input_loop] in Hr.
    - injection Hr as <- <- <- <-. exists [], []. cbn. split_and!; try done.
    - destruct (loc_eqb curr last) eqn:Hc.
      + injection Hr as <- <- <- <-. exists [], (v :: vs). cbn. split_and!; try done. intros _.
        unfold loc_eqb in Hc. destruct curr, last. cbn in *. f_equal; lia.
      + apply run_bind in Hr as ([] & x2 & w2 & H1 & Hr). pose proof (takes_assign _ _ _ _ _ _ _ H1) as Ht.
        destruct (still_assign _ _ _ _ _ _ _ H1) as [-> _].
        apply IH in Hr as (l1 & l2 & -> & -> & -> & Ht2 & Hl & Hlast). exists (v :: l1), l2.
        cbn [fmap list_fmap assign_input_loop length app]. rewrite Hc. split_and!; try done; [lia|].
        unfold bind. rewrite H1. exact Hl.
  Qed.
  Lemma dev_input_split vs : forall curr last x w c rest x1 w1,
    dv_assign_input_loop curr last (AVal <$> vs) x w = Ok (c, rest) x1 w1 ->
    exists l1 l2, vs = l1 ++ l2 /\ rest = AVal <$> l2 /\ x1 = x /\ tick w1 = (tick w + length l1)%nat /\
      dv_assign_input_loop curr last (AVal <$> l1) x w = Ok (c, []) x w1 /\ (l2 <> [] -> c = last).
  Proof.
    induction vs as [|v vs IH]; intros curr last x w c rest x1 w1 Hr; cbn [fmap list_fmap dv_assign_input_loop] in Hr.
    - injection Hr as <- <- <- <-. exists [], []. cbn. split_and!; try done.
    - destruct (loc_eqb curr last) eqn:Hc.
      + injection Hr as <- <- <- <-. exists [], (v :: vs). cbn. split_and!; try done. intros _.
        unfold loc_eqb in Hc. destruct curr, last. cbn in *. f_equal; lia.
      + apply run_bind in Hr as ([] & x2 & w2 & H1 & Hr). pose proof (takes_assign _ _ _ _ _ _ _ H1) as Ht.
        destruct (still_assign _ _ _ _ _ _ _ H1) as [-> _].
        apply IH in Hr as (l1 & l2 & -> & -> & -> & Ht2 & Hl & Hlast). exists (v :: l1), l2.
        cbn [fmap list_fmap dv_assign_input_loop length app]. rewrite Hc. split_and!; try done; [lia|].
        unfold bind. rewrite H1. exact Hl.
  Qed.
  Lemma loc_eqb_same (p : loc) : loc_eqb p p = true.
  Proof. unfold loc_eqb. rewrite !Z.eqb_refl. done. Qed.

  Lemma vec_input_cost vs x A w hf r x' w' : holds is_vec x A w hf -> vec_call (OAssignInput vs) x w = Ok r x' w' ->
    (tick w' <= tick w + 6 * length vs)%nat.
  Proof.
    intros Hx Hr. change (as_unit (assign_input_ vec_storage (AVal <$> vs)) x w = Ok r x' w') in Hr. apply run_unit in Hr as [Hr _].
    apply run_bind in Hr as (o & s1 & w1 & H1 & Hr). injection H1 as <- <- <-.
    apply run_bind in Hr as ([c rest] & s1 & w1 & H1 & Hr). cbn [fst snd] in Hr.
    apply input_split in H1 as (l1 & l2 & -> & -> & -> & Ht & Hl & Hc). rewrite app_length. destruct l2 as [|v l2].
    - cbn in Hr. destruct (loc_eqb _ _); [injection Hr as <- <-; cbn; lia|].
      assert (takes (destroy_a c (v_last x);; set_last c)%prog 0 0) as Hd.
      { apply takes_bind0; [apply takes_destroy|]. intros; apply takes_mod. }
      apply Hd in Hr. cbn. lia.
    - specialize (Hc ltac:(done)) as ->. set (r2 := v :: l2) in *.
      assert (vec_call (OAssignInput l1) x w = Ok RUnit x w1) as Hcall.
      { change (as_unit (assign_input_ vec_storage (AVal <$> l1)) x w = Ok RUnit x w1). unfold as_unit, assign_input_, bind, getS. rewrite Hl.
        cbn [fst snd]. rewrite loc_eqb_same. done. }
      pose proof (vec_call_ok (OAssignInput l1) x A w hf Hx eq_refl) as H. rewrite Hcall in H. destruct H as (A1 & HP & Hx1 & _).
      change (append_loop vec_storage (AVal <$> r2) x w1 = Ok tt x' w') in Hr.
      pose proof (vec_append_push r2 x A1 w1 hf x' w' Hx1 Hr) as Hp.
      destruct (push_all_amortised r2 x A1 w1 hf x' w' Hx1 Hp) as (A2 & _ & _ & Ht2).
      destruct HP as ((_ & HL) & _). rewrite HL in Ht2. lia.
  Qed.
  Lemma small_input_cost N (HN : Z.of_nat N <= max_size) vs x (A : SmallSpec.sabs) w hf r x' w' : holds (is_small N) x A w hf ->
    small_call N (OAssignInput vs) x w = Ok r x' w' -> (tick w' <= tick w + 6 * length vs)%nat.
  Proof.
    intros Hx Hr. unfold small_call in Hr. apply run_member in Hr as [Hx' Hr].
    change (as_unit (assign_input_ (small_storage N x.1) (AVal <$> vs)) x.2 w = Ok r x'.2 w') in Hr. apply run_unit in Hr as [Hr _].
    apply run_bind in Hr as (o & s1 & w1 & H1 & Hr). injection H1 as <- <- <-.
    apply run_bind in Hr as ([c rest] & s1 & w1 & H1 & Hr). cbn [fst snd] in Hr.
    apply input_split in H1 as (l1 & l2 & -> & -> & -> & Ht & Hl & Hc). rewrite app_length. destruct l2 as [|v l2].
    - cbn in Hr. destruct (loc_eqb _ _); [injection Hr as _ <-; cbn; lia|].
      assert (takes (destroy_a c (v_last x.2);; set_last c)%prog 0 0) as Hd.
      { apply takes_bind0; [apply takes_destroy|]. intros; apply takes_mod. }
      apply Hd in Hr. cbn. lia.
    - specialize (Hc ltac:(done)) as ->. set (r2 := v :: l2) in *.
      assert (small_call N (OAssignInput l1) x w = Ok RUnit x w1) as Hcall.
      { unfold small_call, member.
        change (run_vop (small_storage N x.1) (small_special N x.1) (OAssignInput l1)) with (as_unit (assign_input_ (small_storage N x.1) (AVal <$> l1))).
        unfold as_unit, assign_input_, bind, getS. rewrite Hl.
        cbn [fst snd]. rewrite loc_eqb_same. destruct x. done. }
      pose proof (small_call_ok N HN (OAssignInput l1) x A w hf Hx eq_refl) as H. rewrite Hcall in H. destruct H as (A1 & HP & Hx1 & _).
      change (append_loop (small_storage N x.1) (AVal <$> r2) x.2 w1 = Ok tt x'.2 w') in Hr.
      destruct x as [ib x]. cbn [fst snd] in *.
      pose proof (small_append_push N HN ib r2 x A1 w1 hf x'.2 w' Hx1 Hr) as Hp.
      destruct (small_push_all_amortised N HN r2 (ib, x) A1 w1 hf (ib, x'.2) w' Hx1 Hp) as (A2 & _ & _ & Ht2).
      destruct HP as (_ & (_ & HL) & _). rewrite HL in Ht2. lia.
  Qed.
  Lemma static_input_cost N vs x w r x' w' : static_call N (OAssignInput vs) x w = Ok r x' w' -> tick w' = (tick w + length vs)%nat.
  Proof.
    intros Hr. unfold static_call in Hr. apply run_member in Hr as [_ Hr].
    change (as_unit (static_assign_input N (AVal <$> vs)) x.2 w = Ok r x'.2 w') in Hr. apply run_unit in Hr as [Hr _].
    apply run_bind in Hr as (o & s1 & w1 & H1 & Hr). injection H1 as <- <- <-.
    apply run_bind in Hr as ([c rest] & s1 & w1 & H1 & Hr). cbn [fst snd] in Hr.
    apply input_split in H1 as (l1 & l2 & -> & -> & -> & Ht & Hl & Hc). rewrite app_length. destruct l2 as [|v l2].
    - cbn in Hr. destruct (loc_eqb _ _); [injection Hr as _ <-; cbn; lia|].
      assert (takes (destroy_a c (v_last x.2);; set_last c)%prog 0 0) as Hd.
      { apply takes_bind0; [apply takes_destroy|]. intros; apply takes_mod. }
      apply Hd in Hr. cbn. lia.
    - change (static_append N (AVal <$> (v :: l2)) x.2 w1 = Ok tt x'.2 w') in Hr. apply static_append_cost in Hr. rewrite fmap_length in Hr. lia.
  Qed.
  Lemma compact_input_cost vs x (A : vabs) w hf r x' w' : holds is_compact x A w hf -> compact_call (OAssignInput vs) x w = Ok r x' w' ->
    let n := length vs in (n * (n + 1) <= 2 * (tick w' - tick w) <= n * (n + 3))%nat.
  Proof.
    intros Hx Hr n. change (as_unit (compact_assign_input (AVal <$> vs)) x w = Ok r x' w') in Hr. apply run_unit in Hr as [Hr _].
    apply run_bind in Hr as ([] & x1 & w1 & H1 & Hr). pose proof (takes_compact_clear _ _ _ _ _ H1) as Ht.
    assert (compact_call OClear x w = Ok RUnit x1 w1) as Hcall.
    { change (as_unit compact_clear x w = Ok RUnit x1 w1). unfold as_unit, bind. by rewrite H1. }
    pose proof (compact_returns OClear x A w hf RUnit x1 w1 Hx eq_refl Hcall) as (A1 & Hx1 & _ & HP & _).
    pose proof (compact_append_cost vs x1 A1 w1 hf x' w' Hx1 Hr) as Hc. cbn zeta in Hc.
    destruct HP as [_ HL]. rewrite HL in Hc. cbn [length] in Hc. subst n. lia.
  Qed.
  Lemma dev_input_cost vs x A w hf r x' w' : holds is_dev x A w hf -> dev_call (DAssignInput vs) x w = Ok r x' w' ->
    (tick w' <= tick w + 10 * length vs)%nat.
  Proof.
    intros Hx Hr. change (d_unit (dv_assign_input false (AVal <$> vs)) x w = Ok r x' w') in Hr. apply run_unit in Hr as [Hr _].
    apply run_bind in Hr as (o & s1 & w1 & H1 & Hr). injection H1 as <- <- <-.
    apply run_bind in Hr as ([c rest] & s1 & w1 & H1 & Hr). cbn [fst snd] in Hr.
    apply dev_input_split in H1 as (l1 & l2 & -> & -> & -> & Ht & Hl & Hc). rewrite app_length. destruct l2 as [|v l2].
    - cbn in Hr. destruct (loc_eqb _ _); [injection Hr as <- <-; cbn; lia|].
      assert (takes (destroy_a c (d_last x);; set_last_ c)%prog 0 0) as Hd.
      { apply takes_bind0; [apply takes_destroy|]. intros; apply takes_mod. }
      apply Hd in Hr. cbn. lia.
    - specialize (Hc ltac:(done)) as ->. set (r2 := v :: l2) in *.
      assert (dev_call (DAssignInput l1) x w = Ok RUnit x w1) as Hcall.
      { change (d_unit (dv_assign_input false (AVal <$> l1)) x w = Ok RUnit x w1). unfold d_unit, dv_assign_input, bind, getS. rewrite Hl.
        cbn [fst snd]. rewrite loc_eqb_same. done. }
      destruct (dev_returns (DAssignInput l1) x A w hf RUnit x w1 Hx eq_refl Hcall) as (A1 & Hx1 & _ & (_ & HL) & _).
      change (dv_append_loop false (AVal <$> r2) x w1 = Ok tt x' w') in Hr.
      pose proof (dev_append_push r2 x A1 w1 hf x' w' Hx1 Hr) as Hp.
      destruct (dev_push_all_amortised _ x A1 w1 hf x' w' Hx1 Hp) as (A2 & _ & _ & Ht2). rewrite fmap_length HL in Ht2. lia.
  Qed.
End input.

(** ** sfl::devector *)
Section dev.
  Context `{E : Env}.
  Lemma run_dsize x w z x' w' : dv_size x w = Ok z x' w' -> x' = x /\ w' = w /\ z = (d_last x).2 - (d_first x).2.
  Proof. unfold dv_size, getS, ptr_sub, bind. destruct (_ =? _); [|done]. by intros [= <- <- <-]. Qed.
  Lemma run_dfront x w z x' w' : dv_front_room x w = Ok z x' w' -> x' = x /\ w' = w /\ z = (d_first x).2 - (d_bos x).2.
  Proof. unfold dv_front_room, getS, ptr_sub, bind. destruct (_ =? _); [|done]. by intros [= <- <- <-]. Qed.
  Lemma run_dback x w z x' w' : dv_back_room x w = Ok z x' w' -> x' = x /\ w' = w /\ z = (d_eos x).2 - (d_last x).2.
  Proof. unfold dv_back_room, getS, ptr_sub, bind. destruct (_ =? _); [|done]. by intros [= <- <- <-]. Qed.
  Lemma run_dcap x w z x' w' : dv_capacity x w = Ok z x' w' -> x' = x /\ w' = w /\ z = (d_eos x).2 - (d_bos x).2.
  Proof. unfold dv_capacity, getS, ptr_sub, bind. destruct (_ =? _); [|done]. by intros [= <- <- <-]. Qed.
  Lemma uninit_end {St} p srcs : forall q (s : St) w r s' w', uninit_loop p q srcs s w = Ok r s' w' ->
    s' = s /\ r.2 = q.2 + Z.of_nat (length srcs).
  Proof.
    induction srcs as [|a srcs IH]; intros q s w r s' w' Hr; cbn [uninit_loop] in Hr.
    { injection Hr as <- <- <-. cbn. split; [done|lia]. }
    apply run_bind in Hr as (u & s1 & w1 & H1 & Hr). apply run_try in H1. destruct (still_construct _ _ _ _ _ _ _ H1) as [-> _].
    apply IH in Hr as [-> ->]. split; [done|]. unfold loc_add. cbn. lia.
  Qed.
  Lemma relocate_cost n off x w x' w' : 0 < n -> dv_relocate n off x w = Ok tt x' w' ->
    let z := (d_last x).2 - (d_first x).2 in
    Z.of_nat (tick w') = Z.of_nat (tick w) + 1 + z /\
    (d_last x').2 - (d_first x').2 = z /\ (d_first x').2 - (d_bos x').2 = off.
  Proof.
    intros Hn Hr z. apply run_bind in Hr as (o & s1 & w1 & H1 & Hr). injection H1 as <- <- <-.
    apply run_bind in Hr as (b & s1 & w1 & H1 & Hr).
    assert (s1 = x /\ Z.of_nat (tick w1) = Z.of_nat (tick w) + 1) as [-> Ht1].
    { split; [|apply takes_allocate in H1; unfold block1 in H1; destruct (_ =? 0) eqn:?; lia].
      unfold allocate in H1. destruct (n =? 0) eqn:?; [lia|]. destruct (_ <? _); [done|]. destruct (may_throw _ _); [done|]. by injection H1. }
    cbv zeta in Hr. apply run_bind in Hr as (nl & s1 & w2 & H2 & Hr). apply run_try in H2.
    pose proof (takes_uninit_mine _ _ _ _ _ _ _ _ H2) as Ht2.
    apply run_bind in H2 as (l & s2 & w3 & H3 & H2). apply run_range in H3 as (-> & -> & Hl).
    apply uninit_end in H2 as [-> Hnl].
    pose proof (takes_replace _ _ _ _ _ _ _ _ _ Hr) as Ht3.
    apply run_bind in Hr as (o & s1 & w3 & H3 & Hr). injection H3 as <- <- <-.
    apply run_bind in Hr as (u & s1 & w3 & _ & Hr). apply run_bind in Hr as (c & s2 & w4 & _ & Hr).
    apply run_bind in Hr as (u2 & s3 & w5 & _ & Hr). injection Hr as <- <-. cbn.
    unfold loc_add in *. cbn in *. subst z. lia.
  Qed.
  (** Growing costs one allocation and a move of each element and leaves the elements
      where they are in the storage. *)
  Lemma grow_back_cost add x w x' w' : 0 < add -> 0 <= (d_eos x).2 - (d_bos x).2 -> dv_grow_back add x w = Ok tt x' w' ->
    let z := (d_last x).2 - (d_first x).2 in
    Z.of_nat (tick w') = Z.of_nat (tick w) + 1 + z /\
    (d_last x').2 - (d_first x').2 = z /\ (d_first x').2 - (d_bos x').2 = (d_first x).2 - (d_bos x).2.
  Proof.
    intros Hadd Hcap Hr z. apply run_bind in Hr as (c & s1 & w1 & H1 & Hr). apply run_dcap in H1 as (-> & -> & ->).
    destruct (_ <? _); [done|]. apply run_bind in Hr as (f & s1 & w1 & H1 & Hr). apply run_dfront in H1 as (-> & -> & ->).
    apply relocate_cost in Hr; [done|lia].
  Qed.

  Definition grown (n cap size : Z) : Z := if n <=? cap then 0 else size + 1.
  Section at_.
    Context (x : ddata) (size front cap : Z).
    Hypothesis Hs : (d_last x).2 - (d_first x).2 = size.
    Hypothesis Hf : (d_first x).2 - (d_bos x).2 = front.
    Hypothesis Hc : (d_eos x).2 - (d_bos x).2 = cap.
    Hypothesis Hfit : 0 <= front /\ 0 <= size /\ front + size <= cap.
    Lemma dev_fill_cost (n : nat) a w x' w' : dv_assign_fill (Z.of_nat n) a x w = Ok tt x' w' ->
      Z.of_nat (tick w') = Z.of_nat (tick w) + Z.of_nat n + grown (Z.of_nat n) cap size.
    Proof using Hs Hf Hc Hfit.
      intros Hr. unfold grown. apply run_bind in Hr as (z & s1 & w1 & H1 & Hr). apply run_dsize in H1 as (-> & -> & ->). rewrite Hs in Hr.
      apply run_bind in Hr as (o & s1 & w1 & H1 & Hr). injection H1 as <- <- <-. destruct (Z.of_nat n <=? size) eqn:Hn1.
      { cbv zeta in Hr. assert (Z.of_nat n <=? cap = true) as -> by lia.
        eapply (takes_then0 _ _ (Z.of_nat n)) in Hr; [lia| |].
        - eapply takes_mono; [apply takes_fill|..]; unfold loc_add; cbn; lia.
        - intros _. apply takes_bind0; [apply takes_destroy|]. intros; apply takes_mod. }
      apply run_bind in Hr as (ab & s1 & w1 & H1 & Hr). apply run_dback in H1 as (-> & -> & ->).
      destruct (_ <=? _) eqn:Hn2 in Hr.
      { replace (Z.of_nat n <=? cap) with true by lia.
        assert (takes (fill (d_first x) (d_last x) a;; nl <- uninitialized_fill_n_a (d_last x) (Z.to_nat (Z.of_nat n - size)) a;; set_last_ nl)%prog
          (Z.of_nat n) (Z.of_nat n)) as Ht; [|apply Ht in Hr; lia].
        eapply takes_mono; [eapply takes_bind; [apply takes_fill|]|..].
        - intros _. apply takes_then0; [apply takes_fill_n|intros; apply takes_mod].
        - lia.
        - lia. }
      apply run_bind in Hr as (af & s1 & w1 & H1 & Hr). apply run_dfront in H1 as (-> & -> & ->). rewrite Hf in Hr.
      destruct (_ <=? _) eqn:Hn3 in Hr.
      { replace (Z.of_nat n <=? cap) with true by lia.
        set (k := Z.of_nat n - (size + ((d_eos x).2 - (d_last x).2))) in Hr.
        apply run_bind in Hr as (u1 & s1 & w1 & H1 & Hr). apply takes_fill in H1.
        apply run_bind in Hr as (u2 & s2 & w2 & H2 & Hr). apply takes_uninit_fill in H2.
        apply run_bind in Hr as (u3 & s3 & w3 & H3 & Hr). apply takes_mod in H3. cbv zeta in Hr.
        apply run_bind in Hr as (u4 & s4 & w4 & H4 & Hr). apply takes_uninit_fill in H4. unfold loc_add in H4. cbn in H4.
        apply takes_mod in Hr. lia. }
      replace (Z.of_nat n <=? cap) with false by lia.
      apply run_bind in Hr as ([] & x1 & w1 & H1 & Hr). apply grow_back_cost in H1 as (Ht1 & Hz & Hb); [|lia|lia]. rewrite Hs in Ht1 Hz. rewrite Hf in Hb.
      apply run_bind in Hr as (o & s1 & w2 & H2 & Hr). injection H2 as <- <- <-.
      apply run_bind in Hr as (u1 & s2 & w3 & H3 & Hr). apply takes_fill in H3.
      apply run_bind in Hr as (nl & s3 & w4 & H4 & Hr). apply takes_fill_n in H4.
      apply run_bind in Hr as (u3 & s4 & w5 & H5 & Hr). apply takes_mod in H5.
      apply run_bind in Hr as (u4 & s5 & w6 & H6 & Hr). apply takes_uninit_fill in H6. apply takes_mod in Hr. lia.
    Qed.
    Lemma dev_range_cost srcs w x' w' : let n := Z.of_nat (length srcs) in dv_assign_range srcs x w = Ok tt x' w' ->
      Z.of_nat (tick w') = Z.of_nat (tick w) + n + grown n cap size.
    Proof using Hs Hf Hc Hfit.
      intros n Hr. unfold grown. unfold dv_assign_range in Hr. fold n in Hr. cbv zeta in Hr.
      apply run_bind in Hr as (z & s1 & w1 & H1 & Hr). apply run_dsize in H1 as (-> & -> & ->). rewrite Hs in Hr.
      apply run_bind in Hr as (o & s1 & w1 & H1 & Hr). injection H1 as <- <- <-. destruct (n <=? size) eqn:Hn1.
      { replace (n <=? cap) with true by lia.
        apply run_bind in Hr as (u1 & s1 & w1 & H1 & Hr). apply takes_assign_loop in H1.
        apply run_bind in Hr as (u2 & s2 & w2 & H2 & Hr). apply takes_destroy in H2. apply takes_mod in Hr. lia. }
      apply run_bind in Hr as (ab & s1 & w1 & H1 & Hr). apply run_dback in H1 as (-> & -> & ->).
      destruct (_ <=? _) eqn:Hn2 in Hr.
      { replace (n <=? cap) with true by lia.
        apply run_bind in Hr as (u1 & s1 & w1 & H1 & Hr). apply takes_assign_loop in H1.
        apply run_bind in Hr as (u2 & s2 & w2 & H2 & Hr). apply takes_uninit_loop in H2. apply takes_mod in Hr.
        rewrite take_length in H1. rewrite drop_length in H2. lia. }
      apply run_bind in Hr as (af & s1 & w1 & H1 & Hr). apply run_dfront in H1 as (-> & -> & ->). rewrite Hf in Hr.
      destruct (_ <=? _) eqn:Hn3 in Hr.
      { replace (n <=? cap) with true by lia.
        apply run_bind in Hr as (u1 & s1 & w1 & H1 & Hr). apply takes_assign_loop in H1.
        apply run_bind in Hr as (u2 & s2 & w2 & H2 & Hr). apply takes_uninit_loop in H2.
        apply run_bind in Hr as (u3 & s3 & w3 & H3 & Hr). apply takes_mod in H3.
        apply run_bind in Hr as (u4 & s4 & w4 & H4 & Hr). apply takes_uninit_loop in H4. apply takes_mod in Hr.
        rewrite take_length drop_length in H1. rewrite drop_length in H2. rewrite take_length in H4. lia. }
      replace (n <=? cap) with false by lia.
      apply run_bind in Hr as ([] & x1 & w1 & H1 & Hr). apply grow_back_cost in H1 as (Ht1 & Hz & Hb); [|lia|lia]. rewrite Hs in Ht1 Hz.
      apply run_bind in Hr as (o & s1 & w2 & H2 & Hr). injection H2 as <- <- <-.
      apply run_bind in Hr as (u1 & s2 & w3 & H3 & Hr). apply takes_assign_loop in H3.
      apply run_bind in Hr as (nl & s3 & w4 & H4 & Hr). apply takes_uninit_loop in H4.
      apply run_bind in Hr as (u3 & s4 & w5 & H5 & Hr). apply takes_mod in H5.
      apply run_bind in Hr as (u4 & s5 & w6 & H6 & Hr). apply takes_uninit_loop in H6. apply takes_mod in Hr.
      rewrite take_length drop_length in H3. rewrite drop_length in H4. rewrite take_length in H6. lia.
    Qed.
  End at_.
  Lemma dev_dims x A m : is_dev x A m ->
    (d_last x).2 - (d_first x).2 = Z.of_nat (length (e_elems A)) /\ (d_first x).2 - (d_bos x).2 = e_front A /\
    (d_eos x).2 - (d_bos x).2 = e_cap A /\ (0 <= e_front A /\ 0 <= Z.of_nat (length (e_elems A)) /\ e_front A + Z.of_nat (length (e_elems A)) <= e_cap A).
  Proof.
    intros [I1 I2 I3 I4 I5 I6 I7 _ _ _]. rewrite I2 I3 I4 I5. unfold loc_add. cbn. lia.
  Qed.
  Lemma dev_assign_cost o n x A w hf r x' w' : dev_assigns o = Some n -> holds is_dev x A w hf -> dev_call o x w = Ok r x' w' ->
    tick w' = (tick w + n + if (Z.of_nat n <=? e_cap A)%Z then 0 else length (e_elems A) + 1)%nat.
  Proof.
    intros Ho (_ & m & HI & _) Hr. destruct (dev_dims _ _ _ HI) as (H1 & H2 & H3 & H4).
    assert (Z.of_nat (tick w') = Z.of_nat (tick w) + Z.of_nat n + grown (Z.of_nat n) (e_cap A) (Z.of_nat (length (e_elems A)))) as H;
      [|unfold grown in H; destruct (_ <=? _); lia].
    destruct o; try done; injection Ho as <-.
    - change (d_unit (dv_assign_fill (Z.of_nat n0) (AVal v)) x w = Ok r x' w') in Hr. apply run_unit in Hr as [Hr _].
      by eapply dev_fill_cost.
    - change (d_unit (dv_assign_range (AVal <$> vs)) x w = Ok r x' w') in Hr. apply run_unit in Hr as [Hr _].
      eapply dev_range_cost in Hr; try done. by rewrite fmap_length in Hr.
  Qed.
End dev.

(** ** Copy and move assignment *)
Section two.
  Context `{E : Env}.
  (** The first part: the allocator is taken over. *)
  Lemma run_prefix {S} (al : S -> nat) (wa : nat -> S -> S) (Hal : forall a s, al (wa a s) = a) (pr b : bool) (reset : M S unit) a x (y : S) w xy w1 :
    takes reset 0 0 ->
    (if pr then (if b then on1 reset else ret tt);; on1 (modS (wa a)) else ret tt)%prog (x, y) w = Ok tt xy w1 ->
    exists x1, xy = (x1, y) /\ tick w1 = tick w /\ al x1 = if pr then a else al x.
  Proof.
    intros Hre Hr. destruct pr; [|injection Hr as <- <-; by exists x].
    apply run_bind in Hr as ([] & xy1 & w2 & H1 & Hr).
    assert (exists x1, xy1 = (x1, y) /\ tick w2 = tick w) as (x1 & -> & Ht).
    { destruct b; [|injection H1 as <- <-; by exists x]. apply run_on1 in H1 as (x1 & -> & H1). apply Hre in H1. exists x1. split; [done|lia]. }
    apply run_on1 in Hr as (x2 & -> & Hr). injection Hr as <- <-. eexists. split; [done|]. split; [done|]. apply Hal.
  Qed.
  Lemma vec_reset0 : takes (reset_ vec_storage 0) 0 0.
  Proof. apply takes_reset; [apply vec_release|apply vec_restock0]. Qed.

  Lemma vec_assign2_cost o x A y B w hf r xy w' : assigns2 o = true -> holds2 is_vec x A y B w hf -> vec_run2 o (x, y) w = Ok r xy w' ->
    let n := length (q_elems B) in
    if takes_over o (q_alloc A) (q_alloc B) then tick w' = tick w else (tick w + n <= tick w' <= tick w + n + 1)%nat.
  Proof.
    intros Ho (_ & m1 & m2 & [J1 _ _ _ _ _ _ _] & [I1 I2 I3 _ _ _ _ _] & _) Hr n.
    assert ((v_last y).2 - (v_first y).2 = Z.of_nat n) as Hlen by (rewrite I3 I2; cbn; lia).
    assert (forall mk x1 xy w1 w', (srcs <- range mk (v_first y) (v_last y);; on1 (assign_range_ vec_storage srcs))%prog (x1, y) w1 = Ok tt xy w' ->
      (tick w1 + n <= tick w' <= tick w1 + n + 1)%nat) as Hrange.
    { intros mk x1 xy1 w1 w2 H. apply run_bind in H as (l & s1 & w3 & H1 & H). apply run_range in H1 as (-> & -> & Hl).
      apply run_on1 in H as (x2 & -> & H). apply (takes_assign_range vec_storage vec_release (fun _ => 1) vec_restock ltac:(done)) in H. lia. }
    destruct o; try done; cbn [takes_over].
    - change (unit_result vec_assign_copy (x, y) w = Ok r xy w') in Hr. apply run_unit in Hr as [Hr _].
      apply run_bind in Hr as (oo & s1 & w1 & H1 & Hr). injection H1 as <- <- <-. cbn [fst snd] in Hr.
      apply run_bind in Hr as ([] & s1 & w1 & H1 & Hr).
      apply (run_prefix v_alloc with_alloc ltac:(done)) in H1 as (x1 & -> & Ht & _); [|apply vec_reset0]. apply Hrange in Hr. lia.
    - change (unit_result vec_assign_move (x, y) w = Ok r xy w') in Hr. apply run_unit in Hr as [Hr _].
      apply run_bind in Hr as (oo & s1 & w1 & H1 & Hr). injection H1 as <- <- <-. cbn [fst snd] in Hr.
      apply run_bind in Hr as ([] & s1 & w1 & H1 & Hr).
      apply (run_prefix v_alloc with_alloc ltac:(done)) in H1 as (x1 & -> & Ht & Ha); [|apply vec_reset0].
      apply run_bind in Hr as (oo & s1 & w2 & H1 & Hr). injection H1 as <- <- <-. cbn [fst snd] in Hr.
      assert (Nat.eqb (v_alloc x1) (v_alloc y) = pocma || Nat.eqb (q_alloc A) (q_alloc B)) as Heq.
      { rewrite Ha. destruct pocma; [rewrite Nat.eqb_refl; done|]. by rewrite J1 I1. }
      rewrite Heq in Hr. destruct (pocma || _).
      + apply run_bind in Hr as ([] & s1 & w2 & H1 & Hr). apply run_on1 in H1 as (x2 & -> & H1). apply vec_reset0 in H1.
        apply run_bind in Hr as (oo & s1 & w3 & H3 & Hr). injection H3 as <- <- <-. injection Hr as _ <-. lia.
      + apply Hrange in Hr. lia.
  Qed.
  Lemma dev_reset0 f : takes (dv_reset f 0) 0 0.
  Proof.
    apply takes_bind0; [apply takes_get|]. intros o. apply takes_bind0; [apply takes_destroy|]. intros _. apply takes_sub. intros _.
    apply takes_bind0; [apply takes_bounded, bounded_deallocate|]. intros _. apply takes_bind0; [apply takes_mod|]. intros _. apply takes_ret.
  Qed.
  Lemma compact_assign2_cost o x (A : vabs) y (B : vabs) w hf r xy w' : assigns2 o = true -> holds2 is_compact x A y B w hf ->
    compact_run2 code_undo o (x, y) w = Ok r xy w' ->
    let n := length (q_elems B) in
    if takes_over o (q_alloc A) (q_alloc B) then tick w' = tick w else (tick w + n <= tick w' <= tick w + n + 1)%nat.
  Proof.
    intros Ho (_ & m1 & m2 & [[J1 _ _ _ _ _ _ _] _] & [[I1 I2 I3 _ _ _ _ _] _] & _) Hr n.
    assert ((v_last y).2 - (v_first y).2 = Z.of_nat n) as Hlen by (rewrite I3 I2; cbn; lia).
    assert (forall srcs, let n := Z.of_nat (length srcs) in takes (compact_assign_range code_undo srcs) n (n + 1)) as Hassign.
    { intros srcs k. apply takes_bind0; [apply takes_check|]. intros _. apply takes_size_then. intros z.
      apply takes_bind0; [apply takes_get|]. intros p. case_match.
      - eapply takes_mono; [apply takes_then0; [apply takes_assign_loop|intros; apply takes_ret]|lia..].
      - apply takes_bind0; [apply takes_compact_clear|]. intros _. eapply takes_mono; [eapply takes_bind; [apply takes_allocate|]|..].
        + intros q. apply takes_bind0; [apply takes_mod|]. intros _. apply takes_try. apply takes_then0; [apply takes_uninit_loop|intros; apply takes_mod].
        + unfold block1. fold k. case_match; lia.
        + unfold block1. fold k. case_match; lia. }
    assert (forall mk x1 xy w1 w', (srcs <- range mk (v_first y) (v_last y);; on1 (compact_assign_range code_undo srcs))%prog (x1, y) w1 = Ok tt xy w' ->
      (tick w1 + n <= tick w' <= tick w1 + n + 1)%nat) as Hrange.
    { intros mk x1 xy1 w1 w2 H. apply run_bind in H as (l & s1 & w3 & H1 & H). apply run_range in H1 as (-> & -> & Hl).
      apply run_on1 in H as (x2 & -> & H). apply Hassign in H. lia. }
    destruct o; try done; cbn [takes_over].
    - change (unit_result (compact_assign_copy code_undo) (x, y) w = Ok r xy w') in Hr. apply run_unit in Hr as [Hr _].
      apply run_bind in Hr as (oo & s1 & w1 & H1 & Hr). injection H1 as <- <- <-. cbn [fst snd] in Hr.
      apply run_bind in Hr as ([] & s1 & w1 & H1 & Hr).
      apply (run_prefix v_alloc with_alloc ltac:(done)) in H1 as (x1 & -> & Ht & _); [|apply takes_compact_clear]. apply Hrange in Hr. lia.
    - change (unit_result (compact_assign_move code_undo) (x, y) w = Ok r xy w') in Hr. apply run_unit in Hr as [Hr _].
      apply run_bind in Hr as (oo & s1 & w1 & H1 & Hr). injection H1 as <- <- <-. cbn [fst snd] in Hr.
      apply run_bind in Hr as ([] & s1 & w1 & H1 & Hr).
      apply (run_prefix v_alloc with_alloc ltac:(done)) in H1 as (x1 & -> & Ht & Ha); [|apply takes_compact_clear].
      apply run_bind in Hr as (oo & s1 & w2 & H1 & Hr). injection H1 as <- <- <-. cbn [fst snd] in Hr.
      assert (Nat.eqb (v_alloc x1) (v_alloc y) = pocma || Nat.eqb (q_alloc A) (q_alloc B)) as Heq.
      { rewrite Ha. destruct pocma; [rewrite Nat.eqb_refl; done|]. by rewrite J1 I1. }
      rewrite Heq in Hr. destruct (pocma || _).
      + apply run_bind in Hr as ([] & s1 & w2 & H1 & Hr). apply run_on1 in H1 as (x2 & -> & H1). apply takes_compact_clear in H1.
        apply run_bind in Hr as (oo & s1 & w3 & H3 & Hr). injection H3 as <- <- <-. injection Hr as _ <-. lia.
      + apply Hrange in Hr. lia.
  Qed.
  Lemma run_member2 {T} (m : loc -> loc -> M (vdata * vdata) T) x y w r xy w' : member2 m (x, y) w = Ok r xy w' ->
    exists o, m x.1 y.1 (x.2, y.2) w = Ok r o w'.
  Proof. unfold member2. cbn [fst snd]. destruct (m x.1 y.1 (x.2, y.2) w); try done. intros [= <- <- <-]. eauto. Qed.
  Lemma static_assign2_cost N o x (A : tabs) y (B : tabs) w hf r xy w' : assigns2 o = true -> holds2 (is_static N) x A y B w hf ->
    static_run2 N o (x, y) w = Ok r xy w' -> tick w' = (tick w + length B.2)%nat.
  Proof.
    intros Ho (_ & m1 & m2 & _ & HI & _) Hr.
    assert ((v_last y.2).2 - (v_first y.2).2 = Z.of_nat (length B.2)) as Hlen.
    { destruct HI as [I1 I2 _ _ _]. rewrite I2. cbn. lia. }
    assert (forall mk x1 xy w1 w', (srcs <- range mk (v_first y.2) (v_last y.2);; on1 (static_assign_range N srcs))%prog (x1, y.2) w1 = Ok tt xy w' ->
      tick w' = (tick w1 + length B.2)%nat) as Hrange.
    { intros mk x1 xy1 w1 w2 H. apply run_bind in H as (l & s1 & w3 & H1 & H). apply run_range in H1 as (-> & -> & Hl).
      apply run_on1 in H as (x2 & -> & H). apply run_bind in H as ([] & s1 & w3 & H1 & H). unfold assert_ in H1. destruct (_ <=? _); [|done].
      injection H1 as <- <-. apply takes_range_inplace in H. lia. }
    destruct o; try done.
    - change (unit_result (member2 (fun _ _ => static_assign_copy N)) (x, y) w = Ok r xy w') in Hr. apply run_unit in Hr as [Hr _].
      apply run_member2 in Hr as (oo & Hr). apply run_bind in Hr as (o & s1 & w1 & H1 & Hr). injection H1 as <- <- <-. by apply Hrange in Hr.
    - change (unit_result (member2 (fun _ _ => static_assign_move N)) (x, y) w = Ok r xy w') in Hr. apply run_unit in Hr as [Hr _].
      apply run_member2 in Hr as (oo & Hr). apply run_bind in Hr as (o & s1 & w1 & H1 & Hr). injection H1 as <- <- <-. by apply Hrange in Hr.
  Qed.
  Lemma small_resetN N ib : takes (reset_ (small_storage N ib) (Z.of_nat N)) 0 0.
  Proof. apply takes_reset; [apply small_release|apply small_restockN]. Qed.
  (** The elements of [B] are in the internal storage. *)
  Lemma small_assign2_cost N o x (A : SmallSpec.sabs) y (B : SmallSpec.sabs) w hf r xy w' : assigns2 o = true -> holds2 (is_small N) x A y B w hf ->
    small_run2 N o (x, y) w = Ok r xy w' ->
    let n := length (q_elems B.2) in
    if takes_over o (q_alloc A.2) (q_alloc B.2) && negb (loc_eqb (q_data B.2) B.1) then tick w' = tick w
    else (tick w + n <= tick w' <= tick w + n + if (n <=? N)%nat then 0 else 1)%nat.
  Proof.
    intros Ho (_ & m1 & m2 & JI & HI & _) Hr n.
    pose proof (is_alloc _ _ _ _ JI) as J1. pose proof (is_alloc _ _ _ _ HI) as I1. pose proof (is_buf _ _ _ _ HI) as I0.
    pose proof (is_first _ _ _ _ HI) as I2. pose proof (is_last _ _ _ _ HI) as I3.
    assert ((v_last y.2).2 - (v_first y.2).2 = Z.of_nat n) as Hlen by (rewrite I3 I2; cbn; lia).
    assert (forall mk x1 xy w1 w', (srcs <- range mk (v_first y.2) (v_last y.2);; on1 (assign_range_ (small_storage N x.1) srcs))%prog (x1, y.2) w1 = Ok tt xy w' ->
      (tick w1 + n <= tick w' <= tick w1 + n + if (n <=? N)%nat then 0 else 1)%nat) as Hrange.
    { intros mk x1 xy1 w1 w2 H. apply run_bind in H as (l & s1 & w3 & H1 & H). apply run_range in H1 as (-> & -> & Hl).
      apply run_on1 in H as (x2 & -> & H).
      apply (takes_assign_range (small_storage N x.1) (small_release N x.1) (over N) (small_restock N x.1) (over_nonneg N)) in H.
      unfold over in H. destruct (_ <? _) eqn:?, (n <=? N)%nat eqn:?; lia. }
    destruct o; try done; cbn [takes_over].
    - change (unit_result (member2 (small_assign_copy N)) (x, y) w = Ok r xy w') in Hr. apply run_unit in Hr as [Hr _].
      apply run_member2 in Hr as (oxy & Hr).
      apply run_bind in Hr as (oo & s1 & w1 & H1 & Hr). injection H1 as <- <- <-. cbn [fst snd] in Hr.
      apply run_bind in Hr as ([] & s1 & w1 & H1 & Hr).
      apply (run_prefix v_alloc with_alloc ltac:(done)) in H1 as (x1 & -> & Ht & _); [|apply small_resetN]. apply Hrange in Hr. cbn [andb]. lia.
    - change (unit_result (member2 (small_assign_move N)) (x, y) w = Ok r xy w') in Hr. apply run_unit in Hr as [Hr _].
      apply run_member2 in Hr as (oxy & Hr).
      apply run_bind in Hr as (oo & s1 & w1 & H1 & Hr). injection H1 as <- <- <-. cbn [fst snd] in Hr.
      apply run_bind in Hr as ([] & s1 & w1 & H1 & Hr).
      apply (run_prefix v_alloc with_alloc ltac:(done)) in H1 as (x1 & -> & Ht & Ha); [|apply small_resetN].
      apply run_bind in Hr as (oo & s1 & w2 & H1 & Hr). injection H1 as <- <- <-. cbn [fst snd] in Hr.
      assert (Nat.eqb (v_alloc x1) (v_alloc y.2) = pocma || Nat.eqb (q_alloc A.2) (q_alloc B.2)) as Heq.
      { rewrite Ha. destruct pocma; [rewrite Nat.eqb_refl; done|]. by rewrite J1 I1. }
      rewrite Heq in Hr. rewrite -I2 -I0. destruct (loc_eqb (v_first y.2) y.1) eqn:Hin; cbn [negb].
      { rewrite andb_false_r. apply Hrange in Hr. lia. }
      rewrite andb_true_r. destruct (pocma || _).
      + apply run_bind in Hr as ([] & s1 & w2 & H1 & Hr). apply run_on1 in H1 as (x2 & -> & H1). apply small_resetN in H1.
        apply run_bind in Hr as (oo & s1 & w3 & H3 & Hr). injection H3 as <- <- <-. injection Hr as _ <-. lia.
      + apply Hrange in Hr. lia.
  Qed.
  Lemma reset_dims f x w x' w' : dv_reset f 0 x w = Ok tt x' w' -> d_bos x' = null /\ d_first x' = null /\ d_last x' = null /\ d_eos x' = null.
  Proof.
    intros Hr. apply run_bind in Hr as (o & s1 & w1 & _ & Hr). apply run_bind in Hr as (u1 & s2 & w2 & _ & Hr).
    apply run_bind in Hr as (c & s3 & w3 & _ & Hr). apply run_bind in Hr as (u2 & s4 & w4 & _ & Hr).
    apply run_bind in Hr as (u3 & s5 & w5 & H5 & Hr). injection H5 as <- <-. injection Hr as <- <-. done.
  Qed.
  Lemma dev_assign2_cost o x A y B w hf r xy w' : assigns2 o = true -> holds2 is_dev x A y B w hf -> dv_run2 false o (x, y) w = Ok r xy w' ->
    let n := length (e_elems B) in
    if takes_over o (e_alloc A) (e_alloc B) then tick w' = tick w else (tick w + n <= tick w' <= tick w + 2 * n + 1)%nat.
  Proof.
    intros Ho (_ & m1 & m2 & JI & HI & _) Hr n. pose proof (id_alloc _ _ _ JI) as J1. pose proof (id_alloc _ _ _ HI) as I1.
    destruct (dev_dims _ _ _ HI) as (Hlen & _). destruct (dev_dims _ _ _ JI) as (K1 & K2 & K3 & K4).
    set (sized := fun x1 : ddata => (d_last x1).2 - (d_first x1).2 = Z.of_nat (length (e_elems A)) /\ (d_first x1).2 - (d_bos x1).2 = e_front A /\
      (d_eos x1).2 - (d_bos x1).2 = e_cap A \/ (d_last x1).2 - (d_first x1).2 = 0 /\ (d_first x1).2 - (d_bos x1).2 = 0 /\ (d_eos x1).2 - (d_bos x1).2 = 0).
    assert (forall mk x1 xy w1 w', sized x1 -> (srcs <- range mk (d_first y) (d_last y);; on1 (dv_assign_range srcs))%prog (x1, y) w1 = Ok tt xy w' ->
      (tick w1 + n <= tick w' <= tick w1 + 2 * n + 1)%nat) as Hrange.
    { intros mk x1 xy1 w1 w2 Hx1 H. apply run_bind in H as (l & s1 & w3 & H1 & H). apply run_range in H1 as (-> & -> & Hl).
      apply run_on1 in H as (x2 & -> & H). destruct Hx1 as [(L1 & L2 & L3)|(L1 & L2 & L3)].
      - apply (dev_range_cost x1 _ _ _ L1 L2 L3 K4) in H. unfold grown in H. destruct (_ <=? _) eqn:?; lia.
      - apply (dev_range_cost x1 _ _ _ L1 L2 L3 ltac:(lia)) in H. unfold grown in H. destruct (_ <=? _) eqn:?; lia. }
    assert (forall (pr b : bool) a xy w1, (if pr then (if b then on1 (dv_reset false 0) else ret tt);; on1 (modS (dev_alloc a)) else ret tt)%prog (x, y) w = Ok tt xy w1 ->
      exists x1, xy = (x1, y) /\ tick w1 = tick w /\ (d_alloc x1 = if pr then a else d_alloc x) /\ sized x1) as Hpre.
    { intros pr b a xy1 w1 H. destruct pr; [|injection H as <- <-; exists x; by split_and!; try (left; split_and!)].
      apply run_bind in H as ([] & xy2 & w2 & H1 & H).
      assert (exists x1, xy2 = (x1, y) /\ tick w2 = tick w /\ sized x1) as (x1 & -> & Ht & Hx1).
      { destruct b; [|injection H1 as <- <-; exists x; by split_and!; try (left; split_and!)].
        apply run_on1 in H1 as (x1 & -> & H1). exists x1. split; [done|]. split; [apply dev_reset0 in H1; lia|].
        apply reset_dims in H1 as (M1 & M2 & M3 & M4). right. rewrite M1 M2 M3 M4. cbn. lia. }
      apply run_on1 in H as (x2 & -> & H). injection H as <- <-. eexists. split; [done|]. split; [done|]. split; [done|exact Hx1]. }
    destruct o; try done; cbn [takes_over].
    - change (unit_result (dv_assign_copy false) (x, y) w = Ok r xy w') in Hr. apply run_unit in Hr as [Hr _].
      apply run_bind in Hr as (oo & s1 & w1 & H1 & Hr). injection H1 as <- <- <-. cbn [fst snd] in Hr.
      apply run_bind in Hr as ([] & s1 & w1 & H1 & Hr). apply Hpre in H1 as (x1 & -> & Ht & _ & Hx1). apply Hrange in Hr; [lia|done].
    - change (unit_result (dv_assign_move false) (x, y) w = Ok r xy w') in Hr. apply run_unit in Hr as [Hr _].
      apply run_bind in Hr as (oo & s1 & w1 & H1 & Hr). injection H1 as <- <- <-. cbn [fst snd] in Hr.
      apply run_bind in Hr as ([] & s1 & w1 & H1 & Hr). apply Hpre in H1 as (x1 & -> & Ht & Ha & Hx1).
      apply run_bind in Hr as (oo & s1 & w2 & H1 & Hr). injection H1 as <- <- <-. cbn [fst snd] in Hr.
      assert (Nat.eqb (d_alloc x1) (d_alloc y) = pocma || Nat.eqb (e_alloc A) (e_alloc B)) as Heq.
      { rewrite Ha. destruct pocma; [rewrite Nat.eqb_refl; done|]. by rewrite J1 I1. }
      rewrite Heq in Hr. destruct (pocma || _).
      + apply run_bind in Hr as ([] & s1 & w2 & H1 & Hr). apply run_on1 in H1 as (x2 & -> & H1). apply dev_reset0 in H1.
        apply run_bind in Hr as (oo & s1 & w3 & H3 & Hr). injection H3 as <- <- <-. injection Hr as _ <-. lia.
      + apply Hrange in Hr; [lia|done].
  Qed.
End two.
