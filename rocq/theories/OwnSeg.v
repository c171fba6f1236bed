(** * Segmented containers: [assign(n, value)] with an element of the container *)

From Coq Require Import ZifyBool.
From Verif Require Export OwnRun SegThms SegDevThms.
From iris.proofmode Require Import environments tactics.
Open Scope Z_scope.
Notation frame := SegGrow.frame.
Notation fill := Algo.fill.

Section segmented.
  Context `{E : Env} `{SZ : SegSize}.
  Implicit Types segs new : list loc.
  Implicit Types T : tab.

  Lemma wp_win_assign_own {St} addr lo hi d q f v (s : St) Q X :
    lo <= d < hi -> lo <= q < hi -> live f d = true -> f q = Some v ->
    win addr lo hi f ⊢
    ((win addr lo hi (upd f d (Some v)) -∗ Q tt s) ∧ (∀ c, win addr lo hi (upd f d (Some c)) -∗ X EUser s)) -∗
    wp (assign (addr d) (ACopy (addr q))) s Q X.
  Proof.
    iIntros (Hd Hq Hl Hv) "Hw HK".
    assert (forall i o, f i = o -> win addr lo hi (upd f i o) ⊢ win addr lo hi f) as Hid.
    { intros i o <-. iIntros "Hw". iApply (win_eq with "Hw"). intros j _. unfold upd. by destruct (Z.eqb_spec j i) as [->|]. }
    unfold live in Hl. destruct (f d) as [x|] eqn:Hx; [|done]. unfold assign.
    iDestruct (win_acc1 _ _ _ d with "Hw") as "[Hd Hcl]"; [done|]. rewrite Hx. simpl. wbind.
    iApply (wp_read with "Hd"). iIntros "Hd". wbeta. iSpecialize ("Hcl" $! (Some x) with "Hd"). rewrite (Hid _ _ Hx).
    iDestruct (win_acc1 _ _ _ q with "Hcl") as "[Hq Hcl]"; [done|]. rewrite Hv. simpl. wbind.
    iApply (wp_read with "Hq"). iIntros "Hq". wbeta. iSpecialize ("Hcl" $! (Some v) with "Hq"). rewrite (Hid _ _ Hv).
    iDestruct (win_acc1 _ _ _ d with "Hcl") as "[Hd Hcl]"; [done|]. rewrite Hx. simpl.
    iApply wp_oracle_case; [done|]. iSplit.
    - iIntros (t) "_". iApply (wp_write with "Hd"). iIntros "Hd".
      iDestruct "HK" as "[_ HK]". iApply "HK". by iApply "Hcl".
    - iApply (wp_write with "Hd"). iIntros "Hd".
      iDestruct "HK" as "[HK _]". iApply "HK". by iApply "Hcl".
  Qed.

  Lemma wp_win_assigns_own {St} addr lo hi d q f v (m : nat) p (s : St) Q X :
    contig addr d (d + Z.of_nat m) p -> lo <= d -> d + Z.of_nat m <= hi -> lo <= q < hi ->
    (forall i, d <= i < d + Z.of_nat m -> live f i = true) -> f q = Some v ->
    win addr lo hi f ⊢
    ((∀ f', ⟦stored d (replicate m v) f f' /\ f' q = Some v⟧ -∗ win addr lo hi f' -∗ Q (p +ₗ Z.of_nat m) s) ∧
     (∀ f', ⟦shaken f f' /\ m <> O⟧ -∗ win addr lo hi f' -∗ X EUser s)) -∗
    wp (assign_loop p (replicate m (ACopy (addr q)))) s Q X.
  Proof.
    induction m as [|m IH] in d, p, f |- *; intros Hc H1 H2 Hq Hl Hv; simpl.
    { iIntros "Hw HK". iApply wp_ret. iDestruct "HK" as "[HK _]". change (Z.of_nat 0) with 0. rewrite loc_add_0.
      iApply ("HK" with "[%] Hw"). split; [apply stored_nil|done]. }
    iIntros "Hw HK". wbind.
    assert (p = addr d) as ->. { rewrite (Hc d); [|lia]. by rewrite Z.sub_diag loc_add_0. }
    assert (forall c, shaken f (upd f d (Some c))) as Hsh.
    { intros c i. unfold live, upd. destruct (Z.eqb_spec i d) as [->|]; [|done]. fold (live f d). rewrite Hl; [done|lia]. }
    iApply (wp_win_assign_own with "Hw"); [lia|done|apply Hl; lia|done|]. iSplit.
    - iIntros "Hw". wbeta.
      iApply (IH (d + 1) (upd f d (Some v)) (addr d +ₗ 1) with "Hw").
      + pose proof (contig_sub _ _ _ _ (d + 1) (d + 1 + Z.of_nat m) Hc ltac:(lia) ltac:(lia)) as H.
        by replace (d + 1 - d) with 1 in H by lia.
      + lia.
      + lia.
      + done.
      + intros i Hi. rewrite Hsh. apply Hl. lia.
      + unfold upd. by destruct (q =? d).
      + iSplit.
        * iIntros (f') "%Hf Hw". destruct Hf as [Hf Hfq]. iDestruct "HK" as "[HK _]".
          rewrite loc_add_assoc. replace (1 + Z.of_nat m) with (Z.of_nat (S m)) by lia.
          iApply ("HK" with "[%] Hw"). split; [|done]. change (v :: replicate m v) with ([v] ++ replicate m v).
          eapply stored_app; [|done]. split.
          -- intros i Hi. simpl in Hi. assert (i = d) as -> by lia. unfold upd. by rewrite Z.eqb_refl Z.sub_diag.
          -- intros i Hi. simpl in Hi. unfold upd. destruct (Z.eqb_spec i d); [lia|done].
          -- intros i. rewrite Hsh. unfold within. simpl. destruct (live f i) eqn:Hli; [done|]. simpl.
             destruct (decide (i = d)) as [->|]; [rewrite Hl in Hli; [done|lia]|lia].
        * iIntros (f') "%Hf Hw". destruct Hf as [Hf _]. iDestruct "HK" as "[_ HK]". iApply ("HK" with "[%] Hw").
          split; [|done]. by eapply shaken_trans.
    - iIntros (c) "Hw". iDestruct "HK" as "[_ HK]". iApply ("HK" with "[%] Hw"). done.
  Qed.

  (** private.hpp 1177-1225 [fill]. *)
  Lemma wp_s_fill_own {St} t segs a b q f v (s : St) Q X :
    0 <= a -> a <= b -> b < slots segs -> 0 <= q < slots segs ->
    (forall i, a <= i < b -> live f i = true) -> f q = Some v ->
    swin t segs f ⊢
    ((∀ f', ⟦stored a (replicate (Z.to_nat (b - a)) v) f f'⟧ -∗ swin t segs f' -∗ Q tt s) ∧
     (∀ f', ⟦shaken f f' /\ a < b⟧ -∗ swin t segs f' -∗ X EUser s)) -∗
    wp (s_fill (sitr t segs a) (sitr t segs b) (ACopy (saddr segs q))) s Q X.
  Proof.
    intros Ha Hab Hb Hq Hl Hv. iIntros "[Ht Hw] HK".
    iAssert (table t segs ∗ ∃ f', ⟦stored a (replicate (Z.to_nat (a - a)) v) f f' /\ f' q = Some v⟧ ∗
       win (saddr segs) 0 (slots segs) f')%I with "[Ht Hw]" as "H".
    { iFrame "Ht". iExists f. rewrite Z.sub_diag. iFrame. iPureIntro. split; [apply stored_nil|done]. }
    iApply (wp_use with "H").
    { apply (wp_seg_each (fun p p' => fill p p' (ACopy (saddr segs q))) (fun _ => ret tt) t segs a b
        (fun y => ∃ f', ⟦stored a (replicate (Z.to_nat (y - a)) v) f f' /\ f' q = Some v⟧ ∗ win (saddr segs) 0 (slots segs) f')%I
        (fun _ => ∃ f', ⟦shaken f f' /\ a < b⟧ ∗ win (saddr segs) 0 (slots segs) f')%I
        (∃ f', ⟦shaken f f' /\ a < b⟧ ∗ win (saddr segs) 0 (slots segs) f')%I s); [| |done..].
      - intros y z p Hy Hyz Hz Hc. iIntros "[Ht HI]". iDestruct "HI" as (f1) "([%Hf %Hfq] & Hw)".
        assert (forall i, y <= i < z -> live f1 i = true) as Hl1.
        { intros i Hi. rewrite (st_live _ _ _ _ Hf) Hl; [done|lia]. }
        unfold Algo.fill. wbind. iApply wp_range_len; [done|simpl; lia|]. simpl. wbeta.
        set (c := Z.to_nat (p.2 + (z - y) - p.2)). assert (z = y + Z.of_nat c) as Hz2 by lia.
        clearbody c. subst z. wbind.
        iApply (wp_win_assigns_own _ _ _ y q f1 v c with "Hw"); [done|lia|lia|done|done|done|].
        iSplit.
        + iIntros (f2) "%Hf2 Hw". destruct Hf2 as [Hf2 Hfq2]. wbeta. iApply wp_ret. iSplit; [done|]. iFrame "Ht". iExists f2.
          iFrame. iPureIntro. split; [|done]. replace (Z.to_nat (y + Z.of_nat c - a)) with (Z.to_nat (y - a) + c)%nat by lia.
          rewrite replicate_add. eapply stored_app; [done|]. rewrite replicate_length.
          by replace (a + Z.of_nat (Z.to_nat (y - a))) with y by lia.
        + iIntros (f2) "%Hf2 Hw". destruct Hf2 as [Hf2 Hne]. iSplit; [done|]. iFrame "Ht". iExists f2. iFrame.
          iPureIntro. destruct c; [done|]. split; [|lia]. eapply shaken_trans; [|done].
          eapply stored_shaken; [done|]. rewrite replicate_length. intros i Hi. apply Hl. lia.
      - intros k _ _ _ _. iIntros "H". iApply wp_ret. by iFrame. }
    iSplit.
    - iIntros ([]) "[Ht H]". iDestruct "H" as (f') "([%Hf _] & Hw)". iDestruct "HK" as "[HK _]".
      iApply ("HK" with "[%] [$Ht $Hw]"). done.
    - iIntros "[Ht H]". iDestruct "H" as (f') "(%Hf & Hw)". iDestruct "HK" as "[_ HK]".
      iApply ("HK" with "[%] [$Ht $Hw]"). done.
  Qed.

  Lemma saddr_grow segs new k : 0 <= k < slots segs -> saddr (segs ++ new) k = saddr segs k.
  Proof. apply saddr_app_l. Qed.
  Lemma sconst_own segs p (i k : nat) v :
    (i < k)%nat -> sconst segs p (replicate k v) (ACopy (saddr segs (p + Z.of_nat i))) v.
  Proof. intros Hi. split; [|by intros []]. constructor. apply lookup_replicate. done. Qed.

  Ltac sover Hf :=
    match type of Hf with stored ?p ?vs (at_pos _ ?l) ?f =>
      let H1 := fresh in let H2 := fresh in
      assert (zlen vs <= zlen l) as H1 by (len; lia);
      pose proof (stored_over p l vs f H1 Hf) as H2; clear Hf H1; rename H2 into Hf end.

  (** v 1239-1286 [assign_fill_n]. *)
  Lemma back_sv_assign_fill_own T segs l (i : nat) (n : nat) v :
    l !! i = Some v ->
    back_op T segs 0 l (Z.of_nat n - (slots segs - 1)) (sv_assign_fill (Z.of_nat n) (ACopy (saddr segs (0 + Z.of_nat i))))
      (replicate n v) (fun _ _ => tt) (fun l' => length l' = length l).
  Proof.
    intros Hi Q X. pose proof (lookup_lt_Some _ _ _ Hi) as Hlt0. sopen. unfold sv_assign_fill.
    wbind. iApply (wp_sq_size with "Hw"); [lia..|]. iIntros "Hw". wbeta. sstep. sstep.
    destruct (Z.leb_spec (Z.of_nat n) (zlen l)) as [Hle|Hlt].
    - sstep. sstep. sstep. iApply (wp_s_fill_own with "Hw"); [lia|lia|lia|lia| | |].
      { intros k Hk. slive. lia. }
      { by rewrite at_pos_elem. }
      iSplit.
      2:{ iIntros (f') "%Hf Hw". iApply (shaken_at _ _ _ _ _ (fun l' => length l' = length l) with "Hf Hw"); [apply Hf|lia|lia|done|].
          iIntros (l') "%Hl' Hs". iDestruct "HK" as "[_ HK]". iSpecialize ("HK" $! EUser T [] l' with "[%]").
          { split; [done|]. right. split; [done|]. split; [by left|done]. }
          rewrite app_nil_r. by iApply "HK". }
      iIntros (f') "%Hf Hw". wbeta. replace (Z.to_nat (0 + Z.of_nat n - 0)) with n in Hf by lia.
      sover Hf.
      replace (length (replicate n v)) with n in Hf by (by rewrite replicate_length).
      iDestruct (swin_eq _ _ _ _ Hf with "Hw") as "Hw".
      replace (sobj T segs 0 (zlen l)) with (sobj T segs 0 (zlen (replicate n v ++ drop n l))) by (f_equal; len; lia).
      skeep (keep_cut_back T segs 0 (replicate n v ++ drop n l) n); [len; lia|done| |].
      + iIntros "Hs". iDestruct "HK" as "[HK _]". rewrite take_app_alt; [|by rewrite replicate_length].
        iSpecialize ("HK" $! T [] with "[%]").
        { split; [done|]. apply grown_0. lia. }
        rewrite app_nil_r. by iApply "HK".
      + by iIntros (l') "%".
    - wbind. iApply (wp_sq_capacity with "Hw"); [apply slots_pos; lia|]. iIntros "Hw". wbeta.
      sroom (Z.of_nat n - (slots segs - 1)) T' new.
      assert (saddr segs (0 + Z.of_nat i) = saddr (segs ++ new) (0 + Z.of_nat i)) as Hsa by (symmetry; apply saddr_grow; lia).
      rewrite Hsa. do 4 sstep. sstep. iApply (wp_s_fill_own with "Hw"); [lia|lia|lia|lia| | |].
      { intros k Hk. slive. lia. }
      { by rewrite at_pos_elem. }
      iSplit.
      2:{ iIntros (f') "%Hf Hw". iApply (shaken_at _ _ _ _ _ (fun l' => length l' = length l) with "Hf Hw"); [apply Hf|lia|lia|done|].
          iIntros (l') "%Hl' Hs". sfail. done. }
      iIntros (f') "%Hf Hw". wbeta. replace (Z.to_nat (0 + zlen l - 0)) with (length l) in Hf by lia.
      sover Hf.
      rewrite (drop_ge l) in Hf; [|len; lia]. rewrite app_nil_r in Hf.
      iDestruct (swin_eq _ _ _ _ Hf with "Hw") as "Hw".
      replace (sobj T' (segs ++ new) 0 (zlen l)) with (sobj T' (segs ++ new) 0 (zlen (replicate (length l) v))) by (f_equal; len; lia).
      skeep (keep_append_n T' (segs ++ new) 0 (replicate (length l) v) (Z.of_nat n - zlen l)); [apply sconst_own; lia|lia|len; lia| |].
      + iIntros "Hs". iDestruct "HK" as "[HK _]". rewrite -replicate_add.
        replace (length l + Z.to_nat (Z.of_nat n - zlen l))%nat with n by lia. by iApply ("HK" with "[%//]").
      + iIntros (l') "-> Hs". sfail. by rewrite replicate_length.
  Qed.

  (** [fill(first_, last_, value)]. *)
  Lemma keep_fill_all_own T segs p l (i : nat) v :
    l !! i = Some v ->
    keep_op T segs p l (s_fill (sitr (t_at T) segs p) (sitr (t_at T) segs (p + zlen l)) (ACopy (saddr segs (p + Z.of_nat i))))
      p (replicate (length l) v) tt (fun l' => length l' = length l).
  Proof.
    intros Hi Q X. pose proof (lookup_lt_Some _ _ _ Hi) as Hlt0. sopen. iApply (wp_s_fill_own with "Hw"); [lia|lia|lia|lia| | |].
    { intros k Hk. slive. lia. }
    { by rewrite at_pos_elem. }
    iSplit.
    2:{ iIntros (f') "%Hf Hw". iApply (shaken_at _ _ _ _ _ (fun l' => length l' = length l) with "Hf Hw"); [apply Hf|lia|lia|done|].
        iDestruct "HK" as "[_ HK]". done. }
    iIntros (f') "%Hf Hw". replace (Z.to_nat (p + zlen l - p)) with (length l) in Hf by lia. sover Hf.
    rewrite (drop_ge l) in Hf; [|len; lia]. rewrite app_nil_r in Hf.
    iDestruct "HK" as "[HK _]". rewrite replicate_length.
    iApply "HK". iApply (sg_at_close with "Hf [Hw]"); [lia|len; lia|]. by iApply (swin_eq with "Hw").
  Qed.
  (** d 1722-1833 [assign_fill_n]. *)
  Lemma shift_sd_assign_fill_own T segs p l (i : nat) (n : nat) v :
    l !! i = Some v ->
    shift_op T segs p l (Z.of_nat n - (slots segs - 1)) (sd_assign_fill (Z.of_nat n) (ACopy (saddr segs (p + Z.of_nat i))))
      (p - sresized segs p (Z.of_nat n) l) (replicate n v) (fun l' => (length l <= length l' <= Nat.max n (length l))%nat).
  Proof.
    intros Hi Q X. pose proof (lookup_lt_Some _ _ _ Hi) as Hlt0. sopen. unfold sd_assign_fill, sresized.
    wbind. iApply (wp_sq_size with "Hw"); [lia..|]. iIntros "Hw". wbeta. sstep. sstep.
    destruct (Z.leb_spec (Z.of_nat n) (zlen l)) as [Hle|Hlt].
    { sstep. sstep. sstep. iApply (wp_s_fill_own with "Hw"); [lia|lia|lia|lia| | |].
      { intros k Hk. slive. lia. }
      { by rewrite at_pos_elem. }
      iSplit.
      2:{ iIntros (f') "%Hf Hw". iApply (shaken_at _ _ _ _ _ (fun l' => length l' = length l) with "Hf Hw"); [apply Hf|lia|lia|done|].
          iIntros (l') "%Hl' Hs". iDestruct "HK" as "[_ HK]". iSpecialize ("HK" $! EUser T [] l' with "[%]").
          { split; [done|]. right. split; [done|]. split; [by left|lia]. }
          rewrite app_nil_r. by iApply "HK". }
      iIntros (f') "%Hf Hw". wbeta. replace (Z.to_nat (p + Z.of_nat n - p)) with n in Hf by lia.
      sover Hf. rewrite replicate_length in Hf. iDestruct (swin_eq _ _ _ _ Hf with "Hw") as "Hw".
      replace (sobj T segs p (zlen l)) with (sobj T segs p (zlen (replicate n v ++ drop n l))) by (f_equal; len; lia).
      skeep (keep_cut_back T segs p (replicate n v ++ drop n l) n); [len; lia|done| |].
      + iIntros "Hs". iDestruct "HK" as "[HK _]". rewrite take_app_alt; [|by rewrite replicate_length].
        iSpecialize ("HK" $! T [] with "[%]").
        { split; [done|]. apply grown_0. lia. }
        replace (p - Z.max 0 (Z.min p (Z.of_nat n - (slots segs - 1 - p)))) with p by lia.
        rewrite app_nil_r. by iApply "HK".
      + by iIntros (l') "%". }
    wbind. iApply (wp_sq_back_room with "Hw"); [lia..|]. iIntros "Hw". wbeta.
    destruct (Z.leb_spec (Z.of_nat n) (zlen l + (slots segs - 1 - (p + zlen l)))) as [Hr|Hr].
    { iDestruct (sg_at_close with "Hf Hw") as "Hs"; [lia..|].
      wbind. iApply (keep_fill_all_own with "Hs"); [exact Hi|]. iSplit.
      2:{ iIntros (l') "%Hl' Hs". iDestruct "HK" as "[_ HK]". iSpecialize ("HK" $! EUser T [] l' with "[%]").
          { split; [done|]. right. split; [done|]. split; [by left|lia]. }
          rewrite app_nil_r. by iApply "HK". }
      iIntros "Hs". wbeta.
      iApply (keep_append_n _ _ _ _ (Z.of_nat n - zlen l) with "Hs"); [apply sconst_own; lia|lia|len; lia|]. iSplit.
      - iIntros "Hs". iDestruct "HK" as "[HK _]". iSpecialize ("HK" $! T [] with "[%]").
        { split; [done|]. apply grown_0. lia. }
        replace (p - Z.max 0 (Z.min p (Z.of_nat n - (slots segs - 1 - p)))) with p by lia.
        rewrite app_nil_r -replicate_add.
        replace (length l + Z.to_nat (Z.of_nat n - zlen l))%nat with n by lia. by iApply "HK".
      - iIntros (l') "-> Hs". iDestruct "HK" as "[_ HK]". iSpecialize ("HK" $! EUser T [] (replicate (length l) v) with "[%]").
        { split; [done|]. right. split; [done|]. split; [by left|]. rewrite replicate_length. lia. }
        rewrite app_nil_r. by iApply "HK". }
    wbind. iApply (wp_sq_front_room with "Hw"); [lia..|]. iIntros "Hw". wbeta.
    destruct (Z.leb_spec (Z.of_nat n) (p + zlen l + (slots segs - 1 - (p + zlen l)))) as [Hr2|Hr2].
    - iDestruct (sg_at_close with "Hf Hw") as "Hs"; [lia..|].
      wbind. iApply (keep_fill_all_own with "Hs"); [exact Hi|]. iSplit.
      2:{ iIntros (l') "%Hl' Hs". iDestruct "HK" as "[_ HK]". iSpecialize ("HK" $! EUser T [] l' with "[%]").
          { split; [done|]. right. split; [done|]. split; [by left|lia]. }
          rewrite app_nil_r. by iApply "HK". }
      iIntros "Hs". wbeta. iDestruct (sg_at_open with "Hs") as "(%Hb2 & Hf & Hw)".
      replace (sitr (t_at T) segs (p + zlen l)) with (sitr (t_at T) segs (p + zlen (replicate (length l) v))) by (f_equal; len; lia).
      wbind. iApply (wp_s_ufill_a_self with "Hw"); [apply sconst_warg; [lia|len; lia|apply sconst_own; lia]|lia|len; lia|lia| |].
      { intros k Hk. apply live_out. lia. }
      iSplit.
      2:{ iIntros "Hw". iDestruct "HK" as "[_ HK]". iSpecialize ("HK" $! EUser T [] (replicate (length l) v) with "[%]").
          { split; [done|]. right. split; [done|]. split; [by left|]. rewrite replicate_length. lia. }
          rewrite app_nil_r. iApply "HK". iApply (sg_at_close with "Hf Hw"); lia. }
      iIntros (f') "%Hf Hw". wbeta. sstep. sstep.
      pose proof (stored_back _ _ _ _ Hf) as Hf'. iDestruct (swin_eq _ _ _ _ Hf' with "Hw") as "Hw".
      rewrite -replicate_add.
      set (j := (length l + Z.to_nat (slots segs - 1 - (p + zlen (replicate (length l) v))))%nat) in *.
      assert (Z.of_nat j = slots segs - 1 - p) as Hj by (subst j; len; lia).
      remember (Z.max 0 (Z.min p (Z.of_nat n - (slots segs - 1 - p)))) as kk eqn:Hkk.
      replace (slots segs - 1 - p) with (zlen (replicate j v)) by (len; lia). do 2 sstep.
      skeep (keep_prepend T segs p (replicate j v) (p - (Z.of_nat n - (zlen l + (slots segs - 1 - (p + zlen l))))));
        [apply sconst_own; lia|lia| |].
      + iIntros "Hs". iDestruct "HK" as "[HK _]". iSpecialize ("HK" $! T [] with "[%]").
        { split; [done|]. apply grown_0. lia. }
        rewrite app_nil_r -replicate_add.
        replace (p - (Z.of_nat n - (zlen l + (slots segs - 1 - (p + zlen l))))) with (p - kk) by lia.
        replace (Z.to_nat (p - (p - kk)) + j)%nat with n by lia.
        by iApply "HK".
      + iIntros (l') "-> Hs". iDestruct "HK" as "[_ HK]". iSpecialize ("HK" $! EUser T [] (replicate j v) with "[%]").
        { split; [done|]. right. split; [done|]. split; [by left|]. rewrite replicate_length. lia. }
        rewrite app_nil_r. by iApply "HK".
    - iDestruct (sg_at_close with "Hf Hw") as "Hs"; [lia..|].
      wbind. iPoseProof (wp_room_back T segs p l true (Z.of_nat n - (p + zlen l + (slots segs - 1 - (p + zlen l))))
        (Z.of_nat n - (slots segs - 1))) as "H"; [lia|lia|]. iApply ("H" with "Hs"). iClear "H". iSplit.
      2:{ iIntros (e T' new l') "%He Hs". iDestruct "HK" as "[_ HK]". iApply ("HK" with "[%] Hs").
          split; [tauto|]. destruct He as [_ He]. eapply op_exn_weaken; [|done]. done. }
      iIntros (T' new) "%HT Hs". wbeta. destruct HT as [HT Hnew].
      destruct (more_segs_room segs new _ Hnew) as (Hr3 & Hr4 & Hr5 & _).
      assert (saddr segs (p + Z.of_nat i) = saddr (segs ++ new) (p + Z.of_nat i)) as Hsa by (symmetry; apply saddr_grow; lia).
      rewrite Hsa.
      iDestruct (sg_at_open with "Hs") as "(%Hb2 & Hf & Hw)". sstep. sstep.
      iDestruct (sg_at_close with "Hf Hw") as "Hs"; [lia..|].
      wbind. iApply (keep_fill_all_own with "Hs"); [exact Hi|]. iSplit.
      2:{ iIntros (l') "%Hl' Hs". sfail. lia. }
      iIntros "Hs". wbeta.
      wbind. iApply (keep_append_n T' (segs ++ new) p (replicate (length l) v) with "Hs"); [apply sconst_own; lia|lia|len; lia|]. iSplit.
      2:{ iIntros (l') "-> Hs". sfail. rewrite replicate_length. lia. }
      iIntros "Hs". wbeta. iDestruct (sg_at_open with "Hs") as "(%Hb3 & Hf & Hw)". rewrite -replicate_add.
      set (j := (length l + Z.to_nat (Z.of_nat n - (zlen l + p)))%nat) in *.
      rewrite -replicate_add in Hb3. fold j in Hb3.
      skeep (keep_prepend T' (segs ++ new) p (replicate j v) 0); [apply sconst_own; lia|lia| |].
      + iIntros "Hs". iDestruct "HK" as "[HK _]". rewrite -replicate_add.
        replace (Z.to_nat (p - 0) + j)%nat with n by lia.
        replace (p - Z.max 0 (Z.min p (Z.of_nat n - (slots segs - 1 - p)))) with 0 by lia.
        by iApply ("HK" with "[%//]").
      + iIntros (l') "-> Hs". sfail. rewrite replicate_length. lia.
  Qed.

End segmented.

Section calls.
  Context `{E : Env} `{SZ : SegSize}.

  (** segmented_vector.hpp 1239-1286 [assign_fill_n], [value] a reference to element
      [i]: [c.assign(n, c[i])]. *)
  Definition seg_assign_own (n i : nat) : M sgdata rval :=
    (a <- s_arg (XCopy i);; s_unit (sv_assign_fill (Z.of_nat n) a))%prog.
  (** segmented_devector.hpp 1722-1833 [assign_fill_n]. *)
  Definition segd_assign_own (n i : nat) : M sgdata rval :=
    (a <- s_arg (XCopy i);; s_unit (sd_assign_fill (Z.of_nat n) a))%prog.

  Lemma wp_own_arg T segs p l (i : nat) v (m : arg -> M sgdata unit) Q X :
    l !! i = Some v ->
    sg_at T segs p l ⊢
    (sg_at T segs p l -∗ wp (m (ACopy (saddr segs (p + Z.of_nat i)))) (sobj T segs p (zlen l)) (fun _ x => Q RUnit x) X) -∗
    wp (a <- s_arg (XCopy i);; s_unit (m a))%prog (sobj T segs p (zlen l)) Q X.
  Proof.
    iIntros (Hi) "Hs HK". pose proof (lookup_lt_Some _ _ _ Hi) as Hlt. wbind. unfold s_arg. wbind.
    iApply (wp_s_ref with "Hs"); [lia|]. iIntros "Hs". wbeta. iApply wp_ret. unfold s_unit. wbind.
    iSpecialize ("HK" with "Hs"). iApply (wp_wand with "HK"). iSplit; [|by iIntros (??) "$"].
    iIntros (r x) "HQ". wbeta. by iApply wp_ret.
  Qed.

  Lemma seg_assign_own_ok n i v x (A : sabs) w hf :
    holds (is_seg false) x A w hf -> s_elems A !! i = Some v ->
    match seg_assign_own n i x w with
    | Ok r x' w' => exists A' : sabs,
        (r = RUnit /\ exists new, A' = SAbs (s_alloc A) (s_segs A ++ new) (s_front A) (replicate n v) /\
           (Z.of_nat n <= s_cap A -> new = [])) /\
        holds (is_seg false) x' A' w' hf /\ quiet w w'
    | Exn e x' w' => exists A' : sabs,
        (exists new l', A' = SAbs (s_alloc A) (s_segs A ++ new) (s_front A) l' /\ length l' = length (s_elems A) /\
           (e <> EUser -> new = [] /\ l' = s_elems A /\ s_cap A < Z.of_nat n)) /\
        holds (is_seg false) x' A' w' hf /\ reason e w w'
    | UB => False
    end.
  Proof.
    intros Hx Hi. apply (state_run (is_seg false) (sinv (seg_I false)) (is_seg_iff false) (seg_assign_own n i) x A w hf _ _ Hx).
    iIntros "Hv". iDestruct (sinv_open with "Hv") as (T segs p l) "[%HA Hv]". destruct HA as (-> & -> & HI).
    cbn [s_alloc s_segs s_front s_elems] in *. destruct (HI eq_refl) as [Hpre ->].
    unfold seg_assign_own. iApply (wp_own_arg with "Hv"); [done|]. iIntros "Hv".
    assert (s_cap (SAbs (t_al T) segs 0 l) = slots segs - 1) as -> by done.
    iApply (back_sv_assign_fill_own T segs l i n v with "Hv"); [done|]. iSplit.
    - iIntros (T' new) "%H Hv". destruct H as [[H1 H2] Hg]. iExists (SAbs (t_al T) (segs ++ new) 0 (replicate n v)). iSplit.
      + iPureIntro. split; [done|]. exists new. split; [done|]. intros Hle. eapply grown_nil; [done|lia].
      + rewrite -H1. iApply (sinv_intro with "Hv"); [done|]. intros _. split; [congruence|done].
    - iIntros (e T' new l') "%H Hv". destruct H as [[H1 H2] Hg]. iExists (SAbs (t_al T) (segs ++ new) 0 l'). iSplit.
      + iPureIntro. exists new, l'. split; [done|]. destruct Hg as [(-> & -> & Hadd & _)|(-> & _ & Hl)].
        * split; [done|]. intros _. split_and!; [done|done|lia].
        * split; [done|]. by intros [].
      + rewrite -H1. iApply (sinv_intro with "Hv"); [done|]. intros _. split; [congruence|done].
  Qed.

  Lemma segd_assign_own_ok n i v x (A : sabs) w hf :
    holds (is_seg true) x A w hf -> s_elems A !! i = Some v ->
    match segd_assign_own n i x w with
    | Ok r x' w' => exists A' : sabs,
        (r = RUnit /\ exists new, A' = SAbs (s_alloc A) (s_segs A ++ new)
             (s_front A - Z.max 0 (Z.min (s_front A) (Z.of_nat n - (s_cap A - s_front A)))) (replicate n v) /\
           (Z.of_nat n <= s_cap A -> new = [])) /\
        holds (is_seg true) x' A' w' hf /\ quiet w w'
    | Exn e x' w' => exists A' : sabs,
        (exists new l', A' = SAbs (s_alloc A) (s_segs A ++ new) (s_front A) l' /\
           (length (s_elems A) <= length l' <= Nat.max n (length (s_elems A)))%nat /\
           (e <> EUser -> new = [] /\ l' = s_elems A /\ s_cap A < Z.of_nat n)) /\
        holds (is_seg true) x' A' w' hf /\ reason e w w'
    | UB => False
    end.
  Proof.
    intros Hx Hi. apply (state_run (is_seg true) (sinv (seg_I true)) (is_seg_iff true) (segd_assign_own n i) x A w hf _ _ Hx).
    iIntros "Hv". iDestruct (sinv_open with "Hv") as (T segs p l) "[%HA Hv]". destruct HA as (-> & -> & HI).
    cbn [s_alloc s_segs s_front s_elems] in *.
    unfold segd_assign_own. iApply (wp_own_arg with "Hv"); [done|]. iIntros "Hv".
    assert (s_cap (SAbs (t_al T) segs p l) = slots segs - 1) as -> by done.
    iApply (shift_sd_assign_fill_own T segs p l i n v with "Hv"); [done|]. iSplit.
    - iIntros (T' new) "%H Hv". destruct H as [[H1 H2] Hg].
      iExists (SAbs (t_al T) (segs ++ new) (p - sresized segs p (Z.of_nat n) l) (replicate n v)). iSplit.
      + iPureIntro. split; [done|]. exists new. split; [done|]. intros Hle. eapply grown_nil; [done|lia].
      + rewrite -H1. iApply (sinv_intro with "Hv"); [done|]. by intros [=].
    - iIntros (e T' new l') "%H Hv". destruct H as [[H1 H2] Hg]. iExists (SAbs (t_al T) (segs ++ new) p l'). iSplit.
      + iPureIntro. exists new, l'. split; [done|]. destruct Hg as [(-> & -> & Hadd & _)|(-> & _ & Hl)].
        * split; [lia|]. intros _. split_and!; [done|done|lia].
        * split; [done|]. by intros [].
      + rewrite -H1. iApply (sinv_intro with "Hv"); [done|]. by intros [=].
  Qed.
End calls.
