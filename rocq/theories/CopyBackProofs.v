(** * Proof rules for copy_backward *)

From Verif Require Export CopyBack SegShift.
From Coq Require Import ZifyBool.
From iris.proofmode Require Import tactics.
Open Scope Z_scope.

(** ** Effects *)
Section effects.
  Context `{E : Env}.
  Implicit Types f g : Z -> option V.

  (** The elements of [a, b) have been copied to [d, d + (b - a)). *)
  Record copied (a b d : Z) f f' : Prop := Copied {
    cp_dst : forall i, d <= i < d + (b - a) -> f' i = f (i - d + a);
    cp_rest : forall i, ~ d <= i < d + (b - a) -> f' i = f i;
  }.
  Lemma copied_nil a b d f : b <= a -> copied a b d f f.
  Proof. intros Hab. split; [intros; lia|done]. Qed.
  Lemma copied_app a m e d f f1 f2 :
    a <= m -> m <= e -> (a <= d \/ d + (e - a) <= a) ->
    copied m e (d + (m - a)) f f1 -> copied a m d f1 f2 -> copied a e d f f2.
  Proof.
    intros Ham Hme Hd [H1 H2] [G1 G2]. split.
    - intros i Hi. destruct (decide (i < d + (m - a))) as [Hlt|Hle].
      + rewrite G1; [|lia]. rewrite H2; [done|lia].
      + rewrite G2; [|lia]. rewrite H1; [f_equal; lia|lia].
    - intros i Hi. rewrite G2; [|lia]. apply H2. lia.
  Qed.
  Lemma copied_live a b d f f' i :
    copied a b d f f' -> (forall j, a <= j < b -> live f j = true) -> live f i = true -> live f' i = true.
  Proof.
    intros [H1 H2] Hl Hi. unfold live in *. destruct (decide (d <= i < d + (b - a))) as [Hin|Hout].
    - rewrite H1; [|done]. apply Hl. lia.
    - by rewrite H2.
  Qed.
  Lemma copied_shaken a b d f f' :
    copied a b d f f' -> (forall i, a <= i < b -> live f i = true) ->
    (forall i, d <= i < d + (b - a) -> live f i = true) -> shaken f f'.
  Proof.
    intros [H1 H2] Hla Hld i. unfold live in *. destruct (decide (d <= i < d + (b - a))) as [Hin|Hout].
    - rewrite H1; [|done]. rewrite Hla; [|lia]. symmetry. by apply Hld.
    - by rewrite H2.
  Qed.
End effects.

Section copy_back.
  Context `{E : Env} `{SZ : SegSize}.
  Context {St : Type}.
  Implicit Types s : St.
  Implicit Types segs : list loc.
  Implicit Types f g : Z -> option V.

  Lemma wp_win_copy_backward addr lo hi a b d p q d_last r f s Q X :
    contig addr a b p -> contig addr d (d + (b - a)) r -> q = p +ₗ (b - a) -> d_last = r +ₗ (b - a) ->
    lo <= a -> a <= b -> b <= hi -> lo <= d -> d + (b - a) <= hi -> (a < d \/ d + (b - a) <= a \/ a = b) ->
    (forall i, a <= i < b -> live f i = true) ->
    (forall i, d <= i < d + (b - a) -> live f i = true) ->
    win addr lo hi f ⊢
    ((∀ f', ⟦copied a b d f f'⟧ -∗ win addr lo hi f' -∗ Q r s) ∧
     (∀ f', ⟦shaken f f' /\ a < b⟧ -∗ win addr lo hi f' -∗ X EUser s)) -∗
    wp (copy_backward p q d_last) s Q X.
  Proof.
    intros Hp Hr -> -> Hla Hab Hbh Hld Hdh Hdis Hsrc Hdst. unfold copy_backward.
    iIntros "Hw HK". wbind. iApply wp_range_len; [done|simpl; lia|]. simpl (p +ₗ _).2. wbeta.
    replace (p.2 + (b - a) - p.2) with (b - a) by lia.
    assert (forall (n : nat) f1, Z.of_nat n <= b - a -> copied (a + Z.of_nat n) b (d + Z.of_nat n) f f1 ->
      win addr lo hi f1 ⊢
      ((∀ f', ⟦copied a b d f f'⟧ -∗ win addr lo hi f' -∗ Q r s) ∧
       (∀ f', ⟦shaken f f' /\ a < b⟧ -∗ win addr lo hi f' -∗ X EUser s)) -∗
      wp (copy_backward_loop n p (r +ₗ Z.of_nat n)) s Q X) as Hloop.
    { intros n. induction n as [|n IH]; intros f1 Hn Hcp; cbn [copy_backward_loop].
      - iIntros "Hw HK". iApply wp_ret. rewrite loc_add_0. iDestruct "HK" as "[HK _]".
        iApply ("HK" with "[%] Hw"). by rewrite !Z.add_0_r in Hcp.
      - iIntros "Hw HK". wbind. rewrite loc_add_assoc. replace (Z.of_nat (S n) + -1) with (Z.of_nat n) by lia.
        replace (r +ₗ Z.of_nat n) with (addr (d + Z.of_nat n)) by (rewrite Hr; [f_equal; lia|lia]).
        replace (p +ₗ Z.of_nat n) with (addr (a + Z.of_nat n)) by (rewrite Hp; [f_equal; lia|lia]).
        iDestruct (win_acc2 _ _ _ (a + Z.of_nat n) (d + Z.of_nat n) with "Hw") as "(Hs & Hd & Hw)"; [lia|lia|lia|].
        assert (live f1 (a + Z.of_nat n) = true) as Hs1.
        { apply (copied_live _ _ _ _ _ _ Hcp); [intros j Hj; apply Hsrc; lia|apply Hsrc; lia]. }
        assert (live f1 (d + Z.of_nat n) = true) as Hd1.
        { apply (copied_live _ _ _ _ _ _ Hcp); [intros j Hj; apply Hsrc; lia|apply Hdst; lia]. }
        assert (shaken f f1) as Hsh1.
        { eapply copied_shaken; [done| |]; intros i Hi; [apply Hsrc|apply Hdst]; lia. }
        destruct (live_some _ _ Hs1) as [v Hv]. destruct (live_some _ _ Hd1) as [c Hc].
        rewrite {1}Hv {1}Hc. simpl cell_of. iApply (as_ok_copy1 with "Hs Hd"). iSplit.
        + iIntros "Hs Hd". iSpecialize ("Hw" $! (Some v) (Some v) with "Hs Hd"). wbeta.
          replace (addr (d + Z.of_nat n)) with (r +ₗ Z.of_nat n) by (rewrite Hr; [f_equal; lia|lia]).
          iApply (IH with "Hw HK"); [lia|].
          apply (copied_app _ (a + Z.of_nat (S n)) _ _ _ f1); [lia|lia|lia| |].
          { by replace (d + Z.of_nat n + (a + Z.of_nat (S n) - (a + Z.of_nat n))) with (d + Z.of_nat (S n)) by lia. }
          split.
          * intros i Hi. assert (i = d + Z.of_nat n) as -> by lia.
            replace (d + Z.of_nat n - (d + Z.of_nat n) + (a + Z.of_nat n)) with (a + Z.of_nat n) by lia.
            unfold upd. rewrite Z.eqb_refl. by rewrite Hv.
          * intros i Hi. unfold upd. destruct (Z.eqb_spec i (d + Z.of_nat n)); [lia|].
            destruct (Z.eqb_spec i (a + Z.of_nat n)) as [->|]; [by rewrite Hv|done].
        + iIntros (c') "Hs Hd". iSpecialize ("Hw" $! (Some v) (Some c') with "Hs Hd").
          iDestruct "HK" as "[_ HK]". iApply ("HK" with "[%] Hw"). split; [|lia].
          eapply shaken_trans; [done|]. intros i. unfold live, upd. destruct (Z.eqb_spec i (d + Z.of_nat n)) as [->|]; [by rewrite Hc|].
          destruct (Z.eqb_spec i (a + Z.of_nat n)) as [->|]; [by rewrite Hv|done]. }
    replace (r +ₗ (b - a)) with (r +ₗ Z.of_nat (Z.to_nat (b - a))) by (f_equal; lia).
    iApply (Hloop with "Hw HK"); [lia|]. apply copied_nil. lia.
  Qed.

  (** *** Backward *)
  Lemma wp_cback_out_loop t segs fuel p x e n d k l f f1 s Q X :
    contig (saddr segs) x e p -> x + n <= e -> 0 <= x -> e <= slots segs ->
    0 < n -> 0 <= d -> d + (e - x) < slots segs ->
    (x < d \/ d + (e - x) <= x) ->
    (forall i, x <= i < e -> live f i = true) ->
    (forall i, d <= i < d + (e - x) -> live f i = true) ->
    copied (x + n) e (d + n) f f1 ->
    0 <= k -> k * SS <= d + n <= (k + 1) * SS -> l = (segs !!! Z.to_nat k) +ₗ (d + n - k * SS) ->
    (Z.of_nat fuel >= n \/ (Z.of_nat fuel >= n /\ False)) -> (d + n = k * SS -> Z.of_nat fuel > n) ->
    swin t segs f1 ⊢
    ((∀ f', ⟦copied x e d f f'⟧ -∗ swin t segs f' -∗ Q (sitr t segs d) s) ∧
     (∀ f', ⟦shaken f f'⟧ -∗ swin t segs f' -∗ X EUser s)) -∗
    wp (cback_out_loop fuel p n (t +ₗ k) l) s Q X.
  Proof.
    intros Hp Hn Hx Hes Hn0 Hd Hds Hdis Hla Hld. pose proof SS_pos as HS. unfold slots in *.
    induction fuel as [|fuel IH] in n, k, l, f1, Hn, Hn0 |- *; intros Hmv Hk Hkd -> Hf1 Hf2; simpl.
    { exfalso. lia. }
    assert (k < Z.of_nat (length segs)) as Hkb by nia.
    iIntros "[Ht Hw] HK". wbind. iApply (wp_read_tbl with "Ht"); [done|lia|]. iIntros "Ht". wbeta.
    wbind. iApply (wp_psub _ _ (d + n - k * SS)); [done|]. wbeta.
    set (c := Z.min n (d + n - k * SS)).
    assert (0 <= c <= n) as Hc by lia.
    assert (k * SS <= d + (n - c)) as Hc2 by lia. wbind.
    iApply (wp_win_copy_backward (saddr segs) 0 (SS * Z.of_nat (length segs)) (x + (n - c)) (x + n) (d + (n - c))
       (p +ₗ (n - c)) _ _ ((segs !!! Z.to_nat k) +ₗ (d + (n - c) - k * SS)) f1 with "Hw").
    { intros i Hi. rewrite Hp; [|lia]. rewrite loc_add_assoc. f_equal. lia. }
    { intros i Hi. rewrite (saddr_at _ i k (i - k * SS)); [rewrite loc_add_assoc; f_equal; lia|lia|lia]. }
    { rewrite loc_add_assoc. f_equal. lia. }
    { rewrite loc_add_assoc. f_equal. lia. }
    { lia. } { lia. } { lia. } { lia. } { lia. } { lia. }
    { intros i Hi. apply (copied_live _ _ _ _ _ _ Hmv); [intros j Hj; apply Hla; lia|apply Hla; lia]. }
    { intros i Hi. apply (copied_live _ _ _ _ _ _ Hmv); [intros j Hj; apply Hla; lia|apply Hld; lia]. }
    iSplit.
    - iIntros (f2) "%Hf Hw". wbeta.
      assert (copied (x + (n - c)) e (d + (n - c)) f f2) as Hmv2.
      { apply (copied_app (x + (n - c)) (x + n) e (d + (n - c)) f f1 f2); [lia|lia|lia| |done].
        by replace (d + (n - c) + (x + n - (x + (n - c)))) with (d + n) by lia. }
      destruct (Z.eqb_spec (n - c) 0) as [Hz|Hnz].
      + iApply (wp_compose _ _ _ _ d with "Ht"); [lia|lia|unfold slots; lia|f_equal; lia|]. iIntros "Ht".
        iDestruct "HK" as "[HK _]". iApply ("HK" with "[%] [$Ht $Hw]").
        by rewrite Hz !Z.add_0_r in Hmv2.
      + assert (1 <= k) as Hk1 by nia. wbind. rewrite loc_add_assoc.
        iApply (wp_read_tbl with "Ht"); [done|lia|]. iIntros "Ht". wbeta.
        iApply (IH (n - c) (k + -1) _ f2 with "[$Ht $Hw] HK"); [lia|lia|done|lia|lia| |lia|lia].
        f_equal. lia.
    - iIntros (f2) "%Hf Hw". iDestruct "HK" as "[_ HK]". iApply ("HK" with "[%] [$Ht $Hw]").
      eapply shaken_trans; [|apply Hf]. eapply copied_shaken; [done| |]; intros i Hi; [apply Hla|apply Hld]; lia.
  Qed.
  Lemma wp_copy_backward_out t segs p x e d f s Q X :
    contig (saddr segs) x e p -> x <= e -> 0 <= x -> e <= slots segs ->
    0 <= d -> d + (e - x) < slots segs ->
    (x < d \/ d + (e - x) <= x \/ x = e) ->
    (forall i, x <= i < e -> live f i = true) ->
    (forall i, d <= i < d + (e - x) -> live f i = true) ->
    swin t segs f ⊢
    ((∀ f', ⟦copied x e d f f'⟧ -∗ swin t segs f' -∗ Q (sitr t segs d) s) ∧
     (∀ f', ⟦shaken f f' /\ x < e⟧ -∗ swin t segs f' -∗ X EUser s)) -∗
    wp (copy_backward_out p (p +ₗ (e - x)) (sitr t segs (d + (e - x)))) s Q X.
  Proof.
    intros Hp Hxe Hx Hes Hd Hds Hdis Hla Hld. pose proof SS_pos as HS. iIntros "Hw HK". unfold copy_backward_out.
    wbind. iApply wp_range_len; [done|simpl; lia|]. simpl (p +ₗ _).2. wbeta.
    replace (p.2 + (e - x) - p.2) with (e - x) by lia.
    destruct (Z.to_nat (e - x)) as [|m] eqn:Hm.
    { assert (x = e) as -> by lia. iApply wp_ret. iDestruct "HK" as "[HK _]". rewrite Z.sub_diag Z.add_0_r.
      iApply ("HK" with "[%] Hw"). apply copied_nil. lia. }
    destruct (pos_split (d + (e - x))) as (k & r & Hk & Hr).
    pose proof (seg_bound (d + (e - x)) k r (Z.of_nat (length segs)) Hk Hr ltac:(unfold slots in *; lia)) as Hkb.
    rewrite (sitr_at _ _ (d + (e - x)) k r); [|done|done]. cbn [it_seg it_loc]. rewrite -Hm.
    replace (Z.of_nat (Z.to_nat (e - x))) with (e - x) by lia.
    iApply (wp_cback_out_loop t segs (S (Z.to_nat (e - x))) p x e (e - x) d k _ f f with "Hw"); [done|lia|lia|lia|lia|lia|lia|lia|done|done| |lia|lia| |lia|lia|].
    { apply copied_nil. lia. }
    { f_equal. lia. }
    iSplit; [by iDestruct "HK" as "[HK _]"|]. iIntros (f') "%Hf Hw". iDestruct "HK" as "[_ HK]".
    iApply ("HK" with "[%] Hw"). split; [done|lia].
  Qed.

  (** What [s_copy_backward] has done when positions from [x] on are finished. *)
  Lemma cback_step t segs a x y b d p f f1 s Q X :
    contig (saddr segs) x y p -> a <= x -> x <= y -> y <= b -> 0 <= a -> b <= slots segs ->
    0 <= d -> d + (b - a) < slots segs -> (a < d \/ d + (b - a) <= a \/ a = b) ->
    (forall i, a <= i < b -> live f i = true) -> (forall i, d <= i < d + (b - a) -> live f i = true) ->
    copied y b (d + (y - a)) f f1 ->
    swin t segs f1 ⊢
    ((∀ f', ⟦copied x b (d + (x - a)) f f'⟧ -∗ swin t segs f' -∗ Q (sitr t segs (d + (x - a))) s) ∧
     (∀ f', ⟦shaken f f' /\ a < b⟧ -∗ swin t segs f' -∗ X EUser s)) -∗
    wp (copy_backward_out p (p +ₗ (y - x)) (sitr t segs (d + (y - a)))) s Q X.
  Proof.
    intros Hp Hax Hxy Hyb Ha Hbs Hd Hds Hdis Hla Hld Hmv. iIntros "Hw HK".
    replace (d + (y - a)) with (d + (x - a) + (y - x)) by lia.
    iApply (wp_copy_backward_out t segs p x y (d + (x - a)) f1 with "Hw"); [done|lia|lia|lia|lia|lia|lia| | |].
    { intros i Hi. apply (copied_live _ _ _ _ _ _ Hmv); [intros j Hj; apply Hla; lia|apply Hla; lia]. }
    { intros i Hi. apply (copied_live _ _ _ _ _ _ Hmv); [intros j Hj; apply Hla; lia|apply Hld; lia]. }
    iSplit.
    - iIntros (f') "%Hf Hw". iDestruct "HK" as "[HK _]". iApply ("HK" with "[%] Hw").
      apply (copied_app x y b (d + (x - a)) f f1 f'); [lia|lia|lia| |done].
      by replace (d + (x - a) + (y - x)) with (d + (y - a)) by lia.
    - iIntros (f') "%Hf Hw". destruct Hf as [Hf Hlt]. iDestruct "HK" as "[_ HK]". iApply ("HK" with "[%] Hw").
      split; [|lia]. eapply shaken_trans; [|apply Hf]. eapply copied_shaken; [done| |]; intros i Hi; [apply Hla|apply Hld]; lia.
  Qed.
  Lemma wp_cback_in_loop t segs a b d n k f f1 s Q X :
    0 <= k - Z.of_nat n -> a <= (k - Z.of_nat n) * SS -> k * SS <= b ->
    0 <= a -> b <= slots segs ->
    0 <= d -> d + (b - a) < slots segs -> (a < d \/ d + (b - a) <= a \/ a = b) ->
    (forall i, a <= i < b -> live f i = true) -> (forall i, d <= i < d + (b - a) -> live f i = true) ->
    copied (k * SS) b (d + (k * SS - a)) f f1 ->
    swin t segs f1 ⊢
    ((∀ f', ⟦copied ((k - Z.of_nat n) * SS) b (d + ((k - Z.of_nat n) * SS - a)) f f'⟧ -∗ swin t segs f' -∗
        Q (sitr t segs (d + ((k - Z.of_nat n) * SS - a))) s) ∧
     (∀ f', ⟦shaken f f' /\ a < b⟧ -∗ swin t segs f' -∗ X EUser s)) -∗
    wp (cback_in_loop n (t +ₗ (k - 1)) (sitr t segs (d + (k * SS - a)))) s Q X.
  Proof.
    intros Hk Hak Hkb Ha Hbs Hd Hds Hdis Hla Hld. pose proof SS_pos as HS. unfold slots in *.
    induction n as [|n IH] in k, f1, Hk, Hak, Hkb |- *; intros Hmv; simpl.
    { iIntros "Hw HK". iApply wp_ret. iDestruct "HK" as "[HK _]".
      replace (k - Z.of_nat 0) with k by lia. by iApply ("HK" with "[%] Hw"). }
    assert (k - 1 < Z.of_nat (length segs)) as Hkl by nia.
    assert (a <= (k - 1) * SS) as Hak1 by nia.
    iIntros "[Ht Hw] HK". wbind. iApply (wp_read_tbl with "Ht"); [done|lia|]. iIntros "Ht". wbeta. wbind.
    replace ((segs !!! Z.to_nat (k - 1)) +ₗ SS) with ((segs !!! Z.to_nat (k - 1)) +ₗ (k * SS - (k - 1) * SS)) by (f_equal; lia).
    iApply (cback_step t segs a ((k - 1) * SS) (k * SS) b d _ f f1 with "[$Ht $Hw]"); [|lia|lia|lia|lia|unfold slots; lia|lia|unfold slots; lia|lia|done|done|done|].
    { intros i Hi. rewrite (saddr_at _ i (k - 1) (i - (k - 1) * SS)); [done|lia|lia]. }
    iSplit.
    - iIntros (f') "%Hf Hw". wbeta. rewrite loc_add_assoc. replace (k - 1 + -1) with (k - 1 - 1) by lia.
      replace (k - Z.of_nat (S n)) with (k - 1 - Z.of_nat n) by lia.
      iApply (IH (k - 1) f' with "Hw HK"); [lia|replace (k - 1 - Z.of_nat n) with (k - Z.of_nat (S n)) by lia; lia|lia|done].
    - iDestruct "HK" as "[_ HK]". done.
  Qed.

  (** private.hpp 886-936 [copy_backward]. *)
  Lemma wp_s_copy_backward t segs a b d f s Q X :
    0 <= a -> a <= b -> b < slots segs -> 0 <= d -> d + (b - a) < slots segs ->
    (a < d \/ d + (b - a) <= a \/ a = b) ->
    (forall i, a <= i < b -> live f i = true) ->
    (forall i, d <= i < d + (b - a) -> live f i = true) ->
    swin t segs f ⊢
    ((∀ f', ⟦copied a b d f f'⟧ -∗ swin t segs f' -∗ Q (sitr t segs d) s) ∧
     (∀ f', ⟦shaken f f' /\ a < b⟧ -∗ swin t segs f' -∗ X EUser s)) -∗
    wp (s_copy_backward (sitr t segs a) (sitr t segs b) (sitr t segs (d + (b - a)))) s Q X.
  Proof.
    intros Ha Hab Hb Hd Hds Hdis Hla Hld. pose proof SS_pos as HS. iIntros "[Ht Hw] HK".
    destruct (pos_split a) as (k & r & Hk & Hr). destruct (pos_split b) as (k2 & r2 & Hk2 & Hr2).
    pose proof (seg_bound a k r (Z.of_nat (length segs)) Hk Hr ltac:(unfold slots in *; lia)) as Hkb.
    pose proof (seg_bound b k2 r2 (Z.of_nat (length segs)) Hk2 Hr2 ltac:(unfold slots in *; lia)) as Hkb2.
    assert (k <= k2) as Hkk by nia. unfold s_copy_backward.
    rewrite (sitr_at _ _ a k r) // (sitr_at _ _ b k2 r2) //. cbn [it_seg it_loc].
    rewrite loc_eqb_add. destruct (Z.eqb_spec k k2) as [He|Hne].
    - replace ((segs !!! Z.to_nat k2) +ₗ r2) with ((segs !!! Z.to_nat k) +ₗ r +ₗ (b - a)).
      2:{ rewrite loc_add_assoc -He. f_equal. subst k2. lia. }
      iApply (wp_copy_backward_out t segs _ a b d f with "[$Ht $Hw] HK"); [|lia|lia|unfold slots in *; lia|lia|lia|lia|done|done].
      intros i Hi. rewrite (saddr_at _ i k (r + (i - a))); [by rewrite loc_add_assoc|lia|subst k2; lia].
    - wbind. iApply (wp_read_tbl with "Ht"); [done|lia|]. iIntros "Ht". wbeta. wbind.
      replace ((segs !!! Z.to_nat k2) +ₗ r2) with ((segs !!! Z.to_nat k2) +ₗ (b - k2 * SS)) by (f_equal; lia).
      iApply (cback_step t segs a (k2 * SS) b b d _ f f with "[$Ht $Hw]"); [|nia|lia|lia|lia|unfold slots in *; lia|lia|lia|lia|done|done|apply copied_nil; lia|].
      { intros i Hi. rewrite (saddr_at _ i k2 (i - k2 * SS)); [done|lia|lia]. }
      iSplit; [|by iDestruct "HK" as "[_ HK]"].
      iIntros (f1) "%Hf1 Hw". wbeta. wbind.
      iApply wp_range_len; [done|simpl; lia|]. wbeta. rewrite !loc_add_assoc.
      replace (Z.to_nat ((t +ₗ (k2 + -1)).2 - (t +ₗ k).2)) with (Z.to_nat (k2 - 1 - k)) by (simpl; lia).
      replace (k2 + -1) with (k2 - 1) by lia. wbind.
      assert (k2 - Z.of_nat (Z.to_nat (k2 - 1 - k)) = k + 1) as Hkk1 by lia.
      iApply (wp_cback_in_loop t segs a b d (Z.to_nat (k2 - 1 - k)) k2 f f1 with "Hw");
        [lia|rewrite Hkk1; lia|lia|lia|unfold slots in *; lia|lia|lia|lia|done|done|done|].
      rewrite Hkk1. iSplit; [|by iDestruct "HK" as "[_ HK]"].
      iIntros (f2) "%Hf2 [Ht Hw]". wbeta. wbind.
      iApply (wp_read_tbl with "Ht"); [done|lia|]. iIntros "Ht". wbeta.
      replace ((segs !!! Z.to_nat k) +ₗ SS) with ((segs !!! Z.to_nat k) +ₗ r +ₗ ((k + 1) * SS - a)) by (rewrite loc_add_assoc; f_equal; lia).
      iApply (cback_step t segs a a ((k + 1) * SS) b d _ f f2 with "[$Ht $Hw]");
        [|lia|nia|nia|lia|unfold slots in *; lia|lia|lia|lia|done|done|done|].
      { intros i Hi. rewrite (saddr_at _ i k (r + (i - a))); [by rewrite loc_add_assoc|lia|lia]. }
      replace (d + (a - a)) with d by lia. done.
  Qed.
End copy_back.
