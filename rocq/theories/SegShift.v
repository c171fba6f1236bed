(** * Proof rules for moves inside one segmented container *)

From Verif Require Export SegMoves.
From Coq Require Import ZifyBool.
From iris.proofmode Require Import tactics.
Open Scope Z_scope.

Arguments fails {_ _} s P%I.

Section shift.
  Context `{E : Env} `{SZ : SegSize}.
  Context {St : Type}.
  Implicit Types s : St.
  Implicit Types segs : list loc.
  Implicit Types f g : Z -> option V.

  (** *** Forward, into raw storage *)
  Lemma s_umove_piece t segs p x n d f s :
    contig (saddr segs) x (x + Z.of_nat n) p ->
    0 <= x -> x + Z.of_nat n <= slots segs -> 0 <= d -> d + Z.of_nat n < slots segs ->
    (forall i, x <= i < x + Z.of_nat n -> live f i = true) ->
    (forall i, d <= i < d + Z.of_nat n -> live f i = false) ->
    (x + Z.of_nat n <= d \/ d + Z.of_nat n <= x) ->
    swin t segs f ⊢
    wp (s_ucopy_ra (refs AMove p n) (sitr t segs d)) s
      (keeps s (fun r => ⟦r = sitr t segs (d + Z.of_nat n)⟧ ∗
         ∃ f', ⟦moved x (x + Z.of_nat n) d f f'⟧ ∗ swin t segs f')%I)
      (fails s (∃ f', ⟦shaken f f' /\ nothrow_move = false⟧ ∗ swin t segs f')).
  Proof.
    intros Hp Hx Hxs Hd Hds Hla Hld Hdis. iIntros "[Ht Hw]".
    iPoseProof (wp_seg_out (fun srcs d => uninit_loop d d srcs) (undo_out (sitr t segs d)) t segs d (refs AMove p n)
      (fun j => ∃ f', ⟦moved x (x + Z.of_nat j) d f f'⟧ ∗ win (saddr segs) 0 (slots segs) f')%I
      (fun j => ∃ f1 f', ⟦moved x (x + Z.of_nat j) d f f1 /\ shaken f1 f' /\ nothrow_move = false⟧ ∗ win (saddr segs) 0 (slots segs) f')%I
      (∃ f', ⟦shaken f f' /\ nothrow_move = false⟧ ∗ win (saddr segs) 0 (slots segs) f')%I s with "[Ht Hw]") as "H".
    - intros j c q Hjc Hc. rewrite refs_length in Hjc. iIntros "[Ht HI]". iDestruct "HI" as (f1) "(%Hf & Hw)".
      rewrite refs_drop; [|lia]. rewrite refs_take; [|lia].
      iPoseProof (wp_win_umove_loop (saddr segs) 0 (slots segs) (x + Z.of_nat j) (d + Z.of_nat j)
        (p +ₗ Z.of_nat j) q c 0 f1 f1 s
        (keeps s (fun r => ⟦r = q +ₗ Z.of_nat c⟧ ∗ table t segs ∗
           ∃ f', ⟦moved x (x + Z.of_nat (j + c)) d f f'⟧ ∗ win (saddr segs) 0 (slots segs) f')%I)
        (fails s (table t segs ∗ ∃ f1 f', ⟦moved x (x + Z.of_nat j) d f f1 /\ shaken f1 f' /\ nothrow_move = false⟧ ∗
           win (saddr segs) 0 (slots segs) f'))) as "H".
      { intros i Hi. rewrite Hp; [|lia]. rewrite loc_add_assoc. f_equal. lia. }
      { intros i Hi. apply Hc. lia. }
      { lia. } { lia. } { lia. } { lia. } { lia. } { lia. }
      { intros i Hi. rewrite (mv_live _ _ _ _ _ Hf) Hla; [done|lia]. }
      { intros i Hi. rewrite (mv_live _ _ _ _ _ Hf) Hld; [|lia]. unfold within. simpl. lia. }
      { apply moved_nil. lia. }
      rewrite !loc_add_0. iApply ("H" with "Hw"). rewrite !Z.add_0_r. iSplit.
      + iIntros (f2) "%Hf2 Hw". iSplit; [done|]. iFrame "Ht". iSplit; [done|]. iExists f2. iFrame "Hw". iPureIntro.
        replace (x + Z.of_nat (j + c)) with (x + Z.of_nat j + Z.of_nat c) by lia.
        apply (moved_app x (x + Z.of_nat j) _ d f f1 f2); [lia|lia|lia|done|].
        by replace (d + (x + Z.of_nat j - x)) with (d + Z.of_nat j) by lia.
      + iIntros (f2) "%Hf2 Hw". iSplit; [done|]. iFrame "Ht". iExists f1, f2. iFrame "Hw". iPureIntro. tauto.
    - intros j k Hj Hk Hk1 Hk2. rewrite refs_length in Hj. iIntros "[Ht HI]". iDestruct "HI" as (f1 f2) "(%Hf & Hw)".
      destruct Hf as (Hf1 & Hf2 & Hn).
      unfold undo_out. wbind.
      iApply (wp_compose _ _ _ _ (d + Z.of_nat j) with "Ht"); [lia|lia|lia|done|]. iIntros "Ht". wbeta.
      iApply (wp_s_destroy_a _ _ d (d + Z.of_nat j) f2 with "[$Ht $Hw]"); [lia|lia|lia| |].
      { intros i Hi. rewrite Hf2 (mv_live _ _ _ _ _ Hf1). unfold within. lia. }
      iIntros (f3) "%Hc [Ht Hw]". iSplit; [done|]. iFrame "Ht". iExists f3. iFrame "Hw". iPureIntro. split; [|done].
      intros i. rewrite (cl_live _ _ _ _ Hc) Hf2 (mv_live _ _ _ _ _ Hf1).
      destruct (decide (d <= i < d + Z.of_nat j)) as [Hi|Hi].
      { rewrite (Hld i); [|lia]. unfold within. lia. }
      unfold within. destruct (live f i); lia.
    - done.
    - by rewrite refs_length.
    - iFrame "Ht". iExists f. iFrame "Hw". iPureIntro. apply moved_nil. lia.
    - rewrite refs_length. iApply (wp_wand with "H"). iSplit.
      + iIntros (r s') "(%Hs & %Hr & Ht & H)". iDestruct "H" as (f') "[%Hf Hw]". iSplit; [done|]. iSplit; [done|].
        iExists f'. iFrame. done.
      + iIntros (e s') "(%Hs & Ht & H)". iDestruct "H" as (f') "[%Hf Hw]". iSplit; [done|]. iExists f'. iFrame. done.
  Qed.

  (** private.hpp 1975-2044 [uninitialized_move_a]. *)
  Lemma wp_s_umove t segs a b d f s Q X :
    0 <= a -> a <= b -> b < slots segs -> 0 <= d -> d + (b - a) < slots segs ->
    (forall i, a <= i < b -> live f i = true) ->
    (forall i, d <= i < d + (b - a) -> live f i = false) ->
    swin t segs f ⊢
    ((∀ f', ⟦moved a b d f f'⟧ -∗ swin t segs f' -∗ Q (sitr t segs (d + (b - a))) s) ∧
     (∀ f', ⟦shaken f f' /\ (nothrow_move = false /\ a < b)⟧ -∗ swin t segs f' -∗ X EUser s)) -∗
    wp (s_umove (sitr t segs a) (sitr t segs b) (sitr t segs d)) s Q X.
  Proof.
    intros Ha Hab Hb Hd Hds Hla Hld.
    assert (a = b \/ b <= d \/ d + (b - a) <= a) as Hdis.
    { destruct (decide (a = b)) as [|Hn0]; [by left|]. right.
      destruct (decide (b <= d)) as [|Hn1]; [by left|]. right.
      destruct (decide (d + (b - a) <= a)) as [|Hn2]; [done|].
      pose proof (Hla (Z.max a d) ltac:(lia)). pose proof (Hld (Z.max a d) ltac:(lia)). congruence. }
    iIntros "[Ht Hw] HK".
    iAssert (table t segs ∗ ∃ f', ⟦moved a a d f f'⟧ ∗ win (saddr segs) 0 (slots segs) f')%I with "[Ht Hw]" as "H".
    { iFrame "Ht". iExists f. iFrame. iPureIntro. apply moved_nil. lia. }
    pose proof (wp_seg_in (fun p q d => srcs <- range AMove p q;; s_ucopy_ra srcs d)%prog
        (fun r => s_destroy_a (sitr t segs d) r) t segs a b (fun x => sitr t segs (d + (x - a)))
        (fun x => ∃ f', ⟦moved a x d f f'⟧ ∗ win (saddr segs) 0 (slots segs) f')%I
        (fun x => ∃ f1 f', ⟦moved a x d f f1 /\ shaken f1 f' /\ (nothrow_move = false /\ a < b)⟧ ∗ win (saddr segs) 0 (slots segs) f')%I
        (∃ f', ⟦shaken f f' /\ (nothrow_move = false /\ a < b)⟧ ∗ win (saddr segs) 0 (slots segs) f')%I s) as Hin. cbv beta in Hin.
    replace (d + (a - a)) with d in Hin by lia.
    iApply (wp_use with "H"); [apply Hin; clear Hin| clear Hin].
    - intros x y p Hx Hxy Hy Hc. iIntros "[Ht HI]". iDestruct "HI" as (f1) "(%Hf & Hw)". wbind.
      assert (exists n : nat, y = x + Z.of_nat n) as [n ->] by (exists (Z.to_nat (y - x)); lia).
      iApply (wp_range _ _ _ n); [f_equal; lia|]. wbeta.
      destruct (decide (n = 0%nat)) as [->|Hn0].
      { simpl. iApply wp_ret. iSplit; [done|]. iSplit; [iPureIntro; f_equal; lia|]. iFrame "Ht".
        iExists f1. iFrame "Hw". by rewrite Z.add_0_r. }
      iPoseProof (s_umove_piece t segs p x n (d + (x - a)) f1 s with "[$Ht $Hw]") as "H".
      { done. } { lia. } { lia. } { lia. } { lia. }
      { intros i Hi. rewrite (mv_live _ _ _ _ _ Hf) Hla; [done|lia]. }
      { intros i Hi. rewrite (mv_live _ _ _ _ _ Hf) Hld; [|lia]. unfold within. simpl. lia. }
      { lia. }
      iApply (wp_wand with "H"). iSplit.
      + iIntros (r s') "(%Hs & %Hr & H)". iDestruct "H" as (f') "(%Hf' & Ht & Hw)". iSplit; [done|].
        iSplit; [iPureIntro; rewrite Hr; f_equal; lia|]. iFrame "Ht". iExists f'. iFrame "Hw". iPureIntro.
        apply (moved_app a x _ d f f1 f'); [lia|lia|lia|done|done].
      + iIntros (e s') "(%Hs & H)". iDestruct "H" as (f') "(%Hf' & Ht & Hw)". iSplit; [done|].
        iFrame "Ht". iExists f1, f'. iFrame "Hw". iPureIntro.
        assert (a < b) by lia. tauto.
    - intros x Hx1 Hx2. iIntros "[Ht HI]". iDestruct "HI" as (f1 f2) "(%Hf & Hw)".
      destruct Hf as (Hf1 & Hf2 & Hn).
      iApply (wp_s_destroy_a _ _ d (d + (x - a)) f2 with "[$Ht $Hw]"); [lia|lia|lia| |].
      { intros i Hi. rewrite Hf2 (mv_live _ _ _ _ _ Hf1). unfold within. lia. }
      iIntros (f3) "%Hc [Ht Hw]". iSplit; [done|]. iFrame "Ht". iExists f3. iFrame "Hw". iPureIntro. split; [|done].
      intros i. rewrite (cl_live _ _ _ _ Hc) Hf2 (mv_live _ _ _ _ _ Hf1).
      destruct (decide (d <= i < d + (x - a))) as [Hi|Hi].
      { rewrite (Hld i); [|lia]. unfold within. lia. }
      unfold within. destruct (live f i); lia.
    - iIntros "HI". iDestruct "HI" as (f1 f2) "(%Hf & Hw)". destruct Hf as (Hf1 & Hf2 & Hn).
      iExists f2. iFrame "Hw". iPureIntro. split; [|done]. intros i. rewrite Hf2 (mv_live _ _ _ _ _ Hf1).
      unfold within. destruct (live f i); lia.
    - done.
    - done.
    - done.
    - iSplit.
      + iIntros (r) "(%Hr & Ht & H)". subst r. iDestruct "H" as (f') "(%Hf & Hw)". iDestruct "HK" as "[HK _]".
        by iApply ("HK" with "[%] [$Ht $Hw]").
      + iIntros "(Ht & H)". iDestruct "H" as (f') "(%Hf & Hw)". iDestruct "HK" as "[_ HK]".
        by iApply ("HK" with "[%] [$Ht $Hw]").
  Qed.

  (** *** Forward, onto elements *)
  Lemma s_move_piece t segs p x n d f s :
    contig (saddr segs) x (x + Z.of_nat n) p ->
    0 <= x -> x + Z.of_nat n <= slots segs -> 0 <= d -> d + Z.of_nat n < slots segs ->
    (forall i, x <= i < x + Z.of_nat n -> live f i = true) ->
    (forall i, d <= i < d + Z.of_nat n -> live f i = true) ->
    (d < x \/ x + Z.of_nat n <= d) ->
    swin t segs f ⊢
    wp (s_copy_ra (refs AMove p n) (sitr t segs d)) s
      (keeps s (fun r => ⟦r = sitr t segs (d + Z.of_nat n)⟧ ∗
         ∃ f', ⟦moved x (x + Z.of_nat n) d f f'⟧ ∗ swin t segs f')%I)
      (fails s (∃ f', ⟦shaken f f'⟧ ∗ swin t segs f')).
  Proof.
    intros Hp Hx Hxs Hd Hds Hla Hld Hdis. iIntros "[Ht Hw]".
    iPoseProof (wp_seg_out copy (fun _ _ => ret tt) t segs d (refs AMove p n)
      (fun j => ∃ f', ⟦moved x (x + Z.of_nat j) d f f'⟧ ∗ win (saddr segs) 0 (slots segs) f')%I
      (fun _ => ∃ f', ⟦shaken f f'⟧ ∗ win (saddr segs) 0 (slots segs) f')%I
      (∃ f', ⟦shaken f f'⟧ ∗ win (saddr segs) 0 (slots segs) f')%I s with "[Ht Hw]") as "H".
    - intros j c q Hjc Hc. rewrite refs_length in Hjc. iIntros "[Ht HI]". iDestruct "HI" as (f1) "(%Hf & Hw)".
      rewrite refs_drop; [|lia]. rewrite refs_take; [|lia]. unfold copy.
      iPoseProof (wp_win_move_loop (saddr segs) 0 (slots segs) (x + Z.of_nat j) (d + Z.of_nat j)
        (p +ₗ Z.of_nat j) q c 0 f1 f1 s
        (keeps s (fun r => ⟦r = q +ₗ Z.of_nat c⟧ ∗ table t segs ∗
           ∃ f', ⟦moved x (x + Z.of_nat (j + c)) d f f'⟧ ∗ win (saddr segs) 0 (slots segs) f')%I)
        (fails s (table t segs ∗ ∃ f', ⟦shaken f f'⟧ ∗ win (saddr segs) 0 (slots segs) f'))) as "H".
      { intros i Hi. rewrite Hp; [|lia]. rewrite loc_add_assoc. f_equal. lia. }
      { intros i Hi. apply Hc. lia. }
      { lia. } { lia. } { lia. } { lia. } { lia. } { lia. }
      { intros i Hi. rewrite (mv_live _ _ _ _ _ Hf) Hla; [done|lia]. }
      { intros i Hi. rewrite (mv_live _ _ _ _ _ Hf) Hld; [done|lia]. }
      { apply moved_nil. lia. }
      rewrite !loc_add_0. iApply ("H" with "Hw"). rewrite !Z.add_0_r. iSplit.
      + iIntros (f2) "%Hf2 Hw". iSplit; [done|]. iFrame "Ht". iSplit; [done|]. iExists f2. iFrame "Hw". iPureIntro.
        replace (x + Z.of_nat (j + c)) with (x + Z.of_nat j + Z.of_nat c) by lia.
        apply (moved_app x (x + Z.of_nat j) _ d f f1 f2); [lia|lia|lia|done|].
        by replace (d + (x + Z.of_nat j - x)) with (d + Z.of_nat j) by lia.
      + iIntros (f2) "%Hf2 Hw". iSplit; [done|]. iFrame "Ht". iExists f2. iFrame "Hw". iPureIntro.
        eapply shaken_trans; [|done]. eapply moved_shaken; [done|]. intros i Hi. apply Hld. lia.
    - intros j k _ _ _ _. iIntros "H". iApply wp_ret. by iFrame.
    - done.
    - by rewrite refs_length.
    - iFrame "Ht". iExists f. iFrame "Hw". iPureIntro. apply moved_nil. lia.
    - rewrite refs_length. iApply (wp_wand with "H"). iSplit.
      + iIntros (r s') "(%Hs & %Hr & Ht & H)". iDestruct "H" as (f') "[%Hf Hw]". iSplit; [done|]. iSplit; [done|].
        iExists f'. iFrame. done.
      + iIntros (e s') "(%Hs & Ht & H)". iDestruct "H" as (f') "[%Hf Hw]". iSplit; [done|]. iExists f'. iFrame. done.
  Qed.

  (** private.hpp 949-1052 [move]. *)
  Lemma wp_s_move t segs a b d f s Q X :
    0 <= a -> a <= b -> b < slots segs -> 0 <= d -> d + (b - a) < slots segs ->
    (d < a \/ b <= d \/ a = b) ->
    (forall i, a <= i < b -> live f i = true) ->
    (forall i, d <= i < d + (b - a) -> live f i = true) ->
    swin t segs f ⊢
    ((∀ f', ⟦moved a b d f f'⟧ -∗ swin t segs f' -∗ Q (sitr t segs (d + (b - a))) s) ∧
     (∀ f', ⟦shaken f f' /\ a < b⟧ -∗ swin t segs f' -∗ X EUser s)) -∗
    wp (s_move (sitr t segs a) (sitr t segs b) (sitr t segs d)) s Q X.
  Proof.
    intros Ha Hab Hb Hd Hds Hdis Hla Hld. iIntros "[Ht Hw] HK".
    iAssert (table t segs ∗ ∃ f', ⟦moved a a d f f'⟧ ∗ win (saddr segs) 0 (slots segs) f')%I with "[Ht Hw]" as "H".
    { iFrame "Ht". iExists f. iFrame. iPureIntro. apply moved_nil. lia. }
    pose proof (wp_seg_in (fun p q d => srcs <- range AMove p q;; s_copy_ra srcs d)%prog
        (fun _ => ret tt) t segs a b (fun x => sitr t segs (d + (x - a)))
        (fun x => ∃ f', ⟦moved a x d f f'⟧ ∗ win (saddr segs) 0 (slots segs) f')%I
        (fun x => ∃ f', ⟦shaken f f' /\ a < b⟧ ∗ win (saddr segs) 0 (slots segs) f')%I
        (∃ f', ⟦shaken f f' /\ a < b⟧ ∗ win (saddr segs) 0 (slots segs) f')%I s) as Hin. cbv beta in Hin.
    replace (d + (a - a)) with d in Hin by lia.
    iApply (wp_use with "H"); [apply Hin; clear Hin| clear Hin].
    - intros x y p Hx Hxy Hy Hc. iIntros "[Ht HI]". iDestruct "HI" as (f1) "(%Hf & Hw)". wbind.
      assert (exists n : nat, y = x + Z.of_nat n) as [n ->] by (exists (Z.to_nat (y - x)); lia).
      iApply (wp_range _ _ _ n); [f_equal; lia|]. wbeta.
      destruct (decide (n = 0%nat)) as [->|Hn0].
      { simpl. iApply wp_ret. iSplit; [done|]. iSplit; [iPureIntro; f_equal; lia|]. iFrame "Ht".
        iExists f1. iFrame "Hw". by rewrite Z.add_0_r. }
      iPoseProof (s_move_piece t segs p x n (d + (x - a)) f1 s with "[$Ht $Hw]") as "H".
      { done. } { lia. } { lia. } { lia. } { lia. }
      { intros i Hi. rewrite (mv_live _ _ _ _ _ Hf) Hla; [done|lia]. }
      { intros i Hi. rewrite (mv_live _ _ _ _ _ Hf) Hld; [done|lia]. }
      { lia. }
      iApply (wp_wand with "H"). iSplit.
      + iIntros (r s') "(%Hs & %Hr & H)". iDestruct "H" as (f') "(%Hf' & Ht & Hw)". iSplit; [done|].
        iSplit; [iPureIntro; rewrite Hr; f_equal; lia|]. iFrame "Ht". iExists f'. iFrame "Hw". iPureIntro.
        apply (moved_app a x _ d f f1 f'); [lia|lia|lia|done|done].
      + iIntros (e s') "(%Hs & H)". iDestruct "H" as (f') "(%Hf' & Ht & Hw)". iSplit; [done|].
        iFrame "Ht". iExists f'. iFrame "Hw". iPureIntro. split; [|lia].
        eapply shaken_trans; [|done]. eapply moved_shaken; [done|]. intros i Hi. apply Hld. lia.
    - intros x _ _. iIntros "H". iApply wp_ret. by iFrame.
    - done.
    - done.
    - done.
    - done.
    - iSplit.
      + iIntros (r) "(%Hr & Ht & H)". subst r. iDestruct "H" as (f') "(%Hf & Hw)". iDestruct "HK" as "[HK _]".
        by iApply ("HK" with "[%] [$Ht $Hw]").
      + iIntros "(Ht & H)". iDestruct "H" as (f') "(%Hf & Hw)". iDestruct "HK" as "[_ HK]".
        by iApply ("HK" with "[%] [$Ht $Hw]").
  Qed.

  (** *** Backward *)
  Lemma wp_back_out_loop t segs fuel p x e n d k l f f1 s Q X :
    contig (saddr segs) x e p -> x + n <= e -> 0 <= x -> e <= slots segs ->
    0 < n -> 0 <= d -> d + (e - x) < slots segs ->
    (x < d \/ d + (e - x) <= x) ->
    (forall i, x <= i < e -> live f i = true) ->
    (forall i, d <= i < d + (e - x) -> live f i = true) ->
    moved (x + n) e (d + n) f f1 ->
    0 <= k -> k * SS <= d + n <= (k + 1) * SS -> l = (segs !!! Z.to_nat k) +ₗ (d + n - k * SS) ->
    (Z.of_nat fuel >= n \/ (Z.of_nat fuel >= n /\ False)) -> (d + n = k * SS -> Z.of_nat fuel > n) ->
    swin t segs f1 ⊢
    ((∀ f', ⟦moved x e d f f'⟧ -∗ swin t segs f' -∗ Q (sitr t segs d) s) ∧
     (∀ f', ⟦shaken f f'⟧ -∗ swin t segs f' -∗ X EUser s)) -∗
    wp (back_out_loop fuel p n (t +ₗ k) l) s Q X.
  Proof.
    intros Hp Hn Hx Hes Hn0 Hd Hds Hdis Hla Hld. pose proof SS_pos as HS. unfold slots in *.
    induction fuel as [|fuel IH] in n, k, l, f1, Hn, Hn0 |- *; intros Hmv Hk Hkd -> Hf1 Hf2; simpl.
    { exfalso. lia. }
    assert (k < Z.of_nat (length segs)) as Hkb by nia.
    iIntros "[Ht Hw] HK". wbind. iApply (wp_read_tbl with "Ht"); [done|lia|]. iIntros "Ht". wbeta.
    wbind. iApply (wp_psub _ _ (d + n - k * SS)); [done|]. wbeta.
    set (c := Z.min n (d + n - k * SS)).
    assert (0 <= c <= n) as Hc by lia.
    assert (k * SS <= d + (n - c)) as Hc2 by lia. wbind.
    iApply (wp_win_move_backward (saddr segs) 0 (SS * Z.of_nat (length segs)) (x + (n - c)) (x + n) (d + (n - c))
       (p +ₗ (n - c)) _ _ ((segs !!! Z.to_nat k) +ₗ (d + (n - c) - k * SS)) f1 with "Hw").
    { intros i Hi. rewrite Hp; [|lia]. rewrite loc_add_assoc. f_equal. lia. }
    { intros i Hi. rewrite (saddr_at _ i k (i - k * SS)); [rewrite loc_add_assoc; f_equal; lia|lia|lia]. }
    { rewrite loc_add_assoc. f_equal. lia. }
    { rewrite loc_add_assoc. f_equal. lia. }
    { lia. } { lia. } { lia. } { lia. } { lia. } { lia. }
    { intros i Hi. rewrite (mv_live _ _ _ _ _ Hmv) Hla; [done|lia]. }
    { intros i Hi. rewrite (mv_live _ _ _ _ _ Hmv) Hld; [done|lia]. }
    iSplit.
    - iIntros (f2) "%Hf Hw". wbeta.
      assert (moved (x + (n - c)) e (d + (n - c)) f f2) as Hmv2.
      { apply (moved_app_back (x + (n - c)) (x + n) e (d + (n - c)) f f1 f2); [lia|lia|lia| |done].
        by replace (d + (n - c) + (x + n - (x + (n - c)))) with (d + n) by lia. }
      destruct (Z.eqb_spec (n - c) 0) as [Hz|Hnz].
      + iApply (wp_compose _ _ _ _ d with "Ht"); [lia|lia|unfold slots; lia|f_equal; lia|]. iIntros "Ht".
        iDestruct "HK" as "[HK _]". iApply ("HK" with "[%] [$Ht $Hw]").
        by rewrite Hz !Z.add_0_r in Hmv2.
      + assert (1 <= k) as Hk1 by nia. wbind. rewrite loc_add_assoc.
        iApply (wp_read_tbl with "Ht"); [done|lia|]. iIntros "Ht". wbeta.
        iApply (IH (n - c) (k + -1) _ f2 with "[$Ht $Hw] HK"); [lia|lia|done|lia|lia| |lia|lia].
        f_equal. lia.
    - iIntros (f2) "%Hf Hw". iDestruct "HK" as "[_ HK]". iApply ("HK" with "[%] [$Ht $Hw]").
      eapply shaken_trans; [|done]. eapply moved_shaken; [done|]. intros i Hi. apply Hld. lia.
  Qed.
  Lemma wp_move_backward_out t segs p x e d f s Q X :
    contig (saddr segs) x e p -> x <= e -> 0 <= x -> e <= slots segs ->
    0 <= d -> d + (e - x) < slots segs ->
    (x < d \/ d + (e - x) <= x \/ x = e) ->
    (forall i, x <= i < e -> live f i = true) ->
    (forall i, d <= i < d + (e - x) -> live f i = true) ->
    swin t segs f ⊢
    ((∀ f', ⟦moved x e d f f'⟧ -∗ swin t segs f' -∗ Q (sitr t segs d) s) ∧
     (∀ f', ⟦shaken f f' /\ x < e⟧ -∗ swin t segs f' -∗ X EUser s)) -∗
    wp (move_backward_out p (p +ₗ (e - x)) (sitr t segs (d + (e - x)))) s Q X.
  Proof.
    intros Hp Hxe Hx Hes Hd Hds Hdis Hla Hld. pose proof SS_pos as HS. iIntros "Hw HK". unfold move_backward_out.
    wbind. iApply wp_range_len; [done|simpl; lia|]. simpl (p +ₗ _).2. wbeta.
    replace (p.2 + (e - x) - p.2) with (e - x) by lia.
    destruct (Z.to_nat (e - x)) as [|m] eqn:Hm.
    { assert (x = e) as -> by lia. iApply wp_ret. iDestruct "HK" as "[HK _]". rewrite Z.sub_diag Z.add_0_r.
      iApply ("HK" with "[%] Hw"). apply moved_nil. lia. }
    destruct (pos_split (d + (e - x))) as (k & r & Hk & Hr).
    pose proof (seg_bound (d + (e - x)) k r (Z.of_nat (length segs)) Hk Hr ltac:(unfold slots in *; lia)) as Hkb.
    rewrite (sitr_at _ _ (d + (e - x)) k r); [|done|done]. cbn [it_seg it_loc]. rewrite -Hm.
    replace (Z.of_nat (Z.to_nat (e - x))) with (e - x) by lia.
    iApply (wp_back_out_loop t segs (S (Z.to_nat (e - x))) p x e (e - x) d k _ f f with "Hw"); [done|lia|lia|lia|lia|lia|lia|lia|done|done| |lia|lia| |lia|lia|].
    { apply moved_nil. lia. }
    { f_equal. lia. }
    iSplit; [by iDestruct "HK" as "[HK _]"|]. iIntros (f') "%Hf Hw". iDestruct "HK" as "[_ HK]".
    iApply ("HK" with "[%] Hw"). split; [done|lia].
  Qed.

  (** What [s_move_backward] has done when positions from [x] on are finished. *)
  Lemma back_step t segs a x y b d p f f1 s Q X :
    contig (saddr segs) x y p -> a <= x -> x <= y -> y <= b -> 0 <= a -> b <= slots segs ->
    0 <= d -> d + (b - a) < slots segs -> (a < d \/ d + (b - a) <= a \/ a = b) ->
    (forall i, a <= i < b -> live f i = true) -> (forall i, d <= i < d + (b - a) -> live f i = true) ->
    moved y b (d + (y - a)) f f1 ->
    swin t segs f1 ⊢
    ((∀ f', ⟦moved x b (d + (x - a)) f f'⟧ -∗ swin t segs f' -∗ Q (sitr t segs (d + (x - a))) s) ∧
     (∀ f', ⟦shaken f f' /\ a < b⟧ -∗ swin t segs f' -∗ X EUser s)) -∗
    wp (move_backward_out p (p +ₗ (y - x)) (sitr t segs (d + (y - a)))) s Q X.
  Proof.
    intros Hp Hax Hxy Hyb Ha Hbs Hd Hds Hdis Hla Hld Hmv. iIntros "Hw HK".
    replace (d + (y - a)) with (d + (x - a) + (y - x)) by lia.
    iApply (wp_move_backward_out t segs p x y (d + (x - a)) f1 with "Hw"); [done|lia|lia|lia|lia|lia|lia| | |].
    { intros i Hi. rewrite (mv_live _ _ _ _ _ Hmv) Hla; [done|lia]. }
    { intros i Hi. rewrite (mv_live _ _ _ _ _ Hmv) Hld; [done|lia]. }
    iSplit.
    - iIntros (f') "%Hf Hw". iDestruct "HK" as "[HK _]". iApply ("HK" with "[%] Hw").
      apply (moved_app_back x y b (d + (x - a)) f f1 f'); [lia|lia|lia| |done].
      by replace (d + (x - a) + (y - x)) with (d + (y - a)) by lia.
    - iIntros (f') "%Hf Hw". destruct Hf as [Hf Hlt]. iDestruct "HK" as "[_ HK]". iApply ("HK" with "[%] Hw").
      split; [|lia]. eapply shaken_trans; [|done]. eapply moved_shaken; [done|]. intros i Hi. apply Hld. lia.
  Qed.
  Lemma wp_back_in_loop t segs a b d n k f f1 s Q X :
    0 <= k - Z.of_nat n -> a <= (k - Z.of_nat n) * SS -> k * SS <= b ->
    0 <= a -> b <= slots segs ->
    0 <= d -> d + (b - a) < slots segs -> (a < d \/ d + (b - a) <= a \/ a = b) ->
    (forall i, a <= i < b -> live f i = true) -> (forall i, d <= i < d + (b - a) -> live f i = true) ->
    moved (k * SS) b (d + (k * SS - a)) f f1 ->
    swin t segs f1 ⊢
    ((∀ f', ⟦moved ((k - Z.of_nat n) * SS) b (d + ((k - Z.of_nat n) * SS - a)) f f'⟧ -∗ swin t segs f' -∗
        Q (sitr t segs (d + ((k - Z.of_nat n) * SS - a))) s) ∧
     (∀ f', ⟦shaken f f' /\ a < b⟧ -∗ swin t segs f' -∗ X EUser s)) -∗
    wp (back_in_loop n (t +ₗ (k - 1)) (sitr t segs (d + (k * SS - a)))) s Q X.
  Proof.
    intros Hk Hak Hkb Ha Hbs Hd Hds Hdis Hla Hld. pose proof SS_pos as HS. unfold slots in *.
    induction n as [|n IH] in k, f1, Hk, Hak, Hkb |- *; intros Hmv; simpl.
    { iIntros "Hw HK". iApply wp_ret. iDestruct "HK" as "[HK _]".
      replace (k - Z.of_nat 0) with k by lia. by iApply ("HK" with "[%] Hw"). }
    assert (k - 1 < Z.of_nat (length segs)) as Hkl by nia.
    assert (a <= (k - 1) * SS) as Hak1 by nia.
    iIntros "[Ht Hw] HK". wbind. iApply (wp_read_tbl with "Ht"); [done|lia|]. iIntros "Ht". wbeta. wbind.
    replace ((segs !!! Z.to_nat (k - 1)) +ₗ SS) with ((segs !!! Z.to_nat (k - 1)) +ₗ (k * SS - (k - 1) * SS)) by (f_equal; lia).
    iApply (back_step t segs a ((k - 1) * SS) (k * SS) b d _ f f1 with "[$Ht $Hw]"); [|lia|lia|lia|lia|unfold slots; lia|lia|unfold slots; lia|lia|done|done|done|].
    { intros i Hi. rewrite (saddr_at _ i (k - 1) (i - (k - 1) * SS)); [done|lia|lia]. }
    iSplit.
    - iIntros (f') "%Hf Hw". wbeta. rewrite loc_add_assoc. replace (k - 1 + -1) with (k - 1 - 1) by lia.
      replace (k - Z.of_nat (S n)) with (k - 1 - Z.of_nat n) by lia.
      iApply (IH (k - 1) f' with "Hw HK"); [lia|replace (k - 1 - Z.of_nat n) with (k - Z.of_nat (S n)) by lia; lia|lia|done].
    - iDestruct "HK" as "[_ HK]". done.
  Qed.

  (** private.hpp 1118-1168 [move_backward]. *)
  Lemma wp_s_move_backward t segs a b d f s Q X :
    0 <= a -> a <= b -> b < slots segs -> 0 <= d -> d + (b - a) < slots segs ->
    (a < d \/ d + (b - a) <= a \/ a = b) ->
    (forall i, a <= i < b -> live f i = true) ->
    (forall i, d <= i < d + (b - a) -> live f i = true) ->
    swin t segs f ⊢
    ((∀ f', ⟦moved a b d f f'⟧ -∗ swin t segs f' -∗ Q (sitr t segs d) s) ∧
     (∀ f', ⟦shaken f f' /\ a < b⟧ -∗ swin t segs f' -∗ X EUser s)) -∗
    wp (s_move_backward (sitr t segs a) (sitr t segs b) (sitr t segs (d + (b - a)))) s Q X.
  Proof.
    intros Ha Hab Hb Hd Hds Hdis Hla Hld. pose proof SS_pos as HS. iIntros "[Ht Hw] HK".
    destruct (pos_split a) as (k & r & Hk & Hr). destruct (pos_split b) as (k2 & r2 & Hk2 & Hr2).
    pose proof (seg_bound a k r (Z.of_nat (length segs)) Hk Hr ltac:(unfold slots in *; lia)) as Hkb.
    pose proof (seg_bound b k2 r2 (Z.of_nat (length segs)) Hk2 Hr2 ltac:(unfold slots in *; lia)) as Hkb2.
    assert (k <= k2) as Hkk by nia. unfold s_move_backward.
    rewrite (sitr_at _ _ a k r) // (sitr_at _ _ b k2 r2) //. cbn [it_seg it_loc].
    rewrite loc_eqb_add. destruct (Z.eqb_spec k k2) as [He|Hne].
    - replace ((segs !!! Z.to_nat k2) +ₗ r2) with ((segs !!! Z.to_nat k) +ₗ r +ₗ (b - a)).
      2:{ rewrite loc_add_assoc -He. f_equal. subst k2. lia. }
      iApply (wp_move_backward_out t segs _ a b d f with "[$Ht $Hw] HK"); [|lia|lia|unfold slots in *; lia|lia|lia|lia|done|done].
      intros i Hi. rewrite (saddr_at _ i k (r + (i - a))); [by rewrite loc_add_assoc|lia|subst k2; lia].
    - wbind. iApply (wp_read_tbl with "Ht"); [done|lia|]. iIntros "Ht". wbeta. wbind.
      replace ((segs !!! Z.to_nat k2) +ₗ r2) with ((segs !!! Z.to_nat k2) +ₗ (b - k2 * SS)) by (f_equal; lia).
      iApply (back_step t segs a (k2 * SS) b b d _ f f with "[$Ht $Hw]"); [|nia|lia|lia|lia|unfold slots in *; lia|lia|lia|lia|done|done|apply moved_nil; lia|].
      { intros i Hi. rewrite (saddr_at _ i k2 (i - k2 * SS)); [done|lia|lia]. }
      iSplit; [|by iDestruct "HK" as "[_ HK]"].
      iIntros (f1) "%Hf1 Hw". wbeta. wbind.
      iApply wp_range_len; [done|simpl; lia|]. wbeta. rewrite !loc_add_assoc.
      replace (Z.to_nat ((t +ₗ (k2 + -1)).2 - (t +ₗ k).2)) with (Z.to_nat (k2 - 1 - k)) by (simpl; lia).
      replace (k2 + -1) with (k2 - 1) by lia. wbind.
      assert (k2 - Z.of_nat (Z.to_nat (k2 - 1 - k)) = k + 1) as Hkk1 by lia.
      iApply (wp_back_in_loop t segs a b d (Z.to_nat (k2 - 1 - k)) k2 f f1 with "Hw");
        [lia|rewrite Hkk1; lia|lia|lia|unfold slots in *; lia|lia|lia|lia|done|done|done|].
      rewrite Hkk1. iSplit; [|by iDestruct "HK" as "[_ HK]"].
      iIntros (f2) "%Hf2 [Ht Hw]". wbeta. wbind.
      iApply (wp_read_tbl with "Ht"); [done|lia|]. iIntros "Ht". wbeta.
      replace ((segs !!! Z.to_nat k) +ₗ SS) with ((segs !!! Z.to_nat k) +ₗ r +ₗ ((k + 1) * SS - a)) by (rewrite loc_add_assoc; f_equal; lia).
      iApply (back_step t segs a a ((k + 1) * SS) b d _ f f2 with "[$Ht $Hw]");
        [|lia|nia|nia|lia|unfold slots in *; lia|lia|lia|lia|done|done|done|].
      { intros i Hi. rewrite (saddr_at _ i k (r + (i - a))); [by rewrite loc_add_assoc|lia|lia]. }
      replace (d + (a - a)) with d by lia. done.
  Qed.
End shift.
