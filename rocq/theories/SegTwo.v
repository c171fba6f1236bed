(** * Segmented containers: construction, destruction, functions of two objects *)

From Verif Require Export SegAccess.
From Coq Require Import ZifyBool.
From iris.proofmode Require Import environments tactics.
Open Scope Z_scope.
Notation frame := SegGrow.frame.

(** ** Moving out of another container *)
Section umove.
  Context `{E : Env} `{SZ : SegSize}.
  Context {St : Type}.
  Implicit Types s : St.
  Implicit Types segs : list loc.
  Implicit Types f g : Z -> option V.

  (** private.hpp 1975-2044 [uninitialized_move_a]. *)
  Lemma wp_s_umove_from t2 segs2 p2 vs t segs d f s Q X :
    0 <= p2 -> p2 + zlen vs < slots segs2 ->
    0 <= d -> d + zlen vs < slots segs -> (forall i, d <= i < d + zlen vs -> live f i = false) ->
    swin t2 segs2 (at_pos p2 vs) ⊢ swin t segs f -∗
    ((∀ f', ⟦stored d vs f f'⟧ -∗ swin t2 segs2 (at_pos p2 (vmoved <$> vs)) -∗ swin t segs f' -∗
        Q (sitr t segs (d + zlen vs)) s) ∧
     (∀ vs', ⟦length vs' = length vs /\ nothrow_move = false⟧ -∗ swin t2 segs2 (at_pos p2 vs') -∗ swin t segs f -∗ X EUser s)) -∗
    wp (s_umove (sitr t2 segs2 p2) (sitr t2 segs2 (p2 + zlen vs)) (sitr t segs d)) s Q X.
  Proof.
    intros Ha Hb Hd Hs Hl. iIntros "[Ht2 Hg] Hw HK".
    set (G := fun x => win (saddr segs2) 0 (slots segs2) (taken p2 vs (within 0 (x - p2)))).
    set (GX := (∃ g, ⟦shaken (at_pos p2 vs) g /\ nothrow_move = false⟧ ∗ win (saddr segs2) 0 (slots segs2) g)%I : hProp).
    iAssert (table t2 segs2 ∗ ∃ f', ⟦stored d (take (Z.to_nat (p2 - p2)) vs) f f'⟧ ∗ G p2 ∗ swin t segs f')%I
      with "[Ht2 Hg Hw]" as "H".
    { iFrame "Ht2". iExists f. iFrame "Hw". iSplit.
      - iPureIntro. rewrite Z.sub_diag. apply stored_nil.
      - iApply (win_eq with "Hg"). intros i _. unfold taken. rewrite Z.sub_diag.
        by replace (within 0 0 (i - p2)) with false by (unfold within; lia). }
    pose proof (wp_seg_in (fun p q d => srcs <- range AMove p q;; s_ucopy_ra srcs d)%prog
        (fun r => s_destroy_a (sitr t segs d) r) t2 segs2 p2 (p2 + zlen vs) (fun x => sitr t segs (d + (x - p2)))
        (fun x => ∃ f', ⟦stored d (take (Z.to_nat (x - p2)) vs) f f'⟧ ∗ G x ∗ swin t segs f')%I
        (fun x => ∃ f', ⟦stored d (take (Z.to_nat (x - p2)) vs) f f'⟧ ∗ GX ∗ swin t segs f')%I
        (GX ∗ swin t segs f)%I s) as Hin. cbv beta in Hin.
    replace (d + (p2 - p2)) with d in Hin by lia.
    iApply (wp_use with "H"); [apply Hin; clear Hin| clear Hin].
    - intros x y p Hx Hxy Hy Hc. iIntros "[Ht HI]". iDestruct "HI" as (f1) "(%Hf & HG & Hw)". wbind.
      assert (exists n : nat, y = x + Z.of_nat n) as [n ->] by (exists (Z.to_nat (y - x)); lia).
      iApply (wp_range _ _ _ n); [f_equal; lia|]. wbeta.
      rewrite (refs_addr _ (saddr segs2) _ x); [|done].
      destruct (moves_mk t2 segs2 p2 vs (within 0 (x - p2)) (x - p2) n) as (P' & HP & HP');
        [lia|lia|lia|lia|intros i Hi; unfold within; lia|].
      assert (zlen (slice (x - p2) (x - p2 + Z.of_nat n) vs) = Z.of_nat n) as Hsl by (rewrite slice_length; lia).
      replace ((fun i => AMove (saddr segs2 i)) <$> seqZ x (Z.of_nat n))
        with ((fun i => AMove (saddr segs2 (p2 + i))) <$> seqZ (x - p2) (Z.of_nat n)).
      2:{ replace (seqZ x (Z.of_nat n)) with (Z.add p2 <$> seqZ (x - p2) (Z.of_nat n)); [by rewrite -list_fmap_compose|]. rewrite fmap_add_seqZ. f_equal. lia. }
      iApply (wp_s_ucopy_ra _ _ _ _ P' t segs (d + (x - p2)) f1 with "[Ht HG] Hw"); [exact HP|lia|lia| |by iFrame|].
      { intros i Hi. rewrite (st_live _ _ _ _ Hf) Hl; [|lia]. rewrite take_length. unfold within. simpl. lia. }
      rewrite Hsl. iSplit.
      + iIntros (f2) "%Hf2 HP Hw". iSplit; [done|]. iDestruct (HP' with "HP") as "[$ HG]".
        iSplit; [iPureIntro; f_equal; lia|].
        iExists f2. iFrame "Hw". iSplit.
        * iPureIntro. replace (Z.to_nat (x + Z.of_nat n - p2)) with (Z.to_nat (x - p2) + n)%nat by lia. rewrite take_more.
          eapply stored_app; [done|]. rewrite take_length.
          replace (Z.of_nat (Z.to_nat (x - p2) `min` length vs)) with (x - p2) by lia.
          unfold slice in Hf2. by replace (Z.to_nat (x - p2 + Z.of_nat n - (x - p2))) with n in Hf2 by lia.
        * iApply (win_eq with "HG"). intros i _. unfold taken, mark.
          replace (within 0 (x - p2) (i - p2) || within (x - p2) (x - p2 + Z.of_nat n) (i - p2))
            with (within 0 (x + Z.of_nat n - p2) (i - p2)) by (unfold within; lia). done.
      + iIntros "HP Hw". iSplit; [done|]. iDestruct "HP" as (g) "(%Hg & $ & HG)". iExists f1. iFrame "Hw".
        iSplit; [done|]. iExists g. by iFrame.
    - intros x Hx1 Hx2. iIntros "[Ht HI]". iDestruct "HI" as (f1) "(%Hf & HG & Hw)".
      assert (length (take (Z.to_nat (x - p2)) vs) = Z.to_nat (x - p2)) as Hlx by (rewrite take_length; lia).
      iApply (wp_s_destroy_a _ _ d (d + (x - p2)) f1 with "Hw"); [lia|lia|lia| |].
      { intros i Hi. rewrite (st_live _ _ _ _ Hf) Hlx. unfold within. lia. }
      iIntros (f2) "%Hc Hw". iSplit; [done|]. iFrame "Ht HG".
      iApply (swin_undone with "Hw"); [exact Hf| |]; rewrite Hlx.
      { by replace (d + Z.of_nat (Z.to_nat (x - p2))) with (d + (x - p2)) by lia. }
      intros i Hi. apply Hl. lia.
    - iIntros "HI". iDestruct "HI" as (f1) "(%Hf & $ & $ & Hw)". iApply (win_eq with "Hw").
      intros i _. rewrite Z.sub_diag in Hf. simpl in Hf. apply (st_rest _ _ _ _ Hf). simpl. lia.
    - lia.
    - lia.
    - lia.
    - iSplit.
      + iIntros (r) "(%Hr & Ht & H)". subst r. iDestruct "H" as (f') "(%Hf & HG & Hw)". iDestruct "HK" as "[HK _]".
        replace (p2 + zlen vs - p2) with (zlen vs) by lia.
        iApply ("HK" with "[%] [$Ht HG] Hw"); [rewrite take_ge in Hf; [done|lia]|].
        iApply (win_eq with "HG"). intros i _. apply taken_all. intros j Hj. unfold within. lia.
      + iIntros "(Ht & HG & Hw)". iDestruct "HG" as (g) "[%Hg HG]". destruct Hg as [Hg Hn].
        destruct (DevProofs.shaken_list _ _ _ Hg) as (vs' & Hl' & Hf').
        iDestruct "HK" as "[_ HK]". iApply ("HK" $! vs' with "[//] [$Ht HG] Hw").
        iApply (win_eq with "HG"). intros i _. apply Hf'.
  Qed.
End umove.

(** ** Construction and destruction *)
Section construction.
  Context `{E : Env} `{SZ : SegSize}.
  Implicit Types segs new : list loc.
  Implicit Types T : tab.
  Implicit Types o : sgdata.

  (** Exceptions of a constructor of [n] elements. *)
  Definition init_exn (n : Z) (e : exn) : Prop :=
    match e with ELength => max_size < n | EOutOfRange => False | _ => True end.
  (** Storage just allocated for [n] elements. *)
  Definition new_tab (a : nat) (n : Z) T segs : Prop := t_al T = a /\ t_pre T = 0 /\ zlen segs = n / SS + 1.

  Lemma new_slots a n T segs : 0 <= n -> new_tab a n T segs -> n < slots segs.
  Proof.
    intros Hn (_ & _ & Hs). unfold slots. rewrite Hs. pose proof SS_pos.
    assert (SS <> 0) as Hss by lia. pose proof (Z.div_mod n SS Hss). pose proof (Z.mod_pos_bound n SS SS_pos). nia.
  Qed.

  Lemma wp_allocate_new o n Q X :
    0 <= n ->
    ((∀ T segs, ⟦new_tab (sg_alloc o) n T segs⟧ -∗ sg_at T segs 0 [] -∗ Q tt (sobj T segs 0 0)) ∧
     (∀ e o', ⟦init_exn n e /\ e <> EUser⟧ -∗ X e o')) ⊢
    wp (sq_allocate_storage n) o Q X.
  Proof.
    iIntros (Hn) "HK". iApply wp_allocate_storage; [done|]. iSplit.
    - iIntros (T segs) "%H Hs". iDestruct "HK" as "[HK _]". iApply ("HK" with "[%] Hs"). unfold new_tab. tauto.
    - iIntros (e o') "%H". iDestruct "HK" as "[_ HK]". iApply "HK". iPureIntro. destruct H as [[-> H]| ->]; done.
  Qed.
  Lemma wp_free T segs p m p2 Q X :
    sg_at T segs p2 [] ⊢ (∀ s, Q tt s) -∗ wp sq_deallocate_storage (sobj T segs p m) Q X.
  Proof.
    iIntros "Hs HQ". iDestruct (sg_at_open with "Hs") as "(%Hb & Hf & Hw)".
    iApply (wp_deallocate_storage T segs p m (at_pos p2 []) with "[$Hf $Hw]"); [|by iApply "HQ"].
    intros i Hi. apply live_out. simpl. lia.
  Qed.
  Lemma wp_sq_destructor T segs p l Q X :
    sg_at T segs p l ⊢ (∀ s, Q tt s) -∗ wp sq_destructor (sobj T segs p (zlen l)) Q X.
  Proof.
    sopen. unfold sq_destructor. do 4 sstep.
    iApply (wp_deallocate_storage T segs p (zlen l) f' with "[$Hf $Hw]"); [|by iApply "HK"].
    intros i Hi. rewrite (cl_live _ _ _ _ H) live_at_pos. unfold within. lia.
  Qed.

  (** v 1102-1143, d 1585-1626. *)
  Lemma wp_sq_init_fill o (n : nat) a v Q X :
    mk_ok emp emp a v emp ->
    ((∀ T segs, ⟦new_tab (sg_alloc o) (Z.of_nat n) T segs⟧ -∗ sg_at T segs 0 (replicate n v) -∗
        Q tt (sobj T segs 0 (zlen (replicate n v)))) ∧
     (∀ e o', ⟦init_exn (Z.of_nat n) e⟧ -∗ X e o')) ⊢
    wp (sq_init_fill (Z.of_nat n) a) o Q X.
  Proof.
    iIntros (Ha) "HK". unfold sq_init_fill. wbind. iApply wp_allocate_new; [lia|]. iSplit.
    2:{ iIntros (e o') "%H". iDestruct "HK" as "[_ HK]". iApply "HK". iPureIntro. tauto. }
    iIntros (T segs) "%Hn Hs". wbeta. pose proof (new_slots _ _ _ _ (Nat2Z.is_nonneg n) Hn) as Hsl.
    iDestruct (sg_at_open with "Hs") as "(_ & Hf & Hw)". iApply wp_try. rewrite Nat2Z.id. do 2 sstep.
    wbind. iApply (wp_s_ufill_n_a _ _ _ _ _ emp%I with "[//] Hw"); [exact Ha|lia|lia| |].
    { intros i Hi. apply live_out. simpl. lia. }
    iSplit.
    - iIntros (f') "%Hst _ Hw". wbeta. sstep. iDestruct "HK" as "[HK _]".
      replace (sobj T segs 0 (0 + Z.of_nat n - 0)) with (sobj T segs 0 (zlen (replicate n v))) by (f_equal; len; lia).
      iApply ("HK" with "[//]"). iApply (sg_at_close with "Hf [Hw]"); [lia|len; lia|].
      iApply (swin_eq with "Hw"). intros i. by rewrite (stored_back 0 [] (replicate n v) f').
    - iIntros "_ Hw". wbeta. iDestruct (sg_at_close with "Hf Hw") as "Hs"; [lia|simpl; lia|].
      iApply (wp_free with "Hs"). iIntros (s). iDestruct "HK" as "[_ HK]". by iApply ("HK" $! EUser).
  Qed.
  (** v 1165-1207, d 1648-1690. *)
  Lemma wp_sq_init_range W WX vs sub o Q X :
    feeds W WX vs sub ->
    W none_of ⊢
    ((∀ T segs C, ⟦new_tab (sg_alloc o) (zlen vs) T segs⟧ -∗ W C -∗ sg_at T segs 0 vs -∗
        Q tt (sobj T segs 0 (zlen vs))) ∧
     (∀ e o', ⟦init_exn (zlen vs) e⟧ -∗ WX -∗ X e o')) -∗
    wp (sq_init_range (zlen vs) (sub 0 (zlen vs))) o Q X.
  Proof.
    iIntros (Hfd) "HW HK". unfold sq_init_range. wbind. iApply wp_allocate_new; [lia|]. iSplit.
    2:{ iIntros (e o') "%H". iDestruct "HK" as "[_ HK]". iApply ("HK" with "[%]"); [tauto|].
        by iApply (fd_abort _ _ _ _ Hfd). }
    iIntros (T segs) "%Hn Hs". wbeta. pose proof (new_slots _ _ _ _ (Nat2Z.is_nonneg (length vs)) Hn) as Hsl.
    iDestruct (sg_at_open with "Hs") as "(_ & Hf & Hw)". iApply wp_try. do 2 sstep.
    wbind. iApply (fd_ucopy _ _ _ _ Hfd with "HW Hw"); [lia|lia|done|lia|lia| |].
    { intros i Hi. apply live_out. simpl. lia. }
    iSplit.
    - iIntros (f') "%Hst HW Hw". rewrite slice_all in Hst. wbeta. sstep. iDestruct "HK" as "[HK _]".
      replace (sobj T segs 0 (0 + (zlen vs - 0) - 0)) with (sobj T segs 0 (zlen vs)) by (f_equal; lia).
      iApply ("HK" with "[//] HW"). iApply (sg_at_close with "Hf [Hw]"); [lia|lia|].
      iApply (swin_eq with "Hw"). intros i. by rewrite (stored_back 0 [] vs f').
    - iIntros "HW Hw". wbeta. iDestruct (sg_at_close with "Hf Hw") as "Hs"; [lia|simpl; lia|].
      iApply (wp_free with "Hs"). iIntros (s). iDestruct "HK" as "[_ HK]". by iApply ("HK" $! EUser s with "[] HW").
  Qed.
  (** v 1143-1163, d 1626-1646. *)
  Lemma wp_sq_init_input o vs Q X :
    ((∀ T segs, ⟦t_al T = sg_alloc o /\ t_pre T = 0⟧ -∗ sg_at T segs 0 vs -∗ Q tt (sobj T segs 0 (zlen vs))) ∧
     (∀ e o', ⟦init_exn (zlen vs) e⟧ -∗ X e o')) ⊢
    wp (sq_init_input (AVal <$> vs)) o Q X.
  Proof.
    iIntros "HK". unfold sq_init_input. wbind. iApply wp_allocate_new; [lia|]. iSplit.
    2:{ iIntros (e o') "%H". iDestruct "HK" as "[_ HK]". iApply "HK". iPureIntro.
        destruct H as [H _]. destruct e; simpl in *; try done. lia. }
    iIntros (T segs) "%Hn Hs". wbeta. destruct Hn as (Hal & Hpre & Hz). iApply wp_try.
    change (sobj T segs 0 0) with (sobj T segs 0 (zlen (@nil V))).
    iApply (loop_append T segs 0 [] vs (0 + zlen (@nil V) + zlen vs) with "Hs"); [done|]. iSplit.
    - iIntros (T' new) "%H' Hs". destruct H' as [[H1 H2] _]. iDestruct "HK" as "[HK _]". simpl app.
      iApply ("HK" with "[%] Hs"). split; congruence.
    - iIntros (e T' new l') "%H' Hs". destruct H' as (HT & [_ He] & _). wbeta. wbind.
      iApply (keep_clear with "Hs"). iSplit; [|by iIntros (l2) "%"].
      iIntros "Hs". wbeta. iApply (wp_free with "Hs"). iIntros (s). iDestruct "HK" as "[_ HK]". iApply "HK".
      iPureIntro. destruct e; simpl in *; try done.
  Qed.
End construction.

Section two.
  Context `{E : Env} `{SZ : SegSize}.
  Implicit Types segs new : list loc.
  Implicit Types T : tab.
  Implicit Types o : sgdata.

  Lemma feeds_seg_all t2 segs2 p2 (vs : list V) :
    SSeg (sitr t2 segs2 p2) (sitr t2 segs2 (p2 + zlen vs)) =
    (fun a b => SSeg (sitr t2 segs2 (p2 + a)) (sitr t2 segs2 (p2 + b))) 0 (zlen vs).
  Proof. cbv beta. by rewrite Z.add_0_r. Qed.
  Lemma wp_size2 {A} o1 T segs p l (k : Z -> M (sgdata * sgdata) A) Q X :
    sg_at T segs p l ⊢
    (sg_at T segs p l -∗ wp (k (zlen l)) (o1, sobj T segs p (zlen l)) Q X) -∗
    wp (n <- on2 sq_size;; k n)%prog (o1, sobj T segs p (zlen l)) Q X.
  Proof.
    sopen. wbind. iApply wp_on2. iApply (wp_sq_size with "Hw"); [lia..|]. iIntros "Hw". wbeta.
    iApply "HK". iApply (sg_at_close with "Hf Hw"); lia.
  Qed.

  (** v 1188-1207, d 1671-1690. *)
  Lemma wp_sq_initialize_copy o1 T2 segs2 p2 l2 Q X :
    sg_at T2 segs2 p2 l2 ⊢
    ((∀ T segs, ⟦new_tab (sg_alloc o1) (zlen l2) T segs⟧ -∗ sg_at T segs 0 l2 -∗ sg_at T2 segs2 p2 l2 -∗
        Q tt (sobj T segs 0 (zlen l2), sobj T2 segs2 p2 (zlen l2))) ∧
     (∀ e o', ⟦init_exn (zlen l2) e⟧ -∗ sg_at T2 segs2 p2 l2 -∗ X e (o', sobj T2 segs2 p2 (zlen l2)))) -∗
    wp sq_initialize_copy (o1, sobj T2 segs2 p2 (zlen l2)) Q X.
  Proof.
    iIntros "Hs HK". unfold sq_initialize_copy. wbind. iApply wp_get. wbeta. cbn [fst snd].
    iApply (wp_size2 with "Hs"). iIntros "Hs". iApply wp_on1. sred. rewrite feeds_seg_all.
    iDestruct (sg_at_open with "Hs") as "(%Hb & Hf & Hw)". destruct Hb as [Hp Hb].
    iApply (wp_sq_init_range _ _ _ _ _ _ _ (feeds_seg (t_at T2) segs2 p2 l2 Hp Hb) with "Hw"). iSplit.
    - iIntros (T segs C) "%Hn Hw Hs". iDestruct "HK" as "[HK _]". iApply ("HK" with "[//] Hs").
      iApply (sg_at_close with "Hf Hw"); lia.
    - iIntros (e o') "%He Hw". iDestruct "HK" as "[_ HK]". iApply ("HK" with "[//]").
      iApply (sg_at_close with "Hf Hw"); lia.
  Qed.

  (** v 1209-1237, d 1692-1720. *)
  Lemma wp_sq_initialize_move_same o1 T2 segs2 p2 l2 Q X :
    sg_alloc o1 = t_al T2 ->
    sg_at T2 segs2 p2 l2 ⊢
    ((∀ T segs, ⟦new_tab (t_al T2) 0 T segs⟧ -∗ sg_at T2 segs2 p2 l2 -∗ sg_at T segs 0 [] -∗
        Q tt (sobj T2 segs2 p2 (zlen l2), sobj T segs 0 0)) ∧
     (∀ o', sg_at T2 segs2 p2 l2 -∗ X EBadAlloc (o', sobj T2 segs2 p2 (zlen l2)))) -∗
    wp sq_initialize_move (o1, sobj T2 segs2 p2 (zlen l2)) Q X.
  Proof.
    iIntros (Hal) "Hs HK". unfold sq_initialize_move. wbind. iApply wp_get. wbeta. cbn [fst snd]. sred.
    rewrite Hal Nat.eqb_refl. wbind. iApply wp_on1. iApply wp_allocate_new; [lia|]. rewrite Hal. iSplit.
    - iIntros (T segs) "%Hn Hs1". wbeta. iApply wp_modify. iDestruct "HK" as "[HK _]".
      iApply ("HK" with "[//] Hs Hs1").
    - iIntros (e o') "%He". iDestruct "HK" as "[_ HK]".
      destruct e; simpl in He; try tauto; [pose proof max_size_ok; lia|by iApply "HK"].
  Qed.
  Lemma wp_sq_initialize_move_other o1 T2 segs2 p2 l2 Q X :
    sg_alloc o1 <> t_al T2 ->
    sg_at T2 segs2 p2 l2 ⊢
    ((∀ T segs, ⟦new_tab (sg_alloc o1) (zlen l2) T segs⟧ -∗ sg_at T segs 0 l2 -∗ sg_at T2 segs2 p2 (vmoved <$> l2) -∗
        Q tt (sobj T segs 0 (zlen l2), sobj T2 segs2 p2 (zlen (vmoved <$> l2)))) ∧
     (∀ e o' l', ⟦init_exn (zlen l2) e /\ length l' = length l2 /\ (e <> EUser -> l' = l2)⟧ -∗
        sg_at T2 segs2 p2 l' -∗ X e (o', sobj T2 segs2 p2 (zlen l')))) -∗
    wp sq_initialize_move (o1, sobj T2 segs2 p2 (zlen l2)) Q X.
  Proof.
    iIntros (Hal) "Hs HK". unfold sq_initialize_move. wbind. iApply wp_get. wbeta. cbn [fst snd]. sred.
    rewrite (proj2 (Nat.eqb_neq _ _) Hal). iApply (wp_size2 with "Hs"). iIntros "Hs". iApply wp_on1.
    wbind. iApply wp_allocate_new; [lia|]. iSplit.
    2:{ iIntros (e o') "%He". iDestruct "HK" as "[_ HK]". iApply ("HK" $! e o' l2 with "[%] Hs"). tauto. }
    iIntros (T segs) "%Hn Hs1". wbeta. pose proof (new_slots _ _ _ _ (Nat2Z.is_nonneg (length l2)) Hn) as Hsl.
    iDestruct (sg_at_open with "Hs") as "(%Hb & Hf2 & Hw2)". destruct Hb as [Hp Hb].
    iDestruct (sg_at_open with "Hs1") as "(_ & Hf & Hw)". iApply wp_try. do 2 sstep.
    wbind. iApply (wp_s_umove_from with "Hw2 Hw"); [lia|lia|lia|lia| |].
    { intros i Hi. apply live_out. simpl. lia. }
    iSplit.
    - iIntros (f') "%Hst Hw2 Hw". wbeta. sstep. iDestruct "HK" as "[HK _]".
      replace (sobj T segs 0 (0 + zlen l2 - 0)) with (sobj T segs 0 (zlen l2)) by (f_equal; lia).
      rewrite fmap_length. iApply ("HK" with "[//] [Hf Hw] [Hf2 Hw2]").
      + iApply (sg_at_close with "Hf [Hw]"); [lia|lia|].
        iApply (swin_eq with "Hw"). intros i. by rewrite (stored_back 0 [] l2 f').
      + iApply (sg_at_close with "Hf2 Hw2"); [lia|len; lia].
    - iIntros (l') "%Hl' Hw2 Hw". destruct Hl' as [Hl' _]. wbeta. iDestruct (sg_at_close with "Hf Hw") as "Hs"; [lia|simpl; lia|].
      iApply (wp_free with "Hs"). iIntros (s). iDestruct "HK" as "[_ HK]".
      replace (sobj T2 segs2 p2 (zlen l2)) with (sobj T2 segs2 p2 (zlen l')) by (f_equal; lia).
      iApply ("HK" $! EUser s l' with "[%]"); [done|]. iApply (sg_at_close with "Hf2 Hw2"); lia.
  Qed.

  (** An object whose storage has been given back. *)
  Definition dropped o : Prop :=
    it_loc (sg_first o) = it_loc (sg_last o) /\ it_seg (sg_first o) = it_seg (sg_last o) /\
    sg_tbos o = null /\ sg_teos o = null /\ sg_tfirst o = null /\ sg_tlast o = null.
  Lemma wp_sq_drop_storage T segs p l Q X :
    sg_at T segs p l ⊢ (∀ o, ⟦dropped o⟧ -∗ Q tt o) -∗ wp sq_drop_storage (sobj T segs p (zlen l)) Q X.
  Proof.
    iIntros "Hs HK". unfold sq_drop_storage. wbind. iApply (keep_clear with "Hs"). iSplit; [|by iIntros (l2) "%"].
    iIntros "Hs". wbeta. wbind. iDestruct (sg_at_open with "Hs") as "(%Hb & Hf & Hw)".
    iApply (wp_deallocate_storage T segs p (zlen (@nil V)) (at_pos p []) with "[$Hf $Hw]").
    { intros i Hi. apply live_out. simpl. lia. }
    wbeta. iApply wp_modify. iApply "HK". iPureIntro. unfold dropped, sg_set_table, sobj. simpl.
    rewrite Z.add_0_r. done.
  Qed.
  Lemma wp_dropped_destructor o Q X :
    dropped o -> (∀ s, Q tt s) ⊢ wp sq_destructor o Q X.
  Proof.
    iIntros (Hd) "HK". destruct Hd as (H1 & H2 & H3 & H4 & H5 & H6). unfold sq_destructor.
    wbind. iApply wp_get. wbeta. unfold s_destroy_a, seg_each. rewrite H2 loc_eqb_refl.
    rewrite H1.
    wbind. iApply (wp_destroy_a _ _ [] with "[]").
    { simpl. by rewrite loc_add_0. }
    { rewrite elems_nil. done. }
    iIntros "_". wbeta. unfold sq_deallocate_storage. wbind. iApply wp_get. wbeta. rewrite H3 H4 H5 H6.
    wbind. unfold sq_deallocate_segments. wbind. iApply wp_range_len; [done|simpl; lia|]. wbeta. simpl.
    iApply wp_ret. wbeta. wbind. iApply (wp_psub _ _ 0); [by rewrite loc_add_0|]. wbeta.
    iApply (wp_deallocate _ null 0); [by unfold ablock|done|]. iApply "HK".
  Qed.

  (** The storage of the object is replaced by an empty one. *)
  Lemma wp_sq_renew T segs p l a Q X :
    sg_at T segs p l ⊢
    ((∀ T' segs', ⟦new_tab a 0 T' segs'⟧ -∗ sg_at T' segs' 0 [] -∗ Q tt (sobj T' segs' 0 0)) ∧
     (sg_at T segs p l -∗ X EBadAlloc (sobj T segs p (zlen l)))) -∗
    wp (with_temp a (on1 sq_drop_storage;; modS sg_swap)%prog) (sobj T segs p (zlen l)) Q X.
  Proof.
    iIntros "Hs HK". unfold with_temp. iApply wp_local. wbind. iApply wp_on2. iApply wp_allocate_new; [lia|].
    iSplit.
    2:{ iIntros (e o') "%He". iDestruct "HK" as "[_ HK]".
        destruct e; simpl in He; try tauto; [pose proof max_size_ok; lia|by iApply "HK"]. }
    iIntros (T' segs') "%Hn Hs'". wbeta. wbind. wbind. iApply wp_on1. iApply (wp_sq_drop_storage with "Hs").
    iIntros (o) "%Ho". wbeta. iApply wp_modify. wbeta. unfold sg_swap. cbn [fst snd].
    iApply wp_on2. iApply wp_dropped_destructor; [done|]. iIntros (s). cbn [fst].
    iDestruct "HK" as "[HK _]". by iApply ("HK" with "[//]").
  Qed.
  Lemma wp_sq_reset_alloc T segs p l a Q X :
    sg_at T segs p l ⊢
    ((∀ T' segs', ⟦new_tab a 0 T' segs'⟧ -∗ sg_at T' segs' 0 [] -∗ Q tt (sobj T' segs' 0 0)) ∧
     (sg_at T segs p l -∗ X EBadAlloc (sobj T segs p (zlen l)))) -∗
    wp (sq_reset_alloc a) (sobj T segs p (zlen l)) Q X.
  Proof.
    iIntros "Hs HK". unfold sq_reset_alloc. wbind. iApply (wp_sq_renew with "Hs"). iSplit.
    - iIntros (T' segs') "%Hn Hs". wbeta. iApply wp_modify. iDestruct "HK" as "[HK _]".
      replace (sg_set_alloc a (sobj T' segs' 0 0)) with (sobj T' segs' 0 0); [by iApply ("HK" with "[//]")|].
      destruct Hn as [<- _]. done.
    - iDestruct "HK" as "[_ HK]". done.
  Qed.
  (** v 1414-1510, d 2028-2126 [assign_move], the object to itself. *)
  Lemma wp_sq_assign_move_self T segs p l Q X :
    sg_at T segs p l ⊢
    ((∀ T' segs', ⟦new_tab (t_al T) 0 T' segs'⟧ -∗ sg_at T' segs' 0 [] -∗ Q tt (sobj T' segs' 0 0)) ∧
     (sg_at T segs p l -∗ X EBadAlloc (sobj T segs p (zlen l)))) -∗
    wp sq_assign_move_self (sobj T segs p (zlen l)) Q X.
  Proof.
    iIntros "Hs HK". unfold sq_assign_move_self. wbind. iApply wp_get. wbeta. sred. by iApply (wp_sq_renew with "Hs").
  Qed.

  (** v 788-809, d 1156-1177 [swap], equal allocators. *)
  Lemma wp_sq_swap T1 segs1 p1 m1 T2 segs2 p2 m2 Q X :
    t_al T1 = t_al T2 ->
    Q tt (sobj T2 segs2 p2 m2, sobj T1 segs1 p1 m1) ⊢
    wp sq_swap (sobj T1 segs1 p1 m1, sobj T2 segs2 p2 m2) Q X.
  Proof.
    iIntros (Hal) "HQ". unfold sq_swap. wbind. iApply wp_get. wbeta. cbn [fst snd]. sred.
    wbind. iApply wp_assert; [rewrite Hal Nat.eqb_refl; by rewrite orb_true_r|]. wbeta. wbind.
    assert (forall T (a : nat), t_al T = a -> forall segs p m, sg_set_alloc a (sobj T segs p m) = sobj T segs p m) as Ha.
    { intros T a <-. done. }
    destruct pocs.
    - iApply wp_put. wbeta. rewrite !Ha; [|done..]. by iApply wp_modify.
    - iApply wp_ret. wbeta. by iApply wp_modify.
  Qed.

  (** v 1711-1719, d 2492-2500 [operator==]; v 1733-1741, d 2514-2522 [operator<]. *)
  Lemma wp_sq_eq (r : V -> V -> bool) T1 segs1 p1 l1 T2 segs2 p2 l2 Q X :
    sg_at T1 segs1 p1 l1 ⊢ sg_at T2 segs2 p2 l2 -∗
    ((∀ c : bool, ⟦c = true <-> Forall2 (fun x y => r x y = true) l1 l2⟧ -∗
        sg_at T1 segs1 p1 l1 -∗ sg_at T2 segs2 p2 l2 -∗ Q c (sobj T1 segs1 p1 (zlen l1), sobj T2 segs2 p2 (zlen l2))) ∧
     (sg_at T1 segs1 p1 l1 -∗ sg_at T2 segs2 p2 l2 -∗ X EUser (sobj T1 segs1 p1 (zlen l1), sobj T2 segs2 p2 (zlen l2)))) -∗
    wp (sq_eq r) (sobj T1 segs1 p1 (zlen l1), sobj T2 segs2 p2 (zlen l2)) Q X.
  Proof.
    iIntros "Hs Hs2". iIntros "HK".
    iDestruct (sg_at_open with "Hs") as "(%Hb1 & Hf & Hw)". iDestruct (sg_at_open with "Hs2") as "(%Hb2 & Hf2 & Hw2)".
    unfold sq_eq. wbind. iApply wp_on1. iApply (wp_sq_size with "Hw"); [lia..|]. iIntros "Hw". wbeta.
    wbind. iApply wp_on2. iApply (wp_sq_size with "Hw2"); [lia..|]. iIntros "Hw2". wbeta.
    wbind. iApply wp_get. wbeta. cbn [fst snd]. sred.
    destruct (Z.eqb_spec (zlen l1) (zlen l2)) as [Heq|Hne].
    - rewrite Nat2Z.id. iApply (wp_s_equal _ _ _ _ _ _ _ _ _ l2 with "Hw Hw2"); [lia|apply lists_at|apply lists_at|lia..|]. iSplit.
      + iIntros (c) "%Hc Hw Hw2". iDestruct "HK" as "[HK _]". iApply ("HK" with "[//] [Hf Hw] [Hf2 Hw2]").
        * iApply (sg_at_close with "Hf Hw"); lia.
        * iApply (sg_at_close with "Hf2 Hw2"); lia.
      + iIntros "Hw Hw2". iDestruct "HK" as "[_ HK]". iApply ("HK" with "[Hf Hw] [Hf2 Hw2]").
        * iApply (sg_at_close with "Hf Hw"); lia.
        * iApply (sg_at_close with "Hf2 Hw2"); lia.
    - iApply wp_ret. iDestruct "HK" as "[HK _]". iApply ("HK" with "[%] [Hf Hw] [Hf2 Hw2]").
      + split; [done|]. intros HF. apply Forall2_length in HF. lia.
      + iApply (sg_at_close with "Hf Hw"); lia.
      + iApply (sg_at_close with "Hf2 Hw2"); lia.
  Qed.
  Lemma wp_sq_lt (lt : V -> V -> bool) T1 segs1 p1 l1 T2 segs2 p2 l2 Q X :
    sg_at T1 segs1 p1 l1 ⊢ sg_at T2 segs2 p2 l2 -∗
    ((∀ c : bool, ⟦c = true <-> lex_less lt l1 l2⟧ -∗
        sg_at T1 segs1 p1 l1 -∗ sg_at T2 segs2 p2 l2 -∗ Q c (sobj T1 segs1 p1 (zlen l1), sobj T2 segs2 p2 (zlen l2))) ∧
     (sg_at T1 segs1 p1 l1 -∗ sg_at T2 segs2 p2 l2 -∗ X EUser (sobj T1 segs1 p1 (zlen l1), sobj T2 segs2 p2 (zlen l2)))) -∗
    wp (sq_lt lt) (sobj T1 segs1 p1 (zlen l1), sobj T2 segs2 p2 (zlen l2)) Q X.
  Proof.
    iIntros "Hs Hs2". iIntros "HK".
    iDestruct (sg_at_open with "Hs") as "(%Hb1 & Hf & Hw)". iDestruct (sg_at_open with "Hs2") as "(%Hb2 & Hf2 & Hw2)".
    unfold sq_lt. wbind. iApply wp_on1. iApply (wp_sq_size with "Hw"); [lia..|]. iIntros "Hw". wbeta.
    wbind. iApply wp_on2. iApply (wp_sq_size with "Hw2"); [lia..|]. iIntros "Hw2". wbeta.
    wbind. iApply wp_get. wbeta. cbn [fst snd]. sred. rewrite !Nat2Z.id.
    iApply (wp_s_lexcmp with "Hw Hw2"); [apply lists_at|apply lists_at|lia..|]. iSplit.
    - iIntros (c) "%Hc Hw Hw2". iDestruct "HK" as "[HK _]". iApply ("HK" with "[//] [Hf Hw] [Hf2 Hw2]").
      + iApply (sg_at_close with "Hf Hw"); lia.
      + iApply (sg_at_close with "Hf2 Hw2"); lia.
    - iIntros "Hw Hw2". iDestruct "HK" as "[_ HK]". iApply ("HK" with "[Hf Hw] [Hf2 Hw2]").
      + iApply (sg_at_close with "Hf Hw"); lia.
      + iApply (sg_at_close with "Hf2 Hw2"); lia.
  Qed.
End two.

(** ** Assignment from another object *)
Section assignment.
  Context `{E : Env} `{SZ : SegSize}.
  Implicit Types segs new : list loc.
  Implicit Types T : tab.
  Implicit Types o : sgdata.

  (** A rule for [assign_range]: [inv] is what holds of the object between
      calls, [post] relates the segments before and after. *)
  Definition assigner (inv : tab -> Z -> Prop) (post : list loc -> Z -> list V -> list V -> list loc -> Z -> Prop)
      (ar : source -> M sgdata unit) : Prop :=
    forall W WX vs sub T segs p l Q X,
      feeds W WX vs sub -> inv T p ->
      sg_at T segs p l ⊢ W none_of -∗
      ((∀ T' segs' p' C,
          ⟦inv T' p' /\ t_al T' = t_al T /\ post segs p l vs segs' p' /\ (forall i, 0 <= i < zlen vs -> C i = true)⟧ -∗
          W C -∗ sg_at T' segs' p' vs -∗ Q tt (sobj T' segs' p' (zlen vs))) ∧
       (∀ e T' segs' p' l', ⟦inv T' p' /\ t_al T' = t_al T /\ init_exn (zlen vs) e⟧ -∗
          WX -∗ sg_at T' segs' p' l' -∗ X e (sobj T' segs' p' (zlen l')))) -∗
      wp (ar (sub 0 (zlen vs))) (sobj T segs p (zlen l)) Q X.

  (** segmented_vector. *)
  Lemma sv_assigner :
    assigner (fun T p => t_pre T = 0 /\ p = 0)
      (fun segs p l vs segs' p' => exists new, segs' = segs ++ new /\ zlen new = more_segs (zlen vs - (slots segs - 1)))
      sv_assign_range.
  Proof.
    intros W WX vs sub T segs p l Q X Hfd [Hpre ->]. iIntros "Hs HW HK".
    iApply (feed_sv_assign_range _ _ _ _ _ _ _ Hfd with "Hs HW"). iSplit.
    - iIntros (T' new C) "%H HW Hs". destruct H as ([HT1 HT2] & Hn & HC). iDestruct "HK" as "[HK _]".
      iApply ("HK" with "[%] HW Hs"). split_and!; [congruence|done|congruence|exists new; split; [done|apply Hn]|done].
    - iIntros (e T' new l') "%H HW Hs". destruct H as ([HT1 HT2] & He). iDestruct "HK" as "[_ HK]".
      iApply ("HK" with "[%] HW Hs"). split_and!; [congruence|done|congruence|].
      destruct He as [(-> & -> & Hp & [[-> Hg]| ->])|(-> & _)]; simpl; [lia|done|done].
  Qed.

  Lemma wp_seg_refs {St : Type} t segs f p (n : nat) (s : St) Q X :
    0 <= p -> p + Z.of_nat n < slots segs ->
    swin t segs f ⊢
    (swin t segs f -∗ Q ((fun i => AMove (saddr segs i)) <$> seqZ p (Z.of_nat n)) s) -∗
    wp (seg_refs AMove (sitr t segs p) n) s Q X.
  Proof.
    intros Hp Hn. induction n as [|n IH] in p, Q, Hp, Hn |- *; iIntros "Hw HK"; cbn [seg_refs].
    - iApply wp_ret. by iApply "HK".
    - wbind. iDestruct "Hw" as "[Ht Hw]". iApply (wp_it_succ with "Ht"); [lia|lia|]. iIntros "Ht". iCombine "Ht Hw" as "Hw". wbeta.
      wbind. iApply (IH (p + 1) with "Hw"); [lia|lia|]. iIntros "Hw". wbeta. iApply wp_ret.
      rewrite (seqZ_cons p); [|lia]. cbn [fmap list_fmap]. rewrite -Z.add_1_r.
      replace (Z.pred (Z.of_nat (S n))) with (Z.of_nat n) by lia. sred. by iApply "HK".
  Qed.

  Context (inv : tab -> Z -> Prop) (post : list loc -> Z -> list V -> list V -> list loc -> Z -> Prop).
  Context (ar : source -> M sgdata unit).
  Context (Har : assigner inv post ar) (Hinv : forall T, t_pre T = 0 -> inv T 0).

  Lemma wp_sq_assign_copy T1 segs1 p1 l1 T2 segs2 p2 l2 Q X :
    inv T1 p1 ->
    sg_at T1 segs1 p1 l1 ⊢ sg_at T2 segs2 p2 l2 -∗
    ((∀ T segs p, ⟦inv T p /\ t_al T = (if pocca then t_al T2 else t_al T1) /\
          (pocca && negb (t_al T1 =? t_al T2)%nat = false -> post segs1 p1 l1 l2 segs p)⟧ -∗
        sg_at T segs p l2 -∗ sg_at T2 segs2 p2 l2 -∗ Q tt (sobj T segs p (zlen l2), sobj T2 segs2 p2 (zlen l2))) ∧
     (∀ e T segs p l, ⟦inv T p /\ init_exn (zlen l2) e /\
          ((e = EBadAlloc /\ T = T1 /\ segs = segs1 /\ p = p1 /\ l = l1) \/
           t_al T = if pocca then t_al T2 else t_al T1)⟧ -∗
        sg_at T segs p l -∗ sg_at T2 segs2 p2 l2 -∗ X e (sobj T segs p (zlen l), sobj T2 segs2 p2 (zlen l2)))) -∗
    wp (sq_assign_copy ar) (sobj T1 segs1 p1 (zlen l1), sobj T2 segs2 p2 (zlen l2)) Q X.
  Proof.
    iIntros (Hi) "Hs Hs2 HK". unfold sq_assign_copy. wbind. iApply wp_get. wbeta. cbn [fst snd]. sred.
    assert (forall T segs p l, inv T p -> t_al T = (if pocca then t_al T2 else t_al T1) ->
      sg_at T segs p l ⊢ sg_at T2 segs2 p2 l2 -∗
      ((∀ T' segs' p', ⟦inv T' p' /\ t_al T' = t_al T /\ post segs p l l2 segs' p'⟧ -∗
        sg_at T' segs' p' l2 -∗ sg_at T2 segs2 p2 l2 -∗ Q tt (sobj T' segs' p' (zlen l2), sobj T2 segs2 p2 (zlen l2))) ∧
       (∀ e T' segs' p' l', ⟦inv T' p' /\ t_al T' = t_al T /\ init_exn (zlen l2) e⟧ -∗
        sg_at T' segs' p' l' -∗ sg_at T2 segs2 p2 l2 -∗ X e (sobj T' segs' p' (zlen l'), sobj T2 segs2 p2 (zlen l2)))) -∗
      wp (on1 (ar (SSeg (sitr (t_at T2) segs2 p2) (sitr (t_at T2) segs2 (p2 + zlen l2)))))
        (sobj T segs p (zlen l), sobj T2 segs2 p2 (zlen l2)) Q X) as Hcopy.
    { intros T segs p l HT Hal. iIntros "Hs Hs2 HK". iApply wp_on1. rewrite feeds_seg_all.
      iDestruct (sg_at_open with "Hs2") as "(%Hb & Hf & Hw)". destruct Hb as [Hp Hb].
      iApply (Har _ _ _ _ _ _ _ _ _ _ (feeds_seg (t_at T2) segs2 p2 l2 Hp Hb) HT with "Hs Hw"). iSplit.
      - iIntros (T' segs' p' C) "%H Hw Hs". iDestruct "HK" as "[HK _]". iApply ("HK" with "[%] Hs"); [tauto|].
        iApply (sg_at_close with "Hf Hw"); lia.
      - iIntros (e T' segs' p' l') "%H Hw Hs". iDestruct "HK" as "[_ HK]". iApply ("HK" with "[%] Hs"); [tauto|].
        iApply (sg_at_close with "Hf Hw"); lia. }
    destruct pocca; [destruct (Nat.eqb_spec (t_al T1) (t_al T2)) as [Heq|Hne]; cbn [negb andb]|cbn [andb]].
    - wbind. iApply wp_on1. iApply wp_modify. wbeta. rewrite -Heq.
      change (sg_set_alloc (t_al T1) (sobj T1 segs1 p1 (zlen l1))) with (sobj T1 segs1 p1 (zlen l1)).
      iApply (Hcopy with "Hs Hs2"); [done|done|]. iSplit.
      + iIntros (T' segs' p') "%H Hs". iDestruct "HK" as "[HK _]". iApply ("HK" with "[%] Hs"). tauto.
      + iIntros (e T' segs' p' l') "%H Hs". iDestruct "HK" as "[_ HK]". iApply ("HK" with "[%] Hs"). tauto.
    - wbind. iApply wp_on1. iApply (wp_sq_reset_alloc with "Hs"). iSplit.
      + iIntros (T0 segs0) "%Hn Hs". destruct Hn as (Hal & Hpre & Hz). wbeta.
        change (sobj T0 segs0 0 0) with (sobj T0 segs0 0 (zlen (@nil V))).
        iApply (Hcopy with "Hs Hs2"); [by apply Hinv|done|]. iSplit.
        * iIntros (T' segs' p') "%H Hs". iDestruct "HK" as "[HK _]". iApply ("HK" with "[%] Hs").
          destruct H as (? & ? & ?). split_and!; [done|congruence|done].
        * iIntros (e T' segs' p' l') "%H Hs". iDestruct "HK" as "[_ HK]". iApply ("HK" with "[%] Hs").
          destruct H as (? & ? & ?). split_and!; [done|done|right; congruence].
      + iIntros "Hs". iDestruct "HK" as "[_ HK]". iApply ("HK" with "[%] Hs Hs2"). split_and!; [done|done|by left].
    - wbind. iApply wp_ret. wbeta. iApply (Hcopy with "Hs Hs2"); [done|done|]. iSplit.
      + iIntros (T' segs' p') "%H Hs". iDestruct "HK" as "[HK _]". iApply ("HK" with "[%] Hs"). tauto.
      + iIntros (e T' segs' p' l') "%H Hs". iDestruct "HK" as "[_ HK]". iApply ("HK" with "[%] Hs"). tauto.
  Qed.

  Lemma wp_sq_assign_moves T1 segs1 p1 l1 T2 segs2 p2 l2 Q X :
    inv T1 p1 ->
    sg_at T1 segs1 p1 l1 ⊢ sg_at T2 segs2 p2 l2 -∗
    ((∀ T segs p, ⟦inv T p /\ t_al T = t_al T1 /\ post segs1 p1 l1 l2 segs p⟧ -∗
        sg_at T segs p l2 -∗ sg_at T2 segs2 p2 (vmoved <$> l2) -∗
        Q tt (sobj T segs p (zlen l2), sobj T2 segs2 p2 (zlen (vmoved <$> l2)))) ∧
     (∀ e T segs p l l', ⟦inv T p /\ init_exn (zlen l2) e /\ t_al T = t_al T1 /\ length l' = length l2⟧ -∗
        sg_at T segs p l -∗ sg_at T2 segs2 p2 l' -∗ X e (sobj T segs p (zlen l), sobj T2 segs2 p2 (zlen l')))) -∗
    wp (sq_assign_moves ar) (sobj T1 segs1 p1 (zlen l1), sobj T2 segs2 p2 (zlen l2)) Q X.
  Proof.
    iIntros (Hi) "Hs Hs2 HK". unfold sq_assign_moves. wbind. iApply wp_get. wbeta. cbn [fst snd]. sred.
    iApply (wp_size2 with "Hs2"). iIntros "Hs2". rewrite Nat2Z.id.
    iDestruct (sg_at_open with "Hs2") as "(%Hb & Hf & Hw)". destruct Hb as [Hp Hb].
    wbind. iApply (wp_seg_refs with "Hw"); [lia|lia|]. iIntros "Hw". wbeta. iApply wp_on1.
    replace ((fun i => AMove (saddr segs2 i)) <$> seqZ p2 (zlen l2))
      with ((fun i => AMove (saddr segs2 (p2 + i))) <$> seqZ 0 (zlen l2 - 0)).
    2:{ rewrite Z.sub_0_r. replace (seqZ p2 (zlen l2)) with (Z.add p2 <$> seqZ 0 (zlen l2)); [by rewrite -list_fmap_compose|].
        rewrite fmap_add_seqZ. f_equal. lia. }
    iApply (Har _ _ _ _ _ _ _ _ _ _ (feeds_moves (t_at T2) segs2 p2 l2 Hp Hb) Hi with "Hs [Hw]").
    { iApply (swin_eq with "Hw"). intros i. by rewrite taken_none. }
    iSplit.
    - iIntros (T' segs' p' C) "%H Hw Hs". destruct H as (H1 & H2 & H3 & H4). iDestruct "HK" as "[HK _]".
      rewrite fmap_length. iApply ("HK" with "[%] Hs"); [tauto|].
      iApply (sg_at_close with "Hf [Hw]"); [lia|len; lia|].
      iApply (swin_eq with "Hw"). intros i. by apply taken_all.
    - iIntros (e T' segs' p' l') "%H Hw Hs". iDestruct "Hw" as (g) "[%Hg Hw]".
      destruct (DevProofs.shaken_list _ _ _ Hg) as (vs' & Hl' & Hf'). iDestruct "HK" as "[_ HK]".
      replace (sobj T2 segs2 p2 (zlen l2)) with (sobj T2 segs2 p2 (zlen vs')) by (f_equal; lia).
      iApply ("HK" with "[%] Hs"); [tauto|].
      iApply (sg_at_close with "Hf [Hw]"); [lia|lia|].
      by iApply (swin_eq with "Hw").
  Qed.

  Lemma wp_sq_assign_move_same T1 segs1 p1 l1 T2 segs2 p2 l2 Q X :
    t_al T1 = t_al T2 ->
    sg_at T1 segs1 p1 l1 ⊢ sg_at T2 segs2 p2 l2 -∗
    ((∀ T segs, ⟦new_tab (t_al T2) 0 T segs⟧ -∗ sg_at T2 segs2 p2 l2 -∗ sg_at T segs 0 [] -∗
        Q tt (sobj T2 segs2 p2 (zlen l2), sobj T segs 0 0)) ∧
     (sg_at T1 segs1 p1 l1 -∗ sg_at T2 segs2 p2 l2 -∗
        X EBadAlloc (sobj T1 segs1 p1 (zlen l1), sobj T2 segs2 p2 (zlen l2)))) -∗
    wp (sq_assign_move ar) (sobj T1 segs1 p1 (zlen l1), sobj T2 segs2 p2 (zlen l2)) Q X.
  Proof.
    iIntros (Hal) "Hs Hs2 HK". unfold sq_assign_move. wbind. iApply wp_get. wbeta. cbn [fst snd]. sred.
    rewrite Hal Nat.eqb_refl. wbind. iApply wp_local. wbind. iApply wp_on2. iApply wp_allocate_new; [lia|]. iSplit.
    2:{ iIntros (e o') "%He". iDestruct "HK" as "[_ HK]". cbn [fst].
        destruct e; simpl in He; try tauto; [pose proof max_size_ok; lia|by iApply ("HK" with "Hs Hs2")]. }
    iIntros (T segs) "%Hn Hs3". wbeta. wbind. iApply wp_on1. iApply wp_on1.
    iApply (wp_sq_drop_storage with "Hs"). iIntros (o) "%Ho". wbeta.
    wbind. iApply wp_on1. iApply wp_modify. wbeta. unfold sg_swap. cbn [fst snd].
    wbind. iApply wp_modify. wbeta. cbn [fst snd].
    iApply wp_on2. iApply wp_dropped_destructor; [done|]. iIntros (s). cbn [fst]. wbeta.
    assert (forall (a : nat), a = t_al T2 -> sg_set_alloc a (sobj T2 segs2 p2 (zlen l2)) = sobj T2 segs2 p2 (zlen l2)) as Ha.
    { intros a ->. done. }
    iDestruct "HK" as "[HK _]". destruct pocma.
    - iApply wp_modify. cbn [fst snd]. rewrite Ha; [|sred; apply Hn]. by iApply ("HK" with "[//] Hs2").
    - iApply wp_ret. by iApply ("HK" with "[//] Hs2").
  Qed.
  Lemma wp_sq_assign_move_other T1 segs1 p1 l1 T2 segs2 p2 l2 Q X :
    t_al T1 <> t_al T2 -> inv T1 p1 ->
    sg_at T1 segs1 p1 l1 ⊢ sg_at T2 segs2 p2 l2 -∗
    ((∀ T segs p, ⟦inv T p /\ t_al T = (if pocma then t_al T2 else t_al T1) /\
          (pocma = false -> post segs1 p1 l1 l2 segs p)⟧ -∗
        sg_at T segs p l2 -∗ sg_at T2 segs2 p2 (vmoved <$> l2) -∗
        Q tt (sobj T segs p (zlen l2), sobj T2 segs2 p2 (zlen (vmoved <$> l2)))) ∧
     (∀ e T segs p l l', ⟦inv T p /\ init_exn (zlen l2) e /\ length l' = length l2 /\
          ((e = EBadAlloc /\ T = T1 /\ segs = segs1 /\ p = p1 /\ l = l1) \/
           t_al T = if pocma then t_al T2 else t_al T1)⟧ -∗
        sg_at T segs p l -∗ sg_at T2 segs2 p2 l' -∗ X e (sobj T segs p (zlen l), sobj T2 segs2 p2 (zlen l')))) -∗
    wp (sq_assign_move ar) (sobj T1 segs1 p1 (zlen l1), sobj T2 segs2 p2 (zlen l2)) Q X.
  Proof.
    iIntros (Hal Hi) "Hs Hs2 HK". unfold sq_assign_move. wbind. iApply wp_get. wbeta. cbn [fst snd]. sred.
    rewrite (proj2 (Nat.eqb_neq _ _) Hal). destruct pocma.
    - wbind. iApply wp_on1. iApply (wp_sq_reset_alloc with "Hs"). iSplit.
      + iIntros (T0 segs0) "%Hn Hs". destruct Hn as (Ha0 & Hpre & Hz). wbeta.
        change (sobj T0 segs0 0 0) with (sobj T0 segs0 0 (zlen (@nil V))).
        iApply (wp_sq_assign_moves with "Hs Hs2"); [by apply Hinv|]. iSplit.
        * iIntros (T' segs' p') "%H Hs". iDestruct "HK" as "[HK _]". iApply ("HK" with "[%] Hs").
          destruct H as (? & ? & ?). split_and!; [done|congruence|done].
        * iIntros (e T' segs' p' l l') "%H Hs". iDestruct "HK" as "[_ HK]". iApply ("HK" with "[%] Hs").
          destruct H as (? & ? & ? & ?). split_and!; [done|done|done|right; congruence].
      + iIntros "Hs". iDestruct "HK" as "[_ HK]". iApply ("HK" with "[%] Hs Hs2"). split_and!; [done|done|done|by left].
    - iApply (wp_sq_assign_moves with "Hs Hs2"); [done|]. iSplit.
      + iIntros (T' segs' p') "%H Hs". iDestruct "HK" as "[HK _]". iApply ("HK" with "[%] Hs"). tauto.
      + iIntros (e T' segs' p' l l') "%H Hs". iDestruct "HK" as "[_ HK]". iApply ("HK" with "[%] Hs"). tauto.
  Qed.
End assignment.
