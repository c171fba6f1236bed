(** * Segmented containers: insertion, erasure and growth, by lists *)

From Verif Require Export SegOps.
From Coq Require Import ZifyBool.
From iris.proofmode Require Import environments tactics.
Open Scope Z_scope.

Section lists.
  Context `{E : Env} `{SZ : SegSize}.
  Implicit Types segs : list loc.
  Implicit Types T : tab.
  Implicit Types f : Z -> option V.

  Lemma swin_eq t segs f g :
    (forall i, f i = g i) -> swin t segs f ⊢ swin t segs g.
  Proof. iIntros (Hf) "[$ Hw]". iApply (win_eq with "Hw"). intros i _. apply Hf. Qed.
  Lemma at_pos_inj p l l' : (forall i, at_pos p l i = at_pos p l' i) -> l = l'.
  Proof.
    intros Hi. apply list_eq. intros j. specialize (Hi (p + Z.of_nat j)). by rewrite !at_pos_elem in Hi.
  Qed.
  Lemma live_within p l i : live (at_pos p l) i = within p (p + zlen l) i.
  Proof. apply live_at_pos. Qed.

  (** Exceptions: from positions to lists. *)
  Lemma xpos_list T segs (X : exn -> sgdata -> hProp) (ok : Z -> Z -> (Z -> option V) -> Prop) (R : Z -> list V -> Prop) :
    (forall p' l', ok p' (zlen l') (at_pos p' l') -> R p' l') ->
    (forall p' m' f', ok p' m' f' -> 0 <= m') ->
    (forall p' m' f' g, (forall i, f' i = g i) -> ok p' m' f' -> ok p' m' g) ->
    (∀ p' l', ⟦R p' l'⟧ -∗ swin (t_at T) segs (at_pos p' l') -∗ X EUser (sobj T segs p' (zlen l'))) ⊢
    (∀ f' p' m', ⟦(forall i, live f' i = within p' (p' + m') i) /\ ok p' m' f'⟧ -∗
       swin (t_at T) segs f' -∗ X EUser (sobj T segs p' m')).
  Proof.
    iIntros (HR Hm He) "HX". iIntros (f' p' m') "%H Hw". destruct H as [Hl Hok].
    destruct (alive_list p' m' f') as (l' & Hlen & Hf); [by eapply Hm|done|]. rewrite -Hlen.
    iApply ("HX" with "[%] [Hw]").
    - apply HR. rewrite Hlen. by eapply He.
    - by iApply (swin_eq with "Hw").
  Qed.

  (** v 561-600, d 609-650. *)
  Lemma wp_l_emplace_at T segs p l a v l1 (k : nat) pos Q X :
    sarg segs p l a v l1 -> 0 <= p -> (k <= length l)%nat -> p + zlen l + 1 < slots segs ->
    pos = sitr (t_at T) segs (p + Z.of_nat k) ->
    swin (t_at T) segs (at_pos p l) ⊢
    ((swin (t_at T) segs (at_pos p (insert_at k [v] l1)) -∗
        Q pos (sobj T segs p (zlen (insert_at k [v] l1)))) ∧
     (∀ p' l', ⟦p' = p /\ ins_exn l k 1 a l'⟧ -∗ swin (t_at T) segs (at_pos p' l') -∗
        X EUser (sobj T segs p' (zlen l')))) -∗
    wp (sq_emplace_at pos a) (sobj T segs p (zlen l)) Q X.
  Proof.
    iIntros (Ha Hp Hk Hs ->) "Hw HK". pose proof (sarg_length _ _ _ _ _ _ Ha) as Hlen.
    unfold sq_emplace_at. sstep. sstep.
    iDestruct (swin_eqb (t_at T) segs _ (p + Z.of_nat k) (p + zlen l) with "Hw") as %->; [lia..|].
    assert (zlen (insert_at k [v] l1) = zlen l + 1) as Hil by (unfold insert_at; len; lia).
    destruct (Z.eqb_spec (p + Z.of_nat k) (p + zlen l)) as [Heq|Hne].
    - wbind. iApply (wp_sw_construct with "Hw"); [done|lia..|]. iSplit.
      + iIntros (f') "%Hf Hw". wbeta. repeat sstep. iDestruct "HK" as "[HK _]".
        replace (p + zlen l + 1 - p) with (zlen (insert_at k [v] l1)) by lia.
        iApply ("HK" with "[Hw]"). iApply (swin_eq with "Hw"). intros i.
        replace (p + zlen l) with (p + zlen l1) in Hf by lia.
        rewrite (stored_back _ _ _ _ Hf). unfold insert_at. rewrite take_ge; [|lia]. rewrite drop_ge; [|lia]. done.
      + iIntros (l') "%He Hw". iDestruct "HK" as "[_ HK]".
        replace (zlen l) with (zlen l') by (destruct He; lia). iApply ("HK" with "[%] Hw"). split; [done|by left].
    - sstep. sstep. wbind.
      assert (p + zlen l < slots segs) as Hs' by lia.
      iApply (sarg_mk _ _ _ _ _ _ _ Hp Hs' Ha with "Hw"). iSplit.
      2:{ iIntros "H". iDestruct "H" as (l') "[%He Hw]". iDestruct "HK" as "[_ HK]".
          replace (zlen l) with (zlen l') by (destruct He; lia). iApply ("HK" with "[%] Hw"). split; [done|by left]. }
      iIntros "Hw". wbeta. iApply (wp_emplace_mid with "Hw"); [lia..| |].
      { intros i. rewrite live_within. f_equal. lia. }
      iSplit.
      + iIntros (f' r o') "%H Hw". destruct H as (Hsp & -> & ->). iDestruct "HK" as "[HK _]".
        rewrite Hil. iApply ("HK" with "[Hw]"). iApply (swin_eq with "Hw").
        apply (DevProofs.spread_list p l1); [lia|]. by rewrite Hlen.
      + iDestruct "HK" as "[_ HK]". iApply (xpos_list T segs X (fun p' m' _ => p' = p /\ zlen l <= m' <= zlen l + 1) with "HK").
        * intros p' l' [-> Hl']. split; [done|]. right. lia.
        * intros p' m' f'. lia.
        * naive_solver.
  Qed.
  (** d 557-596. *)
  Lemma wp_l_emplace_front_at T segs p l a v l1 (k : nat) pos Q X :
    sarg segs p l a v l1 -> 0 < p -> (k <= length l)%nat -> p + zlen l < slots segs ->
    pos = sitr (t_at T) segs (p + Z.of_nat k) ->
    swin (t_at T) segs (at_pos p l) ⊢
    ((swin (t_at T) segs (at_pos (p - 1) (insert_at k [v] l1)) -∗
        Q (sitr (t_at T) segs (p - 1 + Z.of_nat k)) (sobj T segs (p - 1) (zlen (insert_at k [v] l1)))) ∧
     (∀ p' l', ⟦(p' + zlen l' = p + zlen l)%Z /\
          (arg_exn a l l' \/ ((0 < k)%nat /\ (length l <= length l' <= length l + 1)%nat))⟧ -∗
        swin (t_at T) segs (at_pos p' l') -∗ X EUser (sobj T segs p' (zlen l')))) -∗
    wp (sd_emplace_front_at pos a) (sobj T segs p (zlen l)) Q X.
  Proof.
    iIntros (Ha Hp Hk Hs ->) "Hw HK". pose proof (sarg_length _ _ _ _ _ _ Ha) as Hlen.
    unfold sd_emplace_front_at. do 4 sstep.
    iDestruct (swin_eqb (t_at T) segs _ (p + Z.of_nat k) p with "Hw") as %->; [lia..|].
    assert (zlen (insert_at k [v] l1) = zlen l + 1) as Hil by (unfold insert_at; len; lia).
    destruct (Z.eqb_spec (p + Z.of_nat k) p) as [Heq|Hne].
    - wbind. iApply (wp_sw_construct with "Hw"); [done|lia..|]. iSplit.
      + iIntros (f') "%Hf Hw". wbeta. repeat sstep. iDestruct "HK" as "[HK _]".
        replace (p + zlen l - (p + Z.of_nat k - 1)) with (zlen (insert_at k [v] l1)) by lia.
        replace (p + Z.of_nat k - 1) with (p - 1 + Z.of_nat k) at 1 by lia.
        replace (p + Z.of_nat k - 1) with (p - 1) by lia.
        iApply ("HK" with "[Hw]"). iApply (swin_eq with "Hw"). intros i.
        replace (p + Z.of_nat k - 1) with (p - 1) in Hf by lia.
        rewrite (stored_front p l1 [v] f' (p - 1)); [|simpl; lia|done].
        unfold insert_at. assert (k = 0%nat) as -> by lia. done.
      + iIntros (l') "%He Hw". iDestruct "HK" as "[_ HK]".
        replace (zlen l) with (zlen l') by (destruct He; lia). iApply ("HK" with "[%] Hw"). split; [destruct He; lia|by left].
    - do 4 sstep. wbind.
      assert (0 <= p) as Hp' by lia.
      iApply (sarg_mk _ _ _ _ _ _ _ Hp' Hs Ha with "Hw"). iSplit.
      2:{ iIntros "H". iDestruct "H" as (l') "[%He Hw]". iDestruct "HK" as "[_ HK]".
          replace (zlen l) with (zlen l') by (destruct He; lia). iApply ("HK" with "[%] Hw").
          split; [destruct He; lia|by left]. }
      iIntros "Hw". wbeta. sred. iApply (wp_emplace_front_mid with "Hw"); [lia..| |].
      { intros i. rewrite live_within. f_equal. lia. }
      iSplit.
      + iIntros (f' r o') "%H Hw". destruct H as (Hsp & -> & ->). iDestruct "HK" as "[HK _]".
        rewrite Hil. iApply ("HK" with "[Hw]"). iApply (swin_eq with "Hw").
        apply (DevProofs.spread_list p l1); [lia|]. by rewrite Hlen.
      + iDestruct "HK" as "[_ HK]".
        iApply (xpos_list T segs X (fun p' m' _ => p' + m' = p + zlen l /\ zlen l <= m' <= zlen l + 1) with "HK").
        * intros p' l' [He Hl']. split; [done|]. right. lia.
        * intros p' m' f'. lia.
        * naive_solver.
  Qed.
  Lemma wp_l_fill_back T segs p l (k : nat) n far b tmp pos Q X :
    0 <= p -> (k <= length l)%nat -> 0 < n -> p + zlen l + n < slots segs ->
    (forall Q' : bool -> sgdata -> hProp, Q' b (sobj T segs p (zlen l)) ⊢
       wp (far (sitr (t_at T) segs (p + Z.of_nat k + n))) (sobj T segs p (zlen l)) Q' X) ->
    (b = true -> n <= zlen l - Z.of_nat k) -> (b = false -> zlen l - Z.of_nat k <= n) ->
    pos = sitr (t_at T) segs (p + Z.of_nat k) ->
    swin (t_at T) segs (at_pos p l) ⊢
    ((swin (t_at T) segs (at_pos p (insert_at k (replicate (Z.to_nat n) tmp) l)) -∗
        Q pos (sobj T segs p (zlen (insert_at k (replicate (Z.to_nat n) tmp) l)))) ∧
     (∀ p' l', ⟦p' = p /\ zlen l <= zlen l' <= zlen l + n /\ (k = length l -> l' = l)⟧ -∗
        swin (t_at T) segs (at_pos p' l') -∗ X EUser (sobj T segs p' (zlen l')))) -∗
    wp (sq_fill_back pos n far tmp) (sobj T segs p (zlen l)) Q X.
  Proof.
    iIntros (Hp Hk Hn Hs Hfar Hb1 Hb2 ->) "Hw HK".
    iApply (wp_fill_back _ _ _ _ _ _ _ b with "Hw"); [done|lia|lia|lia|apply live_within|done|lia|lia|]. iSplit.
    - iIntros (f' r o') "%H Hw". destruct H as (Hsp & -> & ->). iDestruct "HK" as "[HK _]".
      replace (zlen l + n) with (zlen (insert_at k (replicate (Z.to_nat n) tmp) l)) by (unfold insert_at; len; lia).
      iApply ("HK" with "[Hw]"). iApply (swin_eq with "Hw"). by apply (DevProofs.spread_list p l).
    - iDestruct "HK" as "[_ HK]".
      iPoseProof (xpos_list T segs X (fun p' m' f' => p' = p /\ zlen l <= m' <= zlen l + n /\
        (Z.of_nat k = zlen l -> forall i, f' i = at_pos p l i)) with "HK") as "HK".
      + intros p' l' (-> & Hl' & Hf). split; [done|]. split; [done|]. intros Hkl.
        eapply at_pos_inj. apply Hf. lia.
      + intros p' m' f'. lia.
      + intros p' m' f' g Hfg (H1 & H2 & H3). split; [done|]. split; [done|]. intros Hk' i. rewrite -Hfg. by apply H3.
      + iIntros (f' p' m') "%H". iApply "HK". iPureIntro. destruct H as (H1 & H2 & H3 & H4).
        split; [done|]. split; [done|]. split; [done|]. intros Hkl i. by rewrite H4.
  Qed.
  Lemma wp_l_fill_front T segs p l (k : nat) n tmp pos Q X :
    0 <= p - n -> (k <= length l)%nat -> 0 < n -> p + zlen l < slots segs ->
    pos = sitr (t_at T) segs (p + Z.of_nat k) ->
    swin (t_at T) segs (at_pos p l) ⊢
    ((swin (t_at T) segs (at_pos (p - n) (insert_at k (replicate (Z.to_nat n) tmp) l)) -∗
        Q (sitr (t_at T) segs (p - n + Z.of_nat k))
          (sobj T segs (p - n) (zlen (insert_at k (replicate (Z.to_nat n) tmp) l)))) ∧
     (∀ p' l', ⟦(p' + zlen l' = p + zlen l)%Z /\ zlen l <= zlen l' <= zlen l + n⟧ -∗
        swin (t_at T) segs (at_pos p' l') -∗ X EUser (sobj T segs p' (zlen l')))) -∗
    wp (sd_fill_front pos (Z.of_nat k) n tmp) (sobj T segs p (zlen l)) Q X.
  Proof.
    iIntros (Hp Hk Hn Hs ->) "Hw HK".
    iApply (wp_fill_front with "Hw"); [done|lia|lia|lia|apply live_within|]. iSplit.
    - iIntros (f' r o') "%H Hw". destruct H as (Hsp & -> & ->). iDestruct "HK" as "[HK _]".
      replace (zlen l + n) with (zlen (insert_at k (replicate (Z.to_nat n) tmp) l)) by (unfold insert_at; len; lia).
      iApply ("HK" with "[Hw]"). iApply (swin_eq with "Hw"). by apply (DevProofs.spread_list p l).
    - iDestruct "HK" as "[_ HK]".
      iPoseProof (xpos_list T segs X (fun p' m' f' => p' + m' = p + zlen l /\ zlen l <= m' <= zlen l + n) with "HK") as "HK".
      + done.
      + intros p' m' f'. lia.
      + naive_solver.
      + iIntros (f' p' m') "%H". iApply "HK". iPureIntro. tauto.
  Qed.
End lists.
