(** * sfl::devector: the remaining member functions *)

From Verif Require Export FreeFuns VectorProofs.
From Verif Require Export DevInsert.
From Coq Require Import ZifyBool.
From iris.proofmode Require Import environments tactics.
Open Scope Z_scope.

Section ops.
  Context `{E : Env}.

  Lemma dev_close a b p l cap q1 n1 q q2 n2 :
    0 <= p -> p + zlen l <= cap <= max_size -> q1 = b -> n1 = Z.to_nat p -> q = b +ₗ p ->
    q2 = b +ₗ (p + zlen l) -> n2 = Z.to_nat (cap - (p + zlen l)) ->
    ablock a b cap ⊢ raws q1 n1 -∗ elems q l -∗ raws q2 n2 -∗ dev_at a b p l cap.
  Proof. iIntros (? ? -> -> -> -> ->) "Ha H1 H2 H3". by iApply (dev_at_intro with "Ha H1 H2 H3"). Qed.
  Lemma dev_at_open a b p l cap :
    dev_at a b p l cap ⊢
    elems (b +ₗ p) l ∗ (∀ l', ⟦length l' = length l⟧ -∗ elems (b +ₗ p) l' -∗ dev_at a b p l' cap).
  Proof.
    iIntros "(%H & Ha & H1 & $ & H2)". iIntros (l') "%Hl Hl". rewrite -Hl. rewrite -Hl in H.
    iFrame. by iPureIntro.
  Qed.

  (** Destroying the elements from some position on, and up to some position. *)
  Lemma dev_at_cut a b p l cap (i : nat) :
    (i <= length l)%nat ->
    dev_at a b p l cap ⊢
    elems (b +ₗ (p + Z.of_nat i)) (drop i l) ∗
    (raws (b +ₗ (p + Z.of_nat i)) (length (drop i l)) -∗ dev_at a b p (take i l) cap).
  Proof.
    iIntros (Hi) "(%Hlen & Ha & H1 & Hl & H2)".
    iDestruct (elems_split _ _ (take i l) (drop i l) (b +ₗ (p + Z.of_nat i)) with "Hl") as "[Hl $]".
    { by rewrite take_drop. }
    { len. rewrite loc_add_assoc. f_equal. lia. }
    iIntros "Hr". iDestruct (raws_join _ (Z.to_nat (cap - (p + Z.of_nat i))) with "Hr H2") as "Hr".
    { len. rewrite loc_add_assoc. f_equal. lia. }
    { len. lia. }
    iApply (dev_close with "Ha H1 Hl Hr"); try done; len; [lia|lia|f_equal; lia|lia].
  Qed.
  Lemma dev_at_cut_front a b p l cap (i : nat) :
    (i <= length l)%nat ->
    dev_at a b p l cap ⊢
    elems (b +ₗ p) (take i l) ∗
    (raws (b +ₗ p) (length (take i l)) -∗ dev_at a b (p + Z.of_nat i) (drop i l) cap).
  Proof.
    iIntros (Hi) "(%Hlen & Ha & H1 & Hl & H2)".
    iDestruct (elems_split _ _ (take i l) (drop i l) (b +ₗ (p + Z.of_nat i)) with "Hl") as "[$ Hl]".
    { by rewrite take_drop. }
    { len. rewrite loc_add_assoc. f_equal. lia. }
    iIntros "Hr". iDestruct (raws_join _ (Z.to_nat (p + Z.of_nat i)) with "H1 Hr") as "Hr".
    { f_equal. lia. }
    { len. lia. }
    iApply (dev_close with "Ha Hr Hl H2"); try done; len; [lia|lia|f_equal; lia|lia].
  Qed.
  (** New elements after the last one, and before the first one. *)
  Lemma dev_at_back a b p l cap (n : nat) :
    zlen l + Z.of_nat n <= cap - p ->
    dev_at a b p l cap ⊢
    raws (b +ₗ (p + zlen l)) n ∗
    ((raws (b +ₗ (p + zlen l)) n -∗ dev_at a b p l cap) ∧
     (∀ vs, ⟦length vs = n⟧ -∗ elems (b +ₗ (p + zlen l)) vs -∗ dev_at a b p (l ++ vs) cap)).
  Proof.
    iIntros (Hn) "(%Hlen & Ha & H1 & Hl & H2)".
    iDestruct (raws_split _ _ n (Z.to_nat (cap - (p + zlen l + Z.of_nat n))) with "H2") as "[$ H2]"; [lia|done|].
    iSplit.
    - iIntros "Hr". iDestruct (raws_join with "Hr H2") as "Hr"; [done|done|].
      iApply (dev_close with "Ha H1 Hl Hr"); try done; lia.
    - iIntros (vs) "%Hvs Hv". iDestruct (elems_join _ (l ++ vs) with "Hl Hv") as "Hl".
      { by rewrite loc_add_assoc. }
      { done. }
      iApply (dev_close with "Ha H1 Hl H2"); try done; len; try lia. rewrite loc_add_assoc. f_equal. lia.
  Qed.
  Lemma dev_at_front a b p l cap (n : nat) :
    Z.of_nat n <= p ->
    dev_at a b p l cap ⊢
    raws (b +ₗ (p - Z.of_nat n)) n ∗
    ((raws (b +ₗ (p - Z.of_nat n)) n -∗ dev_at a b p l cap) ∧
     (∀ vs, ⟦length vs = n⟧ -∗ elems (b +ₗ (p - Z.of_nat n)) vs -∗ dev_at a b (p - Z.of_nat n) (vs ++ l) cap)).
  Proof.
    iIntros (Hn) "(%Hlen & Ha & H1 & Hl & H2)".
    iDestruct (raws_split _ _ (Z.to_nat (p - Z.of_nat n)) n (b +ₗ (p - Z.of_nat n)) with "H1") as "[H1 $]";
      [lia|f_equal; lia|].
    iSplit.
    - iIntros "Hr". iDestruct (raws_join with "H1 Hr") as "Hr"; [f_equal; lia|done|].
      iApply (dev_close with "Ha Hr Hl H2"); try done; lia.
    - iIntros (vs) "%Hvs Hv". iDestruct (elems_join _ (vs ++ l) with "Hv Hl") as "Hl".
      { rewrite loc_add_assoc. f_equal. lia. }
      { done. }
      iApply (dev_close with "Ha H1 Hl H2"); try done; len; try lia. f_equal. lia.
  Qed.

  (** ** clear, pop, erase *)
  Lemma wp_dv_clear a b p l cap Q X :
    dev_at a b p l cap ⊢ (dev_at a b p [] cap -∗ Q tt (dobj a b p 0 cap)) -∗
    wp dv_clear (dobj a b p (zlen l) cap) Q X.
  Proof.
    iIntros "Hd HK". unfold dv_clear. wbind. iApply wp_get. wbeta. dred. wbind.
    iDestruct (dev_at_cut _ _ _ _ _ 0 with "Hd") as "[Hl Hd]"; [lia|].
    rewrite drop_0 take_0 Z.add_0_r.
    iApply (wp_destroy_a with "Hl"); [by rewrite loc_add_assoc|]. iIntros "Hr".
    iApply (wp_set_last _ _ _ _ _ _ 0); [f_equal; lia|]. iApply "HK". by iApply "Hd".
  Qed.
  Lemma not_empty (b : loc) p (l : list V) :
    (0 < length l)%nat -> negb (loc_eqb (b +ₗ p) (b +ₗ (p + zlen l))) = true.
  Proof. intros. rewrite loc_eqb_add. lia. Qed.
  Lemma wp_dv_pop_front a b p v l cap Q X :
    dev_at a b p (v :: l) cap ⊢ (dev_at a b (p + 1) l cap -∗ Q tt (dobj a b (p + 1) (zlen l) cap)) -∗
    wp dv_pop_front (dobj a b p (zlen (v :: l)) cap) Q X.
  Proof.
    iIntros "Hd HK". unfold dv_pop_front. wbind. iApply wp_get. wbeta. dred. wbind.
    iApply wp_assert; [apply not_empty; simpl; lia|]. wbind.
    iDestruct (dev_at_cut_front _ _ _ _ _ 1 with "Hd") as "[Hl Hd]"; [simpl; lia|].
    cbn [take drop]. rewrite elems_cons elems_nil take_0. iDestruct "Hl" as "[Hl _]".
    iApply (wp_destroy_at with "Hl"). iIntros "Hl".
    iApply (wp_set_first _ _ _ _ _ _ (p + 1) (zlen l)); [by rewrite loc_add_assoc|simpl; lia|]. iApply "HK".
    iApply "Hd". by iApply (raws_one_join _ _ _ 0 with "Hl []").
  Qed.
  Lemma wp_dv_pop_back a b p v l cap Q X :
    dev_at a b p (l ++ [v]) cap ⊢ (dev_at a b p l cap -∗ Q tt (dobj a b p (zlen l) cap)) -∗
    wp dv_pop_back (dobj a b p (zlen (l ++ [v])) cap) Q X.
  Proof.
    iIntros "Hd HK". unfold dv_pop_back. wbind. iApply wp_get. wbeta. dred. wbind.
    iApply wp_assert; [apply not_empty; len; simpl; lia|]. wbind.
    iDestruct (dev_at_cut _ _ _ _ _ (length l) with "Hd") as "[Hl Hd]"; [len; simpl; lia|].
    rewrite take_app drop_app elems_cons elems_nil. iDestruct "Hl" as "[Hl _]".
    iApply (wp_set_last _ _ _ _ _ _ (zlen l)); [rewrite loc_add_assoc; f_equal; len; simpl; lia|].
    rewrite loc_add_assoc.
    replace (p + zlen (l ++ [v]) + -1) with (p + zlen l) by (len; simpl; lia).
    iApply (wp_destroy_at with "Hl").
    iIntros "Hl". iApply "HK". iApply "Hd". by iApply (raws_one_join _ _ _ 0 with "Hl []").
  Qed.

  (** Shared by [erase(pos)] and [erase(first, last)]: moving one side. *)
  Lemma wp_close_gap_front a b p l cap (i j : nat) (s : ddata) q1 q2 Q X :
    (i < j <= length l)%nat ->
    q1 = b +ₗ (p + Z.of_nat i) -> q2 = b +ₗ (p + Z.of_nat j) ->
    dev_at a b p l cap ⊢
    ((∀ l1, ⟦length l1 = (j - i)%nat⟧ -∗ dev_at a b p (l1 ++ take i l ++ drop j l) cap -∗
       Q (b +ₗ (p + Z.of_nat (j - i))) s) ∧
     (∀ l', ⟦length l' = length l /\ drop j l' = drop j l⟧ -∗ dev_at a b p l' cap -∗ X EUser s)) -∗
    wp (move_backward (b +ₗ p) q1 q2) s Q X.
  Proof.
    iIntros (Hij -> ->) "Hd HK". iDestruct (dev_at_open with "Hd") as "[Hl Hd]".
    set (l1 := take i l). set (l2 := take (j - i) (drop i l)). set (l3 := drop j l).
    assert (l = (l1 ++ l2) ++ l3) as Hl.
    { rewrite -assoc_L. unfold l1, l2, l3. rewrite -{1}(take_drop i l). f_equal.
      rewrite -{1}(take_drop (j - i) (drop i l)). rewrite drop_drop. do 2 f_equal. lia. }
    assert (length l = length l1 + length l2 + length l3)%nat as Hll by (unfold l1, l2, l3; len; lia).
    assert (length l1 = i) as Hl1 by (unfold l1; len; lia).
    assert (length l2 = (j - i)%nat) as Hl2 by (unfold l2; len; lia).
    iDestruct (elems_split _ _ (l1 ++ l2) l3 (b +ₗ (p + Z.of_nat j)) with "Hl") as "[Hl H3]".
    { done. }
    { rewrite loc_add_assoc. f_equal. len. lia. }
    iApply (wp_move_backward with "Hl"); [lia|rewrite loc_add_assoc; f_equal; lia|rewrite loc_add_assoc; f_equal; lia|].
    iSplit.
    - iIntros (l2') "%Hx Hl". iDestruct "HK" as "[HK _]". rewrite loc_add_assoc.
      iDestruct (elems_join _ (l2' ++ l1 ++ l3) with "Hl H3") as "Hl".
      { rewrite loc_add_assoc. f_equal. len. lia. }
      { by rewrite -assoc_L. }
      rewrite Hl2. iApply ("HK" $! l2' with "[%]"); [lia|]. iApply ("Hd" with "[%] Hl").
      rewrite Hll. len. lia.
    - iIntros (l') "%Hx Hl". iDestruct "HK" as "[_ HK]".
      iDestruct (elems_join _ (l' ++ l3) with "Hl H3") as "Hl".
      { rewrite loc_add_assoc. f_equal. lia. }
      { done. }
      iApply ("HK" $! (l' ++ l3) with "[%]").
      { split; [rewrite Hll; len; lia|].
        rewrite drop_app_alt; [done|lia]. }
      iApply ("Hd" with "[%] Hl"). rewrite Hll. len. lia.
  Qed.
  Lemma wp_close_gap_back a b p l cap (i j : nat) (s : ddata) q1 q2 q3 Q X :
    (i < j <= length l)%nat ->
    q1 = b +ₗ (p + Z.of_nat i) -> q2 = b +ₗ (p + Z.of_nat j) -> q3 = b +ₗ (p + zlen l) ->
    dev_at a b p l cap ⊢
    ((∀ l1, ⟦length l1 = (j - i)%nat⟧ -∗ dev_at a b p ((take i l ++ drop j l) ++ l1) cap -∗
       Q (b +ₗ (p + zlen l - Z.of_nat (j - i))) s) ∧
     (∀ l', ⟦length l' = length l /\ take i l' = take i l⟧ -∗ dev_at a b p l' cap -∗ X EUser s)) -∗
    wp (move q2 q3 q1) s Q X.
  Proof.
    iIntros (Hij -> -> ->) "Hd HK". iDestruct (dev_at_open with "Hd") as "[Hl Hd]".
    set (l1 := take i l). set (l2 := take (j - i) (drop i l)). set (l3 := drop j l).
    assert (l = l1 ++ l2 ++ l3) as Hl.
    { unfold l1, l2, l3. rewrite -{1}(take_drop i l). f_equal.
      rewrite -{1}(take_drop (j - i) (drop i l)). rewrite drop_drop. do 2 f_equal. lia. }
    assert (length l = length l1 + length l2 + length l3)%nat as Hll by (unfold l1, l2, l3; len; lia).
    assert (length l1 = i) as Hl1 by (unfold l1; len; lia).
    assert (length l2 = (j - i)%nat) as Hl2 by (unfold l2; len; lia).
    assert (length l3 = (length l - j)%nat) as Hl3 by (unfold l3; len; lia).
    iDestruct (elems_split _ _ l1 (l2 ++ l3) (b +ₗ (p + Z.of_nat i)) with "Hl") as "[H1 Hl]".
    { done. }
    { rewrite loc_add_assoc. f_equal. lia. }
    iApply (wp_move with "Hl"); [lia|rewrite loc_add_assoc; f_equal; lia|rewrite loc_add_assoc; f_equal; lia|].
    iSplit.
    - iIntros (l2') "%Hx Hl". iDestruct "HK" as "[HK _]". rewrite loc_add_assoc.
      iDestruct (elems_join _ ((l1 ++ l3) ++ l2') with "H1 Hl") as "Hl".
      { rewrite loc_add_assoc. f_equal. lia. }
      { by rewrite -assoc_L. }
      replace (p + Z.of_nat i + zlen l3) with (p + zlen l - Z.of_nat (j - i)) by lia.
      iApply ("HK" $! l2' with "[%]"); [lia|]. iApply ("Hd" with "[%] Hl").
      rewrite Hll. len. lia.
    - iIntros (l') "%Hx Hl". iDestruct "HK" as "[_ HK]".
      iDestruct (elems_join _ (l1 ++ l') with "H1 Hl") as "Hl".
      { rewrite loc_add_assoc. f_equal. lia. }
      { done. }
      iApply ("HK" $! (l1 ++ l') with "[%]").
      { split; [rewrite Hll; len; lia|].
        rewrite take_app_alt; [done|lia]. }
      iApply ("Hd" with "[%] Hl"). rewrite Hll. len. lia.
  Qed.

  Lemma wp_dv_erase a b p l cap (i : nat) pos Q X :
    (i < length l)%nat -> pos = b +ₗ (p + Z.of_nat i) ->
    dev_at a b p l cap ⊢
    ((let p' := if Z.of_nat i <? zlen l - Z.of_nat i then p + 1 else p in
      dev_at a b p' (take i l ++ drop (S i) l) cap -∗
      Q (b +ₗ (p' + Z.of_nat i)) (dobj a b p' (zlen (take i l ++ drop (S i) l)) cap)) ∧
     (∀ l', ⟦length l' = length l /\
             if Z.of_nat i <? zlen l - Z.of_nat i then drop (S i) l' = drop (S i) l else take i l' = take i l⟧ -∗
        dev_at a b p l' cap -∗ X EUser (dobj a b p (zlen l) cap))) -∗
    wp (dv_erase pos) (dobj a b p (zlen l) cap) Q X.
  Proof.
    iIntros (Hi ->) "Hd HK". unfold dv_erase. wbind. iApply wp_get. wbeta. wbind.
    iApply (wp_dv_offset _ _ _ _ _ _ (Z.of_nat i)); [lia|done|]. wbeta. dred. wbind.
    iApply wp_assert; [rewrite loc_eqb_add; lia|]. wbind. iApply wp_b_sub; [done|]. wbeta.
    replace (p + zlen l - (p + Z.of_nat i)) with (zlen l - Z.of_nat i) by lia.
    destruct (Z.ltb_spec (Z.of_nat i) (zlen l - Z.of_nat i)) as [Hc|Hc].
    - wbind. rewrite !loc_add_assoc.
      iApply (wp_close_gap_front a b p l cap i (S i) with "Hd"); [lia|done|f_equal; lia|]. iSplit.
      + iIntros (l1) "%Hl1 Hd". wbeta. destruct l1 as [|x [|]]; try (simpl in Hl1; lia). wbind.
        replace (p + Z.of_nat (S i - i)) with (p + 1) by lia.
        iApply (wp_set_first _ _ _ _ _ _ (p + 1) (zlen (take i l ++ drop (S i) l))); [done|len; lia|].
        wbind. iDestruct (dev_at_cut_front _ _ _ _ _ 1 with "Hd") as "[Hl Hd]"; [simpl; lia|].
        cbn [take drop app]. rewrite elems_cons elems_nil take_0. iDestruct "Hl" as "[Hl _]".
        iApply (wp_destroy_at with "Hl"). iIntros "Hl". iApply wp_ret. iDestruct "HK" as "[HK _]".
        replace (p + Z.of_nat i + 1) with (p + 1 + Z.of_nat i) by lia. iApply "HK".
        iApply "Hd". by iApply (raws_one_join _ _ _ 0 with "Hl []").
      + iIntros (l') "%Hx Hd". iDestruct "HK" as "[_ HK]". by iApply ("HK" with "[%] Hd").
    - wbind. rewrite !loc_add_assoc.
      iApply (wp_close_gap_back a b p l cap i (S i) with "Hd"); [lia|done|f_equal; lia|done|]. iSplit.
      + iIntros (l1) "%Hl1 Hd". wbeta. destruct l1 as [|x [|]]; try (simpl in Hl1; lia). wbind.
        set (l' := take i l ++ drop (S i) l).
        assert (zlen l' = zlen l - 1) as Hl' by (unfold l'; len; lia).
        replace (p + zlen l - Z.of_nat (S i - i)) with (p + zlen l') by lia.
        iApply (wp_set_last _ _ _ _ _ _ (zlen l')); [done|].
        wbind. iDestruct (dev_at_cut _ _ _ _ _ (length l') with "Hd") as "[Hl Hd]"; [len; simpl; lia|].
        rewrite take_app drop_app elems_cons elems_nil. iDestruct "Hl" as "[Hl _]".
        iApply (wp_destroy_at with "Hl"). iIntros "Hl". iApply wp_ret. iDestruct "HK" as "[HK _]".
        iApply "HK". iApply "Hd". by iApply (raws_one_join _ _ _ 0 with "Hl []").
      + iIntros (l') "%Hx Hd". iDestruct "HK" as "[_ HK]". by iApply ("HK" with "[%] Hd").
  Qed.
  Lemma wp_dv_erase_range a b p l cap (i j : nat) q1 q2 Q X :
    (i <= j <= length l)%nat -> q1 = b +ₗ (p + Z.of_nat i) -> q2 = b +ₗ (p + Z.of_nat j) ->
    dev_at a b p l cap ⊢
    ((let p' := if Z.of_nat i <? zlen l - Z.of_nat j then p + (Z.of_nat j - Z.of_nat i) else p in
      dev_at a b p' (take i l ++ drop j l) cap -∗
      Q (b +ₗ (p' + Z.of_nat i)) (dobj a b p' (zlen (take i l ++ drop j l)) cap)) ∧
     (∀ l', ⟦length l' = length l /\
             if Z.of_nat i <? zlen l - Z.of_nat j then drop j l' = drop j l else take i l' = take i l⟧ -∗
        dev_at a b p l' cap -∗ X EUser (dobj a b p (zlen l) cap))) -∗
    wp (dv_erase_range q1 q2) (dobj a b p (zlen l) cap) Q X.
  Proof.
    iIntros (Hij -> ->) "Hd HK". unfold dv_erase_range. wbind. iApply wp_get. wbeta. wbind.
    iApply (wp_dv_offset _ _ _ _ _ _ (Z.of_nat i)); [lia|done|]. wbeta. wbind.
    iApply (wp_dv_offset _ _ _ _ _ _ (Z.of_nat j)); [lia|done|]. wbeta. dred. wbind.
    iApply wp_assert; [lia|]. rewrite loc_eqb_add.
    destruct (Z.eqb_spec (p + Z.of_nat i) (p + Z.of_nat j)) as [He|Hne].
    { assert (j = i) as -> by lia. iApply wp_ret. iDestruct "HK" as "[HK _]". cbv zeta. rewrite take_drop.
      replace (p + (Z.of_nat i - Z.of_nat i)) with p by lia. rewrite loc_add_assoc.
      destruct (Z.of_nat i <? zlen l - Z.of_nat i); by iApply "HK". }
    wbind. iApply wp_b_sub; [done|]. wbeta.
    replace (p + zlen l - (p + Z.of_nat j)) with (zlen l - Z.of_nat j) by lia.
    destruct (Z.ltb_spec (Z.of_nat i) (zlen l - Z.of_nat j)) as [Hc|Hc].
    - wbind. rewrite !loc_add_assoc.
      iApply (wp_close_gap_front a b p l cap i j with "Hd"); [lia|done|done|]. iSplit.
      + iIntros (l1) "%Hl1 Hd". wbeta. wbind.
        iDestruct (dev_at_cut_front _ _ _ _ _ (j - i) with "Hd") as "[Hl Hd]"; [len; lia|].
        rewrite take_app_alt; [|done]. rewrite drop_app_alt; [|done].
        iApply (wp_destroy_a with "Hl"); [rewrite loc_add_assoc; f_equal; lia|]. iIntros "Hl". wbind.
        iApply (wp_set_first _ _ _ _ _ _ (p + Z.of_nat (j - i)) (zlen (take i l ++ drop j l))); [done|len; lia|].
        iApply wp_ret. iDestruct "HK" as "[HK _]".
        replace (Z.of_nat j - Z.of_nat i) with (Z.of_nat (j - i)) by lia.
        replace (p + Z.of_nat j) with (p + Z.of_nat (j - i) + Z.of_nat i) by lia. iApply "HK".
        by iApply "Hd".
      + iIntros (l') "%Hx Hd". iDestruct "HK" as "[_ HK]". by iApply ("HK" with "[%] Hd").
    - wbind. rewrite !loc_add_assoc.
      iApply (wp_close_gap_back a b p l cap i j with "Hd"); [lia|done|done|done|]. iSplit.
      + iIntros (l1) "%Hl1 Hd". wbeta. wbind.
        set (l' := take i l ++ drop j l).
        assert (zlen l' = zlen l - Z.of_nat (j - i)) as Hl' by (unfold l'; len; lia).
        replace (p + zlen l - Z.of_nat (j - i)) with (p + zlen l') by lia.
        iDestruct (dev_at_cut _ _ _ _ _ (length l') with "Hd") as "[Hl Hd]"; [len; lia|].
        rewrite take_app drop_app.
        iApply (wp_destroy_a with "Hl"); [rewrite loc_add_assoc; f_equal; lia|]. iIntros "Hl". wbind.
        iApply (wp_set_last _ _ _ _ _ _ (zlen l')); [done|].
        iApply wp_ret. iDestruct "HK" as "[HK _]". iApply "HK". by iApply "Hd".
      + iIntros (l') "%Hx Hd". iDestruct "HK" as "[_ HK]". by iApply ("HK" with "[%] Hd").
  Qed.

  (** ** Capacity *)
  (** The elements after a failed relocation to storage of capacity [cap']. *)
  Definition move_bad (cap' : Z) (e : exn) (l l' : list V) : Prop :=
    length l' = length l /\ (nothrow_move || copyable = true -> l' = l) /\
    match e with
    | ELength => l' = l /\ max_size < cap'
    | EBadAlloc => l' = l
    | EUser => True
    | EOutOfRange => False
    end.
  Lemma move_bad_of (cap' : Z) (e : exn) (l l' : list V) :
    length l' = length l /\ (nothrow_move || copyable = true -> l' = l) /\
    (e = EBadAlloc /\ l' = l \/ e = EUser) -> move_bad cap' e l l'.
  Proof. intros (H1 & H2 & [[-> ->]| ->]); done. Qed.

  Lemma wp_dv_grow_front a b p l cap add Q X :
    0 <= add ->
    dev_at a b p l cap ⊢
    ((∀ b', dev_at a b' (p + add) l (cap + add) -∗ Q tt (dobj a b' (p + add) (zlen l) (cap + add))) ∧
     (∀ e l', ⟦move_bad (cap + add) e l l'⟧ -∗ dev_at a b p l' cap -∗ X e (dobj a b p (zlen l) cap))) -∗
    wp (dv_grow_front add) (dobj a b p (zlen l) cap) Q X.
  Proof.
    iIntros (Hadd) "Hd HK". iDestruct (dev_at_len with "Hd") as "[%Hlen Hd]".
    unfold dv_grow_front. wbind. iApply wp_dv_capacity. wbeta.
    destruct (Z.ltb_spec (max_size - cap) add) as [Hms|Hms].
    { iApply wp_throw; [by (left + right)|]. iDestruct "HK" as "[_ HK]". iApply ("HK" with "[%] Hd").
      split_and!; try done. lia. }
    wbind. iApply wp_get. wbeta. dred. wbind. iApply wp_b_sub; [done|]. wbeta.
    replace (cap + add - (cap - p)) with (p + add) by lia.
    iApply (wp_relocate with "Hd"); [lia|lia|]. iSplit.
    - iDestruct "HK" as "[HK _]". iExact "HK".
    - iIntros (e l') "%Hx Hd". iDestruct "HK" as "[_ HK]". iApply ("HK" with "[%] Hd"). by apply move_bad_of.
  Qed.
  Lemma wp_dv_grow_back a b p l cap add Q X :
    0 <= add ->
    dev_at a b p l cap ⊢
    ((∀ b', dev_at a b' p l (cap + add) -∗ Q tt (dobj a b' p (zlen l) (cap + add))) ∧
     (∀ e l', ⟦move_bad (cap + add) e l l'⟧ -∗ dev_at a b p l' cap -∗ X e (dobj a b p (zlen l) cap))) -∗
    wp (dv_grow_back add) (dobj a b p (zlen l) cap) Q X.
  Proof.
    iIntros (Hadd) "Hd HK". iDestruct (dev_at_len with "Hd") as "[%Hlen Hd]".
    unfold dv_grow_back. wbind. iApply wp_dv_capacity. wbeta.
    destruct (Z.ltb_spec (max_size - cap) add) as [Hms|Hms].
    { iApply wp_throw; [by (left + right)|]. iDestruct "HK" as "[_ HK]". iApply ("HK" with "[%] Hd").
      split_and!; try done. lia. }
    wbind. iApply wp_dv_front_room. wbeta.
    iApply (wp_relocate with "Hd"); [lia|lia|]. iSplit.
    - iDestruct "HK" as "[HK _]". iExact "HK".
    - iIntros (e l') "%Hx Hd". iDestruct "HK" as "[_ HK]". iApply ("HK" with "[%] Hd"). by apply move_bad_of.
  Qed.

  Definition to_storage (stay : bool) (b : loc) (p cap : Z) (p1 cap1 : Z) (b' : loc) (p' cap' : Z) : Prop :=
    if stay then b' = b /\ p' = p /\ cap' = cap else p' = p1 /\ cap' = cap1.

  Lemma wp_dv_reserve_front a b p l cap n Q X :
    0 <= n ->
    dev_at a b p l cap ⊢
    ((∀ b' p' cap', ⟦to_storage (n <=? p + zlen l) b p cap (n - zlen l) (n + (cap - p - zlen l)) b' p' cap'⟧ -∗
       dev_at a b' p' l cap' -∗ Q tt (dobj a b' p' (zlen l) cap')) ∧
     (∀ e l', ⟦move_bad (n + (cap - p - zlen l)) e l l' /\ p + zlen l < n⟧ -∗
       dev_at a b p l' cap -∗ X e (dobj a b p (zlen l) cap))) -∗
    wp (dv_reserve_front n) (dobj a b p (zlen l) cap) Q X.
  Proof.
    iIntros (Hn) "Hd HK". iDestruct (dev_at_len with "Hd") as "[%Hlen Hd]".
    unfold dv_reserve_front. wbind. iApply wp_dv_back_room. wbeta.
    destruct (Z.ltb_spec (max_size - (cap - p - zlen l)) n) as [Hms|Hms].
    { iApply wp_throw; [by (left + right)|]. iDestruct "HK" as "[_ HK]". iApply ("HK" with "[%] Hd").
      split; [split_and!; try done; lia|lia]. }
    wbind. iApply wp_dv_size. wbeta. wbind. iApply wp_dv_front_room. wbeta.
    destruct (Z.ltb_spec (zlen l + p) n) as [Hc|Hc].
    - wbind. iApply wp_get. wbeta. dred. wbind. iApply wp_b_sub; [done|]. wbeta.
      replace (cap - p - zlen l + n - (cap - p)) with (n - zlen l) by lia.
      replace (cap - p - zlen l + n) with (n + (cap - p - zlen l)) by lia.
      iApply (wp_relocate with "Hd"); [lia|lia|]. iSplit.
      + iIntros (b') "Hd". iDestruct "HK" as "[HK _]". iApply ("HK" with "[%] Hd").
        unfold to_storage. by rewrite (proj2 (Z.leb_gt _ _)); [|lia].
      + iIntros (e l') "%Hx Hd". iDestruct "HK" as "[_ HK]". iApply ("HK" with "[%] Hd").
        split; [by apply move_bad_of|lia].
    - iApply wp_ret. iDestruct "HK" as "[HK _]". iApply ("HK" with "[%] Hd").
      unfold to_storage. by rewrite (proj2 (Z.leb_le _ _)); [|lia].
  Qed.
  Lemma wp_dv_reserve_back a b p l cap n Q X :
    0 <= n ->
    dev_at a b p l cap ⊢
    ((∀ b' p' cap', ⟦to_storage (n <=? zlen l + (cap - p - zlen l)) b p cap p (p + n) b' p' cap'⟧ -∗
       dev_at a b' p' l cap' -∗ Q tt (dobj a b' p' (zlen l) cap')) ∧
     (∀ e l', ⟦move_bad (p + n) e l l' /\ zlen l + (cap - p - zlen l) < n⟧ -∗
       dev_at a b p l' cap -∗ X e (dobj a b p (zlen l) cap))) -∗
    wp (dv_reserve_back n) (dobj a b p (zlen l) cap) Q X.
  Proof.
    iIntros (Hn) "Hd HK". iDestruct (dev_at_len with "Hd") as "[%Hlen Hd]".
    unfold dv_reserve_back. wbind. iApply wp_dv_front_room. wbeta.
    destruct (Z.ltb_spec (max_size - p) n) as [Hms|Hms].
    { iApply wp_throw; [by (left + right)|]. iDestruct "HK" as "[_ HK]". iApply ("HK" with "[%] Hd").
      split; [split_and!; try done; lia|lia]. }
    wbind. iApply wp_dv_size. wbeta. wbind. iApply wp_dv_back_room. wbeta.
    destruct (Z.ltb_spec (zlen l + (cap - p - zlen l)) n) as [Hc|Hc].
    - iApply (wp_relocate with "Hd"); [lia|lia|]. iSplit.
      + iIntros (b') "Hd". iDestruct "HK" as "[HK _]". iApply ("HK" with "[%] Hd").
        unfold to_storage. by rewrite (proj2 (Z.leb_gt _ _)); [|lia].
      + iIntros (e l') "%Hx Hd". iDestruct "HK" as "[_ HK]". iApply ("HK" with "[%] Hd").
        split; [by apply move_bad_of|lia].
    - iApply wp_ret. iDestruct "HK" as "[HK _]". iApply ("HK" with "[%] Hd").
      unfold to_storage. by rewrite (proj2 (Z.leb_le _ _)); [|lia].
  Qed.
  Lemma wp_dv_shrink a b p l cap Q X :
    dev_at a b p l cap ⊢
    ((∀ b' p' cap', ⟦to_storage (cap <=? zlen l) b p cap 0 (zlen l) b' p' cap'⟧ -∗
       dev_at a b' p' l cap' -∗ Q tt (dobj a b' p' (zlen l) cap')) ∧
     (∀ e l', ⟦move_bad (zlen l) e l l' /\ zlen l < cap⟧ -∗
       dev_at a b p l' cap -∗ X e (dobj a b p (zlen l) cap))) -∗
    wp dv_shrink (dobj a b p (zlen l) cap) Q X.
  Proof.
    iIntros "Hd HK". iDestruct (dev_at_len with "Hd") as "[%Hlen Hd]".
    unfold dv_shrink. wbind. iApply wp_dv_size. wbeta. wbind. iApply wp_dv_capacity. wbeta.
    destruct (Z.ltb_spec (zlen l) cap) as [Hc|Hc].
    - iApply (wp_relocate with "Hd"); [lia|lia|]. iSplit.
      + iIntros (b') "Hd". iDestruct "HK" as "[HK _]". iApply ("HK" with "[%] Hd").
        unfold to_storage. by rewrite (proj2 (Z.leb_gt _ _)); [|lia].
      + iIntros (e l') "%Hx Hd". iDestruct "HK" as "[_ HK]". iApply ("HK" with "[%] Hd").
        split; [by apply move_bad_of|lia].
    - iApply wp_ret. iDestruct "HK" as "[HK _]". iApply ("HK" with "[%] Hd").
      unfold to_storage. by rewrite (proj2 (Z.leb_le _ _)); [|lia].
  Qed.

  (** ** resize *)

  (** Filling free storage with copies of a value; the argument may refer to an
      element. *)
  Lemma wp_fill_back a b p l cap ar v (n : nat) (s : ddata) q Q X :
    arg_rel (b +ₗ p) l ar v l -> ~ is_move ar -> zlen l + Z.of_nat n <= cap - p -> q = b +ₗ (p + zlen l) ->
    dev_at a b p l cap ⊢
    ((dev_at a b p (l ++ replicate n v) cap -∗ Q (b +ₗ (p + zlen (l ++ replicate n v))) s) ∧
     (dev_at a b p l cap -∗ X EUser s)) -∗
    wp (uninitialized_fill_n_a q n ar) s Q X.
  Proof.
    iIntros (Har Hm Hn ->) "(%Hlen & Ha & H1 & Hl & H2) HK".
    iDestruct (raws_split _ _ n (Z.to_nat (cap - (p + zlen l + Z.of_nat n))) with "H2") as "[Hr H2]"; [lia|done|].
    destruct (arg_rel_const _ _ _ _ _ Har Hm) as [_ Hmk].
    iApply (wp_ufill_n with "Hl Hr"); [done|]. iSplit.
    - iIntros "Hl Hv". iDestruct "HK" as "[HK _]".
      iDestruct (elems_join _ (l ++ replicate n v) with "Hl Hv") as "Hl"; [by rewrite loc_add_assoc|done|].
      rewrite loc_add_assoc.
      replace (p + zlen l + Z.of_nat n) with (p + zlen (l ++ replicate n v)) by (len; lia). iApply "HK".
      iApply (dev_close with "Ha H1 Hl H2"); try done; len; try lia. all: rewrite ?loc_add_assoc; f_equal; lia.
    - iIntros "Hl Hr". iDestruct "HK" as "[_ HK]". iApply "HK".
      iDestruct (raws_join with "Hr H2") as "Hr"; [done|done|].
      iApply (dev_close with "Ha H1 Hl Hr"); try done; lia.
  Qed.
  (** The argument refers to an element of the first part. *)
  Lemma wp_fill_front a b p l l2 cap ar v (n : nat) (s : ddata) q1 q2 Q X :
    arg_rel (b +ₗ p) l ar v l -> ~ is_move ar -> Z.of_nat n <= p ->
    q1 = b +ₗ (p - Z.of_nat n) -> q2 = b +ₗ p ->
    dev_at a b p (l ++ l2) cap ⊢
    ((dev_at a b (p - Z.of_nat n) (replicate n v ++ l ++ l2) cap -∗ Q tt s) ∧
     (dev_at a b p (l ++ l2) cap -∗ X EUser s)) -∗
    wp (uninitialized_fill_a q1 q2 ar) s Q X.
  Proof.
    iIntros (Har Hm Hn -> ->) "(%Hlen & Ha & H1 & Hl & H2) HK".
    iDestruct (raws_split _ _ (Z.to_nat (p - Z.of_nat n)) n (b +ₗ (p - Z.of_nat n)) with "H1") as "[H1 Hr]";
      [lia|f_equal; lia|].
    iDestruct (elems_split _ _ l l2 with "Hl") as "[Hl Hl2]"; [done|done|].
    destruct (arg_rel_const _ _ _ _ _ Har Hm) as [_ Hmk].
    iApply (wp_ufill _ _ _ _ _ n with "Hl Hr"); [done|rewrite loc_add_assoc; f_equal; lia|]. iSplit.
    - iIntros "Hl Hv". iDestruct "HK" as "[HK _]".
      iDestruct (elems_join _ (l ++ l2) with "Hl Hl2") as "Hl"; [done|done|].
      iDestruct (elems_join _ (replicate n v ++ l ++ l2) with "Hv Hl") as "Hl";
        [rewrite loc_add_assoc; f_equal; len; lia|done|].
      iApply "HK". iApply (dev_close with "Ha H1 Hl H2"); try done; len; try lia; revert Hlen; len; intros; try lia.
      f_equal. lia.
    - iIntros "Hl Hr". iDestruct "HK" as "[_ HK]". iApply "HK".
      iDestruct (elems_join _ (l ++ l2) with "Hl Hl2") as "Hl"; [done|done|].
      iDestruct (raws_join with "H1 Hr") as "H1"; [f_equal; lia|done|].
      iApply (dev_close with "Ha H1 Hl H2"); try done; lia.
  Qed.
  Lemma wp_ufill_back a b p l cap ar v (n : nat) (s : ddata) q q' Q X :
    arg_rel (b +ₗ p) l ar v l -> ~ is_move ar -> zlen l + Z.of_nat n <= cap - p -> q = b +ₗ (p + zlen l) ->
    q' = q +ₗ Z.of_nat n ->
    dev_at a b p l cap ⊢
    ((dev_at a b p (l ++ replicate n v) cap -∗ Q tt s) ∧ (dev_at a b p l cap -∗ X EUser s)) -∗
    wp (uninitialized_fill_a q q' ar) s Q X.
  Proof.
    iIntros (Har Hm Hn Hq ->) "Hd HK". unfold uninitialized_fill_a.
    iApply wp_bind. iApply wp_range_len; [done|simpl; lia|]. simpl.
    replace (Z.to_nat _) with n by lia. iApply wp_bind.
    iApply (wp_fill_back with "Hd"); [done..|]. iSplit.
    - iIntros "Hd". iApply wp_ret. iDestruct "HK" as "[HK _]". by iApply "HK".
    - iIntros "Hd". iDestruct "HK" as "[_ HK]". by iApply "HK".
  Qed.

  (** [ar] does not refer to an element of the container. *)
  Definition free_arg (ar : arg) (v : V) : Prop := forall f l, arg_rel f l ar v l.

  Definition resize_bad (n : nat) (p cap : Z) (b : loc) (v : V) (l : list V) (e : exn) (b' : loc)
      (l' : list V) (cap' : Z) : Prop :=
    (length l < n)%nat /\ (length l <= length l' <= n)%nat /\
    (nothrow_move || copyable = true \/ Z.of_nat n <= cap -> exists k, l' = l ++ replicate k v) /\
    (Z.of_nat n <= cap - p -> b' = b /\ cap' = cap /\ l' = l) /\
    match e with
    | ELength => b' = b /\ cap' = cap /\ l' = l /\ max_size < Z.of_nat n
    | EBadAlloc => b' = b /\ cap' = cap /\ l' = l /\ cap < Z.of_nat n
    | EUser => True
    | EOutOfRange => False
    end.
  Lemma wp_dv_resize a b p l cap ar v (n : nat) Q X :
    let g := Geom p (zlen l) cap in
    arg_rel (b +ₗ p) l ar v l -> ~ is_move ar -> (cap < Z.of_nat n -> free_arg ar v) ->
    dev_at a b p l cap ⊢
    ((∀ b' p' cap', ⟦if Z.of_nat n <=? cap - p then b' = b /\ p' = p /\ cap' = cap
                     else if Z.of_nat n <=? cap then b' = b /\ p' = cap - Z.of_nat n /\ cap' = cap
                     else p' = 0 /\ cap' = Z.of_nat n⟧ -∗
       dev_at a b' p' (DevSpec.resized g n v l) cap' -∗ Q tt (dobj a b' p' (Z.of_nat n) cap')) ∧
     (∀ e b' l' cap', ⟦resize_bad n p cap b v l e b' l' cap'⟧ -∗
       dev_at a b' p l' cap' -∗ X e (dobj a b' p (zlen l') cap'))) -∗
    wp (dv_resize (Z.of_nat n) ar) (dobj a b p (zlen l) cap) Q X.
  Proof.
    intros g. iIntros (Har Hm Hfree) "Hd HK". iDestruct (dev_at_len with "Hd") as "[%Hlen Hd]".
    unfold dv_resize. wbind. iApply wp_dv_size. wbeta. wbind. iApply wp_get. wbeta. dred.
    unfold DevSpec.resized, g, g_back. cbn [g_front g_size g_cap].
    destruct (Z.leb_spec (Z.of_nat n) (zlen l)) as [Hc|Hc].
    { wbind. iDestruct (dev_at_cut _ _ _ _ _ n with "Hd") as "[Hl Hd]"; [lia|]. rewrite loc_add_assoc.
      iApply (wp_destroy_a with "Hl"); [rewrite loc_add_assoc; f_equal; len; lia|]. iIntros "Hl".
      iApply (wp_set_last _ _ _ _ _ _ (Z.of_nat n)); [done|]. iDestruct "HK" as "[HK _]".
      iApply ("HK" with "[%]"). { rewrite (proj2 (Z.leb_le _ _)); [done|lia]. }
      replace (Z.to_nat (Z.min _ _)) with 0%nat by lia. replace (n - length l - 0)%nat with 0%nat by lia.
      rewrite /= app_nil_r. by iApply "Hd". }
    rewrite (take_ge l n); [|lia].
    wbind. iApply wp_dv_back_room. wbeta.
    destruct (Z.leb_spec (Z.of_nat n) (zlen l + (cap - p - zlen l))) as [Hc2|Hc2].
    { wbind. iApply (wp_fill_back with "Hd"); [done|done|lia|done|]. iSplit; last first.
      { iIntros "Hd". iDestruct "HK" as "[_ HK]". iApply ("HK" with "[%] Hd").
        unfold resize_bad. split_and!; try done; try lia. intros _. exists 0%nat. by rewrite app_nil_r. }
      iIntros "Hd". wbeta. iApply (wp_set_last _ _ _ _ _ _ (Z.of_nat n)); [f_equal; len; lia|].
      iDestruct "HK" as "[HK _]". iApply ("HK" with "[%]"). { rewrite (proj2 (Z.leb_le _ _)); [done|lia]. }
      replace (Z.to_nat (Z.min _ _)) with 0%nat by lia. rewrite Nat.sub_0_r.
      replace (Z.to_nat (Z.of_nat n - zlen l)) with (n - length l)%nat by lia. done. }
    wbind. iApply wp_dv_front_room. wbeta.
    destruct (Z.leb_spec (Z.of_nat n) (p + zlen l + (cap - p - zlen l))) as [Hc3|Hc3].
    { wbind. iApply (wp_ufill_back a b p l cap ar v (Z.to_nat (cap - p - zlen l)) with "Hd");
        [done|done|lia|done|rewrite loc_add_assoc; f_equal; lia|]. iSplit; last first.
      { iIntros "Hd". iDestruct "HK" as "[_ HK]". iApply ("HK" with "[%] Hd").
        unfold resize_bad. split_and!; try done; try lia. intros _. exists 0%nat. by rewrite app_nil_r. }
      iIntros "Hd". wbind. set (l2 := replicate (Z.to_nat (cap - p - zlen l)) v).
      assert (zlen l2 = cap - p - zlen l) as Hl2 by (unfold l2; len; lia).
      iApply (wp_set_last _ _ _ _ _ _ (zlen (l ++ l2))); [f_equal; len; lia|]. wbind. rewrite loc_add_assoc.
      set (k := Z.to_nat (Z.of_nat n - (cap - p))).
      iApply (wp_fill_front a b p l l2 cap ar v k with "Hd"); [done|done|lia|f_equal; lia|done|]. iSplit; last first.
      { iIntros "Hd". iDestruct "HK" as "[_ HK]". iApply ("HK" with "[%] Hd").
        unfold resize_bad. rewrite app_length. split_and!; try done; try lia. intros _. by eexists. }
      iIntros "Hd". iApply (wp_set_first _ _ _ _ _ _ (cap - Z.of_nat n) (Z.of_nat n)); [f_equal; lia|len; lia|].
      iDestruct "HK" as "[HK _]". iApply ("HK" with "[%]").
      { rewrite (proj2 (Z.leb_gt _ _)); [|lia]. rewrite (proj2 (Z.leb_le _ _)); [done|lia]. }
      replace (Z.to_nat (Z.min _ _)) with k by lia. replace (p - Z.of_nat k) with (cap - Z.of_nat n) by lia.
      unfold l2. replace (n - length l - k)%nat with (Z.to_nat (cap - p - zlen l)) by lia. done. }
    assert (cap < Z.of_nat n) as Hbig by lia. specialize (Hfree Hbig).
    wbind. iApply (wp_dv_grow_back with "Hd"); [lia|]. iSplit; last first.
    { iIntros (e l') "%Hx Hd". destruct Hx as (Hx1 & Hx2 & Hx3). iDestruct "HK" as "[_ HK]".
      rewrite -Hx1. iApply ("HK" with "[%] Hd"). unfold resize_bad. split_and!; try done; try lia.
      - intros [Hn|?]; [|lia]. exists 0%nat. rewrite app_nil_r. by apply Hx2.
      - destruct e; try done; destruct Hx3 as [-> ?]; split_and!; try done; lia. }
    iIntros (b') "Hd". replace (cap + (Z.of_nat n - (p + zlen l + (cap - p - zlen l)))) with (Z.of_nat n) by lia.
    wbind. iApply wp_get. wbeta. dred. wbind.
    iApply (wp_fill_back with "Hd"); [apply Hfree|done|lia|done|]. iSplit; last first.
    { iIntros "Hd". iDestruct "HK" as "[_ HK]". iApply ("HK" with "[%] Hd").
      unfold resize_bad. split_and!; try done; try lia. intros _. exists 0%nat. by rewrite app_nil_r. }
    iIntros "Hd". wbeta. wbind. set (l2 := replicate (Z.to_nat (Z.of_nat n - (zlen l + p))) v).
    assert (zlen l2 = Z.of_nat n - (zlen l + p)) as Hl2 by (unfold l2; len; lia).
    iApply (wp_set_last _ _ _ _ _ _ (zlen (l ++ l2))); [done|]. wbind.
    iApply (wp_fill_front a b' p l l2 _ ar v (Z.to_nat p) with "Hd");
      [apply Hfree|done|lia| |done|].
    { rewrite -{1}(loc_add_0 b'). f_equal. lia. }
    iSplit; last first.
    { iIntros "Hd". iDestruct "HK" as "[_ HK]". iApply ("HK" with "[%] Hd").
      unfold resize_bad. rewrite app_length. split_and!; try done; try lia. intros _. by eexists. }
    iIntros "Hd". iApply (wp_set_first _ _ _ _ _ _ 0 (Z.of_nat n)); [by rewrite loc_add_0|len; lia|].
    iDestruct "HK" as "[HK _]". iApply ("HK" with "[%]").
    { rewrite (proj2 (Z.leb_gt _ _)); [|lia]. rewrite (proj2 (Z.leb_gt _ _)); [done|lia]. }
    replace (Z.to_nat (Z.min _ _)) with (Z.to_nat p) by lia. replace (p - Z.of_nat (Z.to_nat p)) with 0 by lia.
    unfold l2. replace (n - length l - Z.to_nat p)%nat with (Z.to_nat (Z.of_nat n - (zlen l + p))) by lia. done.
  Qed.

  Definition resize_end_bad (n : nat) (p cap cap1 : Z) (room : Prop) (b : loc) (l : list V) (e : exn)
      (b' : loc) (p' : Z) (l' : list V) (cap' : Z) : Prop :=
    (length l < n)%nat /\
    ((b' = b /\ p' = p /\ cap' = cap /\ length l' = length l /\
      (nothrow_move || copyable = true \/ room -> l' = l)) \/
     (~ room /\ e = EUser /\ l' = l /\ cap' = cap1)) /\
    match e with
    | ELength => b' = b /\ p' = p /\ cap' = cap /\ l' = l /\ max_size < cap1
    | EBadAlloc => b' = b /\ p' = p /\ cap' = cap /\ l' = l /\ ~ room
    | EUser => True
    | EOutOfRange => False
    end.
  Lemma wp_dv_resize_front a b p l cap ar v (n : nat) Q X :
    arg_rel (b +ₗ p) l ar v l -> ~ is_move ar -> (p + zlen l < Z.of_nat n -> free_arg ar v) ->
    dev_at a b p l cap ⊢
    ((∀ b' p' cap', ⟦if Z.of_nat n <=? p + zlen l then b' = b /\ p' = (p + zlen l - Z.of_nat n)%Z /\ cap' = cap
                     else p' = 0 /\ cap' = (Z.of_nat n + (cap - p - zlen l))%Z⟧ -∗
       dev_at a b' p' (replicate (n - length l) v ++ drop (length l - n) l) cap' -∗
       Q tt (dobj a b' p' (Z.of_nat n) cap')) ∧
     (∀ e b' p' l' cap', ⟦resize_end_bad n p cap (Z.of_nat n + (cap - p - zlen l)) (Z.of_nat n <= p + zlen l)
                           b l e b' p' l' cap'⟧ -∗
       dev_at a b' p' l' cap' -∗ X e (dobj a b' p' (zlen l') cap'))) -∗
    wp (dv_resize_front (Z.of_nat n) ar) (dobj a b p (zlen l) cap) Q X.
  Proof.
    iIntros (Har Hm Hfree) "Hd HK". iDestruct (dev_at_len with "Hd") as "[%Hlen Hd]".
    unfold dv_resize_front. wbind. iApply wp_dv_size. wbeta. wbind. iApply wp_get. wbeta. dred.
    destruct (Z.leb_spec (Z.of_nat n) (zlen l)) as [Hc|Hc].
    { wbind. iDestruct (dev_at_cut_front _ _ _ _ _ (length l - n) with "Hd") as "[Hl Hd]"; [lia|].
      rewrite loc_add_assoc.
      iApply (wp_destroy_a with "Hl"); [rewrite loc_add_assoc; f_equal; len; lia|]. iIntros "Hl".
      iApply (wp_set_first _ _ _ _ _ _ (p + Z.of_nat (length l - n)) (Z.of_nat n)); [f_equal; lia|lia|].
      iDestruct "HK" as "[HK _]".
      iApply ("HK" with "[%]"). { rewrite (proj2 (Z.leb_le _ _)); [|lia]. split_and!; try done. lia. }
      replace (n - length l)%nat with 0%nat by lia. by iApply "Hd". }
    replace (length l - n)%nat with 0%nat by lia. rewrite drop_0.
    wbind. iApply wp_dv_front_room. wbeta. wbind.
    destruct (Z.ltb_spec (zlen l + p) (Z.of_nat n)) as [Hc2|Hc2].
    - specialize (Hfree ltac:(lia)). iApply (wp_dv_grow_front with "Hd"); [lia|]. iSplit; last first.
      { iIntros (e l') "%Hx Hd". destruct Hx as (Hx1 & Hx2 & Hx3). iDestruct "HK" as "[_ HK]".
        rewrite -Hx1. iApply ("HK" with "[%] Hd"). unfold resize_end_bad. split_and!; try done; try lia.
        - left. split_and!; try done. intros [?|?]; [by apply Hx2|lia].
        - destruct e; try done; first [destruct Hx3 as [-> ?] | rewrite Hx3]; split_and!; try done; lia. }
      iIntros (b') "Hd". wbind. iApply wp_get. wbeta. dred. wbind. rewrite loc_add_assoc.
      iAssert (dev_at a b' (p + (Z.of_nat n - (zlen l + p))) (l ++ []) (cap + (Z.of_nat n - (zlen l + p)))) with "[Hd]" as "Hd".
      { by rewrite app_nil_r. }
      iApply (wp_fill_front _ _ _ l [] _ ar v (n - length l) with "Hd"); [apply Hfree|done|lia|f_equal; lia|done|].
      rewrite !app_nil_r. iSplit; last first.
      { iIntros "Hd". iDestruct "HK" as "[_ HK]". iApply ("HK" with "[%] Hd").
        unfold resize_end_bad. split_and!; try done; try lia. right. split_and!; try done; lia. }
      iIntros "Hd". iApply (wp_set_first _ _ _ _ _ _ 0 (Z.of_nat n)); [f_equal; lia|lia|].
      iDestruct "HK" as "[HK _]".
      replace (p + (Z.of_nat n - (zlen l + p)) - Z.of_nat (n - length l)) with 0 by lia.
      iApply ("HK" with "[%] Hd"). rewrite (proj2 (Z.leb_gt _ _)); [|lia]. split; [done|lia].
    - iApply wp_ret. wbind. iApply wp_get. wbeta. dred. wbind. rewrite loc_add_assoc.
      iAssert (dev_at a b p (l ++ []) cap) with "[Hd]" as "Hd". { by rewrite app_nil_r. }
      iApply (wp_fill_front _ _ _ l [] _ ar v (n - length l) with "Hd"); [done|done|lia|f_equal; lia|done|].
      rewrite !app_nil_r. iSplit; last first.
      { iIntros "Hd". iDestruct "HK" as "[_ HK]". iApply ("HK" with "[%] Hd").
        unfold resize_end_bad. split_and!; try done; try lia. by left. }
      iIntros "Hd". iApply (wp_set_first _ _ _ _ _ _ (p - Z.of_nat (n - length l)) (Z.of_nat n)); [f_equal; lia|lia|].
      iDestruct "HK" as "[HK _]".
      iApply ("HK" with "[%] Hd"). rewrite (proj2 (Z.leb_le _ _)); [|lia]. split_and!; try done. lia.
  Qed.
  Lemma wp_dv_resize_back a b p l cap ar v (n : nat) Q X :
    arg_rel (b +ₗ p) l ar v l -> ~ is_move ar -> (cap - p < Z.of_nat n -> free_arg ar v) ->
    dev_at a b p l cap ⊢
    ((∀ b' cap', ⟦if Z.of_nat n <=? cap - p then b' = b /\ cap' = cap else cap' = (p + Z.of_nat n)%Z⟧ -∗
       dev_at a b' p (take n l ++ replicate (n - length l) v) cap' -∗
       Q tt (dobj a b' p (Z.of_nat n) cap')) ∧
     (∀ e b' p' l' cap', ⟦resize_end_bad n p cap (p + Z.of_nat n) (Z.of_nat n <= cap - p)
                           b l e b' p' l' cap'⟧ -∗
       dev_at a b' p' l' cap' -∗ X e (dobj a b' p' (zlen l') cap'))) -∗
    wp (dv_resize_back (Z.of_nat n) ar) (dobj a b p (zlen l) cap) Q X.
  Proof.
    iIntros (Har Hm Hfree) "Hd HK". iDestruct (dev_at_len with "Hd") as "[%Hlen Hd]".
    unfold dv_resize_back. wbind. iApply wp_dv_size. wbeta. wbind. iApply wp_get. wbeta. dred.
    destruct (Z.leb_spec (Z.of_nat n) (zlen l)) as [Hc|Hc].
    { wbind. iDestruct (dev_at_cut _ _ _ _ _ n with "Hd") as "[Hl Hd]"; [lia|]. rewrite loc_add_assoc.
      iApply (wp_destroy_a with "Hl"); [rewrite loc_add_assoc; f_equal; len; lia|]. iIntros "Hl".
      iApply (wp_set_last _ _ _ _ _ _ (Z.of_nat n)); [done|]. iDestruct "HK" as "[HK _]".
      iApply ("HK" with "[%]"). { rewrite (proj2 (Z.leb_le _ _)); [done|lia]. }
      replace (n - length l)%nat with 0%nat by lia. rewrite /= app_nil_r. by iApply "Hd". }
    rewrite (take_ge l n); [|lia].
    wbind. iApply wp_dv_back_room. wbeta. wbind.
    replace (Z.to_nat (Z.of_nat n - zlen l)) with (n - length l)%nat by lia.
    destruct (Z.ltb_spec (zlen l + (cap - p - zlen l)) (Z.of_nat n)) as [Hc2|Hc2].
    - specialize (Hfree ltac:(lia)). iApply (wp_dv_grow_back with "Hd"); [lia|]. iSplit; last first.
      { iIntros (e l') "%Hx Hd". destruct Hx as (Hx1 & Hx2 & Hx3). iDestruct "HK" as "[_ HK]".
        rewrite -Hx1. iApply ("HK" with "[%] Hd"). unfold resize_end_bad. split_and!; try done; try lia.
        - left. split_and!; try done. intros [?|?]; [by apply Hx2|lia].
        - destruct e; try done; first [destruct Hx3 as [-> ?] | rewrite Hx3]; split_and!; try done; lia. }
      iIntros (b') "Hd". wbind. iApply wp_get. wbeta. dred. wbind.
      iApply (wp_fill_back with "Hd"); [apply Hfree|done|lia|done|]. iSplit; last first.
      { iIntros "Hd". iDestruct "HK" as "[_ HK]". iApply ("HK" with "[%] Hd").
        unfold resize_end_bad. split_and!; try done; try lia. right. split_and!; try done; lia. }
      iIntros "Hd". wbeta. iApply (wp_set_last _ _ _ _ _ _ (Z.of_nat n)); [f_equal; len; lia|].
      iDestruct "HK" as "[HK _]". iApply ("HK" with "[%] Hd").
      rewrite (proj2 (Z.leb_gt _ _)); lia.
    - iApply wp_ret. wbind. iApply wp_get. wbeta. dred. wbind.
      iApply (wp_fill_back with "Hd"); [done|done|lia|done|]. iSplit; last first.
      { iIntros "Hd". iDestruct "HK" as "[_ HK]". iApply ("HK" with "[%] Hd").
        unfold resize_end_bad. split_and!; try done; try lia. by left. }
      iIntros "Hd". wbeta. iApply (wp_set_last _ _ _ _ _ _ (Z.of_nat n)); [f_equal; len; lia|].
      iDestruct "HK" as "[HK _]". iApply ("HK" with "[%] Hd").
      rewrite (proj2 (Z.leb_le _ _)); [done|lia].
  Qed.
End ops.
