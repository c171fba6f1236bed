(** * compact_vector: functions that rebuild the storage, and assignment *)

From Verif Require Export CompactProofs.
From iris.proofmode Require Import tactics.
From Coq Require Import ZifyBool.
Open Scope Z_scope.

Section ops.
  Context `{E : Env}.

  Lemma split3 (i j : nat) (l : list V) :
    (i <= j)%nat -> take i l ++ drop i (take j l) ++ drop j l = l.
  Proof.
    intros Hij. rewrite app_assoc. rewrite -{1}(Nat.min_l i j Hij) -take_take.
    by rewrite take_drop take_drop.
  Qed.

  (** [mk] fills new storage for [length l2] elements from the old elements [l]. *)
  Definition fills (f : loc) (l : list V) (mk : loc -> M (vdata * loc) unit) (l1 l2 : list V)
      (φ : list V -> Prop) : Prop :=
    forall p (s : vdata) Q X,
      elems f l ⊢ raws p (length l2) -∗
      ((elems f l1 -∗ elems p l2 -∗ Q tt (s, p +ₗ Z.of_nat (length l2))) ∧
       (∀ l' m, ⟦φ l' /\ length l' = length l /\ (length m <= length l2)%nat⟧ -∗
          elems f l' -∗ elems p m -∗ raws (p +ₗ Z.of_nat (length m)) (length l2 - length m) -∗
          X EUser (s, p +ₗ Z.of_nat (length m)))) -∗
      wp (mk p) (s, p) Q X.

  Lemma wp_rebuild a f l n mk l1 l2 φ Q X :
    n = Z.of_nat (length l2) -> length l1 = length l -> n <= max_size -> fills f l mk l1 l2 φ ->
    cat a f l ⊢
    ((∀ p, cat a p l2 -∗ Q tt (cobj a p (length l2))) ∧
     (∀ e l', ⟦length l' = length l /\ (e = EBadAlloc /\ l' = l \/ e = EUser /\ φ l')⟧ -∗
        cat a f l' -∗ X e (cobj a f (length l)))) -∗
    wp (rebuild n mk) (cobj a f (length l)) Q X.
  Proof.
    iIntros (-> Hl1 Hn Hmk) "Hv HK". unfold rebuild. wbind. iApply wp_get. wbeta. wbind.
    iApply wp_allocate; [lia|]. iSplit; last first.
    { iDestruct "HK" as "[_ HK]". iApply ("HK" with "[] Hv"). iPureIntro. auto. }
    iIntros (p) "Hb Hr". rewrite Nat2Z.id. wbind. iApply wp_local. wbind. iApply wp_try.
    iDestruct (cat_open with "Hv") as "(%Hlen & Hown & Hl)".
    iApply (Hmk with "Hl Hr"). iSplit; last first.
    { iIntros (l' m) "%Hx Hl Hm Hr". destruct Hx as (Hφ & Hl' & Hml). wbind. iApply wp_getl. wbeta. wbind.
      iApply (wp_destroy_a with "Hm"); [done|]. iIntros "Hm".
      iDestruct (raws_join with "Hm Hr") as "Hr"; [done|done|]. iApply wp_lift. simpl.
      iApply (wp_deallocate with "Hb [Hr]").
      { rewrite Nat2Z.id. iApply (raws_eq with "Hr"); [done|lia]. }
      iDestruct "HK" as "[_ HK]". simpl. iApply ("HK" with "[]").
      { iPureIntro. split; [done|]. by right. }
      iApply (cat_intro with "Hown Hl"); [by rewrite Hl'|lia]. }
    iIntros "Hl Hp". iApply wp_getl. cbn beta iota. simpl. wbind.
    iApply (wp_destroy_a with "Hl"); [by rewrite Hl1|]. iIntros "Hl". wbind.
    iApply (wp_psub _ _ (Z.of_nat (length l))); [done|]. wbeta. wbind.
    iApply (wp_deallocate with "Hown [Hl]"); [by rewrite Nat2Z.id Hl1|].
    unfold set_storage. iApply wp_modify. iDestruct "HK" as "[HK _]". iApply "HK".
    by iApply (cat_intro with "Hb Hp").
  Qed.

  Lemma wp_compact_erase_range a f l i j Q X :
    (i <= j <= length l)%nat ->
    cat a f l ⊢
    ((∀ f', ⟦i = j -> f' = f⟧ -∗ cat a f' (remove_range i j l) -∗
        Q (f' +ₗ Z.of_nat i) (cobj a f' (length l - (j - i)))) ∧
     (∀ e l', ⟦length l' = length l /\ i <> j /\
               (e = EBadAlloc /\ l' = l \/ e = EUser /\ (nothrow_move || copyable = true -> l' = l))⟧ -∗
        cat a f l' -∗ X e (cobj a f (length l)))) -∗
    wp (compact_erase_range (f +ₗ Z.of_nat i) (f +ₗ Z.of_nat j)) (cobj a f (length l)) Q X.
  Proof.
    iIntros ([Hij Hj]) "Hv HK". iDestruct (cat_len with "Hv") as "[%Hlen Hv]".
    unfold compact_erase_range. wbind. iApply wp_get. wbeta.
    wbind. iApply wp_offset_of; [lia|]. wbeta. wbind. iApply wp_offset_of; [lia|]. wbeta. wbind.
    iApply wp_assert; [lia|]. rewrite loc_eqb_add.
    destruct (Z.eqb_spec (Z.of_nat i) (Z.of_nat j)) as [He|He].
    { iApply wp_ret. iDestruct "HK" as "[HK _]". assert (j = i) as -> by lia.
      replace (length l - (i - i))%nat with (length l) by lia. iApply ("HK" with "[//]").
      unfold remove_range. by rewrite take_drop. }
    wbind. iApply wp_size. wbeta. wbind.
    assert (length (remove_range i j l) = length l - (j - i))%nat as Hrl.
    { unfold remove_range. rewrite app_length take_length drop_length. lia. }
    iApply (wp_rebuild a f l _ _ (mine_after (take i l) ++ drop i (take j l) ++ mine_after (drop j l))
              (remove_range i j l)
              (fun l' => nothrow_move || copyable = true -> l' = l) with "Hv").
    { rewrite Hrl. lia. }
    { rewrite !app_length !mine_after_length drop_length !take_length drop_length. lia. }
    { lia. }
    { intros p s Q' X'. iIntros "Hl Hr HK".
      iDestruct (elems_split _ _ (take i l) (drop i (take j l) ++ drop j l) (f +ₗ Z.of_nat i) with "Hl") as "[H1 H2]".
      { by rewrite split3. }
      { rewrite take_length. by rewrite Nat.min_l; [|lia]. }
      iDestruct (elems_split _ _ (drop i (take j l)) (drop j l) (f +ₗ Z.of_nat j) with "H2") as "[H2 H3]"; [done| |].
      { rewrite drop_length take_length. loc_solve. }
      iDestruct (raws_split _ _ (length (take i l)) (length (drop j l)) (p +ₗ Z.of_nat i) with "Hr") as "[Hr1 Hr2]".
      { rewrite Hrl take_length drop_length. lia. }
      { rewrite take_length. by rewrite Nat.min_l; [|lia]. }
      wbind. change (v_first (cobj a f (length l))) with f.
      change (v_last (cobj a f (length l))) with (f +ₗ Z.of_nat (length l)).
      iApply (wp_umine with "H1 Hr1"); [rewrite take_length; loc_solve|]. iSplit; last first.
      { iIntros (l') "%Hx H1 Hr1". destruct Hx as [[[Hx1 Hx2] Hx3] Hx4]. iDestruct "HK" as "[_ HK]".
        iSpecialize ("HK" $! (l' ++ drop i (take j l) ++ drop j l) []).
        cbn [length]. rewrite loc_add_0 Nat.sub_0_r.
        iApply ("HK" with "[] [H1 H2 H3] [] [Hr1 Hr2]").
        - iPureIntro. split_and!.
          + intros Hs. rewrite (Hx2 Hs). by apply split3.
          + rewrite !app_length Hx1 drop_length !take_length drop_length. lia.
          + simpl. lia.
        - iApply (elems_join with "H1 [H2 H3]"); [|done|].
          2: { iApply (elems_join with "H2 H3"); [|done]. rewrite drop_length take_length. loc_solve. }
          rewrite Hx1 take_length. loc_solve.
        - done.
        - iApply (raws_join with "Hr1 Hr2").
          + rewrite take_length. loc_solve.
          + rewrite Hrl take_length drop_length. lia. }
      iIntros "H1 Hp1". wbind. iApply wp_setl. wbind.
      replace (p +ₗ Z.of_nat (length (take i l))) with (p +ₗ Z.of_nat i)
        by (rewrite take_length; loc_solve).
      iApply (wp_umine with "H3 Hr2"); [rewrite drop_length; loc_solve|]. iSplit; last first.
      { iIntros (l') "%Hx H3 Hr2". destruct Hx as [[[Hx1 Hx2] Hx3] Hx4]. iDestruct "HK" as "[_ HK]".
        assert (Z.of_nat i = Z.of_nat (length (take i l))) as -> by (rewrite take_length; lia).
        iApply ("HK" $! (mine_after (take i l) ++ drop i (take j l) ++ l') (take i l) with "[] [H1 H2 H3] Hp1 [Hr2]").
        - iPureIntro. split_and!.
          + intros Hs. rewrite (Hx2 Hs). rewrite mine_after_weak.
            2: { unfold moves_if_noexcept. rewrite Hx3. rewrite Hx3 in Hs. simpl in *. by rewrite Hs. }
            by apply split3.
          + rewrite !app_length Hx1 mine_after_length drop_length !take_length drop_length. lia.
          + rewrite Hrl take_length. lia.
        - iApply (elems_join with "H1 [H2 H3]"); [|done|].
          2: { iApply (elems_join with "H2 H3"); [|done]. rewrite drop_length take_length. loc_solve. }
          rewrite mine_after_length take_length. loc_solve.
        - iApply (raws_eq with "Hr2"); [done|]. rewrite Hrl take_length drop_length. lia. }
      iIntros "H3 Hp2". iApply wp_setl. iDestruct "HK" as "[HK _]".
      replace (p +ₗ Z.of_nat i +ₗ Z.of_nat (length (drop j l)))
        with (p +ₗ Z.of_nat (length (remove_range i j l))).
      2: { rewrite Hrl drop_length. loc_solve. }
      iApply ("HK" with "[H1 H2 H3] [Hp1 Hp2]").
      - iApply (elems_join with "H1 [H2 H3]"); [|done|].
        2: { iApply (elems_join with "H2 H3"); [|done]. rewrite drop_length take_length. loc_solve. }
        rewrite mine_after_length take_length. loc_solve.
      - iApply (elems_join with "Hp1 Hp2"); [|done]. rewrite take_length. loc_solve. }
    iSplit.
    - iIntros (p) "Hv". wbind. iApply wp_get. wbeta. iApply wp_ret. iDestruct "HK" as "[HK _]".
      rewrite Hrl. iApply ("HK" $! p with "[] Hv"). iPureIntro. lia.
    - iIntros (e l') "%Hx Hv". iDestruct "HK" as "[_ HK]". iApply ("HK" with "[] Hv").
      iPureIntro. destruct Hx as [? ?]. split_and!; [done|lia|done].
  Qed.

  Lemma wp_compact_erase a f l i Q X :
    (i < length l)%nat ->
    cat a f l ⊢
    ((∀ f', cat a f' (remove_range i (S i) l) -∗ Q (f' +ₗ Z.of_nat i) (cobj a f' (length l - 1))) ∧
     (∀ e l', ⟦length l' = length l /\
               (e = EBadAlloc /\ l' = l \/ e = EUser /\ (nothrow_move || copyable = true -> l' = l))⟧ -∗
        cat a f l' -∗ X e (cobj a f (length l)))) -∗
    wp (compact_erase (f +ₗ Z.of_nat i)) (cobj a f (length l)) Q X.
  Proof.
    iIntros (Hi) "Hv HK". unfold compact_erase. wbind. iApply wp_get. wbeta. wbind.
    iApply wp_offset_of; [lia|]. wbeta. wbind. iApply wp_assert.
    { unfold cobj, vobj; simpl. rewrite loc_eqb_add. destruct (Z.eqb_spec (Z.of_nat i) (Z.of_nat (length l))); lia. }
    replace (f +ₗ Z.of_nat i +ₗ 1) with (f +ₗ Z.of_nat (S i)) by loc_solve.
    iApply (wp_compact_erase_range with "Hv"); [lia|]. iSplit.
    - iIntros (f') "_ Hv". iDestruct "HK" as "[HK _]".
      replace (length l - (S i - i))%nat with (length l - 1)%nat by lia. by iApply "HK".
    - iIntros (e l') "%Hx Hv". iDestruct "HK" as "[_ HK]". iApply ("HK" with "[] Hv"). iPureIntro. naive_solver.
  Qed.

  Lemma wp_compact_pop_back a f l Q X :
    (0 < length l)%nat ->
    cat a f l ⊢
    ((∀ f', cat a f' (take (length l - 1) l) -∗ Q tt (cobj a f' (length l - 1))) ∧
     (∀ e l', ⟦length l' = length l /\
               (e = EBadAlloc /\ l' = l \/ e = EUser /\ (nothrow_move || copyable = true -> l' = l))⟧ -∗
        cat a f l' -∗ X e (cobj a f (length l)))) -∗
    wp compact_pop_back (cobj a f (length l)) Q X.
  Proof.
    iIntros (Hi) "Hv HK". unfold compact_pop_back. wbind. iApply wp_get. wbeta. wbind. iApply wp_assert.
    { unfold cobj, vobj; simpl. rewrite -{1}(loc_add_0 f) loc_eqb_add.
      destruct (Z.eqb_spec 0 (Z.of_nat (length l))); lia. }
    wbind. change (v_last (cobj a f (length l))) with (f +ₗ Z.of_nat (length l)).
    replace (f +ₗ Z.of_nat (length l) +ₗ -1) with (f +ₗ Z.of_nat (length l - 1)) by loc_solve.
    iApply (wp_compact_erase with "Hv"); [lia|]. iSplit; [|by iDestruct "HK" as "[_ HK]"].
    iIntros (f') "Hv". iApply wp_ret. iDestruct "HK" as "[HK _]". iApply "HK".
    unfold remove_range. replace (S (length l - 1)) with (length l) by lia. by rewrite drop_all app_nil_r.
  Qed.

  Lemma wp_compact_erase_if a f l p Q X :
    cat a f l ⊢
    ((∀ f', cat a f' (keep p l) -∗
        Q (Z.of_nat (length l - length (keep p l))) (cobj a f' (length (keep p l)))) ∧
     (∀ e l', ⟦length l' = length l /\ (e = EBadAlloc \/ e = EUser)⟧ -∗
        cat a f l' -∗ X e (cobj a f (length l)))) -∗
    wp (compact_erase_if p) (cobj a f (length l)) Q X.
  Proof.
    iIntros "Hv HK". iDestruct (cat_open with "Hv") as "(%Hlen & Hown & Hl)".
    unfold compact_erase_if. wbind. iApply wp_get. wbeta. wbind.
    iApply (wp_remove_if with "Hl"); [done|]. pose proof (keep_length p l) as Hk. iSplit; last first.
    { iIntros (l') "%Hl' Hl". iDestruct "HK" as "[_ HK]". iApply ("HK" $! EUser l'); [auto|].
      iApply (cat_intro with "Hown Hl"); [by rewrite Hl'|lia]. }
    iIntros (J) "%HJ Hl". wbind.
    iApply (wp_psub _ _ (Z.of_nat (length l - length (keep p l)))).
    { unfold cobj, vobj; simpl. loc_solve. }
    set (l2 := keep p l ++ J).
    assert (length l2 = length l) as Hl2. { unfold l2. rewrite app_length. lia. }
    iAssert (cat a f l2) with "[Hown Hl]" as "Hv".
    { iApply (cat_intro with "Hown Hl"); [by rewrite Hl2|lia]. }
    wbind. change (v_last (cobj a f (length l))) with (f +ₗ Z.of_nat (length l)).
    rewrite -Hl2. iApply (wp_compact_erase_range with "Hv"); [lia|]. iSplit.
    - iIntros (f') "_ Hb". iApply wp_ret. iDestruct "HK" as "[HK _]".
      replace (length l2 - (length l2 - length (keep p l)))%nat with (length (keep p l)) by lia.
      iApply "HK".
      replace (remove_range (length (keep p l)) (length l2) l2) with (keep p l); [done|].
      unfold remove_range. rewrite drop_all app_nil_r. unfold l2. by rewrite take_app.
    - iIntros (e l') "%Hl' Hb". destruct Hl' as (? & ? & ?). iDestruct "HK" as "[_ HK]".
      iApply ("HK" with "[] Hb"). iPureIntro. rewrite Hl2 in H. split; [lia|naive_solver].
  Qed.

  (** [resize]: the argument is read after the transfer. *)
  Lemma wp_compact_resize a f l n ar v Q X :
    arg_rel f (if decide (length l < n)%nat then mine_after l else l) ar v
      (if decide (length l < n)%nat then mine_after l else l) -> ~ is_move ar ->
    cat a f l ⊢
    ((∀ f', ⟦n = length l -> f' = f⟧ -∗ cat a f' (take n l ++ replicate (n - length l) v) -∗
        Q tt (cobj a f' n)) ∧
     (∀ e l', ⟦cfail l n (nothrow_move = false /\ copyable = true \/
                          (n < length l)%nat /\ nothrow_move || copyable = true) e l' /\ n <> length l⟧ -∗
        cat a f l' -∗ X e (cobj a f (length l)))) -∗
    wp (compact_resize (Z.of_nat n) ar) (cobj a f (length l)) Q X.
  Proof.
    iIntros (Har Hm) "Hv HK". iDestruct (cat_len with "Hv") as "[%Hlen Hv]".
    unfold compact_resize. wbind. iApply wp_size. wbeta.
    destruct (Z.eqb_spec (Z.of_nat n) (Z.of_nat (length l))) as [He|He].
    { iApply wp_ret. iDestruct "HK" as "[HK _]". assert (n = length l) as -> by lia.
      iApply ("HK" with "[//]"). rewrite take_ge; [|lia]. by rewrite Nat.sub_diag app_nil_r. }
    wbind. iApply wp_check_size. iSplit; last first.
    { iIntros "%Hms". iDestruct "HK" as "[_ HK]". iApply ("HK" $! ELength l with "[] Hv").
      iPureIntro. split; [|lia]. by split_and!. }
    iIntros "%Hms". wbind. iApply wp_get. wbeta.
    change (v_first (cobj a f (length l))) with f.
    change (v_last (cobj a f (length l))) with (f +ₗ Z.of_nat (length l)).
    set (l2 := take n l ++ replicate (n - length l) v).
    assert (length l2 = n) as Hl2.
    { unfold l2. rewrite app_length take_length replicate_length. lia. }
    destruct (Z.ltb_spec (Z.of_nat (length l)) (Z.of_nat n)) as [Hlt|Hge].
    - rewrite !decide_True in Har; [|lia..].
      destruct (arg_rel_const _ _ _ _ _ Har Hm) as [_ Hmk].
      iApply (wp_rebuild a f l _ _ (mine_after l) l2
                (fun l' => nothrow_move = false /\ copyable = true -> l' = l) with "Hv");
        [by rewrite Hl2|by rewrite mine_after_length|done| |].
      { intros p s Q' X'. iIntros "Hl Hr HK". rewrite Hl2.
        iDestruct (raws_split _ _ (length l) (n - length l) (p +ₗ Z.of_nat (length l)) with "Hr") as "[Hr1 Hr2]";
          [lia|done|].
        wbind. iApply (wp_umine with "Hl Hr1"); [done|]. iSplit; last first.
        { iIntros (l') "%Hx Hl Hr1". destruct Hx as [[[Hx1 Hx2] Hx3] Hx4]. iDestruct "HK" as "[_ HK]".
          iSpecialize ("HK" $! l' []).
          cbn [length]. rewrite loc_add_0 Nat.sub_0_r.
          iApply ("HK" with "[] Hl [] [Hr1 Hr2]").
          - iPureIntro. split_and!; [|done|simpl; lia]. intros [_ Hs]. apply Hx2. rewrite Hs. by apply orb_true_r.
          - done.
          - iApply (raws_join with "Hr1 Hr2"); [done|lia]. }
        iIntros "Hl Hp1". wbind. iApply wp_setl. wbind.
        replace (Z.to_nat (Z.of_nat n - Z.of_nat (length l))) with (n - length l)%nat by lia.
        iApply (wp_ufill_n with "Hl Hr2"); [done|]. iSplit; last first.
        { iIntros "Hl Hr2". iDestruct "HK" as "[_ HK]".
          iApply ("HK" with "[] Hl Hp1 Hr2"). iPureIntro. split_and!; [|by rewrite mine_after_length|lia].
          intros [H1 H2]. apply mine_after_weak. unfold moves_if_noexcept. by rewrite H1 H2. }
        iIntros "Hl Hp2". iApply wp_setl. iDestruct "HK" as "[HK _]".
        replace (p +ₗ Z.of_nat (length l) +ₗ Z.of_nat (n - length l)) with (p +ₗ Z.of_nat n) by loc_solve.
        iApply ("HK" with "Hl"). iApply (elems_join with "Hp1 Hp2"); [done|].
        unfold l2. rewrite take_ge; [done|lia]. }
      iSplit.
      + iIntros (p) "Hv". iDestruct "HK" as "[HK _]". rewrite Hl2. iApply ("HK" $! p with "[] Hv").
        iPureIntro. lia.
      + iIntros (e l') "%Hx Hv". iDestruct "HK" as "[_ HK]". iApply ("HK" with "[] Hv").
        iPureIntro. split; [|lia]. destruct Hx as (Hx & Hy). split; [done|].
        destruct Hy as [[-> ->]|[-> Hy]]; [done|]. intros [Hs|[? ?]]; [by apply Hy|lia].
    - iApply (wp_rebuild a f l _ _ (mine_after (take n l) ++ drop n l) l2
                (fun l' => nothrow_move || copyable = true -> l' = l) with "Hv");
        [by rewrite Hl2| |done| |].
      { rewrite app_length mine_after_length take_length drop_length. lia. }
      { intros p s Q' X'. iIntros "Hl Hr HK". rewrite Hl2.
        iDestruct (elems_split _ _ (take n l) (drop n l) (f +ₗ Z.of_nat n) with "Hl") as "[H1 H2]".
        { by rewrite take_drop. } { rewrite take_length. loc_solve. }
        assert (n = length (take n l)) as Hn by (rewrite take_length; lia).
        wbind. iApply (wp_umine _ _ (take n l) with "H1 [Hr]");
          [by rewrite -Hn|by rewrite -Hn|].
        iSplit; last first.
        { iIntros (l') "%Hx H1 Hr". destruct Hx as [[[Hx1 Hx2] Hx3] Hx4]. iDestruct "HK" as "[_ HK]".
          rewrite -Hn. iSpecialize ("HK" $! (l' ++ drop n l) []).
          cbn [length]. rewrite loc_add_0 Nat.sub_0_r.
          iApply ("HK" with "[] [H1 H2] [] [Hr]").
          - iPureIntro. split_and!; [|rewrite app_length Hx1 drop_length; lia|simpl; lia].
            intros Hs. by rewrite (Hx2 Hs) take_drop.
          - iApply (elems_join with "H1 H2"); [|done]. by rewrite Hx1 -Hn.
          - done.
          - done. }
        iIntros "H1 Hp". iApply wp_setl. iDestruct "HK" as "[HK _]". rewrite -Hn.
        iApply ("HK" with "[H1 H2] [Hp]").
        - iApply (elems_join with "H1 H2"); [|done]. by rewrite mine_after_length -Hn.
        - iApply (elems_eq with "Hp"); [done|]. unfold l2.
          replace (n - length l)%nat with 0%nat by lia. by rewrite app_nil_r. }
      iSplit.
      + iIntros (p) "Hv". iDestruct "HK" as "[HK _]". rewrite Hl2. iApply ("HK" $! p with "[] Hv").
        iPureIntro. lia.
      + iIntros (e l') "%Hx Hv". iDestruct "HK" as "[_ HK]". iApply ("HK" with "[] Hv").
        iPureIntro. split; [|lia]. destruct Hx as (Hx & Hy). split; [done|].
        destruct Hy as [[-> ->]|[-> Hy]]; [done|]. intros [[Hs1 Hs2]|[_ Hs]]; apply Hy; [|done].
        rewrite Hs2. apply orb_true_r.
  Qed.
End ops.
