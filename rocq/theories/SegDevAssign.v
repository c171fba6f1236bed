(** * segmented_devector: assignment, insertion of one element after another *)

From Verif Require Export SegDevIns.
From Coq Require Import ZifyBool.
From iris.proofmode Require Import environments tactics.
Open Scope Z_scope.
Notation frame := SegGrow.frame.

Section assigns.
  Context `{E : Env} `{SZ : SegSize}.
  Implicit Types segs new : list loc.
  Implicit Types T : tab.

  Ltac sover Hf :=
    match type of Hf with stored ?p ?vs (at_pos _ ?l) ?f =>
      let H1 := fresh in let H2 := fresh in
      assert (zlen vs <= zlen l) as H1 by (len; lia);
      pose proof (stored_over p l vs f H1 Hf) as H2; clear Hf H1; rename H2 into Hf end.

  (** [fill(first_, last_, value)]. *)
  Lemma keep_fill_all T segs p l v :
    keep_op T segs p l (s_fill (sitr (t_at T) segs p) (sitr (t_at T) segs (p + zlen l)) (AVal v))
      p (replicate (length l) v) tt (fun l' => length l' = length l).
  Proof.
    intros Q X. sopen. iApply (wp_sw_fill with "Hw"); [lia|lia|lia| |].
    { intros i Hi. slive. lia. }
    iSplit.
    2:{ iIntros (f') "%Hf Hw". iApply (shaken_at _ _ _ _ _ (fun l' => length l' = length l) with "Hf Hw"); [apply Hf|lia|lia|done|].
        iDestruct "HK" as "[_ HK]". done. }
    iIntros (f') "%Hf Hw". replace (Z.to_nat (p + zlen l - p)) with (length l) in Hf by lia. sover Hf.
    rewrite (drop_ge l) in Hf; [|len; lia]. rewrite app_nil_r in Hf.
    iDestruct "HK" as "[HK _]". rewrite replicate_length.
    iApply "HK". iApply (sg_at_close with "Hf [Hw]"); [lia|len; lia|]. by iApply (swin_eq with "Hw").
  Qed.
  (** d 1722-1833 [assign_fill_n]. *)
  Lemma shift_sd_assign_fill T segs p l (n : nat) v :
    shift_op T segs p l (Z.of_nat n - (slots segs - 1)) (sd_assign_fill (Z.of_nat n) (AVal v))
      (p - sresized segs p (Z.of_nat n) l) (replicate n v) (fun l' => (length l <= length l' <= Nat.max n (length l))%nat).
  Proof.
    intros Q X. sopen. unfold sd_assign_fill, sresized.
    wbind. iApply (wp_sq_size with "Hw"); [lia..|]. iIntros "Hw". wbeta. sstep. sstep.
    destruct (Z.leb_spec (Z.of_nat n) (zlen l)) as [Hle|Hlt].
    { sstep. sstep. sstep. iApply (wp_sw_fill with "Hw"); [lia|lia|lia| |].
      { intros i Hi. slive. lia. }
      iSplit.
      2:{ iIntros (f') "%Hf Hw". iApply (shaken_at _ _ _ _ _ (fun l' => length l' = length l) with "Hf Hw"); [apply Hf|lia|lia|done|].
          iIntros (l') "%Hl' Hs". iDestruct "HK" as "[_ HK]". iSpecialize ("HK" $! EUser T [] l' with "[%]").
          { split; [done|]. right. split; [done|]. split; [by left|lia]. }
          rewrite app_nil_r. by iApply "HK". }
      iIntros (f') "%Hf Hw". wbeta. replace (Z.to_nat (p + Z.of_nat n - p)) with n in Hf by lia.
      sover Hf. rewrite replicate_length in Hf. iDestruct (swin_eq _ _ _ _ Hf with "Hw") as "Hw".
      replace (sobj T segs p (zlen l)) with (sobj T segs p (zlen (replicate n v ++ drop n l))) by (f_equal; len; lia).
      skeep (keep_cut_back T segs p (replicate n v ++ drop n l) n); [len; lia|done| |].
      + iIntros "Hs". iDestruct "HK" as "[HK _]". rewrite take_app_alt; [|by rewrite replicate_length].
        iSpecialize ("HK" $! T [] with "[%]").
        { split; [done|]. apply grown_0. lia. }
        replace (p - Z.max 0 (Z.min p (Z.of_nat n - (slots segs - 1 - p)))) with p by lia.
        rewrite app_nil_r. by iApply "HK".
      + by iIntros (l') "%". }
    wbind. iApply (wp_sq_back_room with "Hw"); [lia..|]. iIntros "Hw". wbeta.
    destruct (Z.leb_spec (Z.of_nat n) (zlen l + (slots segs - 1 - (p + zlen l)))) as [Hr|Hr].
    { iDestruct (sg_at_close with "Hf Hw") as "Hs"; [lia..|].
      wbind. iApply (keep_fill_all with "Hs"). iSplit.
      2:{ iIntros (l') "%Hl' Hs". iDestruct "HK" as "[_ HK]". iSpecialize ("HK" $! EUser T [] l' with "[%]").
          { split; [done|]. right. split; [done|]. split; [by left|lia]. }
          rewrite app_nil_r. by iApply "HK". }
      iIntros "Hs". wbeta.
      iApply (keep_append_n _ _ _ _ (Z.of_nat n - zlen l) with "Hs"); [apply sconst_val|lia|len; lia|]. iSplit.
      - iIntros "Hs". iDestruct "HK" as "[HK _]". iSpecialize ("HK" $! T [] with "[%]").
        { split; [done|]. apply grown_0. lia. }
        replace (p - Z.max 0 (Z.min p (Z.of_nat n - (slots segs - 1 - p)))) with p by lia.
        rewrite app_nil_r -replicate_add.
        replace (length l + Z.to_nat (Z.of_nat n - zlen l))%nat with n by lia. by iApply "HK".
      - iIntros (l') "-> Hs". iDestruct "HK" as "[_ HK]". iSpecialize ("HK" $! EUser T [] (replicate (length l) v) with "[%]").
        { split; [done|]. right. split; [done|]. split; [by left|]. rewrite replicate_length. lia. }
        rewrite app_nil_r. by iApply "HK". }
    wbind. iApply (wp_sq_front_room with "Hw"); [lia..|]. iIntros "Hw". wbeta.
    destruct (Z.leb_spec (Z.of_nat n) (p + zlen l + (slots segs - 1 - (p + zlen l)))) as [Hr2|Hr2].
    - iDestruct (sg_at_close with "Hf Hw") as "Hs"; [lia..|].
      wbind. iApply (keep_fill_all with "Hs"). iSplit.
      2:{ iIntros (l') "%Hl' Hs". iDestruct "HK" as "[_ HK]". iSpecialize ("HK" $! EUser T [] l' with "[%]").
          { split; [done|]. right. split; [done|]. split; [by left|lia]. }
          rewrite app_nil_r. by iApply "HK". }
      iIntros "Hs". wbeta. iDestruct (sg_at_open with "Hs") as "(%Hb2 & Hf & Hw)".
      replace (sitr (t_at T) segs (p + zlen l)) with (sitr (t_at T) segs (p + zlen (replicate (length l) v))) by (f_equal; len; lia).
      wbind. iApply (wp_s_ufill_a _ _ _ _ _ emp%I with "[//] Hw"); [apply mk_ok_val|lia|len; lia|lia| |].
      { intros i Hi. apply live_out. lia. }
      iSplit.
      2:{ iIntros "_ Hw". iDestruct "HK" as "[_ HK]". iSpecialize ("HK" $! EUser T [] (replicate (length l) v) with "[%]").
          { split; [done|]. right. split; [done|]. split; [by left|]. rewrite replicate_length. lia. }
          rewrite app_nil_r. iApply "HK". iApply (sg_at_close with "Hf Hw"); lia. }
      iIntros (f') "%Hf _ Hw". wbeta. sstep. sstep.
      pose proof (stored_back _ _ _ _ Hf) as Hf'. iDestruct (swin_eq _ _ _ _ Hf' with "Hw") as "Hw".
      rewrite -replicate_add.
      set (j := (length l + Z.to_nat (slots segs - 1 - (p + zlen (replicate (length l) v))))%nat) in *.
      assert (Z.of_nat j = slots segs - 1 - p) as Hj by (subst j; len; lia).
      remember (Z.max 0 (Z.min p (Z.of_nat n - (slots segs - 1 - p)))) as kk eqn:Hkk.
      replace (slots segs - 1 - p) with (zlen (replicate j v)) by (len; lia). do 2 sstep.
      skeep (keep_prepend T segs p (replicate j v) (p - (Z.of_nat n - (zlen l + (slots segs - 1 - (p + zlen l))))));
        [apply sconst_val|lia| |].
      + iIntros "Hs". iDestruct "HK" as "[HK _]". iSpecialize ("HK" $! T [] with "[%]").
        { split; [done|]. apply grown_0. lia. }
        rewrite app_nil_r -replicate_add.
        replace (p - (Z.of_nat n - (zlen l + (slots segs - 1 - (p + zlen l))))) with (p - kk) by lia.
        replace (Z.to_nat (p - (p - kk)) + j)%nat with n by lia.
        by iApply "HK".
      + iIntros (l') "-> Hs". iDestruct "HK" as "[_ HK]". iSpecialize ("HK" $! EUser T [] (replicate j v) with "[%]").
        { split; [done|]. right. split; [done|]. split; [by left|]. rewrite replicate_length. lia. }
        rewrite app_nil_r. by iApply "HK".
    - iDestruct (sg_at_close with "Hf Hw") as "Hs"; [lia..|].
      wbind. iPoseProof (wp_room_back T segs p l true (Z.of_nat n - (p + zlen l + (slots segs - 1 - (p + zlen l))))
        (Z.of_nat n - (slots segs - 1))) as "H"; [lia|lia|]. iApply ("H" with "Hs"). iClear "H". iSplit.
      2:{ iIntros (e T' new l') "%He Hs". iDestruct "HK" as "[_ HK]". iApply ("HK" with "[%] Hs").
          split; [tauto|]. destruct He as [_ He]. eapply op_exn_weaken; [|done]. done. }
      iIntros (T' new) "%HT Hs". wbeta. destruct HT as [HT Hnew].
      destruct (more_segs_room segs new _ Hnew) as (Hr3 & Hr4 & Hr5 & _).
      iDestruct (sg_at_open with "Hs") as "(%Hb2 & Hf & Hw)". sstep. sstep.
      iDestruct (sg_at_close with "Hf Hw") as "Hs"; [lia..|].
      wbind. iApply (keep_fill_all with "Hs"). iSplit.
      2:{ iIntros (l') "%Hl' Hs". sfail. lia. }
      iIntros "Hs". wbeta.
      wbind. iApply (keep_append_n T' (segs ++ new) p (replicate (length l) v) with "Hs"); [apply sconst_val|lia|len; lia|]. iSplit.
      2:{ iIntros (l') "-> Hs". sfail. rewrite replicate_length. lia. }
      iIntros "Hs". wbeta. iDestruct (sg_at_open with "Hs") as "(%Hb3 & Hf & Hw)". rewrite -replicate_add.
      set (j := (length l + Z.to_nat (Z.of_nat n - (zlen l + p)))%nat) in *.
      rewrite -replicate_add in Hb3. fold j in Hb3.
      skeep (keep_prepend T' (segs ++ new) p (replicate j v) 0); [apply sconst_val|lia| |].
      + iIntros "Hs". iDestruct "HK" as "[HK _]". rewrite -replicate_add.
        replace (Z.to_nat (p - 0) + j)%nat with n by lia.
        replace (p - Z.max 0 (Z.min p (Z.of_nat n - (slots segs - 1 - p)))) with 0 by lia.
        by iApply ("HK" with "[%//]").
      + iIntros (l') "-> Hs". sfail. rewrite replicate_length. lia.
  Qed.

  (** [copy(mid1, mid2, first_); nl = uninitialized_copy(mid2, last, last_)], the
      first part of the source being left for later. *)
  Lemma wide_copy (W : (Z -> bool) -> hProp) WX vs sub T segs p l c (fin : sit -> M sgdata unit) Q X :
    feeds W WX vs sub -> 0 <= c -> c + zlen l <= zlen vs -> p + (zlen vs - c) < slots segs ->
    sg_at T segs p l ⊢ W none_of -∗
    ((∀ C, ⟦forall i, C i = within c (zlen vs) i⟧ -∗ W C -∗ sg_at T segs p (slice c (zlen vs) vs) -∗
        wp (fin (sitr (t_at T) segs (p + zlen (slice c (zlen vs) vs)))) (sobj T segs p (zlen l)) Q X) ∧
     (∀ l', ⟦length l' = length l⟧ -∗ WX -∗ sg_at T segs p l' -∗ X EUser (sobj T segs p (zlen l')))) -∗
    wp (src_copy (sub c (c + zlen l)) (sitr (t_at T) segs p);;
        nl <- src_ucopy (sub (c + zlen l) (zlen vs)) (sitr (t_at T) segs (p + zlen l));;
        fin nl)%prog (sobj T segs p (zlen l)) Q X.
  Proof.
    iIntros (Hfd Hc Hl Hs) "Hs HW HK". iDestruct (sg_at_open with "Hs") as "(%Hb & Hf & Hw)".
    wbind. replace (sub c (c + zlen l)) with (sub c (c + zlen l)) by done.
    iApply (fd_copy _ _ _ _ Hfd with "HW Hw"); [lia|lia|done|lia|lia| |].
    { intros i Hi. slive. lia. }
    iSplit.
    2:{ iIntros (f') "%Hf HW Hw". iApply (shaken_at _ _ _ _ _ (fun l' => length l' = length l) with "Hf Hw"); [apply Hf|lia|lia|done|].
        iIntros (l') "%Hl' Hs". iDestruct "HK" as "[_ HK]". by iApply ("HK" with "[%] HW Hs"). }
    iIntros (f') "%Hf HW Hw". wbeta. assert (zlen (slice c (c + zlen l) vs) = zlen l) as Hsl by (rewrite slice_length; lia).
    sover Hf. rewrite (drop_ge l) in Hf; [|lia]. rewrite app_nil_r in Hf.
    iDestruct (swin_eq _ _ _ _ Hf with "Hw") as "Hw".
    wbind. iApply (fd_ucopy _ _ _ _ Hfd with "HW Hw"); [lia|lia| |lia|lia| |].
    { intros i Hi. unfold mark, none_of, within. lia. }
    { intros i Hi. slive. lia. }
    iSplit.
    2:{ iIntros "HW Hw". iDestruct "HK" as "[_ HK]".
        replace (sobj T segs p (zlen l)) with (sobj T segs p (zlen (slice c (c + zlen l) vs))) by (f_equal; lia).
        iApply ("HK" with "[%] HW [Hf Hw]"); [lia|]. iApply (sg_at_close with "Hf Hw"); lia. }
    iIntros (f2) "%Hf2 HW Hw". wbeta.
    assert (stored (p + zlen (slice c (c + zlen l) vs)) (slice (c + zlen l) (zlen vs) vs)
      (at_pos p (slice c (c + zlen l) vs)) f2) as Hf2' by (rewrite Hsl; exact Hf2).
    pose proof (stored_back p (slice c (c + zlen l) vs) _ _ Hf2') as Hf3.
    rewrite slice_app in Hf3; [|lia|lia].
    assert (zlen (slice c (zlen vs) vs) = zlen vs - c) as Hsc by (apply slice_length; lia).
    iDestruct "HK" as "[HK _]".
    replace (p + zlen l + (zlen vs - (c + zlen l))) with (p + zlen (slice c (zlen vs) vs)) by lia.
    iApply ("HK" with "[%] HW [Hf Hw]").
    + intros i. unfold mark, none_of, within. lia.
    + iApply (sg_at_close with "Hf [Hw]"); [lia|lia|]. by iApply (swin_eq with "Hw").
  Qed.
  (** [uninitialized_copy(first, mid1, new_first); first_ = new_first]. *)
  Lemma wide_prepend (W : (Z -> bool) -> hProp) WX vs sub T segs p c C Q X :
    feeds W WX vs sub -> 0 <= c <= p -> c <= zlen vs -> (forall i, C i = within c (zlen vs) i) ->
    sg_at T segs p (slice c (zlen vs) vs) ⊢ W C -∗
    ((∀ C, ⟦forall i, 0 <= i < zlen vs -> C i = true⟧ -∗ W C -∗ sg_at T segs (p - c) vs -∗
        Q tt (sobj T segs (p - c) (zlen vs))) ∧
     (WX -∗ sg_at T segs p (slice c (zlen vs) vs) -∗ X EUser (sobj T segs p (zlen (slice c (zlen vs) vs))))) -∗
    wp (src_ucopy (sub 0 c) (sitr (t_at T) segs (p - c));; sq_set_first (sitr (t_at T) segs (p - c)))%prog
      (sobj T segs p (zlen (slice c (zlen vs) vs))) Q X.
  Proof.
    iIntros (Hfd Hc Hv HC) "Hs HW HK". iDestruct (sg_at_open with "Hs") as "(%Hb & Hf & Hw)".
    assert (zlen (slice c (zlen vs) vs) = zlen vs - c) as Hsc by (apply slice_length; lia).
    wbind. iApply (fd_ucopy _ _ _ _ Hfd with "HW Hw"); [lia|lia| |lia|lia| |].
    { intros i Hi. rewrite HC. unfold within. lia. }
    { intros i Hi. apply live_out. lia. }
    iSplit.
    2:{ iIntros "HW Hw". iDestruct "HK" as "[_ HK]". iApply ("HK" with "HW"). iApply (sg_at_close with "Hf Hw"); lia. }
    iIntros (f') "%Hf HW Hw". wbeta. sstep.
    assert (zlen (slice 0 c vs) = c) as Hs0 by (rewrite slice_length; lia).
    assert (forall i, f' i = at_pos (p - c) vs i) as Hf'.
    { assert (vs = slice 0 c vs ++ slice c (zlen vs) vs) as Hvs by (rewrite slice_app; [by rewrite slice_all|lia|lia]).
      intros i. rewrite {1}Hvs. apply (stored_front p); [lia|done]. }
    iDestruct "HK" as "[HK _]". replace (p + zlen (slice c (zlen vs) vs) - (p - c)) with (zlen vs) by lia.
    iApply ("HK" with "[%] HW [Hf Hw]").
    - intros i Hi. unfold mark. rewrite HC. unfold within. lia.
    - iApply (sg_at_close with "Hf [Hw]"); [lia|lia|]. by iApply (swin_eq with "Hw").
  Qed.
  (** d 1864-1983 [assign_range], forward iterators. *)
  Lemma wide_sd_assign_range W WX vs sub T segs p l :
    feeds W WX vs sub ->
    wide_op W WX (zlen vs) T segs p l (zlen vs - (slots segs - 1)) (sd_assign_range (sub 0 (zlen vs)))
      (p - sresized segs p (zlen vs) l) vs (fun l' => (length l <= length l' <= Nat.max (length vs) (length l))%nat).
  Proof.
    intros Hfd Q X. iIntros "Hs HW HK". iDestruct (sg_at_open with "Hs") as "(%Hpb & Hf & Hw)".
    destruct Hpb as [Hp Hb]. unfold sd_assign_range, sresized.
    wbind. iApply (fd_len _ _ _ _ Hfd with "HW"); [lia|lia|]. iIntros "HW". wbeta. rewrite Z.sub_0_r.
    wbind. iApply (wp_sq_size with "Hw"); [lia..|]. iIntros "Hw". wbeta. sstep. sstep.
    destruct (Z.leb_spec (zlen vs) (zlen l)) as [Hle|Hlt].
    { sstep. iApply (fd_copy _ _ _ _ Hfd with "HW Hw"); [lia|lia|done|lia|lia| |].
      { intros i Hi. slive. lia. }
      iSplit.
      2:{ iIntros (f') "%Hf HW Hw". iApply (shaken_at _ _ _ _ _ (fun l' => length l' = length l) with "Hf Hw"); [apply Hf|lia|lia|done|].
          iIntros (l') "%Hl' Hs". iDestruct "HK" as "[_ HK]". iSpecialize ("HK" $! EUser T [] l' with "[%] HW").
          { split; [done|]. right. split; [done|]. split; [by left|lia]. }
          rewrite app_nil_r. by iApply "HK". }
      iIntros (f') "%Hf HW Hw". wbeta. rewrite slice_all in Hf. sover Hf.
      iDestruct (swin_eq _ _ _ _ Hf with "Hw") as "Hw".
      replace (sobj T segs p (zlen l)) with (sobj T segs p (zlen (vs ++ drop (length vs) l))) by (f_equal; len; lia).
      skeep (keep_cut_back T segs p (vs ++ drop (length vs) l) (length vs)); [len; lia|f_equal; lia| |].
      + iIntros "Hs". iDestruct "HK" as "[HK _]". rewrite take_app.
        iSpecialize ("HK" $! T [] with "[%] HW").
        { split; [done|]. split; [apply grown_0; lia|]. intros i Hi. unfold mark, none_of, within. lia. }
        replace (p - Z.max 0 (Z.min p (zlen vs - (slots segs - 1 - p)))) with p by lia.
        rewrite app_nil_r. by iApply "HK".
      + by iIntros (l') "%". }
    wbind. iApply (wp_sq_back_room with "Hw"); [lia..|]. iIntros "Hw". wbeta.
    destruct (Z.leb_spec (zlen vs) (zlen l + (slots segs - 1 - (p + zlen l)))) as [Hr|Hr].
    { wbind. iApply (fd_cut _ _ _ _ Hfd with "HW"); [lia..|]. iIntros "HW". wbeta. cbn [fst snd].
      iDestruct (sg_at_close with "Hf Hw") as "Hs"; [lia..|].
      iApply (wide_copy W WX vs sub T segs p l 0 with "Hs HW"); [done|lia|lia|lia|]. iSplit.
      - iIntros (C) "%HC HW Hs". rewrite slice_all. iDestruct (sg_at_open with "Hs") as "(%Hb2 & Hf & Hw)". sstep.
        iDestruct (sg_at_close with "Hf Hw") as "Hs"; [lia..|]. iDestruct "HK" as "[HK _]".
        iSpecialize ("HK" $! T [] C with "[%] HW").
        { split; [done|]. split; [apply grown_0; lia|]. intros i Hi. rewrite HC. unfold within. lia. }
        replace (p - Z.max 0 (Z.min p (zlen vs - (slots segs - 1 - p)))) with p by lia.
        replace (p + zlen vs - p) with (zlen vs) by lia. rewrite app_nil_r. by iApply "HK".
      - iIntros (l') "%Hl' HW Hs". iDestruct "HK" as "[_ HK]". iSpecialize ("HK" $! EUser T [] l' with "[%] HW").
        { split; [done|]. right. split; [done|]. split; [by left|lia]. }
        rewrite app_nil_r. by iApply "HK". }
    wbind. iApply (wp_sq_front_room with "Hw"); [lia..|]. iIntros "Hw". wbeta.
    destruct (Z.leb_spec (zlen vs) (p + zlen l + (slots segs - 1 - (p + zlen l)))) as [Hr2|Hr2].
    - set (c := zlen vs - (zlen l + (slots segs - 1 - (p + zlen l)))) in *.
      wbind. iApply (fd_cut _ _ _ _ Hfd with "HW"); [lia..|]. iIntros "HW". wbeta. cbn [fst snd].
      wbind. iApply (fd_cut _ _ _ _ Hfd with "HW"); [lia..|]. iIntros "HW". wbeta. cbn [fst snd].
      rewrite Z.add_0_l. iDestruct (sg_at_close with "Hf Hw") as "Hs"; [lia..|].
      assert (zlen (slice c (zlen vs) vs) = zlen vs - c) as Hsc by (apply slice_length; lia).
      iApply (wide_copy W WX vs sub T segs p l c with "Hs HW"); [done|lia|lia|lia|]. iSplit.
      + iIntros (C) "%HC HW Hs". iDestruct (sg_at_open with "Hs") as "(%Hb2 & Hf & Hw)". do 4 sstep.
        iDestruct (sg_at_close with "Hf Hw") as "Hs"; [lia..|].
        replace (p + zlen (slice c (zlen vs) vs) - p) with (zlen (slice c (zlen vs) vs)) by lia.
        iApply (wide_prepend with "Hs HW"); [done|lia|lia|done|]. iSplit.
        * iIntros (C') "%HC' HW Hs". iDestruct "HK" as "[HK _]". iSpecialize ("HK" $! T [] C' with "[%] HW").
          { split; [done|]. split; [apply grown_0; lia|done]. }
          replace (p - Z.max 0 (Z.min p (zlen vs - (slots segs - 1 - p)))) with (p - c) by lia.
          rewrite app_nil_r. by iApply "HK".
        * iIntros "HW Hs". iDestruct "HK" as "[_ HK]". iSpecialize ("HK" $! EUser T [] (slice c (zlen vs) vs) with "[%] HW").
          { split; [done|]. right. split; [done|]. split; [by left|]. lia. }
          rewrite app_nil_r. by iApply "HK".
      + iIntros (l') "%Hl' HW Hs". iDestruct "HK" as "[_ HK]". iSpecialize ("HK" $! EUser T [] l' with "[%] HW").
        { split; [done|]. right. split; [done|]. split; [by left|lia]. }
        rewrite app_nil_r. by iApply "HK".
    - iDestruct (sg_at_close with "Hf Hw") as "Hs"; [lia..|].
      wbind. iPoseProof (wp_room_back T segs p l true (zlen vs - (p + zlen l + (slots segs - 1 - (p + zlen l))))
        (zlen vs - (slots segs - 1))) as "H"; [lia|lia|]. iApply ("H" with "Hs"). iClear "H". iSplit.
      2:{ iIntros (e T' new l') "%He Hs". iDestruct "HK" as "[_ HK]". iDestruct (fd_abort _ _ _ _ Hfd with "HW") as "HW".
          iApply ("HK" with "[%] HW Hs"). split; [tauto|]. destruct He as [_ He]. eapply op_exn_weaken; [|done]. done. }
      iIntros (T' new) "%HT Hs". wbeta. destruct HT as [HT Hnew].
      destruct (more_segs_room segs new _ Hnew) as (Hr3 & Hr4 & Hr5 & _).
      iDestruct (sg_at_open with "Hs") as "(%Hb2 & Hf & Hw)". sstep. sstep.
      wbind. iApply (fd_cut _ _ _ _ Hfd with "HW"); [lia..|]. iIntros "HW". wbeta. cbn [fst snd].
      wbind. iApply (fd_cut _ _ _ _ Hfd with "HW"); [lia..|]. iIntros "HW". wbeta. cbn [fst snd].
      rewrite Z.add_0_l. iDestruct (sg_at_close with "Hf Hw") as "Hs"; [lia..|].
      assert (zlen (slice p (zlen vs) vs) = zlen vs - p) as Hsc by (apply slice_length; lia).
      iApply (wide_copy W WX vs sub T' (segs ++ new) p l p with "Hs HW"); [done|lia|lia|lia|]. iSplit.
      + iIntros (C) "%HC HW Hs". iDestruct (sg_at_open with "Hs") as "(%Hb3 & Hf & Hw)". do 2 sstep.
        iDestruct (sg_at_close with "Hf Hw") as "Hs"; [lia..|].
        replace (p + zlen (slice p (zlen vs) vs) - p) with (zlen (slice p (zlen vs) vs)) by lia.
        replace (sg_bos (sobj T' (segs ++ new) p (zlen l))) with (sitr (t_at T') (segs ++ new) (p - p)) by (rewrite Z.sub_diag; done).
        iApply (wide_prepend with "Hs HW"); [done|lia|lia|done|]. iSplit.
        * iIntros (C') "%HC' HW Hs". iDestruct "HK" as "[HK _]".
          replace (p - Z.max 0 (Z.min p (zlen vs - (slots segs - 1 - p)))) with (p - p) by lia.
          by iApply ("HK" with "[%] HW").
        * iIntros "HW Hs". iDestruct "HK" as "[_ HK]". iApply ("HK" with "[%] HW Hs").
          split; [done|]. right. split; [done|]. split; [by right|]. lia.
      + iIntros (l') "%Hl' HW Hs". iDestruct "HK" as "[_ HK]". iApply ("HK" with "[%] HW Hs").
        split; [done|]. right. split; [done|]. split; [by right|]. lia.
  Qed.
End assigns.

(** ** One element after another *)
Section loops.
  Context `{E : Env} `{SZ : SegSize}.
  Implicit Types segs : list loc.
  Implicit Types T : tab.

  (** Segments may have been added at both ends, unless there was room for [n]
      elements there; the first element is now at [p']. *)
  Definition dgrown segs (p : Z) (l : list V) (n : Z) (a b : list loc) : Prop :=
    (n <= p -> a = []) /\ (p + zlen l + n <= slots segs - 1 -> b = []).
  Definition dual_exn segs (p : Z) (l : list V) (n : Z) (e : exn) (a b : list loc) : Prop :=
    dgrown segs p l n a b /\
    (n <= p -> p + zlen l + n <= slots segs - 1 -> e = EUser) /\
    match e with
    | ELength => max_size < slots (a ++ segs ++ b)
    | EOutOfRange => False
    | _ => True
    end.
  Definition dual_op {A} T segs p (l : list V) (n : Z) (m : M sgdata A) (l2 : list V)
      (r : tab -> list loc -> Z -> A) (R : list V -> Prop) : Prop :=
    forall Q X,
      sg_at T segs p l ⊢
      ((∀ T' a b p', ⟦t_al T' = t_al T /\ dgrown segs p l n a b⟧ -∗ sg_at T' (a ++ segs ++ b) p' l2 -∗
          Q (r T' (a ++ segs ++ b) p') (sobj T' (a ++ segs ++ b) p' (zlen l2))) ∧
       (∀ e T' a b p' l', ⟦t_al T' = t_al T /\ dual_exn segs p l n e a b /\ R l'⟧ -∗ sg_at T' (a ++ segs ++ b) p' l' -∗
          X e (sobj T' (a ++ segs ++ b) p' (zlen l')))) -∗
      wp m (sobj T segs p (zlen l)) Q X.

  (** The segments after two steps. *)
  Lemma dual_segs a2 a segs b b2 : a2 ++ (a ++ segs ++ b) ++ b2 = (a2 ++ a) ++ segs ++ (b ++ b2).
  Proof. by rewrite -!app_assoc. Qed.

  Lemma dual_insert_loop T segs p l vs (k : nat) :
    (k <= length l)%nat ->
    dual_op T segs p l (zlen vs) (sq_insert_input_loop sd_emplace (sitr (t_at T) segs (p + Z.of_nat k)) (AVal <$> vs))
      (insert_at k vs l) (fun _ _ _ => tt) (fun l' => zlen l <= zlen l' <= zlen l + zlen vs).
  Proof.
    induction vs as [|v vs IH] in T, segs, p, l, k |- *; intros Hk Q X; simpl.
    - iIntros "Hs HK". iApply wp_ret. iDestruct "HK" as "[HK _]". iSpecialize ("HK" $! T [] [] p with "[%//]").
      unfold insert_at. simpl. rewrite !app_nil_r take_drop. by iApply "HK".
    - iIntros "Hs HK". iDestruct (sg_at_open with "Hs") as "(%Hpb & Hf & Hw)".
      iDestruct (sg_at_close with "Hf Hw") as "Hs"; [lia..|].
      assert (zlen (insert_at k [v] l) = zlen l + 1) as Hl1 by (unfold insert_at; len; simpl; lia).
      assert (insert_at (S k) vs (insert_at k [v] l) = insert_at k (v :: vs) l) as Hins.
      { unfold insert_at. rewrite (take_app_ge _ _ (S k)); [|len; lia]. rewrite (drop_app_ge _ _ (S k)); [|len; lia].
        rewrite take_length_le; [|lia]. replace (S k - k)%nat with 1%nat by lia. simpl. rewrite take_0 drop_0 -app_assoc. done. }
      (* the rest, after one element has been inserted *)
      assert (forall T' a b p', t_al T' = t_al T -> dgrown segs p l 1 a b ->
        (zlen (v :: vs) <= p -> zlen vs <= p') ->
        (p + zlen l + zlen (v :: vs) <= slots segs - 1 ->
           p' + (zlen l + 1) + zlen vs <= slots (a ++ segs ++ b) - 1) ->
        sg_at T' (a ++ segs ++ b) p' (insert_at k [v] l) ⊢
        ((∀ T' a b p', ⟦t_al T' = t_al T /\ dgrown segs p l (zlen (v :: vs)) a b⟧ -∗ sg_at T' (a ++ segs ++ b) p' (insert_at k (v :: vs) l) -∗
          Q tt (sobj T' (a ++ segs ++ b) p' (zlen (insert_at k (v :: vs) l)))) ∧
         (∀ e T' a b p' l', ⟦t_al T' = t_al T /\ dual_exn segs p l (zlen (v :: vs)) e a b /\ zlen l <= zlen l' <= zlen l + zlen (v :: vs)⟧ -∗
          sg_at T' (a ++ segs ++ b) p' l' -∗ X e (sobj T' (a ++ segs ++ b) p' (zlen l')))) -∗
        wp (p1 <- it_succ (sitr (t_at T') (a ++ segs ++ b) (p' + Z.of_nat k));;
            sq_insert_input_loop sd_emplace p1 (AVal <$> vs))%prog
          (sobj T' (a ++ segs ++ b) p' (zlen (insert_at k [v] l))) Q X) as Hrest.
      { intros T' a b p' HT [Ha Hb] Hp1 Hp2. cbn [length] in *. iIntros "Hs HK".
        iDestruct (sg_at_open with "Hs") as "(%Hb' & Hf & Hw)". sstep. sstep.
        iDestruct (sg_at_close with "Hf Hw") as "Hs"; [lia..|].
        replace (p' + Z.of_nat k + 1) with (p' + Z.of_nat (S k)) by lia.
        iApply (IH with "Hs"); [lia|]. rewrite Hins. iSplit.
        - iIntros (T2 a2 b2 p2) "%H2 Hs". destruct H2 as (HT2 & Ha2 & Hb2). iDestruct "HK" as "[HK _]".
          rewrite dual_segs. iApply ("HK" with "[%] Hs"). split; [congruence|]. split.
          + intros Hle. rewrite Ha; [|lia]. rewrite Ha2; [done|lia].
          + intros Hle. rewrite Hb; [|lia]. rewrite Hb2; [done|]. specialize (Hp2 ltac:(lia)). lia.
        - iIntros (e T2 a2 b2 p2 l') "%H2 Hs". destruct H2 as (HT2 & ((Ha2 & Hb2) & He1 & He2) & HR). iDestruct "HK" as "[_ HK]".
          rewrite dual_segs. iApply ("HK" with "[%] Hs"). split; [congruence|]. split; [|lia]. split; [split|split].
          + intros Hle. rewrite Ha; [|lia]. rewrite Ha2; [done|lia].
          + intros Hle. rewrite Hb; [|lia]. rewrite Hb2; [done|]. specialize (Hp2 ltac:(lia)). lia.
          + intros H1 H2. apply He1; [lia|]. specialize (Hp2 ltac:(lia)). lia.
          + rewrite -dual_segs. done. }
      destruct (Z.ltb_spec (Z.of_nat k) (zlen l - Z.of_nat k)) as [Hnear|Hfar].
      + wbind. iApply (front_sd_emplace with "Hs"); [apply sa_val|done|done|]. iSplit.
        * iIntros (T' new) "%HT Hs". destruct HT as [HT Hnew]. wbeta.
          destruct (more_front_room segs _ _ Hnew) as (Hr1 & Hr2).
          assert (new ++ segs = new ++ segs ++ []) as -> by (by rewrite app_nil_r).
          iApply (Hrest T' new [] (slots new + p - 1) with "Hs HK"); [done| | |].
          -- split; [|done]. intros Hle. apply (fgrown_nil _ _ _ Hnew). lia.
          -- cbn [length]. lia.
          -- rewrite app_nil_r slots_front. cbn [length]. lia.
        * iIntros (e T' new p' l') "%H Hs". destruct H as [HT He]. iDestruct "HK" as "[_ HK]".
          iSpecialize ("HK" $! e T' new [] p' l' with "[%]"); [|by rewrite app_nil_r; iApply "HK"].
          split; [done|]. destruct He as [(-> & -> & -> & Hadd & He)|(-> & Hn & Hpl & HR)].
          -- split; [|cbn [length]; lia]. split; [done|]. split; [cbn [length]; lia|].
             destruct He as [[-> He]| ->]; [rewrite /= app_nil_r; lia|done].
          -- split.
             ++ split; [split; [|done]|done]. intros Hle. destruct Hn as [|Hn]; [done|]. apply (fgrown_nil _ _ _ Hn).
                cbn [length] in Hle. lia.
             ++ destruct HR as [[HR _]|[_ HR]]; cbn [length]; lia.
      + wbind. iApply (back_sd_emplace with "Hs"); [apply sa_val|done|lia|done|]. iSplit.
        * iIntros (T' new) "%HT Hs". destruct HT as [HT Hnew]. wbeta.
          destruct (more_segs_room segs new _ Hnew) as (Hr3 & Hr4 & Hr5 & _).
          iApply (Hrest T' [] new p with "Hs HK"); [apply HT| | |].
          -- split; [done|]. intros Hle. apply (grown_nil _ _ _ Hnew). lia.
          -- cbn [length]. lia.
          -- cbn [length app]. lia.
        * iIntros (e T' new l') "%H Hs". destruct H as [[HT HT2] He]. iDestruct "HK" as "[_ HK]".
          iApply ("HK" $! e T' [] new p l' with "[%] Hs").
          split; [done|]. destruct He as [(-> & -> & Hadd & He)|(-> & Hn & HR)].
          -- split; [|cbn [length]; lia]. split; [done|]. split; [cbn [length]; lia|].
             destruct He as [[-> He]| ->]; [rewrite /= app_nil_r; lia|done].
          -- split.
             ++ split; [split; [done|]|done]. intros Hle. destruct Hn as [|Hn]; [done|]. apply (grown_nil _ _ _ Hn).
                cbn [length] in Hle. lia.
             ++ destruct HR as [[HR _]|[_ HR]]; cbn [length]; lia.
  Qed.
  (** d 2303-2317 [insert_range], input iterators. *)
  Lemma dual_sd_insert_input T segs p l vs (k : nat) pos :
    (k <= length l)%nat -> pos = sitr (t_at T) segs (p + Z.of_nat k) ->
    dual_op T segs p l (zlen vs) (sq_insert_input sd_emplace sd_nth pos (AVal <$> vs))
      (insert_at k vs l) (fun T' segs' p' => sitr (t_at T') segs' (p' + Z.of_nat k))
      (fun l' => zlen l <= zlen l' <= zlen l + zlen vs).
  Proof.
    intros Hk -> Q X. sopen. unfold sq_insert_input.
    wbind. iApply (wp_sq_offset _ _ _ _ k with "Hw"); [lia|lia|lia|done|]. iIntros "Hw". wbeta.
    iDestruct (sg_at_close with "Hf Hw") as "Hs"; [lia..|].
    wbind. iApply (dual_insert_loop with "Hs"); [done|]. iSplit.
    - iIntros (T' a b p') "%HT Hs". wbeta. iDestruct (sg_at_open with "Hs") as "(%Hb' & Hf & Hw)".
      iApply (wp_sd_nth with "Hw"); [lia|unfold insert_at; len; lia|lia|]. iIntros "Hw".
      iDestruct "HK" as "[HK _]". iApply ("HK" with "[%//]"). iApply (sg_at_close with "Hf Hw"); lia.
    - iDestruct "HK" as "[_ HK]". done.
  Qed.
End loops.
