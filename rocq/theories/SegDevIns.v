(** * segmented_devector: insertion and assignment *)

From Verif Require Export SegDevOps.
From Coq Require Import ZifyBool.
From iris.proofmode Require Import environments tactics.
Open Scope Z_scope.
Notation frame := SegGrow.frame.

Section inserts.
  Context `{E : Env} `{SZ : SegSize}.
  Implicit Types segs new : list loc.
  Implicit Types T : tab.

  (** The end of an insertion towards the front. *)
  Lemma spread_front_done T T' segs new p l (k : nat) vs add Q X :
    t_al T' = t_al T -> fgrown segs add new -> (k <= length l)%nat ->
    0 <= slots new + p - zlen vs -> slots new + p + zlen l < slots (new ++ segs) ->
    frame T' (new ++ segs) ⊢
    ((∀ T' new, ⟦t_al T' = t_al T /\ fgrown segs add new⟧ -∗
        sg_at T' (new ++ segs) (slots new + p - zlen vs) (insert_at k vs l) -∗
        Q (sitr (t_at T') (new ++ segs) (slots new + p - zlen vs + Z.of_nat k))
          (sobj T' (new ++ segs) (slots new + p - zlen vs) (zlen (insert_at k vs l)))) ∧
     (∀ e T' new p' l', ⟦t_al T' = t_al T /\ fop_exn p l segs add
          (fun l' => zlen l <= zlen l' <= zlen l + zlen vs /\ (k = 0%nat -> l' = l)) e new p' l'⟧ -∗
        sg_at T' (new ++ segs) p' l' -∗ X e (sobj T' (new ++ segs) p' (zlen l')))) -∗
    ((∀ f' r o', ⟦spread (slots new + p) (zlen l) (slots new + p - zlen vs) (Z.of_nat k) vs (at_pos (slots new + p) l) f' /\
          r = sitr (t_at T') (new ++ segs) (slots new + p - zlen vs + Z.of_nat k) /\
          o' = sobj T' (new ++ segs) (slots new + p - zlen vs) (zlen l + zlen vs)⟧ -∗
        swin (t_at T') (new ++ segs) f' -∗ Q r o') ∧
     (∀ f' p' m', ⟦(forall i, live f' i = within p' (p' + m') i) /\ (p' + m' = slots new + p + zlen l)%Z /\
          zlen l <= m' <= zlen l + zlen vs /\ (Z.of_nat k = 0 -> f' = at_pos (slots new + p) l)⟧ -∗
        swin (t_at T') (new ++ segs) f' -∗ X EUser (sobj T' (new ++ segs) p' m'))).
  Proof.
    intros HT Hnew Hk Hp Hs. iIntros "Hf HK". iSplit.
    - iIntros (f' r o') "%H Hw". destruct H as (Hsp & -> & ->). iDestruct "HK" as "[HK _]".
      replace (zlen l + zlen vs) with (zlen (insert_at k vs l)) by (unfold insert_at; len; lia).
      iApply ("HK" $! T' new with "[%//]").
      iApply (sg_at_close with "Hf [Hw]"); [lia|unfold insert_at; len; lia|].
      iApply (swin_eq with "Hw"). by apply (DevProofs.spread_list (slots new + p) l).
    - iIntros (f' p' m') "%H Hw". destruct H as (Hl & Hpm & Hm & Hx).
      destruct (alive_list p' m' f') as (l' & Hlen & Hf'); [lia|done|]. rewrite -Hlen.
      iDestruct "HK" as "[_ HK]". iApply ("HK" $! EUser T' new p' l' with "[%]").
      + split; [done|]. right. split; [done|]. split; [by right|]. split; [lia|]. split; [lia|]. intros ->.
        specialize (Hx ltac:(done)). subst f'.
        assert (m' = zlen l) as Hml.
        { destruct (Z.eq_dec m' (zlen l)) as [|Hne]; [done|]. specialize (Hl p'). rewrite live_within in Hl.
          unfold within in Hl. lia. }
        assert (p' = slots new + p) as -> by lia.
        apply (at_pos_inj (slots new + p)). intros i. by rewrite -Hf'.
      + iApply (sg_at_close with "Hf [Hw]"); [lia|lia|]. by iApply (swin_eq with "Hw").
  Qed.

  (** d 2138-2301 [insert_fill_n]. *)
  Lemma front_sd_insert_fill T segs p l (k n : nat) a v pos :
    sarg segs p l a v l -> ~ is_move a -> (k <= length l)%nat -> pos = sitr (t_at T) segs (p + Z.of_nat k) ->
    Z.of_nat k < zlen l - Z.of_nat k ->
    front_op T segs p l (Z.of_nat n - p) (Z.of_nat n) (sd_insert_fill pos (Z.of_nat n) a)
      (insert_at k (replicate n v) l) (fun T' segs' p' => sitr (t_at T') segs' (p' + Z.of_nat k))
      (fun l' => zlen l <= zlen l' <= zlen l + Z.of_nat n /\ (k = 0%nat -> l' = l)).
  Proof.
    intros Ha Hmv Hk -> Hnear Q X. sopen. unfold sd_insert_fill.
    wbind. iApply (wp_sq_offset _ _ _ _ k with "Hw"); [lia|lia|lia|done|]. iIntros "Hw". wbeta.
    destruct (Z.eqb_spec (Z.of_nat n) 0) as [Hz|Hnz].
    - do 3 sstep. iDestruct (sg_at_close with "Hf Hw") as "Hs"; [lia..|].
      iDestruct "HK" as "[HK _]". iSpecialize ("HK" $! T [] with "[%]").
      { split; [done|]. apply fgrown_0. lia. }
      replace n with 0%nat by lia. unfold insert_at. simpl. rewrite take_drop.
      replace (slots [] + p - 0) with p by (unfold slots; simpl; lia). by iApply "HK".
    - wbind. iApply (sarg_mk _ _ _ _ _ _ _ Hp Hb Ha with "Hw"). iSplit.
      2:{ iIntros "H". iDestruct "H" as (l') "[%He Hw]". destruct He as [Hl He].
          assert (l' = l) as -> by (destruct Ha; simpl in *; tauto).
          iDestruct (sg_at_close with "Hf Hw") as "Hs"; [lia..|].
          iDestruct "HK" as "[_ HK]". iSpecialize ("HK" $! EUser T [] p l with "[%]").
          { split; [done|]. right. split; [done|]. split; [by left|]. split; [unfold slots; simpl; lia|]. split; [lia|done]. }
          by iApply "HK". }
      iIntros "Hw". wbeta. do 4 sstep. replace (p + zlen l - (p + Z.of_nat k)) with (zlen l - Z.of_nat k) by lia.
      destruct (Z.ltb_spec (Z.of_nat k) (zlen l - Z.of_nat k)) as [_|?]; [|lia].
      wbind. iApply (wp_sq_front_room with "Hw"); [lia..|]. iIntros "Hw". wbeta.
      sroomf (Z.of_nat n - p) T' new. do 4 sstep.
      iApply (wp_fill_front with "Hw"); [lia|lia|lia|lia|apply live_within|].
      iPoseProof (spread_front_done T T' segs new p l k (replicate n v) (Z.of_nat n - p) with "Hf") as "H";
        [done|done|lia|len; lia|lia|].
      rewrite !replicate_length Nat2Z.id. by iApply "H".
  Qed.
  Lemma back_sd_insert_fill T segs p l (k n : nat) a v pos :
    sarg segs p l a v l -> ~ is_move a -> (k <= length l)%nat -> pos = sitr (t_at T) segs (p + Z.of_nat k) ->
    zlen l - Z.of_nat k <= Z.of_nat k ->
    back_op T segs p l (p + zlen l + Z.of_nat n - (slots segs - 1)) (sd_insert_fill pos (Z.of_nat n) a)
      (insert_at k (replicate n v) l) (fun T' segs' => sitr (t_at T') segs' (p + Z.of_nat k))
      (fun l' => zlen l <= zlen l' <= zlen l + Z.of_nat n /\ (k = length l -> l' = l)).
  Proof.
    intros Ha Hmv Hk -> Hfar Q X. sopen. unfold sd_insert_fill.
    wbind. iApply (wp_sq_offset _ _ _ _ k with "Hw"); [lia|lia|lia|done|]. iIntros "Hw". wbeta.
    destruct (Z.eqb_spec (Z.of_nat n) 0) as [Hz|Hnz].
    - do 3 sstep. iDestruct (sg_at_close with "Hf Hw") as "Hs"; [lia..|].
      iDestruct "HK" as "[HK _]". iSpecialize ("HK" $! T [] with "[%]").
      { split; [done|]. apply grown_0. lia. }
      replace n with 0%nat by lia. unfold insert_at. simpl. rewrite take_drop app_nil_r. by iApply "HK".
    - wbind. iApply (sarg_mk _ _ _ _ _ _ _ Hp Hb Ha with "Hw"). iSplit.
      2:{ iIntros "H". iDestruct "H" as (l') "[%He Hw]". destruct He as [Hl He].
          assert (l' = l) as -> by (destruct Ha; simpl in *; tauto).
          iDestruct (sg_at_close with "Hf Hw") as "Hs"; [lia..|].
          iDestruct "HK" as "[_ HK]". iSpecialize ("HK" $! EUser T [] l with "[%]").
          { split; [done|]. right. split; [done|]. split; [by left|]. split; [lia|done]. }
          rewrite app_nil_r. by iApply "HK". }
      iIntros "Hw". wbeta. do 4 sstep. replace (p + zlen l - (p + Z.of_nat k)) with (zlen l - Z.of_nat k) by lia.
      destruct (Z.ltb_spec (Z.of_nat k) (zlen l - Z.of_nat k)) as [?|_]; [lia|].
      wbind. iApply (wp_sq_back_room with "Hw"); [lia..|]. iIntros "Hw". wbeta.
      sroom (p + zlen l + Z.of_nat n - (slots segs - 1)) T' new.
      do 4 sstep.
      iApply (wp_l_fill_back _ _ _ _ k _ _ (Z.of_nat n <? zlen l - Z.of_nat k) with "Hw");
        [lia|lia|lia|lia| |lia|lia|done|].
      { intros Q'. iIntros "HQ". by iApply wp_ret. }
      iSplit.
      + iIntros "Hw". iDestruct "HK" as "[HK _]". rewrite Nat2Z.id. iApply ("HK" with "[%//]").
        iApply (sg_at_close with "Hf Hw"); [lia|unfold insert_at; len; lia].
      + iIntros (p' l') "%He Hw". destruct He as (-> & He & Hx).
        iDestruct (sg_at_close with "Hf Hw") as "Hs"; [lia..|]. sfail. done.
  Qed.

  (** d 2321-2483 [insert_range], forward iterators. *)
  Lemma front_sd_insert_range ra vs T segs p l (k : nat) pos :
    (k <= length l)%nat -> pos = sitr (t_at T) segs (p + Z.of_nat k) ->
    Z.of_nat k < zlen l - Z.of_nat k ->
    front_op T segs p l (zlen vs - p) (zlen vs) (sd_insert_range pos (SList ra (AVal <$> vs)))
      (insert_at k vs l) (fun T' segs' p' => sitr (t_at T') segs' (p' + Z.of_nat k))
      (fun l' => zlen l <= zlen l' <= zlen l + zlen vs /\ (k = 0%nat -> l' = l)).
  Proof.
    intros Hk -> Hnear Q X. pose proof (feeds_vals ra vs) as Hfd. sopen. unfold sd_insert_range.
    replace (SList ra (AVal <$> vs)) with (SList ra (AVal <$> slice 0 (zlen vs) vs)) by (by rewrite slice_all).
    wbind. iApply (wp_sq_offset _ _ _ _ k with "Hw"); [lia|lia|lia|done|]. iIntros "Hw". wbeta.
    wbind. iApply (fd_len _ _ _ _ Hfd none_of with "[//]"); [lia|lia|]. iIntros "_". wbeta. rewrite Z.sub_0_r.
    sstep. sstep. destruct (Z.eqb_spec (zlen vs) 0) as [Hz|Hnz].
    - sstep. iDestruct (sg_at_close with "Hf Hw") as "Hs"; [lia..|].
      iDestruct "HK" as "[HK _]". iSpecialize ("HK" $! T [] with "[%]").
      { split; [done|]. apply fgrown_0. lia. }
      destruct vs; [|simpl in Hz; lia]. unfold insert_at. simpl. rewrite take_drop.
      replace (slots [] + p - 0) with p by (unfold slots; simpl; lia). by iApply "HK".
    - sstep. sstep. replace (p + zlen l - (p + Z.of_nat k)) with (zlen l - Z.of_nat k) by lia.
      destruct (Z.ltb_spec (Z.of_nat k) (zlen l - Z.of_nat k)) as [_|?]; [|lia].
      wbind. iApply (wp_sq_front_room with "Hw"); [lia..|]. iIntros "Hw". wbeta.
      sroomf (zlen vs - p) T' new. do 4 sstep.
      iPoseProof (spread_front_done T T' segs new p l k vs (zlen vs - p) with "Hf HK") as "HK"; [done|done|lia|lia|lia|].
      iApply (wp_range_front _ _ _ _ Hfd with "Hw [//]"); [lia|lia|lia|lia|apply live_within|]. iSplit.
      + iIntros (f' r o' C) "%H _". iDestruct "HK" as "[HK _]". iApply "HK". iPureIntro. tauto.
      + iIntros (f' p' m') "%H _". iDestruct "HK" as "[_ HK]". iApply "HK". iPureIntro. tauto.
  Qed.
  (** Not covered: insertion of more elements than there are places before the
      end, at the back; the code then computes an iterator outside the storage. *)
  Lemma feed_sd_insert_range W WX vs sub T segs p l (k : nat) pos :
    feeds W WX vs sub -> (k <= length l)%nat -> pos = sitr (t_at T) segs (p + Z.of_nat k) ->
    zlen l - Z.of_nat k <= Z.of_nat k -> zlen vs <= p + zlen l ->
    feed_op W WX (zlen vs) T segs p l (p + zlen l + zlen vs - (slots segs - 1)) (sd_insert_range pos (sub 0 (zlen vs)))
      (insert_at k vs l) (fun T' segs' => sitr (t_at T') segs' (p + Z.of_nat k))
      (fun l' => zlen l <= zlen l' <= zlen l + zlen vs /\ (k = length l -> l' = l)).
  Proof.
    intros Hfd Hk -> Hfar Hfit Q X. iIntros "Hs HW HK". iDestruct (sg_at_open with "Hs") as "(%Hpb & Hf & Hw)".
    destruct Hpb as [Hp Hb]. unfold sd_insert_range.
    wbind. iApply (wp_sq_offset _ _ _ _ k with "Hw"); [lia|lia|lia|done|]. iIntros "Hw". wbeta.
    wbind. iApply (fd_len _ _ _ _ Hfd with "HW"); [lia|lia|]. iIntros "HW". wbeta. rewrite Z.sub_0_r.
    sstep. sstep. destruct (Z.eqb_spec (zlen vs) 0) as [Hz|Hnz].
    - sstep. iDestruct (sg_at_close with "Hf Hw") as "Hs"; [lia..|].
      iDestruct "HK" as "[HK _]". iSpecialize ("HK" $! T [] none_of with "[%] HW").
      { split; [done|]. split; [|lia]. apply grown_0. lia. }
      destruct vs; [|simpl in Hz; lia]. unfold insert_at. simpl. rewrite take_drop app_nil_r. by iApply "HK".
    - sstep. sstep. replace (p + zlen l - (p + Z.of_nat k)) with (zlen l - Z.of_nat k) by lia.
      destruct (Z.ltb_spec (Z.of_nat k) (zlen l - Z.of_nat k)) as [?|_]; [lia|].
      wbind. iApply (wp_sq_back_room with "Hw"); [lia..|]. iIntros "Hw". wbeta.
      sroomw (p + zlen l + zlen vs - (slots segs - 1)) T' new Hfd.
      do 6 sstep. destruct (Z.ltb_spec (zlen vs) (zlen l - Z.of_nat k)) as [Hlt|Hge].
      + iApply (wp_range_far _ _ _ _ Hfd with "Hw HW"); [lia|lia|lia|lia|lia|apply live_within|].
        iApply (spread_done with "Hf HK"); first [done|lia].
      + iApply (wp_range_near _ _ _ _ Hfd with "Hw HW"); [lia|lia|lia|lia|lia|apply live_within|].
        iApply (spread_done with "Hf HK"); first [done|lia].
  Qed.
End inserts.
