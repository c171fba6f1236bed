(** * Segmented containers: theorems about plain states *)

From iris.proofmode Require Import tactics.
From Verif Require Export SegMem SegOk State MemProofs.
From Coq Require Import ZifyBool.
Open Scope Z_scope.
Notation frame := SegGrow.frame.

(** ** Blocks *)
Section blocks.
  Context `{E : Env}.

  Definition blkP (b : blk) : hProp :=
    (⟦0 < b_id b /\ b_cells b <> []⟧ ∗
     (b_id b, hdr_off) ↦ Hdr (b_al b) (zlen (b_cells b)) ∗ (b_id b, 0) ↦∗ b_cells b)%I.

  Lemma blk_heap b h :
    blkP b h <->
    (0 < b_id b /\ b_cells b <> []) /\
    forall p, h !! p = if decide (p.1 = b_id b) then blk_cell b p.2 else None.
  Proof.
    unfold blkP. rewrite pure_sep_holds. apply and_iff_compat_l.
    set (c := Hdr (b_al b) (zlen (b_cells b))).
    split.
    - intros (h1 & h2 & -> & Hd & H1 & H2) p. change (h1 = {[(b_id b, hdr_off) := c]}) in H1. subst h1.
      rewrite arr_heap in H2. cbn [fst snd] in H2.
      destruct (decide (p = (b_id b, hdr_off))) as [->|Hp].
      + rewrite (lookup_union_Some_l _ _ _ c); [|by apply lookup_singleton]. cbn [fst snd].
        rewrite decide_True //.
      + rewrite lookup_union_r; [|by apply lookup_singleton_ne]. rewrite H2.
        destruct p as [p1 p2]. cbn [fst snd] in *. unfold blk_cell. rewrite Z.sub_0_r.
        repeat case_decide; try done; naive_solver.
    - intros Hh. exists {[(b_id b, hdr_off) := c]}, (delete (b_id b, hdr_off) h).
      assert (h !! (b_id b, hdr_off) = Some c) as Hhd.
      { rewrite Hh. cbn [fst snd]. rewrite decide_True //. }
      split_and!.
      + by rewrite -insert_union_singleton_l insert_delete.
      + apply map_disjoint_singleton_l, lookup_delete.
      + done.
      + apply arr_heap. intros p. cbn [fst snd].
        destruct (decide (p = (b_id b, hdr_off))) as [->|Hp].
        { rewrite lookup_delete. cbn [fst snd]. rewrite decide_False //. unfold hdr_off. lia. }
        rewrite lookup_delete_ne; [|done]. rewrite Hh.
        destruct p as [p1 p2]. cbn [fst snd] in *. unfold blk_cell. rewrite Z.sub_0_r.
        repeat case_decide; try done; naive_solver.
  Qed.

  Lemma blks_cell_none bs p : p.1 ∉ b_id <$> bs -> blks_cell bs p = None.
  Proof.
    induction bs as [|b bs IH]; [done|]. cbn [fmap list_fmap blks_cell]. intros Hp.
    apply not_elem_of_cons in Hp as [Hp1 Hp2]. rewrite decide_False //. by apply IH.
  Qed.
  Lemma blks_cell_hdr bs i : i ∈ b_id <$> bs -> exists c, blks_cell bs (i, hdr_off) = Some c.
  Proof.
    induction bs as [|b bs IH]; [by intros ?%elem_of_nil|]. cbn [fmap list_fmap blks_cell fst snd]. intros Hi.
    apply elem_of_cons in Hi as [->|Hi].
    - rewrite decide_True //. by eexists.
    - case_decide; [|by apply IH]. by eexists.
  Qed.
  Lemma blks_heap bs h : ([∗ list] b ∈ bs, blkP b)%I h <-> only_blocks bs h.
  Proof.
    unfold only_blocks. revert h. induction bs as [|b bs IH]; intros h.
    - cbn [big_opL fmap list_fmap]. change ((h = ∅) <-> Forall (fun b => 0 < b_id b /\ b_cells b <> []) [] /\ @NoDup Z [] /\
        forall p, h !! p = None).
      split.
      + intros ->. split_and!; [constructor|constructor|]. intros p. by rewrite lookup_empty.
      + intros (_ & _ & Hp). apply map_eq. intros p. by rewrite Hp lookup_empty.
    - cbn [big_opL fmap list_fmap blks_cell]. split.
      + intros (h1 & h2 & -> & Hd & H1 & H2). apply blk_heap in H1 as [Hb H1]. apply IH in H2 as (Hf & Hn & H2).
        assert (b_id b ∉ b_id <$> bs) as Hnew.
        { intros Hin. destruct (blks_cell_hdr bs _ Hin) as [c Hc].
          apply (map_disjoint_spec h1 h2) with (b_id b, hdr_off) (Hdr (b_al b) (zlen (b_cells b))) c; [done| |].
          - rewrite H1. cbn [fst snd]. rewrite decide_True //.
          - by rewrite H2. }
        split_and!; [by constructor|by constructor|]. intros p. specialize (H1 p). case_decide as Hp.
        * assert (h2 !! p = None) as Hp2 by (rewrite H2; apply blks_cell_none; by rewrite Hp).
          rewrite lookup_union Hp2 H1. by destruct (blk_cell b p.2).
        * rewrite lookup_union H1 H2. by destruct (blks_cell bs p).
      + intros (Hf & Hn & Hh). apply Forall_cons in Hf as [Hb Hf]. apply NoDup_cons in Hn as [Hnew Hn].
        exists (filter (fun pc : loc * cell => pc.1.1 = b_id b) h), (filter (fun pc : loc * cell => ~ pc.1.1 = b_id b) h).
        split_and!.
        * symmetry. apply map_filter_union_complement.
        * apply map_disjoint_filter_complement.
        * apply blk_heap. split; [done|]. intros p. specialize (Hh p). case_decide as Hp.
          -- destruct (blk_cell b p.2) as [c|].
             ++ apply map_filter_lookup_Some. done.
             ++ apply map_filter_lookup_None. by left.
          -- apply map_filter_lookup_None. right. by intros c _.
        * apply IH. split_and!; [done|done|]. intros p. specialize (Hh p). case_decide as Hp.
          -- rewrite blks_cell_none; [|by rewrite Hp]. apply map_filter_lookup_None. right. intros c _. by intros ?.
          -- destruct (blks_cell bs p) as [c|].
             ++ apply map_filter_lookup_Some. done.
             ++ apply map_filter_lookup_None. by left.
  Qed.
  Lemma blkP_ablock a (q : loc) cs : cs <> [] ->
    ablock a q (zlen cs) ∗ q ↦∗ cs ⊣⊢ ⟦q.2 = 0⟧ ∗ blkP (Blk q.1 a cs).
  Proof.
    intros Hcs. unfold ablock, blkP. cbn [b_id b_al b_cells].
    destruct (decide (zlen cs = 0)) as [H0|H0]; [destruct cs; simpl in *; [done|lia]|].
    destruct q as [q1 q2]. cbn [fst snd]. apply bi.equiv_entails; split.
    - iIntros "[[%H Hh] Hq]". destruct H as (-> & H1 & H2). iFrame "Hh Hq". done.
    - iIntros "[-> (%H & Hh & Hq)]". destruct H as [H1 H2]. iFrame "Hh Hq". iPureIntro. split_and!; [done|done|lia].
  Qed.
End blocks.

(** ** Segmented containers *)
Section seg_state.
  Context `{E : Env} `{SZ : SegSize}.
  Implicit Types segs : list loc.

  Lemma win_arr addr a b p f :
    contig addr a b p -> a <= b -> win addr a b f ⊣⊢ p ↦∗ ((fun i => cell_of (f i)) <$> seqZ a (b - a)).
  Proof.
    intros Hc Hab. unfold win. remember (b - a) as n eqn:Hn. revert a p Hc Hab Hn.
    assert (0 <= n -> forall a p, contig addr a b p -> a <= b -> n = b - a ->
      ([∗ list] i ∈ seqZ a n, addr i ↦ cell_of (f i)) ⊣⊢ p ↦∗ ((fun i => cell_of (f i)) <$> seqZ a n)) as Hg.
    2:{ intros a p Hc Hab Hn. apply Hg; [lia|done..]. }
    intros Hn. pattern n. apply natlike_ind; [| |done]; clear n Hn.
    - intros a p _ _ _. done.
    - intros n Hn IH a p Hc Hab Heq. rewrite (seqZ_cons a); [|lia]. cbn [fmap list_fmap big_opL]. rewrite arr_cons.
      rewrite Z.pred_succ -Z.add_1_r.
      rewrite (Hc a); [|lia]. rewrite Z.sub_diag loc_add_0.
      rewrite (IH (a + 1) (p +ₗ 1)); [done| |lia|lia].
      intros i Hi. rewrite (Hc i); [|lia]. rewrite loc_add_assoc. f_equal. lia.
  Qed.

  Lemma segs_blocks a segs f :
    blocks a segs ∗ win (saddr segs) 0 (slots segs) f ⊣⊢
    ⟦Forall (fun q : loc => q.2 = 0) segs⟧ ∗
    [∗ list] b ∈ imap (fun k (q : loc) => Blk q.1 a ((fun r => cell_of (f (Z.of_nat k * SS + r))) <$> seqZ 0 SS)) segs,
      blkP b.
  Proof.
    revert f. induction segs as [|q segs IH]; intros f.
    - cbn [imap big_opL]. unfold blocks, slots. cbn [big_opL length]. rewrite win_nil; [|simpl; lia].
      apply bi.equiv_entails; split; [|iIntros "[_ $]"; done]. iIntros "_". done.
    - pose proof SS_pos as Hss. assert (slots [q] = SS) as HS by (unfold slots; simpl; lia).
      change (q :: segs) with ([q] ++ segs) at 2 3. rewrite win_app_segs HS. unfold blocks. cbn [big_opL imap].
      set (f' := fun i => f (SS + i)).
      assert (imap ((fun k (q0 : loc) => Blk q0.1 a ((fun r => cell_of (f (Z.of_nat k * SS + r))) <$> seqZ 0 SS)) ∘ S) segs =
              imap (fun k (q0 : loc) => Blk q0.1 a ((fun r => cell_of (f' (Z.of_nat k * SS + r))) <$> seqZ 0 SS)) segs) as ->.
      { apply imap_ext. intros k q0 _. unfold compose. f_equal. apply list_fmap_ext. intros ? r _. unfold f'.
        do 2 f_equal. lia. }
      set (cs := (fun r => cell_of (f (Z.of_nat 0 * SS + r))) <$> seqZ 0 SS).
      assert (zlen cs = SS) as Hcs by (unfold cs; rewrite fmap_length seqZ_length; lia).
      assert (win (saddr [q]) 0 SS f ⊣⊢ q ↦∗ cs) as Hw.
      { rewrite (win_arr _ 0 SS q).
        - unfold cs. rewrite Z.sub_0_r. done.
        - intros i Hi. rewrite (saddr_at _ i 0 i); [|lia..]. simpl. f_equal. lia.
        - lia. }
      rewrite Hw. pose proof (blkP_ablock a q cs) as Hb. rewrite Hcs in Hb.
      specialize (Hb ltac:(intros ->; simpl in Hcs; lia)).
      specialize (IH f'). unfold blocks in IH.
      apply bi.equiv_entails in Hb as [Hb Hb2]. apply bi.equiv_entails in IH as [IH IH2].
      apply bi.equiv_entails; split.
      + iIntros "[[Ha Hs] [Hq Hw]]". iDestruct (Hb with "[$Ha $Hq]") as "[%H0 $]".
        iDestruct (IH with "[$Hs $Hw]") as "[%H1 $]". iPureIntro. by constructor.
      + iIntros "[%H0 [Hq Hs]]". apply Forall_cons in H0 as [H0 H1].
        iDestruct (Hb2 with "[$Hq //]") as "[$ $]". by iDestruct (IH2 with "[$Hs //]") as "[$ $]".
  Qed.

  Lemma slot_at a segs p l i : cell_of (at_pos p l i) = slot (SAbs a segs p l) i.
  Proof.
    unfold slot, at_pos, within. cbn [s_front s_elems]. case_decide as Hi.
    - destruct (decide (i < p + zlen l)).
      + replace ((p <=? i) && (i <? p + zlen l)) with true by lia. done.
      + replace ((p <=? i) && (i <? p + zlen l)) with false by lia.
        by rewrite lookup_ge_None_2; [|lia].
    - by replace ((p <=? i) && (i <? p + zlen l)) with false by lia.
  Qed.
  Lemma sg_at_blocks T segs p l :
    sg_at T segs p l ⊣⊢ ∃ (cs1 cs2 : list cell),
      ⟦0 <= p /\ (p + zlen l < slots segs)%Z /\ zlen cs1 = t_pre T /\ (t_cap T = zlen cs1 + zlen segs + zlen cs2)%Z /\
       Forall dead (cs1 ++ cs2) /\ (t_base T).2 = 0 /\ Forall (fun q : loc => q.2 = 0) segs⟧ ∗
      [∗ list] b ∈ seg_blocks (SAbs (t_al T) segs p l) (t_base T).1 cs1 cs2, blkP b.
  Proof.
    pose proof (fun a cs (q : loc) H => proj1 (proj1 (bi.equiv_entails _ _) (blkP_ablock a q cs H))) as blkP_1.
    pose proof (fun a cs (q : loc) H => proj2 (proj1 (bi.equiv_entails _ _) (blkP_ablock a q cs H))) as blkP_2.
    pose proof (fun a f => proj1 (proj1 (bi.equiv_entails _ _) (segs_blocks a segs f))) as segs_1.
    pose proof (fun a f => proj2 (proj1 (bi.equiv_entails _ _) (segs_blocks a segs f))) as segs_2.
    assert (forall _ _ : list cell, (imap (fun k (q : loc) => Blk q.1 (t_al T) ((fun r => cell_of (at_pos p l (Z.of_nat k * SS + r))) <$> seqZ 0 SS)) segs)
      = imap (fun k (q : loc) => Blk q.1 (s_alloc (SAbs (t_al T) segs p l)) (seg_cells (SAbs (t_al T) segs p l) k)) segs) as Himap.
    { intros _ _. apply imap_ext. intros k q _. f_equal. apply list_fmap_ext. intros ? r _. apply slot_at. }
    specialize (Himap [] []).
    apply bi.equiv_entails; split.
    - iIntros "[%Hb Hs]". unfold store, SegGrow.frame, swin, junk. destruct Hb as [Hp Hb].
      iDestruct "Hs" as "[(%H & Ha & Hj1 & Hj2 & Hbl) [Ht Hw]]". destruct H as (H1 & H2 & H3).
      iDestruct "Hj1" as (cs1) "[%Hc1 Hj1]". destruct Hc1 as [Hl1 Hd1].
      iDestruct "Hj2" as (cs2) "[%Hc2 Hj2]". destruct Hc2 as [Hl2 Hd2].
      iDestruct (segs_1 with "[$Hbl $Hw]") as "[%Hz Hbs]". rewrite Himap.
      iAssert ((t_base T) ↦∗ (cs1 ++ (Ptr <$> segs) ++ cs2))%I with "[Hj1 Ht Hj2]" as "Ht".
      { rewrite !arr_app fmap_length Hl1 loc_add_assoc. iFrame "Hj1 Hj2". iExact "Ht". }
      assert (t_cap T = zlen (cs1 ++ (Ptr <$> segs) ++ cs2)) as Hcap by (rewrite !app_length fmap_length; lia).
      rewrite Hcap. iDestruct (blkP_1 with "[$Ha $Ht]") as "[%H0 Hb]".
      { intros Hn%(f_equal length). rewrite !app_length fmap_length /= in Hn. lia. }
      iExists cs1, cs2. unfold seg_blocks. cbn [big_opL s_alloc s_segs]. iFrame "Hb Hbs". iPureIntro.
      split_and!; try done; [rewrite ?app_length ?fmap_length; lia..|by apply Forall_app].
    - iIntros "H". iDestruct "H" as (cs1 cs2) "[%H Hbs]". destruct H as (Hp & Hb & Hl1 & Hcap & Hd & H0 & Hz).
      apply Forall_app in Hd as [Hd1 Hd2].
      unfold seg_blocks. cbn [big_opL s_alloc s_segs]. iDestruct "Hbs" as "[Hb Hbs]".
      rewrite -Himap. iDestruct (segs_2 with "[$Hbs //]") as "[Hbl Hw]".
      assert (0 < zlen segs) as Hpos by (apply slots_pos; lia).
      iDestruct (blkP_2 (t_al T) (cs1 ++ (Ptr <$> segs) ++ cs2) (t_base T) with "[$Hb //]") as "[Ha Ht]".
      { intros Hn%(f_equal length). rewrite !app_length fmap_length /= in Hn. lia. }
      rewrite !arr_app !app_length fmap_length Hl1 loc_add_assoc.
      replace (Z.of_nat (length cs1 + (length segs + length cs2))) with (t_cap T) by lia.
      iDestruct "Ht" as "(Hj1 & Ht & Hj2)". unfold sg_at, store, SegGrow.frame, swin, junk.
      iFrame "Ha Hbl Hw". iSplit; [done|]. iSplitR "Ht"; [|iExact "Ht"]. iSplit; [iPureIntro; lia|].
      iSplitL "Hj1"; [iExists cs1; by iFrame|]. iExists cs2. iFrame. iPureIntro. split; [lia|done].
  Qed.

  Lemma ex_holds {A} (Φ : A -> hProp) h : (∃ a, Φ a)%I h <-> exists a, Φ a h.
  Proof. done. Qed.
  Lemma dead_no_object c : dead c <-> no_object c.
  Proof. unfold no_object. destruct c; simpl; naive_solver. Qed.

  Definition seg_I (dev : bool) (T : tab) (p : Z) : Prop := dev = false -> t_pre T = 0 /\ p = 0.
  Lemma is_seg_iff dev x A h : is_seg dev x A h <-> sinv (seg_I dev) x A h.
  Proof.
    destruct A as [a segs p l]. unfold is_seg, sinv. rewrite ex_holds. cbn [s_alloc s_segs s_front s_elems].
    assert (forall c, dead c <-> no_object c) as Hdead by apply dead_no_object.
    split.
    - intros (tb & cs1 & cs2 & [H1 H2 H3 H4 H5 H6 H7 H8 H9 H10 H11 H12 H13 H14] & Hv).
      cbn [s_alloc s_segs s_front s_elems] in *. unfold s_size, s_cap in *. cbn [s_alloc s_segs s_front s_elems] in *.
      exists (Tab a (tb, 0) (zlen cs1) (zlen cs1 + zlen segs + zlen cs2)).
      apply pure_sep_holds. split.
      + split_and!; [|done|].
        * destruct x; simpl in *. subst. unfold sobj, t_at, loc_add. cbn [t_al t_base t_pre t_cap fst snd].
          rewrite Z.add_0_l. f_equal; f_equal; lia.
        * intros Hdev. destruct (Hv Hdev) as [-> ->]. done.
      + apply (equiv_holds _ _ h (sg_at_blocks _ segs p l)). exists cs1. exists cs2. apply pure_sep_holds. cbn [t_al t_base t_pre t_cap fst snd].
        split; [split_and!; try done|by apply blks_heap].
        * unfold slots. lia.
        * eapply Forall_impl; [exact H12|]. intros c Hc. by apply Hdead.
    - intros (T & HT). apply pure_sep_holds in HT as [(-> & <- & HI) Hs].
      apply (equiv_holds _ _ h (sg_at_blocks _ segs p l)) in Hs as (cs1 & cs2 & Hs).
      apply pure_sep_holds in Hs as [(Hp & Hb & Hl1 & Hcap & Hd & H0 & Hz) Hs]. apply blks_heap in Hs.
      destruct T as [al [tb to] pre cap]. cbn [t_al t_base t_pre t_cap fst snd] in *. subst to pre.
      exists tb, cs1, cs2. split.
      + split; unfold s_size, s_cap; cbn [s_alloc s_segs s_front s_elems]; try done.
        * simpl. unfold loc_add. simpl. f_equal. lia.
        * simpl. unfold t_at, loc_add. simpl. f_equal. lia.
        * unfold slots in Hb. lia.
        * eapply Forall_impl; [exact Hd|]. intros c Hc. by apply Hdead.
      + intros Hdev. destruct (HI Hdev) as [Hpre ->]. cbn [t_pre] in Hpre. destruct cs1; [done|simpl in Hpre; lia].
  Qed.
  Definition segvec_iff (ra : bool) : forall x A h, is_seg false x A h <-> inv (segvec_ok ra) x A h.
  Proof.
    intros x A h. rewrite is_seg_iff. simpl. unfold sinv. rewrite !ex_holds.
    split; intros (T & HT); exists T; apply pure_sep_holds in HT as [(H1 & H2 & HI) Hs]; apply pure_sep_holds;
      (split; [split_and!; [done|done|]|done]); [by apply HI|by intros _].
  Qed.
End seg_state.
