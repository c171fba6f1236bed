(** * The storage of a segmented container, and the functions that change it *)

From Verif Require Export SegStore.
From Coq Require Import ZifyBool.
From iris.proofmode Require Import tactics.
Open Scope Z_scope.

(** Where the table is: its allocator, the table block, the number of entries
    before [table_first_], the capacity. *)
Record tab := Tab { t_al : nat; t_base : loc; t_pre : Z; t_cap : Z }.

Section store.
  Context `{E : Env} `{SZ : SegSize}.
  Implicit Types segs : list loc.
  Implicit Types T : tab.

  Definition t_at T : loc := t_base T +ₗ t_pre T.
  Definition frame T segs : hProp :=
    (⟦0 <= t_pre T /\ 0 < zlen segs /\ t_pre T + zlen segs <= t_cap T⟧ ∗
     ablock (t_al T) (t_base T) (t_cap T) ∗
     junk (t_base T) (t_pre T) ∗
     junk (t_base T +ₗ (t_pre T + zlen segs)) (t_cap T - (t_pre T + zlen segs)) ∗
     blocks (t_al T) segs)%I.
  Definition store T segs (f : Z -> option V) : hProp := (frame T segs ∗ swin (t_at T) segs f)%I.
  (** The elements [l] from position [p]. *)
  Definition sg_at T segs (p : Z) (l : list V) : hProp :=
    (⟦0 <= p /\ p + zlen l < slots segs⟧ ∗ store T segs (at_pos p l))%I.
  (** The data members of the object. *)
  Definition sobj T segs (p m : Z) : sgdata :=
    Sg (t_al T) (t_base T) (t_base T +ₗ t_cap T) (t_at T) (t_at T +ₗ zlen segs)
       (sitr (t_at T) segs 0) (sitr (t_at T) segs (slots segs - 1))
       (sitr (t_at T) segs p) (sitr (t_at T) segs (p + m)).

  Lemma at_pos_shift p l k i : at_pos (k + p) l (k + i) = at_pos p l i.
  Proof.
    unfold at_pos. replace (within (k + p) (k + p + zlen l) (k + i)) with (within p (p + zlen l) i)
      by (unfold within; lia). by replace (k + i - (k + p)) with (i - p) by lia.
  Qed.
  Lemma live_out p l i : ~ (p <= i < p + zlen l) -> live (at_pos p l) i = false.
  Proof. intros Hi. rewrite live_at_pos. unfold within. lia. Qed.

  Lemma sitr_0 t segs : sitr t segs 0 = It t (saddr segs 0).
  Proof. unfold sitr. rewrite Z.div_0_l ?loc_add_0 //. pose proof SS_pos. lia. Qed.
  Lemma sitr_end t segs :
    0 < zlen segs -> sitr t segs (slots segs - 1) = It (t +ₗ (zlen segs - 1)) ((segs !!! Z.to_nat (zlen segs - 1)) +ₗ (SS - 1)).
  Proof. intros Hs. pose proof SS_pos. apply sitr_at; unfold slots; lia. Qed.
  Lemma saddr_0 segs : saddr segs 0 = segs !!! 0%nat.
  Proof. pose proof SS_pos. rewrite (saddr_at _ 0 0 0) ?loc_add_0 //; lia. Qed.

  Lemma junk_split p n a : 0 <= a <= n -> junk p n ⊣⊢ junk p a ∗ junk (p +ₗ a) (n - a).
  Proof. intros Ha. rewrite -junk_app; [|lia..]. by replace (a + (n - a)) with n by lia. Qed.

  Lemma wp_sq_capacity T segs p m f Q X :
    0 < zlen segs ->
    swin (t_at T) segs f ⊢ (swin (t_at T) segs f -∗ Q (slots segs - 1) (sobj T segs p m)) -∗
    wp sq_capacity (sobj T segs p m) Q X.
  Proof.
    iIntros (Hs) "[Ht Hw] HQ". unfold sq_capacity. wbind. iApply wp_get. wbeta. simpl.
    pose proof SS_pos. iApply (wp_it_diff with "Ht"); [unfold slots; nia..|]. iIntros "Ht".
    rewrite Z.sub_0_r. iApply "HQ". iFrame.
  Qed.
  Lemma wp_sq_size T segs p m f Q X :
    0 <= p -> 0 <= m -> p + m < slots segs ->
    swin (t_at T) segs f ⊢ (swin (t_at T) segs f -∗ Q m (sobj T segs p m)) -∗
    wp sq_size (sobj T segs p m) Q X.
  Proof.
    iIntros (Hp Hm Hs) "[Ht Hw] HQ". unfold sq_size. wbind. iApply wp_get. wbeta. simpl.
    iApply (wp_it_diff with "Ht"); [lia..|]. iIntros "Ht".
    replace (p + m - p) with m by lia. iApply "HQ". iFrame.
  Qed.
  Lemma wp_sq_front_room T segs p m f Q X :
    0 <= p -> 0 <= m -> p + m < slots segs ->
    swin (t_at T) segs f ⊢ (swin (t_at T) segs f -∗ Q p (sobj T segs p m)) -∗
    wp sq_front_room (sobj T segs p m) Q X.
  Proof.
    iIntros (Hp Hm Hs) "[Ht Hw] HQ". unfold sq_front_room. wbind. iApply wp_get. wbeta. simpl.
    iApply (wp_it_diff with "Ht"); [lia..|]. iIntros "Ht". rewrite Z.sub_0_r. iApply "HQ". iFrame.
  Qed.
  Lemma wp_sq_back_room T segs p m f Q X :
    0 <= p -> 0 <= m -> p + m < slots segs ->
    swin (t_at T) segs f ⊢ (swin (t_at T) segs f -∗ Q (slots segs - 1 - (p + m)) (sobj T segs p m)) -∗
    wp sq_back_room (sobj T segs p m) Q X.
  Proof.
    iIntros (Hp Hm Hs) "[Ht Hw] HQ". unfold sq_back_room. wbind. iApply wp_get. wbeta. simpl.
    iApply (wp_it_diff with "Ht"); [lia..|]. iIntros "Ht". iApply "HQ". iFrame.
  Qed.

  (** The object after the table has been replaced. *)
  Lemma sobj_new_table T T' segs p m :
    0 < zlen segs -> t_al T' = t_al T ->
    sg_set_iters (it_set_seg (t_at T') (sitr (t_at T) segs 0))
        (it_set_seg (t_at T' +ₗ zlen segs +ₗ -1) (sitr (t_at T) segs (slots segs - 1)))
        (it_set_seg (t_at T' +ₗ (p / SS)) (sitr (t_at T) segs p))
        (it_set_seg (t_at T' +ₗ ((p + m) / SS)) (sitr (t_at T) segs (p + m)))
      (sg_set_table (t_base T') (t_base T' +ₗ t_cap T') (t_at T') (t_at T' +ₗ zlen segs) (sobj T segs p m)) =
    sobj T' segs p m.
  Proof.
    intros Hs Ha. unfold sobj, sg_set_iters, sg_set_table, it_set_seg; simpl. rewrite Ha.
    pose proof SS_pos. unfold sitr, t_at; simpl. rewrite (pos_div (slots segs - 1) (zlen segs - 1) (SS - 1)); [|unfold slots; lia..].
    rewrite Z.div_0_l; [|lia]. rewrite !loc_add_assoc Z.add_0_r.
    by replace (t_pre T' + zlen segs + -1) with (t_pre T' + (zlen segs - 1)) by lia.
  Qed.
  Lemma seg_dist t p : t +ₗ (p / SS) = t +ₗ (0 / SS) +ₗ (p / SS).
  Proof. pose proof SS_pos. rewrite Z.div_0_l ?loc_add_0 //. lia. Qed.

  (** ** Growing at the back *)
  Lemma wp_table_back T segs p m f required Q X :
    0 <= required ->
    store T segs f ⊢
    ((∀ T', ⟦t_al T' = t_al T /\ t_pre T' = t_pre T /\ required <= t_cap T' - (t_pre T' + zlen segs)⟧ -∗
        store T' segs f -∗ Q tt (sobj T' segs p m)) ∧
     (store T segs f -∗ X EBadAlloc (sobj T segs p m))) -∗
    wp (sq_table_back required) (sobj T segs p m) Q X.
  Proof.
    iIntros (Hr) "[(%Hg & Hb & Hj1 & Hj2 & Hbs) [Ht Hw]] HQ". destruct Hg as (Hp0 & Hs & Hc).
    unfold sq_table_back. wbind. iApply wp_get. wbeta. simpl.
    wbind. iApply (wp_psub _ _ (t_cap T - (t_pre T + zlen segs))).
    { unfold t_at. rewrite !loc_add_assoc. f_equal. lia. } wbeta.
    destruct (Z.ltb_spec (t_cap T - (t_pre T + zlen segs)) required) as [Hlt|Hge].
    2:{ iApply wp_ret. iDestruct "HQ" as "[HQ _]". iApply ("HQ" $! T with "[%]"); [done|]. iFrame. done. }
    wbind. iApply (wp_psub _ _ (t_cap T)); [done|]. wbeta.
    wbind. iApply wp_psub; [apply seg_dist|]. wbeta.
    wbind. iApply wp_psub; [apply seg_dist|]. wbeta.
    assert (exists nc, Z.max (t_cap T + t_cap T / 2) (t_cap T - (t_cap T - (t_pre T + zlen segs)) + required) = nc /\
      t_pre T + zlen segs + required <= nc) as (nc & -> & Hnc) by (eexists; split; [done|lia]).
    wbind. iApply wp_allocate; [lia|]. iSplit.
    2:{ iDestruct "HQ" as "[_ HQ]". iApply "HQ". iFrame. done. }
    iIntros (q) "Hnb Hnr". wbeta. iDestruct (junk_raws with "Hnr") as "Hnj"; [lia|].
    wbind. iApply (wp_psub _ _ (t_pre T)); [done|]. wbeta.
    replace nc with (t_pre T + (zlen segs + (nc - (t_pre T + zlen segs)))) at 2 by lia.
    rewrite junk_app; [|lia..]. rewrite (junk_app _ (zlen segs)); [|lia..].
    iDestruct "Hnj" as "(Hn1 & Hn2 & Hn3)".
    wbind. iApply (wp_copy_table with "Ht Hn2"); [done|]. iIntros "Ht Hnt". wbeta.
    wbind. iApply (wp_dealloc_junk with "Hb [Hj1 Ht Hj2]").
    { replace (t_cap T) with (t_pre T + (zlen segs + (t_cap T - (t_pre T + zlen segs)))) at 2 by lia.
      rewrite junk_app; [|lia..]. rewrite (junk_app _ (zlen segs)); [|lia..]. iFrame "Hj1".
      rewrite loc_add_assoc. iFrame "Hj2". by iApply junk_table. }
    wbeta. unfold sq_new_table. wbind. iApply wp_get. wbeta. wbind. iApply wp_modify. wbeta.
    iApply wp_modify. simpl.
    set (T' := Tab (t_al T) q (t_pre T) nc).
    pose proof (sobj_new_table T T' segs p m Hs eq_refl) as Ho. unfold t_at in Ho at 2 3 4 5 9 10. simpl in Ho.
    rewrite Ho.
    iDestruct "HQ" as "[HQ _]". iApply ("HQ" $! T' with "[%]"); [simpl; split_and!; [done|done|lia]|].
    iSplitR "Hnt Hw"; [|by iFrame]. iSplit; [iPureIntro; simpl; lia|]. simpl. iFrame.
    by rewrite loc_add_assoc.
  Qed.

  Lemma wp_segs_back T segs p m f required Q X :
    0 < required -> required <= t_cap T - (t_pre T + zlen segs) ->
    0 <= p -> 0 <= m -> p + m < slots segs ->
    (forall i, slots segs <= i -> live f i = false) ->
    store T segs f ⊢
    ((∀ new, ⟦zlen new = required⟧ -∗ store T (segs ++ new) f -∗ Q tt (sobj T (segs ++ new) p m)) ∧
     (store T segs f -∗ X EBadAlloc (sobj T segs p m))) -∗
    wp (sq_segs_back required) (sobj T segs p m) Q X.
  Proof.
    iIntros (Hr Hroom Hp Hm Hpm Hf) "[(%Hg & Hb & Hj1 & Hj2 & Hbs) [Ht Hw]] HQ". destruct Hg as (Hp0 & Hs & Hc).
    unfold sq_segs_back. wbind. iApply wp_get. wbeta. simpl.
    replace (t_cap T - (t_pre T + zlen segs)) with (required + (t_cap T - (t_pre T + zlen segs + required))) by lia.
    rewrite junk_app; [|lia..]. iDestruct "Hj2" as "[Hj2 Hj3]".
    replace (t_base T +ₗ (t_pre T + zlen segs)) with (t_at T +ₗ zlen segs) by (unfold t_at; by rewrite loc_add_assoc).
    wbind. iApply (wp_allocate_segments with "Hj2"); [lia|done|]. iSplit.
    2:{ iIntros "Hj2". iDestruct "HQ" as "[_ HQ]". iApply "HQ". iSplitR "Ht Hw"; [|by iFrame].
        iSplit; [done|]. iFrame "Hb Hj1 Hbs".
        replace (t_cap T - (t_pre T + zlen segs)) with (required + (t_cap T - (t_pre T + zlen segs + required))) by lia.
        rewrite junk_app; [|lia..].
        replace (t_base T +ₗ (t_pre T + zlen segs)) with (t_at T +ₗ zlen segs) by (unfold t_at; by rewrite loc_add_assoc).
        iFrame. }
    iIntros (new) "%Hnew Hnt Hnb Hnr". wbeta. simpl.
    iAssert (table (t_at T) (segs ++ new)) with "[Ht Hnt]" as "Ht".
    { rewrite table_app. iFrame. }
    wbind. iApply (wp_read_tbl _ _ (zlen segs + zlen new - 1) with "Ht").
    { rewrite !loc_add_assoc. f_equal. lia. }
    { rewrite app_length. lia. }
    iIntros "Ht". wbeta. wbind. iApply wp_modify. wbeta. iApply wp_modify.
    iDestruct "HQ" as "[HQ _]".
    match goal with |- context [Q tt ?o] => assert (o = sobj T (segs ++ new) p m) as -> end.
    { unfold sobj, sg_set_iters, sg_set_table; simpl. rewrite !app_length Nat2Z.inj_add.
      rewrite (sitr_app_l _ _ _ 0); [|lia]. rewrite (sitr_app_l _ _ _ p); [|lia].
      rewrite (sitr_app_l _ _ _ (p + m)); [|lia]. f_equal.
      - rewrite loc_add_assoc. f_equal. lia.
      - rewrite sitr_end; [|rewrite app_length; lia]. rewrite app_length Nat2Z.inj_add !loc_add_assoc. f_equal. f_equal. lia. }
    iApply ("HQ" $! new with "[//]"). iSplitR "Ht Hw Hnr".
    - iSplit; [iPureIntro; rewrite app_length; lia|]. iFrame "Hb Hj1". rewrite blocks_app. iFrame "Hbs Hnb".
      rewrite app_length Nat2Z.inj_add Hnew. unfold t_at. rewrite !loc_add_assoc.
      replace (t_pre T + (zlen segs + required)) with (t_pre T + zlen segs + required) by lia. done.
    - iFrame "Ht". rewrite win_app_segs. iFrame "Hw".
      iApply win_rawsegs; [|done]. intros i Hi. unfold live. by apply Hf; lia.
  Qed.

  (** What may be thrown when storage for [add] more elements is asked for. *)
  Definition grow_exn (e : exn) segs (add : Z) : Prop :=
    (e = ELength /\ max_size < slots segs - 1 + add) \/ e = EBadAlloc.

  Lemma wrap_room cap add :
    0 <= cap -> 0 <= add -> wrap (max_size - cap) < add -> max_size < cap + add.
  Proof.
    intros Hc Ha Hw. destruct (decide (max_size < cap)) as [|Hge]; [lia|].
    pose proof max_size_ok. unfold wrap in Hw. rewrite Z.mod_small in Hw; lia.
  Qed.
  Lemma wrap_fits cap add : 0 <= cap -> cap <= max_size -> add <= wrap (max_size - cap) -> cap + add <= max_size.
  Proof.
    intros Hc Hm Hw. pose proof max_size_ok. unfold wrap in Hw. rewrite Z.mod_small in Hw; lia.
  Qed.

  Lemma wp_grow_back T segs p l add Q X :
    0 <= add ->
    sg_at T segs p l ⊢
    ((∀ T' new, ⟦t_al T' = t_al T /\ t_pre T' = t_pre T /\ zlen new = (add / SS + 1)%Z /\
          (slots segs - 1 <= max_size -> slots segs - 1 + add <= max_size)⟧ -∗
        sg_at T' (segs ++ new) p l -∗ Q tt (sobj T' (segs ++ new) p (zlen l))) ∧
     (∀ e T', ⟦t_al T' = t_al T /\ t_pre T' = t_pre T /\ grow_exn e segs add⟧ -∗
        sg_at T' segs p l -∗ X e (sobj T' segs p (zlen l)))) -∗
    wp (sq_grow_back add) (sobj T segs p (zlen l)) Q X.
  Proof.
    iIntros (Hadd) "[%Hp [Hfr Hsw]] HQ". pose proof SS_pos as HSS. destruct Hp as [Hp Hpl].
    iAssert (⟦0 < zlen segs⟧ ∗ frame T segs)%I with "[Hfr]" as "[%Hs Hfr]".
    { iDestruct "Hfr" as "[%Hg Hfr]". iFrame. iSplit; [iPureIntro; lia|done]. }
    unfold sq_grow_back. wbind. iApply (wp_sq_capacity with "Hsw"); [done|]. iIntros "Hsw". wbeta.
    iCombine "Hfr Hsw" as "Hst".
    destruct (Z.ltb_spec (wrap (max_size - (slots segs - 1))) add) as [Hlt|Hge].
    { iApply wp_throw; [by left|]. iDestruct "HQ" as "[_ HQ]". iApply ("HQ" $! ELength T with "[%]").
      - split_and!; [done|done|]. left. split; [done|]. apply wrap_room; [lia|lia|done].
      - by iFrame. }
    assert (0 <= add / SS) by (apply Z.div_pos; lia).
    wbind. iApply (wp_table_back with "Hst"); [lia|]. iSplit.
    2:{ iIntros "Hst". iDestruct "HQ" as "[_ HQ]". iApply ("HQ" $! EBadAlloc T with "[%]").
        - split_and!; [done|done|]. by right.
        - by iFrame. }
    iIntros (T') "%HT Hst". destruct HT as (Ha & Hpr & Hroom). wbeta.
    iApply (wp_segs_back with "Hst"); [lia|lia|lia|lia|lia| |].
    { intros i Hi. apply live_out. lia. }
    iSplit.
    - iIntros (new) "%Hnew Hst". iDestruct "HQ" as "[HQ _]". iApply ("HQ" $! T' new with "[%] [Hst]").
      + split_and!; [done|done|done|]. intros Hm. apply wrap_fits; [lia|lia|done].
      + iFrame. iPureIntro. rewrite slots_app. pose proof (slots_nonneg new). lia.
    - iIntros "Hst". iDestruct "HQ" as "[_ HQ]". iApply ("HQ" $! EBadAlloc T' with "[%] [Hst]").
      + split_and!; [done|done|]. by right.
      + by iFrame.
  Qed.

  (** ** Growing at the front *)
  Lemma wp_table_front T segs p m f required Q X :
    0 <= required ->
    store T segs f ⊢
    ((∀ T', ⟦t_al T' = t_al T /\ required <= t_pre T'⟧ -∗ store T' segs f -∗ Q tt (sobj T' segs p m)) ∧
     (store T segs f -∗ X EBadAlloc (sobj T segs p m))) -∗
    wp (sd_table_front required) (sobj T segs p m) Q X.
  Proof.
    iIntros (Hr) "[(%Hg & Hb & Hj1 & Hj2 & Hbs) [Ht Hw]] HQ". destruct Hg as (Hp0 & Hs & Hc).
    unfold sd_table_front. wbind. iApply wp_get. wbeta. simpl.
    wbind. iApply (wp_psub _ _ (t_pre T)); [done|]. wbeta.
    destruct (Z.ltb_spec (t_pre T) required) as [Hlt|Hge].
    2:{ iApply wp_ret. iDestruct "HQ" as "[HQ _]". iApply ("HQ" $! T with "[%]"); [done|]. iFrame. done. }
    wbind. iApply (wp_psub _ _ (t_cap T)); [done|]. wbeta.
    wbind. iApply wp_psub; [apply seg_dist|]. wbeta.
    wbind. iApply wp_psub; [apply seg_dist|]. wbeta.
    assert (exists nc, Z.max (t_cap T + t_cap T / 2) (t_cap T - t_pre T + required) = nc /\
      t_cap T - t_pre T + required <= nc) as (nc & -> & Hnc) by (eexists; split; [done|lia]).
    wbind. iApply wp_allocate; [lia|]. iSplit.
    2:{ iDestruct "HQ" as "[_ HQ]". iApply "HQ". iFrame. done. }
    iIntros (q) "Hnb Hnr". wbeta. iDestruct (junk_raws with "Hnr") as "Hnj"; [lia|].
    wbind. iApply (wp_psub _ _ (t_cap T - (t_pre T + zlen segs))).
    { unfold t_at. rewrite !loc_add_assoc. f_equal. lia. } wbeta.
    assert (exists np, np = nc - t_cap T + t_pre T /\ required <= np) as (np & Hnp & Hnp2)
      by (eexists; split; [done|lia]).
    replace nc with (np + (zlen segs + (nc - (np + zlen segs)))) at 2 by lia.
    rewrite junk_app; [|lia..]. rewrite (junk_app _ (zlen segs)); [|lia..].
    iDestruct "Hnj" as "(Hn1 & Hn2 & Hn3)".
    replace (q +ₗ nc +ₗ - (t_cap T - (t_pre T + zlen segs))) with (q +ₗ np +ₗ zlen segs)
      by (rewrite !loc_add_assoc; f_equal; lia).
    wbind. iApply (wp_copy_table_backward with "Ht Hn2"); [done|done|]. iIntros "Ht Hnt". wbeta.
    wbind. iApply (wp_dealloc_junk with "Hb [Hj1 Ht Hj2]").
    { replace (t_cap T) with (t_pre T + (zlen segs + (t_cap T - (t_pre T + zlen segs)))) at 2 by lia.
      rewrite junk_app; [|lia..]. rewrite (junk_app _ (zlen segs)); [|lia..]. iFrame "Hj1".
      rewrite loc_add_assoc. iFrame "Hj2". by iApply junk_table. }
    wbeta. unfold sq_new_table. wbind. iApply wp_get. wbeta. wbind. iApply wp_modify. wbeta.
    iApply wp_modify. simpl.
    set (T' := Tab (t_al T) q np nc).
    pose proof (sobj_new_table T T' segs p m Hs eq_refl) as Ho. unfold t_at in Ho at 2 3 4 5 9 10. simpl in Ho.
    rewrite Ho.
    iDestruct "HQ" as "[HQ _]". iApply ("HQ" $! T' with "[%]"); [simpl; split_and!; [done|lia]|].
    iSplitR "Hnt Hw"; [|by iFrame]. iSplit; [iPureIntro; simpl; lia|]. simpl. iFrame.
    by rewrite loc_add_assoc.
  Qed.

  Lemma wp_segs_front T segs p l required Q X :
    0 < required -> required <= t_pre T ->
    sg_at T segs p l ⊢
    ((∀ T' new, ⟦t_al T' = t_al T /\ zlen new = required⟧ -∗ sg_at T' (new ++ segs) (slots new + p) l -∗
        Q tt (sobj T' (new ++ segs) (slots new + p) (zlen l))) ∧
     (sg_at T segs p l -∗ X EBadAlloc (sobj T segs p (zlen l)))) -∗
    wp (sd_segs_front required) (sobj T segs p (zlen l)) Q X.
  Proof.
    iIntros (Hr Hroom) "[%Hp [(%Hg & Hb & Hj1 & Hj2 & Hbs) [Ht Hw]]] HQ". destruct Hg as (Hp0 & Hs & Hc).
    destruct Hp as [Hp Hpl].
    unfold sd_segs_front. wbind. iApply wp_get. wbeta. simpl.
    assert (junk (t_base T) (t_pre T) ⊣⊢ junk (t_base T) (t_pre T - required) ∗
      junk (t_base T +ₗ (t_pre T - required)) required) as Hjs.
    { rewrite (junk_split _ _ (t_pre T - required)); [|lia]. by replace (t_pre T - (t_pre T - required)) with required by lia. }
    rewrite {1}Hjs. iDestruct "Hj1" as "[Hj0 Hj1]".
    replace (t_at T +ₗ - required) with (t_base T +ₗ (t_pre T - required)) by (unfold t_at; rewrite loc_add_assoc; f_equal; lia).
    wbind. iApply (wp_allocate_segments with "Hj1"); [lia|unfold t_at; rewrite loc_add_assoc; f_equal; lia|]. iSplit.
    2:{ iIntros "Hj1". iDestruct "HQ" as "[_ HQ]". iApply "HQ". iSplit; [done|]. iSplitR "Ht Hw"; [|by iFrame].
        iSplit; [done|]. iFrame "Hb Hj2 Hbs".
        rewrite Hjs. iFrame. }
    iIntros (new) "%Hnew Hnt Hnb Hnr". wbeta. simpl.
    set (T' := Tab (t_al T) (t_base T) (t_pre T - required) (t_cap T)).
    assert (t_at T = t_at T' +ₗ zlen new) as HT.
    { unfold t_at, T'; simpl. rewrite loc_add_assoc. f_equal. lia. }
    iAssert (table (t_at T') (new ++ segs)) with "[Ht Hnt]" as "Ht".
    { rewrite table_app -HT. iFrame. }
    wbind. iApply (wp_read_tbl _ _ 0 with "Ht").
    { rewrite loc_add_0. done. }
    { rewrite app_length. lia. }
    iIntros "Ht". wbeta. wbind. iApply wp_modify. wbeta. iApply wp_modify.
    iDestruct "HQ" as "[HQ _]". pose proof (slots_nonneg new) as Hsn. pose proof (slots_nonneg segs) as Hss.
    match goal with |- context [Q tt ?o] => assert (o = sobj T' (new ++ segs) (slots new + p) (zlen l)) as -> end.
    { unfold sobj, sg_set_iters, sg_set_table; simpl. rewrite slots_app.
      rewrite -(Z.add_assoc (slots new) p). rewrite -(Z.add_sub_assoc (slots new)).
      rewrite (sitr_app_r _ _ _ p); [|lia].
      rewrite (sitr_app_r _ _ _ (slots segs - 1)); [|pose proof SS_pos; unfold slots; nia].
      rewrite (sitr_app_r _ _ _ (p + zlen l)); [|lia]. rewrite -HT. f_equal.
      - rewrite app_length Nat2Z.inj_add HT loc_add_assoc. done.
      - rewrite sitr_0 saddr_0. done. }
    iApply ("HQ" $! T' new with "[//]").
    iSplit; [iPureIntro; rewrite slots_app; lia|]. iSplitR "Ht Hw Hnr".
    - iSplit; [iPureIntro; rewrite app_length; simpl; lia|]. iFrame "Hb Hj0". rewrite blocks_app. iFrame "Hbs Hnb".
      rewrite app_length Nat2Z.inj_add Hnew. simpl.
      by replace (t_pre T - required + (required + zlen segs)) with (t_pre T + zlen segs) by lia.
    - iFrame "Ht". rewrite win_app_segs. iSplitL "Hnr".
      + iApply win_rawsegs; [|done]. intros i Hi. apply live_out. lia.
      + iApply (win_eq with "Hw"). intros i Hi. symmetry. apply at_pos_shift.
  Qed.

  Lemma wp_grow_front T segs p l add Q X :
    0 < add ->
    sg_at T segs p l ⊢
    ((∀ T' new, ⟦t_al T' = t_al T /\ zlen new = ((add + SS - 1) / SS)%Z /\
          (slots segs - 1 <= max_size -> slots segs - 1 + add <= max_size)⟧ -∗
        sg_at T' (new ++ segs) (slots new + p) l -∗ Q tt (sobj T' (new ++ segs) (slots new + p) (zlen l))) ∧
     (∀ e T', ⟦t_al T' = t_al T /\ grow_exn e segs add⟧ -∗
        sg_at T' segs p l -∗ X e (sobj T' segs p (zlen l)))) -∗
    wp (sd_grow_front add) (sobj T segs p (zlen l)) Q X.
  Proof.
    iIntros (Hadd) "[%Hp [Hfr Hsw]] HQ". pose proof SS_pos as HSS. destruct Hp as [Hp Hpl].
    iAssert (⟦0 < zlen segs⟧ ∗ frame T segs)%I with "[Hfr]" as "[%Hs Hfr]".
    { iDestruct "Hfr" as "[%Hg Hfr]". iFrame. iSplit; [iPureIntro; lia|done]. }
    unfold sd_grow_front. wbind. iApply (wp_sq_capacity with "Hsw"); [done|]. iIntros "Hsw". wbeta.
    iCombine "Hfr Hsw" as "Hst".
    destruct (Z.ltb_spec (wrap (max_size - (slots segs - 1))) add) as [Hlt|Hge].
    { iApply wp_throw; [by left|]. iDestruct "HQ" as "[_ HQ]". iApply ("HQ" $! ELength T with "[%]").
      - split_and!; [done|]. left. split; [done|]. apply wrap_room; [lia|lia|done].
      - by iFrame. }
    assert (add / SS + (if add mod SS =? 0 then 0 else 1) = (add + SS - 1) / SS /\ 0 < (add + SS - 1) / SS) as [-> Hpos].
    { destruct (pos_split add) as (k & r & Hk & Hr). rewrite (pos_div add k r) // (pos_mod add k r) //.
      destruct (Z.eqb_spec r 0) as [->|Hne].
      - rewrite (pos_div (add + SS - 1) k (SS - 1)); [|lia..]. split; [lia|nia].
      - rewrite (pos_div (add + SS - 1) (k + 1) (r - 1)); [|lia..]. split; [lia|nia]. }
    wbind. iApply (wp_table_front with "Hst"); [lia|]. iSplit.
    2:{ iIntros "Hst". iDestruct "HQ" as "[_ HQ]". iApply ("HQ" $! EBadAlloc T with "[%]").
        - split_and!; [done|]. by right.
        - by iFrame. }
    iIntros (T') "%HT Hst". destruct HT as (Ha & Hroom). wbeta.
    iApply (wp_segs_front with "[Hst]"); [|done| |]; [lia|by iFrame|].
    iSplit.
    - iIntros (T2 new) "%Hnew Hst". destruct Hnew as [Ha2 Hnew]. iDestruct "HQ" as "[HQ _]".
      iApply ("HQ" $! T2 new with "[%] Hst").
      split_and!; [congruence|done|]. intros Hm. apply wrap_fits; [lia|lia|done].
    - iIntros "Hst". iDestruct "HQ" as "[_ HQ]". iApply ("HQ" $! EBadAlloc T' with "[%] Hst").
      split_and!; [done|]. by right.
  Qed.

  (** ** Allocating and freeing the storage *)
  Lemma wp_allocate_storage o n Q X :
    0 <= n ->
    ((∀ T segs, ⟦t_al T = sg_alloc o /\ t_pre T = 0 /\ zlen segs = (n / SS + 1)%Z /\ n <= max_size⟧ -∗
        sg_at T segs 0 [] -∗ Q tt (sobj T segs 0 0)) ∧
     (∀ e o', ⟦(e = ELength /\ max_size < n) \/ e = EBadAlloc⟧ -∗ X e o')) ⊢
    wp (sq_allocate_storage n) o Q X.
  Proof.
    iIntros (Hn) "HQ". unfold sq_allocate_storage. pose proof SS_pos as HSS.
    destruct (Z.ltb_spec max_size n) as [Hlt|Hge].
    { iApply wp_throw; [by left|]. iDestruct "HQ" as "[_ HQ]". iApply "HQ". iPureIntro. by left. }
    assert (0 <= n / SS) by (apply Z.div_pos; lia).
    assert (exists r, n / SS + 1 = r /\ 0 < r) as (r & Hr & Hr0) by (eexists; split; [done|lia]). rewrite Hr.
    assert (exists c, Z.max r min_table = c /\ r <= c) as (c & -> & Hc) by (eexists; split; [done|lia]).
    wbind. iApply wp_get. wbeta. wbind. iApply wp_allocate; [lia|]. iSplit.
    2:{ iDestruct "HQ" as "[_ HQ]". iApply "HQ". iPureIntro. by right. }
    iIntros (t) "Hb Hraw". wbeta. iDestruct (junk_raws with "Hraw") as "Hj"; [lia|].
    wbind. iApply wp_modify. wbeta. iApply wp_try.
    replace c with (r + (c - r)) at 2 by lia. rewrite junk_app; [|lia..]. iDestruct "Hj" as "[Hj1 Hj2]".
    wbind. iApply (wp_allocate_segments with "Hj1"); [lia|done|]. iSplit.
    2:{ iIntros "Hj1". iApply (wp_dealloc_junk with "Hb [Hj1 Hj2]").
        - replace c with (r + (c - r)) at 2 by lia. rewrite junk_app; [|lia..]. iFrame.
        - iDestruct "HQ" as "[_ HQ]". iApply "HQ". iPureIntro. by right. }
    iIntros (segs) "%Hs Ht Hbs Hr". wbeta. simpl.
    wbind. iApply (wp_read_tbl _ _ 0 with "Ht"); [by rewrite loc_add_0|lia|]. iIntros "Ht". wbeta.
    wbind. iApply (wp_read_tbl _ _ (r - 1) with "Ht"); [rewrite loc_add_assoc; f_equal; lia|lia|]. iIntros "Ht". wbeta.
    iApply wp_modify. set (T := Tab (sg_alloc o) t 0 c).
    assert (t_at T = t) as HT by (unfold t_at; simpl; apply loc_add_0).
    match goal with |- context [Q tt ?o] => assert (o = sobj T segs 0 0) as -> end.
    { unfold sobj, sg_set_iters, sg_set_table; simpl. rewrite HT sitr_end; [|lia]. rewrite !sitr_0 saddr_0 Hs loc_add_assoc. done. }
    iDestruct "HQ" as "[HQ _]". iApply ("HQ" $! T segs with "[%]"); [done|].
    iSplit; [iPureIntro; simpl; unfold slots; nia|]. iSplitR "Ht Hr".
    - iSplit; [iPureIntro; simpl; lia|]. simpl. iFrame "Hb Hbs". rewrite junk_0 Hs. iFrame "Hj2".
    - rewrite HT. iFrame "Ht". iApply win_rawsegs; [|done]. intros i Hi. apply live_out. simpl. lia.
  Qed.

  Lemma wp_deallocate_storage T segs p m f Q X :
    (forall i, 0 <= i < slots segs -> live f i = false) ->
    store T segs f ⊢ Q tt (sobj T segs p m) -∗ wp sq_deallocate_storage (sobj T segs p m) Q X.
  Proof.
    iIntros (Hf) "[(%Hg & Hb & Hj1 & Hj2 & Hbs) [Ht Hw]] HQ". destruct Hg as (Hp0 & Hs & Hc).
    unfold sq_deallocate_storage. wbind. iApply wp_get. wbeta. simpl.
    rewrite win_rawsegs //. wbind.
    iApply (wp_deallocate_segments (sobj T segs p m) with "Ht Hbs Hw"); [done|]. iIntros "Ht". wbeta. simpl.
    wbind. iApply (wp_psub _ _ (t_cap T)); [done|]. wbeta.
    iApply (wp_dealloc_junk with "Hb [Hj1 Ht Hj2]"); [|done].
    replace (t_cap T) with (t_pre T + (zlen segs + (t_cap T - (t_pre T + zlen segs)))) at 2 by lia.
    rewrite junk_app; [|lia..]. rewrite (junk_app _ (zlen segs)); [|lia..]. iFrame "Hj1".
    rewrite loc_add_assoc. iFrame "Hj2". by iApply junk_table.
  Qed.

  (** ** Shrinking *)
  Lemma wp_shrink_front T segs p l Q X :
    sg_at T segs p l ⊢
    (∀ T', ⟦t_al T' = t_al T⟧ -∗ sg_at T' (drop (Z.to_nat (p / SS)) segs) (p mod SS) l -∗
       Q tt (sobj T' (drop (Z.to_nat (p / SS)) segs) (p mod SS) (zlen l))) -∗
    wp sd_shrink_front (sobj T segs p (zlen l)) Q X.
  Proof.
    iIntros "[%Hp [(%Hg & Hb & Hj1 & Hj2 & Hbs) [Ht Hw]]] HQ". destruct Hg as (Hp0 & Hs & Hc).
    destruct Hp as [Hp Hpl]. pose proof SS_pos as HSS.
    destruct (pos_split p) as (k & r & Hk & Hr).
    pose proof (seg_bound p k r (zlen segs) Hk Hr ltac:(unfold slots in *; lia)) as Hkb.
    rewrite (pos_div p k r) // (pos_mod p k r) //.
    assert (exists pre rest, segs = pre ++ rest /\ zlen pre = k /\ drop (Z.to_nat k) segs = rest) as (pre & rest & Hseg & Hpre & Hrest).
    { exists (take (Z.to_nat k) segs), (drop (Z.to_nat k) segs). rewrite take_drop take_length. split_and!; [done|lia|done]. }
    rewrite Hrest. clear Hrest. subst segs. rewrite app_length in Hs, Hc, Hkb. rewrite slots_app in Hpl.
    assert (slots pre = k * SS) as Hsp by (unfold slots; lia).
    unfold sd_shrink_front. wbind. iApply wp_get. wbeta. simpl.
    rewrite (pos_div p k r) // -Hpre.
    rewrite table_app blocks_app win_app_segs. iDestruct "Ht" as "[Ht1 Ht2]". iDestruct "Hbs" as "[Hb1 Hb2]".
    iDestruct "Hw" as "[Hw1 Hw2]". rewrite win_rawsegs.
    2:{ intros i Hi. apply live_out. lia. }
    wbind. iApply (wp_deallocate_segments (sobj T _ p (zlen l)) with "Ht1 Hb1 Hw1"); [done|]. iIntros "Ht1". wbeta. simpl.
    wbind. iApply (wp_read_tbl _ _ 0 with "Ht2"); [by rewrite loc_add_0|lia|]. iIntros "Ht2". wbeta.
    wbind. iApply wp_modify. wbeta. iApply wp_modify.
    set (T' := Tab (t_al T) (t_base T) (t_pre T + zlen pre) (t_cap T)).
    assert (t_at T +ₗ zlen pre = t_at T') as HT by (unfold t_at; simpl; by rewrite loc_add_assoc). rewrite HT.
    assert (p = slots pre + r) as Hpr by lia.
    match goal with |- context [Q tt ?o] => assert (o = sobj T' rest r (zlen l)) as -> end.
    { unfold sobj, sg_set_iters, sg_set_table; simpl. rewrite slots_app Hpr.
      rewrite -(Z.add_assoc (slots pre) r). rewrite -(Z.add_sub_assoc (slots pre)).
      rewrite (sitr_app_r _ _ _ r); [|lia].
      rewrite (sitr_app_r _ _ _ (slots rest - 1)); [|unfold slots in *; nia].
      rewrite (sitr_app_r _ _ _ (r + zlen l)); [|lia]. rewrite HT. f_equal.
      - rewrite app_length Nat2Z.inj_add -HT loc_add_assoc. done.
      - rewrite sitr_0 saddr_0. done. }
    iApply ("HQ" $! T' with "[//]"). iSplit; [iPureIntro; lia|]. iSplitR "Ht2 Hw2".
    - iSplit; [iPureIntro; simpl; lia|]. simpl. iFrame "Hb Hb2". rewrite junk_app; [|lia..]. iFrame "Hj1".
      iSplitL "Ht1"; [by iApply junk_table|]. rewrite app_length Nat2Z.inj_add.
      by rewrite Z.add_assoc.
    - iFrame "Ht2". iApply (win_eq with "Hw2"). intros i Hi. rewrite Hpr. apply at_pos_shift.
  Qed.

  Lemma wp_shrink_back T segs p l Q X :
    sg_at T segs p l ⊢
    (sg_at T (take (Z.to_nat ((p + zlen l) / SS + 1)) segs) p l -∗
       Q tt (sobj T (take (Z.to_nat ((p + zlen l) / SS + 1)) segs) p (zlen l))) -∗
    wp sq_shrink_back (sobj T segs p (zlen l)) Q X.
  Proof.
    iIntros "[%Hp [(%Hg & Hb & Hj1 & Hj2 & Hbs) [Ht Hw]]] HQ". destruct Hg as (Hp0 & Hs & Hc).
    destruct Hp as [Hp Hpl]. pose proof SS_pos as HSS.
    destruct (pos_split (p + zlen l)) as (k & r & Hk & Hr).
    pose proof (seg_bound (p + zlen l) k r (zlen segs) Hk Hr ltac:(unfold slots in *; lia)) as Hkb.
    rewrite (pos_div (p + zlen l) k r) //.
    assert (exists keep rest, segs = keep ++ rest /\ zlen keep = k + 1 /\ take (Z.to_nat (k + 1)) segs = keep)
      as (keep & rest & Hseg & Hkeep & Hrest).
    { exists (take (Z.to_nat (k + 1)) segs), (drop (Z.to_nat (k + 1)) segs). rewrite take_drop take_length. split_and!; [done|lia|done]. }
    rewrite Hrest. clear Hrest. subst segs. rewrite app_length in Hs, Hc, Hkb. rewrite slots_app in Hpl.
    assert (slots keep = (k + 1) * SS) as Hsp by (unfold slots; lia).
    unfold sq_shrink_back. wbind. iApply wp_get. wbeta. simpl.
    rewrite (pos_div (p + zlen l) k r) //.
    rewrite table_app blocks_app win_app_segs. iDestruct "Ht" as "[Ht1 Ht2]". iDestruct "Hbs" as "[Hb1 Hb2]".
    iDestruct "Hw" as "[Hw1 Hw2]". rewrite (win_rawsegs rest).
    2:{ intros i Hi. unfold live. apply (live_out p l). lia. }
    replace (t_at T +ₗ k +ₗ 1) with (t_at T +ₗ zlen keep) by (rewrite loc_add_assoc; f_equal; lia).
    wbind. iApply (wp_deallocate_segments (sobj T _ p (zlen l)) with "Ht2 Hb2 Hw2").
    { rewrite app_length loc_add_assoc. f_equal. lia. }
    iIntros "Ht2". wbeta. simpl.
    wbind. iApply (wp_read_tbl _ _ k with "Ht1"); [rewrite !loc_add_assoc; f_equal; lia|lia|]. iIntros "Ht1". wbeta.
    wbind. iApply wp_modify. wbeta. iApply wp_modify.
    match goal with |- context [Q tt ?o] => assert (o = sobj T keep p (zlen l)) as -> end.
    { unfold sobj, sg_set_iters, sg_set_table; simpl.
      rewrite (sitr_app_l _ _ _ 0); [|nia]. rewrite (sitr_app_l _ _ _ p); [|nia].
      rewrite (sitr_app_l _ _ _ (p + zlen l)); [|nia]. f_equal.
      rewrite sitr_end; [|lia]. rewrite !loc_add_assoc. replace (zlen keep + -1) with (zlen keep - 1) by lia.
      by replace (zlen keep - 1) with k by lia. }
    iApply "HQ". iSplit; [iPureIntro; nia|]. iSplitR "Ht1 Hw1"; [|by iFrame].
    iSplit; [iPureIntro; lia|]. iFrame "Hb Hb1 Hj1". rewrite app_length Nat2Z.inj_add.
    replace (t_cap T - (t_pre T + zlen keep)) with (zlen rest + (t_cap T - (t_pre T + (zlen keep + zlen rest)))) by lia.
    rewrite junk_app; [|lia..]. iSplitL "Ht2".
    - unfold t_at. rewrite loc_add_assoc. by iApply junk_table.
    - rewrite loc_add_assoc. by rewrite Z.add_assoc.
  Qed.

  Lemma wp_shrink_table T segs p l Q X :
    p < SS ->
    sg_at T segs p l ⊢
    ((∀ T', ⟦t_al T' = t_al T /\ t_pre T' = 0⟧ -∗ sg_at T' segs p l -∗ Q tt (sobj T' segs p (zlen l))) ∧
     (sg_at T segs p l -∗ X EBadAlloc (sobj T segs p (zlen l)))) -∗
    wp sq_shrink_table (sobj T segs p (zlen l)) Q X.
  Proof.
    iIntros (Hpss) "[%Hp [(%Hg & Hb & Hj1 & Hj2 & Hbs) [Ht Hw]]] HQ". destruct Hg as (Hp0 & Hs & Hc).
    destruct Hp as [Hp Hpl]. pose proof SS_pos as HSS.
    unfold sq_shrink_table. wbind. iApply wp_get. wbeta. simpl.
    wbind. iApply (wp_psub _ _ (t_cap T)); [done|]. wbeta.
    wbind. iApply wp_psub; [done|]. wbeta.
    wbind. iApply (wp_psub _ _ ((p + zlen l) / SS)).
    { rewrite (Z.div_small p); [|lia]. by rewrite loc_add_0. } wbeta.
    assert (exists nc, Z.max (zlen segs) min_table = nc /\ zlen segs <= nc) as (nc & -> & Hnc) by (eexists; split; [done|lia]).
    wbind. iApply wp_allocate; [lia|]. iSplit.
    2:{ iDestruct "HQ" as "[_ HQ]". iApply "HQ". iFrame. done. }
    iIntros (q) "Hnb Hnr". wbeta. iDestruct (junk_raws with "Hnr") as "Hnj"; [lia|].
    replace nc with (zlen segs + (nc - zlen segs)) at 2 by lia.
    rewrite junk_app; [|lia..]. iDestruct "Hnj" as "(Hn2 & Hn3)".
    wbind. iApply (wp_copy_table with "Ht Hn2"); [done|]. iIntros "Ht Hnt". wbeta.
    wbind. iApply (wp_dealloc_junk with "Hb [Hj1 Ht Hj2]").
    { replace (t_cap T) with (t_pre T + (zlen segs + (t_cap T - (t_pre T + zlen segs)))) at 2 by lia.
      rewrite junk_app; [|lia..]. rewrite (junk_app _ (zlen segs)); [|lia..]. iFrame "Hj1".
      rewrite loc_add_assoc. iFrame "Hj2". by iApply junk_table. }
    wbeta. unfold sq_new_table. wbind. iApply wp_get. wbeta. wbind. iApply wp_modify. wbeta.
    iApply wp_modify. simpl.
    set (T' := Tab (t_al T) q 0 nc). assert (t_at T' = q) as HT by (unfold t_at; simpl; apply loc_add_0).
    pose proof (sobj_new_table T T' segs p (zlen l) Hs eq_refl) as Ho.
    rewrite (Z.div_small p) ?HT in Ho; [|lia]. simpl in Ho. rewrite Ho.
    iDestruct "HQ" as "[HQ _]". iApply ("HQ" $! T' with "[%]"); [done|].
    iSplit; [done|]. iSplitR "Hnt Hw"; [|rewrite HT; by iFrame]. iSplit; [iPureIntro; simpl; lia|]. simpl. iFrame.
    by rewrite junk_0.
  Qed.
End store.
