(** * Segmented containers: access, capacity, comparison, erase_if *)

From Verif Require Export SegAssign FreeFuns.
From Coq Require Import ZifyBool.
From iris.proofmode Require Import environments tactics.
Open Scope Z_scope.
Notation frame := SegGrow.frame.

Section access.
  Context `{E : Env} `{SZ : SegSize}.
  Implicit Types segs new : list loc.
  Implicit Types T : tab.

  (** v 433-441 [reserve]. *)
  Lemma back_sv_reserve T segs l n :
    back_op T segs 0 l (n - (slots segs - 1)) (sv_reserve n) l (fun _ _ => tt) (fun _ => False).
  Proof.
    intros Q X. sopen. unfold sv_reserve.
    wbind. iApply (wp_sq_capacity with "Hw"); [apply slots_pos; lia|]. iIntros "Hw". wbeta.
    iDestruct (sg_at_close with "Hf Hw") as "Hs"; [lia..|].
    iApply (wp_room_back _ _ _ _ _ _ (n - (slots segs - 1)) with "Hs HK"); lia.
  Qed.
  (** d 438-447 [reserve_back]. *)
  Lemma back_sd_reserve_back T segs p l n :
    back_op T segs p l (p + n - (slots segs - 1)) (sd_reserve_back n) l (fun _ _ => tt) (fun _ => False).
  Proof.
    intros Q X. sopen. unfold sd_reserve_back.
    wbind. iApply (wp_sq_size with "Hw"); [lia..|]. iIntros "Hw". wbeta.
    wbind. iApply (wp_sq_back_room with "Hw"); [lia..|]. iIntros "Hw". wbeta.
    iDestruct (sg_at_close with "Hf Hw") as "Hs"; [lia..|].
    iApply (wp_room_back _ _ _ _ _ _ (p + n - (slots segs - 1)) with "Hs HK"); lia.
  Qed.

  (** v 443-446 [shrink_to_fit]. *)
  Lemma wp_sv_shrink T segs l Q X :
    let segs' := take (Z.to_nat (zlen l / SS + 1)) segs in
    t_pre T = 0 ->
    sg_at T segs 0 l ⊢
    ((∀ T', ⟦same_tab T T'⟧ -∗ sg_at T' segs' 0 l -∗ Q tt (sobj T' segs' 0 (zlen l))) ∧
     (sg_at T segs' 0 l -∗ X EBadAlloc (sobj T segs' 0 (zlen l)))) -∗
    wp sv_shrink (sobj T segs 0 (zlen l)) Q X.
  Proof.
    intros segs' HT. iIntros "Hs HK". unfold sv_shrink. wbind. iApply (wp_shrink_back with "Hs"). iIntros "Hs". wbeta.
    rewrite Z.add_0_l. pose proof SS_pos. iApply (wp_shrink_table with "Hs"); [lia|]. iSplit.
    - iIntros (T') "%H' Hs". iDestruct "HK" as "[HK _]". iApply ("HK" with "[%] Hs"). unfold same_tab. rewrite HT. done.
    - iIntros "Hs". iDestruct "HK" as "[_ HK]". by iApply "HK".
  Qed.
  (** d 449-452 [shrink_to_fit]. *)
  Lemma wp_sd_shrink T segs p l Q X :
    let segs1 := drop (Z.to_nat (p / SS)) segs in
    let segs' := take (Z.to_nat ((p mod SS + zlen l) / SS + 1)) segs1 in
    sg_at T segs p l ⊢
    ((∀ T', ⟦t_al T' = t_al T⟧ -∗ sg_at T' segs' (p mod SS) l -∗ Q tt (sobj T' segs' (p mod SS) (zlen l))) ∧
     (∀ T', ⟦t_al T' = t_al T⟧ -∗ sg_at T' segs' (p mod SS) l -∗ X EBadAlloc (sobj T' segs' (p mod SS) (zlen l)))) -∗
    wp sd_shrink (sobj T segs p (zlen l)) Q X.
  Proof.
    intros segs1 segs'. iIntros "Hs HK". unfold sd_shrink. wbind. iApply (wp_shrink_front with "Hs").
    iIntros (T1) "%H1 Hs". wbeta. wbind. iApply (wp_shrink_back with "Hs"). iIntros "Hs". wbeta.
    pose proof (Z.mod_pos_bound p SS SS_pos). iApply (wp_shrink_table with "Hs"); [lia|]. iSplit.
    - iIntros (T') "%H' Hs". iDestruct "HK" as "[HK _]". iApply ("HK" with "[%] Hs"). destruct H'. congruence.
    - iIntros "Hs". iDestruct "HK" as "[_ HK]". by iApply ("HK" with "[%] Hs").
  Qed.

  (** v 453-501 [at], [operator[]]. *)
  Lemma wp_sv_cell T segs p m n f Q X :
    0 <= n < slots segs ->
    swin (t_at T) segs f ⊢ (swin (t_at T) segs f -∗ Q (saddr segs n) (sobj T segs p m)) -∗
    wp (sv_cell n) (sobj T segs p m) Q X.
  Proof.
    iIntros (Hn) "Hw HK". pose proof SS_pos. unfold sv_cell. sstep. sstep. iDestruct "Hw" as "[Ht Hw]". wbind.
    assert (0 <= n / SS < zlen segs).
    { split; [apply Z.div_pos; lia|]. apply Z.div_lt_upper_bound; unfold slots in Hn; lia. }
    iApply (wp_read_tbl with "Ht"); [done|lia|]. iIntros "Ht". wbeta. iApply wp_ret.
    replace (segs !!! Z.to_nat (n / SS) +ₗ (n - n / SS * SS)) with (saddr segs n).
    { iApply "HK". iFrame. }
    unfold saddr. f_equal. rewrite Z.mod_eq; lia.
  Qed.
  Lemma wp_sv_at T segs l (i : nat) Q X :
    sg_at T segs 0 l ⊢
    (sg_at T segs 0 l -∗
       match l !! i with
       | Some v => Q v (sobj T segs 0 (zlen l))
       | None => X EOutOfRange (sobj T segs 0 (zlen l))
       end) -∗
    wp (sv_at (Z.of_nat i)) (sobj T segs 0 (zlen l)) Q X.
  Proof.
    sopen. unfold sv_at. wbind. iApply (wp_sq_size with "Hw"); [lia..|]. iIntros "Hw". wbeta.
    destruct (Z.leb_spec (zlen l) (Z.of_nat i)) as [Hle|Hlt].
    - rewrite lookup_ge_None_2; [|lia]. iApply wp_throw; [by right|].
      iApply "HK". iApply (sg_at_close with "Hf Hw"); lia.
    - destruct (lookup_lt_is_Some_2 l i) as [v Hv]; [lia|]. rewrite Hv.
      wbind. iApply (wp_sv_cell with "Hw"); [lia|]. iIntros "Hw". wbeta.
      iApply (wp_sw_read _ _ _ v with "Hw"); [lia| |].
      { rewrite -Hv -(at_pos_elem 0 l i). by rewrite Z.add_0_l. }
      iIntros "Hw". iApply "HK". iApply (sg_at_close with "Hf Hw"); lia.
  Qed.
  Lemma wp_sv_index T segs l n Q X :
    0 <= n < zlen l ->
    sg_at T segs 0 l ⊢ (sg_at T segs 0 l -∗ Q (saddr segs n) (sobj T segs 0 (zlen l))) -∗
    wp (sv_index n) (sobj T segs 0 (zlen l)) Q X.
  Proof.
    iIntros (Hn). sopen. unfold sv_index. wbind. iApply (wp_sq_size with "Hw"); [lia..|]. iIntros "Hw". wbeta.
    wbind. iApply wp_assert; [lia|]. wbeta. iApply (wp_sv_cell with "Hw"); [lia|]. iIntros "Hw".
    iApply "HK". iApply (sg_at_close with "Hf Hw"); lia.
  Qed.
  (** d 459-491. *)
  Lemma wp_sd_cell T segs p m n f Q X :
    0 <= p -> p < slots segs -> 0 <= p + n -> p + n < slots segs ->
    swin (t_at T) segs f ⊢ (swin (t_at T) segs f -∗ Q (saddr segs (p + n)) (sobj T segs p m)) -∗
    wp (sd_cell n) (sobj T segs p m) Q X.
  Proof.
    iIntros (H1 H2 H3 H4) "Hw HK". unfold sd_cell. do 5 sstep. by iApply "HK".
  Qed.
  Lemma wp_sd_at T segs p l (i : nat) Q X :
    sg_at T segs p l ⊢
    (sg_at T segs p l -∗
       match l !! i with
       | Some v => Q v (sobj T segs p (zlen l))
       | None => X EOutOfRange (sobj T segs p (zlen l))
       end) -∗
    wp (sd_at (Z.of_nat i)) (sobj T segs p (zlen l)) Q X.
  Proof.
    sopen. unfold sd_at. wbind. iApply (wp_sq_size with "Hw"); [lia..|]. iIntros "Hw". wbeta.
    destruct (Z.leb_spec (zlen l) (Z.of_nat i)) as [Hle|Hlt].
    - rewrite lookup_ge_None_2; [|lia]. iApply wp_throw; [by right|].
      iApply "HK". iApply (sg_at_close with "Hf Hw"); lia.
    - destruct (lookup_lt_is_Some_2 l i) as [v Hv]; [lia|]. rewrite Hv.
      wbind. iApply (wp_sd_cell with "Hw"); [lia..|]. iIntros "Hw". wbeta.
      iApply (wp_sw_read _ _ _ v with "Hw"); [lia| |].
      { by rewrite -Hv -(at_pos_elem p l i). }
      iIntros "Hw". iApply "HK". iApply (sg_at_close with "Hf Hw"); lia.
  Qed.
  Lemma wp_sd_index T segs p l n Q X :
    0 <= n < zlen l ->
    sg_at T segs p l ⊢ (sg_at T segs p l -∗ Q (saddr segs (p + n)) (sobj T segs p (zlen l))) -∗
    wp (sd_index n) (sobj T segs p (zlen l)) Q X.
  Proof.
    iIntros (Hn). sopen. unfold sd_index. wbind. iApply (wp_sq_size with "Hw"); [lia..|]. iIntros "Hw". wbeta.
    wbind. iApply wp_assert; [lia|]. wbeta. iApply (wp_sd_cell with "Hw"); [lia..|]. iIntros "Hw".
    iApply "HK". iApply (sg_at_close with "Hf Hw"); lia.
  Qed.
  (** v 503-529, d 493-519 [front], [back]. *)
  Lemma wp_sq_get_front T segs p l Q X :
    0 < zlen l ->
    sg_at T segs p l ⊢ (sg_at T segs p l -∗ Q (saddr segs p) (sobj T segs p (zlen l))) -∗
    wp sq_get_front (sobj T segs p (zlen l)) Q X.
  Proof.
    iIntros (Hn). sopen. unfold sq_get_front. wbind. iApply (wp_sq_empty with "Hw"); [lia..|]. iIntros "Hw". wbeta.
    do 5 sstep. iApply "HK". iApply (sg_at_close with "Hf Hw"); lia.
  Qed.
  Lemma wp_sq_get_back T segs p l Q X :
    0 < zlen l ->
    sg_at T segs p l ⊢ (sg_at T segs p l -∗ Q (saddr segs (p + zlen l - 1)) (sobj T segs p (zlen l))) -∗
    wp sq_get_back (sobj T segs p (zlen l)) Q X.
  Proof.
    iIntros (Hn). sopen. unfold sq_get_back. wbind. iApply (wp_sq_empty with "Hw"); [lia..|]. iIntros "Hw". wbeta.
    do 7 sstep. iApply "HK". iApply (sg_at_close with "Hf Hw"); lia.
  Qed.
  (** Reading and assigning an element through its address. *)
  Lemma wp_sg_read T segs p l i v d Q X :
    l !! i = Some v -> d = saddr segs (p + Z.of_nat i) ->
    sg_at T segs p l ⊢ (sg_at T segs p l -∗ Q v (sobj T segs p (zlen l))) -∗
    wp (read d) (sobj T segs p (zlen l)) Q X.
  Proof.
    iIntros (Hi ->). sopen. apply lookup_lt_Some in Hi as Hlt.
    iApply (wp_sw_read _ _ _ v with "Hw"); [lia|by rewrite at_pos_elem|].
    iIntros "Hw". iApply "HK". iApply (sg_at_close with "Hf Hw"); lia.
  Qed.
  Lemma keep_set T segs p l i v d :
    (i < length l)%nat -> d = saddr segs (p + Z.of_nat i) ->
    keep_op T segs p l (assign d (AVal v)) p (<[i := v]> l) tt (fun l' => length l' = length l).
  Proof.
    intros Hi -> Q X. sopen. iApply (wp_sw_assign_val with "Hw"); [lia|rewrite live_at_pos; unfold within; lia|]. iSplit.
    - iIntros (f') "%Hst Hw". rewrite -(insert_length l i v) in Hb. rewrite -(insert_length l i v). sdone.
      intros x. rewrite at_pos_insert //. unfold upd. destruct (Z.eqb_spec x (p + Z.of_nat i)) as [->|Hne].
      + rewrite (st_dst _ _ _ _ Hst); [by rewrite Z.sub_diag|simpl; lia].
      + rewrite (st_rest _ _ _ _ Hst); [done|simpl; lia].
    - iIntros (f') "%Hs Hw". iDestruct "HK" as "[_ HK]".
      by iApply (shaken_at _ _ _ _ _ (fun l' => length l' = length l) with "Hf Hw HK").
  Qed.
End access.

(** ** Algorithms of the standard library *)
Section algo.
  Context `{E : Env} `{SZ : SegSize}.
  Context {St : Type}.
  Implicit Types s : St.
  Implicit Types segs : list loc.
  Implicit Types f : Z -> option V.

  Definition lists f (a : Z) (l : list V) : Prop := forall j, (j < length l)%nat -> f (a + Z.of_nat j) = l !! j.
  Lemma lists_cons f a v l : lists f a (v :: l) -> f a = Some v /\ lists f (a + 1) l.
  Proof.
    intros Hl. split.
    - specialize (Hl 0%nat ltac:(simpl; lia)). by rewrite Z.add_0_r in Hl.
    - intros j Hj. specialize (Hl (S j) ltac:(simpl; lia)). simpl in Hl. rewrite -Hl. f_equal. lia.
  Qed.
  Lemma lists_at p l : lists (at_pos p l) p l.
  Proof. intros j Hj. apply at_pos_elem. Qed.

  Lemma wp_sw_test (pr : V -> bool) t segs d v f s Q X :
    0 <= d < slots segs -> f d = Some v ->
    swin t segs f ⊢ ((swin t segs f -∗ Q (pr v) s) ∧ (swin t segs f -∗ X EUser s)) -∗
    wp (test_ pr (saddr segs d)) s Q X.
  Proof.
    iIntros (Hd Hv) "Hw HK". unfold test_. wbind. iApply (wp_sw_read _ _ _ v with "Hw"); [done..|]. iIntros "Hw".
    wbind. iApply wp_step; [done|]. iSplit.
    - iApply wp_ret. iDestruct "HK" as "[HK _]". by iApply "HK".
    - iDestruct "HK" as "[_ HK]". by iApply "HK".
  Qed.
  Lemma wp_sw_test2 (r : V -> V -> bool) t segs d v f t2 segs2 d2 v2 f2 s Q X :
    0 <= d < slots segs -> f d = Some v -> 0 <= d2 < slots segs2 -> f2 d2 = Some v2 ->
    swin t segs f ⊢ swin t2 segs2 f2 -∗
    ((swin t segs f -∗ swin t2 segs2 f2 -∗ Q (r v v2) s) ∧ (swin t segs f -∗ swin t2 segs2 f2 -∗ X EUser s)) -∗
    wp (test2_ r (saddr segs d) (saddr segs2 d2)) s Q X.
  Proof.
    iIntros (Hd Hv Hd2 Hv2) "Hw Hw2 HK". unfold test2_. wbind. iApply (wp_sw_read _ _ _ v with "Hw"); [done..|]. iIntros "Hw".
    wbind. iApply (wp_sw_read _ _ _ v2 with "Hw2"); [done..|]. iIntros "Hw2".
    wbind. iApply wp_step; [done|]. iSplit.
    - iApply wp_ret. iDestruct "HK" as "[HK _]". iApply ("HK" with "Hw Hw2").
    - iDestruct "HK" as "[_ HK]". iApply ("HK" with "Hw Hw2").
  Qed.

  Lemma wp_s_find_if (pr : V -> bool) t segs a l f s Q X :
    lists f a l -> 0 <= a -> a + zlen l < slots segs ->
    swin t segs f ⊢
    ((swin t segs f -∗ Q (sitr t segs (a + Z.of_nat (first_match pr l)), (length l - first_match pr l)%nat) s) ∧
     (swin t segs f -∗ X EUser s)) -∗
    wp (s_find_if pr (sitr t segs a) (length l)) s Q X.
  Proof.
    revert a Q X. induction l as [|v l IH]; intros a Q X Hl Ha Hb; simpl; iIntros "Hw HK".
    - iApply wp_ret. iDestruct "HK" as "[HK _]". rewrite Z.add_0_r. by iApply "HK".
    - apply lists_cons in Hl as [Hv Hl]. simpl in Hb. wbind. sred.
      iApply (wp_sw_test _ _ _ _ v with "Hw"); [lia|done|]. iSplit.
      2:{ iDestruct "HK" as "[_ HK]". done. }
      iIntros "Hw". wbeta. destruct (pr v).
      + iApply wp_ret. iDestruct "HK" as "[HK _]". rewrite Z.add_0_r. by iApply "HK".
      + sstep. sstep. iApply (IH with "Hw"); [done|lia|lia|]. iSplit.
        * iDestruct "HK" as "[HK _]". by replace (a + 1 + Z.of_nat (first_match pr l)) with (a + Z.of_nat (S (first_match pr l))) by lia.
        * iDestruct "HK" as "[_ HK]". done.
  Qed.

  Lemma wp_sw_assign_move t segs x d v f s Q X :
    0 <= x < slots segs -> 0 <= d < slots segs -> x <> d -> f x = Some v -> live f d = true ->
    swin t segs f ⊢
    ((swin t segs (upd (upd f x (Some (vmoved v))) d (Some v)) -∗ Q tt s) ∧
     (∀ f', ⟦shaken f f'⟧ -∗ swin t segs f' -∗ X EUser s)) -∗
    wp (assign (saddr segs d) (AMove (saddr segs x))) s Q X.
  Proof.
    iIntros (Hx Hd Hne Hv Hl) "[Ht Hw] HK". iDestruct (win_acc2 _ _ _ x d with "Hw") as "(Hx & Hd & Hw)"; [done..|].
    destruct (live_some _ _ Hl) as [u Hu]. rewrite {1}Hu {1}Hv. simpl cell_of.
    iApply (as_ok_move1 _ v with "Hx Hd"). iSplit.
    - iIntros "Hx Hd". iDestruct "HK" as "[HK _]". iApply "HK". iFrame "Ht".
      iApply ("Hw" $! (Some (vmoved v)) (Some v) with "Hx Hd").
    - iIntros (c') "Hx Hd". iDestruct "Hx" as (v') "Hx". iDestruct "HK" as "[_ HK]".
      iApply ("HK" $! (upd (upd f x (Some v')) d (Some c')) with "[%]").
      + intros i. unfold live, upd. destruct (Z.eqb_spec i d) as [->|]; [by rewrite Hu|].
        destruct (Z.eqb_spec i x) as [->|]; [by rewrite Hv|done].
      + iFrame "Ht". iApply ("Hw" $! (Some v') (Some c') with "Hx Hd").
  Qed.

  Lemma wp_s_remove_loop (pr : V -> bool) t segs q A J R s Q X :
    (0 < length J)%nat -> 0 <= q -> q + zlen (A ++ J ++ R) < slots segs ->
    swin t segs (at_pos q (A ++ J ++ R)) ⊢
    ((∀ J', ⟦length J' = (length J + length R - length (keep pr R))%nat⟧ -∗
        swin t segs (at_pos q (A ++ keep pr R ++ J')) -∗
        Q (sitr t segs (q + Z.of_nat (length A + length (keep pr R)))) s) ∧
     (∀ l', ⟦length l' = length (A ++ J ++ R)⟧ -∗ swin t segs (at_pos q l') -∗ X EUser s)) -∗
    wp (s_remove_loop pr (sitr t segs (q + zlen A)) (sitr t segs (q + Z.of_nat (length A + length J)))
          (length R)) s Q X.
  Proof.
    revert A J Q X. induction R as [|v R IH]; intros A J Q X HJ Hq Hb; simpl; iIntros "Hw HK".
    - iApply wp_ret. iDestruct "HK" as "[HK _]".
      iSpecialize ("HK" $! J with "[] [Hw]"); [iPureIntro; simpl; lia|by rewrite app_nil_r|].
      by rewrite Nat.add_0_r.
    - rewrite !app_length /= in Hb.
      assert ((A ++ J ++ v :: R) !! (length A + length J)%nat = Some v) as Hx.
      { rewrite lookup_app_r; [|lia]. rewrite lookup_app_r; [|lia].
        by replace (length A + length J - length A - length J)%nat with 0%nat by lia. }
      wbind. sred. iApply (wp_sw_test _ _ _ _ v with "Hw"); [lia| |].
      { by rewrite at_pos_elem. }
      iSplit; last first.
      { iIntros "Hw". iDestruct "HK" as "[_ HK]". by iApply ("HK" with "[] Hw"). }
      iIntros "Hw". unfold keep. simpl. destruct (pr v) eqn:Hp; simpl; wbeta.
      + sstep. sstep.
        replace (q + Z.of_nat (length A + length J) + 1) with (q + Z.of_nat (length A + length (J ++ [v])))
          by (rewrite app_length /=; lia).
        iApply (IH A (J ++ [v]) with "[Hw]"); [rewrite app_length /=; lia|done|len; simpl; lia|by simplify_list_eq|].
        iSplit.
        * iIntros (J') "%HJ' Hl". iDestruct "HK" as "[HK _]".
          iApply ("HK" with "[] Hl"). iPureIntro. rewrite HJ' app_length /=. unfold keep. lia.
        * iIntros (l') "%Hl' Hl". iDestruct "HK" as "[_ HK]".
          iApply ("HK" with "[] Hl"). iPureIntro. rewrite Hl'. len. simpl. lia.
      + destruct J as [|j J]; [simpl in HJ; lia|]. simpl in Hb, Hx.
        assert ((A ++ (j :: J) ++ v :: R) !! length A = Some j) as Hd.
        { rewrite lookup_app_r; [|lia]. by rewrite Nat.sub_diag. }
        wbind. iApply (wp_sw_assign_move _ _ _ _ v with "Hw"); [simpl; lia|lia|simpl; lia|by rewrite at_pos_elem| |].
        { rewrite live_at_pos. unfold within. len. simpl. lia. }
        iSplit; last first.
        { iIntros (f') "%Hs Hw". destruct (DevProofs.shaken_list _ _ _ Hs) as (l' & Hl' & Hf').
          iDestruct "HK" as "[_ HK]". iApply ("HK" $! l' with "[//]"). by iApply (swin_eq with "Hw"). }
        iIntros "Hw". wbeta.
        iDestruct (swin_eq _ _ _ (at_pos q ((A ++ [v]) ++ (J ++ [vmoved v]) ++ R)) with "Hw") as "Hw".
        { intros i. set (L := A ++ (j :: J) ++ v :: R).
          replace ((A ++ [v]) ++ (J ++ [vmoved v]) ++ R)
            with (<[length A := v]> (<[(length A + length (j :: J))%nat := vmoved v]> L)).
          - rewrite at_pos_insert; [|rewrite insert_length; unfold L; len; simpl; lia]. unfold upd.
            destruct (Z.eqb_spec i (q + zlen A)); [done|].
            rewrite at_pos_insert; [|unfold L; len; simpl; lia]. done.
          - unfold L. rewrite insert_app_r_alt; [|simpl; lia].
            rewrite insert_app_r_alt; [|simpl; lia].
            rewrite insert_app_r_alt; [|simpl; lia].
            replace (length A + length (j :: J) - length A - length (j :: J))%nat with 0%nat by (simpl; lia).
            rewrite Nat.sub_diag. simpl. by simplify_list_eq. }
        cbn [length]. sstep. sstep. sstep. sstep.
        replace (q + zlen A + 1) with (q + zlen (A ++ [v])) by (rewrite app_length /=; lia).
        replace (q + Z.of_nat (length A + S (length J)) + 1)
          with (q + Z.of_nat (length (A ++ [v]) + length (J ++ [vmoved v]))) by (rewrite !app_length /=; lia).
        iApply (IH (A ++ [v]) (J ++ [vmoved v]) with "Hw"); [rewrite app_length /=; lia|done|len; simpl; lia|].
        iSplit.
        * iIntros (J') "%HJ' Hl". iDestruct "HK" as "[HK _]".
          iSpecialize ("HK" $! J' with "[] [Hl]").
          { iPureIntro. rewrite HJ' app_length /=. unfold keep. lia. }
          { by simplify_list_eq. }
          rewrite app_length /=. unfold keep.
          replace (length A + 1 + length (List.filter (fun v => negb (pr v)) R))%nat
            with (length A + S (length (List.filter (fun v => negb (pr v)) R)))%nat by lia.
          done.
        * iIntros (l') "%Hl' Hl". iDestruct "HK" as "[_ HK]".
          iApply ("HK" with "[] Hl"). iPureIntro. rewrite Hl'. len. simpl. lia.
  Qed.

  Lemma wp_s_remove_if (pr : V -> bool) t segs q l s Q X :
    0 <= q -> q + zlen l < slots segs ->
    swin t segs (at_pos q l) ⊢
    ((∀ J', ⟦length J' = (length l - length (keep pr l))%nat⟧ -∗
        swin t segs (at_pos q (keep pr l ++ J')) -∗ Q (sitr t segs (q + zlen (keep pr l))) s) ∧
     (∀ l', ⟦length l' = length l⟧ -∗ swin t segs (at_pos q l') -∗ X EUser s)) -∗
    wp (s_remove_if pr (sitr t segs q) (sitr t segs (q + zlen l))) s Q X.
  Proof.
    iIntros (Hq Hb) "Hw HK". unfold s_remove_if. sstep. sstep.
    replace (Z.to_nat (q + zlen l - q)) with (length l) by lia.
    wbind. iApply (wp_s_find_if with "Hw"); [apply lists_at|done|done|]. iSplit; last first.
    { iIntros "Hw". iDestruct "HK" as "[_ HK]". by iApply ("HK" with "[] Hw"). }
    iIntros "Hw". wbeta. cbn [fst snd]. pose proof (first_match_split pr l) as Hs.
    destruct (drop (first_match pr l) l) as [|v l'] eqn:Hd.
    - destruct Hs as [Hk Hn]. rewrite Hn Nat.sub_diag. iApply wp_ret. iDestruct "HK" as "[HK _]".
      rewrite Hk. iApply ("HK" $! []); [iPureIntro; simpl; lia|]. by rewrite app_nil_r.
    - destruct Hs as (Hv & Hk & Hlt).
      assert (l = take (first_match pr l) l ++ [v] ++ l') as Hl.
      { change ([v] ++ l') with (v :: l'). by rewrite -Hd take_drop. }
      set (k := first_match pr l) in *. set (A := take k l) in *.
      assert (length A = k) as HA. { unfold A. rewrite take_length. lia. }
      assert (length l = (k + S (length l'))%nat) as Hlen.
      { rewrite {1}Hl !app_length HA /=. lia. }
      rewrite Hk. replace (length l - k)%nat with (S (length l')) by lia.
      sstep. sstep.
      replace (q + Z.of_nat k + 1) with (q + Z.of_nat (length A + length [v])) by (simpl; lia).
      rewrite -HA.
      iApply (wp_s_remove_loop pr t segs q A [v] l' with "[Hw]"); [simpl; lia|done|rewrite -Hl; lia|by rewrite {1}Hl|].
      iSplit.
      + iIntros (J') "%HJ' Hw". iDestruct "HK" as "[HK _]". rewrite app_length.
        iApply ("HK" $! J'); [|by simplify_list_eq]. iPureIntro. rewrite HJ' /=.
        pose proof (keep_length pr l'). lia.
      + iIntros (l2) "%Hl2 Hw". iDestruct "HK" as "[_ HK]". iApply ("HK" with "[] Hw").
        iPureIntro. by rewrite -Hl in Hl2.
  Qed.

  Lemma wp_s_equal (r : V -> V -> bool) t segs a l1 f t2 segs2 b l2 f2 s Q X :
    length l1 = length l2 -> lists f a l1 -> lists f2 b l2 ->
    0 <= a -> a + zlen l1 < slots segs -> 0 <= b -> b + zlen l2 < slots segs2 ->
    swin t segs f ⊢ swin t2 segs2 f2 -∗
    ((∀ c : bool, ⟦c = true <-> Forall2 (fun x y => r x y = true) l1 l2⟧ -∗
        swin t segs f -∗ swin t2 segs2 f2 -∗ Q c s) ∧
     (swin t segs f -∗ swin t2 segs2 f2 -∗ X EUser s)) -∗
    wp (s_equal r (sitr t segs a) (sitr t2 segs2 b) (length l1)) s Q X.
  Proof.
    revert a b l2 Q X. induction l1 as [|v l1 IH]; intros a b [|w l2] Q X Hlen H1 H2 Ha Ha2 Hb Hb2; try done;
      iIntros "Hw Hw2 HK"; simpl.
    - iApply wp_ret. iDestruct "HK" as "[HK _]".
      iApply ("HK" with "[] Hw Hw2"). iPureIntro. split; [constructor|done].
    - simpl in Ha2, Hb2. apply lists_cons in H1 as [Hv H1]. apply lists_cons in H2 as [Hv2 H2].
      wbind. sred. iApply (wp_sw_test2 _ _ _ _ v _ _ _ _ w with "Hw Hw2"); [lia|done|lia|done|].
      iSplit; last first.
      { iDestruct "HK" as "[_ HK]". done. }
      iIntros "Hw Hw2". wbeta. destruct (r v w) eqn:Hr.
      + sstep. sstep. wbind. iApply (wp_sw_succ with "Hw2"); [lia..|]. iIntros "Hw2". wbeta.
        iApply (IH _ _ l2 with "Hw Hw2"); [by injection Hlen|done|done|lia..|]. iSplit.
        * iIntros (c) "%Hc Hw Hw2". iDestruct "HK" as "[HK _]".
          iApply ("HK" with "[] Hw Hw2"). iPureIntro. rewrite Hc Forall2_cons. naive_solver.
        * iDestruct "HK" as "[_ HK]". done.
      + iApply wp_ret. iDestruct "HK" as "[HK _]". iApply ("HK" with "[] Hw Hw2").
        iPureIntro. split; [done|]. intros HF. by apply Forall2_false_cons in HF.
  Qed.

  Lemma wp_s_lexcmp (lt : V -> V -> bool) t segs a l1 f t2 segs2 b l2 f2 s Q X :
    lists f a l1 -> lists f2 b l2 ->
    0 <= a -> a + zlen l1 < slots segs -> 0 <= b -> b + zlen l2 < slots segs2 ->
    swin t segs f ⊢ swin t2 segs2 f2 -∗
    ((∀ c : bool, ⟦c = true <-> lex_less lt l1 l2⟧ -∗ swin t segs f -∗ swin t2 segs2 f2 -∗ Q c s) ∧
     (swin t segs f -∗ swin t2 segs2 f2 -∗ X EUser s)) -∗
    wp (s_lexcmp lt (sitr t segs a) (length l1) (sitr t2 segs2 b) (length l2)) s Q X.
  Proof.
    revert a b l2 Q X. induction l1 as [|v l1 IH]; intros a b [|w l2] Q X H1 H2 Ha Ha2 Hb Hb2; iIntros "Hw Hw2 HK".
    - iApply wp_ret. iDestruct "HK" as "[HK _]".
      iApply ("HK" with "[] Hw Hw2"). iPureIntro. split; [done|].
      intros [(k & ? & ? & ? & ?)|[? ?]]; [done|]. simpl in *. lia.
    - iApply wp_ret. iDestruct "HK" as "[HK _]".
      iApply ("HK" with "[] Hw Hw2"). iPureIntro. split; [|done]. intros _. right.
      split; [simpl; lia|]. intros j ? ? ?. simpl in *. lia.
    - iApply wp_ret. iDestruct "HK" as "[HK _]".
      iApply ("HK" with "[] Hw Hw2"). iPureIntro. split; [done|].
      intros [(k & ? & ? & ? & ? & ?)|[? ?]]; [done|]. simpl in *. lia.
    - simpl in Ha2, Hb2. apply lists_cons in H1 as [Hv H1]. apply lists_cons in H2 as [Hv2 H2]. simpl.
      wbind. sred. iApply (wp_sw_test2 _ _ _ _ v _ _ _ _ w with "Hw Hw2"); [lia|done|lia|done|].
      iSplit; last first.
      { iDestruct "HK" as "[_ HK]". done. }
      iIntros "Hw Hw2". wbeta. destruct (lt v w) eqn:Hvw.
      { iApply wp_ret. iDestruct "HK" as "[HK _]". iApply ("HK" with "[] Hw Hw2").
        iPureIntro. split; [|done]. intros _. apply lex_less_cons. by left. }
      wbind. sred. iApply (wp_sw_test2 _ _ _ _ w _ _ _ _ v with "Hw2 Hw"); [lia|done|lia|done|]. iSplit; last first.
      { iIntros "Hw2 Hw". iDestruct "HK" as "[_ HK]". iApply ("HK" with "Hw Hw2"). }
      iIntros "Hw2 Hw". wbeta. destruct (lt w v) eqn:Hwv.
      { iApply wp_ret. iDestruct "HK" as "[HK _]". iApply ("HK" with "[] Hw Hw2").
        iPureIntro. split; [done|]. rewrite lex_less_cons. intros [?|(? & ? & ?)]; congruence. }
      sstep. sstep. wbind. iApply (wp_sw_succ with "Hw2"); [lia..|]. iIntros "Hw2". wbeta.
      iApply (IH with "Hw Hw2"); [done|done|lia..|]. iSplit.
      + iIntros (c) "%Hc Hw Hw2". iDestruct "HK" as "[HK _]".
        iApply ("HK" with "[] Hw Hw2"). iPureIntro. rewrite Hc lex_less_cons. naive_solver congruence.
      + iDestruct "HK" as "[_ HK]". done.
  Qed.
End algo.

Section eraseif.
  Context `{E : Env} `{SZ : SegSize}.
  Implicit Types segs : list loc.
  Implicit Types T : tab.
  (** v 1786-1806 [erase], [erase_if]. *)
  Lemma keep_sv_erase_if T segs p l (pr : V -> bool) :
    keep_op T segs p l (sq_erase_if sv_erase_range pr) p (keep pr l) (zlen l - zlen (keep pr l))
      (fun l' => length l' = length l).
  Proof.
    intros Q X. sopen. unfold sq_erase_if. pose proof (keep_length pr l) as Hk. sstep. sstep.
    wbind. iApply (wp_s_remove_if with "Hw"); [done|done|]. iSplit.
    2:{ iIntros (l') "%Hl' Hw". iDestruct "HK" as "[_ HK]".
        replace (sobj T segs p (zlen l)) with (sobj T segs p (zlen l')) by (f_equal; lia).
        iApply ("HK" with "[//]"). iApply (sg_at_close with "Hf Hw"); lia. }
    iIntros (J') "%HJ Hw". wbeta. sstep. sstep.
    assert (length (keep pr l ++ J') = length l) as Hlen by (rewrite app_length; lia).
    replace (p + zlen l) with (p + Z.of_nat (length l)) by lia.
    iDestruct (sg_at_close _ _ p (keep pr l ++ J') with "Hf Hw") as "Hs"; [lia..|].
    replace (sobj T segs p (zlen l)) with (sobj T segs p (zlen (keep pr l ++ J'))) by (f_equal; lia).
    wbind. iApply (keep_sv_erase_range T segs p (keep pr l ++ J') (length (keep pr l)) (length l) with "Hs"); [lia|done|done|].
    iSplit.
    - iIntros "Hs". wbeta. iApply wp_ret. iDestruct "HK" as "[HK _]".
      rewrite take_app drop_ge; [|lia]. rewrite app_nil_r.
      replace (zlen l - zlen (keep pr l)) with (p + zlen l - (p + zlen (keep pr l))) by lia. by iApply "HK".
    - iIntros (l') "%Hl' Hs". wbeta. iDestruct "HK" as "[_ HK]". iApply ("HK" with "[%] Hs"). lia.
  Qed.
End eraseif.
