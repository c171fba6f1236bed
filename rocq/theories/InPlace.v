(** * Specifications of the in-place operations on contiguous storage *)

From Verif Require Export ContigLib.
From iris.proofmode Require Import tactics.
Open Scope Z_scope.

Section inplace.
  Context `{E : Env}.

  Lemma snoc_case {A} (l : list A) : l <> [] -> exists l0 x, l = l0 ++ [x].
  Proof. intros. destruct l using rev_ind; [done|]. eauto. Qed.

  Lemma wp_emplace_back_inplace a f l cap ar v l1 Q X :
    Z.of_nat (length l) < cap -> arg_rel f l ar v l1 ->
    body f l cap ⊢
    ((body f (l1 ++ [v]) cap -∗ Q (f +ₗ Z.of_nat (length l)) (vobj a f (S (length l)) cap)) ∧
     (∀ l' n', ⟦n' = length l' /\ arg_exn ar l l'⟧ -∗ body f l' cap -∗ X EUser (vobj a f n' cap))) -∗
    wp (emplace_back_inplace ar) (vobj a f (length l) cap) Q X.
  Proof.
    iIntros (Hc Har) "(_ & Hl & Hr) HK". pose proof (arg_rel_length _ _ _ _ _ Har) as Hlen.
    unfold emplace_back_inplace. wbind. iApply wp_get. wbeta. wbind. simpl.
    iDestruct (raws_one _ _ _ (Z.to_nat cap - S (length l)) with "Hr") as "[Hr1 Hr]"; [lia|done|].
    iApply (wp_construct with "Hl Hr1"); [by apply arg_rel_mk|]. iSplit.
    - iIntros "Hl Hv". wbind. iApply (wp_set_last _ _ _ (S (length l))); [loc_solve|]. iApply wp_ret.
      iDestruct "HK" as "[HK _]". iApply "HK".
      iDestruct (elems_snoc_join with "Hl Hv") as "Hl"; [by rewrite Hlen|done|].
      iApply (body_intro with "Hl Hr"); [loc_solve|nlia|nlia].
    - iIntros "H Hr1". iDestruct "H" as (l') "[%Hx Hl]". iDestruct "HK" as "[_ HK]".
      destruct (Hx) as [Hx1 Hx2].
      iApply "HK"; [iPureIntro; by split|].
      iDestruct (raws_one_join with "Hr1 Hr") as "Hr"; [done|done|].
      iApply (body_intro with "Hl Hr"); [loc_solve|nlia|nlia].
  Qed.

  Lemma wp_emplace_inplace a f l cap i ar v l1 Q X :
    (i <= length l)%nat -> Z.of_nat (length l) < cap -> arg_rel f l ar v l1 ->
    body f l cap ⊢
    ((body f (insert_at i [v] l1) cap -∗ Q (f +ₗ Z.of_nat i) (vobj a f (S (length l)) cap)) ∧
     (∀ l' n', ⟦n' = length l' /\ ins_exn l i 1 ar l'⟧ -∗ body f l' cap -∗ X EUser (vobj a f n' cap))) -∗
    wp (emplace_inplace (f +ₗ Z.of_nat i) ar) (vobj a f (length l) cap) Q X.
  Proof.
    iIntros (Hi Hc Har) "(_ & Hl & Hr) HK". pose proof (arg_rel_length _ _ _ _ _ Har) as Hlen.
    unfold emplace_inplace. wbind. iApply wp_get. wbeta. wbind. iApply wp_offset_of; [done|].
    wbeta. simpl. rewrite loc_eqb_add.
    iDestruct (raws_one _ _ _ (Z.to_nat cap - S (length l)) with "Hr") as "[Hr1 Hr]"; [lia|done|].
    destruct (Z.eqb_spec (Z.of_nat i) (Z.of_nat (length l))) as [Heq|Hne].
    { wbind. assert (i = length l) as -> by lia.
      iApply (wp_construct with "Hl Hr1"); [by apply arg_rel_mk|]. iSplit.
      - iIntros "Hl Hv". wbind. iApply (wp_set_last _ _ _ (S (length l))); [loc_solve|]. iApply wp_ret.
        iDestruct "HK" as "[HK _]". iApply "HK". rewrite insert_at_end; [|done].
        iDestruct (elems_snoc_join with "Hl Hv") as "Hl"; [by rewrite Hlen|done|].
        iApply (body_intro with "Hl Hr"); [loc_solve|nlia|nlia].
      - iIntros "H Hr1". iDestruct "H" as (l') "[%Hx Hl]". iDestruct "HK" as "[_ HK]".
        destruct (Hx) as [Hx1 Hx2].
        iApply "HK"; [iPureIntro; split; [done|by left]|].
        iDestruct (raws_one_join with "Hr1 Hr") as "Hr"; [done|done|].
        iApply (body_intro with "Hl Hr"); [loc_solve|nlia|nlia]. }
    wbind. iApply (arg_rel_mk _ _ _ _ _ Har with "Hl"). iSplit; last first.
    { iIntros "H". iDestruct "H" as (l') "[%Hx Hl]". iDestruct "HK" as "[_ HK]".
      destruct (Hx) as [Hx1 Hx2].
      iApply "HK"; [iPureIntro; split; [done|by left]|].
      iDestruct (raws_one_join with "Hr1 Hr") as "Hr"; [done|done|].
      iApply (body_intro with "Hl Hr"); [loc_solve|nlia|nlia]. }
    iIntros "Hl".
    destruct (snoc_case (drop i l1)) as (B & x & HB).
    { intros Hn. apply (f_equal length) in Hn. nlia. }
    assert (Hl1 : l1 = take i l1 ++ B ++ [x]) by (by rewrite -HB take_drop).
    set (A := take i l1) in *.
    assert (HA : length A = i) by (unfold A; nlia).
    assert (HBl : length B = (length l - i - 1)%nat).
    { apply (f_equal length) in HB. nlia. }
    rewrite Hl1.
    iDestruct (elems_split _ _ A _ (f +ₗ Z.of_nat i) with "Hl") as "[HA Hl]"; [done|by rewrite HA|].
    iDestruct (elems_snoc_split _ _ B x (f +ₗ Z.of_nat (length l) +ₗ -1) with "Hl") as "[HB Hx]";
      [done|loc_solve|].
    wbind. iApply (wp_construct with "Hx Hr1"); [apply mk_ok_move1|].
    iSplit; last first.
    { iIntros "H Hr1". iDestruct "H" as (x') "[_ Hx]".
      iDestruct "HK" as "[_ HK]".
      iDestruct (elems_snoc_join with "HB Hx") as "Hl"; [loc_solve|done|].
      iDestruct (elems_join with "HA Hl") as "Hl"; [loc_solve|done|].
      iApply ("HK" $! (A ++ B ++ [x'])); [iPureIntro; split; [|right]; nlia|].
      iDestruct (raws_one_join with "Hr1 Hr") as "Hr"; [done|done|].
      iApply (body_intro with "Hl Hr"); [loc_solve|nlia|nlia]. }
    iIntros "Hx Hx2". wbind. iApply (wp_set_last _ _ _ (S (length l))); [loc_solve|].
    wbind.
    iDestruct (elems_snoc_join with "HB Hx") as "Hl"; [loc_solve|done|].
    iApply (wp_move_backward with "Hl"); [simpl; lia|loc_solve|loc_solve|].
    iSplit; last first.
    { iIntros (l') "%Hl' Hl". iDestruct "HK" as "[_ HK]".
      iDestruct (elems_join with "HA Hl") as "Hl"; [loc_solve|done|].
      iDestruct (elems_snoc_join with "Hl Hx2") as "Hl"; [loc_solve|done|].
      iApply ("HK" $! ((A ++ l') ++ [x])); [iPureIntro; split; [|right]; nlia|].
      iApply (body_intro with "Hl Hr"); [loc_solve|nlia|nlia]. }
    iIntros (l') "%Hl' Hl". destruct l' as [|y [|]]; try done.
    simpl. rewrite elems_cons. iDestruct "Hl" as "[Hy Hl]".
    wbind. iApply (as_ok_val emp%I with "[//] Hy"). iSplit; last first.
    { iIntros (c) "_ Hy". iDestruct "HK" as "[_ HK]".
      iDestruct (elems_cons_join with "Hy Hl") as "Hl"; [done|done|].
      iDestruct (elems_join with "HA Hl") as "Hl"; [loc_solve|done|].
      iDestruct (elems_snoc_join with "Hl Hx2") as "Hl"; [loc_solve|done|].
      iApply ("HK" $! ((A ++ c :: B) ++ [x])); [iPureIntro; split; [|right]; nlia|].
      iApply (body_intro with "Hl Hr"); [loc_solve|nlia|nlia]. }
    iIntros "_ Hy". iApply wp_ret. iDestruct "HK" as "[HK _]". iApply "HK".
    iDestruct (elems_cons_join with "Hy Hl") as "Hl"; [done|done|].
    iDestruct (elems_join with "HA Hl") as "Hl"; [loc_solve|done|].
    iDestruct (elems_snoc_join _ (insert_at i [v] (A ++ B ++ [x])) with "Hl Hx2") as "Hl"; [loc_solve| |].
    { unfold insert_at. rewrite take_app_alt; [|done]. rewrite drop_app_alt; [|done].
      by rewrite -!assoc_L. }
    iApply (body_intro with "Hl Hr"); [loc_solve|nlia|nlia].
  Qed.

  (** A forward range of sources, usable by assignment for a prefix and by
      construction for the rest. *)
  Definition src_ok (PX P : hProp) (srcs : list arg) (vs : list V) (P' : hProp) : Prop :=
    length srcs = length vs /\
    forall k, exists Pk, ass_ok PX P (take k srcs) (take k vs) Pk /\
                         mks_ok PX Pk (drop k srcs) (drop k vs) P'.

  Lemma src_mks PX P srcs vs P' : src_ok PX P srcs vs P' -> mks_ok PX P srcs vs P'.
  Proof. intros [_ Hk]. destruct (Hk 0%nat) as (Pk & Ha & Hm). by inversion Ha; subst. Qed.
  Lemma src_ass PX P srcs vs P' : src_ok PX P srcs vs P' -> ass_ok PX P srcs vs P'.
  Proof.
    intros [Hl Hk]. destruct (Hk (length srcs)) as (Pk & Ha & Hm).
    rewrite firstn_all Hl firstn_all drop_all in Ha, Hm.
    rewrite <- Hl in Hm. rewrite drop_all in Hm. by inversion Hm; subst.
  Qed.

  Lemma src_vals P vs : src_ok P P (AVal <$> vs) vs P.
  Proof.
    split; [by rewrite fmap_length|]. intros k. exists P. rewrite -fmap_take -fmap_drop.
    split; [apply ass_vals|apply mks_vals].
  Qed.

  Lemma wp_insert_fill_inplace a f l cap i n ar v Q X :
    (0 < n)%nat -> (i <= length l)%nat -> Z.of_nat (length l + n) <= cap ->
    arg_rel f l ar v l -> ~ is_move ar ->
    body f l cap ⊢
    ((body f (insert_at i (replicate n v) l) cap -∗
      Q (f +ₗ Z.of_nat i) (vobj a f (n + length l) cap)) ∧
     (∀ l' n', ⟦n' = length l' /\ ins_exn l i n ar l'⟧ -∗ body f l' cap -∗ X EUser (vobj a f n' cap))) -∗
    wp (insert_fill_inplace (f +ₗ Z.of_nat i) (Z.of_nat n) ar) (vobj a f (length l) cap) Q X.
  Proof.
    iIntros (Hn Hi Hc Har Hm) "(_ & Hl & Hr) HK".
    destruct (arg_rel_const _ _ _ _ _ Har Hm) as [_ Hmk].
    assert (Hx0 : arg_exn ar l l) by (split; [done|by destruct ar]).
    unfold insert_fill_inplace. wbind. iApply wp_get. wbeta. wbind.
    iApply (Hmk with "Hl"). iSplit; last first.
    { iIntros "Hl". iDestruct "HK" as "[_ HK]".
      iApply "HK"; [iPureIntro; split; [done|by left]|].
      iApply (body_intro with "Hl Hr"); [loc_solve|nlia|nlia]. }
    iIntros "Hl". wbind. iApply wp_offset_of; [done|]. wbeta. simpl.
    wbind. iApply (wp_psub _ _ (Z.of_nat (length l) - Z.of_nat i - Z.of_nat n)); [loc_solve|]. wbeta.
    iDestruct (raws_split _ _ n (Z.to_nat cap - (length l + n)) with "Hr") as "[Hr1 Hr]"; [lia|done|].
    destruct (Z.leb_spec 0 (Z.of_nat (length l) - Z.of_nat i - Z.of_nat n)) as [Hd|Hd].
    - (* the tail is at least as long as the gap *)
      set (A := take i l). set (B := take (length l - i - n) (drop i l)).
      set (C := drop (length l - n) l).
      assert (Hl : l = A ++ B ++ C).
      { unfold A, B, C. rewrite -{1}(take_drop i l). f_equal.
        rewrite -{1}(take_drop (length l - i - n) (drop i l)). f_equal.
        rewrite drop_drop. f_equal. lia. }
      assert (HA : length A = i) by (unfold A; nlia).
      assert (HB : length B = (length l - i - n)%nat) by (unfold B; nlia).
      assert (HC : length C = n) by (unfold C; nlia).
      clearbody A B C. rewrite Hl.
      iDestruct (elems_split _ _ A _ (f +ₗ Z.of_nat i) with "Hl") as "[HA Hl]"; [done|by rewrite HA|].
      iDestruct (elems_split _ _ B _ (f +ₗ Z.of_nat (length l) +ₗ - Z.of_nat n) with "Hl") as "[HB HC]";
        [done|loc_solve|].
      rewrite <- Hl. wbind.
      iDestruct (raws_eq _ _ _ (length C) with "Hr1") as "Hr1"; [done|done|].
      iApply (wp_umove with "HC Hr1"); [loc_solve|].
      iSplit; last first.
      { iIntros (C') "%HC' HC Hr1". destruct HC' as [[HC' _] _]. iDestruct "HK" as "[_ HK]".
        iDestruct (elems_join with "HB HC") as "Hl"; [loc_solve|done|].
        iDestruct (elems_join with "HA Hl") as "Hl"; [loc_solve|done|].
        iApply ("HK" $! (A ++ B ++ C')); [iPureIntro; split; [|right]; nlia|].
        iDestruct (raws_join with "Hr1 Hr") as "Hr"; [by rewrite HC|done|].
        iApply (body_intro with "Hl Hr"); [loc_solve|nlia|nlia]. }
      iIntros "HC HC2". wbind. iApply (wp_set_last _ _ _ (length l + n)); [loc_solve|]. wbind.
      iDestruct (elems_join with "HB HC") as "Hl"; [loc_solve|done|].
      iApply (wp_move_backward with "Hl"); [nlia|loc_solve|loc_solve|].
      iSplit; last first.
      { iIntros (l') "%Hl' Hl". iDestruct "HK" as "[_ HK]".
        iDestruct (elems_join with "HA Hl") as "Hl"; [loc_solve|done|].
        iDestruct (elems_join with "Hl HC2") as "Hl"; [loc_solve|done|].
        iApply ("HK" $! ((A ++ l') ++ C)); [iPureIntro; split; [|right]; nlia|].
        iApply (body_intro with "Hl Hr"); [loc_solve|nlia|nlia]. }
      iIntros (l') "%Hl' Hl". wbind.
      iDestruct (elems_split _ _ l' B (f +ₗ Z.of_nat i +ₗ Z.of_nat n) with "Hl") as "[Hl' HB]";
        [done|loc_solve|].
      iApply (wp_fill emp%I with "[//] Hl'"); [apply as_ok_val|loc_solve|].
      iSplit; last first.
      { iIntros (l2) "%Hl2 _ Hl". iDestruct "HK" as "[_ HK]".
        iDestruct (elems_join with "Hl HB") as "Hl"; [loc_solve|done|].
        iDestruct (elems_join with "HA Hl") as "Hl"; [loc_solve|done|].
        iDestruct (elems_join with "Hl HC2") as "Hl"; [loc_solve|done|].
        iApply ("HK" $! ((A ++ l2 ++ B) ++ C)); [iPureIntro; split; [|right]; nlia|].
        iApply (body_intro with "Hl Hr"); [loc_solve|nlia|nlia]. }
      iIntros "_ Hl". iApply wp_ret. iDestruct "HK" as "[HK _]".
      replace (length l + n)%nat with (n + length l)%nat by lia. iApply "HK".
      iDestruct (elems_join with "Hl HB") as "Hl"; [loc_solve|done|].
      iDestruct (elems_join with "HA Hl") as "Hl"; [loc_solve|done|].
      iDestruct (elems_join _ (insert_at i (replicate n v) l) with "Hl HC2") as "Hl"; [loc_solve| |].
      { unfold insert_at. rewrite Hl take_app_alt; [|done]. rewrite drop_app_alt; [|done].
        rewrite -!assoc_L. do 3 f_equal. nlia. }
      iApply (body_intro with "Hl Hr"); [loc_solve|nlia|nlia].
    - set (A := take i l). set (B := drop i l).
      assert (Hl : l = A ++ B) by (unfold A, B; by rewrite take_drop).
      assert (HA : length A = i) by (unfold A; nlia).
      assert (HB : length B = (length l - i)%nat) by (unfold B; nlia).
      clearbody A B.
      iDestruct (raws_split _ _ (n - length B) (length B) (f +ₗ Z.of_nat i +ₗ Z.of_nat n) with "Hr1")
        as "[Hr1 Hr2]"; [lia|loc_solve|].
      wbind. iApply (wp_ufill emp%I with "[//] Hr1"); [apply mk_ok_val|loc_solve|].
      iSplit; last first.
      { iIntros "_ Hr1". iDestruct "HK" as "[_ HK]".
        iApply "HK"; [iPureIntro; split; [done|by left]|].
        iDestruct (raws_join with "Hr1 Hr2") as "Hr1"; [loc_solve|done|].
        iDestruct (raws_join with "Hr1 Hr") as "Hr"; [loc_solve|done|].
        iApply (body_intro with "Hl Hr"); [loc_solve|nlia|nlia]. }
      iIntros "_ HN". rewrite {5}Hl.
      iDestruct (elems_split _ _ A _ (f +ₗ Z.of_nat i) with "Hl") as "[HA HB]"; [done|by rewrite HA|].
      wbind. iApply (wp_set_last _ _ _ (i + n)); [loc_solve|]. wbind.
      iApply (wp_umove with "HB Hr2"); [loc_solve|].
      iSplit; last first.
      { iIntros (B') "%HB' HB Hr2". iDestruct "HK" as "[_ HK]".
        iDestruct (elems_join with "HA HB") as "Hl"; [loc_solve|done|].
        iDestruct (elems_join with "Hl HN") as "Hl"; [loc_solve|done|].
        iApply ("HK" $! ((A ++ B') ++ replicate (n - length B) v));
          [iPureIntro; split; [|right]; nlia|].
        iDestruct (raws_join with "Hr2 Hr") as "Hr"; [loc_solve|done|].
        iApply (body_intro with "Hl Hr"); [loc_solve|nlia|nlia]. }
      iIntros "HB HB2". wbind. iApply (wp_set_last _ _ _ (n + length l)); [loc_solve|]. wbind.
      iApply (wp_fill emp%I with "[//] HB"); [apply as_ok_val|loc_solve|].
      iSplit; last first.
      { iIntros (l2) "%Hl2 _ Hl". iDestruct "HK" as "[_ HK]".
        iDestruct (elems_join with "HA Hl") as "Hl"; [loc_solve|done|].
        iDestruct (elems_join with "Hl HN") as "Hl"; [loc_solve|done|].
        iDestruct (elems_join with "Hl HB2") as "Hl"; [loc_solve|done|].
        iApply ("HK" $! (((A ++ l2) ++ replicate (n - length B) v) ++ B));
          [iPureIntro; split; [|right]; nlia|].
        iApply (body_intro with "Hl Hr"); [loc_solve|nlia|nlia]. }
      iIntros "_ Hl". iApply wp_ret. iDestruct "HK" as "[HK _]". iApply "HK".
      iDestruct (elems_join with "HA Hl") as "Hl"; [loc_solve|done|].
      iDestruct (elems_join with "Hl HN") as "Hl"; [loc_solve|done|].
      iDestruct (elems_join _ (insert_at i (replicate n v) l) with "Hl HB2") as "Hl"; [loc_solve| |].
      { unfold insert_at. rewrite Hl take_app_alt; [|done]. rewrite drop_app_alt; [|done].
        rewrite -!assoc_L. f_equal. rewrite assoc_L. f_equal.
        rewrite -replicate_add. f_equal. nlia. }
      iApply (body_intro with "Hl Hr"); [loc_solve|nlia|nlia].
  Qed.

  Lemma wp_insert_range_inplace a f l cap i vs Q X :
    (0 < length vs)%nat -> (i <= length l)%nat -> Z.of_nat (length l + length vs) <= cap ->
    body f l cap ⊢
    ((body f (insert_at i vs l) cap -∗
      Q (f +ₗ Z.of_nat i) (vobj a f (length vs + length l) cap)) ∧
     (∀ l' n', ⟦n' = length l' /\ ins_exn l i (length vs) ADef l'⟧ -∗ body f l' cap -∗
        X EUser (vobj a f n' cap))) -∗
    wp (insert_range_inplace (f +ₗ Z.of_nat i) (AVal <$> vs)) (vobj a f (length l) cap) Q X.
  Proof.
    iIntros (Hn Hi Hc) "(_ & Hl & Hr) HK".
    unfold insert_range_inplace. wbind. iApply wp_get. wbeta. wbind.
    iApply wp_offset_of; [done|]. wbeta. simpl. rewrite fmap_length.
    set (n := length vs) in *.
    wbind. iApply (wp_psub _ _ (Z.of_nat (length l) - Z.of_nat i - Z.of_nat n)); [loc_solve|]. wbeta.
    iDestruct (raws_split _ _ n (Z.to_nat cap - (length l + n)) with "Hr") as "[Hr1 Hr]"; [lia|done|].
    destruct (Z.leb_spec 0 (Z.of_nat (length l) - Z.of_nat i - Z.of_nat n)) as [Hd|Hd].
    - set (A := take i l). set (B := take (length l - i - n) (drop i l)).
      set (C := drop (length l - n) l).
      assert (Hl : l = A ++ B ++ C).
      { unfold A, B, C. rewrite -{1}(take_drop i l). f_equal.
        rewrite -{1}(take_drop (length l - i - n) (drop i l)). f_equal.
        rewrite drop_drop. f_equal. lia. }
      assert (HA : length A = i) by (unfold A; nlia).
      assert (HB : length B = (length l - i - n)%nat) by (unfold B; nlia).
      assert (HC : length C = n) by (unfold C; nlia).
      clearbody A B C. rewrite Hl.
      iDestruct (elems_split _ _ A _ (f +ₗ Z.of_nat i) with "Hl") as "[HA Hl]"; [done|by rewrite HA|].
      iDestruct (elems_split _ _ B _ (f +ₗ Z.of_nat (length l) +ₗ - Z.of_nat n) with "Hl") as "[HB HC]";
        [done|loc_solve|].
      rewrite <- Hl. wbind.
      iDestruct (raws_eq _ _ _ (length C) with "Hr1") as "Hr1"; [done|done|].
      iApply (wp_umove with "HC Hr1"); [loc_solve|].
      iSplit; last first.
      { iIntros (C') "%HC' HC Hr1". destruct HC' as [[HC' _] _]. iDestruct "HK" as "[_ HK]".
        iDestruct (elems_join with "HB HC") as "Hl"; [loc_solve|done|].
        iDestruct (elems_join with "HA Hl") as "Hl"; [loc_solve|done|].
        iApply ("HK" $! (A ++ B ++ C')); [iPureIntro; split; [|right]; nlia|].
        iDestruct (raws_join with "Hr1 Hr") as "Hr"; [by rewrite HC|done|].
        iApply (body_intro with "Hl Hr"); [loc_solve|nlia|nlia]. }
      iIntros "HC HC2". wbind. iApply (wp_set_last _ _ _ (n + length l)); [loc_solve|]. wbind.
      iDestruct (elems_join with "HB HC") as "Hl"; [loc_solve|done|].
      iApply (wp_move_backward with "Hl"); [nlia|loc_solve|loc_solve|].
      iSplit; last first.
      { iIntros (l') "%Hl' Hl". iDestruct "HK" as "[_ HK]".
        iDestruct (elems_join with "HA Hl") as "Hl"; [loc_solve|done|].
        iDestruct (elems_join with "Hl HC2") as "Hl"; [loc_solve|done|].
        iApply ("HK" $! ((A ++ l') ++ C)); [iPureIntro; split; [|right]; nlia|].
        iApply (body_intro with "Hl Hr"); [loc_solve|nlia|nlia]. }
      iIntros (l') "%Hl' Hl". wbind.
      iDestruct (elems_split _ _ l' B (f +ₗ Z.of_nat i +ₗ Z.of_nat n) with "Hl") as "[Hl' HB]";
        [done|loc_solve|].
      iApply (wp_assign_loop emp%I emp%I with "[//] Hl'"); [apply ass_vals|nlia|].
      iSplit; last first.
      { iIntros (l2) "%Hl2 _ Hl". iDestruct "HK" as "[_ HK]".
        iDestruct (elems_join with "Hl HB") as "Hl"; [loc_solve|done|].
        iDestruct (elems_join with "HA Hl") as "Hl"; [loc_solve|done|].
        iDestruct (elems_join with "Hl HC2") as "Hl"; [loc_solve|done|].
        iApply ("HK" $! ((A ++ l2 ++ B) ++ C)); [iPureIntro; split; [|right]; nlia|].
        iApply (body_intro with "Hl Hr"); [loc_solve|nlia|nlia]. }
      iIntros "_ Hl". iApply wp_ret. iDestruct "HK" as "[HK _]". iApply "HK".
      iDestruct (elems_join with "Hl HB") as "Hl"; [loc_solve|done|].
      iDestruct (elems_join with "HA Hl") as "Hl"; [loc_solve|done|].
      iDestruct (elems_join _ (insert_at i vs l) with "Hl HC2") as "Hl"; [loc_solve| |].
      { unfold insert_at. rewrite Hl take_app_alt; [|done]. rewrite drop_app_alt; [|done].
        by rewrite -!assoc_L. }
      iApply (body_intro with "Hl Hr"); [loc_solve|nlia|nlia].
    - set (A := take i l). set (B := drop i l).
      assert (Hl : l = A ++ B) by (unfold A, B; by rewrite take_drop).
      assert (HA : length A = i) by (unfold A; nlia).
      assert (HB : length B = (length l - i)%nat) by (unfold B; nlia).
      clearbody A B.
      iDestruct (raws_split _ _ (n - length B) (length B) (f +ₗ Z.of_nat i +ₗ Z.of_nat n) with "Hr1")
        as "[Hr1 Hr2]"; [lia|loc_solve|].
      wbind. iApply (wp_psub _ _ (Z.of_nat (length B))); [loc_solve|]. wbeta. rewrite Nat2Z.id.
      rewrite -fmap_drop -fmap_take. wbind.
      iDestruct (raws_eq _ _ _ (length (drop (length B) vs)) with "Hr1") as "Hr1"; [done|nlia|].
      iApply (wp_ucopy emp%I emp%I with "[//] Hr1"); [apply mks_vals|].
      iSplit; last first.
      { iIntros "_ Hr1". iDestruct "HK" as "[_ HK]".
        iApply "HK"; [iPureIntro; split; [done|by left]|].
        iDestruct (raws_join with "Hr1 Hr2") as "Hr1"; [loc_solve|done|].
        iDestruct (raws_join with "Hr1 Hr") as "Hr"; [loc_solve|done|].
        iApply (body_intro with "Hl Hr"); [loc_solve|nlia|nlia]. }
      iIntros "_ HN". rewrite {5}Hl.
      iDestruct (elems_split _ _ A _ (f +ₗ Z.of_nat i) with "Hl") as "[HA HB]"; [done|by rewrite HA|].
      wbind. iApply (wp_set_last _ _ _ (i + n)); [loc_solve|]. wbind.
      replace (f +ₗ Z.of_nat (length l) +ₗ Z.of_nat (length (drop (length B) vs)))
        with (f +ₗ Z.of_nat i +ₗ Z.of_nat n) by loc_solve.
      iApply (wp_umove with "HB Hr2"); [loc_solve|].
      iSplit; last first.
      { iIntros (B') "%HB' HB Hr2". iDestruct "HK" as "[_ HK]".
        iDestruct (elems_join with "HA HB") as "Hl"; [loc_solve|done|].
        iDestruct (elems_join with "Hl HN") as "Hl"; [loc_solve|done|].
        iApply ("HK" $! ((A ++ B') ++ drop (length B) vs));
          [iPureIntro; split; [|right]; nlia|].
        iDestruct (raws_join with "Hr2 Hr") as "Hr"; [loc_solve|done|].
        iApply (body_intro with "Hl Hr"); [loc_solve|nlia|nlia]. }
      iIntros "HB HB2". wbind. iApply (wp_set_last _ _ _ (n + length l)); [loc_solve|]. wbind.
      iApply (wp_assign_loop emp%I emp%I with "[//] HB"); [apply ass_vals|nlia|].
      iSplit; last first.
      { iIntros (l2) "%Hl2 _ Hl". iDestruct "HK" as "[_ HK]".
        iDestruct (elems_join with "HA Hl") as "Hl"; [loc_solve|done|].
        iDestruct (elems_join with "Hl HN") as "Hl"; [loc_solve|done|].
        iDestruct (elems_join with "Hl HB2") as "Hl"; [loc_solve|done|].
        iApply ("HK" $! (((A ++ l2) ++ drop (length B) vs) ++ B));
          [iPureIntro; split; [|right]; nlia|].
        iApply (body_intro with "Hl Hr"); [loc_solve|nlia|nlia]. }
      iIntros "_ Hl". iApply wp_ret. iDestruct "HK" as "[HK _]". iApply "HK".
      iDestruct (elems_join with "HA Hl") as "Hl"; [loc_solve|done|].
      iDestruct (elems_join with "Hl HN") as "Hl"; [loc_solve|done|].
      iDestruct (elems_join _ (insert_at i vs l) with "Hl HB2") as "Hl"; [loc_solve| |].
      { unfold insert_at. rewrite Hl take_app_alt; [|done]. rewrite drop_app_alt; [|done].
        rewrite -{1}(take_drop (length B) vs). by rewrite -!assoc_L. }
      iApply (body_intro with "Hl Hr"); [loc_solve|nlia|nlia].
  Qed.

  (** *** Removal *)

  Lemma wp_clear a f l cap Q X :
    body f l cap ⊢ (body f [] cap -∗ Q tt (vobj a f 0 cap)) -∗
    wp clear_ (vobj a f (length l) cap) Q X.
  Proof.
    iIntros "(%Hc & Hl & Hr) HK". unfold clear_. wbind. iApply wp_get. wbeta. wbind.
    iApply (wp_destroy_a with "Hl"); [done|]. iIntros "Hl".
    iApply (wp_set_last _ _ _ 0); [simpl; by rewrite loc_add_0|]. iApply "HK".
    iDestruct (raws_join with "Hl Hr") as "Hr"; [done|done|].
    iApply (body_intro with "[] Hr"); [simpl; by rewrite loc_add_0|nlia|nlia|]. by rewrite elems_nil.
  Qed.

  Lemma wp_pop_back a f l v cap Q X :
    body f (l ++ [v]) cap ⊢ (body f l cap -∗ Q tt (vobj a f (length l) cap)) -∗
    wp pop_back_ (vobj a f (length (l ++ [v])) cap) Q X.
  Proof.
    iIntros "(%Hc & Hl & Hr) HK". unfold pop_back_. wbind. iApply wp_get. wbeta. wbind.
    iApply wp_assert.
    { simpl. rewrite -{1}(loc_add_0 f) loc_eqb_add negb_true_iff Z.eqb_neq app_length. simpl. lia. }
    wbind. iApply (wp_set_last _ _ _ (length l)); [simpl; loc_solve|].
    iDestruct (elems_snoc_split with "Hl") as "[Hl Hv]"; [done|done|]. simpl.
    replace (f +ₗ Z.of_nat (length (l ++ [v])) +ₗ -1) with (f +ₗ Z.of_nat (length l)) by loc_solve.
    iApply (wp_destroy_at with "Hv"). iIntros "Hv". iApply "HK".
    iDestruct (raws_one_join with "Hv Hr") as "Hr"; [loc_solve|done|].
    iApply (body_intro with "Hl Hr"); [loc_solve|nlia|nlia].
  Qed.

  Lemma wp_truncate a f l cap n Q X :
    (n <= length l)%nat ->
    body f l cap ⊢ (body f (take n l) cap -∗ Q tt (vobj a f n cap)) -∗
    wp (truncate (Z.of_nat n)) (vobj a f (length l) cap) Q X.
  Proof.
    iIntros (Hn) "(%Hc & Hl & Hr) HK". unfold truncate. wbind. iApply wp_get. wbeta. wbind.
    iDestruct (elems_split _ _ (take n l) (drop n l) (f +ₗ Z.of_nat n) with "Hl") as "[H1 H2]";
      [by rewrite take_drop|loc_solve|].
    iApply (wp_destroy_a with "H2"); [simpl; loc_solve|]. iIntros "H2".
    iApply (wp_set_last _ _ _ n); [done|]. iApply "HK".
    iDestruct (raws_join with "H2 Hr") as "Hr"; [loc_solve|done|].
    iApply (body_intro with "H1 Hr"); [loc_solve|nlia|nlia].
  Qed.

  (** Elements removed from [i] to [j]. *)
  Definition remove_range (i j : nat) (l : list V) : list V := take i l ++ drop j l.
  Lemma remove_range_length i j l :
    (i <= j <= length l)%nat -> length (remove_range i j l) = (length l - (j - i))%nat.
  Proof. intros. unfold remove_range. nlia. Qed.

  Lemma wp_erase a f l cap i Q X :
    (i < length l)%nat ->
    body f l cap ⊢
    ((body f (remove_range i (S i) l) cap -∗ Q (f +ₗ Z.of_nat i) (vobj a f (length l - 1) cap)) ∧
     (∀ l', ⟦length l' = length l /\ take i l' = take i l /\ (S i < length l)%nat⟧ -∗
        body f l' cap -∗ X EUser (vobj a f (length l) cap))) -∗
    wp (erase_ (f +ₗ Z.of_nat i)) (vobj a f (length l) cap) Q X.
  Proof.
    iIntros (Hi) "(%Hc & Hl & Hr) HK". unfold erase_. wbind. iApply wp_get. wbeta. wbind.
    iApply wp_offset_of; [lia|]. wbeta. wbind. simpl. rewrite loc_eqb_add.
    iApply wp_assert; [rewrite negb_true_iff Z.eqb_neq; lia|]. wbind.
    set (A := take i l). set (C := drop (S i) l).
    destruct (lookup_lt_is_Some_2 l i Hi) as [x Hx].
    assert (Hl : l = A ++ [x] ++ C) by (unfold A, C; simpl; by rewrite take_drop_middle).
    assert (HA : length A = i) by (unfold A; nlia).
    assert (HC : length C = (length l - S i)%nat) by (unfold C; nlia).
    iDestruct (elems_split _ _ A ([x] ++ C) (f +ₗ Z.of_nat i) with "Hl") as "[HA Hl]";
      [done|by rewrite HA|].
    iApply (wp_move with "Hl"); [simpl; lia|loc_solve|loc_solve|]. iSplit; last first.
    { iIntros (l') "%Hl' Hl". destruct Hl' as [Hl' HC0]. iDestruct "HK" as "[_ HK]".
      iDestruct (elems_join with "HA Hl") as "Hl"; [loc_solve|done|].
      iApply ("HK" $! (A ++ l')).
      - iPureIntro. split; [simpl in *; nlia|]. split; [|nlia].
        by rewrite take_app_alt.
      - iApply (body_intro with "Hl Hr"); [simpl in *; loc_solve|simpl in *; nlia|simpl in *; nlia]. }
    iIntros (l') "%Hl' Hl". destruct l' as [|y [|]]; try done.
    wbind. iApply (wp_set_last _ _ _ (length l - 1)); [loc_solve|]. wbind.
    iDestruct (elems_snoc_split with "Hl") as "[Hl Hy]"; [done|done|].
    iApply (wp_destroy_at with "Hy"). iIntros "Hy". iApply wp_ret.
    iDestruct "HK" as "[HK _]". iApply "HK".
    iDestruct (elems_join _ (remove_range i (S i) l) with "HA Hl") as "Hl"; [loc_solve|done|].
    iDestruct (raws_one_join with "Hy Hr") as "Hr"; [loc_solve|done|].
    iApply (body_intro with "Hl Hr"); rewrite ?remove_range_length; try lia. loc_solve.
  Qed.

  Lemma wp_erase_range a f l cap i j Q X :
    (i <= j <= length l)%nat ->
    body f l cap ⊢
    ((body f (remove_range i j l) cap -∗ Q (f +ₗ Z.of_nat i) (vobj a f (length l - (j - i)) cap)) ∧
     (∀ l', ⟦length l' = length l /\ take i l' = take i l /\ (i < j < length l)%nat⟧ -∗
        body f l' cap -∗ X EUser (vobj a f (length l) cap))) -∗
    wp (erase_range_ (f +ₗ Z.of_nat i) (f +ₗ Z.of_nat j)) (vobj a f (length l) cap) Q X.
  Proof.
    iIntros (Hi) "(%Hc & Hl & Hr) HK". unfold erase_range_. wbind. iApply wp_get. wbeta. wbind.
    iApply wp_offset_of; [lia|]. wbeta. wbind. iApply wp_offset_of; [lia|]. wbeta. wbind.
    iApply wp_assert; [lia|]. rewrite loc_eqb_add.
    destruct (Z.eqb_spec (Z.of_nat i) (Z.of_nat j)) as [Heq|Hne].
    { assert (i = j) as <- by lia. iApply wp_ret. iDestruct "HK" as "[HK _]".
      replace (length l - (i - i))%nat with (length l) by lia. iApply "HK".
      unfold remove_range. rewrite take_drop.
      iApply (body_intro with "Hl Hr"); [loc_solve|nlia|nlia]. }
    wbind. simpl.
    set (A := take i l). set (B := take (j - i) (drop i l)). set (C := drop j l).
    assert (Hl : l = A ++ B ++ C).
    { unfold A, B, C. rewrite -{1}(take_drop i l). f_equal.
      rewrite -{1}(take_drop (j - i) (drop i l)). f_equal. rewrite drop_drop. f_equal. lia. }
    assert (HA : length A = i) by (unfold A; nlia).
    assert (HB : length B = (j - i)%nat) by (unfold B; nlia).
    assert (HC : length C = (length l - j)%nat) by (unfold C; nlia).
    iDestruct (elems_split _ _ A (B ++ C) (f +ₗ Z.of_nat i) with "Hl") as "[HA Hl]";
      [done|by rewrite HA|].
    iApply (wp_move with "Hl"); [lia|loc_solve|loc_solve|]. iSplit; last first.
    { iIntros (l') "%Hl' Hl". destruct Hl' as [Hl' HC0]. iDestruct "HK" as "[_ HK]".
      iDestruct (elems_join with "HA Hl") as "Hl"; [loc_solve|done|].
      iApply ("HK" $! (A ++ l')).
      - iPureIntro. split; [nlia|]. split; [|nlia]. by rewrite take_app_alt.
      - iApply (body_intro with "Hl Hr"); [loc_solve|nlia|nlia]. }
    iIntros (l') "%Hl' Hl". wbind.
    iDestruct (elems_split _ _ C l' with "Hl") as "[Hl H']"; [done|done|].
    iApply (wp_destroy_a with "H'"); [loc_solve|]. iIntros "H'". wbind.
    iApply (wp_set_last _ _ _ (length l - (j - i))); [loc_solve|]. iApply wp_ret.
    iDestruct "HK" as "[HK _]". iApply "HK".
    iDestruct (elems_join _ (remove_range i j l) with "HA Hl") as "Hl"; [loc_solve|done|].
    iDestruct (raws_join with "H' Hr") as "Hr"; [loc_solve|done|].
    iApply (body_intro with "Hl Hr"); rewrite ?remove_range_length; try lia. loc_solve.
  Qed.

  (** *** Assignment *)

  Lemma wp_assign_fill_inplace a f l cap n v Q X :
    Z.of_nat n <= cap ->
    body f l cap ⊢
    ((body f (replicate n v) cap -∗ Q tt (vobj a f n cap)) ∧
     (∀ l', ⟦length l' = length l⟧ -∗ body f l' cap -∗ X EUser (vobj a f (length l) cap))) -∗
    wp (assign_fill_inplace (Z.of_nat n) (AVal v)) (vobj a f (length l) cap) Q X.
  Proof.
    iIntros (Hn) "(%Hc & Hl & Hr) HK". unfold assign_fill_inplace. wbind. iApply wp_get. wbeta. wbind.
    iApply wp_size. wbeta. simpl. destruct (Z.leb_spec (Z.of_nat n) (Z.of_nat (length l))).
    - wbind. wbind.
      iDestruct (elems_split _ _ (take n l) (drop n l) (f +ₗ Z.of_nat n) with "Hl") as "[H1 H2]";
        [by rewrite take_drop|loc_solve|].
      iApply (wp_fill emp%I with "[//] H1"); [apply as_ok_val|loc_solve|]. iSplit; last first.
      { iIntros (l') "%Hl' _ H1". iDestruct "HK" as "[_ HK]".
        iDestruct (elems_join with "H1 H2") as "Hl"; [loc_solve|done|].
        iApply ("HK" $! (l' ++ drop n l)); [iPureIntro; nlia|].
        iApply (body_intro with "Hl Hr"); [loc_solve|nlia|nlia]. }
      iIntros "_ H1". iApply (wp_destroy_a with "H2"); [loc_solve|]. iIntros "H2".
      iApply (wp_set_last _ _ _ n); [done|]. iDestruct "HK" as "[HK _]". iApply "HK".
      iDestruct (elems_eq _ f _ (replicate n v) with "H1") as "H1"; [done|f_equal; nlia|].
      iDestruct (raws_join with "H2 Hr") as "Hr"; [loc_solve|done|].
      iApply (body_intro with "H1 Hr"); [loc_solve|nlia|nlia].
    - wbind. wbind.
      iApply (wp_fill emp%I with "[//] Hl"); [apply as_ok_val|loc_solve|]. iSplit; last first.
      { iIntros (l') "%Hl' _ Hl". iDestruct "HK" as "[_ HK]".
        iApply ("HK" $! l'); [iPureIntro; nlia|].
        iApply (body_intro with "Hl Hr"); [loc_solve|nlia|nlia]. }
      iIntros "_ Hl".
      iDestruct (raws_split _ _ (n - length l) (Z.to_nat cap - n) with "Hr") as "[Hr1 Hr]"; [lia|done|].
      iApply (wp_ufill emp%I with "[//] Hr1"); [apply mk_ok_val|loc_solve|]. iSplit; last first.
      { iIntros "_ Hr1". iDestruct "HK" as "[_ HK]".
        iDestruct (raws_join with "Hr1 Hr") as "Hr"; [done|done|].
        iApply ("HK" $! (replicate (length l) v)); [iPureIntro; nlia|].
        iApply (body_intro with "Hl Hr"); [loc_solve|nlia|nlia]. }
      iIntros "_ Hn". iApply (wp_set_last _ _ _ n); [done|]. iDestruct "HK" as "[HK _]". iApply "HK".
      iDestruct (elems_join _ (replicate n v) with "Hl Hn") as "Hl";
        [loc_solve|rewrite -replicate_add; f_equal; lia|].
      iApply (body_intro with "Hl Hr"); [loc_solve|nlia|nlia].
  Qed.

  Lemma wp_assign_range_inplace PX P P' a f l cap srcs vs Q X :
    src_ok PX P srcs vs P' -> Z.of_nat (length vs) <= cap ->
    P ⊢ body f l cap -∗
    ((P' -∗ body f vs cap -∗ Q tt (vobj a f (length vs) cap)) ∧
     (∀ l', ⟦length l' = length l⟧ -∗ PX -∗ body f l' cap -∗ X EUser (vobj a f (length l) cap))) -∗
    wp (assign_range_inplace srcs) (vobj a f (length l) cap) Q X.
  Proof.
    iIntros (Hsrc Hn) "HP (%Hc & Hl & Hr) HK". unfold assign_range_inplace.
    wbind. iApply wp_get. wbeta. wbind.
    iApply wp_size. wbeta. simpl. pose proof (proj1 Hsrc) as Hlen. rewrite Hlen.
    destruct (Z.leb_spec (Z.of_nat (length vs)) (Z.of_nat (length l))).
    - wbind.
      iDestruct (elems_split _ _ (take (length vs) l) (drop (length vs) l)
        (f +ₗ Z.of_nat (length vs)) with "Hl") as "[H1 H2]"; [by rewrite take_drop|loc_solve|].
      iApply (wp_assign_loop with "HP H1"); [by apply src_ass|nlia|]. iSplit; last first.
      { iIntros (l') "%Hl' HP H1". iDestruct "HK" as "[_ HK]".
        iDestruct (elems_join with "H1 H2") as "Hl"; [loc_solve|done|].
        iApply ("HK" $! (l' ++ drop (length vs) l) with "[] HP"); [iPureIntro; nlia|].
        iApply (body_intro with "Hl Hr"); [loc_solve|nlia|nlia]. }
      iIntros "HP H1". wbind. iApply (wp_destroy_a with "H2"); [loc_solve|]. iIntros "H2".
      iApply (wp_set_last _ _ _ (length vs)); [done|]. iDestruct "HK" as "[HK _]". iApply ("HK" with "HP").
      iDestruct (raws_join with "H2 Hr") as "Hr"; [loc_solve|done|].
      iApply (body_intro with "H1 Hr"); [loc_solve|nlia|nlia].
    - rewrite Nat2Z.id. wbind. destruct (proj2 Hsrc (length l)) as (Pk & Hass & Hmks).
      iApply (wp_assign_loop with "HP Hl"); [done|nlia|]. iSplit; last first.
      { iIntros (l') "%Hl' HP Hl". iDestruct "HK" as "[_ HK]".
        iApply ("HK" $! l' with "[] HP"); [iPureIntro; nlia|].
        iApply (body_intro with "Hl Hr"); [loc_solve|nlia|nlia]. }
      iIntros "HP Hl". wbind.
      iDestruct (raws_split _ _ (length (drop (length l) vs)) (Z.to_nat cap - length vs) with "Hr")
        as "[Hr1 Hr]"; [nlia|done|].
      iApply (wp_ucopy with "HP Hr1"); [done|]. iSplit; last first.
      { iIntros "HP Hr1". iDestruct "HK" as "[_ HK]".
        iDestruct (raws_join with "Hr1 Hr") as "Hr"; [done|done|].
        iApply ("HK" $! (take (length l) vs) with "[] HP"); [iPureIntro; nlia|].
        iApply (body_intro with "Hl Hr"); [loc_solve|nlia|nlia]. }
      iIntros "HP Hn". iApply (wp_set_last _ _ _ (length vs)); [loc_solve|].
      iDestruct "HK" as "[HK _]". iApply ("HK" with "HP").
      iDestruct (elems_join _ vs with "Hl Hn") as "Hl";
        [loc_solve|by rewrite take_drop|].
      iApply (body_intro with "Hl Hr"); [loc_solve|nlia|nlia].
  Qed.

  Lemma wp_append_fill a f l cap n ar v Q X :
    Z.of_nat (length l + n) <= cap -> arg_rel f l ar v l -> ~ is_move ar ->
    body f l cap ⊢
    ((body f (l ++ replicate n v) cap -∗ Q tt (vobj a f (length l + n) cap)) ∧
     (body f l cap -∗ X EUser (vobj a f (length l) cap))) -∗
    wp (nl <- uninitialized_fill_n_a (f +ₗ Z.of_nat (length l)) n ar;; set_last nl)%prog
      (vobj a f (length l) cap) Q X.
  Proof.
    iIntros (Hc Har Hm) "(_ & Hl & Hr) HK".
    destruct (arg_rel_const _ _ _ _ _ Har Hm) as [_ Hmk]. wbind.
    iDestruct (raws_split _ _ n (Z.to_nat cap - (length l + n)) with "Hr") as "[Hr1 Hr]"; [lia|done|].
    iApply (wp_ufill_n with "Hl Hr1"); [done|]. iSplit; last first.
    { iIntros "Hl Hr1". iDestruct "HK" as "[_ HK]". iApply "HK".
      iDestruct (raws_join with "Hr1 Hr") as "Hr"; [done|done|].
      iApply (body_intro with "Hl Hr"); [loc_solve|nlia|nlia]. }
    iIntros "Hl Hn". iApply (wp_set_last _ _ _ (length l + n)); [loc_solve|].
    iDestruct "HK" as "[HK _]". iApply "HK".
    iDestruct (elems_join with "Hl Hn") as "Hl"; [loc_solve|done|].
    iApply (body_intro with "Hl Hr"); [loc_solve|nlia|nlia].
  Qed.

  Lemma wp_at a f l cap i Q X :
    0 <= i ->
    body f l cap ⊢
    ((∀ v, ⟦l !! Z.to_nat i = Some v⟧ -∗ body f l cap -∗ Q v (vobj a f (length l) cap)) ∧
     (⟦Z.of_nat (length l) <= i⟧ -∗ body f l cap -∗ X EOutOfRange (vobj a f (length l) cap))) -∗
    wp (at_ i) (vobj a f (length l) cap) Q X.
  Proof.
    iIntros (Hi) "(%Hc & Hl & Hr) HK". unfold at_. wbind. iApply wp_size. wbeta. wbind.
    iApply wp_get. wbeta. destruct (Z.leb_spec (Z.of_nat (length l)) i).
    - iApply wp_throw; [by (left + right)|]. iDestruct "HK" as "[_ HK]". iApply "HK"; [done|].
      iApply (body_intro with "Hl Hr"); [loc_solve|nlia|nlia].
    - destruct (lookup_lt_is_Some_2 l (Z.to_nat i)) as [v Hv]; [lia|].
      iDestruct (elems_acc with "Hl") as "[Hv Hl]"; [done|]. simpl.
      rewrite Z2Nat.id; [|done].
      iApply (wp_read with "Hv"). iIntros "Hv". iDestruct ("Hl" with "Hv") as "Hl".
      iDestruct "HK" as "[HK _]". iApply ("HK" with "[//]"). rewrite list_insert_id; [|done].
      iApply (body_intro with "Hl Hr"); [loc_solve|nlia|nlia].
  Qed.

End inplace.
