(** * sfl::devector: assignment, construction, functions of two objects *)

From Verif Require Export DevOps.
From Coq Require Import ZifyBool.
From iris.proofmode Require Import environments tactics.
Open Scope Z_scope.

Section sources.
  Context `{E : Env}.

  (** A source of [assign]: some [m] elements from position [i] on are assigned,
      then the ones behind them, then the ones before them are constructed. *)
  Definition src3_ok (PX P : hProp) (srcs : list arg) (vs : list V) (P' : hProp) : Prop :=
    length srcs = length vs /\ (P ⊢ PX) /\
    forall i m, (i + m <= length vs)%nat -> exists P1 P2,
      ass_ok PX P (take m (drop i srcs)) (take m (drop i vs)) P1 /\
      mks_ok PX P1 (drop (i + m) srcs) (drop (i + m) vs) P2 /\
      mks_ok PX P2 (take i srcs) (take i vs) P'.

  Lemma src3_vals P vs : src3_ok P P (AVal <$> vs) vs P.
  Proof.
    split; [by rewrite fmap_length|]. split; [done|]. intros i m _. exists P, P.
    rewrite -!fmap_drop -!fmap_take. split_and!; [apply ass_vals|apply mks_vals..].
  Qed.

  Lemma refs_mid mk p n i m :
    (i + m <= n)%nat -> take m (drop i (refs mk p n)) = refs mk (p +ₗ Z.of_nat i) m.
  Proof. intros. rewrite refs_drop; [|lia]. rewrite refs_take; [done|lia]. Qed.
  Lemma list_mid (l : list V) i m :
    (i + m <= length l)%nat -> l = take i l ++ take m (drop i l) ++ drop (i + m) l.
  Proof.
    intros. rewrite -{1}(take_drop i l). f_equal. rewrite -{1}(take_drop m (drop i l)). by rewrite drop_drop.
  Qed.

  Lemma ass_copy_mid q l0 l1 l2 :
    ass_ok (elems q (l0 ++ l1 ++ l2)) (elems q (l0 ++ l1 ++ l2))
      (refs ACopy (q +ₗ Z.of_nat (length l0)) (length l1)) l1 (elems q (l0 ++ l1 ++ l2)).
  Proof.
    revert l0. induction l1 as [|v l1 IH]; intros l0; simpl; econstructor.
    - apply as_ok_copy. by rewrite list_lookup_middle.
    - specialize (IH (l0 ++ [v])). rewrite app_length /= -assoc_L /= in IH.
      by replace (q +ₗ Z.of_nat (length l0) +ₗ 1) with (q +ₗ Z.of_nat (length l0 + 1)) by loc_solve.
  Qed.
  Lemma mks_copy_mid q l0 l1 l2 :
    mks_ok (elems q (l0 ++ l1 ++ l2)) (elems q (l0 ++ l1 ++ l2))
      (refs ACopy (q +ₗ Z.of_nat (length l0)) (length l1)) l1 (elems q (l0 ++ l1 ++ l2)).
  Proof.
    revert l0. induction l1 as [|v l1 IH]; intros l0; simpl; econstructor.
    - apply mk_ok_copy. by rewrite list_lookup_middle.
    - specialize (IH (l0 ++ [v])). rewrite app_length /= -assoc_L /= in IH.
      by replace (q +ₗ Z.of_nat (length l0) +ₗ 1) with (q +ₗ Z.of_nat (length l0 + 1)) by loc_solve.
  Qed.
  Lemma mks_move_mid q l0 l1 l2 N :
    length (l0 ++ l1 ++ l2) = N ->
    mks_ok (any_elems q N) (elems q (l0 ++ l1 ++ l2))
      (refs AMove (q +ₗ Z.of_nat (length l0)) (length l1)) l1
      (elems q (l0 ++ (vmoved <$> l1) ++ l2)).
  Proof.
    revert l0. induction l1 as [|v l1 IH]; intros l0 HN; simpl; econstructor.
    - eapply mk_ok_conseq; [apply (mk_ok_move q (l0 ++ v :: l1 ++ l2) (length l0) v)|done|done|].
      + by rewrite list_lookup_middle.
      + iIntros "H". iDestruct "H" as (v') "[_ H]". iExists _. iFrame. iPureIntro.
        rewrite insert_length. done.
    - rewrite insert_app_r_alt; [|done]. rewrite Nat.sub_diag. simpl.
      specialize (IH (l0 ++ [vmoved v])).
      replace (q +ₗ Z.of_nat (length l0) +ₗ 1) with (q +ₗ Z.of_nat (length (l0 ++ [vmoved v])))
        by loc_solve.
      rewrite -!assoc_L /= in IH. apply IH. rewrite -HN !app_length /= !app_length. lia.
  Qed.

  Lemma src3_copy q l : src3_ok (elems q l) (elems q l) (refs ACopy q (length l)) l (elems q l).
  Proof.
    split; [by rewrite refs_length|]. split; [done|]. intros i m Him. exists (elems q l), (elems q l).
    set (l1 := take i l). set (l2 := take m (drop i l)). set (l3 := drop (i + m) l).
    assert (length l1 = i) as Hl1 by (unfold l1; rewrite take_length; lia).
    assert (length l2 = m) as Hl2 by (unfold l2; rewrite take_length drop_length; lia).
    assert (length l3 = length l - (i + m))%nat as Hl3 by (unfold l3; rewrite drop_length; lia).
    rewrite refs_mid; [|lia]. rewrite refs_drop; [|lia]. rewrite refs_take; [|lia].
    assert (l = l1 ++ l2 ++ l3) as Hl by (by apply list_mid).
    rewrite -Hl3. clearbody l1 l2 l3. subst l. split_and!.
    - pose proof (ass_copy_mid q l1 l2 l3) as H. rewrite Hl1 Hl2 in H. done.
    - pose proof (mks_copy_mid q (l1 ++ l2) l3 []) as H. rewrite app_nil_r in H. rewrite -assoc_L in H.
      rewrite app_length Hl1 Hl2 in H. done.
    - pose proof (mks_copy_mid q [] l1 (l2 ++ l3)) as H. simpl in H. rewrite loc_add_0 Hl1 in H. done.
  Qed.
  Lemma src3_move q l :
    src3_ok (any_elems q (length l)) (elems q l) (refs AMove q (length l)) l (elems q (vmoved <$> l)).
  Proof.
    split; [by rewrite refs_length|]. split; [iIntros "H"; iExists l; by iFrame|]. intros i m Him.
    set (l1 := take i l). set (l2 := take m (drop i l)). set (l3 := drop (i + m) l).
    assert (length l1 = i) as Hl1 by (unfold l1; rewrite take_length; lia).
    assert (length l2 = m) as Hl2 by (unfold l2; rewrite take_length drop_length; lia).
    assert (length l3 = length l - (i + m))%nat as Hl3 by (unfold l3; rewrite drop_length; lia).
    exists (elems q (l1 ++ (vmoved <$> l2) ++ l3)), (elems q (l1 ++ (vmoved <$> l2) ++ (vmoved <$> l3))).
    rewrite refs_mid; [|lia]. rewrite refs_drop; [|lia]. rewrite refs_take; [|lia].
    assert (l = l1 ++ l2 ++ l3) as Hl by (by apply list_mid).
    rewrite -Hl3.
    assert (length l = length (l1 ++ l2 ++ l3)) as HN by (rewrite -Hl; done).
    split_and!.
    - pose proof (ass_refs_move_gen q l1 l2 l3 (length l) ltac:(done)) as H. rewrite Hl1 Hl2 -Hl in H. done.
    - pose proof (mks_move_mid q (l1 ++ (vmoved <$> l2)) l3 [] (length l)) as H.
      rewrite !app_nil_r -!assoc_L !app_length !fmap_length Hl1 Hl2 in H. apply H.
      rewrite HN !app_length. lia.
    - pose proof (mks_move_mid q [] l1 ((vmoved <$> l2) ++ (vmoved <$> l3)) (length l)) as H. simpl in H.
      rewrite loc_add_0 Hl1 in H.
      assert (vmoved <$> l = (vmoved <$> l1) ++ (vmoved <$> l2) ++ (vmoved <$> l3)) as ->.
      { by rewrite {1}Hl !fmap_app. }
      apply H.
      rewrite HN !app_length !fmap_length. done.
  Qed.
End sources.

Section assigning.
  Context `{E : Env}.

  Definition assign_bad (n : nat) (p cap : Z) (b : loc) (l : list V) (e : exn) (b' : loc) (l' : list V)
      (cap' : Z) : Prop :=
    (length l <= length l')%nat /\
    (Z.of_nat n <= cap - p -> b' = b /\ cap' = cap /\ length l' = length l) /\
    match e with
    | ELength => b' = b /\ cap' = cap /\ l' = l /\ max_size < Z.of_nat n
    | EBadAlloc => b' = b /\ cap' = cap /\ l' = l /\ cap < Z.of_nat n
    | EUser => True
    | EOutOfRange => False
    end.
  Definition assign_to (n : nat) (p cap : Z) (b b' : loc) (p' cap' : Z) : Prop :=
    if Z.of_nat n <=? cap - p then b' = b /\ p' = p /\ cap' = cap
    else if Z.of_nat n <=? cap then b' = b /\ p' = cap - Z.of_nat n /\ cap' = cap
    else p' = 0 /\ cap' = Z.of_nat n.

  Lemma wp_fill_elems a b p l cap v (s : ddata) q1 q2 (k : nat) Q X :
    (k <= length l)%nat -> q1 = b +ₗ p -> q2 = b +ₗ (p + Z.of_nat k) ->
    dev_at a b p l cap ⊢
    ((dev_at a b p (replicate k v ++ drop k l) cap -∗ Q tt s) ∧
     (∀ l', ⟦length l' = length l⟧ -∗ dev_at a b p l' cap -∗ X EUser s)) -∗
    wp (fill q1 q2 (AVal v)) s Q X.
  Proof.
    iIntros (Hk -> ->) "Hd HK". iDestruct (dev_at_open with "Hd") as "[Hl Hd]".
    iDestruct (elems_split _ _ (take k l) (drop k l) with "Hl") as "[H1 H2]"; [by rewrite take_drop|done|].
    iApply (wp_fill emp%I with "[//] H1"); [apply as_ok_val|rewrite loc_add_assoc; f_equal; len; lia|].
    iSplit.
    - iIntros "_ H1". iDestruct "HK" as "[HK _]".
      iDestruct (elems_join _ (replicate k v ++ drop k l) with "H1 H2") as "Hl".
      { f_equal. len. lia. }
      { f_equal. f_equal. len. lia. }
      iApply "HK". iApply ("Hd" with "[%] Hl"). len. lia.
    - iIntros (l') "%Hx _ H1". iDestruct "HK" as "[_ HK]".
      iDestruct (elems_join _ (l' ++ drop k l) with "H1 H2") as "Hl".
      { f_equal. len. lia. }
      { done. }
      assert (length (l' ++ drop k l) = length l) as Hll by (len; lia).
      iApply ("HK" with "[%//]"). by iApply ("Hd" with "[%] Hl").
  Qed.

  Lemma wp_dv_assign_fill a b p l cap v (n : nat) Q X :
    dev_at a b p l cap ⊢
    ((∀ b' p' cap', ⟦assign_to n p cap b b' p' cap'⟧ -∗
       dev_at a b' p' (replicate n v) cap' -∗ Q tt (dobj a b' p' (Z.of_nat n) cap')) ∧
     (∀ e b' l' cap', ⟦assign_bad n p cap b l e b' l' cap'⟧ -∗
       dev_at a b' p l' cap' -∗ X e (dobj a b' p (zlen l') cap'))) -∗
    wp (dv_assign_fill (Z.of_nat n) (AVal v)) (dobj a b p (zlen l) cap) Q X.
  Proof.
    iIntros "Hd HK". iDestruct (dev_at_len with "Hd") as "[%Hlen Hd]".
    assert (forall f (l : list V), arg_rel f l (AVal v) v l) as Hfree by constructor.
    assert (~ is_move (AVal v)) as Hm by (intros []).
    unfold dv_assign_fill. wbind. iApply wp_dv_size. wbeta. wbind. iApply wp_get. wbeta. dred.
    destruct (Z.leb_spec (Z.of_nat n) (zlen l)) as [Hc|Hc].
    { wbind. rewrite loc_add_assoc.
      iApply (wp_fill_elems a b p l cap v _ _ _ n with "Hd"); [lia|done|done|]. iSplit; last first.
      { iIntros (l') "%Hl' Hd". iDestruct "HK" as "[_ HK]". rewrite -Hl'. iApply ("HK" with "[%] Hd").
        unfold assign_bad. split_and!; try done; lia. }
      iIntros "Hd". wbind. iDestruct (dev_at_cut _ _ _ _ _ n with "Hd") as "[Hl Hd]"; [len; lia|].
      rewrite take_app_alt; [|len; lia]. rewrite drop_app_alt; [|len; lia].
      iApply (wp_destroy_a with "Hl"); [rewrite loc_add_assoc; f_equal; len; lia|]. iIntros "Hl".
      iApply (wp_set_last _ _ _ _ _ _ (Z.of_nat n)); [done|]. iDestruct "HK" as "[HK _]".
      iApply ("HK" with "[%]"). { unfold assign_to. rewrite (proj2 (Z.leb_le _ _)); [done|lia]. }
      by iApply "Hd". }
    wbind. iApply wp_dv_back_room. wbeta.
    destruct (Z.leb_spec (Z.of_nat n) (zlen l + (cap - p - zlen l))) as [Hc2|Hc2].
    { wbind. iApply (wp_fill_elems a b p l cap v _ _ _ (length l) with "Hd"); [lia|done|done|]. iSplit; last first.
      { iIntros (l') "%Hl' Hd". iDestruct "HK" as "[_ HK]". rewrite -Hl'. iApply ("HK" with "[%] Hd").
        unfold assign_bad. split_and!; try done; lia. }
      rewrite drop_all app_nil_r. set (l1 := replicate (length l) v).
      assert (length l1 = length l) as Hl1 by (unfold l1; len; lia). rewrite -Hl1. iIntros "Hd". wbind.
      iApply (wp_fill_back with "Hd"); [apply Hfree|done|lia|done|]. iSplit; last first.
      { iIntros "Hd". iDestruct "HK" as "[_ HK]". iApply ("HK" with "[%] Hd").
        unfold assign_bad. split_and!; try done; lia. }
      iIntros "Hd". wbeta. iApply (wp_set_last _ _ _ _ _ _ (Z.of_nat n)); [f_equal; len; lia|].
      iDestruct "HK" as "[HK _]". iApply ("HK" with "[%]").
      { unfold assign_to. rewrite (proj2 (Z.leb_le _ _)); [done|lia]. }
      replace (replicate n v) with (l1 ++ replicate (Z.to_nat (Z.of_nat n - zlen l1)) v); [done|].
      unfold l1. rewrite replicate_length -replicate_add. f_equal. lia. }
    wbind. iApply wp_dv_front_room. wbeta.
    destruct (Z.leb_spec (Z.of_nat n) (p + zlen l + (cap - p - zlen l))) as [Hc3|Hc3].
    { wbind. iApply (wp_fill_elems a b p l cap v _ _ _ (length l) with "Hd"); [lia|done|done|]. iSplit; last first.
      { iIntros (l') "%Hl' Hd". iDestruct "HK" as "[_ HK]". rewrite -Hl'. iApply ("HK" with "[%] Hd").
        unfold assign_bad. split_and!; try done; lia. }
      rewrite drop_all app_nil_r. set (l1 := replicate (length l) v).
      assert (length l1 = length l) as Hl1 by (unfold l1; len; lia). rewrite -Hl1. iIntros "Hd". wbind.
      iApply (wp_ufill_back a b p l1 cap _ v (Z.to_nat (cap - p - zlen l1)) with "Hd");
        [apply Hfree|done|lia|done|rewrite loc_add_assoc; f_equal; lia|]. iSplit; last first.
      { iIntros "Hd". iDestruct "HK" as "[_ HK]". iApply ("HK" with "[%] Hd").
        unfold assign_bad. split_and!; try done; lia. }
      iIntros "Hd". wbind. set (l2 := replicate (Z.to_nat (cap - p - zlen l1)) v).
      assert (zlen l2 = cap - p - zlen l1) as Hl2 by (unfold l2; len; lia).
      iApply (wp_set_last _ _ _ _ _ _ (zlen (l1 ++ l2))); [f_equal; len; lia|]. wbind. rewrite loc_add_assoc.
      set (k := Z.to_nat (Z.of_nat n - (cap - p))).
      iApply (wp_fill_front a b p l1 l2 cap _ v k with "Hd"); [apply Hfree|done|lia|f_equal; lia|done|].
      iSplit; last first.
      { iIntros "Hd". iDestruct "HK" as "[_ HK]". iApply ("HK" with "[%] Hd").
        unfold assign_bad. rewrite app_length. split_and!; try done; lia. }
      iIntros "Hd". iApply (wp_set_first _ _ _ _ _ _ (cap - Z.of_nat n) (Z.of_nat n)); [f_equal; lia|len; lia|].
      iDestruct "HK" as "[HK _]". iApply ("HK" with "[%]").
      { unfold assign_to. rewrite (proj2 (Z.leb_gt _ _)); [|lia]. rewrite (proj2 (Z.leb_le _ _)); [done|lia]. }
      replace (p - Z.of_nat k) with (cap - Z.of_nat n) by lia.
      replace (replicate n v) with (replicate k v ++ l1 ++ l2); [done|].
      unfold l1, l2. rewrite -!replicate_add. f_equal. lia. }
    wbind. iApply (wp_dv_grow_back with "Hd"); [lia|]. iSplit; last first.
    { iIntros (e l') "%Hx Hd". destruct Hx as (Hx1 & Hx2 & Hx3). iDestruct "HK" as "[_ HK]".
      rewrite -Hx1. iApply ("HK" with "[%] Hd"). unfold assign_bad. split_and!; try done; try lia.
      destruct e; try done; first [destruct Hx3 as [-> ?] | rewrite Hx3]; split_and!; try done; lia. }
    iIntros (b') "Hd". replace (cap + (Z.of_nat n - (p + zlen l + (cap - p - zlen l)))) with (Z.of_nat n) by lia.
    wbind. iApply wp_get. wbeta. dred. wbind.
    iApply (wp_fill_elems a b' p l _ v _ _ _ (length l) with "Hd"); [lia|done|done|]. iSplit; last first.
    { iIntros (l') "%Hl' Hd". iDestruct "HK" as "[_ HK]". rewrite -Hl'. iApply ("HK" with "[%] Hd").
      unfold assign_bad. split_and!; try done; lia. }
    rewrite drop_all app_nil_r. set (l1 := replicate (length l) v).
    assert (length l1 = length l) as Hl1 by (unfold l1; len; lia). rewrite -Hl1. iIntros "Hd". wbind.
    iApply (wp_fill_back with "Hd"); [apply Hfree|done|lia|done|]. iSplit; last first.
    { iIntros "Hd". iDestruct "HK" as "[_ HK]". iApply ("HK" with "[%] Hd").
      unfold assign_bad. split_and!; try done; lia. }
    iIntros "Hd". wbeta. wbind. set (l2 := replicate (Z.to_nat (Z.of_nat n - (zlen l1 + p))) v).
    assert (zlen l2 = Z.of_nat n - (zlen l1 + p)) as Hl2 by (unfold l2; len; lia).
    iApply (wp_set_last _ _ _ _ _ _ (zlen (l1 ++ l2))); [done|]. wbind.
    iApply (wp_fill_front a b' p l1 l2 _ _ v (Z.to_nat p) with "Hd"); [apply Hfree|done|lia| |done|].
    { rewrite -{1}(loc_add_0 b'). f_equal. lia. }
    iSplit; last first.
    { iIntros "Hd". iDestruct "HK" as "[_ HK]". iApply ("HK" with "[%] Hd").
      unfold assign_bad. rewrite app_length. split_and!; try done; lia. }
    iIntros "Hd". iApply (wp_set_first _ _ _ _ _ _ 0 (Z.of_nat n)); [by rewrite loc_add_0|len; lia|].
    iDestruct "HK" as "[HK _]". iApply ("HK" with "[%]").
    { unfold assign_to. rewrite (proj2 (Z.leb_gt _ _)); [|lia]. rewrite (proj2 (Z.leb_gt _ _)); [done|lia]. }
    replace (p - Z.of_nat (Z.to_nat p)) with 0 by lia.
    replace (replicate n v) with (replicate (Z.to_nat p) v ++ l1 ++ l2); [done|].
    unfold l1, l2. rewrite -!replicate_add. f_equal. len. lia.
  Qed.

  (** Elements of the source assigned, or constructed behind or before. *)
  Lemma wp_copy_elems PX P P' srcs vs a b p l cap (s : ddata) q Q X :
    ass_ok PX P srcs vs P' -> (length vs <= length l)%nat -> q = b +ₗ p ->
    P ⊢ dev_at a b p l cap -∗
    ((P' -∗ dev_at a b p (vs ++ drop (length vs) l) cap -∗ Q (b +ₗ (p + zlen vs)) s) ∧
     (∀ l', ⟦length l' = length l⟧ -∗ PX -∗ dev_at a b p l' cap -∗ X EUser s)) -∗
    wp (copy srcs q) s Q X.
  Proof.
    iIntros (Hsrc Hk ->) "HP Hd HK". iDestruct (dev_at_open with "Hd") as "[Hl Hd]".
    set (k := length vs) in *. unfold copy.
    iDestruct (elems_split _ _ (take k l) (drop k l) with "Hl") as "[H1 H2]"; [by rewrite take_drop|done|].
    iApply (wp_assign_loop with "HP H1"); [done|unfold k in *; len; lia|]. iSplit.
    - iIntros "HP H1". iDestruct "HK" as "[HK _]".
      iDestruct (elems_join _ (vs ++ drop k l) with "H1 H2") as "Hl"; [f_equal; unfold k in *; len; lia|done|].
      rewrite loc_add_assoc. iApply ("HK" with "HP"). iApply ("Hd" with "[%] Hl"). unfold k in *. len. lia.
    - iIntros (l') "%Hx HP H1". iDestruct "HK" as "[_ HK]".
      iDestruct (elems_join _ (l' ++ drop k l) with "H1 H2") as "Hl"; [f_equal; len; lia|done|].
      assert (length (l' ++ drop k l) = length l) as Hll by (len; lia).
      iApply ("HK" with "[%//] HP"). by iApply ("Hd" with "[%] Hl").
  Qed.
  Lemma wp_copy_back PX P P' srcs vs a b p l cap (s : ddata) q Q X :
    mks_ok PX P srcs vs P' -> zlen l + zlen vs <= cap - p -> q = b +ₗ (p + zlen l) ->
    P ⊢ dev_at a b p l cap -∗
    ((P' -∗ dev_at a b p (l ++ vs) cap -∗ Q (b +ₗ (p + zlen (l ++ vs))) s) ∧
     (PX -∗ dev_at a b p l cap -∗ X EUser s)) -∗
    wp (uninitialized_copy_a srcs q) s Q X.
  Proof.
    iIntros (Hsrc Hn ->) "HP Hd HK". iDestruct (dev_at_back _ _ _ _ _ (length vs) with "Hd") as "[Hr Hd]"; [lia|].
    iApply (wp_ucopy with "HP Hr"); [done|]. iSplit.
    - iIntros "HP Hv". iDestruct "HK" as "[HK _]". iDestruct "Hd" as "[_ Hd]". rewrite loc_add_assoc.
      replace (p + zlen l + zlen vs) with (p + zlen (l ++ vs)) by (len; lia).
      iApply ("HK" with "HP"). by iApply ("Hd" with "[%] Hv").
    - iIntros "HP Hr". iDestruct "HK" as "[_ HK]". iDestruct "Hd" as "[Hd _]". iApply ("HK" with "HP").
      by iApply "Hd".
  Qed.
  Lemma wp_copy_front PX P P' srcs vs a b p l cap (s : ddata) q Q X :
    mks_ok PX P srcs vs P' -> zlen vs <= p -> q = b +ₗ (p - zlen vs) ->
    P ⊢ dev_at a b p l cap -∗
    ((∀ q', P' -∗ dev_at a b (p - zlen vs) (vs ++ l) cap -∗ Q q' s) ∧
     (PX -∗ dev_at a b p l cap -∗ X EUser s)) -∗
    wp (uninitialized_copy_a srcs q) s Q X.
  Proof.
    iIntros (Hsrc Hn ->) "HP Hd HK". iDestruct (dev_at_front _ _ _ _ _ (length vs) with "Hd") as "[Hr Hd]"; [lia|].
    iApply (wp_ucopy with "HP Hr"); [done|]. iSplit.
    - iIntros "HP Hv". iDestruct "HK" as "[HK _]". iDestruct "Hd" as "[_ Hd]".
      iApply ("HK" with "HP"). by iApply ("Hd" with "[%] Hv").
    - iIntros "HP Hr". iDestruct "HK" as "[_ HK]". iDestruct "Hd" as "[Hd _]". iApply ("HK" with "HP").
      by iApply "Hd".
  Qed.

  Lemma wp_dv_assign_range PX P P' a b p l cap srcs vs Q X :
    src3_ok PX P srcs vs P' ->
    P ⊢ dev_at a b p l cap -∗
    ((∀ b' p' cap', ⟦assign_to (length vs) p cap b b' p' cap'⟧ -∗ P' -∗
       dev_at a b' p' vs cap' -∗ Q tt (dobj a b' p' (zlen vs) cap')) ∧
     (∀ e b' l' cap', ⟦assign_bad (length vs) p cap b l e b' l' cap'⟧ -∗
       (match e with EUser => PX | _ => P end) -∗
       dev_at a b' p l' cap' -∗ X e (dobj a b' p (zlen l') cap'))) -∗
    wp (dv_assign_range srcs) (dobj a b p (zlen l) cap) Q X.
  Proof.
    iIntros ((Hls & HPX & Hsrc)) "HP Hd HK". iDestruct (dev_at_len with "Hd") as "[%Hlen Hd]".
    unfold dv_assign_range. rewrite Hls. cbv zeta.
    wbind. iApply wp_dv_size. wbeta. wbind. iApply wp_get. wbeta. dred.
    destruct (Z.leb_spec (zlen vs) (zlen l)) as [Hc|Hc].
    { destruct (Hsrc 0%nat (length vs)) as (P1 & P2 & H1 & H2 & H3); [lia|].
      rewrite !drop_0 !take_ge in H1; [|lia..]. rewrite !drop_ge in H2; [|lia..]. rewrite !take_0 in H3.
      inversion H2; subst. inversion H3; subst.
      wbind. iApply (wp_copy_elems with "HP Hd"); [done|lia|done|]. iSplit; last first.
      { iIntros (l') "%Hl' HP Hd". iDestruct "HK" as "[_ HK]". rewrite -Hl'.
        iApply ("HK" $! EUser with "[%] HP Hd"). unfold assign_bad. split_and!; try done; lia. }
      iIntros "HP Hd". wbeta. wbind.
      iDestruct (dev_at_cut _ _ _ _ _ (length vs) with "Hd") as "[Hl Hd]"; [len; lia|].
      rewrite take_app drop_app.
      iApply (wp_destroy_a with "Hl"); [rewrite loc_add_assoc; f_equal; len; lia|]. iIntros "Hl".
      iApply (wp_set_last _ _ _ _ _ _ (zlen vs)); [done|]. iDestruct "HK" as "[HK _]".
      iApply ("HK" with "[%] HP"). { unfold assign_to. rewrite (proj2 (Z.leb_le _ _)); [done|lia]. }
      by iApply "Hd". }
    wbind. iApply wp_dv_back_room. wbeta.
    destruct (Z.leb_spec (zlen vs) (zlen l + (cap - p - zlen l))) as [Hc2|Hc2].
    { destruct (Hsrc 0%nat (length l)) as (P1 & P2 & H1 & H2 & H3); [lia|].
      rewrite !drop_0 in H1. simpl in H2. rewrite !take_0 in H3. inversion H3; subst.
      rewrite Nat2Z.id. wbind. iApply (wp_copy_elems with "HP Hd"); [done|len; lia|done|]. iSplit; last first.
      { iIntros (l') "%Hl' HP Hd". iDestruct "HK" as "[_ HK]". rewrite -Hl'.
        iApply ("HK" $! EUser with "[%] HP Hd"). unfold assign_bad. split_and!; try done; lia. }
      iIntros "HP Hd". wbeta. rewrite (drop_ge l); [|len; lia]. rewrite app_nil_r. set (l1 := take (length l) vs).
      assert (length l1 = length l) as Hl1 by (unfold l1; len; lia). rewrite -Hl1. rewrite -Hl1 in H2. wbind.
      iApply (wp_copy_back with "HP Hd"); [done|len; lia|done|]. iSplit; last first.
      { iIntros "HP Hd". iDestruct "HK" as "[_ HK]". iApply ("HK" $! EUser with "[%] HP Hd").
        unfold assign_bad. split_and!; try done; lia. }
      iIntros "HP Hd". wbeta.
      assert (l1 ++ drop (length l1) vs = vs) as Hvs by (rewrite Hl1; unfold l1; by rewrite take_drop).
      iApply (wp_set_last _ _ _ _ _ _ (zlen vs)); [by rewrite Hvs|].
      iDestruct "HK" as "[HK _]". rewrite Hvs. iApply ("HK" with "[%] HP Hd").
      unfold assign_to. rewrite (proj2 (Z.leb_le _ _)); [done|lia]. }
    wbind. iApply wp_dv_front_room. wbeta.
    destruct (Z.leb_spec (zlen vs) (p + zlen l + (cap - p - zlen l))) as [Hc3|Hc3].
    { set (k := Z.to_nat (zlen vs - (zlen l + (cap - p - zlen l)))). rewrite Nat2Z.id.
      destruct (Hsrc k (length l)) as (P1 & P2 & H1 & H2 & H3); [lia|].
      wbind. iApply (wp_copy_elems with "HP Hd"); [done|len; lia|done|]. iSplit; last first.
      { iIntros (l') "%Hl' HP Hd". iDestruct "HK" as "[_ HK]". rewrite -Hl'.
        iApply ("HK" $! EUser with "[%] HP Hd"). unfold assign_bad. split_and!; try done; lia. }
      iIntros "HP Hd". wbeta. rewrite (drop_ge l); [|len; lia]. rewrite app_nil_r.
      set (l1 := take (length l) (drop k vs)).
      assert (length l1 = length l) as Hl1 by (unfold l1; len; lia). rewrite -Hl1. rewrite -Hl1 in H2. wbind.
      set (l2 := drop (k + length l1) vs) in *. set (l0 := take k vs) in *.
      assert (zlen l2 = cap - p - zlen l) as Hl2 by (unfold l2; len; lia).
      assert (length l0 = k) as Hl0 by (unfold l0; len; lia).
      assert (l0 ++ l1 ++ l2 = vs) as Hvs.
      { unfold l2. rewrite Hl1. unfold l0, l1. symmetry. apply list_mid. lia. }
      iApply (wp_copy_back with "HP Hd"); [done|lia|done|]. iSplit; last first.
      { iIntros "HP Hd". iDestruct "HK" as "[_ HK]". iApply ("HK" $! EUser with "[%] HP Hd").
        unfold assign_bad. split_and!; try done; lia. }
      iIntros "HP Hd". wbeta. wbind. iApply (wp_set_last _ _ _ _ _ _ (zlen (l1 ++ l2))); [done|].
      wbind. rewrite loc_add_assoc.
      iApply (wp_copy_front with "HP Hd"); [done|lia|f_equal; lia|]. iSplit; last first.
      { iIntros "HP Hd". iDestruct "HK" as "[_ HK]". iApply ("HK" $! EUser with "[%] HP Hd").
        unfold assign_bad. rewrite app_length. split_and!; try done; lia. }
      iIntros (q') "HP Hd". rewrite Hvs. wbeta.
      iApply (wp_set_first _ _ _ _ _ _ (cap - zlen vs) (zlen vs)); [f_equal; lia|len; lia|].
      iDestruct "HK" as "[HK _]". replace (p - zlen l0) with (cap - zlen vs) by lia.
      iApply ("HK" with "[%] HP Hd").
      unfold assign_to. rewrite (proj2 (Z.leb_gt _ _)); [|lia]. rewrite (proj2 (Z.leb_le _ _)); [done|lia]. }
    wbind. iApply (wp_dv_grow_back with "Hd"); [lia|]. iSplit; last first.
    { iIntros (e l') "%Hx Hd". destruct Hx as (Hx1 & Hx2 & Hx3). iDestruct "HK" as "[_ HK]".
      rewrite -Hx1. iApply ("HK" $! e with "[%] [HP] Hd"); last first.
      { destruct e; try iExact "HP". by iApply HPX. }
      unfold assign_bad. split_and!; try done; try lia.
      destruct e; try done; first [destruct Hx3 as [-> ?] | rewrite Hx3]; split_and!; try done; lia. }
    iIntros (b') "Hd". replace (cap + (zlen vs - (p + zlen l + (cap - p - zlen l)))) with (zlen vs) by lia.
    wbind. iApply wp_get. wbeta. dred. wbind. rewrite Nat2Z.id.
    set (k := Z.to_nat p).
    destruct (Hsrc k (length l)) as (P1 & P2 & H1 & H2 & H3); [lia|].
    iApply (wp_copy_elems with "HP Hd"); [done|len; lia|done|]. iSplit; last first.
    { iIntros (l') "%Hl' HP Hd". iDestruct "HK" as "[_ HK]". rewrite -Hl'.
      iApply ("HK" $! EUser with "[%] HP Hd"). unfold assign_bad. split_and!; try done; lia. }
    iIntros "HP Hd". wbeta. rewrite (drop_ge l); [|len; lia]. rewrite app_nil_r.
    set (l1 := take (length l) (drop k vs)).
    assert (length l1 = length l) as Hl1 by (unfold l1; len; lia). rewrite -Hl1. rewrite -Hl1 in H2. wbind.
    set (l2 := drop (k + length l1) vs) in *. set (l0 := take k vs) in *.
    assert (zlen l2 = zlen vs - p - zlen l) as Hl2 by (unfold l2; len; lia).
    assert (length l0 = k) as Hl0 by (unfold l0; len; lia).
    assert (l0 ++ l1 ++ l2 = vs) as Hvs.
    { unfold l2. rewrite Hl1. unfold l0, l1. symmetry. apply list_mid. lia. }
    iApply (wp_copy_back with "HP Hd"); [done|lia|done|]. iSplit; last first.
    { iIntros "HP Hd". iDestruct "HK" as "[_ HK]". iApply ("HK" $! EUser with "[%] HP Hd").
      unfold assign_bad. split_and!; try done; lia. }
    iIntros "HP Hd". wbeta. wbind. iApply (wp_set_last _ _ _ _ _ _ (zlen (l1 ++ l2))); [done|]. wbind.
    iApply (wp_copy_front with "HP Hd"); [done|lia| |].
    { rewrite -{1}(loc_add_0 b'). f_equal. lia. }
    iSplit; last first.
    { iIntros "HP Hd". iDestruct "HK" as "[_ HK]". iApply ("HK" $! EUser with "[%] HP Hd").
      unfold assign_bad. rewrite app_length. split_and!; try done; lia. }
    iIntros (q') "HP Hd". rewrite Hvs. wbeta.
    assert (zlen vs = zlen l0 + zlen (l1 ++ l2)) as Hlv by (rewrite -{1}Hvs app_length; lia).
    iApply (wp_set_first _ _ _ _ _ _ 0 (zlen vs)); [by rewrite loc_add_0|lia|].
    iDestruct "HK" as "[HK _]". replace (p - zlen l0) with 0 by lia.
    iApply ("HK" with "[%] HP Hd").
    unfold assign_to. rewrite (proj2 (Z.leb_gt _ _)); [|lia]. rewrite (proj2 (Z.leb_gt _ _)); [done|lia].
  Qed.

  Lemma wp_dv_assign_input_loop f (s : ddata) l0 l vs Q X :
    elems f (l0 ++ l) ⊢
    ((elems f (l0 ++ take (length l) vs ++ drop (length vs) l) -∗
        Q (f +ₗ Z.of_nat (length l0 + length l `min` length vs), AVal <$> drop (length l) vs) s) ∧
     (∀ l', ⟦length l' = (length l0 + length l)%nat⟧ -∗ elems f l' -∗ X EUser s)) -∗
    wp (dv_assign_input_loop (f +ₗ Z.of_nat (length l0)) (f +ₗ Z.of_nat (length l0 + length l))
          (AVal <$> vs)) s Q X.
  Proof.
    iIntros "Hl HK". iInduction vs as [|v vs] "IH" forall (l0 l); simpl.
    { iApply wp_ret. iDestruct "HK" as "[HK _]". rewrite take_nil drop_nil drop_0 /= Nat.min_0_r.
      rewrite Nat.add_0_r. by iApply "HK". }
    rewrite loc_eqb_add. destruct l as [|x l]; simpl.
    { rewrite Nat.add_0_r Z.eqb_refl. iApply wp_ret. iDestruct "HK" as "[HK _]".
      by iApply "HK". }
    destruct (Z.eqb_spec (Z.of_nat (length l0)) (Z.of_nat (length l0 + S (length l)))); [lia|].
    wbind. rewrite elems_app elems_cons. iDestruct "Hl" as "(H0 & Hx & Hl)".
    iApply (as_ok_val emp%I v with "[//] Hx"). iSplit; last first.
    { iIntros (c) "_ Hx". iDestruct "HK" as "[_ HK]". iApply ("HK" $! (l0 ++ c :: l)).
      { iPureIntro. nlia. }
      rewrite elems_app elems_cons. iFrame. }
    iIntros "_ Hx".
    iSpecialize ("IH" $! (l0 ++ [v]) l with "[H0 Hx Hl]").
    { rewrite !elems_app elems_cons elems_nil. rewrite app_length. simpl. iFrame "H0 Hx".
      iApply (elems_eq with "Hl"); [loc_solve|done]. }
    rewrite app_length /=.
    replace (f +ₗ Z.of_nat (length l0) +ₗ 1) with (f +ₗ Z.of_nat (length l0 + 1)) by loc_solve.
    replace (length l0 + S (length l))%nat with (length l0 + 1 + length l)%nat by lia.
    iApply "IH". iSplit.
    - iIntros "Hl". iDestruct "HK" as "[HK _]".
      replace (length l0 + S (length l `min` length vs))%nat
        with (length l0 + 1 + length l `min` length vs)%nat by lia.
      iApply "HK". by rewrite -assoc_L.
    - iIntros (l') "%Hx Hl". iDestruct "HK" as "[_ HK]". iApply ("HK" with "[] Hl").
      iPureIntro. lia.
  Qed.
  Lemma wp_dv_assign_input fixed a b p l cap vs Q X :
    dev_at a b p l cap ⊢
    ((∀ b' p' cap', ⟦zlen vs <= cap - p -> b' = b /\ p' = p /\ cap' = cap⟧ -∗
        dev_at a b' p' vs cap' -∗ Q tt (dobj a b' p' (zlen vs) cap')) ∧
     (∀ e b' p' l' cap', ⟦e <> EOutOfRange /\ (length l <= length l' <= length l + length vs)%nat⟧ -∗
        dev_at a b' p' l' cap' -∗ X e (dobj a b' p' (zlen l') cap'))) -∗
    wp (dv_assign_input fixed (AVal <$> vs)) (dobj a b p (zlen l) cap) Q X.
  Proof.
    iIntros "Hd HK". iDestruct (dev_at_len with "Hd") as "[%Hlen Hd]".
    unfold dv_assign_input. wbind. iApply wp_get. wbeta. dred. wbind.
    iDestruct (dev_at_open with "Hd") as "[Hl Hd]".
    iDestruct (wp_dv_assign_input_loop _ (dobj a b p (zlen l) cap) [] l vs with "Hl") as "H".
    simpl. rewrite loc_add_0 !loc_add_assoc. iApply "H". iSplit; last first.
    { iIntros (l') "%Hx Hl". iDestruct "HK" as "[_ HK]". rewrite -Hx. iApply ("HK" $! EUser b p l').
      { iPureIntro. split; [done|lia]. }
      by iApply ("Hd" with "[%] Hl"). }
    iIntros "Hl". cbn [fst snd]. iDestruct ("Hd" with "[%] Hl") as "Hd".
    { len. lia. }
    destruct (le_lt_dec (length vs) (length l)) as [Hle|Hgt].
    - rewrite (drop_ge vs); [|done]. simpl. rewrite loc_eqb_add.
      rewrite (take_ge vs); [|done]. rewrite Nat.min_r; [|done].
      destruct (Z.eqb_spec (p + Z.of_nat (length vs)) (p + Z.of_nat (length l))) as [Heq|Hne].
      + iApply wp_ret. iDestruct "HK" as "[HK _]".
        rewrite drop_ge; [|lia]. rewrite app_nil_r.
        replace (length l) with (length vs) by lia. by iApply ("HK" with "[%] Hd").
      + wbind. iDestruct (dev_at_cut _ _ _ _ _ (length vs) with "Hd") as "[Hl Hd]"; [len; lia|].
        rewrite take_app drop_app.
        iApply (wp_destroy_a with "Hl"); [rewrite loc_add_assoc; f_equal; len; lia|]. iIntros "Hl".
        iApply (wp_set_last _ _ _ _ _ _ (zlen vs)); [done|].
        iDestruct "HK" as "[HK _]". iApply ("HK" with "[%//]"). by iApply "Hd".
    - rewrite (drop_ge l); [|lia]. rewrite app_nil_r.
      destruct (drop (length l) vs) as [|v rest] eqn:Hdr.
      { apply (f_equal length) in Hdr. rewrite drop_length /= in Hdr. lia. }
      cbn [fmap list_fmap]. change (AVal v :: (AVal <$> rest)) with (AVal <$> (v :: rest)).
      assert (length (take (length l) vs) = length l) as Htl by (len; lia).
      replace (dobj a b p (zlen l) cap) with (dobj a b p (zlen (take (length l) vs)) cap) by (by rewrite Htl).
      iApply (wp_dv_append_loop fixed _ _ _ _ _ (v :: rest) with "Hd"). rewrite -Hdr take_drop. iSplit.
      + iIntros (b' p' cap') "%Hk Hd". iDestruct "HK" as "[HK _]". iApply ("HK" with "[%] Hd").
        intros. apply Hk. rewrite drop_length. lia.
      + iIntros (e b' p' l' cap') "%Hx Hd". iDestruct "HK" as "[_ HK]".
        iApply ("HK" with "[%] Hd"). rewrite drop_length in Hx. destruct Hx. split; [done|lia].
  Qed.
End assigning.
