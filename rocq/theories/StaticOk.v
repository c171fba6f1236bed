(** * sfl::static_vector meets its specification *)

From Verif Require Export SmallOk StaticClient.
From iris.proofmode Require Import tactics.
From Coq Require Import ZifyBool.
Open Scope Z_scope.

Section static_ok.
  Context `{E : Env}.
  Variable N : nat.
  Notation NZ := (Z.of_nat N).
  Notation tob ib n := (vobj 0 ib n NZ).

  (** The object [x] holds the elements [A.2] in its array at [A.1]. *)
  Definition tinv (x : sobj) (A : tabs) : hProp :=
    (⟦ib_ok N A.1 /\ x = (A.1, tob A.1 (length A.2))⟧ ∗ body A.1 A.2 NZ)%I.

  Lemma tinv_intro ib l n : ib_ok N ib -> n = length l -> body ib l NZ ⊢ tinv (ib, tob ib n) (ib, l).
  Proof. iIntros (Hib ->) "Hb". iFrame. done. Qed.

  (** ** Loops over input iterators *)
  Lemma wp_full ib n Q X :
    Q (Z.of_nat n =? NZ) (tob ib n) ⊢ wp (full_ N) (tob ib n) Q X.
  Proof. iIntros "H". unfold full_. wbind. iApply wp_size. wbeta. by iApply wp_ret. Qed.

  Lemma wp_static_emplace_back ib l ar v l1 Q X :
    (length l < N)%nat -> arg_rel ib l ar v l1 ->
    body ib l NZ ⊢
    ((body ib (l1 ++ [v]) NZ -∗ Q (ib +ₗ Z.of_nat (length l)) (tob ib (S (length l)))) ∧
     (∀ l', ⟦arg_exn ar l l'⟧ -∗ body ib l' NZ -∗ X EUser (tob ib (length l')))) -∗
    wp (static_emplace_back N ar) (tob ib (length l)) Q X.
  Proof.
    iIntros (Hl Har) "Hb HK". unfold static_emplace_back. wbind. iApply wp_full. wbind.
    iApply wp_assert; [lia|]. iApply (wp_emplace_back_inplace with "Hb"); [lia|done|]. iSplit.
    - by iDestruct "HK" as "[HK _]".
    - iIntros (l' n') "%Hx Hb". destruct Hx as [-> Hx]. iDestruct "HK" as "[_ HK]". by iApply ("HK" with "[] Hb").
  Qed.
  Lemma wp_static_emplace ib l i ar v l1 Q X :
    (i <= length l)%nat -> (length l < N)%nat -> arg_rel ib l ar v l1 ->
    body ib l NZ ⊢
    ((body ib (insert_at i [v] l1) NZ -∗ Q (ib +ₗ Z.of_nat i) (tob ib (S (length l)))) ∧
     (∀ l', ⟦ins_exn l i 1 ar l'⟧ -∗ body ib l' NZ -∗ X EUser (tob ib (length l')))) -∗
    wp (static_emplace N (ib +ₗ Z.of_nat i) ar) (tob ib (length l)) Q X.
  Proof.
    iIntros (Hi Hl Har) "Hb HK". unfold static_emplace. wbind. iApply wp_full. wbind.
    iApply wp_assert; [lia|]. iApply (wp_emplace_inplace with "Hb"); [done|lia|done|]. iSplit.
    - by iDestruct "HK" as "[HK _]".
    - iIntros (l' n') "%Hx Hb". destruct Hx as [-> Hx]. iDestruct "HK" as "[_ HK]". by iApply ("HK" with "[] Hb").
  Qed.

  Lemma wp_static_append ib l vs Q X :
    (length l + length vs <= N)%nat ->
    body ib l NZ ⊢
    ((body ib (l ++ vs) NZ -∗ Q tt (tob ib (length (l ++ vs)))) ∧
     (∀ l', ⟦(length l <= length l' <= length l + length vs)%nat⟧ -∗ body ib l' NZ -∗
        X EUser (tob ib (length l')))) -∗
    wp (static_append N (AVal <$> vs)) (tob ib (length l)) Q X.
  Proof.
    iIntros (Hn) "Hb HK". iInduction vs as [|v vs] "IH" forall (l Hn); simpl.
    { iApply wp_ret. iDestruct "HK" as "[HK _]". rewrite app_nil_r. by iApply "HK". }
    simpl in Hn. wbind. iApply (wp_static_emplace_back with "Hb"); [lia|constructor|]. iSplit; last first.
    { iIntros (l') "%Hx Hb". iDestruct "HK" as "[_ HK]". iApply ("HK" with "[] Hb").
      iPureIntro. destruct Hx as [Hx _]. lia. }
    iIntros "Hb". iSpecialize ("IH" $! (l ++ [v]) with "[%] Hb"); [nlia|].
    replace (length (l ++ [v])) with (S (length l)) by nlia. iApply "IH". iSplit.
    - iIntros "Hb". iDestruct "HK" as "[HK _]". rewrite -assoc_L. by iApply "HK".
    - iIntros (l') "%Hx Hb". iDestruct "HK" as "[_ HK]". iApply ("HK" with "[] Hb"). iPureIntro.
      rewrite ?app_length /= in Hx. lia.
  Qed.

  Lemma wp_static_insert_loop ib l i vs Q X :
    (i <= length l)%nat -> (length l + length vs <= N)%nat ->
    body ib l NZ ⊢
    ((body ib (insert_at i vs l) NZ -∗ Q tt (tob ib (length vs + length l))) ∧
     (∀ l', ⟦(length l <= length l' <= length l + length vs)%nat⟧ -∗ body ib l' NZ -∗
        X EUser (tob ib (length l')))) -∗
    wp (static_insert_loop N (ib +ₗ Z.of_nat i) (AVal <$> vs)) (tob ib (length l)) Q X.
  Proof.
    iIntros (Hi Hn) "Hb HK". iInduction vs as [|v vs] "IH" forall (l i Hi Hn); simpl.
    { iApply wp_ret. iDestruct "HK" as "[HK _]". unfold insert_at. simpl. rewrite take_drop. by iApply "HK". }
    simpl in Hn. wbind. iApply (wp_static_emplace with "Hb"); [done|lia|constructor|]. iSplit; last first.
    { iIntros (l') "%Hx Hb". iDestruct "HK" as "[_ HK]". iApply ("HK" with "[] Hb").
      iPureIntro. destruct Hx as [[Hx _]|Hx]; lia. }
    iIntros "Hb". iSpecialize ("IH" $! (insert_at i [v] l) (S i) with "[%] [%] Hb"); [nlia|nlia|].
    replace (length (insert_at i [v] l)) with (S (length l)) by nlia.
    replace (ib +ₗ Z.of_nat i +ₗ 1) with (ib +ₗ Z.of_nat (S i)) by loc_solve. iApply "IH". iSplit.
    - iIntros "Hb". iDestruct "HK" as "[HK _]". rewrite insert_at_cons; [|done].
      replace (length vs + S (length l))%nat with (S (length vs + length l)) by lia. by iApply "HK".
    - iIntros (l') "%Hx Hb". iDestruct "HK" as "[_ HK]". iApply ("HK" with "[] Hb"). iPureIntro. lia.
  Qed.

  Lemma wp_static_assign_input ib l vs Q X :
    (length vs <= N)%nat ->
    body ib l NZ ⊢
    ((body ib vs NZ -∗ Q tt (tob ib (length vs))) ∧
     (∀ l', ⟦(length l <= length l' <= Nat.max (length l) (length vs))%nat⟧ -∗ body ib l' NZ -∗
        X EUser (tob ib (length l')))) -∗
    wp (static_assign_input N (AVal <$> vs)) (tob ib (length l)) Q X.
  Proof.
    iIntros (Hn) "(%Hlc & Hl & Hr) HK". unfold static_assign_input. wbind. iApply wp_get. wbeta.
    cbn [vobj v_first v_last]. wbind.
    iDestruct (wp_assign_input_loop 0 ib (length l) NZ [] l vs with "Hl") as "H".
    simpl. rewrite loc_add_0. iApply "H". iSplit; last first.
    { iIntros (l') "%Hx Hl". iDestruct "HK" as "[_ HK]". rewrite -Hx. iApply ("HK" $! l').
      { iPureIntro. lia. }
      iApply (body_intro with "Hl Hr"); [by rewrite Hx|lia|lia]. }
    iIntros "Hl". cbn [fst snd].
    destruct (le_lt_dec (length vs) (length l)) as [Hle|Hgt].
    - rewrite (drop_ge vs); [|done]. simpl. rewrite loc_eqb_add.
      rewrite (take_ge vs); [|done]. rewrite Nat.min_r; [|done].
      destruct (Z.eqb_spec (Z.of_nat (length vs)) (Z.of_nat (length l))) as [Heq|Hne].
      + iApply wp_ret. iDestruct "HK" as "[HK _]".
        rewrite drop_ge; [|lia]. rewrite app_nil_r.
        replace (length l) with (length vs) by lia. iApply "HK".
        iApply (body_intro with "Hl Hr"); [done|lia|lia].
      + iDestruct (elems_split _ _ vs (drop (length vs) l) with "Hl") as "[H1 H2]"; [done|done|].
        wbind. iApply (wp_destroy_a with "H2"); [loc_solve|]. iIntros "H2".
        iApply (wp_set_last _ _ _ (length vs)); [done|]. iDestruct "HK" as "[HK _]". iApply "HK".
        iDestruct (raws_join with "H2 Hr") as "Hr"; [loc_solve|done|].
        iApply (body_intro with "H1 Hr"); [loc_solve|nlia|nlia].
    - rewrite (drop_ge l); [|lia]. rewrite app_nil_r.
      destruct (drop (length l) vs) as [|v rest] eqn:Hd.
      { apply (f_equal length) in Hd. rewrite drop_length /= in Hd. lia. }
      cbn [fmap list_fmap]. change (AVal v :: (AVal <$> rest)) with (AVal <$> (v :: rest)).
      assert (length (take (length l) vs) + length (v :: rest) <= N)%nat as Hfit by (rewrite -Hd; nlia).
      iAssert (body ib (take (length l) vs) NZ) with "[Hl Hr]" as "Hv".
      { iApply (body_intro with "Hl Hr"); [loc_solve|nlia|nlia]. }
      iDestruct (wp_static_append _ _ (v :: rest) with "Hv") as "H"; [done|].
      rewrite take_length Nat.min_l; [|lia].
      iApply "H". rewrite -Hd take_drop drop_length. iSplit.
      + by iDestruct "HK" as "[HK _]".
      + iIntros (l') "%Hx Hv". iDestruct "HK" as "[_ HK]".
        iApply ("HK" with "[] Hv"). iPureIntro. lia.
  Qed.

  Lemma wp_static_resize ib l n ar v Q X :
    (n <= N)%nat -> arg_rel ib l ar v l -> ~ is_move ar ->
    body ib l NZ ⊢
    ((body ib (resized l n v) NZ -∗ Q tt (tob ib n)) ∧
     (⟦(length l < n)%nat⟧ -∗ body ib l NZ -∗ X EUser (tob ib (length l)))) -∗
    wp (static_resize N (Z.of_nat n) ar) (tob ib (length l)) Q X.
  Proof.
    iIntros (Hn Har Hm) "Hb HK". unfold static_resize. wbind. iApply wp_assert; [lia|]. wbind.
    iApply wp_size. wbeta. wbind. iApply wp_get. wbeta. unfold resized.
    destruct (Z.ltb_spec (Z.of_nat n) (Z.of_nat (length l))) as [Hlt|Hge].
    { iApply (wp_truncate with "Hb"); [lia|]. iIntros "Hb". iDestruct "HK" as "[HK _]". iApply "HK".
      replace (n - length l)%nat with 0%nat by lia. by rewrite app_nil_r. }
    rewrite (take_ge l); [|lia].
    destruct (Z.ltb_spec (Z.of_nat (length l)) (Z.of_nat n)) as [Hlt|Hge'].
    - cbn [vobj v_last]. replace (Z.to_nat (Z.of_nat n - Z.of_nat (length l))) with (n - length l)%nat by lia.
      iApply (wp_append_fill with "Hb"); [lia|done|done|]. iSplit.
      + iIntros "Hb". iDestruct "HK" as "[HK _]". replace (length l + (n - length l))%nat with n by lia. by iApply "HK".
      + iIntros "Hb". iDestruct "HK" as "[_ HK]". iApply ("HK" with "[] Hb"). iPureIntro. lia.
    - iApply wp_ret. iDestruct "HK" as "[HK _]". assert (n = length l) as -> by lia.
      iApply "HK". by rewrite Nat.sub_diag app_nil_r.
  Qed.

  Lemma wp_static_self ib l Q X :
    body ib l NZ ⊢
    ((body ib (vmoved <$> l) NZ -∗ Q tt (tob ib (length l))) ∧
     (∀ l', ⟦length l' = length l⟧ -∗ body ib l' NZ -∗ X EUser (tob ib (length l)))) -∗
    wp (static_self_move N) (tob ib (length l)) Q X.
  Proof.
    iIntros "(%Hlc & Hl & Hr) HK". unfold static_self_move. wbind. iApply wp_get. wbeta. wbind.
    iApply wp_range; [done|]. unfold static_assign_range. rewrite refs_length. wbind. iApply wp_assert; [lia|].
    unfold assign_range_inplace. wbind. iApply wp_get. wbeta.
    wbind. iApply wp_size. wbeta. rewrite refs_length Z.leb_refl. wbind. cbn [vobj v_first v_last].
    iApply (wp_self_loop with "Hl"). iSplit; last first.
    - iIntros (l') "%Hl' Hl". iDestruct "HK" as "[_ HK]". destruct Hl' as [Hl' Hpos]. iApply ("HK" $! l' with "[%]"); [done|].
      iApply (body_intro with "Hl Hr"); [by rewrite Hl'|lia|lia].
    - iIntros "Hl". wbind. iApply (wp_destroy_a _ _ [] with "[]"); [by rewrite loc_add_0|done|].
      iIntros "_". iApply (wp_set_last _ _ _ (length l)); [done|]. iDestruct "HK" as "[HK _]". iApply "HK".
      iApply (body_intro with "Hl Hr"); rewrite fmap_length; [done|lia|lia].
  Qed.

  (** ** Member functions *)
  Definition top_ok (o : vop) : Prop := forall ib l,
    static_pre N o (length l) = true ->
    body ib l NZ ⊢
    wp (run_static N o) (tob ib (length l))
      (fun r x' => ∃ l', ⟦x' = tob ib (length l') /\ static_post N o l r l'⟧ ∗ body ib l' NZ)%I
      (fun e x' => ∃ l', ⟦x' = tob ib (length l') /\ static_exn o l e l'⟧ ∗ body ib l' NZ)%I.

  Ltac start :=
    iIntros "Hb"; unfold run_static; wbind; iApply wp_get; cbn [vobj v_first].
  Ltac exn_done :=
    split; [done|]; unfold static_exn; split; [cbn [static_strong]; intuition congruence|]; split; [simpl; lia || done|done].
  Ltac finish l' := iExists l'; iSplit; [iPureIntro|iExact "Hb"].

  Lemma t_emplace i x : top_ok (OEmplace i x).
  Proof.
    intros ib l Hpre. unfold static_pre in Hpre. cbn [seq_pre] in Hpre.
    apply andb_true_iff in Hpre as [Hpre Hn]. apply andb_true_iff in Hpre as [Hi Hx].
    destruct (arg_of_rel 0 ib l NZ x Hx) as (v & Hv & Har). start. unfold as_idx. wbind.
    iApply (wp_static_emplace with "Hb"); [lia|lia|exact Har|]. iSplit.
    - iIntros "Hb". iApply (ret_idx ib i); [done|done|]. finish (insert_at i [v] (arg_rest l x)).
      split; [f_equal; unfold insert_at; len; rewrite arg_rest_length; nlia|]. split; [|done]. simpl. by exists v.
    - iIntros (l') "%Hx' Hb". finish l'. split; [done|]. split_and!; try done.
      + intros [Hm ->]. destruct Hx' as [Hx'|Hx']; [|lia]. by destruct x; try apply Hx'.
      + simpl. destruct Hx' as [[Hx' _]|Hx']; lia.
      + simpl. destruct Hx' as [[Hx' _]|Hx']; lia.
  Qed.
  Lemma t_emplace_back x : top_ok (OEmplaceBack x).
  Proof.
    intros ib l Hpre. unfold static_pre in Hpre. cbn [seq_pre] in Hpre. apply andb_true_iff in Hpre as [Hx Hn].
    destruct (arg_of_rel 0 ib l NZ x Hx) as (v & Hv & Har). start. unfold as_idx. wbind.
    iApply (wp_static_emplace_back with "Hb"); [lia|exact Har|]. iSplit.
    - iIntros "Hb". iApply (ret_idx ib (length l)); [done|done|]. finish (arg_rest l x ++ [v]).
      split; [f_equal; rewrite app_length arg_rest_length; simpl; lia|]. split; [|done]. simpl. by exists v.
    - iIntros (l') "%Hx' Hb". finish l'. split; [done|]. split_and!; try done.
      + intros Hm. by destruct x; try apply Hx'.
      + apply Hx'.
  Qed.
  Lemma wp_static_available ib n Q X :
    Q (NZ - Z.of_nat n) (tob ib n) ⊢ wp (static_available N) (tob ib n) Q X.
  Proof. iIntros "H". unfold static_available. wbind. iApply wp_size. wbeta. by iApply wp_ret. Qed.
  Lemma t_insert_n i n x : top_ok (OInsertN i n x).
  Proof.
    intros ib l Hpre. unfold static_pre in Hpre. cbn [seq_pre] in Hpre.
    apply andb_true_iff in Hpre as [Hpre Hn]. apply andb_true_iff in Hpre as [Hpre Hm].
    apply andb_true_iff in Hpre as [Hi Hx]. apply negb_true_iff in Hm.
    destruct (arg_of_rel 0 ib l NZ x Hx) as (v & Hv & Har). rewrite arg_rest_same in Har; [|done].
    apply (arg_of_move 0 ib l NZ) in Hm as Hm'. start. unfold as_idx. wbind. unfold static_insert_fill.
    wbind. iApply wp_static_available. wbind. iApply wp_assert; [lia|]. wbind. iApply wp_get. wbeta. wbind.
    iApply wp_offset_of; [lia|]. wbeta. destruct (Z.eqb_spec (Z.of_nat n) 0) as [Hz|Hz].
    - iApply wp_ret. iApply (ret_idx ib i); [done|done|]. finish l. split; [done|]. split; [|done].
      simpl. exists v. split_and!; try done. assert (n = 0%nat) as -> by lia. simpl. by rewrite take_drop.
    - iApply (wp_insert_fill_inplace with "Hb"); [lia|lia|lia|exact Har|exact Hm'|]. iSplit.
      + iIntros "Hb". iApply (ret_idx ib i); [done|done|]. finish (insert_at i (replicate n v) l).
        split; [f_equal; nlia|]. split; [|done]. simpl. by exists v.
      + iIntros (l' n') "%Hx' Hb". destruct Hx' as [-> Hx']. finish l'. split; [done|]. split_and!; try done.
        * intros ->. destruct Hx' as [Hx'|Hx']; [|lia]. by destruct x; try apply Hx'.
        * simpl. destruct Hx' as [[Hx' _]|Hx']; lia.
        * simpl. destruct Hx' as [[Hx' _]|Hx']; lia.
  Qed.
  Lemma t_insert_range i vs : top_ok (OInsertRange i vs).
  Proof.
    intros ib l Hpre. unfold static_pre in Hpre. cbn [seq_pre] in Hpre. apply andb_true_iff in Hpre as [Hi Hn].
    start. unfold as_idx. wbind. unfold static_insert_range. rewrite fmap_length.
    wbind. iApply wp_static_available. wbind. iApply wp_assert; [lia|]. wbind. iApply wp_get. wbeta. wbind.
    iApply wp_offset_of; [lia|]. wbeta. destruct (Nat.eqb_spec (length vs) 0) as [Hz|Hz].
    - iApply wp_ret. iApply (ret_idx ib i); [done|done|]. finish l. split; [done|]. split; [|done].
      simpl. destruct vs; [|done]. simpl. by rewrite take_drop.
    - iApply (wp_insert_range_inplace with "Hb"); [lia|lia|lia|]. iSplit.
      + iIntros "Hb". iApply (ret_idx ib i); [done|done|]. finish (insert_at i vs l).
        split; [f_equal; nlia|]. by split.
      + iIntros (l' n') "%Hx' Hb". destruct Hx' as [-> Hx']. finish l'. split; [done|]. split_and!; try done.
        * intros ->. destruct Hx' as [Hx'|Hx']; [|lia]. apply Hx'.
        * simpl. destruct Hx' as [[Hx' _]|Hx']; lia.
        * simpl. destruct Hx' as [[Hx' _]|Hx']; lia.
  Qed.
  Lemma t_insert_input i vs : top_ok (OInsertInput i vs).
  Proof.
    intros ib l Hpre. unfold static_pre in Hpre. cbn [seq_pre] in Hpre. apply andb_true_iff in Hpre as [Hi Hn].
    start. unfold as_idx. wbind. unfold static_insert_input. wbind. iApply wp_offset_of; [lia|]. wbeta. wbind.
    iApply (wp_static_insert_loop with "Hb"); [lia|lia|]. iSplit.
    - iIntros "Hb". wbind. iApply wp_get. wbeta. iApply wp_ret. iApply (ret_idx ib i); [done|done|].
      finish (insert_at i vs l). split; [f_equal; nlia|]. by split.
    - iIntros (l') "%Hx' Hb". finish l'. by exn_done.
  Qed.
  Lemma t_pop_back : top_ok OPopBack.
  Proof.
    intros ib l Hpre. unfold static_pre in Hpre. cbn [seq_pre] in Hpre.
    assert (exists l' v, l = l' ++ [v]) as (l' & v & ->).
    { destruct l as [|v l _] using rev_ind; [simpl in Hpre; lia|]. by eexists _, _. }
    start. unfold as_unit. wbind. iApply (wp_pop_back with "Hb"). iIntros "Hb". iApply wp_ret. finish l'.
    split; [done|]. split; [|done]. simpl. split; [done|]. by eexists.
  Qed.
  Lemma t_erase i : top_ok (OErase i).
  Proof.
    intros ib l Hpre. unfold static_pre in Hpre. cbn [seq_pre] in Hpre. start. unfold as_idx. wbind.
    iApply (wp_erase with "Hb"); [lia|]. iSplit.
    - iIntros "Hb". iApply (ret_idx ib i); [done|done|]. finish (remove_range i (S i) l).
      split; [f_equal; unfold remove_range; nlia|]. by split.
    - iIntros (l') "%Hx Hb". destruct Hx as (Hl & Ht & _). rewrite -Hl. finish l'. by exn_done.
  Qed.
  Lemma t_erase_range i j : top_ok (OEraseRange i j).
  Proof.
    intros ib l Hpre. unfold static_pre in Hpre. cbn [seq_pre] in Hpre. start. unfold as_idx. wbind.
    iApply (wp_erase_range with "Hb"); [lia|]. iSplit.
    - iIntros "Hb". iApply (ret_idx ib i); [done|done|]. finish (remove_range i j l).
      split; [f_equal; unfold remove_range; nlia|]. by split.
    - iIntros (l') "%Hx Hb". destruct Hx as (Hl & Ht & _). rewrite -Hl. finish l'. by exn_done.
  Qed.
  Lemma t_resize n x : top_ok (OResize n x).
  Proof.
    intros ib l Hpre. unfold static_pre in Hpre. cbn [seq_pre] in Hpre.
    apply andb_true_iff in Hpre as [Hpre Hn]. apply andb_true_iff in Hpre as [Hx Hm]. apply negb_true_iff in Hm.
    destruct (arg_of_rel 0 ib l NZ x Hx) as (v & Hv & Har). rewrite arg_rest_same in Har; [|done].
    apply (arg_of_move 0 ib l NZ) in Hm as Hm'. start. unfold as_unit. wbind.
    iApply (wp_static_resize with "Hb"); [lia|exact Har|exact Hm'|]. iSplit.
    - iIntros "Hb". iApply wp_ret. finish (resized l n v). split; [by rewrite resized_length|].
      split; [|done]. simpl. by exists v.
    - iIntros "%Hl Hb". finish l. by exn_done.
  Qed.
  Lemma t_assign_n n v : top_ok (OAssignN n v).
  Proof.
    intros ib l Hpre. unfold static_pre in Hpre. cbn [seq_pre] in Hpre. start. unfold as_unit, static_assign_fill.
    wbind. wbind. iApply wp_assert; [lia|]. iApply (wp_assign_fill_inplace with "Hb"); [lia|]. iSplit.
    - iIntros "Hb". iApply wp_ret. finish (replicate n v). split; [by rewrite replicate_length|]. by split.
    - iIntros (l') "%Hl Hb". rewrite -Hl. finish l'. by exn_done.
  Qed.
  Lemma t_assign_range vs : top_ok (OAssignRange vs).
  Proof.
    intros ib l Hpre. unfold static_pre in Hpre. cbn [seq_pre] in Hpre. start. unfold as_unit, static_assign_range.
    rewrite fmap_length. wbind. wbind. iApply wp_assert; [lia|].
    iApply (wp_assign_range_inplace emp%I emp%I emp%I with "[//] Hb"); [apply src_vals|lia|]. iSplit.
    - iIntros "_ Hb". iApply wp_ret. finish vs. split; [done|]. by split.
    - iIntros (l') "%Hl _ Hb". rewrite -Hl. finish l'. by exn_done.
  Qed.
  Lemma t_assign_input vs : top_ok (OAssignInput vs).
  Proof.
    intros ib l Hpre. unfold static_pre in Hpre. cbn [seq_pre] in Hpre. start. unfold as_unit. wbind.
    iApply (wp_static_assign_input with "Hb"); [lia|]. iSplit.
    - iIntros "Hb". iApply wp_ret. finish vs. split; [done|]. by split.
    - iIntros (l') "%Hl Hb". finish l'. by exn_done.
  Qed.
  Lemma t_clear : top_ok OClear.
  Proof.
    intros ib l _. start. unfold as_unit. wbind. iApply (wp_clear with "Hb"). iIntros "Hb". iApply wp_ret.
    finish (@nil V). split; [done|]. by split.
  Qed.
  Lemma t_at i : top_ok (OAt i).
  Proof.
    intros ib l _. start. wbind. iApply (wp_at with "Hb"); [lia|]. iSplit.
    - iIntros (v) "%Hi Hb". iApply wp_ret. rewrite Nat2Z.id in Hi. finish l. split; [done|]. split; [|done]. by exists v.
    - iIntros "%Hi Hb". finish l. split; [done|]. split_and!; try done. exists i. split; [done|lia].
  Qed.
  Lemma t_get i : top_ok (OGet i).
  Proof.
    intros ib l Hpre. unfold static_pre in Hpre. cbn [seq_pre] in Hpre. assert (i < length l)%nat as Hi by lia.
    start. unfold as_val. wbind. iApply wp_index; [done|]. wbind.
    destruct (lookup_lt_is_Some_2 l i Hi) as [v Hv]. iDestruct "Hb" as "(%Hc & Hl & Hr)".
    iApply (wp_read_at with "Hl"); [done|]. iIntros "Hl". iApply wp_ret.
    iAssert (body ib l NZ) with "[Hl Hr]" as "Hb"; [by iFrame|]. finish l. split; [done|]. split; [|done]. by exists v.
  Qed.
  Lemma t_front : top_ok OFront.
  Proof.
    intros ib l Hpre. unfold static_pre in Hpre. cbn [seq_pre] in Hpre.
    start. unfold as_val. wbind. unfold front_. wbind. iApply wp_get. wbeta. wbind. iApply wp_assert.
    { cbn [vobj v_first v_last]. rewrite -{1}(loc_add_0 ib) loc_eqb_add. lia. }
    iApply wp_ret. wbind. cbn [vobj v_first]. destruct l as [|v l]; [simpl in Hpre; lia|].
    iDestruct "Hb" as "(%Hc & Hl & Hr)". iDestruct (elems_cons with "Hl") as "[Hx Hl]".
    iApply (wp_read with "Hx"). iIntros "Hx".
    iAssert (elems ib (v :: l)) with "[Hx Hl]" as "Hl"; [rewrite elems_cons; iFrame|].
    iApply wp_ret. iAssert (body ib (v :: l) NZ) with "[Hl Hr]" as "Hb"; [by iFrame|].
    finish (v :: l). split; [done|]. split; [|done]. by exists v.
  Qed.
  Lemma t_back : top_ok OBack.
  Proof.
    intros ib l Hpre. unfold static_pre in Hpre. cbn [seq_pre] in Hpre.
    start. unfold as_val. wbind. unfold back_. wbind. iApply wp_get. wbeta. wbind. iApply wp_assert.
    { cbn [vobj v_first v_last]. rewrite -{1}(loc_add_0 ib) loc_eqb_add. lia. }
    iApply wp_ret. wbind. iDestruct "Hb" as "(%Hc & Hl & Hr)".
    destruct (lookup_lt_is_Some_2 l (length l - 1)) as [v Hv]; [lia|].
    assert (v_last (tob ib (length l)) +ₗ -1 = ib +ₗ Z.of_nat (length l - 1)) as -> by (unfold vobj; cbn [v_last]; loc_solve).
    iApply (wp_read_at with "Hl"); [done|]. iIntros "Hl". iApply wp_ret.
    iAssert (body ib l NZ) with "[Hl Hr]" as "Hb"; [by iFrame|]. finish l. split; [done|]. split; [|done].
    exists v. split_and!; try done. rewrite last_lookup. by replace (pred (length l)) with (length l - 1)%nat by lia.
  Qed.
  Lemma t_set i v : top_ok (OSet i v).
  Proof.
    intros ib l Hpre. unfold static_pre in Hpre. cbn [seq_pre] in Hpre. assert (i < length l)%nat as Hi by lia.
    start. unfold as_unit. wbind. wbind. iApply wp_index; [done|].
    destruct (lookup_lt_is_Some_2 l i Hi) as [u Hu]. iDestruct "Hb" as "(%Hc & Hl & Hr)".
    iDestruct (elems_acc with "Hl") as "[Hx Hl]"; [exact Hu|].
    assert (forall u', length (<[i := u']> l) = length l) as Hins by (intros; apply insert_length).
    iApply (as_ok_val emp%I v with "[//] Hx"). iSplit.
    - iIntros "_ Hx". iDestruct ("Hl" with "Hx") as "Hl". iApply wp_ret.
      iAssert (body ib (<[i := v]> l) NZ) with "[Hl Hr]" as "Hb".
      { iApply (body_intro with "Hl Hr"); by rewrite Hins. }
      finish (<[i := v]> l). split; [by rewrite Hins|]. by split.
    - iIntros (c) "_ Hx". iDestruct ("Hl" with "Hx") as "Hl".
      iAssert (body ib (<[i := c]> l) NZ) with "[Hl Hr]" as "Hb".
      { iApply (body_intro with "Hl Hr"); by rewrite Hins. }
      finish (<[i := c]> l). split; [by rewrite Hins|]. split_and!; done || (simpl; by rewrite Hins).
  Qed.
  Lemma t_size : top_ok OSize.
  Proof.
    intros ib l _. start. unfold as_num. wbind. iApply wp_size. iApply wp_ret. finish l. split; [done|]. by split.
  Qed.
  Lemma t_capacity : top_ok OCapacity.
  Proof. intros ib l _. start. iApply wp_ret. finish l. split; [done|]. split; [|done]. split; [by eexists|done]. Qed.
  Lemma t_erase_if p : top_ok (OEraseIf p).
  Proof.
    intros ib l _. start. unfold as_num. wbind. iApply (wp_erase_if with "Hb"). iSplit.
    - iIntros "Hb". iApply wp_ret. finish (keep p l). split; [done|]. split; [|done]. split; [done|].
      by rewrite filter_split_length.
    - iIntros (l') "%Hl Hb". rewrite -Hl. finish l'. by exn_done.
  Qed.
  Lemma t_self_move : top_ok OSelfMove.
  Proof.
    intros ib l _. iIntros "Hb". iDestruct (body_len with "Hb") as "[%Hlen Hb]". iRevert "Hb". start. unfold as_unit. wbind.
    iApply (wp_static_self with "Hb"). iSplit.
    - iIntros "Hb". iApply wp_ret. finish (vmoved <$> l). split; [by rewrite fmap_length|].
      split; [|done]. split; [done|]. destruct l; [by left|right]. split; [simpl in Hlen; lia|done].
    - iIntros (l') "%Hl Hb". rewrite -Hl. finish l'. by exn_done.
  Qed.

  Lemma wp_top o : top_ok o.
  Proof.
    destruct o.
    - apply t_emplace. - apply t_emplace_back. - apply t_insert_n. - apply t_insert_range.
    - apply t_insert_input. - apply t_pop_back. - apply t_erase. - apply t_erase_range.
    - apply t_resize. - apply t_assign_n. - apply t_assign_range. - apply t_assign_input.
    - apply t_clear. - intros ib l [=]. - intros ib l [=]. - apply t_at. - apply t_get.
    - apply t_front. - apply t_back. - apply t_set. - apply t_size. - apply t_capacity.
    - apply t_erase_if. - apply t_self_move.
  Qed.

  (** ** Construction *)
  Lemma static_empty_vobj ib : static_empty N ib = tob ib 0.
  Proof. unfold static_empty, vobj. simpl. by rewrite loc_add_0. Qed.
  Lemma fresh_body ib : raws ib N ⊢ body ib [] NZ.
  Proof. iIntros "Hr". iApply (body_intro _ [] with "[] Hr"); [by rewrite loc_add_0|simpl; lia|simpl; lia|done]. Qed.
  Lemma body_fresh ib : body ib [] NZ ⊢ raws ib N.
  Proof. iIntros "(_ & _ & Hr)". simpl. iApply (raws_eq with "Hr"); [by rewrite loc_add_0|lia]. Qed.
  Lemma wp_static_destructor ib l Q X :
    body ib l NZ ⊢ (raws ib N -∗ Q tt (tob ib (length l))) -∗ wp static_destructor (tob ib (length l)) Q X.
  Proof.
    iIntros "(%Hc & Hl & Hr) HK". unfold static_destructor. wbind. iApply wp_get. wbeta.
    iApply (wp_destroy_a with "Hl"); [done|]. iIntros "Hl". iApply "HK".
    iApply (raws_join _ N with "Hl Hr"); [done|lia].
  Qed.

  Lemma static_build_ok c :
    t_pre N c = true ->
    ⊢ wp (build (static_vector N) c) tt (fun x _ => ∃ A : tabs, ⟦A.2 = t_elems c⟧ ∗ tinv x A)%I
         (fun e _ => ⟦e = EUser⟧)%I.
  Proof.
    intros Hpre. iApply wp_construct_small. iIntros (ib) "%Hib Hr". rewrite static_empty_vobj.
    assert (forall l x', x' = tob ib (length l) -> l = t_elems c ->
      body ib l NZ ⊢ ∃ A : tabs, ⟦A.2 = t_elems c⟧ ∗ tinv (ib, x') A) as Hfin.
    { iIntros (l x' -> ->) "Hb". iExists (ib, _). iSplit; [done|]. by iApply (tinv_intro with "Hb"). }
    destruct c as [|n x|vs|vs]; simpl in *.
    - iApply wp_ret. iDestruct (fresh_body with "Hr") as "Hb". by iApply (Hfin [] with "Hb").
    - assert (exists v ar, static_run_ctor N (TFill n x) = static_init_fill N (Z.of_nat n) ar /\
                   mk_ok emp emp ar v emp /\ t_elems (TFill n x) = replicate n v) as (v & ar & Hrun & Hmk & Hk).
      { destruct x as [v|]; eexists _, _; (split; [done|split; [|done]]); [apply mk_ok_val|apply mk_ok_def]. }
      simpl in Hrun, Hk. rewrite Hk in Hfin. rewrite Hrun Hk. unfold static_init_fill. wbind. iApply wp_assert; [lia|]. wbind.
      iApply wp_get. wbeta. wbind. cbn [vobj v_first]. rewrite Nat2Z.id.
      iDestruct (raws_split _ _ n (N - n) with "Hr") as "[Hr1 Hr]"; [lia|done|].
      iApply (wp_ufill_n emp%I with "[//] Hr1"); [done|]. iSplit.
      + iIntros "_ Hn". iApply (wp_set_last _ _ _ n); [done|].
        iApply (Hfin (replicate n v)); [by rewrite replicate_length|done|].
        iApply (body_intro with "Hn Hr"); rewrite replicate_length; [done|lia|lia].
      + iIntros "_ Hr1". iSplitL; [|done]. iApply (raws_join with "Hr1 Hr"); [done|lia].
    - unfold static_init_range. rewrite fmap_length. wbind. iApply wp_assert; [lia|]. wbind. iApply wp_get. wbeta.
      wbind. cbn [vobj v_first].
      iDestruct (raws_split _ _ (length vs) (N - length vs) with "Hr") as "[Hr1 Hr]"; [lia|done|].
      iApply (wp_ucopy emp%I emp%I _ vs emp%I with "[//] Hr1"); [apply mks_vals|]. iSplit.
      + iIntros "_ Hn". iApply (wp_set_last _ _ _ (length vs)); [done|].
        iApply (Hfin vs); [done|done|]. iApply (body_intro with "Hn Hr"); [done|lia|lia].
      + iIntros "_ Hr1". iSplitL; [|done]. iApply (raws_join with "Hr1 Hr"); [done|lia].
    - unfold static_init_input. iApply wp_try. iDestruct (fresh_body with "Hr") as "Hb".
      iApply (wp_static_append _ [] with "Hb"); [simpl; lia|]. iSplit.
      + iIntros "Hb". by iApply (Hfin vs with "Hb").
      + iIntros (l') "_ Hb". iApply (wp_static_destructor with "Hb"). iIntros "$". done.
  Qed.

  Lemma static_build2_ok c x (A : tabs) :
    tinv x A ⊢ wp (build2 (static_vector N) c) x
      (fun y x' => ∃ B A' : tabs, ⟦static_k2_post c A B A'⟧ ∗ tinv y B ∗ tinv x' A')%I
      (fun e x' => ∃ A' : tabs, ⟦static_k2_exn c A e A'⟧ ∗ tinv x' A')%I.
  Proof.
    destruct A as [ib l]. iIntros "[%Hx Hb]". destruct Hx as [Hib ->]. cbn [fst snd] in *.
    iApply wp_construct_small_from. iIntros (ib1) "%Hib1 Hr". cbn [fst snd]. rewrite static_empty_vobj.
    iDestruct (body_len with "Hb") as "[%Hlen Hb]". iDestruct "Hb" as "(_ & Hl & Hr2)".
    iDestruct (raws_split _ _ (length l) (N - length l) with "Hr") as "[Hr Hr1]"; [lia|done|].
    destruct c; cbn [static_build2].
    - unfold static_copy_ctor. wbind. iApply wp_get. cbn [fst snd]. wbind. iApply wp_range; [done|]. wbind.
      iApply (wp_ucopy with "Hl Hr"); [apply mks_refs_copy|]. iSplit.
      + iIntros "Hl Hn". iApply wp_on1. iApply (wp_set_last _ _ _ (length l)); [done|]. cbn [fst snd].
        iExists (ib1, l), (ib, l). iSplit; [done|]. iSplitL "Hn Hr1".
        * iApply (tinv_intro); [done|done|]. iApply (body_intro with "Hn Hr1"); [done|lia|lia].
        * iApply (tinv_intro); [done|done|]. iApply (body_intro with "Hl Hr2"); [done|lia|lia].
      + iIntros "Hl Hr". iSplitL "Hr Hr1"; [iApply (raws_join with "Hr Hr1"); [done|lia]|].
        iExists (ib, l). iSplit; [done|].
        iApply (tinv_intro); [done|done|]. iApply (body_intro with "Hl Hr2"); [done|lia|lia].
    - unfold static_move_ctor. wbind. iApply wp_get. cbn [fst snd]. wbind.
      iApply (wp_umove with "Hl Hr"); [done|]. iSplit.
      + iIntros "Hl Hn". iApply wp_on1. iApply (wp_set_last _ _ _ (length l)); [done|]. cbn [fst snd].
        iExists (ib1, l), (ib, vmoved <$> l). iSplit; [done|]. iSplitL "Hn Hr1".
        * iApply (tinv_intro); [done|done|]. iApply (body_intro with "Hn Hr1"); [done|lia|lia].
        * iApply (tinv_intro); [done|by rewrite fmap_length|].
          iApply (body_intro with "Hl Hr2"); rewrite fmap_length; [done|lia|lia].
      + iIntros (l') "%Hx Hl Hr". destruct Hx as [[Hl' Hm] _].
        iSplitL "Hr Hr1"; [iApply (raws_join with "Hr Hr1"); [done|lia]|].
        iExists (ib, l'). iSplit; [done|].
        iApply (tinv_intro); [done|done|]. iApply (body_intro with "Hl Hr2"); rewrite Hl'; [done|lia|lia].
  Qed.

  Lemma static_run2_ok o x (A : tabs) y (B : tabs) :
    tinv x A ∗ tinv y B ⊢ wp (static_run2 N o) (x, y)
      (fun r xy => ∃ A' B' : tabs, ⟦static_post2 o A B r A' B'⟧ ∗ tinv xy.1 A' ∗ tinv xy.2 B')%I
      (fun e xy => ∃ A' B' : tabs, ⟦static_exn2 o A B e A' B'⟧ ∗ tinv xy.1 A' ∗ tinv xy.2 B')%I.
  Proof.
    destruct A as [ib1 l1], B as [ib2 l2]. iIntros "[[%Hx H1] [%Hy H2]]".
    destruct Hx as [Hib1 ->], Hy as [Hib2 ->]. cbn [fst snd] in *.
    iDestruct (body_len with "H1") as "[%Hlen1 H1]". iDestruct (body_len with "H2") as "[%Hlen2 H2]".
    destruct o as [| | |r|lt]; cbn [static_run2]; unfold unit_result, bool_result; wbind; iApply wp_member2; cbn [fst snd].
    - unfold static_assign_copy. wbind. iApply wp_get. cbn [fst snd]. wbind. iApply wp_range; [done|].
      iApply wp_on1. unfold static_assign_range. rewrite refs_length. wbind. iApply wp_assert; [lia|].
      iDestruct "H2" as "(_ & Hl & Hr2)".
      iApply (wp_assign_range_inplace with "Hl H1"); [apply src_copy|lia|]. iSplit.
      + iIntros "Hl H1". iApply wp_ret. iExists (ib1, l2), (ib2, l2). iSplit; [done|]. cbn [fst snd]. iSplitL "H1".
        * by iApply (tinv_intro with "H1").
        * iApply tinv_intro; [done|done|]. iApply (body_intro with "Hl Hr2"); [done|lia|lia].
      + iIntros (l') "%Hl' Hl H1". iExists (ib1, l'), (ib2, l2). iSplit; [done|]. cbn [fst snd]. iSplitL "H1".
        * by iApply (tinv_intro with "H1").
        * iApply tinv_intro; [done|done|]. iApply (body_intro with "Hl Hr2"); [done|lia|lia].
    - unfold static_assign_move. wbind. iApply wp_get. cbn [fst snd]. wbind. iApply wp_range; [done|].
      iApply wp_on1. unfold static_assign_range. rewrite refs_length. wbind. iApply wp_assert; [lia|].
      iDestruct "H2" as "(_ & Hl & Hr2)".
      iApply (wp_assign_range_inplace with "Hl H1"); [apply src_move|lia|]. iSplit.
      + iIntros "Hl H1". iApply wp_ret. iExists (ib1, l2), (ib2, vmoved <$> l2). iSplit; [done|]. cbn [fst snd]. iSplitL "H1".
        * by iApply (tinv_intro with "H1").
        * iApply tinv_intro; [done|by rewrite fmap_length|].
          iApply (body_intro with "Hl Hr2"); rewrite fmap_length; [done|lia|lia].
      + iIntros (l') "%Hl' Hl H1". iDestruct "Hl" as (l2') "[%Hl2 Hl]". iExists (ib1, l'), (ib2, l2').
        iSplit; [done|]. cbn [fst snd]. iSplitL "H1".
        * by iApply (tinv_intro with "H1").
        * iApply tinv_intro; [done|done|]. iApply (body_intro with "Hl Hr2"); rewrite Hl2; [done|lia|lia].
    - iApply (wp_swap_inside with "H1 H2"). iSplit.
      + iIntros "H1 H2". iApply wp_ret. iExists (ib1, l2), (ib2, l1). iSplit; [done|]. cbn [fst snd]. iSplitL "H1".
        * by iApply (tinv_intro with "H1").
        * by iApply (tinv_intro with "H2").
      + iIntros (l1' l2') "%Hl H1 H2". destruct Hl as [Hl1 Hl2]. iExists (ib1, l1'), (ib2, l2').
        iSplit; [done|]. cbn [fst snd]. iSplitL "H1".
        * by iApply (tinv_intro with "H1").
        * by iApply (tinv_intro with "H2").
    - iApply (wp_eq with "H1 H2"). iSplit.
      + iIntros (b) "%Hb H1 H2". iApply wp_ret. iExists (ib1, l1), (ib2, l2).
        iSplit; [iPureIntro; split_and!; try done; by exists b|]. cbn [fst snd].
        iSplitL "H1"; [by iApply (tinv_intro with "H1")|by iApply (tinv_intro with "H2")].
      + iIntros "H1 H2". iExists (ib1, l1), (ib2, l2). iSplit; [done|]. cbn [fst snd].
        iSplitL "H1"; [by iApply (tinv_intro with "H1")|by iApply (tinv_intro with "H2")].
    - iApply (wp_lt with "H1 H2"). iSplit.
      + iIntros (b) "%Hb H1 H2". iApply wp_ret. iExists (ib1, l1), (ib2, l2).
        iSplit; [iPureIntro; split_and!; try done; by exists b|]. cbn [fst snd].
        iSplitL "H1"; [by iApply (tinv_intro with "H1")|by iApply (tinv_intro with "H2")].
      + iIntros "H1 H2". iExists (ib1, l1), (ib2, l2). iSplit; [done|]. cbn [fst snd].
        iSplitL "H1"; [by iApply (tinv_intro with "H1")|by iApply (tinv_intro with "H2")].
  Qed.

  Lemma static_run1_ok o x (A : tabs) :
    static_pre N o (length A.2) = true ->
    tinv x A ⊢ wp (run1 (static_vector N) o) x
      (fun r x' => ∃ A' : tabs, ⟦A'.1 = A.1 /\ static_post N o A.2 r A'.2⟧ ∗ tinv x' A')%I
      (fun e x' => ∃ A' : tabs, ⟦A'.1 = A.1 /\ static_exn o A.2 e A'.2⟧ ∗ tinv x' A')%I.
  Proof.
    destruct A as [ib l]. iIntros (Hpre) "[%Hx Hb]". destruct Hx as [Hib ->]. cbn [fst snd] in *.
    iApply wp_member. cbn [fst snd]. iApply (wp_wand with "[Hb]"); [by iApply (wp_top o with "Hb")|]. iSplit.
    - iIntros (r x') "Hx". iDestruct "Hx" as (l') "[%Hp Hb]". destruct Hp as [-> Hp].
      iExists (ib, l'). iSplit; [done|]. by iApply (tinv_intro with "Hb").
    - iIntros (r x') "Hx". iDestruct "Hx" as (l') "[%Hp Hb]". destruct Hp as [-> Hp].
      iExists (ib, l'). iSplit; [done|]. by iApply (tinv_intro with "Hb").
  Qed.

  Program Definition static_vector_ok : container_ok (static_spec N) :=
    {| inv := tinv : obj (static_vector N) -> abs (static_spec N) -> hProp |}.
  Next Obligation. done. Qed.
  Next Obligation. done. Qed.
  Next Obligation.
    intros o x A h Hi. apply pure_holds in Hi as [[_ ->] _]. simpl. by rewrite osize_vobj.
  Qed.
  Next Obligation. done. Qed.
  Next Obligation. intros c Hc. by apply static_build_ok. Qed.
  Next Obligation. intros c x A _. apply static_build2_ok. Qed.
  Next Obligation. intros o x A Hpre. by apply static_run1_ok. Qed.
  Next Obligation. intros o x A y B _. apply static_run2_ok. Qed.
  Next Obligation.
    intros x A. destruct A as [ib l]. iIntros "[%Hx Hb]". destruct Hx as [Hib ->]. cbn [fst snd] in *.
    iApply wp_kill_small. cbn [fst snd]. iApply (wp_static_destructor with "Hb"). iIntros "$".
  Qed.
End static_ok.
