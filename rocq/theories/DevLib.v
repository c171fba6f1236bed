(** * sfl::devector: shifting elements inside the storage *)

From Verif Require Export Window Devector.
From Coq Require Import ZifyBool.
From iris.proofmode Require Import tactics.
Open Scope Z_scope.

(** ** Insertion proxies *)
Section proxy_rules.
  Context `{E : Env}.
  Context {St : Type}.
  Implicit Types s : St.
  Implicit Types f g : Z -> option V.

  (** The proxy still has to deliver the values [vs] from number [off] on. *)
  Definition px_at (px : proxy) (off : Z) (vs : list V) : Prop :=
    match px with
    | PEmplace v => vs = [v]
    | PRange srcs => srcs = AVal <$> drop (Z.to_nat off) vs
    | PFill a => exists v, a = AVal v /\ vs = replicate (length vs) v
    end.
  (** What it means that constructing from the proxy throws. *)
  Definition px_throws (px : proxy) : Prop :=
    match px with PEmplace _ => nothrow_move = false | _ => True end.
  Lemma px_throws_at px px' : (forall v, px = PEmplace v -> px' = PEmplace v) -> px_throws px' -> px_throws px.
  Proof. destruct px; simpl; [|done..]. intros H Hx. by rewrite (H v eq_refl) in Hx. Qed.

  (** Values [off, off + n) of [vs] have been stored from position [d]. *)
  Record put (d n off : Z) (vs : list V) f f' : Prop := Put {
    pt_dst : forall i, d <= i < d + n -> f' i = vs !! Z.to_nat (i - d + off);
    pt_rest : forall i, ~ d <= i < d + n -> f' i = f i;
    pt_live : forall i, live f' i = live f i || within d (d + n) i;
  }.
  Lemma put_nil d off vs f : put d 0 off vs f f.
  Proof. split; [intros; lia|done|]. intros i. unfold within. destruct (live f i); [done|]. simpl. lia. Qed.
  Lemma put_stored d n off vs ws f f' :
    0 <= n -> 0 <= off -> off + n <= Z.of_nat (length vs) ->
    ws = take (Z.to_nat n) (drop (Z.to_nat off) vs) -> stored d ws f f' -> put d n off vs f f'.
  Proof.
    intros H1 H2 H3 -> [Hd Hr Hl]. len. rewrite Nat.min_l in Hd; [|lia]. rewrite Nat.min_l in Hr; [|lia].
    rewrite Nat.min_l in Hl; [|lia]. rewrite Z2Nat.id in Hd; [|done]. rewrite Z2Nat.id in Hr; [|done].
    rewrite Z2Nat.id in Hl; [|done]. split; [|done|done].
    intros i Hi. rewrite Hd; [|done]. rewrite lookup_take; [|lia]. rewrite lookup_drop. f_equal. lia.
  Qed.

  Lemma wp_make_moved v s Q X :
    (Q v s ∧ (⟦nothrow_move = false⟧ -∗ X EUser s)) ⊢ wp (make_moved v) s Q X.
  Proof.
    iIntros "HK". unfold make_moved. iApply (wp_oracle_case KMove (fun _ => ret tt)); [done|]. iSplit.
    - iIntros (t) "%Hn". iApply wp_ret. iDestruct "HK" as "[_ HK]". iApply "HK". iPureIntro. by apply Hn.
    - iApply wp_ret. iDestruct "HK" as "[$ _]".
  Qed.

  Variables (b : loc) (cap : Z).
  Notation W := (win (loc_add b) 0 cap).

  Lemma wp_construct_moved x v f s Q X :
    0 <= x < cap -> live f x = false ->
    W f ⊢
    ((∀ f', ⟦stored x [v] f f'⟧ -∗ W f' -∗ Q tt s) ∧ (⟦nothrow_move = false⟧ -∗ W f -∗ X EUser s)) -∗
    wp (construct_moved (b +ₗ x) v) s Q X.
  Proof.
    intros Hx Hl. iIntros "Hw HK". iDestruct (win_acc1 _ _ _ x with "Hw") as "[Hd Hw]"; [lia|].
    pose proof (live_false _ _ Hl) as Hn. rewrite {1}Hn. simpl. unfold construct_moved. wbind.
    iApply (wp_expect_raw with "Hd"). iIntros "Hd". wbind. iApply wp_make_moved. iSplit.
    - iApply (wp_set_live with "Hd"). iIntros "Hd". iDestruct "HK" as "[HK _]".
      iSpecialize ("Hw" $! (Some v) with "Hd"). iApply ("HK" with "[%] Hw"). split; simpl.
      + intros i Hi. unfold upd. assert (i = x) as -> by lia. by rewrite Z.eqb_refl Z.sub_diag.
      + intros i Hi. unfold upd. destruct (Z.eqb_spec i x); [lia|done].
      + intros i. unfold live, upd, within. destruct (Z.eqb_spec i x) as [->|Hne]; destruct (f _); simpl; lia.
    - iIntros "%Hm". iDestruct "HK" as "[_ HK]". iApply ("HK" with "[//]").
      iSpecialize ("Hw" $! None with "Hd"). iApply (win_eq with "Hw"). intros i Hi. unfold upd.
      destruct (Z.eqb_spec i x) as [->|]; [done|done].
  Qed.
  Lemma wp_assign_moved x v f s Q X :
    0 <= x < cap -> live f x = true ->
    W f ⊢
    ((∀ f', ⟦stored x [v] f f'⟧ -∗ W f' -∗ Q tt s) ∧ (∀ f', ⟦shaken f f'⟧ -∗ W f' -∗ X EUser s)) -∗
    wp (assign_moved (b +ₗ x) v) s Q X.
  Proof.
    intros Hx Hl. iIntros "Hw HK". unfold assign_moved. wbind. iApply wp_make_moved. iSplit; last first.
    { iIntros "_". iDestruct "HK" as "[_ HK]". iApply ("HK" with "[%] Hw"). done. }
    iDestruct (win_acc1 _ _ _ x with "Hw") as "[Hd Hw]"; [lia|].
    destruct (live_some _ _ Hl) as [c Hc]. rewrite {1}Hc. simpl. wbind.
    iApply (wp_read with "Hd"). iIntros "Hd". wbeta. iApply wp_oracle_case; [done|]. iSplit.
    - iIntros (t) "_". iApply (wp_write with "Hd"). iIntros "Hd". iDestruct "HK" as "[_ HK]".
      iSpecialize ("Hw" $! (Some _) with "Hd"). iApply ("HK" with "[%] Hw").
      intros i. unfold live, upd. destruct (Z.eqb_spec i x) as [->|]; [by rewrite Hc|done].
    - iApply (wp_write with "Hd"). iIntros "Hd". iDestruct "HK" as "[HK _]".
      iSpecialize ("Hw" $! (Some _) with "Hd"). iApply ("HK" with "[%] Hw"). split; simpl.
      + intros i Hi. unfold upd. assert (i = x) as -> by lia. by rewrite Z.eqb_refl Z.sub_diag.
      + intros i Hi. unfold upd. destruct (Z.eqb_spec i x); [lia|done].
      + intros i. unfold live, upd, within. destruct (Z.eqb_spec i x) as [->|Hne]; destruct (f _) eqn:Hf; simpl; lia.
  Qed.

  Lemma wp_px_uninit px vs off x m f s Q X :
    px_at px off vs -> 0 <= m -> 0 <= off -> off + m <= Z.of_nat (length vs) ->
    0 <= x -> x + m <= cap -> (forall i, x <= i < x + m -> live f i = false) ->
    W f ⊢
    ((∀ px' f', ⟦(px_at px' (off + m) vs /\ (px_throws px' -> px_throws px)) /\ put x m off vs f f'⟧ -∗ W f' -∗
        Q (b +ₗ (x + m), px') s) ∧
     (⟦px_throws px⟧ -∗ W f -∗ X EUser s)) -∗
    wp (px_uninit px (b +ₗ x) m) s Q X.
  Proof.
    intros Hpx Hm Hoff Hlen Hx Hxm Hraw. iIntros "Hw HK". destruct px as [v|srcs|a]; simpl in *.
    - subst vs. simpl in Hlen. destruct (Z.eqb_spec m 0) as [->|Hm0].
      + iApply wp_ret. iDestruct "HK" as "[HK _]".
        iSpecialize ("HK" $! (PEmplace v) f with "[%] Hw"); [split; [done|apply put_nil]|].
        by rewrite !Z.add_0_r.
      + wbind. iApply wp_assert; [lia|]. wbind. iApply (wp_construct_moved with "Hw"); [lia|apply Hraw; lia|].
        iSplit.
        * iIntros (f') "%Hs Hw". iApply wp_ret. iDestruct "HK" as "[HK _]".
          rewrite loc_add_assoc. assert (m = 1) as -> by lia. iApply ("HK" $! (PEmplace v) with "[%] Hw").
          split; [done|]. eapply put_stored; [..|done]; [lia|lia|simpl; lia|].
          by replace (Z.to_nat off) with 0%nat by lia.
        * iDestruct "HK" as "[_ HK]". done.
    - wbind. iApply wp_assert; [subst; len; lia|]. wbind.
      pose (ws := take (Z.to_nat m) (drop (Z.to_nat off) vs)).
      assert (take (Z.to_nat m) srcs = AVal <$> ws) as -> by (subst; by rewrite -fmap_take).
      assert (length ws = Z.to_nat m) as Hws by (unfold ws; len; lia).
      unfold uninitialized_copy_a.
      iPoseProof (wp_win_ucopy emp%I emp%I _ ws emp%I (loc_add b) 0 cap x (b +ₗ x) f s _ X (mks_vals _ _)) as "H";
        [apply contig_base|lia|lia| |].
      { intros i Hi. apply Hraw. lia. }
      iApply ("H" with "[] Hw"); [done|]. iSplit.
      + iIntros (f') "%Hs _ Hw". iApply wp_ret. iDestruct "HK" as "[HK _]". rewrite loc_add_assoc Hws Z2Nat.id //.
        iApply ("HK" $! (PRange _) with "[%] Hw"). split; [|by eapply put_stored].
        split; [|done]. subst srcs. simpl. rewrite -fmap_drop drop_drop. f_equal. f_equal. lia.
      + iIntros "_ Hw". iDestruct "HK" as "[_ HK]". iApply ("HK" with "[//] Hw").
    - destruct Hpx as (v & -> & Hvs). wbind. unfold uninitialized_fill_a. wbind.
      iApply wp_range_len; [done|simpl; lia|]. simpl. wbeta. wbind.
      replace (b.2 + x + m - (b.2 + x)) with m by lia.
      pose (ws := replicate (Z.to_nat m) v).
      iPoseProof (wp_win_ucopy emp%I emp%I _ ws emp%I (loc_add b) 0 cap x (b +ₗ x) f s _ X
        (mks_repl _ _ _ _ (mk_ok_val emp%I v))) as "H";
        [apply contig_base|lia|unfold ws; len; lia| |].
      { intros i Hi. apply Hraw. unfold ws in Hi. len. lia. }
      iApply ("H" with "[] Hw"); [done|]. iSplit.
      + iIntros (f') "%Hs _ Hw". wbeta. iApply wp_ret. iApply wp_ret. iDestruct "HK" as "[HK _]". rewrite loc_add_assoc.
        iApply ("HK" $! (PFill _) with "[%] Hw"). split.
        { split; [|done]. by exists v. }
        eapply put_stored; [done..| |done]. unfold ws. rewrite Hvs drop_replicate take_replicate. f_equal. lia.
      + iIntros "_ Hw". iDestruct "HK" as "[_ HK]". iApply ("HK" with "[//] Hw").
  Qed.

  Lemma wp_px_insert px vs off x m f s Q X :
    px_at px off vs -> 0 <= m -> 0 <= off -> off + m <= Z.of_nat (length vs) ->
    0 <= x -> x + m <= cap -> (forall i, x <= i < x + m -> live f i = true) ->
    W f ⊢
    ((∀ px' f', ⟦(px_at px' (off + m) vs /\ (px_throws px' -> px_throws px)) /\ put x m off vs f f'⟧ -∗ W f' -∗
        Q (b +ₗ (x + m), px') s) ∧
     (∀ f', ⟦shaken f f'⟧ -∗ W f' -∗ X EUser s)) -∗
    wp (px_insert px (b +ₗ x) m) s Q X.
  Proof.
    intros Hpx Hm Hoff Hlen Hx Hxm Hliv. iIntros "Hw HK". destruct px as [v|srcs|a]; simpl in *.
    - subst vs. simpl in Hlen. destruct (Z.eqb_spec m 0) as [->|Hm0].
      + iApply wp_ret. iDestruct "HK" as "[HK _]".
        iSpecialize ("HK" $! (PEmplace v) f with "[%] Hw"); [split; [done|apply put_nil]|].
        by rewrite !Z.add_0_r.
      + wbind. iApply wp_assert; [lia|]. wbind. iApply (wp_assign_moved with "Hw"); [lia|apply Hliv; lia|].
        iSplit.
        * iIntros (f') "%Hs Hw". iApply wp_ret. iDestruct "HK" as "[HK _]".
          rewrite loc_add_assoc. assert (m = 1) as -> by lia. iApply ("HK" $! (PEmplace v) with "[%] Hw").
          split; [done|]. eapply put_stored; [..|done]; [lia|lia|simpl; lia|].
          by replace (Z.to_nat off) with 0%nat by lia.
        * iDestruct "HK" as "[_ HK]". done.
    - wbind. iApply wp_assert; [subst; len; lia|]. wbind.
      pose (ws := take (Z.to_nat m) (drop (Z.to_nat off) vs)).
      assert (take (Z.to_nat m) srcs = AVal <$> ws) as -> by (subst; by rewrite -fmap_take).
      assert (length ws = Z.to_nat m) as Hws by (unfold ws; len; lia).
      unfold copy.
      iPoseProof (wp_win_assigns emp%I emp%I _ ws emp%I (loc_add b) 0 cap x (b +ₗ x) f s _ X (ass_vals _ _)) as "H";
        [apply contig_base|lia|lia| |].
      { intros i Hi. apply Hliv. lia. }
      iApply ("H" with "[] Hw"); [done|]. iSplit.
      + iIntros (f') "%Hs _ Hw". iApply wp_ret. iDestruct "HK" as "[HK _]". rewrite loc_add_assoc Hws Z2Nat.id //.
        iApply ("HK" $! (PRange _) with "[%] Hw"). split; [|by eapply put_stored].
        split; [|done]. subst srcs. simpl. rewrite -fmap_drop drop_drop. f_equal. f_equal. lia.
      + iIntros (f') "%Hs _ Hw". iDestruct "HK" as "[_ HK]". iApply ("HK" with "[%] Hw"). apply Hs.
    - destruct Hpx as (v & -> & Hvs). wbind. unfold fill. wbind.
      iApply wp_range_len; [done|simpl; lia|]. simpl. wbeta. wbind.
      replace (b.2 + x + m - (b.2 + x)) with m by lia.
      pose (ws := replicate (Z.to_nat m) v).
      iPoseProof (wp_win_assigns emp%I emp%I _ ws emp%I (loc_add b) 0 cap x (b +ₗ x) f s _ X
        (ass_repl _ _ _ _ (as_ok_val emp%I v))) as "H";
        [apply contig_base|lia|unfold ws; len; lia| |].
      { intros i Hi. apply Hliv. unfold ws in Hi. len. lia. }
      iApply ("H" with "[] Hw"); [done|]. iSplit.
      + iIntros (f') "%Hs _ Hw". wbeta. iApply wp_ret. iApply wp_ret. iDestruct "HK" as "[HK _]". rewrite loc_add_assoc.
        iApply ("HK" $! (PFill _) with "[%] Hw"). split.
        { split; [|done]. by exists v. }
        eapply put_stored; [done..| |done]. unfold ws. rewrite Hvs drop_replicate take_replicate. f_equal. lia.
      + iIntros (f') "%Hs _ Hw". iDestruct "HK" as "[_ HK]". iApply ("HK" with "[%] Hw"). apply Hs.
  Qed.
End proxy_rules.
