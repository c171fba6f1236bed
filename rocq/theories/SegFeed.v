(** * Segmented containers: ranges of source elements *)

From Verif Require Export SegBack.
From Coq Require Import ZifyBool.
From iris.proofmode Require Import environments tactics.
Open Scope Z_scope.

Section feed.
  Context `{E : Env} `{SZ : SegSize}.
  Implicit Types segs : list loc.
  Implicit Types C : Z -> bool.

  Definition slice (a b : Z) (vs : list V) : list V := take (Z.to_nat (b - a)) (drop (Z.to_nat a) vs).
  Definition mark (a b : Z) C : Z -> bool := fun i => C i || within a b i.
  Definition none_of : Z -> bool := fun _ => false.

  Lemma slice_length a b vs : 0 <= a <= b -> b <= zlen vs -> zlen (slice a b vs) = b - a.
  Proof. intros Ha Hb. unfold slice. len. lia. Qed.
  Lemma slice_all vs : slice 0 (zlen vs) vs = vs.
  Proof. unfold slice. rewrite drop_0. apply take_ge. lia. Qed.
  Lemma slice_take vs k : 0 <= k -> slice 0 k vs = take (Z.to_nat k) vs.
  Proof. intros Hk. unfold slice. rewrite drop_0. f_equal. lia. Qed.
  Lemma slice_drop vs k : 0 <= k <= zlen vs -> slice k (zlen vs) vs = drop (Z.to_nat k) vs.
  Proof. intros Hk. unfold slice. apply take_ge. len. lia. Qed.
  Lemma slice_app vs a b c : 0 <= a <= b -> b <= c -> slice a b vs ++ slice b c vs = slice a c vs.
  Proof.
    intros Ha Hb. unfold slice. rewrite -(take_drop (Z.to_nat (b - a)) (take (Z.to_nat (c - a)) _)).
    rewrite take_take. rewrite skipn_firstn_comm drop_drop. f_equal; f_equal; [lia..|f_equal; lia].
  Qed.
  Lemma slice_lookup vs a b i :
    0 <= a -> a <= i < b -> slice a b vs !! Z.to_nat (i - a) = vs !! Z.to_nat i.
  Proof. intros Ha Hi. unfold slice. rewrite lookup_take; [|lia]. rewrite lookup_drop. f_equal. lia. Qed.
  Lemma slice_nonempty a b vs : slice a b vs <> [] -> a < b.
  Proof. intros H. destruct (decide (a < b)); [done|]. exfalso. apply H. unfold slice. by replace (Z.to_nat (b - a)) with 0%nat by lia. Qed.

  (** The source yields [vs]; [sub a b]: the part from [a] to [b].  [W C] holds
      after the elements in [C] have been read, [WX] after an exception. *)
  Record feeds (W : (Z -> bool) -> hProp) (WX : hProp) (vs : list V) (sub : Z -> Z -> source) : Prop := {
    fd_len : forall C a b (s : sgdata) Q X, 0 <= a <= b -> b <= zlen vs ->
      W C ⊢ (W C -∗ Q (b - a) s) -∗ wp (src_len (sub a b)) s Q X;
    fd_cut : forall C a b k (s : sgdata) Q X, 0 <= a -> 0 <= k -> a + k <= b -> b <= zlen vs ->
      W C ⊢ (W C -∗ Q (sub a (a + k), sub (a + k) b) s) -∗ wp (src_cut (sub a b) k) s Q X;
    fd_copy : forall C a b t segs d f (s : sgdata) Q X, 0 <= a <= b -> b <= zlen vs ->
      (forall i, a <= i < b -> C i = false) ->
      0 <= d -> d + (b - a) < slots segs -> (forall i, d <= i < d + (b - a) -> live f i = true) ->
      W C ⊢ swin t segs f -∗
      ((∀ f', ⟦stored d (slice a b vs) f f'⟧ -∗ W (mark a b C) -∗ swin t segs f' -∗ Q (sitr t segs (d + (b - a))) s) ∧
       (∀ f', ⟦shaken f f' /\ a < b⟧ -∗ WX -∗ swin t segs f' -∗ X EUser s)) -∗
      wp (src_copy (sub a b) (sitr t segs d)) s Q X;
    fd_ucopy : forall C a b t segs d f (s : sgdata) Q X, 0 <= a <= b -> b <= zlen vs ->
      (forall i, a <= i < b -> C i = false) ->
      0 <= d -> d + (b - a) < slots segs -> (forall i, d <= i < d + (b - a) -> live f i = false) ->
      W C ⊢ swin t segs f -∗
      ((∀ f', ⟦stored d (slice a b vs) f f'⟧ -∗ W (mark a b C) -∗ swin t segs f' -∗ Q (sitr t segs (d + (b - a))) s) ∧
       (WX -∗ swin t segs f -∗ X EUser s)) -∗
      wp (src_ucopy (sub a b) (sitr t segs d)) s Q X;
    fd_abort : forall C, W C ⊢ WX;
  }.

  (** Values unrelated to any container. *)
  Lemma feeds_vals ra vs : feeds (fun _ => emp%I) emp%I vs (fun a b => SList ra (AVal <$> slice a b vs)).
  Proof.
    split.
    - iIntros (C a b s Q X Ha Hb) "_ HK". simpl. iApply wp_ret.
      rewrite fmap_length slice_length //. by iApply "HK".
    - iIntros (C a b k s Q X Ha Hk Hb Hv) "_ HK". simpl. iApply wp_ret.
      rewrite -fmap_take -fmap_drop.
      replace (take (Z.to_nat k) (slice a b vs)) with (slice a (a + k) vs).
      { replace (drop (Z.to_nat k) (slice a b vs)) with (slice (a + k) b vs); [by iApply "HK"|].
        unfold slice. rewrite skipn_firstn_comm drop_drop. f_equal; [lia|]. f_equal. lia. }
      unfold slice. rewrite take_take. f_equal. lia.
    - intros C a b t segs d f s Q X Ha Hb HC Hd Hds Hl. iIntros "HW Hw HK". pose proof (slice_length a b vs Ha Hb) as Hsl.
      assert (ass_ok emp emp (AVal <$> slice a b vs) (slice a b vs) emp) as Hok.
      { generalize (slice a b vs). intros l. induction l as [|v l IH]; econstructor; [apply as_ok_val|done]. }
      assert (forall i, d <= i < d + zlen (slice a b vs) -> live f i = true) as Hl' by (intros i Hi; apply Hl; lia).
      simpl. destruct ra.
      + iApply (wp_s_copy_ra with "HW Hw"); [done|lia|lia|done|]. rewrite Hsl. iSplit.
        * iIntros (f') "%Hf HW Hw". iDestruct "HK" as "[HK _]". by iApply ("HK" with "[%] HW Hw").
        * iIntros (f') "%Hf HW Hw". iDestruct "HK" as "[_ HK]". iApply ("HK" with "[%] HW Hw").
          split; [tauto|]. destruct Hf as [_ Hf]. by eapply slice_nonempty.
      + iApply (wp_s_copy_fwd with "HW Hw"); [done|lia|lia|done|]. rewrite Hsl. iSplit.
        * iIntros (f') "%Hf HW Hw". iDestruct "HK" as "[HK _]". by iApply ("HK" with "[%] HW Hw").
        * iIntros (f') "%Hf HW Hw". iDestruct "HK" as "[_ HK]". iApply ("HK" with "[%] HW Hw").
          split; [tauto|]. destruct Hf as [_ Hf]. by eapply slice_nonempty.
    - intros C a b t segs d f s Q X Ha Hb HC Hd Hds Hl. iIntros "HW Hw HK". pose proof (slice_length a b vs Ha Hb) as Hsl.
      assert (mks_ok emp emp (AVal <$> slice a b vs) (slice a b vs) emp) as Hok.
      { generalize (slice a b vs). intros l. induction l as [|v l IH]; econstructor; [apply mk_ok_val|done]. }
      assert (forall i, d <= i < d + zlen (slice a b vs) -> live f i = false) as Hl' by (intros i Hi; apply Hl; lia).
      simpl. destruct ra.
      + iApply (wp_s_ucopy_ra with "HW Hw"); [done|lia|lia|done|]. rewrite Hsl. iSplit.
        * iIntros (f') "%Hf HW Hw". iDestruct "HK" as "[HK _]". by iApply ("HK" with "[%] HW Hw").
        * iIntros "HW Hw". iDestruct "HK" as "[_ HK]". iApply ("HK" with "HW Hw").
      + iApply (wp_s_ucopy_fwd with "HW Hw"); [done|lia|lia|done|]. rewrite Hsl. iSplit.
        * iIntros (f') "%Hf HW Hw". iDestruct "HK" as "[HK _]". by iApply ("HK" with "[%] HW Hw").
        * iIntros "HW Hw". iDestruct "HK" as "[_ HK]". iApply ("HK" with "HW Hw").
    - by iIntros (C) "H".
  Qed.

  (** The elements of another segmented container, copied. *)
  Lemma feeds_seg t2 segs2 p2 vs :
    0 <= p2 -> p2 + zlen vs < slots segs2 ->
    feeds (fun _ => swin t2 segs2 (at_pos p2 vs)) (swin t2 segs2 (at_pos p2 vs)) vs
      (fun a b => SSeg (sitr t2 segs2 (p2 + a)) (sitr t2 segs2 (p2 + b))).
  Proof.
    intros Hp2 Hs2.
    assert (forall a b i, 0 <= a -> b <= zlen vs -> p2 + a <= i < p2 + b ->
      at_pos p2 vs i = slice a b vs !! Z.to_nat (i - (p2 + a))) as Hat.
    { intros a b i Ha Hb Hi. rewrite at_pos_in; [|lia].
      replace (i - (p2 + a)) with (i - p2 - a) by lia. rewrite slice_lookup; [done|lia|lia]. }
    split.
    - iIntros (C a b s Q X Ha Hb) "Hw HK". simpl. iApply (wp_sw_diff with "Hw"); [lia..|]. iIntros "Hw".
      replace (p2 + b - (p2 + a)) with (b - a) by lia. by iApply "HK".
    - iIntros (C a b k s Q X Ha Hk Hb Hv) "Hw HK". simpl. wbind. iApply (wp_sw_add with "Hw"); [lia..|]. iIntros "Hw". wbeta.
      iApply wp_ret. rewrite -Z.add_assoc. by iApply "HK".
    - intros C a b t segs d f s Q X Ha Hb HC Hd Hds Hl. iIntros "HW Hw HK". pose proof (slice_length a b vs Ha Hb) as Hsl.
      simpl. iApply (wp_s_copy _ _ _ _ _ (slice a b vs) with "HW Hw"); [lia|lia|lia|lia| |lia|lia| |].
      { intros i Hi. apply Hat; lia. }
      { intros i Hi. apply Hl. lia. }
      replace (p2 + b - (p2 + a)) with (b - a) by lia. iSplit.
      + iIntros (f') "%Hf HW Hw". iDestruct "HK" as "[HK _]". by iApply ("HK" with "[%] HW Hw").
      + iIntros (f') "%Hf HW Hw". iDestruct "HK" as "[_ HK]". iApply ("HK" with "[%] HW Hw").
        split; [tauto|]. destruct Hf as [_ Hf]. by eapply slice_nonempty.
    - intros C a b t segs d f s Q X Ha Hb HC Hd Hds Hl. iIntros "HW Hw HK". pose proof (slice_length a b vs Ha Hb) as Hsl.
      simpl. iApply (wp_s_ucopy _ _ _ _ _ (slice a b vs) with "HW Hw"); [lia|lia|lia|lia| |lia|lia| |].
      { intros i Hi. apply Hat; lia. }
      { intros i Hi. apply Hl. lia. }
      replace (p2 + b - (p2 + a)) with (b - a) by lia. iSplit.
      + iIntros (f') "%Hf HW Hw". iDestruct "HK" as "[HK _]". by iApply ("HK" with "[%] HW Hw").
      + iIntros "HW Hw". iDestruct "HK" as "[_ HK]". iApply ("HK" with "HW Hw").
    - by iIntros (C) "H".
  Qed.

  (** The elements of another segmented container, moved. *)
  Definition taken (p2 : Z) (vs : list V) C : Z -> option V :=
    fun i => if C (i - p2) then vmoved <$> at_pos p2 vs i else at_pos p2 vs i.
  Lemma taken_live p2 vs C i : live (taken p2 vs C) i = live (at_pos p2 vs) i.
  Proof. unfold taken, live. destruct (C _); [|done]. by destruct (at_pos p2 vs i). Qed.
  Lemma taken_none p2 vs i : taken p2 vs none_of i = at_pos p2 vs i.
  Proof. done. Qed.
  Lemma taken_all p2 vs C i :
    (forall j, 0 <= j < zlen vs -> C j = true) -> taken p2 vs C i = at_pos p2 (vmoved <$> vs) i.
  Proof.
    intros HC. unfold taken. destruct (decide (p2 <= i < p2 + zlen vs)) as [Hi|Hi].
    - rewrite HC; [|lia]. rewrite !at_pos_in; [|len; lia..]. by rewrite list_lookup_fmap.
    - rewrite !at_pos_out; [|len; lia..]. by destruct (C _).
  Qed.
  Definition ransacked t2 segs2 p2 (vs : list V) : hProp :=
    (∃ g, ⟦shaken (at_pos p2 vs) g⟧ ∗ swin t2 segs2 g)%I.
  Definition robbed t2 segs2 p2 (vs : list V) : hProp :=
    (∃ g, ⟦shaken (at_pos p2 vs) g /\ nothrow_move = false⟧ ∗ swin t2 segs2 g)%I.

  Lemma moves_mk t2 segs2 p2 vs C a n :
    0 <= p2 -> p2 + zlen vs <= slots segs2 -> 0 <= a -> a + Z.of_nat n <= zlen vs ->
    (forall i, a <= i < a + Z.of_nat n -> C i = false) ->
    exists P', mks_ok (robbed t2 segs2 p2 vs) (swin t2 segs2 (taken p2 vs C))
      ((fun i => AMove (saddr segs2 (p2 + i))) <$> seqZ a (Z.of_nat n)) (slice a (a + Z.of_nat n) vs) P' /\
      (P' ⊢ swin t2 segs2 (taken p2 vs (mark a (a + Z.of_nat n) C))).
  Proof.
    intros Hp Hs. induction n as [|n IH] in a, C |- *; intros Ha Hn HC.
    - exists (swin t2 segs2 (taken p2 vs C)). split.
      + replace (slice a (a + Z.of_nat 0) vs) with (@nil V); [constructor|].
        unfold slice. by replace (Z.to_nat (a + Z.of_nat 0 - a)) with 0%nat by lia.
      + apply swin_eq. intros i. unfold taken, mark.
        by replace (within a (a + Z.of_nat 0) (i - p2)) with false by (unfold within; lia); rewrite orb_false_r.
    - destruct (lookup_lt_is_Some_2 vs (Z.to_nat a)) as [v Hv]; [lia|].
      destruct (IH (mark a (a + 1) C) (a + 1)) as (P' & HP & HP'); [lia|lia| |].
      { intros i Hi. unfold mark, within. rewrite HC; [|lia]. lia. }
      exists P'. split.
      + rewrite seqZ_cons; [|lia]. simpl.
        assert (slice a (a + Z.of_nat (S n)) vs = v :: slice (a + 1) (a + 1 + Z.of_nat n) vs) as ->.
        { rewrite -(slice_app vs a (a + 1)); [|lia..]. replace (a + Z.of_nat (S n)) with (a + 1 + Z.of_nat n) by lia.
          change (v :: slice (a + 1) (a + 1 + Z.of_nat n) vs) with ([v] ++ slice (a + 1) (a + 1 + Z.of_nat n) vs). f_equal.
          unfold slice. replace (Z.to_nat (a + 1 - a)) with 1%nat by lia. by rewrite (drop_S _ _ _ Hv). }
        econstructor; [|replace (Z.pred (Z.of_nat (S n))) with (Z.of_nat n) by lia;
          replace (Z.succ a) with (a + 1) by lia; exact HP].
        eapply mk_ok_conseq; [eapply (mk_ok_frame _ _ _ _ _ (table t2 segs2)); apply (win_mk_move _ 0 (slots segs2) (taken p2 vs C)); [lia|]| | |].
        * unfold taken. replace (p2 + a - p2) with a by lia. rewrite HC; [|lia]. rewrite at_pos_in; [|lia].
          replace (p2 + a - p2) with a by lia. done.
        * iIntros "[$ $]".
        * iIntros "[Hw $]". iApply (win_eq with "Hw"). intros i Hi. unfold upd. destruct (Z.eqb_spec i (p2 + a)) as [->|Hne].
          -- unfold taken, mark, within. replace (p2 + a - p2) with a by lia. rewrite (_ : _ || _ = true); [|lia].
             rewrite at_pos_in; [|lia]. replace (p2 + a - p2) with a by lia. by rewrite Hv.
          -- unfold taken, mark. replace (within a (a + 1) (i - p2)) with false by (unfold within; lia). by rewrite orb_false_r.
        * iIntros "[H Ht]". iDestruct "H" as (g) "[%Hg Hw]". iExists g. iFrame. iPureIntro.
          split; [|apply Hg]. intros i. destruct Hg as [Hg _]. by rewrite (Hg i) taken_live.
      + rewrite HP'. apply swin_eq. intros i. unfold taken, mark.
        replace (C (i - p2) || within a (a + 1) (i - p2) || within (a + 1) (a + 1 + Z.of_nat n) (i - p2))
          with (C (i - p2) || within a (a + Z.of_nat (S n)) (i - p2)); [done|].
        unfold within. destruct (C _); [done|]. simpl. lia.
  Qed.
  Lemma moves_as t2 segs2 p2 vs C a n :
    0 <= p2 -> p2 + zlen vs <= slots segs2 -> 0 <= a -> a + Z.of_nat n <= zlen vs ->
    (forall i, a <= i < a + Z.of_nat n -> C i = false) ->
    exists P', ass_ok (ransacked t2 segs2 p2 vs) (swin t2 segs2 (taken p2 vs C))
      ((fun i => AMove (saddr segs2 (p2 + i))) <$> seqZ a (Z.of_nat n)) (slice a (a + Z.of_nat n) vs) P' /\
      (P' ⊢ swin t2 segs2 (taken p2 vs (mark a (a + Z.of_nat n) C))).
  Proof.
    intros Hp Hs. induction n as [|n IH] in a, C |- *; intros Ha Hn HC.
    - exists (swin t2 segs2 (taken p2 vs C)). split.
      + replace (slice a (a + Z.of_nat 0) vs) with (@nil V); [constructor|].
        unfold slice. by replace (Z.to_nat (a + Z.of_nat 0 - a)) with 0%nat by lia.
      + apply swin_eq. intros i. unfold taken, mark.
        by replace (within a (a + Z.of_nat 0) (i - p2)) with false by (unfold within; lia); rewrite orb_false_r.
    - destruct (lookup_lt_is_Some_2 vs (Z.to_nat a)) as [v Hv]; [lia|].
      destruct (IH (mark a (a + 1) C) (a + 1)) as (P' & HP & HP'); [lia|lia| |].
      { intros i Hi. unfold mark, within. rewrite HC; [|lia]. lia. }
      exists P'. split.
      + rewrite seqZ_cons; [|lia]. simpl.
        assert (slice a (a + Z.of_nat (S n)) vs = v :: slice (a + 1) (a + 1 + Z.of_nat n) vs) as ->.
        { rewrite -(slice_app vs a (a + 1)); [|lia..]. replace (a + Z.of_nat (S n)) with (a + 1 + Z.of_nat n) by lia.
          change (v :: slice (a + 1) (a + 1 + Z.of_nat n) vs) with ([v] ++ slice (a + 1) (a + 1 + Z.of_nat n) vs). f_equal.
          unfold slice. replace (Z.to_nat (a + 1 - a)) with 1%nat by lia. by rewrite (drop_S _ _ _ Hv). }
        econstructor; [|replace (Z.pred (Z.of_nat (S n))) with (Z.of_nat n) by lia;
          replace (Z.succ a) with (a + 1) by lia; exact HP].
        intros St s Q X d c. iIntros "[Ht Hw] Hd HK".
        iApply (win_as_move _ 0 (slots segs2) (taken p2 vs C) with "Hw Hd"); [lia| |].
        { unfold taken. replace (p2 + a - p2) with a by lia. rewrite HC; [|lia]. rewrite at_pos_in; [|lia].
          replace (p2 + a - p2) with a by lia. done. }
        iSplit.
        * iIntros "Hw Hd". iDestruct "HK" as "[HK _]". iApply ("HK" with "[Ht Hw] Hd"). iFrame "Ht".
          iApply (win_eq with "Hw"). intros i Hi. unfold upd. destruct (Z.eqb_spec i (p2 + a)) as [->|Hne].
          -- unfold taken, mark, within. replace (p2 + a - p2) with a by lia. rewrite (_ : _ || _ = true); [|lia].
             rewrite at_pos_in; [|lia]. replace (p2 + a - p2) with a by lia. by rewrite Hv.
          -- unfold taken, mark. replace (within a (a + 1) (i - p2)) with false by (unfold within; lia). by rewrite orb_false_r.
        * iIntros (c') "H Hd". iDestruct "H" as (g) "[%Hg Hw]". iDestruct "HK" as "[_ HK]".
          iApply ("HK" with "[Ht Hw] Hd"). iExists g. iFrame. iPureIntro.
          intros i. by rewrite (Hg i) taken_live.
      + rewrite HP'. apply swin_eq. intros i. unfold taken, mark.
        replace (C (i - p2) || within a (a + 1) (i - p2) || within (a + 1) (a + 1 + Z.of_nat n) (i - p2))
          with (C (i - p2) || within a (a + Z.of_nat (S n)) (i - p2)); [done|].
        unfold within. destruct (C _); [done|]. simpl. lia.
  Qed.
  Lemma feeds_moves t2 segs2 p2 vs :
    0 <= p2 -> p2 + zlen vs < slots segs2 ->
    feeds (fun C => swin t2 segs2 (taken p2 vs C)) (ransacked t2 segs2 p2 vs) vs
      (fun a b => SList true ((fun i => AMove (saddr segs2 (p2 + i))) <$> seqZ a (b - a))).
  Proof.
    intros Hp2 Hs2.
    split.
    - iIntros (C a b s Q X Ha Hb) "HW HK". simpl. iApply wp_ret.
      rewrite fmap_length seqZ_length Z2Nat.id; [|lia]. by iApply "HK".
    - iIntros (C a b k s Q X Ha Hk Hb Hv) "HW HK". simpl. iApply wp_ret.
      rewrite -fmap_take -fmap_drop.
      assert (seqZ a (b - a) = seqZ a k ++ seqZ (a + k) (b - (a + k))) as ->.
      { replace (b - a) with (k + (b - (a + k))) by lia. apply seqZ_app; lia. }
      rewrite take_app_alt; [|rewrite seqZ_length; lia]. rewrite drop_app_alt; [|rewrite seqZ_length; lia].
      replace (a + k - a) with k by lia. by iApply "HK".
    - intros C a b t segs d f s Q X Ha Hb HC Hd Hds Hl. iIntros "HW Hw HK". pose proof (slice_length a b vs Ha Hb) as Hsl.
      simpl. assert (exists n : nat, b = a + Z.of_nat n) as [n ->] by (exists (Z.to_nat (b - a)); lia).
      destruct (moves_as t2 segs2 p2 vs C a n) as (P' & HP & HP'); [lia..|done|].
      replace (a + Z.of_nat n - a) with (Z.of_nat n) in * by lia.
      iApply (wp_s_copy_ra with "HW Hw"); [exact HP|lia|lia| |].
      { intros i Hi. apply Hl. lia. }
      rewrite Hsl. iSplit.
      + iIntros (f') "%Hf HW Hw". iDestruct "HK" as "[HK _]". iApply ("HK" with "[%//] [HW] Hw"). by iApply HP'.
      + iIntros (f') "%Hf HW Hw". iDestruct "HK" as "[_ HK]". iApply ("HK" with "[%] HW Hw").
        split; [tauto|]. destruct Hf as [_ Hf]. by eapply slice_nonempty.
    - intros C a b t segs d f s Q X Ha Hb HC Hd Hds Hl. iIntros "HW Hw HK". pose proof (slice_length a b vs Ha Hb) as Hsl.
      simpl. assert (exists n : nat, b = a + Z.of_nat n) as [n ->] by (exists (Z.to_nat (b - a)); lia).
      destruct (moves_mk t2 segs2 p2 vs C a n) as (P' & HP & HP'); [lia..|done|].
      replace (a + Z.of_nat n - a) with (Z.of_nat n) in * by lia.
      iApply (wp_s_ucopy_ra with "HW Hw"); [exact HP|lia|lia| |].
      { intros i Hi. apply Hl. lia. }
      rewrite Hsl. iSplit.
      + iIntros (f') "%Hf HW Hw". iDestruct "HK" as "[HK _]". iApply ("HK" with "[%//] [HW] Hw"). by iApply HP'.
      + iIntros "HW Hw". iDestruct "HK" as "[_ HK]". iApply ("HK" with "[HW] Hw").
        iDestruct "HW" as (g) "[%Hg HW]". iExists g. iFrame "HW". iPureIntro. apply Hg.
    - iIntros (C) "H". iExists _. iFrame "H". iPureIntro. intros i. by rewrite taken_live.
  Qed.
End feed.

(** ** Automation: the source in "HW" *)
Ltac sx_more ::=
  match goal with H : feeds _ _ _ _ |- _ =>
    iDestruct (fd_abort _ _ _ _ H with "HW") as "HW"; iApply ("HK" with "[%] HW Hw") end.
Ltac sxw :=
  sconj; wbeta; iDestruct "HK" as "[_ HK]"; iApply ("HK" with "[%] HW Hw");
  repeat match goal with |- _ /\ _ => split end; sside.
Ltac sliced :=
  match goal with
  | H : stored _ (slice ?a ?b ?vs) _ _ |- _ =>
      let ws := fresh "ws" in let Hl := fresh "Hws" in let Hi := fresh "Hat" in
      assert (zlen (slice a b vs) = b - a) as Hl by (apply slice_length; lia);
      assert (forall j, a <= j < b -> slice a b vs !! Z.to_nat (j - a) = vs !! Z.to_nat j) as Hi
        by (intros; apply slice_lookup; lia);
      revert H Hl Hi; generalize (slice a b vs); intros ws H Hl Hi
  end.
Ltac sstep_more ::=
  match goal with
  | H : feeds ?W ?WX ?vs ?sub |- envs_entails _ (wp (src_copy (?sub ?a ?b) _) _ _ _) =>
      iApply (fd_copy _ _ _ _ H _ a b with "HW Hw");
      [first [sside|intros ? ?; unfold mark, none_of, within; lia]..|];
      iSplit; [iIntros (?) "% HW Hw"; wbeta; cbn [fst snd]; sliced | iIntros (?) "% HW Hw"; sxw]
  | H : feeds ?W ?WX ?vs ?sub |- envs_entails _ (wp (src_ucopy (?sub ?a ?b) _) _ _ _) =>
      iApply (fd_ucopy _ _ _ _ H _ a b with "HW Hw");
      [first [sside|intros ? ?; unfold mark, none_of, within; lia]..|];
      iSplit; [iIntros (?) "% HW Hw"; wbeta; cbn [fst snd]; sliced | iIntros "HW Hw"; sxw]
  | H : feeds ?W ?WX ?vs ?sub |- envs_entails _ (wp (src_cut (?sub ?a ?b) ?k) _ _ _) =>
      iApply (fd_cut _ _ _ _ H _ a b k with "HW"); [lia..|]; iIntros "HW"; wbeta; cbn [fst snd]
  end.
Ltac schase_more ::=
  match goal with
  | Hi : forall j, _ <= j < _ -> ?ws !! Z.to_nat (j - ?a) = ?vs !! Z.to_nat j |- ?ws !! Z.to_nat ?x = ?vs !! Z.to_nat ?y =>
      transitivity (ws !! Z.to_nat (y - a)); [do 2 f_equal; lia|apply Hi; lia]
  end.
Ltac sfinishw :=
  iDestruct "HK" as "[HK _]"; iApply ("HK" with "[%] HW Hw");
  repeat match goal with
  | |- _ /\ _ => split
  | |- spread _ _ _ _ _ _ _ => split; [intros ? ?; slen; schase..|intros ?; slive; lia]
  | |- sitr _ _ _ = _ => f_equal; lia
  | |- sobj _ _ _ _ = _ => f_equal; lia
  | |- forall _, _ => intros ? ?; unfold mark, none_of, within; lia
  end.

Section ranges.
  Context `{E : Env} `{SZ : SegSize}.
  Context (W : (Z -> bool) -> hProp) (WX : hProp) (vs : list V) (sub : Z -> Z -> source) (Hfd : feeds W WX vs sub).
  Implicit Types segs : list loc.
  Implicit Types T : tab.
  Implicit Types f : Z -> option V.

  Lemma wp_range_far T segs p m k f Q X :
    0 <= p -> 0 <= k -> 0 < zlen vs -> k + zlen vs <= m -> p + m + zlen vs < slots segs ->
    (forall i, live f i = within p (p + m) i) ->
    swin (t_at T) segs f ⊢ W none_of -∗
    ((∀ f' r o' C, ⟦spread p m p k vs f f' /\
          r = sitr (t_at T) segs (p + k) /\ o' = sobj T segs p (m + zlen vs) /\ (forall i, 0 <= i < zlen vs -> C i = true)⟧ -∗
        W C -∗ swin (t_at T) segs f' -∗ Q r o') ∧
     (∀ f' p' m', ⟦(forall i, live f' i = within p' (p' + m') i) /\ p' = p /\ m <= m' <= m + zlen vs /\
          (k = m -> f' = f)⟧ -∗ WX -∗ swin (t_at T) segs f' -∗ X EUser (sobj T segs p' m'))) -∗
    wp (sq_range_far (sitr (t_at T) segs (p + k)) (sitr (t_at T) segs (p + m - zlen vs)) (sub 0 (zlen vs))) (sobj T segs p m) Q X.
  Proof using Hfd.
    intros Hp Hk Hn Hkm Hs Hl. iIntros "Hw HW HK". unfold sq_range_far. repeat sstep. sfinishw.
  Qed.
  Lemma wp_range_near T segs p m k f Q X :
    0 <= p -> 0 <= k <= m -> 0 < zlen vs -> m <= k + zlen vs -> p + m + zlen vs < slots segs ->
    (forall i, live f i = within p (p + m) i) ->
    swin (t_at T) segs f ⊢ W none_of -∗
    ((∀ f' r o' C, ⟦spread p m p k vs f f' /\
          r = sitr (t_at T) segs (p + k) /\ o' = sobj T segs p (m + zlen vs) /\ (forall i, 0 <= i < zlen vs -> C i = true)⟧ -∗
        W C -∗ swin (t_at T) segs f' -∗ Q r o') ∧
     (∀ f' p' m', ⟦(forall i, live f' i = within p' (p' + m') i) /\ p' = p /\ m <= m' <= m + zlen vs /\
          (k = m -> f' = f)⟧ -∗ WX -∗ swin (t_at T) segs f' -∗ X EUser (sobj T segs p' m'))) -∗
    wp (sq_range_near (sitr (t_at T) segs (p + k)) (m - k) (sub 0 (zlen vs))) (sobj T segs p m) Q X.
  Proof using Hfd.
    intros Hp Hk Hn Hkm Hs Hl. iIntros "Hw HW HK". unfold sq_range_near. repeat sstep. sfinishw.
  Qed.
  (** d 2334-2412. *)
  Lemma wp_range_front T segs p m k f Q X :
    0 <= p - zlen vs -> 0 <= k <= m -> 0 < zlen vs -> p + m < slots segs ->
    (forall i, live f i = within p (p + m) i) ->
    swin (t_at T) segs f ⊢ W none_of -∗
    ((∀ f' r o' C, ⟦spread p m (p - zlen vs) k vs f f' /\
          r = sitr (t_at T) segs (p - zlen vs + k) /\ o' = sobj T segs (p - zlen vs) (m + zlen vs) /\
          (forall i, 0 <= i < zlen vs -> C i = true)⟧ -∗
        W C -∗ swin (t_at T) segs f' -∗ Q r o') ∧
     (∀ f' p' m', ⟦(forall i, live f' i = within p' (p' + m') i) /\ (p' + m' = p + m)%Z /\ m <= m' <= m + zlen vs /\
          (k = 0 -> f' = f)⟧ -∗ WX -∗ swin (t_at T) segs f' -∗ X EUser (sobj T segs p' m'))) -∗
    wp (sd_range_front (sitr (t_at T) segs (p + k)) k (zlen vs) (sub 0 (zlen vs))) (sobj T segs p m) Q X.
  Proof using Hfd.
    intros Hp Hk Hn Hs Hl. iIntros "Hw HW HK". unfold sd_range_front. sstep. sstep. sstep. sstep.
    destruct (Z.ltb_spec (zlen vs) k).
    - repeat sstep. sfinishw.
    - repeat sstep. sfinishw.
  Qed.
End ranges.
