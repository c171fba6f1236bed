(** * The functions with arguments of other types meet their specification *)

From Coq Require Import ZifyBool.
From Verif Require Export HetModel FlatRun.
From iris.proofmode Require Import tactics.
Open Scope Z_scope.

Section lookup.
  Context `{KD : Keyed}.

  Lemma splits_lower x l m n : splits x l m n -> parted (before x) l m.
  Proof. intros [Hm Hs]. split; [lia|]. intros j w Hw. by apply (Hs j w). Qed.
  Lemma splits_upper x l m n : splits x l m n -> parted (het_not_behind x) l n.
  Proof.
    intros [Hm Hs]. split; [lia|]. intros j w Hw. unfold het_not_behind. rewrite negb_true_iff.
    by apply (Hs j w).
  Qed.
  Lemma splits_equal x l m n w : splits x l m n -> l !! m = Some w -> behind x w = negb (m <? n)%nat.
  Proof.
    intros [Hm Hs] Hw. destruct (Hs m w Hw) as [_ H]. destruct (behind x w) eqn:Hb; destruct (Nat.ltb_spec m n); try done.
    - by pose proof (proj2 H ltac:(lia)).
    - pose proof (proj1 H eq_refl). lia.
  Qed.

  Lemma wp_het_lower x a f l cap Q X :
    elems f l ⊢
    ((∀ i, ⟦(i <= length l)%nat /\ forall m n, splits x l m n -> i = m⟧ -∗
        elems f l -∗ Q (f +ₗ Z.of_nat i) (vobj a f (length l) cap)) ∧
     (elems f l -∗ X EUser (vobj a f (length l) cap))) -∗
    wp (het_lower x) (vobj a f (length l) cap) Q X.
  Proof.
    iIntros "Hl HK". unfold het_lower. wbind. iApply wp_get. wbeta. wbind.
    iApply wp_full_range. wbeta. cbn [vobj v_first].
    iDestruct (wp_bound (before x) f l 0 (length l) with "Hl") as "H"; [lia|].
    rewrite loc_add_0. iApply "H". iSplit; [|iDestruct "HK" as "[_ HK]"; iExact "HK"].
    iIntros (i) "%Hi Hl". iDestruct "HK" as "[HK _]". iApply ("HK" with "[] Hl"). iPureIntro.
    destruct Hi as [Hi1 Hi2]. split; [lia|]. intros m n Hs. apply Hi2; [by eapply splits_lower|].
    destruct Hs. lia.
  Qed.
  Lemma wp_het_upper x a f l cap Q X :
    elems f l ⊢
    ((∀ i, ⟦(i <= length l)%nat /\ forall m n, splits x l m n -> i = n⟧ -∗
        elems f l -∗ Q (f +ₗ Z.of_nat i) (vobj a f (length l) cap)) ∧
     (elems f l -∗ X EUser (vobj a f (length l) cap))) -∗
    wp (het_upper x) (vobj a f (length l) cap) Q X.
  Proof.
    iIntros "Hl HK". unfold het_upper. wbind. iApply wp_get. wbeta. wbind.
    iApply wp_full_range. wbeta. cbn [vobj v_first].
    iDestruct (wp_bound (het_not_behind x) f l 0 (length l) with "Hl") as "H"; [lia|].
    rewrite loc_add_0. iApply "H". iSplit; [|iDestruct "HK" as "[_ HK]"; iExact "HK"].
    iIntros (i) "%Hi Hl". iDestruct "HK" as "[HK _]". iApply ("HK" with "[] Hl"). iPureIntro.
    destruct Hi as [Hi1 Hi2]. split; [lia|]. intros m n Hs. apply Hi2; [by eapply splits_upper|].
    destruct Hs. lia.
  Qed.

  Lemma wp_het_equal_loop x f l s Q X fuel : forall n0 len,
    (n0 + len <= length l)%nat -> (len <= fuel)%nat ->
    elems f l ⊢
    ((∀ i j, ⟦(n0 <= i)%nat /\ (i <= j <= n0 + len)%nat /\
              forall m n, splits x l m n -> (n0 <= m)%nat -> (n <= n0 + len)%nat -> i = m /\ j = n⟧ -∗
        elems f l -∗ Q (f +ₗ Z.of_nat i, f +ₗ Z.of_nat j) s) ∧ (elems f l -∗ X EUser s)) -∗
    wp (het_equal_loop x fuel (f +ₗ Z.of_nat n0) len) s Q X.
  Proof.
    induction fuel as [|fuel IH]; intros n0 len Hn Hf.
    - iIntros "Hl HK". cbn [het_equal_loop]. iApply wp_ret. iDestruct "HK" as "[HK _]".
      iApply ("HK" with "[] Hl"). iPureIntro. split; [lia|]. split; [lia|]. intros m n [Hs _]. lia.
    - iIntros "Hl HK". cbn [het_equal_loop]. destruct (Nat.eqb_spec len 0) as [->|Hne].
      { iApply wp_ret. iDestruct "HK" as "[HK _]".
        iApply ("HK" with "[] Hl"). iPureIntro. split; [lia|]. split; [lia|]. intros m n [Hs _]. lia. }
      pose proof (Nat.lt_div2 len ltac:(lia)) as Hh. set (half := Nat.div2 len) in *.
      replace (f +ₗ Z.of_nat n0 +ₗ Z.of_nat half) with (f +ₗ Z.of_nat (n0 + half)) by loc_solve.
      destruct (lookup_lt_is_Some_2 l (n0 + half)) as [v Hv]; [lia|].
      wbind. iApply (wp_test_at with "Hl"); [done|]. iSplit; last first.
      { iDestruct "HK" as "[_ HK]". iExact "HK". }
      iIntros "Hl". wbeta.
      replace (f +ₗ Z.of_nat (n0 + half) +ₗ 1) with (f +ₗ Z.of_nat (S (n0 + half))) by loc_solve.
      destruct (before x v) eqn:Hp.
      { iApply (IH with "Hl"); [lia|lia|]. iSplit; [|iDestruct "HK" as "[_ HK]"; iExact "HK"].
        iIntros (i j) "%Hi Hl". iDestruct "HK" as "[HK _]". iApply ("HK" with "[] Hl"). iPureIntro.
        destruct Hi as (Hi1 & Hi2 & Hi3). split; [lia|]. split; [lia|]. intros m n Hs Hr1 Hr2.
        apply Hi3; [done| |lia]. apply (proj2 (splits_lower _ _ _ _ Hs) _ _ Hv) in Hp. lia. }
      wbind. iApply (wp_test_at with "Hl"); [done|]. iSplit; last first.
      { iDestruct "HK" as "[_ HK]". iExact "HK". }
      iIntros "Hl". wbeta. destruct (het_not_behind x v) eqn:Hq; cbn [negb].
      + wbind. iApply (wp_bound with "Hl"); [lia|]. iSplit; [|iDestruct "HK" as "[_ HK]"; iExact "HK"].
        iIntros (i) "%Hi Hl". wbeta. wbind. iApply (wp_bound with "Hl"); [lia|].
        iSplit; [|iDestruct "HK" as "[_ HK]"; iExact "HK"].
        iIntros (j) "%Hj Hl". wbeta. iApply wp_ret. iDestruct "HK" as "[HK _]".
        iApply ("HK" with "[] Hl"). iPureIntro. destruct Hi as [Hi1 Hi2], Hj as [Hj1 Hj2].
        split; [lia|]. split; [lia|]. intros m n Hs Hr1 Hr2.
        pose proof (splits_lower _ _ _ _ Hs) as Hm. pose proof (splits_upper _ _ _ _ Hs) as Hn'. split.
        * apply Hi2; [done|]. destruct (decide (n0 + half < m)%nat) as [Hlt|]; [|lia].
          apply (proj2 Hm _ _ Hv) in Hlt. congruence.
        * apply Hj2; [done|]. apply (proj2 Hn' _ _ Hv) in Hq. lia.
      + iApply (IH with "Hl"); [lia|lia|]. iSplit; [|iDestruct "HK" as "[_ HK]"; iExact "HK"].
        iIntros (i j) "%Hi Hl". iDestruct "HK" as "[HK _]". iApply ("HK" with "[] Hl"). iPureIntro.
        destruct Hi as (Hi1 & Hi2 & Hi3). split; [lia|]. split; [lia|]. intros m n Hs Hr1 Hr2.
        apply Hi3; [done|lia|].
        destruct (decide (n0 + half < n)%nat) as [Hlt|]; [|lia].
        apply (proj2 (splits_upper _ _ _ _ Hs) _ _ Hv) in Hlt. congruence.
  Qed.
  Lemma wp_het_equal_range x a f l cap Q X :
    elems f l ⊢
    ((∀ i j, ⟦(i <= j <= length l)%nat /\ forall m n, splits x l m n -> i = m /\ j = n⟧ -∗
        elems f l -∗ Q (f +ₗ Z.of_nat i, f +ₗ Z.of_nat j) (vobj a f (length l) cap)) ∧
     (elems f l -∗ X EUser (vobj a f (length l) cap))) -∗
    wp (het_equal_range x) (vobj a f (length l) cap) Q X.
  Proof.
    iIntros "Hl HK". unfold het_equal_range. wbind. iApply wp_get. wbeta. wbind.
    iApply wp_full_range. wbeta. cbn [vobj v_first].
    iPoseProof (wp_het_equal_loop x f l (vobj a f (length l) cap) Q X (length l) 0 (length l) with "Hl") as "H";
      [lia|lia|].
    rewrite loc_add_0. iApply "H". iSplit; [|iDestruct "HK" as "[_ HK]"; iExact "HK"].
    iIntros (i j) "%Hi Hl". iDestruct "HK" as "[HK _]". iApply ("HK" with "[] Hl"). iPureIntro.
    destruct Hi as (Hi1 & Hi2 & Hi3). split; [lia|]. intros m n Hs.
    apply Hi3; [done|lia|]. destruct Hs. lia.
  Qed.

  Lemma wp_het_find x a f l cap Q X :
    elems f l ⊢
    ((∀ i, ⟦(i <= length l)%nat /\ forall m n, splits x l m n -> i = if (m <? n)%nat then m else length l⟧ -∗
        elems f l -∗ Q (f +ₗ Z.of_nat i) (vobj a f (length l) cap)) ∧
     (elems f l -∗ X EUser (vobj a f (length l) cap))) -∗
    wp (het_find x) (vobj a f (length l) cap) Q X.
  Proof.
    iIntros "Hl HK". unfold het_find. wbind. iApply (wp_het_lower with "Hl").
    iSplit; [|iDestruct "HK" as "[_ HK]"; iExact "HK"].
    iIntros (i) "%Hi Hl". wbeta. wbind. iApply wp_get. wbeta. cbn [vobj v_last].
    rewrite loc_eqb_add. destruct Hi as [Hi1 Hi2].
    destruct (Z.eqb_spec (Z.of_nat i) (Z.of_nat (length l))) as [Heq|Hne].
    - assert (i = length l) as -> by lia. iApply wp_ret. iDestruct "HK" as "[HK _]".
      iApply ("HK" with "[] Hl"). iPureIntro. split; [done|]. intros m n Hs.
      pose proof (Hi2 _ _ Hs) as <-. by destruct (_ <? _)%nat.
    - destruct (lookup_lt_is_Some_2 l i) as [v Hv]; [lia|].
      wbind. iApply (wp_test_at with "Hl"); [done|]. iSplit; last first.
      { iDestruct "HK" as "[_ HK]". iExact "HK". }
      iIntros "Hl". wbeta. iDestruct "HK" as "[HK _]".
      assert (Hb : forall m n, splits x l m n -> i = m /\ behind x v = negb (m <? n)%nat).
      { intros m n Hs. pose proof (Hi2 _ _ Hs) as <-. split; [done|]. by eapply splits_equal. }
      destruct (behind x v) eqn:Hlt.
      + iApply wp_ret. iApply ("HK" with "[] Hl"). iPureIntro. split; [lia|].
        intros m n Hs. destruct (Hb _ _ Hs) as [<- H]. by destruct (_ <? _)%nat.
      + iApply wp_ret. iApply ("HK" with "[] Hl"). iPureIntro. split; [lia|].
        intros m n Hs. destruct (Hb _ _ Hs) as [<- H]. by destruct (_ <? _)%nat.
  Qed.

  (** [find(x) != end()]. *)
  Lemma wp_het_contains x a f l cap Q X :
    elems f l ⊢
    ((∀ b, ⟦forall m n, splits x l m n -> b = (m <? n)%nat⟧ -∗ elems f l -∗ Q b (vobj a f (length l) cap)) ∧
     (elems f l -∗ X EUser (vobj a f (length l) cap))) -∗
    wp (het_contains x) (vobj a f (length l) cap) Q X.
  Proof.
    iIntros "Hl HK". unfold het_contains. wbind. iApply (wp_het_find with "Hl").
    iSplit; [|iDestruct "HK" as "[_ HK]"; iExact "HK"].
    iIntros (i) "%Hi Hl". wbeta. wbind. iApply wp_get. wbeta. cbn [vobj v_last].
    rewrite loc_eqb_add. destruct Hi as [Hi1 Hi2]. iApply wp_ret. iDestruct "HK" as "[HK _]".
    iApply ("HK" with "[] Hl"). iPureIntro. intros m n Hs. pose proof (Hi2 _ _ Hs) as Hi. destruct Hs as [Hm _].
    destruct (Nat.ltb_spec m n); lia.
  Qed.
  Lemma wp_het_count kd x a f l cap Q X :
    elems f l ⊢
    ((∀ k, ⟦forall m n, splits x l m n ->
              k = if multi kd then (n - m)%nat else if (m <? n)%nat then 1%nat else 0%nat⟧ -∗
        elems f l -∗ Q (Z.of_nat k) (vobj a f (length l) cap)) ∧
     (elems f l -∗ X EUser (vobj a f (length l) cap))) -∗
    wp (het_count kd x) (vobj a f (length l) cap) Q X.
  Proof.
    iIntros "Hl HK". unfold het_count. destruct (multi_or kd) as [Hmu|Hmu]; rewrite Hmu.
    - wbind. iApply (wp_het_equal_range with "Hl"). iSplit; [|iDestruct "HK" as "[_ HK]"; iExact "HK"].
      iIntros (i j) "%Hij Hl". destruct Hij as [Hij Hpos]. wbeta. cbn [fst snd].
      iApply (wp_psub _ _ (Z.of_nat (j - i))); [loc_solve|]. iDestruct "HK" as "[HK _]".
      iApply ("HK" with "[] Hl"). iPureIntro. intros m n Hs. by destruct (Hpos m n Hs) as [-> ->].
    - wbind. iApply (wp_het_find with "Hl"). iSplit; [|iDestruct "HK" as "[_ HK]"; iExact "HK"].
      iIntros (i) "%Hi Hl". wbeta. wbind. iApply wp_get. wbeta.
      cbn [vobj v_last]. rewrite loc_eqb_add. iApply wp_ret. iDestruct "HK" as "[HK _]".
      destruct Hi as [Hi1 Hi2].
      destruct (Z.eqb_spec (Z.of_nat i) (Z.of_nat (length l))) as [Heq|Hne].
      + iApply ("HK" $! 0%nat with "[] Hl"). iPureIntro.
        intros m n Hs. pose proof (Hi2 _ _ Hs) as Hi. destruct Hs as [Hm _]. destruct (Nat.ltb_spec m n); lia.
      + iApply ("HK" $! 1%nat with "[] Hl"). iPureIntro.
        intros m n Hs. pose proof (Hi2 _ _ Hs) as Hi. destruct Hs as [Hm _]. destruct (Nat.ltb_spec m n); lia.
  Qed.
  Lemma wp_het_at x a f l cap Q X :
    elems f l ⊢
    ((∀ i w, ⟦l !! i = Some w /\ forall m n, splits x l m n -> i = m /\ (m < n)%nat⟧ -∗
        elems f l -∗ Q (mapped w) (vobj a f (length l) cap)) ∧
     (∀ e, ⟦e = EUser \/ (e = EOutOfRange /\ forall m n, splits x l m n -> m = n)⟧ -∗
        elems f l -∗ X e (vobj a f (length l) cap))) -∗
    wp (het_at x) (vobj a f (length l) cap) Q X.
  Proof.
    iIntros "Hl HK". unfold het_at. wbind. iApply (wp_het_find with "Hl"). iSplit; last first.
    { iIntros "Hl". iDestruct "HK" as "[_ HK]". iApply ("HK" with "[] Hl"). iPureIntro. by left. }
    iIntros (i) "%Hi Hl". wbeta. wbind. iApply wp_get. wbeta.
    cbn [vobj v_last]. rewrite loc_eqb_add. destruct Hi as [Hi1 Hi2].
    destruct (Z.eqb_spec (Z.of_nat i) (Z.of_nat (length l))) as [Heq|Hne].
    - iApply wp_throw; [by right|]. iDestruct "HK" as "[_ HK]".
      iApply ("HK" with "[] Hl"). iPureIntro. right. split; [done|].
      intros m n Hs. pose proof (Hi2 _ _ Hs) as Hi. destruct Hs as [Hm _]. destruct (Nat.ltb_spec m n); lia.
    - destruct (lookup_lt_is_Some_2 l i) as [v Hv]; [lia|].
      iDestruct (elems_acc _ _ i with "Hl") as "[Hd Hcl]"; [done|]. wbind.
      iApply (wp_read with "Hd"). iIntros "Hd". iSpecialize ("Hcl" with "Hd").
      rewrite (list_insert_id l i v Hv). wbeta. iApply wp_ret. iDestruct "HK" as "[HK _]".
      iApply ("HK" with "[] Hcl"). iPureIntro. split; [done|].
      intros m n Hs. pose proof (Hi2 _ _ Hs) as Hi. destruct Hs as [Hm _]. destruct (Nat.ltb_spec m n); lia.
  Qed.

  Lemma wp_het_is_new x a f l cap i Q X :
    (i <= length l)%nat ->
    elems f l ⊢
    ((∀ b : bool, ⟦(b = false -> i < length l)%nat /\
                   forall w, l !! i = Some w -> behind x w = b⟧ -∗
        elems f l -∗ Q b (vobj a f (length l) cap)) ∧
     (elems f l -∗ X EUser (vobj a f (length l) cap))) -∗
    wp (het_is_new x (f +ₗ Z.of_nat i)) (vobj a f (length l) cap) Q X.
  Proof.
    iIntros (Hi) "Hl HK". unfold het_is_new. wbind. iApply wp_get. wbeta. cbn [vobj v_last].
    rewrite loc_eqb_add. destruct (Z.eqb_spec (Z.of_nat i) (Z.of_nat (length l))) as [Heq|Hne].
    - iApply wp_ret. iDestruct "HK" as "[HK _]". iApply ("HK" with "[] Hl"). iPureIntro.
      split; [done|]. intros w Hw. apply lookup_lt_Some in Hw. lia.
    - destruct (lookup_lt_is_Some_2 l i) as [v Hv]; [lia|].
      iApply (wp_test_at with "Hl"); [done|]. iSplit; last first.
      { iDestruct "HK" as "[_ HK]". iExact "HK". }
      iIntros "Hl". iDestruct "HK" as "[HK _]". iApply ("HK" with "[] Hl"). iPureIntro.
      split; [lia|]. intros w Hw. by simplify_eq.
  Qed.

  (** Position and novelty. *)
  Definition het_place (x : probe) (l : list V) (i : nat) (b : bool) : Prop :=
    (i <= length l)%nat /\ (b = false -> i < length l)%nat /\
    forall m n, splits x l m n -> i = m /\ b = negb (m <? n)%nat.
  Lemma wp_het_where {T} x a f l cap (k : loc -> bool -> M vdata T) Q X :
    elems f l ⊢
    ((∀ i b, ⟦het_place x l i b⟧ -∗ elems f l -∗
        wp (k (f +ₗ Z.of_nat i) b) (vobj a f (length l) cap) Q X) ∧
     (elems f l -∗ X EUser (vobj a f (length l) cap))) -∗
    wp (it <- het_lower x;; b <- het_is_new x it;; k it b)%prog (vobj a f (length l) cap) Q X.
  Proof.
    iIntros "Hl HK". wbind. iApply (wp_het_lower with "Hl").
    iSplit; [|iDestruct "HK" as "[_ HK]"; iExact "HK"].
    iIntros (i) "%Hi Hl". destruct Hi as [Hi1 Hi2]. wbeta. wbind.
    iApply (wp_het_is_new with "Hl"); [done|]. iSplit; [|iDestruct "HK" as "[_ HK]"; iExact "HK"].
    iIntros (b) "%Hb Hl". wbeta. iDestruct "HK" as "[HK _]". iApply ("HK" with "[] Hl"). iPureIntro.
    destruct Hb as [Hb1 Hb2]. split; [done|]. split; [done|]. intros m n Hs.
    pose proof (Hi2 _ _ Hs) as <-. split; [done|].
    destruct (l !! i) as [w|] eqn:Hw.
    - rewrite -(Hb2 w eq_refl). by eapply splits_equal.
    - apply lookup_ge_None in Hw. destruct Hs as [Hs _]. destruct b; [|lia].
      destruct (Nat.ltb_spec i n); [lia|done].
  Qed.

  Lemma wp_het_hint {f l} a cap h x Q X :
    (h <= length l)%nat ->
    elems f l ⊢ ((∀ b : bool, ⟦b = true -> forall m n, splits x l m n -> h = m /\ h = n⟧ -∗
          elems f l -∗ Q b (vobj a f (length l) cap)) ∧
       (elems f l -∗ X EUser (vobj a f (length l) cap))) -∗
    wp (het_hint_good (f +ₗ Z.of_nat h) x) (vobj a f (length l) cap) Q X.
  Proof.
    intros Hh. unfold het_hint_good. iIntros "Hl HK".
    iApply (wp_and a cap _ _
      (h = 0%nat \/ exists w, l !! (h - 1)%nat = Some w /\ before x w = true)
      (h = length l \/ exists w, l !! h = Some w /\ behind x w = true) with "Hl").
    - intros Q' X'. apply wp_or; [intros; apply wp_at_begin|]. iIntros (Q2 X2 Hne) "Hl HK".
      destruct (lookup_lt_is_Some_2 l (h - 1)) as [w Hw]; [lia|].
      replace (f +ₗ Z.of_nat h +ₗ -1) with (f +ₗ Z.of_nat (h - 1)) by loc_solve.
      iApply (wp_test_at with "Hl"); [done|]. iSplit; [|iDestruct "HK" as "[_ HK]"; iExact "HK"].
      iIntros "Hl". iDestruct "HK" as "[HK _]". iApply ("HK" with "[] Hl"). iPureIntro.
      intros Hb. by exists w.
    - intros Q' X' _. apply wp_or; [intros; apply wp_is_end|]. iIntros (Q2 X2 Hne) "Hl HK".
      destruct (lookup_lt_is_Some_2 l h) as [w Hw]; [lia|].
      iApply (wp_test_at with "Hl"); [done|]. iSplit; [|iDestruct "HK" as "[_ HK]"; iExact "HK"].
      iIntros "Hl". iDestruct "HK" as "[HK _]". iApply ("HK" with "[] Hl"). iPureIntro.
      intros Hb. by exists w.
    - iSplit; [|iDestruct "HK" as "[_ HK]"; iExact "HK"]. iIntros (b) "%Hb Hl".
      iDestruct "HK" as "[HK _]". iApply ("HK" with "[] Hl"). iPureIntro. intros Htrue m n Hs.
      destruct (Hb Htrue) as [H1 H2]. destruct Hs as [Hm Hs].
      assert (h <= m)%nat.
      { destruct H1 as [-> |(w & Hw & Hbe)]; [lia|]. apply (Hs _ _ Hw) in Hbe. lia. }
      assert (n <= h)%nat; [|lia].
      destruct H2 as [-> |(w & Hw & Hbe)]; [lia|]. destruct (Hs _ _ Hw) as [_ H2].
      destruct (decide (n <= h)%nat) as [|Hn]; [done|]. rewrite (proj2 H2) in Hbe; [done|lia].
  Qed.
End lookup.

Section run.
  Context `{KD : Keyed}.
  Variable kd : fkind.
  Context (exact : loc -> arg -> M vdata loc) (room : M vdata unit)
    (fv : nat -> loc -> list V -> Z -> hProp) (alloc robust : bool) (fits : nat -> bool)
    (EX : exact_ok exact room fv (multi kd) alloc robust fits).
  Notation vo a f l cap := (vobj a f (length l) cap).
  Notation run := (run_het kd exact room).

  (** ** Inserting *)
  Lemma wp_het_exact a f l cap i v Q X :
    fits (S (length l)) = true -> (i <= length l)%nat ->
    fv a f l cap ⊢
    ((∀ f' cap', ⟦stays (S (length l)) f cap f' cap'⟧ -∗ fv a f' (put_at i v l) cap' -∗
        Q (f' +ₗ Z.of_nat i) (vo a f' (put_at i v l) cap')) ∧
     (∀ e l', ⟦exact_exn alloc robust l i e l'⟧ -∗ fv a f l' cap -∗ X e (vo a f l' cap))) -∗
    wp (exact (f +ₗ Z.of_nat i) (AVal v)) (vo a f l cap) Q X.
  Proof.
    iIntros (Hf Hi) "Hv HK".
    iApply (ex_at _ _ _ _ _ _ _ EX with "Hv"); [done|done|apply ar_val|by intros []|]. iSplit.
    - iIntros (f' cap' l') "%Hl' Hv". destruct Hl' as (Hlen & Hl' & Hst).
      assert (l' = put_at i v l) as -> by (apply Hl'; by right).
      iDestruct "HK" as "[HK _]". iSpecialize ("HK" $! f' cap' with "[//] Hv"). rewrite Hlen. iExact "HK".
    - iIntros (e l' n') "%Hx Hv". destruct Hx as [-> Hx].
      iDestruct "HK" as "[_ HK]". by iApply ("HK" with "[] Hv").
  Qed.
  Lemma exact_exn_same l i : exact_exn alloc robust l i EUser l.
  Proof. split; [lia|]. split; [done|by left]. Qed.
  Lemma wp_het_make {T} a f l cap i v (k : V -> M vdata T) Q X :
    fv a f l cap ⊢
    ((fv a f l cap -∗ wp (k v) (vo a f l cap) Q X) ∧
     (∀ e l', ⟦exact_exn alloc robust l i e l'⟧ -∗ fv a f l' cap -∗ X e (vo a f l' cap))) -∗
    wp (tmp <- make (AVal v);; k tmp)%prog (vo a f l cap) Q X.
  Proof.
    iIntros "Hv HK". wbind. iApply (wp_make_arg kd _ _ _ _ _ _ EX with "Hv"); [apply ar_val|by intros []|].
    iSplit.
    - iIntros "Hv". wbeta. iDestruct "HK" as "[HK _]". by iApply "HK".
    - iIntros "Hv". iDestruct "HK" as "[_ HK]". iApply ("HK" with "[] Hv"). iPureIntro. apply exact_exn_same.
  Qed.

  (** The continuation of an insertion: element [i] is the one asked for; it is new
      if [b].  [upd] is what is done with an element already there. *)
  Definition put_post (x : probe) (v : V) (upd : nat -> list V -> list V -> Prop) (l l' : list V) (i : nat) (b : bool) : Prop :=
    (if b then (i <= length l)%nat /\ l' = put_at i v l else (i < length l)%nat /\ upd i l l') /\
    forall m n, splits x l m n -> i = m /\ b = negb (m <? n)%nat.
  Definition put_bad (x : probe) (l : list V) (e : exn) (l' : list V) : Prop :=
    (length l <= length l' <= S (length l))%nat /\
    (robust = true -> splits x l (length l) (length l) -> l' = l) /\
    (e = EUser \/ ((e = ELength \/ e = EBadAlloc) /\ alloc = true /\ l' = l)).
  Definition put_cont {T} (res : loc -> nat -> bool -> T) x upd a f l cap v
      (Q : T -> vdata -> hProp) (X : exn -> vdata -> hProp) : hProp :=
    ((∀ f' cap' l' i b, ⟦put_post x v upd l l' i b /\ stays (S (length l)) f cap f' cap'⟧ -∗ fv a f' l' cap' -∗
        Q (res f' i b) (vo a f' l' cap')) ∧
     (∀ e l', ⟦put_bad x l e l'⟧ -∗ fv a f l' cap -∗ X e (vo a f l' cap)))%I.
  Lemma put_bad_exact x l i e l' :
    (forall m n, splits x l m n -> i = m) -> exact_exn alloc robust l i e l' -> put_bad x l e l'.
  Proof.
    intros Hi (H1 & H2 & H3). split; [done|]. split; [|done]. intros Hr Hs. apply H2; [|done]. by apply (Hi _ _ Hs).
  Qed.
  Lemma put_bad_same x l : put_bad x l EUser l.
  Proof. split; [lia|]. split; [done|by left]. Qed.
  Lemma put_cont_bad {T} (res : loc -> nat -> bool -> T) x upd a f l cap v Q X i :
    (forall m n, splits x l m n -> i = m) ->
    put_cont res x upd a f l cap v Q X ⊢
    ∀ e l', ⟦exact_exn alloc robust l i e l'⟧ -∗ fv a f l' cap -∗ X e (vo a f l' cap).
  Proof.
    iIntros (Hi) "[_ H]". iIntros (e l') "%Hx Hv". iApply ("H" with "[] Hv"). iPureIntro. by eapply put_bad_exact.
  Qed.
  Definition untouched (i : nat) (l l' : list V) : Prop := l' = l.
  Definition second_set (d : Mapped) (i : nat) (l l' : list V) : Prop :=
    exists w, l !! i = Some w /\ l' = <[i := entry (key w) d]> l.

  Lemma wp_het_insert a f l cap x v Q X :
    fits (S (length l)) = true ->
    fv a f l cap ⊢ put_cont pair_at x untouched a f l cap v Q X -∗
    wp (het_insert exact room x v) (vo a f l cap) Q X.
  Proof.
    iIntros (Hf) "Hv HK". unfold het_insert. wbind.
    iApply (ex_room _ _ _ _ _ _ _ EX with "Hv"); [done|]. iIntros "Hv".
    iDestruct (fv_elems kd _ _ _ _ _ _ EX with "Hv") as "[Hl Hcl]".
    iApply (wp_het_where x a f l cap (fun it b => if b then
       tmp <- make (AVal v);; p <- exact it (AVal tmp);; ret (p, true)
       else ret (it, false))%prog with "Hl"). iSplit; last first.
    { iIntros "Hl". iDestruct "HK" as "[_ HK]". iApply ("HK" with "[] [Hl Hcl]"); [|by iApply "Hcl"].
      iPureIntro. apply put_bad_same. }
    iIntros (i b) "%Hi Hl". iSpecialize ("Hcl" with "Hl"). destruct Hi as (Hi1 & Hi2 & Hi3). destruct b.
    - iApply (wp_het_make _ _ _ _ i with "Hcl"). iSplit; [|iApply (put_cont_bad with "HK"); intros m n Hs; by apply Hi3 in Hs as [-> _]].
      iIntros "Hv". wbind. iApply (wp_het_exact with "Hv"); [done|done|].
      iSplit; [|iApply (put_cont_bad with "HK"); intros m n Hs; by apply Hi3 in Hs as [-> _]].
      iIntros (f' cap') "%Hst Hv". wbeta. iApply wp_ret. iDestruct "HK" as "[HK _]".
      iApply ("HK" $! f' cap' _ i true with "[] Hv"). iPureIntro. done.
    - iApply wp_ret. iDestruct "HK" as "[HK _]". iApply ("HK" $! f cap l i false with "[] Hcl").
      iPureIntro. split; [|apply stays_refl]. split; [|done]. split; [by apply Hi2|done].
  Qed.
  Lemma wp_het_assign a f l cap x k d Q X :
    fits (S (length l)) = true ->
    fv a f l cap ⊢ put_cont pair_at x (second_set d) a f l cap (entry k d) Q X -∗
    wp (het_assign exact room x k d) (vo a f l cap) Q X.
  Proof.
    iIntros (Hf) "Hv HK". unfold het_assign. wbind.
    iApply (ex_room _ _ _ _ _ _ _ EX with "Hv"); [done|]. iIntros "Hv".
    iDestruct (fv_elems kd _ _ _ _ _ _ EX with "Hv") as "[Hl Hcl]".
    iApply (wp_het_where x a f l cap (fun it b => if b then
       tmp <- make (AVal (entry k d));; p <- exact it (AVal tmp);; ret (p, true)
       else assign_second it d;; ret (it, false))%prog with "Hl"). iSplit; last first.
    { iIntros "Hl". iDestruct "HK" as "[_ HK]". iApply ("HK" with "[] [Hl Hcl]"); [|by iApply "Hcl"].
      iPureIntro. apply put_bad_same. }
    iIntros (i b) "%Hi Hl". iSpecialize ("Hcl" with "Hl"). destruct Hi as (Hi1 & Hi2 & Hi3). destruct b.
    - iApply (wp_het_make _ _ _ _ i with "Hcl"). iSplit; [|iApply (put_cont_bad with "HK"); intros m n Hs; by apply Hi3 in Hs as [-> _]].
      iIntros "Hv". wbind. iApply (wp_het_exact with "Hv"); [done|done|].
      iSplit; [|iApply (put_cont_bad with "HK"); intros m n Hs; by apply Hi3 in Hs as [-> _]].
      iIntros (f' cap') "%Hst Hv". wbeta. iApply wp_ret. iDestruct "HK" as "[HK _]".
      iApply ("HK" $! f' cap' _ i true with "[] Hv"). iPureIntro. done.
    - specialize (Hi2 eq_refl). destruct (lookup_lt_is_Some_2 l i Hi2) as [w Hw].
      wbind. iApply (wp_assign_second kd _ _ _ _ _ _ EX with "Hcl"); [done|]. iSplit.
      + iIntros "Hv". iApply wp_ret. iDestruct "HK" as "[HK _]".
        iSpecialize ("HK" $! f cap (<[i:=entry (key w) d]> l) i false with "[] Hv").
        { iPureIntro. split; [|apply stays_refl]. split; [|done]. split; [done|]. by exists w. }
        rewrite insert_length. iExact "HK".
      + iIntros (t) "Hv". iDestruct "HK" as "[_ HK]".
        iSpecialize ("HK" $! EUser (<[i:=entry (key w) (mjunk t)]> l) with "[] Hv").
        { iPureIntro. split; [rewrite insert_length; lia|]. split; [|by left].
          intros _ Hs. destruct (Hi3 _ _ Hs) as [-> _]. lia. }
        rewrite insert_length. iExact "HK".
  Qed.

  (** With a hint. *)
  Lemma wp_het_hinted a f l cap h x v upd (other : M vdata (loc * bool)) Q X :
    fits (S (length l)) = true -> (h <= length l)%nat ->
    (forall Q' X', fv a f l cap ⊢ put_cont pair_at x upd a f l cap v Q' X' -∗ wp other (vo a f l cap) Q' X') ->
    fv a f l cap ⊢ put_cont only_at x upd a f l cap v Q X -∗
    wp (room;; assert_pos (f +ₗ Z.of_nat h);;
        g <- het_hint_good (f +ₗ Z.of_nat h) x;;
        if g then tmp <- make (AVal v);; exact (f +ₗ Z.of_nat h) (AVal tmp)
        else r <- other;; ret r.1)%prog (vo a f l cap) Q X.
  Proof.
    iIntros (Hf Hh Hother) "Hv HK". wbind.
    iApply (ex_room _ _ _ _ _ _ _ EX with "Hv"); [done|]. iIntros "Hv". wbind.
    iApply wp_assert_pos; [done|]. wbind.
    iDestruct (fv_elems kd _ _ _ _ _ _ EX with "Hv") as "[Hl Hcl]".
    iApply (wp_het_hint with "Hl"); [done|]. iSplit; last first.
    { iIntros "Hl". iDestruct "HK" as "[_ HK]". iApply ("HK" with "[] [Hl Hcl]"); [|by iApply "Hcl"].
      iPureIntro. apply put_bad_same. }
    iIntros (b) "%Hb Hl". iSpecialize ("Hcl" with "Hl"). wbeta. destruct b.
    - specialize (Hb eq_refl).
      iApply (wp_het_make _ _ _ _ h with "Hcl"). iSplit; [|iApply (put_cont_bad with "HK"); intros m n Hs; by apply Hb in Hs as [-> _]].
      iIntros "Hv". iApply (wp_het_exact with "Hv"); [done|done|].
      iSplit; [|iApply (put_cont_bad with "HK"); intros m n Hs; by apply Hb in Hs as [-> _]].
      iIntros (f' cap') "%Hst Hv". iDestruct "HK" as "[HK _]".
      iApply ("HK" $! f' cap' _ h true with "[] Hv"). iPureIntro. split; [|done]. split; [done|].
      intros m n Hs. destruct (Hb m n Hs) as [-> ->]. split; [done|]. by rewrite Nat.ltb_irrefl.
    - wbind. iApply (Hother with "Hcl"). iSplit; [|iDestruct "HK" as "[_ HK]"; iExact "HK"].
      iIntros (f' cap' l' i b) "%Hx Hv". wbeta. iApply wp_ret. iDestruct "HK" as "[HK _]".
      by iApply ("HK" with "[] Hv").
  Qed.

  Lemma wp_het_index a f l cap x k Q X :
    fits (S (length l)) = true ->
    fv a f l cap ⊢
    ((∀ f' cap' l' i b w, ⟦put_post x (entry k mdef) untouched l l' i b /\ l' !! i = Some w /\
         stays (S (length l)) f cap f' cap'⟧ -∗ fv a f' l' cap' -∗ Q (mapped w) (vo a f' l' cap')) ∧
     (∀ e l', ⟦put_bad x l e l'⟧ -∗ fv a f l' cap -∗ X e (vo a f l' cap))) -∗
    wp (het_index exact room x k) (vo a f l cap) Q X.
  Proof.
    iIntros (Hf) "Hv HK". unfold het_index. wbind. iApply (wp_het_insert with "Hv"); [done|].
    iSplit; [|iDestruct "HK" as "[_ HK]"; iExact "HK"].
    iIntros (f' cap' l' i b) "%Hx Hv". wbeta. destruct Hx as [Hp Hst].
    assert (exists w, l' !! i = Some w) as [w Hw].
    { apply lookup_lt_is_Some_2. destruct Hp as [Hp _]. destruct b.
      - destruct Hp as [Hi ->]. unfold put_at. nlia.
      - destruct Hp as [Hi ->]. done. }
    iDestruct (fv_elems kd _ _ _ _ _ _ EX with "Hv") as "[Hl Hcl]".
    iDestruct (elems_acc _ _ i with "Hl") as "[Hd Hl]"; [done|]. wbind.
    iApply (wp_read with "Hd"). iIntros "Hd". iSpecialize ("Hl" with "Hd").
    rewrite (list_insert_id l' i w Hw). iSpecialize ("Hcl" with "Hl"). wbeta. iApply wp_ret.
    iDestruct "HK" as "[HK _]". by iApply ("HK" with "[] Hcl").
  Qed.

  (** ** Calls *)
  Definition het_need (o : hop) (l : list V) : nat :=
    match new_elem o with Some _ => S (length l) | None => length l end.
  Definition het_cont o a f l cap (Q : frv -> vdata -> hProp) (X : exn -> vdata -> hProp) : hProp :=
    ((∀ r f' cap' l', ⟦het_post kd o l r l' /\ stays (het_need o l) f cap f' cap'⟧ -∗
        fv a f' l' cap' -∗ Q r (vo a f' l' cap')) ∧
     (∀ e l', ⟦het_exn alloc robust o l e l'⟧ -∗ fv a f l' cap -∗ X e (vo a f l' cap)))%I.
  Definition hop_ok (o : hop) : Prop := forall a f l cap Q X,
    het_pre kd (fits (S (length l))) o (length l) = true ->
    fv a f l cap ⊢ het_cont o a f l cap Q X -∗ wp (run o) (vo a f l cap) Q X.

  Ltac start := unfold run_het; wbind; iApply wp_get; wbeta.

  (** Lookups. *)
  Lemma het_look_cont o a f l cap Q X :
    new_elem o = None -> (forall x, o <> HErase x) ->
    fv a f l cap ⊢ het_cont o a f l cap Q X -∗
    elems f l ∗
    ((∀ r, ⟦forall m n, splits (probe_of o) l m n -> het_result kd o m n l r l⟧ -∗ elems f l -∗ Q r (vo a f l cap)) ∧
     (∀ e, ⟦e = EUser \/ (e = EOutOfRange /\ exists x, o = HAt x /\ forall m n, splits x l m n -> m = n)⟧ -∗
        elems f l -∗ X e (vo a f l cap))).
  Proof.
    iIntros (Hn He) "Hv HK". iDestruct (fv_elems kd _ _ _ _ _ _ EX with "Hv") as "[$ Hcl]". iSplit.
    - iIntros (r) "%Hr Hl". iSpecialize ("Hcl" with "Hl"). iDestruct "HK" as "[HK _]".
      iApply ("HK" with "[] Hcl"). iPureIntro. split; [|apply stays_refl]. split; [|done].
      unfold het_always. rewrite Hn. destruct o; try done.
    - iIntros (e) "%Hr Hl". iSpecialize ("Hcl" with "Hl"). iDestruct "HK" as "[_ HK]".
      iApply ("HK" with "[] Hcl"). iPureIntro. unfold het_exn. rewrite Hn. split.
      + split; [done|]. destruct o; try done.
      + by destruct Hr as [-> |[-> Hr]].
  Qed.
  Ltac look := iIntros "Hv HK"; start; iDestruct (het_look_cont with "Hv HK") as "[Hl HK]"; [done|done|].
  Ltac look_exn := iIntros "Hl"; iDestruct "HK" as "[_ HK]"; iApply ("HK" with "[] Hl"); iPureIntro; by left.

  Lemma h_lower x : hop_ok (HLower x).
  Proof.
    intros a f l cap Q X _. look. unfold as_pos, as_idx. wbind. wbind.
    iApply (wp_het_lower with "Hl"). iSplit; [|look_exn].
    iIntros (i) "%Hi Hl". destruct Hi as [Hi1 Hi2]. wbeta. iApply (ret_idx f i); [done|done|]. iApply wp_ret.
    iDestruct "HK" as "[HK _]". iApply ("HK" with "[] Hl"). iPureIntro. intros m n Hs. cbn. by rewrite (Hi2 _ _ Hs).
  Qed.
  Lemma h_upper x : hop_ok (HUpper x).
  Proof.
    intros a f l cap Q X _. look. unfold as_pos, as_idx. wbind. wbind.
    iApply (wp_het_upper with "Hl"). iSplit; [|look_exn].
    iIntros (i) "%Hi Hl". destruct Hi as [Hi1 Hi2]. wbeta. iApply (ret_idx f i); [done|done|]. iApply wp_ret.
    iDestruct "HK" as "[HK _]". iApply ("HK" with "[] Hl"). iPureIntro. intros m n Hs. cbn. by rewrite (Hi2 _ _ Hs).
  Qed.
  Lemma h_find x : hop_ok (HFind x).
  Proof.
    intros a f l cap Q X _. look. unfold as_pos, as_idx. wbind. wbind.
    iApply (wp_het_find with "Hl"). iSplit; [|look_exn].
    iIntros (i) "%Hi Hl". destruct Hi as [Hi1 Hi2]. wbeta. iApply (ret_idx f i); [done|done|]. iApply wp_ret.
    iDestruct "HK" as "[HK _]". iApply ("HK" with "[] Hl"). iPureIntro. intros m n Hs. cbn. by rewrite -(Hi2 _ _ Hs).
  Qed.
  Lemma h_equal_range x : hop_ok (HEqualRange x).
  Proof.
    intros a f l cap Q X _. look. wbind.
    iApply (wp_het_equal_range with "Hl"). iSplit; [|look_exn].
    iIntros (i j) "%Hij Hl". destruct Hij as [Hij Hpos]. wbeta. cbn [fst snd vobj v_first].
    wbind. iApply (wp_psub _ _ (Z.of_nat i)); [done|]. wbeta.
    wbind. iApply (wp_psub _ _ (Z.of_nat j)); [done|]. wbeta. iApply wp_ret. rewrite !Nat2Z.id.
    iDestruct "HK" as "[HK _]". iApply ("HK" with "[] Hl"). iPureIntro. intros m n Hs. cbn.
    by destruct (Hpos m n Hs) as [-> ->].
  Qed.
  Lemma h_count x : hop_ok (HCount x).
  Proof.
    intros a f l cap Q X _. look. unfold as_one, as_num. wbind. wbind.
    iApply (wp_het_count kd with "Hl"). iSplit; [|look_exn].
    iIntros (k) "%Hk Hl". wbeta. iApply wp_ret. wbeta. iApply wp_ret.
    iDestruct "HK" as "[HK _]". iApply ("HK" with "[] Hl"). iPureIntro. intros m n Hs. cbn. by rewrite -(Hk _ _ Hs).
  Qed.
  Lemma h_contains x : hop_ok (HContains x).
  Proof.
    intros a f l cap Q X _. look. wbind.
    iApply (wp_het_contains with "Hl"). iSplit; [|look_exn].
    iIntros (b) "%Hb Hl". wbeta. iApply wp_ret.
    iDestruct "HK" as "[HK _]". iApply ("HK" with "[] Hl"). iPureIntro. intros m n Hs. cbn. by rewrite (Hb _ _ Hs).
  Qed.
  Lemma h_at x : hop_ok (HAt x).
  Proof.
    intros a f l cap Q X _. look. wbind.
    iApply (wp_het_at with "Hl"). iSplit.
    - iIntros (i w) "%Hm Hl". destruct Hm as [Hw Hm]. wbeta. iApply wp_ret.
      iDestruct "HK" as "[HK _]". iApply ("HK" with "[] Hl"). iPureIntro. intros m n Hs. cbn.
      destruct (Hm _ _ Hs) as [-> Hlt]. by exists w.
    - iIntros (e) "%He Hl". iDestruct "HK" as "[_ HK]". iApply ("HK" with "[] Hl"). iPureIntro.
      destruct He as [He|[He Hk]]; [by left|]. right. eauto.
  Qed.

  Lemma h_erase x : hop_ok (HErase x).
  Proof.
    intros a f l cap Q X _. iIntros "Hv HK". start. unfold as_one, as_num. wbind. wbind.
    unfold het_erase. iDestruct (fv_elems kd _ _ _ _ _ _ EX with "Hv") as "[Hl Hcl]".
    assert (Hexn : forall l' : list V, length l' = length l -> het_exn alloc robust (HErase x) l EUser l').
    { intros l' Hl'. done. }
    destruct (multi_or kd) as [Hmu|Hmu]; rewrite Hmu.
    - wbind. iApply (wp_het_equal_range with "Hl"). iSplit; last first.
      { iIntros "Hl". iDestruct "HK" as "[_ HK]". iApply ("HK" with "[] [Hl Hcl]"); [|by iApply "Hcl"].
        iPureIntro. by apply Hexn. }
      iIntros (i j) "%Hij Hl". iSpecialize ("Hcl" with "Hl"). destruct Hij as [Hij Hpos]. wbeta. cbn [fst snd].
      wbind. iApply (wp_psub _ _ (Z.of_nat (j - i))); [loc_solve|]. wbeta. wbind.
      iApply (wp_fv_erase_range kd _ _ _ _ _ _ EX with "Hcl"); [lia|]. iSplit; last first.
      { iIntros (l') "%Hx Hv". iDestruct "HK" as "[_ HK]". iApply ("HK" with "[] Hv").
        iPureIntro. apply Hexn, Hx. }
      iIntros "Hv". iApply wp_ret. wbeta. iApply wp_ret. wbeta. iApply wp_ret. iDestruct "HK" as "[HK _]".
      iApply ("HK" $! _ f cap with "[] Hv"). iPureIntro. split; [|apply stays_refl]. split; [cbn; nlia|].
      intros m n Hs. destruct (Hpos m n Hs) as [-> ->]. cbn. by rewrite Hmu.
    - wbind. iApply (wp_het_find with "Hl"). iSplit; last first.
      { iIntros "Hl". iDestruct "HK" as "[_ HK]". iApply ("HK" with "[] [Hl Hcl]"); [|by iApply "Hcl"].
        iPureIntro. by apply Hexn. }
      iIntros (i) "%Hi Hl". iSpecialize ("Hcl" with "Hl"). wbeta. wbind. iApply wp_get. wbeta.
      cbn [vobj v_last]. rewrite loc_eqb_add. destruct Hi as [Hi1 Hi2].
      destruct (Z.eqb_spec (Z.of_nat i) (Z.of_nat (length l))) as [Heq|Hne].
      + iApply wp_ret. wbeta. iApply wp_ret. wbeta. iApply wp_ret. iDestruct "HK" as "[HK _]".
        iApply ("HK" $! _ f cap with "[] Hcl"). iPureIntro. split; [|apply stays_refl]. split; [cbn; lia|].
        intros m n Hs. pose proof (Hi2 m n Hs) as Hi. destruct Hs as [Hm _]. cbn [het_result]. rewrite Hmu.
        destruct (Nat.ltb_spec m n); [lia|done].
      + wbind. iApply (wp_fv_erase kd _ _ _ _ _ _ EX with "Hcl"); [lia|]. iSplit; last first.
        { iIntros (l') "%Hx Hv". iDestruct "HK" as "[_ HK]". iApply ("HK" with "[] Hv").
          iPureIntro. apply Hexn, Hx. }
        iIntros "Hv". iApply wp_ret. wbeta. iApply wp_ret. wbeta. iApply wp_ret. iDestruct "HK" as "[HK _]".
        iApply ("HK" $! _ f cap with "[] Hv"). iPureIntro. split; [|apply stays_refl]. split; [cbn; nlia|].
        intros m n Hs. pose proof (Hi2 m n Hs) as Hi. destruct Hs as [Hm _]. cbn [het_result]. rewrite Hmu.
        destruct (Nat.ltb_spec m n); [|lia]. by rewrite Hi.
  Qed.

  (** Insertions. *)
  Lemma put_len x v (upd : nat -> list V -> list V -> Prop) l l' i b :
    (forall i l l', upd i l l' -> length l' = length l) ->
    put_post x v upd l l' i b -> (length l <= length l' <= S (length l))%nat.
  Proof.
    intros Hu [Hp _]. destruct b; destruct Hp as [Hi Hp].
    - subst. unfold put_at. nlia.
    - apply Hu in Hp. lia.
  Qed.
  Lemma untouched_len i (l l' : list V) : untouched i l l' -> length l' = length l.
  Proof. by intros ->. Qed.
  Lemma second_len d i (l l' : list V) : second_set d i l l' -> length l' = length l.
  Proof. intros (w & _ & ->). apply insert_length. Qed.

  Lemma put_run o v x (upd : nat -> list V -> list V -> Prop) a f l cap (res : nat -> bool -> frv) Q X :
    new_elem o = Some v -> probe_of o = x ->
    (forall i l l', upd i l l' -> length l' = length l) ->
    (forall i b l' m n, put_post x v upd l l' i b -> splits x l m n -> het_result kd o m n l (res i b) l') ->
    het_cont o a f l cap Q X ⊢ put_cont (fun _ i b => res i b) x upd a f l cap v Q X.
  Proof.
    iIntros (Hn Hx Hu Hr) "HK". iSplit.
    - iIntros (f' cap' l' i b) "%Hp Hv". destruct Hp as [Hp Hst]. iDestruct "HK" as "[HK _]".
      iApply ("HK" with "[] Hv"). iPureIntro. split; [|by unfold het_need; rewrite Hn]. split.
      + pose proof (put_len _ _ _ _ _ _ _ Hu Hp). unfold het_always. by rewrite Hn.
      + intros m n Hs. rewrite Hx in Hs. by eapply Hr.
    - iIntros (e l') "%Hb Hv". iDestruct "HK" as "[_ HK]". iApply ("HK" with "[] Hv"). iPureIntro.
      destruct Hb as (H1 & H2 & H3). unfold het_exn. rewrite Hn Hx. split; [done|].
      by destruct H3 as [-> |([-> | ->] & Ha & ->)].
  Qed.
  Lemma wp_het_pair a f l cap m x upd v Q X :
    (forall Q' X', fv a f l cap ⊢ put_cont pair_at x upd a f l cap v Q' X' -∗ wp m (vo a f l cap) Q' X') ->
    fv a f l cap ⊢ put_cont (fun _ i b => PosNew i b) x upd a f l cap v Q X -∗ wp (as_pair m) (vo a f l cap) Q X.
  Proof.
    iIntros (Hm) "Hv HK". unfold as_pair. wbind. iApply (Hm with "Hv").
    iSplit; [|iDestruct "HK" as "[_ HK]"; iExact "HK"].
    iIntros (f' cap' l' i b) "%Hx Hv". wbeta. wbind. iApply wp_get. wbeta. cbn [pair_at fst snd vobj v_first].
    wbind. iApply (wp_psub _ _ (Z.of_nat i)); [done|]. wbeta. iApply wp_ret. rewrite Nat2Z.id.
    iDestruct "HK" as "[HK _]". by iApply ("HK" with "[] Hv").
  Qed.
  Lemma wp_het_pos a f l cap m x upd v Q X :
    (forall Q' X', fv a f l cap ⊢ put_cont only_at x upd a f l cap v Q' X' -∗ wp m (vo a f l cap) Q' X') ->
    fv a f l cap ⊢ put_cont (fun _ i b => Pos i) x upd a f l cap v Q X -∗ wp (as_pos m) (vo a f l cap) Q X.
  Proof.
    iIntros (Hm) "Hv HK". unfold as_pos, as_idx. wbind. wbind. iApply (Hm with "Hv").
    iSplit; [|iDestruct "HK" as "[_ HK]"; iExact "HK"].
    iIntros (f' cap' l' i b) "%Hx Hv". wbeta. iApply (ret_idx f' i); [done|done|]. iApply wp_ret.
    iDestruct "HK" as "[HK _]". by iApply ("HK" with "[] Hv").
  Qed.

  Lemma h_insert x v : hop_ok (HInsert x v).
  Proof.
    intros a f l cap Q X Hpre. cbn in Hpre. apply andb_true_iff in Hpre as [_ Hf].
    iIntros "Hv HK". start. iApply (wp_het_pair with "Hv [HK]").
    { intros Q' X'. by apply wp_het_insert. }
    iApply (put_run with "HK"); [done|done|apply untouched_len|].
    intros i b l' m n [Hp Hi] Hs. cbn [het_result]. destruct (Hi _ _ Hs) as [-> ->].
    destruct (m <? n)%nat; cbn in *; by destruct Hp as [_ ->].
  Qed.
  Lemma h_insert_hint h x v : hop_ok (HInsertHint h x v).
  Proof.
    intros a f l cap Q X Hpre. cbn in Hpre. rewrite !andb_true_iff in Hpre. destruct Hpre as [[_ Hf] Hh].
    iIntros "Hv HK". start. iApply (wp_het_pos with "Hv [HK]").
    { intros Q' X'. apply (wp_het_hinted a f l cap h x v untouched); [done|lia|]. intros. by apply wp_het_insert. }
    iApply (put_run with "HK"); [done|done|apply untouched_len|].
    intros i b l' m n [Hp Hi] Hs. cbn [het_result]. destruct (Hi _ _ Hs) as [-> ->].
    destruct (m <? n)%nat; cbn in *; by destruct Hp as [_ ->].
  Qed.
  Lemma h_assign x k d : hop_ok (HAssign x k d).
  Proof.
    intros a f l cap Q X Hpre. cbn in Hpre. rewrite !andb_true_iff in Hpre. destruct Hpre as [_ Hf].
    iIntros "Hv HK". start. iApply (wp_het_pair with "Hv [HK]").
    { intros Q' X'. by apply wp_het_assign. }
    iApply (put_run with "HK"); [done|done|apply second_len|].
    intros i b l' m n [Hp Hi] Hs. cbn [het_result]. destruct (Hi _ _ Hs) as [-> ->].
    destruct (m <? n)%nat; cbn in *.
    - destruct Hp as (_ & w & Hw & ->). by exists w.
    - by destruct Hp as [_ ->].
  Qed.
  Lemma h_assign_hint h x k d : hop_ok (HAssignHint h x k d).
  Proof.
    intros a f l cap Q X Hpre. cbn in Hpre. rewrite !andb_true_iff in Hpre. destruct Hpre as [[_ Hf] Hh].
    iIntros "Hv HK". start. iApply (wp_het_pos with "Hv [HK]").
    { intros Q' X'. apply (wp_het_hinted a f l cap h x (entry k d) (second_set d)); [done|lia|].
      intros. by apply wp_het_assign. }
    iApply (put_run with "HK"); [done|done|apply second_len|].
    intros i b l' m n [Hp Hi] Hs. cbn [het_result]. destruct (Hi _ _ Hs) as [-> ->]. split; [done|].
    destruct (m <? n)%nat; cbn in *; by destruct Hp as [_ Hp].
  Qed.
  Lemma h_index x k : hop_ok (HIndex x k).
  Proof.
    intros a f l cap Q X Hpre. cbn in Hpre. rewrite !andb_true_iff in Hpre. destruct Hpre as [_ Hf].
    iIntros "Hv HK". start. wbind. iApply (wp_het_index with "Hv"); [done|]. iSplit; last first.
    { iIntros (e l') "%Hb Hv". iDestruct "HK" as "[_ HK]". iApply ("HK" with "[] Hv"). iPureIntro.
      destruct Hb as (H1 & H2 & H3). split; [done|].
      by destruct H3 as [-> |([-> | ->] & Ha & ->)]. }
    iIntros (f' cap' l' i b w) "%Hp Hv". destruct Hp as (Hp & Hw & Hst). wbeta. iApply wp_ret.
    iDestruct "HK" as "[HK _]". iApply ("HK" with "[] Hv"). iPureIntro. split; [|done]. split.
    - cbn. eapply put_len; [apply untouched_len|done].
    - destruct Hp as [Hp Hi]. intros m n Hs. cbn [het_result]. destruct (Hi _ _ Hs) as [-> ->].
      destruct (m <? n)%nat; cbn in *.
      + destruct Hp as [_ ->]. split; [done|]. by exists w.
      + destruct Hp as [Hm ->]. split; [done|]. unfold put_at in Hw.
        rewrite list_lookup_middle in Hw; [|nlia]. injection Hw as <-. by rewrite mapped_entry.
  Qed.

  Theorem run_het_ok o : hop_ok o.
  Proof.
    destruct o; auto using h_lower, h_upper, h_equal_range, h_find, h_count, h_contains, h_erase, h_insert,
      h_insert_hint, h_assign, h_assign_hint, h_at, h_index.
  Qed.
End run.
