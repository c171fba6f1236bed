(** * [operator==] of the unordered flat containers *)

From Coq Require Import ZifyBool.
From Verif Require Export UnordProofs.
From iris.proofmode Require Import tactics.
Open Scope Z_scope.

(** ** Counting and permutations *)
Section lists.
  Context {A : Type}.
  Variable r : A -> A -> bool.
  Definition equiv2 : Prop :=
    (forall x, r x x = true) /\ (forall x y, r x y = true -> r y x = true) /\
    (forall x y z, r x y = true -> r y z = true -> r x z = true).
  Definition cnt (u : A) (l : list A) : nat := length (List.filter (fun x => r x u) l).
  Definition same_el (l l' : list A) : Prop :=
    exists l2, Permutation l l2 /\ Forall2 (fun x y => r x y = true) l2 l'.

  Lemma cnt_cons u x l : cnt u (x :: l) = ((if r x u then 1 else 0) + cnt u l)%nat.
  Proof. unfold cnt. cbn. by destruct (r x u). Qed.
  Lemma cnt_app u l l' : cnt u (l ++ l') = (cnt u l + cnt u l')%nat.
  Proof. induction l as [|x l IH]; [done|]. rewrite -app_comm_cons !cnt_cons IH. lia. Qed.
  Lemma cnt_perm u l l' : Permutation l l' -> cnt u l = cnt u l'.
  Proof. intros H. unfold cnt. by apply Permutation_length, perm_filter. Qed.
  Lemma cnt_zero u l : cnt u l = 0%nat <-> forall x, x ∈ l -> r x u = false.
  Proof.
    induction l as [|x l IH].
    - split; [|done]. intros _ x Hx. by apply elem_of_nil in Hx.
    - rewrite cnt_cons. split.
      + intros H y Hy. apply elem_of_cons in Hy as [-> |Hy].
        * by destruct (r x u).
        * apply IH; [lia|done].
      + intros H. rewrite H; [|left]. apply IH. intros y Hy. apply H. by right.
  Qed.

  Context (HR : equiv2).
  Lemma r_eq x y u : r x y = true -> r x u = r y u.
  Proof.
    intros Hxy. destruct HR as (_ & Hs & Ht). destruct (r y u) eqn:Hy.
    - by eapply Ht.
    - destruct (r x u) eqn:Hx; [|done]. rewrite -Hy. symmetry. eapply Ht; [|done]. by apply Hs.
  Qed.
  Lemma r_eq_r x y u : r x y = true -> r u x = r u y.
  Proof.
    intros Hxy. destruct HR as (_ & Hs & Ht). destruct (r u y) eqn:Hy.
    - eapply Ht; [done|]. by apply Hs.
    - destruct (r u x) eqn:Hx; [|done]. rewrite -Hy. symmetry. by eapply Ht.
  Qed.
  Lemma cnt_rel u l l' : Forall2 (fun x y => r x y = true) l l' -> cnt u l = cnt u l'.
  Proof. induction 1 as [|x y l l' H _ IH]; [done|]. by rewrite !cnt_cons IH (r_eq _ _ _ H). Qed.
  Lemma cnt_eq u u' l : r u u' = true -> cnt u l = cnt u' l.
  Proof. intros H. induction l as [|x l IH]; [done|]. by rewrite !cnt_cons IH (r_eq_r _ _ _ H). Qed.

  Lemma same_cnt l l' : same_el l l' -> length l = length l' /\ forall u, cnt u l = cnt u l'.
  Proof.
    intros (l2 & Hp & Hf). split.
    - rewrite (Permutation_length Hp). by eapply Forall2_length.
    - intros u. rewrite (cnt_perm u _ _ Hp). by apply cnt_rel.
  Qed.
  Lemma cnt_same l : forall l',
    length l = length l' -> (forall u, u ∈ l -> cnt u l = cnt u l') -> same_el l l'.
  Proof.
    induction l as [|v l IH]; intros l' Hl Hc.
    - destruct l'; [|done]. by exists [].
    - assert (Hv : (0 < cnt v l')%nat).
      { rewrite -Hc; [|left]. rewrite cnt_cons (proj1 HR). lia. }
      assert (exists a w b, l' = a ++ w :: b /\ r w v = true) as (a & w & b & -> & Hw).
      { clear -Hv. induction l' as [|w l' IH]; [cbn in Hv; lia|]. rewrite cnt_cons in Hv.
        destruct (r w v) eqn:Hw; [by exists [], w, l'|]. destruct IH as (a & w' & b & -> & H); [lia|].
        by exists (w :: a), w', b. }
      destruct (IH (a ++ b)) as (l2 & Hp & Hf).
      + revert Hl. rewrite !app_length /=. lia.
      + intros u Hu. specialize (Hc u ltac:(by right)). revert Hc.
        rewrite cnt_cons !cnt_app cnt_cons. rewrite (r_eq _ _ _ Hw). lia.
      + apply Forall2_app_inv_r in Hf as (l3 & l4 & Hf1 & Hf2 & ->).
        exists (l3 ++ v :: l4). split.
        * rewrite Hp. apply Permutation_middle.
        * apply Forall2_app; [done|]. constructor; [|done]. by apply (proj1 (proj2 HR)).
  Qed.

  (** Checking the first occurrences is enough. *)
  Definition scan_ok (l l' : list A) (i : nat) : Prop :=
    forall v, l !! i = Some v -> (forall j w, (j < i)%nat -> l !! j = Some w -> r w v = false) ->
      cnt v l' <> 0%nat /\ cnt v (drop i l) = cnt v l'.
  Lemma scan_cnt l l' :
    (forall i, (i < length l)%nat -> scan_ok l l' i) -> forall u, u ∈ l -> cnt u l = cnt u l'.
  Proof.
    intros H u Hu. apply elem_of_list_lookup in Hu as [i Hi].
    assert (exists j v, l !! j = Some v /\ r v u = true /\
              forall m w, (m < j)%nat -> l !! m = Some w -> r w v = false) as (j & v & Hj & Hv & Hno).
    { revert u Hi. induction (lt_wf i) as [i _ IH]. intros u Hi.
      destruct (decide (Exists (fun w => r w u = true) (take i l))) as [He|He].
      - apply Exists_exists in He as (w & Hw & Hr). apply elem_of_list_lookup in Hw as [m Hm].
        assert (m < i)%nat as Hmi. { apply lookup_lt_Some in Hm. rewrite take_length in Hm. lia. }
        rewrite lookup_take in Hm; [|done]. destruct (IH m Hmi w Hm) as (j & v & H1 & H2 & H3).
        exists j, v. split; [done|]. split; [|done]. by eapply (proj2 (proj2 HR)).
      - exists i, u. split; [done|]. split; [apply (proj1 HR)|]. intros m w Hm Hw.
        destruct (r w u) eqn:Hr; [|done]. exfalso. apply He, Exists_exists. exists w. split; [|done].
        apply elem_of_list_lookup. exists m. by rewrite lookup_take. }
    destruct (H j ltac:(by eapply lookup_lt_Some) v Hj Hno) as [_ Hc].
    rewrite -(cnt_eq v u l Hv) -(cnt_eq v u l' Hv) -Hc.
    rewrite -{1}(take_drop j l) cnt_app. replace (cnt v (take j l)) with 0%nat; [done|]. symmetry.
    apply cnt_zero. intros w Hw. apply elem_of_list_lookup in Hw as [m Hm].
    assert (m < j)%nat as Hmj. { apply lookup_lt_Some in Hm. rewrite take_length in Hm. lia. }
    rewrite lookup_take in Hm; [|done]. by eapply Hno.
  Qed.
  Lemma cnt_scan l l' :
    (forall u, cnt u l = cnt u l') -> forall i, scan_ok l l' i.
  Proof.
    intros H i v Hi Hno.
    assert (Hz : cnt v (take i l) = 0%nat).
    { apply cnt_zero. intros w Hw. apply elem_of_list_lookup in Hw as [m Hm].
      assert (m < i)%nat as Hmj. { apply lookup_lt_Some in Hm. rewrite take_length in Hm. lia. }
      rewrite lookup_take in Hm; [|done]. by eapply Hno. }
    assert (Heq : cnt v (drop i l) = cnt v l').
    { rewrite -H -{2}(take_drop i l) cnt_app. lia. }
    split; [|done]. rewrite -Heq (drop_S l v i Hi) cnt_cons (proj1 HR). lia.
  Qed.

  (** After a common prefix. *)
  Lemma prefix_same p p' l l' :
    Forall2 (fun x y => r x y = true) p p' -> length l = length l' ->
    same_el (p ++ l) (p' ++ l') <-> forall i, (i < length l)%nat -> scan_ok l l' i.
  Proof.
    intros Hp Hl. split.
    - intros Hs i _. apply same_cnt in Hs as [_ Hs]. apply cnt_scan. intros u. specialize (Hs u).
      revert Hs. rewrite !cnt_app (cnt_rel _ _ _ Hp). lia.
    - intros Hs. destruct (cnt_same l l' Hl (scan_cnt _ _ Hs)) as (l2 & H1 & H2).
      exists (p ++ l2). split; [by apply Permutation_app_head|by apply Forall2_app].
  Qed.
End lists.

(** ** The loops *)
Section perm.
  Context `{E : Env}.
  Context {St : Type}.
  Variable r : V -> V -> bool.

  (** A resource that contains an element. *)
  Definition gives (P : hProp) (x : loc) (v : V) : Prop := P ⊢ x ↦ Live v ∗ (x ↦ Live v -∗ P).
  Lemma gives_elems f l i v : l !! i = Some v -> gives (elems f l) (f +ₗ Z.of_nat i) v.
  Proof.
    iIntros (Hi) "Hl". iDestruct (elems_acc _ _ i with "Hl") as "[$ Hl]"; [done|]. iIntros "Hd".
    iSpecialize ("Hl" with "Hd"). by rewrite list_insert_id.
  Qed.
  Lemma gives_l P R x v : gives P x v -> gives (P ∗ R)%I x v.
  Proof. iIntros (H) "[HP $]". by iApply H. Qed.
  Lemma gives_r P R x v : gives R x v -> gives (P ∗ R)%I x v.
  Proof. iIntros (H) "[$ HP]". by iApply H. Qed.

  Lemma wp_test2_gives P x y v w (s : St) Q X :
    gives P x v -> gives P y w ->
    P ⊢ ((P -∗ Q (r v w) s) ∧ (P -∗ X EUser s)) -∗ wp (test2_ r x y) s Q X.
  Proof.
    iIntros (Hx Hy) "HP HK". unfold test2_. wbind. iDestruct (Hx with "HP") as "[Hd HP]".
    iApply (wp_read with "Hd"). iIntros "Hd". iSpecialize ("HP" with "Hd"). wbeta. wbind.
    iDestruct (Hy with "HP") as "[Hd HP]".
    iApply (wp_read with "Hd"). iIntros "Hd". iSpecialize ("HP" with "Hd"). wbeta. wbind.
    iApply wp_step; [done|]. iSplit.
    - iApply wp_ret. iDestruct "HK" as "[HK _]". by iApply "HK".
    - iDestruct "HK" as "[_ HK]". by iApply "HK".
  Qed.

  Lemma wp_pfind P scan v (s : St) Q X l : forall x,
    (forall i w, l !! i = Some w -> gives P (x +ₗ Z.of_nat i) w) -> gives P scan v ->
    P ⊢
    ((∀ k, ⟦(k <= length l)%nat /\ (k = length l <-> forall i w, l !! i = Some w -> r w v = false)⟧ -∗ P -∗ Q k s) ∧
     (P -∗ X EUser s)) -∗
    wp (pfind r scan x (length l)) s Q X.
  Proof.
    induction l as [|u l IH] in Q |- *; iIntros (x Hl Hs) "HP HK"; cbn [pfind length].
    - iApply wp_ret. iDestruct "HK" as "[HK _]". iApply ("HK" with "[] HP"). iPureIntro. split; [done|]. done.
    - wbind. unfold as_scan. pose proof (Hl 0%nat u eq_refl) as Hu. rewrite loc_add_0 in Hu.
      iApply (wp_test2_gives with "HP"); [done|done|]. iSplit; [|iDestruct "HK" as "[_ HK]"; iExact "HK"].
      iIntros "HP". wbeta. destruct (r u v) eqn:Hr.
      + iApply wp_ret. iDestruct "HK" as "[HK _]". iApply ("HK" with "[] HP"). iPureIntro.
        split; [lia|]. split; [done|]. intros H. by rewrite (H 0%nat u eq_refl) in Hr.
      + wbind. iApply (IH with "HP"); [|done|].
        { intros i w Hi. replace (x +ₗ 1 +ₗ Z.of_nat i) with (x +ₗ Z.of_nat (S i)) by loc_solve. by apply Hl. }
        iSplit; [|iDestruct "HK" as "[_ HK]"; iExact "HK"].
        iIntros (k) "%Hk HP". wbeta. iApply wp_ret. iDestruct "HK" as "[HK _]". iApply ("HK" with "[] HP").
        iPureIntro. destruct Hk as [Hk1 Hk2]. split; [lia|]. split.
        * intros Hk [|i] w Hw; [cbn in Hw; by simplify_eq|]. by eapply Hk2; [lia|].
        * intros H. f_equal. apply Hk2. intros i w Hw. by apply (H (S i)).
  Qed.
  Lemma wp_pcount P scan v (s : St) Q X l : forall x,
    (forall i w, l !! i = Some w -> gives P (x +ₗ Z.of_nat i) w) -> gives P scan v ->
    P ⊢ ((P -∗ Q (cnt r v l) s) ∧ (P -∗ X EUser s)) -∗
    wp (pcount r scan x (length l)) s Q X.
  Proof.
    induction l as [|u l IH] in Q |- *; iIntros (x Hl Hs) "HP HK"; cbn [pcount length].
    - iApply wp_ret. iDestruct "HK" as "[HK _]". by iApply "HK".
    - wbind. unfold as_scan. pose proof (Hl 0%nat u eq_refl) as Hu. rewrite loc_add_0 in Hu.
      iApply (wp_test2_gives with "HP"); [done|done|]. iSplit; [|iDestruct "HK" as "[_ HK]"; iExact "HK"].
      iIntros "HP". wbeta. wbind. iApply (IH with "HP"); [|done|].
      { intros i w Hi. replace (x +ₗ 1 +ₗ Z.of_nat i) with (x +ₗ Z.of_nat (S i)) by loc_solve. by apply Hl. }
      iSplit; [|iDestruct "HK" as "[_ HK]"; iExact "HK"].
      iIntros "HP". wbeta. iApply wp_ret. iDestruct "HK" as "[HK _]". iSpecialize ("HK" with "HP").
      rewrite cnt_cons. destruct (r u v); iExact "HK".
  Qed.
  Lemma wp_pprefix P (s : St) Q X l : forall l' x y,
    length l = length l' ->
    (forall i w, l !! i = Some w -> gives P (x +ₗ Z.of_nat i) w) ->
    (forall i w, l' !! i = Some w -> gives P (y +ₗ Z.of_nat i) w) ->
    P ⊢
    ((∀ k, ⟦(k <= length l)%nat /\ Forall2 (fun x y => r x y = true) (take k l) (take k l')⟧ -∗ P -∗ Q k s) ∧
     (P -∗ X EUser s)) -∗
    wp (pprefix r x y (length l)) s Q X.
  Proof.
    induction l as [|u l IH] in Q |- *; iIntros (l' x y Hlen Hl Hl') "HP HK"; cbn [pprefix length].
    - iApply wp_ret. iDestruct "HK" as "[HK _]". iApply ("HK" with "[] HP"). iPureIntro. split; [done|]. constructor.
    - destruct l' as [|u' l']; [done|]. wbind.
      pose proof (Hl 0%nat u eq_refl) as Hu. rewrite loc_add_0 in Hu.
      pose proof (Hl' 0%nat u' eq_refl) as Hu'. rewrite loc_add_0 in Hu'.
      iApply (wp_test2_gives with "HP"); [done|done|]. iSplit; [|iDestruct "HK" as "[_ HK]"; iExact "HK"].
      iIntros "HP". wbeta. destruct (r u u') eqn:Hr.
      + wbind. iApply (IH _ l' with "HP"); [by injection Hlen| | |].
        { intros i w Hi. replace (x +ₗ 1 +ₗ Z.of_nat i) with (x +ₗ Z.of_nat (S i)) by loc_solve. by apply Hl. }
        { intros i w Hi. replace (y +ₗ 1 +ₗ Z.of_nat i) with (y +ₗ Z.of_nat (S i)) by loc_solve. by apply Hl'. }
        iSplit; [|iDestruct "HK" as "[_ HK]"; iExact "HK"].
        iIntros (k) "%Hk HP". wbeta. iApply wp_ret. iDestruct "HK" as "[HK _]". iApply ("HK" with "[] HP").
        iPureIntro. destruct Hk as [Hk1 Hk2]. split; [lia|]. cbn. by constructor.
      + iApply wp_ret. iDestruct "HK" as "[HK _]". iApply ("HK" with "[] HP"). iPureIntro.
        split; [lia|]. constructor.
  Qed.

  Lemma wp_pscan P (s : St) Q X l l' x y m : forall i,
    (i + m = length l)%nat -> length l' = length l ->
    (forall i w, l !! i = Some w -> gives P (x +ₗ Z.of_nat i) w) ->
    (forall i w, l' !! i = Some w -> gives P (y +ₗ Z.of_nat i) w) ->
    P ⊢
    ((∀ b : bool, ⟦b = true <-> forall j, (i <= j < length l)%nat -> scan_ok r l l' j⟧ -∗ P -∗ Q b s) ∧
     (P -∗ X EUser s)) -∗
    wp (pscan r x y (length l) i m) s Q X.
  Proof.
    induction m as [|m IH]; iIntros (i Hi Hlen Hl Hl') "HP HK"; cbn [pscan].
    - iApply wp_ret. iDestruct "HK" as "[HK _]". iApply ("HK" with "[] HP"). iPureIntro.
      split; [|done]. intros _ j Hj. lia.
    - destruct (lookup_lt_is_Some_2 l i) as [v Hv]; [lia|]. wbind.
      assert (Hti : length (take i l) = i) by (rewrite take_length; lia).
      replace (pfind r (x +ₗ Z.of_nat i) x i) with (pfind (St := St) r (x +ₗ Z.of_nat i) x (length (take i l)))
        by (by rewrite Hti).
      iApply (wp_pfind _ _ v with "HP"); [|by apply Hl|].
      { intros j w Hj. apply Hl. pose proof (lookup_lt_Some _ _ _ Hj). rewrite lookup_take in Hj; [done|lia]. }
      iSplit; [|iDestruct "HK" as "[_ HK]"; iExact "HK"].
      iIntros (k) "%Hk HP". rewrite Hti in Hk. wbeta. destruct Hk as [Hk1 Hk2].
      destruct (Nat.eqb_spec k i) as [Heq|Hne].
      + assert (Hno : forall j w, (j < i)%nat -> l !! j = Some w -> r w v = false).
        { intros j w Hj Hw. apply (proj1 Hk2 Heq j). by rewrite lookup_take. }
        wbind. rewrite -Hlen. iApply (wp_pcount _ _ v with "HP"); [done|by apply Hl|].
        iSplit; [|iDestruct "HK" as "[_ HK]"; iExact "HK"].
        iIntros "HP". wbeta. rewrite Hlen. destruct (Nat.eqb_spec (cnt r v l') 0) as [Hz|Hnz].
        { iApply wp_ret. iDestruct "HK" as "[HK _]". iApply ("HK" with "[] HP"). iPureIntro. split; [done|].
          intros H. exfalso. destruct (H i ltac:(lia) v Hv Hno) as [H1 _]. done. }
        wbind.
        replace (length l - i)%nat with (length (drop i l)) by (by rewrite drop_length).
        iApply (wp_pcount _ _ v with "HP"); [|by apply Hl|].
        { intros j w Hj. rewrite lookup_drop in Hj.
          replace (x +ₗ Z.of_nat i +ₗ Z.of_nat j) with (x +ₗ Z.of_nat (i + j)) by loc_solve. by apply Hl. }
        iSplit; [|iDestruct "HK" as "[_ HK]"; iExact "HK"].
        iIntros "HP". wbeta. destruct (Nat.eqb_spec (cnt r v (drop i l)) (cnt r v l')) as [Hc|Hc].
        * iApply (IH with "HP"); [lia|done|done|done|].
          iSplit; [|iDestruct "HK" as "[_ HK]"; iExact "HK"].
          iIntros (b) "%Hb HP". iDestruct "HK" as "[HK _]". iApply ("HK" with "[] HP"). iPureIntro.
          rewrite Hb. split; intros H j Hj; [|apply H; lia].
          destruct (decide (j = i)) as [->|]; [|apply H; lia]. intros v' Hv' _. simplify_eq. done.
        * iApply wp_ret. iDestruct "HK" as "[HK _]". iApply ("HK" with "[] HP"). iPureIntro. split; [done|].
          intros H. exfalso. destruct (H i ltac:(lia) v Hv Hno) as [_ H1]. done.
      + iApply (IH with "HP"); [lia|done|done|done|].
        iSplit; [|iDestruct "HK" as "[_ HK]"; iExact "HK"].
        iIntros (b) "%Hb HP". iDestruct "HK" as "[HK _]". iApply ("HK" with "[] HP"). iPureIntro.
        rewrite Hb. split; intros H j Hj; [|apply H; lia].
        destruct (decide (j = i)) as [->|]; [|apply H; lia]. intros v' Hv' Hno. simplify_eq. exfalso.
        apply Hne, Hk2. intros j w Hw. pose proof (lookup_lt_Some _ _ _ Hw).
        rewrite lookup_take in Hw; [|lia]. eapply Hno; [|done]. lia.
  Qed.

  Lemma wp_is_permutation P (s : St) Q X l l' x y :
    length l' = length l ->
    (forall i w, l !! i = Some w -> gives P (x +ₗ Z.of_nat i) w) ->
    (forall i w, l' !! i = Some w -> gives P (y +ₗ Z.of_nat i) w) ->
    P ⊢
    ((∀ b : bool, ⟦equiv2 r -> (b = true <-> same_el r l l')⟧ -∗ P -∗ Q b s) ∧ (P -∗ X EUser s)) -∗
    wp (is_permutation_ r x y (length l)) s Q X.
  Proof.
    iIntros (Hlen Hl Hl') "HP HK". unfold is_permutation_. wbind.
    iApply (wp_pprefix with "HP"); [by symmetry|done|done|].
    iSplit; [|iDestruct "HK" as "[_ HK]"; iExact "HK"].
    iIntros (k) "%Hk HP". destruct Hk as [Hk Hp]. wbeta.
    assert (Hd : length (drop k l) = (length l - k)%nat) by (by rewrite drop_length).
    destruct (Nat.eqb_spec k (length l)) as [->|Hne].
    - iApply wp_ret. iDestruct "HK" as "[HK _]". iApply ("HK" with "[] HP"). iPureIntro. intros HR. split; [|done].
      intros _. rewrite take_ge in Hp; [|done]. rewrite take_ge in Hp; [|lia]. exists l. done.
    - rewrite -Hd. iApply (wp_pscan _ _ _ _ (drop k l) (drop k l') with "HP"); [done|rewrite !drop_length; lia| | |].
      { intros j w Hj. rewrite lookup_drop in Hj.
        replace (x +ₗ Z.of_nat k +ₗ Z.of_nat j) with (x +ₗ Z.of_nat (k + j)) by loc_solve. by apply Hl. }
      { intros j w Hj. rewrite lookup_drop in Hj.
        replace (y +ₗ Z.of_nat k +ₗ Z.of_nat j) with (y +ₗ Z.of_nat (k + j)) by loc_solve. by apply Hl'. }
      iSplit; [|iDestruct "HK" as "[_ HK]"; iExact "HK"].
      iIntros (b) "%Hb HP". iDestruct "HK" as "[HK _]". iApply ("HK" with "[] HP"). iPureIntro. intros HR.
      assert (Hdl : length (drop k l) = length (drop k l')) by (rewrite !drop_length; lia).
      pose proof (prefix_same r HR _ _ _ _ Hp Hdl) as Hs. rewrite !take_drop in Hs. rewrite Hb Hs.
      split; intros H j Hj; apply H; lia.
  Qed.
End perm.

Section eq.
  Context `{KD : Keyed}.
  Lemma wp_perm_eq r a1 f1 l1 c1 a2 f2 l2 c2 Q X :
    body f1 l1 c1 ⊢ body f2 l2 c2 -∗
    ((∀ b : bool, ⟦equiv2 r -> (b = true <-> same_elements r l1 l2)⟧ -∗
        body f1 l1 c1 -∗ body f2 l2 c2 -∗
        Q b (vobj a1 f1 (length l1) c1, vobj a2 f2 (length l2) c2)) ∧
     (body f1 l1 c1 -∗ body f2 l2 c2 -∗
        X EUser (vobj a1 f1 (length l1) c1, vobj a2 f2 (length l2) c2))) -∗
    wp (perm_eq_ r) (vobj a1 f1 (length l1) c1, vobj a2 f2 (length l2) c2) Q X.
  Proof.
    iIntros "(%Hc1 & H1 & Hr1) (%Hc2 & H2 & Hr2) HK". unfold perm_eq_. wbind. iApply wp_on1.
    iApply wp_size. wbind. iApply wp_on2. iApply wp_size. wbind. iApply wp_get. wbeta.
    destruct (Z.eqb_spec (Z.of_nat (length l1)) (Z.of_nat (length l2))) as [Heq|Hne].
    - rewrite Nat2Z.id. cbn [fst snd vobj v_first].
      iApply (wp_is_permutation r (elems f1 l1 ∗ elems f2 l2)%I _ _ _ l1 l2 with "[$H1 $H2]"); [lia| | |].
      { intros i w Hw. by apply gives_l, gives_elems. }
      { intros i w Hw. by apply gives_r, gives_elems. }
      iSplit.
      + iIntros (b) "%Hb [H1 H2]". iDestruct "HK" as "[HK _]". iApply ("HK" with "[] [H1 Hr1] [H2 Hr2]").
        * done.
        * by iApply (body_intro with "H1 Hr1").
        * by iApply (body_intro with "H2 Hr2").
      + iIntros "[H1 H2]". iDestruct "HK" as "[_ HK]". iApply ("HK" with "[H1 Hr1] [H2 Hr2]").
        * by iApply (body_intro with "H1 Hr1").
        * by iApply (body_intro with "H2 Hr2").
    - iApply wp_ret. iDestruct "HK" as "[HK _]". iApply ("HK" with "[] [H1 Hr1] [H2 Hr2]").
      + iPureIntro. intros HR. split; [done|]. intros (l & Hp & HF). apply Forall2_length in HF.
        apply Permutation_length in Hp. lia.
      + by iApply (body_intro with "H1 Hr1").
      + by iApply (body_intro with "H2 Hr2").
  Qed.
End eq.
