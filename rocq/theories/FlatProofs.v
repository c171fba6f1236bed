(** * Specifications of the functions of the ordered flat containers *)

From Coq Require Import ZifyBool.
From Verif Require Export FlatExact.
From iris.proofmode Require Import tactics.
Open Scope Z_scope.

Section lookup.
  Context `{KD : Keyed}.
  Variable c : Cmp.
  Notation lt := (less c).

  Lemma wp_test_at {St} p f l i v (s : St) Q X :
    l !! i = Some v ->
    elems f l ⊢ ((elems f l -∗ Q (p v) s) ∧ (elems f l -∗ X EUser s)) -∗
    wp (test_ p (f +ₗ Z.of_nat i)) s Q X.
  Proof.
    iIntros (Hi) "Hl HK". iDestruct (elems_acc _ _ i with "Hl") as "[Hd Hcl]"; [done|].
    iApply (wp_test with "Hd"). iSplit; iIntros "Hd"; iSpecialize ("Hcl" with "Hd");
      rewrite (list_insert_id l i v Hi).
    - iDestruct "HK" as "[HK _]". by iApply "HK".
    - iDestruct "HK" as "[_ HK]". by iApply "HK".
  Qed.

  Lemma wp_full_range a f n cap (Q : nat -> vdata -> hProp) X :
    Q n (vobj a f n cap) ⊢
    wp (range_len (v_first (vobj a f n cap)) (v_last (vobj a f n cap))) (vobj a f n cap) Q X.
  Proof.
    iIntros "H". iApply wp_range_len; [done|simpl; lia|]. simpl.
    by replace (Z.to_nat (f.2 + Z.of_nat n - f.2)) with n by lia.
  Qed.

  Lemma wp_bound_loop p f l s Q X fuel : forall n0 len,
    (n0 + len <= length l)%nat -> (len <= fuel)%nat ->
    elems f l ⊢
    ((∀ i, ⟦(n0 <= i <= n0 + len)%nat /\
            forall m, parted p l m -> (n0 <= m <= n0 + len)%nat -> i = m⟧ -∗
        elems f l -∗ Q (f +ₗ Z.of_nat i) s) ∧ (elems f l -∗ X EUser s)) -∗
    wp (bound_loop p fuel (f +ₗ Z.of_nat n0) len) s Q X.
  Proof.
    induction fuel as [|fuel IH]; intros n0 len Hn Hf.
    - iIntros "Hl HK". cbn [bound_loop]. iApply wp_ret. iDestruct "HK" as "[HK _]".
      iApply ("HK" with "[] Hl"). iPureIntro. split; [lia|]. intros. lia.
    - iIntros "Hl HK". cbn [bound_loop]. destruct (Nat.eqb_spec len 0) as [->|Hne].
      { iApply wp_ret. iDestruct "HK" as "[HK _]".
        iApply ("HK" with "[] Hl"). iPureIntro. split; [lia|]. intros. lia. }
      pose proof (Nat.lt_div2 len ltac:(lia)) as Hh. set (half := Nat.div2 len) in *.
      replace (f +ₗ Z.of_nat n0 +ₗ Z.of_nat half) with (f +ₗ Z.of_nat (n0 + half)) by loc_solve.
      destruct (lookup_lt_is_Some_2 l (n0 + half)) as [v Hv]; [lia|].
      wbind. iApply (wp_test_at with "Hl"); [done|]. iSplit; last first.
      { iDestruct "HK" as "[_ HK]". iExact "HK". }
      iIntros "Hl". wbeta. destruct (p v) eqn:Hp.
      + replace (f +ₗ Z.of_nat (n0 + half) +ₗ 1) with (f +ₗ Z.of_nat (S (n0 + half))) by loc_solve.
        iApply (IH with "Hl"); [lia|lia|]. iSplit; [|iDestruct "HK" as "[_ HK]"; iExact "HK"].
        iIntros (i) "%Hi Hl". iDestruct "HK" as "[HK _]". iApply ("HK" with "[] Hl"). iPureIntro.
        destruct Hi as [Hi1 Hi2]. split; [lia|]. intros m Hm Hr. apply Hi2; [done|].
        apply (proj2 Hm _ _ Hv) in Hp. lia.
      + iApply (IH with "Hl"); [lia|lia|]. iSplit; [|iDestruct "HK" as "[_ HK]"; iExact "HK"].
        iIntros (i) "%Hi Hl". iDestruct "HK" as "[HK _]". iApply ("HK" with "[] Hl"). iPureIntro.
        destruct Hi as [Hi1 Hi2]. split; [lia|]. intros m Hm Hr. apply Hi2; [done|].
        destruct (decide (n0 + half < m)%nat) as [Hlt|]; [|lia].
        apply (proj2 Hm _ _ Hv) in Hlt. congruence.
  Qed.

  Lemma wp_bound p f l n0 len s Q X :
    (n0 + len <= length l)%nat ->
    elems f l ⊢
    ((∀ i, ⟦(n0 <= i <= n0 + len)%nat /\
            forall m, parted p l m -> (n0 <= m <= n0 + len)%nat -> i = m⟧ -∗
        elems f l -∗ Q (f +ₗ Z.of_nat i) s) ∧ (elems f l -∗ X EUser s)) -∗
    wp (bound_ p (f +ₗ Z.of_nat n0) len) s Q X.
  Proof. intros. by apply wp_bound_loop. Qed.

  Lemma wp_equal_loop k f l s Q X fuel : forall n0 len,
    (n0 + len <= length l)%nat -> (len <= fuel)%nat ->
    elems f l ⊢
    ((∀ i j, ⟦(n0 <= i)%nat /\ (i <= j <= n0 + len)%nat /\
              forall m n, parted (goes_before lt k) l m -> parted (not_behind lt k) l n ->
                (n0 <= m <= n)%nat -> (n <= n0 + len)%nat -> i = m /\ j = n⟧ -∗
        elems f l -∗ Q (f +ₗ Z.of_nat i, f +ₗ Z.of_nat j) s) ∧ (elems f l -∗ X EUser s)) -∗
    wp (equal_loop lt k fuel (f +ₗ Z.of_nat n0) len) s Q X.
  Proof.
    induction fuel as [|fuel IH]; intros n0 len Hn Hf.
    - iIntros "Hl HK". cbn [equal_loop]. iApply wp_ret. iDestruct "HK" as "[HK _]".
      iApply ("HK" with "[] Hl"). iPureIntro. split; [lia|]. split; [lia|]. intros. lia.
    - iIntros "Hl HK". cbn [equal_loop]. destruct (Nat.eqb_spec len 0) as [->|Hne].
      { iApply wp_ret. iDestruct "HK" as "[HK _]".
        iApply ("HK" with "[] Hl"). iPureIntro. split; [lia|]. split; [lia|]. intros. lia. }
      pose proof (Nat.lt_div2 len ltac:(lia)) as Hh. set (half := Nat.div2 len) in *.
      replace (f +ₗ Z.of_nat n0 +ₗ Z.of_nat half) with (f +ₗ Z.of_nat (n0 + half)) by loc_solve.
      destruct (lookup_lt_is_Some_2 l (n0 + half)) as [v Hv]; [lia|].
      wbind. iApply (wp_test_at with "Hl"); [done|]. iSplit; last first.
      { iDestruct "HK" as "[_ HK]". iExact "HK". }
      iIntros "Hl". wbeta.
      replace (f +ₗ Z.of_nat (n0 + half) +ₗ 1) with (f +ₗ Z.of_nat (S (n0 + half))) by loc_solve.
      destruct (goes_before lt k v) eqn:Hp.
      { iApply (IH with "Hl"); [lia|lia|]. iSplit; [|iDestruct "HK" as "[_ HK]"; iExact "HK"].
        iIntros (i j) "%Hi Hl". iDestruct "HK" as "[HK _]". iApply ("HK" with "[] Hl"). iPureIntro.
        destruct Hi as (Hi1 & Hi2 & Hi3). split; [lia|]. split; [lia|]. intros m n Hm Hn' Hr1 Hr2.
        apply Hi3; [done|done| |lia]. apply (proj2 Hm _ _ Hv) in Hp. lia. }
      wbind. iApply (wp_test_at with "Hl"); [done|]. iSplit; last first.
      { iDestruct "HK" as "[_ HK]". iExact "HK". }
      iIntros "Hl". wbeta. destruct (not_behind lt k v) eqn:Hq; cbn [negb].
      + wbind. iApply (wp_bound with "Hl"); [lia|]. iSplit; [|iDestruct "HK" as "[_ HK]"; iExact "HK"].
        iIntros (i) "%Hi Hl". wbeta. wbind. iApply (wp_bound with "Hl"); [lia|].
        iSplit; [|iDestruct "HK" as "[_ HK]"; iExact "HK"].
        iIntros (j) "%Hj Hl". wbeta. iApply wp_ret. iDestruct "HK" as "[HK _]".
        iApply ("HK" with "[] Hl"). iPureIntro. destruct Hi as [Hi1 Hi2], Hj as [Hj1 Hj2].
        split; [lia|]. split; [lia|]. intros m n Hm Hn' Hr1 Hr2. split.
        * apply Hi2; [done|]. destruct (decide (n0 + half < m)%nat) as [Hlt|]; [|lia].
          apply (proj2 Hm _ _ Hv) in Hlt. congruence.
        * apply Hj2; [done|]. apply (proj2 Hn' _ _ Hv) in Hq. lia.
      + iApply (IH with "Hl"); [lia|lia|]. iSplit; [|iDestruct "HK" as "[_ HK]"; iExact "HK"].
        iIntros (i j) "%Hi Hl". iDestruct "HK" as "[HK _]". iApply ("HK" with "[] Hl"). iPureIntro.
        destruct Hi as (Hi1 & Hi2 & Hi3). split; [lia|]. split; [lia|]. intros m n Hm Hn' Hr1 Hr2.
        apply Hi3; [done|done|lia|].
        destruct (decide (n0 + half < n)%nat) as [Hlt|]; [|lia].
        apply (proj2 Hn' _ _ Hv) in Hlt. congruence.
  Qed.

  Lemma wp_lower k a f l cap Q X :
    elems f l ⊢
    ((∀ i, ⟦(i <= length l)%nat /\ forall m, lower_pos c l k m -> i = m⟧ -∗
        elems f l -∗ Q (f +ₗ Z.of_nat i) (vobj a f (length l) cap)) ∧
     (elems f l -∗ X EUser (vobj a f (length l) cap))) -∗
    wp (lower_ lt k) (vobj a f (length l) cap) Q X.
  Proof.
    iIntros "Hl HK". unfold lower_. wbind. iApply wp_get. wbeta. wbind.
    iApply wp_full_range. wbeta. cbn [vobj v_first].
    iDestruct (wp_bound (goes_before lt k) f l 0 (length l) with "Hl") as "H"; [lia|].
    rewrite loc_add_0. iApply "H". iSplit; [|iDestruct "HK" as "[_ HK]"; iExact "HK"].
    iIntros (i) "%Hi Hl". iDestruct "HK" as "[HK _]". iApply ("HK" with "[] Hl"). iPureIntro.
    destruct Hi as [Hi1 Hi2]. split; [lia|]. intros m Hm. apply Hi2; [done|]. destruct Hm. lia.
  Qed.
  Lemma wp_upper k a f l cap Q X :
    elems f l ⊢
    ((∀ i, ⟦(i <= length l)%nat /\ forall m, upper_pos c l k m -> i = m⟧ -∗
        elems f l -∗ Q (f +ₗ Z.of_nat i) (vobj a f (length l) cap)) ∧
     (elems f l -∗ X EUser (vobj a f (length l) cap))) -∗
    wp (upper_ lt k) (vobj a f (length l) cap) Q X.
  Proof.
    iIntros "Hl HK". unfold upper_. wbind. iApply wp_get. wbeta. wbind.
    iApply wp_full_range. wbeta. cbn [vobj v_first].
    iDestruct (wp_bound (not_behind lt k) f l 0 (length l) with "Hl") as "H"; [lia|].
    rewrite loc_add_0. iApply "H". iSplit; [|iDestruct "HK" as "[_ HK]"; iExact "HK"].
    iIntros (i) "%Hi Hl". iDestruct "HK" as "[HK _]". iApply ("HK" with "[] Hl"). iPureIntro.
    destruct Hi as [Hi1 Hi2]. split; [lia|]. intros m Hm. apply Hi2; [by apply upper_parted|].
    destruct Hm. lia.
  Qed.
  Lemma wp_equal_range k a f l cap Q X :
    elems f l ⊢
    ((∀ i j, ⟦(i <= j <= length l)%nat /\
              forall m n, strict_weak lt -> lower_pos c l k m -> upper_pos c l k n -> i = m /\ j = n⟧ -∗
        elems f l -∗ Q (f +ₗ Z.of_nat i, f +ₗ Z.of_nat j) (vobj a f (length l) cap)) ∧
     (elems f l -∗ X EUser (vobj a f (length l) cap))) -∗
    wp (equal_range_ lt k) (vobj a f (length l) cap) Q X.
  Proof.
    iIntros "Hl HK". unfold equal_range_. wbind. iApply wp_get. wbeta. wbind.
    iApply wp_full_range. wbeta. cbn [vobj v_first].
    iPoseProof (wp_equal_loop k f l (vobj a f (length l) cap) Q X (length l) 0 (length l) with "Hl") as "H";
      [lia|lia|].
    rewrite loc_add_0. iApply "H". iSplit; [|iDestruct "HK" as "[_ HK]"; iExact "HK"].
    iIntros (i j) "%Hi Hl". iDestruct "HK" as "[HK _]". iApply ("HK" with "[] Hl"). iPureIntro.
    destruct Hi as (Hi1 & Hi2 & Hi3). split; [lia|]. intros m n Hr Hm Hn.
    pose proof (lower_le_upper c k l m n Hr Hm Hn).
    apply Hi3; [done|by apply upper_parted|lia|]. destruct Hn. lia.
  Qed.

  (** [find]: [i] is the position of the key or the end. *)
  Definition find_post (l : list V) (k : Key) (i : nat) : Prop :=
    (i <= length l)%nat /\
    forall m, lower_pos c l k m ->
      (i = m /\ exists w, l !! i = Some w /\ lt k (key w) = false) \/
      (i = length l /\ forall w, l !! m = Some w -> lt k (key w) = true).
  Lemma wp_find k a f l cap Q X :
    elems f l ⊢
    ((∀ i, ⟦find_post l k i⟧ -∗ elems f l -∗ Q (f +ₗ Z.of_nat i) (vobj a f (length l) cap)) ∧
     (elems f l -∗ X EUser (vobj a f (length l) cap))) -∗
    wp (find_ lt k) (vobj a f (length l) cap) Q X.
  Proof.
    iIntros "Hl HK". unfold find_. wbind. iApply (wp_lower with "Hl").
    iSplit; [|iDestruct "HK" as "[_ HK]"; iExact "HK"].
    iIntros (i) "%Hi Hl". wbeta. wbind. iApply wp_get. wbeta. cbn [vobj v_last].
    rewrite loc_eqb_add. destruct Hi as [Hi1 Hi2].
    destruct (Z.eqb_spec (Z.of_nat i) (Z.of_nat (length l))) as [Heq|Hne].
    - assert (i = length l) as -> by lia. iApply wp_ret. iDestruct "HK" as "[HK _]".
      iApply ("HK" with "[] Hl"). iPureIntro. split; [done|]. intros m Hm. right.
      split; [done|]. intros w Hw. rewrite -(Hi2 m Hm) in Hw. apply lookup_lt_Some in Hw. lia.
    - destruct (lookup_lt_is_Some_2 l i) as [v Hv]; [lia|].
      wbind. iApply (wp_test_at with "Hl"); [done|]. iSplit; last first.
      { iDestruct "HK" as "[_ HK]". iExact "HK". }
      iIntros "Hl". wbeta. iDestruct "HK" as "[HK _]". destruct (lt k (key v)) eqn:Hlt.
      + iApply wp_ret. iApply ("HK" with "[] Hl"). iPureIntro. split; [lia|].
        intros m Hm. right. split; [done|]. intros w Hw. rewrite -(Hi2 m Hm) Hv in Hw.
        by injection Hw as <-.
      + iApply wp_ret. iApply ("HK" with "[] Hl"). iPureIntro. split; [lia|].
        intros m Hm. left. split; [by apply Hi2|]. by exists v.
  Qed.

  (** In an ordered container. *)
  Lemma find_post_ok kd l k i :
    strict_weak lt -> ordered kd c l -> find_post l k i ->
    (found c l k i /\ forall j, found c l k j -> (i <= j)%nat) \/ (i = length l /\ absent c l k).
  Proof.
    intros Hr Ho [Hi Hp]. destruct (lower_exists kd c k l Hr Ho) as [m Hm].
    destruct (Hp m Hm) as [(<- & w & Hw & Hlt)|[-> Hlt]].
    - left. split; [by eapply lower_found|]. intros j. by apply lower_first.
    - right. split; [done|]. by eapply lower_absent.
  Qed.
  Lemma find_post_in kd l k i :
    strict_weak lt -> ordered kd c l -> find_post l k i -> (i < length l)%nat ->
    found c l k i /\ forall j, found c l k j -> (i <= j)%nat.
  Proof. intros Hr Ho Hp Hi. destruct (find_post_ok kd l k i Hr Ho Hp) as [|[]]; [done|lia]. Qed.
  Lemma find_post_end kd l k :
    strict_weak lt -> ordered kd c l -> find_post l k (length l) -> absent c l k.
  Proof.
    intros Hr Ho Hp. destruct (find_post_ok kd l k _ Hr Ho Hp) as [[(w & Hw & _) _]|[]]; [|done].
    apply lookup_lt_Some in Hw. lia.
  Qed.
End lookup.

Lemma multi_or kd : multi kd = true \/ multi kd = false.
Proof. destruct (multi kd); auto. Qed.

Section insert.
  Context `{KD : Keyed}.
  Variable c : Cmp.
  Variable kd : fkind.
  Notation lt := (less c).
  Context (exact : loc -> arg -> M vdata loc) (room : M vdata unit)
    (fv : nat -> loc -> list V -> Z -> hProp) (alloc robust : bool) (fits : nat -> bool)
    (EX : exact_ok exact room fv (multi kd) alloc robust fits).

  Lemma fv_len a f l cap : fv a f l cap ⊢ ⟦Z.of_nat (length l) <= cap⟧ ∗ fv a f l cap.
  Proof.
    iIntros "Hv". iDestruct (ex_body _ _ _ _ _ _ _ EX with "Hv") as "[(%Hl & Hb & Hr) Hcl]".
    iSplit; [done|]. iApply "Hcl". unfold body. by iFrame.
  Qed.
  Lemma fv_elems a f l cap : fv a f l cap ⊢ elems f l ∗ (elems f l -∗ fv a f l cap).
  Proof.
    iIntros "Hv". iDestruct (ex_body _ _ _ _ _ _ _ EX with "Hv") as "[(%Hl & Hb & Hr) Hcl]".
    iFrame "Hb". iIntros "Hb". iApply "Hcl". unfold body. by iFrame.
  Qed.
  Lemma fv_put a f l cap : fv a f l cap ⊢
    elems f l ∗ (∀ l', ⟦length l' = length l⟧ -∗ elems f l' -∗ fv a f l' cap).
  Proof.
    iIntros "Hv". iDestruct (ex_body _ _ _ _ _ _ _ EX with "Hv") as "[(%Hl & Hb & Hr) Hcl]".
    iFrame "Hb". iIntros (l' Hl') "Hb". iApply "Hcl". unfold body. rewrite Hl'. by iFrame.
  Qed.

  (** ** Inserting one element *)

  (** The value [v] has been inserted (or was there). *)
  Definition ins_ok (f : loc) (cap : Z) (v : V) (l : list V) (f' : loc) (cap' : Z)
      (l' : list V) (i : nat) (b : bool) : Prop :=
    (length l <= length l' <= S (length l))%nat /\ (i < length l')%nat /\
    stays (S (length l)) f cap f' cap' /\
    (strict_weak lt -> ordered kd c l -> inserted kd c v l i b l').
  Definition ins_bad (v : V) (l : list V) (e : exn) (l' : list V) : Prop :=
    (length l <= length l' <= S (length l))%nat /\
    (strict_weak lt -> ordered kd c l -> robust = true ->
     (forall j w, l !! j = Some w -> lt (key w) (key v) = true) -> l' = l) /\
    (e = EUser \/ ((e = ELength \/ e = EBadAlloc) /\ alloc = true /\ l' = l)).

  Lemma ins_bad_same v l : ins_bad v l EUser l.
  Proof. split; [lia|]. split; [done|by left]. Qed.

  (** Insertion at a position where the key belongs. *)
  Lemma wp_exact_gap a f l cap i ar v Q X :
    (i <= length l)%nat -> fits (S (length l)) = true -> arg_rel f l ar v l -> ~ is_move ar ->
    (strict_weak lt -> ordered kd c l -> gap kd c l (key v) i) ->
    fv a f l cap ⊢
    ((∀ f' cap' l', ⟦ins_ok f cap v l f' cap' l' i true⟧ -∗ fv a f' l' cap' -∗
        Q (f' +ₗ Z.of_nat i) (vobj a f' (length l') cap')) ∧
     (∀ e l', ⟦ins_bad v l e l'⟧ -∗ fv a f l' cap -∗ X e (vobj a f (length l') cap))) -∗
    wp (exact (f +ₗ Z.of_nat i) ar) (vobj a f (length l) cap) Q X.
  Proof.
    iIntros (Hi Hf Har Hm Hg) "Hv HK".
    iApply (ex_at _ _ _ _ _ _ _ EX with "Hv"); [done|done|done|done|]. iSplit.
    - iIntros (f' cap' l') "%Hl' Hv". destruct Hl' as (Hlen & Hl' & Hst).
      iDestruct "HK" as "[HK _]". rewrite -Hlen. iApply ("HK" with "[] Hv"). iPureIntro.
      split; [lia|]. split; [lia|]. split; [done|]. intros Hr Ho. specialize (Hg Hr Ho).
      rewrite Hl'; [by apply inserted_gap|].
      destruct (multi kd) eqn:Hmu; [by left|]. right.
      destruct (gap_insert kd c l v i Hr Ho Hg) as [_ Hab]. specialize (Hab Hmu).
      destruct Har as [|w|j w Hj|j w Hj]; [done|done| |done]. exfalso. apply (Hab j).
      exists w. split; [done|]. split; by apply sw_irrefl.
    - iIntros (e l' n') "%Hx Hv". destruct Hx as (-> & Hx1 & Hx2 & Hx3).
      iDestruct "HK" as "[_ HK]". iApply ("HK" with "[] Hv"). iPureIntro.
      split; [done|]. split; [|done]. intros Hr Ho Hrob Hall. apply Hx2; [|done].
      destruct (Hg Hr Ho) as (_ & _ & Hhi).
      destruct (decide (i = length l)) as [|Hne]; [done|]. exfalso.
      destruct (lookup_lt_is_Some_2 l i) as [w Hw]; [lia|].
      specialize (Hhi w Hw). specialize (Hall i w Hw). unfold in_order in Hhi.
      destruct (multi kd); [congruence|]. pose proof (sw_asym lt Hr _ _ Hall). congruence.
  Qed.

  Lemma wp_arg_key {f l ar v} a cap Q X :
    arg_rel f l ar v l -> ~ is_move ar ->
    elems f l ⊢ (elems f l -∗ Q (key v) (vobj a f (length l) cap)) -∗
    wp (arg_key ar) (vobj a f (length l) cap) Q X.
  Proof.
    iIntros (Har Hm) "Hl HK".
    assert (Hread : forall i w, l !! i = Some w ->
      elems f l ⊢ (elems f l -∗ Q (key w) (vobj a f (length l) cap)) -∗
      wp (v <- read (f +ₗ Z.of_nat i);; ret (key v))%prog (vobj a f (length l) cap) Q X).
    { iIntros (i w Hi) "Hl HK". iDestruct (elems_acc _ _ i with "Hl") as "[Hd Hcl]"; [done|]. wbind.
      iApply (wp_read with "Hd"). iIntros "Hd". iSpecialize ("Hcl" with "Hd").
      rewrite (list_insert_id l i w Hi). iApply wp_ret. by iApply "HK". }
    inversion Har; subst; cbn [arg_key]; try (iApply wp_ret; by iApply "HK").
    - by iApply (Hread with "Hl").
    - by exfalso; apply Hm.
  Qed.

  Lemma wp_is_new k a f l cap i Q X :
    (i <= length l)%nat ->
    elems f l ⊢
    ((∀ b : bool, ⟦if b then forall w, l !! i = Some w -> lt k (key w) = true
            else exists w, l !! i = Some w /\ lt k (key w) = false⟧ -∗
        elems f l -∗ Q b (vobj a f (length l) cap)) ∧
     (elems f l -∗ X EUser (vobj a f (length l) cap))) -∗
    wp (is_new lt k (f +ₗ Z.of_nat i)) (vobj a f (length l) cap) Q X.
  Proof.
    iIntros (Hi) "Hl HK". unfold is_new. wbind. iApply wp_get. wbeta. cbn [vobj v_last].
    rewrite loc_eqb_add. destruct (Z.eqb_spec (Z.of_nat i) (Z.of_nat (length l))) as [Heq|Hne].
    - iApply wp_ret. iDestruct "HK" as "[HK _]". iApply ("HK" with "[] Hl"). iPureIntro.
      intros w Hw. apply lookup_lt_Some in Hw. lia.
    - destruct (lookup_lt_is_Some_2 l i) as [v Hv]; [lia|].
      iApply (wp_test_at with "Hl"); [done|]. iSplit; last first.
      { iDestruct "HK" as "[_ HK]". iExact "HK". }
      iIntros "Hl". iDestruct "HK" as "[HK _]". iApply ("HK" with "[] Hl"). iPureIntro.
      destruct (lt k (key v)) eqn:Hlt; [|by exists v]. intros w Hw. by simplify_eq.
  Qed.

  (** Finding the position of a new key, or the element that has it (not for the
      multi variants). *)
  Definition place_post (l : list V) (k : Key) (i : nat) (b : bool) : Prop :=
    (i <= length l)%nat /\
    if b then strict_weak lt -> ordered kd c l -> gap kd c l k i
    else (i < length l)%nat /\ multi kd = false /\ (strict_weak lt -> ordered kd c l -> found c l k i).
  Lemma wp_where k a f l cap (m : loc -> bool -> M vdata (loc * bool)) Q X :
    multi kd = false ->
    elems f l ⊢
    ((∀ i b, ⟦place_post l k i b⟧ -∗ elems f l -∗
        wp (m (f +ₗ Z.of_nat i) b) (vobj a f (length l) cap) Q X) ∧
     (elems f l -∗ X EUser (vobj a f (length l) cap))) -∗
    wp (it <- lower_ lt k;; b <- is_new lt k it;; m it b)%prog (vobj a f (length l) cap) Q X.
  Proof.
    iIntros (Hmu) "Hl HK". wbind. iApply (wp_lower with "Hl").
    iSplit; [|iDestruct "HK" as "[_ HK]"; iExact "HK"].
    iIntros (i) "%Hi Hl". destruct Hi as [Hi1 Hi2]. wbeta. wbind.
    iApply (wp_is_new with "Hl"); [done|]. iSplit; [|iDestruct "HK" as "[_ HK]"; iExact "HK"].
    iIntros (b) "%Hb Hl". wbeta. iDestruct "HK" as "[HK _]". iApply ("HK" with "[] Hl"). iPureIntro.
    split; [done|]. destruct b.
    - intros Hr Ho. destruct (lower_exists kd c k l Hr Ho) as [m' Hm']. rewrite (Hi2 m' Hm') in Hb |- *.
      by apply lower_gap_unique.
    - destruct Hb as (w & Hw & Hlt). split; [by apply lookup_lt_Some in Hw|]. split; [done|].
      intros Hr Ho. destruct (lower_exists kd c k l Hr Ho) as [m' Hm'].
      rewrite (Hi2 m' Hm') in Hw |- *. by eapply lower_found.
  Qed.

  Lemma ins_ok_old f cap v l i :
    place_post l (key v) i false -> ins_ok f cap v l f cap l i false.
  Proof.
    intros (H1 & H2 & H3 & H4). split; [lia|]. split; [done|]. split; [apply stays_refl|].
    intros Hr Ho. left. split; [done|]. split; [done|]. split; [by apply H4|done].
  Qed.

  Lemma wp_insert_aux a f l cap ar v Q X :
    fits (S (length l)) = true -> arg_rel f l ar v l -> ~ is_move ar ->
    fv a f l cap ⊢
    ((∀ f' cap' l' i b, ⟦ins_ok f cap v l f' cap' l' i b⟧ -∗ fv a f' l' cap' -∗
        Q (f' +ₗ Z.of_nat i, b) (vobj a f' (length l') cap')) ∧
     (∀ e l', ⟦ins_bad v l e l'⟧ -∗ fv a f l' cap -∗ X e (vobj a f (length l') cap))) -∗
    wp (insert_aux lt kd exact ar) (vobj a f (length l) cap) Q X.
  Proof.
    iIntros (Hf Har Hm) "Hv HK". unfold insert_aux.
    iDestruct (fv_elems with "Hv") as "[Hl Hcl]". destruct (multi_or kd) as [Hmu|Hmu]; rewrite Hmu.
    - unfold insert_multi. wbind. iApply (wp_arg_key with "Hl"); [done|done|]. iIntros "Hl". wbeta. wbind.
      iApply (wp_lower with "Hl"). iSplit; last first.
      { iIntros "Hl". iSpecialize ("Hcl" with "Hl"). iDestruct "HK" as "[_ HK]".
        iApply ("HK" with "[] Hcl"). iPureIntro. apply ins_bad_same. }
      iIntros (i) "%Hi Hl". iSpecialize ("Hcl" with "Hl"). wbeta. wbind. destruct Hi as [Hi1 Hi2].
      iApply (wp_exact_gap with "Hcl"); [done|done|done|done| |].
      { intros Hr Ho. destruct (lower_exists kd c (key v) l Hr Ho) as [m Hm']. rewrite (Hi2 m Hm').
        by apply lower_gap_multi. }
      iSplit; [|iDestruct "HK" as "[_ HK]"; iExact "HK"].
      iIntros (f' cap' l') "%Hx Hv". wbeta. iApply wp_ret. iDestruct "HK" as "[HK _]".
      by iApply ("HK" with "[] Hv").
    - unfold insert_unique. wbind. iApply (wp_arg_key with "Hl"); [done|done|]. iIntros "Hl". wbeta.
      iApply (wp_where (key v) a f l cap (fun it b => if b then p <- exact it ar;; ret (p, true)
        else ret (it, false))%prog with "Hl"); [done|]. iSplit; last first.
      { iIntros "Hl". iSpecialize ("Hcl" with "Hl"). iDestruct "HK" as "[_ HK]".
        iApply ("HK" with "[] Hcl"). iPureIntro. apply ins_bad_same. }
      iIntros (i b) "%Hi Hl". iSpecialize ("Hcl" with "Hl"). destruct b.
      + wbind. destruct Hi as [Hi1 Hi2].
        iApply (wp_exact_gap with "Hcl"); [done|done|done|done|done|].
        iSplit; [|iDestruct "HK" as "[_ HK]"; iExact "HK"].
        iIntros (f' cap' l') "%Hx Hv". wbeta. iApply wp_ret. iDestruct "HK" as "[HK _]".
        by iApply ("HK" with "[] Hv").
      + iApply wp_ret. iDestruct "HK" as "[HK _]".
        iApply ("HK" with "[] Hcl"). iPureIntro. by apply ins_ok_old.
  Qed.

  (** ** Hints *)
  Lemma wp_and {f l} a cap x y (P R : Prop) Q X :
    (forall Q' X', elems f l ⊢ ((∀ b : bool, ⟦b = true -> P⟧ -∗ elems f l -∗ Q' b (vobj a f (length l) cap)) ∧
       (elems f l -∗ X' EUser (vobj a f (length l) cap))) -∗ wp x (vobj a f (length l) cap) Q' X') ->
    (forall Q' X', P -> elems f l ⊢ ((∀ b : bool, ⟦b = true -> R⟧ -∗ elems f l -∗ Q' b (vobj a f (length l) cap)) ∧
       (elems f l -∗ X' EUser (vobj a f (length l) cap))) -∗ wp y (vobj a f (length l) cap) Q' X') ->
    elems f l ⊢ ((∀ b : bool, ⟦b = true -> P /\ R⟧ -∗ elems f l -∗ Q b (vobj a f (length l) cap)) ∧
       (elems f l -∗ X EUser (vobj a f (length l) cap))) -∗ wp (and_ x y) (vobj a f (length l) cap) Q X.
  Proof.
    iIntros (Hx Hy) "Hl HK". unfold and_. wbind. iApply (Hx with "Hl").
    iSplit; [|iDestruct "HK" as "[_ HK]"; iExact "HK"]. iIntros (b) "%Hb Hl". wbeta. destruct b.
    - iApply (Hy with "Hl"); [by apply Hb|]. iSplit; [|iDestruct "HK" as "[_ HK]"; iExact "HK"].
      iIntros (b) "%Hb2 Hl". iDestruct "HK" as "[HK _]". iApply ("HK" with "[] Hl"). iPureIntro.
      intros ->. split; [by apply Hb|by apply Hb2].
    - iApply wp_ret. iDestruct "HK" as "[HK _]". by iApply ("HK" with "[] Hl").
  Qed.
  Lemma wp_or {f l} a cap x y (P R : Prop) Q X :
    (forall Q' X', elems f l ⊢ ((∀ b : bool, ⟦if b then P else ~ P⟧ -∗ elems f l -∗ Q' b (vobj a f (length l) cap)) ∧
       (elems f l -∗ X' EUser (vobj a f (length l) cap))) -∗ wp x (vobj a f (length l) cap) Q' X') ->
    (forall Q' X', ~ P -> elems f l ⊢ ((∀ b : bool, ⟦b = true -> R⟧ -∗ elems f l -∗ Q' b (vobj a f (length l) cap)) ∧
       (elems f l -∗ X' EUser (vobj a f (length l) cap))) -∗ wp y (vobj a f (length l) cap) Q' X') ->
    elems f l ⊢ ((∀ b : bool, ⟦b = true -> P \/ R⟧ -∗ elems f l -∗ Q b (vobj a f (length l) cap)) ∧
       (elems f l -∗ X EUser (vobj a f (length l) cap))) -∗ wp (or_ x y) (vobj a f (length l) cap) Q X.
  Proof.
    iIntros (Hx Hy) "Hl HK". unfold or_. wbind. iApply (Hx with "Hl").
    iSplit; [|iDestruct "HK" as "[_ HK]"; iExact "HK"]. iIntros (b) "%Hb Hl". wbeta. destruct b.
    - iApply wp_ret. iDestruct "HK" as "[HK _]". iApply ("HK" with "[] Hl"). iPureIntro. by left.
    - iApply (Hy with "Hl"); [done|]. iSplit; [|iDestruct "HK" as "[_ HK]"; iExact "HK"].
      iIntros (b) "%Hb2 Hl". iDestruct "HK" as "[HK _]". iApply ("HK" with "[] Hl"). iPureIntro.
      intros ->. right. by apply Hb2.
  Qed.
  Lemma wp_or_weak {f l} a cap x y (P R : Prop) Q X :
    (forall Q' X', elems f l ⊢ ((∀ b : bool, ⟦b = true -> P⟧ -∗ elems f l -∗ Q' b (vobj a f (length l) cap)) ∧
       (elems f l -∗ X' EUser (vobj a f (length l) cap))) -∗ wp x (vobj a f (length l) cap) Q' X') ->
    (forall Q' X', elems f l ⊢ ((∀ b : bool, ⟦b = true -> R⟧ -∗ elems f l -∗ Q' b (vobj a f (length l) cap)) ∧
       (elems f l -∗ X' EUser (vobj a f (length l) cap))) -∗ wp y (vobj a f (length l) cap) Q' X') ->
    elems f l ⊢ ((∀ b : bool, ⟦b = true -> P \/ R⟧ -∗ elems f l -∗ Q b (vobj a f (length l) cap)) ∧
       (elems f l -∗ X EUser (vobj a f (length l) cap))) -∗ wp (or_ x y) (vobj a f (length l) cap) Q X.
  Proof.
    iIntros (Hx Hy) "Hl HK". unfold or_. wbind. iApply (Hx with "Hl").
    iSplit; [|iDestruct "HK" as "[_ HK]"; iExact "HK"]. iIntros (b) "%Hb Hl". wbeta. destruct b.
    - iApply wp_ret. iDestruct "HK" as "[HK _]". iApply ("HK" with "[] Hl"). iPureIntro.
      intros _. left. by apply Hb.
    - iApply (Hy with "Hl"). iSplit; [|iDestruct "HK" as "[_ HK]"; iExact "HK"].
      iIntros (b) "%Hb2 Hl". iDestruct "HK" as "[HK _]". iApply ("HK" with "[] Hl"). iPureIntro.
      intros ->. right. by apply Hb2.
  Qed.
  Lemma wp_at_begin {f l} a cap h Q X :
    elems f l ⊢ ((∀ b : bool, ⟦if b then h = 0%nat else h <> 0%nat⟧ -∗ elems f l -∗ Q b (vobj a f (length l) cap)) ∧
       (elems f l -∗ X EUser (vobj a f (length l) cap))) -∗
    wp (at_begin (f +ₗ Z.of_nat h)) (vobj a f (length l) cap) Q X.
  Proof.
    iIntros "Hl HK". unfold at_begin. wbind. iApply wp_get. wbeta. cbn [vobj v_first].
    iApply wp_ret. iDestruct "HK" as "[HK _]". iApply ("HK" with "[] Hl"). iPureIntro.
    rewrite -{2}(loc_add_0 f) loc_eqb_add. destruct (Z.eqb_spec (Z.of_nat h) 0); lia.
  Qed.
  Lemma wp_is_end {f l} a cap h Q X :
    elems f l ⊢ ((∀ b : bool, ⟦if b then h = length l else h <> length l⟧ -∗ elems f l -∗
          Q b (vobj a f (length l) cap)) ∧
       (elems f l -∗ X EUser (vobj a f (length l) cap))) -∗
    wp (is_end (f +ₗ Z.of_nat h)) (vobj a f (length l) cap) Q X.
  Proof.
    iIntros "Hl HK". unfold is_end. wbind. iApply wp_get. wbeta. cbn [vobj v_last].
    iApply wp_ret. iDestruct "HK" as "[HK _]". iApply ("HK" with "[] Hl"). iPureIntro.
    rewrite loc_eqb_add. destruct (Z.eqb_spec (Z.of_nat h) (Z.of_nat (length l))); lia.
  Qed.

  (** The plain test shared by both variants: the key lies strictly between the
      neighbours of the hint. *)
  Definition strictly_between (l : list V) (k : Key) (h : nat) : Prop :=
    (h = 0%nat \/ exists w, l !! (h - 1)%nat = Some w /\ lt (key w) k = true) /\
    (h = length l \/ exists w, l !! h = Some w /\ lt k (key w) = true).
  Lemma wp_before_hint {f l} a cap h k Q X :
    (h <= length l)%nat -> h <> 0%nat ->
    elems f l ⊢ ((∀ b : bool, ⟦b = true -> exists w, l !! (h - 1)%nat = Some w /\ lt (key w) k = true⟧ -∗
          elems f l -∗ Q b (vobj a f (length l) cap)) ∧
       (elems f l -∗ X EUser (vobj a f (length l) cap))) -∗
    wp (before_key lt k (f +ₗ Z.of_nat h +ₗ -1)) (vobj a f (length l) cap) Q X.
  Proof.
    iIntros (Hh Hne) "Hl HK". destruct (lookup_lt_is_Some_2 l (h - 1)) as [w Hw]; [lia|].
    replace (f +ₗ Z.of_nat h +ₗ -1) with (f +ₗ Z.of_nat (h - 1)) by loc_solve.
    iApply (wp_test_at with "Hl"); [done|]. iSplit; [|iDestruct "HK" as "[_ HK]"; iExact "HK"].
    iIntros "Hl". iDestruct "HK" as "[HK _]". iApply ("HK" with "[] Hl"). iPureIntro.
    intros Hb. by exists w.
  Qed.
  Lemma wp_after_hint {f l} a cap h k Q X :
    (h <= length l)%nat -> h <> length l ->
    elems f l ⊢ ((∀ b : bool, ⟦b = true -> exists w, l !! h = Some w /\ lt k (key w) = true⟧ -∗
          elems f l -∗ Q b (vobj a f (length l) cap)) ∧
       (elems f l -∗ X EUser (vobj a f (length l) cap))) -∗
    wp (after_key lt k (f +ₗ Z.of_nat h)) (vobj a f (length l) cap) Q X.
  Proof.
    iIntros (Hh Hne) "Hl HK". destruct (lookup_lt_is_Some_2 l h) as [w Hw]; [lia|].
    iApply (wp_test_at with "Hl"); [done|]. iSplit; [|iDestruct "HK" as "[_ HK]"; iExact "HK"].
    iIntros "Hl". iDestruct "HK" as "[HK _]". iApply ("HK" with "[] Hl"). iPureIntro.
    intros Hb. by exists w.
  Qed.
  Lemma wp_hint_unique {f l} a cap h k Q X :
    (h <= length l)%nat ->
    elems f l ⊢ ((∀ b : bool, ⟦b = true -> strictly_between l k h⟧ -∗ elems f l -∗ Q b (vobj a f (length l) cap)) ∧
       (elems f l -∗ X EUser (vobj a f (length l) cap))) -∗
    wp (hint_unique lt (f +ₗ Z.of_nat h) k) (vobj a f (length l) cap) Q X.
  Proof.
    intros Hh. unfold hint_unique. apply wp_and.
    - intros Q' X'. apply wp_or; [intros; apply wp_at_begin|]. intros. by apply wp_before_hint.
    - intros Q' X' _. apply wp_or; [intros; apply wp_is_end|]. intros. by apply wp_after_hint.
  Qed.

  Lemma wp_not_test {f l} a cap p i v Q X :
    l !! i = Some v ->
    elems f l ⊢ ((∀ b : bool, ⟦b = true -> p v = false⟧ -∗ elems f l -∗ Q b (vobj a f (length l) cap)) ∧
       (elems f l -∗ X EUser (vobj a f (length l) cap))) -∗
    wp (not_ (test_ p (f +ₗ Z.of_nat i))) (vobj a f (length l) cap) Q X.
  Proof.
    iIntros (Hi) "Hl HK". unfold not_. wbind. iApply (wp_test_at with "Hl"); [done|].
    iSplit; [|iDestruct "HK" as "[_ HK]"; iExact "HK"].
    iIntros "Hl". wbeta. iApply wp_ret. iDestruct "HK" as "[HK _]". iApply ("HK" with "[] Hl"). iPureIntro.
    by destruct (p v).
  Qed.
  Lemma wp_equal_at {f l} a cap i k Q X :
    (i < length l)%nat ->
    elems f l ⊢ ((∀ b : bool, ⟦b = true -> found c l k i⟧ -∗ elems f l -∗ Q b (vobj a f (length l) cap)) ∧
       (elems f l -∗ X EUser (vobj a f (length l) cap))) -∗
    wp (equal_at lt (f +ₗ Z.of_nat i) k) (vobj a f (length l) cap) Q X.
  Proof.
    intros Hi. destruct (lookup_lt_is_Some_2 l i Hi) as [w Hw]. unfold equal_at.
    iIntros "Hl HK".
    iApply (wp_and a cap _ _ (lt (key w) k = false) (lt k (key w) = false) with "Hl").
    { intros Q' X'. by apply (wp_not_test _ _ (fun v => lt (key v) k)). }
    { intros Q' X' _. by apply (wp_not_test _ _ (fun v => lt k (key v))). }
    iSplit; [|iDestruct "HK" as "[_ HK]"; iExact "HK"]. iIntros (b) "%Hb Hl".
    iDestruct "HK" as "[HK _]". iApply ("HK" with "[] Hl"). iPureIntro. intros Hb'.
    destruct (Hb Hb'). exists w. done.
  Qed.
  Lemma wp_not_end {f l} a cap h Q X :
    elems f l ⊢ ((∀ b : bool, ⟦b = true -> h <> length l⟧ -∗ elems f l -∗ Q b (vobj a f (length l) cap)) ∧
       (elems f l -∗ X EUser (vobj a f (length l) cap))) -∗
    wp (not_ (is_end (f +ₗ Z.of_nat h))) (vobj a f (length l) cap) Q X.
  Proof.
    iIntros "Hl HK". unfold not_. wbind. iApply (wp_is_end with "Hl").
    iSplit; [|iDestruct "HK" as "[_ HK]"; iExact "HK"].
    iIntros (b) "%Hb Hl". wbeta. iApply wp_ret. iDestruct "HK" as "[HK _]".
    iApply ("HK" with "[] Hl"). iPureIntro. by destruct b.
  Qed.
  Lemma wp_not_begin {f l} a cap h Q X :
    elems f l ⊢ ((∀ b : bool, ⟦b = true -> h <> 0%nat⟧ -∗ elems f l -∗ Q b (vobj a f (length l) cap)) ∧
       (elems f l -∗ X EUser (vobj a f (length l) cap))) -∗
    wp (not_ (at_begin (f +ₗ Z.of_nat h))) (vobj a f (length l) cap) Q X.
  Proof.
    iIntros "Hl HK". unfold not_. wbind. iApply (wp_at_begin with "Hl").
    iSplit; [|iDestruct "HK" as "[_ HK]"; iExact "HK"].
    iIntros (b) "%Hb Hl". wbeta. iApply wp_ret. iDestruct "HK" as "[HK _]".
    iApply ("HK" with "[] Hl"). iPureIntro. by destruct b.
  Qed.
  Lemma wp_hint_multi {f l} a cap h k Q X :
    (h <= length l)%nat ->
    elems f l ⊢ ((∀ b : bool, ⟦b = true -> (h <> length l /\ found c l k h) \/
                        (h <> 0%nat /\ found c l k (h - 1)) \/ strictly_between l k h⟧ -∗
          elems f l -∗ Q b (vobj a f (length l) cap)) ∧
       (elems f l -∗ X EUser (vobj a f (length l) cap))) -∗
    wp (hint_multi lt (f +ₗ Z.of_nat h) k) (vobj a f (length l) cap) Q X.
  Proof.
    intros Hh. unfold hint_multi. apply wp_or_weak.
    - intros Q' X'. apply wp_and; [intros; apply wp_not_end|]. intros Q2 X2 Hne.
      apply wp_equal_at. lia.
    - intros Q' X'. apply wp_or_weak.
      + intros Q2 X2. apply wp_and; [intros; apply wp_not_begin|]. intros Q3 X3 Hne.
        replace (f +ₗ Z.of_nat h +ₗ -1) with (f +ₗ Z.of_nat (h - 1)) by loc_solve.
        apply wp_equal_at. lia.
      + intros Q2 X2. by apply wp_hint_unique.
  Qed.

  Lemma between_gap l k h :
    (h <= length l)%nat -> strict_weak lt -> strictly_between l k h -> gap kd c l k h.
  Proof.
    intros Hh Hr [H1 H2]. split; [done|]. unfold in_order. split.
    - intros w Hne Hw. destruct H1 as [|(u & Hu & Hlt)]; [done|]. simplify_eq.
      destruct (multi kd); [by apply sw_asym|done].
    - intros w Hw. destruct H2 as [->|(u & Hu & Hlt)].
      + apply lookup_lt_Some in Hw. lia.
      + simplify_eq. destruct (multi kd); [by apply sw_asym|done].
  Qed.
  Lemma equal_gap l k h :
    multi kd = true -> strict_weak lt -> ordered kd c l -> (h < length l)%nat -> found c l k h ->
    gap kd c l k h /\ gap kd c l k (S h).
  Proof.
    intros Hm Hr Ho Hh (w & Hw & H1 & H2). unfold gap, in_order. rewrite Hm.
    split; (split; [lia|]; split).
    - intros u Hne Hu. eapply sw_neg; [done|exact H2|].
      pose proof (Ho (h - 1)%nat h u w ltac:(lia) Hu Hw) as H3. unfold in_order in H3. by rewrite Hm in H3.
    - intros u Hu. simplify_eq. done.
    - intros u _ Hu. replace (S h - 1)%nat with h in Hu by lia. by simplify_eq.
    - intros u Hu. eapply sw_neg; [done| |exact H1].
      pose proof (Ho h (S h) w u ltac:(lia) Hw Hu) as H3. unfold in_order in H3. by rewrite Hm in H3.
  Qed.

  Lemma wp_hint_good {f l} a cap h k Q X :
    (h <= length l)%nat ->
    elems f l ⊢ ((∀ b : bool, ⟦b = true -> strict_weak lt -> ordered kd c l -> gap kd c l k h⟧ -∗
          elems f l -∗ Q b (vobj a f (length l) cap)) ∧
       (elems f l -∗ X EUser (vobj a f (length l) cap))) -∗
    wp (hint_good lt kd (f +ₗ Z.of_nat h) k) (vobj a f (length l) cap) Q X.
  Proof.
    iIntros (Hh) "Hl HK". unfold hint_good. destruct (multi_or kd) as [Hmu|Hmu]; rewrite Hmu.
    - iApply (wp_hint_multi with "Hl"); [done|]. iSplit; [|iDestruct "HK" as "[_ HK]"; iExact "HK"].
      iIntros (b) "%Hb Hl". iDestruct "HK" as "[HK _]". iApply ("HK" with "[] Hl"). iPureIntro.
      intros Hb' Hr Ho. destruct (Hb Hb') as [[Hne Hfd]|[[Hne Hfd]|Hbt]].
      + apply equal_gap; [done|done|done|lia|done].
      + replace h with (S (h - 1)) by lia. apply equal_gap; [done|done|done|lia|done].
      + by apply between_gap.
    - iApply (wp_hint_unique with "Hl"); [done|]. iSplit; [|iDestruct "HK" as "[_ HK]"; iExact "HK"].
      iIntros (b) "%Hb Hl". iDestruct "HK" as "[HK _]". iApply ("HK" with "[] Hl"). iPureIntro.
      intros Hb' Hr Ho. apply between_gap; [done|done|by apply Hb].
  Qed.

  Lemma wp_insert_hint a f l cap h ar v Q X :
    (h <= length l)%nat -> fits (S (length l)) = true -> arg_rel f l ar v l -> ~ is_move ar ->
    fv a f l cap ⊢
    ((∀ f' cap' l' i b, ⟦ins_ok f cap v l f' cap' l' i b⟧ -∗ fv a f' l' cap' -∗
        Q (f' +ₗ Z.of_nat i) (vobj a f' (length l') cap')) ∧
     (∀ e l', ⟦ins_bad v l e l'⟧ -∗ fv a f l' cap -∗ X e (vobj a f (length l') cap))) -∗
    wp (insert_hint lt kd exact (f +ₗ Z.of_nat h) ar) (vobj a f (length l) cap) Q X.
  Proof.
    iIntros (Hh Hf Har Hm) "Hv HK". unfold insert_hint.
    iDestruct (fv_elems with "Hv") as "[Hl Hcl]". wbind.
    iApply (wp_arg_key with "Hl"); [done|done|]. iIntros "Hl". wbeta. wbind.
    iApply (wp_hint_good with "Hl"); [done|]. iSplit; last first.
    { iIntros "Hl". iSpecialize ("Hcl" with "Hl"). iDestruct "HK" as "[_ HK]".
      iApply ("HK" with "[] Hcl"). iPureIntro. apply ins_bad_same. }
    iIntros (b) "%Hb Hl". iSpecialize ("Hcl" with "Hl"). wbeta. destruct b.
    - iApply (wp_exact_gap with "Hcl"); [done|done|done|done|by apply Hb|].
      iSplit; [|iDestruct "HK" as "[_ HK]"; iExact "HK"].
      iIntros (f' cap' l') "%Hx Hv". iDestruct "HK" as "[HK _]". by iApply ("HK" with "[] Hv").
    - wbind. iApply (wp_insert_aux with "Hcl"); [done|done|done|].
      iSplit; [|iDestruct "HK" as "[_ HK]"; iExact "HK"].
      iIntros (f' cap' l' i b) "%Hx Hv". wbeta. iApply wp_ret. iDestruct "HK" as "[HK _]".
      by iApply ("HK" with "[] Hv").
  Qed.
End insert.
