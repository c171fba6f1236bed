(** * Specifications of the member functions of sfl::compact_vector *)

From Verif Require Export CompactVector SeqProofs.
From iris.proofmode Require Import tactics.
From Coq Require Import ZifyBool.
Open Scope Z_scope.

Section calm.
  Context `{E : Env}.

  (** Element operations never throw. *)
  Definition no_throw : Prop := forall k t, k <> KAlloc -> may_throw k t = false.

  Lemma wp_calm {St A} (m : M St A) s Q X :
    no_throw ->
    wp m s Q (fun e s' => if decide (e = EUser) then True%I else X e s') ⊢ wp m s Q X.
  Proof.
    intros Hc. rewrite wp_unseal. split. intros h Hwp hf w Hwf Hd Hh. specialize (Hwp hf w Hwf Hd Hh).
    destruct (m s w) as [|e s' w'|]; [done| |done].
    destruct Hwp as (h' & H1 & H2 & H3 & H4). exists h'. split_and!; try done.
    case_decide as He; [|done]. subst. exfalso. destruct H3 as [_ (k & t & Hk & Ht & _)].
    by rewrite Hc in Ht.
  Qed.
End calm.

Section compact.
  Context `{E : Env}.

  Program Definition compact_ok : storage_ok compact_storage := {|
    so_own := so_own vec_ok;
    so_two := so_two vec_ok;
    so_gone := so_gone vec_ok;
    so_cap := so_cap vec_ok;
    so_capfor := so_capfor vec_ok;
    so_cap_nonneg := so_cap_nonneg vec_ok;
    so_capfor_ok := so_capfor_ok vec_ok;
    so_acquire := so_acquire vec_ok;
    so_release_new := so_release_new vec_ok;
    so_release_old := so_release_old vec_ok;
    so_release_all := so_release_all vec_ok;
    so_fresh := so_fresh vec_ok;
    so_init := so_init vec_ok;
    so_init_release := so_init_release vec_ok;
    so_empty_gone := so_empty_gone vec_ok;
  |}.
  Next Obligation.
    simpl. intros len cap n Hl Hc Hn. unfold compact_calc.
    destruct (Z.ltb_spec max_size (len + n)); lia.
  Qed.

  Notation vat := (vec_at compact_storage compact_ok).
  Lemma vat_vec a f l cap : vec_at vec_storage vec_ok a f l cap = vat a f l cap.
  Proof. reflexivity. Qed.

  (** The compact vector at [f] with elements [l]. *)
  Definition cat (a : nat) (f : loc) (l : list V) : hProp := vat a f l (Z.of_nat (length l)).
  Definition cobj (a : nat) (f : loc) (n : nat) : vdata := vobj a f n (Z.of_nat n).

  Lemma cat_open a f l :
    cat a f l ⊢ ⟦Z.of_nat (length l) <= max_size⟧ ∗ ablock a f (Z.of_nat (length l)) ∗ elems f l.
  Proof.
    iIntros "(%Hok & Hown & %Hlc & Hl & Hr)". simpl in *.
    rewrite Nat2Z.id Nat.sub_diag raws_0. iSplit; [iPureIntro; lia|]. iFrame "Hown Hl".
  Qed.
  Lemma cat_intro a f l n :
    n = Z.of_nat (length l) -> n <= max_size -> ablock a f n ⊢ elems f l -∗ cat a f l.
  Proof.
    iIntros (-> Hn) "Hown Hl". unfold cat, Grow.vec_at. simpl. iSplit; [iPureIntro; lia|]. iFrame "Hown".
    iApply (body_intro _ _ _ _ 0 with "Hl []"); [done|lia|lia|]. by rewrite raws_0.
  Qed.
  Lemma cat_null a : emp ⊢ cat a null [].
  Proof. apply vec_at_null. Qed.
  Lemma cat_eq a f l cap : cap = Z.of_nat (length l) -> vat a f l cap ⊢ cat a f l.
  Proof. by intros ->. Qed.
  Lemma cat_len a f l : cat a f l ⊢ ⟦Z.of_nat (length l) <= max_size⟧ ∗ cat a f l.
  Proof. iIntros "H". iDestruct (vec_at_len with "H") as "[%H $]". iPureIntro. simpl in H. lia. Qed.

  (** A failed operation that leaves the storage alone. *)
  Definition cfail (l : list V) (need : nat) (S : Prop) (e : exn) (l' : list V) : Prop :=
    length l' = length l /\
    match e with
    | ELength => l' = l /\ max_size < Z.of_nat need
    | EBadAlloc => l' = l
    | EUser => S -> l' = l
    | EOutOfRange => False
    end.

  Lemma wp_compact_clear a f l Q X :
    cat a f l ⊢ Q tt (cobj a null 0) -∗ wp compact_clear (cobj a f (length l)) Q X.
  Proof.
    iIntros "Hv HQ". iDestruct (cat_open with "Hv") as "(%Hlen & Hown & Hl)".
    unfold compact_clear. wbind. iApply wp_get. wbeta. wbind.
    iApply (wp_destroy_a with "Hl"); [done|]. iIntros "Hl". wbind.
    iApply (wp_psub _ _ (Z.of_nat (length l))); [done|]. wbeta. wbind.
    iApply (wp_deallocate with "Hown [Hl]"); [by rewrite Nat2Z.id|].
    iApply wp_modify. rewrite vec_nil_storage. iApply "HQ".
  Qed.

  Lemma wp_compact_destructor a f l Q X :
    cat a f l ⊢ (∀ s, Q tt s) -∗ wp compact_destructor (cobj a f (length l)) Q X.
  Proof.
    iIntros "Hv HQ". iDestruct (cat_open with "Hv") as "(%Hlen & Hown & Hl)".
    unfold compact_destructor. wbind. iApply wp_get. wbeta. wbind.
    iApply (wp_destroy_a with "Hl"); [done|]. iIntros "Hl". wbind.
    iApply (wp_psub _ _ (Z.of_nat (length l))); [done|]. wbeta.
    iApply (wp_deallocate with "Hown [Hl]"); [by rewrite Nat2Z.id|]. iApply "HQ".
  Qed.

  Lemma wp_compact_emplace a f l i ar v l1 Q X :
    (i <= length l)%nat -> arg_rel f l ar v l1 ->
    cat a f l ⊢
    ((∀ f', cat a f' (insert_at i [v] l1) -∗ Q (f' +ₗ Z.of_nat i) (cobj a f' (S (length l)))) ∧
     (∀ e l', ⟦cfail l (S (length l)) (~ is_move ar /\ nothrow_move || copyable = true) e l'⟧ -∗
        cat a f l' -∗ X e (cobj a f (length l)))) -∗
    wp (compact_emplace (f +ₗ Z.of_nat i) ar) (cobj a f (length l)) Q X.
  Proof.
    iIntros (Hi Har) "Hv HK". iDestruct (cat_len with "Hv") as "[%Hlen Hv]".
    unfold compact_emplace, cobj. wbind. iApply wp_offset_of; [done|]. wbeta. wbind.
    iApply (wp_new_capacity compact_storage compact_ok); [lia|lia|simpl; lia|]. iSplit; last first.
    { iIntros "%Hms". iDestruct "HK" as "[_ HK]". iApply ("HK" $! ELength l with "[] Hv").
      iPureIntro. split_and!; [done|done|lia]. }
    iIntros (c) "%Hc". destruct Hc as (Hc1 & Hc2 & Hc3 & Hc4).
    simpl in Hc1. unfold compact_calc in Hc1.
    destruct (Z.ltb_spec max_size (Z.of_nat (length l) + 1)); [done|]. injection Hc1 as <-.
    iApply (wp_realloc_insert compact_storage compact_ok _ _ l l1 _ _ 1 _ ar [v] with "Hv");
      [intros; by apply wp_construct_at|intros; apply wp_destroy_one|by eapply arg_rel_length
      | |done|lia|done|lia|lia|].
    { intros Hm. by apply (arg_rel_const _ _ _ _ _ Har). }
    pose proof (arg_rel_length _ _ _ _ _ Har) as Hl1.
    assert (length (insert_at i [v] l1) = S (length l)) as Hli by (rewrite insert_at_length; simpl; lia).
    iSplit.
    - iIntros (p) "Hv". iDestruct "HK" as "[HK _]". rewrite Hc4.
      replace (Z.of_nat (length l) + 1) with (Z.of_nat (S (length l))) by lia.
      iApply "HK". iApply (cat_eq with "Hv"). by rewrite Hli.
    - iIntros (e l') "%Hx Hv". iDestruct "HK" as "[_ HK]". destruct Hx as (Hx1 & Hx2 & Hx3).
      iApply ("HK" with "[] [Hv]"); [|iApply (cat_eq with "Hv"); by rewrite Hx1].
      iPureIntro. split; [done|]. destruct Hx3 as [[-> ->]| ->]; [done|]. intros [? ?]. by apply Hx2.
  Qed.

  Lemma wp_compact_emplace_back a f l ar v l1 Q X :
    arg_rel f l ar v l1 ->
    cat a f l ⊢
    ((∀ f', cat a f' (l1 ++ [v]) -∗ Q (f' +ₗ Z.of_nat (length l)) (cobj a f' (S (length l)))) ∧
     (∀ e l', ⟦cfail l (S (length l)) (~ is_move ar /\ nothrow_move || copyable = true) e l'⟧ -∗
        cat a f l' -∗ X e (cobj a f (length l)))) -∗
    wp (compact_emplace_back ar) (cobj a f (length l)) Q X.
  Proof.
    iIntros (Har) "Hv HK". unfold compact_emplace_back. wbind. iApply wp_get. wbeta.
    iApply (wp_compact_emplace with "Hv"); [done|done|]. iSplit; [|by iDestruct "HK" as "[_ HK]"].
    iIntros (f') "Hv". iDestruct "HK" as "[HK _]". iApply "HK".
    replace (insert_at (length l) [v] l1) with (l1 ++ [v]); [done|].
    pose proof (arg_rel_length _ _ _ _ _ Har) as Hl1. unfold insert_at.
    rewrite take_ge; [|lia]. rewrite drop_ge; [|lia]. by rewrite app_nil_r.
  Qed.

  Lemma wp_compact_insert_fill a f l i n ar v Q X :
    (i <= length l)%nat -> arg_rel f l ar v l -> ~ is_move ar ->
    cat a f l ⊢
    ((∀ f', ⟦n = 0%nat -> f' = f⟧ -∗ cat a f' (insert_at i (replicate n v) l) -∗
        Q (f' +ₗ Z.of_nat i) (cobj a f' (n + length l))) ∧
     (∀ e l', ⟦cfail l (length l + n) (nothrow_move || copyable = true) e l' /\ n <> 0%nat⟧ -∗
        cat a f l' -∗ X e (cobj a f (length l)))) -∗
    wp (compact_insert_fill (f +ₗ Z.of_nat i) (Z.of_nat n) ar) (cobj a f (length l)) Q X.
  Proof.
    iIntros (Hi Har Hm) "Hv HK". iDestruct (cat_len with "Hv") as "[%Hlen Hv]".
    unfold compact_insert_fill, cobj. wbind. iApply wp_get. wbeta. wbind. iApply wp_offset_of; [done|]. wbeta.
    destruct (Z.eqb_spec (Z.of_nat n) 0) as [Hn|Hn].
    { iApply wp_ret. iDestruct "HK" as "[HK _]". assert (n = 0%nat) as -> by lia. simpl.
      iApply ("HK" with "[//]"). unfold insert_at. simpl. by rewrite take_drop. }
    wbind. iApply (wp_new_capacity compact_storage compact_ok); [lia|lia|simpl; lia|]. iSplit; last first.
    { iIntros "%Hms". iDestruct "HK" as "[_ HK]". iApply ("HK" $! ELength l with "[] Hv").
      iPureIntro. split; [|lia]. split_and!; [done|done|lia]. }
    iIntros (c) "%Hc". destruct Hc as (Hc1 & Hc2 & Hc3 & Hc4).
    simpl in Hc1. unfold compact_calc in Hc1.
    destruct (Z.ltb_spec max_size (Z.of_nat (length l) + Z.of_nat n)); [done|]. injection Hc1 as <-.
    rewrite Nat2Z.id.
    iApply (wp_realloc_insert compact_storage compact_ok _ _ l l _ _ n _ ar (replicate n v) with "Hv");
      [intros; by apply wp_fill_at|intros; apply wp_destroy_fill|done
      |done|by rewrite replicate_length|lia|done|lia|lia|].
    assert (length (insert_at i (replicate n v) l) = (n + length l)%nat) as Hli
      by (rewrite insert_at_length replicate_length; lia).
    iSplit.
    - iIntros (p) "Hv". iDestruct "HK" as "[HK _]". rewrite Hc4.
      replace (Z.of_nat (length l) + Z.of_nat n) with (Z.of_nat (n + length l)) by lia.
      iApply ("HK" $! p with "[]"); [iPureIntro; lia|]. iApply (cat_eq with "Hv"). by rewrite Hli.
    - iIntros (e l') "%Hx Hv". iDestruct "HK" as "[_ HK]". destruct Hx as (Hx1 & Hx2 & Hx3).
      iApply ("HK" with "[] [Hv]"); [|iApply (cat_eq with "Hv"); by rewrite Hx1].
      iPureIntro. split; [|lia]. split; [done|]. destruct Hx3 as [[-> ->]| ->]; [done|]. intros ?. by apply Hx2.
  Qed.

  Lemma wp_compact_insert_range a f l i vs Q X :
    (i <= length l)%nat ->
    cat a f l ⊢
    ((∀ f', ⟦vs = [] -> f' = f⟧ -∗ cat a f' (insert_at i vs l) -∗
        Q (f' +ₗ Z.of_nat i) (cobj a f' (length vs + length l))) ∧
     (∀ e l', ⟦cfail l (length l + length vs) (nothrow_move = false /\ copyable = true) e l' /\ vs <> []⟧ -∗
        cat a f l' -∗ X e (cobj a f (length l)))) -∗
    wp (compact_insert_range (f +ₗ Z.of_nat i) (AVal <$> vs)) (cobj a f (length l)) Q X.
  Proof.
    iIntros (Hi) "Hv HK". iDestruct (cat_len with "Hv") as "[%Hlen Hv]".
    unfold compact_insert_range, cobj. wbind. iApply wp_get. wbeta. wbind. iApply wp_offset_of; [done|]. wbeta.
    rewrite fmap_length. destruct (Nat.eqb_spec (length vs) 0) as [Hn|Hn].
    { iApply wp_ret. iDestruct "HK" as "[HK _]". apply nil_length_inv in Hn as ->. simpl.
      iApply ("HK" with "[//]"). unfold insert_at. simpl. by rewrite take_drop. }
    assert (vs <> []) as Hvs by (by intros ->).
    iApply (wp_insert_range_realloc compact_storage compact_ok with "Hv"); [lia|done|lia|]. iSplit.
    - iIntros (p c) "%Hc Hv". iDestruct "HK" as "[HK _]". simpl in Hc. unfold compact_calc in Hc.
      destruct (Z.ltb_spec max_size (Z.of_nat (length l) + Z.of_nat (length vs))); [done|]. injection Hc as <-.
      replace (Z.of_nat (length l) + Z.of_nat (length vs)) with (Z.of_nat (length vs + length l)) by lia.
      iApply ("HK" $! p with "[]"); [by iPureIntro|]. iApply (cat_eq with "Hv"). rewrite insert_at_length. lia.
    - iIntros (e l' n') "%Hx Hv". iDestruct "HK" as "[_ HK]". destruct Hx as [-> Hx].
      assert (cfail l (length l + length vs) (nothrow_move = false /\ copyable = true) e l') as Hcf.
      { destruct e; simpl in Hx; unfold cfail.
        - destruct Hx as [-> ?]. split_and!; [done|done|lia].
        - done.
        - by destruct Hx as [-> ?].
        - rewrite decide_True in Hx; [|lia]. destruct Hx as [Hx1 Hx2]. split; [done|].
          intros [H1 H2]. apply Hx2. unfold moves_if_noexcept. by rewrite H1 H2. }
      rewrite (proj1 Hcf). iApply ("HK" with "[] [Hv]"); [done|iApply (cat_eq with "Hv"); by rewrite (proj1 Hcf)].
  Qed.
End compact.
