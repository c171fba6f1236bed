(** * Specifications of the public operations shared by vector and small_vector *)

From Verif Require Export Grow2.
From iris.proofmode Require Import tactics.
Open Scope Z_scope.

Section ops.
  Context `{E : Env}.
  Context (st : storage) (so : storage_ok st).
  Notation vec_at := (vec_at st so).
  Notation grown := (grown st).

  Lemma vec_at_len a f l cap :
    vec_at a f l cap ⊢ ⟦so_cap so cap /\ Z.of_nat (length l) <= cap⟧ ∗ vec_at a f l cap.
  Proof. iIntros "(%H1 & H2 & %H3 & H4)". iFrame. by iPureIntro. Qed.

  Lemma wp_construct_at f l ar v l1 p (s : vdata * loc) Q X :
    arg_rel f l ar v l1 ->
    elems f l ⊢ raws p 1 -∗
       ((elems f l1 -∗ elems p [v] -∗ Q tt s) ∧
        (∀ l', ⟦arg_exn ar l l'⟧ -∗ elems f l' -∗ raws p 1 -∗ X EUser s)) -∗
       wp (construct p ar) s Q X.
  Proof.
    iIntros (Har) "Hl Hp HK". iDestruct (raws_1 with "Hp") as "Hp".
    iApply (wp_construct with "Hl Hp"); [by apply arg_rel_mk|]. iSplit.
    - iIntros "Hl Hp". iDestruct "HK" as "[HK _]". iApply ("HK" with "Hl"). by rewrite elems_singleton.
    - iIntros "H Hp". iDestruct "H" as (l') "[%Hx Hl]". iDestruct "HK" as "[_ HK]".
      iApply ("HK" with "[] Hl"); [done|]. by rewrite raws_1.
  Qed.
  Lemma wp_destroy_one p v (s : vdata * loc) Q X :
    elems p [v] ⊢ (raws p 1 -∗ Q tt s) -∗ wp (destroy_at p) s Q X.
  Proof. rewrite raws_1 elems_singleton. apply wp_destroy_at. Qed.

  Lemma wp_fill_at f l ar v n p (s : vdata * loc) Q X :
    arg_rel f l ar v l -> ~ is_move ar ->
    elems f l ⊢ raws p n -∗
       ((elems f l -∗ elems p (replicate n v) -∗ Q tt s) ∧
        (∀ l', ⟦arg_exn ar l l'⟧ -∗ elems f l' -∗ raws p n -∗ X EUser s)) -∗
       wp (uninitialized_fill_n_a p n ar;; ret tt)%prog s Q X.
  Proof.
    iIntros (Har Hm) "Hl Hp HK". wbind.
    destruct (arg_rel_const _ _ _ _ _ Har Hm) as [_ Hmk].
    iApply (wp_ufill_n with "Hl Hp"); [done|]. iSplit.
    - iDestruct "HK" as "[HK _]". iIntros "Hl Hp". iApply wp_ret. by iApply ("HK" with "Hl Hp").
    - iIntros "Hl Hp". iDestruct "HK" as "[_ HK]".
      iApply ("HK" with "[] Hl Hp"). iPureIntro. split; [done|]. by destruct ar.
  Qed.
  Lemma wp_destroy_fill p n v (s : vdata * loc) Q X :
    elems p (replicate n v) ⊢ (raws p n -∗ Q tt s) -∗ wp (destroy_n_a p n) s Q X.
  Proof.
    iIntros "Hp HK". iDestruct (wp_destroy_n_a p (replicate n v) s Q X with "Hp") as "H".
    rewrite replicate_length. by iApply "H".
  Qed.

  Lemma wp_emplace a f l cap i ar v l1 Q X :
    (i <= length l)%nat -> arg_rel f l ar v l1 ->
    vec_at a f l cap ⊢
    ((∀ f' cap', ⟦grown f l cap 1 f' cap'⟧ -∗ vec_at a f' (insert_at i [v] l1) cap' -∗
        Q (f' +ₗ Z.of_nat i) (vobj a f' (S (length l)) cap')) ∧
     (∀ e l' n', ⟦n' = length l' /\ ins_fail cap l i 1 ar e l'⟧ -∗
        vec_at a f l' cap -∗ X e (vobj a f n' cap))) -∗
    wp (emplace_ st (f +ₗ Z.of_nat i) ar) (vobj a f (length l) cap) Q X.
  Proof.
    iIntros (Hi Har) "Hv HK". unfold emplace_. wbind. iApply wp_get. wbeta. wbind.
    iApply wp_offset_of; [done|]. wbeta. cbn [vobj v_last v_eos]. rewrite loc_eqb_add.
    iDestruct (vec_at_len with "Hv") as "[%Hlen Hv]". destruct Hlen as [Hok Hlen].
    destruct (Z.eqb_spec (Z.of_nat (length l)) cap) as [Hfull|Hfull]; cbn [negb].
    - wbind. iApply (wp_new_capacity st so); [lia|done|done|]. iSplit; last first.
      { iIntros "%Hms". iDestruct "HK" as "[_ HK]". iApply ("HK" $! ELength l with "[] Hv").
        iPureIntro. split; [done|]. split; [done|lia]. }
      iIntros (c) "%Hc". destruct Hc as (Hc1 & Hc2 & Hc3 & Hc4).
      iApply (wp_realloc_insert st so _ _ l l1 _ _ 1 c ar [v] with "Hv");
        [intros; by apply wp_construct_at|intros; apply wp_destroy_one|by eapply arg_rel_length
        | |done|lia|done|lia|lia|].
      { intros Hm. by apply (arg_rel_const _ _ _ _ _ Har). }
      iSplit.
      + iIntros (p) "Hv". iDestruct "HK" as "[HK _]". rewrite Hc4. iApply ("HK" with "[] Hv").
        iPureIntro. unfold Grow.grown. rewrite decide_True; [|lia]. done.
      + iIntros (e l') "%Hx Hv". iDestruct "HK" as "[_ HK]". iApply ("HK" with "[] Hv").
        iPureIntro. destruct Hx as (Hx1 & Hx2 & Hx3). split; [done|].
        destruct Hx3 as [[-> ->]| ->]; simpl.
        * split; [done|lia].
        * rewrite decide_True; [|lia]. done.
    - iDestruct "Hv" as "(_ & Hown & Hb)".
      iApply (wp_emplace_inplace with "Hb"); [done|lia|done|]. iSplit.
      + iIntros "Hb". iDestruct "HK" as "[HK _]". iApply "HK".
        { iPureIntro. unfold Grow.grown. rewrite decide_False; [|lia]. done. }
        unfold Grow.vec_at. iFrame "Hown Hb". done.
      + iIntros (l' n') "%Hx Hb". iDestruct "HK" as "[_ HK]". destruct Hx as [-> Hx].
        iApply "HK".
        { iPureIntro. split; [done|]. simpl. rewrite decide_False; [|lia]. done. }
        unfold Grow.vec_at. iFrame "Hown Hb". done.
  Qed.

  Definition back_fail (cap : Z) (l : list V) (n : nat) (ar : arg) (e : exn) (l' : list V) : Prop :=
    length l' = length l /\
    match e with
    | ELength => l' = l /\ max_size < Z.of_nat (length l + n)
    | EBadAlloc => l' = l /\ cap < Z.of_nat (length l + n)
    | EUser => ~ is_move ar ->
               nothrow_move || copyable = true \/ Z.of_nat (length l + n) <= cap -> l' = l
    | EOutOfRange => False
    end.

  Lemma wp_emplace_back a f l cap ar v l1 Q X :
    arg_rel f l ar v l1 ->
    vec_at a f l cap ⊢
    ((∀ f' cap', ⟦grown f l cap 1 f' cap'⟧ -∗ vec_at a f' (l1 ++ [v]) cap' -∗
        Q (f' +ₗ Z.of_nat (length l)) (vobj a f' (S (length l)) cap')) ∧
     (∀ e l' n', ⟦n' = length l' /\ back_fail cap l 1 ar e l'⟧ -∗
        vec_at a f l' cap -∗ X e (vobj a f n' cap))) -∗
    wp (emplace_back_ st ar) (vobj a f (length l) cap) Q X.
  Proof.
    iIntros (Har) "Hv HK". unfold emplace_back_. wbind. iApply wp_get. wbeta.
    cbn [vobj v_last v_eos]. rewrite loc_eqb_add.
    iDestruct (vec_at_len with "Hv") as "[%Hlen Hv]". destruct Hlen as [Hok Hlen].
    destruct (Z.eqb_spec (Z.of_nat (length l)) cap) as [Hfull|Hfull]; cbn [negb].
    - wbind. iApply (wp_new_capacity st so); [lia|done|done|]. iSplit; last first.
      { iIntros "%Hms". iDestruct "HK" as "[_ HK]". iApply ("HK" $! ELength l with "[] Hv").
        iPureIntro. split; [done|]. split; [done|]. split; [done|lia]. }
      iIntros (c) "%Hc". destruct Hc as (Hc1 & Hc2 & Hc3 & Hc4).
      iApply (wp_realloc_append st so _ _ l l1 _ 1 c ar [v] with "Hv");
        [intros; by apply wp_construct_at|intros; apply wp_destroy_one|by eapply arg_rel_length
        | |done|lia|lia|lia|].
      { intros Hm. by apply (arg_rel_const _ _ _ _ _ Har). }
      iSplit.
      + iIntros (p) "Hv". iDestruct "HK" as "[HK _]". rewrite Hc4. iApply ("HK" with "[] Hv").
        iPureIntro. unfold Grow.grown. rewrite decide_True; [|lia]. done.
      + iIntros (e l') "%Hx Hv". iDestruct "HK" as "[_ HK]". iApply ("HK" with "[] Hv").
        iPureIntro. destruct Hx as (Hx1 & Hx2 & Hx3). split; [done|]. split; [done|].
        destruct Hx3 as [[-> ->]| ->]; simpl.
        * split; [done|lia].
        * intros Hm [Hn|Hn]; [by apply Hx2|lia].
    - iDestruct "Hv" as "(_ & Hown & Hb)".
      iApply (wp_emplace_back_inplace with "Hb"); [lia|done|]. iSplit.
      + iIntros "Hb". iDestruct "HK" as "[HK _]". iApply "HK".
        { iPureIntro. unfold Grow.grown. rewrite decide_False; [|lia]. done. }
        unfold Grow.vec_at. iFrame "Hown Hb". done.
      + iIntros (l' n') "%Hx Hb". iDestruct "HK" as "[_ HK]". destruct Hx as [-> Hx].
        iApply "HK".
        { iPureIntro. split; [done|]. destruct Hx as [Hx1 Hx2]. split; [done|]. simpl.
          intros Hm _. by destruct ar. }
        unfold Grow.vec_at. iFrame "Hown Hb". done.
  Qed.

  Lemma wp_insert_fill a f l cap i n ar v Q X :
    (i <= length l)%nat -> arg_rel f l ar v l -> ~ is_move ar ->
    vec_at a f l cap ⊢
    ((∀ f' cap', ⟦grown f l cap n f' cap'⟧ -∗ vec_at a f' (insert_at i (replicate n v) l) cap' -∗
        Q (f' +ₗ Z.of_nat i) (vobj a f' (n + length l) cap')) ∧
     (∀ e l' n', ⟦n' = length l' /\ ins_fail cap l i n ar e l' /\ (0 < n)%nat⟧ -∗
        vec_at a f l' cap -∗ X e (vobj a f n' cap))) -∗
    wp (insert_fill_ st (f +ₗ Z.of_nat i) (Z.of_nat n) ar) (vobj a f (length l) cap) Q X.
  Proof.
    iIntros (Hi Har Hm) "Hv HK". unfold insert_fill_. wbind. iApply wp_get. wbeta. wbind.
    iApply wp_offset_of; [done|]. wbeta.
    iDestruct (vec_at_len with "Hv") as "[%Hlen Hv]". destruct Hlen as [Hok Hlen].
    destruct (Z.eqb_spec (Z.of_nat n) 0) as [Hn|Hn].
    { iApply wp_ret. iDestruct "HK" as "[HK _]". assert (n = 0%nat) as -> by lia. simpl.
      iApply "HK".
      - iPureIntro. unfold Grow.grown. rewrite decide_False; [done|lia].
      - unfold insert_at. simpl. by rewrite take_drop. }
    wbind. iApply wp_available. wbeta.
    destruct (Z.leb_spec (Z.of_nat n) (cap - Z.of_nat (length l))).
    - iDestruct "Hv" as "(_ & Hown & Hb)".
      iApply (wp_insert_fill_inplace with "Hb"); [lia|done|lia|done|done|]. iSplit.
      + iIntros "Hb". iDestruct "HK" as "[HK _]". iApply "HK".
        { iPureIntro. unfold Grow.grown. rewrite decide_False; [|lia]. done. }
        unfold Grow.vec_at. iFrame "Hown Hb". done.
      + iIntros (l' n') "%Hx Hb". iDestruct "HK" as "[_ HK]". destruct Hx as [-> Hx].
        iApply "HK".
        { iPureIntro. split_and!; [done| |lia]. simpl. rewrite decide_False; [|lia]. done. }
        unfold Grow.vec_at. iFrame "Hown Hb". done.
    - wbind. iApply (wp_new_capacity st so); [lia|done|done|]. iSplit; last first.
      { iIntros "%Hms". iDestruct "HK" as "[_ HK]". iApply ("HK" $! ELength l with "[] Hv").
        iPureIntro. split; [done|]. split; [|lia]. split; [done|lia]. }
      iIntros (c) "%Hc". destruct Hc as (Hc1 & Hc2 & Hc3 & Hc4). rewrite Nat2Z.id.
      iApply (wp_realloc_insert st so _ _ l l _ _ n c ar (replicate n v) with "Hv");
        [intros; by apply wp_fill_at|intros; apply wp_destroy_fill|done
        |done|by rewrite replicate_length|lia|done|lia|lia|].
      iSplit.
      + iIntros (p) "Hv". iDestruct "HK" as "[HK _]". rewrite Hc4. iApply ("HK" with "[] Hv").
        iPureIntro. unfold Grow.grown. rewrite decide_True; [|lia]. done.
      + iIntros (e l') "%Hx Hv". iDestruct "HK" as "[_ HK]". iApply ("HK" with "[] Hv").
        iPureIntro. destruct Hx as (Hx1 & Hx2 & Hx3). split; [done|]. split; [|lia].
        destruct Hx3 as [[-> ->]| ->]; simpl.
        * split; [done|lia].
        * rewrite decide_True; [|lia]. done.
  Qed.

  Lemma wp_insert_range a f l cap i vs Q X :
    (i <= length l)%nat ->
    vec_at a f l cap ⊢
    ((∀ f' cap', ⟦grown f l cap (length vs) f' cap'⟧ -∗ vec_at a f' (insert_at i vs l) cap' -∗
        Q (f' +ₗ Z.of_nat i) (vobj a f' (length vs + length l) cap')) ∧
     (∀ e l' n', ⟦n' = length l' /\ rng_fail cap l i (length vs) e l' /\ (0 < length vs)%nat⟧ -∗
        vec_at a f l' cap -∗ X e (vobj a f n' cap))) -∗
    wp (insert_range_ st (f +ₗ Z.of_nat i) (AVal <$> vs)) (vobj a f (length l) cap) Q X.
  Proof.
    iIntros (Hi) "Hv HK". unfold insert_range_. wbind. iApply wp_get. wbeta. wbind.
    iApply wp_offset_of; [done|]. wbeta. rewrite fmap_length.
    iDestruct (vec_at_len with "Hv") as "[%Hlen Hv]". destruct Hlen as [Hok Hlen].
    destruct (Nat.eqb_spec (length vs) 0) as [Hn|Hn].
    { iApply wp_ret. iDestruct "HK" as "[HK _]". apply nil_length_inv in Hn as ->. simpl.
      iApply "HK".
      - iPureIntro. unfold Grow.grown. rewrite decide_False; [done|simpl; lia].
      - unfold insert_at. simpl. by rewrite take_drop. }
    wbind. iApply wp_available. wbeta.
    destruct (Z.leb_spec (Z.of_nat (length vs)) (cap - Z.of_nat (length l))).
    - iDestruct "Hv" as "(_ & Hown & Hb)".
      iApply (wp_insert_range_inplace with "Hb"); [lia|done|lia|]. iSplit.
      + iIntros "Hb". iDestruct "HK" as "[HK _]". iApply "HK".
        { iPureIntro. unfold Grow.grown. rewrite decide_False; [|lia]. done. }
        unfold Grow.vec_at. iFrame "Hown Hb". done.
      + iIntros (l' n') "%Hx Hb". iDestruct "HK" as "[_ HK]". destruct Hx as [-> Hx].
        iApply "HK".
        { iPureIntro. split_and!; [done| |lia]. simpl. rewrite decide_False; [|lia]. done. }
        unfold Grow.vec_at. iFrame "Hown Hb". done.
    - iApply (wp_insert_range_realloc st so with "Hv"); [lia|done|lia|]. iSplit.
      + iIntros (p c) "%Hc Hv". iDestruct "HK" as "[HK _]". iApply ("HK" with "[] Hv").
        iPureIntro. unfold Grow.grown. rewrite decide_True; [|lia]. done.
      + iIntros (e l' n') "%Hx Hv". iDestruct "HK" as "[_ HK]".
        iApply ("HK" with "[] Hv"). iPureIntro. destruct Hx. split_and!; [done|done|lia].
  Qed.

  (** *** resize *)

  Definition resized (l : list V) (n : nat) (v : V) : list V :=
    take n l ++ replicate (n - length l) v.
  Lemma resized_length l n v : length (resized l n v) = n.
  Proof. unfold resized. rewrite app_length take_length replicate_length. lia. Qed.

  Lemma wp_resize a f l cap n ar v Q X :
    arg_rel f l ar v l -> ~ is_move ar ->
    vec_at a f l cap ⊢
    ((∀ f' cap', ⟦if decide (cap < Z.of_nat n) then cap' = so_capfor so (Z.of_nat n) else f' = f /\ cap' = cap⟧ -∗
        vec_at a f' (resized l n v) cap' -∗ Q tt (vobj a f' n cap')) ∧
     (∀ e l', ⟦length l' = length l /\
       match e with
       | ELength => l' = l /\ max_size < Z.of_nat n
       | EBadAlloc => l' = l /\ cap < Z.of_nat n
       | EUser => (length l < n)%nat /\
                  (nothrow_move || copyable = true \/ Z.of_nat n <= cap -> l' = l)
       | EOutOfRange => False
       end⟧ -∗ vec_at a f l' cap -∗ X e (vobj a f (length l) cap))) -∗
    wp (resize_ st (Z.of_nat n) ar) (vobj a f (length l) cap) Q X.
  Proof.
    iIntros (Har Hm) "Hv HK". unfold resize_. wbind. iApply wp_check_size. iSplit; last first.
    { iIntros "%Hms". iDestruct "HK" as "[_ HK]". iApply ("HK" $! ELength l with "[] Hv"). done. }
    iIntros "%Hms". wbind. iApply wp_size. wbeta. wbind. iApply wp_get. wbeta. wbind.
    iApply wp_capacity. wbeta.
    iDestruct (vec_at_len with "Hv") as "[%Hlen Hv]". destruct Hlen as [Hok Hlen].
    destruct (Z.ltb_spec (Z.of_nat n) (Z.of_nat (length l))).
    { iDestruct "Hv" as "(_ & Hown & Hb)". iApply (wp_truncate with "Hb"); [lia|].
      iIntros "Hb". iDestruct "HK" as "[HK _]". iApply "HK".
      { iPureIntro. rewrite decide_False; [done|lia]. }
      unfold Grow.vec_at. iFrame "Hown". iSplit; [done|].
      unfold resized. replace (n - length l)%nat with 0%nat by lia. simpl. by rewrite app_nil_r. }
    destruct (Z.ltb_spec (Z.of_nat (length l)) (Z.of_nat n)); last first.
    { iApply wp_ret. iDestruct "HK" as "[HK _]". assert (n = length l) as -> by lia. iApply "HK".
      { iPureIntro. rewrite decide_False; [done|lia]. }
      unfold resized. rewrite take_ge; [|done].
      replace (length l - length l)%nat with 0%nat by lia. simpl. by rewrite app_nil_r. }
    replace (Z.of_nat n - Z.of_nat (length l)) with (Z.of_nat (n - length l)) by lia.
    assert (Hres : resized l n v = l ++ replicate (n - length l) v).
    { unfold resized. rewrite take_ge; [done|lia]. }
    rewrite Nat2Z.id.
    destruct (Z.ltb_spec cap (Z.of_nat n)).
    - wbind.
      iApply (wp_realloc_append st so _ _ l l _ (n - length l) (Z.of_nat n) ar
                (replicate (n - length l) v) with "Hv");
        [intros; by apply wp_fill_at|intros; apply wp_destroy_fill|done
        |done|by rewrite replicate_length|lia|lia|lia|].
      iSplit.
      + iIntros (p) "Hv". iApply wp_ret. iDestruct "HK" as "[HK _]".
        replace (n - length l + length l)%nat with n by lia. rewrite Hres.
        iApply ("HK" with "[] Hv"). iPureIntro. rewrite decide_True; [done|lia].
      + iIntros (e l') "%Hx Hv". iDestruct "HK" as "[_ HK]". iApply ("HK" with "[] Hv").
        iPureIntro. destruct Hx as (Hx1 & Hx2 & Hx3). split; [done|].
        destruct Hx3 as [[-> ->]| ->]; [done|]. split; [lia|]. intros [?|?]; [by apply Hx2|lia].
    - iDestruct "Hv" as "(_ & Hown & Hb)".
      iApply (wp_append_fill with "Hb"); [lia|done|done|]. iSplit.
      + iIntros "Hb". iDestruct "HK" as "[HK _]".
        replace (length l + (n - length l))%nat with n by lia. iApply "HK".
        { iPureIntro. rewrite decide_False; [done|lia]. }
        rewrite Hres. unfold Grow.vec_at. iFrame "Hown Hb". done.
      + iIntros "Hb". iDestruct "HK" as "[_ HK]". iApply ("HK" $! EUser l).
        { iPureIntro. split; [done|]. split; [lia|done]. }
        unfold Grow.vec_at. iFrame "Hown Hb". done.
  Qed.

  (** *** assign *)

  Lemma wp_reset a f l cap n Q X :
    0 <= n <= max_size ->
    vec_at a f l cap ⊢
    ((∀ f', vec_at a f' [] (so_capfor so n) -∗ Q tt (vobj a f' 0 (so_capfor so n))) ∧
     (∀ f', vec_at a f' [] (so_capfor so 0) -∗ X EBadAlloc (vobj a f' 0 (so_capfor so 0)))) -∗
    wp (reset_ st n) (vobj a f (length l) cap) Q X.
  Proof.
    iIntros (Hn) "(%Hok & Hown & %Hlc & Hl & Hr) HK". unfold reset_. wbind. iApply wp_get. wbeta.
    wbind. iApply (wp_destroy_a with "Hl"); [done|]. iIntros "Hl".
    wbind. iApply (wp_psub _ _ cap); [done|]. wbeta. wbind.
    iDestruct (raws_join _ (Z.to_nat cap) with "Hl Hr") as "Hr"; [done|lia|].
    iApply (so_release_all so (vobj a f (length l) cap) with "Hown Hr"); [done|]. iIntros "Hg".
    iApply (so_fresh so (vobj a f (length l) cap) with "Hg"); [done|].
    pose proof (max_size_ok).
    destruct (so_capfor_ok so n) as [Hc1 Hc2]; [done|].
    destruct (so_capfor_ok so 0) as [Hc3 Hc4]; [lia|]. iSplit.
    - iIntros (f') "Hown Hr". iDestruct "HK" as "[HK _]". iApply "HK".
      unfold Grow.vec_at. iFrame "Hown". iSplit; [done|].
      iApply (body_intro _ [] with "[] Hr"); [by rewrite loc_add_0|simpl; lia|simpl; lia|done].
    - iIntros (f') "Hown Hr". iDestruct "HK" as "[_ HK]". iApply "HK".
      unfold Grow.vec_at. iFrame "Hown". iSplit; [done|].
      iApply (body_intro _ [] with "[] Hr"); [by rewrite loc_add_0|simpl; lia|simpl; lia|done].
  Qed.

  (** A failing [assign] of [n] elements. *)
  Definition asg_fail (f : loc) (cap : Z) (l : list V) (n : nat) (e : exn)
      (f' : loc) (l' : list V) (cap' : Z) : Prop :=
    match e with
    | ELength => f' = f /\ l' = l /\ cap' = cap /\ max_size < Z.of_nat n
    | EBadAlloc => l' = [] /\ cap < Z.of_nat n
    | EUser => (f' = f /\ length l' = length l /\ cap' = cap /\ Z.of_nat n <= cap) \/
               (l' = [] /\ cap < Z.of_nat n)
    | EOutOfRange => False
    end.

  Lemma wp_assign_fill a f l cap n v Q X :
    vec_at a f l cap ⊢
    ((∀ f' cap', ⟦if decide (cap < Z.of_nat n) then cap' = so_capfor so (Z.of_nat n)
                  else f' = f /\ cap' = cap⟧ -∗
        vec_at a f' (replicate n v) cap' -∗ Q tt (vobj a f' n cap')) ∧
     (∀ e f' l' n' cap', ⟦n' = length l' /\ asg_fail f cap l n e f' l' cap'⟧ -∗
        vec_at a f' l' cap' -∗ X e (vobj a f' n' cap'))) -∗
    wp (assign_fill_ st (Z.of_nat n) (AVal v)) (vobj a f (length l) cap) Q X.
  Proof.
    iIntros "Hv HK". unfold assign_fill_. wbind. iApply wp_check_size. iSplit; last first.
    { iIntros "%Hms". iDestruct "HK" as "[_ HK]". iApply ("HK" $! ELength f l with "[] Hv"). done. }
    iIntros "%Hms". wbind. iApply wp_capacity. wbeta.
    iDestruct (vec_at_len with "Hv") as "[%Hlen Hv]". destruct Hlen as [Hok Hlen].
    destruct (Z.leb_spec (Z.of_nat n) cap).
    - iDestruct "Hv" as "(_ & Hown & Hb)".
      iApply (wp_assign_fill_inplace with "Hb"); [done|]. iSplit.
      + iIntros "Hb". iDestruct "HK" as "[HK _]". iApply "HK".
        { iPureIntro. rewrite decide_False; [done|lia]. }
        unfold Grow.vec_at. iFrame "Hown Hb". done.
      + iIntros (l') "%Hx Hb". iDestruct "HK" as "[_ HK]". iApply ("HK" $! EUser f l').
        { iPureIntro. split; [done|]. left. done. }
        unfold Grow.vec_at. iFrame "Hown Hb". done.
    - wbind. iApply (wp_reset with "Hv"); [lia|]. iSplit; last first.
      { iIntros (f') "Hv". iDestruct "HK" as "[_ HK]". iApply ("HK" $! EBadAlloc f' [] with "[] Hv").
        iPureIntro. done. }
      iIntros (f') "(%Hok' & Hown & Hb)". wbind. iApply wp_get. wbeta. cbn [vobj v_first].
      rewrite Nat2Z.id. iEval (rewrite -{1}(loc_add_0 f')).
      destruct (so_capfor_ok so (Z.of_nat n)) as [Hc1 Hc2]; [lia|].
      iApply (wp_append_fill a f' [] _ n (AVal v) v with "Hb"); [simpl; lia|constructor|by intros []|].
      iSplit.
      + iIntros "Hb". iDestruct "HK" as "[HK _]". iApply "HK".
        { iPureIntro. rewrite decide_True; [done|lia]. }
        unfold Grow.vec_at. iFrame "Hown Hb". done.
      + iIntros "Hb". iDestruct "HK" as "[_ HK]". iApply ("HK" $! EUser f' []).
        { iPureIntro. split; [done|]. by right. }
        unfold Grow.vec_at. iFrame "Hown Hb". done.
  Qed.

  Lemma wp_assign_range PX P P' a f l cap srcs vs Q X :
    src_ok PX P srcs vs P' ->
    P ⊢ vec_at a f l cap -∗
    ((∀ f' cap', ⟦if decide (cap < Z.of_nat (length vs)) then cap' = so_capfor so (Z.of_nat (length vs))
                  else f' = f /\ cap' = cap⟧ -∗
        P' -∗ vec_at a f' vs cap' -∗ Q tt (vobj a f' (length vs) cap')) ∧
     (∀ e f' l' n' cap', ⟦n' = length l' /\ asg_fail f cap l (length vs) e f' l' cap'⟧ -∗
        (match e with EUser => PX | _ => P end) -∗
        vec_at a f' l' cap' -∗ X e (vobj a f' n' cap'))) -∗
    wp (assign_range_ st srcs) (vobj a f (length l) cap) Q X.
  Proof.
    iIntros (Hsrc) "HP Hv HK". unfold assign_range_. wbind.
    pose proof (proj1 Hsrc) as Hlsrc. rewrite Hlsrc.
    iApply wp_check_size. iSplit; last first.
    { iIntros "%Hms". iDestruct "HK" as "[_ HK]". iApply ("HK" $! ELength f l with "[] HP Hv"). done. }
    iIntros "%Hms". wbind. iApply wp_capacity. wbeta.
    iDestruct (vec_at_len with "Hv") as "[%Hlen Hv]". destruct Hlen as [Hok Hlen].
    destruct (Z.leb_spec (Z.of_nat (length vs)) cap).
    - iDestruct "Hv" as "(_ & Hown & Hb)".
      iApply (wp_assign_range_inplace with "HP Hb"); [done|done|]. iSplit.
      + iIntros "HP Hb". iDestruct "HK" as "[HK _]". iApply ("HK" with "[] HP").
        { iPureIntro. rewrite decide_False; [done|lia]. }
        unfold Grow.vec_at. iFrame "Hown Hb". done.
      + iIntros (l') "%Hx HP Hb". iDestruct "HK" as "[_ HK]". iApply ("HK" $! EUser f l' with "[] HP").
        { iPureIntro. split; [done|]. left. done. }
        unfold Grow.vec_at. iFrame "Hown Hb". done.
    - wbind. iApply (wp_reset with "Hv"); [lia|]. iSplit; last first.
      { iIntros (f') "Hv". iDestruct "HK" as "[_ HK]".
        iApply ("HK" $! EBadAlloc f' [] with "[] HP Hv"). iPureIntro. done. }
      iIntros (f') "(%Hok' & Hown & (_ & _ & Hr))". wbind. iApply wp_get. wbeta. cbn [vobj v_first].
      destruct (so_capfor_ok so (Z.of_nat (length vs))) as [Hc1 Hc2]; [lia|]. simpl.
      iDestruct (raws_split _ _ (length vs) (Z.to_nat (so_capfor so (Z.of_nat (length vs))) - length vs)
        with "Hr") as "[Hr1 Hr]"; [lia|done|].
      rewrite loc_add_0. wbind.
      iApply (wp_ucopy with "HP Hr1"); [by apply src_mks|]. iSplit.
      + iIntros "HP Hl". iApply (wp_set_last _ _ _ (length vs)); [done|].
        iDestruct "HK" as "[HK _]". iApply ("HK" with "[] HP").
        { iPureIntro. rewrite decide_True; [done|lia]. }
        unfold Grow.vec_at. iFrame "Hown". iSplit; [done|].
        iApply (body_intro with "Hl Hr"); [done|lia|lia].
      + iIntros "HP Hr1". iDestruct "HK" as "[_ HK]". iApply ("HK" $! EUser f' [] with "[] HP").
        { iPureIntro. split; [done|]. by right. }
        iDestruct (raws_join with "Hr1 Hr") as "Hr"; [done|done|].
        unfold Grow.vec_at. iFrame "Hown". iSplit; [done|].
        iApply (body_intro _ [] with "[] Hr"); [by rewrite loc_add_0|simpl; lia|simpl; lia|done].
  Qed.

  (** *** construction and destruction *)

  Lemma wp_destructor a f l cap Q X :
    vec_at a f l cap ⊢ (so_gone so -∗ Q tt (vobj a f (length l) cap)) -∗
    wp (destructor_ st) (vobj a f (length l) cap) Q X.
  Proof.
    iIntros "(%Hok & Hown & %Hlc & Hl & Hr) HK". unfold destructor_. wbind. iApply wp_get. wbeta.
    wbind. iApply (wp_destroy_a with "Hl"); [done|]. iIntros "Hl".
    wbind. iApply (wp_psub _ _ cap); [done|]. wbeta.
    iDestruct (raws_join _ (Z.to_nat cap) with "Hl Hr") as "Hr"; [done|lia|].
    by iApply (so_release_all so (vobj a f (length l) cap) with "Hown Hr").
  Qed.

  Lemma vec_at_empty a f cap :
    so_cap so cap -> 0 <= cap ->
    so_own so a f cap ⊢ raws f (Z.to_nat cap) -∗ vec_at a f [] cap.
  Proof.
    iIntros (Hok Hc) "Hown Hr". unfold Grow.vec_at. iFrame "Hown". iSplit; [done|].
    iApply (body_intro _ [] with "[] Hr"); [by rewrite loc_add_0|simpl; lia|simpl; lia|done].
  Qed.
  Lemma vec_at_nil a f cap :
    vec_at a f [] cap ⊢ ⟦so_cap so cap /\ 0 <= cap⟧ ∗ so_own so a f cap ∗ raws f (Z.to_nat cap).
  Proof.
    iIntros "(%Hok & Hown & %Hlc & _ & Hr)". simpl. rewrite loc_add_0 Nat.sub_0_r.
    iFrame. iPureIntro. simpl in Hlc. split; [done|lia].
  Qed.

  Definition ctor_fail (n : nat) (e : exn) : Prop :=
    match e with
    | ELength => max_size < Z.of_nat n
    | EOutOfRange => False
    | _ => True
    end.

  Lemma wp_init_range PX P P' a f srcs vs Q X :
    mks_ok PX P srcs vs P' ->
    P ⊢ vec_at a f [] (so_capfor so 0) -∗
    ((∀ f', P' -∗ vec_at a f' vs (so_capfor so (Z.of_nat (length vs))) -∗
        Q tt (vobj a f' (length vs) (so_capfor so (Z.of_nat (length vs))))) ∧
     (∀ e s, ⟦ctor_fail (length vs) e⟧ -∗ (match e with EUser => PX | _ => P end) -∗
        so_gone so -∗ X e s)) -∗
    wp (init_range_ st srcs) (vobj a f 0 (so_capfor so 0)) Q X.
  Proof.
    iIntros (Hsrc) "HP Hv HK". unfold init_range_. wbind.
    pose proof (mks_length _ _ _ _ _ Hsrc) as Hlsrc. rewrite Hlsrc.
    iDestruct (vec_at_nil with "Hv") as "(%Hcap & Hown & Hr)". destruct Hcap as [Hok Hnn].
    iApply wp_check_size. iSplit; last first.
    { iIntros "%Hms". iDestruct "HK" as "[_ HK]". iApply ("HK" $! ELength with "[] HP"); [done|].
      by iApply (so_empty_gone so with "Hown Hr"). }
    iIntros "%Hms". wbind.
    iApply (so_init so with "Hown Hr"); [lia|]. iSplit; last first.
    { iIntros (s) "Hg". iDestruct "HK" as "[_ HK]". by iApply ("HK" $! EBadAlloc with "[] HP Hg"). }
    iIntros (f') "Hown Hr". wbind. iApply wp_get. wbeta. cbn [vobj v_first]. iApply wp_try.
    destruct (so_capfor_ok so (Z.of_nat (length vs))) as [Hc1 Hc2]; [lia|].
    iDestruct (raws_split _ _ (length vs) (Z.to_nat (so_capfor so (Z.of_nat (length vs))) - length vs)
        with "Hr") as "[Hr1 Hr]"; [lia|done|].
    wbind. iApply (wp_ucopy with "HP Hr1"); [done|]. iSplit.
    - iIntros "HP Hl". iApply (wp_set_last _ _ _ (length vs)); [done|].
      iDestruct "HK" as "[HK _]". iApply ("HK" with "HP").
      unfold Grow.vec_at. iFrame "Hown". iSplit; [done|].
      iApply (body_intro with "Hl Hr"); [done|lia|lia].
    - iIntros "HP Hr1". iDestruct (raws_join with "Hr1 Hr") as "Hr"; [done|done|].
      iDestruct (raws_eq _ f' _ (Z.to_nat (so_capfor so (Z.of_nat (length vs)))) with "Hr") as "Hr";
        [done|lia|].
      iApply (so_init_release so with "Hown Hr"); [lia|]. iIntros (s) "Hg".
      iDestruct "HK" as "[_ HK]". by iApply ("HK" $! EUser with "[] HP Hg").
  Qed.

  Lemma wp_init_fill a f n ar v Q X :
    mk_ok emp emp ar v emp ->
    vec_at a f [] (so_capfor so 0) ⊢
    ((∀ f', vec_at a f' (replicate n v) (so_capfor so (Z.of_nat n)) -∗
        Q tt (vobj a f' n (so_capfor so (Z.of_nat n)))) ∧
     (∀ e s, ⟦ctor_fail n e⟧ -∗ so_gone so -∗ X e s)) -∗
    wp (init_fill_ st (Z.of_nat n) ar) (vobj a f 0 (so_capfor so 0)) Q X.
  Proof.
    iIntros (Hmk) "Hv HK". unfold init_fill_. wbind.
    iDestruct (vec_at_nil with "Hv") as "(%Hcap & Hown & Hr)". destruct Hcap as [Hok Hnn].
    iApply wp_check_size. iSplit; last first.
    { iIntros "%Hms". iDestruct "HK" as "[_ HK]". iApply ("HK" $! ELength with "[]"); [done|].
      by iApply (so_empty_gone so with "Hown Hr"). }
    iIntros "%Hms". wbind.
    iApply (so_init so with "Hown Hr"); [lia|]. iSplit; last first.
    { iIntros (s) "Hg". iDestruct "HK" as "[_ HK]". by iApply ("HK" $! EBadAlloc with "[] Hg"). }
    iIntros (f') "Hown Hr". wbind. iApply wp_get. wbeta. cbn [vobj v_first]. iApply wp_try.
    destruct (so_capfor_ok so (Z.of_nat n)) as [Hc1 Hc2]; [lia|].
    iDestruct (raws_split _ _ n (Z.to_nat (so_capfor so (Z.of_nat n)) - n)
        with "Hr") as "[Hr1 Hr]"; [lia|done|].
    rewrite Nat2Z.id.
    wbind. iApply (wp_ufill_n emp%I with "[//] Hr1"); [done|]. iSplit.
    - iIntros "_ Hl". iApply (wp_set_last _ _ _ n); [done|].
      iDestruct "HK" as "[HK _]". iApply "HK".
      unfold Grow.vec_at. iFrame "Hown". iSplit; [done|].
      iApply (body_intro with "Hl Hr"); rewrite replicate_length; [done|lia|lia].
    - iIntros "_ Hr1". iDestruct (raws_join with "Hr1 Hr") as "Hr"; [done|done|].
      iDestruct (raws_eq _ f' _ (Z.to_nat (so_capfor so (Z.of_nat n))) with "Hr") as "Hr";
        [done|lia|].
      iApply (so_init_release so with "Hown Hr"); [lia|]. iIntros (s) "Hg".
      iDestruct "HK" as "[_ HK]". by iApply ("HK" $! EUser with "[] Hg").
  Qed.

  (** *** input iterators *)

  Definition app_fail (l vs : list V) (e : exn) (l' : list V) : Prop :=
    (length l <= length l' < length l + length vs)%nat /\
    (nothrow_move || copyable = true ->
       exists k, (k < length vs)%nat /\ l' = l ++ take k vs) /\
    (e = ELength -> max_size < Z.of_nat (length l + length vs)) /\ e <> EOutOfRange.

  (** The storage is kept if [need] elements fit into it. *)
  Definition kept (need : nat) (f : loc) (cap : Z) (f' : loc) (cap' : Z) : Prop :=
    Z.of_nat need <= cap -> f' = f /\ cap' = cap.

  Lemma wp_append_loop a f l cap vs Q X :
    vec_at a f l cap ⊢
    ((∀ f' cap', ⟦kept (length l + length vs) f cap f' cap'⟧ -∗
        vec_at a f' (l ++ vs) cap' -∗ Q tt (vobj a f' (length (l ++ vs)) cap')) ∧
     (∀ e f' l' cap', ⟦app_fail l vs e l' /\ kept (length l + length vs) f cap f' cap'⟧ -∗
        vec_at a f' l' cap' -∗ X e (vobj a f' (length l') cap'))) -∗
    wp (append_loop st (AVal <$> vs)) (vobj a f (length l) cap) Q X.
  Proof.
    iIntros "Hv HK". iInduction vs as [|v vs] "IH" forall (f l cap); simpl.
    { iApply wp_ret. iDestruct "HK" as "[HK _]". rewrite app_nil_r. by iApply ("HK" with "[]"). }
    wbind. iApply (wp_emplace_back with "Hv"); [constructor|]. iSplit; last first.
    { iIntros (e l' n') "%Hx Hv". iDestruct "HK" as "[_ HK]". destruct Hx as (-> & Hx1 & Hx2).
      iApply ("HK" with "[] Hv"). iPureIntro. split; [|done]. unfold app_fail. simpl.
      split_and!; [lia|lia| |destruct e; naive_solver lia|by intros ->].
      intros Hn. exists 0%nat. simpl. rewrite app_nil_r. split; [lia|].
      destruct e; try naive_solver. }
    iIntros (f' cap') "%Hg Hv".
    assert (forall f'' cap'', kept (S (length l) + length vs) f' cap' f'' cap'' ->
                              kept (length l + S (length vs)) f cap f'' cap'') as Hkept.
    { intros f'' cap'' Hk Hfit. unfold Grow.grown in Hg. case_decide; [lia|]. destruct Hg as [-> ->].
      apply Hk. lia. }
    iSpecialize ("IH" $! f' (l ++ [v]) cap' with "Hv").
    replace (length (l ++ [v])) with (S (length l)) by nlia.
    iApply "IH". iSplit.
    - iIntros (f'' cap'') "%Hk Hv". iDestruct "HK" as "[HK _]".
      rewrite -assoc_L. iApply ("HK" with "[%] Hv"). by apply Hkept.
    - iIntros (e f'' l'' cap'') "%Hx Hv". iDestruct "HK" as "[_ HK]".
      iApply ("HK" with "[] Hv"). iPureIntro. destruct Hx as ((Hx1 & Hx2 & Hx3 & Hx4) & Hkp).
      split; [|by apply Hkept].
      rewrite app_length /= in Hx1, Hx3. unfold app_fail. simpl. split_and!; [lia|lia| |naive_solver lia|done].
      intros Hn. destruct (Hx2 Hn) as (k & Hk & ->). exists (S k). split; [lia|].
      simpl. by rewrite -assoc_L.
  Qed.

  Lemma wp_init_input a f vs Q X :
    vec_at a f [] (so_capfor so 0) ⊢
    ((∀ f' cap', ⟦kept (length vs) f (so_capfor so 0) f' cap'⟧ -∗
        vec_at a f' vs cap' -∗ Q tt (vobj a f' (length vs) cap')) ∧
     (∀ e s, ⟦ctor_fail (length vs) e⟧ -∗ so_gone so -∗ X e s)) -∗
    wp (init_input_ st (AVal <$> vs)) (vobj a f 0 (so_capfor so 0)) Q X.
  Proof.
    iIntros "Hv HK". unfold init_input_. iApply wp_try.
    iApply (wp_append_loop a f [] with "Hv"). iSplit.
    - by iDestruct "HK" as "[HK _]".
    - iIntros (e f' l' cap') "%Hx Hv". iApply (wp_destructor with "Hv"). iIntros "Hg".
      iDestruct "HK" as "[_ HK]". iApply ("HK" with "[] Hg"). iPureIntro.
      destruct Hx as ((_ & _ & Hx & Hx') & _). destruct e; simpl in *; auto.
  Qed.

  Lemma insert_at_cons i v vs l :
    (i <= length l)%nat -> insert_at (S i) vs (insert_at i [v] l) = insert_at i (v :: vs) l.
  Proof.
    intros Hi. unfold insert_at.
    rewrite take_app_ge; [|rewrite take_length; lia]. rewrite drop_app_ge; [|rewrite take_length; lia].
    rewrite take_length. replace (S i - i `min` length l)%nat with 1%nat by lia. simpl.
    by rewrite take_0 drop_0 -assoc_L.
  Qed.

  Lemma wp_insert_input_loop a f l cap i vs Q X :
    (i <= length l)%nat ->
    vec_at a f l cap ⊢
    ((∀ f' cap', ⟦kept (length l + length vs) f cap f' cap'⟧ -∗ vec_at a f' (insert_at i vs l) cap' -∗
        Q tt (vobj a f' (length vs + length l) cap')) ∧
     (∀ e f' l' cap', ⟦(length l <= length l' <= length l + length vs)%nat /\ e <> EOutOfRange /\
         (e = ELength -> max_size < Z.of_nat (length l + length vs)) /\
         kept (length l + length vs) f cap f' cap'⟧ -∗
        vec_at a f' l' cap' -∗ X e (vobj a f' (length l') cap'))) -∗
    wp (insert_input_loop st (f +ₗ Z.of_nat i) (AVal <$> vs)) (vobj a f (length l) cap) Q X.
  Proof.
    iIntros (Hi) "Hv HK". iInduction vs as [|v vs] "IH" forall (f l cap i Hi); simpl.
    { iApply wp_ret. iDestruct "HK" as "[HK _]". unfold insert_at. simpl. rewrite take_drop.
      by iApply ("HK" with "[]"). }
    wbind. iApply (wp_emplace with "Hv"); [done|constructor|]. iSplit; last first.
    { iIntros (e l' n') "%Hx Hv". iDestruct "HK" as "[_ HK]". destruct Hx as (-> & Hx).
      iApply ("HK" with "[] Hv"). iPureIntro. destruct e; simpl in *.
      - destruct Hx as [-> ?]. split_and!; try done; lia.
      - done.
      - destruct Hx as [-> ?]. split_and!; try done; lia.
      - split; [|done]. case_decide; [lia|]. destruct Hx as [[-> _]|]; lia. }
    iIntros (f' cap') "%Hg Hv".
    assert (forall f'' cap'', kept (S (length l) + length vs) f' cap' f'' cap'' ->
                              kept (length l + S (length vs)) f cap f'' cap'') as Hkept.
    { intros f'' cap'' Hk Hfit. unfold Grow.grown in Hg. case_decide; [lia|]. destruct Hg as [-> ->].
      apply Hk. lia. }
    iSpecialize ("IH" $! f' (insert_at i [v] l) cap' (S i) with "[%] Hv"); [nlia|].
    replace (length (insert_at i [v] l)) with (S (length l)) by nlia.
    replace (f' +ₗ Z.of_nat i +ₗ 1) with (f' +ₗ Z.of_nat (S i)) by loc_solve.
    iApply "IH". iSplit.
    - iIntros (f'' cap'') "%Hk Hv". iDestruct "HK" as "[HK _]".
      rewrite insert_at_cons; [|done].
      replace (length vs + S (length l))%nat with (S (length vs + length l)) by lia.
      iApply ("HK" with "[%] Hv"). by apply Hkept.
    - iIntros (e f'' l'' cap'') "%Hx Hv". iDestruct "HK" as "[_ HK]".
      iApply ("HK" with "[] Hv"). iPureIntro. 
      destruct Hx as (Hx1 & Hx2 & Hx3 & Hk). split_and!; [lia|lia|done| |by apply Hkept].
      intros He. specialize (Hx3 He). lia.
  Qed.

  Lemma wp_insert_input a f l cap i vs Q X :
    (i <= length l)%nat ->
    vec_at a f l cap ⊢
    ((∀ f' cap', ⟦kept (length l + length vs) f cap f' cap'⟧ -∗ vec_at a f' (insert_at i vs l) cap' -∗
        Q (f' +ₗ Z.of_nat i) (vobj a f' (length vs + length l) cap')) ∧
     (∀ e f' l' cap', ⟦(length l <= length l' <= length l + length vs)%nat /\ e <> EOutOfRange /\
         (e = ELength -> max_size < Z.of_nat (length l + length vs)) /\
         kept (length l + length vs) f cap f' cap'⟧ -∗
        vec_at a f' l' cap' -∗ X e (vobj a f' (length l') cap'))) -∗
    wp (insert_input_ st (f +ₗ Z.of_nat i) (AVal <$> vs)) (vobj a f (length l) cap) Q X.
  Proof.
    iIntros (Hi) "Hv HK". unfold insert_input_. wbind. iApply wp_offset_of; [done|]. wbeta. wbind.
    iApply (wp_insert_input_loop with "Hv"); [done|]. iSplit.
    - iIntros (f' cap') "%Hk Hv". wbind. iApply wp_get. wbeta. iApply wp_ret.
      iDestruct "HK" as "[HK _]". by iApply ("HK" with "[] Hv").
    - by iDestruct "HK" as "[_ HK]".
  Qed.

  Lemma wp_assign_input_loop a f n cap l0 l vs Q X :
    elems f (l0 ++ l) ⊢
    ((elems f (l0 ++ take (length l) vs ++ drop (length vs) l) -∗
        Q (f +ₗ Z.of_nat (length l0 + length l `min` length vs), AVal <$> drop (length l) vs)
          (vobj a f n cap)) ∧
     (∀ l', ⟦length l' = (length l0 + length l)%nat⟧ -∗ elems f l' -∗ X EUser (vobj a f n cap))) -∗
    wp (assign_input_loop (f +ₗ Z.of_nat (length l0)) (f +ₗ Z.of_nat (length l0 + length l))
          (AVal <$> vs)) (vobj a f n cap) Q X.
  Proof.
    iIntros "Hl HK". iInduction vs as [|v vs] "IH" forall (l0 l); simpl.
    { iApply wp_ret. iDestruct "HK" as "[HK _]". rewrite take_nil drop_nil drop_0 /= Nat.min_0_r.
      rewrite Nat.add_0_r. by iApply "HK". }
    rewrite loc_eqb_add. destruct l as [|x l]; simpl.
    { rewrite Nat.add_0_r Z.eqb_refl. iApply wp_ret. iDestruct "HK" as "[HK _]".
      by iApply "HK". }
    destruct (Z.eqb_spec (Z.of_nat (length l0)) (Z.of_nat (length l0 + S (length l)))); [lia|].
    wbind. rewrite elems_app elems_cons. iDestruct "Hl" as "(H0 & Hx & Hl)".
    iApply (as_ok_val emp%I v with "[//] Hx"). iSplit; last first.
    { iIntros (c) "_ Hx". iDestruct "HK" as "[_ HK]". iApply ("HK" $! (l0 ++ c :: l)).
      { iPureIntro. nlia. }
      rewrite elems_app elems_cons. iFrame. }
    iIntros "_ Hx".
    iSpecialize ("IH" $! (l0 ++ [v]) l with "[H0 Hx Hl]").
    { rewrite !elems_app elems_cons elems_nil. rewrite app_length. simpl. iFrame "H0 Hx".
      iApply (elems_eq with "Hl"); [loc_solve|done]. }
    rewrite app_length /=.
    replace (f +ₗ Z.of_nat (length l0) +ₗ 1) with (f +ₗ Z.of_nat (length l0 + 1)) by loc_solve.
    replace (length l0 + S (length l))%nat with (length l0 + 1 + length l)%nat by lia.
    iApply "IH". iSplit.
    - iIntros "Hl". iDestruct "HK" as "[HK _]".
      replace (length l0 + S (length l `min` length vs))%nat
        with (length l0 + 1 + length l `min` length vs)%nat by lia.
      iApply "HK". by rewrite -assoc_L.
    - iIntros (l') "%Hx Hl". iDestruct "HK" as "[_ HK]". iApply ("HK" with "[] Hl").
      iPureIntro. lia.
  Qed.

  Lemma wp_assign_input a f l cap vs Q X :
    vec_at a f l cap ⊢
    ((∀ f' cap', ⟦kept (length vs) f cap f' cap'⟧ -∗
        vec_at a f' vs cap' -∗ Q tt (vobj a f' (length vs) cap')) ∧
     (∀ e f' l' cap', ⟦(length l <= length l' <= length l + length vs)%nat /\ e <> EOutOfRange /\
         (e = ELength -> max_size < Z.of_nat (length vs)) /\ kept (length vs) f cap f' cap'⟧ -∗
        vec_at a f' l' cap' -∗ X e (vobj a f' (length l') cap'))) -∗
    wp (assign_input_ st (AVal <$> vs)) (vobj a f (length l) cap) Q X.
  Proof.
    iIntros "(%Hok & Hown & %Hlc & Hl & Hr) HK". unfold assign_input_. wbind. iApply wp_get. wbeta.
    cbn [vobj v_first v_last]. wbind.
    iDestruct (wp_assign_input_loop a f (length l) cap [] l vs with "Hl") as "H".
    simpl. rewrite loc_add_0. iApply "H". iSplit; last first.
    { iIntros (l') "%Hx Hl". iDestruct "HK" as "[_ HK]". rewrite -Hx. iApply ("HK" $! EUser f l').
      { iPureIntro. split_and!; [lia|lia|done|done|done]. }
      unfold Grow.vec_at. iFrame "Hown". iSplit; [done|].
      iApply (body_intro with "Hl Hr"); [by rewrite Hx|lia|lia]. }
    iIntros "Hl". cbn [fst snd].
    destruct (le_lt_dec (length vs) (length l)) as [Hle|Hgt].
    - rewrite (drop_ge vs); [|done]. simpl. rewrite loc_eqb_add.
      rewrite (take_ge vs); [|done]. rewrite Nat.min_r; [|done].
      destruct (Z.eqb_spec (Z.of_nat (length vs)) (Z.of_nat (length l))) as [Heq|Hne].
      + iApply wp_ret. iDestruct "HK" as "[HK _]".
        rewrite drop_ge; [|lia]. rewrite app_nil_r.
        replace (length l) with (length vs) by lia. iApply ("HK" with "[//]").
        unfold Grow.vec_at. iFrame "Hown". iSplit; [done|].
        iApply (body_intro with "Hl Hr"); [done|lia|lia].
      + iDestruct (elems_split _ _ vs (drop (length vs) l) with "Hl") as "[H1 H2]"; [done|done|].
        wbind. iApply (wp_destroy_a with "H2"); [loc_solve|]. iIntros "H2".
        iApply (wp_set_last _ _ _ (length vs)); [done|]. iDestruct "HK" as "[HK _]". iApply ("HK" with "[//]").
        iDestruct (raws_join with "H2 Hr") as "Hr"; [loc_solve|done|].
        unfold Grow.vec_at. iFrame "Hown". iSplit; [done|].
        iApply (body_intro with "H1 Hr"); [loc_solve|nlia|nlia].
    - rewrite (drop_ge l); [|lia]. rewrite app_nil_r.
      destruct (drop (length l) vs) as [|v rest] eqn:Hd.
      { apply (f_equal length) in Hd. rewrite drop_length /= in Hd. lia. }
      cbn [fmap list_fmap]. change (AVal v :: (AVal <$> rest)) with (AVal <$> (v :: rest)).
      iAssert (vec_at a f (take (length l) vs) cap) with "[Hown Hl Hr]" as "Hv".
      { unfold Grow.vec_at. iFrame "Hown". iSplit; [done|].
        iApply (body_intro with "Hl Hr"); [loc_solve|nlia|nlia]. }
      iDestruct (wp_append_loop _ _ _ _ (v :: rest) with "Hv") as "H".
      rewrite take_length Nat.min_l; [|lia].
      iApply "H". rewrite -Hd take_drop drop_length.
      replace (length l + (length vs - length l))%nat with (length vs) by lia. iSplit.
      + by iDestruct "HK" as "[HK _]".
      + iIntros (e f' l' cap') "%Hx Hv". iDestruct "HK" as "[_ HK]".
        iApply ("HK" with "[] Hv"). iPureIntro. destruct Hx as ((Hx1 & _ & Hx3 & Hx4) & Hk).
        len. split_and!; [lia|lia|done| |done]. intros He. specialize (Hx3 He). lia.
  Qed.
End ops.
