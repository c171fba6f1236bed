(** * sfl::devector: storage, relocation, insertion *)

From Verif Require Export DevBack DevFront DevSpec.
From Coq Require Import ZifyBool.
From iris.proofmode Require Import environments tactics.
Open Scope Z_scope.

Notation zlen l := (Z.of_nat (length l)).

Section shape.
  Context `{E : Env}.
  Implicit Types f g : Z -> option V.

  Definition dobj (a : nat) (b : loc) (p m cap : Z) : ddata :=
    Dev a b (b +ₗ p) (b +ₗ (p + m)) (b +ₗ cap).

  (** Storage of capacity [cap] at [b], the elements [l] from position [p] on. *)
  Definition dev_at (a : nat) (b : loc) (p : Z) (l : list V) (cap : Z) : hProp :=
    (⟦0 <= p /\ p + zlen l <= cap <= max_size⟧ ∗ ablock a b cap ∗
     raws b (Z.to_nat p) ∗ elems (b +ₗ p) l ∗ raws (b +ₗ (p + zlen l)) (Z.to_nat (cap - (p + zlen l))))%I.

  Lemma dev_at_len a b p l cap :
    dev_at a b p l cap ⊢ ⟦0 <= p /\ p + zlen l <= cap <= max_size⟧ ∗ dev_at a b p l cap.
  Proof. iIntros "[%H ?]". iFrame. iSplit; by iPureIntro. Qed.

  (** As a window. *)
  Lemma dev_at_win a b p l cap :
    dev_at a b p l cap ⊣⊢
    ⟦0 <= p /\ p + zlen l <= cap <= max_size⟧ ∗ ablock a b cap ∗ win (loc_add b) 0 cap (at_pos p l).
  Proof.
    unfold dev_at. iSplit.
    - iIntros "(%H & $ & H)". iSplit; [done|].
      iApply (win_body (loc_add b) 0 cap b p l); try done; try lia.
      { intros i Hi. f_equal. lia. }
      rewrite !Z.sub_0_r. iExact "H".
    - iIntros "(%H & $ & H)". iSplit; [done|].
      iDestruct (win_body (loc_add b) 0 cap b p l with "H") as "H"; try done; try lia.
      { intros i Hi. f_equal. lia. }
      rewrite !Z.sub_0_r. iExact "H".
  Qed.
  Lemma dev_at_of_win a b p l cap f :
    0 <= p -> p + zlen l <= cap <= max_size ->
    (forall i, 0 <= i < cap -> f i = at_pos p l i) ->
    ablock a b cap ⊢ win (loc_add b) 0 cap f -∗ dev_at a b p l cap.
  Proof.
    intros H1 H2 Hf. iIntros "Ha Hw". rewrite dev_at_win. iFrame "Ha". iSplit; [done|].
    by iApply (win_eq with "Hw").
  Qed.

  (** The elements after an exception. *)
  Lemma shaken_list p l f' :
    shaken (at_pos p l) f' ->
    exists l', length l' = length l /\ forall i, f' i = at_pos p l' i.
  Proof.
    intros Hs. destruct (live_list f' p (p + zlen l)) as (l' & Hl' & Hf').
    { lia. }
    { intros i Hi. rewrite (Hs i) live_at_pos. unfold within. lia. }
    exists l'. split; [lia|]. intros i. destruct (decide (p <= i < p + zlen l)) as [Hi|Hi].
    - rewrite at_pos_in; [|lia]. by apply Hf'.
    - rewrite at_pos_out; [|lia]. apply live_false. rewrite (Hs i) live_at_pos. unfold within. lia.
  Qed.
  (** The elements after an insertion. *)
  Lemma spread_list p l q k vs f' :
    (k <= length l)%nat ->
    spread p (zlen l) q (Z.of_nat k) vs (at_pos p l) f' ->
    forall i, f' i = at_pos q (insert_at k vs l) i.
  Proof.
    intros Hk [Hl Hm Hr Hlive] i.
    destruct (decide (q <= i < q + zlen vs + zlen l)) as [Hi|Hi].
    2:{ rewrite at_pos_out; [|len; lia]. apply live_false. rewrite Hlive. unfold within. lia. }
    rewrite at_pos_in; [|len; lia]. unfold insert_at.
    destruct (decide (i < q + Z.of_nat k)) as [H1|H1].
    { rewrite Hl; [|lia]. rewrite at_pos_in; [|lia].
      rewrite lookup_app_l; [|len; lia]. rewrite lookup_take; [|lia]. f_equal. lia. }
    rewrite lookup_app_r; [|len; lia]. rewrite take_length Nat.min_l; [|lia].
    destruct (decide (i < q + Z.of_nat k + zlen vs)) as [H2|H2].
    { rewrite Hm; [|lia]. rewrite lookup_app_l; [|lia]. f_equal. lia. }
    rewrite Hr; [|lia]. rewrite lookup_app_r; [|lia]. rewrite lookup_drop.
    rewrite at_pos_in; [|lia]. f_equal. lia.
  Qed.

  Lemma d_first_dobj a b p m cap : d_first (dobj a b p m cap) = b +ₗ p.
  Proof. done. Qed.
  Lemma d_last_dobj a b p m cap : d_last (dobj a b p m cap) = b +ₗ (p + m).
  Proof. done. Qed.
  Lemma d_bos_dobj a b p m cap : d_bos (dobj a b p m cap) = b.
  Proof. done. Qed.
  Lemma d_eos_dobj a b p m cap : d_eos (dobj a b p m cap) = b +ₗ cap.
  Proof. done. Qed.
  Lemma d_alloc_dobj a b p m cap : d_alloc (dobj a b p m cap) = a.
  Proof. done. Qed.
End shape.
Arguments dobj : simpl never.
Ltac dred := rewrite ?d_first_dobj ?d_last_dobj ?d_bos_dobj ?d_eos_dobj ?d_alloc_dobj.

Section basic.
  Context `{E : Env}.

  Lemma wp_dv_size a b p m cap Q X :
    Q m (dobj a b p m cap) ⊢ wp dv_size (dobj a b p m cap) Q X.
  Proof.
    iIntros "HQ". unfold dv_size. wbind. iApply wp_get. wbeta. iApply wp_b_sub; [|done]. lia.
  Qed.
  Lemma wp_dv_capacity a b p m cap Q X :
    Q cap (dobj a b p m cap) ⊢ wp dv_capacity (dobj a b p m cap) Q X.
  Proof.
    iIntros "HQ". unfold dv_capacity. wbind. iApply wp_get. wbeta. by iApply wp_psub.
  Qed.
  Lemma wp_dv_front_room a b p m cap Q X :
    Q p (dobj a b p m cap) ⊢ wp dv_front_room (dobj a b p m cap) Q X.
  Proof.
    iIntros "HQ". unfold dv_front_room. wbind. iApply wp_get. wbeta. by iApply wp_psub.
  Qed.
  Lemma wp_dv_back_room a b p m cap Q X :
    Q (cap - p - m) (dobj a b p m cap) ⊢ wp dv_back_room (dobj a b p m cap) Q X.
  Proof.
    iIntros "HQ". unfold dv_back_room. wbind. iApply wp_get. wbeta. iApply wp_b_sub; [|done]. lia.
  Qed.
  Lemma wp_dv_offset a b p m cap q k Q X :
    0 <= k <= m -> q = b +ₗ (p + k) ->
    Q k (dobj a b p m cap) ⊢ wp (dv_offset q) (dobj a b p m cap) Q X.
  Proof.
    iIntros (Hk ->) "HQ". unfold dv_offset. wbind. iApply wp_get. wbeta. wbind.
    iApply wp_b_sub; [done|]. wbeta. wbind. iApply wp_dv_size. wbeta. wbind.
    iApply wp_assert; [lia|]. iApply wp_ret. by replace (p + k - p) with k by lia.
  Qed.
  Lemma wp_set_first a b p m cap q p' m' Q X :
    q = b +ₗ p' -> p' + m' = p + m ->
    Q tt (dobj a b p' m' cap) ⊢ wp (set_first_ q) (dobj a b p m cap) Q X.
  Proof.
    iIntros (-> He) "HQ". unfold set_first_. iApply wp_modify. unfold dev_first, dobj. simpl. by rewrite He.
  Qed.
  Lemma wp_set_last a b p m cap q m' Q X :
    q = b +ₗ (p + m') ->
    Q tt (dobj a b p m' cap) ⊢ wp (set_last_ q) (dobj a b p m cap) Q X.
  Proof. iIntros (->) "HQ". unfold set_last_. by iApply wp_modify. Qed.
  Lemma wp_dv_extra_front a b p m cap n Q X :
    p <= n ->
    Q (extra_front n (Geom p m cap)) (dobj a b p m cap) ⊢ wp (dv_extra_front n) (dobj a b p m cap) Q X.
  Proof.
    iIntros (Hn) "HQ". unfold dv_extra_front. wbind. iApply wp_get. wbeta. wbind.
    iApply wp_psub; [done|]. wbeta. wbind. iApply wp_psub; [done|]. wbeta. iApply wp_ret.
    rewrite (proj2 (Z.leb_le _ _) Hn). done.
  Qed.
  Lemma wp_dv_extra_back a b p m cap n Q X :
    cap - p - m <= n ->
    Q (extra_back n (Geom p m cap)) (dobj a b p m cap) ⊢ wp (dv_extra_back n) (dobj a b p m cap) Q X.
  Proof.
    iIntros (Hn) "HQ". unfold dv_extra_back. wbind. iApply wp_get. wbeta. wbind.
    iApply wp_b_sub; [done|]. wbeta. wbind. iApply wp_b_sub; [done|]. wbeta. iApply wp_ret.
    rewrite (proj2 (Z.leb_le _ _)); [|lia]. unfold extra_back, g_back. cbn [g_front g_size g_cap].
    replace (m + (cap - p - m)) with (cap - p) by lia. by replace (cap - (p + m)) with (cap - p - m) by lia.
  Qed.

  (** Giving the elements and the storage back. *)
  Lemma wp_give_back a b p l cap q {St A} (s : St) (k : M St A) Q X :
    q = b +ₗ (p + zlen l) ->
    dev_at a b p l cap ⊢ wp k s Q X -∗
    wp (destroy_a (b +ₗ p) q;; c <- ptr_sub (b +ₗ cap) b;; deallocate a b c;; k)%prog s Q X.
  Proof.
    iIntros (->) "(%Hlen & Ha & Hr1 & Hl & Hr2) HQ". wbind. iApply (wp_destroy_a with "Hl").
    { by rewrite loc_add_assoc. }
    iIntros "Hl". wbind. iApply wp_psub; [done|]. wbeta. wbind.
    iDestruct (raws_join _ (length l + Z.to_nat (cap - (p + zlen l))) with "Hl Hr2") as "Hl";
      [by rewrite loc_add_assoc|done|].
    iDestruct (raws_join _ (Z.to_nat cap) with "Hr1 Hl") as "Hr"; [f_equal; lia|lia|].
    by iApply (wp_deallocate with "Ha Hr").
  Qed.
  Lemma wp_dv_replace a b p l cap m nb nf nl ne Q X :
    m = zlen l ->
    dev_at a b p l cap ⊢ Q tt (Dev a nb nf nl ne) -∗
    wp (dv_replace nb nf nl ne) (dobj a b p m cap) Q X.
  Proof.
    iIntros (->) "Hd HQ". unfold dv_replace. wbind. iApply wp_get. wbeta.
    iApply (wp_give_back with "Hd"); [done|]. by iApply wp_modify.
  Qed.

  (** A new block with elements already in it. *)
  Lemma dev_at_intro a b p l cap :
    0 <= p -> p + zlen l <= cap <= max_size ->
    ablock a b cap ⊢ raws b (Z.to_nat p) -∗ elems (b +ₗ p) l -∗
    raws (b +ₗ (p + zlen l)) (Z.to_nat (cap - (p + zlen l))) -∗ dev_at a b p l cap.
  Proof. iIntros (??) "Ha H1 H2 H3". iFrame. by iPureIntro. Qed.

  Lemma wp_relocate a b p l cap n off Q X :
    0 <= off -> off + zlen l <= n <= max_size ->
    dev_at a b p l cap ⊢
    ((∀ b', dev_at a b' off l n -∗ Q tt (dobj a b' off (zlen l) n)) ∧
     (∀ e l', ⟦length l' = length l /\ (nothrow_move || copyable = true -> l' = l) /\
               (e = EBadAlloc /\ l' = l \/ e = EUser)⟧ -∗
       dev_at a b p l' cap -∗ X e (dobj a b p (zlen l) cap))) -∗
    wp (dv_relocate n off) (dobj a b p (zlen l) cap) Q X.
  Proof.
    iIntros (Hoff Hn) "Hd HK". unfold dv_relocate. wbind. iApply wp_get. wbeta. wbind.
    dred. iApply wp_allocate; [lia|]. iSplit; last first.
    { iDestruct "HK" as "[_ HK]". iApply ("HK" $! _ l with "[%] Hd"). split_and!; try done. by left. }
    iIntros (b') "Ha Hn". wbeta. wbind. iApply wp_try.
    iDestruct (raws_split _ _ (Z.to_nat off) (Z.to_nat (n - off)) (b' +ₗ off) with "Hn") as "[Hn1 Hn2]";
      [lia|f_equal; lia|].
    iDestruct (raws_split _ _ (length l) (Z.to_nat (n - (off + zlen l))) (b' +ₗ (off + zlen l)) with "Hn2")
      as "[Hn2 Hn3]"; [lia|by rewrite loc_add_assoc|].
    iDestruct "Hd" as "(%Hlen & Hb & Hr1 & Hl & Hr2)".
    iApply (wp_umine with "Hl Hn2"); [by rewrite loc_add_assoc|]. iSplit; last first.
    { iIntros (l') "%Hx Hl Hn2". destruct Hx as [[Hx Hm] _]. destruct Hx as [Hx1 Hx2].
      iDestruct (raws_join _ (Z.to_nat (n - off)) with "Hn2 Hn3") as "Hn2"; [by rewrite loc_add_assoc|lia|].
      iDestruct (raws_join _ (Z.to_nat n) with "Hn1 Hn2") as "Hn"; [f_equal; lia|lia|].
      iApply (wp_deallocate with "Ha Hn"). iDestruct "HK" as "[_ HK]". iApply ("HK" $! _ l' with "[%]").
      { split_and!; try done. by right. }
      rewrite -Hx1. iFrame. iPureIntro. lia. }
    iIntros "Hl Hnew". wbeta.
    iApply (wp_dv_replace a b p (mine_after l) cap with "[Hb Hr1 Hl Hr2]"); [by rewrite mine_after_length| |].
    { iFrame. rewrite mine_after_length. iFrame. done. }
    iDestruct "HK" as "[HK _]". rewrite loc_add_assoc. iApply "HK".
    iApply (dev_at_intro with "Ha Hn1 Hnew Hn3"); lia.
  Qed.

  (** Construction from a proxy in fresh storage. *)
  Lemma wp_px_uninit_raws {St} px vs d (s : St) Q X :
    px_at px 0 vs ->
    raws d (length vs) ⊢
    ((∀ px', elems d vs -∗ Q (d +ₗ zlen vs, px') s) ∧
     (⟦px_throws px⟧ -∗ raws d (length vs) -∗ X EUser s)) -∗
    wp (px_uninit px d (zlen vs)) s Q X.
  Proof.
    iIntros (Hpx) "Hr HK".
    assert (win (loc_add d) 0 (zlen vs) (fun _ => None) ⊣⊢ raws d (length vs)) as Hraw.
    { apply win_raws; [|lia|done]. intros i Hi. f_equal. lia. }
    rewrite -{1}Hraw.
    replace (px_uninit px d (zlen vs)) with (px_uninit (St := St) px (d +ₗ 0) (zlen vs)) by (by rewrite loc_add_0).
    iApply (wp_px_uninit d (zlen vs) px vs 0 0 (zlen vs) with "Hr"); try lia; try done.
    iSplit.
    - iIntros (px' f') "%Hx Hw". destruct Hx as [_ Hput]. iDestruct "HK" as "[HK _]".
      rewrite Z.add_0_l. iApply "HK". iApply (win_elems with "Hw").
      + intros i Hi. f_equal. lia.
      + lia.
      + intros i Hi. rewrite (pt_dst _ _ _ _ _ _ Hput); [|lia]. f_equal. lia.
    - iIntros "Hx Hr". iDestruct "HK" as "[_ HK]". rewrite Hraw. iApply ("HK" with "Hx Hr").
  Qed.
End basic.

Section inserting.
  Context `{E : Env}.

  (** 3858-4046: insertion with new storage. *)
  Lemma wp_grow_insert (to_front : bool) (add : Z) a b (p : Z) (l : list V) cap (k : nat) px (vs : list V) pos n m Q X :
    let nf := if to_front then p + add - zlen vs else p in
    px_at px 0 vs -> 0 < add -> (k <= length l)%nat -> 0 < zlen vs ->
    0 <= nf -> nf + zlen l + zlen vs <= cap + add ->
    pos = b +ₗ (p + Z.of_nat k) -> n = zlen vs -> m = zlen l ->
    dev_at a b p l cap ⊢
    ((∀ b', dev_at a b' nf (insert_at k vs l) (cap + add) -∗
        Q (b' +ₗ (nf + Z.of_nat k)) (dobj a b' nf (zlen (insert_at k vs l)) (cap + add))) ∧
     (∀ e l', ⟦length l' = length l /\
               match e with
               | ELength => l' = l /\ max_size < cap + add
               | EBadAlloc => l' = l
               | EUser => nothrow_move = false \/ px_throws px
               | EOutOfRange => False
               end⟧ -∗
        dev_at a b p l' cap -∗ X e (dobj a b p m cap))) -∗
    wp (dv_grow_insert to_front add pos n px) (dobj a b p m cap) Q X.
  Proof.
    intros nf Hpx Hadd Hk Hvs Hnf0 Hnf1 -> -> ->. iIntros "Hd HK".
    iDestruct (dev_at_len with "Hd") as "[%Hlen Hd]".
    unfold dv_grow_insert. wbind. iApply wp_assert; [lia|]. wbind. iApply wp_get. wbeta. wbind.
    iApply (wp_dv_offset _ _ _ _ _ _ (Z.of_nat k)); [lia|done|]. wbeta. wbind.
    iApply wp_assert; [lia|]. wbind. iApply wp_dv_capacity. wbeta.
    destruct (Z.ltb_spec (max_size - cap) add) as [Hms|Hms].
    { iApply wp_throw; [by (left + right)|]. iDestruct "HK" as "[_ HK]". iApply ("HK" with "[%] Hd").
      split_and!; try done. lia. }
    wbind. iApply wp_dv_size. wbeta. wbind. iApply wp_dv_back_room. wbeta. wbind.
    iApply wp_dv_front_room. wbeta. wbind. dred.
    iApply wp_allocate; [lia|]. iSplit; last first.
    { iDestruct "HK" as "[_ HK]". by iApply ("HK" $! _ l with "[%] Hd"). }
    iIntros (b') "Ha Hn". wbeta. 
    set (c := cap + add) in *.
    assert ((if to_front then b' +ₗ c +ₗ (- (cap - p - zlen l) - zlen l - zlen vs) else b' +ₗ p) = b' +ₗ nf) as ->.
    { unfold nf, c. destruct to_front; [|done]. rewrite loc_add_assoc. f_equal. lia. }
    set (l1 := take k l). set (l2 := drop k l).
    assert (length l1 = k) as Hl1 by (unfold l1; len; lia).
    assert (length l2 = (length l - k)%nat) as Hl2 by (unfold l2; len; lia).
    iDestruct (raws_split _ _ (Z.to_nat nf) (Z.to_nat (c - nf)) (b' +ₗ nf) with "Hn") as "[Hn0 Hn1]";
      [lia|f_equal; lia|].
    iDestruct (raws_split _ _ (length l1) (Z.to_nat (c - nf) - k) (b' +ₗ (nf + Z.of_nat k)) with "Hn1") as "[Hn1 Hn2]";
      [lia|rewrite loc_add_assoc; f_equal; lia|].
    iDestruct (raws_split _ _ (length vs) (Z.to_nat (c - nf) - k - length vs)
      (b' +ₗ (nf + Z.of_nat k + zlen vs)) with "Hn2") as "[Hn2 Hn3]";
      [lia|rewrite loc_add_assoc; f_equal; lia|].
    iDestruct (raws_split _ _ (length l2) (Z.to_nat (c - (nf + zlen (insert_at k vs l))))
      (b' +ₗ (nf + zlen (insert_at k vs l))) with "Hn3") as "[Hn3 Hn4]";
      [len; lia|rewrite loc_add_assoc; f_equal; len; lia|].
    iDestruct "Hd" as "(_ & Hb & Hr1 & Hl & Hr2)".
    iDestruct (elems_split _ _ l1 l2 (b +ₗ (p + Z.of_nat k)) with "Hl") as "[Hl1 Hl2]";
      [by rewrite take_drop|rewrite loc_add_assoc; f_equal; lia|].
    wbind. iApply wp_local. wbind. iApply wp_try. wbind.
    rewrite !loc_add_assoc.
    iApply (wp_umove with "Hl1 Hn1"); [rewrite loc_add_assoc; f_equal; lia|]. iSplit; last first.
    { iIntros (l1') "%Hx Hl1 Hn1". wbind. iApply wp_getl. wbeta. wbind.
      iApply (wp_destroy_a _ _ [] with "[]"); [by rewrite loc_add_0|done|]. iIntros "_".
      iDestruct (raws_join _ (length vs + (Z.to_nat (c - nf) - k - length vs)) with "Hn2 [Hn3 Hn4]") as "Hn2"; [|done| |].
      2:{ iApply (raws_join with "Hn3 Hn4"); [rewrite loc_add_assoc; f_equal; len; lia|len; lia]. }
      { rewrite loc_add_assoc. f_equal. }
      iDestruct (raws_join _ (Z.to_nat (c - nf)) with "Hn1 Hn2") as "Hn1";
        [rewrite loc_add_assoc; f_equal; lia|lia|].
      iDestruct (raws_join _ (Z.to_nat c) with "Hn0 Hn1") as "Hn"; [f_equal; lia|lia|].
      iApply (wp_deallocate with "Ha Hn").
      iDestruct (elems_join with "Hl1 Hl2") as "Hl"; [rewrite loc_add_assoc; f_equal; lia|done|].
      iDestruct "HK" as "[_ HK]". iApply ("HK" $! EUser (l1' ++ l2) with "[%]").
      { rewrite app_length. split; [lia|]. left. tauto. }
      replace (zlen l) with (zlen (l1' ++ l2)) by (len; lia). iFrame. iPureIntro. len. lia. }
    iIntros "Hl1 Hnew1". wbeta. wbind. iApply wp_setl. wbeta. wbind. rewrite loc_add_assoc Hl1.
    iApply (wp_px_uninit_raws with "Hn2"); [done|]. iSplit; last first.
    { iIntros "%Hx Hn2". wbind. iApply wp_getl. wbeta. wbind.
      iApply (wp_destroy_a with "Hnew1"); [rewrite loc_add_assoc; f_equal; lia|]. iIntros "Hn1".
      iDestruct (raws_join _ (length vs + (Z.to_nat (c - nf) - k - length vs)) with "Hn2 [Hn3 Hn4]") as "Hn2"; [|done| |].
      2:{ iApply (raws_join with "Hn3 Hn4"); [rewrite loc_add_assoc; f_equal; len; lia|len; lia]. }
      { rewrite loc_add_assoc. f_equal. }
      iDestruct (raws_join _ (Z.to_nat (c - nf)) with "Hn1 Hn2") as "Hn1";
        [rewrite loc_add_assoc; f_equal; lia|lia|].
      iDestruct (raws_join _ (Z.to_nat c) with "Hn0 Hn1") as "Hn"; [f_equal; lia|lia|].
      iApply (wp_deallocate with "Ha Hn").
      iDestruct (elems_join with "Hl1 Hl2") as "Hl"; [rewrite fmap_length loc_add_assoc; f_equal; lia|done|].
      iDestruct "HK" as "[_ HK]". iApply ("HK" $! EUser ((vmoved <$> l1) ++ l2) with "[%]").
      { len. split; [lia|]. by right. }
      replace (zlen l) with (zlen ((vmoved <$> l1) ++ l2)) by (len; lia). iFrame. iPureIntro. len. lia. }
    iIntros (px') "Hnew2". wbeta. cbn [fst snd]. wbind. iApply wp_setl. wbeta. wbind.
    iDestruct (elems_join with "Hnew1 Hnew2") as "Hnew"; [rewrite loc_add_assoc; f_equal; lia|done|].
    rewrite loc_add_assoc.
    iApply (wp_umove with "Hl2 Hn3"); [rewrite loc_add_assoc; f_equal; lia|]. iSplit; last first.
    { iIntros (l2') "%Hx Hl2 Hn3". wbind. iApply wp_getl. wbeta. wbind.
      iApply (wp_destroy_a with "Hnew"); [rewrite loc_add_assoc; f_equal; len; lia|]. iIntros "Hn1".
      iDestruct (raws_join _ (Z.to_nat (c - nf) - k - length vs) with "Hn3 Hn4") as "Hn3";
        [rewrite loc_add_assoc; f_equal; len; lia|len; lia|].
      iDestruct (raws_join _ (Z.to_nat (c - nf)) with "Hn1 Hn3") as "Hn1";
        [rewrite loc_add_assoc; f_equal; len; lia|len; lia|].
      iDestruct (raws_join _ (Z.to_nat c) with "Hn0 Hn1") as "Hn"; [f_equal; lia|lia|].
      iApply (wp_deallocate with "Ha Hn").
      iDestruct (elems_join with "Hl1 Hl2") as "Hl"; [rewrite fmap_length loc_add_assoc; f_equal; lia|done|].
      iDestruct "HK" as "[_ HK]". iApply ("HK" $! EUser ((vmoved <$> l1) ++ l2') with "[%]").
      { len. split; [lia|]. left. tauto. }
      replace (zlen l) with (zlen ((vmoved <$> l1) ++ l2')) by (len; lia). iFrame. iPureIntro. len. lia. }
    iIntros "Hl2 Hnew3". iApply wp_setl. wbeta. iApply wp_getl. wbeta. wbind. cbn [fst].
    iDestruct (elems_join _ (insert_at k vs l) with "Hnew Hnew3") as "Hnew";
      [rewrite loc_add_assoc; f_equal; len; lia|unfold insert_at; by rewrite assoc_L|].
    iDestruct (elems_join with "Hl1 Hl2") as "Hl"; [rewrite fmap_length loc_add_assoc; f_equal; lia|done|].
    iApply (wp_dv_replace a b p ((vmoved <$> l1) ++ (vmoved <$> l2)) cap with "[Hb Hr1 Hl Hr2]"); [len; lia| |].
    { replace (zlen l) with (zlen ((vmoved <$> l1) ++ (vmoved <$> l2))) by (len; lia). iFrame. iPureIntro. len. lia. }
    iApply wp_ret. iDestruct "HK" as "[HK _]".
    iDestruct (dev_at_intro with "Ha Hn0 Hnew Hn4") as "Hd"; [lia|len; lia|].
    iSpecialize ("HK" with "Hd").
    replace (b' +ₗ (nf + Z.of_nat k + zlen vs) +ₗ zlen l2) with (b' +ₗ (nf + zlen (insert_at k vs l)))
      by (rewrite loc_add_assoc; f_equal; len; lia).
    iExact "HK".
  Qed.

  Lemma wp_shift_to_back (fixed : bool) a b p l cap (k : nat) px vs add pos n Q X :
    px_at px 0 vs -> (k <= length l)%nat -> 0 < zlen vs -> 0 < add ->
    zlen vs - p <= add -> add <= cap - p - zlen l ->
    (fixed = false -> zlen l - Z.of_nat k <= add -> zlen vs - Z.of_nat k <= add -> add < zlen vs -> False) ->
    pos = b +ₗ (p + Z.of_nat k) -> n = zlen vs ->
    dev_at a b p l cap ⊢
    ((dev_at a b (p + add - zlen vs) (insert_at k vs l) cap -∗
        Q (b +ₗ (p + add - zlen vs + Z.of_nat k))
          (dobj a b (p + add - zlen vs) (zlen (insert_at k vs l)) cap)) ∧
     (∀ l', ⟦length l' = length l⟧ -∗ dev_at a b p l' cap -∗ X EUser (dobj a b p (zlen l) cap))) -∗
    wp (dv_shift_to_back fixed add pos n px) (dobj a b p (zlen l) cap) Q X.
  Proof.
    intros Hpx Hk Hvs Hadd Hlo Hhi Hfix -> ->. iIntros "Hd HK". rewrite dev_at_win.
    iDestruct "Hd" as "(%Hlen & Ha & Hw)".
    unfold dv_shift_to_back. wbind. iApply wp_assert; [lia|]. wbind. iApply wp_get. wbeta. wbind.
    iApply (wp_dv_offset _ _ _ _ _ _ (Z.of_nat k)); [lia|done|]. wbeta. wbind.
    iApply wp_assert; [lia|]. wbind. dred. iApply wp_b_sub; [done|]. wbeta. wbind.
    dred. rewrite !loc_add_assoc.
    replace (p + (add - zlen vs)) with (p + add - zlen vs) by lia.
    replace (p + zlen l - (p + Z.of_nat k)) with (zlen l - Z.of_nat k) by lia.
    iApply (wp_shift_back_body b cap fixed px vs p (zlen l) (Z.of_nat k) with "Hw");
      [done|lia..| | |].
    { intros i. by rewrite live_at_pos. }
    { intros Hf H1 H2 H3. apply Hfix; [done|lia..]. }
    iSplit.
    - iIntros (f') "%Hs Hw". wbeta. wbind. iApply (wp_set_first _ _ _ _ _ _ (p + add - zlen vs) (zlen l + zlen vs - add));
        [done|lia|]. wbind.
      iApply (wp_set_last _ _ _ _ _ _ (zlen (insert_at k vs l))); [f_equal; len; lia|].
      iApply wp_ret. iDestruct "HK" as "[HK _]".
      iApply "HK". iApply (dev_at_of_win with "Ha Hw"); [lia|len; lia|].
      intros i _. by apply (spread_list p l).
    - iIntros (f') "%Hs Hw". iDestruct "HK" as "[_ HK]".
      destruct (shaken_list _ _ _ Hs) as (l' & Hl' & Hf').
      iApply ("HK" $! l' with "[%//]"). iApply (dev_at_of_win with "Ha Hw"); [lia|lia|]. intros i _. apply Hf'.
  Qed.
  Lemma wp_shift_to_front (fixed : bool) a b p l cap (k : nat) px vs add pos n Q X :
    px_at px 0 vs -> (k <= length l)%nat -> 0 < zlen vs -> 0 < add ->
    zlen vs - (cap - p - zlen l) <= add -> add <= p ->
    (fixed = false -> add < Z.of_nat k -> zlen vs <= add -> Z.of_nat k + add < zlen vs + zlen l -> False) ->
    pos = b +ₗ (p + Z.of_nat k) -> n = zlen vs ->
    dev_at a b p l cap ⊢
    ((dev_at a b (p - add) (insert_at k vs l) cap -∗
        Q (b +ₗ (p - add + Z.of_nat k)) (dobj a b (p - add) (zlen (insert_at k vs l)) cap)) ∧
     (∀ l', ⟦length l' = length l⟧ -∗ dev_at a b p l' cap -∗ X EUser (dobj a b p (zlen l) cap))) -∗
    wp (dv_shift_to_front fixed add pos n px) (dobj a b p (zlen l) cap) Q X.
  Proof.
    intros Hpx Hk Hvs Hadd Hlo Hhi Hfix -> ->. iIntros "Hd HK". rewrite dev_at_win.
    iDestruct "Hd" as "(%Hlen & Ha & Hw)".
    unfold dv_shift_to_front. wbind. iApply wp_assert; [lia|]. wbind. iApply wp_get. wbeta. wbind.
    iApply (wp_dv_offset _ _ _ _ _ _ (Z.of_nat k)); [lia|done|]. wbeta. wbind.
    iApply wp_assert; [lia|]. wbind. dred. iApply wp_b_sub; [done|]. wbeta. wbind.
    dred. rewrite !loc_add_assoc.
    replace (p + - add) with (p - add) by lia.
    replace (p + zlen l - (p + Z.of_nat k)) with (zlen l - Z.of_nat k) by lia.
    iApply (wp_shift_front_body b cap fixed px vs p (zlen l) (Z.of_nat k) with "Hw");
      [done|lia..| | |].
    { intros i. by rewrite live_at_pos. }
    { intros Hf H1 H2 H3. apply Hfix; [done|lia..]. }
    iSplit.
    - iIntros (f') "%Hs Hw". wbeta. wbind. iApply (wp_set_first _ _ _ _ _ _ (p - add) (zlen l + add));
        [done|lia|]. wbind.
      iApply (wp_set_last _ _ _ _ _ _ (zlen (insert_at k vs l))); [f_equal; len; lia|].
      iApply wp_ret. iDestruct "HK" as "[HK _]".
      iApply "HK". iApply (dev_at_of_win with "Ha Hw"); [lia|len; lia|].
      intros i _. by apply (spread_list p l).
    - iIntros (f') "%Hs Hw". iDestruct "HK" as "[_ HK]".
      destruct (shaken_list _ _ _ Hs) as (l' & Hl' & Hf').
      iApply ("HK" $! l' with "[%//]"). iApply (dev_at_of_win with "Ha Hw"); [lia|lia|]. intros i _. apply Hf'.
  Qed.

  (** Where the storage is after an insertion. *)
  Definition room_to (at_front : bool) (n : Z) (g : geom) (b b' : loc) (p' cap' : Z) : Prop :=
    p' = g_front (make_room at_front n g).2 /\ cap' = g_cap (make_room at_front n g).2 /\
    ((make_room at_front n g).1 = false -> b' = b).
  (** The elements after an exception of kind [e]; [thr]: may an element throw
      while the elements go to new storage? *)
  Definition ins_bad (at_front : bool) (n : Z) (g : geom) (thr : Prop) (e : exn) (l l' : list V) : Prop :=
    length l' = length l /\
    match e with
    | ELength => l' = l /\ (make_room at_front n g).1 = true /\ max_size < g_cap (make_room at_front n g).2
    | EBadAlloc => l' = l /\ (make_room at_front n g).1 = true
    | EUser => (make_room at_front n g).1 = true -> nothrow_move = false \/ thr
    | EOutOfRange => False
    end.

  (** No room at the chosen end. *)
  Lemma wp_make_room (fixed at_front : bool) a b p l cap (k : nat) px vs pos n Q X :
    let g := Geom p (zlen l) cap in
    let x := if at_front then extra_front n g else extra_back n g in
    px_at px 0 vs -> (k <= length l)%nat -> 0 < n -> n = zlen vs ->
    (if at_front then p < n else cap - p - zlen l < n) ->
    (fixed = false ->
      if at_front then ~ (x < cap - p - zlen l /\ x < n /\ n - Z.of_nat k <= x /\ zlen l - Z.of_nat k <= x)
      else ~ (x < p /\ x < Z.of_nat k /\ n <= x /\ Z.of_nat k + x < zlen l + n)) ->
    pos = b +ₗ (p + Z.of_nat k) ->
    dev_at a b p l cap ⊢
    ((∀ b' p' cap', ⟦room_to at_front n g b b' p' cap'⟧ -∗ dev_at a b' p' (insert_at k vs l) cap' -∗
        Q (b' +ₗ (p' + Z.of_nat k)) (dobj a b' p' (zlen (insert_at k vs l)) cap')) ∧
     (∀ e l', ⟦ins_bad at_front n g (px_throws px) e l l'⟧ -∗ dev_at a b p l' cap -∗
        X e (dobj a b p (zlen l) cap))) -∗
    wp (if at_front then
          if x <? cap - p - zlen l then dv_shift_to_back fixed x pos n px else dv_grow_insert true x pos n px
        else
          if x <? p then dv_shift_to_front fixed x pos n px else dv_grow_insert false x pos n px)
      (dobj a b p (zlen l) cap) Q X.
  Proof.
    intros g x Hpx Hk Hn -> Hroom Hfix ->. iIntros "Hd HK".
    iDestruct (dev_at_len with "Hd") as "[%Hlen Hd]".
    destruct at_front; subst x; cbv beta iota zeta in Hfix.
    - set (x := extra_front (zlen vs) g) in *.
      assert (zlen vs - p <= x /\ (p + zlen l) / 2 <= x /\ 0 < x) as (Hx1 & Hx2 & Hx3).
      { unfold x, extra_front, g. cbn [g_front g_size]. lia. }
      destruct (Z.ltb_spec x (cap - p - zlen l)) as [Hc|Hc].
      + assert (make_room true (zlen vs) g = (false, Geom (p + x - zlen vs) (zlen l + zlen vs) cap)) as Hm.
        { unfold make_room. fold x. unfold g, g_back. cbn [g_front g_size g_cap].
          rewrite (proj2 (Z.leb_gt _ _)); [|lia]. rewrite (proj2 (Z.ltb_lt _ _)); [|lia]. done. }
        iApply (wp_shift_to_back fixed a b p l cap k px vs with "Hd"); [done|done|lia..| |done|done|]. 
        { intros Hf H1 H2 H3. apply (Hfix Hf). lia. }
        iSplit.
        * iIntros "Hd". iDestruct "HK" as "[HK _]". iApply ("HK" with "[%] Hd"). unfold room_to. by rewrite Hm.
        * iIntros (l') "%Hl Hd". iDestruct "HK" as "[_ HK]". iApply ("HK" with "[%] Hd").
          unfold ins_bad. by rewrite Hm.
      + assert (make_room true (zlen vs) g = (true, Geom (p + x - zlen vs) (zlen l + zlen vs) (cap + x))) as Hm.
        { unfold make_room. fold x. unfold g, g_back. cbn [g_front g_size g_cap].
          rewrite (proj2 (Z.leb_gt _ _)); [|lia]. rewrite (proj2 (Z.ltb_ge _ _)); [|lia]. done. }
        iApply (wp_grow_insert true x a b p l cap k px vs with "Hd"); [done|cbv iota; lia..|done|done|done|]. iSplit.
        * iIntros (b') "Hd". iDestruct "HK" as "[HK _]". iApply ("HK" with "[%] Hd"). unfold room_to. by rewrite Hm.
        * iIntros (e l') "%Hl Hd". iDestruct "HK" as "[_ HK]". iApply ("HK" with "[%] Hd").
          unfold ins_bad. rewrite Hm. cbn [fst snd g_cap]. destruct Hl as [Hl He]. destruct e; naive_solver.
    - set (x := extra_back (zlen vs) g) in *.
      assert (zlen vs - (cap - p - zlen l) <= x /\ 0 < x) as (Hx1 & Hx3).
      { unfold x, extra_back, g_back, g. cbn [g_front g_size g_cap]. lia. }
      destruct (Z.ltb_spec x p) as [Hc|Hc].
      + assert (make_room false (zlen vs) g = (false, Geom (p - x) (zlen l + zlen vs) cap)) as Hm.
        { unfold make_room. fold x. unfold g, g_back. cbn [g_front g_size g_cap].
          rewrite (proj2 (Z.leb_gt _ _)); [|lia]. rewrite (proj2 (Z.ltb_lt _ _)); [|lia]. done. }
        iApply (wp_shift_to_front fixed a b p l cap k px vs with "Hd"); [done|done|lia..| |done|done|]. 
        { intros Hf H1 H2 H3. apply (Hfix Hf). lia. }
        iSplit.
        * iIntros "Hd". iDestruct "HK" as "[HK _]". iApply ("HK" with "[%] Hd"). unfold room_to. by rewrite Hm.
        * iIntros (l') "%Hl Hd". iDestruct "HK" as "[_ HK]". iApply ("HK" with "[%] Hd").
          unfold ins_bad. by rewrite Hm.
      + assert (make_room false (zlen vs) g = (true, Geom p (zlen l + zlen vs) (cap + x))) as Hm.
        { unfold make_room. fold x. unfold g, g_back. cbn [g_front g_size g_cap].
          rewrite (proj2 (Z.leb_gt _ _)); [|lia]. rewrite (proj2 (Z.ltb_ge _ _)); [|lia]. done. }
        iApply (wp_grow_insert false x a b p l cap k px vs with "Hd"); [done|cbv iota; lia..|done|done|done|]. iSplit.
        * iIntros (b') "Hd". iDestruct "HK" as "[HK _]". iApply ("HK" with "[%] Hd"). unfold room_to. by rewrite Hm.
        * iIntros (e l') "%Hl Hd". iDestruct "HK" as "[_ HK]". iApply ("HK" with "[%] Hd").
          unfold ins_bad. rewrite Hm. cbn [fst snd g_cap]. destruct Hl as [Hl He]. destruct e; naive_solver.
  Qed.
End inserting.
