(** * Specifications of the member functions that may reallocate *)

From Verif Require Export Grow.
From iris.proofmode Require Import tactics.
Open Scope Z_scope.

Section grow2.
  Context `{E : Env}.
  Context (st : storage) (so : storage_ok st).
  Notation vec_at := (vec_at st so).
  Notation grown := (grown st).

  (** Failure of [insert(pos, first, last)]. *)
  Definition rng_fail (cap : Z) (l : list V) (i n : nat) (e : exn) (l' : list V) : Prop :=
    match e with
    | ELength => l' = l /\ max_size < Z.of_nat (length l + n)
    | EBadAlloc => l' = l /\ cap < Z.of_nat (length l + n)
    | EUser =>
        if decide (cap < Z.of_nat (length l + n))
        then length l' = length l /\ (moves_if_noexcept = false -> l' = l)
        else ins_exn l i n ADef l'
    | EOutOfRange => False
    end.

  Lemma mine_exn_weak l l' : mine_exn l l' -> moves_if_noexcept = false -> l' = l.
  Proof.
    unfold moves_if_noexcept. intros [_ Hl] Hm. apply Hl.
    destruct nothrow_move, copyable; simpl in *; done.
  Qed.
  Lemma mine_after_weak l : moves_if_noexcept = false -> mine_after l = l.
  Proof. unfold mine_after. by intros ->. Qed.

  Lemma wp_insert_range_realloc a f l cap i vs Q X :
    (0 < length vs)%nat -> (i <= length l)%nat -> cap < Z.of_nat (length l + length vs) ->
    vec_at a f l cap ⊢
    ((∀ p c, ⟦calc_cap st (Z.of_nat (length l)) cap (Z.of_nat (length vs)) = Some c⟧ -∗
        vec_at a p (insert_at i vs l) c -∗
        Q (p +ₗ Z.of_nat i) (vobj a p (length vs + length l) c)) ∧
     (∀ e l' n', ⟦n' = length l' /\ rng_fail cap l i (length vs) e l'⟧ -∗
        vec_at a f l' cap -∗ X e (vobj a f n' cap))) -∗
    wp (insert_range_realloc st (Z.of_nat i) (AVal <$> vs)) (vobj a f (length l) cap) Q X.
  Proof.
    iIntros (Hn Hi Hc) "(%Hok & Hown & %Hlc & Hl & Hr) HK".
    unfold insert_range_realloc. wbind. iApply wp_get. wbeta. rewrite fmap_length. wbind.
    iApply (wp_new_capacity st so); [lia|done|done|]. iSplit; last first.
    { iIntros "%Hms". iDestruct "HK" as "[_ HK]". iApply ("HK" $! ELength l).
      { iPureIntro. split; [done|]. split; [done|lia]. }
      unfold Grow.vec_at. iFrame "Hown". iSplit; [done|]. by iApply (body_intro with "Hl Hr"). }
    iIntros (c) "%Hcalc". destruct Hcalc as (Hcalc & Hc1 & Hc2 & Hc3). wbind.
    iApply (so_acquire so with "Hown"); [done|lia|]. iSplit; last first.
    { iIntros "Hown". iDestruct "HK" as "[_ HK]". iApply ("HK" $! EBadAlloc l).
      { iPureIntro. split; [done|]. split; [done|lia]. }
      unfold Grow.vec_at. iFrame "Hown". iSplit; [done|]. by iApply (body_intro with "Hl Hr"). }
    iIntros (p) "%Hp Hb Hnew". cbn [fst snd].
    pose proof (so_cap_nonneg so _ Hok) as Hok0.
    destruct (so_capfor_ok so c) as [Hk1 Hk2]; [lia|]. pose proof (so_cap_nonneg so _ Hk1) as Hk3.
    set (k := so_capfor so c) in *.
    wbind. iApply wp_local. wbind. iApply wp_try. simpl.
    set (n := length vs) in *.
    iDestruct (raws_split _ _ i (Z.to_nat k - i) with "Hnew") as "[Hn1 Hn2]"; [lia|done|].
    iDestruct (raws_split _ _ n (Z.to_nat k - i - n) with "Hn2") as "[Hn2 Hn3]"; [lia|done|].
    iDestruct (raws_split _ _ (length l - i) (Z.to_nat k - n - length l) with "Hn3") as "[Hn3 Hn4]";
      [lia|done|].
    set (A := take i l). set (B := drop i l).
    assert (HlAB : l = A ++ B) by (unfold A, B; by rewrite take_drop).
    assert (HA : length A = i) by (unfold A; nlia).
    assert (HB : length B = (length l - i)%nat) by (unfold B; nlia).
    clearbody A B.
    iDestruct (elems_split f l A B (f +ₗ Z.of_nat i) with "Hl") as "[HA HB]"; [done|by rewrite HA|].
    iDestruct (raws_eq _ p _ (length A) with "Hn1") as "Hn1"; [done|done|].
    wbind. iApply (wp_umine with "HA Hn1"); [by rewrite HA|]. iSplit; last first.
    { iIntros (A') "%Hx HA Hn1". wbind. iApply wp_getl. wbeta.
      wbind. iApply (wp_destroy_a p p [] with "[]"); [by rewrite loc_add_0|by rewrite elems_nil|].
      iIntros "_". destruct Hx as [[Hx _] _].
      assert (length A' = length A) as HA' by apply Hx.
      iDestruct (raws_join with "Hn3 Hn4") as "Hn3"; [done|done|].
      iDestruct (raws_join with "Hn2 Hn3") as "Hn2"; [done|done|].
      iDestruct (raws_join with "Hn1 Hn2") as "Hn"; [by rewrite HA|done|].
      iDestruct (elems_join with "HA HB") as "Hl"; [loc_solve|done|].
      iDestruct "HK" as "[_ HK]".
      iDestruct (raws_eq _ p _ (Z.to_nat k) with "Hn") as "Hn"; [done|lia|].
      iApply (wp_abort st so with "Hb Hl Hr Hn"); [done|lia|nlia|lia|].
      iApply "HK". iPureIntro. simpl. rewrite decide_True; [|lia]. split; [nlia|]. split; [nlia|].
      intros Hnc. by rewrite (mine_exn_weak A A'). }
    iIntros "HA HA2". wbind. iApply wp_setl. wbind.
    replace (p +ₗ Z.of_nat (length A)) with (p +ₗ Z.of_nat i) by (by rewrite HA).
    iApply (wp_ucopy emp%I emp%I with "[//] Hn2"); [apply mks_vals|]. iSplit; last first.
    { iIntros "_ Hn2". wbind. iApply wp_getl. wbeta.
      wbind. iApply (wp_destroy_a with "HA2"); [by rewrite HA|]. iIntros "Hn1".
      iDestruct (raws_join with "Hn3 Hn4") as "Hn3"; [done|done|].
      iDestruct (raws_join with "Hn2 Hn3") as "Hn2"; [done|done|].
      iDestruct (raws_join with "Hn1 Hn2") as "Hn"; [by rewrite HA|done|].
      iDestruct (elems_join with "HA HB") as "Hl"; [rewrite mine_after_length; loc_solve|done|].
      iDestruct "HK" as "[_ HK]".
      iDestruct (raws_eq _ p _ (Z.to_nat k) with "Hn") as "Hn"; [done|lia|].
      iApply (wp_abort st so with "Hb Hl Hr Hn");
        [done|lia|rewrite app_length mine_after_length; lia|lia|].
      iApply "HK". iPureIntro. simpl. rewrite decide_True; [|lia].
      split; [rewrite app_length mine_after_length; lia|].
      split; [rewrite app_length mine_after_length; lia|]. intros Hnc.
      by rewrite mine_after_weak. }
    iIntros "_ Hvs". wbind. iApply wp_setl. wbind. fold n.
    iDestruct (raws_eq _ _ _ (length B) with "Hn3") as "Hn3"; [done|done|].
    iApply (wp_umine with "HB Hn3"); [loc_solve|]. iSplit; last first.
    { iIntros (B') "%Hx HB Hn3". wbind. iApply wp_getl. wbeta.
      iDestruct (elems_join with "HA2 Hvs") as "Hnew"; [by rewrite HA|done|].
      wbind. iApply (wp_destroy_a with "Hnew"); [loc_solve|]. iIntros "Hn1".
      destruct Hx as [[Hx Hnm] _]. assert (length B' = length B) as HB' by apply Hx.
      iDestruct (raws_join with "Hn3 Hn4") as "Hn3"; [by rewrite HB|done|].
      iDestruct (raws_join _ (Z.to_nat k) with "Hn1 Hn3") as "Hn"; [loc_solve|nlia|].
      iDestruct (elems_join with "HA HB") as "Hl";
        [rewrite mine_after_length; loc_solve|done|].
      iDestruct "HK" as "[_ HK]".
      iApply (wp_abort st so with "Hb Hl Hr Hn");
        [done|lia|rewrite app_length mine_after_length; lia|lia|].
      iApply "HK". iPureIntro. simpl. rewrite decide_True; [|lia].
      split; [rewrite app_length mine_after_length; lia|].
      split; [rewrite app_length mine_after_length; lia|]. intros Hnc.
      by rewrite mine_after_weak // (mine_exn_weak B B'). }
    iIntros "HB HB2". iApply wp_setl. iApply wp_getl. simpl. wbind.
    iDestruct (elems_join with "HA2 Hvs") as "Hnew"; [by rewrite HA|done|].
    iDestruct (elems_join _ (insert_at i vs l) with "Hnew HB2") as "Hnew"; [loc_solve| |].
    { unfold insert_at. rewrite HlAB take_app_alt; [|done]. rewrite drop_app_alt; [|done].
      by rewrite assoc_L. }
    iDestruct (elems_join with "HA HB") as "Hl";
      [rewrite mine_after_length; loc_solve|done|].
    iDestruct (body_intro p (insert_at i vs l) k with "Hnew Hn4") as "Hnew"; [loc_solve|nlia|nlia|].
    replace (length l) with (length (mine_after A ++ mine_after B))
      by (rewrite app_length !mine_after_length; lia).
    iApply (wp_replace_storage st so with "Hb Hl Hr [] Hnew"); [done|done|nlia| |done| |].
    { loc_solve. }
    { iPureIntro. rewrite app_length !mine_after_length. lia. }
    iIntros "Hv". iApply wp_ret. iDestruct "HK" as "[HK _]". subst k. rewrite Hc3.
    replace (n + length (mine_after A ++ mine_after B))%nat with (length (insert_at i vs l))
      by (rewrite app_length !mine_after_length insert_at_length; lia).
    iApply ("HK" with "[] Hv"). iPureIntro.
    replace (length (mine_after A ++ mine_after B)) with (length l)
      by (rewrite app_length !mine_after_length; lia). done.
  Qed.
End grow2.
