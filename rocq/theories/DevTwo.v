(** * sfl::devector: construction, destruction, functions of two objects, access *)

From Verif Require Export DevAssign.
From Coq Require Import ZifyBool.
From iris.proofmode Require Import environments tactics.
Open Scope Z_scope.

Section construction.
  Context `{E : Env}.

  Lemma dev_at_null a : emp ⊢ dev_at a null 0 [] 0.
  Proof.
    iIntros "_". unfold dev_at. rewrite ablock_0 elems_nil. simpl.
    pose proof max_size_ok. iPureIntro. split_and!; try done; lia.
  Qed.
  Lemma dev_null_emp a b : dev_at a b 0 [] 0 ⊢ ⟦b = null⟧.
  Proof.
    iIntros "(_ & Ha & Hr & Hl & Hr2)". rewrite ablock_0. simpl. rewrite elems_nil.
    iDestruct "Ha" as "%Hb". by iPureIntro.
  Qed.
  Lemma dev_empty_dobj (a : nat) : dev_empty a = dobj a null 0 0 0.
  Proof. done. Qed.
  Lemma dev_nil_storage (o : ddata) : dev_storage null null null null o = dobj (d_alloc o) null 0 0 0.
  Proof. done. Qed.

  Lemma wp_dv_init_range PX P P' a srcs vs Q X :
    mks_ok PX P srcs vs P' -> length srcs = length vs ->
    P ⊢
    ((∀ b, P' -∗ dev_at a b 0 vs (zlen vs) -∗ Q tt (dobj a b 0 (zlen vs) (zlen vs))) ∧
     (∀ e s, ⟦ctor_fail (length vs) e⟧ -∗ (match e with EUser => PX | _ => P end) -∗ X e s)) -∗
    wp (dv_init_range srcs) (dobj a null 0 0 0) Q X.
  Proof.
    iIntros (Hsrc Hls) "HP HK". unfold dv_init_range. rewrite Hls. cbv zeta. unfold dv_check_size. wbind.
    destruct (Z.ltb_spec max_size (zlen vs)) as [Hms|Hms].
    { iApply wp_throw; [by (left + right)|]. iDestruct "HK" as "[_ HK]". by iApply ("HK" $! ELength with "[%] HP"). }
    iApply wp_ret. wbind. iApply wp_get. wbeta. dred. wbind. iApply wp_allocate; [lia|]. iSplit; last first.
    { iDestruct "HK" as "[_ HK]". by iApply ("HK" $! EBadAlloc with "[%] HP"). }
    iIntros (b) "Ha Hr". wbind. iApply wp_modify. iApply wp_try. wbind. rewrite Nat2Z.id.
    iApply (wp_ucopy with "HP Hr"); [done|]. iSplit.
    - iIntros "HP Hl". wbeta. change (dev_storage b b b (b +ₗ zlen vs) (dobj a null 0 0 0))
        with (Dev a b b b (b +ₗ zlen vs)).
      replace (Dev a b b b (b +ₗ zlen vs)) with (dobj a b 0 0 (zlen vs))
        by (by rewrite /dobj !loc_add_0).
      iApply (wp_set_last _ _ _ _ _ _ (zlen vs)); [done|]. iDestruct "HK" as "[HK _]".
      iApply ("HK" with "HP"). iApply (dev_close with "Ha [] Hl []"); try done; try lia.
      all: try (by rewrite loc_add_0).
      all: simpl; rewrite ?Z.sub_diag; done.
    - iIntros "HP Hr". iApply (wp_deallocate with "Ha [Hr]"); [by rewrite Nat2Z.id|].
      iDestruct "HK" as "[_ HK]". by iApply ("HK" $! EUser with "[%] HP").
  Qed.
  Lemma wp_dv_init_fill a ar v (n : nat) Q X :
    mk_ok emp emp ar v emp ->
    emp ⊢
    ((∀ b, dev_at a b 0 (replicate n v) (Z.of_nat n) -∗ Q tt (dobj a b 0 (Z.of_nat n) (Z.of_nat n))) ∧
     (∀ e s, ⟦ctor_fail n e⟧ -∗ X e s)) -∗
    wp (dv_init_fill (Z.of_nat n) ar) (dobj a null 0 0 0) Q X.
  Proof.
    iIntros (Hmk) "_ HK". unfold dv_init_fill. unfold dv_check_size. wbind.
    destruct (Z.ltb_spec max_size (Z.of_nat n)) as [Hms|Hms].
    { iApply wp_throw; [by (left + right)|]. iDestruct "HK" as "[_ HK]". by iApply ("HK" $! ELength with "[%]"). }
    iApply wp_ret. wbind. iApply wp_get. wbeta. dred. wbind. iApply wp_allocate; [lia|]. iSplit; last first.
    { iDestruct "HK" as "[_ HK]". by iApply ("HK" $! EBadAlloc with "[%]"). }
    iIntros (b) "Ha Hr". wbind. iApply wp_modify. iApply wp_try. wbind. rewrite Nat2Z.id.
    iApply (wp_ufill_n emp%I with "[//] Hr"); [done|]. iSplit.
    - iIntros "_ Hl". wbeta. change (dev_storage b b b (b +ₗ Z.of_nat n) (dobj a null 0 0 0))
        with (Dev a b b b (b +ₗ Z.of_nat n)).
      replace (Dev a b b b (b +ₗ Z.of_nat n)) with (dobj a b 0 0 (Z.of_nat n))
        by (by rewrite /dobj !loc_add_0).
      iApply (wp_set_last _ _ _ _ _ _ (Z.of_nat n)); [done|]. iDestruct "HK" as "[HK _]".
      iApply "HK". iApply (dev_close with "Ha [] Hl []"); try done; try (len; lia).
      all: try (by rewrite loc_add_0).
      all: len; simpl; rewrite ?Z.sub_diag; done.
    - iIntros "_ Hr". iApply (wp_deallocate with "Ha [Hr]"); [by rewrite Nat2Z.id|].
      iDestruct "HK" as "[_ HK]". by iApply ("HK" $! EUser with "[%]").
  Qed.

  Lemma wp_dv_destructor a b p l cap Q X :
    dev_at a b p l cap ⊢ (∀ s, Q tt s) -∗ wp dv_destructor (dobj a b p (zlen l) cap) Q X.
  Proof.
    iIntros "(%Hlen & Ha & Hr1 & Hl & Hr2) HQ". unfold dv_destructor. wbind. iApply wp_get. wbeta. dred.
    wbind. iApply (wp_destroy_a with "Hl").
    { by rewrite loc_add_assoc. }
    iIntros "Hl". wbind. iApply wp_psub; [done|]. wbeta.
    iDestruct (raws_join _ (length l + Z.to_nat (cap - (p + zlen l))) with "Hl Hr2") as "Hl";
      [by rewrite loc_add_assoc|done|].
    iDestruct (raws_join _ (Z.to_nat cap) with "Hr1 Hl") as "Hr"; [f_equal; lia|lia|].
    by iApply (wp_deallocate with "Ha Hr").
  Qed.
  Lemma wp_dv_init_input fixed a vs Q X :
    emp ⊢
    ((∀ b p cap, dev_at a b p vs cap -∗ Q tt (dobj a b p (zlen vs) cap)) ∧
     (∀ e s, ⟦e <> EOutOfRange⟧ -∗ X e s)) -∗
    wp (dv_init_input fixed (AVal <$> vs)) (dobj a null 0 0 0) Q X.
  Proof.
    iIntros "_ HK". unfold dv_init_input. iApply wp_try. iDestruct (dev_at_null a with "[//]") as "H0".
    iApply (wp_dv_append_loop fixed a null 0 [] 0 vs with "H0"). iSplit.
    - iIntros (b' p' cap') "_ Hd". iDestruct "HK" as "[HK _]". by iApply "HK".
    - iIntros (e b' p' l' cap') "%Hx Hd". destruct Hx as [Hx _].
      iApply (wp_dv_destructor with "Hd"). iIntros (s). iDestruct "HK" as "[_ HK]". by iApply ("HK" with "[%]").
  Qed.

  Lemma wp_dv_reset fixed a b p l cap Q X :
    fixed = true \/ p = 0 ->
    dev_at a b p l cap ⊢ Q tt (dobj a null 0 0 0) -∗
    wp (dv_reset fixed 0) (dobj a b p (zlen l) cap) Q X.
  Proof.
    iIntros (Hp) "Hd HQ". unfold dv_reset. wbind. iApply wp_get. wbeta. dred.
    replace (if fixed then b else b +ₗ p) with b.
    2:{ destruct Hp as [->| ->]; [done|]. rewrite loc_add_0. by destruct fixed. }
    iApply (wp_give_back with "Hd"); [done|]. simpl. wbind. iApply wp_modify. iApply wp_ret.
    rewrite dev_nil_storage. done.
  Qed.
  (** An object without storage. *)
  Lemma dev_at_realloc a a' b p : dev_at a b p [] 0 ⊢ dev_at a' b p [] 0.
  Proof. iIntros "(%H & Hown & Hb)". unfold dev_at. rewrite !ablock_0. by iFrame. Qed.
End construction.

Section two.
  Context `{E : Env} (fixed : bool).

  Lemma wp_dv_init_copy a1 a2 b2 p2 l2 c2 Q X :
    dev_at a2 b2 p2 l2 c2 ⊢
    ((∀ b, dev_at a1 b 0 l2 (zlen l2) -∗ dev_at a2 b2 p2 l2 c2 -∗
        Q tt (dobj a1 b 0 (zlen l2) (zlen l2), dobj a2 b2 p2 (zlen l2) c2)) ∧
     (∀ e s1, ⟦ctor_fail (length l2) e⟧ -∗ dev_at a2 b2 p2 l2 c2 -∗ X e (s1, dobj a2 b2 p2 (zlen l2) c2))) -∗
    wp dv_initialize_copy (dobj a1 null 0 0 0, dobj a2 b2 p2 (zlen l2) c2) Q X.
  Proof.
    iIntros "Hd HK". unfold dv_initialize_copy. wbind. iApply wp_get. wbind. cbn [fst snd]. dred.
    iApply wp_range; [by rewrite loc_add_assoc|]. iApply wp_on1.
    iDestruct (dev_at_open with "Hd") as "[Hl Hd]".
    iApply (wp_dv_init_range with "Hl"); [apply mks_refs_copy|by rewrite refs_length|]. iSplit.
    - iIntros (b) "Hl H1". iDestruct "HK" as "[HK _]". iApply ("HK" with "H1"). by iApply "Hd".
    - iIntros (e s) "%Hf Hl". iDestruct "HK" as "[_ HK]". iApply ("HK" with "[//]").
      iApply "Hd"; [done|]. by destruct e.
  Qed.
  Lemma wp_dv_copy_ctor a0 a2 b2 p2 l2 c2 Q X :
    dev_at a2 b2 p2 l2 c2 ⊢
    ((∀ b, dev_at (soccc a2) b 0 l2 (zlen l2) -∗ dev_at a2 b2 p2 l2 c2 -∗
        Q tt (dobj (soccc a2) b 0 (zlen l2) (zlen l2), dobj a2 b2 p2 (zlen l2) c2)) ∧
     (∀ e s1, ⟦ctor_fail (length l2) e⟧ -∗ dev_at a2 b2 p2 l2 c2 -∗ X e (s1, dobj a2 b2 p2 (zlen l2) c2))) -∗
    wp dv_copy_ctor (a0, dobj a2 b2 p2 (zlen l2) c2) Q X.
  Proof.
    iIntros "Hd HK". unfold dv_copy_ctor. wbind. iApply wp_get. wbind. iApply wp_put.
    by iApply (wp_dv_init_copy with "Hd").
  Qed.
  Lemma wp_dv_copy_ctor_alloc a a0 a2 b2 p2 l2 c2 Q X :
    dev_at a2 b2 p2 l2 c2 ⊢
    ((∀ b, dev_at a b 0 l2 (zlen l2) -∗ dev_at a2 b2 p2 l2 c2 -∗
        Q tt (dobj a b 0 (zlen l2) (zlen l2), dobj a2 b2 p2 (zlen l2) c2)) ∧
     (∀ e s1, ⟦ctor_fail (length l2) e⟧ -∗ dev_at a2 b2 p2 l2 c2 -∗ X e (s1, dobj a2 b2 p2 (zlen l2) c2))) -∗
    wp (dv_copy_ctor_alloc a) (a0, dobj a2 b2 p2 (zlen l2) c2) Q X.
  Proof.
    iIntros "Hd HK". unfold dv_copy_ctor_alloc. wbind. iApply wp_get. wbind. iApply wp_put.
    by iApply (wp_dv_init_copy with "Hd").
  Qed.

  Lemma wp_dv_init_move_same a b2 p2 l2 c2 Q X :
    dev_at a b2 p2 l2 c2 ⊢
    (dev_at a b2 p2 l2 c2 -∗ dev_at a null 0 [] 0 -∗
       Q tt (dobj a b2 p2 (zlen l2) c2, dobj a null 0 0 0)) -∗
    wp dv_initialize_move (dobj a null 0 0 0, dobj a b2 p2 (zlen l2) c2) Q X.
  Proof.
    iIntros "Hd HK". unfold dv_initialize_move. wbind. iApply wp_get. cbn [fst snd]. dred.
    rewrite Nat.eqb_refl. iApply wp_put. iApply ("HK" with "Hd"). by iApply dev_at_null.
  Qed.
  Lemma wp_dv_init_move_other a1 a2 b2 p2 l2 c2 Q X :
    a1 <> a2 ->
    dev_at a2 b2 p2 l2 c2 ⊢
    ((∀ b, dev_at a1 b 0 l2 (zlen l2) -∗ dev_at a2 b2 p2 (vmoved <$> l2) c2 -∗
        Q tt (dobj a1 b 0 (zlen l2) (zlen l2), dobj a2 b2 p2 (zlen (vmoved <$> l2)) c2)) ∧
     (∀ e s1 l2', ⟦ctor_fail (length l2) e /\ length l2' = length l2 /\ (e <> EUser -> l2' = l2)⟧ -∗
        dev_at a2 b2 p2 l2' c2 -∗ X e (s1, dobj a2 b2 p2 (zlen l2') c2))) -∗
    wp dv_initialize_move (dobj a1 null 0 0 0, dobj a2 b2 p2 (zlen l2) c2) Q X.
  Proof.
    iIntros (Hne) "Hd HK". unfold dv_initialize_move. wbind. iApply wp_get. cbn [fst snd]. dred.
    rewrite (proj2 (Nat.eqb_neq _ _) Hne). wbind. iApply wp_range; [by rewrite loc_add_assoc|]. iApply wp_on1.
    iDestruct (dev_at_open with "Hd") as "[Hl Hd]".
    iApply (wp_dv_init_range with "Hl"); [apply mks_refs_move|by rewrite refs_length|]. iSplit.
    - iIntros (b) "Hl H1". iDestruct "HK" as "[HK _]". rewrite fmap_length. iApply ("HK" with "H1").
      iApply ("Hd" with "[%] Hl"). by rewrite fmap_length.
    - iIntros (e s) "%Hf Hl". iDestruct "HK" as "[_ HK]".
      destruct (decide (e = EUser)) as [->|He].
      + iDestruct "Hl" as (l') "[%Hl' Hl]". destruct Hl' as [Hl' _]. rewrite -Hl'.
        iApply ("HK" $! EUser s l' with "[%]"); [done|]. by iApply "Hd".
      + iApply ("HK" $! e s l2 with "[%]"); [done|]. iApply "Hd"; [done|]. by destruct e.
  Qed.

  (** The first part of both assignments. *)
  Lemma wp_dv_propagate (flag : bool) a1 b1 p1 l1 c1 o2 Q X :
    (flag = true -> a1 <> d_alloc o2 -> fixed = true \/ p1 = 0) ->
    dev_at a1 b1 p1 l1 c1 ⊢
    (∀ b' p' l' c', ⟦if flag && negb (a1 =? d_alloc o2)%nat then b' = null /\ p' = 0 /\ l' = [] /\ c' = 0
                  else b' = b1 /\ p' = p1 /\ l' = l1 /\ c' = c1⟧ -∗
        dev_at (if flag then d_alloc o2 else a1) b' p' l' c' -∗
        Q tt (dobj (if flag then d_alloc o2 else a1) b' p' (zlen l') c', o2)) -∗
    wp (if flag then
          (if negb (a1 =? d_alloc o2)%nat then on1 (dv_reset fixed 0) else ret tt);;
          on1 (modS (dev_alloc (d_alloc o2)))
        else ret tt)%prog (dobj a1 b1 p1 (zlen l1) c1, o2) Q X.
  Proof.
    iIntros (Hp) "Hv HK". destruct flag; simpl; last first.
    { iApply wp_ret. by iApply ("HK" with "[] Hv"). }
    wbind. destruct (Nat.eqb_spec a1 (d_alloc o2)) as [->|Hne]; simpl.
    - iApply wp_ret. iApply wp_on1. iApply wp_modify. by iApply ("HK" with "[] Hv").
    - iApply wp_on1. iApply (wp_dv_reset with "Hv"); [by apply Hp|].
      iApply wp_on1. iApply wp_modify. iApply ("HK" $! null 0 [] 0); [done|]. by iApply dev_at_null.
  Qed.

  Lemma wp_dv_assign_copy a1 b1 p1 l1 c1 a2 b2 p2 l2 c2 Q X :
    (pocca = true -> a1 <> a2 -> fixed = true \/ p1 = 0) ->
    dev_at a1 b1 p1 l1 c1 ⊢ dev_at a2 b2 p2 l2 c2 -∗
    ((∀ b1' p1' c1', ⟦(pocca = false \/ a1 = a2) -> zlen l2 <= c1 -> b1' = b1 /\ c1' = c1⟧ -∗
        dev_at (if pocca then a2 else a1) b1' p1' l2 c1' -∗ dev_at a2 b2 p2 l2 c2 -∗
        Q tt (dobj (if pocca then a2 else a1) b1' p1' (zlen l2) c1', dobj a2 b2 p2 (zlen l2) c2)) ∧
     (∀ e b1' p1' l1' c1', ⟦ctor_fail (length l2) e⟧ -∗
        dev_at (if pocca then a2 else a1) b1' p1' l1' c1' -∗ dev_at a2 b2 p2 l2 c2 -∗
        X e (dobj (if pocca then a2 else a1) b1' p1' (zlen l1') c1', dobj a2 b2 p2 (zlen l2) c2))) -∗
    wp (dv_assign_copy fixed) (dobj a1 b1 p1 (zlen l1) c1, dobj a2 b2 p2 (zlen l2) c2) Q X.
  Proof.
    iIntros (Hp) "H1 H2 HK". unfold dv_assign_copy. wbind. iApply wp_get. cbn [fst snd]. wbind.
    rewrite (d_alloc_dobj a1).
    iApply (wp_dv_propagate with "H1"); [done|]. iIntros (b' p' l' c') "%Hx H1". dred.
    rewrite d_alloc_dobj in Hx.
    set (a := if pocca then a2 else a1). wbind. iApply wp_range; [by rewrite loc_add_assoc|].
    iDestruct (dev_at_open with "H2") as "[Hl H2]". iApply wp_on1.
    iApply (wp_dv_assign_range with "Hl H1"); [apply src3_copy|]. iSplit.
    - iIntros (b'' p'' c'') "%Hs Hl H1". iDestruct "HK" as "[HK _]". iApply ("HK" with "[%] H1").
      { intros Hpa Hfit. assert (b' = b1 /\ p' = p1 /\ l' = l1 /\ c' = c1) as (-> & -> & -> & ->).
        { destruct Hpa as [Hpa|<-]; [by rewrite Hpa in Hx|].
          rewrite Nat.eqb_refl andb_false_r in Hx. done. }
        unfold assign_to in Hs. destruct (Z.leb_spec (zlen l2) (c1 - p1)); [naive_solver|].
        destruct (Z.leb_spec (zlen l2) c1); [naive_solver|lia]. }
      by iApply "H2".
    - iIntros (e b'' l'' c'') "%Hf Hl H1". iDestruct "HK" as "[_ HK]".
      iApply ("HK" with "[] H1").
      { iPureIntro. destruct Hf as (_ & _ & Hf). destruct e; naive_solver. }
      iApply ("H2" with "[//]"). by destruct e.
  Qed.

  (** A move that takes the storage over. *)
  Lemma wp_dv_assign_move_same a1 b1 p1 l1 c1 a2 b2 p2 l2 c2 Q X :
    ma_alloc a1 a2 = a2 -> fixed = true \/ p1 = 0 ->
    dev_at a1 b1 p1 l1 c1 ⊢ dev_at a2 b2 p2 l2 c2 -∗
    (dev_at a2 b2 p2 l2 c2 -∗ dev_at a2 null 0 [] 0 -∗
       Q tt (dobj a2 b2 p2 (zlen l2) c2, dobj a2 null 0 0 0)) -∗
    wp (dv_assign_move fixed) (dobj a1 b1 p1 (zlen l1) c1, dobj a2 b2 p2 (zlen l2) c2) Q X.
  Proof.
    iIntros (Ha Hp) "H1 H2 HK". unfold dv_assign_move. wbind. iApply wp_get. cbn [fst snd]. wbind.
    rewrite (d_alloc_dobj a1).
    iApply (wp_dv_propagate with "H1"); [done|]. iIntros (b' p' l' c') "%Hx H1". dred.
    rewrite d_alloc_dobj in Hx. change (if pocma then a2 else a1) with (ma_alloc a1 a2). rewrite Ha.
    wbind. iApply wp_get. cbn [fst snd]. dred. rewrite Nat.eqb_refl. wbind. iApply wp_on1.
    iApply (wp_dv_reset with "H1").
    { destruct (pocma && negb (a1 =? a2)%nat); destruct Hx as (-> & -> & _); [by right|done]. }
    wbind. iApply wp_get. wbeta. iApply wp_put. cbn [fst snd]. iApply ("HK" with "H2"). by iApply dev_at_null.
  Qed.
  Lemma wp_dv_assign_move_other a1 b1 p1 l1 c1 a2 b2 p2 l2 c2 Q X :
    ma_alloc a1 a2 <> a2 ->
    dev_at a1 b1 p1 l1 c1 ⊢ dev_at a2 b2 p2 l2 c2 -∗
    ((∀ b1' p1' c1', ⟦zlen l2 <= c1 -> b1' = b1 /\ c1' = c1⟧ -∗
        dev_at (ma_alloc a1 a2) b1' p1' l2 c1' -∗ dev_at a2 b2 p2 (vmoved <$> l2) c2 -∗
        Q tt (dobj (ma_alloc a1 a2) b1' p1' (zlen l2) c1', dobj a2 b2 p2 (zlen (vmoved <$> l2)) c2)) ∧
     (∀ e b1' p1' l1' c1' l2', ⟦ctor_fail (length l2) e /\ length l2' = length l2⟧ -∗
        dev_at (ma_alloc a1 a2) b1' p1' l1' c1' -∗ dev_at a2 b2 p2 l2' c2 -∗
        X e (dobj (ma_alloc a1 a2) b1' p1' (zlen l1') c1', dobj a2 b2 p2 (zlen l2') c2))) -∗
    wp (dv_assign_move fixed) (dobj a1 b1 p1 (zlen l1) c1, dobj a2 b2 p2 (zlen l2) c2) Q X.
  Proof.
    iIntros (Ha) "H1 H2 HK". unfold dv_assign_move.
    assert (pocma = false) as Hpm by (unfold ma_alloc in Ha; by destruct pocma).
    wbind. iApply wp_get. cbn [fst snd]. rewrite Hpm. wbind. iApply wp_ret. wbind. iApply wp_get. cbn [fst snd]. dred.
    unfold ma_alloc in *. rewrite Hpm in Ha |- *.
    rewrite (proj2 (Nat.eqb_neq _ _) Ha). wbind. iApply wp_range; [by rewrite loc_add_assoc|].
    iDestruct (dev_at_open with "H2") as "[Hl H2]". iApply wp_on1.
    iApply (wp_dv_assign_range with "Hl H1"); [apply src3_move|]. iSplit.
    - iIntros (b'' p'' c'') "%Hs Hl H1". iDestruct "HK" as "[HK _]". rewrite fmap_length.
      iApply ("HK" with "[%] H1").
      { intros Hfit. unfold assign_to in Hs. destruct (Z.leb_spec (zlen l2) (c1 - p1)); [naive_solver|].
        destruct (Z.leb_spec (zlen l2) c1); [naive_solver|lia]. }
      iApply ("H2" with "[%] Hl"). by rewrite fmap_length.
    - iIntros (e b'' l'' c'') "%Hf Hl H1". iDestruct "HK" as "[_ HK]".
      assert (ctor_fail (length l2) e) as Hcf.
      { destruct Hf as (_ & _ & Hf). destruct e; naive_solver. }
      iAssert (any_elems (b2 +ₗ p2) (length l2)) with "[Hl]" as "Hl".
      { destruct e; try done; iExists l2; by iFrame. }
      iDestruct "Hl" as (l2') "[%Hl2 Hl]". rewrite -Hl2.
      iApply ("HK" with "[%] H1"); [by rewrite Hl2|]. by iApply ("H2" with "[] Hl").
  Qed.

  Lemma wp_dv_assign_move_self a b p l cap Q X :
    fixed = true \/ p = 0 ->
    dev_at a b p l cap ⊢ (dev_at a null 0 [] 0 -∗ Q tt (dobj a null 0 0 0)) -∗
    wp (dv_assign_move_self fixed) (dobj a b p (zlen l) cap) Q X.
  Proof.
    iIntros (Hp) "Hv HK". unfold dv_assign_move_self. wbind. iApply (wp_dv_reset with "Hv"); [done|].
    wbind. iApply wp_get. wbeta. wbind. iApply wp_modify. iApply wp_modify. iApply "HK". by iApply dev_at_null.
  Qed.

  Lemma wp_dv_swap a1 b1 p1 l1 c1 a2 b2 p2 l2 c2 Q X :
    pocs = true \/ a1 = a2 ->
    dev_at a1 b1 p1 l1 c1 ⊢ dev_at a2 b2 p2 l2 c2 -∗
    (dev_at a2 b2 p2 l2 c2 -∗ dev_at a1 b1 p1 l1 c1 -∗
       Q tt (dobj a2 b2 p2 (zlen l2) c2, dobj a1 b1 p1 (zlen l1) c1)) -∗
    wp dv_swap (dobj a1 b1 p1 (zlen l1) c1, dobj a2 b2 p2 (zlen l2) c2) Q X.
  Proof.
    iIntros (Hp) "H1 H2 HK". unfold dv_swap. wbind. iApply wp_get. cbn [fst snd]. dred. wbind.
    iApply wp_assert.
    { apply orb_true_iff. destruct Hp as [->|<-]; [by left|right]. apply Nat.eqb_refl. }
    wbind. destruct pocs eqn:Hpocs.
    - iApply wp_put. wbind. iApply wp_get. iApply wp_put. by iApply ("HK" with "H2 H1").
    - destruct Hp as [?| <-]; [done|]. iApply wp_ret. wbind. iApply wp_get. iApply wp_put.
      by iApply ("HK" with "H2 H1").
  Qed.

  Lemma wp_dv_erase_if a b p l cap f Q X :
    dev_at a b p l cap ⊢
    ((dev_at a b p (keep f l) cap -∗
        Q (Z.of_nat (length l - length (keep f l))) (dobj a b p (zlen (keep f l)) cap)) ∧
     (∀ l', ⟦length l' = length l⟧ -∗ dev_at a b p l' cap -∗ X EUser (dobj a b p (zlen l) cap))) -∗
    wp (dv_erase_if f) (dobj a b p (zlen l) cap) Q X.
  Proof.
    iIntros "Hd HK". unfold dv_erase_if. wbind. iApply wp_get. wbeta. dred. wbind.
    iDestruct (dev_at_open with "Hd") as "[Hl Hd]".
    iApply (wp_remove_if with "Hl"); [by rewrite loc_add_assoc|].
    pose proof (keep_length f l) as Hk. iSplit; last first.
    { iIntros (l') "%Hl' Hl". iDestruct "HK" as "[_ HK]". iApply ("HK" $! l'); [done|]. by iApply "Hd". }
    iIntros (J) "%HJ Hl". set (l2 := keep f l ++ J) in *.
    assert (length l2 = length l) as Hl2. { unfold l2. rewrite app_length. lia. }
    iDestruct ("Hd" with "[%//] Hl") as "Hd". wbind.
    iApply (wp_psub _ _ (Z.of_nat (length l - length (keep f l)))).
    { rewrite !loc_add_assoc. f_equal. lia. }
    wbind. rewrite loc_add_assoc -Hl2.
    iApply (wp_dv_erase_range _ _ _ _ _ (length (keep f l)) (length l2) with "Hd"); [lia|done|done|].
    rewrite (proj2 (Z.ltb_ge _ _)); [|lia]. cbv zeta.
    iSplit.
    - iIntros "Hd". iApply wp_ret. iDestruct "HK" as "[HK _]". rewrite Hl2.
      replace (take (length (keep f l)) l2 ++ drop (length l) l2) with (keep f l).
      2:{ rewrite -Hl2 drop_all app_nil_r. unfold l2. by rewrite take_app. }
      by iApply "HK".
    - iIntros (l') "%Hl' Hd". destruct Hl' as [Hl' _]. iDestruct "HK" as "[_ HK]". rewrite Hl2.
      iApply ("HK" with "[%] Hd"). lia.
  Qed.

  Lemma wp_dv_eq r a1 b1 p1 l1 c1 a2 b2 p2 l2 c2 Q X :
    dev_at a1 b1 p1 l1 c1 ⊢ dev_at a2 b2 p2 l2 c2 -∗
    ((∀ b : bool, ⟦b = true <-> Forall2 (fun x y => r x y = true) l1 l2⟧ -∗
        dev_at a1 b1 p1 l1 c1 -∗ dev_at a2 b2 p2 l2 c2 -∗
        Q b (dobj a1 b1 p1 (zlen l1) c1, dobj a2 b2 p2 (zlen l2) c2)) ∧
     (dev_at a1 b1 p1 l1 c1 -∗ dev_at a2 b2 p2 l2 c2 -∗
        X EUser (dobj a1 b1 p1 (zlen l1) c1, dobj a2 b2 p2 (zlen l2) c2))) -∗
    wp (dv_eq r) (dobj a1 b1 p1 (zlen l1) c1, dobj a2 b2 p2 (zlen l2) c2) Q X.
  Proof.
    iIntros "H1 H2 HK". unfold dv_eq. wbind. iApply wp_on1.
    iApply wp_dv_size. wbind. iApply wp_on2. iApply wp_dv_size. wbind. iApply wp_get. wbeta.
    destruct (Z.eqb_spec (Z.of_nat (length l1)) (Z.of_nat (length l2))) as [Heq|Hne].
    - rewrite Nat2Z.id. cbn [fst snd]. dred.
      iDestruct (dev_at_open with "H1") as "[Hl1 H1]". iDestruct (dev_at_open with "H2") as "[Hl2 H2]".
      iApply (wp_equal with "Hl1 Hl2"); [lia|]. iSplit.
      + iIntros (b) "%Hb Hl1 Hl2". iDestruct "HK" as "[HK _]". iApply ("HK" with "[//] [H1 Hl1]").
        * by iApply "H1".
        * by iApply "H2".
      + iIntros "Hl1 Hl2". iDestruct "HK" as "[_ HK]". iApply ("HK" with "[H1 Hl1]").
        * by iApply "H1".
        * by iApply "H2".
    - iApply wp_ret. iDestruct "HK" as "[HK _]". iApply ("HK" with "[%] H1 H2").
      split; [done|]. intros HF. apply Forall2_length in HF. lia.
  Qed.
  Lemma wp_dv_lt lt a1 b1 p1 l1 c1 a2 b2 p2 l2 c2 Q X :
    dev_at a1 b1 p1 l1 c1 ⊢ dev_at a2 b2 p2 l2 c2 -∗
    ((∀ b : bool, ⟦b = true <-> lex_less lt l1 l2⟧ -∗
        dev_at a1 b1 p1 l1 c1 -∗ dev_at a2 b2 p2 l2 c2 -∗
        Q b (dobj a1 b1 p1 (zlen l1) c1, dobj a2 b2 p2 (zlen l2) c2)) ∧
     (dev_at a1 b1 p1 l1 c1 -∗ dev_at a2 b2 p2 l2 c2 -∗
        X EUser (dobj a1 b1 p1 (zlen l1) c1, dobj a2 b2 p2 (zlen l2) c2))) -∗
    wp (dv_lt lt) (dobj a1 b1 p1 (zlen l1) c1, dobj a2 b2 p2 (zlen l2) c2) Q X.
  Proof.
    iIntros "H1 H2 HK". unfold dv_lt. wbind. iApply wp_on1.
    iApply wp_dv_size. wbind. iApply wp_on2. iApply wp_dv_size. wbind. iApply wp_get. wbeta.
    rewrite !Nat2Z.id. cbn [fst snd]. dred.
    iDestruct (dev_at_open with "H1") as "[Hl1 H1]". iDestruct (dev_at_open with "H2") as "[Hl2 H2]".
    iApply (wp_lexcmp with "Hl1 Hl2"). iSplit.
    - iIntros (b) "%Hb Hl1 Hl2". iDestruct "HK" as "[HK _]". iApply ("HK" with "[//] [H1 Hl1]").
      + by iApply "H1".
      + by iApply "H2".
    - iIntros "Hl1 Hl2". iDestruct "HK" as "[_ HK]". iApply ("HK" with "[H1 Hl1]").
      + by iApply "H1".
      + by iApply "H2".
  Qed.
End two.
