(** * sfl::vector: storage policy and members specific to vector *)

From Verif Require Export Vector Ops.
From iris.proofmode Require Import tactics.
Open Scope Z_scope.

Lemma wrap_small z : 0 <= z < 2 ^ 64 -> wrap z = z.
Proof. intros Hz. unfold wrap. by apply Z.mod_small. Qed.

Section policy.
  Context `{E : Env}.

  (** 1194-1216, without wrap-around. *)
  Lemma vec_calc_cap_spec size cap n :
    0 <= size <= cap -> cap <= max_size -> 0 <= n ->
    vec_calc_cap size cap n =
      if decide (max_size < size + n) then None
      else Some (Z.max (size + n) (Z.min max_size (cap + cap / 2))).
  Proof.
    intros H1 H2 H3. pose proof max_size_ok as Hms. unfold vec_calc_cap.
    rewrite (wrap_small (max_size - size)); [|lia].
    rewrite (wrap_small (max_size - cap)); [|lia].
    assert (0 <= cap / 2 <= cap) as Hhalf.
    { split; [apply Z.div_pos; lia|]. apply Z.div_le_upper_bound; lia. }
    destruct (Z.ltb_spec (max_size - size) n).
    { case_decide; [done|lia]. }
    case_decide; [lia|].
    destruct (Z.ltb_spec (max_size - cap) (cap / 2)).
    { f_equal. lia. }
    rewrite (wrap_small (size + n)); [|lia]. rewrite (wrap_small (cap + cap / 2)); [|lia].
    destruct (Z.ltb_spec (size + n) (cap + cap / 2)); f_equal; lia.
  Qed.

  Lemma ablock_0 a p : ablock a p 0 ⊣⊢ ⟦p = null⟧.
  Proof. unfold ablock. by case_decide. Qed.

  Program Definition vec_ok : storage_ok vec_storage := {|
    so_own := ablock;
    so_two := fun a f cap p c => (ablock a f cap ∗ ablock a p c)%I;
    so_gone := emp%I;
    so_cap := fun c => 0 <= c <= max_size;
    so_capfor := fun n => n;
  |}.
  Next Obligation. done. Qed.
  Next Obligation. simpl. intros. lia. Qed.
  Next Obligation.
    simpl. intros len cap n Hl Hc Hn. rewrite vec_calc_cap_spec; [|lia..].
    case_decide; lia.
  Qed.
  Next Obligation.
    simpl. iIntros (a f n cap c Q X Hcap Hc) "Hown HK". wbind. iApply wp_get. wbeta. wbind.
    iApply wp_allocate; [lia|]. iSplit.
    - iIntros (p) "Hb Hr". iApply wp_ret. iDestruct "HK" as "[HK _]".
      iDestruct (ablock_fresh with "Hb") as "[%Hp Hb]"; [lia|]. destruct Hp.
      iApply ("HK" with "[] [$Hown $Hb] Hr"). iPureIntro. lia.
    - iDestruct "HK" as "[_ HK]". by iApply "HK".
  Qed.
  Next Obligation.
    simpl. iIntros (s f cap p c Q X Hcap Hc) "[Hown Hb] Hr HQ". wbind. iApply wp_get. wbeta.
    iApply (wp_deallocate with "Hb Hr"). by iApply "HQ".
  Qed.
  Next Obligation.
    simpl. iIntros (s f cap p c Q X Hcap) "[Hown Hb] Hr HQ". wbind. iApply wp_get. wbeta.
    iApply (wp_deallocate with "Hown Hr"). by iApply "HQ".
  Qed.
  Next Obligation.
    simpl. iIntros (s f cap Q X Hcap) "Hown Hr HQ". wbind. iApply wp_get. wbeta.
    iApply (wp_deallocate with "Hown Hr"). by iApply "HQ".
  Qed.
  Next Obligation.
    simpl. iIntros (s n Q X Hn) "_ HK". wbind. iApply wp_modify.
    destruct (Z.ltb_spec 0 n) as [Hn0|Hn0].
    - wbind. iApply wp_get. wbeta. wbind. iApply wp_allocate; [lia|]. iSplit.
      + iIntros (p) "Hb Hr". iApply wp_modify. iDestruct "HK" as "[HK _]".
        iSpecialize ("HK" with "Hb Hr"). unfold vobj, with_storage. simpl. by rewrite loc_add_0.
      + iDestruct "HK" as "[_ HK]". iSpecialize ("HK" $! null with "[] []").
        * by rewrite ablock_0.
        * by rewrite raws_0.
        * unfold vobj, with_storage. simpl. by rewrite !loc_add_0.
    - assert (n = 0) as -> by lia. iApply wp_ret. iDestruct "HK" as "[HK _]".
      iSpecialize ("HK" $! null with "[] []").
      + by rewrite ablock_0.
      + by rewrite raws_0.
      + unfold vobj, with_storage. simpl. by rewrite !loc_add_0.
  Qed.
  Next Obligation.
    simpl. iIntros (a f n Q X Hn) "Hown Hr HK". rewrite ablock_0. iDestruct "Hown" as %->.
    wbind. iApply wp_get. wbeta. wbind. iApply wp_allocate; [lia|]. iSplit.
    - iIntros (p) "Hb Hr'". iApply wp_modify. iDestruct "HK" as "[HK _]".
      iSpecialize ("HK" with "Hb Hr'"). unfold vobj, with_storage. simpl. by rewrite loc_add_0.
    - iDestruct "HK" as "[_ HK]". by iApply "HK".
  Qed.
  Next Obligation.
    simpl. iIntros (a f n Q X Hn) "Hown Hr HK". wbind. iApply wp_get. wbeta.
    iApply (wp_deallocate with "Hown Hr"). by iApply "HK".
  Qed.
  Next Obligation.
    simpl. iIntros (a f) "Hown Hr". rewrite ablock_0. iDestruct "Hown" as %->. done.
  Qed.
End policy.

Section vector_proofs.
  Context `{E : Env}.
  Notation vec_at := (vec_at vec_storage vec_ok).

  Lemma vec_at_alloc a f l cap :
    vec_at a f l cap ⊢ ⟦Z.of_nat (length l) <= cap <= max_size⟧ ∗ ablock a f cap ∗ elems f l ∗
      raws (f +ₗ Z.of_nat (length l)) (Z.to_nat cap - length l).
  Proof.
    iIntros "(%Hok & Hown & %Hlc & Hl & Hr)". simpl in *. iFrame. iPureIntro. lia.
  Qed.

  (** The empty object. *)
  Lemma vec_at_null a : emp ⊢ vec_at a null [] 0.
  Proof.
    iIntros "_". unfold Grow.vec_at. simpl. rewrite ablock_0. pose proof max_size_ok.
    iSplit; [iPureIntro; lia|]. iSplit; [done|].
    iApply (body_intro _ [] 0 null 0 with "[] []"); try done.
  Qed.
  Lemma vec_empty_vobj (a : nat) : vec_empty a = vobj a null 0 0.
  Proof. unfold vec_empty, vobj. simpl. by rewrite loc_add_0. Qed.
  Lemma vec_nil_storage (o : vdata) : with_storage null null null o = vobj (v_alloc o) null 0 0.
  Proof. unfold with_storage, vobj. simpl. by rewrite loc_add_0. Qed.

  Lemma wp_relocate a f l cap c Q X :
    Z.of_nat (length l) <= c <= max_size ->
    vec_at a f l cap ⊢
    ((∀ f', vec_at a f' l c -∗ Q tt (vobj a f' (length l) c)) ∧
     (∀ e l', ⟦length l' = length l /\ (e = EBadAlloc /\ l' = l \/ e = EUser) /\
               (nothrow_move || copyable = true -> l' = l)⟧ -∗
        vec_at a f l' cap -∗ X e (vobj a f (length l) cap))) -∗
    wp (relocate_ c) (vobj a f (length l) cap) Q X.
  Proof.
    iIntros (Hc) "(%Hok & Hown & %Hlc & Hl & Hr) HK". simpl in Hok. unfold relocate_.
    wbind. iApply wp_get. wbeta. wbind. iApply wp_allocate; [lia|]. iSplit; last first.
    { iDestruct "HK" as "[_ HK]". iApply ("HK" $! EBadAlloc l).
      { iPureIntro. split; [done|]. split; [by left|done]. }
      unfold Grow.vec_at. iFrame "Hown". iSplit; [done|]. by iApply (body_intro with "Hl Hr"). }
    iIntros (p) "Hb Hnew". wbind. iApply wp_try. cbn [vobj v_first v_last v_alloc].
    iDestruct (raws_split _ _ (length l) (Z.to_nat c - length l) with "Hnew") as "[Hn1 Hn2]";
      [lia|done|].
    iApply (wp_umine with "Hl Hn1"); [done|]. iSplit; last first.
    { iIntros (l') "%Hx Hl Hn1". destruct Hx as [[Hx _] _]. destruct Hx as [Hx1 Hx2].
      iDestruct (raws_join _ (Z.to_nat c) with "Hn1 Hn2") as "Hn"; [done|lia|].
      iApply (wp_deallocate with "Hb Hn"). iDestruct "HK" as "[_ HK]".
      iApply ("HK" $! EUser l'); [iPureIntro; split; [done|]; split; [by right|done]|].
      unfold Grow.vec_at. iFrame "Hown". iSplit; [done|].
      iApply (body_intro with "Hl Hr"); [by rewrite Hx1|lia|lia]. }
    iIntros "Hl Hl2".
    iDestruct (body_intro p l c with "Hl2 Hn2") as "Hnew"; [done|lia|done|].
    replace (length l) with (length (mine_after l)) by (by rewrite mine_after_length).
    iApply (wp_replace_storage _ vec_ok _ _ (mine_after l) _ p l c with "[$Hown $Hb] Hl Hr [] Hnew");
      [done|simpl; lia|lia| |done| |].
    { by rewrite mine_after_length. }
    { iPureIntro. by rewrite mine_after_length. }
    iIntros "Hv". iDestruct "HK" as "[HK _]". rewrite mine_after_length. by iApply "HK".
  Qed.

  Lemma wp_vec_reserve a f l cap n Q X :
    0 <= n ->
    vec_at a f l cap ⊢
    ((∀ f', ⟦n <= cap -> f' = f⟧ -∗ vec_at a f' l (Z.max cap n) -∗
        Q tt (vobj a f' (length l) (Z.max cap n))) ∧
     (∀ e l', ⟦length l' = length l /\
               (nothrow_move || copyable = true -> l' = l) /\
               match e with
               | ELength => l' = l /\ max_size < n
               | EBadAlloc => l' = l /\ cap < n
               | EUser => cap < n
               | EOutOfRange => False
               end⟧ -∗
        vec_at a f l' cap -∗ X e (vobj a f (length l) cap))) -∗
    wp (vec_reserve n) (vobj a f (length l) cap) Q X.
  Proof.
    iIntros (Hn) "Hv HK". unfold vec_reserve. wbind. iApply wp_check_size. iSplit; last first.
    { iIntros "%Hms". iDestruct "HK" as "[_ HK]". iApply ("HK" $! ELength l with "[] Hv"). done. }
    iIntros "%Hms". wbind. iApply wp_capacity. wbeta.
    iDestruct (vec_at_len with "Hv") as "[%Hlen Hv]". destruct Hlen as [Hok Hlen].
    destruct (Z.ltb_spec cap n).
    - iApply (wp_relocate with "Hv"); [lia|]. iSplit.
      + iIntros (f') "Hv". iDestruct "HK" as "[HK _]".
        replace (Z.max cap n) with n by lia. iApply ("HK" with "[] Hv"). iPureIntro. lia.
      + iIntros (e l') "%Hx Hv". iDestruct "HK" as "[_ HK]". iApply ("HK" with "[] Hv").
        iPureIntro. destruct Hx as (Hx1 & Hx2 & Hx3). split_and!; [done|done|].
        destruct Hx2 as [[-> ->]| ->]; done.
    - iApply wp_ret. iDestruct "HK" as "[HK _]".
      replace (Z.max cap n) with cap by lia. by iApply ("HK" with "[] Hv").
  Qed.

  Lemma wp_vec_shrink a f l cap Q X :
    vec_at a f l cap ⊢
    ((∀ f', ⟦cap = Z.of_nat (length l) -> f' = f⟧ -∗ vec_at a f' l (Z.of_nat (length l)) -∗
        Q tt (vobj a f' (length l) (Z.of_nat (length l)))) ∧
     (∀ e l', ⟦length l' = length l /\
               (nothrow_move || copyable = true -> l' = l) /\ Z.of_nat (length l) < cap /\
               (e = EBadAlloc /\ l' = l \/ e = EUser)⟧ -∗
        vec_at a f l' cap -∗ X e (vobj a f (length l) cap))) -∗
    wp vec_shrink_to_fit (vobj a f (length l) cap) Q X.
  Proof.
    iIntros "Hv HK". unfold vec_shrink_to_fit. wbind. iApply wp_size. wbeta.
    wbind. iApply wp_capacity. wbeta.
    iDestruct (vec_at_len with "Hv") as "[%Hlen Hv]". destruct Hlen as [Hok Hlen]. simpl in Hok.
    destruct (Z.ltb_spec (Z.of_nat (length l)) cap).
    - iApply (wp_relocate with "Hv"); [lia|]. iSplit.
      + iIntros (f') "Hv". iDestruct "HK" as "[HK _]". iApply ("HK" with "[] Hv"). iPureIntro. lia.
      + iIntros (e l') "%Hx Hv". iDestruct "HK" as "[_ HK]". iApply ("HK" with "[] Hv").
        iPureIntro. destruct Hx as (Hx1 & Hx2 & Hx3). split_and!; [done|done|done|]. done.
    - iApply wp_ret. iDestruct "HK" as "[HK _]".
      replace (Z.of_nat (length l)) with cap by lia. by iApply ("HK" with "[] Hv").
  Qed.

  (** *** Sources: the elements of another container *)

  Lemma ass_refs_copy_gen q l0 l1 :
    ass_ok (elems q (l0 ++ l1)) (elems q (l0 ++ l1))
      (refs ACopy (q +ₗ Z.of_nat (length l0)) (length l1)) l1 (elems q (l0 ++ l1)).
  Proof.
    revert l0. induction l1 as [|v l1 IH]; intros l0; simpl; econstructor.
    - apply as_ok_copy. by rewrite list_lookup_middle.
    - specialize (IH (l0 ++ [v])). rewrite app_length /= -assoc_L /= in IH.
      replace (q +ₗ Z.of_nat (length l0) +ₗ 1) with (q +ₗ Z.of_nat (length l0 + 1)) by loc_solve.
      done.
  Qed.
  Lemma src_copy q l :
    src_ok (elems q l) (elems q l) (refs ACopy q (length l)) l (elems q l).
  Proof.
    split; [by rewrite refs_length|]. intros k. exists (elems q l).
    destruct (le_lt_dec k (length l)) as [Hk|Hk].
    - rewrite refs_take; [|done]. rewrite refs_drop; [|done].
      pose proof (ass_refs_copy_gen q [] (take k l)) as H1. simpl in H1. rewrite loc_add_0 in H1.
      rewrite take_length Nat.min_l in H1; [|done].
      split.
      + clear H1.
        assert (forall l2 l0 l1, ass_ok (elems q (l0 ++ l1 ++ l2)) (elems q (l0 ++ l1 ++ l2))
          (refs ACopy (q +ₗ Z.of_nat (length l0)) (length l1)) l1 (elems q (l0 ++ l1 ++ l2))) as Hgen.
        { intros l2 l0 l1. revert l0. induction l1 as [|v l1 IH]; intros l0; simpl; econstructor.
          - apply as_ok_copy. by rewrite list_lookup_middle.
          - specialize (IH (l0 ++ [v])). rewrite app_length /= -assoc_L /= in IH.
            replace (q +ₗ Z.of_nat (length l0) +ₗ 1) with (q +ₗ Z.of_nat (length l0 + 1)) by loc_solve.
            done. }
        specialize (Hgen (drop k l) [] (take k l)). simpl in Hgen.
        rewrite loc_add_0 take_drop take_length Nat.min_l in Hgen; done.
      + pose proof (mks_refs_copy_gen q (take k l) (drop k l)) as H2.
        rewrite take_drop take_length drop_length Nat.min_l in H2; done.
    - rewrite (take_ge (refs _ _ _)); [|rewrite refs_length; lia]. rewrite (take_ge l); [|lia].
      rewrite (drop_ge (refs _ _ _)); [|rewrite refs_length; lia]. rewrite (drop_ge l); [|lia].
      split; [|constructor].
      pose proof (ass_refs_copy_gen q [] l) as H1. simpl in H1. by rewrite loc_add_0 in H1.
  Qed.

  Lemma ass_conseq_X PX PX' P srcs vs P' :
    (PX ⊢ PX') -> ass_ok PX P srcs vs P' -> ass_ok PX' P srcs vs P'.
  Proof.
    intros HX. induction 1; econstructor; [|done]. by eapply as_ok_conseq.
  Qed.

  Definition any_elems (q : loc) (n : nat) : hProp := (∃ l', ⟦length l' = n⟧ ∗ elems q l')%I.

  Lemma ass_refs_move_gen q l0 l1 l2 N :
    length (l0 ++ l1 ++ l2) = N ->
    ass_ok (any_elems q N) (elems q (l0 ++ l1 ++ l2))
      (refs AMove (q +ₗ Z.of_nat (length l0)) (length l1)) l1
      (elems q (l0 ++ (vmoved <$> l1) ++ l2)).
  Proof.
    revert l0. induction l1 as [|v l1 IH]; intros l0 HN; simpl; econstructor.
    - eapply as_ok_conseq; [apply (as_ok_move q (l0 ++ v :: l1 ++ l2) (length l0) v)|done|done|].
      + by rewrite list_lookup_middle.
      + iIntros "H". iDestruct "H" as (v') "H". iExists _. iFrame. iPureIntro.
        rewrite insert_length. done.
    - rewrite insert_app_r_alt; [|done]. rewrite Nat.sub_diag. simpl.
      specialize (IH (l0 ++ [vmoved v])).
      replace (q +ₗ Z.of_nat (length l0) +ₗ 1) with (q +ₗ Z.of_nat (length (l0 ++ [vmoved v])))
        by loc_solve.
      rewrite -!assoc_L /= in IH. apply IH. rewrite -HN !app_length /= !app_length. lia.
  Qed.
  Lemma mks_refs_move_gen2 q l0 l1 N :
    length (l0 ++ l1) = N ->
    mks_ok (any_elems q N) (elems q (l0 ++ l1))
      (refs AMove (q +ₗ Z.of_nat (length l0)) (length l1)) l1
      (elems q (l0 ++ (vmoved <$> l1))).
  Proof.
    revert l0. induction l1 as [|v l1 IH]; intros l0 HN; simpl; econstructor.
    - eapply mk_ok_conseq; [apply (mk_ok_move q (l0 ++ v :: l1) (length l0) v)|done|done|].
      + by rewrite list_lookup_middle.
      + iIntros "H". iDestruct "H" as (v') "[_ H]". iExists _. iFrame. iPureIntro.
        rewrite insert_length. done.
    - rewrite insert_app_r_alt; [|done]. rewrite Nat.sub_diag. simpl.
      specialize (IH (l0 ++ [vmoved v])).
      replace (q +ₗ Z.of_nat (length l0) +ₗ 1) with (q +ₗ Z.of_nat (length (l0 ++ [vmoved v])))
        by loc_solve.
      rewrite -!assoc_L /= in IH. apply IH. rewrite -HN !app_length /=. lia.
  Qed.
  Lemma src_move q l :
    src_ok (any_elems q (length l)) (elems q l) (refs AMove q (length l)) l (elems q (vmoved <$> l)).
  Proof.
    split; [by rewrite refs_length|]. intros k.
    exists (elems q ((vmoved <$> take k l) ++ drop k l)).
    destruct (le_lt_dec k (length l)) as [Hk|Hk].
    - rewrite refs_take; [|done]. rewrite refs_drop; [|done]. split.
      + pose proof (ass_refs_move_gen q [] (take k l) (drop k l) (length l)) as H1. simpl in H1.
        rewrite loc_add_0 take_drop take_length Nat.min_l in H1; [|done]. by apply H1.
      + pose proof (mks_refs_move_gen2 q (vmoved <$> take k l) (drop k l) (length l)) as H2.
        rewrite app_length fmap_length take_length drop_length Nat.min_l in H2; [|done].
        rewrite -fmap_app take_drop in H2. apply H2. lia.
    - rewrite (take_ge (refs _ _ _)); [|rewrite refs_length; lia]. rewrite (take_ge l); [|lia].
      rewrite (drop_ge (refs _ _ _)); [|rewrite refs_length; lia]. rewrite (drop_ge l); [|lia].
      rewrite app_nil_r. split; [|constructor].
      pose proof (ass_refs_move_gen q [] l [] (length l)) as H1. simpl in H1.
      rewrite !app_nil_r loc_add_0 in H1. by apply H1.
  Qed.
End vector_proofs.

Section two_objects.
  Context `{E : Env}.
  Notation vec_at := (vec_at vec_storage vec_ok).

  Lemma vec_at_open a f l cap :
    vec_at a f l cap ⊢ elems f l ∗ (∀ l', ⟦length l' = length l⟧ -∗ elems f l' -∗ vec_at a f l' cap).
  Proof.
    iIntros "(%Hok & Hown & %Hlc & $ & Hr)". iIntros (l') "%Hl' Hl". unfold Grow.vec_at.
    iFrame "Hown". iSplit; [done|]. iApply (body_intro with "Hl Hr"); [by rewrite Hl'|lia|lia].
  Qed.

  (** What happens to the source of a move if the elements are moved one by one. *)
  Definition moved_out (same : bool) (l : list V) : list V := if same then [] else vmoved <$> l.

  Lemma wp_vec_init_copy a1 a2 f2 l2 c2 Q X :
    vec_at a2 f2 l2 c2 ⊢
    ((∀ f', vec_at a1 f' l2 (Z.of_nat (length l2)) -∗ vec_at a2 f2 l2 c2 -∗
        Q tt (vobj a1 f' (length l2) (Z.of_nat (length l2)), vobj a2 f2 (length l2) c2)) ∧
     (∀ e s1, ⟦ctor_fail (length l2) e⟧ -∗ vec_at a2 f2 l2 c2 -∗
        X e (s1, vobj a2 f2 (length l2) c2))) -∗
    wp vec_initialize_copy (vec_empty a1, vobj a2 f2 (length l2) c2) Q X.
  Proof.
    iIntros "Hv HK". unfold vec_initialize_copy. wbind. iApply wp_get. wbind. cbn [fst snd].
    iApply wp_range; [done|]. iApply wp_on1. rewrite vec_empty_vobj.
    iDestruct (vec_at_open with "Hv") as "[Hl Hv]".
    iDestruct (vec_at_null a1 with "[//]") as "H0".
    iApply (wp_init_range _ vec_ok _ _ _ a1 null _ _ with "Hl H0"); [apply mks_refs_copy|].
    iSplit.
    - iIntros (f') "Hl H1". iDestruct "HK" as "[HK _]".
      iApply ("HK" with "H1"). by iApply "Hv".
    - iIntros (e s) "%Hf Hl _". iDestruct "HK" as "[_ HK]".
      iApply ("HK" with "[//]"). iApply "Hv"; [done|]. by destruct e.
  Qed.

  Lemma wp_vec_copy_ctor a0 a2 f2 l2 c2 Q X :
    vec_at a2 f2 l2 c2 ⊢
    ((∀ f', vec_at (soccc a2) f' l2 (Z.of_nat (length l2)) -∗ vec_at a2 f2 l2 c2 -∗
        Q tt (vobj (soccc a2) f' (length l2) (Z.of_nat (length l2)), vobj a2 f2 (length l2) c2)) ∧
     (∀ e s1, ⟦ctor_fail (length l2) e⟧ -∗ vec_at a2 f2 l2 c2 -∗
        X e (s1, vobj a2 f2 (length l2) c2))) -∗
    wp vec_copy_ctor (a0, vobj a2 f2 (length l2) c2) Q X.
  Proof.
    iIntros "Hv HK". unfold vec_copy_ctor. wbind. iApply wp_get. wbind. iApply wp_put.
    by iApply (wp_vec_init_copy with "Hv").
  Qed.
  Lemma wp_vec_copy_ctor_alloc a a0 a2 f2 l2 c2 Q X :
    vec_at a2 f2 l2 c2 ⊢
    ((∀ f', vec_at a f' l2 (Z.of_nat (length l2)) -∗ vec_at a2 f2 l2 c2 -∗
        Q tt (vobj a f' (length l2) (Z.of_nat (length l2)), vobj a2 f2 (length l2) c2)) ∧
     (∀ e s1, ⟦ctor_fail (length l2) e⟧ -∗ vec_at a2 f2 l2 c2 -∗
        X e (s1, vobj a2 f2 (length l2) c2))) -∗
    wp (vec_copy_ctor_alloc a) (a0, vobj a2 f2 (length l2) c2) Q X.
  Proof.
    iIntros "Hv HK". unfold vec_copy_ctor_alloc. wbind. iApply wp_get. wbind. iApply wp_put.
    by iApply (wp_vec_init_copy with "Hv").
  Qed.

  (** Storage of the target ([f'], [c']) and of the source ([f2'], [c2']) after
      moving from a source with storage [f2], [c2]; [same]: allocators equal. *)
  Definition stolen (same : bool) (f2 : loc) (c2 : Z) (f' : loc) (c' : Z) (f2' : loc) (c2' : Z) : Prop :=
    if same then f' = f2 /\ c' = c2 /\ f2' = null /\ c2' = 0 else f2' = f2 /\ c2' = c2.

  Lemma wp_vec_init_move a1 a2 f2 l2 c2 Q X :
    vec_at a2 f2 l2 c2 ⊢
    ((∀ f' c' f2' c2', ⟦stolen (bool_decide (a1 = a2)) f2 c2 f' c' f2' c2' /\
                        (a1 <> a2 -> c' = Z.of_nat (length l2))⟧ -∗
        vec_at a1 f' l2 c' -∗ vec_at a2 f2' (moved_out (bool_decide (a1 = a2)) l2) c2' -∗
        Q tt (vobj a1 f' (length l2) c',
              vobj a2 f2' (length (moved_out (bool_decide (a1 = a2)) l2)) c2')) ∧
     (∀ e s1 l2', ⟦ctor_fail (length l2) e /\ a1 <> a2 /\ length l2' = length l2 /\
                   (e <> EUser -> l2' = l2)⟧ -∗
        vec_at a2 f2 l2' c2 -∗ X e (s1, vobj a2 f2 (length l2') c2))) -∗
    wp vec_initialize_move (vec_empty a1, vobj a2 f2 (length l2) c2) Q X.
  Proof.
    iIntros "Hv HK". unfold vec_initialize_move. wbind. iApply wp_get. cbn [fst snd].
    change (v_alloc (vec_empty a1)) with a1. change (v_alloc (vobj a2 f2 (length l2) c2)) with a2.
    destruct (Nat.eqb_spec a1 a2) as [<-|Hne].
    - rewrite bool_decide_eq_true_2; [|done]. iApply wp_put. iDestruct "HK" as "[HK _]".
      iSpecialize ("HK" $! f2 c2 null 0 with "[] Hv []"); [done|by iApply vec_at_null|].
      rewrite vec_nil_storage. done.
    - rewrite bool_decide_eq_false_2; [|done]. simpl. wbind. iApply wp_range; [done|].
      iApply wp_on1. rewrite vec_empty_vobj.
      iDestruct (vec_at_open with "Hv") as "[Hl Hv]".
      iDestruct (vec_at_null a1 with "[//]") as "H0".
      iApply (wp_init_range _ vec_ok _ _ _ a1 null _ _ with "Hl H0"); [apply mks_refs_move|].
      iSplit.
      + iIntros (f') "Hl H1". iDestruct "HK" as "[HK _]". rewrite fmap_length.
        iApply ("HK" with "[//] H1"). iApply ("Hv" with "[] Hl"). by rewrite fmap_length.
      + iIntros (e s) "%Hf Hl _". iDestruct "HK" as "[_ HK]".
        destruct (decide (e = EUser)) as [->|He].
        * iDestruct "Hl" as (l') "[%Hl' Hl]". destruct Hl' as [Hl' _]. rewrite -Hl'.
          iApply ("HK" $! EUser s l' with "[//]"). by iApply "Hv".
        * iApply ("HK" $! e s l2 with "[//]"). iApply "Hv"; [done|]. by destruct e.
  Qed.

  Lemma wp_vec_move_ctor a0 a2 f2 l2 c2 Q X :
    vec_at a2 f2 l2 c2 ⊢
    (vec_at a2 f2 l2 c2 -∗ vec_at a2 null [] 0 -∗ Q tt (vobj a2 f2 (length l2) c2, vobj a2 null 0 0)) -∗
    wp vec_move_ctor (a0, vobj a2 f2 (length l2) c2) Q X.
  Proof.
    iIntros "Hv HK". unfold vec_move_ctor. wbind. iApply wp_get. wbind. iApply wp_put.
    cbn [fst snd]. change (v_alloc (vobj a2 f2 (length l2) c2)) with a2.
    unfold vec_initialize_move. wbind. iApply wp_get. cbn [fst snd].
    change (v_alloc (vec_empty a2)) with a2. change (v_alloc (vobj a2 f2 (length l2) c2)) with a2.
    rewrite Nat.eqb_refl. iApply wp_put. rewrite vec_nil_storage.
    iApply ("HK" with "Hv"). by iApply vec_at_null.
  Qed.
  Lemma wp_vec_move_ctor_alloc a a0 a2 f2 l2 c2 Q X :
    vec_at a2 f2 l2 c2 ⊢
    ((∀ f' c' f2' c2', ⟦stolen (bool_decide (a = a2)) f2 c2 f' c' f2' c2' /\
                        (a <> a2 -> c' = Z.of_nat (length l2))⟧ -∗
        vec_at a f' l2 c' -∗ vec_at a2 f2' (moved_out (bool_decide (a = a2)) l2) c2' -∗
        Q tt (vobj a f' (length l2) c',
              vobj a2 f2' (length (moved_out (bool_decide (a = a2)) l2)) c2')) ∧
     (∀ e s1 l2', ⟦ctor_fail (length l2) e /\ a <> a2 /\ length l2' = length l2 /\
                   (e <> EUser -> l2' = l2)⟧ -∗
        vec_at a2 f2 l2' c2 -∗ X e (s1, vobj a2 f2 (length l2') c2))) -∗
    wp (vec_move_ctor_alloc a) (a0, vobj a2 f2 (length l2) c2) Q X.
  Proof.
    iIntros "Hv HK". unfold vec_move_ctor_alloc. wbind. iApply wp_get. wbind. iApply wp_put.
    by iApply (wp_vec_init_move with "Hv").
  Qed.

  (** Changing the allocator of an object without storage. *)
  Lemma vec_at_realloc a a' f : vec_at a f [] 0 ⊢ vec_at a' f [] 0.
  Proof.
    iIntros "(%Hok & Hown & Hb)". unfold Grow.vec_at. simpl. rewrite !ablock_0. by iFrame.
  Qed.

  (** [reset()] does not allocate. *)
  Lemma wp_vec_reset0 a f l cap Q X :
    vec_at a f l cap ⊢ (vec_at a null [] 0 -∗ Q tt (vobj a null 0 0)) -∗
    wp (reset_ vec_storage 0) (vobj a f (length l) cap) Q X.
  Proof.
    iIntros "(%Hok & Hown & %Hlc & Hl & Hr) HK". unfold reset_. wbind. iApply wp_get. wbeta. wbind.
    iApply (wp_destroy_a with "Hl"); [done|]. iIntros "Hl". wbind.
    iApply (wp_psub _ _ cap); [done|]. wbeta. wbind.
    iDestruct (raws_join _ (Z.to_nat cap) with "Hl Hr") as "Hr"; [done|lia|].
    iApply (so_release_all vec_ok (vobj a f (length l) cap) with "Hown Hr"); [done|].
    iIntros "_". simpl. wbind. iApply wp_modify. iApply wp_ret. rewrite vec_nil_storage.
    iApply "HK". by iApply vec_at_null.
  Qed.

  (** The first part of both assignments. *)
  Lemma wp_vec_propagate (flag : bool) a1 f1 l1 c1 o2 Q X :
    vec_at a1 f1 l1 c1 ⊢
    (∀ f' l' c', ⟦if flag && negb (a1 =? v_alloc o2)%nat then l' = [] /\ c' = 0
                  else f' = f1 /\ l' = l1 /\ c' = c1⟧ -∗
        vec_at (if flag then v_alloc o2 else a1) f' l' c' -∗
        Q tt (vobj (if flag then v_alloc o2 else a1) f' (length l') c', o2)) -∗
    wp (if flag then
          (if negb (a1 =? v_alloc o2)%nat then on1 (reset_ vec_storage 0) else ret tt);;
          on1 (modS (with_alloc (v_alloc o2)))
        else ret tt)%prog (vobj a1 f1 (length l1) c1, o2) Q X.
  Proof.
    iIntros "Hv HK". destruct flag; simpl; last first.
    { iApply wp_ret. by iApply ("HK" with "[] Hv"). }
    wbind. destruct (Nat.eqb_spec a1 (v_alloc o2)) as [->|Hne]; simpl.
    - iApply wp_ret. iApply wp_on1. iApply wp_modify. by iApply ("HK" with "[] Hv").
    - iApply wp_on1. iApply (wp_vec_reset0 with "Hv").
      iIntros "Hv". iApply wp_on1. iApply wp_modify.
      iApply ("HK" $! null [] 0); [done|]. by iApply vec_at_realloc.
  Qed.

  (** A failed assignment leaves the target with some list [l1']. *)
  Lemma wp_vec_assign_copy a1 f1 l1 c1 a2 f2 l2 c2 Q X :
    vec_at a1 f1 l1 c1 ⊢ vec_at a2 f2 l2 c2 -∗
    ((∀ f1' c1', ⟦(pocca = false \/ a1 = a2) -> Z.of_nat (length l2) <= c1 -> f1' = f1 /\ c1' = c1⟧ -∗
        vec_at (if pocca then a2 else a1) f1' l2 c1' -∗ vec_at a2 f2 l2 c2 -∗
        Q tt (vobj (if pocca then a2 else a1) f1' (length l2) c1', vobj a2 f2 (length l2) c2)) ∧
     (∀ e f1' l1' c1', ⟦ctor_fail (length l2) e⟧ -∗
        vec_at (if pocca then a2 else a1) f1' l1' c1' -∗ vec_at a2 f2 l2 c2 -∗
        X e (vobj (if pocca then a2 else a1) f1' (length l1') c1', vobj a2 f2 (length l2) c2))) -∗
    wp vec_assign_copy (vobj a1 f1 (length l1) c1, vobj a2 f2 (length l2) c2) Q X.
  Proof.
    iIntros "H1 H2 HK". unfold vec_assign_copy. wbind. iApply wp_get. cbn [fst snd]. wbind.
    change (v_alloc (vobj a1 f1 (length l1) c1)) with a1.
    iApply (wp_vec_propagate with "H1"). iIntros (f' l' c') "%Hp H1".
    change (v_alloc (vobj a2 f2 (length l2) c2)) with a2 in *.
    set (a := if pocca then a2 else a1). wbind. iApply wp_range; [done|].
    iDestruct (vec_at_open with "H2") as "[Hl H2]". iApply wp_on1.
    iApply (wp_assign_range _ vec_ok with "Hl H1"); [apply src_copy|]. iSplit.
    - iIntros (f'' c'') "%Hs Hl H1". iDestruct "HK" as "[HK _]". iApply ("HK" with "[%] H1").
      { intros Hpa Hfit. assert (f' = f1 /\ l' = l1 /\ c' = c1) as (-> & -> & ->).
        { destruct Hpa as [Hpa|<-]; [by rewrite Hpa in Hp|].
          rewrite Nat.eqb_refl andb_false_r in Hp. done. }
        case_decide; [lia|done]. }
      by iApply "H2".
    - iIntros (e f'' l'' n'' c'') "%Hf Hl H1". iDestruct "HK" as "[_ HK]". destruct Hf as [-> Hf].
      iApply ("HK" with "[] H1"); [iPureIntro; destruct e; naive_solver|].
      iApply ("H2" with "[//]"). by destruct e.
  Qed.

  (** The allocator of the target after a move assignment. *)
  Definition ma_alloc (a1 a2 : nat) : nat := if pocma then a2 else a1.

  Lemma wp_vec_assign_move a1 f1 l1 c1 a2 f2 l2 c2 Q X :
    vec_at a1 f1 l1 c1 ⊢ vec_at a2 f2 l2 c2 -∗
    ((∀ f1' c1' f2' c2', ⟦stolen (bool_decide (ma_alloc a1 a2 = a2)) f2 c2 f1' c1' f2' c2' /\
              (ma_alloc a1 a2 <> a2 -> pocma = false -> Z.of_nat (length l2) <= c1 -> f1' = f1 /\ c1' = c1)⟧ -∗
        vec_at (ma_alloc a1 a2) f1' l2 c1' -∗
        vec_at a2 f2' (moved_out (bool_decide (ma_alloc a1 a2 = a2)) l2) c2' -∗
        Q tt (vobj (ma_alloc a1 a2) f1' (length l2) c1',
              vobj a2 f2' (length (moved_out (bool_decide (ma_alloc a1 a2 = a2)) l2)) c2')) ∧
     (∀ e f1' l1' c1' l2',
        ⟦ctor_fail (length l2) e /\ ma_alloc a1 a2 <> a2 /\ length l2' = length l2⟧ -∗
        vec_at (ma_alloc a1 a2) f1' l1' c1' -∗ vec_at a2 f2 l2' c2 -∗
        X e (vobj (ma_alloc a1 a2) f1' (length l1') c1', vobj a2 f2 (length l2') c2))) -∗
    wp vec_assign_move (vobj a1 f1 (length l1) c1, vobj a2 f2 (length l2) c2) Q X.
  Proof.
    iIntros "H1 H2 HK". unfold vec_assign_move. wbind. iApply wp_get. cbn [fst snd]. wbind.
    change (v_alloc (vobj a1 f1 (length l1) c1)) with a1.
    iApply (wp_vec_propagate with "H1"). iIntros (f' l' c') "%Hp H1".
    change (v_alloc (vobj a2 f2 (length l2) c2)) with a2 in *.
    change (if pocma then a2 else a1) with (ma_alloc a1 a2).
    set (a := ma_alloc a1 a2). wbind. iApply wp_get. cbn [fst snd].
    change (v_alloc (vobj a f' (length l') c')) with a.
    change (v_alloc (vobj a2 f2 (length l2) c2)) with a2.
    destruct (Nat.eqb_spec a a2) as [Heq|Hne].
    - rewrite (bool_decide_eq_true_2 _ Heq). wbind. iApply wp_on1.
      iApply (wp_vec_reset0 with "H1"). iIntros "_H1". wbind. iApply wp_get. wbeta. iApply wp_put.
      cbn [fst snd]. rewrite vec_nil_storage.
      iDestruct "HK" as "[HK _]". rewrite -Heq.
      iApply ("HK" $! f2 c2 null 0 with "[%] H2 _H1"). by split.
    - rewrite (bool_decide_eq_false_2 _ Hne). wbind. iApply wp_range; [done|].
      iDestruct (vec_at_open with "H2") as "[Hl H2]". iApply wp_on1.
      iApply (wp_assign_range _ vec_ok with "Hl H1"); [apply src_move|]. iSplit.
      + iIntros (f'' c'') "%Hs Hl H1". iDestruct "HK" as "[HK _]". simpl. rewrite fmap_length.
        iApply ("HK" with "[%] H1").
        { split; [done|]. intros _ Hpm Hfit. rewrite Hpm in Hp. destruct Hp as (-> & -> & ->).
          case_decide; [lia|done]. } iApply ("H2" with "[] Hl"). by rewrite fmap_length.
      + iIntros (e f'' l'' n'' c'') "%Hf Hl H1". iDestruct "HK" as "[_ HK]". destruct Hf as [-> Hf].
        assert (ctor_fail (length l2) e) as Hcf by (destruct e; naive_solver).
        iAssert (any_elems f2 (length l2)) with "[Hl]" as "Hl".
        { destruct e; try done; iExists l2; by iFrame. }
        iDestruct "Hl" as (l2') "[%Hl2 Hl]". rewrite -Hl2.
        iApply ("HK" with "[] H1"); [by rewrite Hl2|].
        by iApply ("H2" with "[] Hl").
  Qed.

  Lemma wp_vec_assign_move_self a f l cap Q X :
    vec_at a f l cap ⊢ (vec_at a null [] 0 -∗ Q tt (vobj a null 0 0)) -∗
    wp vec_assign_move_self (vobj a f (length l) cap) Q X.
  Proof.
    iIntros "Hv HK". unfold vec_assign_move_self. wbind. iApply (wp_vec_reset0 with "Hv").
    iIntros "Hv". wbind. iApply wp_get. wbeta. wbind. iApply wp_modify. iApply wp_modify.
    rewrite vec_nil_storage. by iApply "HK".
  Qed.

  (** Precondition of [swap]: allocators propagate or are equal. *)
  Lemma wp_vec_swap a1 f1 l1 c1 a2 f2 l2 c2 Q X :
    pocs = true \/ a1 = a2 ->
    vec_at a1 f1 l1 c1 ⊢ vec_at a2 f2 l2 c2 -∗
    (vec_at a2 f2 l2 c2 -∗ vec_at a1 f1 l1 c1 -∗
       Q tt (vobj a2 f2 (length l2) c2, vobj a1 f1 (length l1) c1)) -∗
    wp vec_swap (vobj a1 f1 (length l1) c1, vobj a2 f2 (length l2) c2) Q X.
  Proof.
    iIntros (Hp) "H1 H2 HK". unfold vec_swap. wbind. iApply wp_get. cbn [fst snd]. wbind.
    iApply wp_assert.
    { apply orb_true_iff. destruct Hp as [->|<-]; [by left|right]. simpl. apply Nat.eqb_refl. }
    wbind. destruct pocs eqn:Hpocs.
    - iApply wp_put. wbind. iApply wp_get. iApply wp_put. by iApply ("HK" with "H2 H1").
    - destruct Hp as [?| <-]; [done|]. iApply wp_ret. wbind. iApply wp_get. iApply wp_put.
      by iApply ("HK" with "H2 H1").
  Qed.
End two_objects.
