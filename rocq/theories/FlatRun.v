(** * Calls of the member functions of the ordered flat containers *)

From Coq Require Import ZifyBool.
From Verif Require Export FlatOps.
From iris.proofmode Require Import tactics.
Open Scope Z_scope.

Section run.
  Context `{KD : Keyed}.
  Variable c : Cmp.
  Variable kd : fkind.
  Notation lt := (less c).
  Context (exact : loc -> arg -> M vdata loc) (room : M vdata unit)
    (fv : nat -> loc -> list V -> Z -> hProp) (raw alloc robust : bool) (fits : nat -> bool)
    (EX : exact_ok exact room fv (multi kd) alloc robust fits)
    (assign_list : list V -> M vdata unit).
  Notation ins_ok := (ins_ok c kd).
  Notation ins_bad := (ins_bad c kd alloc robust).
  Notation vo a f l cap := (vobj a f (length l) cap).
  Notation run := (run_flat lt kd exact room assign_list).

  (** What is needed about [operator=(initializer_list)]. *)
  Definition al_ok (vs : list V) (f : loc) (cap : Z) (f' : loc) (cap' : Z) (l' : list V) : Prop :=
    (raw = true -> l' = vs) /\ (length l' <= length vs)%nat /\ stays (length vs) f cap f' cap' /\
    (raw = false -> strict_weak lt -> inserted_all kd c vs [] l').
  Definition al_bad (vs l : list V) (f : loc) (cap : Z) (e : exn) (f' : loc) (cap' : Z) (l' : list V) : Prop :=
    (if raw then length l' = length l else (length l' <= length vs)%nat) /\
    stays (length vs) f cap f' cap' /\
    (e = EUser \/ ((e = ELength \/ e = EBadAlloc) /\ alloc = true)).
  Definition assign_list_ok : Prop :=
    forall vs a f l cap Q X, fits (length vs) = true ->
    fv a f l cap ⊢
    ((∀ f' cap' l', ⟦al_ok vs f cap f' cap' l'⟧ -∗ fv a f' l' cap' -∗ Q tt (vo a f' l' cap')) ∧
     (∀ e f' cap' l', ⟦al_bad vs l f cap e f' cap' l'⟧ -∗ fv a f' l' cap' -∗ X e (vo a f' l' cap'))) -∗
    wp (assign_list vs) (vo a f l cap) Q X.
  Context (AL : assign_list_ok).

  Definition run_cont o a f l cap (Q : frv -> vdata -> hProp) (X : exn -> vdata -> hProp) : hProp :=
    ((∀ r f' cap' l', ⟦flat_post kd c raw o l r l' /\ stays (flat_need o l) f cap f' cap'⟧ -∗
        fv a f' l' cap' -∗ Q r (vo a f' l' cap')) ∧
     (∀ e f' cap' l', ⟦flat_exn kd c raw alloc robust o l e l' /\ stays (flat_need o l) f cap f' cap'⟧ -∗
        fv a f' l' cap' -∗ X e (vo a f' l' cap')))%I.
  Definition fop_ok (o : fop) : Prop := forall a f l cap Q X,
    flat_pre kd (fun n => fits (length l + n)) fits o (length l) = true ->
    fv a f l cap ⊢ run_cont o a f l cap Q X -∗ wp (run o) (vo a f l cap) Q X.

  Lemma run_cont_exn o a f l cap Q X :
    run_cont o a f l cap Q X ⊢
    ∀ e f' cap' l', ⟦flat_exn kd c raw alloc robust o l e l' /\ stays (flat_need o l) f cap f' cap'⟧ -∗
        fv a f' l' cap' -∗ X e (vo a f' l' cap').
  Proof. iIntros "[_ H]". iExact "H". Qed.

  (** ** Results *)
  Lemma wp_as_pos a f l cap m v Q X :
    (forall Q' X', fv a f l cap ⊢ ins_cont c kd fv alloc robust only_at a f l cap v Q' X' -∗ wp m (vo a f l cap) Q' X') ->
    fv a f l cap ⊢
    ins_cont c kd fv alloc robust (fun _ i _ => Pos i) a f l cap v Q X -∗ wp (as_pos m) (vo a f l cap) Q X.
  Proof.
    iIntros (Hm) "Hv HK". unfold as_pos, as_idx. wbind. wbind. iApply (Hm with "Hv").
    iSplit; [|iDestruct "HK" as "[_ HK]"; iExact "HK"].
    iIntros (f' cap' l' i b) "%Hx Hv". wbeta. iApply (ret_idx f' i); [done|done|]. iApply wp_ret.
    iDestruct "HK" as "[HK _]". by iApply ("HK" with "[] Hv").
  Qed.
  Lemma wp_as_pair a f l cap m v Q X :
    (forall Q' X', fv a f l cap ⊢ ins_cont c kd fv alloc robust pair_at a f l cap v Q' X' -∗ wp m (vo a f l cap) Q' X') ->
    fv a f l cap ⊢
    ins_cont c kd fv alloc robust (fun _ i b => PosNew i b) a f l cap v Q X -∗ wp (as_pair m) (vo a f l cap) Q X.
  Proof.
    iIntros (Hm) "Hv HK". unfold as_pair. wbind. iApply (Hm with "Hv").
    iSplit; [|iDestruct "HK" as "[_ HK]"; iExact "HK"].
    iIntros (f' cap' l' i b) "%Hx Hv". wbeta. wbind. iApply wp_get. wbeta. cbn [pair_at fst snd vobj v_first].
    wbind. iApply (wp_psub _ _ (Z.of_nat i)); [done|]. wbeta. iApply wp_ret. rewrite Nat2Z.id.
    iDestruct "HK" as "[HK _]". by iApply ("HK" with "[] Hv").
  Qed.
  Lemma wp_as_ins a f l cap m v Q X :
    (forall Q' X', fv a f l cap ⊢ ins_cont c kd fv alloc robust pair_at a f l cap v Q' X' -∗ wp m (vo a f l cap) Q' X') ->
    fv a f l cap ⊢
    ins_cont c kd fv alloc robust (fun _ i b => ins_result kd false i b) a f l cap v Q X -∗
    wp (as_ins kd m) (vo a f l cap) Q X.
  Proof.
    iIntros (Hm) "Hv HK". unfold as_ins, ins_result. cbn [orb]. destruct (multi_or kd) as [Hmu|Hmu]; rewrite Hmu.
    - iApply (wp_as_pos with "Hv HK"). iIntros (Q' X') "Hv HK". wbind. iApply (Hm with "Hv").
      iSplit; [|iDestruct "HK" as "[_ HK]"; iExact "HK"].
      iIntros (f' cap' l' i b) "%Hx Hv". wbeta. iApply wp_ret. iDestruct "HK" as "[HK _]".
      by iApply ("HK" with "[] Hv").
    - by iApply (wp_as_pair with "Hv HK").
  Qed.

  (** ** Insertions *)
  Lemma ins_flat_exn o v l e l' :
    adds o = 1%nat ->
    (at_end c o l -> forall j w, l !! j = Some w -> lt (key w) (key v) = true) ->
    ins_bad v l e l' -> flat_exn kd c raw alloc robust o l e l'.
  Proof.
    intros Ha He (H1 & H2 & H3). split; [|split].
    - destruct o; cbn [adds] in Ha; try discriminate; cbn [is_lookup adds]; lia.
    - intros Hr Ho Hb Hend. apply H2; [done|done|done|by apply He].
    - destruct H3 as [-> |([-> | ->] & H4 & ->)].
      + intros ->. discriminate Ha.
      + split; [done|]. destruct o; done.
      + split; [done|]. destruct o; done.
  Qed.
  Lemma one_more (l : list V) : (length l + 1 = S (length l))%nat.
  Proof. lia. Qed.

  Lemma ins_run o a f l cap v (res : nat -> bool -> frv) Q X :
    adds o = 1%nat -> flat_need o l = (length l + adds o)%nat ->
    (forall r l', (length l <= length l' <= S (length l))%nat -> flat_always raw o l r l') ->
    (forall i b l', inserted kd c v l i b l' -> (i < length l')%nat ->
       flat_sorted kd c raw o l (res i b) l') ->
    (at_end c o l -> forall j w, l !! j = Some w -> lt (key w) (key v) = true) ->
    run_cont o a f l cap Q X ⊢
    ins_cont c kd fv alloc robust (fun _ i b => res i b) a f l cap v Q X.
  Proof.
    iIntros (Ha Hn Hal Hs He) "HK". iSplit.
    - iIntros (f' cap' l' i b) "%Hx Hv". destruct Hx as (H1 & H2 & H3 & H4).
      iDestruct "HK" as "[HK _]". iApply ("HK" with "[] Hv"). iPureIntro. split.
      + split; [by apply Hal|]. intros Hr [Ho|Ho]; [|destruct o; done]. apply Hs; [by apply H4|done].
      + by rewrite Hn Ha one_more.
    - iIntros (e l') "%Hx Hv". iDestruct "HK" as "[_ HK]". iApply ("HK" with "[] Hv"). iPureIntro. split.
      + by eapply ins_flat_exn.
      + apply stays_refl.
  Qed.

  Lemma fx_rel a f (l : list V) cap x :
    fx_ok (length l) x = true ->
    exists v, arg_value l x = Some v /\ arg_rel f l (arg_of (vo a f l cap) x) v l /\
      ~ is_move (arg_of (vo a f l cap) x).
  Proof.
    unfold fx_ok. rewrite andb_true_iff negb_true_iff. intros [H1 H2].
    destruct (arg_of_rel a f l cap x H1) as (v & Hv & Hr). rewrite (arg_rest_same l x H2) in Hr.
    exists v. split; [done|]. split; [done|]. by apply arg_of_move.
  Qed.
  Lemma fi_fx n x : fi_ok n x = true -> fx_ok n x = true.
  Proof. unfold fi_ok. rewrite andb_true_iff. tauto. Qed.

  Ltac start := unfold run_flat; wbind; iApply wp_get; wbeta.
  Ltac always := intros r l' Hl; cbn [flat_always is_lookup adds]; lia.

  Lemma f_emplace x : fop_ok (FEmplace x).
  Proof.
    intros a f l cap Q X Hpre. cbn [flat_pre] in Hpre. apply andb_true_iff in Hpre as [Hx Hf].
    rewrite one_more in Hf. destruct (fx_rel a f l cap x Hx) as (v & Hv & Hrel & Hm).
    iIntros "Hv HK". start. iApply (wp_as_ins with "Hv [HK]").
    { intros Q' X'. by apply (wp_emplace_key c kd _ _ _ _ _ _ EX). }
    iApply (ins_run with "HK"); [done|done|always| |].
    - intros i b l' Hi _. cbn. by exists v, i, b.
    - intros (v' & Hv' & He). assert (v' = v) as -> by congruence. done.
  Qed.
  Lemma f_insert x : fop_ok (FInsert x).
  Proof.
    intros a f l cap Q X Hpre. cbn [flat_pre] in Hpre. apply andb_true_iff in Hpre as [Hx Hf].
    apply fi_fx in Hx.
    rewrite one_more in Hf. destruct (fx_rel a f l cap x Hx) as (v & Hv & Hrel & Hm).
    iIntros "Hv HK". start. iApply (wp_as_ins with "Hv [HK]").
    { intros Q' X'. by apply (wp_insert_value c kd _ _ _ _ _ _ EX). }
    iApply (ins_run with "HK"); [done|done|always| |].
    - intros i b l' Hi _. cbn. by exists v, i, b.
    - intros (v' & Hv' & He). assert (v' = v) as -> by congruence. done.
  Qed.
  Lemma f_emplace_hint h x : fop_ok (FEmplaceHint h x).
  Proof.
    intros a f l cap Q X Hpre. cbn [flat_pre] in Hpre. apply andb_true_iff in Hpre as [Hpre Hf].
    apply andb_true_iff in Hpre as [Hx Hh]. apply Nat.leb_le in Hh.
    rewrite one_more in Hf. destruct (fx_rel a f l cap x Hx) as (v & Hv & Hrel & Hm).
    iIntros "Hv HK". start. iApply (wp_as_pos with "Hv [HK]").
    { intros Q' X'. by apply (wp_emplace_hint c kd _ _ _ _ _ _ EX). }
    iApply (ins_run _ _ _ _ _ _ (fun i _ => Pos i) with "HK"); [done|done|always| |].
    - intros i b l' Hi _. cbn. by exists v, i, b.
    - intros (v' & Hv' & He). assert (v' = v) as -> by congruence. done.
  Qed.
  Lemma f_insert_hint h x : fop_ok (FInsertHint h x).
  Proof.
    intros a f l cap Q X Hpre. cbn [flat_pre] in Hpre. apply andb_true_iff in Hpre as [Hpre Hf].
    apply andb_true_iff in Hpre as [Hx Hh]. apply Nat.leb_le in Hh. apply fi_fx in Hx.
    rewrite one_more in Hf. destruct (fx_rel a f l cap x Hx) as (v & Hv & Hrel & Hm).
    iIntros "Hv HK". start. iApply (wp_as_pos with "Hv [HK]").
    { intros Q' X'. by apply (wp_insert_value_hint c kd _ _ _ _ _ _ EX). }
    iApply (ins_run _ _ _ _ _ _ (fun i _ => Pos i) with "HK"); [done|done|always| |].
    - intros i b l' Hi _. cbn. by exists v, i, b.
    - intros (v' & Hv' & He). assert (v' = v) as -> by congruence. done.
  Qed.
  Lemma f_try_emplace k m : fop_ok (FTryEmplace k m).
  Proof.
    intros a f l cap Q X Hpre. cbn [flat_pre] in Hpre. rewrite !andb_true_iff negb_true_iff in Hpre.
    destruct Hpre as [[_ Hmu] Hf]. rewrite one_more in Hf.
    iIntros "Hv HK". start. iApply (wp_as_pair with "Hv [HK]").
    { intros Q' X'. by apply (wp_try_emplace c kd _ _ _ _ _ _ EX). }
    iApply (ins_run with "HK"); [done|done|always| |].
    - intros i b l' Hi _. cbn. by exists i, b.
    - rewrite key_entry. done.
  Qed.
  Lemma f_try_emplace_hint h k m : fop_ok (FTryEmplaceHint h k m).
  Proof.
    intros a f l cap Q X Hpre. cbn [flat_pre] in Hpre. rewrite !andb_true_iff negb_true_iff in Hpre.
    destruct Hpre as [[[_ Hmu] Hh] Hf]. rewrite one_more in Hf. apply Nat.leb_le in Hh.
    iIntros "Hv HK". start. iApply (wp_as_pos with "Hv [HK]").
    { intros Q' X'. by apply (wp_try_emplace_hint c kd _ _ _ _ _ _ EX). }
    iApply (ins_run _ _ _ _ _ _ (fun i _ => Pos i) with "HK"); [done|done|always| |].
    - intros i b l' Hi _. cbn. by exists i, b.
    - rewrite key_entry. done.
  Qed.

  Lemma ioa_exn o k l e l' m f cap :
    adds o = 1%nat ->
    (at_end c o l -> forall j w, l !! j = Some w -> lt (key w) k = true) ->
    flat_need o l = (length l + adds o)%nat ->
    ins_bad (entry k m) l e l' ->
    flat_exn kd c raw alloc robust o l e l' /\ stays (flat_need o l) f cap f cap.
  Proof.
    intros Ha He Hn Hx. split; [|apply stays_refl]. eapply ins_flat_exn; [done| |done].
    rewrite key_entry. done.
  Qed.
  Lemma f_insert_or_assign k m : fop_ok (FInsertOrAssign k m).
  Proof.
    intros a f l cap Q X Hpre. cbn [flat_pre] in Hpre. rewrite !andb_true_iff negb_true_iff in Hpre.
    destruct Hpre as [[_ Hmu] Hf]. rewrite one_more in Hf.
    iIntros "Hv HK". start. unfold as_pair. wbind.
    iApply (wp_insert_or_assign c kd _ _ _ _ _ _ EX with "Hv"); [done|done|]. iSplit; last first.
    { iIntros (e l') "%Hx Hv". iApply (run_cont_exn with "HK [] Hv"). iPureIntro. eapply ioa_exn; [done|intros He; exact He|done|done]. }
    iIntros (f' cap' l' i b) "%Hx Hv". destruct Hx as (H1 & H2 & H3 & H4). wbeta.
    wbind. iApply wp_get. wbeta. cbn [pair_at fst snd vobj v_first].
    wbind. iApply (wp_psub _ _ (Z.of_nat i)); [done|]. wbeta. iApply wp_ret. rewrite Nat2Z.id.
    iDestruct "HK" as "[HK _]". iApply ("HK" with "[] Hv"). iPureIntro. split; [split|].
    - cbn [flat_always is_lookup adds]. lia.
    - intros Hr [Ho|[]]. specialize (H4 Hr Ho). destruct b.
      + right. eauto.
      + left. destruct H4 as (w & Hw & Heq & ->). exists i, w. done.
    - cbn [flat_need adds]. by rewrite one_more.
  Qed.
  Lemma f_insert_or_assign_hint h k m : fop_ok (FInsertOrAssignHint h k m).
  Proof.
    intros a f l cap Q X Hpre. cbn [flat_pre] in Hpre. rewrite !andb_true_iff negb_true_iff in Hpre.
    destruct Hpre as [[[_ Hmu] Hh] Hf]. rewrite one_more in Hf. apply Nat.leb_le in Hh.
    iIntros "Hv HK". start. unfold as_pos, as_idx. wbind. wbind.
    iApply (wp_insert_or_assign_hint c kd _ _ _ _ _ _ EX with "Hv"); [done|done|done|]. iSplit; last first.
    { iIntros (e l') "%Hx Hv". iApply (run_cont_exn with "HK [] Hv"). iPureIntro. eapply ioa_exn; [done|intros He; exact He|done|done]. }
    iIntros (f' cap' l' i b) "%Hx Hv". destruct Hx as (H1 & H2 & H3 & H4). wbeta.
    iApply (ret_idx f' i); [done|done|]. iApply wp_ret.
    iDestruct "HK" as "[HK _]". iApply ("HK" with "[] Hv"). iPureIntro. split; [split|].
    - cbn [flat_always is_lookup adds]. lia.
    - intros Hr [Ho|[]]. specialize (H4 Hr Ho). destruct b.
      + right. eauto.
      + left. destruct H4 as (w & Hw & Heq & ->). exists i, w. done.
    - cbn [flat_need adds]. by rewrite one_more.
  Qed.
  Lemma f_index k : fop_ok (FIndex k).
  Proof.
    intros a f l cap Q X Hpre. cbn [flat_pre] in Hpre. rewrite !andb_true_iff negb_true_iff in Hpre.
    destruct Hpre as [[_ Hmu] Hf]. rewrite one_more in Hf.
    iIntros "Hv HK". start. wbind.
    iApply (wp_map_index c kd _ _ _ _ _ _ EX with "Hv"); [done|done|]. iSplit; last first.
    { iIntros (e l') "%Hx Hv". iApply (run_cont_exn with "HK [] Hv"). iPureIntro. eapply ioa_exn; [done|intros He; exact He|done|done]. }
    iIntros (f' cap' l' i b w) "%Hx Hv". destruct Hx as [(H1 & H2 & H3 & H4) H5]. wbeta. iApply wp_ret.
    iDestruct "HK" as "[HK _]". iApply ("HK" with "[] Hv"). iPureIntro. split; [split|].
    - cbn [flat_always is_lookup adds]. lia.
    - intros Hr [Ho|[]]. specialize (H4 Hr Ho). cbn. exists i, b, w. done.
    - cbn [flat_need adds]. by rewrite one_more.
  Qed.
  Lemma f_put i m : fop_ok (FPut i m).
  Proof.
    intros a f l cap Q X Hpre. cbn [flat_pre] in Hpre. rewrite !andb_true_iff in Hpre.
    destruct Hpre as [_ Hi]. apply Nat.ltb_lt in Hi. destruct (lookup_lt_is_Some_2 l i Hi) as [v Hv].
    iIntros "Hv HK". start. unfold as_one, as_unit. wbind. wbind. cbn [vobj v_first].
    iApply (wp_assign_second kd _ _ _ _ _ _ EX with "Hv"); [done|]. iSplit.
    - iIntros "Hv". wbeta. iApply wp_ret. wbeta. iApply wp_ret. iDestruct "HK" as "[HK _]".
      iSpecialize ("HK" with "[] Hv"); last first. { rewrite insert_length. iExact "HK". }
      iPureIntro. split; [|apply stays_refl]. split; [|done]. cbn. eauto.
    - iIntros (t) "Hv". iSpecialize ("HK" with "[] Hv"); last first. { rewrite insert_length. iExact "HK". }
      iPureIntro. split; [|apply stays_refl]. split; [cbn; eauto|]. split; [done|]. done.
  Qed.

  (** ** Ranges *)
  Lemma f_insert_range vs : fop_ok (FInsertRange vs).
  Proof.
    intros a f l cap Q X Hpre. cbn [flat_pre] in Hpre.
    iIntros "Hv HK". start. unfold as_one, as_unit. wbind. wbind.
    iApply (wp_insert_loop c kd _ _ _ _ _ _ EX with "Hv"); [done|]. iSplit.
    - iIntros (f' cap' l') "%Hx Hv". destruct Hx as (H1 & H2 & H3). wbeta. iApply wp_ret. wbeta. iApply wp_ret.
      iDestruct "HK" as "[HK _]". iApply ("HK" with "[] Hv"). iPureIntro. split; [split|].
      + done.
      + intros Hr [Ho|[]]. split; [done|]. by apply H3.
      + done.
    - iIntros (e f' cap' l') "%Hx Hv". destruct Hx as (H1 & H2 & H3).
      iApply (run_cont_exn with "HK [] Hv"). iPureIntro. split; [|done]. split; [done|]. split; [done|].
      by destruct H3 as [-> |([-> | ->] & H4)].
  Qed.
  Lemma f_assign_list vs : fop_ok (FAssignList vs).
  Proof.
    intros a f l cap Q X Hpre. cbn [flat_pre] in Hpre.
    iIntros "Hv HK". start. unfold as_one, as_unit. wbind. wbind.
    iApply (AL with "Hv"); [done|]. iSplit.
    - iIntros (f' cap' l') "%Hx Hv". destruct Hx as (H1 & H2 & H3 & H4). wbeta. iApply wp_ret. wbeta. iApply wp_ret.
      iDestruct "HK" as "[HK _]". iApply ("HK" with "[] Hv"). iPureIntro. split; [split|].
      + done.
      + intros Hr Ho Hraw. by apply H4.
      + done.
    - iIntros (e f' cap' l') "%Hx Hv". destruct Hx as (H1 & H2 & H3).
      iApply (run_cont_exn with "HK [] Hv"). iPureIntro. split; [|done]. split; [done|]. split; [done|].
      by destruct H3 as [-> |([-> | ->] & H4)].
  Qed.

  (** ** Erasing *)
  Lemma f_erase i : fop_ok (FErase i).
  Proof.
    intros a f l cap Q X Hpre. cbn [flat_pre] in Hpre. apply Nat.ltb_lt in Hpre.
    iIntros "Hv HK". start. unfold as_pos, as_idx. wbind. wbind. cbn [vobj v_first].
    iApply (wp_fv_erase kd _ _ _ _ _ _ EX with "Hv"); [done|]. iSplit.
    - iIntros "Hv". wbeta. iApply (ret_idx f i); [done|done|]. iApply wp_ret. iDestruct "HK" as "[HK _]".
      iApply ("HK" with "[] Hv"). iPureIntro. split; [|apply stays_refl]. done.
    - iIntros (l') "%Hx Hv". iApply (run_cont_exn with "HK [] Hv"). iPureIntro. split; [|apply stays_refl].
      split; [done|]. split; done.
  Qed.
  Lemma f_erase_range i j : fop_ok (FEraseRange i j).
  Proof.
    intros a f l cap Q X Hpre. cbn [flat_pre] in Hpre. apply andb_true_iff in Hpre as [H1 H2].
    apply Nat.leb_le in H1, H2.
    iIntros "Hv HK". start. unfold as_pos, as_idx. wbind. wbind. cbn [vobj v_first].
    iApply (wp_fv_erase_range kd _ _ _ _ _ _ EX with "Hv"); [done|]. iSplit.
    - iIntros "Hv". wbeta. iApply (ret_idx f i); [done|done|]. iApply wp_ret. iDestruct "HK" as "[HK _]".
      iApply ("HK" with "[] Hv"). iPureIntro. split; [|apply stays_refl]. done.
    - iIntros (l') "%Hx Hv". iApply (run_cont_exn with "HK [] Hv"). iPureIntro. split; [|apply stays_refl].
      split; [done|]. split; done.
  Qed.
  Lemma f_erase_key k : fop_ok (FEraseKey k).
  Proof.
    intros a f l cap Q X _. iIntros "Hv HK". start. unfold as_one, as_num. wbind. wbind.
    iApply (wp_erase_key c kd _ _ _ _ _ _ EX with "Hv"). iSplit.
    - iIntros (n l') "%Hx Hv". destruct Hx as [H1 H2]. wbeta. iApply wp_ret. wbeta. iApply wp_ret.
      iDestruct "HK" as "[HK _]". iApply ("HK" with "[] Hv"). iPureIntro. split; [|apply stays_refl].
      split; [done|]. intros Hr [Ho|[]]. destruct (H2 Hr Ho) as [-> ->]. done.
    - iIntros (l') "%Hx Hv". iApply (run_cont_exn with "HK [] Hv"). iPureIntro. split; [|apply stays_refl].
      split; [done|]. split; done.
  Qed.
  Lemma f_erase_if p : fop_ok (FEraseIf p).
  Proof.
    intros a f l cap Q X _. iIntros "Hv HK". start. unfold as_one, as_num. wbind. wbind.
    iApply (wp_erase_if_each kd _ _ _ _ _ _ EX with "Hv"). iSplit.
    - iIntros (l') "%Hx Hv". wbeta. iApply wp_ret. wbeta. iApply wp_ret.
      iDestruct "HK" as "[HK _]". iApply ("HK" with "[] Hv"). iPureIntro. split; [|apply stays_refl]. done.
    - iIntros (l') "%Hx Hv". iApply (run_cont_exn with "HK [] Hv"). iPureIntro. split; [|apply stays_refl].
      split; [done|]. split; done.
  Qed.
  Lemma f_clear : fop_ok FClear.
  Proof.
    intros a f l cap Q X _. iIntros "Hv HK". start. unfold as_one, as_unit. wbind. wbind.
    iApply (wp_fv_clear kd _ _ _ _ _ _ EX with "Hv").
    iIntros "Hv". wbeta. iApply wp_ret. wbeta. iApply wp_ret. iDestruct "HK" as "[HK _]".
    iApply ("HK" $! _ f cap [] with "[] Hv"). iPureIntro. split; [|apply stays_refl]. done.
  Qed.

  (** ** Lookup *)
  Lemma look_cont o a f l cap Q X :
    is_lookup o = true -> o <> FSize ->
    fv a f l cap ⊢ run_cont o a f l cap Q X -∗
    elems f l ∗
    ((∀ r, ⟦flat_post kd c raw o l r l⟧ -∗ elems f l -∗ Q r (vo a f l cap)) ∧
     (∀ e, ⟦e = EUser \/ (e = EOutOfRange /\ exists k, o = FAt k /\
              (strict_weak lt -> ordered kd c l -> absent c l k))⟧ -∗ elems f l -∗ X e (vo a f l cap))).
  Proof.
    iIntros (Hlk Hsz) "Hv HK". iDestruct (fv_elems kd _ _ _ _ _ _ EX with "Hv") as "[$ Hcl]". iSplit.
    - iIntros (r) "%Hr Hl". iSpecialize ("Hcl" with "Hl"). iDestruct "HK" as "[HK _]".
      iApply ("HK" with "[] Hcl"). iPureIntro. split; [done|apply stays_refl].
    - iIntros (e) "%He Hl". iSpecialize ("Hcl" with "Hl"). iApply (run_cont_exn with "HK [] Hcl").
      iPureIntro. split; [|apply stays_refl]. split.
      + destruct o; try discriminate; cbn [is_lookup]; done.
      + split; [destruct o; done|]. by destruct He as [-> |[-> Hk]].
  Qed.
  Ltac look := iIntros "Hv HK"; start; iDestruct (look_cont with "Hv HK") as "[Hl HK]"; [done|done|].
  Ltac look_exn := iIntros "Hl"; iDestruct "HK" as "[_ HK]"; iApply ("HK" with "[] Hl"); iPureIntro; by left.

  Lemma f_find k : fop_ok (FFind k).
  Proof.
    intros a f l cap Q X _. look. unfold as_pos, as_idx. wbind. wbind.
    iApply (wp_find with "Hl"). iSplit; [|look_exn].
    iIntros (i) "%Hi Hl". wbeta. iApply (ret_idx f i); [done|done|]. iApply wp_ret.
    iDestruct "HK" as "[HK _]". iApply ("HK" with "[] Hl"). iPureIntro. split; [done|]. intros Hr [Ho|[]].
    destruct (find_post_ok c kd l k i Hr Ho Hi) as [[H1 H2]|[-> H1]]; [left; by exists i|by right].
  Qed.
  Lemma f_lower k : fop_ok (FLower k).
  Proof.
    intros a f l cap Q X _. look. unfold as_pos, as_idx. wbind. wbind.
    iApply (wp_lower with "Hl"). iSplit; [|look_exn].
    iIntros (i) "%Hi Hl". destruct Hi as [Hi1 Hi2]. wbeta. iApply (ret_idx f i); [done|done|]. iApply wp_ret.
    iDestruct "HK" as "[HK _]". iApply ("HK" with "[] Hl"). iPureIntro. split; [done|]. intros Hr [Ho|[]].
    destruct (lower_exists kd c k l Hr Ho) as [m Hm]. exists i. by rewrite (Hi2 m Hm).
  Qed.
  Lemma f_upper k : fop_ok (FUpper k).
  Proof.
    intros a f l cap Q X _. look. unfold as_pos, as_idx. wbind. wbind.
    iApply (wp_upper with "Hl"). iSplit; [|look_exn].
    iIntros (i) "%Hi Hl". destruct Hi as [Hi1 Hi2]. wbeta. iApply (ret_idx f i); [done|done|]. iApply wp_ret.
    iDestruct "HK" as "[HK _]". iApply ("HK" with "[] Hl"). iPureIntro. split; [done|]. intros Hr [Ho|[]].
    destruct (upper_exists kd c k l Hr Ho) as [m Hm]. exists i. by rewrite (Hi2 m Hm).
  Qed.
  Lemma f_equal_range k : fop_ok (FEqualRange k).
  Proof.
    intros a f l cap Q X _. look. wbind.
    iApply (wp_equal_range with "Hl"). iSplit; [|look_exn].
    iIntros (i j) "%Hij Hl". destruct Hij as [Hij Hpos]. wbeta. cbn [fst snd vobj v_first].
    wbind. iApply (wp_psub _ _ (Z.of_nat i)); [done|]. wbeta.
    wbind. iApply (wp_psub _ _ (Z.of_nat j)); [done|]. wbeta. iApply wp_ret. rewrite !Nat2Z.id.
    iDestruct "HK" as "[HK _]". iApply ("HK" with "[] Hl"). iPureIntro. split; [done|]. intros Hr [Ho|[]].
    destruct (lower_exists kd c k l Hr Ho) as [m Hm]. destruct (upper_exists kd c k l Hr Ho) as [n Hn].
    destruct (Hpos m n Hr Hm Hn) as [-> ->]. cbn. exists m, n. done.
  Qed.
  Lemma f_count k : fop_ok (FCount k).
  Proof.
    intros a f l cap Q X _. look. unfold as_one, as_num. wbind. wbind.
    iApply (wp_count c kd _ _ _ _ _ _ EX with "Hl"). iSplit; [|look_exn].
    iIntros (n) "%Hn Hl". wbeta. iApply wp_ret. wbeta. iApply wp_ret.
    iDestruct "HK" as "[HK _]". iApply ("HK" with "[] Hl"). iPureIntro. split; [done|]. intros Hr [Ho|[]].
    by rewrite (Hn Hr Ho).
  Qed.
  Lemma f_contains k : fop_ok (FContains k).
  Proof.
    intros a f l cap Q X _. look. wbind.
    iApply (wp_contains c kd with "Hl"). iSplit; [|look_exn].
    iIntros (b) "%Hb Hl". wbeta. iApply wp_ret.
    iDestruct "HK" as "[HK _]". iApply ("HK" with "[] Hl"). iPureIntro. split; [done|]. intros Hr [Ho|[]].
    exists b. split; [done|]. by apply Hb.
  Qed.
  Lemma f_at k : fop_ok (FAt k).
  Proof.
    intros a f l cap Q X _. look. wbind.
    iApply (wp_map_at c kd with "Hl"). iSplit.
    - iIntros (m) "%Hm Hl". wbeta. iApply wp_ret.
      iDestruct "HK" as "[HK _]". iApply ("HK" with "[] Hl"). iPureIntro. split; [done|]. intros Hr [Ho|[]].
      destruct (Hm Hr Ho) as (i & w & H1 & H2 & ->). by exists i, w.
    - iIntros (e) "%He Hl". iDestruct "HK" as "[_ HK]". iApply ("HK" with "[] Hl"). iPureIntro.
      destruct He as [He|[He Hk]]; [by left|]. right. eauto.
  Qed.
  Lemma f_size : fop_ok FSize.
  Proof.
    intros a f l cap Q X _. iIntros "Hv HK". start. unfold as_one, as_num. wbind. wbind. iApply wp_size. wbeta.
    iApply wp_ret. wbeta. iApply wp_ret. iDestruct "HK" as "[HK _]". iApply ("HK" with "[] Hv"). iPureIntro.
    split; [|apply stays_refl]. done.
  Qed.

  Theorem run_flat_ok o : fop_ok o.
  Proof.
    destruct o; auto using f_emplace, f_insert, f_emplace_hint, f_insert_hint, f_insert_range, f_assign_list,
      f_erase, f_erase_range, f_erase_key, f_erase_if, f_clear, f_find, f_lower, f_upper, f_equal_range, f_count,
      f_contains, f_size, f_try_emplace, f_try_emplace_hint, f_insert_or_assign, f_insert_or_assign_hint, f_at,
      f_index, f_put.
  Qed.
End run.

(** ** [operator=(initializer_list)] *)
Section lists.
  Context `{KD : Keyed}.
  Variable c : Cmp.
  Variable kd : fkind.
  Notation lt := (less c).

  (** The small containers clear and insert. *)
  Lemma clear_insert_ok exact room fv alloc robust fits
      (EX : exact_ok exact room fv (multi kd) alloc robust fits) :
    assign_list_ok c kd fv false alloc fits (clear_insert lt kd exact room).
  Proof.
    intros vs a f l cap Q X Hf. iIntros "Hv HK". unfold clear_insert. wbind.
    iApply (wp_fv_clear kd _ _ _ _ _ _ EX with "Hv"). iIntros "Hv". wbeta.
    iApply (wp_insert_loop c kd _ _ _ _ _ _ EX vs a f [] with "Hv"); [done|]. iSplit.
    - iIntros (f' cap' l') "%Hx Hv". destruct Hx as (H1 & H2 & H3). iDestruct "HK" as "[HK _]".
      iApply ("HK" with "[] Hv"). iPureIntro. split; [done|]. split; [cbn in H1; lia|]. split; [done|].
      intros _ Hr. apply H3; [done|apply ordered_nil].
    - iIntros (e f' cap' l') "%Hx Hv". destruct Hx as (H1 & H2 & H3). iDestruct "HK" as "[_ HK]".
      iApply ("HK" with "[] Hv"). iPureIntro. split; [cbn in *; lia|]. done.
  Qed.

  (** The static containers copy the list as it is. *)
  Lemma static_list_ok N :
    assign_list_ok c kd (static_fv N) true false (fun n => (n <=? N)%nat) (static_list N).
  Proof.
    intros vs a f l cap Q X Hf. apply Nat.leb_le in Hf. iIntros "[%Hv Hb] HK". destruct Hv as (Hib & -> & ->).
    unfold static_list, static_assign_range. rewrite fmap_length. wbind. iApply wp_assert; [lia|].
    iApply (wp_assign_range_inplace emp%I emp%I emp%I with "[//] Hb"); [apply src_vals|lia|]. iSplit.
    - iIntros "_ Hb". iDestruct "HK" as "[HK _]". iApply ("HK" with "[] [Hb]").
      + iPureIntro. split; [done|]. split; [done|]. split; [apply stays_refl|done].
      + unfold static_fv. by iFrame.
    - iIntros (l') "%Hl' _ Hb". iDestruct "HK" as "[_ HK]". rewrite -Hl'. iApply ("HK" with "[] [Hb]").
      + iPureIntro. split; [done|]. split; [apply stays_refl|by left].
      + unfold static_fv. by iFrame.
  Qed.
End lists.
