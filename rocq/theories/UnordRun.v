(** * Calls of the member functions of the unordered flat containers *)

From Coq Require Import ZifyBool.
From Verif Require Export UnordOps.
From iris.proofmode Require Import tactics.
Open Scope Z_scope.

Section run.
  Context `{KD : Keyed}.
  Variable c : Cmp.
  Variable kd : fkind.
  Notation eqk := (same c).
  Context (exact : loc -> arg -> M vdata loc) (room : M vdata unit) (back : arg -> M vdata loc)
    (fv : nat -> loc -> list V -> Z -> hProp) (raw alloc robust eager : bool) (fits : nat -> bool)
    (EX : exact_ok exact room fv (multi kd) alloc robust fits)
    (BK : back_ok back fv alloc robust fits)
    (assign_list : list V -> M vdata unit).
  Notation ins_cont2 := (ins_cont2 fv).
  Notation vo a f l cap := (vobj a f (length l) cap).
  Notation run := (run_unord eqk kd eager back room assign_list).

  (** What is needed about [operator=(initializer_list)]. *)
  Definition ual_ok (vs : list V) (f : loc) (cap : Z) (f' : loc) (cap' : Z) (l' : list V) : Prop :=
    stays (length vs) f cap f' cap' /\ if raw then l' = vs else uinserted_all kd c vs [] l'.
  Definition ual_bad (vs l : list V) (f : loc) (cap : Z) (e : exn) (f' : loc) (cap' : Z) (l' : list V) : Prop :=
    (if raw then length l' = length l
     else (length l' <= length vs)%nat /\ (robust = true -> exists n, uinserted_all kd c (take n vs) [] l')) /\
    stays (length vs) f cap f' cap' /\ kind alloc e.
  Definition uassign_list_ok : Prop :=
    forall vs a f l cap Q X, fits (length vs) = true ->
    fv a f l cap ⊢
    ((∀ f' cap' l', ⟦ual_ok vs f cap f' cap' l'⟧ -∗ fv a f' l' cap' -∗ Q tt (vo a f' l' cap')) ∧
     (∀ e f' cap' l', ⟦ual_bad vs l f cap e f' cap' l'⟧ -∗ fv a f' l' cap' -∗ X e (vo a f' l' cap'))) -∗
    wp (assign_list vs) (vo a f l cap) Q X.
  Context (AL : uassign_list_ok).

  Definition urun_cont o a f l cap (Q : frv -> vdata -> hProp) (X : exn -> vdata -> hProp) : hProp :=
    ((∀ r f' cap' l', ⟦unord_post kd raw eager c o l r l' /\ stays (unord_need o l) f cap f' cap'⟧ -∗
        fv a f' l' cap' -∗ Q r (vo a f' l' cap')) ∧
     (∀ e f' cap' l', ⟦unord_exn kd raw eager c alloc robust o l e l' /\ stays (unord_need o l) f cap f' cap'⟧ -∗
        fv a f' l' cap' -∗ X e (vo a f' l' cap')))%I.
  Definition uop_ok (o : uop) : Prop := forall a f l cap Q X,
    unord_pre kd (fun n => fits (length l + n)) fits o (length l) = true ->
    fv a f l cap ⊢ urun_cont o a f l cap Q X -∗ wp (run o) (vo a f l cap) Q X.

  Lemma urun_cont_exn o a f l cap Q X :
    urun_cont o a f l cap Q X ⊢
    ∀ e f' cap' l', ⟦unord_exn kd raw eager c alloc robust o l e l' /\ stays (unord_need o l) f cap f' cap'⟧ -∗
        fv a f' l' cap' -∗ X e (vo a f' l' cap').
  Proof. iIntros "[_ H]". iExact "H". Qed.

  (** ** Results *)
  Lemma wp_uas_pos OK BAD a f l cap m Q X :
    (forall Q' X', fv a f l cap ⊢ ins_cont2 OK BAD only_at a Q' X' -∗ wp m (vo a f l cap) Q' X') ->
    fv a f l cap ⊢ ins_cont2 OK BAD (fun _ i _ => Pos i) a Q X -∗ wp (as_pos m) (vo a f l cap) Q X.
  Proof.
    iIntros (Hm) "Hv HK". unfold as_pos, as_idx. wbind. wbind. iApply (Hm with "Hv").
    iSplit; [|iDestruct "HK" as "[_ HK]"; iExact "HK"].
    iIntros (f' cap' l' i b) "%Hx Hv". wbeta. iApply (ret_idx f' i); [done|done|]. iApply wp_ret.
    iDestruct "HK" as "[HK _]". by iApply ("HK" with "[] Hv").
  Qed.
  Lemma wp_uas_pair OK BAD a f l cap m Q X :
    (forall Q' X', fv a f l cap ⊢ ins_cont2 OK BAD pair_at a Q' X' -∗ wp m (vo a f l cap) Q' X') ->
    fv a f l cap ⊢ ins_cont2 OK BAD (fun _ i b => PosNew i b) a Q X -∗ wp (as_pair m) (vo a f l cap) Q X.
  Proof.
    iIntros (Hm) "Hv HK". unfold as_pair. wbind. iApply (Hm with "Hv").
    iSplit; [|iDestruct "HK" as "[_ HK]"; iExact "HK"].
    iIntros (f' cap' l' i b) "%Hx Hv". wbeta. wbind. iApply wp_get. wbeta. cbn [pair_at fst snd vobj v_first].
    wbind. iApply (wp_psub _ _ (Z.of_nat i)); [done|]. wbeta. iApply wp_ret. rewrite Nat2Z.id.
    iDestruct "HK" as "[HK _]". by iApply ("HK" with "[] Hv").
  Qed.
  Lemma wp_uas_ins OK BAD a f l cap m Q X :
    (forall Q' X', fv a f l cap ⊢ ins_cont2 OK BAD pair_at a Q' X' -∗ wp m (vo a f l cap) Q' X') ->
    fv a f l cap ⊢ ins_cont2 OK BAD (fun _ i b => ins_result kd false i b) a Q X -∗
    wp (as_ins kd m) (vo a f l cap) Q X.
  Proof.
    iIntros (Hm) "Hv HK". unfold as_ins, ins_result. cbn [orb]. destruct (multi_or kd) as [Hmu|Hmu]; rewrite Hmu.
    - iApply (wp_uas_pos with "Hv HK"). iIntros (Q' X') "Hv HK". wbind. iApply (Hm with "Hv").
      iSplit; [|iDestruct "HK" as "[_ HK]"; iExact "HK"].
      iIntros (f' cap' l' i b) "%Hx Hv". wbeta. iApply wp_ret. iDestruct "HK" as "[HK _]".
      by iApply ("HK" with "[] Hv").
    - by iApply (wp_uas_pair with "Hv HK").
  Qed.
  (** From what the function guarantees to what is specified. *)
  Lemma uins_run (OK : loc -> Z -> list V -> nat -> bool -> Prop) (BAD : exn -> loc -> Z -> list V -> Prop) o a f l cap (res : nat -> bool -> frv) Q X :
    (forall f' cap' l' i b, OK f' cap' l' i b ->
       unord_post kd raw eager c o l (res i b) l' /\ stays (unord_need o l) f cap f' cap') ->
    (forall e f' cap' l', BAD e f' cap' l' ->
       unord_exn kd raw eager c alloc robust o l e l' /\ stays (unord_need o l) f cap f' cap') ->
    urun_cont o a f l cap Q X ⊢ ins_cont2 OK BAD (fun _ i b => res i b) a Q X.
  Proof.
    iIntros (H1 H2) "HK". iSplit.
    - iIntros (f' cap' l' i b) "%Hx Hv". iDestruct "HK" as "[HK _]". iApply ("HK" with "[] Hv").
      iPureIntro. by apply H1.
    - iIntros (e f' cap' l') "%Hx Hv". iDestruct "HK" as "[_ HK]". iApply ("HK" with "[] Hv").
      iPureIntro. by apply H2.
  Qed.

  Ltac start := unfold run_unord; wbind; iApply wp_get; wbeta.

  Lemma uins_exn o f cap l e f' cap' l' :
    uadds o = 1%nat -> unord_need o l = (length l + uadds o)%nat ->
    (length l' = length l -> (robust = true -> l' = l) ->
     forall e, (e = EUser \/ ((e = ELength \/ e = EBadAlloc) /\ alloc = true /\ l' = l)) ->
     unord_exn kd raw eager c alloc robust o l e l') ->
    uins_bad alloc robust f cap l e f' cap' l' ->
    unord_exn kd raw eager c alloc robust o l e l' /\ stays (unord_need o l) f cap f' cap'.
  Proof.
    intros Ha Hn He [(H1 & H2 & H3) [-> ->]]. split; [by apply He|apply stays_refl].
  Qed.
  Lemma kinds (o : uop) (l l' : list V) e :
    uadds o = 1%nat -> (forall vs, o <> UInsertRange vs) -> o <> USize ->
    (e = EUser \/ ((e = ELength \/ e = EBadAlloc) /\ alloc = true /\ l' = l)) ->
    match e with
    | EOutOfRange => exists k, o = UAt k /\ missing c l k
    | EUser => o <> USize
    | ELength | EBadAlloc =>
        alloc = true /\
        match o with
        | UInsertRange _ | UAssignList _ => True
        | _ => uadds o = 1%nat /\ l' = l
        end
    end.
  Proof.
    intros Ha Hr Hs [-> |([-> | ->] & H4 & ->)]; [done| |]; (split; [done|]; destruct o; done).
  Qed.

  Lemma u_insert x : uop_ok (UInsert x).
  Proof.
    intros a f l cap Q X Hpre. cbn [unord_pre] in Hpre. apply andb_true_iff in Hpre as [Hx Hf].
    apply fi_fx in Hx. rewrite one_more in Hf. destruct (fx_rel a f l cap x Hx) as (v & Hv & Hrel & Hm).
    iIntros "Hv HK". start. iApply (wp_uas_ins with "Hv [HK]").
    { intros Q' X'. by apply (wp_uinsert c kd _ _ _ _ _ _ _ EX BK). }
    iApply (uins_run with "HK").
    - intros f' cap' l' i b [H1 H2]. split; [by exists v, i, b|]. cbn. by rewrite one_more.
    - intros e f' cap' l'. apply uins_exn; [done|done|]. intros H1 H2 e' H3. split; [done|]. by apply (kinds (UInsert x)).
  Qed.
  Lemma u_insert_hint h x : uop_ok (UInsertHint h x).
  Proof.
    intros a f l cap Q X Hpre. cbn [unord_pre] in Hpre. apply andb_true_iff in Hpre as [Hpre Hf].
    apply andb_true_iff in Hpre as [Hx Hh]. apply Nat.leb_le in Hh.
    apply fi_fx in Hx. rewrite one_more in Hf. destruct (fx_rel a f l cap x Hx) as (v & Hv & Hrel & Hm).
    iIntros "Hv HK". start. iApply (wp_uas_pos with "Hv [HK]").
    { intros Q' X'. apply (wp_hinted kd _ _ _ _ _ _ EX); [|done|done].
      intros Q1 X1. by apply (wp_uinsert c kd _ _ _ _ _ _ _ EX BK). }
    iApply (uins_run _ _ _ _ _ _ _ (fun i _ => Pos i) with "HK").
    - intros f' cap' l' i b [H1 H2]. split; [by exists v, i, b|]. cbn. by rewrite one_more.
    - intros e f' cap' l'. apply uins_exn; [done|done|]. intros H1 H2 e' H3. split; [done|]. by apply (kinds (UInsertHint h x)).
  Qed.
  Lemma u_emplace x : uop_ok (UEmplace x).
  Proof.
    intros a f l cap Q X Hpre. cbn [unord_pre] in Hpre. apply andb_true_iff in Hpre as [Hx Hf].
    rewrite one_more in Hf. destruct (fx_rel a f l cap x Hx) as (v & Hv & Hrel & Hm).
    iIntros "Hv HK". start. iApply (wp_uas_ins with "Hv [HK]").
    { intros Q' X'. by apply (wp_uemplace c kd _ _ _ _ _ _ eager _ EX BK). }
    iApply (uins_run with "HK").
    - intros f' cap' l' i b (H1 & H2 & H3). split; [|cbn; by rewrite one_more]. split; [done|].
      intros Hs. exists v, i, b. auto.
    - intros e f' cap' l' (H1 & H2 & H3 & H4). split; [|cbn; by rewrite one_more]. split; [|by apply (kinds (UEmplace x))].
      split; [done|]. intros Hr. destruct (H3 Hr) as [|(H5 & H6 & H7)]; [by left|right; eauto].
  Qed.
  Lemma u_emplace_hint h x : uop_ok (UEmplaceHint h x).
  Proof.
    intros a f l cap Q X Hpre. cbn [unord_pre] in Hpre. apply andb_true_iff in Hpre as [Hpre Hf].
    apply andb_true_iff in Hpre as [Hx Hh]. apply Nat.leb_le in Hh.
    rewrite one_more in Hf. destruct (fx_rel a f l cap x Hx) as (v & Hv & Hrel & Hm).
    iIntros "Hv HK". start. iApply (wp_uas_pos with "Hv [HK]").
    { intros Q' X'. apply (wp_hinted kd _ _ _ _ _ _ EX); [|done|done].
      intros Q1 X1. by apply (wp_uemplace c kd _ _ _ _ _ _ eager _ EX BK). }
    iApply (uins_run _ _ _ _ _ _ _ (fun i _ => Pos i) with "HK").
    - intros f' cap' l' i b (H1 & H2 & H3). split; [|cbn; by rewrite one_more]. split; [done|].
      intros Hs. exists v, i, b. auto.
    - intros e f' cap' l' (H1 & H2 & H3 & H4). split; [|cbn; by rewrite one_more]. split; [|by apply (kinds (UEmplaceHint h x))].
      split; [done|]. intros Hr. destruct (H3 Hr) as [|(H5 & H6 & H7)]; [by left|right; eauto].
  Qed.
  Lemma u_try_emplace k m : uop_ok (UTryEmplace k m).
  Proof.
    intros a f l cap Q X Hpre. cbn [unord_pre] in Hpre. rewrite !andb_true_iff negb_true_iff in Hpre.
    destruct Hpre as [[_ Hmu] Hf]. rewrite one_more in Hf.
    iIntros "Hv HK". start. iApply (wp_uas_pair with "Hv [HK]").
    { intros Q' X'. by apply (wp_utry_emplace c kd _ _ _ _ _ _ _ EX BK). }
    iApply (uins_run _ _ _ _ _ _ _ (fun i b => PosNew i b) with "HK").
    - intros f' cap' l' i b [H1 H2]. split; [by exists i, b|]. cbn. by rewrite one_more.
    - intros e f' cap' l'. apply uins_exn; [done|done|]. intros H1 H2 e' H3. split; [done|]. by apply (kinds (UTryEmplace k m)).
  Qed.
  Lemma u_try_emplace_hint h k m : uop_ok (UTryEmplaceHint h k m).
  Proof.
    intros a f l cap Q X Hpre. cbn [unord_pre] in Hpre. rewrite !andb_true_iff negb_true_iff in Hpre.
    destruct Hpre as [[[_ Hmu] Hh] Hf]. rewrite one_more in Hf. apply Nat.leb_le in Hh.
    iIntros "Hv HK". start. iApply (wp_uas_pos with "Hv [HK]").
    { intros Q' X'. apply (wp_hinted kd _ _ _ _ _ _ EX); [|done|done].
      intros Q1 X1. by apply (wp_utry_emplace c kd _ _ _ _ _ _ _ EX BK). }
    iApply (uins_run _ _ _ _ _ _ _ (fun i _ => Pos i) with "HK").
    - intros f' cap' l' i b [H1 H2]. split; [by exists i, b|]. cbn. by rewrite one_more.
    - intros e f' cap' l'. apply uins_exn; [done|done|]. intros H1 H2 e' H3. split; [done|]. by apply (kinds (UTryEmplaceHint h k m)).
  Qed.
  Lemma u_insert_or_assign k m : uop_ok (UInsertOrAssign k m).
  Proof.
    intros a f l cap Q X Hpre. cbn [unord_pre] in Hpre. rewrite !andb_true_iff negb_true_iff in Hpre.
    destruct Hpre as [[_ Hmu] Hf]. rewrite one_more in Hf.
    iIntros "Hv HK". start. iApply (wp_uas_pair with "Hv [HK]").
    { intros Q' X'. by apply (wp_uinsert_or_assign c kd _ _ _ _ _ _ _ EX BK). }
    iApply (uins_run _ _ _ _ _ _ _ (fun i b => PosNew i b) with "HK").
    - intros f' cap' l' i b [H1 H2]. split; [|cbn; by rewrite one_more]. destruct b.
      + destruct H2 as (H2 & H3 & ->). by right.
      + destruct H2 as (w & H2 & H3 & H4). left. by exists i, w.
    - intros e f' cap' l' (H1 & -> & -> & H2 & H3). split; [|apply stays_refl]. split; [done|]. by apply (kinds (UInsertOrAssign k m)).
  Qed.
  Lemma u_insert_or_assign_hint h k m : uop_ok (UInsertOrAssignHint h k m).
  Proof.
    intros a f l cap Q X Hpre. cbn [unord_pre] in Hpre. rewrite !andb_true_iff negb_true_iff in Hpre.
    destruct Hpre as [[[_ Hmu] Hh] Hf]. rewrite one_more in Hf. apply Nat.leb_le in Hh.
    iIntros "Hv HK". start. iApply (wp_uas_pos with "Hv [HK]").
    { intros Q' X'. apply (wp_hinted kd _ _ _ _ _ _ EX); [|done|done].
      intros Q1 X1. by apply (wp_uinsert_or_assign c kd _ _ _ _ _ _ _ EX BK). }
    iApply (uins_run _ _ _ _ _ _ _ (fun i _ => Pos i) with "HK").
    - intros f' cap' l' i b [H1 H2]. split; [|cbn; by rewrite one_more]. destruct b.
      + destruct H2 as (H2 & H3 & ->). by right.
      + destruct H2 as (w & H2 & H3 & H4). left. by exists i, w.
    - intros e f' cap' l' (H1 & -> & -> & H2 & H3). split; [|apply stays_refl]. split; [done|]. by apply (kinds (UInsertOrAssignHint h k m)).
  Qed.
  Lemma u_index k : uop_ok (UIndex k).
  Proof.
    intros a f l cap Q X Hpre. cbn [unord_pre] in Hpre. rewrite !andb_true_iff negb_true_iff in Hpre.
    destruct Hpre as [[_ Hmu] Hf]. rewrite one_more in Hf.
    iIntros "Hv HK". start. wbind.
    iApply (wp_umap_index c kd _ _ _ _ _ _ _ EX BK with "Hv"); [done|done|]. iSplit; last first.
    { iIntros (e f' cap' l') "%Hx Hv". iApply (urun_cont_exn with "HK [] Hv"). iPureIntro. revert Hx.
      apply uins_exn; [done|done|]. intros H1 H2 e' H3. split; [done|]. by apply (kinds (UIndex k)). }
    iIntros (f' cap' l' i b w) "%Hx Hv". destruct Hx as [[H1 H2] H3]. wbeta. iApply wp_ret.
    iDestruct "HK" as "[HK _]". iApply ("HK" with "[] Hv"). iPureIntro. split; [by exists i, b, w|].
    cbn. by rewrite one_more.
  Qed.
  Lemma u_put i m : uop_ok (UPut i m).
  Proof.
    intros a f l cap Q X Hpre. cbn [unord_pre] in Hpre. rewrite !andb_true_iff in Hpre.
    destruct Hpre as [_ Hi]. apply Nat.ltb_lt in Hi. destruct (lookup_lt_is_Some_2 l i Hi) as [v Hv].
    iIntros "Hv HK". start. unfold as_one, as_unit. wbind. wbind. cbn [vobj v_first].
    iApply (wp_assign_second kd _ _ _ _ _ _ EX with "Hv"); [done|]. iSplit.
    - iIntros "Hv". wbeta. iApply wp_ret. wbeta. iApply wp_ret. iDestruct "HK" as "[HK _]".
      iSpecialize ("HK" with "[] Hv"); last first. { rewrite insert_length. iExact "HK". }
      iPureIntro. split; [|apply stays_refl]. split; [done|eauto].
    - iIntros (t) "Hv". iSpecialize ("HK" with "[] Hv"); last first. { rewrite insert_length. iExact "HK". }
      iPureIntro. split; [|apply stays_refl]. split; [cbn; eauto|]. done.
  Qed.

  (** ** Ranges *)
  Lemma u_insert_range vs : uop_ok (UInsertRange vs).
  Proof.
    intros a f l cap Q X Hpre. cbn [unord_pre] in Hpre.
    iIntros "Hv HK". start. unfold as_one, as_unit. wbind. wbind.
    iApply (wp_uinsert_loop c kd _ _ _ _ _ _ _ EX BK with "Hv"); [done|]. iSplit.
    - iIntros (f' cap' l') "%Hx Hv". destruct Hx as (H1 & H2 & H3). wbeta. iApply wp_ret. wbeta. iApply wp_ret.
      iDestruct "HK" as "[HK _]". iApply ("HK" with "[] Hv"). iPureIntro. split; [|done]. split; [done|].
      by apply H3.
    - iIntros (e f' cap' l') "%Hx Hv". destruct Hx as (H1 & H2 & H3 & H4).
      iApply (urun_cont_exn with "HK [] Hv"). iPureIntro. split; [|done]. split; [split; [done|]|].
      + intros Hr. by apply H3.
      + by destruct H4 as [-> |([-> | ->] & H4)].
  Qed.
  Lemma u_assign_list vs : uop_ok (UAssignList vs).
  Proof.
    intros a f l cap Q X Hpre. cbn [unord_pre] in Hpre.
    iIntros "Hv HK". start. unfold as_one, as_unit. wbind. wbind.
    iApply (AL with "Hv"); [done|]. iSplit.
    - iIntros (f' cap' l') "%Hx Hv". destruct Hx as (H1 & H2). wbeta. iApply wp_ret. wbeta. iApply wp_ret.
      iDestruct "HK" as "[HK _]". iApply ("HK" with "[] Hv"). iPureIntro. split; [|done]. done.
    - iIntros (e f' cap' l') "%Hx Hv". destruct Hx as (H1 & H2 & H3).
      iApply (urun_cont_exn with "HK [] Hv"). iPureIntro. split; [|done]. split; [done|].
      by destruct H3 as [-> |([-> | ->] & H4)].
  Qed.

  (** ** Erasing *)
  Lemma u_erase i : uop_ok (UErase i).
  Proof.
    intros a f l cap Q X Hpre. cbn [unord_pre] in Hpre. apply Nat.ltb_lt in Hpre.
    iIntros "Hv HK". start. unfold as_pos, as_idx. wbind. wbind.
    change (v_first (vo a f l cap)) with f.
    iApply (wp_uerase kd _ _ _ _ _ _ EX with "Hv"); [done|]. iSplit.
    - iIntros (l') "%Hx Hv". wbeta. iApply (ret_idx f i); [done|done|]. iApply wp_ret. iDestruct "HK" as "[HK _]".
      iApply ("HK" with "[] Hv"). iPureIntro. split; [|apply stays_refl]. done.
    - iIntros (l') "%Hx Hv". iApply (urun_cont_exn with "HK [] Hv"). iPureIntro. split; [|apply stays_refl].
      split; done.
  Qed.
  Lemma u_erase_range i j : uop_ok (UEraseRange i j).
  Proof.
    intros a f l cap Q X Hpre. cbn [unord_pre] in Hpre. apply andb_true_iff in Hpre as [H1 H2].
    apply Nat.leb_le in H1, H2.
    iIntros "Hv HK". start. unfold as_pos, as_idx. wbind. wbind. change (v_first (vo a f l cap)) with f.
    iApply (wp_uerase_range kd _ _ _ _ _ _ EX with "Hv"); [done|]. iSplit.
    - iIntros (l') "%Hx Hv". wbeta. iApply (ret_idx f i); [done|done|]. iApply wp_ret. iDestruct "HK" as "[HK _]".
      iApply ("HK" with "[] Hv"). iPureIntro. split; [|apply stays_refl]. done.
    - iIntros (l') "%Hx Hv". iApply (urun_cont_exn with "HK [] Hv"). iPureIntro. split; [|apply stays_refl].
      split; done.
  Qed.
  Lemma u_erase_key k : uop_ok (UEraseKey k).
  Proof.
    intros a f l cap Q X _. iIntros "Hv HK". start. unfold as_one, as_num. wbind. wbind.
    iApply (wp_uerase_key c kd _ _ _ _ _ _ EX with "Hv"). iSplit.
    - iIntros (n l') "%Hx Hv". wbeta. iApply wp_ret. wbeta. iApply wp_ret.
      iDestruct "HK" as "[HK _]". iApply ("HK" with "[] Hv"). iPureIntro. split; [|apply stays_refl]. done.
    - iIntros (l') "%Hx Hv". iApply (urun_cont_exn with "HK [] Hv"). iPureIntro. split; [|apply stays_refl].
      split; done.
  Qed.
  Lemma u_erase_key_of i : uop_ok (UEraseKeyOf i).
  Proof.
    intros a f l cap Q X Hpre. cbn [unord_pre] in Hpre. rewrite andb_true_iff negb_true_iff in Hpre.
    destruct Hpre as [Hmu Hi]. apply Nat.ltb_lt in Hi. destruct (lookup_lt_is_Some_2 l i Hi) as [v Hv].
    iIntros "Hv HK". start. unfold as_one, as_num. wbind. wbind. change (v_first (vo a f l cap)) with f.
    iApply (wp_uerase_key_ref c kd _ _ _ _ _ _ EX with "Hv"); [done|done|]. iSplit.
    - iIntros (n l') "%Hx Hv". wbeta. iApply wp_ret. wbeta. iApply wp_ret.
      iDestruct "HK" as "[HK _]". iApply ("HK" with "[] Hv"). iPureIntro. split; [|apply stays_refl]. by exists v.
    - iIntros (l') "%Hx Hv". iApply (urun_cont_exn with "HK [] Hv"). iPureIntro. split; [|apply stays_refl].
      split; done.
  Qed.
  Lemma u_erase_if p : uop_ok (UEraseIf p).
  Proof.
    intros a f l cap Q X _. iIntros "Hv HK". start. unfold as_one, as_num. wbind. wbind.
    iApply (wp_uerase_each kd _ _ _ _ _ _ EX with "Hv"). iSplit.
    - iIntros (l') "%Hx Hv". wbeta. iApply wp_ret. wbeta. iApply wp_ret.
      iDestruct "HK" as "[HK _]". iApply ("HK" with "[] Hv"). iPureIntro. split; [|apply stays_refl]. done.
    - iIntros (l') "%Hx Hv". iApply (urun_cont_exn with "HK [] Hv"). iPureIntro. split; [|apply stays_refl].
      split; done.
  Qed.
  Lemma u_clear : uop_ok UClear.
  Proof.
    intros a f l cap Q X _. iIntros "Hv HK". start. unfold as_one, as_unit. wbind. wbind.
    iApply (wp_fv_clear kd _ _ _ _ _ _ EX with "Hv").
    iIntros "Hv". wbeta. iApply wp_ret. wbeta. iApply wp_ret. iDestruct "HK" as "[HK _]".
    iApply ("HK" $! _ f cap [] with "[] Hv"). iPureIntro. split; [|apply stays_refl]. done.
  Qed.

  (** ** Lookup *)
  Lemma ulook_cont o a f l cap Q X :
    u_lookup o = true -> o <> USize ->
    fv a f l cap ⊢ urun_cont o a f l cap Q X -∗
    elems f l ∗
    ((∀ r, ⟦unord_post kd raw eager c o l r l⟧ -∗ elems f l -∗ Q r (vo a f l cap)) ∧
     (∀ e, ⟦e = EUser \/ (e = EOutOfRange /\ exists k, o = UAt k /\ missing c l k)⟧ -∗
        elems f l -∗ X e (vo a f l cap))).
  Proof.
    iIntros (Hlk Hsz) "Hv HK". iDestruct (fv_elems kd _ _ _ _ _ _ EX with "Hv") as "[$ Hcl]". iSplit.
    - iIntros (r) "%Hr Hl". iSpecialize ("Hcl" with "Hl"). iDestruct "HK" as "[HK _]".
      iApply ("HK" with "[] Hcl"). iPureIntro. split; [done|apply stays_refl].
    - iIntros (e) "%He Hl". iSpecialize ("Hcl" with "Hl"). iApply (urun_cont_exn with "HK [] Hcl").
      iPureIntro. split; [|apply stays_refl]. split.
      + destruct o; try discriminate; done.
      + by destruct He as [-> |[-> Hk]].
  Qed.
  Ltac look := iIntros "Hv HK"; start; iDestruct (ulook_cont with "Hv HK") as "[Hl HK]"; [done|done|].
  Ltac look_exn := iIntros "Hl"; iDestruct "HK" as "[_ HK]"; iApply ("HK" with "[] Hl"); iPureIntro; by left.

  Lemma u_find k : uop_ok (UFind k).
  Proof.
    intros a f l cap Q X _. look. unfold as_pos, as_idx. wbind. wbind.
    iApply (wp_ufind with "Hl"). iSplit; [|look_exn].
    iIntros (i) "%Hi Hl". wbeta. iApply (ret_idx f i); [done|done|]. iApply wp_ret.
    iDestruct "HK" as "[HK _]". iApply ("HK" with "[] Hl"). iPureIntro. split; [done|].
    destruct Hi as [[H1 H2]|[-> H1]]; [left; by exists i|by right].
  Qed.
  Lemma u_count k : uop_ok (UCount k).
  Proof.
    intros a f l cap Q X _. look. unfold as_one, as_num. wbind. wbind.
    iApply (wp_ucount c kd with "Hl"). iSplit; [|look_exn].
    iIntros "Hl". wbeta. iApply wp_ret. wbeta. iApply wp_ret.
    iDestruct "HK" as "[HK _]". iApply ("HK" with "[] Hl"). iPureIntro. done.
  Qed.
  Lemma u_contains k : uop_ok (UContains k).
  Proof.
    intros a f l cap Q X _. look. wbind.
    iApply (wp_ucontains c with "Hl"). iSplit; [|look_exn].
    iIntros "Hl". wbeta. iApply wp_ret. iDestruct "HK" as "[HK _]". iApply ("HK" with "[] Hl"). done.
  Qed.
  Lemma u_at k : uop_ok (UAt k).
  Proof.
    intros a f l cap Q X _. look. wbind.
    iApply (wp_umap_at c with "Hl"). iSplit.
    - iIntros (i w) "%Hw Hl". wbeta. iApply wp_ret.
      iDestruct "HK" as "[HK _]". iApply ("HK" with "[] Hl"). iPureIntro. split; [done|]. exists i, w. destruct Hw; done.
    - iIntros (e) "%He Hl". iDestruct "HK" as "[_ HK]". iApply ("HK" with "[] Hl"). iPureIntro.
      destruct He as [He|[He Hk]]; [by left|]. right. eauto.
  Qed.
  Lemma u_size : uop_ok USize.
  Proof.
    intros a f l cap Q X _. iIntros "Hv HK". start. unfold as_one, as_num. wbind. wbind. iApply wp_size. wbeta.
    iApply wp_ret. wbeta. iApply wp_ret. iDestruct "HK" as "[HK _]". iApply ("HK" with "[] Hv"). iPureIntro.
    split; [|apply stays_refl]. done.
  Qed.

  Theorem run_unord_ok o : uop_ok o.
  Proof.
    destruct o; auto using u_emplace, u_insert, u_emplace_hint, u_insert_hint, u_insert_range, u_assign_list,
      u_erase, u_erase_range, u_erase_key, u_erase_key_of, u_erase_if, u_clear, u_find, u_count,
      u_contains, u_size, u_try_emplace, u_try_emplace_hint, u_insert_or_assign, u_insert_or_assign_hint, u_at,
      u_index, u_put.
  Qed.
End run.

(** ** [operator=(initializer_list)] *)
Section lists.
  Context `{KD : Keyed}.
  Variable c : Cmp.
  Variable kd : fkind.
  Notation eqk := (same c).

  (** The small containers clear and insert. *)
  Lemma uclear_insert_ok exact room back fv alloc robust fits
      (EX : exact_ok exact room fv (multi kd) alloc robust fits)
      (BK : back_ok back fv alloc robust fits) :
    uassign_list_ok c kd fv false alloc robust fits (uclear_insert eqk kd back room).
  Proof.
    intros vs a f l cap Q X Hf. iIntros "Hv HK". unfold uclear_insert. wbind.
    iApply (wp_fv_clear kd _ _ _ _ _ _ EX with "Hv"). iIntros "Hv". wbeta.
    iApply (wp_uinsert_loop c kd _ _ _ _ _ _ _ EX BK vs a f [] with "Hv"); [done|]. iSplit.
    - iIntros (f' cap' l') "%Hx Hv". destruct Hx as (H1 & H2 & H3). iDestruct "HK" as "[HK _]".
      iApply ("HK" with "[] Hv"). iPureIntro. split; [done|]. by apply H3.
    - iIntros (e f' cap' l') "%Hx Hv". destruct Hx as (H1 & H2 & H3 & H4). iDestruct "HK" as "[_ HK]".
      iApply ("HK" with "[] Hv"). iPureIntro. split; [|done]. split; [cbn in *; lia|].
      intros Hr. by apply H3.
  Qed.

  (** The static containers copy the list as it is. *)
  Lemma ustatic_list_ok N :
    uassign_list_ok c kd (static_fv N) true false true (fun n => (n <=? N)%nat) (static_list N).
  Proof.
    intros vs a f l cap Q X Hf. iIntros "Hv HK".
    iApply (static_list_ok c kd N with "Hv"); [done|]. iSplit.
    - iIntros (f' cap' l') "%Hx Hv". destruct Hx as (H1 & H2 & H3 & H4). iDestruct "HK" as "[HK _]".
      iApply ("HK" with "[] Hv"). iPureIntro. split; [done|]. by apply H1.
    - iIntros (e f' cap' l') "%Hx Hv". destruct Hx as (H1 & H2 & H3). iDestruct "HK" as "[_ HK]".
      iApply ("HK" with "[] Hv"). iPureIntro. done.
  Qed.
End lists.
