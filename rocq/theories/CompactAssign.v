(** * compact_vector: loops over emplace, assignment, functions of two objects *)

From Verif Require Export CompactOps.
From iris.proofmode Require Import tactics.
From Coq Require Import ZifyBool.
Open Scope Z_scope.

Section loops.
  Context `{E : Env}.

  (** [vs] could not be appended. *)
  Definition capp_fail (l vs : list V) (e : exn) (l' : list V) : Prop :=
    (length l <= length l' < length l + length vs)%nat /\
    (e = ELength -> max_size < Z.of_nat (length l + length vs)) /\ e <> EOutOfRange.

  Lemma wp_compact_append a f l vs Q X :
    cat a f l ⊢
    ((∀ f', ⟦vs = [] -> f' = f⟧ -∗ cat a f' (l ++ vs) -∗ Q tt (cobj a f' (length (l ++ vs)))) ∧
     (∀ e f' l', ⟦capp_fail l vs e l'⟧ -∗ cat a f' l' -∗ X e (cobj a f' (length l')))) -∗
    wp (compact_append (AVal <$> vs)) (cobj a f (length l)) Q X.
  Proof.
    iIntros "Hv HK". iInduction vs as [|v vs] "IH" forall (f l); simpl.
    { iApply wp_ret. iDestruct "HK" as "[HK _]". rewrite app_nil_r. by iApply ("HK" with "[]"). }
    wbind. iApply (wp_compact_emplace_back with "Hv"); [constructor|]. iSplit; last first.
    { iIntros (e l') "%Hx Hv". iDestruct "HK" as "[_ HK]". destruct Hx as (Hx1 & Hx2).
      rewrite -Hx1. iApply ("HK" with "[] Hv"). iPureIntro. unfold capp_fail. simpl.
      split_and!; [lia|lia|destruct e; naive_solver lia|by intros ->]. }
    iIntros (f') "Hv".
    iSpecialize ("IH" $! f' (l ++ [v]) with "Hv").
    replace (length (l ++ [v])) with (S (length l)) by nlia.
    iApply "IH". iSplit.
    - iIntros (f'') "_ Hv". iDestruct "HK" as "[HK _]". rewrite -assoc_L. by iApply ("HK" $! f'' with "[] Hv").
    - iIntros (e f'' l'') "%Hx Hv". iDestruct "HK" as "[_ HK]".
      iApply ("HK" with "[] Hv"). iPureIntro. destruct Hx as (Hx1 & Hx3 & Hx4).
      rewrite app_length /= in Hx1, Hx3. unfold capp_fail. simpl. split_and!; [lia|lia|naive_solver lia|done].
  Qed.

  Lemma wp_compact_insert_loop a f l i vs Q X :
    (i <= length l)%nat ->
    cat a f l ⊢
    ((∀ f', ⟦vs = [] -> f' = f⟧ -∗ cat a f' (insert_at i vs l) -∗ Q tt (cobj a f' (length vs + length l))) ∧
     (∀ e f' l', ⟦capp_fail l vs e l'⟧ -∗ cat a f' l' -∗ X e (cobj a f' (length l')))) -∗
    wp (compact_insert_loop (f +ₗ Z.of_nat i) (AVal <$> vs)) (cobj a f (length l)) Q X.
  Proof.
    iIntros (Hi) "Hv HK". iInduction vs as [|v vs] "IH" forall (f l i Hi); simpl.
    { iApply wp_ret. iDestruct "HK" as "[HK _]". unfold insert_at. simpl. rewrite take_drop.
      by iApply ("HK" with "[]"). }
    wbind. iApply (wp_compact_emplace with "Hv"); [done|constructor|]. iSplit; last first.
    { iIntros (e l') "%Hx Hv". iDestruct "HK" as "[_ HK]". destruct Hx as (Hx1 & Hx2).
      rewrite -Hx1. iApply ("HK" with "[] Hv"). iPureIntro. unfold capp_fail. simpl.
      split_and!; [lia|lia|destruct e; naive_solver lia|by intros ->]. }
    iIntros (f') "Hv".
    iSpecialize ("IH" $! f' (insert_at i [v] l) (S i) with "[%] Hv"); [nlia|].
    replace (length (insert_at i [v] l)) with (S (length l)) by nlia.
    replace (f' +ₗ Z.of_nat i +ₗ 1) with (f' +ₗ Z.of_nat (S i)) by loc_solve.
    iApply "IH". iSplit.
    - iIntros (f'') "_ Hv". iDestruct "HK" as "[HK _]".
      rewrite insert_at_cons; [|done].
      replace (length vs + S (length l))%nat with (S (length vs + length l)) by lia.
      by iApply ("HK" $! f'' with "[] Hv").
    - iIntros (e f'' l'') "%Hx Hv". iDestruct "HK" as "[_ HK]".
      iApply ("HK" with "[] Hv"). iPureIntro. destruct Hx as (Hx1 & Hx2 & Hx3).
      unfold capp_fail. rewrite insert_at_length /= in Hx1, Hx2. simpl.
      split_and!; [lia|lia| |done]. intros He. specialize (Hx2 He). lia.
  Qed.

  Lemma wp_compact_insert_input a f l i vs Q X :
    (i <= length l)%nat ->
    cat a f l ⊢
    ((∀ f', ⟦vs = [] -> f' = f⟧ -∗ cat a f' (insert_at i vs l) -∗
        Q (f' +ₗ Z.of_nat i) (cobj a f' (length vs + length l))) ∧
     (∀ e f' l', ⟦capp_fail l vs e l'⟧ -∗ cat a f' l' -∗ X e (cobj a f' (length l')))) -∗
    wp (compact_insert_input (f +ₗ Z.of_nat i) (AVal <$> vs)) (cobj a f (length l)) Q X.
  Proof.
    iIntros (Hi) "Hv HK". unfold compact_insert_input. wbind. iApply wp_offset_of; [done|]. wbeta. wbind.
    iApply (wp_compact_insert_loop with "Hv"); [done|]. iSplit.
    - iIntros (f') "%Hk Hv". wbind. iApply wp_get. wbeta. iApply wp_ret.
      iDestruct "HK" as "[HK _]". by iApply ("HK" with "[] Hv").
    - by iDestruct "HK" as "[_ HK]".
  Qed.

  Lemma wp_compact_init_input a vs Q X :
    emp ⊢
    ((∀ f', cat a f' vs -∗ Q tt (cobj a f' (length vs))) ∧
     (∀ e s, ⟦ctor_fail (length vs) e⟧ -∗ X e s)) -∗
    wp (compact_init_input (AVal <$> vs)) (cobj a null 0) Q X.
  Proof.
    iIntros "_ HK". unfold compact_init_input. iApply wp_try.
    iApply (wp_compact_append a null [] with "[]"); [by iApply cat_null|]. iSplit.
    - iIntros (f') "_ Hv". iDestruct "HK" as "[HK _]". by iApply "HK".
    - iIntros (e f' l') "%Hx Hv". iApply (wp_compact_destructor with "Hv"). iIntros (s).
      iDestruct "HK" as "[_ HK]". iApply ("HK" with "[]"). iPureIntro.
      destruct Hx as (_ & Hx & Hx'). destruct e; simpl in *; auto.
  Qed.

  Lemma wp_compact_assign_input a f l vs Q X :
    cat a f l ⊢
    ((∀ f', cat a f' vs -∗ Q tt (cobj a f' (length vs))) ∧
     (∀ e f' l', ⟦capp_fail [] vs e l'⟧ -∗ cat a f' l' -∗ X e (cobj a f' (length l')))) -∗
    wp (compact_assign_input (AVal <$> vs)) (cobj a f (length l)) Q X.
  Proof.
    iIntros "Hv HK". unfold compact_assign_input. wbind. iApply (wp_compact_clear with "Hv").
    iApply (wp_compact_append a null [] with "[]"); [by iApply cat_null|]. iSplit.
    - iIntros (f') "_ Hv". iDestruct "HK" as "[HK _]". by iApply "HK".
    - iDestruct "HK" as "[_ HK]". iApply "HK".
  Qed.

  Lemma wp_compact_self_move a f l Q X :
    cat a f l ⊢ (cat a null [] -∗ Q tt (cobj a null 0)) -∗
    wp compact_self_move (cobj a f (length l)) Q X.
  Proof.
    iIntros "Hv HK". unfold compact_self_move. wbind. iApply (wp_compact_clear with "Hv").
    wbind. iApply wp_get. wbeta. wbind. iApply wp_modify. iApply wp_modify.
    iApply "HK". by iApply cat_null.
  Qed.

  (** What a catch block must do in [assign]: give back the new storage. *)
  Definition undo_ok (undo : Z -> M vdata unit) (n : nat) : Prop :=
    forall a p Q X, ablock a p (Z.of_nat n) ⊢ raws p n -∗ Q tt (cobj a null 0) -∗
      wp (undo (Z.of_nat n)) (cobj a p 0) Q X.

  Lemma code_undo_0 : undo_ok code_undo 0.
  Proof.
    intros a p Q X. iIntros "Hb Hr HQ". unfold code_undo.
    iApply (wp_compact_clear a p [] with "[Hb Hr]"); [|done].
    iApply (cat_intro with "Hb []"); [done| |done]. pose proof max_size_ok. lia.
  Qed.

  (** The catch block with the size of the block it gives back. *)
  Definition fixed_undo (n : Z) : M vdata unit :=
    (o <- getS;; deallocate (v_alloc o) (v_first o) n;; set_storage null null)%prog.
  Lemma fixed_undo_ok n : undo_ok fixed_undo n.
  Proof.
    intros a p Q X. iIntros "Hb Hr HQ". unfold fixed_undo. wbind. iApply wp_get. wbeta. wbind.
    iApply (wp_deallocate with "Hb [Hr]"); [by rewrite Nat2Z.id|].
    iApply wp_modify. rewrite vec_nil_storage. iApply "HQ".
  Qed.

  Section assign.
    Context (undo : Z -> M vdata unit).

    Definition casg_fail (l : list V) (n : nat) (f : loc) (e : exn) (f' : loc) (l' : list V) : Prop :=
      match e with
      | ELength => l' = l /\ f' = f /\ max_size < Z.of_nat n
      | EBadAlloc => l' = [] /\ n <> length l
      | EUser => if decide (n = length l) then f' = f /\ length l' = length l else l' = []
      | EOutOfRange => False
      end.

    Lemma cobj_empty a p o : v_alloc o = a -> with_storage p p p o = cobj a p 0.
    Proof. intros <-. unfold cobj, vobj, with_storage. simpl. by rewrite loc_add_0. Qed.

    Lemma wp_compact_assign_range a f l PX P srcs vs P' Q X :
      src_ok PX P srcs vs P' ->
      (length vs = length l \/ no_throw \/ undo_ok undo (length vs)) ->
      P ⊢ cat a f l -∗
      ((∀ f', ⟦length vs = length l -> f' = f⟧ -∗ P' -∗ cat a f' vs -∗ Q tt (cobj a f' (length vs))) ∧
       (∀ e f' l', ⟦casg_fail l (length vs) f e f' l'⟧ -∗ (match e with EUser => PX | _ => P end) -∗
          cat a f' l' -∗ X e (cobj a f' (length l')))) -∗
      wp (compact_assign_range undo srcs) (cobj a f (length l)) Q X.
    Proof.
      iIntros (Hok Hundo) "HP Hv HK". unfold compact_assign_range.
      rewrite (proj1 Hok). wbind. iApply wp_check_size. iSplit; last first.
      { iIntros "%Hms". iDestruct "HK" as "[_ HK]". iApply ("HK" $! ELength f l with "[] HP Hv").
        by iPureIntro. }
      iIntros "%Hms". wbind. iApply wp_size. wbeta. wbind. iApply wp_get. wbeta.
      destruct (Z.eqb_spec (Z.of_nat (length vs)) (Z.of_nat (length l))) as [He|He].
      { iDestruct (cat_open with "Hv") as "(%Hlen & Hown & Hl)". wbind. unfold copy.
        iApply (wp_assign_loop with "HP Hl"); [by apply src_ass|lia|]. iSplit.
        - iIntros "HP Hl". iApply wp_ret. iDestruct "HK" as "[HK _]".
          assert (length l = length vs) as Hl by lia. rewrite Hl.
          iApply ("HK" with "[//] HP"). by iApply (cat_intro with "Hown Hl"); rewrite ?Hl.
        - iIntros (l') "%Hl' HP Hl". iDestruct "HK" as "[_ HK]". destruct Hl' as [Hl' _]. rewrite -Hl'.
          iApply ("HK" $! EUser f l' with "[] HP"); [iPureIntro; simpl; rewrite decide_True; [done|lia]|].
          iApply (cat_intro with "Hown Hl"); lia. }
      wbind. iApply (wp_compact_clear with "Hv"). wbind.
      change (v_alloc (cobj a f (length l))) with a.
      iApply wp_allocate; [lia|]. iSplit; last first.
      { iDestruct "HK" as "[_ HK]". iApply ("HK" $! EBadAlloc null [] with "[] HP"); [iPureIntro; simpl; naive_solver|].
        by iApply cat_null. }
      iIntros (p) "Hb Hr". rewrite Nat2Z.id. wbind. unfold set_storage. iApply wp_modify.
      rewrite (cobj_empty a); [|done]. iApply wp_try. wbind.
      destruct Hundo as [?|[Hnt|Hundo]]; [lia| |].
      - iApply wp_calm; [done|]. iApply (wp_ucopy with "HP Hr"); [by apply src_mks|]. iSplit; [|iIntros "H1 H2"; simpl; done].
        iIntros "HP Hl". iApply wp_modify. iDestruct "HK" as "[HK _]".
        iApply ("HK" $! p with "[] HP"); [iPureIntro; lia|]. by iApply (cat_intro with "Hb Hl").
      - iApply (wp_ucopy with "HP Hr"); [by apply src_mks|]. iSplit.
        + iIntros "HP Hl". iApply wp_modify. iDestruct "HK" as "[HK _]".
          iApply ("HK" $! p with "[] HP"); [iPureIntro; lia|]. by iApply (cat_intro with "Hb Hl").
        + iIntros "HP Hr". iApply (Hundo with "Hb Hr"). iDestruct "HK" as "[_ HK]".
          iApply ("HK" $! EUser null [] with "[] HP"); [iPureIntro; simpl; rewrite decide_False; [done|lia]|]. by iApply cat_null.
    Qed.

    Lemma wp_compact_assign_fill a f l n v Q X :
      (n = length l \/ no_throw \/ undo_ok undo n) ->
      cat a f l ⊢
      ((∀ f', ⟦n = length l -> f' = f⟧ -∗ cat a f' (replicate n v) -∗ Q tt (cobj a f' n)) ∧
       (∀ e f' l', ⟦casg_fail l n f e f' l'⟧ -∗ cat a f' l' -∗ X e (cobj a f' (length l')))) -∗
      wp (compact_assign_fill undo (Z.of_nat n) (AVal v)) (cobj a f (length l)) Q X.
    Proof.
      iIntros (Hundo) "Hv HK". unfold compact_assign_fill.
      wbind. iApply wp_check_size. iSplit; last first.
      { iIntros "%Hms". iDestruct "HK" as "[_ HK]". iApply ("HK" $! ELength f l with "[] Hv").
        by iPureIntro. }
      iIntros "%Hms". wbind. iApply wp_size. wbeta. wbind. iApply wp_get. wbeta.
      destruct (Z.eqb_spec (Z.of_nat n) (Z.of_nat (length l))) as [He|He].
      { iDestruct (cat_open with "Hv") as "(%Hlen & Hown & Hl)".
        assert (n = length l) as -> by lia.
        iApply (wp_fill emp%I with "[//] Hl"); [apply as_ok_val|done|]. iSplit.
        - iIntros "_ Hl". iDestruct "HK" as "[HK _]". iApply ("HK" with "[//]").
          iApply (cat_intro with "Hown Hl"); by rewrite ?replicate_length.
        - iIntros (l') "%Hl' _ Hl". iDestruct "HK" as "[_ HK]". destruct Hl' as [Hl' _]. rewrite -Hl'.
          iApply ("HK" $! EUser f l' with "[]"); [iPureIntro; simpl; rewrite decide_True; [done|lia]|].
          iApply (cat_intro with "Hown Hl"); lia. }
      wbind. iApply (wp_compact_clear with "Hv"). wbind.
      change (v_alloc (cobj a f (length l))) with a.
      iApply wp_allocate; [lia|]. iSplit; last first.
      { iDestruct "HK" as "[_ HK]". iApply ("HK" $! EBadAlloc null [] with "[]"); [iPureIntro; simpl; naive_solver|].
        by iApply cat_null. }
      iIntros (p) "Hb Hr". rewrite Nat2Z.id. wbind. unfold set_storage. iApply wp_modify.
      rewrite (cobj_empty a); [|done]. iApply wp_try. wbind.
      destruct Hundo as [?|[Hnt|Hundo]]; [lia| |].
      - iApply wp_calm; [done|]. iApply (wp_ufill_n emp%I with "[//] Hr"); [apply mk_ok_val|]. iSplit; [|iIntros "H1 H2"; simpl; done].
        iIntros "_ Hl". iApply wp_modify. iDestruct "HK" as "[HK _]".
        iApply ("HK" $! p with "[] [Hb Hl]"); [iPureIntro; lia|]. iApply (cat_intro with "Hb Hl"); by rewrite ?replicate_length.
      - iApply (wp_ufill_n emp%I with "[//] Hr"); [apply mk_ok_val|]. iSplit.
        + iIntros "_ Hl". iApply wp_modify. iDestruct "HK" as "[HK _]".
          iApply ("HK" $! p with "[] [Hb Hl]"); [iPureIntro; lia|]. iApply (cat_intro with "Hb Hl"); by rewrite ?replicate_length.
        + iIntros "_ Hr". iApply (Hundo with "Hb Hr"). iDestruct "HK" as "[_ HK]".
          iApply ("HK" $! EUser null [] with "[]"); [iPureIntro; simpl; rewrite decide_False; [done|lia]|]. by iApply cat_null.
    Qed.

    Lemma wp_compact_propagate (flag : bool) a1 f1 l1 o2 Q X :
      cat a1 f1 l1 ⊢
      (∀ f' l', ⟦if flag && negb (a1 =? v_alloc o2)%nat then l' = [] else f' = f1 /\ l' = l1⟧ -∗
          cat (if flag then v_alloc o2 else a1) f' l' -∗
          Q tt (cobj (if flag then v_alloc o2 else a1) f' (length l'), o2)) -∗
      wp (if flag then
            (if negb (a1 =? v_alloc o2)%nat then on1 compact_clear else ret tt);;
            on1 (modS (with_alloc (v_alloc o2)))
          else ret tt)%prog (cobj a1 f1 (length l1), o2) Q X.
    Proof.
      iIntros "Hv HK". destruct flag; simpl; last first.
      { iApply wp_ret. by iApply ("HK" with "[] Hv"). }
      wbind. destruct (Nat.eqb_spec a1 (v_alloc o2)) as [->|Hne]; simpl.
      - iApply wp_ret. iApply wp_on1. iApply wp_modify. by iApply ("HK" with "[] Hv").
      - iApply wp_on1. iApply (wp_compact_clear with "Hv"). iApply wp_on1. iApply wp_modify.
        iApply ("HK" $! null []); [done|]. by iApply cat_null.
    Qed.

    Lemma wp_compact_assign_copy a1 f1 l1 a2 f2 l2 Q X :
      (length l2 = length l1 /\ (pocca = false \/ a1 = a2) \/ no_throw \/ undo_ok undo (length l2)) ->
      cat a1 f1 l1 ⊢ cat a2 f2 l2 -∗
      ((∀ f1', ⟦(pocca = false \/ a1 = a2) -> length l2 = length l1 -> f1' = f1⟧ -∗
          cat (if pocca then a2 else a1) f1' l2 -∗ cat a2 f2 l2 -∗
          Q tt (cobj (if pocca then a2 else a1) f1' (length l2), cobj a2 f2 (length l2))) ∧
       (∀ e f1' l1', ⟦ctor_fail (length l2) e /\ (length l1' = length l1 \/ l1' = [])⟧ -∗
          cat (if pocca then a2 else a1) f1' l1' -∗ cat a2 f2 l2 -∗
          X e (cobj (if pocca then a2 else a1) f1' (length l1'), cobj a2 f2 (length l2)))) -∗
      wp (compact_assign_copy undo) (cobj a1 f1 (length l1), cobj a2 f2 (length l2)) Q X.
    Proof.
      iIntros (Hundo) "H1 H2 HK". unfold compact_assign_copy. wbind. iApply wp_get. cbn [fst snd]. wbind.
      change (v_alloc (cobj a1 f1 (length l1))) with a1.
      iApply (wp_compact_propagate with "H1"). iIntros (f' l') "%Hp H1".
      change (v_alloc (cobj a2 f2 (length l2))) with a2 in *.
      set (a := if pocca then a2 else a1). wbind. iApply wp_range; [done|].
      iDestruct (cat_open with "H2") as "(%Hlen & Hown & Hl)". iApply wp_on1.
      assert ((pocca = false \/ a1 = a2) -> f' = f1 /\ l' = l1) as Hkeep.
      { intros [Hpa|<-]; [by rewrite Hpa in Hp|]. rewrite Nat.eqb_refl andb_false_r in Hp. done. }
      assert (l' = [] \/ l' = l1) as Hl'.
      { destruct (pocca && negb (a1 =? a2)%nat); naive_solver. }
      iApply (wp_compact_assign_range a f' l' _ _ _ l2 with "Hl H1"); [apply src_copy| |].
      { destruct Hundo as [[Hn Hpa]|?]; [|tauto]. left. destruct (Hkeep Hpa) as [_ ->]. done. }
      iSplit.
      - iIntros (f'') "%Hs Hl H1". iDestruct "HK" as "[HK _]". iApply ("HK" with "[%] H1").
        { intros Hpa Hn. destruct (Hkeep Hpa) as [-> ->]. by apply Hs. }
        by iApply (cat_intro with "Hown Hl").
      - iIntros (e f'' l'') "%Hf Hl H1". iDestruct "HK" as "[_ HK]".
        iApply ("HK" with "[] H1").
        + iPureIntro. destruct e; simpl in Hf.
          * destruct Hf as (-> & -> & ?). split; [done|]. destruct Hl' as [->| ->]; auto.
          * done.
          * destruct Hf as [-> ?]. split; [done|by right].
          * case_decide; [|by split; [done|right]]. destruct Hf as [_ Hf]. split; [done|].
            destruct Hl' as [->| ->]; [right|by left]. by destruct l''.
        + iApply (cat_intro with "Hown [Hl]"); [done|done|]. by destruct e.
    Qed.

    Lemma wp_compact_assign_move a1 f1 l1 a2 f2 l2 Q X :
      (ma_alloc a1 a2 = a2 \/ length l2 = length l1 \/ no_throw \/ undo_ok undo (length l2)) ->
      cat a1 f1 l1 ⊢ cat a2 f2 l2 -∗
      ((⟦ma_alloc a1 a2 = a2⟧ -∗ cat a2 f2 l2 -∗ cat a2 null [] -∗
          Q tt (cobj a2 f2 (length l2), cobj a2 null 0)) ∧
       (∀ f1', ⟦ma_alloc a1 a2 <> a2 /\ (length l2 = length l1 -> f1' = f1)⟧ -∗
          cat (ma_alloc a1 a2) f1' l2 -∗ cat a2 f2 (vmoved <$> l2) -∗
          Q tt (cobj (ma_alloc a1 a2) f1' (length l2), cobj a2 f2 (length l2))) ∧
       (∀ e f1' l1' l2', ⟦ctor_fail (length l2) e /\ ma_alloc a1 a2 <> a2 /\ length l2' = length l2 /\
                          (length l1' = length l1 \/ l1' = [])⟧ -∗
          cat (ma_alloc a1 a2) f1' l1' -∗ cat a2 f2 l2' -∗
          X e (cobj (ma_alloc a1 a2) f1' (length l1'), cobj a2 f2 (length l2)))) -∗
      wp (compact_assign_move undo) (cobj a1 f1 (length l1), cobj a2 f2 (length l2)) Q X.
    Proof.
      iIntros (Hundo) "H1 H2 HK". unfold compact_assign_move. wbind. iApply wp_get. cbn [fst snd]. wbind.
      change (v_alloc (cobj a1 f1 (length l1))) with a1.
      iApply (wp_compact_propagate with "H1"). iIntros (f' l') "%Hp H1".
      change (v_alloc (cobj a2 f2 (length l2))) with a2 in *.
      change (if pocma then a2 else a1) with (ma_alloc a1 a2).
      set (a := ma_alloc a1 a2) in *. wbind. iApply wp_get. cbn [fst snd].
      change (v_alloc (cobj a f' (length l'))) with a.
      change (v_alloc (cobj a2 f2 (length l2))) with a2.
      destruct (Nat.eqb_spec a a2) as [Heq|Hne].
      - wbind. iApply wp_on1. iApply (wp_compact_clear with "H1"). wbind. iApply wp_get. wbeta. iApply wp_put.
        cbn [fst snd]. iDestruct "HK" as "[HK _]". rewrite Heq.
        iApply ("HK" with "[//] H2"). by iApply cat_null.
      - assert (pocma = false) as Hpm by (unfold a, ma_alloc in Hne; by destruct pocma).
        rewrite Hpm in Hp. destruct Hp as [-> ->].
        wbind. iApply wp_range; [done|].
        iDestruct (cat_open with "H2") as "(%Hlen & Hown & Hl)". iApply wp_on1.
        iApply (wp_compact_assign_range a f1 l1 _ _ _ l2 with "Hl H1"); [apply src_move|naive_solver|]. iSplit.
        + iIntros (f'') "%Hs Hl H1". iDestruct "HK" as "[_ [HK _]]".
          iApply ("HK" with "[] H1"); [done|]. iApply (cat_intro with "Hown Hl"); by rewrite ?fmap_length.
        + iIntros (e f'' l'') "%Hf Hl H1". iDestruct "HK" as "[_ [_ HK]]".
          iAssert (any_elems f2 (length l2)) with "[Hl]" as "Hl".
          { destruct e; try done; iExists l2; by iFrame. }
          iDestruct "Hl" as (l2') "[%Hl2 Hl]".
          iApply ("HK" with "[] H1 [Hown Hl]").
          * iPureIntro. split_and!; try done.
            -- destruct e; simpl in *; naive_solver.
            -- destruct e; simpl in Hf; [destruct Hf as [-> _]; by left|done|destruct Hf as [-> _]; by right|].
               case_decide; naive_solver.
          * iApply (cat_intro with "Hown Hl"); by rewrite ?Hl2.
    Qed.
  End assign.
End loops.
