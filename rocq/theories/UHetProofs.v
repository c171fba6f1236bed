(** * The functions of the unordered flat containers that take an argument of another
      type meet their specification *)

From Coq Require Import ZifyBool.
From Verif Require Export UHetModel UnordRun.
From iris.proofmode Require Import tactics.
Open Scope Z_scope.

(** ** Lookup *)
Section lookup.
  Context `{KD : Keyed}.
  Notation vo a f l cap := (vobj a f (length l) cap).
  Implicit Types (x : V -> bool).

  Definition yfind_post (l : list V) x (i : nat) : Prop :=
    ((i < length l)%nat /\ first_hit x l i) \/ (i = length l /\ no_hit x l).

  Lemma wp_yfind_loop x a f l cap Q X n : forall i,
    (i + n = length l)%nat -> (forall j w, (j < i)%nat -> l !! j = Some w -> x w = false) ->
    elems f l ⊢
    ((∀ i, ⟦yfind_post l x i⟧ -∗ elems f l -∗ Q (f +ₗ Z.of_nat i) (vo a f l cap)) ∧
     (elems f l -∗ X EUser (vo a f l cap))) -∗
    wp (yfind_loop x n (f +ₗ Z.of_nat i)) (vo a f l cap) Q X.
  Proof.
    induction n as [|n IH]; iIntros (i Hi Hno) "Hl HK"; cbn [yfind_loop].
    - iApply wp_ret. iDestruct "HK" as "[HK _]". iApply ("HK" with "[] Hl"). iPureIntro. right.
      split; [lia|]. intros j w Hj. eapply Hno; [|done]. apply lookup_lt_Some in Hj. lia.
    - destruct (lookup_lt_is_Some_2 l i) as [v Hv]; [lia|]. wbind.
      iApply (wp_test_at with "Hl"); [done|]. iSplit; [|iDestruct "HK" as "[_ HK]"; iExact "HK"].
      iIntros "Hl". wbeta. destruct (x v) eqn:Hk.
      + iApply wp_ret. iDestruct "HK" as "[HK _]". iApply ("HK" with "[] Hl"). iPureIntro. left.
        split; [lia|]. exists v. done.
      + replace (f +ₗ Z.of_nat i +ₗ 1) with (f +ₗ Z.of_nat (S i)) by loc_solve.
        iApply (IH with "Hl HK"); [lia|]. intros j w Hj Hw. destruct (decide (j = i)) as [->|].
        * by simplify_eq.
        * eapply Hno; [|done]. lia.
  Qed.
  Lemma wp_yfind x a f l cap Q X :
    elems f l ⊢
    ((∀ i, ⟦yfind_post l x i⟧ -∗ elems f l -∗ Q (f +ₗ Z.of_nat i) (vo a f l cap)) ∧
     (elems f l -∗ X EUser (vo a f l cap))) -∗
    wp (yfind x) (vo a f l cap) Q X.
  Proof.
    iIntros "Hl HK". unfold yfind. wbind. iApply wp_get. wbeta. wbind. iApply wp_full_range. wbeta.
    cbn [vobj v_first].
    iPoseProof (wp_yfind_loop x a f l cap Q X (length l) 0 with "Hl HK") as "H"; [done|lia|].
    by rewrite loc_add_0.
  Qed.

  Lemma no_hit_filter x l : no_hit x l -> List.filter x l = [] /\ existsb x l = false.
  Proof.
    intros Hm. assert (forall w, In w l -> x w = false) as H.
    { intros w Hw. apply elem_of_list_In, elem_of_list_lookup in Hw as [i Hi]. by eapply Hm. }
    clear Hm. induction l as [|w l IH]; [done|]. cbn. rewrite H; [|by left]. apply IH.
    intros. apply H. by right.
  Qed.
  Lemma first_hit_exists x l i : first_hit x l i -> existsb x l = true.
  Proof.
    intros (w & Hw & Hk & _). apply existsb_exists. exists w. split; [|done].
    apply elem_of_list_In, elem_of_list_lookup. eauto.
  Qed.

  Lemma wp_ycount_loop x a f l cap Q X n : forall i,
    (i + n = length l)%nat ->
    elems f l ⊢
    ((elems f l -∗ Q (Z.of_nat (length (List.filter x (drop i l)))) (vo a f l cap)) ∧
     (elems f l -∗ X EUser (vo a f l cap))) -∗
    wp (ycount_loop x n (f +ₗ Z.of_nat i)) (vo a f l cap) Q X.
  Proof.
    induction n as [|n IH] in Q, X |- *; iIntros (i Hi) "Hl HK"; cbn [ycount_loop].
    - iApply wp_ret. iDestruct "HK" as "[HK _]". rewrite drop_ge; [|lia]. by iApply "HK".
    - destruct (lookup_lt_is_Some_2 l i) as [v Hv]; [lia|]. wbind.
      iApply (wp_test_at with "Hl"); [done|]. iSplit; [|iDestruct "HK" as "[_ HK]"; iExact "HK"].
      iIntros "Hl". wbeta. wbind. replace (f +ₗ Z.of_nat i +ₗ 1) with (f +ₗ Z.of_nat (S i)) by loc_solve.
      iApply (IH with "Hl"); [lia|]. iSplit; [|iDestruct "HK" as "[_ HK]"; iExact "HK"].
      iIntros "Hl". wbeta. iApply wp_ret. iDestruct "HK" as "[HK _]". iSpecialize ("HK" with "Hl").
      rewrite (drop_S l v i Hv). cbn [List.filter].
      destruct (x v); [|iExact "HK"]. cbn [length]. rewrite Nat2Z.inj_succ -Z.add_1_r. iExact "HK".
  Qed.
  Lemma wp_ycount kd x a f l cap Q X :
    elems f l ⊢
    ((elems f l -∗ Q (Z.of_nat ((if multi kd then length (List.filter x l)
        else if existsb x l then 1 else 0)%nat)) (vo a f l cap)) ∧
     (elems f l -∗ X EUser (vo a f l cap))) -∗
    wp (ycount kd x) (vo a f l cap) Q X.
  Proof.
    iIntros "Hl HK". unfold ycount. destruct (multi kd).
    - wbind. iApply wp_get. wbeta. wbind. iApply wp_full_range. wbeta. cbn [vobj v_first].
      iPoseProof (wp_ycount_loop x a f l cap Q X (length l) 0 with "Hl HK") as "H"; [done|].
      by rewrite loc_add_0.
    - wbind. iApply (wp_yfind with "Hl"). iSplit; [|iDestruct "HK" as "[_ HK]"; iExact "HK"].
      iIntros (i) "%Hi Hl". wbeta. wbind. iApply wp_get. wbeta. cbn [vobj v_last]. rewrite loc_eqb_add.
      iApply wp_ret. iDestruct "HK" as "[HK _]". iSpecialize ("HK" with "Hl").
      destruct Hi as [[Hi Hk]|[-> Hk]].
      + rewrite (first_hit_exists _ _ _ Hk).
        destruct (Z.eqb_spec (Z.of_nat i) (Z.of_nat (length l))); [lia|]. iExact "HK".
      + rewrite (proj2 (no_hit_filter _ _ Hk)) Z.eqb_refl. iExact "HK".
  Qed.
  Lemma wp_ycontains x a f l cap Q X :
    elems f l ⊢
    ((elems f l -∗ Q (existsb x l) (vo a f l cap)) ∧
     (elems f l -∗ X EUser (vo a f l cap))) -∗
    wp (ycontains x) (vo a f l cap) Q X.
  Proof.
    iIntros "Hl HK". unfold ycontains.
    wbind. iApply (wp_yfind with "Hl"). iSplit; [|iDestruct "HK" as "[_ HK]"; iExact "HK"].
    iIntros (i) "%Hi Hl". wbeta. wbind. iApply wp_get. wbeta. cbn [vobj v_last]. rewrite loc_eqb_add.
    iApply wp_ret. iDestruct "HK" as "[HK _]". iSpecialize ("HK" with "Hl").
    destruct Hi as [[Hi Hk]|[-> Hk]].
    - rewrite (first_hit_exists _ _ _ Hk).
      destruct (Z.eqb_spec (Z.of_nat i) (Z.of_nat (length l))); [lia|]. iExact "HK".
    - rewrite (proj2 (no_hit_filter _ _ Hk)) Z.eqb_refl. iExact "HK".
  Qed.
  Lemma wp_y_at x a f l cap Q X :
    elems f l ⊢
    ((∀ i w, ⟦l !! i = Some w /\ first_hit x l i⟧ -∗ elems f l -∗ Q (mapped w) (vo a f l cap)) ∧
     (∀ e, ⟦e = EUser \/ (e = EOutOfRange /\ no_hit x l)⟧ -∗ elems f l -∗ X e (vo a f l cap))) -∗
    wp (y_at x) (vo a f l cap) Q X.
  Proof.
    iIntros "Hl HK". unfold y_at. wbind. iApply (wp_yfind with "Hl"). iSplit; last first.
    { iIntros "Hl". iDestruct "HK" as "[_ HK]". iApply ("HK" with "[] Hl"). iPureIntro. by left. }
    iIntros (i) "%Hi Hl". wbeta. wbind. iApply wp_get. wbeta.
    cbn [vobj v_last]. rewrite loc_eqb_add. destruct Hi as [[Hi Hk]|[-> Hk]].
    - destruct (Z.eqb_spec (Z.of_nat i) (Z.of_nat (length l))) as [Heq|Hne]; [lia|].
      destruct (lookup_lt_is_Some_2 l i) as [v Hv]; [lia|]. wbind.
      iDestruct (elems_acc _ _ i with "Hl") as "[Hd Hl]"; [done|].
      iApply (wp_read with "Hd"). iIntros "Hd". iSpecialize ("Hl" $! v with "Hd").
      rewrite (list_insert_id l i v Hv). wbeta. iApply wp_ret. iDestruct "HK" as "[HK _]".
      by iApply ("HK" with "[] Hl").
    - rewrite Z.eqb_refl. iApply wp_throw; [by right|]. iDestruct "HK" as "[_ HK]".
      iApply ("HK" with "[] Hl"). iPureIntro. by right.
  Qed.
End lookup.

(** ** Functions that change the container, and calls *)
Section ops.
  Context `{KD : Keyed}.
  Variable kd : fkind.
  Context (exact : loc -> arg -> M vdata loc) (room : M vdata unit) (back : arg -> M vdata loc)
    (fv : nat -> loc -> list V -> Z -> hProp) (alloc robust : bool) (fits : nat -> bool)
    (EX : exact_ok exact room fv (multi kd) alloc robust fits)
    (BK : back_ok back fv alloc robust fits).
  Notation vo a f l cap := (vobj a f (length l) cap).
  Notation ins_cont2 := (ins_cont2 fv).
  Notation uins_bad := (uins_bad alloc robust).
  Implicit Types (x : V -> bool).

  Definition yput_ok x v upd (f : loc) (cap : Z) (l : list V) (f' : loc) (cap' : Z) (l' : list V) i b : Prop :=
    yput x v upd l i b l' /\ stays (S (length l)) f cap f' cap'.
  (** A throwing insert_or_assign may have damaged the mapped value. *)
  Definition yas_bad x (f : loc) (cap : Z) (l : list V) e (f' : loc) (cap' : Z) (l' : list V) : Prop :=
    uins_bad f cap l e f' cap' l' \/
    (e = EUser /\ f' = f /\ cap' = cap /\
     exists i w t, first_hit x l i /\ l !! i = Some w /\ l' = <[i := entry (key w) (mjunk t)]> l).

  Lemma yput_length x v (upd : nat -> list V -> list V -> Prop) l i b l' :
    (forall i l l', upd i l l' -> length l' = length l) -> yput x v upd l i b l' -> (i < length l')%nat.
  Proof.
    intros Hu. destruct b; cbn.
    - intros (_ & -> & ->). rewrite app_length /=. lia.
    - intros [(w & Hw & _) H]. rewrite (Hu _ _ _ H). by apply lookup_lt_Some in Hw.
  Qed.

  Lemma wp_yback x v upd a f l cap Q X :
    fits (S (length l)) = true -> no_hit x l ->
    fv a f l cap ⊢ ins_cont2 (yput_ok x v upd f cap l) (uins_bad f cap l) pair_at a Q X -∗
    wp (p <- back (AVal v);; ret (p, true))%prog (vo a f l cap) Q X.
  Proof.
    iIntros (Hf Hno) "Hv HK". wbind. iApply (BK with "Hv"); [done|apply ar_val|by intros []|]. iSplit.
    - iIntros (f' cap') "%Hs Hv". wbeta. iApply wp_ret. iDestruct "HK" as "[HK _]".
      iSpecialize ("HK" $! f' cap' (l ++ [v]) (length l) true with "[] Hv").
      + iPureIntro. split; [|done]. done.
      + rewrite app_length /= Nat.add_1_r. iExact "HK".
    - iIntros (e l') "%Hx Hv". iDestruct "HK" as "[_ HK]". by iApply ("HK" with "[] Hv").
  Qed.
  Lemma wp_yappend x v upd a f l cap Q X :
    fits (S (length l)) = true -> no_hit x l ->
    fv a f l cap ⊢ ins_cont2 (yput_ok x v upd f cap l) (uins_bad f cap l) pair_at a Q X -∗
    wp (yappend kd back v) (vo a f l cap) Q X.
  Proof.
    iIntros (Hf Hno) "Hv HK". unfold yappend. destruct (is_map kd); [by iApply (wp_yback with "Hv HK")|]. wbind.
    iApply (wp_make_arg kd _ _ _ _ _ _ EX with "Hv"); [apply ar_val|by intros []|]. iSplit.
    - iIntros "Hv". wbeta. by iApply (wp_yback with "Hv HK").
    - iIntros "Hv". iDestruct "HK" as "[_ HK]". iApply ("HK" with "[] Hv"). iPureIntro. apply uins_bad_same.
  Qed.

  Lemma wp_yinsert x v a f l cap Q X :
    fits (S (length l)) = true ->
    fv a f l cap ⊢ ins_cont2 (yput_ok x v as_was f cap l) (uins_bad f cap l) pair_at a Q X -∗
    wp (yinsert kd back room x v) (vo a f l cap) Q X.
  Proof.
    iIntros (Hf) "Hv HK". unfold yinsert. wbind.
    iApply (ex_room _ _ _ _ _ _ _ EX with "Hv"); [done|]. iIntros "Hv". wbind.
    iDestruct (fv_elems kd _ _ _ _ _ _ EX with "Hv") as "[Hl Hcl]".
    iApply (wp_yfind with "Hl"). iSplit; last first.
    { iIntros "Hl". iSpecialize ("Hcl" with "Hl"). iDestruct "HK" as "[_ HK]".
      iApply ("HK" with "[] Hcl"). iPureIntro. apply uins_bad_same. }
    iIntros (i) "%Hi Hl". iSpecialize ("Hcl" with "Hl"). wbeta. wbind. iApply wp_get. wbeta.
    change (v_last (vo a f l cap)) with (f +ₗ Z.of_nat (length l)). rewrite loc_eqb_add.
    destruct Hi as [[Hi Hk]|[-> Hk]].
    - destruct (Z.eqb_spec (Z.of_nat i) (Z.of_nat (length l))) as [Heq|Hne]; [lia|].
      iApply wp_ret. iDestruct "HK" as "[HK _]". iApply ("HK" $! f cap l i false with "[] Hcl").
      iPureIntro. split; [done|apply stays_refl].
    - rewrite Z.eqb_refl. by iApply (wp_yappend with "Hcl HK").
  Qed.
  Lemma wp_yassign x k m a f l cap Q X :
    fits (S (length l)) = true ->
    fv a f l cap ⊢ ins_cont2 (yput_ok x (entry k m) (mapped_set m) f cap l) (yas_bad x f cap l) pair_at a Q X -∗
    wp (yassign kd back room x k m) (vo a f l cap) Q X.
  Proof.
    iIntros (Hf) "Hv HK". unfold yassign. wbind.
    iApply (ex_room _ _ _ _ _ _ _ EX with "Hv"); [done|]. iIntros "Hv". wbind.
    iDestruct (fv_elems kd _ _ _ _ _ _ EX with "Hv") as "[Hl Hcl]".
    iApply (wp_yfind with "Hl"). iSplit; last first.
    { iIntros "Hl". iSpecialize ("Hcl" with "Hl"). iDestruct "HK" as "[_ HK]".
      iApply ("HK" with "[] Hcl"). iPureIntro. left. apply uins_bad_same. }
    iIntros (i) "%Hi Hl". iSpecialize ("Hcl" with "Hl"). wbeta. wbind. iApply wp_get. wbeta.
    change (v_last (vo a f l cap)) with (f +ₗ Z.of_nat (length l)). rewrite loc_eqb_add.
    destruct Hi as [[Hi Hk]|[-> Hk]].
    - destruct (Z.eqb_spec (Z.of_nat i) (Z.of_nat (length l))) as [Heq|Hne]; [lia|].
      destruct (lookup_lt_is_Some_2 l i Hi) as [w Hw]. wbind.
      iApply (wp_assign_second kd _ _ _ _ _ _ EX with "Hcl"); [done|]. iSplit.
      + iIntros "Hv". wbeta. iApply wp_ret. iDestruct "HK" as "[HK _]".
        iSpecialize ("HK" $! f cap _ i false with "[] Hv"); last first. { rewrite insert_length. iExact "HK". }
        iPureIntro. split; [|apply stays_refl]. split; [done|]. by exists w.
      + iIntros (t) "Hv". iDestruct "HK" as "[_ HK]".
        iSpecialize ("HK" $! EUser f cap with "[] Hv"); last first. { rewrite insert_length. iExact "HK". }
        iPureIntro. right. eauto 10.
    - rewrite Z.eqb_refl. iApply (wp_yappend with "Hcl"); [done|done|]. iSplit.
      + iDestruct "HK" as "[HK _]". iExact "HK".
      + iIntros (e f' cap' l') "%Hx Hv". iDestruct "HK" as "[_ HK]". iApply ("HK" with "[] Hv").
        iPureIntro. by left.
  Qed.
  Lemma wp_y_index x k a f l cap Q X :
    fits (S (length l)) = true ->
    fv a f l cap ⊢
    ((∀ f' cap' l' i b w, ⟦yput_ok x (entry k mdef) as_was f cap l f' cap' l' i b /\ l' !! i = Some w⟧ -∗
        fv a f' l' cap' -∗ Q (mapped w) (vo a f' l' cap')) ∧
     (∀ e f' cap' l', ⟦uins_bad f cap l e f' cap' l'⟧ -∗ fv a f' l' cap' -∗ X e (vo a f' l' cap'))) -∗
    wp (y_index kd back room x k) (vo a f l cap) Q X.
  Proof.
    iIntros (Hf) "Hv HK". unfold y_index. wbind. iApply (wp_yinsert with "Hv"); [done|].
    iSplit; [|iDestruct "HK" as "[_ HK]"; iExact "HK"].
    iIntros (f' cap' l' i b) "%Hx Hv". wbeta. cbn [pair_at fst].
    assert (Hi : (i < length l')%nat).
    { eapply yput_length; [|exact (proj1 Hx)]. by intros ??? ->. }
    destruct (lookup_lt_is_Some_2 l' i Hi) as [w Hw]. wbind.
    iDestruct (fv_elems kd _ _ _ _ _ _ EX with "Hv") as "[Hl Hcl]".
    iDestruct (elems_acc _ _ i with "Hl") as "[Hd Hl]"; [done|].
    iApply (wp_read with "Hd"). iIntros "Hd". iSpecialize ("Hl" $! w with "Hd").
    rewrite (list_insert_id l' i w Hw). iSpecialize ("Hcl" with "Hl"). wbeta. iApply wp_ret.
    iDestruct "HK" as "[HK _]". by iApply ("HK" with "[] Hcl").
  Qed.
  Lemma wp_yerase x a f l cap Q X :
    fv a f l cap ⊢
    ((∀ n l', ⟦uhet_post kd (YErase x) l (Num n) l'⟧ -∗ fv a f l' cap -∗ Q (Z.of_nat n) (vo a f l' cap)) ∧
     (∀ l', ⟦(length l' <= length l)%nat⟧ -∗ fv a f l' cap -∗ X EUser (vo a f l' cap))) -∗
    wp (yerase kd x) (vo a f l cap) Q X.
  Proof.
    iIntros "Hv HK". unfold yerase. cbn [uhet_post]. destruct (multi_or kd) as [Hmu|Hmu]; rewrite Hmu.
    { iApply (wp_uerase_each kd _ _ _ _ _ _ EX with "Hv"). iSplit; [|iDestruct "HK" as "[_ HK]"; iExact "HK"].
      iIntros (l') "%Hx Hv". iDestruct "HK" as "[HK _]". iApply ("HK" with "[] Hv"). done. }
    wbind. iDestruct (fv_elems kd _ _ _ _ _ _ EX with "Hv") as "[Hl Hcl]".
    iApply (wp_yfind with "Hl"). iSplit; last first.
    { iIntros "Hl". iSpecialize ("Hcl" with "Hl"). iDestruct "HK" as "[_ HK]". by iApply ("HK" with "[] Hcl"). }
    iIntros (i) "%Hi Hl". iSpecialize ("Hcl" with "Hl"). wbeta. wbind. iApply wp_get. wbeta.
    change (v_last (vo a f l cap)) with (f +ₗ Z.of_nat (length l)). rewrite loc_eqb_add.
    destruct Hi as [[Hi Hk]|[-> Hk]].
    - destruct (Z.eqb_spec (Z.of_nat i) (Z.of_nat (length l))) as [Heq|Hne]; [lia|]. wbind.
      iApply (wp_uerase kd _ _ _ _ _ _ EX with "Hcl"); [done|]. iSplit.
      + iIntros (l') "%Hx Hv". wbeta. iApply wp_ret. iDestruct "HK" as "[HK _]".
        iApply ("HK" $! 1%nat l' with "[] Hv"). iPureIntro. right. eauto.
      + iIntros (l') "%Hx Hv". iDestruct "HK" as "[_ HK]". iApply ("HK" with "[] Hv"). iPureIntro. lia.
    - rewrite Z.eqb_refl. iApply wp_ret. iDestruct "HK" as "[HK _]".
      iApply ("HK" $! 0%nat l with "[] Hcl"). iPureIntro. left. done.
  Qed.

  (** ** Calls *)
  Definition ycont o a f l cap (Q : frv -> vdata -> hProp) (X : exn -> vdata -> hProp) : hProp :=
    ((∀ r f' cap' l', ⟦uhet_post kd o l r l' /\ stays (match new_y o with Some _ => S (length l) | None => length l end) f cap f' cap'⟧ -∗
        fv a f' l' cap' -∗ Q r (vo a f' l' cap')) ∧
     (∀ e l', ⟦uhet_exn alloc robust o l e l'⟧ -∗ fv a f l' cap -∗ X e (vo a f l' cap)))%I.
  Notation run := (run_uhet kd back room).

  Lemma bad_exn o f cap l e f' cap' l' :
    new_y o <> None ->
    (length l' = length l -> (robust = true -> l' = l) ->
     match o with
      | YErase _ => (length l' <= length l)%nat
      | YInsert _ _ | YInsertHint _ _ _ | YIndex _ _ => length l' = length l /\ (robust = true -> l' = l)
      | YAssign x _ _ | YAssignHint _ x _ _ =>
          length l' = length l /\
          (robust = true ->
           l' = l \/ exists i w t, first_hit x l i /\ l !! i = Some w /\ l' = <[i := entry (key w) (mjunk t)]> l)
      | _ => l' = l
      end) ->
    uins_bad f cap l e f' cap' l' -> uhet_exn alloc robust o l e l' /\ f' = f /\ cap' = cap.
  Proof.
    intros Hn Hp [(H1 & H2 & H3) [-> ->]]. split; [|done]. split; [by apply Hp|].
    destruct H3 as [-> |([-> | ->] & Ha & Hl)]; [done| |]; done.
  Qed.
  Lemma ins_y (OK : loc -> Z -> list V -> nat -> bool -> Prop) (BAD : exn -> loc -> Z -> list V -> Prop) o a f l cap (res : nat -> bool -> frv) Q X :
    (forall f' cap' l' i b, OK f' cap' l' i b ->
       uhet_post kd o l (res i b) l' /\ stays (S (length l)) f cap f' cap') ->
    (forall e f' cap' l', BAD e f' cap' l' -> uhet_exn alloc robust o l e l' /\ f' = f /\ cap' = cap) ->
    new_y o <> None ->
    ycont o a f l cap Q X ⊢ ins_cont2 OK BAD (fun _ i b => res i b) a Q X.
  Proof.
    iIntros (H1 H2 Hn) "HK". iSplit.
    - iIntros (f' cap' l' i b) "%Hx Hv". iDestruct "HK" as "[HK _]". iApply ("HK" with "[] Hv").
      iPureIntro. destruct (H1 _ _ _ _ _ Hx). by destruct (new_y o).
    - iIntros (e f' cap' l') "%Hx Hv". iDestruct "HK" as "[_ HK]". destruct (H2 _ _ _ _ Hx) as (H & -> & ->).
      by iApply ("HK" with "[] Hv").
  Qed.
  Lemma ins_bad_ok o f cap l :
    match o with YInsert _ _ | YInsertHint _ _ _ | YIndex _ _ => True | _ => False end ->
    forall e f' cap' l', uins_bad f cap l e f' cap' l' -> uhet_exn alloc robust o l e l' /\ f' = f /\ cap' = cap.
  Proof. intros Ho e f' cap' l'. apply bad_exn; destruct o; try done. Qed.
  Lemma as_bad_ok o x k m f cap l :
    o = YAssign x k m \/ (exists h, o = YAssignHint h x k m) ->
    forall e f' cap' l', yas_bad x f cap l e f' cap' l' -> uhet_exn alloc robust o l e l' /\ f' = f /\ cap' = cap.
  Proof.
    intros Ho e f' cap' l' [H|(-> & -> & -> & i & w & t & H1 & H2 & ->)].
    - revert H. apply bad_exn; destruct Ho as [-> |[h ->]]; try done; intros H1 H2; (split; [done|]); intros Hr; left; by apply H2.
    - split; [|done]. split; [|done].
      destruct Ho as [-> |[h ->]]; (split; [by rewrite insert_length|]); intros _; right; eauto 10.
  Qed.

  Lemma look_y o a f l cap Q X :
    match o with YFind _ | YCount _ | YContains _ | YAt _ => True | _ => False end ->
    fv a f l cap ⊢ ycont o a f l cap Q X -∗
    elems f l ∗
    ((∀ r, ⟦uhet_post kd o l r l⟧ -∗ elems f l -∗ Q r (vo a f l cap)) ∧
     (∀ e, ⟦e = EUser \/ (e = EOutOfRange /\ exists x, o = YAt x /\ no_hit x l)⟧ -∗
        elems f l -∗ X e (vo a f l cap))).
  Proof.
    iIntros (Ho) "Hv HK". iDestruct (fv_elems kd _ _ _ _ _ _ EX with "Hv") as "[$ Hcl]". iSplit.
    - iIntros (r) "%Hr Hl". iSpecialize ("Hcl" with "Hl"). iDestruct "HK" as "[HK _]".
      iApply ("HK" with "[] Hcl"). iPureIntro. split; [done|apply stays_refl].
    - iIntros (e) "%He Hl". iSpecialize ("Hcl" with "Hl"). iDestruct "HK" as "[_ HK]". iApply ("HK" with "[] Hcl").
      iPureIntro. split.
      + by destruct o.
      + by destruct He as [-> |[-> Hk]].
  Qed.

  Ltac start := unfold run_uhet; wbind; iApply wp_get; wbeta.
  Ltac look := iIntros "Hv HK"; start; iDestruct (look_y with "Hv HK") as "[Hl HK]"; [done|].
  Ltac look_exn := iIntros "Hl"; iDestruct "HK" as "[_ HK]"; iApply ("HK" with "[] Hl"); iPureIntro; by left.

  Theorem run_uhet_ok o a f l cap Q X :
    uhet_pre kd (fits (S (length l))) o (length l) = true ->
    fv a f l cap ⊢ ycont o a f l cap Q X -∗ wp (run o) (vo a f l cap) Q X.
  Proof.
    destruct o as [x|x|x|x|x v|h x v|x k m|h x k m|x|x k]; intros Hpre; cbn [uhet_pre] in Hpre;
      rewrite ?andb_true_iff in Hpre.
    - look. unfold as_pos, as_idx. wbind. wbind. iApply (wp_yfind with "Hl"). iSplit; [|look_exn].
      iIntros (i) "%Hi Hl". wbeta. iApply (ret_idx f i); [done|done|]. iApply wp_ret.
      iDestruct "HK" as "[HK _]". iApply ("HK" with "[] Hl"). iPureIntro. split; [done|].
      destruct Hi as [[H1 H2]|[-> H1]]; [left; by exists i|by right].
    - look. unfold as_one, as_num. wbind. wbind. iApply (wp_ycount kd with "Hl"). iSplit; [|look_exn].
      iIntros "Hl". wbeta. iApply wp_ret. wbeta. iApply wp_ret.
      iDestruct "HK" as "[HK _]". iApply ("HK" with "[] Hl"). iPureIntro. done.
    - look. wbind. iApply (wp_ycontains with "Hl"). iSplit; [|look_exn].
      iIntros "Hl". wbeta. iApply wp_ret. iDestruct "HK" as "[HK _]". iApply ("HK" with "[] Hl"). done.
    - iIntros "Hv HK". start. unfold as_one, as_num. wbind. wbind. iApply (wp_yerase with "Hv"). iSplit.
      + iIntros (n l') "%Hx Hv". wbeta. iApply wp_ret. wbeta. iApply wp_ret.
        iDestruct "HK" as "[HK _]". iApply ("HK" with "[] Hv"). iPureIntro. split; [|apply stays_refl]. done.
      + iIntros (l') "%Hx Hv". iDestruct "HK" as "[_ HK]". iApply ("HK" with "[] Hv"). iPureIntro. split; done.
    - iIntros "Hv HK". start.
      iApply (wp_uas_pair fv with "Hv"); [intros Q' X'; apply wp_yinsert; tauto|].
      iApply (ins_y with "HK"); [|by apply ins_bad_ok|done].
      intros f' cap' l' i b [H1 H2]. split; [|done]. cbn. eauto.
    - destruct Hpre as [Hpre Hh]. iIntros "Hv HK". start. change (v_first (vo a f l cap)) with f.
      iApply (wp_uas_pos fv with "Hv").
      { intros Q' X'. apply (wp_hinted kd _ _ _ _ _ _ EX); [|lia|tauto].
        intros Q1 X1. apply wp_yinsert; tauto. }
      iApply (ins_y _ _ _ _ _ _ _ (fun i _ => Pos i) with "HK"); [|by apply ins_bad_ok|done].
      intros f' cap' l' i b [H1 H2]. split; [|done]. cbn. eauto.
    - iIntros "Hv HK". start.
      iApply (wp_uas_pair fv with "Hv"); [intros Q' X'; apply wp_yassign; tauto|].
      iApply (ins_y with "HK"); [|eapply as_bad_ok; by left|done].
      intros f' cap' l' i b [H1 H2]. split; [|done]. cbn. eauto.
    - destruct Hpre as [Hpre Hh]. iIntros "Hv HK". start. change (v_first (vo a f l cap)) with f.
      iApply (wp_uas_pos fv with "Hv").
      { intros Q' X'. apply (wp_hinted kd _ _ _ _ _ _ EX); [|lia|tauto].
        intros Q1 X1. apply wp_yassign; tauto. }
      iApply (ins_y _ _ _ _ _ _ _ (fun i _ => Pos i) with "HK"); [|eapply as_bad_ok; right; by eexists|done].
      intros f' cap' l' i b [H1 H2]. split; [|done]. cbn. eauto.
    - look. wbind. iApply (wp_y_at with "Hl"). iSplit.
      + iIntros (i w) "%Hw Hl". wbeta. iApply wp_ret.
        iDestruct "HK" as "[HK _]". iApply ("HK" with "[] Hl"). iPureIntro. split; [done|]. exists i, w. destruct Hw; done.
      + iIntros (e) "%He Hl". iDestruct "HK" as "[_ HK]". iApply ("HK" with "[] Hl"). iPureIntro.
        destruct He as [He|[He Hk]]; [by left|]. right. eauto.
    - iIntros "Hv HK". start. wbind. iApply (wp_y_index with "Hv"); [tauto|]. iSplit.
      + iIntros (f' cap' l' i b w) "%Hx Hv". destruct Hx as [[H1 H2] H3]. wbeta. iApply wp_ret.
        iDestruct "HK" as "[HK _]". iApply ("HK" with "[] Hv"). iPureIntro. split; [|done]. cbn. eauto 10.
      + iIntros (e f' cap' l') "%Hx Hv". iDestruct "HK" as "[_ HK]".
        destruct (ins_bad_ok (YIndex x k) _ _ _ I _ _ _ _ Hx) as (H & -> & ->). by iApply ("HK" with "[] Hv").
  Qed.
End ops.
