(** * Segmented containers: assignment, and insertion of one element after another *)

From Verif Require Export SegVec.
From Coq Require Import ZifyBool.
From iris.proofmode Require Import environments tactics.
Open Scope Z_scope.
Notation frame := SegGrow.frame.

Section assigns.
  Context `{E : Env} `{SZ : SegSize}.
  Implicit Types segs new : list loc.
  Implicit Types T : tab.

  Lemma stored_over p l vs f :
    zlen vs <= zlen l -> stored p vs (at_pos p l) f ->
    forall i, f i = at_pos p (vs ++ drop (length vs) l) i.
  Proof.
    intros Hv Hf i. rewrite (stored_in p l vs f 0); [|lia|lia|by rewrite Z.add_0_r].
    rewrite take_0 Z.add_0_l Nat2Z.id. done.
  Qed.

  Ltac sover Hf :=
    match type of Hf with stored ?p ?vs (at_pos _ ?l) ?f =>
      let H1 := fresh in let H2 := fresh in
      assert (zlen vs <= zlen l) as H1 by (len; lia);
      pose proof (stored_over p l vs f H1 Hf) as H2; clear Hf H1; rename H2 into Hf end.

  (** v 1239-1286 [assign_fill_n]. *)
  Lemma back_sv_assign_fill T segs l (n : nat) v :
    back_op T segs 0 l (Z.of_nat n - (slots segs - 1)) (sv_assign_fill (Z.of_nat n) (AVal v))
      (replicate n v) (fun _ _ => tt) (fun l' => length l' = length l).
  Proof.
    intros Q X. sopen. unfold sv_assign_fill.
    wbind. iApply (wp_sq_size with "Hw"); [lia..|]. iIntros "Hw". wbeta. sstep. sstep.
    destruct (Z.leb_spec (Z.of_nat n) (zlen l)) as [Hle|Hlt].
    - sstep. sstep. sstep. iApply (wp_sw_fill with "Hw"); [lia|lia|lia| |].
      { intros i Hi. slive. lia. }
      iSplit.
      2:{ iIntros (f') "%Hf Hw". iApply (shaken_at _ _ _ _ _ (fun l' => length l' = length l) with "Hf Hw"); [apply Hf|lia|lia|done|].
          iIntros (l') "%Hl' Hs". iDestruct "HK" as "[_ HK]". iSpecialize ("HK" $! EUser T [] l' with "[%]").
          { split; [done|]. right. split; [done|]. split; [by left|done]. }
          rewrite app_nil_r. by iApply "HK". }
      iIntros (f') "%Hf Hw". wbeta. replace (Z.to_nat (0 + Z.of_nat n - 0)) with n in Hf by lia.
      sover Hf.
      replace (length (replicate n v)) with n in Hf by (by rewrite replicate_length).
      iDestruct (swin_eq _ _ _ _ Hf with "Hw") as "Hw".
      replace (sobj T segs 0 (zlen l)) with (sobj T segs 0 (zlen (replicate n v ++ drop n l))) by (f_equal; len; lia).
      skeep (keep_cut_back T segs 0 (replicate n v ++ drop n l) n); [len; lia|done| |].
      + iIntros "Hs". iDestruct "HK" as "[HK _]". rewrite take_app_alt; [|by rewrite replicate_length].
        iSpecialize ("HK" $! T [] with "[%]").
        { split; [done|]. apply grown_0. lia. }
        rewrite app_nil_r. by iApply "HK".
      + by iIntros (l') "%".
    - wbind. iApply (wp_sq_capacity with "Hw"); [apply slots_pos; lia|]. iIntros "Hw". wbeta.
      sroom (Z.of_nat n - (slots segs - 1)) T' new.
      do 4 sstep. sstep. iApply (wp_sw_fill with "Hw"); [lia|lia|lia| |].
      { intros i Hi. slive. lia. }
      iSplit.
      2:{ iIntros (f') "%Hf Hw". iApply (shaken_at _ _ _ _ _ (fun l' => length l' = length l) with "Hf Hw"); [apply Hf|lia|lia|done|].
          iIntros (l') "%Hl' Hs". sfail. done. }
      iIntros (f') "%Hf Hw". wbeta. replace (Z.to_nat (0 + zlen l - 0)) with (length l) in Hf by lia.
      sover Hf.
      rewrite (drop_ge l) in Hf; [|len; lia]. rewrite app_nil_r in Hf.
      iDestruct (swin_eq _ _ _ _ Hf with "Hw") as "Hw".
      replace (sobj T' (segs ++ new) 0 (zlen l)) with (sobj T' (segs ++ new) 0 (zlen (replicate (length l) v))) by (f_equal; len; lia).
      skeep (keep_append_n T' (segs ++ new) 0 (replicate (length l) v) (Z.of_nat n - zlen l)); [apply sconst_val|lia|len; lia| |].
      + iIntros "Hs". iDestruct "HK" as "[HK _]". rewrite -replicate_add.
        replace (length l + Z.to_nat (Z.of_nat n - zlen l))%nat with n by lia. by iApply ("HK" with "[%//]").
      + iIntros (l') "-> Hs". sfail. by rewrite replicate_length.
  Qed.

  (** v 1318-1370 [assign_range], forward iterators. *)
  Lemma feed_sv_assign_range W WX vs sub T segs l :
    feeds W WX vs sub ->
    feed_op W WX (zlen vs) T segs 0 l (zlen vs - (slots segs - 1)) (sv_assign_range (sub 0 (zlen vs)))
      vs (fun _ _ => tt) (fun l' => length l' = length l).
  Proof.
    intros Hfd Q X. iIntros "Hs HW HK". iDestruct (sg_at_open with "Hs") as "(%Hpb & Hf & Hw)".
    destruct Hpb as [Hp Hb]. unfold sv_assign_range.
    wbind. iApply (fd_len _ _ _ _ Hfd with "HW"); [lia|lia|]. iIntros "HW". wbeta. rewrite Z.sub_0_r.
    wbind. iApply (wp_sq_size with "Hw"); [lia..|]. iIntros "Hw". wbeta. sstep. sstep.
    destruct (Z.leb_spec (zlen vs) (zlen l)) as [Hle|Hlt].
    - sstep. iApply (fd_copy _ _ _ _ Hfd with "HW Hw"); [lia|lia|done|lia|lia| |].
      { intros i Hi. slive. lia. }
      iSplit.
      2:{ iIntros (f') "%Hf HW Hw". iApply (shaken_at _ _ _ _ _ (fun l' => length l' = length l) with "Hf Hw"); [apply Hf|lia|lia|done|].
          iIntros (l') "%Hl' Hs". iDestruct "HK" as "[_ HK]". iSpecialize ("HK" $! EUser T [] l' with "[%] HW").
          { split; [done|]. right. split; [done|]. split; [by left|done]. }
          rewrite app_nil_r. by iApply "HK". }
      iIntros (f') "%Hf HW Hw". wbeta. rewrite slice_all in Hf. sover Hf.
      iDestruct (swin_eq _ _ _ _ Hf with "Hw") as "Hw".
      replace (sobj T segs 0 (zlen l)) with (sobj T segs 0 (zlen (vs ++ drop (length vs) l))) by (f_equal; len; lia).
      skeep (keep_cut_back T segs 0 (vs ++ drop (length vs) l) (length vs)); [len; lia|f_equal; lia| |].
      + iIntros "Hs". iDestruct "HK" as "[HK _]". rewrite take_app.
        iSpecialize ("HK" $! T [] with "[%] HW").
        { split; [done|]. split; [apply grown_0; lia|]. intros i Hi. unfold mark, none_of, within. lia. }
        rewrite app_nil_r. by iApply "HK".
      + by iIntros (l') "%".
    - wbind. iApply (wp_sq_capacity with "Hw"); [apply slots_pos; lia|]. iIntros "Hw". wbeta.
      sroomw (zlen vs - (slots segs - 1)) T' new Hfd.
      do 2 sstep. sstep. iApply (fd_cut _ _ _ _ Hfd with "HW"); [lia..|]. iIntros "HW". wbeta. cbn [fst snd]. rewrite Z.add_0_l.
      sstep. iApply (fd_copy _ _ _ _ Hfd with "HW Hw"); [lia|lia|done|lia|lia| |].
      { intros i Hi. slive. lia. }
      iSplit.
      2:{ iIntros (f') "%Hf HW Hw". iApply (shaken_at _ _ _ _ _ (fun l' => length l' = length l) with "Hf Hw"); [apply Hf|lia|lia|done|].
          iIntros (l') "%Hl' Hs". iDestruct "HK" as "[_ HK]". iApply ("HK" with "[%] HW Hs").
          split; [done|]. right. split; [done|]. split; [by right|done]. }
      iIntros (f') "%Hf HW Hw". wbeta. assert (zlen (slice 0 (zlen l) vs) = zlen l) as Hsl by (rewrite slice_length; lia).
      sover Hf. rewrite (drop_ge l) in Hf; [|lia]. rewrite app_nil_r in Hf.
      iDestruct (swin_eq _ _ _ _ Hf with "Hw") as "Hw".
      sstep. iApply (fd_ucopy _ _ _ _ Hfd with "HW Hw"); [lia|lia| |lia|lia| |].
      { intros i Hi. unfold mark, none_of, within. lia. }
      { intros i Hi. slive. lia. }
      iSplit.
      2:{ iIntros "HW Hw". iDestruct "HK" as "[_ HK]".
          replace (sobj T' (segs ++ new) 0 (zlen l)) with (sobj T' (segs ++ new) 0 (zlen (slice 0 (zlen l) vs))) by (f_equal; lia).
          iApply ("HK" with "[%] HW [Hf Hw]").
          - split; [done|]. right. split; [done|]. split; [by right|]. lia.
          - iApply (sg_at_close with "Hf Hw"); lia. }
      iIntros (f2) "%Hf2 HW Hw". wbeta. sstep.
      assert (stored (0 + zlen (slice 0 (zlen l) vs)) (slice (zlen l) (zlen vs) vs) (at_pos 0 (slice 0 (zlen l) vs)) f2) as Hf2'
        by (rewrite Hsl; exact Hf2).
      pose proof (stored_back 0 (slice 0 (zlen l) vs) _ _ Hf2') as Hf3.
      rewrite slice_app in Hf3; [|lia|lia]. rewrite slice_all in Hf3.
      iDestruct "HK" as "[HK _]". replace (zlen l + (zlen vs - zlen l) - 0) with (zlen vs) by lia.
      iApply ("HK" with "[%] HW [Hf Hw]").
      + split; [done|]. split; [done|]. intros i Hi. unfold mark, none_of, within. lia.
      + iApply (sg_at_close with "Hf [Hw]"); [lia|lia|]. by iApply (swin_eq with "Hw").
  Qed.
End assigns.

(** ** One element after another *)
Section loops.
  Context `{E : Env} `{SZ : SegSize}.
  Implicit Types segs new : list loc.
  Implicit Types T : tab.

  (** Exceptions of a function that adds up to [n] elements one by one. *)
  Definition loop_exn segs (n : Z) (e : exn) new : Prop :=
    (n <= slots segs - 1 -> e = EUser /\ new = []) /\
    match e with
    | ELength => max_size < n
    | EOutOfRange => False
    | _ => True
    end.
  (** [m] turns [l] into [l2], [n] being where the elements end. *)
  Definition loop_op {A} T segs p (l : list V) (n : Z) (m : M sgdata A) (l2 : list V)
      (r : tab -> list loc -> A) (R : list V -> Prop) : Prop :=
    forall Q X,
      sg_at T segs p l ⊢
      ((∀ T' new, ⟦same_tab T T' /\ (n <= slots segs - 1 -> new = [])⟧ -∗ sg_at T' (segs ++ new) p l2 -∗
          Q (r T' (segs ++ new)) (sobj T' (segs ++ new) p (zlen l2))) ∧
       (∀ e T' new l', ⟦same_tab T T' /\ loop_exn segs n e new /\ R l'⟧ -∗ sg_at T' (segs ++ new) p l' -∗
          X e (sobj T' (segs ++ new) p (zlen l')))) -∗
      wp m (sobj T segs p (zlen l)) Q X.

  Lemma same_tab_trans T1 T2 T3 : same_tab T1 T2 -> same_tab T2 T3 -> same_tab T1 T3.
  Proof. intros [H1 H2] [H3 H4]. split; congruence. Qed.
  Lemma loop_exn_more segs new n e new2 :
    (n <= slots segs - 1 -> new = []) -> loop_exn (segs ++ new) n e new2 -> loop_exn segs n e (new ++ new2).
  Proof.
    intros Hn [H1 H2]. split; [|done]. intros Hs. specialize (Hn Hs) as ->. rewrite app_nil_r in H1. by apply H1.
  Qed.
  Lemma op_loop_exn l segs (n k : Z) R e new l' :
    k + 1 <= n -> k < slots segs ->
    op_exn l segs (k + 1 - (slots segs - 1)) R e new l' -> loop_exn segs n e new /\ (l' = l \/ R l').
  Proof.
    intros Hn Hs [(-> & -> & Hadd & He)|(-> & Hnew & HR)].
    - split; [|by left]. split; [lia|]. destruct He as [[-> He]| ->]; [lia|done].
    - split; [|by right]. split; [|done]. intros Hfit. split; [done|]. destruct Hnew as [?|Hnew]; [done|].
      apply (grown_nil _ _ _ Hnew). lia.
  Qed.

  (** The loops of [assign_range] and of the constructor from input iterators. *)
  Lemma loop_append T segs p l vs n :
    p + zlen l + zlen vs = n ->
    loop_op T segs p l n (sq_append_loop (AVal <$> vs)) (l ++ vs) (fun _ _ => tt)
      (fun l' => zlen l <= zlen l' <= zlen l + zlen vs).
  Proof.
    induction vs as [|v vs IH] in T, segs, l |- *; intros Hn Q X; simpl.
    - iIntros "Hs HK". iApply wp_ret. iDestruct "HK" as "[HK _]". iSpecialize ("HK" $! T [] with "[%//]").
      rewrite !app_nil_r. by iApply "HK".
    - simpl in Hn. iIntros "Hs HK". iDestruct (sg_at_open with "Hs") as "(%Hpb & Hf & Hw)".
      iDestruct (sg_at_close with "Hf Hw") as "Hs"; [lia..|].
      wbind. iApply (back_emplace_back with "Hs"); [apply sa_val|]. iSplit.
      + iIntros (T' new) "%HT Hs". destruct HT as [HT Hnew]. wbeta.
        assert (n <= slots segs - 1 -> new = []) as Hnil.
        { intros Hs. apply (grown_nil _ _ _ Hnew). lia. }
        iApply (IH with "Hs"); [len; simpl; lia|]. iSplit.
        * iIntros (T2 new2) "%H2 Hs". destruct H2 as [HT2 Hn2]. iDestruct "HK" as "[HK _]".
          rewrite -!app_assoc /=. iApply ("HK" with "[%] Hs"). split; [by eapply same_tab_trans|].
          intros Hs. specialize (Hnil Hs) as ->. rewrite app_nil_r in Hn2. by rewrite Hn2.
        * iIntros (e T2 new2 l') "%H2 Hs". destruct H2 as (HT2 & He & HR). iDestruct "HK" as "[_ HK]".
          rewrite -!app_assoc. iApply ("HK" with "[%] Hs"). split; [by eapply same_tab_trans|].
          split; [by apply loop_exn_more|]. rewrite app_length in HR. simpl in HR. lia.
      + iIntros (e T' new l') "%H' Hs". destruct H' as [HT He]. apply (op_loop_exn _ _ n) in He as [He Hl]; [|lia|lia].
        iDestruct "HK" as "[_ HK]". iApply ("HK" with "[%] Hs"). split; [done|]. split; [done|].
        destruct Hl as [->|[Hl _]]; lia.
  Qed.

  (** v 1289-1316, d 1835-1862 [assign_range], input iterators. *)
  Lemma wp_assign_input_loop T segs p l l0 l1 vs Q X :
    l = l0 ++ l1 -> 0 <= p -> p + zlen l < slots segs ->
    swin (t_at T) segs (at_pos p l) ⊢
    ((∀ a b l2, ⟦vs = a ++ b /\ l2 = l0 ++ a ++ drop (length a) l1 /\ (length a <= length l1)%nat /\
          (b <> [] -> length a = length l1)⟧ -∗ swin (t_at T) segs (at_pos p l2) -∗
        Q (sitr (t_at T) segs (p + zlen l0 + zlen a), AVal <$> b) (sobj T segs p (zlen l))) ∧
     (∀ l', ⟦length l' = length l⟧ -∗ swin (t_at T) segs (at_pos p l') -∗ X EUser (sobj T segs p (zlen l)))) -∗
    wp (sq_assign_input_loop (sitr (t_at T) segs (p + zlen l0)) (sitr (t_at T) segs (p + zlen l)) (AVal <$> vs))
      (sobj T segs p (zlen l)) Q X.
  Proof.
    induction vs as [|v vs IH] in l, l0, l1 |- *; intros Hl Hp Hs; iIntros "Hw HK"; simpl.
    - iApply wp_ret. iDestruct "HK" as "[HK _]". iSpecialize ("HK" $! [] [] l with "[%] Hw").
      { simpl. rewrite drop_0. split_and!; [done|done|lia|done]. }
      by rewrite Z.add_0_r.
    - assert (zlen l = zlen l0 + zlen l1) as Hll by (subst l; len; lia).
      iDestruct (swin_eqb (t_at T) segs _ (p + zlen l0) (p + zlen l) with "Hw") as %->; [lia..|].
      destruct (Z.eqb_spec (p + zlen l0) (p + zlen l)) as [Heq|Hne].
      + iApply wp_ret. iDestruct "HK" as "[HK _]". iSpecialize ("HK" $! [] (v :: vs) l with "[%] Hw").
        { simpl. rewrite drop_0. split_and!; [done|done|lia|]. destruct l1; [done|simpl in Hll; lia]. }
        by rewrite Z.add_0_r.
      + destruct l1 as [|w l1]; [simpl in Hll; lia|].
        sstep. sred. iApply (wp_sw_assign_val with "Hw"); [lia..| |].
        { slive. lia. }
        iSplit.
        2:{ iIntros (f') "%Hf Hw". destruct (DevProofs.shaken_list p l _ Hf) as (l' & Hl' & Hf').
            iDestruct "HK" as "[_ HK]". iApply ("HK" with "[%] [Hw]"); [done|]. by iApply (swin_eq with "Hw"). }
        iIntros (f') "%Hf Hw". wbeta.
        assert (forall i, f' i = at_pos p (l0 ++ v :: l1) i) as Hf'.
        { intros i. assert (0 <= zlen l0) as H0 by lia. assert (zlen l0 + zlen [v] <= zlen l) as H1 by (simpl in *; lia).
          rewrite (stored_in p l [v] f' (zlen l0) H0 H1 Hf). subst l. f_equal.
          rewrite Nat2Z.id take_app. f_equal. rewrite drop_app_ge; [|simpl; lia].
          replace (Z.to_nat (zlen l0 + zlen [v]) - length l0)%nat with 1%nat by (simpl; lia). done. }
        iDestruct (swin_eq _ _ _ _ Hf' with "Hw") as "Hw". sstep. sstep.
        assert (zlen (l0 ++ v :: l1) = zlen l) as Hlv by (subst l; len; simpl; lia).
        replace (p + zlen l0 + 1) with (p + zlen (l0 ++ [v])) by (len; simpl; lia).
        rewrite -Hlv. iApply (IH (l0 ++ v :: l1) (l0 ++ [v]) l1 with "Hw"); [by rewrite -app_assoc|lia|lia|]. iSplit.
        * iIntros (a b l2) "%H Hw". destruct H as (-> & -> & Ha & Hb'). iDestruct "HK" as "[HK _]". rewrite Hlv.
          iSpecialize ("HK" $! (v :: a) b (l0 ++ (v :: a) ++ drop (length (v :: a)) (w :: l1)) with "[%] [Hw]").
          { split_and!; [done|done|simpl; lia|]. intros Hb. simpl. by rewrite Hb'. }
          { by rewrite -app_assoc. }
          replace (p + zlen (l0 ++ [v]) + zlen a) with (p + zlen l0 + zlen (v :: a)) by (len; simpl; lia). done.
        * iIntros (l') "%Hl' Hw". iDestruct "HK" as "[_ HK]". rewrite Hlv. iApply ("HK" with "[%] Hw"). lia.
  Qed.
  Lemma loop_assign_input T segs p l vs :
    loop_op T segs p l (p + zlen vs) (sq_assign_input (AVal <$> vs)) vs (fun _ _ => tt)
      (fun l' => zlen l <= zlen l' <= Z.max (zlen l) (zlen vs)).
  Proof.
    intros Q X. sopen. unfold sq_assign_input. sstep. sstep. sstep.
    replace (sitr (t_at T) segs p) with (sitr (t_at T) segs (p + zlen (@nil V))) by (f_equal; simpl; lia).
    iApply (wp_assign_input_loop T segs p l [] l with "Hw"); [done|lia|lia|]. iSplit.
    2:{ iIntros (l') "%Hl' Hw". iDestruct "HK" as "[_ HK]". iSpecialize ("HK" $! EUser T [] l' with "[%]").
        { split; [done|]. split; [done|]. lia. }
        rewrite app_nil_r. replace (zlen l') with (zlen l) by lia. iApply "HK". iApply (sg_at_close with "Hf Hw"); lia. }
    iIntros (a b l2) "%H Hw". destruct H as (-> & -> & Ha & Hb2). wbeta. cbn [fst snd]. simpl (zlen []). rewrite Z.add_0_r.
    destruct b as [|v b].
    - rewrite app_nil_r. cbn [fmap list_fmap]. sstep. sstep. cbn [app].
      assert (zlen (a ++ drop (length a) l) = zlen l) as Hal by (len; lia).
      destruct (Z.ltb_spec (p + zlen a) (p + zlen l)) as [Hlt|Hge].
      + rewrite -Hal. skeep (keep_cut_back T segs p (a ++ drop (length a) l) (length a)); [lia|done| |by iIntros (l') "%"].
        iIntros "Hs". rewrite take_app. iDestruct "HK" as "[HK _]". iSpecialize ("HK" $! T [] with "[%//]").
        rewrite app_nil_r. by iApply "HK".
      + rewrite drop_ge in Hal |- *; [|lia]. rewrite app_nil_r in Hal |- *.
        sstep. rewrite -Hal. iDestruct "HK" as "[HK _]". iSpecialize ("HK" $! T [] with "[%//]").
        rewrite app_nil_r. iApply "HK". iApply (sg_at_close with "Hf Hw"); lia.
    - specialize (Hb2 ltac:(done)). change ([] ++ a ++ drop (length a) l) with (a ++ drop (length a) l).
      rewrite drop_ge; [|lia]. rewrite app_nil_r. cbn [fmap list_fmap]. replace (sobj T segs p (zlen l)) with (sobj T segs p (zlen a)) by (f_equal; lia).
      iDestruct (sg_at_close with "Hf Hw") as "Hs"; [lia..|].
      iApply (loop_append T segs p a (v :: b) (p + zlen (a ++ v :: b)) with "Hs"); [len; lia|]. iSplit.
      + iDestruct "HK" as "[HK _]". done.
      + iIntros (e T' new l') "%H Hs". destruct H as (HT & He & Hl'). iDestruct "HK" as "[_ HK]".
        iApply ("HK" with "[%] Hs"). split_and!; [done|done|..]; len; simpl in *; lia.
  Qed.

  (** v 1604-1618 [insert_range], input iterators. *)
  Lemma loop_insert_input T segs l vs (k : nat) n :
    (k <= length l)%nat -> zlen l + zlen vs = n ->
    loop_op T segs 0 l n (sq_insert_input_loop sv_emplace (sitr (t_at T) segs (Z.of_nat k)) (AVal <$> vs))
      (insert_at k vs l) (fun _ _ => tt) (fun l' => zlen l <= zlen l' <= n).
  Proof.
    induction vs as [|v vs IH] in T, segs, l, k |- *; intros Hk Hn Q X; simpl.
    - iIntros "Hs HK". iApply wp_ret. iDestruct "HK" as "[HK _]". iSpecialize ("HK" $! T [] with "[%//]").
      unfold insert_at. simpl. rewrite !app_nil_r take_drop. by iApply "HK".
    - simpl in Hn. iIntros "Hs HK". iDestruct (sg_at_open with "Hs") as "(%Hpb & Hf & Hw)".
      iDestruct (sg_at_close with "Hf Hw") as "Hs"; [lia..|].
      wbind. iApply (back_sv_emplace with "Hs"); [apply sa_val|done|done|]. iSplit.
      + iIntros (T' new) "%HT Hs". destruct HT as [HT Hnew]. wbeta.
        assert (n <= slots segs - 1 -> new = []) as Hnil.
        { intros Hs. apply (grown_nil _ _ _ Hnew). lia. }
        assert (zlen (insert_at k [v] l) = zlen l + 1) as Hl1 by (unfold insert_at; len; simpl; lia).
        iDestruct (sg_at_open with "Hs") as "(%Hb' & Hf & Hw)". sstep. sstep.
        iDestruct (sg_at_close with "Hf Hw") as "Hs"; [lia..|].
        replace (Z.of_nat k + 1) with (Z.of_nat (S k)) by lia.
        iApply (IH with "Hs"); [lia|lia|].
        assert (insert_at (S k) vs (insert_at k [v] l) = insert_at k (v :: vs) l) as ->.
        { unfold insert_at. rewrite (take_app_ge _ _ (S k)); [|len; lia]. rewrite (drop_app_ge _ _ (S k)); [|len; lia].
          rewrite take_length_le; [|lia]. replace (S k - k)%nat with 1%nat by lia. simpl. rewrite take_0 drop_0 -app_assoc. done. }
        iSplit.
        * iIntros (T2 new2) "%H2 Hs". destruct H2 as [HT2 Hn2]. iDestruct "HK" as "[HK _]".
          rewrite -!app_assoc /=. iApply ("HK" with "[%] Hs"). split; [by eapply same_tab_trans|].
          intros Hs. specialize (Hnil Hs) as ->. rewrite app_nil_r in Hn2. by rewrite Hn2.
        * iIntros (e T2 new2 l') "%H2 Hs". destruct H2 as (HT2 & He & HR). iDestruct "HK" as "[_ HK]".
          rewrite -!app_assoc. iApply ("HK" with "[%] Hs"). split; [by eapply same_tab_trans|].
          split; [by apply loop_exn_more|]. lia.
      + iIntros (e T' new l') "%H' Hs". destruct H' as [HT He]. apply (op_loop_exn _ _ n) in He as [He Hl]; [|lia|lia].
        iDestruct "HK" as "[_ HK]". iApply ("HK" with "[%] Hs"). split; [done|]. split; [done|].
        destruct Hl as [->|[[Hl _]|Hl]]; lia.
  Qed.
  Lemma loop_sv_insert_input T segs l vs (k : nat) pos :
    (k <= length l)%nat -> pos = sitr (t_at T) segs (Z.of_nat k) ->
    loop_op T segs 0 l (zlen l + zlen vs) (sq_insert_input sv_emplace sv_nth pos (AVal <$> vs))
      (insert_at k vs l) (fun T' segs' => sitr (t_at T') segs' (Z.of_nat k))
      (fun l' => zlen l <= zlen l' <= zlen l + zlen vs).
  Proof.
    intros Hk -> Q X. sopen. unfold sq_insert_input.
    wbind. iApply (wp_sq_offset _ _ _ _ k with "Hw"); [lia|lia|lia|by rewrite Z.add_0_l|]. iIntros "Hw". wbeta.
    iDestruct (sg_at_close with "Hf Hw") as "Hs"; [lia..|].
    wbind. iApply (loop_insert_input with "Hs"); [done|done|]. iSplit.
    - iIntros (T' new) "%HT Hs". wbeta. iDestruct (sg_at_open with "Hs") as "(%Hb' & Hf & Hw)".
      iApply (wp_sv_nth with "Hw"); [unfold insert_at; len; lia|lia|]. iIntros "Hw".
      iDestruct "HK" as "[HK _]". iApply ("HK" with "[%//]"). iApply (sg_at_close with "Hf Hw"); lia.
    - iDestruct "HK" as "[_ HK]". done.
  Qed.
End loops.
