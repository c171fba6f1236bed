(** * sfl::segmented_devector meets its specification *)

From Verif Require Export SegDevAssign SegDevClient SegOk.
From Verif Require SeqProofs.
From Coq Require Import ZifyBool.
From iris.proofmode Require Import environments tactics.
Open Scope Z_scope.
Notation frame := SegGrow.frame.

(** ** Results *)
Section results.
  Context `{E : Env} `{SZ : SegSize}.
  Implicit Types segs new : list loc.
  Implicit Types T : tab.

  Lemma front_idx T segs p l add s m l2 r R k :
    front_op T segs p l add s m l2 r R -> 0 <= k <= zlen l2 ->
    (forall T' segs' p', r T' segs' p' = sitr (t_at T') segs' (p' + k)) ->
    front_op T segs p l add s (s_idx m) l2 (fun _ _ _ => RIdx k) R.
  Proof.
    intros Hm Hk Hr Q X. iIntros "Hs HK". unfold s_idx. wbind. iApply (Hm with "Hs"). iSplit.
    - iIntros (T' new) "%H Hs". wbeta. iApply (wp_s_diff with "Hs"); [done|apply Hr|]. iIntros "Hs".
      iDestruct "HK" as "[HK _]". by iApply ("HK" with "[%] Hs").
    - iDestruct "HK" as "[_ HK]". done.
  Qed.
  Lemma front_ref T segs p l add s m l2 r R :
    front_op T segs p l add s m l2 r R -> (forall T' segs' p', r T' segs' p' = saddr segs' p') ->
    front_op T segs p l add s (s_ref_front m) l2 (fun _ _ _ => RIdx 0) R.
  Proof.
    intros Hm Hr Q X. iIntros "Hs HK". unfold s_ref_front. wbind. iApply (Hm with "Hs"). iSplit.
    - iIntros (T' new) "%H Hs". wbeta. iApply (wp_s_is_ref with "Hs"); [lia|by rewrite Z.add_0_r|]. iIntros "Hs".
      iDestruct "HK" as "[HK _]". by iApply ("HK" with "[%] Hs").
    - iDestruct "HK" as "[_ HK]". done.
  Qed.
  Lemma front_unit T segs p l add s m l2 R :
    front_op T segs p l add s m l2 (fun _ _ _ => tt) R ->
    front_op T segs p l add s (s_unit m) l2 (fun _ _ _ => RUnit) R.
  Proof.
    intros Hm Q X. iIntros "Hs HK". unfold s_unit. wbind. iApply (Hm with "Hs"). iSplit.
    - iIntros (T' new) "%H Hs". wbeta. iApply wp_ret. iDestruct "HK" as "[HK _]". by iApply ("HK" with "[%] Hs").
    - iDestruct "HK" as "[_ HK]". done.
  Qed.
  Lemma dual_idx T segs p l n m l2 r R k :
    dual_op T segs p l n m l2 r R -> 0 <= k <= zlen l2 ->
    (forall T' segs' p', r T' segs' p' = sitr (t_at T') segs' (p' + k)) ->
    dual_op T segs p l n (s_idx m) l2 (fun _ _ _ => RIdx k) R.
  Proof.
    intros Hm Hk Hr Q X. iIntros "Hs HK". unfold s_idx. wbind. iApply (Hm with "Hs"). iSplit.
    - iIntros (T' a b p') "%H Hs". wbeta. iApply (wp_s_diff with "Hs"); [done|apply Hr|]. iIntros "Hs".
      iDestruct "HK" as "[HK _]". by iApply ("HK" with "[%] Hs").
    - iDestruct "HK" as "[_ HK]". done.
  Qed.
End results.

(** ** Members *)
Section member.
  Context `{E : Env} `{SZ : SegSize} (ra : bool).
  Implicit Types segs new : list loc.
  Implicit Types T : tab.

  Definition dev_I (T : tab) (p : Z) : Prop := True.
  Definition sdpost (o : dop) (A : sabs) (r : rval) (A' : sabs) : Prop :=
    dev_post o (sd_geom A) (s_elems A) r (s_elems A') /\ s_alloc A' = s_alloc A /\ sd_storage o A A'.
  Definition dgoal (o : dop) T segs p l (m : M sgdata rval) : Prop :=
    sg_at T segs p l ⊢
    wp m (sobj T segs p (zlen l))
      (fun r x' => ∃ A', ⟦sdpost o (SAbs (t_al T) segs p l) r A'⟧ ∗ sinv dev_I x' A')%I
      (fun e x' => ∃ A', ⟦sd_exn o (SAbs (t_al T) segs p l) e A'⟧ ∗ sinv dev_I x' A')%I.
  Definition sdop_ok (o : dop) : Prop := forall T segs p l,
    0 <= p -> p + zlen l < slots segs -> sd_pre o (sd_geom (SAbs (t_al T) segs p l)) = true ->
    dgoal o T segs p l (run_sdop ra o).

  Lemma front_dgoal o T segs p l add s m l2 r R :
    front_op T segs p l add s m l2 (fun _ _ _ => r) R ->
    (forall a new, fgrown segs add new ->
       sdpost o (SAbs a segs p l) r (SAbs a (new ++ segs) (slots new + p - s) l2)) ->
    (forall a e new p' l', fop_exn p l segs add R e new p' l' ->
       sd_exn o (SAbs a segs p l) e (SAbs a (new ++ segs) p' l')) ->
    dgoal o T segs p l m.
  Proof.
    intros Hm Hpost Hexn. unfold dgoal. iIntros "Hs". iApply (Hm with "Hs"). iSplit.
    - iIntros (T' new) "%H Hs". destruct H as [H1 Hn]. iExists (SAbs (t_al T) _ _ l2). iSplit.
      + iPureIntro. by apply Hpost.
      + rewrite -H1. by iApply (sinv_intro with "Hs").
    - iIntros (e T' new p' l') "%H Hs". destruct H as [H1 Hn]. iExists (SAbs (t_al T) _ _ l'). iSplit.
      + iPureIntro. by apply Hexn.
      + rewrite -H1. by iApply (sinv_intro with "Hs").
  Qed.
  Lemma back_dgoal o T segs p l add m l2 r R :
    back_op T segs p l add m l2 (fun _ _ => r) R ->
    (forall a new, sgrown segs add new -> sdpost o (SAbs a segs p l) r (SAbs a (segs ++ new) p l2)) ->
    (forall a e new l', op_exn l segs add R e new l' -> sd_exn o (SAbs a segs p l) e (SAbs a (segs ++ new) p l')) ->
    dgoal o T segs p l m.
  Proof.
    intros Hm Hpost Hexn. unfold dgoal. iIntros "Hs". iApply (Hm with "Hs"). iSplit.
    - iIntros (T' new) "%H Hs". destruct H as [[H1 H2] Hn]. iExists (SAbs (t_al T) _ _ l2). iSplit.
      + iPureIntro. by apply Hpost.
      + rewrite -H1. by iApply (sinv_intro with "Hs").
    - iIntros (e T' new l') "%H Hs". destruct H as [[H1 H2] Hn]. iExists (SAbs (t_al T) _ _ l'). iSplit.
      + iPureIntro. by apply Hexn.
      + rewrite -H1. by iApply (sinv_intro with "Hs").
  Qed.
  Lemma shift_dgoal o T segs p l add m p2 l2 R :
    shift_op T segs p l add m p2 l2 R ->
    (forall a new, sgrown segs add new -> sdpost o (SAbs a segs p l) RUnit (SAbs a (segs ++ new) p2 l2)) ->
    (forall a e new l', op_exn l segs add R e new l' -> sd_exn o (SAbs a segs p l) e (SAbs a (segs ++ new) p l')) ->
    dgoal o T segs p l (s_unit m).
  Proof.
    intros Hm Hpost Hexn. unfold dgoal, s_unit. iIntros "Hs". wbind. iApply (Hm with "Hs"). iSplit.
    - iIntros (T' new) "%H Hs". destruct H as [[H1 H2] Hn]. wbeta. iApply wp_ret. iExists (SAbs (t_al T) _ _ l2). iSplit.
      + iPureIntro. by apply Hpost.
      + rewrite -H1. by iApply (sinv_intro with "Hs").
    - iIntros (e T' new l') "%H Hs". destruct H as [[H1 H2] Hn]. iExists (SAbs (t_al T) _ _ l'). iSplit.
      + iPureIntro. by apply Hexn.
      + rewrite -H1. by iApply (sinv_intro with "Hs").
  Qed.
  Lemma keep_dgoal o T segs p l m p2 l2 r (R : list V -> Prop) :
    keep_op T segs p l m p2 l2 r R ->
    (forall a, sdpost o (SAbs a segs p l) r (SAbs a segs p2 l2)) ->
    (forall a l', R l' -> sd_exn o (SAbs a segs p l) EUser (SAbs a segs p l')) ->
    dgoal o T segs p l m.
  Proof.
    intros Hm Hpost Hexn. unfold dgoal. iIntros "Hs". iApply (Hm with "Hs"). iSplit.
    - iIntros "Hs". iExists (SAbs (t_al T) _ _ l2). iSplit; [iPureIntro; by apply Hpost|by iApply (sinv_intro with "Hs")].
    - iIntros (l') "%HR Hs". iExists (SAbs (t_al T) _ _ l'). iSplit; [iPureIntro; by apply Hexn|by iApply (sinv_intro with "Hs")].
  Qed.
  Lemma loop_dgoal o T segs p l n m l2 r R :
    loop_op T segs p l n m l2 (fun _ _ => r) R ->
    (forall a new, (n <= slots segs - 1 -> new = []) -> sdpost o (SAbs a segs p l) r (SAbs a (segs ++ new) p l2)) ->
    (forall a e new l', loop_exn segs n e new -> R l' -> sd_exn o (SAbs a segs p l) e (SAbs a (segs ++ new) p l')) ->
    dgoal o T segs p l m.
  Proof.
    intros Hm Hpost Hexn. unfold dgoal. iIntros "Hs". iApply (Hm with "Hs"). iSplit.
    - iIntros (T' new) "%H Hs". destruct H as [[H1 H2] Hn]. iExists (SAbs (t_al T) _ _ l2). iSplit.
      + iPureIntro. by apply Hpost.
      + rewrite -H1. by iApply (sinv_intro with "Hs").
    - iIntros (e T' new l') "%H Hs". destruct H as ([H1 H2] & Hn & HR). iExists (SAbs (t_al T) _ _ l'). iSplit.
      + iPureIntro. by apply Hexn.
      + rewrite -H1. by iApply (sinv_intro with "Hs").
  Qed.
  Lemma dual_dgoal o T segs p l n m l2 r R :
    dual_op T segs p l n m l2 (fun _ _ _ => r) R ->
    (forall al a b p', dgrown segs p l n a b -> sdpost o (SAbs al segs p l) r (SAbs al (a ++ segs ++ b) p' l2)) ->
    (forall al e a b p' l', dual_exn segs p l n e a b -> R l' ->
       sd_exn o (SAbs al segs p l) e (SAbs al (a ++ segs ++ b) p' l')) ->
    dgoal o T segs p l m.
  Proof.
    intros Hm Hpost Hexn. unfold dgoal. iIntros "Hs". iApply (Hm with "Hs"). iSplit.
    - iIntros (T' a b p') "%H Hs". destruct H as [H1 Hn]. iExists (SAbs (t_al T) _ _ l2). iSplit.
      + iPureIntro. by apply Hpost.
      + rewrite -H1. by iApply (sinv_intro with "Hs").
    - iIntros (e T' a b p' l') "%H Hs". destruct H as (H1 & Hn & HR). iExists (SAbs (t_al T) _ _ l'). iSplit.
      + iPureIntro. by apply Hexn.
      + rewrite -H1. by iApply (sinv_intro with "Hs").
  Qed.
  Lemma read_dgoal o T segs p l (m : M sgdata loc) (i : nat) v :
    l !! i = Some v ->
    (forall Q X, sg_at T segs p l ⊢ (sg_at T segs p l -∗ Q (saddr segs (p + Z.of_nat i)) (sobj T segs p (zlen l))) -∗
      wp m (sobj T segs p (zlen l)) Q X) ->
    (forall a, sdpost o (SAbs a segs p l) (RVal v) (SAbs a segs p l)) ->
    dgoal o T segs p l (s_val m).
  Proof.
    intros Hv Hm Hpost. unfold dgoal, s_val. iIntros "Hs". wbind. iApply (Hm with "Hs"). iIntros "Hs". wbeta.
    wbind. iApply (wp_sg_read _ _ _ _ i v with "Hs"); [done|done|]. iIntros "Hs". wbeta. iApply wp_ret.
    iExists (SAbs (t_al T) segs p l). iSplit; [iPureIntro; apply Hpost|by iApply (sinv_intro with "Hs")].
  Qed.

  (** *** Storage *)
  Lemma made_front a segs p l l2 new (n : Z) :
    fgrown segs (n - p) new ->
    room_made true n (SAbs a segs p l) (SAbs a (new ++ segs) (slots new + p - n) l2).
  Proof.
    intros [H1 H2]. unfold room_made, grows_front, s_cap. cbn [s_segs s_front]. split; [|exact H2].
    exists new. split_and!; [done|done|]. unfold slots. lia.
  Qed.
  Lemma made_behind a segs p l l2 new (n : Z) :
    sgrown segs (p + zlen l + n - (slots segs - 1)) new ->
    room_made false n (SAbs a segs p l) (SAbs a (segs ++ new) p l2).
  Proof.
    intros [H1 H2]. unfold room_made, grows_behind, grows_back, g_back, sd_geom, s_size, s_cap. cbn [s_segs s_front s_elems g_cap g_front g_size].
    change (SS * zlen segs) with (slots segs).
    replace (n - (slots segs - 1 - p - zlen l)) with (p + zlen l + n - (slots segs - 1)) by lia.
    split_and!; [|done|exact H2]. by exists new.
  Qed.
  Lemma front_exn a segs p l add R e new p' l' :
    fop_exn p l segs add R e new p' l' ->
    room_exn true add (SAbs a segs p l) e (SAbs a (new ++ segs) p' l') /\ (l' = l /\ 0 < add \/ R l').
  Proof.
    intros [(-> & -> & -> & Hadd & He)|(-> & Hn & Hp & HR)]; unfold room_exn, s_size, s_cap; cbn [s_segs s_front s_elems].
    - split; [|by left]. split.
      + exists []. split_and!; [done|done|simpl; lia].
      + change (SS * zlen segs) with (slots segs). by destruct He as [[-> He]| ->].
    - split; [|by right]. split; [|done]. exists new. split.
      + intros Hle. destruct Hn as [Hn|Hn]; [done|]. by apply (fgrown_nil _ _ _ Hn).
      + split; [done|]. unfold slots in Hp. lia.
  Qed.
  Lemma behind_exn a segs p l add R e new l' :
    op_exn l segs add R e new l' ->
    room_exn false add (SAbs a segs p l) e (SAbs a (segs ++ new) p l') /\ (l' = l /\ 0 < add \/ R l').
  Proof.
    intros [(-> & -> & Hadd & He)|(-> & Hn & HR)]; unfold room_exn, s_size, s_cap; cbn [s_segs s_front s_elems].
    - split; [|by left]. rewrite app_nil_r. split.
      + exists []. split_and!; [done|by rewrite app_nil_r|done].
      + change (SS * zlen segs) with (slots segs). by destruct He as [[-> He]| ->].
    - split; [|by right]. split; [|done]. exists new. split; [|done].
      intros Hle. destruct Hn as [Hn|Hn]; [done|]. by apply (grown_nil _ _ _ Hn).
  Qed.
  Lemma missing_front a segs p l n : sd_missing true n (SAbs a segs p l) = n - p.
  Proof. done. Qed.
  Lemma missing_back a segs p l n : sd_missing false n (SAbs a segs p l) = p + zlen l + n - (slots segs - 1).
  Proof. unfold sd_missing, g_back, sd_geom, s_size, s_cap, slots. simpl. lia. Qed.
  Lemma size_nat a segs p l : Z.to_nat (g_size (sd_geom (SAbs a segs p l))) = length l.
  Proof. unfold sd_geom, s_size. simpl. lia. Qed.
  Lemma near_spec (i : nat) a segs p l : near_front i (sd_geom (SAbs a segs p l)) = (Z.of_nat i <? zlen l - Z.of_nat i).
  Proof. done. Qed.

  Ltac ptac := unfold sdpost; cbn [s_alloc s_front s_segs s_elems]; split_and!; try done.
  Ltac stac := cbv beta zeta delta [sd_storage]; cbn [s_front]; rewrite ?near_spec.
  Ltac xtac := unfold sd_exn; cbv zeta; cbn [s_alloc s_front s_segs s_elems]; rewrite ?near_spec.

  Lemma dk_emplace i x : sdop_ok (DEmplace i x).
  Proof.
    intros T segs p l Hp Hb Hok. unfold sd_pre, dev_doc in Hok. rewrite size_nat in Hok.
    apply andb_true_iff in Hok as [Hi Hx]. apply Nat.leb_le in Hi.
    destruct (s_arg_rel T segs p l x Hx) as (v & a & Hv & Ha & Hm & Harg).
    unfold dgoal. iIntros "Hs". cbn [run_sdop]. wbind. iApply (wp_s_pos with "Hs"); [done|]. iIntros "Hs". wbeta.
    wbind. iApply (Harg with "Hs"). iIntros "Hs". wbeta. iStopProof.
    pose proof (sarg_length _ _ _ _ _ _ Ha) as Hlen.
    assert (forall a : arg, (x_moves x = false -> ~ is_move a) -> forall l', arg_exn a l l' -> x_moves x = false -> l' = l) as Hstrong.
    { intros a' Hm' l' [_ Hr] Hmv. specialize (Hm' Hmv). by destruct a'. }
    destruct (Z.ltb_spec (Z.of_nat i) (zlen l - Z.of_nat i)) as [Hn|Hn].
    - assert ((Z.of_nat i <? zlen l - Z.of_nat i) = true) as Hnb by lia.
      eapply (front_dgoal (DEmplace i x)).
      + apply (front_idx _ _ _ _ _ _ _ _ _ _ (Z.of_nat i) (front_sd_emplace T segs p l a v _ i _ Ha Hn eq_refl)); [len; lia|done].
      + intros al new Hg. ptac; [by exists v|]. stac. rewrite Hnb. by apply made_front.
      + intros al e new p' l' Hex. apply (front_exn al) in Hex as [He Hr]. xtac. rewrite Hnb missing_front.
        split_and!; [done| |done| |].
        * intros [Hmv Hi']. destruct Hr as [[-> _]|[Hr|[Hr _]]]; [done|by eapply Hstrong|]. exfalso. cbn [s_elems] in Hi'. lia.
        * destruct Hr as [[-> _]|[[Hr _]|[_ Hr]]]; lia.
        * destruct Hr as [[-> _]|[[Hr _]|[_ Hr]]]; lia.
    - assert ((Z.of_nat i <? zlen l - Z.of_nat i) = false) as Hnb by lia. assert (~ Z.of_nat i < zlen l - Z.of_nat i) as Hn' by lia.
      eapply (back_dgoal (DEmplace i x)).
      + apply (back_idx _ _ _ _ _ _ _ _ _ (Z.of_nat i) (back_sd_emplace T segs p l a v _ i _ Ha Hi Hn' eq_refl)); [len; lia|done].
      + intros al new Hg. ptac; [by exists v|]. stac. rewrite Hnb. by apply made_behind.
      + intros al e new l' Hex. apply (behind_exn al segs p) in Hex as [He Hr]. xtac. rewrite Hnb missing_back.
        split_and!; [done| |done| |].
        * intros [Hmv Hi']. destruct Hr as [[-> _]|[Hr|[Hr _]]]; [done|by eapply Hstrong|]. exfalso. cbn [s_elems] in Hi'. lia.
        * destruct Hr as [[-> _]|[[Hr _]|[_ Hr]]]; lia.
        * destruct Hr as [[-> _]|[[Hr _]|[_ Hr]]]; lia.
  Qed.
  Lemma dk_emplace_front x : sdop_ok (DEmplaceFront x).
  Proof.
    intros T segs p l Hp Hb Hok. unfold sd_pre, dev_doc in Hok. rewrite size_nat in Hok.
    destruct (s_arg_rel T segs p l x Hok) as (v & a & Hv & Ha & Hm & Harg).
    unfold dgoal. iIntros "Hs". cbn [run_sdop].
    wbind. iApply (Harg with "Hs"). iIntros "Hs". wbeta. iStopProof.
    eapply (front_dgoal (DEmplaceFront x)).
    - by apply (front_ref _ _ _ _ _ _ _ _ _ _ (front_emplace_front T segs p l a v _ Ha)).
    - intros al new Hg. ptac; [by exists v|]. stac. by apply made_front.
    - intros al e new p' l' Hex. apply (front_exn al) in Hex as [He Hr]. xtac. rewrite missing_front.
      split_and!; [done| |done| | |].
      + intros Hmv. destruct Hr as [[-> _]|[_ Hr]]; [done|]. specialize (Hm Hmv). by destruct a.
      + destruct Hr as [[-> _]|[Hr _]]; lia.
      + destruct Hr as [[-> _]|[Hr _]]; lia.
      + destruct Hr as [[-> _]|[Hr _]]; lia.
  Qed.
  Lemma dk_emplace_back x : sdop_ok (DEmplaceBack x).
  Proof.
    intros T segs p l Hp Hb Hok. unfold sd_pre, dev_doc in Hok. rewrite size_nat in Hok.
    destruct (s_arg_rel T segs p l x Hok) as (v & a & Hv & Ha & Hm & Harg).
    unfold dgoal. iIntros "Hs". cbn [run_sdop].
    wbind. iApply (Harg with "Hs"). iIntros "Hs". wbeta. iStopProof.
    pose proof (sarg_length _ _ _ _ _ _ Ha) as Hlen.
    eapply (back_dgoal (DEmplaceBack x)).
    - apply (back_ref _ _ _ _ _ _ _ _ _ (back_emplace_back T segs p l a v _ Ha)); [len; lia|].
      intros T' segs'. f_equal. len. lia.
    - intros al new Hg. ptac.
      + exists v. split_and!; [done| |done]. f_equal. len. lia.
      + stac. by apply made_behind.
    - intros al e new l' Hex. apply (behind_exn al segs p) in Hex as [He Hr]. xtac. rewrite missing_back.
      split_and!; [done| |done| | |].
      + intros Hmv. destruct Hr as [[-> _]|[_ Hr]]; [done|]. specialize (Hm Hmv). by destruct a.
      + destruct Hr as [[-> _]|[Hr _]]; lia.
      + destruct Hr as [[-> _]|[Hr _]]; lia.
      + destruct Hr as [[-> _]|[Hr _]]; lia.
  Qed.
  Lemma dk_insert_n i n x : sdop_ok (DInsertN i n x).
  Proof.
    intros T segs p l Hp Hb Hok. unfold sd_pre in Hok. rewrite size_nat in Hok.
    apply andb_true_iff in Hok as [Hok Hmv]. apply andb_true_iff in Hok as [Hi Hx]. apply Nat.leb_le in Hi.
    apply negb_true_iff in Hmv.
    destruct (s_arg_rel T segs p l x Hx) as (v & a & Hv & Ha & Hm & Harg).
    rewrite (SeqProofs.arg_rest_same l x Hmv) in Ha.
    unfold dgoal. iIntros "Hs". cbn [run_sdop]. wbind. iApply (wp_s_pos with "Hs"); [done|]. iIntros "Hs". wbeta.
    wbind. iApply (Harg with "Hs"). iIntros "Hs". wbeta. iStopProof.
    destruct (Z.ltb_spec (Z.of_nat i) (zlen l - Z.of_nat i)) as [Hn|Hn].
    - assert ((Z.of_nat i <? zlen l - Z.of_nat i) = true) as Hnb by lia.
      eapply (front_dgoal (DInsertN i n x)).
      + apply (front_idx _ _ _ _ _ _ _ _ _ _ (Z.of_nat i) (front_sd_insert_fill T segs p l i n a v _ Ha (Hm Hmv) Hi eq_refl Hn)); [len; lia|done].
      + intros al new Hg. ptac; [by exists v|]. stac. rewrite Hnb. by apply made_front.
      + intros al e new p' l' Hex. apply (front_exn al) in Hex as [He Hr]. xtac. rewrite Hnb missing_front.
        split_and!; [done| |done| |].
        * intros Hi'. simpl in Hi'. destruct Hr as [[-> _]|[_ Hr]]; [done|]. apply Hr. lia.
        * destruct Hr as [[-> _]|[Hr _]]; lia.
        * destruct Hr as [[-> _]|[Hr _]]; lia.
    - assert ((Z.of_nat i <? zlen l - Z.of_nat i) = false) as Hnb by lia.
      eapply (back_dgoal (DInsertN i n x)).
      + apply (back_idx _ _ _ _ _ _ _ _ _ (Z.of_nat i) (back_sd_insert_fill T segs p l i n a v _ Ha (Hm Hmv) Hi eq_refl Hn)); [len; lia|done].
      + intros al new Hg. ptac; [by exists v|]. stac. rewrite Hnb. by apply made_behind.
      + intros al e new l' Hex. apply (behind_exn al segs p) in Hex as [He Hr]. xtac. rewrite Hnb missing_back.
        split_and!; [done| |done| |].
        * intros Hi'. simpl in Hi'. destruct Hr as [[-> _]|[_ Hr]]; [done|]. apply Hr. lia.
        * destruct Hr as [[-> _]|[Hr _]]; lia.
        * destruct Hr as [[-> _]|[Hr _]]; lia.
  Qed.
  Lemma dk_insert_range i vs : sdop_ok (DInsertRange i vs).
  Proof.
    intros T segs p l Hp Hb Hok. unfold sd_pre in Hok. rewrite size_nat in Hok.
    apply andb_true_iff in Hok as [Hi Hroom]. apply Nat.leb_le in Hi.
    rewrite near_spec in Hroom. unfold sd_geom, s_size in Hroom. cbn [g_front g_size s_front s_elems] in Hroom.
    unfold dgoal. iIntros "Hs". cbn [run_sdop]. wbind. iApply (wp_s_pos with "Hs"); [done|]. iIntros "Hs". wbeta.
    iStopProof.
    destruct (Z.ltb_spec (Z.of_nat i) (zlen l - Z.of_nat i)) as [Hn|Hn].
    - assert ((Z.of_nat i <? zlen l - Z.of_nat i) = true) as Hnb by lia.
      eapply (front_dgoal (DInsertRange i vs)).
      + apply (front_idx _ _ _ _ _ _ _ _ _ _ (Z.of_nat i) (front_sd_insert_range ra vs T segs p l i _ Hi eq_refl Hn)); [len; lia|done].
      + intros al new Hg. ptac. stac. rewrite Hnb. by apply made_front.
      + intros al e new p' l' Hex. apply (front_exn al) in Hex as [He Hr]. xtac. rewrite Hnb missing_front.
        split_and!; [done| |done| |].
        * intros Hi'. simpl in Hi'. destruct Hr as [[-> _]|[_ Hr]]; [done|]. apply Hr. lia.
        * destruct Hr as [[-> _]|[Hr _]]; lia.
        * destruct Hr as [[-> _]|[Hr _]]; lia.
    - assert ((Z.of_nat i <? zlen l - Z.of_nat i) = false) as Hnb by lia. simpl in Hroom. apply Z.leb_le in Hroom.
      rewrite vals_all.
      eapply (back_dgoal (DInsertRange i vs)).
      + eapply (back_idx _ _ _ _ _ _ _ _ _ (Z.of_nat i)); [eapply feed_back, (feed_sd_insert_range _ _ _ _ T segs p l i _ (feeds_vals ra vs) Hi eq_refl Hn Hroom)|len; lia|done].
      + intros al new Hg. ptac. stac. rewrite Hnb. by apply made_behind.
      + intros al e new l' Hex. apply (behind_exn al segs p) in Hex as [He Hr]. xtac. rewrite Hnb missing_back.
        split_and!; [done| |done| |].
        * intros Hi'. simpl in Hi'. destruct Hr as [[-> _]|[_ Hr]]; [done|]. apply Hr. lia.
        * destruct Hr as [[-> _]|[Hr _]]; lia.
        * destruct Hr as [[-> _]|[Hr _]]; lia.
  Qed.
  Lemma dk_insert_input i vs : sdop_ok (DInsertInput i vs).
  Proof.
    intros T segs p l Hp Hb Hok. unfold sd_pre, dev_doc in Hok. rewrite size_nat in Hok. apply Nat.leb_le in Hok.
    unfold dgoal. iIntros "Hs". cbn [run_sdop]. wbind. iApply (wp_s_pos with "Hs"); [done|]. iIntros "Hs". wbeta.
    iStopProof.
    assert (g_back (sd_geom (SAbs (t_al T) segs p l)) = slots segs - 1 - p - zlen l) as Hback by done.
    eapply (dual_dgoal (DInsertInput i vs)).
    - eapply (dual_idx _ _ _ _ _ _ _ _ _ (Z.of_nat i)); [apply (dual_sd_insert_input T segs p l vs i _ Hok eq_refl)|len; lia|done].
    - intros al a b p' [H1 H2]. ptac. unfold sd_storage. exists a, b. cbn [s_segs s_front].
      split_and!; [done|done|]. intros Hle. apply H2. revert Hle. unfold g_back, sd_geom, s_size, s_cap, slots. simpl. lia.
    - intros al e a b p' l' ([H1 H2] & H3 & H4) Hl. xtac. split_and!; [done|done|..].
      + revert Hl. simpl. lia.
      + revert Hl. simpl. lia.
      + by exists a, b.
      + by intros ->.
      + intros ->. unfold s_cap. cbn [s_segs]. unfold slots in H4. lia.
      + intros Hf Hk. assert (p + zlen l + zlen vs <= slots segs - 1) as Hs.
        { revert Hk. unfold g_back, sd_geom, s_size, s_cap, slots. simpl. lia. }
        split; [by apply H3|]. rewrite H1 // H2 //. by rewrite app_nil_r.
  Qed.
  Lemma dk_assign_input vs : sdop_ok (DAssignInput vs).
  Proof.
    intros T segs p l Hp Hb _. cbn [run_sdop].
    eapply (loop_dgoal (DAssignInput vs)).
    - eapply loop_unit, loop_assign_input.
    - intros al new Hn. ptac. unfold sd_storage, s_cap. cbn [s_front s_segs]. split_and!; [done|by exists new|].
      intros Hle. rewrite Hn; [by rewrite app_nil_r|unfold slots; lia].
    - intros al e new l' [H1 H2] Hl. xtac. unfold s_cap. cbn [s_segs]. change (SS * zlen segs) with (slots segs). split_and!; try done.
      + by exists new.
      + revert Hl. simpl. lia.
      + revert Hl. simpl. lia.
      + by intros ->.
      + by intros ->.
      + intros Hle. destruct (H1 Hle) as [-> ->]. by rewrite app_nil_r.
  Qed.
  Lemma dk_pop_front : sdop_ok DPopFront.
  Proof.
    intros T segs p l Hp Hb Hok. unfold sd_pre, dev_doc in Hok. rewrite size_nat in Hok. apply Nat.ltb_lt in Hok.
    destruct l as [|v l]; [simpl in Hok; lia|]. cbn [run_sdop].
    eapply (keep_dgoal DPopFront); [eapply keep_unit, keep_pop_front| |by intros].
    intros al. ptac. split; [done|by exists v].
  Qed.
  Lemma dk_pop_back : sdop_ok DPopBack.
  Proof.
    intros T segs p l Hp Hb Hok. unfold sd_pre, dev_doc in Hok. rewrite size_nat in Hok. apply Nat.ltb_lt in Hok.
    destruct (exists_last (l := l)) as (l1 & v & ->); [by intros ->; simpl in Hok; lia|]. cbn [run_sdop].
    eapply (keep_dgoal DPopBack); [eapply keep_unit, keep_pop_back| |by intros].
    intros al. ptac. split; [done|by exists v].
  Qed.
  Lemma dk_erase i : sdop_ok (DErase i).
  Proof.
    intros T segs p l Hp Hb Hok. unfold sd_pre, dev_doc in Hok. rewrite size_nat in Hok. apply Nat.ltb_lt in Hok.
    unfold dgoal. iIntros "Hs". cbn [run_sdop]. wbind. iApply (wp_s_pos with "Hs"); [lia|]. iIntros "Hs". wbeta.
    iStopProof.
    eapply (keep_dgoal (DErase i)).
    - apply (keep_idx _ _ _ _ _ _ _ _ _ (Z.of_nat i) (keep_sd_erase T segs p l i _ Hok eq_refl)); [len; lia|done].
    - intros al. by ptac.
    - intros al l' Hl. xtac. by split_and!.
  Qed.
  Lemma dk_erase_range i j : sdop_ok (DEraseRange i j).
  Proof.
    intros T segs p l Hp Hb Hok. unfold sd_pre, dev_doc in Hok. rewrite size_nat in Hok.
    apply andb_true_iff in Hok as [H1 H2]. apply Nat.leb_le in H1, H2.
    unfold dgoal. iIntros "Hs". cbn [run_sdop]. wbind. iApply (wp_s_pos with "Hs"); [lia|]. iIntros "Hs". wbeta.
    wbind. iApply (wp_s_pos with "Hs"); [lia|]. iIntros "Hs". wbeta. iStopProof.
    eapply (keep_dgoal (DEraseRange i j)).
    - apply (keep_idx _ _ _ _ _ _ _ _ _ (Z.of_nat i) (keep_sd_erase_range T segs p l i j _ _ (conj H1 H2) eq_refl eq_refl)); [len; lia|done].
    - intros al. by ptac.
    - intros al l' Hl. xtac. by split_and!.
  Qed.

  Lemma stretch_ok a segs p l l2 n new :
    sgrown segs (n - (slots segs - 1)) new ->
    stretched n (SAbs a segs p l) (SAbs a (segs ++ new) (p - sresized segs p n l) l2).
  Proof.
    intros [H1 H2]. unfold stretched, grows_behind, grows_back, sresized, g_back, sd_geom, s_size, s_cap.
    cbn [s_front s_segs s_elems g_front g_size g_cap]. change (SS * zlen segs) with (slots segs).
    split_and!; [by exists new| |exact H2]. f_equal. f_equal. f_equal. lia.
  Qed.
  Lemma dk_resize n x : sdop_ok (DResize n x).
  Proof.
    intros T segs p l Hp Hb Hok. unfold sd_pre in Hok. rewrite size_nat in Hok.
    destruct (s_arg_const T segs p l x Hok) as (v & a & Hv & Ha & Harg). cbn [run_sdop].
    unfold dgoal. iIntros "Hs". wbind. iApply (Harg with "Hs"). iIntros "Hs". wbeta. iStopProof.
    assert (forall al, g_size (sd_geom (SAbs al segs p l)) + g_back (sd_geom (SAbs al segs p l)) = slots segs - 1 - p) as Hroom.
    { intros al. unfold g_back, sd_geom, s_size, s_cap, slots. simpl. lia. }
    eapply (shift_dgoal (DResize n x)); [apply (shift_sd_resize T segs p l n a v Ha)| |].
    - intros al new Hg. ptac; [|by apply stretch_ok]. exists v. split_and!; [done|done|].
      unfold DevSpec.resized, g_back, sd_geom, s_size, s_cap, sresized. cbv zeta.
      cbn [s_front s_segs s_elems g_front g_size g_cap]. change (SS * zlen segs) with (slots segs).
      replace (Z.to_nat (Z.min p (Z.of_nat n - (zlen l + (slots segs - 1 - p - zlen l)))))
        with (Z.to_nat (Z.max 0 (Z.min p (Z.of_nat n - (slots segs - 1 - p))))) by lia. done.
    - intros al e new l' Hex. apply (behind_exn al segs p) in Hex as [He Hr]. xtac.
      split_and!; [done| |done| | |].
      + unfold sd_strong. intros Hle. destruct Hr as [[-> _]|(_ & _ & Hr)]; [done|]. apply Hr.
        specialize (Hroom al). unfold s_size in Hle. cbn [sd_geom g_size s_size s_elems] in Hroom, Hle. unfold s_size in Hroom. cbn [s_elems] in Hroom. lia.
      + destruct Hr as [[_ Hr]|(Hr & _ & _)]; lia.
      + destruct Hr as [[-> Hr]|(Hr & (j & Hj & ->) & _)]; [lia|]. len. lia.
      + destruct Hr as [[-> Hr]|(Hr & (j & Hj & ->) & _)]; [exists 0%nat, v; split; [done|by rewrite app_nil_r]|].
        by exists j, v.
  Qed.
  Lemma dk_resize_front n x : sdop_ok (DResizeFront n x).
  Proof.
    intros T segs p l Hp Hb Hok. unfold sd_pre in Hok. rewrite size_nat in Hok.
    destruct (s_arg_const T segs p l x Hok) as (v & a & Hv & Ha & Harg). cbn [run_sdop].
    unfold dgoal. iIntros "Hs". wbind. iApply (Harg with "Hs"). iIntros "Hs". wbeta. iStopProof.
    eapply (front_dgoal (DResizeFront n x)); [apply front_unit, (front_sd_resize_front T segs p l n a v Ha)| |].
    - intros al new Hg. ptac; [by exists v|]. by apply (made_front al segs p l).
    - intros al e new p' l' Hex. apply (front_exn al) in Hex as [He Hr]. xtac. rewrite missing_front.
      split_and!; [done| |done|].
      + intros _. by destruct Hr as [[-> _]|[-> _]].
      + destruct Hr as [[_ Hr]|[_ Hr]]; lia.
  Qed.
  Lemma dk_resize_back n x : sdop_ok (DResizeBack n x).
  Proof.
    intros T segs p l Hp Hb Hok. unfold sd_pre in Hok. rewrite size_nat in Hok.
    destruct (s_arg_const T segs p l x Hok) as (v & a & Hv & Ha & Harg). cbn [run_sdop].
    unfold dgoal. iIntros "Hs". wbind. iApply (Harg with "Hs"). iIntros "Hs". wbeta. iStopProof.
    assert (p + Z.of_nat n - (slots segs - 1) = p + zlen l + (Z.of_nat n - zlen l) - (slots segs - 1)) as Hadd by lia.
    eapply (back_dgoal (DResizeBack n x)); [apply back_unit, (back_sd_resize_back T segs p l n a v Ha)| |].
    - intros al new Hg. ptac; [by exists v|]. rewrite Hadd in Hg. by apply (made_behind al segs p l).
    - intros al e new l' Hex. rewrite Hadd in Hex. apply (behind_exn al segs p) in Hex as [He Hr]. xtac. rewrite missing_back.
      split_and!; [done| |done|].
      + intros _. by destruct Hr as [[-> _]|[-> _]].
      + destruct Hr as [[_ Hr]|[_ Hr]]; lia.
  Qed.
  Lemma dk_assign_n n v : sdop_ok (DAssignN n v).
  Proof.
    intros T segs p l Hp Hb _. cbn [run_sdop].
    eapply (shift_dgoal (DAssignN n v)); [apply shift_sd_assign_fill| |].
    - intros al new Hg. ptac. by apply stretch_ok.
    - intros al e new l' Hex. apply (behind_exn al segs p) in Hex as [He Hr]. xtac. split_and!; [done|done|done| |].
      + destruct Hr as [[-> _]|Hr]; lia.
      + destruct Hr as [[-> _]|Hr]; lia.
  Qed.
  Lemma dk_assign_range vs : sdop_ok (DAssignRange vs).
  Proof.
    intros T segs p l Hp Hb _. cbn [run_sdop]. rewrite vals_all.
    eapply (shift_dgoal (DAssignRange vs)); [eapply wide_shift, (wide_sd_assign_range _ _ _ _ T segs p l (feeds_vals ra vs))| |].
    - intros al new Hg. ptac. by apply stretch_ok.
    - intros al e new l' Hex. apply (behind_exn al segs p) in Hex as [He Hr]. xtac. split_and!; [done|done|done| |].
      + destruct Hr as [[-> _]|Hr]; lia.
      + destruct Hr as [[-> _]|Hr]; lia.
  Qed.
  Lemma dk_clear : sdop_ok DClear.
  Proof.
    intros T segs p l Hp Hb _. cbn [run_sdop].
    eapply (keep_dgoal DClear); [eapply keep_unit, keep_clear| |by intros]. intros al. ptac.
  Qed.
  Lemma dk_reserve_front n : sdop_ok (DReserveFront n).
  Proof.
    intros T segs p l Hp Hb _. cbn [run_sdop].
    eapply (front_dgoal (DReserveFront n)); [eapply front_unit, front_reserve_front| |].
    - intros al new [H1 H2]. ptac. unfold sd_storage, grows_front, s_cap, s_size. cbn [s_segs s_front s_elems]. split; [|exact H2].
      exists new. split_and!; [done|done|]. unfold slots. lia.
    - intros al e new p' l' Hex. pose proof Hex as Hx. apply (front_exn al) in Hex as [He Hr]. xtac.
      destruct Hx as [(-> & -> & -> & Hadd & Hx)|(_ & _ & _ & [])]. split_and!; try done.
      by destruct Hx as [[-> _]| ->].
  Qed.
  Lemma dk_reserve_back n : sdop_ok (DReserveBack n).
  Proof.
    intros T segs p l Hp Hb _. cbn [run_sdop].
    assert (forall al, Z.of_nat n - (s_size (SAbs al segs p l) + g_back (sd_geom (SAbs al segs p l))) = p + Z.of_nat n - (slots segs - 1)) as Hneed.
    { intros al. unfold g_back, sd_geom, s_size, s_cap, slots. simpl. lia. }
    eapply (back_dgoal (DReserveBack n)); [eapply back_unit, back_sd_reserve_back| |].
    - intros al new [H1 H2]. ptac. unfold sd_storage. rewrite Hneed. unfold grows_behind, grows_back, s_cap. cbn [s_segs s_front s_elems].
      split_and!; [|done|exact H2]. by exists new.
    - intros al e new l' Hex. pose proof Hex as Hx. apply (behind_exn al segs p) in Hex as [He Hr]. xtac. rewrite Hneed.
      destruct Hx as [(-> & -> & Hadd & Hx)|(_ & _ & [])]. rewrite app_nil_r in He. rewrite app_nil_r. split_and!; try done.
      by destruct Hx as [[-> _]| ->].
  Qed.
  Lemma dk_shrink : sdop_ok DShrink.
  Proof.
    intros T segs p l Hp Hb _. cbn [run_sdop]. unfold dgoal, s_unit. iIntros "Hs". wbind.
    iApply (wp_sd_shrink with "Hs"). iSplit.
    - iIntros (T') "%H1 Hs". wbeta. iApply wp_ret. iExists (SAbs (t_al T) _ _ l). iSplit.
      2:{ rewrite -H1. by iApply (sinv_intro with "Hs"). }
      iPureIntro. by ptac.
    - iIntros (T') "%H1 Hs". iExists (SAbs (t_al T) _ _ l). iSplit.
      2:{ rewrite -H1. by iApply (sinv_intro with "Hs"). }
      iPureIntro. xtac. by split_and!.
  Qed.
  Lemma dk_at i : sdop_ok (DAt i).
  Proof.
    intros T segs p l Hp Hb _. cbn [run_sdop]. unfold dgoal. iIntros "Hs". wbind. iApply (wp_sd_at with "Hs").
    iIntros "Hs". destruct (l !! i) as [v|] eqn:Hv.
    - wbeta. iApply wp_ret. iExists (SAbs (t_al T) segs p l). iSplit; [|by iApply (sinv_intro with "Hs")].
      iPureIntro. ptac. by exists v.
    - iExists (SAbs (t_al T) segs p l). iSplit; [|by iApply (sinv_intro with "Hs")].
      iPureIntro. xtac. split_and!; try done. by apply lookup_ge_None.
  Qed.
  Lemma dk_get i : sdop_ok (DGet i).
  Proof.
    intros T segs p l Hp Hb Hok. unfold sd_pre, dev_doc in Hok. rewrite size_nat in Hok. apply Nat.ltb_lt in Hok.
    destruct (lookup_lt_is_Some_2 l i Hok) as [v Hv]. cbn [run_sdop].
    apply (read_dgoal _ _ _ _ _ _ i v); [done| |].
    - intros Q X. apply wp_sd_index. lia.
    - intros a. ptac. by exists v.
  Qed.
  Lemma dk_front : sdop_ok DFront.
  Proof.
    intros T segs p l Hp Hb Hok. unfold sd_pre, dev_doc in Hok. rewrite size_nat in Hok. apply Nat.ltb_lt in Hok.
    destruct l as [|v l]; [simpl in Hok; lia|]. cbn [run_sdop].
    apply (read_dgoal _ _ _ _ _ _ 0 v); [done| |].
    - intros Q X. rewrite Z.add_0_r. apply wp_sq_get_front. lia.
    - intros a. ptac. by exists v.
  Qed.
  Lemma dk_back : sdop_ok DBack.
  Proof.
    intros T segs p l Hp Hb Hok. unfold sd_pre, dev_doc in Hok. rewrite size_nat in Hok. apply Nat.ltb_lt in Hok.
    destruct (lookup_lt_is_Some_2 l (pred (length l)) ltac:(lia)) as [v Hv]. cbn [run_sdop].
    apply (read_dgoal _ _ _ _ _ _ (pred (length l)) v); [done| |].
    - intros Q X. iIntros "Hs HK". iApply (wp_sq_get_back with "Hs"); [lia|].
      by replace (p + zlen l - 1) with (p + Z.of_nat (pred (length l))) by lia.
    - intros a. ptac. exists v. split_and!; [|done|done]. by rewrite last_lookup.
  Qed.
  Lemma dk_set i v : sdop_ok (DSet i v).
  Proof.
    intros T segs p l Hp Hb Hok. unfold sd_pre, dev_doc in Hok. rewrite size_nat in Hok. apply Nat.ltb_lt in Hok.
    cbn [run_sdop]. eapply (keep_dgoal (DSet i v)).
    - eapply keep_unit. intros Q X. iIntros "Hs HK". wbind. iApply (wp_s_ref with "Hs"); [lia|]. iIntros "Hs". wbeta.
      iApply (keep_set T segs p l i v _ Hok eq_refl with "Hs HK").
    - intros al. by ptac.
    - intros al l' Hl. xtac. by split_and!.
  Qed.
  Lemma num_dgoal o T segs p l (m : M sgdata Z) z :
    (forall Q X f, swin (t_at T) segs f ⊢ (swin (t_at T) segs f -∗ Q z (sobj T segs p (zlen l))) -∗
       wp m (sobj T segs p (zlen l)) Q X) ->
    (forall a, sdpost o (SAbs a segs p l) (RNum z) (SAbs a segs p l)) ->
    dgoal o T segs p l (s_num m).
  Proof.
    intros Hm Hpost. unfold dgoal, s_num. iIntros "Hs".
    iDestruct (sg_at_open with "Hs") as "(%Hb & Hf & Hw)". wbind. iApply (Hm with "Hw").
    iIntros "Hw". wbeta. iDestruct (sg_at_close with "Hf Hw") as "Hs"; [lia..|]. iApply wp_ret.
    iExists (SAbs (t_al T) segs p l). iSplit; [|by iApply (sinv_intro with "Hs")]. iPureIntro. apply Hpost.
  Qed.
  Lemma dk_nums o : match o with DSize | DCapacity | DRoomFront | DRoomBack => True | _ => False end -> sdop_ok o.
  Proof.
    intros Ho T segs p l Hp Hb _. assert (0 < zlen segs) as Hpos by (apply slots_pos; lia).
    destruct o; try done; cbn [run_sdop].
    - apply (num_dgoal _ _ _ _ _ _ (zlen l)); [|intros al; by ptac]. intros Q X f. apply wp_sq_size; lia.
    - apply (num_dgoal _ _ _ _ _ _ (slots segs - 1)); [|intros al; by ptac]. intros Q X f. apply wp_sq_capacity; lia.
    - apply (num_dgoal _ _ _ _ _ _ p); [|intros al; by ptac]. intros Q X f. apply wp_sq_front_room; lia.
    - apply (num_dgoal _ _ _ _ _ _ (slots segs - 1 - (p + zlen l))).
      + intros Q X f. apply wp_sq_back_room; lia.
      + intros al. ptac. split; [|done]. f_equal. unfold g_back, sd_geom, s_size, s_cap, slots. simpl. lia.
  Qed.
  Lemma dk_erase_if pr : sdop_ok (DEraseIf pr).
  Proof.
    intros T segs p l Hp Hb _. cbn [run_sdop]. eapply (keep_dgoal (DEraseIf pr)).
    - intros Q X. iIntros "Hs HK". unfold s_num. wbind. iApply (keep_sd_erase_if with "Hs"). iSplit.
      + iIntros "Hs". wbeta. iApply wp_ret. iDestruct "HK" as "[HK _]". by iApply "HK".
      + iDestruct "HK" as "[_ HK]". done.
    - intros al. ptac. split; [done|]. f_equal.
      pose proof (SeqProofs.filter_split_length pr l). pose proof (keep_length pr l). lia.
    - intros al l' Hl. xtac. by split_and!.
  Qed.
  Lemma dk_self_move : sdop_ok DSelfMove.
  Proof.
    intros T segs p l Hp Hb _. cbn [run_sdop]. unfold dgoal, s_unit. iIntros "Hs". wbind.
    iApply (wp_sq_assign_move_self with "Hs"). iSplit.
    - iIntros (T' segs') "%HT Hs". destruct HT as (H1 & H2 & H3). wbeta. iApply wp_ret.
      iExists (SAbs (t_al T) segs' 0 []). iSplit.
      2:{ rewrite -H1. by iApply (sinv_intro with "Hs"). }
      iPureIntro. ptac. split; [done|]. cbn [s_segs].
      rewrite Z.div_0_l in H3; [lia|pose proof SS_pos; lia].
    - iIntros "Hs". iExists (SAbs (t_al T) segs p l). iSplit; [|by iApply (sinv_intro with "Hs")].
      iPureIntro. xtac. by split_and!.
  Qed.

  Lemma sdop_all o : sdop_ok o.
  Proof.
    destruct o; auto using dk_emplace, dk_emplace_front, dk_emplace_back, dk_insert_n, dk_insert_range, dk_insert_input,
      dk_pop_front, dk_pop_back, dk_erase, dk_erase_range, dk_resize, dk_resize_front, dk_resize_back, dk_assign_n,
      dk_assign_range, dk_assign_input, dk_clear, dk_reserve_front, dk_reserve_back, dk_shrink, dk_at, dk_get, dk_front,
      dk_back, dk_set, dk_erase_if, dk_self_move; by apply dk_nums.
  Qed.
End member.

Section dev.
  Context `{E : Env} `{SZ : SegSize} (ra : bool).

  Lemma dev_assigner : assigner dev_I (assigned_segs false) sd_assign_range.
  Proof.
    intros W WX vs sub T segs p l Q X Hfd _. iIntros "Hs HW HK".
    iApply (wide_sd_assign_range _ _ _ _ _ _ _ _ Hfd with "Hs HW"). iSplit.
    - iIntros (T' new C) "%H HW Hs". destruct H as ([HT1 HT2] & Hn & HC). iDestruct "HK" as "[HK _]".
      iApply ("HK" with "[%] HW Hs"). split_and!; [done|done| |done]. split; [done|]. exists new. split; [done|apply Hn].
    - iIntros (e T' new l') "%H HW Hs". destruct H as ([HT1 HT2] & He). iDestruct "HK" as "[_ HK]".
      iApply ("HK" with "[%] HW Hs"). split_and!; [done|done|].
      destruct He as [(-> & -> & Hp & [[-> Hg]| ->])|(-> & _)]; simpl; [lia|done|done].
  Qed.

  Lemma s_ogeom_inv I x A h : sinv I x A h -> s_ogeom x = sd_geom A.
  Proof.
    intros Hh.
    assert (sinv I x A ⊢ ⌜s_ogeom x = sd_geom A⌝) as Hp.
    { iIntros "H". iDestruct (sinv_open with "H") as (T segs p l) "[%H Hs]". destruct H as (-> & -> & _).
      iDestruct (sg_at_zero with "Hs") as "[%Hz Hs]". iDestruct (sg_at_open with "Hs") as "(%Hb & _)".
      iPureIntro. unfold s_ogeom, sobj, sd_geom, s_size, s_cap. simpl.
      rewrite !s_dist_at; [|done|lia|lia|done|lia|lia|done|lia|lia]. f_equal; unfold slots; lia. }
    destruct Hp as [Hp]. by apply (Hp h).
  Qed.

  Program Definition segdev_ok : container_ok (segdev_spec ra) :=
    {| inv := sinv dev_I : obj (segdev ra) -> abs (segdev_spec ra) -> hProp |}.
  Next Obligation. done. Qed.
  Next Obligation. done. Qed.
  Next Obligation. intros o x A h Hi. simpl. by rewrite (s_ogeom_inv _ _ _ _ Hi). Qed.
  Next Obligation.
    intros o x A y B h h' Hx Hy. destruct (s_osize_inv _ _ _ _ Hx) as [_ Ha].
    destruct (s_osize_inv _ _ _ _ Hy) as [_ Hb]. simpl. rewrite Ha Hb.
    destruct o; simpl; try done. by rewrite Nat.eqb_eq.
  Qed.
  Next Obligation. intros c _. by apply seg_build_ok. Qed.
  Next Obligation. intros c x A _. by apply seg_build2_ok. Qed.
  Next Obligation.
    intros o x A Hpre. iIntros "Hx". iDestruct (sinv_open with "Hx") as (T segs p l) "[%Hx Hs]".
    destruct Hx as (-> & -> & HI).
    iDestruct (sg_at_open with "Hs") as "(%Hb & Hf & Hw)". iDestruct (sg_at_close with "Hf Hw") as "Hs"; [lia..|].
    iApply (wp_wand with "[Hs]"); [iApply (sdop_all ra o T segs p l with "Hs"); [lia|lia|exact Hpre]|].
    iSplit; iIntros (r x') "Hx"; iExact "Hx".
  Qed.
  Next Obligation. intros o x A y B Hpre. apply seg_run2_ok; [done|apply dev_assigner|done]. Qed.
  Next Obligation. intros x A. apply seg_kill_ok. Qed.
End dev.
