(** * sfl::segmented_vector meets its specification *)

From Verif Require Export SegTwo SegClient.
From Verif Require SeqProofs VectorOk.
From Coq Require Import ZifyBool.
From iris.proofmode Require Import environments tactics.
Open Scope Z_scope.
Notation frame := SegGrow.frame.

(** ** Objects, positions and arguments *)
Section common.
  Context `{E : Env} `{SZ : SegSize}.
  Implicit Types segs new : list loc.
  Implicit Types T : tab.
  Implicit Types I : tab -> Z -> Prop.

  (** The object [x] holds the abstract value [A]; [I]: what else holds between
      calls. *)
  Definition sinv (I : tab -> Z -> Prop) (x : sgdata) (A : sabs) : hProp :=
    (∃ T, ⟦x = sobj T (s_segs A) (s_front A) (zlen (s_elems A)) /\ t_al T = s_alloc A /\ I T (s_front A)⟧ ∗
          sg_at T (s_segs A) (s_front A) (s_elems A))%I.
  Lemma sinv_intro I T segs p l m :
    m = zlen l -> I T p -> sg_at T segs p l ⊢ sinv I (sobj T segs p m) (SAbs (t_al T) segs p l).
  Proof. iIntros (-> HI) "H". iExists T. by iFrame. Qed.
  Lemma sinv_open I x A :
    sinv I x A ⊢ ∃ T segs p l, ⟦A = SAbs (t_al T) segs p l /\ x = sobj T segs p (zlen l) /\ I T p⟧ ∗ sg_at T segs p l.
  Proof.
    destruct A as [a segs p l]. iIntros "H". iDestruct "H" as (T) "[%H H]". destruct H as (-> & Ha & HI).
    simpl in *. iExists T, segs, p, l. iFrame. iPureIntro. subst a. done.
  Qed.

  Lemma wp_s_pos T segs p l (i : nat) Q X :
    (i <= length l)%nat ->
    sg_at T segs p l ⊢ (sg_at T segs p l -∗ Q (sitr (t_at T) segs (p + Z.of_nat i)) (sobj T segs p (zlen l))) -∗
    wp (s_pos i) (sobj T segs p (zlen l)) Q X.
  Proof.
    intros Hi. sopen. unfold s_pos. do 3 sstep. iApply "HK". iApply (sg_at_close with "Hf Hw"); lia.
  Qed.
  Lemma wp_s_ref T segs p l i Q X :
    0 <= i <= zlen l ->
    sg_at T segs p l ⊢ (sg_at T segs p l -∗ Q (saddr segs (p + i)) (sobj T segs p (zlen l))) -∗
    wp (o <- getS;; it_index (sg_first o) i)%prog (sobj T segs p (zlen l)) Q X.
  Proof.
    intros Hi. sopen. do 2 sstep. iDestruct "Hw" as "[Ht Hw]". iApply (wp_it_index with "Ht"); [lia..|].
    iIntros "Ht". iApply "HK". iApply (sg_at_close with "Hf [$Ht $Hw]"); lia.
  Qed.
  Lemma s_arg_rel T segs p l x :
    x_ok (length l) x = true ->
    exists v a, arg_value l x = Some v /\ sarg segs p l a v (arg_rest l x) /\
      (x_moves x = false -> ~ is_move a) /\
      forall Q X,
        sg_at T segs p l ⊢ (sg_at T segs p l -∗ Q a (sobj T segs p (zlen l))) -∗
        wp (s_arg x) (sobj T segs p (zlen l)) Q X.
  Proof.
    destruct x as [|v|j|j]; simpl; intros Hx.
    - exists vdef, ADef. split_and!; [done|constructor|simpl; tauto|]. intros Q X. iIntros "Hs HK".
      iApply wp_ret. by iApply "HK".
    - exists v, (AVal v). split_and!; [done|constructor|simpl; tauto|]. intros Q X. iIntros "Hs HK".
      iApply wp_ret. by iApply "HK".
    - apply Nat.ltb_lt in Hx. destruct (lookup_lt_is_Some_2 l j Hx) as [v Hv].
      exists v, (ACopy (saddr segs (p + Z.of_nat j))). split_and!; [done|by constructor|simpl; tauto|].
      intros Q X. iIntros "Hs HK". wbind. iApply (wp_s_ref with "Hs"); [lia|]. iIntros "Hs". wbeta.
      iApply wp_ret. by iApply "HK".
    - apply Nat.ltb_lt in Hx. destruct (lookup_lt_is_Some_2 l j Hx) as [v Hv].
      exists v, (AMove (saddr segs (p + Z.of_nat j))). rewrite Hv. split_and!; [done|by constructor|done|].
      intros Q X. iIntros "Hs HK". wbind. iApply (wp_s_ref with "Hs"); [lia|]. iIntros "Hs". wbeta.
      iApply wp_ret. by iApply "HK".
  Qed.
  Lemma s_arg_const T segs p l x :
    x_ok (length l) x && negb (x_moves x) = true ->
    exists v a, arg_value l x = Some v /\ sconst segs p l a v /\
      forall Q X,
        sg_at T segs p l ⊢ (sg_at T segs p l -∗ Q a (sobj T segs p (zlen l))) -∗
        wp (s_arg x) (sobj T segs p (zlen l)) Q X.
  Proof.
    intros [Hx Hm]%andb_true_iff. apply negb_true_iff in Hm.
    destruct (s_arg_rel T segs p l x Hx) as (v & a & Hv & Ha & Hc & Hw). exists v, a.
    split; [done|]. split; [|done]. split; [|by apply Hc]. by rewrite -{2}(sarg_val _ _ _ _ _ _ Ha (Hc Hm)).
  Qed.

  (** ** Results *)
  Lemma wp_s_diff T segs p l k q Q X :
    0 <= k <= zlen l -> q = sitr (t_at T) segs (p + k) ->
    sg_at T segs p l ⊢ (sg_at T segs p l -∗ Q (RIdx k) (sobj T segs p (zlen l))) -∗
    wp (o <- getS;; k <- it_diff q (sg_first o);; ret (RIdx k))%prog (sobj T segs p (zlen l)) Q X.
  Proof.
    intros Hk ->. sopen. do 4 sstep. iApply wp_ret. replace (p + k - p) with k by lia.
    iApply "HK". iApply (sg_at_close with "Hf Hw"); lia.
  Qed.
  Lemma wp_s_is_ref T segs p l i q Q X :
    0 <= i <= zlen l -> q = saddr segs (p + i) ->
    sg_at T segs p l ⊢ (sg_at T segs p l -∗ Q (RIdx i) (sobj T segs p (zlen l))) -∗
    wp (s_is_ref q i) (sobj T segs p (zlen l)) Q X.
  Proof.
    intros Hi ->. sopen. unfold s_is_ref. do 2 sstep. wbind. iDestruct "Hw" as "[Ht Hw]".
    iApply (wp_it_index with "Ht"); [lia..|].
    iIntros "Ht". wbeta. iApply wp_ret. rewrite loc_eqb_refl. iApply "HK". iApply (sg_at_close with "Hf [$Ht $Hw]"); lia.
  Qed.

  Lemma back_idx T segs p l add m l2 r R k :
    back_op T segs p l add m l2 r R -> 0 <= k <= zlen l2 ->
    (forall T' segs', r T' segs' = sitr (t_at T') segs' (p + k)) ->
    back_op T segs p l add (s_idx m) l2 (fun _ _ => RIdx k) R.
  Proof.
    intros Hm Hk Hr Q X. iIntros "Hs HK". unfold s_idx. wbind. iApply (Hm with "Hs"). iSplit.
    - iIntros (T' new) "%H Hs". wbeta. iApply (wp_s_diff with "Hs"); [done|apply Hr|]. iIntros "Hs".
      iDestruct "HK" as "[HK _]". by iApply ("HK" with "[%] Hs").
    - iDestruct "HK" as "[_ HK]". done.
  Qed.
  Lemma back_ref T segs p l add m l2 r R :
    back_op T segs p l add m l2 r R -> 0 < zlen l2 ->
    (forall T' segs', r T' segs' = saddr segs' (p + (zlen l2 - 1))) ->
    back_op T segs p l add (s_ref_back m) l2 (fun _ _ => RIdx (zlen l2 - 1)) R.
  Proof.
    intros Hm Hk Hr Q X. iIntros "Hs HK". unfold s_ref_back. wbind. iApply (Hm with "Hs"). iSplit.
    - iIntros (T' new) "%H Hs". wbeta. wbind. iDestruct (sg_at_open with "Hs") as "(%Hb & Hf & Hw)".
      iApply (wp_sq_size with "Hw"); [lia..|]. iIntros "Hw". wbeta.
      iDestruct (sg_at_close with "Hf Hw") as "Hs"; [lia..|].
      iApply (wp_s_is_ref with "Hs"); [lia|apply Hr|]. iIntros "Hs".
      iDestruct "HK" as "[HK _]". by iApply ("HK" with "[%] Hs").
    - iDestruct "HK" as "[_ HK]". done.
  Qed.
  Lemma back_map {A B} T segs p l add (m : M sgdata A) l2 r R (f : A -> B) (r' : B) :
    back_op T segs p l add m l2 r R -> (forall T' segs', f (r T' segs') = r') ->
    back_op T segs p l add (x <- m;; ret (f x))%prog l2 (fun _ _ => r') R.
  Proof.
    intros Hm Hr Q X. iIntros "Hs HK". wbind. iApply (Hm with "Hs"). iSplit.
    - iIntros (T' new) "%H Hs". wbeta. iApply wp_ret. rewrite Hr.
      iDestruct "HK" as "[HK _]". by iApply ("HK" with "[%] Hs").
    - iDestruct "HK" as "[_ HK]". done.
  Qed.
  Lemma back_unit T segs p l add m l2 R :
    back_op T segs p l add m l2 (fun _ _ => tt) R -> back_op T segs p l add (s_unit m) l2 (fun _ _ => RUnit) R.
  Proof. intros Hm. by apply (back_map _ _ _ _ _ _ _ _ _ (fun _ => RUnit) RUnit Hm). Qed.
  Lemma loop_idx T segs p l n m l2 r R k :
    loop_op T segs p l n m l2 r R -> 0 <= k <= zlen l2 ->
    (forall T' segs', r T' segs' = sitr (t_at T') segs' (p + k)) ->
    loop_op T segs p l n (s_idx m) l2 (fun _ _ => RIdx k) R.
  Proof.
    intros Hm Hk Hr Q X. iIntros "Hs HK". unfold s_idx. wbind. iApply (Hm with "Hs"). iSplit.
    - iIntros (T' new) "%H Hs". wbeta. iApply (wp_s_diff with "Hs"); [done|apply Hr|]. iIntros "Hs".
      iDestruct "HK" as "[HK _]". by iApply ("HK" with "[%] Hs").
    - iDestruct "HK" as "[_ HK]". done.
  Qed.
  Lemma loop_unit T segs p l n m l2 R :
    loop_op T segs p l n m l2 (fun _ _ => tt) R -> loop_op T segs p l n (s_unit m) l2 (fun _ _ => RUnit) R.
  Proof.
    intros Hm Q X. iIntros "Hs HK". unfold s_unit. wbind. iApply (Hm with "Hs"). iSplit.
    - iIntros (T' new) "%H Hs". wbeta. iApply wp_ret. iDestruct "HK" as "[HK _]". by iApply ("HK" with "[%] Hs").
    - iDestruct "HK" as "[_ HK]". done.
  Qed.
  Lemma keep_0 {A} T segs p l (m : M sgdata A) l2 r R :
    keep_op T segs p l m p l2 r R -> back_op T segs p l 0 m l2 (fun _ _ => r) R.
  Proof. intros Hk. by eapply keep_back. Qed.

  (** ** What the guards see *)
  Lemma sg_at_zero T segs p l :
    sg_at T segs p l ⊢ ⟦Forall (fun q : loc => q.2 = 0) segs⟧ ∗ sg_at T segs p l.
  Proof.
    assert (forall a segs, blocks a segs ⊢ ⟦Forall (fun q : loc => q.2 = 0) segs⟧ ∗ blocks a segs) as Hb.
    { intros a segs'. induction segs' as [|q segs' IH]; [by iIntros "$"|]. unfold blocks in *. cbn [big_opL].
      iIntros "[Hq Hr]". iDestruct (IH with "Hr") as "[%Hr $]". unfold ablock.
      destruct (decide (SS = 0)) as [H0|_]; [pose proof SS_pos; lia|]. iDestruct "Hq" as "[%Hq Hq]".
      iFrame "Hq". iPureIntro. split; [|done]. constructor; [tauto|done]. }
    iIntros "[%H [Hf Hw]]". unfold SegGrow.frame. iDestruct "Hf" as "(%H1 & Ha & Hj1 & Hj2 & Hb)".
    iDestruct (Hb with "Hb") as "[%Hz Hb]". iFrame "Ha Hj1 Hj2 Hb Hw". done.
  Qed.
  Lemma s_dist_at t segs i j :
    Forall (fun q : loc => q.2 = 0) segs -> 0 <= i < slots segs -> 0 <= j < slots segs ->
    s_dist (sitr t segs i) (sitr t segs j) = i - j.
  Proof.
    intros Hz Hi Hj. pose proof SS_pos as Hss.
    assert (forall i, 0 <= i < slots segs -> (saddr segs i).2 = i mod SS) as Ha.
    { intros k Hk. unfold saddr, loc_add. simpl.
      assert (Z.to_nat (k / SS) < length segs)%nat as Hlt.
      { unfold slots in Hk. apply Nat2Z.inj_lt. rewrite Z2Nat.id; [|apply Z.div_pos; lia].
        apply Z.div_lt_upper_bound; lia. }
      destruct (lookup_lt_is_Some_2 _ _ Hlt) as [q Hq]. rewrite (list_lookup_total_correct _ _ _ Hq).
      rewrite (Forall_lookup_1 _ _ _ _ Hz Hq). lia. }
    unfold s_dist, sitr. cbn [it_seg it_loc]. rewrite !Ha; [|lia..]. unfold loc_add. cbn [snd].
    assert (SS <> 0) as H0 by lia. pose proof (Z.div_mod i SS H0). pose proof (Z.div_mod j SS H0). lia.
  Qed.
  Lemma s_osize_inv I x A h : sinv I x A h -> s_osize x = length (s_elems A) /\ sg_alloc x = s_alloc A.
  Proof.
    intros Hh.
    assert (sinv I x A ⊢ ⌜s_osize x = length (s_elems A) /\ sg_alloc x = s_alloc A⌝) as Hp.
    { iIntros "H". iDestruct (sinv_open with "H") as (T segs p l) "[%H Hs]". destruct H as (-> & -> & _).
      iDestruct (sg_at_zero with "Hs") as "[%Hz Hs]". iDestruct (sg_at_open with "Hs") as "(%Hb & _)".
      iPureIntro. split; [|done]. unfold s_osize, sobj. simpl. rewrite s_dist_at; [lia|done|lia|lia]. }
    destruct Hp as [Hp]. by apply (Hp h).
  Qed.
End common.

(** ** Members of segmented_vector *)
Section member.
  Context `{E : Env} `{SZ : SegSize} (ra : bool).
  Implicit Types segs new : list loc.
  Implicit Types T : tab.

  Definition vec_I (T : tab) (p : Z) : Prop := t_pre T = 0 /\ p = 0.
  Definition svpost (o : vop) (A : sabs) (r : rval) (A' : sabs) : Prop :=
    seq_post 0 o (s_elems A) r (s_elems A') /\ s_alloc A' = s_alloc A /\ sv_storage o A A' /\
    (o = OCapacity -> r = RNum (s_cap A)).
  Definition wp_goal (o : vop) T segs l (m : M sgdata rval) : Prop :=
    sg_at T segs 0 l ⊢
    wp m (sobj T segs 0 (zlen l))
      (fun r x' => ∃ A', ⟦svpost o (SAbs (t_al T) segs 0 l) r A'⟧ ∗ sinv vec_I x' A')%I
      (fun e x' => ∃ A', ⟦sv_exn o (SAbs (t_al T) segs 0 l) e A'⟧ ∗ sinv vec_I x' A')%I.
  Definition svop_ok (o : vop) : Prop := forall T segs l,
    t_pre T = 0 -> sv_pre o (length l) = true -> wp_goal o T segs l (run_svop ra o).

  Lemma back_goal o T segs l add m l2 r R :
    t_pre T = 0 -> back_op T segs 0 l add m l2 (fun _ _ => r) R ->
    (forall a new, sgrown segs add new -> svpost o (SAbs a segs 0 l) r (SAbs a (segs ++ new) 0 l2)) ->
    (forall a e new l', op_exn l segs add R e new l' -> sv_exn o (SAbs a segs 0 l) e (SAbs a (segs ++ new) 0 l')) ->
    wp_goal o T segs l m.
  Proof.
    intros Hpre Hm Hpost Hexn. unfold wp_goal. iIntros "Hs". iApply (Hm with "Hs"). iSplit.
    - iIntros (T' new) "%H Hs". destruct H as [[H1 H2] Hn]. iExists (SAbs (t_al T) (segs ++ new) 0 l2). iSplit.
      + iPureIntro. by apply Hpost.
      + rewrite -H1. iApply (sinv_intro with "Hs"); [done|]. split; [congruence|done].
    - iIntros (e T' new l') "%H Hs". destruct H as [[H1 H2] Hn]. iExists (SAbs (t_al T) (segs ++ new) 0 l'). iSplit.
      + iPureIntro. by apply Hexn.
      + rewrite -H1. iApply (sinv_intro with "Hs"); [done|]. split; [congruence|done].
  Qed.
  Lemma loop_goal o T segs l n m l2 r R :
    t_pre T = 0 -> loop_op T segs 0 l n m l2 (fun _ _ => r) R ->
    (forall a new, (n <= slots segs - 1 -> new = []) -> svpost o (SAbs a segs 0 l) r (SAbs a (segs ++ new) 0 l2)) ->
    (forall a e new l', loop_exn segs n e new -> R l' -> sv_exn o (SAbs a segs 0 l) e (SAbs a (segs ++ new) 0 l')) ->
    wp_goal o T segs l m.
  Proof.
    intros Hpre Hm Hpost Hexn. unfold wp_goal. iIntros "Hs". iApply (Hm with "Hs"). iSplit.
    - iIntros (T' new) "%H Hs". destruct H as [[H1 H2] Hn]. iExists (SAbs (t_al T) (segs ++ new) 0 l2). iSplit.
      + iPureIntro. by apply Hpost.
      + rewrite -H1. iApply (sinv_intro with "Hs"); [done|]. split; [congruence|done].
    - iIntros (e T' new l') "%H Hs". destruct H as ([H1 H2] & Hn & HR). iExists (SAbs (t_al T) (segs ++ new) 0 l'). iSplit.
      + iPureIntro. by apply Hexn.
      + rewrite -H1. iApply (sinv_intro with "Hs"); [done|]. split; [congruence|done].
  Qed.

  (** Functions that may have to make room. *)
  Definition svgrows (o : vop) : bool :=
    match o with
    | OEmplace _ _ | OEmplaceBack _ | OInsertN _ _ _ | OInsertRange _ _
    | OResize _ _ | OAssignN _ _ | OAssignRange _ | OReserve _ => true
    | _ => false
    end.
  Lemma grow_storage o a segs l l2 new add :
    svgrows o = true -> add = Z.of_nat (needed o l) - (slots segs - 1) -> sgrown segs add new ->
    sv_storage o (SAbs a segs 0 l) (SAbs a (segs ++ new) 0 l2).
  Proof.
    intros Hg -> Hn. unfold sv_storage, grows_back, s_cap. cbn [s_front s_segs s_elems].
    split; [done|]. destruct Hn as [Hn1 Hn2]. destruct o; try done; (split; [by exists new|exact Hn2]).
  Qed.
  Lemma grow_exn_spec o a segs l (R : list V -> Prop) e new l' add :
    svgrows o = true -> add = Z.of_nat (needed o l) - (slots segs - 1) ->
    op_exn l segs add R e new l' ->
    (R l' -> sv_exn_size o l l' /\ (sv_strong o (SAbs a segs 0 l) -> l' = l) /\
       match o with OResize n _ => (length l < n)%nat | OReserve _ => False | _ => True end) ->
    sv_exn o (SAbs a segs 0 l) e (SAbs a (segs ++ new) 0 l').
  Proof.
    intros Hg -> Hx HR. unfold sv_exn, s_cap. cbn [s_alloc s_front s_segs s_elems].
    change (SS * zlen segs) with (slots segs).
    destruct Hx as [(-> & -> & Hadd & He)|(-> & Hn & Hr)].
    - rewrite app_nil_r. split_and!; try done.
      + destruct o; simpl; try done; lia.
      + destruct o; try done; (split; [by exists []; rewrite app_nil_r|done]).
      + destruct He as [[-> He]| ->].
        * split; [by destruct o|]. split; [lia|done].
        * destruct o; try done; (split; [lia|done]).
    - destruct (HR Hr) as (H1 & H2 & H3). split_and!; try done.
      + assert (Z.of_nat (needed o l) <= slots segs - 1 -> new = []) as Hnew.
        { intros Hle. destruct Hn as [Hn|Hn]; [done|]. apply (grown_nil _ _ _ Hn). lia. }
        destruct o; try done; (split; [by exists new|intros Hle; rewrite Hnew //; by rewrite app_nil_r]).
      + destruct o; try done.
  Qed.
  (** Functions that keep the storage. *)
  Lemma keep_goal o T segs l m l2 r (R : list V -> Prop) :
    t_pre T = 0 -> keep_op T segs 0 l m 0 l2 r R ->
    (forall a, svpost o (SAbs a segs 0 l) r (SAbs a segs 0 l2)) ->
    (forall a l', R l' -> sv_exn o (SAbs a segs 0 l) EUser (SAbs a segs 0 l')) ->
    wp_goal o T segs l m.
  Proof.
    intros Hpre Hm Hpost Hexn. eapply (back_goal o _ _ _ 0); [done|by apply keep_0| |].
    - intros a new Hn. rewrite (grown_nil _ _ _ Hn); [|lia]. by rewrite app_nil_r.
    - intros a e new l' [(_ & _ & Hx & _)|(-> & Hn & Hr)]; [lia|].
      assert (new = []) as ->; [destruct Hn as [|Hn]; [done|apply (grown_nil _ _ _ Hn); lia]|]. rewrite app_nil_r. by apply Hexn.
  Qed.
  Lemma euser_same o a segs l l' :
    sv_exn_size o l l' -> (sv_strong o (SAbs a segs 0 l) -> l' = l) ->
    match o with
    | OErase _ | OEraseRange _ _ | OSet _ _ | OEraseIf _ => True
    | _ => False
    end -> sv_exn o (SAbs a segs 0 l) EUser (SAbs a segs 0 l').
  Proof.
    intros H1 H2 H3. unfold sv_exn. cbn [s_alloc s_front s_segs s_elems].
    split_and!; try done; destruct o; try done. all: split; [by exists []; rewrite app_nil_r|done].
  Qed.

  Ltac ptac := unfold svpost; cbn [s_alloc s_front s_segs s_elems]; split_and!; try done.

  Lemma ok_emplace i x : svop_ok (OEmplace i x).
  Proof.
    intros T segs l Hpre Hok. unfold sv_pre in Hok. simpl in Hok.
    apply andb_true_iff in Hok as [Hi Hx]. apply Nat.leb_le in Hi.
    destruct (s_arg_rel T segs 0 l x Hx) as (v & a & Hv & Ha & Hm & Harg).
    unfold wp_goal. iIntros "Hs". cbn [run_svop]. wbind. iApply (wp_s_pos with "Hs"); [done|]. iIntros "Hs". wbeta.
    wbind. iApply (Harg with "Hs"). iIntros "Hs". wbeta. iStopProof.
    pose proof (sarg_length _ _ _ _ _ _ Ha) as Hlen.
    eapply (back_goal (OEmplace i x)); [done| | |].
    - apply (back_idx _ _ _ _ _ _ _ _ _ (Z.of_nat i) (back_sv_emplace T segs l a v _ i _ Ha Hi eq_refl)); [len; lia|done].
    - intros al new Hn. ptac.
      + exists v. by split_and!.
      + eapply grow_storage; [done| |done]. simpl. lia.
    - intros al e new l' Hex. eapply grow_exn_spec; [done| |done|]; [simpl; lia|].
      intros Hr. destruct Hr as [[Hl Hr]|[Hlt Hr]].
      + split_and!; [simpl; lia| |done]. intros [Hmv _]. specialize (Hm Hmv). by destruct a.
      + split_and!; [simpl; lia| |done]. intros [_ Heq]. simpl in Heq. lia.
  Qed.
  Lemma ok_emplace_back x : svop_ok (OEmplaceBack x).
  Proof.
    intros T segs l Hpre Hok. unfold sv_pre in Hok. simpl in Hok.
    destruct (s_arg_rel T segs 0 l x Hok) as (v & a & Hv & Ha & Hm & Harg).
    unfold wp_goal. iIntros "Hs". cbn [run_svop].
    wbind. iApply (Harg with "Hs"). iIntros "Hs". wbeta. iStopProof.
    pose proof (sarg_length _ _ _ _ _ _ Ha) as Hlen.
    eapply (back_goal (OEmplaceBack x)); [done| | |].
    - apply (back_ref _ _ _ _ _ _ _ _ _ (back_emplace_back T segs 0 l a v _ Ha)); [len; lia|].
      intros T' segs'. f_equal. len. lia.
    - intros al new Hn. ptac.
      + exists v. split_and!; [done| |done]. f_equal. len. lia.
      + eapply grow_storage; [done| |done]. simpl. lia.
    - intros al e new l' Hex. eapply grow_exn_spec; [done| |done|]; [simpl; lia|].
      intros [Hl Hr]. split_and!; [simpl; lia| |done]. intros Hmv. specialize (Hm Hmv). by destruct a.
  Qed.
  Lemma ok_insert_n i n x : svop_ok (OInsertN i n x).
  Proof.
    intros T segs l Hpre Hok. unfold sv_pre in Hok. simpl in Hok.
    apply andb_true_iff in Hok as [Hok Hmv]. apply andb_true_iff in Hok as [Hi Hx]. apply Nat.leb_le in Hi.
    apply negb_true_iff in Hmv.
    destruct (s_arg_rel T segs 0 l x Hx) as (v & a & Hv & Ha & Hm & Harg).
    rewrite (SeqProofs.arg_rest_same l x Hmv) in Ha.
    unfold wp_goal. iIntros "Hs". cbn [run_svop]. wbind. iApply (wp_s_pos with "Hs"); [done|]. iIntros "Hs". wbeta.
    wbind. iApply (Harg with "Hs"). iIntros "Hs". wbeta. iStopProof.
    eapply (back_goal (OInsertN i n x)); [done| | |].
    - apply (back_idx _ _ _ _ _ _ _ _ _ (Z.of_nat i) (back_sv_insert_fill T segs 0 l i n a v _ Ha (Hm Hmv) Hi eq_refl)); [len; lia|done].
    - intros al new Hn. ptac.
      + exists v. by split_and!.
      + eapply grow_storage; [done| |done]. simpl. lia.
    - intros al e new l' Hex. eapply grow_exn_spec; [done| |done|]; [simpl; lia|].
      intros [Hl Hr]. split_and!; [simpl; lia|done|done].
  Qed.
  Lemma vals_all vs : SList ra (AVal <$> vs) = (fun a b => SList ra (AVal <$> slice a b vs)) 0 (zlen vs).
  Proof. cbv beta. by rewrite slice_all. Qed.
  Lemma ok_insert_range i vs : svop_ok (OInsertRange i vs).
  Proof.
    intros T segs l Hpre Hok. unfold sv_pre in Hok. simpl in Hok. apply Nat.leb_le in Hok.
    unfold wp_goal. iIntros "Hs". cbn [run_svop]. wbind. iApply (wp_s_pos with "Hs"); [done|]. iIntros "Hs". wbeta.
    iStopProof. rewrite vals_all.
    eapply (back_goal (OInsertRange i vs)); [done| | |].
    - eapply (back_idx _ _ _ _ _ _ _ _ _ (Z.of_nat i)); [eapply feed_back, (feed_sv_insert_range _ _ _ _ T segs 0 l i _ (feeds_vals ra vs) Hok eq_refl)|len; lia|done].
    - intros al new Hn. ptac. eapply grow_storage; [done| |done]. simpl. lia.
    - intros al e new l' Hex. eapply grow_exn_spec; [done| |done|]; [simpl; lia|].
      intros [Hl Hr]. split_and!; [simpl; lia|done|done].
  Qed.
  Lemma loop_spec o a segs l e new l' :
    is_input o = true -> loop_exn segs (Z.of_nat (needed o l)) e new -> sv_exn_size o l l' ->
    sv_exn o (SAbs a segs 0 l) e (SAbs a (segs ++ new) 0 l').
  Proof.
    intros Hi [H1 H2] Hl. unfold sv_exn, s_cap. cbn [s_alloc s_front s_segs s_elems].
    change (SS * zlen segs) with (slots segs).
    assert (Z.of_nat (needed o l) <= slots segs - 1 -> segs ++ new = segs) as Hnew.
    { intros Hle. destruct (H1 Hle) as [_ ->]. by rewrite app_nil_r. }
    destruct o; try done; (split_and!; [done..|by exists new|done|]); destruct e; try done.
  Qed.
  Lemma loop_storage o a segs l l2 new :
    is_input o = true -> (Z.of_nat (needed o l) <= slots segs - 1 -> new = []) ->
    sv_storage o (SAbs a segs 0 l) (SAbs a (segs ++ new) 0 l2).
  Proof.
    intros Hi Hn. unfold sv_storage, s_cap. cbn [s_alloc s_front s_segs s_elems].
    change (SS * zlen segs) with (slots segs).
    destruct o; try done; (split_and!; [done|by exists new|intros; rewrite Hn; [by rewrite app_nil_r|lia]]).
  Qed.
  Lemma ok_insert_input i vs : svop_ok (OInsertInput i vs).
  Proof.
    intros T segs l Hpre Hok. unfold sv_pre in Hok. simpl in Hok. apply Nat.leb_le in Hok.
    unfold wp_goal. iIntros "Hs". cbn [run_svop]. wbind. iApply (wp_s_pos with "Hs"); [done|]. iIntros "Hs". wbeta.
    iStopProof.
    assert (Z.of_nat (needed (OInsertInput i vs) l) = zlen l + zlen vs) as Hneed by (simpl; lia).
    eapply (loop_goal (OInsertInput i vs)); [done| | |].
    - eapply (loop_idx _ _ _ _ _ _ _ _ _ (Z.of_nat i)); [apply (loop_sv_insert_input T segs l vs i _ Hok); done|len; lia|done].
    - intros al new Hn. ptac. apply loop_storage; [done|]. by rewrite Hneed.
    - intros al e new l' Hex Hl. apply loop_spec; [done|by rewrite Hneed|]. simpl. revert Hl. simpl. rewrite -?Nat2Z.inj_add. lia.
  Qed.
  Lemma ok_assign_input vs : svop_ok (OAssignInput vs).
  Proof.
    intros T segs l Hpre _. cbn [run_svop].
    eapply (loop_goal (OAssignInput vs)); [done| | |].
    - eapply loop_unit, loop_assign_input.
    - intros al new Hn. ptac. apply loop_storage; [done|]. simpl. rewrite Z.add_0_l in Hn. done.
    - intros al e new l' Hex Hl. apply loop_spec; [done|done|]. simpl. revert Hl. simpl. lia.
  Qed.
  Lemma ok_pop_back : svop_ok OPopBack.
  Proof.
    intros T segs l Hpre Hok. unfold sv_pre in Hok. simpl in Hok. apply Nat.ltb_lt in Hok.
    destruct (exists_last (l := l)) as (l1 & v & ->); [by intros ->; simpl in Hok; lia|]. cbn [run_svop].
    eapply (back_goal OPopBack _ _ _ 0); [done|eapply back_unit, keep_0, keep_pop_back| |].
    - intros al new Hn. rewrite (grown_nil _ _ _ Hn); [|lia]. rewrite app_nil_r.
      ptac. split; [done|]. by exists v.
    - intros al e new l' [(_ & _ & Hx & _)|(_ & _ & [])]. lia.
  Qed.
  Lemma keep_unit T segs p l m p2 l2 R :
    keep_op T segs p l m p2 l2 tt R -> keep_op T segs p l (s_unit m) p2 l2 RUnit R.
  Proof.
    intros Hm Q X. iIntros "Hs HK". unfold s_unit. wbind. iApply (Hm with "Hs"). iSplit.
    - iIntros "Hs". wbeta. iApply wp_ret. iDestruct "HK" as "[HK _]". by iApply "HK".
    - iDestruct "HK" as "[_ HK]". done.
  Qed.
  Lemma keep_idx T segs p l m p2 l2 r R k :
    keep_op T segs p l m p2 l2 r R -> 0 <= k <= zlen l2 -> r = sitr (t_at T) segs (p2 + k) ->
    keep_op T segs p l (s_idx m) p2 l2 (RIdx k) R.
  Proof.
    intros Hm Hk Hr Q X. iIntros "Hs HK". unfold s_idx. wbind. iApply (Hm with "Hs"). iSplit.
    - iIntros "Hs". wbeta. iApply (wp_s_diff with "Hs"); [done|done|]. iIntros "Hs".
      iDestruct "HK" as "[HK _]". by iApply "HK".
    - iDestruct "HK" as "[_ HK]". done.
  Qed.
  Lemma ok_erase i : svop_ok (OErase i).
  Proof.
    intros T segs l Hpre Hok. unfold sv_pre in Hok. simpl in Hok. apply Nat.ltb_lt in Hok.
    unfold wp_goal. iIntros "Hs". cbn [run_svop]. wbind. iApply (wp_s_pos with "Hs"); [lia|]. iIntros "Hs". wbeta.
    iStopProof.
    eapply (keep_goal (OErase i)); [done| | |].
    - apply (keep_idx _ _ _ _ _ _ _ _ _ (Z.of_nat i) (keep_sv_erase T segs 0 l i _ Hok eq_refl)); [len; lia|done].
    - intros al. ptac.
    - intros al l' Hl. by apply euser_same.
  Qed.
  Lemma ok_erase_range i j : svop_ok (OEraseRange i j).
  Proof.
    intros T segs l Hpre Hok. unfold sv_pre in Hok. simpl in Hok.
    apply andb_true_iff in Hok as [H1 H2]. apply Nat.leb_le in H1, H2.
    unfold wp_goal. iIntros "Hs". cbn [run_svop]. wbind. iApply (wp_s_pos with "Hs"); [lia|]. iIntros "Hs". wbeta.
    wbind. iApply (wp_s_pos with "Hs"); [lia|]. iIntros "Hs". wbeta. iStopProof.
    eapply (keep_goal (OEraseRange i j)); [done| | |].
    - apply (keep_idx _ _ _ _ _ _ _ _ _ (Z.of_nat i) (keep_sv_erase_range T segs 0 l i j _ _ (conj H1 H2) eq_refl eq_refl)); [len; lia|done].
    - intros al. ptac.
    - intros al l' Hl. by apply euser_same.
  Qed.
  Lemma ok_resize n x : svop_ok (OResize n x).
  Proof.
    intros T segs l Hpre Hok. unfold sv_pre in Hok.
    destruct (s_arg_const T segs 0 l x Hok) as (v & a & Hv & Ha & Harg). cbn [run_svop].
    unfold wp_goal. iIntros "Hs". wbind. iApply (Harg with "Hs"). iIntros "Hs". wbeta. iStopProof.
    eapply (back_goal (OResize n x)); [done|eapply back_unit, (back_sv_resize T segs l n a v Ha)| |].
    - intros al new Hn. ptac.
      + exists v. by split_and!.
      + eapply grow_storage; [done| |done]. simpl. lia.
    - intros al e new l' Hex. eapply grow_exn_spec; [done| |done|]; [simpl; lia|].
      intros [-> Hr]. done.
  Qed.
  Lemma ok_assign_n n v : svop_ok (OAssignN n v).
  Proof.
    intros T segs l Hpre _. cbn [run_svop].
    eapply (back_goal (OAssignN n v)); [done|eapply back_unit, back_sv_assign_fill| |].
    - intros al new Hn. ptac. eapply grow_storage; [done| |done]. simpl. lia.
    - intros al e new l' Hex. eapply grow_exn_spec; [done| |done|]; [simpl; lia|]. done.
  Qed.
  Lemma ok_assign_range vs : svop_ok (OAssignRange vs).
  Proof.
    intros T segs l Hpre _. cbn [run_svop]. rewrite vals_all.
    eapply (back_goal (OAssignRange vs)); [done|eapply back_unit, feed_back, (feed_sv_assign_range _ _ _ _ T segs l (feeds_vals ra vs))| |].
    - intros al new Hn. ptac. eapply grow_storage; [done| |done]. simpl. lia.
    - intros al e new l' Hex. eapply grow_exn_spec; [done| |done|]; [simpl; lia|]. done.
  Qed.
  Lemma ok_clear : svop_ok OClear.
  Proof.
    intros T segs l Hpre _. cbn [run_svop].
    eapply (keep_goal OClear); [done|eapply keep_unit, keep_clear| |by intros]. intros al. ptac.
  Qed.
  Lemma ok_reserve n : svop_ok (OReserve n).
  Proof.
    intros T segs l Hpre _. cbn [run_svop].
    eapply (back_goal (OReserve n)); [done|eapply back_unit, back_sv_reserve| |].
    - intros al new Hn. ptac. eapply grow_storage; [done| |done]. simpl. lia.
    - intros al e new l' Hex. eapply grow_exn_spec; [done| |done|]; [simpl; lia|]. done.
  Qed.
  Lemma ok_shrink : svop_ok OShrink.
  Proof.
    intros T segs l Hpre _. cbn [run_svop]. unfold wp_goal, s_unit. iIntros "Hs". wbind.
    iApply (wp_sv_shrink with "Hs"); [done|]. iSplit.
    - iIntros (T') "%HT Hs". destruct HT as [H1 H2]. wbeta. iApply wp_ret. iExists (SAbs (t_al T) _ 0 l). iSplit.
      2:{ rewrite -H1. iApply (sinv_intro with "Hs"); [done|]. split; [congruence|done]. }
      iPureIntro. ptac.
    - iIntros "Hs". iExists (SAbs (t_al T) _ 0 l). iSplit; [|by iApply (sinv_intro with "Hs")].
      iPureIntro. unfold sv_exn. cbn [s_alloc s_front s_segs s_elems]. by split_and!.
  Qed.
  Lemma ok_at i : svop_ok (OAt i).
  Proof.
    intros T segs l Hpre _. cbn [run_svop]. unfold wp_goal. iIntros "Hs". wbind. iApply (wp_sv_at with "Hs").
    iIntros "Hs". destruct (l !! i) as [v|] eqn:Hv.
    - wbeta. iApply wp_ret. iExists (SAbs (t_al T) segs 0 l). iSplit; [|by iApply (sinv_intro with "Hs")].
      iPureIntro. ptac. by exists v.
    - iExists (SAbs (t_al T) segs 0 l). iSplit; [|by iApply (sinv_intro with "Hs")].
      iPureIntro. unfold sv_exn. cbn [s_alloc s_front s_segs s_elems].
      split_and!; try done; [by exists []; rewrite app_nil_r|]. exists i. split; [done|]. by apply lookup_ge_None.
  Qed.
  Lemma read_goal o T segs l (m : M sgdata loc) (i : nat) v :
    t_pre T = 0 -> l !! i = Some v ->
    (forall Q X, sg_at T segs 0 l ⊢ (sg_at T segs 0 l -∗ Q (saddr segs (Z.of_nat i)) (sobj T segs 0 (zlen l))) -∗
      wp m (sobj T segs 0 (zlen l)) Q X) ->
    (forall a, svpost o (SAbs a segs 0 l) (RVal v) (SAbs a segs 0 l)) ->
    wp_goal o T segs l (s_val m).
  Proof.
    intros Hpre Hv Hm Hpost. unfold wp_goal, s_val. iIntros "Hs". wbind. iApply (Hm with "Hs"). iIntros "Hs". wbeta.
    wbind. iApply (wp_sg_read _ _ _ _ i v with "Hs"); [done|done|]. iIntros "Hs". wbeta. iApply wp_ret.
    iExists (SAbs (t_al T) segs 0 l). iSplit; [iPureIntro; apply Hpost|by iApply (sinv_intro with "Hs")].
  Qed.
  Lemma ok_get i : svop_ok (OGet i).
  Proof.
    intros T segs l Hpre Hok. unfold sv_pre in Hok. simpl in Hok. apply Nat.ltb_lt in Hok.
    destruct (lookup_lt_is_Some_2 l i Hok) as [v Hv]. cbn [run_svop].
    apply (read_goal _ _ _ _ _ i v); [done|done| |].
    - intros Q X. apply wp_sv_index. lia.
    - intros a. ptac. by exists v.
  Qed.
  Lemma ok_front : svop_ok OFront.
  Proof.
    intros T segs l Hpre Hok. unfold sv_pre in Hok. simpl in Hok. apply Nat.ltb_lt in Hok.
    destruct l as [|v l]; [simpl in Hok; lia|]. cbn [run_svop].
    apply (read_goal _ _ _ _ _ 0 v); [done|done| |].
    - intros Q X. apply wp_sq_get_front. lia.
    - intros a. ptac. by exists v.
  Qed.
  Lemma ok_back : svop_ok OBack.
  Proof.
    intros T segs l Hpre Hok. unfold sv_pre in Hok. simpl in Hok. apply Nat.ltb_lt in Hok.
    destruct (lookup_lt_is_Some_2 l (pred (length l)) ltac:(lia)) as [v Hv]. cbn [run_svop].
    apply (read_goal _ _ _ _ _ (pred (length l)) v); [done|done| |].
    - intros Q X. iIntros "Hs HK". iApply (wp_sq_get_back with "Hs"); [lia|].
      by replace (0 + zlen l - 1) with (Z.of_nat (pred (length l))) by lia.
    - intros a. ptac. exists v. split_and!; [|done|done]. by rewrite last_lookup.
  Qed.
  Lemma ok_set i v : svop_ok (OSet i v).
  Proof.
    intros T segs l Hpre Hok. unfold sv_pre in Hok. simpl in Hok. apply Nat.ltb_lt in Hok.
    cbn [run_svop]. eapply (keep_goal (OSet i v)); [done| | |].
    - eapply keep_unit. intros Q X. iIntros "Hs HK". wbind. iApply (wp_s_ref with "Hs"); [lia|]. iIntros "Hs". wbeta.
      iApply (keep_set T segs 0 l i v _ Hok eq_refl with "Hs HK").
    - intros al. ptac.
    - intros al l' Hl. by apply euser_same.
  Qed.
  Lemma ok_size : svop_ok OSize.
  Proof.
    intros T segs l Hpre _. cbn [run_svop]. unfold wp_goal, s_num. iIntros "Hs".
    iDestruct (sg_at_open with "Hs") as "(%Hb & Hf & Hw)". wbind. iApply (wp_sq_size with "Hw"); [lia..|].
    iIntros "Hw". wbeta. iDestruct (sg_at_close with "Hf Hw") as "Hs"; [lia..|]. iApply wp_ret.
    iExists (SAbs (t_al T) segs 0 l). iSplit; [|by iApply (sinv_intro with "Hs")]. iPureIntro. ptac.
  Qed.
  Lemma ok_capacity : svop_ok OCapacity.
  Proof.
    intros T segs l Hpre _. cbn [run_svop]. unfold wp_goal, s_num. iIntros "Hs".
    iDestruct (sg_at_open with "Hs") as "(%Hb & Hf & Hw)". assert (0 < zlen segs) as Hpos by (apply slots_pos; lia).
    wbind. iApply (wp_sq_capacity with "Hw"); [lia..|].
    iIntros "Hw". wbeta. iDestruct (sg_at_close with "Hf Hw") as "Hs"; [lia..|]. iApply wp_ret.
    iExists (SAbs (t_al T) segs 0 l). iSplit; [|by iApply (sinv_intro with "Hs")]. iPureIntro. ptac.
    split; [by eexists|done].
  Qed.
  Lemma ok_erase_if p : svop_ok (OEraseIf p).
  Proof.
    intros T segs l Hpre _. cbn [run_svop]. eapply (keep_goal (OEraseIf p)); [done| | |].
    - intros Q X. iIntros "Hs HK". unfold s_num. wbind. iApply (keep_sv_erase_if with "Hs"). iSplit.
      + iIntros "Hs". wbeta. iApply wp_ret. iDestruct "HK" as "[HK _]". by iApply "HK".
      + iDestruct "HK" as "[_ HK]". done.
    - intros al. ptac. split; [done|]. f_equal.
      pose proof (SeqProofs.filter_split_length p l). pose proof (keep_length p l). lia.
    - intros al l' Hl. by apply euser_same.
  Qed.
  Lemma ok_self_move : svop_ok OSelfMove.
  Proof.
    intros T segs l Hpre _. cbn [run_svop]. unfold wp_goal, s_unit. iIntros "Hs". wbind.
    iApply (wp_sq_assign_move_self with "Hs"). iSplit.
    - iIntros (T' segs') "%HT Hs". destruct HT as (H1 & H2 & H3). wbeta. iApply wp_ret.
      iExists (SAbs (t_al T) segs' 0 []). iSplit.
      2:{ rewrite -H1. by iApply (sinv_intro with "Hs"). }
      iPureIntro. ptac; [split; [done|by left]|]. split; [done|]. cbn [s_segs].
      rewrite Z.div_0_l in H3; [lia|pose proof SS_pos; lia].
    - iIntros "Hs". iExists (SAbs (t_al T) segs 0 l). iSplit; [|by iApply (sinv_intro with "Hs")].
      iPureIntro. unfold sv_exn. cbn [s_alloc s_front s_segs s_elems]. split_and!; try done. by exists []; rewrite app_nil_r.
  Qed.

  Lemma svop_all o : svop_ok o.
  Proof.
    destruct o; auto using ok_emplace, ok_emplace_back, ok_insert_n, ok_insert_range, ok_insert_input, ok_pop_back,
      ok_erase, ok_erase_range, ok_resize, ok_assign_n, ok_assign_range, ok_assign_input, ok_clear, ok_reserve,
      ok_shrink, ok_at, ok_get, ok_front, ok_back, ok_set, ok_size, ok_capacity, ok_erase_if, ok_self_move.
  Qed.
End member.

(** ** Construction, functions of two objects *)
Section both.
  Context `{E : Env} `{SZ : SegSize} (ra : bool).
  Implicit Types segs new : list loc.
  Implicit Types T : tab.
  Context (I : tab -> Z -> Prop) (Hinv : forall T, t_pre T = 0 -> I T 0).

  Lemma init_k_exn (l : list V) e : init_exn (zlen l) e -> k_exn l e.
  Proof. by destruct e. Qed.

  Lemma seg_build_ok c :
    ⊢ wp (construct_obj (sg_fresh (k_alloc c)) (sq_ctor ra c)) tt
         (fun x _ => ∃ A, ⟦sv_k_post c A⟧ ∗ sinv I x A)%I
         (fun e _ => ⟦k_exn (k_elems c) e⟧)%I.
  Proof.
    iApply VectorOk.wp_construct_obj.
    assert (forall n T segs l, new_tab (k_alloc c) n T segs -> n = zlen (k_elems c) -> l = k_elems c ->
      match c with KInput _ _ => False | _ => True end ->
      sg_at T segs 0 l ⊢ ∃ A, ⟦sv_k_post c A⟧ ∗ sinv I (sobj T segs 0 (zlen l)) A) as Hfresh.
    { intros n T segs l (Ha & Hpre & Hz) -> -> Hc. iIntros "Hs". iExists (SAbs (t_al T) segs 0 (k_elems c)). iSplit.
      - iPureIntro. unfold sv_k_post, sv_fresh. cbn [s_alloc s_elems s_front s_segs]. split_and!; [done|done|].
        by destruct c.
      - iApply (sinv_intro with "Hs"); [done|by apply Hinv]. }
    destruct c as [a|a n x|a vs|a vs]; cbn [sq_ctor].
    - iApply wp_allocate_new; [done|]. iSplit.
      + iIntros (T segs) "%Hn Hs". by iApply (Hfresh 0 T segs []).
      + iIntros (e o') "%He". iPureIntro. by destruct e, He.
    - assert (Hx : exists v ar, sq_ctor ra (KFill a n x) = sq_init_fill (Z.of_nat n) ar /\
                   mk_ok emp emp ar v emp /\ k_elems (KFill a n x) = replicate n v).
      { destruct x as [v|]; eexists _, _; (split; [done|split; [|done]]); [apply mk_ok_val|apply mk_ok_def]. }
      destruct Hx as (v & ar & Hr & Hmk & Hk). cbn [sq_ctor] in Hr. rewrite Hr.
      iApply (wp_sq_init_fill _ _ _ _ _ _ Hmk). iSplit.
      + iIntros (T segs) "%Hn Hs". iApply (Hfresh (Z.of_nat n) T segs _ Hn with "Hs"); [rewrite Hk; len; lia|by rewrite Hk|done].
      + iIntros (e o') "%He". iPureIntro. rewrite Hk. apply init_k_exn. by rewrite replicate_length.
    - rewrite vals_all. iApply (wp_sq_init_range (fun _ => emp%I) emp%I vs _ _ _ _ (feeds_vals ra vs)); [done|]. iSplit.
      + iIntros (T segs C) "%Hn _ Hs". by iApply (Hfresh (zlen vs) T segs vs Hn with "Hs").
      + iIntros (e o') "%He _". iPureIntro. by apply init_k_exn.
    - iApply wp_sq_init_input. iSplit.
      + iIntros (T segs) "%Hn Hs". destruct Hn as [Ha Hpre]. iDestruct (sg_at_open with "Hs") as "(%Hb & Hf & Hw)".
        iDestruct (sg_at_close with "Hf Hw") as "Hs"; [lia..|].
        iExists (SAbs (t_al T) segs 0 vs). iSplit; [|iApply (sinv_intro with "Hs"); [done|by apply Hinv]].
        iPureIntro. unfold sv_k_post, s_cap. cbn [s_alloc s_elems s_front s_segs]. split_and!; try done.
        destruct Hb as [_ Hb]. unfold slots in Hb. lia.
      + iIntros (e o') "%He". iPureIntro. by apply init_k_exn.
  Qed.

  Ltac give H := iSplitL H; [iApply (sinv_intro with H); [done|auto]|].

  Lemma seg_build2_ok c x A :
    sinv I x A ⊢ wp (construct_from (sg_fresh 0) (sq_ctor2 c)) x
      (fun y x' => ∃ B A', ⟦sv_k2_post c A B A'⟧ ∗ sinv I y B ∗ sinv I x' A')%I
      (fun e x' => ∃ A', ⟦sv_k2_exn c A e A'⟧ ∗ sinv I x' A')%I.
  Proof.
    iIntros "Hx". iDestruct (sinv_open with "Hx") as (T segs p l) "[%Hx Hs]". destruct Hx as (-> & -> & HI).
    iApply VectorOk.wp_construct_from.
    assert (forall a X Q o, sg_alloc o = a ->
      sg_at T segs p l ⊢
      ((∀ T' segs', ⟦new_tab a (zlen l) T' segs'⟧ -∗ sg_at T' segs' 0 l -∗ sg_at T segs p l -∗
        Q tt (sobj T' segs' 0 (zlen l), sobj T segs p (zlen l))) ∧
       (∀ e o', ⟦init_exn (zlen l) e⟧ -∗ sg_at T segs p l -∗ X e (o', sobj T segs p (zlen l)))) -∗
      wp sq_initialize_copy (o, sobj T segs p (zlen l)) Q X) as Hcopy.
    { intros a X Q o <-. apply wp_sq_initialize_copy. }
    assert (forall a, a = t_al T ->
      sg_at T segs p l ⊢
      wp sq_initialize_move (sg_fresh a, sobj T segs p (zlen l))
        (fun _ oo => ∃ B A', ⟦B = SAbs (t_al T) segs p l /\ sv_empty B A'⟧ ∗ sinv I oo.1 B ∗ sinv I oo.2 A')%I
        (fun e oo => ⟦e = EBadAlloc⟧ ∗ sinv I oo.2 (SAbs (t_al T) segs p l))%I) as Hsame.
    { intros a ->. iIntros "Hs". iApply (wp_sq_initialize_move_same with "Hs"); [done|]. iSplit.
      - iIntros (T' segs') "%Hn Hs Hs'". destruct Hn as (Ha & Hpre & Hz).
        iExists (SAbs (t_al T) segs p l), (SAbs (t_al T') segs' 0 []). iSplit; [done|].
        iSplitL "Hs"; [by iApply (sinv_intro with "Hs")|]. iApply (sinv_intro with "Hs'"); auto.
      - iIntros (o') "Hs". iSplit; [done|]. by iApply (sinv_intro with "Hs"). }
    destruct c as [|a'| |a']; cbn [sq_ctor2].
    - unfold sq_copy_ctor. wbind. iApply wp_get. wbind. iApply wp_put. cbn [fst snd].
      iApply (Hcopy _ with "Hs"); [done|]. iSplit.
      + iIntros (T' segs') "%Hn Hs' Hs". destruct Hn as (Ha & Hpre & Hz).
        iExists (SAbs (t_al T') segs' 0 l), (SAbs (t_al T) segs p l). iSplit; [done|].
        iSplitL "Hs'"; [iApply (sinv_intro with "Hs'"); auto|by iApply (sinv_intro with "Hs")].
      + iIntros (e o') "%He Hs". iExists (SAbs (t_al T) segs p l). iSplit; [|by iApply (sinv_intro with "Hs")].
        iPureIntro. split; [by apply init_k_exn|done].
    - unfold sq_copy_ctor_alloc. wbind. iApply wp_get. wbind. iApply wp_put. cbn [fst snd].
      iApply (Hcopy _ with "Hs"); [done|]. iSplit.
      + iIntros (T' segs') "%Hn Hs' Hs". destruct Hn as (Ha & Hpre & Hz).
        iExists (SAbs (t_al T') segs' 0 l), (SAbs (t_al T) segs p l). iSplit; [done|].
        iSplitL "Hs'"; [iApply (sinv_intro with "Hs'"); auto|by iApply (sinv_intro with "Hs")].
      + iIntros (e o') "%He Hs". iExists (SAbs (t_al T) segs p l). iSplit; [|by iApply (sinv_intro with "Hs")].
        iPureIntro. split; [by apply init_k_exn|done].
    - unfold sq_move_ctor. wbind. iApply wp_get. wbind. iApply wp_put. cbn [fst snd].
      iApply (wp_wand with "[Hs]"); [iApply (Hsame with "Hs"); done|]. iSplit.
      + iIntros (r oo) "H". iDestruct "H" as (B A') "(%H & Hx & Hy)". destruct H as [-> H].
        iExists _, A'. iFrame "Hx Hy". done.
      + iIntros (e oo) "[-> Hx]". iExists _. iFrame "Hx". done.
    - unfold sq_move_ctor_alloc. wbind. iApply wp_get. wbind. iApply wp_put. cbn [fst snd].
      destruct (decide (a' = t_al T)) as [Ha|Ha].
      + iApply (wp_wand with "[Hs]"); [iApply (Hsame with "Hs"); done|]. iSplit.
        * iIntros (r oo) "H". iDestruct "H" as (B A') "(%H & Hx & Hy)". destruct H as [-> H].
          iExists _, A'. iFrame "Hx Hy". iPureIntro. unfold sv_k2_post. cbn [s_alloc s_elems]. split; [done|].
          by rewrite decide_True.
        * iIntros (e oo) "[-> Hx]". iExists _. iFrame "Hx". done.
      + iApply (wp_sq_initialize_move_other with "Hs"); [done|]. iSplit.
        * iIntros (T' segs') "%Hn Hs' Hs". destruct Hn as (Ha' & Hpre & Hz).
          iExists (SAbs (t_al T') segs' 0 l), (SAbs (t_al T) segs p (vmoved <$> l)).
          iSplit; [|iSplitL "Hs'"; [iApply (sinv_intro with "Hs'"); auto|by iApply (sinv_intro with "Hs")]].
          iPureIntro. unfold sv_k2_post. cbn [s_alloc s_elems]. split; [done|]. by rewrite decide_False.
        * iIntros (e o' l') "%He Hs". destruct He as (He & Hl & Hx). iExists (SAbs (t_al T) segs p l').
          iSplit; [|by iApply (sinv_intro with "Hs")]. iPureIntro. split; [by apply init_k_exn|].
          split_and!; try done. intros Hu. by rewrite Hx.
  Qed.

  Context (fr : bool) (ar : source -> M sgdata unit).
  Definition assigned_segs segs (p : Z) (l vs : list V) segs' (p' : Z) : Prop :=
    (fr = true -> p' = p) /\
    exists new, segs' = segs ++ new /\ zlen new = more_segs (zlen vs - (slots segs - 1)).
  Context (Har : assigner I assigned_segs ar).

  Lemma seg_run2_ok o x A y B :
    sv_pre2 o A B ->
    sinv I x A ∗ sinv I y B ⊢ wp (sq_run2 ar o) (x, y)
      (fun r xy => ∃ A' B', ⟦sv_post2 fr o A B r A' B'⟧ ∗ sinv I xy.1 A' ∗ sinv I xy.2 B')%I
      (fun e xy => ∃ A' B', ⟦sv_exn2 o A B e A' B'⟧ ∗ sinv I xy.1 A' ∗ sinv I xy.2 B')%I.
  Proof.
    iIntros (Hpre) "[Hx Hy]".
    iDestruct (sinv_open with "Hx") as (T1 segs1 p1 l1) "[%Hx Hx]". destruct Hx as (-> & -> & HI1).
    iDestruct (sinv_open with "Hy") as (T2 segs2 p2 l2) "[%Hy Hy]". destruct Hy as (-> & -> & HI2).
    assert (forall T segs p l T' segs' p' l' m m', I T p -> I T' p' -> m = zlen l -> m' = zlen l' ->
      sg_at T segs p l ⊢ sg_at T' segs' p' l' -∗
      sinv I (sobj T segs p m) (SAbs (t_al T) segs p l) ∗ sinv I (sobj T' segs' p' m') (SAbs (t_al T') segs' p' l')) as Hboth.
    { intros T segs p l T' segs' p' l' m m' HT HT' -> ->. iIntros "Hx Hy".
      iSplitL "Hx"; [by iApply (sinv_intro with "Hx")|by iApply (sinv_intro with "Hy")]. }
    destruct o as [| | |r|lt]; cbn [sq_run2]; unfold unit_result, bool_result.
    - wbind. iApply (wp_sq_assign_copy I assigned_segs ar Har Hinv with "Hx Hy"); [done|]. iSplit.
      + iIntros (T segs p) "%H Hx Hy". destruct H as (HT & Ha & Hpost). iApply wp_ret.
        iExists (SAbs (t_al T) segs p l2), (SAbs (t_al T2) segs2 p2 l2).
        iSplit; [|by iApply (Hboth with "Hx Hy")]. iPureIntro. by split_and!.
      + iIntros (e T segs p l) "%H Hx Hy". destruct H as (HT & He & Hc).
        iExists (SAbs (t_al T) segs p l), (SAbs (t_al T2) segs2 p2 l2).
        iSplit; [|by iApply (Hboth with "Hx Hy")]. iPureIntro. split_and!; [by apply init_k_exn|done|].
        destruct Hc as [(-> & -> & -> & -> & ->)|Hc]; [by left|by right].
    - wbind. destruct (decide (t_al T1 = t_al T2)) as [Ha|Ha].
      + iApply (wp_sq_assign_move_same with "Hx Hy"); [done|]. iSplit.
        * iIntros (T segs) "%Hn Hx Hy". destruct Hn as (Hal & Hpre' & Hz). iApply wp_ret.
          iExists (SAbs (t_al T2) segs2 p2 l2), (SAbs (t_al T) segs 0 []).
          iSplit; [|iApply (Hboth with "Hx Hy"); auto]. iPureIntro. split; [done|]. cbn [s_alloc].
          rewrite decide_True; [|done]. split; [|done]. unfold sv_move_alloc. cbn [s_alloc]. by destruct pocma.
        * iIntros "Hx Hy". iExists (SAbs (t_al T1) segs1 p1 l1), (SAbs (t_al T2) segs2 p2 l2).
          iSplit; [|by iApply (Hboth with "Hx Hy")]. iPureIntro. split_and!; try done. by left.
      + iApply (wp_sq_assign_move_other I assigned_segs ar Har Hinv with "Hx Hy"); [done|done|]. iSplit.
        * iIntros (T segs p) "%H Hx Hy". destruct H as (HT & Hal & Hpost). iApply wp_ret.
          iExists (SAbs (t_al T) segs p l2), (SAbs (t_al T2) segs2 p2 (vmoved <$> l2)).
          iSplit; [|by iApply (Hboth with "Hx Hy")]. iPureIntro. split; [done|]. cbn [s_alloc].
          rewrite decide_False; [|done]. by split_and!.
        * iIntros (e T segs p l l') "%H Hx Hy". destruct H as (HT & He & Hl & Hc).
          iExists (SAbs (t_al T) segs p l), (SAbs (t_al T2) segs2 p2 l').
          iSplit; [|by iApply (Hboth with "Hx Hy")]. iPureIntro. split_and!; try done.
          destruct Hc as [(-> & -> & -> & -> & ->)|Hc]; [by left|by right].
    - wbind. iApply wp_sq_swap; [done|]. iApply wp_ret.
      iExists (SAbs (t_al T2) segs2 p2 l2), (SAbs (t_al T1) segs1 p1 l1).
      iSplit; [done|]. by iApply (Hboth with "Hy Hx").
    - wbind. iApply (wp_sq_eq with "Hx Hy"). iSplit.
      + iIntros (b) "%Hb Hx Hy". iApply wp_ret. iExists (SAbs _ _ _ _), (SAbs _ _ _ _).
        iSplit; [|by iApply (Hboth with "Hx Hy")]. iPureIntro. split_and!; try done. by eexists.
      + iIntros "Hx Hy". iExists (SAbs _ _ _ _), (SAbs _ _ _ _). iSplit; [|by iApply (Hboth with "Hx Hy")]. done.
    - wbind. iApply (wp_sq_lt with "Hx Hy"). iSplit.
      + iIntros (b) "%Hb Hx Hy". iApply wp_ret. iExists (SAbs _ _ _ _), (SAbs _ _ _ _).
        iSplit; [|by iApply (Hboth with "Hx Hy")]. iPureIntro. split_and!; try done. by eexists.
      + iIntros "Hx Hy". iExists (SAbs _ _ _ _), (SAbs _ _ _ _). iSplit; [|by iApply (Hboth with "Hx Hy")]. done.
  Qed.
  Lemma seg_kill_ok x A : sinv I x A ⊢ wp sq_destructor x (fun _ _ => emp%I) (fun _ _ => False%I).
  Proof.
    iIntros "Hx". iDestruct (sinv_open with "Hx") as (T segs p l) "[%Hx Hs]". destruct Hx as (-> & -> & HI).
    iApply (wp_sq_destructor with "Hs"). by iIntros (s).
  Qed.
End both.

Section vec.
  Context `{E : Env} `{SZ : SegSize} (ra : bool).

  Lemma vec_assigner : assigner vec_I (assigned_segs true) sv_assign_range.
  Proof.
    intros W WX vs sub T segs p l Q X Hfd HI. iIntros "Hs HW HK".
    iApply (sv_assigner _ _ _ _ _ _ _ _ _ _ Hfd HI with "Hs HW"). iSplit.
    - iIntros (T' segs' p' C) "%H HW Hs". iDestruct "HK" as "[HK _]". iApply ("HK" with "[%] HW Hs").
      destruct H as (H1 & H2 & H3 & H4). split_and!; try done. split; [|done]. intros _. destruct HI, H1. congruence.
    - iDestruct "HK" as "[_ HK]". done.
  Qed.

  Program Definition segvec_ok : container_ok (segvec_spec ra) :=
    {| inv := sinv vec_I : obj (segvec ra) -> abs (segvec_spec ra) -> hProp |}.
  Next Obligation. done. Qed.
  Next Obligation. done. Qed.
  Next Obligation. intros o x A h Hi. simpl. by destruct (s_osize_inv _ _ _ _ Hi) as [-> _]. Qed.
  Next Obligation.
    intros o x A y B h h' Hx Hy. destruct (s_osize_inv _ _ _ _ Hx) as [_ Ha].
    destruct (s_osize_inv _ _ _ _ Hy) as [_ Hb]. simpl. rewrite Ha Hb.
    destruct o; simpl; try done. by rewrite Nat.eqb_eq.
  Qed.
  Next Obligation. intros c _. by apply seg_build_ok. Qed.
  Next Obligation. intros c x A _. by apply seg_build2_ok. Qed.
  Next Obligation.
    intros o x A Hpre. iIntros "Hx". iDestruct (sinv_open with "Hx") as (T segs p l) "[%Hx Hs]".
    destruct Hx as (-> & -> & HI & ->).
    iApply (wp_wand with "[Hs]"); [iApply (svop_all ra o T segs l with "Hs"); [done|exact Hpre]|].
    iSplit; iIntros (r x') "Hx"; iExact "Hx".
  Qed.
  Next Obligation. intros o x A y B Hpre. apply seg_run2_ok; [done|apply vec_assigner|done]. Qed.
  Next Obligation. intros x A. apply seg_kill_ok. Qed.
End vec.
