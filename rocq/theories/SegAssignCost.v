(** * Cost of [assign] in the segmented containers *)

From iris.proofmode Require Import tactics.
From Verif Require Export AssignMore SegCtorCost.
From Coq Require Import Lia ZifyBool.
Open Scope Z_scope.

Section assign.
  Context `{E : Env} `{SZ : SegSize}.
  (** Growing at the back leaves the elements where they are. *)
  Lemma grow_back_front dev x A w hf add x' w' : 0 <= add ->
    holds (is_seg dev) x A w hf -> sq_grow_back add x w = Ok tt x' w' ->
    (exists A', holds (is_seg dev) x' A' w' hf /\ s_elems A' = s_elems A /\ s_front A' = s_front A) /\
    Z.of_nat (tick w) <= Z.of_nat (tick w') <= Z.of_nat (tick w) + (add / SS + 2).
  Proof.
    intros Hadd Hx Hr. split.
    2:{ pose proof (bounded_grow_back add Hadd x w) as Hb. rewrite Hr in Hb.
        pose proof (Z.div_pos add SS Hadd SS_pos). lia. }
    destruct Hx as (Hwf & m & Hm & Hd & Hh). apply is_seg_iff in Hm. destruct A as [a segs f l].
    apply ex_holds in Hm as (T & HT). apply pure_sep_holds in HT as [(-> & Ha & HI) Hs].
    cbn [s_alloc s_segs s_front s_elems] in *. subst a.
    assert (sg_at T segs f l ⊢ wp (sq_grow_back add) (sobj T segs f (zlen l))
      (fun _ x' => ∃ A', ⟦s_elems A' = l /\ s_front A' = f⟧ ∗ sinv (seg_I dev) x' A') (fun _ _ => True))%I as Hwp.
    { iIntros "Hs". iApply (wp_grow_back with "Hs"); [done|]. iSplit; [|iIntros (e T') "_ _"; done].
      iIntros (T' new) "%H Hs". destruct H as (H1 & H2 & _). iExists (SAbs (t_al T') (segs ++ new) f l). iSplit; [done|].
      iApply sinv_intro; [done| |done]. unfold seg_I in *. by rewrite H2. }
    pose proof (wp_run _ _ _ _ m hf w (wp_entails _ _ _ _ _ m Hwp Hs) Hwf Hd Hh) as Hrun. rewrite Hr in Hrun.
    destruct Hrun as (h' & Hh' & Hd' & Haf & HQ). apply ex_holds in HQ as (A' & HQ). apply pure_sep_holds in HQ as [HA HQ].
    apply is_seg_iff in HQ. exists A'. split; [|done]. split; [apply Haf|]. by exists h'.
  Qed.
  Lemma spend_back_front {B} dev x w A hf add (k : unit -> M sgdata B) lo hi :
    0 <= add -> holds (is_seg dev) x A w hf ->
    (forall x' w' A', holds (is_seg dev) x' A' w' hf -> s_elems A' = s_elems A -> s_front A' = s_front A -> spend x' w' (k tt) lo hi) ->
    spend x w (bind (sq_grow_back add) k) lo (hi + allocs add).
  Proof.
    intros Hadd Hx Hk r s' w' Hr. apply run_bind in Hr as ([] & s1 & w1 & H1 & Hr).
    destruct (grow_back_front dev _ _ _ _ _ _ _ Hadd Hx H1) as ((A' & Hx' & HA & HF) & Ht). specialize (Hk _ _ _ Hx' HA HF _ _ _ Hr).
    unfold allocs. lia.
  Qed.
  Lemma extra_room room k : k <= room -> extra room k = 0.
  Proof. unfold extra. destruct (_ <=? _) eqn:?; lia. Qed.
  Lemma extra_more room k : room < k -> extra room k = allocs k.
  Proof. unfold extra. destruct (_ <=? _) eqn:?; lia. Qed.

  Lemma tri_cut_at D (x : sgdata) y : tri D x (sq_cut_back y) any 0.
  Proof.
    unfold sq_cut_back. eapply tri_look_in; [apply look_get|]. intros o ->. eapply tri_bind0; [apply tri_destroy|]. intros ? ? _. apply tri_set_last.
  Qed.

  Lemma look_cap D tb lo hi x f n : dims D tb lo hi x f n -> look_in D x sq_capacity (fun z => z = (hi - lo) * SS - 1).
  Proof.
    intros Hx. unfold sq_capacity. eapply look_bind; [apply look_get|]. intros o ->. intros w r x' w' Hw Hr.
    destruct (looks_diff D tb _ _ _ _ (dm_eos _ _ _ _ _ _ _ Hx) (dm_bos _ _ _ _ _ _ _ Hx) _ _ _ _ _ Hw Hr) as (-> & -> & ->).
    split_and!; try done. lia.
  Qed.
  Lemma tri_append_n D (x : sgdata) n a : 0 <= n -> tri D x (sq_append_n n a) any n.
  Proof.
    intros Hn. unfold sq_append_n. eapply tri_look_in; [apply look_get|]. intros o ->. eapply tri_weak; [|done|].
    - eapply tri_bind; [apply tri_ufill_n|]. intros ? ? _. apply tri_set_last.
    - lia.
  Qed.
  (** A copy of the first [m] elements over the old ones, the others behind them. *)
  Lemma tri_two D (x : sgdata) ra l m d d2 : tri D x
    (xs <- src_cut (SList ra l) m;; src_copy xs.1 d;; nl <- src_ucopy xs.2 d2;; sq_set_last nl)%prog any (Z.of_nat (length l)).
  Proof.
    eapply (tri_look D); [apply looks_cut|]. intros xs ->. cbn [fst snd]. eapply tri_weak; [|done|].
    - eapply tri_bind; [apply tri_src_copy|]. intros ? ? _. eapply tri_bind; [apply tri_src_ucopy|]. intros ? ? _. apply tri_set_last.
    - rewrite take_length drop_length. lia.
  Qed.

  Lemma spend_sv_fill x w A hf n a : 0 <= n -> holds (is_seg false) x A w hf ->
    spend x w (sv_assign_fill n a) n (n + extra (s_cap A) n).
  Proof.
    intros Hn Hx. destruct (seg_dims _ _ _ _ _ Hx) as (tb & lo & hi & Hd & Hc & _).
    pose proof (dm_f _ _ _ _ _ _ _ Hd). pose proof (dm_n _ _ _ _ _ _ _ Hd). pose proof (dm_fits _ _ _ _ _ _ _ Hd).
    unfold sv_assign_fill. eapply spend_look; [by eapply look_size|]. intros ? ->. apply spend_get. destruct (Z.leb_spec n (s_size A)).
    - eapply spend_look; [by eapply look_first|]. intros nl Hnl. cbv beta in Hnl. rewrite extra_room; [|lia]. rewrite Z.add_0_r.
      eapply spend_tri, tri_weak; [|done|].
      + eapply tri_bind; [eapply tri_fill; [apply Hd|exact Hnl]|]. intros ? ? _. apply tri_cut_at.
      + lia.
    - eapply spend_look; [by eapply look_cap|]. intros ? ->. replace ((hi - lo) * SS - 1) with (s_cap A) by lia.
      eapply (spend_maybe_back false); [lia|lia|exact Hx|].
      intros x2 w2 A2 Hx2 HA2. destruct (seg_dims _ _ _ _ _ Hx2) as (tb2 & lo2 & hi2 & Hd2 & _).
      apply spend_get. eapply spend_look; [by eapply look_first|]. intros e He; cbv beta in He.
      eapply spend_tri, tri_weak; [|done|].
      + eapply tri_bind; [eapply tri_fill; [apply Hd2|exact He]|]. intros ? ? _. apply tri_append_n. lia.
      + lia.
  Qed.
  Lemma spend_sv_range x w A hf ra l : holds (is_seg false) x A w hf ->
    let n := Z.of_nat (length l) in spend x w (sv_assign_range (SList ra l)) n (n + extra (s_cap A) n).
  Proof.
    intros Hx n. destruct (seg_dims _ _ _ _ _ Hx) as (tb & lo & hi & Hd & Hc & _).
    pose proof (dm_f _ _ _ _ _ _ _ Hd). pose proof (dm_n _ _ _ _ _ _ _ Hd). pose proof (dm_fits _ _ _ _ _ _ _ Hd).
    unfold sv_assign_range. eapply (spend_look _ _ _ _ (fun z => z = n)); [by apply look_looks, looks_ret|]. intros ? ->.
    eapply spend_look; [by eapply look_size|]. intros ? ->. apply spend_get. destruct (Z.leb_spec n (s_size A)).
    - rewrite extra_room; [|lia]. rewrite Z.add_0_r. eapply spend_tri, tri_weak; [|done|].
      + eapply tri_bind; [apply tri_src_copy|]. intros ? ? _. apply tri_cut_at.
      + lia.
    - eapply spend_look; [by eapply look_cap|]. intros ? ->. replace ((hi - lo) * SS - 1) with (s_cap A) by lia.
      eapply (spend_maybe_back false); [lia|lia|exact Hx|].
      intros x2 w2 A2 Hx2 HA2. apply spend_get. eapply spend_tri, tri_two.
  Qed.
  Lemma spend_sd_fill x w A hf n a : 0 <= n -> holds (is_seg true) x A w hf ->
    spend x w (sd_assign_fill n a) n (n + extra (s_cap A) n).
  Proof.
    intros Hn Hx. destruct (seg_dims _ _ _ _ _ Hx) as (tb & lo & hi & Hd & Hc & _).
    pose proof (dm_f _ _ _ _ _ _ _ Hd). pose proof (dm_n _ _ _ _ _ _ _ Hd). pose proof (dm_fits _ _ _ _ _ _ _ Hd).
    unfold sd_assign_fill. eapply spend_look; [by eapply look_size|]. intros ? ->. apply spend_get. destruct (Z.leb_spec n (s_size A)).
    { eapply spend_look; [by eapply look_first|]. intros nl Hnl. cbv beta in Hnl. rewrite extra_room; [|lia]. rewrite Z.add_0_r.
      eapply spend_tri, tri_weak; [|done|].
      - eapply tri_bind; [eapply tri_fill; [apply Hd|exact Hnl]|]. intros ? ? _. apply tri_cut_at.
      - lia. }
    eapply spend_look; [by eapply look_back_room|]. intros ab ->. replace ((hi - lo) * SS - 1 - s_front A - s_size A) with (back_of A) by (unfold back_of; lia).
    assert (s_cap A = s_front A + s_size A + back_of A) as Hsum by (unfold back_of; lia).
    destruct (Z.leb_spec n (s_size A + back_of A)).
    { rewrite extra_room; [|lia]. rewrite Z.add_0_r. eapply spend_tri, tri_weak; [|done|].
      - eapply tri_bind; [eapply tri_fill; apply Hd|]. intros ? ? _. apply tri_append_n. lia.
      - lia. }
    eapply spend_look; [by eapply look_front_room|]. intros ? ->. destruct (Z.leb_spec n (s_front A + s_size A + back_of A)).
    { rewrite extra_room; [|lia]. rewrite Z.add_0_r. eapply spend_tri, tri_weak; [|done|].
      - eapply tri_bind; [eapply tri_fill; apply Hd|]. intros ? ? _. eapply tri_bind; [eapply tri_ufill; apply Hd|]. intros ? ? _.
        eapply tri_bind0; [apply tri_set_last|]. intros ? ? _. eapply tri_look; [eapply looks_minus, Hd|]. intros nf Hnf; cbv beta in Hnf.
        eapply tri_bind; [eapply tri_ufill; [exact Hnf|apply Hd]|]. intros ? ? _. apply tri_set_first.
      - lia. }
    rewrite extra_more; [|lia]. eapply spend_mono; [|apply Z.le_refl|].
    - eapply (spend_back_front true _ _ _ _ _ _ n n); [|exact Hx|]; [lia|].
      intros x2 w2 A2 Hx2 HA2 HF2. destruct (seg_dims _ _ _ _ _ Hx2) as (tb2 & lo2 & hi2 & Hd2 & _).
      assert (s_size A2 = s_size A) as Hs by (unfold s_size; by rewrite HA2). rewrite Hs HF2 in Hd2. apply spend_get.
      eapply spend_tri, tri_weak; [|done|].
      + eapply tri_bind; [eapply tri_fill; apply Hd2|]. intros ? ? _. eapply tri_bind; [apply tri_append_n; lia|]. intros ? ? _.
        eapply tri_bind; [eapply tri_ufill; apply Hd2|]. intros ? ? _. apply tri_set_first.
      + lia.
    - pose proof (allocs_mono (n - (s_front A + s_size A + back_of A)) n). lia.
  Qed.
  Lemma spend_sd_range x w A hf ra l : holds (is_seg true) x A w hf ->
    let n := Z.of_nat (length l) in spend x w (sd_assign_range (SList ra l)) n (n + extra (s_cap A) n).
  Proof.
    intros Hx n. destruct (seg_dims _ _ _ _ _ Hx) as (tb & lo & hi & Hd & Hc & _).
    pose proof (dm_f _ _ _ _ _ _ _ Hd). pose proof (dm_n _ _ _ _ _ _ _ Hd). pose proof (dm_fits _ _ _ _ _ _ _ Hd).
    unfold sd_assign_range. eapply (spend_look _ _ _ _ (fun z => z = n)); [by apply look_looks, looks_ret|]. intros ? ->.
    eapply spend_look; [by eapply look_size|]. intros ? ->. apply spend_get. destruct (Z.leb_spec n (s_size A)).
    { rewrite extra_room; [|lia]. rewrite Z.add_0_r. eapply spend_tri, tri_weak; [|done|].
      - eapply tri_bind; [apply tri_src_copy|]. intros ? ? _. apply tri_cut_at.
      - lia. }
    eapply spend_look; [by eapply look_back_room|]. intros ab ->. replace ((hi - lo) * SS - 1 - s_front A - s_size A) with (back_of A) by (unfold back_of; lia).
    assert (s_cap A = s_front A + s_size A + back_of A) as Hsum by (unfold back_of; lia).
    destruct (Z.leb_spec n (s_size A + back_of A)).
    { rewrite extra_room; [|lia]. rewrite Z.add_0_r. eapply spend_tri, tri_two. }
    eapply spend_look; [by eapply look_front_room|]. intros ? ->. destruct (Z.leb_spec n (s_front A + s_size A + back_of A)).
    { rewrite extra_room; [|lia]. rewrite Z.add_0_r. eapply spend_tri.
      eapply tri_look; [apply looks_cut|]. intros ? ->. cbn [fst snd]. eapply tri_look; [apply looks_cut|]. intros ? ->. cbn [fst snd].
      eapply tri_weak; [|done|].
      - eapply tri_bind; [apply tri_src_copy|]. intros ? ? _. eapply tri_bind; [apply tri_src_ucopy|]. intros ? ? _.
        eapply tri_bind0; [apply tri_set_last|]. intros ? ? _. eapply tri_look; [eapply looks_minus, Hd|]. intros nf Hnf; cbv beta in Hnf.
        eapply tri_bind; [apply tri_src_ucopy|]. intros ? ? _. apply tri_set_first.
      - rewrite !take_length !drop_length. lia. }
    rewrite extra_more; [|lia]. eapply spend_mono; [|apply Z.le_refl|].
    - eapply (spend_back_front true _ _ _ _ _ _ n n); [|exact Hx|]; [lia|].
      intros x2 w2 A2 Hx2 HA2 HF2. apply spend_get. eapply spend_tri.
      eapply tri_look; [apply looks_cut|]. intros ? ->. cbn [fst snd]. eapply tri_look; [apply looks_cut|]. intros ? ->. cbn [fst snd].
      eapply tri_weak; [|done|].
      + eapply tri_bind; [apply tri_src_copy|]. intros ? ? _. eapply tri_bind; [apply tri_src_ucopy|]. intros ? ? _.
        eapply tri_bind0; [apply tri_set_last|]. intros ? ? _.
        eapply tri_bind; [apply tri_src_ucopy|]. intros ? ? _. apply tri_set_first.
      + rewrite !take_length !drop_length. lia.
    - pose proof (allocs_mono (n - (s_front A + s_size A + back_of A)) n). lia.
  Qed.

  (** Input iterators: one assignment per old element, then one [emplace_back] per element. *)
  Lemma assign_loop_cost l c e s w r s' w' : sq_assign_input_loop c e l s w = Ok r s' w' ->
    exists k, (k <= length l)%nat /\ r.2 = drop k l /\ (tick w' = tick w + k)%nat.
  Proof.
    revert c s w. induction l as [|a l IH]; intros c s w Hr; cbn [sq_assign_input_loop] in Hr.
    - injection Hr as <- _ <-. exists 0%nat. simpl. split_and!; [lia|done|lia].
    - destruct (it_eqb c e).
      + injection Hr as <- _ <-. exists 0%nat. simpl. split_and!; [lia|done|lia].
      + apply run_bind in Hr as (? & s1 & w1 & H1 & Hr). apply run_bind in Hr as (c' & s2 & w2 & H2 & Hr).
        apply (takes_assign _ _) in H1. pose proof (bounded_it_succ c s1 w1) as Hb. rewrite H2 in Hb.
        apply IH in Hr as (k & Hk & Hr2 & Ht). exists (S k). simpl. split_and!; [lia|done|lia].
  Qed.
  Lemma bounded_it_ltb {St} p q : bounded (it_ltb p q : M St bool) 0.
  Proof. unfold it_ltb. destruct (loc_eqb _ _); free. Qed.
  Lemma append_loop_least l s w u s' w' : sq_append_loop l s w = Ok u s' w' -> (tick w + length l <= tick w')%nat.
  Proof.
    revert s w. induction l as [|a l IH]; intros s w Hr; cbn [sq_append_loop] in Hr.
    - injection Hr as _ _ <-. simpl. lia.
    - apply run_bind in Hr as (p & s1 & w1 & H1 & Hr). apply IH in Hr. simpl.
      enough (tick w + 1 <= tick w1)%nat by lia. clear Hr IH.
      apply run_bind in H1 as (o & s2 & w2 & H2 & H1). injection H2 as <- <- <-.
      apply run_bind in H1 as (? & s2 & w2 & H2 & H1). assert (tick w <= tick w2)%nat as Hg.
      { destruct (it_eqb _ _); [|by injection H2 as _ _ <-]. pose proof (bounded_grow_back 1 ltac:(lia) s w) as Hb. rewrite H2 in Hb. lia. }
      apply run_bind in H1 as (o & s3 & w3 & H3 & H1). injection H3 as <- <- <-.
      apply run_bind in H1 as (? & s3 & w3 & H3 & H1). apply (takes_construct _ _) in H3.
      apply run_bind in H1 as (y & s4 & w4 & H4 & H1). pose proof (bounded_it_succ (sg_last s2) s3 w3) as Hb. rewrite H4 in Hb.
      apply run_bind in H1 as (? & s5 & w5 & H5 & H1). injection H5 as _ _ <-. injection H1 as _ _ <-. lia.
  Qed.
  Lemma assign_input_cost l s w u s' w' : sq_assign_input l s w = Ok u s' w' ->
    (tick w + length l <= tick w' <= tick w + 4 * length l)%nat.
  Proof.
    intros Hr. apply run_bind in Hr as (o & s1 & w1 & H1 & Hr). injection H1 as <- <- <-.
    apply run_bind in Hr as (cr & s1 & w1 & H1 & Hr). apply assign_loop_cost in H1 as (k & Hk & H2 & Ht).
    destruct (cr.2) as [|b rest] eqn:Hc.
    - apply (f_equal length) in H2. rewrite drop_length in H2. simpl in H2.
      apply run_bind in Hr as (c & s2 & w2 & H3 & Hr). pose proof (bounded_it_ltb cr.1 (sg_last s) s1 w1) as Hb. rewrite H3 in Hb.
      destruct c.
      + destruct (tri_cut_at (ptrs w2) s2 cr.1 w2 _ _ _ ltac:(by intros p) Hr) as (_ & _ & Hz). lia.
      + injection Hr as _ _ <-. lia.
    - pose proof (append_loop_least _ _ _ _ _ _ Hr). apply append_loop_cost in Hr. rewrite -> H2, drop_length in *. lia.
  Qed.

  (** ** The member functions *)
  Lemma seg_assign_cost ra o x A w hf r x' w' n : assigns o = Some n ->
    holds (is_seg false) x A w hf -> seg_call ra o x w = Ok r x' w' ->
    Z.of_nat (tick w) + Z.of_nat n <= Z.of_nat (tick w') <= Z.of_nat (tick w) + Z.of_nat n + extra (s_cap A) (Z.of_nat n).
  Proof.
    intros Ho Hx Hr. assert (spend x w (seg_call ra o) (Z.of_nat n) (Z.of_nat n + extra (s_cap A) (Z.of_nat n))) as Hs.
    { destruct o; try discriminate Ho; injection Ho as <-; unfold seg_call; cbn [run_svop].
      - apply spend_tail; [|intros; free]. apply (spend_sv_fill _ _ _ hf); [lia|done].
      - apply spend_tail; [|intros; free]. rewrite -(fmap_length AVal). by eapply spend_sv_range. }
    specialize (Hs _ _ _ Hr). lia.
  Qed.
  Lemma segd_assign_cost ra o x A w hf r x' w' n : dev_assigns o = Some n ->
    holds (is_seg true) x A w hf -> segd_call ra o x w = Ok r x' w' ->
    Z.of_nat (tick w) + Z.of_nat n <= Z.of_nat (tick w') <= Z.of_nat (tick w) + Z.of_nat n + extra (s_cap A) (Z.of_nat n).
  Proof.
    intros Ho Hx Hr. assert (spend x w (segd_call ra o) (Z.of_nat n) (Z.of_nat n + extra (s_cap A) (Z.of_nat n))) as Hs.
    { destruct o; try discriminate Ho; injection Ho as <-; unfold segd_call; cbn [run_sdop].
      - apply spend_tail; [|intros; free]. apply (spend_sd_fill _ _ _ hf); [lia|done].
      - apply spend_tail; [|intros; free]. rewrite -(fmap_length AVal). by eapply spend_sd_range. }
    specialize (Hs _ _ _ Hr). lia.
  Qed.
  Lemma seg_assign_input_cost ra vs x w r x' w' : seg_call ra (OAssignInput vs) x w = Ok r x' w' ->
    (tick w + length vs <= tick w' <= tick w + 4 * length vs)%nat.
  Proof.
    intros Hr. apply run_bind in Hr as (u & s1 & w1 & H1 & Hr). injection Hr as _ _ <-.
    apply assign_input_cost in H1. by rewrite fmap_length in H1.
  Qed.
  Lemma segd_assign_input_cost ra vs x w r x' w' : segd_call ra (DAssignInput vs) x w = Ok r x' w' ->
    (tick w + length vs <= tick w' <= tick w + 4 * length vs)%nat.
  Proof.
    intros Hr. apply run_bind in Hr as (u & s1 & w1 & H1 & Hr). injection Hr as _ _ <-.
    apply assign_input_cost in H1. by rewrite fmap_length in H1.
  Qed.
End assign.
