(** * Cost of changing the size or the capacity of the segmented containers *)

From iris.proofmode Require Import tactics.
From Verif Require Export ResizeCost SegAssignCost.
From Coq Require Import Lia ZifyBool.
Open Scope Z_scope.

Section spec.
  Context `{E : Env} `{SZ : SegSize}.
  (** The elements constructed by [resize], [reserve] and [shrink_to_fit] if there are [s];
      none is moved. *)
  Definition seg_constructs (o : vop) (s : nat) : option nat :=
    match o with OResize n _ => Some (n - s)%nat | OReserve _ | OShrink => Some 0%nat | _ => None end.
  Definition segd_constructs (o : dop) (s : nat) : option nat :=
    match o with
    | DResize n _ | DResizeFront n _ | DResizeBack n _ => Some (n - s)%nat
    | DReserveFront _ | DReserveBack _ | DShrink => Some 0%nat
    | _ => None
    end.
  (** A bound on the number of allocations. *)
  Definition seg_allocs (o : vop) (A : sabs) : Z :=
    match o with OResize n _ | OReserve n => extra (s_cap A) (Z.of_nat n) | OShrink => 1 | _ => 0 end.
  Definition segd_allocs (o : dop) (A : sabs) : Z :=
    match o with
    | DResize n _ => extra (s_cap A) (Z.of_nat n)
    | DResizeFront n _ | DReserveFront n => extra (s_front A + s_size A) (Z.of_nat n)
    | DResizeBack n _ | DReserveBack n => extra (s_cap A - s_front A) (Z.of_nat n)
    | DShrink => 1
    | _ => 0
    end.
End spec.

Section resize.
  Context `{E : Env} `{SZ : SegSize}.

  Lemma extra_nonneg room k : 0 <= k -> 0 <= extra room k.
  Proof. intros. unfold extra. destruct (_ <=? _); [lia|]. by apply allocs_pos. Qed.
  Lemma run_ptr {St} p (s : St) w r s' w' : read_ptr p s w = Ok r s' w' -> s' = s.
  Proof. unfold read_ptr. repeat (case_match; try done); by intros [= _ <- _]. Qed.
  Lemma ufill_n_state {St} first n a (s : St) w r s' w' : s_uninitialized_fill_n_a first n a s w = Ok r s' w' -> s' = s.
  Proof.
    unfold s_uninitialized_fill_n_a, seg_each_n. generalize (undo_n first n : Z -> M St unit). generalize (it_seg first) (it_loc first).
    generalize (Z.of_nat n). generalize (S n). intros fuel z sg l h. revert s w sg l z.
    induction fuel as [|fuel IH]; intros s w sg l z Hr; [done|]. cbn [each_n_loop] in Hr.
    apply run_bind in Hr as (b & s1 & w1 & H1 & Hr). apply run_ptr in H1 as ->.
    apply run_bind in Hr as (d & s1 & w1' & H1 & Hr). unfold ptr_sub in H1. destruct (_ =? _) in H1; [|done]. injection H1 as <- <- <-. cbv zeta in Hr.
    apply run_bind in Hr as (l' & s1 & w2 & H1 & Hr). apply run_try, uninit_end in H1 as [-> _].
    apply run_bind in Hr as (u & s1 & w3 & H1 & Hr). unfold assert_ in H1. destruct (_ <=? _) in H1; [|done]. injection H1 as _ <- <-.
    destruct (_ =? 0) in Hr.
    - unfold seg_compose in Hr. apply run_bind in Hr as (b' & s1 & w4 & H1 & Hr). apply run_ptr in H1 as ->.
      apply run_bind in Hr as (d' & s1 & w5 & H1 & Hr). unfold ptr_sub in H1. destruct (_ =? _) in H1; [|done]. injection H1 as <- <- <-.
      apply run_bind in Hr as (u' & s1 & w5 & H1 & Hr). unfold assert_ in H1. destruct (_ && _) in H1; [|done]. injection H1 as _ <- <-.
      destruct (loc_eqb _ _); [|by injection Hr as _ <- _].
      apply run_bind in Hr as (b2 & s1 & w5 & H1 & Hr). apply run_ptr in H1 as ->. by injection Hr as _ <- _.
    - apply run_bind in Hr as (b' & s1 & w4 & H1 & Hr). apply run_ptr in H1 as ->. by apply IH in Hr.
  Qed.
  Lemma keeps_append_n n a x w u x' w' : sq_append_n n a x w = Ok u x' w' -> sg_bos x' = sg_bos x /\ sg_first x' = sg_first x.
  Proof.
    intros Hr. apply run_bind in Hr as (o & s1 & w1 & H1 & Hr). injection H1 as <- <- <-.
    apply run_bind in Hr as (nl & s1 & w1 & H1 & Hr). apply ufill_n_state in H1 as ->. by injection Hr as _ <- _.
  Qed.
  (** Growth alone. *)
  Lemma spend_grow_back room k x w : 0 <= room -> 0 <= k ->
    spend x w (if room <? k then sq_grow_back (k - room) else ret tt) 0 (extra room k).
  Proof.
    intros H0 Hk r x' w' Hr. pose proof (extra_nonneg room k Hk). destruct (_ <? _) eqn:Hn.
    - rewrite extra_more; [|lia]. pose proof (bounded_grow_back (k - room) ltac:(lia) x w) as Hb. rewrite Hr in Hb.
      pose proof (allocs_mono (k - room) k). unfold allocs in *. pose proof (Z.div_pos (k - room) SS ltac:(lia) SS_pos). lia.
    - injection Hr as _ _ <-. lia.
  Qed.
  Lemma spend_grow_front room k x w : 0 <= room -> 0 <= k ->
    spend x w (if room <? k then sd_grow_front (k - room) else ret tt) 0 (extra room k).
  Proof.
    intros H0 Hk r x' w' Hr. pose proof (extra_nonneg room k Hk). destruct (_ <? _) eqn:Hn.
    - rewrite extra_more; [|lia]. pose proof (bounded_grow_front (k - room) ltac:(lia) x w) as Hb. rewrite Hr in Hb.
      pose proof (allocs_mono (k - room) k). unfold allocs in *. pose proof (Z.div_pos (k - room) SS ltac:(lia) SS_pos).
      destruct (_ =? 0); lia.
    - injection Hr as _ _ <-. lia.
  Qed.
  Lemma spend_sv_resize x w A hf n a : holds (is_seg false) x A w hf ->
    spend x w (sv_resize (Z.of_nat n) a) (Z.of_nat (n - length (s_elems A))) (Z.of_nat (n - length (s_elems A)) + extra (s_cap A) (Z.of_nat n)).
  Proof.
    intros Hx. destruct (seg_dims _ _ _ _ _ Hx) as (tb & lo & hi & Hd & Hc & Hf). specialize (Hf eq_refl).
    pose proof (dm_f _ _ _ _ _ _ _ Hd). pose proof (dm_n _ _ _ _ _ _ _ Hd). pose proof (dm_fits _ _ _ _ _ _ _ Hd).
    assert (Z.of_nat (length (s_elems A)) = s_size A) as Hsz by done.
    unfold sv_resize. eapply spend_look; [by eapply look_size|]. intros ? ->. destruct (Z.leb_spec (Z.of_nat n) (s_size A)).
    - eapply spend_look; [by eapply look_sv_nth|]. intros nl _. eapply spend_mono; [eapply spend_tri, tri_cut_at|lia|].
      pose proof (extra_nonneg (s_cap A) (Z.of_nat n)). lia.
    - eapply spend_look; [by eapply look_cap|]. intros ? ->. replace ((hi - lo) * SS - 1) with (s_cap A) by lia.
      eapply (spend_maybe_back false); [lia|lia|exact Hx|].
      intros x2 w2 A2 Hx2 HA2. eapply spend_tri, tri_weak; [apply tri_append_n; lia|done|lia].
  Qed.
  Lemma spend_sd_resize x w A hf n a : holds (is_seg true) x A w hf ->
    spend x w (sd_resize (Z.of_nat n) a) (Z.of_nat (n - length (s_elems A))) (Z.of_nat (n - length (s_elems A)) + extra (s_cap A) (Z.of_nat n)).
  Proof.
    intros Hx. destruct (seg_dims _ _ _ _ _ Hx) as (tb & lo & hi & Hd & Hc & _).
    pose proof (dm_f _ _ _ _ _ _ _ Hd). pose proof (dm_n _ _ _ _ _ _ _ Hd). pose proof (dm_fits _ _ _ _ _ _ _ Hd).
    assert (Z.of_nat (length (s_elems A)) = s_size A) as Hsz by done. pose proof (extra_nonneg (s_cap A) (Z.of_nat n)).
    unfold sd_resize. eapply spend_look; [by eapply look_size|]. intros ? ->. destruct (Z.leb_spec (Z.of_nat n) (s_size A)).
    { eapply spend_look; [by eapply look_sd_nth|]. intros nl _. eapply spend_mono; [eapply spend_tri, tri_cut_at|lia|lia]. }
    eapply spend_look; [by eapply look_back_room|]. intros ab ->. replace ((hi - lo) * SS - 1 - s_front A - s_size A) with (back_of A) by (unfold back_of; lia).
    assert (s_cap A = s_front A + s_size A + back_of A) as Hsum by (unfold back_of; lia).
    destruct (Z.leb_spec (Z.of_nat n) (s_size A + back_of A)).
    { eapply spend_mono; [eapply spend_tri, tri_append_n; lia|lia..]. }
    eapply spend_look; [by eapply look_front_room|]. intros ? ->. destruct (Z.leb_spec (Z.of_nat n) (s_front A + s_size A + back_of A)).
    { apply spend_get. eapply spend_mono; [eapply spend_tri|..].
      - eapply tri_bind; [eapply tri_ufill; apply Hd|]. intros ? ? _.
        eapply tri_bind0; [apply tri_set_last|]. intros ? ? _. eapply tri_look; [eapply looks_minus, Hd|]. intros nf Hnf; cbv beta in Hnf.
        eapply tri_bind; [eapply tri_ufill; [exact Hnf|apply Hd]|]. intros ? ? _. apply tri_set_first.
      - lia.
      - lia. }
    rewrite extra_more; [|lia]. eapply spend_mono; [|apply Z.le_refl|].
    - eapply (spend_back_front true); [|exact Hx|]; [lia|].
      intros x2 w2 A2 Hx2 HA2 HF2. destruct (seg_dims _ _ _ _ _ Hx2) as (tb2 & lo2 & hi2 & Hd2 & _).
      assert (s_size A2 = s_size A) as Hs by (unfold s_size; by rewrite HA2). rewrite Hs HF2 in Hd2.
      eapply (spend_mono _ _ _ (Z.of_nat n - s_size A) (Z.of_nat n - s_size A)); [|lia|apply Z.le_refl].
      intros r x' w' Hr. apply run_bind in Hr as (u & s1 & w1 & H1' & Hr).
      pose proof (keeps_append_n _ _ _ _ _ _ _ H1') as (Hb & Hfi).
      destruct (tri_append_n (ptrs w2) x2 (Z.of_nat n - (s_size A + s_front A)) a ltac:(lia) w2 _ _ _ ltac:(by intros p) H1') as (Hw1 & _ & Ht1).
      apply run_bind in Hr as (o & s2 & w3 & H2' & Hr). injection H2' as <- <- <-. rewrite Hb Hfi in Hr.
      assert (tri (ptrs w2) s1 (s_uninitialized_fill_a (sg_bos x2) (sg_first x2) a;; sq_set_first (sg_bos x2))%prog any (s_front A)) as Ht.
      { eapply tri_weak; [|done|].
        - eapply tri_bind; [eapply tri_ufill; apply Hd2|]. intros ? ? _. apply tri_set_first.
        - lia. }
      destruct (Ht w1 _ _ _ Hw1 Hr) as (_ & _ & Ht2). lia.
    - pose proof (allocs_mono (Z.of_nat n - (s_front A + s_size A + back_of A)) (Z.of_nat n)). lia.
  Qed.
  Lemma spend_sd_resize_front x w A hf n a : holds (is_seg true) x A w hf ->
    spend x w (sd_resize_front (Z.of_nat n) a) (Z.of_nat (n - length (s_elems A)))
      (Z.of_nat (n - length (s_elems A)) + extra (s_front A + s_size A) (Z.of_nat n)).
  Proof.
    intros Hx. destruct (seg_dims _ _ _ _ _ Hx) as (tb & lo & hi & Hd & Hc & _).
    pose proof (dm_f _ _ _ _ _ _ _ Hd). pose proof (dm_n _ _ _ _ _ _ _ Hd). pose proof (dm_fits _ _ _ _ _ _ _ Hd).
    assert (Z.of_nat (length (s_elems A)) = s_size A) as Hsz by done. pose proof (extra_nonneg (s_front A + s_size A) (Z.of_nat n)).
    unfold sd_resize_front. eapply spend_look; [by eapply look_size|]. intros ? ->. destruct (Z.leb_spec (Z.of_nat n) (s_size A)).
    { eapply spend_look; [by eapply look_sd_nth|]. intros nl _. apply spend_get. eapply spend_mono; [eapply spend_tri|..].
      - eapply tri_bind0; [apply tri_destroy|]. intros ? ? _. apply tri_set_first.
      - lia.
      - lia. }
    eapply spend_look; [by eapply look_front_room|]. intros ? ->. rewrite (Z.add_comm (s_front A)).
    eapply spend_maybe_front; [lia|lia|exact Hx|]. intros x2 w2 A2 Hx2 HA2. destruct (seg_dims _ _ _ _ _ Hx2) as (tb2 & lo2 & hi2 & Hd2 & _).
    apply spend_get. eapply spend_look; [eapply look_looks, looks_minus, Hd2|]. intros nf Hnf; cbv beta in Hnf.
    eapply spend_tri, tri_weak; [|done|].
    - eapply tri_bind; [eapply tri_ufill; [exact Hnf|apply Hd2]|]. intros ? ? _. apply tri_set_first.
    - lia.
  Qed.
  Lemma spend_sd_resize_back x w A hf n a : holds (is_seg true) x A w hf ->
    spend x w (sd_resize_back (Z.of_nat n) a) (Z.of_nat (n - length (s_elems A)))
      (Z.of_nat (n - length (s_elems A)) + extra (s_cap A - s_front A) (Z.of_nat n)).
  Proof.
    intros Hx. destruct (seg_dims _ _ _ _ _ Hx) as (tb & lo & hi & Hd & Hc & _).
    pose proof (dm_f _ _ _ _ _ _ _ Hd). pose proof (dm_n _ _ _ _ _ _ _ Hd). pose proof (dm_fits _ _ _ _ _ _ _ Hd).
    assert (Z.of_nat (length (s_elems A)) = s_size A) as Hsz by done. pose proof (extra_nonneg (s_cap A - s_front A) (Z.of_nat n)).
    unfold sd_resize_back. eapply spend_look; [by eapply look_size|]. intros ? ->. destruct (Z.leb_spec (Z.of_nat n) (s_size A)).
    { eapply spend_look; [by eapply look_sd_nth|]. intros nl _. eapply spend_mono; [eapply spend_tri, tri_cut_at|lia|lia]. }
    eapply spend_look; [by eapply look_back_room|]. intros ab ->.
    replace (s_size A + ((hi - lo) * SS - 1 - s_front A - s_size A)) with (s_cap A - s_front A) by lia.
    eapply (spend_maybe_back true); [lia|lia|exact Hx|]. intros x2 w2 A2 Hx2 HA2.
    eapply spend_tri, tri_weak; [apply tri_append_n; lia|done|lia].
  Qed.
  Lemma bounded_shrink_table : bounded sq_shrink_table 1.
  Proof.
    unfold sq_shrink_table. apply bounded_bind0; [free|]. intros o. apply bounded_bind0; [free|]. intros ?. apply bounded_bind0; [free|]. intros ?.
    cbv zeta. apply bounded_bind0; [free|]. intros ?. apply bounded_bind_r; [apply bounded_allocate|]. intros ?.
    apply bounded_bind0; [apply bounded_copy_table|]. intros ?. apply bounded_bind0; [free|]. intros ?. apply bounded_new_table.
  Qed.
  Lemma spend_bounded {B} x w (m : M sgdata B) c : bounded m c -> spend x w m 0 (Z.of_nat c).
  Proof. intros Hm r x' w' Hr. specialize (Hm x w). rewrite Hr in Hm. lia. Qed.
  Lemma bounded_shrink_back : bounded sq_shrink_back 0.
  Proof.
    unfold sq_shrink_back. apply bounded_bind0; [free|]. intros o. cbv zeta. apply bounded_bind0; [apply bounded_free_segments|]. intros ?.
    free.
  Qed.
  Lemma bounded_shrink_front : bounded sd_shrink_front 0.
  Proof.
    unfold sd_shrink_front. apply bounded_bind0; [free|]. intros o. cbv zeta. apply bounded_bind0; [apply bounded_free_segments|]. intros ?.
    free.
  Qed.

  Lemma seg_resize_cost ra o x A w hf r x' w' c : seg_constructs o (length (s_elems A)) = Some c ->
    holds (is_seg false) x A w hf -> seg_call ra o x w = Ok r x' w' ->
    Z.of_nat (tick w) + Z.of_nat c <= Z.of_nat (tick w') <= Z.of_nat (tick w) + Z.of_nat c + seg_allocs o A.
  Proof.
    intros Ho Hx Hr. destruct (seg_dims _ _ _ _ _ Hx) as (tb & lo & hi & Hd & Hc & _).
    pose proof (dm_f _ _ _ _ _ _ _ Hd). pose proof (dm_n _ _ _ _ _ _ _ Hd). pose proof (dm_fits _ _ _ _ _ _ _ Hd).
    assert (spend x w (seg_call ra o) (Z.of_nat c) (Z.of_nat c + seg_allocs o A)) as Hs.
    { destruct o; try discriminate Ho; injection Ho as <-; unfold seg_call; cbn [run_svop seg_allocs].
      - eapply spend_look; [by eapply look_arg|]. intros b _. apply spend_tail; [|intros; free]. by eapply spend_sv_resize.
      - apply spend_tail; [|intros; free]. unfold sv_reserve. eapply spend_look; [by eapply look_cap|]. intros ? ->.
        replace ((hi - lo) * SS - 1) with (s_cap A) by lia. apply spend_grow_back; lia.
      - apply spend_tail; [|intros; free]. apply (spend_bounded _ _ _ 1). apply bounded_bind0; [apply bounded_shrink_back|].
        intros ?. apply bounded_shrink_table. }
    specialize (Hs _ _ _ Hr). lia.
  Qed.
  Lemma segd_resize_cost ra o x A w hf r x' w' c : segd_constructs o (length (s_elems A)) = Some c ->
    holds (is_seg true) x A w hf -> segd_call ra o x w = Ok r x' w' ->
    Z.of_nat (tick w) + Z.of_nat c <= Z.of_nat (tick w') <= Z.of_nat (tick w) + Z.of_nat c + segd_allocs o A.
  Proof.
    intros Ho Hx Hr. destruct (seg_dims _ _ _ _ _ Hx) as (tb & lo & hi & Hd & Hc & _).
    pose proof (dm_f _ _ _ _ _ _ _ Hd). pose proof (dm_n _ _ _ _ _ _ _ Hd). pose proof (dm_fits _ _ _ _ _ _ _ Hd).
    assert (spend x w (segd_call ra o) (Z.of_nat c) (Z.of_nat c + segd_allocs o A)) as Hs.
    { destruct o; try discriminate Ho; injection Ho as <-; unfold segd_call; cbn [run_sdop segd_allocs].
      - eapply spend_look; [by eapply look_arg|]. intros b _. apply spend_tail; [|intros; free]. by eapply spend_sd_resize.
      - eapply spend_look; [by eapply look_arg|]. intros b _. apply spend_tail; [|intros; free]. by eapply spend_sd_resize_front.
      - eapply spend_look; [by eapply look_arg|]. intros b _. apply spend_tail; [|intros; free]. by eapply spend_sd_resize_back.
      - apply spend_tail; [|intros; free]. unfold sd_reserve_front. eapply spend_look; [by eapply look_size|]. intros ? ->.
        eapply spend_look; [by eapply look_front_room|]. intros ? ->. rewrite (Z.add_comm (s_front A)). apply spend_grow_front; lia.
      - apply spend_tail; [|intros; free]. unfold sd_reserve_back. eapply spend_look; [by eapply look_size|]. intros ? ->.
        eapply spend_look; [by eapply look_back_room|]. intros ? ->.
        replace (s_size A + ((hi - lo) * SS - 1 - s_front A - s_size A)) with (s_cap A - s_front A) by lia. apply spend_grow_back; lia.
      - apply spend_tail; [|intros; free]. apply (spend_bounded _ _ _ 1). apply bounded_bind0; [apply bounded_shrink_front|].
        intros ?. apply bounded_bind0; [apply bounded_shrink_back|]. intros ?. apply bounded_shrink_table. }
    specialize (Hs _ _ _ Hr). lia.
  Qed.
End resize.
