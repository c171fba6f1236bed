(** * Iterators at different positions differ *)

From iris.proofmode Require Import tactics.
From Verif Require Export NthFlat.
From Coq Require Import Lia ZifyBool.
Open Scope Z_scope.

Section distinct.
  Context `{E : Env}.
  Definition nth_distinct {S P} (nth : Z -> M S P) (eqb : P -> P -> bool) (first last : P) (n : Z) (x : S) (w : world) : Prop :=
    forall i j p q xi wi xj wj, 0 <= i -> 0 <= j -> nth i x w = Ok p xi wi -> nth j x w = Ok q xj wj ->
      eqb p q = (i =? j) /\ eqb p first = (i =? 0) /\ eqb p last = (i =? n).
  Lemma vd_distinct (x : vdata) n w : v_last x = v_first x +ₗ n -> nth_distinct nth_ loc_eqb (v_first x) (v_last x) n x w.
  Proof.
    intros Hl i j p q xi wi xj wj Hi Hj Hp Hq.
    assert (forall k r xk wk, nth_ k x w = Ok r xk wk -> r = v_first x +ₗ k) as Hk.
    { clear. intros k r xk wk. unfold nth_, size_, bind, getS, ptr_sub. destruct (_ =? _); [|done]. unfold ret, assert_.
      destruct (_ <=? _); [|done]. by intros [= <- _ _]. }
    apply Hk in Hp as ->. apply Hk in Hq as ->. rewrite Hl !loc_eqb_add. split_and!; [done| |done].
    unfold loc_eqb, loc_add. cbn [fst snd]. lia.
  Qed.
  Lemma dd_distinct (x : ddata) n w : d_last x = d_first x +ₗ n -> nth_distinct dv_nth loc_eqb (d_first x) (d_last x) n x w.
  Proof.
    intros Hl i j p q xi wi xj wj Hi Hj Hp Hq.
    assert (forall k r xk wk, dv_nth k x w = Ok r xk wk -> r = d_first x +ₗ k) as Hk.
    { clear. intros k r xk wk. unfold dv_nth, dv_size, bind, getS, ptr_sub. destruct (_ =? _); [|done]. unfold ret, assert_.
      destruct (_ <=? _); [|done]. by intros [= <- _ _]. }
    apply Hk in Hp as ->. apply Hk in Hq as ->. rewrite Hl !loc_eqb_add. split_and!; [done| |done].
    unfold loc_eqb, loc_add. cbn [fst snd]. lia.
  Qed.
  Lemma vec_distinct x (A : vabs) w hf : holds is_vec x A w hf ->
    nth_distinct nth_ loc_eqb (v_first x) (v_last x) (Z.of_nat (length (q_elems A))) x w.
  Proof. intros (_ & m & Hm & _). apply vd_distinct. by rewrite (iv_first _ _ _ Hm) (iv_last _ _ _ Hm). Qed.
  Lemma compact_distinct x (A : vabs) w hf : holds is_compact x A w hf ->
    nth_distinct nth_ loc_eqb (v_first x) (v_last x) (Z.of_nat (length (q_elems A))) x w.
  Proof. intros (_ & m & [Hm _] & _). apply vd_distinct. by rewrite (iv_first _ _ _ Hm) (iv_last _ _ _ Hm). Qed.
  Lemma static_distinct N x (A : tabs) w hf : holds (is_static N) x A w hf ->
    nth_distinct nth_ loc_eqb (v_first x.2) (v_last x.2) (Z.of_nat (length A.2)) x.2 w.
  Proof. intros (_ & m & Hm & _). apply vd_distinct. by rewrite (it_data _ _ _ _ Hm). Qed.
  Lemma small_distinct N x (A : SmallSpec.sabs) w hf : holds (is_small N) x A w hf ->
    nth_distinct nth_ loc_eqb (v_first x.2) (v_last x.2) (Z.of_nat (length (q_elems A.2))) x.2 w.
  Proof. intros (_ & m & Hm & _). apply vd_distinct. by rewrite (is_first _ _ _ _ Hm) (is_last _ _ _ _ Hm). Qed.
  Lemma flat_distinct fl (x : loc * vdata) l w hf : holds (is_flat fl) x l w hf ->
    nth_distinct nth_ loc_eqb (v_first x.2) (v_last x.2) (Z.of_nat (length l)) x.2 w.
  Proof.
    intros (Hw & m & Hm & Hd & Hh). destruct fl as [N|N]; cbn in Hm.
    - destruct Hm as (ib & Hm). apply (static_distinct N x (ib, l) w hf). split; [done|]. by exists m.
    - destruct Hm as (ib & a & d & cap & Hm). apply (small_distinct N x (ib, VAbs a d l cap) w hf). split; [done|]. by exists m.
  Qed.
  Lemma dev_distinct x (A : dabs) w hf : holds is_dev x A w hf ->
    nth_distinct dv_nth loc_eqb (d_first x) (d_last x) (Z.of_nat (length (e_elems A))) x w.
  Proof.
    intros (_ & m & Hm & _). apply dd_distinct. rewrite (id_first _ _ _ Hm) (id_last _ _ _ Hm).
    unfold loc_add. cbn [fst snd]. f_equal. lia.
  Qed.

  Context {SZ : SegSize}.
  Lemma seg_distinct_gen dev nth x A w hf :
    (forall i, 0 <= i -> nth_right nth sq_offset it_deref (s_elems A) x w i) ->
    (forall i tb lo hi, dims (ptrs w) tb lo hi x (s_front A) (s_size A) ->
       look_in (ptrs w) x (nth i) (fun p => posn (ptrs w) tb p (lo * SS + s_front A + i))) ->
    holds (is_seg dev) x A w hf ->
    nth_distinct nth it_eqb (sg_first x) (sg_last x) (Z.of_nat (length (s_elems A))) x w.
  Proof.
    intros Hright Hlook Hx i j p q xi wi xj wj Hi Hj Hp Hq.
    destruct (seg_dims dev _ _ _ _ Hx) as (tb & lo & hi & Hd & _).
    destruct (Hlook i _ _ _ Hd _ _ _ _ (fun p => eq_refl) Hp) as (_ & _ & Hpi).
    destruct (Hlook j _ _ _ Hd _ _ _ _ (fun p => eq_refl) Hq) as (_ & _ & Hqj).
    specialize (Hright i Hi) as Hri. unfold nth_right in Hri. rewrite Hp in Hri. destruct Hri as (_ & _ & Hni & _).
    specialize (Hright j Hj) as Hrj. unfold nth_right in Hrj. rewrite Hq in Hrj. destruct Hrj as (_ & _ & Hnj & _).
    assert (forall k, 0 <= k <= s_size A -> lo * SS <= lo * SS + s_front A + k < hi * SS) as Hin by (intros k Hk; by eapply in_table).
    split_and!.
    - rewrite (posn_eqb _ tb lo hi _ _ _ _ (dm_sep _ _ _ _ _ _ _ Hd) Hpi Hqj); [lia|apply Hin; unfold s_size; lia..].
    - eapply at_first; [exact Hd|unfold s_size; lia|done].
    - eapply at_last; [exact Hd|unfold s_size; lia|done].
  Qed.
  Lemma seg_distinct x A w hf : holds (is_seg false) x A w hf ->
    nth_distinct sv_nth it_eqb (sg_first x) (sg_last x) (Z.of_nat (length (s_elems A))) x w.
  Proof.
    intros Hx. destruct (seg_dims false _ _ _ _ Hx) as (_ & _ & _ & _ & _ & Hf). specialize (Hf eq_refl).
    eapply seg_distinct_gen; [| |exact Hx].
    - intros i Hi. by eapply seg_nth_right.
    - intros i tb lo hi Hd. by eapply look_sv_nth.
  Qed.
  Lemma segd_distinct x A w hf : holds (is_seg true) x A w hf ->
    nth_distinct sd_nth it_eqb (sg_first x) (sg_last x) (Z.of_nat (length (s_elems A))) x w.
  Proof.
    intros Hx. eapply seg_distinct_gen; [| |exact Hx].
    - intros i Hi. by eapply segd_nth_right.
    - intros i tb lo hi Hd. by eapply look_sd_nth.
  Qed.
End distinct.
