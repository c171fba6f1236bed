(** * Cost of insertion and erasure in the segmented containers *)

From iris.proofmode Require Import tactics.
From Verif Require Export SegInsertSpec SegMid.
From Coq Require Import Lia ZifyBool.
Open Scope Z_scope.

Section dims.
  Context `{E : Env} `{SZ : SegSize}.

  (** Entries [lo] to [hi - 1] of the table, block [tb], are in use; [f] free places are
      before the [n] elements. *)
  Record dims (D : loc -> option loc) (tb lo hi : Z) (x : sgdata) (f n : Z) : Prop := {
    dm_first : posn D tb (sg_first x) (lo * SS + f);
    dm_last : posn D tb (sg_last x) (lo * SS + f + n);
    dm_bos : posn D tb (sg_bos x) (lo * SS);
    dm_eos : posn D tb (sg_eos x) (hi * SS - 1);
    dm_tfirst : sg_tfirst x = (tb, lo);
    dm_f : 0 <= f;
    dm_n : 0 <= n;
    dm_fits : lo * SS + f + n < hi * SS;
    dm_sep : sepd D tb lo hi;
  }.

  Lemma table_at tb cs1 cs2 x A m k q : is_seg_at tb cs1 cs2 x A m -> s_segs A !! k = Some q ->
    m !! ((tb, Z.of_nat (length cs1 + k)) : loc) = Some (Ptr q).
  Proof.
    intros H Hk. destruct (ig_mem _ _ _ _ _ _ H) as (_ & _ & Hm). rewrite Hm. unfold seg_blocks. cbn [blks_cell b_id].
    rewrite decide_True; [|done]. unfold blk_cell. cbn [b_cells snd]. rewrite decide_False; [|unfold hdr_off; lia].
    rewrite decide_True; [|lia]. rewrite Nat2Z.id lookup_app_r; [|lia]. rewrite lookup_app_l.
    - rewrite list_lookup_fmap. replace (_ + _ - _)%nat with k by lia. by rewrite Hk.
    - rewrite fmap_length. pose proof (lookup_lt_Some _ _ _ Hk). lia.
  Qed.
  Lemma seg_dims dev x A w hf : holds (is_seg dev) x A w hf ->
    exists tb lo hi, dims (ptrs w) tb lo hi x (s_front A) (s_size A) /\ (hi - lo) * SS - 1 = s_cap A /\ (dev = false -> s_front A = 0).
  Proof.
    intros (Hwf & m & (tb & cs1 & cs2 & H & Hdev) & Hd & Hh). exists tb, (zlen cs1), (zlen cs1 + zlen (s_segs A)).
    pose proof SS_pos as HSS. pose proof (ig_front _ _ _ _ _ _ H) as Hf. pose proof (ig_size _ _ _ _ _ _ H) as Hs.
    assert (0 <= s_size A) as H0 by (unfold s_size; lia). pose proof Hs as Hs'. unfold s_cap in Hs'.
    assert (forall k q, s_segs A !! k = Some q -> ptrs w (tb, zlen cs1 + Z.of_nat k) = Some q) as Ht.
    { intros k q Hk. unfold ptrs. rewrite Hh. rewrite (lookup_union_Some_l m hf _ (Ptr q)); [done|].
      rewrite -Nat2Z.inj_add. by eapply table_at. }
    assert (forall z, 0 <= z <= s_cap A -> posn (ptrs w) tb (place (tb, zlen cs1) A z) (zlen cs1 * SS + z)) as Hp.
    { intros z Hz. unfold s_cap in Hz.
      assert (0 <= z / SS < zlen (s_segs A)) as Hdiv.
      { split; [apply Z.div_pos; lia|]. apply Z.div_lt_upper_bound; lia. }
      destruct (lookup_lt_is_Some_2 (s_segs A) (Z.to_nat (z / SS))) as [q Hq]; [lia|].
      exists q, (z mod SS). unfold place. cbn [it_seg it_loc]. rewrite (list_lookup_total_correct _ _ _ Hq).
      split_and!; [|done|apply Z.mod_pos_bound; lia..|done|].
      - unfold loc_add. cbn [fst snd]. rewrite -(Z2Nat.id (z / SS)); [|lia]. by apply Ht.
      - unfold loc_add. cbn [fst snd]. pose proof (Z.div_mod z SS ltac:(lia)). lia. }
    split_and!.
    - constructor; try done.
      + rewrite (ig_first _ _ _ _ _ _ H). apply Hp. lia.
      + rewrite (ig_last _ _ _ _ _ _ H). rewrite -Z.add_assoc. apply Hp. lia.
      + rewrite (ig_bos _ _ _ _ _ _ H). rewrite -(Z.add_0_r (zlen cs1 * SS)). apply Hp. lia.
      + rewrite (ig_eos _ _ _ _ _ _ H). replace (_ * SS - 1) with (zlen cs1 * SS + s_cap A) by (unfold s_cap; lia). apply Hp. lia.
      + by rewrite (ig_tfirst _ _ _ _ _ _ H).
      + lia.
      + intros i j b b' Hi Hj Hb Hb' Heq.
        destruct (lookup_lt_is_Some_2 (s_segs A) (Z.to_nat (i - zlen cs1))) as [q Hq]; [lia|].
        destruct (lookup_lt_is_Some_2 (s_segs A) (Z.to_nat (j - zlen cs1))) as [q' Hq']; [lia|].
        pose proof (Ht _ _ Hq) as H1. pose proof (Ht _ _ Hq') as H2.
        replace (zlen cs1 + Z.of_nat (Z.to_nat (i - zlen cs1))) with i in H1 by lia.
        replace (zlen cs1 + Z.of_nat (Z.to_nat (j - zlen cs1))) with j in H2 by lia.
        rewrite Hb in H1. rewrite Hb' in H2. injection H1 as <-. injection H2 as <-.
        destruct (ig_mem _ _ _ _ _ _ H) as (_ & Hnd & _). unfold seg_blocks in Hnd. rewrite fmap_cons in Hnd.
        apply NoDup_cons in Hnd as [_ Hnd].
        enough (Z.to_nat (i - zlen cs1) = Z.to_nat (j - zlen cs1)) by lia.
        eapply NoDup_lookup; [exact Hnd| |]; rewrite list_lookup_fmap list_lookup_imap ?Hq ?Hq'; simpl; [done|by rewrite Heq].
    - unfold s_cap. lia.
    - intros Hv. by destruct (Hdev Hv).
  Qed.

  (** ** Growth *)
  Lemma grow_back_run dev x A w hf add x' w' : 0 <= add ->
    holds (is_seg dev) x A w hf -> sq_grow_back add x w = Ok tt x' w' ->
    (exists A', holds (is_seg dev) x' A' w' hf /\ s_elems A' = s_elems A) /\
    Z.of_nat (tick w) <= Z.of_nat (tick w') <= Z.of_nat (tick w) + (add / SS + 2).
  Proof.
    intros Hadd Hx Hr. split.
    2:{ pose proof (bounded_grow_back add Hadd x w) as Hb. rewrite Hr in Hb.
        pose proof (Z.div_pos add SS Hadd SS_pos). lia. }
    destruct Hx as (Hwf & m & Hm & Hd & Hh). apply is_seg_iff in Hm. destruct A as [a segs f l].
    apply ex_holds in Hm as (T & HT). apply pure_sep_holds in HT as [(-> & Ha & HI) Hs].
    cbn [s_alloc s_segs s_front s_elems] in *. subst a.
    assert (sg_at T segs f l ⊢ wp (sq_grow_back add) (sobj T segs f (zlen l))
      (fun _ x' => ∃ A', ⟦s_elems A' = l⟧ ∗ sinv (seg_I dev) x' A') (fun _ _ => True))%I as Hwp.
    { iIntros "Hs". iApply (wp_grow_back with "Hs"); [done|]. iSplit; [|iIntros (e T') "_ _"; done].
      iIntros (T' new) "%H Hs". destruct H as (H1 & H2 & _). iExists (SAbs (t_al T') (segs ++ new) f l). iSplit; [done|].
      iApply sinv_intro; [done| |done]. unfold seg_I in *. by rewrite H2. }
    pose proof (wp_run _ _ _ _ m hf w (wp_entails _ _ _ _ _ m Hwp Hs) Hwf Hd Hh) as Hrun. rewrite Hr in Hrun.
    destruct Hrun as (h' & Hh' & Hd' & Haf & HQ). apply ex_holds in HQ as (A' & HQ). apply pure_sep_holds in HQ as [HA HQ].
    apply is_seg_iff in HQ. exists A'. split; [|done]. split; [apply Haf|]. by exists h'.
  Qed.
  Lemma grow_front_run x A w hf add x' w' : 0 < add ->
    holds (is_seg true) x A w hf -> sd_grow_front add x w = Ok tt x' w' ->
    (exists A', holds (is_seg true) x' A' w' hf /\ s_elems A' = s_elems A) /\
    Z.of_nat (tick w) <= Z.of_nat (tick w') <= Z.of_nat (tick w) + (add / SS + 2).
  Proof.
    intros Hadd Hx Hr. split.
    2:{ pose proof (bounded_grow_front add ltac:(lia) x w) as Hb. rewrite Hr in Hb.
        pose proof (Z.div_pos add SS ltac:(lia) SS_pos). destruct (_ =? 0); lia. }
    destruct Hx as (Hwf & m & Hm & Hd & Hh). apply is_seg_iff in Hm. destruct A as [a segs f l].
    apply ex_holds in Hm as (T & HT). apply pure_sep_holds in HT as [(-> & Ha & HI) Hs].
    cbn [s_alloc s_segs s_front s_elems] in *. subst a.
    assert (sg_at T segs f l ⊢ wp (sd_grow_front add) (sobj T segs f (zlen l))
      (fun _ x' => ∃ A', ⟦s_elems A' = l⟧ ∗ sinv (seg_I true) x' A') (fun _ _ => True))%I as Hwp.
    { iIntros "Hs". iApply (wp_grow_front with "Hs"); [done|]. iSplit; [|iIntros (e T') "_ _"; done].
      iIntros (T' new) "%H Hs". iExists (SAbs (t_al T') (new ++ segs) (slots new + f) l). iSplit; [done|].
      iApply sinv_intro; [done| |done]. done. }
    pose proof (wp_run _ _ _ _ m hf w (wp_entails _ _ _ _ _ m Hwp Hs) Hwf Hd Hh) as Hrun. rewrite Hr in Hrun.
    destruct Hrun as (h' & Hh' & Hd' & Haf & HQ). apply ex_holds in HQ as (A' & HQ). apply pure_sep_holds in HQ as [HA HQ].
    apply is_seg_iff in HQ. exists A'. split; [|done]. split; [apply Haf|]. by exists h'.
  Qed.
  Lemma make_run dev x A w hf a v x' w' : ~ is_move a ->
    holds (is_seg dev) x A w hf -> make a x w = Ok v x' w' ->
    x' = x /\ holds (is_seg dev) x A w' hf /\ Z.of_nat (tick w') = Z.of_nat (tick w) + 1.
  Proof.
    intros Hm (Hwf & m & H & Hd & Hh) Hr. pose proof (takes_make a _ _ _ _ _ Hr) as Ht.
    enough (x' = x /\ heap w' = heap w /\ next w' = next w) as (-> & Hh' & Hn).
    { split_and!; [done| |lia]. split; [|by exists m; rewrite Hh'].
      unfold wf_world in *. by rewrite Hn Hh'. }
    destruct a as [|v'|q|q]; [..|by destruct Hm]; simpl in Hr.
    - unfold step_, oracle, bind, ret, throw in Hr. repeat (case_match; try done); by simplify_eq.
    - unfold step_, oracle, bind, ret, throw in Hr. repeat (case_match; try done); by simplify_eq.
    - unfold step_, oracle, read, bind, ret, throw in Hr. repeat (case_match; try done); by simplify_eq.
  Qed.
End dims.

Section spend.
  Context `{E : Env} `{SZ : SegSize}.

  (** What a call that returns costs, from the state [x], [w]. *)
  Definition spend {A} (x : sgdata) (w : world) (m : M sgdata A) (lo hi : Z) : Prop := forall r x' w',
    m x w = Ok r x' w' -> Z.of_nat (tick w) + lo <= Z.of_nat (tick w') <= Z.of_nat (tick w) + hi.
  (** A program that only looks, in state [x]. *)
  Definition look_in (D : loc -> option loc) {A} (x : sgdata) (m : M sgdata A) (P : A -> Prop) : Prop :=
    forall w r x' w', tab_in D w -> m x w = Ok r x' w' -> x' = x /\ w' = w /\ P r.

  Lemma look_looks D {A} x (m : M sgdata A) P : looks D m P -> look_in D x m P.
  Proof. intros Hm w r x' w'. apply Hm. Qed.
  Lemma look_bind D {A B} x (m : M sgdata A) (k : A -> M sgdata B) P Q :
    look_in D x m P -> (forall a, P a -> look_in D x (k a) Q) -> look_in D x (bind m k) Q.
  Proof.
    intros Hm Hk w r s' w' Hw Hr. apply run_bind in Hr as (a & s1 & w1 & H1 & Hr).
    destruct (Hm _ _ _ _ Hw H1) as (-> & -> & HP). by apply (Hk _ HP w).
  Qed.
  Lemma look_get D x : look_in D x getS (fun o => o = x).
  Proof. by intros w r s' w' Hw [= <- <- <-]. Qed.
  Lemma tri_look_in D {A B} x (m : M sgdata A) (k : A -> M sgdata B) P Q c :
    look_in D x m P -> (forall a, P a -> tri D x (k a) Q c) -> tri D x (bind m k) Q c.
  Proof.
    intros Hm Hk w r s' w' Hw Hr. apply run_bind in Hr as (a & s1 & w1 & H1 & Hr).
    destruct (Hm _ _ _ _ Hw H1) as (-> & -> & HP). by apply (Hk _ HP w).
  Qed.
  Lemma spend_look {A B} x w (m : M sgdata A) (k : A -> M sgdata B) P lo hi :
    look_in (ptrs w) x m P -> (forall a, P a -> spend x w (k a) lo hi) -> spend x w (bind m k) lo hi.
  Proof.
    intros Hm Hk r s' w' Hr. apply run_bind in Hr as (a & s1 & w1 & H1 & Hr).
    destruct (Hm w a s1 w1 ltac:(by intros p) H1) as (-> & -> & HP). by apply (Hk _ HP _ _ _ Hr).
  Qed.
  Lemma spend_get {B} x w (k : sgdata -> M sgdata B) lo hi : spend x w (k x) lo hi -> spend x w (bind getS k) lo hi.
  Proof. intros Hk r s' w' Hr. by apply Hk in Hr. Qed.
  Lemma spend_tri {A} x w (m : M sgdata A) P c : tri (ptrs w) x m P c -> spend x w m c c.
  Proof. intros Hm r s' w' Hr. destruct (Hm w r s' w' ltac:(by intros p) Hr) as (_ & _ & Ht). lia. Qed.
  Lemma spend_mono {A} x w (m : M sgdata A) lo hi lo' hi' : spend x w m lo hi -> lo' <= lo -> hi <= hi' -> spend x w m lo' hi'.
  Proof. intros Hm Hlo Hhi r s' w' Hr. specialize (Hm _ _ _ Hr). lia. Qed.
  Lemma spend_tail {A B} x w (m : M sgdata A) (k : A -> M sgdata B) lo hi :
    spend x w m lo hi -> (forall a, bounded (k a) 0) -> spend x w (bind m k) lo hi.
  Proof.
    intros Hm Hk r s' w' Hr. apply run_bind in Hr as (a & s1 & w1 & H1 & Hr).
    specialize (Hm _ _ _ H1). pose proof (Hk a s1 w1) as Hb. rewrite Hr in Hb. lia.
  Qed.
  Lemma spend_assoc {A B C} x w (m : M sgdata A) (k : A -> M sgdata B) (k2 : B -> M sgdata C) lo hi :
    spend x w (bind m (fun a => bind (k a) k2)) lo hi -> spend x w (bind (bind m k) k2) lo hi.
  Proof. intros H r s' w' Hr. apply (H r s' w'). revert Hr. unfold bind. by destruct (m x w). Qed.
  Lemma spend_ret {A B} x w (a : A) (k : A -> M sgdata B) lo hi : spend x w (k a) lo hi -> spend x w (bind (ret a) k) lo hi.
  Proof. done. Qed.
  Lemma spend_idx x w m lo hi : spend x w m lo hi -> spend x w (s_idx m) lo hi.
  Proof.
    intros Hm. unfold s_idx. apply spend_tail; [done|]. intros i. apply bounded_bind0; [free|]. intros o.
    apply bounded_bind0; [apply bounded_it_diff|intros; free].
  Qed.

  (** Growth costs allocations only. *)
  Lemma allocs_mono a b : a <= b -> allocs a <= allocs b.
  Proof. intros H. unfold allocs. pose proof (Z.div_le_mono a b SS SS_pos H). lia. Qed.
  Lemma allocs_pos a : 0 <= a -> 0 <= allocs a.
  Proof. intros H. unfold allocs. pose proof (Z.div_pos a SS H SS_pos). lia. Qed.
  Lemma spend_back {B} dev x w A hf add (k : unit -> M sgdata B) lo hi :
    0 <= add -> holds (is_seg dev) x A w hf ->
    (forall x' w' A', holds (is_seg dev) x' A' w' hf -> s_elems A' = s_elems A -> spend x' w' (k tt) lo hi) ->
    spend x w (bind (sq_grow_back add) k) lo (hi + allocs add).
  Proof.
    intros Hadd Hx Hk r s' w' Hr. apply run_bind in Hr as ([] & s1 & w1 & H1 & Hr).
    destruct (grow_back_run dev _ _ _ _ _ _ _ Hadd Hx H1) as ((A' & Hx' & HA) & Ht). specialize (Hk _ _ _ Hx' HA _ _ _ Hr).
    unfold allocs. lia.
  Qed.
  Lemma spend_front {B} x w A hf add (k : unit -> M sgdata B) lo hi :
    0 < add -> holds (is_seg true) x A w hf ->
    (forall x' w' A', holds (is_seg true) x' A' w' hf -> s_elems A' = s_elems A -> spend x' w' (k tt) lo hi) ->
    spend x w (bind (sd_grow_front add) k) lo (hi + allocs add).
  Proof.
    intros Hadd Hx Hk r s' w' Hr. apply run_bind in Hr as ([] & s1 & w1 & H1 & Hr).
    destruct (grow_front_run _ _ _ _ _ _ _ Hadd Hx H1) as ((A' & Hx' & HA) & Ht). specialize (Hk _ _ _ Hx' HA _ _ _ Hr).
    unfold allocs. lia.
  Qed.
  Lemma spend_make {B} dev x w A hf a (k : V -> M sgdata B) lo hi : ~ is_move a ->
    holds (is_seg dev) x A w hf -> (forall v w', holds (is_seg dev) x A w' hf -> tab_in (ptrs w) w' -> spend x w' (k v) lo hi) ->
    spend x w (bind (make a) k) (1 + lo) (1 + hi).
  Proof.
    intros Ha Hx Hk r s' w' Hr. apply run_bind in Hr as (v & s1 & w1 & H1 & Hr).
    destruct (make_run dev _ _ _ _ _ _ _ _ Ha Hx H1) as (-> & Hx' & Ht). specialize (Hk v _ Hx' (keeps_make _ _ _ _ _ _ H1) _ _ _ Hr). lia.
  Qed.
End spend.

Section parts.
  Context `{E : Env} `{SZ : SegSize}.
  Context (D : loc -> option loc) (tb lo hi : Z) (x : sgdata) (f n : Z) (Hx : dims D tb lo hi x f n).
  Notation posn := (posn D tb).

  Lemma look_size : look_in D x sq_size (fun z => z = n).
  Proof.
    unfold sq_size. eapply look_bind; [apply look_get|]. intros o ->. intros w r x' w' Hw Hr.
    destruct (looks_diff D tb _ _ _ _ (dm_last _ _ _ _ _ _ _ Hx) (dm_first _ _ _ _ _ _ _ Hx) _ _ _ _ _ Hw Hr) as (-> & -> & ->).
    split_and!; try done. lia.
  Qed.
  Lemma look_back_room : look_in D x sq_back_room (fun z => z = (hi - lo) * SS - 1 - f - n).
  Proof.
    unfold sq_back_room. eapply look_bind; [apply look_get|]. intros o ->. intros w r x' w' Hw Hr.
    destruct (looks_diff D tb _ _ _ _ (dm_eos _ _ _ _ _ _ _ Hx) (dm_last _ _ _ _ _ _ _ Hx) _ _ _ _ _ Hw Hr) as (-> & -> & ->).
    split_and!; try done. lia.
  Qed.
  Lemma look_front_room : look_in D x sq_front_room (fun z => z = f).
  Proof.
    unfold sq_front_room. eapply look_bind; [apply look_get|]. intros o ->. intros w r x' w' Hw Hr.
    destruct (looks_diff D tb _ _ _ _ (dm_first _ _ _ _ _ _ _ Hx) (dm_bos _ _ _ _ _ _ _ Hx) _ _ _ _ _ Hw Hr) as (-> & -> & ->).
    split_and!; try done. lia.
  Qed.
  Lemma look_first i : look_in D x (it_add (sg_first x) i) (fun p => posn p (lo * SS + f + i)).
  Proof. apply look_looks, looks_add, Hx. Qed.
  Lemma look_pos i : look_in D x (s_pos i) (fun p => posn p (lo * SS + f + Z.of_nat i)).
  Proof. unfold s_pos. eapply look_bind; [apply look_get|]. intros o ->. apply look_first. Qed.
  Lemma look_arg a : look_in D x (s_arg a) (fun b => x_moves a = false -> ~ is_move b).
  Proof.
    assert (forall j, look_in D x (s_ref j) (fun _ => True)) as Hr.
    { intros j. unfold s_ref. eapply look_bind; [apply look_get|]. intros o ->. unfold it_index.
      eapply look_bind; [apply look_first|]. intros y _. by apply look_looks, looks_ret. }
    destruct a as [|v|j|j]; simpl.
    - apply look_looks, looks_ret. simpl. tauto.
    - apply look_looks, looks_ret. simpl. tauto.
    - eapply look_bind; [apply Hr|]. intros p _. apply look_looks, looks_ret. simpl. tauto.
    - eapply look_bind; [apply Hr|]. intros p _. apply look_looks, looks_ret. done.
  Qed.
  Lemma look_offset pos i : posn pos (lo * SS + f + i) -> look_in D x (sq_offset pos) (fun k => k = i).
  Proof.
    intros Hp. unfold sq_offset. eapply look_bind; [apply look_get|]. intros o ->.
    eapply look_bind; [apply look_looks; eapply looks_ltb; [exact Hp|apply Hx]|]. intros c1 _.
    eapply look_bind; [apply look_looks; eapply looks_ltb; [apply Hx|exact Hp]|]. intros c2 _.
    eapply look_bind; [apply look_looks, looks_assert|]. intros _ _.
    intros w r x' w' Hw Hr.
    destruct (looks_diff D tb _ _ _ _ Hp (dm_first _ _ _ _ _ _ _ Hx) _ _ _ _ _ Hw Hr) as (-> & -> & ->).
    split_and!; try done. lia.
  Qed.
  Lemma look_to_end pos i : posn pos (lo * SS + f + i) -> look_in D x (it_diff (sg_last x) pos) (fun k => k = n - i).
  Proof.
    intros Hp w r x' w' Hw Hr.
    destruct (looks_diff D tb _ _ _ _ (dm_last _ _ _ _ _ _ _ Hx) Hp _ _ _ _ _ Hw Hr) as (-> & -> & ->).
    split_and!; try done. lia.
  Qed.
  Lemma look_sv_nth i : f = 0 -> look_in D x (sv_nth i) (fun p => posn p (lo * SS + f + i)).
  Proof.
    intros Hf. unfold sv_nth. eapply look_bind; [apply look_size|]. intros z ->.
    eapply look_bind; [apply look_looks, looks_assert|]. intros _ _. eapply look_bind; [apply look_get|]. intros o ->. cbv zeta.
    eapply look_bind; [apply look_looks, looks_ptr|]. intros b Hb. apply look_looks, looks_ret.
    rewrite (dm_tfirst _ _ _ _ _ _ _ Hx) in Hb |- *. pose proof SS_pos. exists b, (i - i / SS * SS). cbn [it_seg it_loc].
    assert (SS <> 0) as Hne by lia. pose proof (Z.div_mod i SS Hne). pose proof (Z.mod_pos_bound i SS SS_pos).
    split_and!; [done|done|lia..|done|]. unfold loc_add. cbn [fst snd]. lia.
  Qed.
  Lemma look_sd_nth i : look_in D x (sd_nth i) (fun p => posn p (lo * SS + f + i)).
  Proof.
    unfold sd_nth. eapply look_bind; [apply look_size|]. intros z ->.
    eapply look_bind; [apply look_looks, looks_assert|]. intros _ _. eapply look_bind; [apply look_get|]. intros o ->.
    apply look_first.
  Qed.
  Lemma in_table i : 0 <= i <= n -> lo * SS <= lo * SS + f + i < hi * SS.
  Proof. intros Hi. pose proof (dm_f _ _ _ _ _ _ _ Hx). pose proof (dm_fits _ _ _ _ _ _ _ Hx). lia. Qed.
  Lemma at_last p i : 0 <= i <= n -> posn p (lo * SS + f + i) -> it_eqb p (sg_last x) = (i =? n).
  Proof.
    intros Hi Hp. pose proof (dm_n _ _ _ _ _ _ _ Hx).
    rewrite (posn_eqb D tb lo hi _ _ _ _ (dm_sep _ _ _ _ _ _ _ Hx) Hp (dm_last _ _ _ _ _ _ _ Hx) (in_table i Hi) (in_table n ltac:(lia))).
    lia.
  Qed.
  Lemma at_first p i : 0 <= i <= n -> posn p (lo * SS + f + i) -> it_eqb p (sg_first x) = (i =? 0).
  Proof.
    intros Hi Hp. pose proof (dm_n _ _ _ _ _ _ _ Hx). pose proof (in_table 0 ltac:(lia)).
    rewrite (posn_eqb D tb lo hi _ _ _ _ (dm_sep _ _ _ _ _ _ _ Hx) Hp (dm_first _ _ _ _ _ _ _ Hx) (in_table i Hi) ltac:(lia)).
    lia.
  Qed.
  Lemma at_eos : it_eqb (sg_last x) (sg_eos x) = ((hi - lo) * SS - 1 - f - n =? 0).
  Proof.
    pose proof (dm_n _ _ _ _ _ _ _ Hx). pose proof (in_table n ltac:(lia)).
    rewrite (posn_eqb D tb lo hi _ _ _ _ (dm_sep _ _ _ _ _ _ _ Hx) (dm_last _ _ _ _ _ _ _ Hx) (dm_eos _ _ _ _ _ _ _ Hx) ltac:(lia) ltac:(lia)).
    lia.
  Qed.
  Lemma at_bos : it_eqb (sg_first x) (sg_bos x) = (f =? 0).
  Proof.
    pose proof (dm_n _ _ _ _ _ _ _ Hx). pose proof (in_table 0 ltac:(lia)). pose proof (dm_f _ _ _ _ _ _ _ Hx).
    rewrite (posn_eqb D tb lo hi _ _ _ _ (dm_sep _ _ _ _ _ _ _ Hx) (dm_first _ _ _ _ _ _ _ Hx) (dm_bos _ _ _ _ _ _ _ Hx) ltac:(lia) ltac:(lia)).
    lia.
  Qed.

  (** ** Emplacing, there being room *)
  Lemma tri_set_last (s : sgdata) y : tri D s (sq_set_last y) any 0.
  Proof. eapply tri_weak; [apply tri_mod|done|done]. Qed.
  Lemma tri_set_first (s : sgdata) y : tri D s (sq_set_first y) any 0.
  Proof. eapply tri_weak; [apply tri_mod|done|done]. Qed.
  Lemma tri_emplace_at p1 a i : 0 <= i <= n -> posn p1 (lo * SS + f + i) ->
    tri D x (sq_emplace_at p1 a) any (if i =? n then 1 else n - i + 2).
  Proof.
    intros Hi Hp. unfold sq_emplace_at. eapply tri_look_in; [apply look_get|]. intros o ->.
    rewrite (at_last p1 i Hi Hp). destruct (Z.eqb_spec i n) as [Hin|Hin].
    - eapply tri_weak; [|done|].
      + eapply tri_bind; [apply tri_construct|]. intros _ s1 _.
        eapply (tri_look D); [eapply looks_succ, Hx|]. intros y _.
        eapply tri_bind0; [apply tri_set_last|]. intros _ s2 _. apply tri_any_ret.
      + lia.
    - eapply (tri_look D); [eapply looks_pred, Hx|]. intros p2 Hp2; cbv beta in Hp2. cbv zeta. eapply tri_weak; [|done|].
      + eapply tri_bind; [apply tri_make|]. intros v s1 _. eapply tri_bind; [apply tri_construct|]. intros _ s2 _.
        eapply (tri_look D); [eapply looks_succ, Hx|]. intros y _.
        eapply tri_bind0; [apply tri_set_last|]. intros _ s3 _.
        eapply tri_bind; [eapply tri_move_backward; eassumption|]. intros d s4 _.
        eapply tri_bind; [apply tri_assign|]. intros _ s5 _. apply tri_any_ret.
      + lia.
  Qed.
  Lemma tri_emplace_front_at p1 a i : 0 <= i <= n -> posn p1 (lo * SS + f + i) ->
    tri D x (sd_emplace_front_at p1 a) any (if i =? 0 then 1 else i + 2).
  Proof.
    intros Hi Hp. unfold sd_emplace_front_at. eapply tri_look_in; [apply look_get|]. intros o ->.
    eapply (tri_look D); [eapply looks_pred, Hp|]. intros p2 Hp2; cbv beta in Hp2.
    rewrite (at_first p1 i Hi Hp). destruct (Z.eqb_spec i 0) as [Hin|Hin].
    - eapply tri_weak; [|done|].
      + eapply tri_bind; [apply tri_construct|]. intros _ s1 _.
        eapply tri_bind0; [apply tri_set_first|]. intros _ s2 _. apply tri_any_ret.
      + lia.
    - eapply (tri_look D); [eapply looks_succ, Hx|]. intros p3 Hp3; cbv beta in Hp3.
      eapply (tri_look D); [eapply looks_pred, Hx|]. intros p4 Hp4; cbv beta in Hp4. cbv zeta. eapply tri_weak; [|done|].
      + eapply tri_bind; [apply tri_make|]. intros v s1 _. eapply tri_bind; [apply tri_construct|]. intros _ s2 _.
        eapply tri_bind0; [apply tri_set_first|]. intros _ s3 _.
        eapply tri_bind; [eapply tri_move; eassumption|]. intros d s4 _.
        eapply tri_bind; [apply tri_assign|]. intros _ s5 _. apply tri_any_ret.
      + lia.
  Qed.
  Lemma tri_emplace_back a : tri D x (construct (it_deref (sg_last x)) a;; y <- it_succ (sg_last x);; sq_set_last y;; ret (it_deref (sg_last x)))%prog any 1.
  Proof.
    eapply tri_weak; [|done|].
    - eapply tri_bind; [apply tri_construct|]. intros _ s1 _.
      eapply (tri_look D); [eapply looks_succ, Hx|]. intros y _.
      eapply tri_bind0; [apply tri_set_last|]. intros _ s2 _. apply tri_any_ret.
    - lia.
  Qed.
  Lemma tri_emplace_front a : tri D x (y <- it_pred (sg_first x);; construct (it_deref y) a;; sq_set_first y;; ret (it_deref y))%prog any 1.
  Proof.
    eapply (tri_look D); [eapply looks_pred, Hx|]. intros y _. eapply tri_weak; [|done|].
    - eapply tri_bind; [apply tri_construct|]. intros _ s1 _.
      eapply tri_bind0; [apply tri_set_first|]. intros _ s2 _. apply tri_any_ret.
    - lia.
  Qed.

  (** ** Inserting several, there being room *)
  Lemma tri_fill_back p1 k i far v : 0 <= i <= n -> posn p1 (lo * SS + f + i) ->
    (forall p2, posn p2 (lo * SS + f + i + k) -> look_in D x (far p2) (fun _ => True)) ->
    tri D x (sq_fill_back p1 k far v) any (k + (n - i)).
  Proof.
    intros Hi Hp Hfar. unfold sq_fill_back. eapply tri_look_in; [apply look_get|]. intros o ->.
    eapply (tri_look D); [eapply looks_add, Hp|]. intros p2 Hp2; cbv beta in Hp2.
    eapply tri_look_in; [by apply Hfar|]. intros c _. cbv zeta. destruct c.
    - eapply (tri_look D); [eapply looks_minus, Hx|]. intros p3 Hp3; cbv beta in Hp3. eapply tri_weak; [|done|].
      + eapply tri_bind; [eapply tri_umove; [exact Hp3|apply Hx]|]. intros nl s1 _.
        eapply tri_bind0; [apply tri_set_last|]. intros _ s2 _.
        eapply tri_bind; [eapply tri_move_backward; eassumption|]. intros d s3 _.
        eapply tri_bind; [eapply tri_fill; eassumption|]. intros _ s4 _. apply tri_any_ret.
      + lia.
    - eapply tri_weak; [|done|].
      + eapply tri_bind; [eapply tri_ufill; [apply Hx|exact Hp2]|]. intros _ s1 _.
        eapply tri_bind0; [apply tri_set_last|]. intros _ s2 _.
        eapply tri_bind; [eapply tri_umove; [exact Hp|apply Hx]|]. intros nl s3 _.
        eapply tri_bind0; [apply tri_set_last|]. intros _ s4 _.
        eapply tri_bind; [eapply tri_fill; [exact Hp|apply Hx]|]. intros _ s5 _. apply tri_any_ret.
      + lia.
  Qed.
  Lemma tri_fill_front p1 i k v : 0 <= i <= n -> posn p1 (lo * SS + f + i) ->
    tri D x (sd_fill_front p1 i k v) any (k + i).
  Proof.
    intros Hi Hp. unfold sd_fill_front. eapply tri_look_in; [apply look_get|]. intros o ->.
    eapply (tri_look D); [eapply looks_minus, Hp|]. intros p2 Hp2; cbv beta in Hp2. cbv zeta. destruct (k <? i).
    - eapply (tri_look D); [eapply looks_add, Hx|]. intros p3 Hp3; cbv beta in Hp3.
      eapply (tri_look D); [eapply looks_minus, Hx|]. intros p4 Hp4; cbv beta in Hp4. eapply tri_weak; [|done|].
      + eapply tri_bind; [eapply tri_umove; [apply Hx|exact Hp3]|]. intros nl s1 _.
        eapply tri_bind0; [apply tri_set_first|]. intros _ s2 _.
        eapply tri_bind; [eapply tri_move; eassumption|]. intros d s3 _.
        eapply tri_bind; [eapply tri_fill; eassumption|]. intros _ s4 _. apply tri_any_ret.
      + lia.
    - eapply (tri_look D); [eapply looks_minus, Hx|]. intros p3 Hp3; cbv beta in Hp3. eapply tri_weak; [|done|].
      + eapply tri_bind; [eapply tri_ufill; [exact Hp2|apply Hx]|]. intros _ s1 _.
        eapply tri_bind0; [apply tri_set_first|]. intros _ s2 _.
        eapply tri_bind; [eapply tri_umove; [apply Hx|exact Hp]|]. intros nl s3 _.
        eapply tri_bind0; [apply tri_set_first|]. intros _ s4 _.
        eapply tri_bind; [eapply tri_fill; [apply Hx|exact Hp]|]. intros _ s5 _. apply tri_any_ret.
      + lia.
  Qed.
  Lemma tri_range_far p1 i p3 ra l : posn p1 (lo * SS + f + i) -> posn p3 (lo * SS + f + n - Z.of_nat (length l)) ->
    tri D x (sq_range_far p1 p3 (SList ra l)) any (Z.of_nat (length l) + (n - i)).
  Proof.
    intros Hp Hp3. unfold sq_range_far. eapply tri_look_in; [apply look_get|]. intros o ->. cbv zeta.
    eapply tri_weak; [|done|].
    - eapply tri_bind; [eapply tri_umove; [exact Hp3|apply Hx]|]. intros nl s1 _.
      eapply tri_bind0; [apply tri_set_last|]. intros _ s2 _.
      eapply tri_bind; [eapply tri_move_backward; eassumption|]. intros d s3 _.
      eapply tri_bind; [eapply tri_src_copy|]. intros _ s4 _. apply tri_any_ret.
    - lia.
  Qed.
  Lemma looks_cut ra l m : looks D (src_cut (SList ra l) m : M sgdata _)
    (fun xs => xs = (SList ra (take (Z.to_nat m) l), SList ra (drop (Z.to_nat m) l))).
  Proof. by apply looks_ret. Qed.
  Lemma tri_range_near p1 i ra l : 0 <= i <= n -> posn p1 (lo * SS + f + i) ->
    tri D x (sq_range_near p1 (n - i) (SList ra l)) any (Z.of_nat (length l) + (n - i)).
  Proof.
    intros Hi Hp. unfold sq_range_near. eapply tri_look_in; [apply look_get|]. intros o ->. cbv zeta.
    eapply (tri_look D); [apply looks_cut|]. intros xs ->. cbn [fst snd].
    eapply tri_weak; [|done|].
    - eapply tri_bind; [apply tri_src_ucopy|]. intros nl s1 _.
      eapply tri_bind0; [apply tri_set_last|]. intros _ s2 _.
      eapply tri_bind; [eapply tri_umove; [exact Hp|apply Hx]|]. intros d s3 _.
      eapply tri_bind0; [apply tri_set_last|]. intros _ s4 _.
      eapply tri_bind; [apply tri_src_copy|]. intros _ s5 _. apply tri_any_ret.
    - rewrite take_length drop_length. lia.
  Qed.
  Lemma tri_range_front p1 i ra l : 0 <= i <= n -> posn p1 (lo * SS + f + i) ->
    tri D x (sd_range_front p1 i (Z.of_nat (length l)) (SList ra l)) any (Z.of_nat (length l) + i).
  Proof.
    intros Hi Hp. unfold sd_range_front. eapply tri_look_in; [apply look_get|]. intros o ->.
    eapply (tri_look D); [eapply looks_minus, Hp|]. intros p2 Hp2; cbv beta in Hp2. cbv zeta. destruct (_ <? i) eqn:Hc.
    - eapply (tri_look D); [eapply looks_add, Hx|]. intros p3 Hp3; cbv beta in Hp3.
      eapply (tri_look D); [eapply looks_minus, Hx|]. intros p4 Hp4; cbv beta in Hp4. eapply tri_weak; [|done|].
      + eapply tri_bind; [eapply tri_umove; [apply Hx|exact Hp3]|]. intros nl s1 _.
        eapply tri_bind0; [apply tri_set_first|]. intros _ s2 _.
        eapply tri_bind; [eapply tri_move; eassumption|]. intros d s3 _.
        eapply tri_bind; [apply tri_src_copy|]. intros _ s4 _. apply tri_any_ret.
      + lia.
    - eapply (tri_look D); [eapply looks_minus, Hx|]. intros p3 Hp3; cbv beta in Hp3.
      eapply (tri_look D); [apply looks_cut|]. intros xs ->. cbn [fst snd].
      eapply tri_weak; [|done|].
      + eapply tri_bind; [apply tri_src_ucopy|]. intros _ s1 _.
        eapply tri_bind0; [apply tri_set_first|]. intros _ s2 _.
        eapply tri_bind; [eapply tri_umove; [apply Hx|exact Hp]|]. intros nl s3 _.
        eapply tri_bind0; [apply tri_set_first|]. intros _ s4 _.
        eapply tri_bind; [apply tri_src_copy|]. intros _ s5 _. apply tri_any_ret.
      + rewrite take_length drop_length. lia.
  Qed.

  (** ** Erasing *)
  Lemma tri_sv_erase pos i : 0 <= i <= n -> posn pos (lo * SS + f + i) -> tri D x (sv_erase pos) any (n - i - 1).
  Proof.
    intros Hi Hp. unfold sv_erase. eapply tri_look_in; [by eapply look_offset|]. intros k ->.
    eapply tri_look_in; [apply look_get|]. intros o ->.
    eapply (tri_look D); [eapply looks_ltb; [exact Hp|apply Hx]|]. intros c _.
    eapply (tri_look D); [apply looks_assert|]. intros _ _.
    eapply (tri_look D); [eapply looks_add, Hx|]. intros p Hp1; cbv beta in Hp1.
    eapply (tri_look D); [eapply looks_add, Hp1|]. intros p' Hp2; cbv beta in Hp2. eapply tri_weak; [|done|].
    - eapply tri_bind; [eapply tri_move; [exact Hp2|apply Hx]|]. intros nl s1 _.
      eapply tri_bind0; [apply tri_set_last|]. intros _ s2 _.
      eapply tri_bind0; [apply tri_destroy_at|]. intros _ s3 _. apply tri_any_ret.
    - lia.
  Qed.
  Lemma tri_sd_erase pos i : 0 <= i < n -> posn pos (lo * SS + f + i) -> tri D x (sd_erase pos) any (Z.min i (n - i - 1)).
  Proof.
    intros Hi Hp. unfold sd_erase. eapply tri_look_in; [by eapply look_offset|]. intros k ->.
    eapply tri_look_in; [apply look_get|]. intros o ->.
    eapply (tri_look D); [eapply looks_ltb; [exact Hp|apply Hx]|]. intros c _.
    eapply (tri_look D); [apply looks_assert|]. intros _ _.
    eapply tri_look_in; [by eapply look_to_end|]. intros m ->.
    eapply (tri_look D); [eapply looks_add, Hx|]. intros p Hp1; cbv beta in Hp1.
    eapply (tri_look D); [eapply looks_succ, Hp1|]. intros p' Hp2; cbv beta in Hp2. destruct (i <? n - i) eqn:Hc; cbv zeta.
    - eapply tri_weak; [|done|].
      + eapply tri_bind; [eapply tri_move_backward; [apply Hx|exact Hp1]|]. intros nf s1 _.
        eapply tri_bind0; [apply tri_set_first|]. intros _ s2 _.
        eapply tri_bind0; [apply tri_destroy_at|]. intros _ s3 _. apply tri_any_ret.
      + lia.
    - eapply tri_weak; [|done|].
      + eapply tri_bind; [eapply tri_move; [exact Hp2|apply Hx]|]. intros nl s1 _.
        eapply tri_bind0; [apply tri_set_last|]. intros _ s2 _.
        eapply tri_bind0; [apply tri_destroy_at|]. intros _ s3 _. apply tri_any_ret.
      + lia.
  Qed.
  Lemma tri_erase_back p1 p2 j : posn p2 (lo * SS + f + j) -> tri D x (sq_erase_back p1 p2) any (n - j).
  Proof.
    intros Hp. unfold sq_erase_back. eapply tri_look_in; [apply look_get|]. intros o ->. eapply tri_weak; [|done|].
    - eapply tri_bind; [eapply tri_move; [exact Hp|apply Hx]|]. intros nl s1 _.
      eapply tri_bind0; [apply tri_destroy|]. intros _ s2 _.
      eapply tri_bind0; [apply tri_set_last|]. intros _ s3 _. apply tri_any_ret.
    - lia.
  Qed.
  Lemma tri_sv_erase_range p q i j : 0 <= i <= j -> j <= n -> posn p (lo * SS + f + i) -> posn q (lo * SS + f + j) ->
    tri D x (sv_erase_range p q) any (if i =? j then 0 else n - j).
  Proof.
    intros Hi Hj Hp Hq. unfold sv_erase_range. eapply tri_look_in; [by eapply look_offset|]. intros k1 ->.
    eapply tri_look_in; [by eapply look_offset|]. intros k2 ->.
    eapply (tri_look D); [eapply looks_ltb; [exact Hq|exact Hp]|]. intros c _.
    eapply (tri_look D); [apply looks_assert|]. intros _ _.
    eapply tri_look_in; [apply look_get|]. intros o ->.
    rewrite (posn_eqb D tb lo hi _ _ _ _ (dm_sep _ _ _ _ _ _ _ Hx) Hp Hq (in_table i ltac:(lia)) (in_table j ltac:(lia))).
    replace (lo * SS + f + i =? lo * SS + f + j) with (i =? j) by lia. destruct (i =? j).
    - eapply tri_weak; [apply tri_looks, looks_add, Hx|done|done].
    - eapply (tri_look D); [eapply looks_add, Hx|]. intros p1 Hp1; cbv beta in Hp1. eapply (tri_look D); [eapply looks_add, Hx|]. intros p2 Hp2; cbv beta in Hp2.
      by apply tri_erase_back.
  Qed.
  Lemma tri_sd_erase_range p q i j : 0 <= i <= j -> j <= n -> posn p (lo * SS + f + i) -> posn q (lo * SS + f + j) ->
    tri D x (sd_erase_range p q) any (if i =? j then 0 else Z.min i (n - j)).
  Proof.
    intros Hi Hj Hp Hq. unfold sd_erase_range. eapply tri_look_in; [by eapply look_offset|]. intros k1 ->.
    eapply tri_look_in; [by eapply look_offset|]. intros k2 ->.
    eapply (tri_look D); [eapply looks_ltb; [exact Hq|exact Hp]|]. intros c _.
    eapply (tri_look D); [apply looks_assert|]. intros _ _.
    eapply tri_look_in; [apply look_get|]. intros o ->.
    rewrite (posn_eqb D tb lo hi _ _ _ _ (dm_sep _ _ _ _ _ _ _ Hx) Hp Hq (in_table i ltac:(lia)) (in_table j ltac:(lia))).
    replace (lo * SS + f + i =? lo * SS + f + j) with (i =? j) by lia. destruct (i =? j).
    - eapply tri_weak; [apply tri_looks, looks_add, Hx|done|done].
    - eapply tri_look_in; [by eapply look_to_end|]. intros m ->.
      eapply (tri_look D); [eapply looks_add, Hx|]. intros p1 Hp1; cbv beta in Hp1. eapply (tri_look D); [eapply looks_add, Hx|]. intros p2 Hp2; cbv beta in Hp2.
      destruct (i <? n - j) eqn:Hc.
      + eapply tri_weak; [|done|].
        * eapply tri_bind; [eapply tri_move_backward; [apply Hx|exact Hp1]|]. intros nf s1 _.
          eapply tri_bind0; [apply tri_destroy|]. intros _ s2 _.
          eapply tri_bind0; [apply tri_set_first|]. intros _ s3 _. apply tri_any_ret.
        * lia.
      + eapply tri_weak; [by apply tri_erase_back|done|lia].
  Qed.
End parts.

Section calls.
  Context `{E : Env} `{SZ : SegSize} (ra : bool).

  Lemma spend_maybe_back {B} dev x w A hf room k (m : unit -> M sgdata B) c : 0 <= room -> 0 <= k ->
    holds (is_seg dev) x A w hf ->
    (forall x' w' A', holds (is_seg dev) x' A' w' hf -> s_elems A' = s_elems A -> spend x' w' (m tt) c c) ->
    spend x w (bind (if room <? k then sq_grow_back (k - room) else ret tt) m) c (c + extra room k).
  Proof.
    intros H0 Hk Hx Hm. unfold extra. destruct (Z.ltb_spec room k) as [Hlt|Hge].
    - destruct (Z.leb_spec k room); [lia|]. eapply spend_mono; [eapply spend_back; [lia|exact Hx|exact Hm]|lia|].
      pose proof (allocs_mono (k - room) k). lia.
    - destruct (Z.leb_spec k room); [|lia]. apply spend_ret. eapply spend_mono; [by eapply Hm|lia..].
  Qed.
  Lemma spend_maybe_front {B} x w A hf room k (m : unit -> M sgdata B) c : 0 <= room -> 0 <= k ->
    holds (is_seg true) x A w hf ->
    (forall x' w' A', holds (is_seg true) x' A' w' hf -> s_elems A' = s_elems A -> spend x' w' (m tt) c c) ->
    spend x w (bind (if room <? k then sd_grow_front (k - room) else ret tt) m) c (c + extra room k).
  Proof.
    intros H0 Hk Hx Hm. unfold extra. destruct (Z.ltb_spec room k) as [Hlt|Hge].
    - destruct (Z.leb_spec k room); [lia|]. eapply spend_mono; [eapply spend_front; [lia|exact Hx|exact Hm]|lia|].
      pose proof (allocs_mono (k - room) k). lia.
    - destruct (Z.leb_spec k room); [|lia]. apply spend_ret. eapply spend_mono; [by eapply Hm|lia..].
  Qed.

  (** The storage behind the elements, and before them. *)
  Definition back_of (A : sabs) : Z := s_cap A - s_front A - s_size A.

  Lemma spend_emplace_back dev x w A hf a : holds (is_seg dev) x A w hf ->
    spend x w (sq_emplace_back a) 1 (1 + extra (back_of A) 1).
  Proof.
    intros Hx. destruct (seg_dims _ _ _ _ _ Hx) as (tb & lo & hi & Hd & Hc & _). unfold sq_emplace_back. apply spend_get.
    rewrite (at_eos _ _ _ _ _ _ _ Hd). pose proof (dm_fits _ _ _ _ _ _ _ Hd).
    assert (forall x' w' A', holds (is_seg dev) x' A' w' hf -> s_elems A' = s_elems A ->
      spend x' w' (o1 <- getS;; construct (it_deref (sg_last o1)) a;; y <- it_succ (sg_last o1);; sq_set_last y;; ret (it_deref (sg_last o1)))%prog 1 1) as Hk.
    { intros x' w' A' Hx' _. destruct (seg_dims _ _ _ _ _ Hx') as (tb' & lo' & hi' & Hd' & _). apply spend_get.
      eapply spend_tri. by eapply tri_emplace_back. }
    replace ((hi - lo) * SS - 1 - s_front A - s_size A =? 0) with (back_of A <? 1) by (unfold back_of; lia).
    unfold extra. destruct (Z.ltb_spec (back_of A) 1) as [Hlt|Hge].
    - destruct (Z.leb_spec 1 (back_of A)); [lia|]. eapply spend_back; [lia|exact Hx|exact Hk].
    - destruct (Z.leb_spec 1 (back_of A)); [|lia]. apply spend_ret. by eapply Hk.
  Qed.
  Lemma spend_emplace_front x w A hf a : holds (is_seg true) x A w hf ->
    spend x w (sd_emplace_front a) 1 (1 + extra (s_front A) 1).
  Proof.
    intros Hx. destruct (seg_dims _ _ _ _ _ Hx) as (tb & lo & hi & Hd & Hc & _). unfold sd_emplace_front. apply spend_get.
    rewrite (at_bos _ _ _ _ _ _ _ Hd). pose proof (dm_f _ _ _ _ _ _ _ Hd).
    assert (forall x' w' A', holds (is_seg true) x' A' w' hf -> s_elems A' = s_elems A ->
      spend x' w' (o1 <- getS;; y <- it_pred (sg_first o1);; construct (it_deref y) a;; sq_set_first y;; ret (it_deref y))%prog 1 1) as Hk.
    { intros x' w' A' Hx' _. destruct (seg_dims _ _ _ _ _ Hx') as (tb' & lo' & hi' & Hd' & _). apply spend_get.
      eapply spend_tri. by eapply tri_emplace_front. }
    replace (s_front A =? 0) with (s_front A <? 1) by lia.
    unfold extra. destruct (Z.ltb_spec (s_front A) 1) as [Hlt|Hge].
    - destruct (Z.leb_spec 1 (s_front A)); [lia|]. eapply spend_front; [lia|exact Hx|exact Hk].
    - destruct (Z.leb_spec 1 (s_front A)); [|lia]. apply spend_ret. by eapply Hk.
  Qed.

  Lemma back_nonneg dev x A w hf : holds (is_seg dev) x A w hf -> 0 <= back_of A.
  Proof.
    intros Hx. destruct (seg_dims _ _ _ _ _ Hx) as (tb & lo & hi & Hd & Hc & _).
    pose proof (dm_fits _ _ _ _ _ _ _ Hd). unfold back_of. lia.
  Qed.
  (** The part of the two [emplace] functions that inserts towards the back. *)
  Lemma spend_emplace_to dev x w A hf a i (nth : Z -> M sgdata sit) p1 :
    (forall x' w' A' tb lo hi, holds (is_seg dev) x' A' w' hf -> dims (ptrs w') tb lo hi x' (s_front A') (s_size A') ->
      look_in (ptrs w') x' (nth i) (fun p => posn (ptrs w') tb p (lo * SS + s_front A' + i))) ->
    holds (is_seg dev) x A w hf -> 0 <= i <= s_size A ->
    (forall tb lo hi, dims (ptrs w) tb lo hi x (s_front A) (s_size A) -> posn (ptrs w) tb p1 (lo * SS + s_front A + i)) ->
    spend x w (p1 <- (if it_eqb (sg_last x) (sg_eos x) then sq_grow_back 1;; nth i else ret p1);; sq_emplace_at p1 a)%prog
      (if i =? s_size A then 1 else s_size A - i + 2) ((if i =? s_size A then 1 else s_size A - i + 2) + extra (back_of A) 1).
  Proof.
    intros Hnth Hx Hi Hp. destruct (seg_dims _ _ _ _ _ Hx) as (tb & lo & hi & Hd & Hc & _).
    rewrite (at_eos _ _ _ _ _ _ _ Hd). pose proof (dm_fits _ _ _ _ _ _ _ Hd). pose proof (back_nonneg _ _ _ _ _ Hx).
    replace ((hi - lo) * SS - 1 - s_front A - s_size A =? 0) with (back_of A <? 1) by (unfold back_of; lia).
    unfold extra. destruct (Z.ltb_spec (back_of A) 1) as [Hlt|Hge].
    - destruct (Z.leb_spec 1 (back_of A)); [lia|]. apply spend_assoc. eapply spend_back; [lia|exact Hx|].
      intros x' w' A' Hx' HA. destruct (seg_dims _ _ _ _ _ Hx') as (tb' & lo' & hi' & Hd' & _).
      eapply spend_look; [by eapply Hnth|]. intros p Hp'; cbv beta in Hp'. eapply spend_tri.
      assert (s_size A' = s_size A) as Hs by (unfold s_size; by rewrite HA). rewrite Hs in Hd'.
      by eapply tri_emplace_at.
    - destruct (Z.leb_spec 1 (back_of A)); [|lia]. apply spend_ret. rewrite Z.add_0_r. eapply spend_tri.
      eapply tri_emplace_at; [done|done|]. by eapply Hp.
  Qed.

  Lemma spend_free {B} x w (m : M sgdata B) : bounded m 0 -> spend x w m 0 0.
  Proof. intros Hm r x' w' Hr. specialize (Hm x w). rewrite Hr in Hm. lia. Qed.
  Lemma spend_clear x w : spend x w sq_clear 0 0.
  Proof.
    eapply spend_tri. unfold sq_clear. eapply tri_look_in; [apply look_get|]. intros o ->.
    eapply tri_bind0; [apply tri_destroy|]. intros _ s1 _. apply tri_set_last.
  Qed.

  Lemma seg_insert_spend o x A w hf c :
    steps o (length (s_elems A)) = Some c -> input_op o = false -> sv_pre o (length (s_elems A)) = true ->
    holds (is_seg false) x A w hf ->
    spend x w (seg_call ra o) (Z.of_nat c) (Z.of_nat c + extra (s_cap A - s_size A) (Z.of_nat (grows o))).
  Proof.
    intros Hc Hin Hpre Hx. destruct (seg_dims _ _ _ _ _ Hx) as (tb & lo & hi & Hd & Hcap & Hf). specialize (Hf eq_refl).
    pose proof (back_nonneg _ _ _ _ _ Hx) as Hb. pose proof (dm_n _ _ _ _ _ _ _ Hd) as Hn.
    assert (s_cap A - s_size A = back_of A) as -> by (unfold back_of; lia).
    assert (Z.of_nat (length (s_elems A)) = s_size A) as Hsz by done.
    assert (extra (back_of A) (Z.of_nat 0) = 0) as H0x by (unfold extra; destruct (_ <=? _) eqn:?; lia).
    unfold sv_pre, seq_pre in Hpre. unfold seg_call.
    destruct o as [i a|a|i k a|i vs|i vs| |i|i j| | | | | | | | | | | | | | | | ]; try discriminate Hc; try discriminate Hin;
      cbn [steps] in Hc; injection Hc as <-; cbn [run_svop grows].
    - apply andb_prop in Hpre as [Hi _]. eapply spend_look; [by eapply look_pos|]. intros p Hp; cbv beta in Hp.
      eapply spend_look; [by eapply look_arg|]. intros b _. apply spend_idx. unfold sv_emplace.
      eapply spend_look; [by eapply look_offset|]. intros z ->. apply spend_get.
      eapply spend_look; [by eapply look_first|]. intros p1 Hp1; cbv beta in Hp1.
      replace (Z.of_nat (if (i =? length (s_elems A))%nat then 1%nat else (length (s_elems A) - i + 2)%nat))
        with (if Z.of_nat i =? s_size A then 1 else s_size A - Z.of_nat i + 2)
        by (destruct (Nat.eqb_spec i (length (s_elems A))), (Z.eqb_spec (Z.of_nat i) (s_size A)); lia).
      change (Z.of_nat 1) with 1. eapply (spend_emplace_to false); [|done|lia|].
      + intros x' w' A' tb' lo' hi' Hx' Hd'. eapply look_sv_nth; [done|].
        destruct (seg_dims _ _ _ _ _ Hx') as (? & ? & ? & _ & _ & Hf'). by apply Hf'.
      + intros tb' lo' hi' Hd'.
        pose proof (dm_tfirst _ _ _ _ _ _ _ Hd) as H1. rewrite (dm_tfirst _ _ _ _ _ _ _ Hd') in H1. injection H1 as -> ->. done.
    - eapply spend_look; [by eapply look_arg|]. intros b _. unfold s_ref_back.
      apply spend_tail; [by eapply spend_emplace_back|]. intros p.
      apply bounded_bind0; [apply bounded_size|intros; apply bounded_is_ref].
    - apply andb_prop in Hpre as [Hpre Hm]. apply andb_prop in Hpre as [Hi _].
      eapply spend_look; [by eapply look_pos|]. intros p Hp; cbv beta in Hp.
      eapply spend_look; [by eapply look_arg|]. intros b Hmv; cbv beta in Hmv. apply spend_idx. unfold sv_insert_fill.
      eapply spend_look; [by eapply look_offset|]. intros z ->.
      destruct (Z.eqb_spec (Z.of_nat k) 0) as [Hk|Hk].
      { destruct k; [|lia]. cbn [Nat.eqb]. apply spend_get. unfold extra. destruct (_ <=? _) eqn:?; [|lia].
        eapply spend_tri. eapply tri_looks, looks_add, Hd. }
      destruct (Nat.eqb_spec k 0); [lia|].
      replace (Z.of_nat (k + (length (s_elems A) - i) + 1)) with (1 + (Z.of_nat k + (s_size A - Z.of_nat i))) by lia.
      rewrite -Z.add_assoc. eapply (spend_make false); [by apply Hmv, negb_true_iff|exact Hx|]. intros v w' Hx' _.
      clear tb lo hi Hd Hcap p Hp. destruct (seg_dims _ _ _ _ _ Hx') as (tb & lo & hi & Hd & Hcap & _).
      eapply spend_look; [by eapply look_back_room|]. intros ab ->.
      replace ((hi - lo) * SS - 1 - s_front A - s_size A) with (back_of A) by (unfold back_of; lia).
      eapply (spend_maybe_back false); [done|lia|exact Hx'|].
      intros x2 w2 A2 Hx2 HA2. destruct (seg_dims _ _ _ _ _ Hx2) as (tb2 & lo2 & hi2 & Hd2 & _).
      assert (s_size A2 = s_size A) as Hs by (unfold s_size; by rewrite HA2). rewrite Hs in Hd2.
      apply spend_get. eapply spend_look; [by eapply look_first|]. intros p1 Hp1; cbv beta in Hp1.
      eapply spend_tri. eapply tri_fill_back; [done|lia|done|]. intros p2 Hp2.
      eapply look_bind; [apply look_looks; eapply looks_ltb; [apply Hd2|exact Hp2]|]. intros ? _. by apply look_looks, looks_ret.
    - eapply spend_look; [by eapply look_pos|]. intros p Hp; cbv beta in Hp. apply spend_idx. unfold sv_insert_range.
      eapply spend_look; [by eapply look_offset|]. intros z ->.
      eapply (spend_look _ _ _ _ (fun z => z = Z.of_nat (length vs))); [apply look_looks, looks_ret; by rewrite fmap_length|]. intros z ->.
      apply spend_get. destruct (Z.eqb_spec (Z.of_nat (length vs)) 0) as [Hk|Hk].
      { destruct vs; [|done]. cbn [length Nat.eqb]. unfold extra. destruct (_ <=? _) eqn:?; [|simpl in *; lia].
        eapply spend_tri. eapply tri_looks, looks_add, Hd. }
      destruct (Nat.eqb_spec (length vs) 0); [lia|].
      replace (Z.of_nat (length vs + (length (s_elems A) - i))) with (Z.of_nat (length vs) + (s_size A - Z.of_nat i)) by lia.
      eapply spend_look; [by eapply look_to_end|]. intros m ->.
      eapply spend_look; [by eapply look_back_room|]. intros ab ->.
      replace ((hi - lo) * SS - 1 - s_front A - s_size A) with (back_of A) by (unfold back_of; lia).
      eapply (spend_maybe_back false); [done|lia|exact Hx|].
      intros x2 w2 A2 Hx2 HA2. destruct (seg_dims _ _ _ _ _ Hx2) as (tb2 & lo2 & hi2 & Hd2 & _).
      assert (s_size A2 = s_size A) as Hs by (unfold s_size; by rewrite HA2). rewrite Hs in Hd2.
      apply spend_get. eapply spend_look; [by eapply look_first|]. intros p1 Hp1; cbv beta in Hp1.
      eapply spend_look; [eapply look_looks, looks_add, Hp1|]. intros p2 Hp2; cbv beta in Hp2.
      eapply spend_look; [apply look_looks; eapply looks_ltb; [apply Hd2|exact Hp2]|]. intros cc _.
      destruct (negb cc).
      + eapply spend_look; [eapply look_looks, looks_minus, Hd2|]. intros p3 Hp3; cbv beta in Hp3.
        eapply spend_tri. rewrite -(fmap_length AVal vs). rewrite -(fmap_length AVal vs) in Hp3. by eapply tri_range_far.
      + eapply spend_tri. rewrite -(fmap_length AVal vs). eapply tri_range_near; [done|lia|done].
    - rewrite H0x. apply spend_tail; [|intros; free]. apply spend_free, bounded_pop_back.
    - rewrite H0x. eapply spend_look; [by eapply look_pos|]. intros p Hp; cbv beta in Hp. apply spend_idx.
      replace (Z.of_nat (length (s_elems A) - S i)) with (s_size A - Z.of_nat i - 1) by lia.
      rewrite Z.add_0_r. eapply spend_tri. eapply tri_sv_erase; [done|lia|done].
    - apply andb_prop in Hpre as [Hi Hj]. rewrite H0x. eapply spend_look; [by eapply look_pos|]. intros p Hp; cbv beta in Hp.
      eapply spend_look; [by eapply look_pos|]. intros q Hq; cbv beta in Hq. apply spend_idx.
      replace (Z.of_nat (if (i =? j)%nat then 0%nat else (length (s_elems A) - j)%nat))
        with (if Z.of_nat i =? Z.of_nat j then 0 else s_size A - Z.of_nat j)
        by (destruct (Nat.eqb_spec i j), (Z.eqb_spec (Z.of_nat i) (Z.of_nat j)); lia).
      rewrite Z.add_0_r. eapply spend_tri. eapply tri_sv_erase_range; [done|lia|lia|done|done].
    - rewrite H0x. apply spend_tail; [|intros; free]. by eapply spend_clear.
  Qed.

  (** ** segmented_devector *)
  Lemma spend_emplace_fr x w A hf a i p1 :
    holds (is_seg true) x A w hf -> 0 <= i <= s_size A ->
    (forall tb lo hi, dims (ptrs w) tb lo hi x (s_front A) (s_size A) -> posn (ptrs w) tb p1 (lo * SS + s_front A + i)) ->
    spend x w (p1 <- (if it_eqb (sg_first x) (sg_bos x) then sd_grow_front 1;; sd_nth i else ret p1);; sd_emplace_front_at p1 a)%prog
      (if i =? 0 then 1 else i + 2) ((if i =? 0 then 1 else i + 2) + extra (s_front A) 1).
  Proof.
    intros Hx Hi Hp. destruct (seg_dims _ _ _ _ _ Hx) as (tb & lo & hi & Hd & Hc & _).
    rewrite (at_bos _ _ _ _ _ _ _ Hd). pose proof (dm_f _ _ _ _ _ _ _ Hd).
    unfold extra. destruct (Z.eqb_spec (s_front A) 0) as [Hlt|Hge].
    - destruct (Z.leb_spec 1 (s_front A)); [lia|]. apply spend_assoc. eapply spend_front; [lia|exact Hx|].
      intros x' w' A' Hx' HA. destruct (seg_dims _ _ _ _ _ Hx') as (tb' & lo' & hi' & Hd' & _).
      eapply spend_look; [by eapply look_sd_nth|]. intros p Hp'; cbv beta in Hp'. eapply spend_tri.
      assert (s_size A' = s_size A) as Hs by (unfold s_size; by rewrite HA). rewrite Hs in Hd'.
      by eapply tri_emplace_front_at.
    - destruct (Z.leb_spec 1 (s_front A)); [|lia]. apply spend_ret. rewrite Z.add_0_r. eapply spend_tri.
      eapply tri_emplace_front_at; [done|done|]. by eapply Hp.
  Qed.
  Lemma posn_same D w tb y z : tab_in D w -> posn D tb y z -> posn (ptrs w) tb y z.
  Proof. intros Htab (b & r & H1 & H2). exists b, r. by rewrite Htab. Qed.
  Lemma dims_same D w tb lo hi x f n : tab_in D w -> dims D tb lo hi x f n -> dims (ptrs w) tb lo hi x f n.
  Proof.
    intros Htab [H1 H2 H3 H4 ? ? ? ? Hsep]. constructor; try done; try by eapply posn_same.
    intros i1 j1 b1 b2. rewrite !Htab. apply Hsep.
  Qed.
  Lemma same_dims D tb lo hi tb' lo' hi' x f n f' n' : dims D tb lo hi x f n -> dims D tb' lo' hi' x f' n' -> tb' = tb /\ lo' = lo.
  Proof.
    intros Hd Hd'. pose proof (dm_tfirst _ _ _ _ _ _ _ Hd) as H1. rewrite (dm_tfirst _ _ _ _ _ _ _ Hd') in H1. by injection H1 as -> ->.
  Qed.

  Lemma segd_insert_spend o x A w hf c :
    segd_steps o (length (s_elems A)) = Some c ->
    match o with
    | DEmplace i _ | DInsertRange i _ => (i <= length (s_elems A))%nat
    | DInsertN i _ a => (i <= length (s_elems A))%nat /\ x_moves a = false
    | DErase i => (i < length (s_elems A))%nat
    | DEraseRange i j => (i <= j <= length (s_elems A))%nat
    | _ => True
    end ->
    holds (is_seg true) x A w hf ->
    spend x w (segd_call ra o) (Z.of_nat c) (Z.of_nat c + extra (segd_room o A) (Z.of_nat (segd_grows o))).
  Proof.
    intros Hc Hpre Hx. destruct (seg_dims _ _ _ _ _ Hx) as (tb & lo & hi & Hd & Hcap & _).
    pose proof (back_nonneg _ _ _ _ _ Hx) as Hb. pose proof (dm_n _ _ _ _ _ _ _ Hd) as Hn. pose proof (dm_f _ _ _ _ _ _ _ Hd) as Hf.
    assert (Z.of_nat (length (s_elems A)) = s_size A) as Hsz by done.
    assert (forall k, 0 <= k -> extra k (Z.of_nat 0) = 0) as H0x by (intros k Hk; unfold extra; destruct (_ <=? _) eqn:?; lia).
    unfold segd_call.
    destruct o as [i a|a|a|i k a|i vs|i vs| | |i|i j| | | | | | | | | | | | | | | | | | | | | ]; try discriminate Hc;
      cbn [segd_steps dev_removes] in Hc; injection Hc as <-; cbn [run_sdop segd_grows segd_room]; fold (back_of A).
    - eapply spend_look; [by eapply look_pos|]. intros p Hp; cbv beta in Hp.
      eapply spend_look; [by eapply look_arg|]. intros b _. apply spend_idx. unfold sd_emplace.
      eapply spend_look; [by eapply look_offset|]. intros z ->. apply spend_get.
      eapply spend_look; [by eapply look_first|]. intros p1 Hp1; cbv beta in Hp1.
      eapply spend_look; [by eapply look_to_end|]. intros m ->. change (Z.of_nat 1) with 1.
      unfold near. destruct (Z.ltb_spec (Z.of_nat i) (s_size A - Z.of_nat i)) as [Hlt|Hge].
      + replace (Z.of_nat (if (i `min` (length (s_elems A) - i) =? 0)%nat then 1%nat else (i `min` (length (s_elems A) - i) + 2)%nat))
          with (if Z.of_nat i =? 0 then 1 else Z.of_nat i + 2)
          by (destruct (Nat.eqb_spec (i `min` (length (s_elems A) - i)) 0), (Z.eqb_spec (Z.of_nat i) 0); lia).
        eapply spend_emplace_fr; [done|lia|]. intros tb' lo' hi' Hd'. by destruct (same_dims _ _ _ _ _ _ _ _ _ _ _ _ Hd Hd') as [-> ->].
      + replace (Z.of_nat (if (i `min` (length (s_elems A) - i) =? 0)%nat then 1%nat else (i `min` (length (s_elems A) - i) + 2)%nat))
          with (if Z.of_nat i =? s_size A then 1 else s_size A - Z.of_nat i + 2)
          by (destruct (Nat.eqb_spec (i `min` (length (s_elems A) - i)) 0), (Z.eqb_spec (Z.of_nat i) (s_size A)); lia).
        eapply (spend_emplace_to true); [|done|lia|].
        * intros x' w' A' tb' lo' hi' Hx' Hd'. by eapply look_sd_nth.
        * intros tb' lo' hi' Hd'. by destruct (same_dims _ _ _ _ _ _ _ _ _ _ _ _ Hd Hd') as [-> ->].
    - eapply spend_look; [by eapply look_arg|]. intros b _. unfold s_ref_front.
      apply spend_tail; [by eapply spend_emplace_front|]. intros p. apply bounded_is_ref.
    - eapply spend_look; [by eapply look_arg|]. intros b _. unfold s_ref_back.
      apply spend_tail; [by eapply spend_emplace_back|]. intros p.
      apply bounded_bind0; [apply bounded_size|intros; apply bounded_is_ref].
    - destruct Hpre as [Hi Hm].
      eapply spend_look; [by eapply look_pos|]. intros p Hp; cbv beta in Hp.
      eapply spend_look; [by eapply look_arg|]. intros b Hmv; cbv beta in Hmv. apply spend_idx. unfold sd_insert_fill.
      eapply spend_look; [by eapply look_offset|]. intros z ->.
      destruct (Z.eqb_spec (Z.of_nat k) 0) as [Hk|Hk].
      { destruct k; [|lia]. cbn [Nat.eqb]. apply spend_get. rewrite H0x; [|destruct (_ <? _); lia].
        eapply spend_tri. eapply tri_looks, looks_add, Hd. }
      destruct (Nat.eqb_spec k 0); [lia|].
      replace (Z.of_nat (k + near i (length (s_elems A)) + 1)) with (1 + (Z.of_nat k + Z.of_nat (near i (length (s_elems A))))) by lia.
      rewrite -Z.add_assoc. eapply (spend_make true); [by apply Hmv|exact Hx|]. intros v w' Hx' Htab.
      pose proof (posn_same _ _ _ _ _ Htab Hp) as Hp'. pose proof (dims_same _ _ _ _ _ _ _ _ Htab Hd) as Hd2.
      apply spend_get. eapply spend_look; [by eapply look_to_end|]. intros m ->.
      unfold near. destruct (Z.ltb_spec (Z.of_nat i) (s_size A - Z.of_nat i)) as [Hlt|Hge].
      + replace (Z.of_nat (i `min` (length (s_elems A) - i))) with (Z.of_nat i) by lia.
        eapply spend_look; [by eapply look_front_room|]. intros af ->.
        eapply spend_maybe_front; [done|lia|exact Hx'|].
        intros x2 w2 A2 Hx2 HA2. destruct (seg_dims _ _ _ _ _ Hx2) as (tb2 & lo2 & hi2 & Hdd & _).
        assert (s_size A2 = s_size A) as Hs by (unfold s_size; by rewrite HA2). rewrite Hs in Hdd.
        apply spend_get. eapply spend_look; [by eapply look_first|]. intros p1 Hp1; cbv beta in Hp1.
        eapply spend_tri. eapply tri_fill_front; [done|lia|done].
      + replace (Z.of_nat (i `min` (length (s_elems A) - i))) with (s_size A - Z.of_nat i) by lia.
        eapply spend_look; [by eapply look_back_room|]. intros ab ->.
        replace ((hi - lo) * SS - 1 - s_front A - s_size A) with (back_of A) by (unfold back_of; lia).
        eapply (spend_maybe_back true); [done|lia|exact Hx'|].
        intros x2 w2 A2 Hx2 HA2. destruct (seg_dims _ _ _ _ _ Hx2) as (tb2 & lo2 & hi2 & Hdd & _).
        assert (s_size A2 = s_size A) as Hs by (unfold s_size; by rewrite HA2). rewrite Hs in Hdd.
        apply spend_get. eapply spend_look; [by eapply look_first|]. intros p1 Hp1; cbv beta in Hp1.
        eapply spend_tri. eapply tri_fill_back; [done|lia|done|]. intros p2 _. by apply look_looks, looks_ret.
    - eapply spend_look; [by eapply look_pos|]. intros p Hp; cbv beta in Hp. apply spend_idx. unfold sd_insert_range.
      eapply spend_look; [by eapply look_offset|]. intros z ->.
      eapply (spend_look _ _ _ _ (fun z => z = Z.of_nat (length vs))); [apply look_looks, looks_ret; by rewrite fmap_length|]. intros z ->.
      apply spend_get. destruct (Z.eqb_spec (Z.of_nat (length vs)) 0) as [Hk|Hk].
      { destruct vs; [|done]. cbn [length Nat.eqb]. rewrite H0x; [|destruct (_ <? _); lia].
        eapply spend_tri. eapply tri_looks, looks_add, Hd. }
      destruct (Nat.eqb_spec (length vs) 0); [lia|]. rewrite (Nat2Z.inj_add (length vs)).
      eapply spend_look; [by eapply look_to_end|]. intros m ->.
      unfold near. destruct (Z.ltb_spec (Z.of_nat i) (s_size A - Z.of_nat i)) as [Hlt|Hge].
      + replace (Z.of_nat (i `min` (length (s_elems A) - i))) with (Z.of_nat i) by lia.
        eapply spend_look; [by eapply look_front_room|]. intros af ->.
        eapply spend_maybe_front; [done|lia|exact Hx|].
        intros x2 w2 A2 Hx2 HA2. destruct (seg_dims _ _ _ _ _ Hx2) as (tb2 & lo2 & hi2 & Hdd & _).
        assert (s_size A2 = s_size A) as Hs by (unfold s_size; by rewrite HA2). rewrite Hs in Hdd.
        apply spend_get. eapply spend_look; [by eapply look_first|]. intros p1 Hp1; cbv beta in Hp1.
        eapply spend_tri. rewrite -(fmap_length AVal vs). eapply tri_range_front; [done|lia|done].
      + replace (Z.of_nat (i `min` (length (s_elems A) - i))) with (s_size A - Z.of_nat i) by lia.
        eapply spend_look; [by eapply look_back_room|]. intros ab ->.
        replace ((hi - lo) * SS - 1 - s_front A - s_size A) with (back_of A) by (unfold back_of; lia).
        eapply (spend_maybe_back true); [done|lia|exact Hx|].
        intros x2 w2 A2 Hx2 HA2. destruct (seg_dims _ _ _ _ _ Hx2) as (tb2 & lo2 & hi2 & Hdd & _).
        assert (s_size A2 = s_size A) as Hs by (unfold s_size; by rewrite HA2). rewrite Hs in Hdd.
        apply spend_get. eapply spend_look; [by eapply look_first|]. intros p1 Hp1; cbv beta in Hp1.
        eapply spend_look; [eapply look_looks, looks_minus, Hdd|]. intros p3 Hp3; cbv beta in Hp3.
        rewrite -(fmap_length AVal vs). rewrite -(fmap_length AVal vs) in Hp3. destruct (_ <? _).
        * eapply spend_tri. by eapply tri_range_far.
        * eapply spend_tri. eapply tri_range_near; [done|lia|done].
    - rewrite H0x; [|done]. apply spend_tail; [|intros; free]. apply spend_free, bounded_pop_front.
    - rewrite H0x; [|done]. apply spend_tail; [|intros; free]. apply spend_free, bounded_pop_back.
    - rewrite H0x; [|done]. eapply spend_look; [by eapply look_pos|]. intros p Hp; cbv beta in Hp. apply spend_idx.
      replace (Z.of_nat (i `min` (length (s_elems A) - S i))) with (Z.min (Z.of_nat i) (s_size A - Z.of_nat i - 1)) by lia.
      rewrite Z.add_0_r. eapply spend_tri. eapply tri_sd_erase; [done|lia|done].
    - rewrite H0x; [|done]. eapply spend_look; [by eapply look_pos|]. intros p Hp; cbv beta in Hp.
      eapply spend_look; [by eapply look_pos|]. intros q Hq; cbv beta in Hq. apply spend_idx.
      replace (Z.of_nat (if (i =? j)%nat then 0%nat else (i `min` (length (s_elems A) - j))%nat))
        with (if Z.of_nat i =? Z.of_nat j then 0 else Z.min (Z.of_nat i) (s_size A - Z.of_nat j))
        by (destruct (Nat.eqb_spec i j), (Z.eqb_spec (Z.of_nat i) (Z.of_nat j)); lia).
      rewrite Z.add_0_r. eapply spend_tri. eapply tri_sd_erase_range; [done|lia|lia|done|done].
    - rewrite H0x; [|done]. apply spend_tail; [|intros; free]. by eapply spend_clear.
  Qed.
End calls.

(** ** Input iterators: the elements are emplaced one by one *)
Section input.
  Context `{E : Env} `{SZ : SegSize}.

  Lemma place_posn dev x A w hf z : holds (is_seg dev) x A w hf -> 0 <= z <= s_cap A ->
    posn (ptrs w) (sg_tfirst x).1 (place (sg_tfirst x) A z) ((sg_tfirst x).2 * SS + z).
  Proof.
    intros (Hwf & m & (tb & cs1 & cs2 & H & Hdev) & Hd & Hh) Hz. unfold s_cap in Hz. rewrite (ig_tfirst _ _ _ _ _ _ H). cbn [fst snd].
    pose proof SS_pos as HSS.
    assert (0 <= z / SS < zlen (s_segs A)) as Hdiv.
    { split; [apply Z.div_pos; lia|]. apply Z.div_lt_upper_bound; lia. }
    destruct (lookup_lt_is_Some_2 (s_segs A) (Z.to_nat (z / SS))) as [q Hq]; [lia|].
    exists q, (z mod SS). unfold place. cbn [it_seg it_loc]. rewrite (list_lookup_total_correct _ _ _ Hq).
    split_and!; [|done|apply Z.mod_pos_bound; lia..|done|].
    - unfold ptrs, loc_add. cbn [fst snd]. rewrite Hh. rewrite (lookup_union_Some_l m hf _ (Ptr q)); [done|].
      rewrite -(Z2Nat.id (z / SS)); [|lia]. rewrite -Nat2Z.inj_add. by eapply table_at.
    - unfold loc_add. cbn [fst snd]. pose proof (Z.div_mod z SS ltac:(lia)). lia.
  Qed.
  Lemma posn_inj D tb y y' z : posn D tb y z -> posn D tb y' z -> y = y'.
  Proof.
    intros (b & r & H1 & H2 & H3 & H4 & H5) (b' & r' & H1' & H2' & H3' & H4' & H5').
    destruct y as [[t k] l], y' as [[t' k'] l']. cbn [it_seg it_loc fst snd] in *. subst t t' l l'.
    assert (k = k') as <- by nia. rewrite H1 in H1'. injection H1' as <-. by replace r' with r by lia.
  Qed.
  (** Iterator [p] is element [i]. *)
  Definition elem_pos (x : sgdata) (A : sabs) (w : world) (p : sit) (i : Z) : Prop :=
    posn (ptrs w) (sg_tfirst x).1 p ((sg_tfirst x).2 * SS + s_front A + i).
  Definition one_more (dev : bool) (m : sit -> arg -> M sgdata sit) : Prop := forall x A w hf p i v q x' w',
    holds (is_seg dev) x A w hf -> (i <= length (s_elems A))%nat -> elem_pos x A w p (Z.of_nat i) ->
    m p (AVal v) x w = Ok q x' w' ->
    exists A', holds (is_seg dev) x' A' w' hf /\ length (s_elems A') = S (length (s_elems A)) /\ elem_pos x' A' w' q (Z.of_nat i).
  Lemma pos_sitr dev x A w hf p i : holds (is_seg dev) x A w hf -> 0 <= i <= s_size A -> elem_pos x A w p i ->
    p = sitr (sg_tfirst x) (s_segs A) (s_front A + i).
  Proof.
    intros Hx Hi Hp. destruct (seg_dims _ _ _ _ _ Hx) as (tb & lo & hi & Hd & Hc & _).
    pose proof (dm_fits _ _ _ _ _ _ _ Hd). pose proof (dm_f _ _ _ _ _ _ _ Hd).
    pose proof (place_posn _ _ _ _ _ (s_front A + i) Hx ltac:(lia)) as H1. rewrite Z.add_assoc in H1.
    exact (posn_inj _ _ _ _ _ Hp H1).
  Qed.
  Lemma sitr_pos dev x A w hf i : holds (is_seg dev) x A w hf -> 0 <= i <= s_size A ->
    elem_pos x A w (sitr (sg_tfirst x) (s_segs A) (s_front A + i)) i.
  Proof.
    intros Hx Hi. destruct (seg_dims _ _ _ _ _ Hx) as (tb & lo & hi & Hd & Hc & _).
    pose proof (dm_fits _ _ _ _ _ _ _ Hd). pose proof (dm_f _ _ _ _ _ _ _ Hd).
    pose proof (place_posn _ _ _ _ _ (s_front A + i) Hx ltac:(lia)) as H1. rewrite Z.add_assoc in H1. exact H1.
  Qed.
  Lemma insert_at_length k (v : V) l : (k <= length l)%nat -> length (insert_at k [v] l) = S (length l).
  Proof. intros Hk. unfold insert_at. rewrite !app_length take_length drop_length. simpl. lia. Qed.

  Lemma one_more_run dev (m : sit -> arg -> M sgdata sit) x A w hf p i v q x' w' :
    holds (is_seg dev) x A w hf -> (i <= length (s_elems A))%nat -> m p (AVal v) x w = Ok q x' w' ->
    (forall T, x = sobj T (s_segs A) (s_front A) (zlen (s_elems A)) -> seg_I dev T (s_front A) ->
      sg_at T (s_segs A) (s_front A) (s_elems A) ⊢ wp (m p (AVal v)) (sobj T (s_segs A) (s_front A) (zlen (s_elems A)))
        (fun q x' => ∃ A', ⟦length (s_elems A') = S (length (s_elems A)) /\
           q = sitr (sg_tfirst x') (s_segs A') (s_front A' + Z.of_nat i)⟧ ∗ sinv (seg_I dev) x' A') (fun _ _ => True))%I ->
    exists A', holds (is_seg dev) x' A' w' hf /\ length (s_elems A') = S (length (s_elems A)) /\ elem_pos x' A' w' q (Z.of_nat i).
  Proof.
    intros (Hwf & h & Hm & Hd & Hh) Hi Hr Hwp. apply is_seg_iff in Hm. destruct A as [a segs f l].
    apply ex_holds in Hm as (T & HT). apply pure_sep_holds in HT as [(Hx & Ha & HI) Hs].
    cbn [s_alloc s_segs s_front s_elems] in *. specialize (Hwp T Hx HI). rewrite Hx in Hr.
    pose proof (wp_run _ _ _ _ h hf w (wp_entails _ _ _ _ _ h Hwp Hs) Hwf Hd Hh) as Hrun. rewrite Hr in Hrun.
    destruct Hrun as (h' & Hh' & Hd' & Haf & HQ). apply ex_holds in HQ as (A' & HQ). apply pure_sep_holds in HQ as [[HA Hq] HQ].
    apply is_seg_iff in HQ. assert (holds (is_seg dev) x' A' w' hf) as Hx'.
    { split; [apply Haf|]. by exists h'. }
    exists A'. split_and!; [done|done|]. rewrite Hq. eapply sitr_pos; [exact Hx'|]. unfold s_size. lia.
  Qed.
  Lemma one_more_sv : one_more false sv_emplace.
  Proof.
    intros x A w hf p i v q x' w' Hx Hi Hp Hr.
    assert (0 <= Z.of_nat i <= s_size A) as Hi' by (unfold s_size; lia).
    pose proof (pos_sitr _ _ _ _ _ _ _ Hx Hi' Hp) as Hps.
    eapply (one_more_run false sv_emplace _ _ _ _ _ _ _ _ _ _ Hx Hi Hr).
    intros T -> HI. destruct (HI eq_refl) as [Hpre Hf]. rewrite Hf in Hps. rewrite Hf. iIntros "Hs".
    iApply (back_sv_emplace with "Hs"); [apply sa_val|exact Hi|exact Hps|].
    iSplit; [|iIntros (e T' new l') "_ _"; done].
    iIntros (T' new) "%H Hs". destruct H as [HT _].
    iExists (SAbs (t_al T') (s_segs A ++ new) 0 (insert_at i [v] (s_elems A))). iSplit.
    - iPureIntro. cbn [s_elems s_segs s_front sg_tfirst sobj]. split; [by apply insert_at_length|done].
    - iApply sinv_intro; [done| |done]. intros _. split; [|done]. destruct HT as [_ HT]. by rewrite HT.
  Qed.
  Lemma one_more_sd : one_more true sd_emplace.
  Proof.
    intros x A w hf p i v q x' w' Hx Hi Hp Hr.
    assert (0 <= Z.of_nat i <= s_size A) as Hi' by (unfold s_size; lia).
    pose proof (pos_sitr _ _ _ _ _ _ _ Hx Hi' Hp) as Hps.
    eapply (one_more_run true sd_emplace _ _ _ _ _ _ _ _ _ _ Hx Hi Hr).
    intros T -> HI. iIntros "Hs". destruct (decide (Z.of_nat i < zlen (s_elems A) - Z.of_nat i)) as [Hlt|Hge].
    - iApply (front_sd_emplace with "Hs"); [apply sa_val|exact Hlt|exact Hps|].
      iSplit; [|iIntros (e T' new p' l') "_ _"; done].
      iIntros (T' new) "%H Hs".
      iExists (SAbs (t_al T') (new ++ s_segs A) (slots new + s_front A - 1) (insert_at i [v] (s_elems A))). iSplit.
      + iPureIntro. cbn [s_elems s_segs s_front sg_tfirst sobj]. split; [by apply insert_at_length|done].
      + iApply sinv_intro; [done| |done]. done.
    - iApply (back_sd_emplace with "Hs"); [apply sa_val|exact Hi|exact Hge|exact Hps|].
      iSplit; [|iIntros (e T' new l') "_ _"; done].
      iIntros (T' new) "%H Hs".
      iExists (SAbs (t_al T') (s_segs A ++ new) (s_front A) (insert_at i [v] (s_elems A))). iSplit.
      + iPureIntro. cbn [s_elems s_segs s_front sg_tfirst sobj]. split; [by apply insert_at_length|done].
      + iApply sinv_intro; [done| |done]. done.
  Qed.

  Lemma spend_loop dev m hf (b i0 : nat) lo hi : one_more dev m ->
    (forall x A w p i v, holds (is_seg dev) x A w hf -> (length (s_elems A) = i + b)%nat -> (i0 <= i)%nat ->
      elem_pos x A w p (Z.of_nat i) -> spend x w (m p (AVal v)) lo hi) ->
    forall vs x A w p i, holds (is_seg dev) x A w hf -> (length (s_elems A) = i + b)%nat -> (i0 <= i)%nat ->
      elem_pos x A w p (Z.of_nat i) ->
      spend x w (sq_insert_input_loop m p (AVal <$> vs)) (Z.of_nat (length vs) * lo) (Z.of_nat (length vs) * hi).
  Proof.
    intros Hone Hm vs. induction vs as [|v vs IH]; intros x A w p i Hx Hs Hi Hp r x' w' Hr.
    { simpl in Hr. injection Hr as <- <- <-. simpl. lia. }
    cbn [fmap list_fmap sq_insert_input_loop] in Hr. apply run_bind in Hr as (q & x1 & w1 & H1 & Hr).
    pose proof (Hm _ _ _ _ _ v Hx Hs Hi Hp _ _ _ H1) as Ht.
    assert (i <= length (s_elems A))%nat as Hil by lia.
    destruct (Hone _ _ _ _ _ _ _ _ _ _ Hx Hil Hp H1) as (A1 & Hx1 & Hs1 & Hq).
    apply run_bind in Hr as (q' & x2 & w2 & H2 & Hr).
    destruct (looks_succ (ptrs w1) _ _ _ Hq x1 w1 q' x2 w2 ltac:(by intros pp) H2) as (-> & -> & Hq').
    assert (elem_pos x1 A1 w1 q' (Z.of_nat (S i))) as Hq2.
    { unfold elem_pos. by replace ((sg_tfirst x1).2 * SS + s_front A1 + Z.of_nat (S i))
        with ((sg_tfirst x1).2 * SS + s_front A1 + Z.of_nat i + 1) by lia. }
    assert (length (s_elems A1) = S i + b)%nat as Hs2 by lia. assert (i0 <= S i)%nat as Hi2 by lia.
    specialize (IH _ _ _ _ _ Hx1 Hs2 Hi2 Hq2 _ _ _ Hr). simpl length. lia.
  Qed.

  Lemma spend_sv_emplace x A w hf p i a : holds (is_seg false) x A w hf -> 0 <= i <= s_size A -> elem_pos x A w p i ->
    spend x w (sv_emplace p a) (if i =? s_size A then 1 else s_size A - i + 2)
      ((if i =? s_size A then 1 else s_size A - i + 2) + extra (back_of A) 1).
  Proof.
    intros Hx Hi Hp. destruct (seg_dims _ _ _ _ _ Hx) as (tb & lo & hi & Hd & Hcap & _). unfold elem_pos in Hp.
    rewrite (dm_tfirst _ _ _ _ _ _ _ Hd) in Hp. cbn [fst snd] in Hp. unfold sv_emplace.
    eapply spend_look; [by eapply look_offset|]. intros z ->. apply spend_get.
    eapply spend_look; [by eapply look_first|]. intros p1 Hp1; cbv beta in Hp1.
    eapply (spend_emplace_to false); [|done|lia|].
    - intros x' w' A' tb' lo' hi' Hx' Hd'. eapply look_sv_nth; [done|].
      destruct (seg_dims _ _ _ _ _ Hx') as (? & ? & ? & _ & _ & Hf'). by apply Hf'.
    - intros tb' lo' hi' Hd'. by destruct (same_dims _ _ _ _ _ _ _ _ _ _ _ _ Hd Hd') as [-> ->].
  Qed.
  Lemma spend_sd_emplace x A w hf p (i : nat) a : holds (is_seg true) x A w hf -> (i <= length (s_elems A))%nat -> elem_pos x A w p (Z.of_nat i) ->
    spend x w (sd_emplace p a) (Z.of_nat (if Nat.eqb (near i (length (s_elems A))) 0 then 1 else near i (length (s_elems A)) + 2)%nat)
      (Z.of_nat (if Nat.eqb (near i (length (s_elems A))) 0 then 1 else near i (length (s_elems A)) + 2)%nat + allocs 1).
  Proof.
    intros Hx Hi Hp. destruct (seg_dims _ _ _ _ _ Hx) as (tb & lo & hi & Hd & Hcap & _). unfold elem_pos in Hp.
    rewrite (dm_tfirst _ _ _ _ _ _ _ Hd) in Hp. cbn [fst snd] in Hp. unfold sd_emplace.
    assert (Z.of_nat (length (s_elems A)) = s_size A) as Hsz by done.
    assert (forall room, extra room 1 <= allocs 1) as Hex.
    { intros room. unfold extra. pose proof (allocs_pos 1). destruct (_ <=? _); lia. }
    eapply spend_look; [by eapply look_offset|]. intros z ->. apply spend_get.
    eapply spend_look; [by eapply look_first|]. intros p1 Hp1; cbv beta in Hp1.
    eapply spend_look; [by eapply look_to_end|]. intros m ->.
    unfold near. destruct (Z.ltb_spec (Z.of_nat i) (s_size A - Z.of_nat i)) as [Hlt|Hge].
    + replace (Z.of_nat (if (i `min` (length (s_elems A) - i) =? 0)%nat then 1%nat else (i `min` (length (s_elems A) - i) + 2)%nat))
        with (if Z.of_nat i =? 0 then 1 else Z.of_nat i + 2)
        by (destruct (Nat.eqb_spec (i `min` (length (s_elems A) - i)) 0), (Z.eqb_spec (Z.of_nat i) 0); lia).
      eapply spend_mono; [eapply spend_emplace_fr; [done|lia|]|lia|specialize (Hex (s_front A)); lia].
      intros tb' lo' hi' Hd'. by destruct (same_dims _ _ _ _ _ _ _ _ _ _ _ _ Hd Hd') as [-> ->].
    + replace (Z.of_nat (if (i `min` (length (s_elems A) - i) =? 0)%nat then 1%nat else (i `min` (length (s_elems A) - i) + 2)%nat))
        with (if Z.of_nat i =? s_size A then 1 else s_size A - Z.of_nat i + 2)
        by (destruct (Nat.eqb_spec (i `min` (length (s_elems A) - i)) 0), (Z.eqb_spec (Z.of_nat i) (s_size A)); lia).
      eapply spend_mono; [eapply (spend_emplace_to true); [|done|lia|]|lia|specialize (Hex (back_of A)); lia].
      * intros x' w' A' tb' lo' hi' Hx' Hd'. by eapply look_sd_nth.
      * intros tb' lo' hi' Hd'. by destruct (same_dims _ _ _ _ _ _ _ _ _ _ _ _ Hd Hd') as [-> ->].
  Qed.
  Lemma bounded_sv_nth i : bounded (sv_nth i) 0.
  Proof. unfold sv_nth. apply bounded_bind0; [apply bounded_size|intros]. free. Qed.
  Lemma bounded_sd_nth i : bounded (sd_nth i) 0.
  Proof. unfold sd_nth. apply bounded_bind0; [apply bounded_size|intros]. apply bounded_bind0; [free|]. intros _. apply bounded_bind0; [free|]. intros o. apply bounded_it_add. Qed.

  Lemma start_pos dev x A w hf i p : holds (is_seg dev) x A w hf ->
    forall tb lo hi, dims (ptrs w) tb lo hi x (s_front A) (s_size A) -> posn (ptrs w) tb p (lo * SS + s_front A + i) -> elem_pos x A w p i.
  Proof. intros Hx tb lo hi Hd Hp. unfold elem_pos. by rewrite (dm_tfirst _ _ _ _ _ _ _ Hd). Qed.
End input.

Section input_calls.
  Context `{E : Env} `{SZ : SegSize} (ra : bool).
  Lemma extra_le room : extra room 1 <= allocs 1.
  Proof. unfold extra. pose proof (allocs_pos 1). destruct (_ <=? _); lia. Qed.

  Lemma seg_input_spend i vs x A w hf : (i <= length (s_elems A))%nat -> holds (is_seg false) x A w hf ->
    spend x w (seg_call ra (OInsertInput i vs))
      (Z.of_nat (length vs) * (if Nat.eqb i (length (s_elems A)) then 1 else s_size A - Z.of_nat i + 2))
      (Z.of_nat (length vs) * ((if Nat.eqb i (length (s_elems A)) then 1 else s_size A - Z.of_nat i + 2) + allocs 1)).
  Proof.
    intros Hi Hx. destruct (seg_dims _ _ _ _ _ Hx) as (tb & lo & hi & Hd & Hcap & _). unfold seg_call. cbn [run_svop].
    assert (Z.of_nat (length (s_elems A)) = s_size A) as Hsz by done.
    eapply spend_look; [by eapply look_pos|]. intros p Hp; cbv beta in Hp. apply spend_idx. unfold sq_insert_input.
    eapply spend_look; [by eapply look_offset|]. intros k _.
    apply spend_tail; [|intros; apply bounded_sv_nth].
    eapply (spend_loop false sv_emplace hf (length (s_elems A) - i) i _ _ one_more_sv) with (i := i) (A := A); [|exact Hx|lia|lia|by eapply start_pos].
    intros x1 A1 w1 p1 i1 v Hx1 Hs1 Hi1 Hp1.
    assert (Z.of_nat (length (s_elems A1)) = s_size A1) as Hsz1 by done.
    eapply spend_mono; [eapply (spend_sv_emplace x1 A1 w1 hf p1 (Z.of_nat i1)); [exact Hx1|lia|exact Hp1]| |].
    - destruct (Nat.eqb_spec i (length (s_elems A))), (Z.eqb_spec (Z.of_nat i1) (s_size A1)); lia.
    - pose proof (extra_le (back_of A1)). destruct (Nat.eqb_spec i (length (s_elems A))), (Z.eqb_spec (Z.of_nat i1) (s_size A1)); lia.
  Qed.
  Lemma segd_input_spend i vs x A w hf : (i <= length (s_elems A))%nat -> holds (is_seg true) x A w hf ->
    spend x w (segd_call ra (DInsertInput i vs))
      (Z.of_nat (length vs) * (Z.of_nat (near i (length (s_elems A))) + 1))
      (Z.of_nat (length vs) * (s_size A - Z.of_nat i + 2 + allocs 1)).
  Proof.
    intros Hi Hx. destruct (seg_dims _ _ _ _ _ Hx) as (tb & lo & hi & Hd & Hcap & _). unfold segd_call. cbn [run_sdop].
    assert (Z.of_nat (length (s_elems A)) = s_size A) as Hsz by done.
    eapply spend_look; [by eapply look_pos|]. intros p Hp; cbv beta in Hp. apply spend_idx. unfold sq_insert_input.
    eapply spend_look; [by eapply look_offset|]. intros k _.
    apply spend_tail; [|intros; apply bounded_sd_nth].
    eapply (spend_loop true sd_emplace hf (length (s_elems A) - i) i _ _ one_more_sd) with (i := i) (A := A); [|exact Hx|lia|lia|by eapply start_pos].
    intros x1 A1 w1 p1 i1 v Hx1 Hs1 Hi1 Hp1.
    eapply spend_mono; [eapply (spend_sd_emplace x1 A1 w1 hf p1 i1); [exact Hx1|lia|exact Hp1]| |].
    - unfold near. destruct (Nat.eqb_spec (i1 `min` (length (s_elems A1) - i1)) 0); lia.
    - unfold near. destruct (Nat.eqb_spec (i1 `min` (length (s_elems A1) - i1)) 0); lia.
  Qed.
End input_calls.

Section results.
  Context `{E : Env} `{SZ : SegSize} (ra : bool).

  Lemma seg_insert_cost o x (A : sabs) w hf r x' w' c :
    steps o (length (s_elems A)) = Some c -> input_op o = false -> sv_pre o (length (s_elems A)) = true ->
    holds (is_seg false) x A w hf -> seg_call ra o x w = Ok r x' w' ->
    Z.of_nat (tick w) + Z.of_nat c <= Z.of_nat (tick w') <=
      Z.of_nat (tick w) + Z.of_nat c + extra (s_cap A - s_size A) (Z.of_nat (grows o)).
  Proof.
    intros Hc Hi Hp Hx Hr. pose proof (seg_insert_spend ra o x A w hf c Hc Hi Hp Hx _ _ _ Hr). lia.
  Qed.
  Lemma segd_insert_cost o x (A : sabs) w hf r x' w' c :
    segd_steps o (length (s_elems A)) = Some c -> sd_pre o (sd_geom A) = true ->
    holds (is_seg true) x A w hf -> segd_call ra o x w = Ok r x' w' ->
    Z.of_nat (tick w) + Z.of_nat c <= Z.of_nat (tick w') <=
      Z.of_nat (tick w) + Z.of_nat c + extra (segd_room o A) (Z.of_nat (segd_grows o)).
  Proof.
    intros Hc Hp Hx Hr.
    assert (Z.to_nat (g_size (sd_geom A)) = length (s_elems A)) as Hs by (cbn [sd_geom g_size]; unfold s_size; lia).
    enough (match o with
    | DEmplace i _ | DInsertRange i _ => (i <= length (s_elems A))%nat
    | DInsertN i _ a => (i <= length (s_elems A))%nat /\ x_moves a = false
    | DErase i => (i < length (s_elems A))%nat
    | DEraseRange i j => (i <= j <= length (s_elems A))%nat
    | _ => True
    end) as Hpre.
    { pose proof (segd_insert_spend ra o x A w hf c Hc Hpre Hx _ _ _ Hr). lia. }
    unfold sd_pre, dev_doc in Hp. rewrite Hs in Hp. destruct o; try done; lia.
  Qed.
  Lemma seg_input_cost i vs x (A : sabs) w hf r x' w' :
    (i <= length (s_elems A))%nat -> holds (is_seg false) x A w hf -> seg_call ra (OInsertInput i vs) x w = Ok r x' w' ->
    let c := Z.of_nat (if Nat.eqb i (length (s_elems A)) then 1 else length (s_elems A) - i + 2)%nat in
    Z.of_nat (tick w) + Z.of_nat (length vs) * c <= Z.of_nat (tick w') <=
      Z.of_nat (tick w) + Z.of_nat (length vs) * (c + allocs 1).
  Proof.
    intros Hi Hx Hr. cbv zeta. pose proof (seg_input_spend ra i vs x A w hf Hi Hx _ _ _ Hr) as H.
    assert (Z.of_nat (length (s_elems A)) = s_size A) as Hsz by done.
    assert (Z.of_nat (if Nat.eqb i (length (s_elems A)) then 1 else length (s_elems A) - i + 2)%nat =
      if Nat.eqb i (length (s_elems A)) then 1 else s_size A - Z.of_nat i + 2) as -> by (destruct (Nat.eqb _ _); lia).
    exact H.
  Qed.
  Lemma segd_input_cost i vs x (A : sabs) w hf r x' w' :
    (i <= length (s_elems A))%nat -> holds (is_seg true) x A w hf -> segd_call ra (DInsertInput i vs) x w = Ok r x' w' ->
    Z.of_nat (tick w) + Z.of_nat (length vs) * (Z.of_nat (near i (length (s_elems A))) + 1) <= Z.of_nat (tick w') <=
      Z.of_nat (tick w) + Z.of_nat (length vs) * (Z.of_nat (length (s_elems A) - i) + 2 + allocs 1).
  Proof.
    intros Hi Hx Hr. pose proof (segd_input_spend ra i vs x A w hf Hi Hx _ _ _ Hr) as H.
    assert (Z.of_nat (length (s_elems A) - i) = s_size A - Z.of_nat i) as -> by (unfold s_size; lia). exact H.
  Qed.

  (** [m] elements, then [n] from input iterators, at the beginning. *)
  Lemma seg_input_product v m n :
    (forall k t, may_throw k t = false) -> (1 <= m)%nat -> Z.of_nat (m + n) <= max_size ->
    exists x w r x' w',
      build (segvec ra) (KRange 0 (replicate m v)) tt w0 = Ok x tt w /\
      seg_call ra (OInsertInput 0 (replicate n v)) x w = Ok r x' w' /\ (tick w + n * (m + 2) <= tick w')%nat.
  Proof.
    intros Hq Hm Hmax. pose proof (seg_ctor_safe ra (KRange 0 (replicate m v)) w0 ∅ w0_holds) as H0.
    destruct (build (segvec ra) _ tt w0) as [x [] w|e [] w|] eqn:Hb; [| |done].
    2:{ destruct H0 as (_ & Hk & Hre). destruct e; simpl in *; try done.
        - rewrite replicate_length in Hk. lia.
        - destruct Hre as (t & Ht & _). pose proof (Hq KAlloc t) as Hq'. simpl in Hq'. congruence.
        - destruct Hre as (k & t & _ & Ht & _). pose proof (Hq k t) as Hq'. simpl in Hq'. congruence. }
    destruct H0 as (A & Hx & (_ & Hl & _) & _). simpl in Hl.
    assert (length (s_elems A) = m) as Hlen by by rewrite Hl replicate_length.
    pose proof (seg_calm ra (OInsertInput 0 (replicate n v)) x A w ∅ Hq Hx) as H.
    assert (sv_pre (OInsertInput 0 (replicate n v)) (length (s_elems A)) = true) as Hp by done. specialize (H Hp).
    destruct (seg_call ra _ x w) as [r x' w'|e x' w'|] eqn:Hr; [| |done].
    2:{ destruct H as ([(_ & Hn)|(_ & j & Hn & _)] & _); [|discriminate Hn]. cbn [needed] in Hn. rewrite Hlen replicate_length in Hn. lia. }
    exists x, w, r, x', w'. split; [done|]. split; [done|].
    assert (0 <= length (s_elems A))%nat as Hi by lia.
    pose proof (seg_input_cost 0 (replicate n v) x A w ∅ r x' w' Hi Hx Hr) as Hc. cbv zeta in Hc. rewrite replicate_length Hlen in Hc.
    destruct (Nat.eqb_spec 0 m); [lia|]. nia.
  Qed.
End results.
