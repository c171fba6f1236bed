(** * Cost of copy assignment of the segmented containers *)

From iris.proofmode Require Import tactics.
From Verif Require Export SegSwapCost.
From Coq Require Import Lia ZifyBool.
Open Scope Z_scope.

Section copy.
  Context `{E : Env} `{SZ : SegSize}.
  (** A source of [n] elements, given the tables [D]. *)
  Definition sized (D : loc -> option loc) (s : source) (n : Z) : Prop :=
    match s with
    | SList _ l => n = Z.of_nat (length l)
    | SSeg f l => exists tb a, posn D tb f a /\ posn D tb l (a + n)
    end.
  Lemma sized_len D {St} s n : sized D s n -> looks D (src_len s : M St Z) (fun z => z = n).
  Proof.
    destruct s as [ra l|f l]; cbn; [intros ->; by apply looks_ret|]. intros (tb & a & Hf & Hl).
    intros st w r st' w' Hw Hr. destruct (looks_diff D tb _ _ _ _ Hl Hf _ _ _ _ _ Hw Hr) as (-> & -> & ->). split_and!; try done. lia.
  Qed.
  Lemma sized_cut D {St} s n k : sized D s n -> 0 <= k <= n ->
    looks D (src_cut s k : M St _) (fun xs => sized D xs.1 k /\ sized D xs.2 (n - k)).
  Proof.
    intros Hs Hk. destruct s as [ra l|f l]; cbn in *.
    - apply looks_ret. cbn. rewrite take_length drop_length. lia.
    - destruct Hs as (tb & a & Hf & Hl). eapply looks_bind; [eapply looks_add, Hf|]. intros mid Hm; cbv beta in Hm. apply looks_ret. cbn.
      split; [by exists tb, a|]. exists tb, (a + k). split; [done|]. by replace (a + k + (n - k)) with (a + n) by lia.
  Qed.
  Lemma sized_copy D {St} (st : St) s n d : sized D s n -> tri D st (src_copy s d) any n.
  Proof.
    destruct s as [ra l|f l]; cbn [sized]; [intros ->; apply tri_src_copy|]. intros (tb & a & Hf & Hl). cbn [src_copy]. unfold s_copy.
    replace n with (a + n - a) by lia. eapply tri_in; [|exact Hf|exact Hl].
    intros s' p q d'. eapply tri_look; [apply looks_range|]. intros l' <-. apply tri_copy_ra.
  Qed.
  Lemma sized_ucopy D {St} (st : St) s n d : sized D s n -> tri D st (src_ucopy s d) any n.
  Proof.
    destruct s as [ra l|f l]; cbn [sized]; [intros ->; apply tri_src_ucopy|]. intros (tb & a & Hf & Hl). cbn [src_ucopy]. unfold s_ucopy.
    replace n with (a + n - a) by lia. eapply tri_in; [|exact Hf|exact Hl].
    intros s' p q d'. eapply tri_look; [apply looks_range|]. intros l' <-. apply tri_ucopy_ra.
  Qed.
  Lemma sized_two D (x : sgdata) s n m d d2 : sized D s n -> 0 <= m <= n -> tri D x
    (xs <- src_cut s m;; src_copy xs.1 d;; nl <- src_ucopy xs.2 d2;; sq_set_last nl)%prog any n.
  Proof.
    intros Hs Hm. eapply (tri_look D); [by eapply sized_cut|]. intros xs [H1 H2]. eapply tri_weak; [|done|].
    - eapply tri_bind; [by eapply sized_copy|]. intros ? ? _. eapply tri_bind; [by eapply sized_ucopy|]. intros ? ? _. apply tri_set_last.
    - lia.
  Qed.
  (** The source lies outside the container: it has as many elements whatever the container does. *)
  Definition fed (dev : bool) (s : source) (n : Z) (hf : heapm) : Prop :=
    0 <= n /\ forall x A w, holds (is_seg dev) x A w hf -> sized (ptrs w) s n.
  Lemma fed_sv x w A hf s n : fed false s n hf -> holds (is_seg false) x A w hf ->
    spend x w (sv_assign_range s) n (n + extra (s_cap A) n).
  Proof.
    intros [Hn Hs] Hx. destruct (seg_dims _ _ _ _ _ Hx) as (tb & lo & hi & Hd & Hc & _).
    pose proof (dm_f _ _ _ _ _ _ _ Hd). pose proof (dm_n _ _ _ _ _ _ _ Hd). pose proof (dm_fits _ _ _ _ _ _ _ Hd).
    unfold sv_assign_range. eapply (spend_look _ _ _ _ (fun z => z = n)); [eapply look_looks, sized_len, Hs, Hx|]. intros ? ->.
    eapply spend_look; [by eapply look_size|]. intros ? ->. apply spend_get. destruct (Z.leb_spec n (s_size A)).
    - rewrite extra_room; [|lia]. rewrite Z.add_0_r. eapply spend_tri, tri_weak; [|done|].
      + eapply tri_bind; [eapply sized_copy, Hs, Hx|]. intros ? ? _. apply tri_cut_at.
      + lia.
    - eapply spend_look; [by eapply look_cap|]. intros ? ->. replace ((hi - lo) * SS - 1) with (s_cap A) by lia.
      eapply (spend_maybe_back false); [lia|lia|exact Hx|].
      intros x2 w2 A2 Hx2 HA2. apply spend_get. eapply spend_tri, sized_two; [by eapply Hs|lia].
  Qed.
  Lemma fed_sd x w A hf s n : fed true s n hf -> holds (is_seg true) x A w hf ->
    spend x w (sd_assign_range s) n (n + extra (s_cap A) n).
  Proof.
    intros [Hn Hs] Hx. destruct (seg_dims _ _ _ _ _ Hx) as (tb & lo & hi & Hd & Hc & _).
    pose proof (dm_f _ _ _ _ _ _ _ Hd). pose proof (dm_n _ _ _ _ _ _ _ Hd). pose proof (dm_fits _ _ _ _ _ _ _ Hd).
    unfold sd_assign_range. eapply (spend_look _ _ _ _ (fun z => z = n)); [eapply look_looks, sized_len, Hs, Hx|]. intros ? ->.
    eapply spend_look; [by eapply look_size|]. intros ? ->. apply spend_get. destruct (Z.leb_spec n (s_size A)).
    { rewrite extra_room; [|lia]. rewrite Z.add_0_r. eapply spend_tri, tri_weak; [|done|].
      - eapply tri_bind; [eapply sized_copy, Hs, Hx|]. intros ? ? _. apply tri_cut_at.
      - lia. }
    eapply spend_look; [by eapply look_back_room|]. intros ab ->. replace ((hi - lo) * SS - 1 - s_front A - s_size A) with (back_of A) by (unfold back_of; lia).
    assert (s_cap A = s_front A + s_size A + back_of A) as Hsum by (unfold back_of; lia).
    destruct (Z.leb_spec n (s_size A + back_of A)).
    { rewrite extra_room; [|lia]. rewrite Z.add_0_r. eapply spend_tri, sized_two; [by eapply Hs|lia]. }
    eapply spend_look; [by eapply look_front_room|]. intros ? ->. destruct (Z.leb_spec n (s_front A + s_size A + back_of A)).
    { rewrite extra_room; [|lia]. rewrite Z.add_0_r. eapply spend_tri.
      eapply tri_look; [eapply sized_cut; [by eapply Hs|]|]. { unfold back_of in *. lia. } intros xs [H11 H12].
      eapply tri_look; [eapply sized_cut; [exact H12|]|]. { unfold back_of in *. lia. } intros ys [H21 H22].
      eapply tri_weak; [|done|].
      - eapply tri_bind; [by eapply sized_copy|]. intros ? ? _. eapply tri_bind; [by eapply sized_ucopy|]. intros ? ? _.
        eapply tri_bind0; [apply tri_set_last|]. intros ? ? _. eapply tri_look; [eapply looks_minus, Hd|]. intros nf Hnf; cbv beta in Hnf.
        eapply tri_bind; [by eapply sized_ucopy|]. intros ? ? _. apply tri_set_first.
      - lia. }
    rewrite extra_more; [|lia]. eapply spend_mono; [|apply Z.le_refl|].
    - eapply (spend_back_front true _ _ _ _ _ _ n n); [|exact Hx|]; [lia|].
      intros x2 w2 A2 Hx2 HA2 HF2. apply spend_get. eapply spend_tri.
      eapply tri_look; [eapply sized_cut; [by eapply Hs|]|]. { unfold back_of in *. lia. } intros xs [H11 H12].
      eapply tri_look; [eapply sized_cut; [exact H12|]|]. { unfold back_of in *. lia. } intros ys [H21 H22].
      eapply tri_weak; [|done|].
      + eapply tri_bind; [by eapply sized_copy|]. intros ? ? _. eapply tri_bind; [by eapply sized_ucopy|]. intros ? ? _.
        eapply tri_bind0; [apply tri_set_last|]. intros ? ? _.
        eapply tri_bind; [by eapply sized_ucopy|]. intros ? ? _. apply tri_set_first.
      + lia.
    - pose proof (allocs_mono (n - (s_front A + s_size A + back_of A)) n). lia.
  Qed.

  (** ** New storage *)
  Lemma takes_reset a : takes (sq_reset_alloc a) 2 2.
  Proof.
    unfold sq_reset_alloc. eapply takes_mono; [apply (takes_bind _ _ 2 2 0 0)|lia..].
    - unfold with_temp. apply takes_local. eapply takes_mono; [apply (takes_bind _ _ 2 2 0 0)|lia..].
      + apply takes_on2. rewrite -tables_0. apply takes_storage. lia.
      + intros _. apply takes_bind0; [|intros _; apply takes_on2, takes_destructor].
        apply takes_bind0; [apply takes_on1, takes_drop|]. intros _. apply takes_mod.
    - intros _. apply takes_mod.
  Qed.
  Lemma reset_run dev x A w hf a x' w' : holds (is_seg dev) x A w hf -> sq_reset_alloc a x w = Ok tt x' w' ->
    (exists A', holds (is_seg dev) x' A' w' hf /\ s_cap A' = SS - 1) /\ Z.of_nat (tick w') = Z.of_nat (tick w) + 2.
  Proof.
    intros Hx Hr. split; [|apply takes_reset in Hr; lia].
    destruct Hx as (Hwf & m & Hm & Hd & Hh). apply is_seg_iff in Hm. destruct A as [a0 segs f l].
    apply ex_holds in Hm as (T & HT). apply pure_sep_holds in HT as [(-> & Ha & HI) Hs].
    cbn [s_alloc s_segs s_front s_elems] in *. subst a0.
    assert (sg_at T segs f l ⊢ wp (sq_reset_alloc a) (sobj T segs f (zlen l))
      (fun _ x' => ∃ A', ⟦s_cap A' = SS - 1⟧ ∗ sinv (seg_I dev) x' A') (fun _ _ => True))%I as Hwp.
    { iIntros "Hs". iApply (wp_sq_reset_alloc with "Hs"). iSplit; [|iIntros "_"; done].
      iIntros (T' segs') "%H Hs". destruct H as (H1 & H2 & H3). iExists (SAbs (t_al T') segs' 0 []). iSplit.
      { iPureIntro. unfold s_cap. cbn [s_segs]. rewrite Z.div_0_l in H3; [|pose proof SS_pos; lia]. unfold slots. rewrite ?H3. lia. }
      iApply sinv_intro; [done| |done]. unfold seg_I in *. destruct dev; done. }
    pose proof (wp_run _ _ _ _ m hf w (wp_entails _ _ _ _ _ m Hwp Hs) Hwf Hd Hh) as Hrun. rewrite Hr in Hrun.
    destruct Hrun as (h' & Hh' & Hd' & Haf & HQ). apply ex_holds in HQ as (A' & HQ). apply pure_sep_holds in HQ as [HA HQ].
    apply is_seg_iff in HQ. exists A'. split; [|done]. split; [apply Haf|]. by exists h'.
  Qed.

  (** ** Two objects *)
  (** Assignment replaces the allocator by a different one: the storage is replaced by an empty
      one, a table and a segment. *)
  Definition replaced (propagate : bool) (A B : sabs) : bool := propagate && negb (Nat.eqb (s_alloc A) (s_alloc B)).
  Definition new_storage (b : bool) : Z := if b then 2 else 0.
  Definition room_after (b : bool) (A : sabs) : Z := if b then SS - 1 else s_cap A.

  Lemma second_fed dev x A y B w hf : holds2 (is_seg dev) x A y B w hf ->
    exists hf', holds (is_seg dev) x A w hf' /\ fed dev (SSeg (sg_first y) (sg_last y)) (s_size B) hf' /\
      forall x A w, holds (is_seg dev) x A w hf' -> exists hf2, holds (is_seg dev) y B w hf2.
  Proof.
    intros (Hwf & m1 & m2 & H1 & H2 & Hd1 & Hd2 & Hd3 & Hh). exists (m2 ∪ hf). split.
    { split; [done|]. exists m1. split_and!; [done|by apply map_disjoint_union_r|]. by rewrite Hh assoc_L. }
    assert (forall x A w, holds (is_seg dev) x A w (m2 ∪ hf) -> exists hf2, holds (is_seg dev) y B w hf2) as Hy.
    { intros x1 A1 w1 (Hwf1 & m & Hm & Hd & Hh1). apply map_disjoint_union_r in Hd as [Hda Hdb].
      exists (m ∪ hf). split; [done|]. exists m2. split_and!; [done|by apply map_disjoint_union_r|].
      by rewrite Hh1 !assoc_L (map_union_comm m m2). }
    split; [|exact Hy]. split; [unfold s_size; lia|].
    intros x1 A1 w1 Hx1. destruct (Hy _ _ _ Hx1) as [hf2 Hy1]. destruct (seg_dims _ _ _ _ _ Hy1) as (tb & lo & hi & Hd & _).
    cbn. exists tb, (lo * SS + s_front B). split; apply Hd.
  Qed.
  Lemma set_same_alloc (x y : sgdata) : sg_alloc x = sg_alloc y -> sg_set_alloc (sg_alloc y) x = x.
  Proof. intros <-. by destruct x. Qed.
  Lemma copy_cost dev ar x A y B w hf r xy w' :
    (forall x w A hf s n, fed dev s n hf -> holds (is_seg dev) x A w hf -> spend x w (ar s) n (n + extra (s_cap A) n)) ->
    holds2 (is_seg dev) x A y B w hf -> sq_run2 ar PCopy (x, y) w = Ok r xy w' ->
    let n := s_size B in let b := replaced pocca A B in
    Z.of_nat (tick w) + new_storage b + n <= Z.of_nat (tick w') <= Z.of_nat (tick w) + new_storage b + n + extra (room_after b A) n.
  Proof.
    intros Har H2 Hr. destruct (second_fed _ _ _ _ _ _ _ H2) as (hf' & Hx & Hf & Hy). destruct (Hy _ _ _ Hx) as [hf2 Hy0].
    pose proof (seg_alloc_of _ _ _ _ _ Hx) as Ha1. pose proof (seg_alloc_of _ _ _ _ _ Hy0) as Ha2.
    change (unit_result (sq_assign_copy ar) (x, y) w = Ok r xy w') in Hr. apply run_unit in Hr as [Hr _].
    apply run_bind in Hr as (oo & xy1 & w1 & H1 & Hr). injection H1 as <- <- <-. cbn [fst snd] in Hr.
    apply run_bind in Hr as ([] & xy1 & w1 & H1 & Hr). rewrite Ha1 in H1. cbv zeta. unfold replaced.
    assert (forall xy1, xy1 = (x, y) -> w1 = w -> on1 (ar (SSeg (sg_first y) (sg_last y))) xy1 w1 = Ok tt xy w' ->
      Z.of_nat (tick w) + new_storage false + s_size B <= Z.of_nat (tick w') <= Z.of_nat (tick w) + new_storage false + s_size B + extra (room_after false A) (s_size B)) as Hplain.
    { intros ? -> -> H. apply run_on1 in H as (x1 & _ & H). apply (Har _ _ _ _ _ _ Hf Hx) in H. cbn. lia. }
    destruct pocca; [|by (cbn [andb]; injection H1 as <- <-; eapply Hplain; [| |destruct xy; exact Hr])].
    rewrite Ha2 in H1. destruct (Nat.eqb_spec (s_alloc A) (s_alloc B)) as [He|Hne]; cbn [negb andb] in *.
    - apply run_on1 in H1 as (x1 & -> & H1). injection H1 as <- <-. eapply Hplain; [|done|exact Hr].
      rewrite -Ha2. rewrite set_same_alloc; [done|congruence].
    - apply run_on1 in H1 as (x1 & -> & H1). destruct (reset_run _ _ _ _ _ _ _ _ Hx H1) as [(A1 & Hx1 & Hc) Ht].
      apply run_on1 in Hr as (x2 & _ & Hr). apply (Har _ _ _ _ _ _ Hf Hx1) in Hr. rewrite Hc in Hr. cbn [new_storage room_after]. lia.
  Qed.
  Definition seg_copy_cost := fun x A y B w hf r xy w' => copy_cost false sv_assign_range x A y B w hf r xy w' fed_sv.
  Definition segd_copy_cost := fun x A y B w hf r xy w' => copy_cost true sd_assign_range x A y B w hf r xy w' fed_sd.
  (** Element-wise move assignment: different allocators. *)
  Lemma move_each_cost dev ar x A y B w hf r xy w' :
    (forall x w A hf s n, fed dev s n hf -> holds (is_seg dev) x A w hf -> spend x w (ar s) n (n + extra (s_cap A) n)) ->
    holds2 (is_seg dev) x A y B w hf -> s_alloc A <> s_alloc B -> sq_run2 ar PMove (x, y) w = Ok r xy w' ->
    let n := s_size B in let b := replaced pocma A B in
    Z.of_nat (tick w) + new_storage b + n <= Z.of_nat (tick w') <= Z.of_nat (tick w) + new_storage b + n + extra (room_after b A) n.
  Proof.
    intros Har H2 Hne Hr. destruct (second_fed _ _ _ _ _ _ _ H2) as (hf' & Hx & Hf & Hy). destruct (Hy _ _ _ Hx) as [hf2 Hy0].
    pose proof (seg_alloc_of _ _ _ _ _ Hx) as Ha1. pose proof (seg_alloc_of _ _ _ _ _ Hy0) as Ha2.
    change (unit_result (sq_assign_move ar) (x, y) w = Ok r xy w') in Hr. apply run_unit in Hr as [Hr _].
    apply run_bind in Hr as (oo & xy1 & w1 & H1 & Hr). injection H1 as <- <- <-. cbn [fst snd] in Hr. rewrite Ha1 Ha2 in Hr.
    cbv zeta. unfold replaced. apply Nat.eqb_neq in Hne. rewrite Hne in Hr |- *. cbn [negb] in *. rewrite andb_true_r.
    assert (forall x1 A1 w1, holds (is_seg dev) x1 A1 w1 hf' -> sq_assign_moves ar (x1, y) w1 = Ok tt xy w' ->
      Z.of_nat (tick w1) + s_size B <= Z.of_nat (tick w') <= Z.of_nat (tick w1) + s_size B + extra (s_cap A1) (s_size B)) as Hm.
    { clear Hr. intros x1 A1 w1 Hx1 Hr. destruct (Hy _ _ _ Hx1) as [hf3 Hy1].
      apply run_bind in Hr as (oo & xy1 & w2 & H1 & Hr). injection H1 as <- <- <-. cbn [fst snd] in Hr.
      apply run_bind in Hr as (z & xy1 & w2 & H1 & Hr). apply run_on2 in H1 as (y1 & -> & H1).
      destruct (seg_dims dev _ _ _ _ Hy1) as (tb & lo & hi & Hd & _).
      destruct (look_size _ _ _ _ _ _ _ Hd w1 _ _ _ (fun p => eq_refl) H1) as (-> & -> & ->).
      apply run_bind in Hr as (l & xy1 & w2 & H3 & Hr). apply run_refs in H3 as (-> & -> & Hl).
      apply run_on1 in Hr as (x2 & -> & Hr).
      assert (Z.of_nat (length l) = s_size B) as Hn by (rewrite Hl; unfold s_size; lia).
      assert (fed dev (SList true l) (s_size B) hf') as Hfl by (split; [unfold s_size; lia|by intros ? ? ? _]).
      apply (Har _ _ _ _ _ _ Hfl Hx1) in Hr. lia. }
    destruct pocma; [|by apply (Hm _ _ _ Hx) in Hr; cbn; lia].
    apply run_bind in Hr as ([] & xy1 & w1 & H1 & Hr). apply run_on1 in H1 as (x1 & -> & H1).
    destruct (reset_run _ _ _ _ _ _ _ _ Hx H1) as [(A1 & Hx1 & Hc) Ht]. apply (Hm _ _ _ Hx1) in Hr. rewrite Hc in Hr. cbn [new_storage room_after]. lia.
  Qed.
  Definition seg_move_each_cost := fun x A y B w hf r xy w' => move_each_cost false sv_assign_range x A y B w hf r xy w' fed_sv.
  Definition segd_move_each_cost := fun x A y B w hf r xy w' => move_each_cost true sd_assign_range x A y B w hf r xy w' fed_sd.
End copy.
