(** * Cost of [swap] and of move assignment of the segmented containers *)

From iris.proofmode Require Import tactics.
From Verif Require Export SegAssignCost.
From Coq Require Import Lia ZifyBool.
Open Scope Z_scope.

Section swap.
  Context `{E : Env} `{SZ : SegSize}.
  Lemma takes_on1 {S1 S2 T} (m : M S1 T) lo hi : takes m lo hi -> takes (on1 m : M (S1 * S2) T) lo hi.
  Proof. intros Hm [x y] w r s' w' Hr. apply run_on1 in Hr as (x' & _ & Hr). by apply Hm in Hr. Qed.
  Lemma takes_on2 {S1 S2 T} (m : M S2 T) lo hi : takes m lo hi -> takes (on2 m : M (S1 * S2) T) lo hi.
  Proof. intros Hm [x y] w r s' w' Hr. apply run_on2 in Hr as (x' & _ & Hr). by apply Hm in Hr. Qed.
  Lemma takes_local {St L T} (l : L) (m : M (St * L) T) lo hi : takes m lo hi -> takes (local_ l m) lo hi.
  Proof.
    intros Hm s w r s' w'. unfold local_. destruct (m (s, l) w) as [a [x y] w1|e [x y] w1|] eqn:Hr; try done.
    intros [= <- <- <-]. by apply Hm in Hr.
  Qed.
  Lemma takes_clear : takes sq_clear 0 0.
  Proof. intros s w r s' w' Hr. apply (spend_clear s w) in Hr. lia. Qed.
  Lemma takes_free : takes sq_deallocate_storage 0 0.
  Proof.
    unfold sq_deallocate_storage. apply takes_bind0; [apply takes_get|]. intros o.
    apply takes_bind0; [apply takes_bounded, bounded_free_segments|]. intros _.
    apply takes_bind0; [apply takes_bounded, bounded_ptr_sub|]. intros c. apply takes_bounded, bounded_deallocate.
  Qed.
  Lemma takes_drop : takes sq_drop_storage 0 0.
  Proof.
    unfold sq_drop_storage. apply takes_bind0; [apply takes_clear|]. intros _.
    apply takes_bind0; [apply takes_free|]. intros _. apply takes_mod.
  Qed.
  Lemma takes_destructor : takes sq_destructor 0 0.
  Proof.
    intros s w r s' w' Hr. apply run_bind in Hr as (o & s1 & w1 & H1 & Hr). injection H1 as <- <- <-.
    apply run_bind in Hr as ([] & s1 & w1 & H1 & Hr). apply takes_free in Hr.
    assert (sq_clear s w = Ok tt (sg_set_last (sg_first s) s1) w1) as H.
    { unfold sq_clear, bind, getS. rewrite H1. reflexivity. }
    apply takes_clear in H. lia.
  Qed.
  Lemma sg_swap_cost x y w r xy w' ar : sq_run2 ar PSwap (x, y) w = Ok r xy w' -> w' = w.
  Proof.
    intros Hr. change (unit_result sq_swap (x, y) w = Ok r xy w') in Hr. apply run_unit in Hr as [Hr _]. revert Hr.
    unfold sq_swap, bind, getS, putS, modS, assert_, ret. cbn. destruct (pocs || _), pocs; cbn; congruence.
  Qed.
  Lemma move_same_cost ar x y w r xy w' : sg_alloc x = sg_alloc y -> sq_run2 ar PMove (x, y) w = Ok r xy w' ->
    tick w' = (tick w + 2)%nat.
  Proof.
    intros Ha Hr. change (unit_result (sq_assign_move ar) (x, y) w = Ok r xy w') in Hr. apply run_unit in Hr as [Hr _].
    apply run_bind in Hr as (oo & xy1 & w1 & H1 & Hr). injection H1 as <- <- <-. cbn [fst snd] in Hr.
    rewrite Ha Nat.eqb_refl in Hr. apply run_bind in Hr as ([] & xy1 & w1 & H1 & Hr).
    assert (w' = w1) as -> by (destruct pocma; by injection Hr as _ <-).
    apply (takes_local _ _ 2 2) in H1; [lia|].
    eapply takes_mono; [apply (takes_bind _ _ 2 2 0 0)|lia..].
    - apply takes_on2. rewrite -tables_0. apply takes_storage. lia.
    - intros _. apply takes_bind0; [apply takes_on1, takes_on1, takes_drop|]. intros _.
      apply takes_bind0; [apply takes_on1, takes_mod|]. intros _.
      apply takes_bind0; [apply takes_mod|]. intros _. apply takes_on2, takes_destructor.
  Qed.
  Lemma run_refs {St} mk n : forall p (s : St) w l s' w', seg_refs mk p n s w = Ok l s' w' ->
    s' = s /\ w' = w /\ length l = n.
  Proof.
    induction n as [|n IH]; intros p s w l s' w' Hr; cbn [seg_refs] in Hr; [by injection Hr as <- <- <-|].
    apply run_bind in Hr as (q & s1 & w1 & H1 & Hr). apply run_bind in Hr as (l1 & s2 & w2 & H2 & Hr). injection Hr as <- <- <-.
    apply IH in H2 as (-> & -> & H2). cbn [length]. rewrite H2.
    assert (s1 = s /\ w1 = w) as [-> ->]; [|done].
    revert H1. unfold it_succ, bind, read_ptr, ret. repeat case_match; intros; simplify_eq; done.
  Qed.
  Lemma holds2_first dev x A y B w hf : holds2 (is_seg dev) x A y B w hf -> exists hf', holds (is_seg dev) x A w hf'.
  Proof.
    intros (Hwf & m1 & m2 & H1 & H2 & Hd1 & Hd2 & Hd3 & Hh). exists (m2 ∪ hf). split; [done|]. exists m1.
    split_and!; [done|by apply map_disjoint_union_r|]. by rewrite Hh assoc_L.
  Qed.
  Lemma seg_alloc_of dev x A w hf : holds (is_seg dev) x A w hf -> sg_alloc x = s_alloc A.
  Proof. intros (_ & m & (tb & cs1 & cs2 & HI & _) & _). apply HI. Qed.
  (** Different allocators that do not propagate: the elements are moved one by one. *)
  Lemma move_other_cost dev ar x A y B w hf r xy w' :
    (forall x w A hf ra l, holds (is_seg dev) x A w hf -> let n := Z.of_nat (length l) in spend x w (ar (SList ra l)) n (n + extra (s_cap A) n)) ->
    holds2 (is_seg dev) x A y B w hf -> s_alloc A <> s_alloc B -> pocma = false -> sq_run2 ar PMove (x, y) w = Ok r xy w' ->
    let n := s_size B in Z.of_nat (tick w) + n <= Z.of_nat (tick w') <= Z.of_nat (tick w) + n + extra (s_cap A) n.
  Proof.
    intros Har H2 Hne Hp Hr. destruct (holds2_first _ _ _ _ _ _ _ H2) as [hf1 Hx]. destruct (holds2_second _ _ _ _ _ _ _ H2) as [hf2 Hy].
    change (unit_result (sq_assign_move ar) (x, y) w = Ok r xy w') in Hr. apply run_unit in Hr as [Hr _].
    apply run_bind in Hr as (oo & xy1 & w1 & H1 & Hr). injection H1 as <- <- <-. cbn [fst snd] in Hr.
    rewrite (seg_alloc_of _ _ _ _ _ Hx) (seg_alloc_of _ _ _ _ _ Hy) Hp in Hr.
    apply Nat.eqb_neq in Hne. rewrite Hne in Hr.
    apply run_bind in Hr as (oo & xy1 & w1 & H1 & Hr). injection H1 as <- <- <-. cbn [fst snd] in Hr.
    apply run_bind in Hr as (z & xy1 & w1 & H1 & Hr). apply run_on2 in H1 as (y1 & -> & H1).
    destruct (seg_dims dev _ _ _ _ Hy) as (tb & lo & hi & Hd & _).
    destruct (look_size _ _ _ _ _ _ _ Hd w _ _ _ (fun p => eq_refl) H1) as (-> & -> & ->).
    apply run_bind in Hr as (l & xy1 & w1 & H3 & Hr). apply run_refs in H3 as (-> & -> & Hl).
    apply run_on1 in Hr as (x1 & -> & Hr). apply (Har _ _ _ _ _ _ Hx) in Hr.
    assert (Z.of_nat (length l) = s_size B) as Hn by (rewrite Hl; unfold s_size; lia). rewrite Hn in Hr. cbv zeta. lia.
  Qed.
  Definition seg_move_other_cost := fun x A y B w hf r xy w' => move_other_cost false sv_assign_range x A y B w hf r xy w' (fun x w A hf => spend_sv_range x w A hf).
  Definition segd_move_other_cost := fun x A y B w hf r xy w' => move_other_cost true sd_assign_range x A y B w hf r xy w' (fun x w A hf => spend_sd_range x w A hf).
  Lemma seg_move_same_cost dev ar x A y B w hf r xy w' : holds2 (is_seg dev) x A y B w hf -> s_alloc A = s_alloc B ->
    sq_run2 ar PMove (x, y) w = Ok r xy w' -> tick w' = (tick w + 2)%nat.
  Proof.
    intros H2 Ha. destruct (holds2_first _ _ _ _ _ _ _ H2) as [hf1 Hx]. destruct (holds2_second _ _ _ _ _ _ _ H2) as [hf2 Hy].
    apply move_same_cost. by rewrite (seg_alloc_of _ _ _ _ _ Hx) (seg_alloc_of _ _ _ _ _ Hy).
  Qed.
End swap.
