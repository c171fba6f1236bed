(** * Constructing a compact_vector from input iterators *)

From iris.proofmode Require Import tactics.
From Verif Require Export CtorCost.
From Verif Require Import Demo.
From Coq Require Import Lia.
Open Scope Z_scope.

Section refuted.
  Context `{E : Env}.
  (** If nothing throws, the constructor returns for every range that is not too long,
      and the number of operations is at least half the square of the length. *)
  Lemma compact_input_square (l : list V) :
    (forall k t, may_throw k t = false) -> Z.of_nat (length l) <= max_size ->
    exists x w, build (compact_vector code_undo false) (KInput 0 l) tt w0 = Ok x tt w /\
      (length l * (length l + 1) <= 2 * tick w)%nat.
  Proof.
    intros Hq Hmax. pose proof (compact_ctor_safe (KInput 0 l) w0 ∅ w0_holds) as H0.
    destruct (build (compact_vector code_undo false) _ tt w0) as [x [] w|e [] w|] eqn:Hb; [| |done].
    2:{ destruct H0 as (_ & Hk & Hre). destruct e; simpl in *; try done.
        - lia.
        - destruct Hre as (t & Ht & _). pose proof (Hq KAlloc t) as Hq'. simpl in Hq'. congruence.
        - destruct Hre as (k & t & _ & Ht & _). pose proof (Hq k t) as Hq'. simpl in Hq'. congruence. }
    exists x, w. split; [done|]. pose proof (compact_ctor_cost _ _ _ _ _ _ w0_holds Hb) as H.
    cbn [k_input k_elems] in H. change (tick w0) with 0%nat in H. lia.
  Qed.
  (** Moving a small_vector of any size to another allocator. *)
  Lemma small_move_size N v m :
    (forall k t, may_throw k t = false) -> Z.of_nat N <= max_size -> Z.of_nat m <= max_size ->
    exists y w x y' w', build (small_vector N) (KRange 0 (replicate m v)) tt w0 = Ok y tt w /\
      build2 (small_vector N) (FromMoveAlloc 1) y w = Ok x y' w' /\ (tick w + m <= tick w')%nat.
  Proof.
    intros Hq HN Hmax. pose proof (small_ctor_safe N HN (KRange 0 (replicate m v)) w0 ∅ w0_holds) as H0.
    destruct (build (small_vector N) _ tt w0) as [y [] w|e [] w|] eqn:Hb; [| |done].
    2:{ destruct H0 as (_ & Hk & Hre). destruct e; simpl in *; try done.
        - rewrite replicate_length in Hk. lia.
        - destruct Hre as (t & Ht & _). pose proof (Hq KAlloc t) as Hq'. simpl in Hq'. congruence.
        - destruct Hre as (k & t & _ & Ht & _). pose proof (Hq k t) as Hq'. simpl in Hq'. congruence. }
    destruct H0 as (B & Hy & (Ha & Hl & _) & _). simpl in Ha, Hl.
    assert (length (q_elems B.2) = m) as Hm by by rewrite Hl replicate_length.
    pose proof (small_ctor2_safe N HN (FromMoveAlloc 1) y B w ∅ Hy) as H1.
    destruct (build2 (small_vector N) (FromMoveAlloc 1) y w) as [x y' w'|e y' w'|] eqn:Hr; [| |done].
    2:{ destruct H1 as (B' & _ & _ & (Hk & _) & Hre). destruct e; simpl in *; try done.
        - lia.
        - destruct Hre as (t & Ht & _). pose proof (Hq KAlloc t) as Hq'. simpl in Hq'. congruence.
        - destruct Hre as (k & t & _ & Ht & _). pose proof (Hq k t) as Hq'. simpl in Hq'. congruence. }
    exists y, w, x, y', w'. split; [done|]. split; [done|].
    pose proof (small_ctor2_cost N (FromMoveAlloc 1) y B w ∅ x y' w' Hy Hr) as H. rewrite H Hm Ha. cbn [k2_copy k2_same].
    destruct (loc_eqb _ _); cbn; [lia|]. destruct (m <=? N)%nat; lia.
  Qed.
End refuted.
