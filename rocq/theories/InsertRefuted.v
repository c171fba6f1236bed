(** * Inserting a range given by input iterators is not linear

    A static_vector of natural numbers, nothing throws. *)

From iris.proofmode Require Import tactics.
From Verif Require Export InsertCost RangeRefuted.
From Coq Require Import Lia ZifyBool.
Open Scope Z_scope.

Lemma more_than K t t' : let n := (2 * K + 1)%nat in
  t' = (t + n * (n + 2))%nat -> (K * (n + n) < t' - t)%nat.
Proof. intros n ->. replace (t + n * (n + 2) - t)%nat with (n * (n + 2))%nat by lia. unfold n. nia. Qed.
Lemma insert_input_not_linear : let E := calm in
  forall K : nat, exists N (l vs : list V) x w r x' w',
    build (static_vector N) (TRange l) tt w0 = Ok x tt w /\
    static_call N (OInsertInput 0 vs) x w = Ok r x' w' /\
    (K * (length vs + length l) < tick w' - tick w)%nat.
Proof.
  intros E K. set (n := (2 * K + 1)%nat). set (l := (replicate n 0%nat : list (@V calm))).
  assert (length l = n) as Hn by apply replicate_length.
  pose proof (static_ctor_safe (E := calm) (2 * n) (@TRange calm l) w0 ∅ w0_holds) as Hb.
  assert (t_pre (2 * n) (@TRange calm l) = true) as Hp
    by (unfold t_pre; cbn [t_elems]; apply Nat.leb_le; lia). specialize (Hb Hp).
  destruct (build (static_vector (2 * n)) (TRange l) tt w0) as [x [] w|e [] w|] eqn:Hr; [| |done].
  2:{ destruct Hb as (_ & -> & Hc). destruct Hc as (k & t & _ & Ht & _). by rewrite calm_never in Ht. }
  destruct Hb as (A & Hx & HA & _).
  pose proof (static_call_ok (E := calm) (2 * n) (@OInsertInput calm 0 l) x A w ∅ Hx) as Hc.
  assert (static_pre (2 * n) (@OInsertInput calm 0 l) (length A.2) = true) as Hp2.
  { rewrite HA. unfold static_pre. cbn [t_elems]. apply andb_true_iff. split; [done|]. apply Nat.leb_le. lia. }
  specialize (Hc Hp2).
  destruct (@static_call calm (2 * n) (@OInsertInput calm 0 l) x w) as [r x' w'|e x' w'|] eqn:Hs; [| |done].
  2:{ destruct Hc as (A' & (_ & He) & _ & Hc). destruct He as (_ & _ & He).
    destruct e; [done|by destruct He as (? & ? & _)|done|]. destruct Hc as (k & t & _ & Ht & _). by rewrite calm_never in Ht. }
  exists (2 * n)%nat, l, l, x, w, r, x', w'. split; [done|]. split; [done|].
  pose proof (static_call_steps (E := calm) (2 * n) (@OInsertInput calm 0 l) x A w ∅ r x' w' _ eq_refl Hx) as H.
  rewrite HA in H. cbn [t_elems grows] in H. rewrite Hn in H. specialize (H ltac:(lia) Hs).
  rewrite Hn. destruct (Nat.eqb 0 n) eqn:H0; [lia|]. apply more_than. by rewrite H Nat.sub_0_r.
Qed.
