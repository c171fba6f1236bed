(** * erase_if of the ordered flat containers is not linear

    Sets of natural numbers, nothing throws. *)

From iris.proofmode Require Import tactics.
From Verif Require Export EraseCost RangeRefuted.
From Coq Require Import Lia ZifyBool.
Open Scope Z_scope.

Lemma erase_if_not_linear : let E := calm in let KD := calm_set in
  forall K : nat, exists N (vs : list V) x w r x' w',
    flat_new (StaticF N) multiset_ (NewRange true 0 vs) tt w0 = Ok x tt w /\
    flat_call (StaticF N) multiset_ true (FEraseIf (fun _ => true)) x w = Ok r x' w' /\
    (K * length vs < tick w' - tick w)%nat.
Proof.
  intros E KD K. set (n := (2 * K + 2)%nat). set (vs := (countdown n : list (@V calm))).
  assert (length vs = n) as Hn by apply countdown_length.
  destruct (static_range_returns (KD := calm_set) n multiset_ true 0 vs calm_never) as (x & w & Hr); [lia|].
  assert (can_hold (StaticF n) (length vs) = true) as Hc by (rewrite Hn; apply Nat.leb_refl).
  destruct (flat_new_range (KD := calm_set) (StaticF n) multiset_ I (@NewRange calm calm_set true 0 vs) w0 ∅ x tt w
    (set_strict _ _ _ _ true) w0_holds Hc Hr) as (l & Hl & _ & _ & _ & Hp).
  specialize (Hp eq_refl). cbn [fc_vals] in Hp. apply Permutation_length in Hp.
  pose proof (flat_call_ok (KD := calm_set) (StaticF n) multiset_ true I (FEraseIf (fun _ => true)) x l w ∅ Hl eq_refl) as Hk.
  destruct (@flat_call calm calm_set (StaticF n) multiset_ true (@FEraseIf calm calm_set (fun _ => true)) x w) as [r x' w'|e x' w'|] eqn:He; [|exfalso|done].
  - exists n, vs, x, w, r, x', w'. split; [done|]. split; [done|].
    pose proof (flat_erase_if_all (KD := calm_set) (StaticF n) multiset_ true (fun _ => true) x l w ∅ r x' w' (fun _ => eq_refl) Hl He) as H.
    rewrite Hp Hn in H. rewrite Hn. apply over. fold n. rewrite H. apply Nat.add_le_mono_l, Nat.mul_le_mono_l. lia.
  - destruct Hk as (l' & He' & _ & Hre). destruct He' as (_ & _ & He').
    destruct e; [by destruct He'..|by destruct He' as (? & ? & _)|by destruct He'|].
    destruct Hre as (k & t & _ & Ht & _). by rewrite calm_never in Ht.
Qed.
