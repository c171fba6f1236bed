(** * The constructors from a range are not linear

    Sets of natural numbers, nothing throws. *)

From iris.proofmode Require Import tactics.
From Verif Require Export FlatRange UnordRange FlatDemo UnordDemo.
From Coq Require Import Lia ZifyBool.
Open Scope Z_scope.

(** [n - 1, ..., 1, 0] *)
Fixpoint countdown (n : nat) : list nat := match n with O => [] | S m => m :: countdown m end.
Lemma countdown_length n : length (countdown n) = n.
Proof. induction n as [|n IH]; [done|]. cbn. by rewrite IH. Qed.
Lemma countdown_lookup n : forall i x, countdown n !! i = Some x -> (x + i + 1 = n)%nat.
Proof.
  induction n as [|n IH]; intros i x; [by rewrite lookup_nil|]. destruct i as [|i]; cbn.
  - intros [= <-]. lia.
  - intros Hx. apply IH in Hx. lia.
Qed.
Lemma countdown_descending n : @descending calm calm_set true (countdown n).
Proof.
  intros i j x y Hij Hx Hy. apply countdown_lookup in Hx, Hy. cbn in *. apply Nat.ltb_lt. lia.
Qed.
Lemma countdown_distinct n : @distinct calm calm_eset true (countdown n).
Proof.
  intros i j x y Hij Hx Hy. apply countdown_lookup in Hx, Hy. cbn in *. apply Nat.eqb_neq. lia.
Qed.

Lemma calm_never k t : @may_throw calm k t = false.
Proof. by destruct k. Qed.
Lemma over K t t' : let n := (2 * K + 2)%nat in
  (2 * t + n * (n - 1) <= 2 * t' -> K * n < t' - t)%nat.
Proof. intros n. unfold n. replace (2 * K + 2 - 1)%nat with (2 * K + 1)%nat by lia. nia. Qed.
Lemma range_not_linear : let E := calm in let KD := calm_set in
  forall K : nat, exists N (vs : list V) x w',
    flat_new (StaticF N) set_ (NewRange true 0 vs) tt w0 = Ok x tt w' /\
    (K * length vs < tick w' - tick w0)%nat.
Proof.
  intros E KD K. set (n := (2 * K + 2)%nat). set (vs := (countdown n : list (@V calm))).
  assert (length vs = n) as Hn by apply countdown_length.
  destruct (static_range_returns (KD := calm_set) n set_ true 0 vs calm_never) as (x & w' & Hr); [lia|].
  exists n, vs, x, w'. split; [done|].
  assert (can_hold (StaticF n) (length vs) = true) as Hc by (rewrite Hn; apply Nat.leb_refl).
  pose proof (flat_range_quadratic (KD := calm_set) (StaticF n) set_ I true 0 vs w0 ∅ x tt w' (set_strict _ _ _ _ true)
    (countdown_descending n) w0_holds Hc Hr) as H.
  rewrite Hn in H |- *. by apply over.
Qed.
Lemma unord_range_not_linear : let E := calm in let KD := calm_eset in
  forall K : nat, exists N (vs : list V) x w',
    unord_new (StaticF N) set_ (NewRange true 0 vs) tt w0 = Ok x tt w' /\
    (K * length vs < tick w' - tick w0)%nat.
Proof.
  intros E KD K. set (n := (2 * K + 2)%nat). set (vs := (countdown n : list (@V calm))).
  assert (length vs = n) as Hn by apply countdown_length.
  destruct (unord_range_returns (KD := calm_eset) n set_ true 0 vs calm_never) as (x & w' & Hr); [lia|].
  exists n, vs, x, w'. split; [done|].
  pose proof (unord_range_quadratic (KD := calm_eset) n set_ true 0 vs w0 ∅ x tt w' eq_refl (nat_same_ok true)
    (countdown_distinct n) w0_holds ltac:(lia) Hr) as H.
  rewrite Hn in H |- *. by apply over.
Qed.
