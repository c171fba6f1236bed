(** * Histories and examples of ordered flat containers

    The lemmas behind Props_Flat.v, continued. *)

From iris.proofmode Require Import tactics.
From Verif Require Export FlatThms.
From Coq Require Import ZifyBool.
Open Scope Z_scope.

Definition static_moves `{Env} {N} (k : ctor2 (static_vector N)) : bool :=
  match (k : tctor2) with TCopy => false | TMove => true end.
Definition small_moves `{Env} {N} (k : ctor2 (small_vector N)) : bool :=
  match (k : vctor2) with FromCopy | FromCopyAlloc _ => false | FromMove | FromMoveAlloc _ => true end.
Definition static_effect `{KD : Keyed} {N kd} (p : op1 (static_flat N kd)) (returned : bool) : effect :=
  match p with Own o => own_effect true o returned | Shared o => shared_effect o returned end.
Definition small_effect `{KD : Keyed} {N kd} (p : op1 (small_flat N kd)) (returned : bool) : effect :=
  match p with Own o => own_effect false o returned | Shared o => shared_effect o returned end.

(** The objects whose elements are in order after the commands [cs] had the
    outcomes [os], for a program that starts without objects. *)
Definition static_tidy `{KD : Keyed} {N kd} (cs : list (cmd (static_flat N kd))) os : gset nat :=
  tidy_from static_effect static_moves (fun p => p) cs os ∅.
Definition small_tidy `{KD : Keyed} {N kd} (cs : list (cmd (small_flat N kd))) os : gset nat :=
  tidy_from small_effect small_moves (fun p => p) cs os ∅.
(** Commands other than moving elements away and (static containers only)
    assigning a list. *)
Definition static_plain `{KD : Keyed} {N kd} (c : cmd (static_flat N kd)) : bool :=
  plain_cmd static_effect static_moves (fun p => p) c.
Definition small_plain `{KD : Keyed} {N kd} (c : cmd (small_flat N kd)) : bool :=
  plain_cmd small_effect small_moves (fun p => p) c.

Section static.
  Context `{KD : Keyed}.
  Variable N : nat.
  Variable kd : fkind.
  Notation C := (static_flat N kd).
  Notation S := (static_flat_spec N kd).
  Notation R := (with_cmp (is_static N)).
  Notation OK := (static_flat_ok N kd).

  Lemma static_flat_iff (x : obj C) (A : abs S) h : R x A h <-> inv OK x A h.
  Proof.
    unfold with_cmp. rewrite (static_iff N). change (inv OK x A h) with (winv _ (static_flat_wspec N kd) (static_vector_ok N) x A h).
    unfold winv. by rewrite pure_sep_holds.
  Qed.

  Lemma static_flat_history (cs : list (cmd C)) w :
    wf_world w ->
    exists os P w' A h,
      exec_all C cs ∅ w = Some (os, P, w') /\ atrace S cs ∅ os A /\
      pool_mem (S := S) R P A h /\ h ##ₘ heap w /\ heap w' = h ∪ heap w /\
      ((forall e, Threw e ∉ os) -> fired w' = fired w).
  Proof. apply (history_state OK R static_flat_iff). Qed.
  Lemma static_flat_no_leak (cs : list (cmd C)) w :
    wf_world w ->
    exists os w', exec_all C (cs ++ (Drop <$> created cs)) ∅ w = Some (os, ∅, w') /\ heap w' = heap w.
  Proof. apply (no_leak OK). Qed.

  Definition static_good (a : abs S) : Prop := ordered kd a.1 a.2.2.

  Lemma static_all_tidy (cs : list (cmd C)) os A :
    (forall c, strict_weak (less c)) -> atrace S cs ∅ os A ->
    all_good static_good A (static_tidy cs os).
  Proof.
    intros Hr Ht. eapply (tidy_ok static_effect static_moves (fun p => p) static_good); [..|exact Ht|].
    - intros k a [Hc [_ Hp]]. specialize (Hp (Hr _)). unfold static_good. rewrite Hc. eapply inserted_all_ordered; [apply ordered_nil|exact Hp].
    - intros k [d b] [d1 a] [d2 b'] (H1 & H2 & H3 & H4 & H5). cbn in *. subst. split.
      + unfold static_good. cbn. by rewrite H4.
      + destruct k; cbn; [|done]. intros _. destruct b, b'. cbn in *. by subst.
    - intros k [d b] e [d' b'] (H1 & H2 & H3 & H4 & H5). cbn in *. subst.
      destruct k; cbn; [|done]. intros _. destruct b, b'. cbn in *. by subst.
    - intros p [d a] r [d' a'] Hpre [Hd Hpost]. cbn in Hd. subst d'. unfold static_good. cbn [fst snd].
      destruct p as [o|o], r as [r|r]; try done; cbn in Hpre, Hpost.
      + destruct Hpost as [_ Hpost].
        assert (Hk : (replaces_all o -> false = true) -> ordered kd d a.2 -> ordered kd d a'.2).
        { intros Hn Ho. eapply post_keeps_order; [done|exact Hpre|exact Hpost|by left|].
          intros Hx. by specialize (Hn Hx). }
        destruct o; cbn; try (apply Hk; done); try done.
        eapply post_keeps_order; [apply Hr|exact Hpre|exact Hpost|by right; left|done].
      + destruct Hpost as [_ [Hpost _]]. destruct Hpre as [Hal _].
        destruct o; try done; cbn in *.
        * destruct Hpost as (v & _ & _ & ->). done.
        * destruct Hpost as (_ & ->). done.
    - intros p [d a] e [d' a'] Hpre [Hd Hexn]. cbn in Hd. subst d'. unfold static_good. cbn [fst snd].
      destruct p as [o|o]; cbn in Hpre, Hexn.
      + destruct Hexn as [_ (Hx & _ & _)]. destruct o; cbn in *; try done; try (by rewrite Hx).
        destruct Hx as (v & t & Hv & ->). apply ordered_put; done.
      + destruct Hexn as [_ (_ & _ & Hexn)]. destruct Hpre as [Hal _]. destruct o; try done; destruct e; naive_solver.
    - intros p [d1 a] [d2 b] r [d1' a'] [d2' b'] [Hd Hpost]. cbn [static_flat_code fn2] in Hd.
      destruct r as [r|r]; [done|]. cbn in Hpost. destruct Hpost as (H1 & H2 & H3).
      unfold static_good. cbn [fst snd] in *. destruct p; cbn in Hd; injection Hd as -> ->.
      + destruct H3 as (_ & H4 & H5). split; [by rewrite H4|]. destruct b, b'. cbn in *. by subst.
      + destruct H3 as (_ & H4 & H5). by rewrite H4.
      + destruct H3 as (_ & H4 & H5). by rewrite H4 H5.
      + destruct H3 as (H4 & H5 & _). by rewrite H4 H5.
      + destruct H3 as (H4 & H5 & _). by rewrite H4 H5.
    - intros p [d1 a] [d2 b] e [d1' a'] [d2' b'] [Hd Hexn]. cbn [static_flat_code fn2] in Hd.
      cbn in Hexn. destruct Hexn as (_ & H1 & H2 & _ & _ & H3).
      unfold static_good. cbn [fst snd] in *. destruct p; cbn in Hd; injection Hd as -> ->; try done.
      + destruct b, b'. cbn in *. by subst.
      + destruct H3 as [-> ->]. done.
      + destruct H3 as [-> ->]. done.
    - intros i Hi. set_solver.
  Qed.

  Lemma static_flat_sorted_history (cs : list (cmd C)) w :
    (forall c, strict_weak (less c)) -> wf_world w ->
    exists os P w' A h,
      exec_all C cs ∅ w = Some (os, P, w') /\
      pool_mem (S := S) R P A h /\ h ##ₘ heap w /\ heap w' = h ∪ heap w /\
      (forall i, i ∈ static_tidy cs os ->
         exists c ib l, A !! i = Some (c, (ib, l)) /\ ordered kd c l) /\
      (forallb static_plain cs = true -> (forall e, Threw e ∉ os) ->
         forall i c ib l, A !! i = Some (c, (ib, l)) -> ordered kd c l).
  Proof.
    intros Hr Hwf. destruct (static_flat_history cs w Hwf) as (os & P & w' & A & h & H1 & H2 & H3 & H4 & H5 & _).
    pose proof (static_all_tidy cs os A Hr H2) as Ht.
    exists os, P, w', A, h. split_and!; try done.
    - intros i Hi. destruct (Ht i Hi) as ([c [ib l]] & Ha & Hg). by exists c, ib, l.
    - intros Hp Hn i c ib l Hi.
      destruct (Ht i) as (a & Ha & Hg).
      { eapply (plain_ok static_effect static_moves (fun p => p)); [exact H2|done|done| |by eexists].
        intros j [a Ha]. by rewrite lookup_empty in Ha. }
      change (A !! i = Some (c, (ib, l))) in Hi. rewrite Ha in Hi. injection Hi as ->. exact Hg.
  Qed.

  (** Reading the elements off memory. *)
  Definition static_flat_view (x : obj C) (w : world) : option (abs S) :=
    match static_view x.2 w with Some A => Some (x.1, A) | None => None end.
  Lemma static_flat_view_ok (x : obj C) (A : abs S) m w : R x A m -> m ⊆ heap w -> static_flat_view x w = Some A.
  Proof.
    intros [H1 H2] Hm. unfold static_flat_view. rewrite (static_view_ok N _ _ m w H2 Hm). rewrite H1. by destruct A.
  Qed.
End static.

Section small.
  Context `{KD : Keyed}.
  Variable N : nat.
  Variable kd : fkind.
  Context (HN : Z.of_nat N <= max_size).
  Notation C := (small_flat N kd).
  Notation S := (small_flat_spec N kd).
  Notation R := (with_cmp (is_small N)).
  Notation OK := (small_flat_ok N kd HN).

  Lemma small_flat_iff (x : obj C) (A : abs S) h : R x A h <-> inv OK x A h.
  Proof.
    unfold with_cmp. rewrite (small_iff N HN).
    change (inv OK x A h) with (winv _ (small_flat_wspec N kd) (small_vector_ok N HN) x A h).
    unfold winv. by rewrite pure_sep_holds.
  Qed.

  Lemma small_flat_history (cs : list (cmd C)) w :
    wf_world w ->
    exists os P w' A h,
      exec_all C cs ∅ w = Some (os, P, w') /\ atrace S cs ∅ os A /\
      pool_mem (S := S) R P A h /\ h ##ₘ heap w /\ heap w' = h ∪ heap w /\
      ((forall e, Threw e ∉ os) -> fired w' = fired w).
  Proof using HN. apply (history_state OK R small_flat_iff). Qed.
  Lemma small_flat_no_leak (cs : list (cmd C)) w :
    wf_world w ->
    exists os w', exec_all C (cs ++ (Drop <$> created cs)) ∅ w = Some (os, ∅, w') /\ heap w' = heap w.
  Proof using HN. apply (no_leak OK). Qed.

  Definition small_good (a : abs S) : Prop := ordered kd a.1 (q_elems a.2.2).

  Lemma small_all_tidy (cs : list (cmd C)) os A :
    (forall c, strict_weak (less c)) -> atrace S cs ∅ os A ->
    all_good small_good A (small_tidy cs os).
  Proof.
    intros Hr Ht. eapply (tidy_ok small_effect small_moves (fun p => p) small_good); [..|exact Ht|].
    - intros k a [Hc [[_ Hp] _]]. specialize (Hp (Hr _)). unfold small_good. rewrite Hc. eapply inserted_all_ordered; [apply ordered_nil|exact Hp].
    - intros k [d b] [d1 a] [d2 b'] (H1 & H2 & H3 & H4 & H5). cbn in H1, H2, H3, H4, H5. subst. split.
      + unfold small_good. cbn. by rewrite H4.
      + destruct k; cbn; try done; intros _; destruct b, b'; cbn in *; destruct H5 as (_ & _ & ->); by subst.
    - intros k [d b] e [d' b'] (H1 & H2 & H3 & H4). cbn in H1, H2, H3, H4. subst.
      destruct k; cbn; try done; intros _; destruct b, b'; cbn in *; by subst.
    - intros p [d a] r [d' a'] Hpre [Hd Hpost]. cbn in Hd. subst d'. unfold small_good. cbn [fst snd].
      destruct p as [o|o], r as [r|r]; try done; cbn in Hpre, Hpost.
      + destruct Hpost as [_ [Hpost _]].
        assert (Hk : ordered kd d (q_elems a.2) \/ replaces_all o -> ordered kd d (q_elems a'.2)).
        { intros Hn. eapply post_keeps_order; [done|exact Hpre|exact Hpost| |done]. destruct Hn; [by left|right]. destruct o; try done; by right. }
        destruct o; cbn; try (intros; by apply Hk; left); try done.
        * apply Hk. by right.
        * eapply post_keeps_order; [apply Hr|exact Hpre|exact Hpost|by right; left|done].
      + destruct Hpost as [_ [Hpost _]]. destruct Hpre as [Hal _].
        destruct o; try done; cbn in *.
        all: try (destruct Hpost as (v & _ & _ & ->); done).
        all: destruct Hpost as (_ & ->); done.
    - intros p [d a] e [d' a'] Hpre [Hd Hexn]. cbn in Hd. subst d'. unfold small_good. cbn [fst snd].
      destruct p as [o|o]; cbn in Hpre, Hexn.
      + destruct Hexn as [_ [(Hx & _ & _) _]]. destruct o; cbn in *; try done; try (by rewrite Hx).
        destruct Hx as (v & t & Hv & ->). apply ordered_put; done.
      + destruct Hexn as [_ Hexn]. destruct Hpre as [Hal _].
        destruct Hexn as (_ & _ & _ & _ & _ & _ & Hexn). destruct o; try done; destruct e; try done.
        all: destruct a as [ib q], a' as [ib' q']; cbn in Hexn; cbn; assert (q' = q) as -> by (by apply Hexn); done.
    - intros p [d1 a] [d2 b] r [d1' a'] [d2' b'] [Hd Hpost]. cbn [small_flat_code fn2] in Hd.
      destruct r as [r|r]; [done|]. cbn in Hpost. destruct Hpost as (H1 & H2 & H3).
      unfold small_good. cbn [fst snd] in *. destruct p; cbn in Hd; injection Hd as -> ->; cbn in H3.
      + destruct H3 as (_ & _ & H4 & H5 & _). split; [by rewrite H4|]. destruct b, b'. cbn in *. by subst.
      + destruct H3 as (_ & H3). case_match; [destruct H3 as [-> _]; done|]. destruct H3 as (_ & H4 & _). by rewrite H4.
      + destruct H3 as (_ & _ & H4 & _ & _ & H5 & _). by rewrite H4 H5.
      + destruct H3 as (H4 & H5 & _). by rewrite H4 H5.
      + destruct H3 as (H4 & H5 & _). by rewrite H4 H5.
    - intros p [d1 a] [d2 b] e [d1' a'] [d2' b'] [Hd Hexn]. cbn [small_flat_code fn2] in Hd.
      cbn in Hexn. destruct Hexn as (H1 & H2 & H3).
      unfold small_good. cbn [fst snd] in *. destruct p; cbn in Hd; injection Hd as -> ->; cbn in H3; try done.
      + destruct H3 as (_ & _ & H3). destruct b, b'. cbn in *. by subst.
      + destruct H3 as (_ & -> & ->). done.
      + destruct H3 as (_ & -> & ->). done.
    - intros i Hi. set_solver.
  Qed.

  Lemma small_flat_sorted_history (cs : list (cmd C)) w :
    (forall c, strict_weak (less c)) -> wf_world w ->
    exists os P w' A h,
      exec_all C cs ∅ w = Some (os, P, w') /\
      pool_mem (S := S) R P A h /\ h ##ₘ heap w /\ heap w' = h ∪ heap w /\
      (forall i, i ∈ small_tidy cs os ->
         exists c ib q, A !! i = Some (c, (ib, q)) /\ ordered kd c (q_elems q)) /\
      (forallb small_plain cs = true -> (forall e, Threw e ∉ os) ->
         forall i c ib q, A !! i = Some (c, (ib, q)) -> ordered kd c (q_elems q)).
  Proof using HN.
    intros Hr Hwf. destruct (small_flat_history cs w Hwf) as (os & P & w' & A & h & H1 & H2 & H3 & H4 & H5 & _).
    pose proof (small_all_tidy cs os A Hr H2) as Ht.
    exists os, P, w', A, h. split_and!; try done.
    - intros i Hi. destruct (Ht i Hi) as ([c [ib l]] & Ha & Hg). by exists c, ib, l.
    - intros Hp Hn i c ib l Hi.
      destruct (Ht i) as (a & Ha & Hg).
      { eapply (plain_ok small_effect small_moves (fun p => p)); [exact H2|done|done| |by eexists].
        intros j [a Ha]. by rewrite lookup_empty in Ha. }
      change (A !! i = Some (c, (ib, l))) in Hi. rewrite Ha in Hi. injection Hi as ->. exact Hg.
  Qed.

  (** Reading the elements off memory. *)
  Definition small_flat_view (x : obj C) (w : world) : option (abs S) :=
    match small_view x.2 w with Some A => Some (x.1, A) | None => None end.
  Lemma small_flat_view_ok (x : obj C) (A : abs S) m w : R x A m -> m ⊆ heap w -> small_flat_view x w = Some A.
  Proof.
    intros [H1 H2] Hm. unfold small_flat_view. rewrite (small_view_ok N _ _ m w H2 Hm). rewrite H1. by destruct A.
  Qed.
End small.
