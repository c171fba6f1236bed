(** * States of objects in memory, without separation logic

    [holds R x a w hf]: in world [w] the object [x] has the abstract value [a],
    its memory is described by [R], and everything else in memory is [hf]. *)

From iris.proofmode Require Import tactics.
From Verif Require Export Client.
Open Scope Z_scope.

Notation heapm := (gmap loc cell).

Section defs.
  Context `{Env} {O A : Type} (R : O -> A -> heapm -> Prop).

  Definition holds (x : O) (a : A) (w : world) (hf : heapm) : Prop :=
    wf_world w /\ exists m, R x a m /\ m ##ₘ hf /\ heap w = m ∪ hf.
  (** Two objects with separate memory. *)
  Definition holds2 (x : O) (a : A) (y : O) (b : A) (w : world) (hf : heapm) : Prop :=
    wf_world w /\ exists m1 m2, R x a m1 /\ R y b m2 /\ m1 ##ₘ m2 /\ m1 ##ₘ hf /\ m2 ##ₘ hf /\
                          heap w = m1 ∪ m2 ∪ hf.
  (** No object. *)
  Definition holds0 (w : world) (hf : heapm) : Prop := wf_world w /\ heap w = hf.

  (** A call returned: nothing threw meanwhile. *)
  Definition quiet (w w' : world) : Prop := fired w' = fired w.
  (** A call threw [e]: because an element operation or the allocator threw
      during the call, or it is an exception of the library itself. *)
  Definition reason (e : exn) (w w' : world) : Prop := cause e (tick w) (tick w').
End defs.

Section state.
  Context `{E : Env} {C : container} {S : cspec C} (OK : container_ok S).
  Context (R : obj C -> abs S -> heapm -> Prop).
  Context (HR : forall x a h, R x a h <-> inv OK x a h).

  (** What is observed of a call of member function [o]. *)
  Definition member_ok (o : op1 C) (x : obj C) (a : abs S) (w : world) (hf : heapm) : Prop :=
    match run1 C o x w with
    | Ok r x' w' => exists a', post1 S o a r a' /\ holds R x' a' w' hf /\ quiet w w'
    | Exn e x' w' => exists a', exn1 S o a e a' /\ holds R x' a' w' hf /\ reason e w w'
    | UB => False
    end.
  Lemma run1_state o x a w hf : holds R x a w hf -> pre1 S o a -> member_ok o x a w hf.
  Proof.
    intros (Hwf & m & Hm & Hd & Hh) Hpre. apply HR in Hm.
    pose proof (wp_run _ _ _ _ m hf w (wp_entails _ _ _ _ _ m (ok_run1 _ OK o x a Hpre) Hm) Hwf Hd Hh) as Hrun.
    unfold member_ok. destruct (run1 C o x w) as [r x' w'|e x' w'|]; [| |done];
      destruct Hrun as (h' & Hh' & Hd' & Haf & HQ); apply pure_ex in HQ as (a' & Ha & HQ);
      exists a'; split; try done; (split; [split; [apply Haf|exists h'; by rewrite HR]|apply Haf]).
  Qed.

  Definition build_ok (c : ctor C) (w : world) (hf : heapm) : Prop :=
    match build C c tt w with
    | Ok x _ w' => exists a, cpost S c a /\ holds R x a w' hf /\ quiet w w'
    | Exn e _ w' => cexn S c e /\ holds0 w' hf /\ reason e w w'
    | UB => False
    end.
  Lemma build_state c w hf : holds0 w hf -> cpre S c -> build_ok c w hf.
  Proof.
    intros (Hwf & Hh) Hpre.
    pose proof (wp_run _ _ _ _ ∅ hf w (wp_entails emp%I _ _ _ _ ∅ (ok_build _ OK c Hpre) eq_refl) Hwf) as Hrun.
    specialize (Hrun (map_disjoint_empty_l _)). rewrite left_id_L in Hrun. specialize (Hrun Hh).
    unfold build_ok. destruct (build C c tt w) as [x [] w'|e [] w'|]; [| |done];
      destruct Hrun as (h' & Hh' & Hd' & Haf & HQ).
    - apply pure_ex in HQ as (a & Ha & HQ). exists a. split; [done|].
      split; [split; [apply Haf|exists h'; by rewrite HR]|apply Haf].
    - destruct HQ as [Hemp HQ]. change (h' = ∅) in Hemp. subst. rewrite left_id_L in Hh'.
      split; [done|]. split; [split; [apply Haf|done]|apply Haf].
  Qed.

  Definition build2_ok (c : ctor2 C) (y : obj C) (b : abs S) (w : world) (hf : heapm) : Prop :=
    match build2 C c y w with
    | Ok x y' w' => exists a b', cpost2 S c b a b' /\ holds2 R x a y' b' w' hf /\ quiet w w'
    | Exn e y' w' => exists b', cexn2 S c b e b' /\ holds R y' b' w' hf /\ reason e w w'
    | UB => False
    end.

  Lemma pure_ex2 {T T'} (φ : T -> T' -> Prop) (P P' : T -> T' -> hProp) h :
    (∃ a b, ⟦φ a b⟧ ∗ P a b ∗ P' a b)%I h ->
    exists a b m1 m2, φ a b /\ P a b m1 /\ P' a b m2 /\ m1 ##ₘ m2 /\ h = m1 ∪ m2.
  Proof.
    intros [a [b Ha]]. destruct Ha as (h1 & h2 & -> & Hd & [Hemp Hφ] & HP).
    change (h1 = ∅) in Hemp. subst. destruct HP as (m1 & m2 & -> & Hd12 & H1 & H2).
    exists a, b, m1, m2. rewrite left_id_L. by split_and!.
  Qed.
  Lemma holds2_intro x a y b w hf m1 m2 :
    wf_world w -> R x a m1 -> R y b m2 -> m1 ##ₘ m2 -> m1 ∪ m2 ##ₘ hf -> heap w = m1 ∪ m2 ∪ hf ->
    holds2 R x a y b w hf.
  Proof.
    intros Hwf H1 H2 Hd Hd' Hh. apply map_disjoint_union_l in Hd' as [??].
    split; [done|]. exists m1, m2. by split_and!.
  Qed.
  Lemma build2_state c y b w hf : holds R y b w hf -> cpre2 S c b -> build2_ok c y b w hf.
  Proof.
    intros (Hwf & m & Hm & Hd & Hh) Hpre. apply HR in Hm.
    pose proof (wp_run _ _ _ _ m hf w (wp_entails _ _ _ _ _ m (ok_build2 _ OK c y b Hpre) Hm) Hwf Hd Hh) as Hrun.
    unfold build2_ok. destruct (build2 C c y w) as [x y' w'|e y' w'|]; [| |done];
      destruct Hrun as (h' & Hh' & Hd' & Haf & HQ).
    - apply (pure_ex2 _ (fun a b => inv OK x a) (fun a b => inv OK y' b)) in HQ
        as (a & b' & m1 & m2 & Ha & H1 & H2 & Hd12 & ->).
      exists a, b'. split; [done|]. split; [|apply Haf].
      apply (holds2_intro _ _ _ _ _ _ m1 m2); [apply Haf|by apply HR|by apply HR|done..].
    - apply pure_ex in HQ as (b' & Ha & HQ). exists b'. split; [done|].
      split; [split; [apply Haf|exists h'; by rewrite HR]|apply Haf].
  Qed.

  Definition two_ok (o : op2 C) (x : obj C) (a : abs S) (y : obj C) (b : abs S)
      (w : world) (hf : heapm) : Prop :=
    match run2 C o (x, y) w with
    | Ok r (x', y') w' =>
        exists a' b', post2 S o a b r a' b' /\ holds2 R x' a' y' b' w' hf /\ quiet w w'
    | Exn e (x', y') w' =>
        exists a' b', exn2 S o a b e a' b' /\ holds2 R x' a' y' b' w' hf /\ reason e w w'
    | UB => False
    end.
  Lemma run2_state o x a y b w hf : holds2 R x a y b w hf -> pre2 S o a b -> two_ok o x a y b w hf.
  Proof.
    intros (Hwf & m1 & m2 & H1 & H2 & Hd12 & Hd1 & Hd2 & Hh) Hpre.
    assert ((inv OK x a ∗ inv OK y b)%I (m1 ∪ m2)) as Hm.
    { exists m1, m2. rewrite -!HR. by split_and!. }
    pose proof (wp_run _ _ _ _ (m1 ∪ m2) hf w
      (wp_entails _ _ _ _ _ _ (ok_run2 _ OK o x a y b Hpre) Hm) Hwf) as Hrun.
    specialize (Hrun ltac:(by apply map_disjoint_union_l) Hh).
    unfold two_ok. destruct (run2 C o (x, y) w) as [r [x' y'] w'|e [x' y'] w'|]; [| |done];
      destruct Hrun as (h' & Hh' & Hd' & Haf & HQ);
      apply (pure_ex2 _ (fun a b => inv OK x' a) (fun a b => inv OK y' b)) in HQ
        as (a' & b' & n1 & n2 & Ha & Hn1 & Hn2 & Hdn & ->);
      exists a', b'; (split; [done|]); (split; [|apply Haf]);
      (apply (holds2_intro _ _ _ _ _ _ n1 n2); [apply Haf|by apply HR|by apply HR|done..]).
  Qed.

  Definition kill_ok (x : obj C) (w : world) (hf : heapm) : Prop :=
    match kill C x w with
    | Ok _ _ w' => holds0 w' hf /\ quiet w w'
    | _ => False
    end.
  Lemma kill_state x a w hf : holds R x a w hf -> kill_ok x w hf.
  Proof.
    intros (Hwf & m & Hm & Hd & Hh). apply HR in Hm.
    pose proof (wp_run _ _ _ _ m hf w (wp_entails _ _ _ _ _ m (ok_kill _ OK x a) Hm) Hwf Hd Hh) as Hrun.
    unfold kill_ok. destruct (kill C x w) as [r x' w'|e x' w'|]; [| |done];
      destruct Hrun as (h' & Hh' & Hd' & Haf & HQ); [|done].
    change (h' = ∅) in HQ. subst. rewrite left_id_L in Hh'. split; [split; [apply Haf|done]|apply Haf].
  Qed.

  (** Any history from no objects at all. *)
  Lemma history_state cs w :
    wf_world w ->
    exists os P' w' A' h',
      exec_all C cs ∅ w = Some (os, P', w') /\ atrace S cs ∅ os A' /\
      pool_mem R P' A' h' /\ h' ##ₘ heap w /\ heap w' = h' ∪ heap w /\
      ((forall e, Threw e ∉ os) -> fired w' = fired w).
  Proof.
    intros Hwf.
    destruct (history_ok OK cs ∅ ∅ w ∅ (heap w)) as (os & P' & w' & A' & h' & H1 & H2 & H3 & H4 & H5 & H6 & H7);
      [apply pool_inv_empty|done|apply map_disjoint_empty_l|by rewrite left_id_L|].
    exists os, P', w', A', h'. split_and!; try done.
    eapply pool_inv_mem; [|done]. intros x a h. apply HR.
  Qed.
End state.
