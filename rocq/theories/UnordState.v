(** * Histories of unordered flat containers

    [static_single], [small_single]: the objects that certainly hold no two elements
    with equal keys, as [tidy] of FlatHist.v. *)

From iris.proofmode Require Import tactics.
From Verif Require Export UnordThms FlatState.
From Coq Require Import ZifyBool.
Open Scope Z_scope.

(** What a call of a member function does to the absence of equal keys. *)
Definition own_effect_u `{KD : Keyed} (raw eager robust : bool) (o : uop) (returned : bool) : effect :=
  match o with
  | UClear => if returned then Makes else Breaks
  | UAssignList _ => if returned && negb raw then Makes else Breaks
  | UPut _ _ => Keeps
  | UEmplace _ | UEmplaceHint _ _ => if returned || robust && negb eager then Keeps else Breaks
  | UInsert _ | UInsertHint _ _ | UInsertRange _ | UTryEmplace _ _ | UTryEmplaceHint _ _ _
  | UInsertOrAssign _ _ | UInsertOrAssignHint _ _ _ | UIndex _ => if returned || robust then Keeps else Breaks
  | _ => if returned || u_lookup o then Keeps else Breaks
  end.
Definition static_effect_u `{KD : Keyed} {N kd} (p : op1 (static_unord N kd)) (returned : bool) : effect :=
  match p with Own o => own_effect_u true true true o returned | Shared o => shared_effect o returned end.
Definition small_effect_u `{KD : Keyed} {N kd} (p : op1 (small_unord N kd)) (returned : bool) : effect :=
  match p with
  | Own o => own_effect_u false (is_map kd) (nothrow_move || copyable) o returned
  | Shared o => shared_effect o returned
  end.

(** The objects without equal keys after the commands [cs] had the outcomes [os],
    for a program that starts without objects. *)
Definition static_single `{KD : Keyed} {N kd} (cs : list (cmd (static_unord N kd))) os : gset nat :=
  tidy_from static_effect_u (static_moves (N := N)) (fun p => p) cs os ∅.
Definition small_single `{KD : Keyed} {N kd} (cs : list (cmd (small_unord N kd))) os : gset nat :=
  tidy_from small_effect_u (small_moves (N := N)) (fun p => p) cs os ∅.
(** Commands other than moving elements away and (static containers only)
    assigning a list. *)
Definition static_plain_u `{KD : Keyed} {N kd} (c : cmd (static_unord N kd)) : bool :=
  plain_cmd static_effect_u (static_moves (N := N)) (fun p => p) c.
Definition small_plain_u `{KD : Keyed} {N kd} (c : cmd (small_unord N kd)) : bool :=
  plain_cmd small_effect_u (small_moves (N := N)) (fun p => p) c.

Section effects.
  Context `{KD : Keyed}.
  Variables (kd : fkind) (c : Cmp) (raw eager : bool).
  Hypothesis Hk : multi kd = false.
  Hypothesis He : equality_ok c.
  Lemma post_effect room whole o l r l' robust :
    unord_pre kd room whole o (length l) = true -> unord_post kd raw eager c o l r l' ->
    match own_effect_u raw eager robust o true with
    | Keeps => distinct c l -> distinct c l' | Makes => distinct c l' | Breaks => True
    end.
  Proof using Hk He.
    intros Hpre Hpost.
    assert ((assigns_list o -> raw = false) -> distinct c l -> distinct c l') as Hd.
    { intros Hr Hd. by eapply post_distinct. }
    destruct o; cbn [own_effect_u orb u_lookup]; try (by apply Hd).
    - cbn. destruct raw; cbn; [done|]. destruct Hpost as [_ Hpost].
      eapply uinserted_all_distinct; [done|done|exact Hpost|apply distinct_nil].
    - destruct Hpost as [_ ->]. apply distinct_nil.
  Qed.
  Lemma exn_effect o l e l' alloc robust :
    unord_exn kd raw eager c alloc robust o l e l' ->
    match own_effect_u raw eager robust o false with
    | Keeps => distinct c l -> distinct c l' | Makes => distinct c l' | Breaks => True
    end.
  Proof using Hk He.
    intros [Hx _].
    destruct o; cbn [own_effect_u orb u_lookup andb]; try done; cbn in Hx; try (by rewrite Hx).
    - destruct robust; [|done]. destruct eager; [done|]. cbn. destruct Hx as [_ Hx].
      destruct (Hx eq_refl) as [-> |[? _]]; done.
    - destruct robust; [|done]. destruct Hx as [_ Hx]. by rewrite Hx.
    - destruct robust; [|done]. destruct eager; [done|]. cbn. destruct Hx as [_ Hx].
      destruct (Hx eq_refl) as [-> |[? _]]; done.
    - destruct robust; [|done]. destruct Hx as [_ Hx]. by rewrite Hx.
    - destruct robust; [|done]. destruct Hx as [_ Hx]. destruct (Hx eq_refl) as [n Hn].
      by eapply uinserted_all_distinct.
    - destruct robust; [|done]. destruct Hx as [_ Hx]. by rewrite Hx.
    - destruct robust; [|done]. destruct Hx as [_ Hx]. by rewrite Hx.
    - destruct robust; [|done]. destruct Hx as [_ Hx]. destruct (Hx eq_refl) as [-> |(i & v & t & _ & Hv & ->)]; [done|].
      by apply distinct_put.
    - destruct robust; [|done]. destruct Hx as [_ Hx]. destruct (Hx eq_refl) as [-> |(i & v & t & _ & Hv & ->)]; [done|].
      by apply distinct_put.
    - destruct robust; [|done]. destruct Hx as [_ Hx]. by rewrite Hx.
    - destruct Hx as (v & t & Hv & ->). by apply distinct_put.
  Qed.
End effects.

Section static.
  Context `{KD : Keyed}.
  Variable N : nat.
  Variable kd : fkind.
  Notation C := (static_unord N kd).
  Notation S := (static_unord_spec N kd).
  Notation R := (with_cmp (is_static N)).
  Notation OK := (static_unord_ok N kd).

  Lemma static_unord_iff (x : obj C) (A : abs S) h : R x A h <-> inv OK x A h.
  Proof.
    unfold with_cmp. rewrite (static_iff N). change (inv OK x A h) with (winv _ (static_unord_wspec N kd) (static_bag_ok N) x A h).
    unfold winv. by rewrite pure_sep_holds.
  Qed.

  Lemma static_unord_history (cs : list (cmd C)) w :
    wf_world w ->
    exists os P w' A h,
      exec_all C cs ∅ w = Some (os, P, w') /\ atrace S cs ∅ os A /\
      pool_mem (S := S) R P A h /\ h ##ₘ heap w /\ heap w' = h ∪ heap w /\
      ((forall e, Threw e ∉ os) -> fired w' = fired w).
  Proof. apply (history_state OK R static_unord_iff). Qed.
  Lemma static_unord_no_leak (cs : list (cmd C)) w :
    wf_world w ->
    exists os w', exec_all C (cs ++ (Drop <$> created cs)) ∅ w = Some (os, ∅, w') /\ heap w' = heap w.
  Proof. apply (no_leak OK). Qed.

  Definition static_ok_u (a : abs S) : Prop := distinct a.1 a.2.2.

  Lemma static_all_single (cs : list (cmd C)) os A :
    multi kd = false -> (forall c, equality_ok c) -> atrace S cs ∅ os A ->
    all_good static_ok_u A (static_single cs os).
  Proof.
    intros Hk Hr Ht. eapply (tidy_ok static_effect_u (static_moves (N := N)) (fun p => p) static_ok_u); [..|exact Ht|].
    - intros k a [Hc [_ Hp]]. specialize (Hp (fun _ _ => proj1 (Hr _))). unfold static_ok_u. rewrite Hc.
      eapply uinserted_all_distinct; [apply Hr|exact Hk|exact Hp|apply distinct_nil].
    - intros k [d b] [d1 a] [d2 b'] (H1 & H2 & H3 & H4 & H5). cbn in *. subst. split.
      + unfold static_ok_u. cbn. by rewrite H4.
      + destruct k; cbn; [|done]. intros _. destruct b, b'. cbn in *. by subst.
    - intros k [d b] e [d' b'] (H1 & H2 & H3 & H4 & H5). cbn in *. subst.
      destruct k; cbn; [|done]. intros _. destruct b, b'. cbn in *. by subst.
    - intros p [d a] r [d' a'] Hpre [Hd Hpost]. cbn in Hd. subst d'. unfold static_ok_u. cbn [fst snd].
      destruct p as [o|o], r as [r|r]; try done; cbn in Hpre, Hpost.
      + destruct Hpost as [_ Hpost].
        by eapply (post_effect kd d true true Hk (Hr d)).
      + destruct Hpost as [_ [Hpost _]]. destruct Hpre as [Hal _].
        destruct o; try done; cbn in *.
        * destruct Hpost as (v & _ & _ & ->). done.
        * destruct Hpost as (_ & ->). done.
    - intros p [d a] e [d' a'] Hpre [Hd Hexn]. cbn in Hd. subst d'. unfold static_ok_u. cbn [fst snd].
      destruct p as [o|o]; cbn in Hpre, Hexn.
      + destruct Hexn as [_ Hx]. by eapply (exn_effect kd d true true Hk (Hr d)).
      + destruct Hexn as [_ (_ & _ & Hexn)]. destruct Hpre as [Hal _]. destruct o; try done; destruct e; naive_solver.
    - intros p [d1 a] [d2 b] r [d1' a'] [d2' b'] [Hd Hpost]. cbn [static_unord_code fn2] in Hd.
      destruct r as [r|r]; [done|]. cbn in Hpost.
      unfold static_ok_u. cbn [fst snd] in *. destruct p; cbn in Hd; injection Hd as -> ->;
        [destruct Hpost as (H1 & H2 & H3)..| |destruct Hpost as (H1 & H2 & H3)].
      + destruct H3 as (_ & H4 & H5). split; [by rewrite H4|]. destruct b, b'. cbn in *. by subst.
      + destruct H3 as (_ & H4 & H5). by rewrite H4.
      + destruct H3 as (_ & H4 & H5). by rewrite H4 H5.
      + destruct Hpost as (-> & -> & _). done.
      + destruct H3 as (H4 & H5 & _). by rewrite H4 H5.
    - intros p [d1 a] [d2 b] e [d1' a'] [d2' b'] [Hd Hexn]. cbn [static_unord_code fn2] in Hd.
      cbn in Hexn. destruct Hexn as (_ & H1 & H2 & _ & _ & H3).
      unfold static_ok_u. cbn [fst snd] in *. destruct p; cbn in Hd; injection Hd as -> ->; try done.
      + destruct b, b'. cbn in *. by subst.
      + destruct H3 as [-> ->]. done.
      + destruct H3 as [-> ->]. done.
    - intros i Hi. set_solver.
  Qed.

  Lemma static_unord_single_history (cs : list (cmd C)) w :
    multi kd = false -> (forall c, equality_ok c) -> wf_world w ->
    exists os P w' A h,
      exec_all C cs ∅ w = Some (os, P, w') /\
      pool_mem (S := S) R P A h /\ h ##ₘ heap w /\ heap w' = h ∪ heap w /\
      (forall i, i ∈ static_single cs os ->
         exists c ib l, A !! i = Some (c, (ib, l)) /\ distinct c l) /\
      (forallb static_plain_u cs = true -> (forall e, Threw e ∉ os) ->
         forall i c ib l, A !! i = Some (c, (ib, l)) -> distinct c l).
  Proof.
    intros Hk Hr Hwf. destruct (static_unord_history cs w Hwf) as (os & P & w' & A & h & H1 & H2 & H3 & H4 & H5 & _).
    pose proof (static_all_single cs os A Hk Hr H2) as Ht.
    exists os, P, w', A, h. split_and!; try done.
    - intros i Hi. destruct (Ht i Hi) as ([c [ib l]] & Ha & Hg). by exists c, ib, l.
    - intros Hp Hn i c ib l Hi.
      destruct (Ht i) as (a & Ha & Hg).
      { eapply (plain_ok static_effect_u (static_moves (N := N)) (fun p => p)); [exact H2|done|done| |by eexists].
        intros j [a Ha]. by rewrite lookup_empty in Ha. }
      change (A !! i = Some (c, (ib, l))) in Hi. rewrite Ha in Hi. injection Hi as ->. exact Hg.
  Qed.

  (** Reading the elements off memory. *)
  Definition static_unord_view (x : obj C) (w : world) : option (abs S) :=
    match static_view x.2 w with Some A => Some (x.1, A) | None => None end.
  Lemma static_unord_view_ok (x : obj C) (A : abs S) m w : R x A m -> m ⊆ heap w -> static_unord_view x w = Some A.
  Proof.
    intros [H1 H2] Hm. unfold static_unord_view. rewrite (static_view_ok N _ _ m w H2 Hm). rewrite H1. by destruct A.
  Qed.
End static.

Section small.
  Context `{KD : Keyed}.
  Variable N : nat.
  Variable kd : fkind.
  Context (HN : Z.of_nat N <= max_size).
  Notation C := (small_unord N kd).
  Notation S := (small_unord_spec N kd).
  Notation R := (with_cmp (is_small N)).
  Notation OK := (small_unord_ok N kd HN).

  Lemma small_unord_iff (x : obj C) (A : abs S) h : R x A h <-> inv OK x A h.
  Proof.
    unfold with_cmp. rewrite (small_iff N HN).
    change (inv OK x A h) with (winv _ (small_unord_wspec N kd) (small_bag_ok N HN) x A h).
    unfold winv. by rewrite pure_sep_holds.
  Qed.

  Lemma small_unord_history (cs : list (cmd C)) w :
    wf_world w ->
    exists os P w' A h,
      exec_all C cs ∅ w = Some (os, P, w') /\ atrace S cs ∅ os A /\
      pool_mem (S := S) R P A h /\ h ##ₘ heap w /\ heap w' = h ∪ heap w /\
      ((forall e, Threw e ∉ os) -> fired w' = fired w).
  Proof using HN. apply (history_state OK R small_unord_iff). Qed.
  Lemma small_unord_no_leak (cs : list (cmd C)) w :
    wf_world w ->
    exists os w', exec_all C (cs ++ (Drop <$> created cs)) ∅ w = Some (os, ∅, w') /\ heap w' = heap w.
  Proof using HN. apply (no_leak OK). Qed.

  Definition small_ok_u (a : abs S) : Prop := distinct a.1 (q_elems a.2.2).

  Lemma small_all_single (cs : list (cmd C)) os A :
    multi kd = false -> (forall c, equality_ok c) -> atrace S cs ∅ os A ->
    all_good small_ok_u A (small_single cs os).
  Proof.
    intros Hk Hr Ht. eapply (tidy_ok small_effect_u (small_moves (N := N)) (fun p => p) small_ok_u); [..|exact Ht|].
    - intros k a [Hc [[_ Hp] _]]. specialize (Hp (fun _ _ => proj1 (Hr _))). unfold small_ok_u. rewrite Hc.
      eapply uinserted_all_distinct; [apply Hr|exact Hk|exact Hp|apply distinct_nil].
    - intros k [d b] [d1 a] [d2 b'] (H1 & H2 & H3 & H4 & H5). cbn in H1, H2, H3, H4, H5. subst. split.
      + unfold small_ok_u. cbn. by rewrite H4.
      + destruct k; cbn; try done; intros _; destruct b, b'; cbn in *; destruct H5 as (_ & _ & ->); by subst.
    - intros k [d b] e [d' b'] (H1 & H2 & H3 & H4). cbn in H1, H2, H3, H4. subst.
      destruct k; cbn; try done; intros _; destruct b, b'; cbn in *; by subst.
    - intros p [d a] r [d' a'] Hpre [Hd Hpost]. cbn in Hd. subst d'. unfold small_ok_u. cbn [fst snd].
      destruct p as [o|o], r as [r|r]; try done; cbn in Hpre, Hpost.
      + destruct Hpost as [_ [Hpost _]].
        by eapply (post_effect kd d false (is_map kd) Hk (Hr d)).
      + destruct Hpost as [_ [Hpost _]]. destruct Hpre as [Hal _].
        destruct o; try done; cbn in *.
        all: try (destruct Hpost as (v & _ & _ & ->); done).
        all: destruct Hpost as (_ & ->); done.
    - intros p [d a] e [d' a'] Hpre [Hd Hexn]. cbn in Hd. subst d'. unfold small_ok_u. cbn [fst snd].
      destruct p as [o|o]; cbn in Hpre, Hexn.
      + destruct Hexn as [_ [Hx _]]. by eapply (exn_effect kd d false (is_map kd) Hk (Hr d)).
      + destruct Hexn as [_ Hexn]. destruct Hpre as [Hal _].
        destruct Hexn as (_ & _ & _ & _ & _ & _ & Hexn). destruct o; try done; destruct e; try done.
        all: destruct a as [ib q], a' as [ib' q']; cbn in Hexn; cbn; assert (q' = q) as -> by (by apply Hexn); done.
    - intros p [d1 a] [d2 b] r [d1' a'] [d2' b'] [Hd Hpost]. cbn [small_unord_code fn2] in Hd.
      destruct r as [r|r]; [done|]. cbn in Hpost.
      unfold small_ok_u. cbn [fst snd] in *. destruct p; cbn in Hd; injection Hd as -> ->;
        [destruct Hpost as (H1 & H2 & H3); cbn in H3..| |destruct Hpost as (H1 & H2 & H3); cbn in H3].
      + destruct H3 as (_ & _ & H4 & H5 & _). split; [by rewrite H4|]. destruct b, b'. cbn in *. by subst.
      + destruct H3 as (_ & H3). case_match; [destruct H3 as [-> _]; done|]. destruct H3 as (_ & H4 & _). by rewrite H4.
      + destruct H3 as (_ & _ & H4 & _ & _ & H5 & _). by rewrite H4 H5.
      + destruct Hpost as (-> & -> & _). done.
      + destruct H3 as (H4 & H5 & _). by rewrite H4 H5.
    - intros p [d1 a] [d2 b] e [d1' a'] [d2' b'] [Hd Hexn]. cbn [small_unord_code fn2] in Hd.
      cbn in Hexn. destruct Hexn as (H1 & H2 & H3).
      unfold small_ok_u. cbn [fst snd] in *. destruct p; cbn in Hd; injection Hd as -> ->; cbn in H3; try done.
      + destruct H3 as (_ & _ & H3). destruct b, b'. cbn in *. by subst.
      + destruct H3 as (_ & -> & ->). done.
      + destruct H3 as (_ & -> & ->). done.
    - intros i Hi. set_solver.
  Qed.

  Lemma small_unord_single_history (cs : list (cmd C)) w :
    multi kd = false -> (forall c, equality_ok c) -> wf_world w ->
    exists os P w' A h,
      exec_all C cs ∅ w = Some (os, P, w') /\
      pool_mem (S := S) R P A h /\ h ##ₘ heap w /\ heap w' = h ∪ heap w /\
      (forall i, i ∈ small_single cs os ->
         exists c ib q, A !! i = Some (c, (ib, q)) /\ distinct c (q_elems q)) /\
      (forallb small_plain_u cs = true -> (forall e, Threw e ∉ os) ->
         forall i c ib q, A !! i = Some (c, (ib, q)) -> distinct c (q_elems q)).
  Proof using HN.
    intros Hk Hr Hwf. destruct (small_unord_history cs w Hwf) as (os & P & w' & A & h & H1 & H2 & H3 & H4 & H5 & _).
    pose proof (small_all_single cs os A Hk Hr H2) as Ht.
    exists os, P, w', A, h. split_and!; try done.
    - intros i Hi. destruct (Ht i Hi) as ([c [ib l]] & Ha & Hg). by exists c, ib, l.
    - intros Hp Hn i c ib l Hi.
      destruct (Ht i) as (a & Ha & Hg).
      { eapply (plain_ok small_effect_u (small_moves (N := N)) (fun p => p)); [exact H2|done|done| |by eexists].
        intros j [a Ha]. by rewrite lookup_empty in Ha. }
      change (A !! i = Some (c, (ib, l))) in Hi. rewrite Ha in Hi. injection Hi as ->. exact Hg.
  Qed.

  (** Reading the elements off memory. *)
  Definition small_unord_view (x : obj C) (w : world) : option (abs S) :=
    match small_view x.2 w with Some A => Some (x.1, A) | None => None end.
  Lemma small_unord_view_ok (x : obj C) (A : abs S) m w : R x A m -> m ⊆ heap w -> small_unord_view x w = Some A.
  Proof.
    intros [H1 H2] Hm. unfold small_unord_view. rewrite (small_view_ok N _ _ m w H2 Hm). rewrite H1. by destruct A.
  Qed.
End small.
