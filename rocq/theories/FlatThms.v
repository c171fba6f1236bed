(** * Consequences of the specification of the ordered flat containers

    The lemmas behind Props_Flat.v. *)

From iris.proofmode Require Import tactics.
From Verif Require Export FlatOk FlatLists FlatHist FlatMem StaticThms SmallThms.
From Coq Require Import ZifyBool.
Open Scope Z_scope.

Section flat_thms.
  Context `{KD : Keyed}.
  Variable fl : flavour.
  Variable kd : fkind.
  Variable c : Cmp.
  Hypothesis HN : sane fl.
  Notation R := (is_flat fl).
  Notation call := (flat_call fl kd c).
  Notation raw := (is_static_flat fl).

  (** From program logic to plain states. *)
  Lemma wp_state {St T A} (inv : St -> A -> hProp) (m : M St T) x a
      (φ : T -> A -> Prop) (ψ : exn -> A -> Prop) mh hf w :
    (inv x a ⊢ wp m x (fun r x' => ∃ a', ⟦φ r a'⟧ ∗ inv x' a')%I (fun e x' => ∃ a', ⟦ψ e a'⟧ ∗ inv x' a')%I) ->
    inv x a mh -> wf_world w -> mh ##ₘ hf -> heap w = mh ∪ hf ->
    match m x w with
    | Ok r x' w' => exists a', φ r a' /\ holds (fun x a m => inv x a m) x' a' w' hf /\ quiet w w'
    | Exn e x' w' => exists a', ψ e a' /\ holds (fun x a m => inv x a m) x' a' w' hf /\ reason e w w'
    | UB => False
    end.
  Proof.
    intros Hwp Hm Hwf Hd Hh.
    pose proof (wp_run _ _ _ _ mh hf w (wp_entails _ _ _ _ _ mh Hwp Hm) Hwf Hd Hh) as Hrun.
    destruct (m x w) as [r x' w'|e x' w'|]; [| |done];
      destruct Hrun as (h' & Hh' & Hd' & Haf & HQ); apply pure_ex in HQ as (a' & Ha & HQ);
      exists a'; split; try done; (split; [split; [apply Haf|by exists h']|apply Haf]).
  Qed.

  Lemma flat_call_ok o x l w hf :
    holds R x l w hf -> allowed_call fl kd o l = true ->
    match call o x w with
    | Ok r x' w' => exists l', flat_post kd c raw o l r l' /\ holds R x' l' w' hf /\ quiet w w'
    | Exn e x' w' => exists l', flat_exn kd c raw (negb raw) (unbreakable fl) o l e l' /\
        holds R x' l' w' hf /\ reason e w w'
    | UB => False
    end.
  Proof using HN.
    intros (Hwf & m & Hm & Hd & Hh) Hpre. unfold flat_call, is_flat, allowed_call, can_hold, sane in *.
    destruct fl as [N|N]; cbn [is_static_flat unbreakable negb].
    - destruct Hm as [ib Hm]. apply static_iff in Hm.
      pose proof (wp_state (tinv N) _ _ _ (fun r A' => A'.1 = ib /\ flat_post kd c true o l r A'.2)
        (fun e A' => A'.1 = ib /\ flat_exn kd c true false true o l e A'.2) m hf w
        (static_run_ok N kd c o x (ib, l) Hpre) Hm Hwf Hd Hh) as H.
      destruct (member _ x w) as [r x' w'|e x' w'|]; [| |done];
        destruct H as ([ib' l'] & [_ H1] & (Hwf' & m' & H2 & H3) & H4); exists l'; (split; [done|]);
        (split; [|done]); (split; [done|]); exists m'; (split; [|done]); exists ib'; by apply static_iff.
    - destruct Hm as (ib & a & d & cap & Hm). apply (is_small_iff N HN) in Hm.
      pose proof (wp_state (sinv N HN) _ _ _ _ _ m hf w
        (small_run_ok N kd HN c o x (ib, VAbs a d l cap) Hpre) Hm Hwf Hd Hh) as H.
      destruct (member _ x w) as [r x' w'|e x' w'|]; [| |done];
        destruct H as ([ib' [a' d' l' cap']] & (_ & H1 & _) & (Hwf' & m' & H2 & H3) & H4); exists l'; (split; [done|]);
        (split; [|done]); (split; [done|]); exists m'; (split; [|done]); exists ib', a', d', cap';
        by apply (is_small_iff N HN).
  Qed.

  Lemma flat_returns o x l w hf r x' w' :
    holds R x l w hf -> allowed_call fl kd o l = true -> call o x w = Ok r x' w' ->
    exists l', holds R x' l' w' hf /\ flat_post kd c raw o l r l'.
  Proof using HN.
    intros Hx Hp Hc. pose proof (flat_call_ok o x l w hf Hx Hp) as H. rewrite Hc in H.
    destruct H as (l' & H1 & H2 & _). eauto.
  Qed.
  Lemma flat_throws o x l w hf e x' w' :
    holds R x l w hf -> allowed_call fl kd o l = true -> call o x w = Exn e x' w' ->
    exists l', holds R x' l' w' hf /\ flat_exn kd c raw (negb raw) (unbreakable fl) o l e l' /\ reason e w w'.
  Proof using HN.
    intros Hx Hp Hc. pose proof (flat_call_ok o x l w hf Hx Hp) as H. rewrite Hc in H.
    destruct H as (l' & H1 & H2 & H3). eauto.
  Qed.

  (** ** C32: order *)
  Lemma flat_order_kept o x l w hf r x' w' :
    strict_weak (less c) ->
    holds R x l w hf -> allowed_call fl kd o l = true -> call o x w = Ok r x' w' ->
    ordered kd c l -> (replaces_all o -> raw = false) ->
    exists l', holds R x' l' w' hf /\ ordered kd c l'.
  Proof using HN.
    intros Hr Hx Hp Hc Ho Hraw. destruct (flat_returns o x l w hf r x' w' Hx Hp Hc) as (l' & H1 & H2).
    exists l'. split; [done|]. eapply post_keeps_order; [done|exact Hp|exact H2|by left|done].
  Qed.
  Lemma flat_new_ok k w hf :
    holds0 w hf -> can_hold fl (length (fc_vals k)) = true ->
    match flat_new fl kd k tt w with
    | Ok x _ w' => exists l, holds R x l w' hf /\ fctor_post kd k l /\ quiet w w'
    | Exn e _ w' => holds0 w' hf /\ e <> EOutOfRange /\ reason e w w'
    | UB => False
    end.
  Proof using HN.
    intros (Hwf & Hh) Hk. unfold flat_new, is_flat, can_hold, sane in *.
    destruct fl as [N|N].
    - pose proof (wp_run _ _ _ _ ∅ hf w (wp_entails emp%I _ _ _ _ ∅ (static_build_ok' N kd k ltac:(lia)) eq_refl) Hwf) as Hrun.
      specialize (Hrun (map_disjoint_empty_l _)). rewrite left_id_L in Hrun. specialize (Hrun Hh).
      destruct (construct_small _ _ _ tt w) as [x [] w'|e [] w'|]; [| |done];
        destruct Hrun as (h' & Hh' & Hd' & Haf & HQ).
      + apply pure_ex in HQ as ([ib l] & Ha & HQ). exists l. split; [|split; [done|apply Haf]].
        split; [apply Haf|]. exists h'. split; [|done]. exists ib. by apply static_iff.
      + destruct HQ as [Hemp ->]. change (h' = ∅) in Hemp. subst. rewrite left_id_L in Hh'.
        split; [split; [apply Haf|done]|]. split; [done|apply Haf].
    - pose proof (wp_run _ _ _ _ ∅ hf w (wp_entails emp%I _ _ _ _ ∅ (small_build_ok' N kd HN k) eq_refl) Hwf) as Hrun.
      specialize (Hrun (map_disjoint_empty_l _)). rewrite left_id_L in Hrun. specialize (Hrun Hh).
      destruct (construct_small _ _ _ tt w) as [x [] w'|e [] w'|]; [| |done];
        destruct Hrun as (h' & Hh' & Hd' & Haf & HQ).
      + apply pure_ex in HQ as ([ib [a d l cap]] & [Ha _] & HQ). exists l. split; [|split; [done|apply Haf]].
        split; [apply Haf|]. exists h'. split; [|done]. exists ib, a, d, cap. by apply (is_small_iff N HN).
      + destruct HQ as [Hemp He]. change (h' = ∅) in Hemp. subst. rewrite left_id_L in Hh'.
        split; [split; [apply Haf|done]|]. split; [done|apply Haf].
  Qed.

  (** ** C33: lookup *)
  Lemma flat_lookup o x l w hf :
    holds R x l w hf -> allowed_call fl kd o l = true -> is_lookup o = true ->
    match call o x w with
    | Ok r x' w' => holds R x' l w' hf /\
        (strict_weak (less c) -> ordered kd c l -> flat_sorted kd c raw o l r l)
    | Exn e x' w' => holds R x' l w' hf /\
        (e = EUser \/ e = EOutOfRange /\ exists k, o = FAt k /\ (strict_weak (less c) -> ordered kd c l -> absent c l k)) /\
        reason e w w'
    | UB => False
    end.
  Proof using HN.
    intros Hx Hp Hl. pose proof (flat_call_ok o x l w hf Hx Hp) as H.
    destruct (call o x w) as [r x' w'|e x' w'|]; [| |done].
    - destruct H as (l' & [H1 H2] & H3 & _).
      assert (l' = l) as -> by (destruct o; cbn in Hl, H1; try done; by destruct H1).
      split; [done|]. intros Hr Ho. apply H2; [done|by left].
    - destruct H as (l' & (H1 & _ & H2) & H3 & H4).
      assert (l' = l) as -> by (by destruct o; cbn in Hl, H1).
      split; [done|]. split; [|done]. destruct e; [| | |by left].
      + destruct H2 as [_ H2]. by destruct o; cbn in Hl, H2; try done; destruct H2.
      + right. split; [done|]. destruct H2 as (k & -> & Ha). by exists k.
      + destruct H2 as [_ H2]. by destruct o; cbn in Hl, H2; try done; destruct H2.
  Qed.
  Lemma flat_lookup_found o x l w hf r x' w' :
    strict_weak (less c) -> ordered kd c l ->
    holds R x l w hf -> call o x w = Ok r x' w' ->
    match o with
    | FFind k => holds R x' l w' hf /\
        ((exists i, r = Pos i /\ found c l k i /\ forall j, found c l k j -> (i <= j)%nat) \/
         (r = Pos (length l) /\ absent c l k))
    | FLower k => holds R x' l w' hf /\ exists i, r = Pos i /\ lower_pos c l k i
    | FUpper k => holds R x' l w' hf /\ exists i, r = Pos i /\ upper_pos c l k i
    | FEqualRange k => holds R x' l w' hf /\
        exists i j, r = PosRange i j /\ lower_pos c l k i /\ upper_pos c l k j
    | FCount k => holds R x' l w' hf /\ r = Num (length (List.filter (equivb c k) l))
    | FContains k => holds R x' l w' hf /\
        exists b, r = One (RBool b) /\ (b = true <-> exists i, found c l k i)
    | FSize => holds R x' l w' hf /\ r = Num (length l)
    | _ => True
    end.
  Proof using HN.
    intros Hr Ho Hx Hc.
    assert (Hpre : is_lookup o = true -> (forall k, o <> FAt k) -> allowed_call fl kd o l = true).
    { destruct o; try done. intros _ Hk. by edestruct Hk. }
    assert (Hgo : is_lookup o = true -> (forall k, o <> FAt k) -> holds R x' l w' hf /\
              flat_sorted kd c raw o l r l).
    { intros Hl Hk. pose proof (flat_lookup o x l w hf Hx (Hpre Hl Hk) Hl) as H. rewrite Hc in H.
      destruct H as [H1 H2]. auto. }
    destruct o; try done; try (by apply Hgo).
    pose proof (flat_call_ok FSize x l w hf Hx eq_refl) as H. rewrite Hc in H.
    by destruct H as (l' & [(-> & ->) _] & H & _).
  Qed.

  (** ** C34, C37: insertion *)
  Definition one_insert (o : fop) : option (xarg * bool) :=
    match o with
    | FEmplace x | FInsert x => Some (x, false)
    | FEmplaceHint _ x | FInsertHint _ x => Some (x, true)
    | _ => None
    end.
  Lemma flat_insert o x l w hf r x' w' a h :
    strict_weak (less c) -> ordered kd c l ->
    holds R x l w hf -> allowed_call fl kd o l = true -> one_insert o = Some (a, h) ->
    call o x w = Ok r x' w' ->
    exists l' v i b, holds R x' l' w' hf /\ arg_value l a = Some v /\ inserted kd c v l i b l' /\
      r = ins_result kd h i b.
  Proof using HN.
    intros Hr Ho Hx Hp Ha Hc. destruct (flat_returns o x l w hf r x' w' Hx Hp Hc) as (l' & H1 & _ & H2).
    specialize (H2 Hr (or_introl Ho)).
    destruct o; cbn in Ha; try done; injection Ha as <- <-; destruct H2 as (v & i & b & H2 & H3 & H4);
      by exists l', v, i, b.
  Qed.
  Lemma flat_insert_unique o x l w hf r x' w' a h :
    multi kd = false -> strict_weak (less c) -> ordered kd c l ->
    holds R x l w hf -> allowed_call fl kd o l = true -> one_insert o = Some (a, h) ->
    call o x w = Ok r x' w' ->
    exists v i b, arg_value l a = Some v /\ r = (if h then Pos i else PosNew i b) /\
      ((b = false /\ found c l (key v) i /\ holds R x' l w' hf) \/
       (b = true /\ absent c l (key v) /\ (i <= length l)%nat /\
        holds R x' (take i l ++ v :: drop i l) w' hf /\ ordered kd c (take i l ++ v :: drop i l))).
  Proof using HN.
    intros Hm Hr Ho Hx Hp Ha Hc.
    destruct (flat_insert o x l w hf r x' w' a h Hr Ho Hx Hp Ha Hc) as (l' & v & i & b & H1 & H2 & H3 & ->).
    exists v, i, b. split; [done|]. split.
    { unfold ins_result. rewrite Hm orb_false_r. done. }
    destruct H3 as [(_ & -> & H3 & ->)|(H3 & -> & H4 & -> & H5)]; [by left|right]. split_and!; auto.
  Qed.
  Lemma flat_insert_multi o x l w hf r x' w' a h :
    multi kd = true -> strict_weak (less c) -> ordered kd c l ->
    holds R x l w hf -> allowed_call fl kd o l = true -> one_insert o = Some (a, h) ->
    call o x w = Ok r x' w' ->
    exists v i, arg_value l a = Some v /\ r = Pos i /\ (i <= length l)%nat /\
      holds R x' (take i l ++ v :: drop i l) w' hf /\ ordered kd c (take i l ++ v :: drop i l).
  Proof using HN.
    intros Hm Hr Ho Hx Hp Ha Hc.
    destruct (flat_insert o x l w hf r x' w' a h Hr Ho Hx Hp Ha Hc) as (l' & v & i & b & H1 & H2 & H3 & ->).
    exists v, i. split; [done|]. split.
    { unfold ins_result. by rewrite Hm orb_true_r. }
    destruct H3 as [(? & _)|(H3 & -> & H4 & -> & H5)]; [congruence|]. done.
  Qed.
  Lemma flat_insert_range vs x l w hf r x' w' :
    strict_weak (less c) -> ordered kd c l ->
    holds R x l w hf -> allowed_call fl kd (FInsertRange vs) l = true ->
    call (FInsertRange vs) x w = Ok r x' w' ->
    exists l', holds R x' l' w' hf /\ ordered kd c l' /\
      sublist l l' /\ (forall y, y ∈ l' -> y ∈ l \/ y ∈ vs) /\
      (forall v, v ∈ vs -> exists i, found c l' (key v) i) /\
      (multi kd = true -> l' ≡ₚ vs ++ l).
  Proof using HN.
    intros Hr Ho Hx Hp Hc.
    destruct (flat_returns _ x l w hf r x' w' Hx Hp Hc) as (l' & H1 & _ & H2).
    destruct (H2 Hr (or_introl Ho)) as [_ H3].
    exists l'. split; [done|]. split; [by eapply inserted_all_ordered|].
    by apply inserted_all_facts.
  Qed.
  Lemma flat_new_range k w hf x u w' :
    strict_weak (less (fc_cmp k)) ->
    holds0 w hf -> can_hold fl (length (fc_vals k)) = true ->
    flat_new fl kd k tt w = Ok x u w' ->
    exists l', holds R x l' w' hf /\ ordered kd (fc_cmp k) l' /\
      (forall y, y ∈ l' -> y ∈ fc_vals k) /\
      (forall v, v ∈ fc_vals k -> exists i, found (fc_cmp k) l' (key v) i) /\
      (multi kd = true -> l' ≡ₚ fc_vals k).
  Proof using HN.
    intros Hr Hw Hk Hc. pose proof (flat_new_ok k w hf Hw Hk) as H. rewrite Hc in H.
    destruct H as (l & H1 & [_ H2] & _). specialize (H2 Hr).
    destruct (inserted_all_facts kd _ Hr _ _ _ H2) as (_ & H3 & H4 & H5).
    exists l. split_and!; try done.
    - eapply inserted_all_ordered; [apply ordered_nil|done].
    - intros y Hy. destruct (H3 y Hy) as [Hn|Hn]; [by apply elem_of_nil in Hn|done].
    - intros Hm. by rewrite (H5 Hm) app_nil_r.
  Qed.

  (** ** Erasure *)
  Lemma flat_erase_key k x l w hf r x' w' :
    strict_weak (less c) -> ordered kd c l ->
    holds R x l w hf -> call (FEraseKey k) x w = Ok r x' w' ->
    holds R x' (List.filter (fun v => negb (equivb c k v)) l) w' hf /\
    r = Num (length (List.filter (equivb c k) l)).
  Proof using HN.
    intros Hr Ho Hx Hc. destruct (flat_returns (FEraseKey k) x l w hf r x' w' Hx eq_refl Hc) as (l' & H1 & _ & H2).
    destruct (H2 Hr (or_introl Ho)) as [-> ->]. done.
  Qed.
  Lemma flat_erase_if p x l w hf r x' w' :
    holds R x l w hf -> call (FEraseIf p) x w = Ok r x' w' ->
    holds R x' (List.filter (fun v => negb (p v)) l) w' hf /\
    r = Num (length (List.filter p l)).
  Proof using HN.
    intros Hx Hc. destruct (flat_returns (FEraseIf p) x l w hf r x' w' Hx eq_refl Hc) as (l' & H1 & (-> & ->) & _). done.
  Qed.
  Lemma flat_erase_at i j x l w hf r x' w' :
    (i <= j <= length l)%nat ->
    holds R x l w hf -> call (FEraseRange i j) x w = Ok r x' w' ->
    holds R x' (take i l ++ drop j l) w' hf /\ r = Pos i.
  Proof using HN.
    intros Hij Hx Hc.
    assert (allowed_call fl kd (FEraseRange i j) l = true) as Hp by (unfold allowed_call; cbn; lia).
    destruct (flat_returns _ x l w hf r x' w' Hx Hp Hc) as (l' & H1 & (-> & ->) & _). done.
  Qed.

  (** ** C35: hints *)
  Definition hinted (o oh : fop) : Prop :=
    match o, oh with
    | FInsert a, FInsertHint _ b | FEmplace a, FEmplaceHint _ b => a = b
    | FTryEmplace k m, FTryEmplaceHint _ k' m' => k = k' /\ m = m'
    | FInsertOrAssign k m, FInsertOrAssignHint _ k' m' => k = k' /\ m = m'
    | _, _ => False
    end.
  Definition iterator_of (r : frv) : frv := match r with PosNew i _ => Pos i | _ => r end.

  Lemma flat_hint o oh x l w hf r1 x1 w1 r2 x2 w2 :
    strict_weak (less c) -> ordered kd c l -> hinted o oh ->
    holds R x l w hf -> allowed_call fl kd o l = true -> allowed_call fl kd oh l = true ->
    call o x w = Ok r1 x1 w1 -> call oh x w = Ok r2 x2 w2 ->
    exists l1 l2, holds R x1 l1 w1 hf /\ holds R x2 l2 w2 hf /\ same_keys c l1 l2 /\
      (multi kd = false -> l1 = l2 /\ r2 = iterator_of r1).
  Proof using HN.
    intros Hr Ho Hh Hx Hp1 Hp2 Hc1 Hc2.
    destruct (flat_returns o x l w hf r1 x1 w1 Hx Hp1 Hc1) as (l1 & H1 & _ & A).
    destruct (flat_returns oh x l w hf r2 x2 w2 Hx Hp2 Hc2) as (l2 & H2 & _ & B).
    specialize (A Hr (or_introl Ho)). specialize (B Hr (or_introl Ho)).
    exists l1, l2. split; [done|]. split; [done|].
    assert (Hins : forall v i b j b', inserted kd c v l i b l1 -> inserted kd c v l j b' l2 ->
      same_keys c l1 l2 /\ (multi kd = false -> i = j /\ l1 = l2)).
    { intros v i b j b' Hi Hj. by destruct (inserted_same kd c Hr v l i b l1 j b' l2 Ho Hi Hj) as (_ & ? & ?). }
    assert (Hsame : forall l0, same_keys c l0 l0).
    { intros l0. split; [done|]. intros n y z Hy Hz. simplify_eq. by apply FlatLists.equiv_refl. }
    destruct o; try done; destruct oh; try done; cbn in Hh.
    - subst. destruct A as (v & i & b & Hv & Hi & ->). destruct B as (v' & j & b' & Hv' & Hj & ->). simplify_eq.
      destruct (Hins _ _ _ _ _ Hi Hj) as [Hs Heq]. split; [done|]. intros Hm. destruct (Heq Hm) as [-> ->].
      split; [done|]. unfold ins_result. rewrite Hm. done.
    - subst. destruct A as (v & i & b & Hv & Hi & ->). destruct B as (v' & j & b' & Hv' & Hj & ->). simplify_eq.
      destruct (Hins _ _ _ _ _ Hi Hj) as [Hs Heq]. split; [done|]. intros Hm. destruct (Heq Hm) as [-> ->].
      split; [done|]. unfold ins_result. rewrite Hm. done.
    - destruct Hh as [-> ->]. destruct A as (i & b & Hi & ->). destruct B as (j & b' & Hj & ->).
      destruct (Hins _ _ _ _ _ Hi Hj) as [Hs Heq]. split; [done|]. intros Hm. by destruct (Heq Hm) as [-> ->].
    - destruct Hh as [-> ->].
      assert (multi kd = false) as Hm.
      { unfold allowed_call in Hp1. cbn in Hp1. destruct (multi kd); [|done].
        by rewrite andb_false_r in Hp1. }
      destruct A as [(i & v & Hv & He & -> & ->)|(i & Hi & ->)], B as [(j & v' & Hv' & He' & -> & ->)|(j & Hj & ->)].
      + assert (i = j) as ->.
        { apply (unique_found kd c l k0 i j Hr Hm Ho); [by exists v|by exists v']. }
        simplify_eq. split; [apply Hsame|]. done.
      + exfalso. destruct Hj as [(_ & ? & _)|(Ha & _)]; [done|]. specialize (Ha Hm i). apply Ha.
        exists v. split; [done|]. by rewrite key_entry.
      + exfalso. destruct Hi as [(_ & ? & _)|(Ha & _)]; [done|]. specialize (Ha Hm j). apply Ha.
        exists v'. split; [done|]. by rewrite key_entry.
      + destruct (Hins _ _ _ _ _ Hi Hj) as [Hs Heq]. split; [done|]. intros _. by destruct (Heq Hm) as [-> ->].
  Qed.

  (** ** C36: maps *)
  Lemma flat_at k x l w hf :
    strict_weak (less c) -> ordered kd c l -> is_map kd = true -> multi kd = false ->
    holds R x l w hf ->
    match call (FAt k) x w with
    | Ok r x' w' => holds R x' l w' hf /\
        exists i v, l !! i = Some v /\ FlatSpec.equiv c (key v) k /\ r = TheMapped (mapped v)
    | Exn e x' w' => holds R x' l w' hf /\
        (e = EOutOfRange /\ absent c l k \/ e = EUser /\ reason e w w')
    | UB => False
    end.
  Proof using HN.
    intros Hr Ho Hmap Hm Hx.
    assert (allowed_call fl kd (FAt k) l = true) as Hp by (unfold allowed_call; cbn; by rewrite Hmap Hm).
    pose proof (flat_lookup (FAt k) x l w hf Hx Hp eq_refl) as H.
    destruct (call (FAt k) x w) as [r x' w'|e x' w'|]; [| |done].
    - destruct H as [H1 H2]. split; [done|]. by apply H2.
    - destruct H as (H1 & H2 & H3). split; [done|]. destruct H2 as [-> |(-> & k' & [= ->] & Ha)]; [by right|].
      left. split; [done|]. by apply Ha.
  Qed.
  Lemma flat_map_update o k m x l w hf r x' w' :
    strict_weak (less c) -> ordered kd c l -> holds R x l w hf -> allowed_call fl kd o l = true ->
    call o x w = Ok r x' w' ->
    match o with
    | FTryEmplace k' m' | FInsertOrAssign k' m' | FTryEmplaceHint _ k' m' | FInsertOrAssignHint _ k' m' => k' = k /\ m' = m
    | FIndex k' => k' = k /\ m = mdef
    | _ => False
    end ->
    exists i l', holds R x' l' w' hf /\ ordered kd c l' /\
      ((* the key was there *)
       (exists v, l !! i = Some v /\ FlatSpec.equiv c (key v) k /\
          match o with
          | FInsertOrAssign _ _ | FInsertOrAssignHint _ _ _ => l' = <[i := entry (key v) m]> l
          | _ => l' = l
          end /\
          match o with
          | FTryEmplace _ _ | FInsertOrAssign _ _ => r = PosNew i false
          | FIndex _ => r = TheMapped (mapped v)
          | _ => r = Pos i
          end) \/
       (* it is new *)
       (absent c l k /\ (i <= length l)%nat /\ l' = take i l ++ entry k m :: drop i l /\
          match o with
          | FTryEmplace _ _ | FInsertOrAssign _ _ => r = PosNew i true
          | FIndex _ => r = TheMapped m
          | _ => r = Pos i
          end)).
  Proof using HN.
    intros Hr Ho Hx Hp Hc Hkm.
    destruct (flat_returns o x l w hf r x' w' Hx Hp Hc) as (l' & H1 & Hpost).
    assert (ordered kd c l') as Ho'.
    { eapply post_keeps_order; [done|exact Hp|exact Hpost|by left|]. by destruct o. }
    destruct Hpost as [_ A]. specialize (A Hr (or_introl Ho)).
    assert (Hm : multi kd = false).
    { unfold allowed_call in Hp. destruct o; try done; cbn in Hp; destruct (multi kd); try done;
        by rewrite ?andb_false_r in Hp. }
    assert (Hold : forall i b, inserted kd c (entry k m) l i b l' ->
      (b = false /\ l' = l /\ exists v, l !! i = Some v /\ FlatSpec.equiv c (key v) k) \/
      (b = true /\ absent c l k /\ (i <= length l)%nat /\ l' = take i l ++ entry k m :: drop i l)).
    { intros i b [(_ & -> & (v & Hv & He) & ->)|(Ha & -> & Hi & -> & _)].
      - rewrite key_entry in He. left. split; [done|]. split; [done|]. by exists v.
      - rewrite key_entry in Ha. right. auto. }
    destruct o; try done; destruct Hkm as [-> Hkm].
    - subst. destruct A as (i & b & Hi & ->). exists i, l'. split; [done|]. split; [done|].
      destruct (Hold i b Hi) as [(-> & -> & v & Hv & He)|(-> & Ha & Hle & ->)]; [left; by exists v|by right].
    - subst. destruct A as (i & b & Hi & ->). exists i, l'. split; [done|]. split; [done|].
      destruct (Hold i b Hi) as [(-> & -> & v & Hv & He)|(-> & Ha & Hle & ->)]; [left; by exists v|by right].
    - subst. destruct A as [(i & v & Hv & He & -> & ->)|(i & Hi & ->)].
      + eexists i, _. split; [done|]. split; [done|]. left. by exists v.
      + exists i, l'. split; [done|]. split; [done|].
        destruct (Hold i true Hi) as [(? & _)|(_ & Ha & Hle & ->)]; [done|by right].
    - subst. destruct A as [(i & v & Hv & He & -> & ->)|(i & Hi & ->)].
      + eexists i, _. split; [done|]. split; [done|]. left. by exists v.
      + exists i, l'. split; [done|]. split; [done|].
        destruct (Hold i true Hi) as [(? & _)|(_ & Ha & Hle & ->)]; [done|by right].
    - subst. destruct A as (i & b & v & Hi & Hv & ->). exists i, l'. split; [done|]. split; [done|].
      destruct (Hold i b Hi) as [(-> & -> & v' & Hv' & He)|(-> & Ha & Hle & ->)].
      + left. exists v. simplify_eq. done.
      + right. split; [done|]. split; [done|]. split; [done|].
        rewrite ins_lookup in Hv; [|done]. destruct (Nat.ltb_spec i i); [lia|]. rewrite Nat.eqb_refl in Hv.
        injection Hv as <-. by rewrite mapped_entry.
  Qed.
  Lemma flat_put i m x l w hf r x' w' :
    is_map kd = true -> holds R x l w hf -> (i < length l)%nat -> call (FPut i m) x w = Ok r x' w' ->
    exists v, l !! i = Some v /\ holds R x' (<[i := entry (key v) m]> l) w' hf.
  Proof using HN.
    intros Hmap Hx Hi Hc.
    assert (allowed_call fl kd (FPut i m) l = true) as Hp by (unfold allowed_call; cbn; rewrite Hmap; by apply Nat.ltb_lt).
    destruct (flat_returns _ x l w hf r x' w' Hx Hp Hc) as (l' & H1 & (_ & v & Hv & ->) & _). by exists v.
  Qed.

  (** ** C38: list assignment *)
  Lemma flat_assign_list vs x l w hf r x' w' :
    raw = false -> strict_weak (less c) ->
    holds R x l w hf -> call (FAssignList vs) x w = Ok r x' w' ->
    exists l', holds R x' l' w' hf /\ ordered kd c l' /\
      (forall y, y ∈ l' -> y ∈ vs) /\ (forall v, v ∈ vs -> exists i, found c l' (key v) i) /\
      (multi kd = true -> l' ≡ₚ vs).
  Proof using HN.
    intros Hraw Hr Hx Hc.
    assert (allowed_call fl kd (FAssignList vs) l = true) as Hp by (unfold allowed_call, can_hold; by destruct fl).
    destruct (flat_returns _ x l w hf r x' w' Hx Hp Hc) as (l' & H1 & _ & A).
    specialize (A Hr (or_intror I) Hraw).
    destruct (inserted_all_facts kd _ Hr _ _ _ A) as (_ & H3 & H4 & H5).
    exists l'. split_and!; try done.
    - eapply inserted_all_ordered; [apply ordered_nil|done].
    - intros y Hy. destruct (H3 y Hy) as [Hn|Hn]; [by apply elem_of_nil in Hn|done].
    - intros Hm. by rewrite (H5 Hm) app_nil_r.
  Qed.
  Lemma flat_assign_list_raw vs x l w hf r x' w' :
    raw = true -> can_hold fl (length vs) = true ->
    holds R x l w hf -> call (FAssignList vs) x w = Ok r x' w' ->
    holds R x' vs w' hf.
  Proof using HN.
    intros Hraw Hp Hx Hc.
    destruct (flat_returns (FAssignList vs) x l w hf r x' w' Hx Hp Hc) as (l' & H1 & (_ & H2 & _) & _).
    by rewrite -(H2 Hraw).
  Qed.

  (** ** C39: exceptions *)
  Lemma flat_safe o x l w hf :
    holds R x l w hf -> allowed_call fl kd o l = true ->
    match call o x w with
    | Ok _ x' w' => (exists l', holds R x' l' w' hf) /\ quiet w w'
    | Exn e x' w' => (exists l', holds R x' l' w' hf) /\ reason e w w'
    | UB => False
    end.
  Proof using HN.
    intros Hx Hp. pose proof (flat_call_ok o x l w hf Hx Hp) as H.
    destruct (call o x w); [| |done]; destruct H as (l' & _ & H1 & H2); eauto.
  Qed.
  Lemma flat_strong o x l w hf e x' w' :
    strict_weak (less c) -> ordered kd c l -> unbreakable fl = true -> at_end c o l ->
    holds R x l w hf -> allowed_call fl kd o l = true ->
    call o x w = Exn e x' w' -> holds R x' l w' hf.
  Proof using HN.
    intros Hr Ho Hu Ha Hx Hp Hc. destruct (flat_throws o x l w hf e x' w' Hx Hp Hc) as (l' & H1 & (_ & H2 & _) & _).
    by rewrite -(H2 Hr Ho Hu Ha).
  Qed.
  Lemma flat_failed_alloc o x l w hf e x' w' :
    adds o = 1%nat -> (forall vs, o <> FInsertRange vs) -> e = ELength \/ e = EBadAlloc ->
    holds R x l w hf -> allowed_call fl kd o l = true ->
    call o x w = Exn e x' w' -> holds R x' l w' hf /\ raw = false.
  Proof using HN.
    intros Had Hnr He Hx Hp Hc. destruct (flat_throws o x l w hf e x' w' Hx Hp Hc) as (l' & H1 & (_ & _ & H2) & _).
    assert (raw = false /\ l' = l) as [Hraw ->]; [|done].
    destruct He as [-> | ->]; destruct H2 as [H2 H3]; (split; [by destruct raw|]); by destruct o; cbn in Had; try done; try (by edestruct Hnr); destruct H3.
  Qed.
End flat_thms.
