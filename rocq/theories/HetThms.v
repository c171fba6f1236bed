(** * Consequences of the specification of the functions that take an argument of
      another type, for the ordered flat containers

    The lemmas behind Props_Het.v. *)

From iris.proofmode Require Import tactics.
From Verif Require Export HetProofs FlatThms FlatDemo.
From Coq Require Import ZifyBool.
Open Scope Z_scope.

(** ** The argument stands for a key *)
Section like_key.
  Context `{KD : Keyed}.
  Variable kd : fkind.
  Variable c : Cmp.
  Implicit Types (l : list V) (x : probe) (k : Key).

  (** The elements equivalent to the argument. *)
  Definition matches (x : probe) (v : V) : bool := negb (before x v) && negb (behind x v).

  Lemma splits_filter x l m n :
    splits x l m n ->
    List.filter (fun v => negb (matches x v)) l = take m l ++ drop n l /\
    length (List.filter (matches x) l) = (n - m)%nat.
  Proof.
    intros [Hmn Hs]. apply filter_range; [lia|lia|]. intros j w Hw. destruct (Hs j w Hw) as [H1 H2].
    unfold matches. destruct (before x w), (behind x w); cbn; split; intros H; try done; try lia;
      destruct H1 as [H1 H1'], H2 as [H2 H2']; repeat match goal with
      | H : true = true -> _ |- _ => specialize (H eq_refl)
      | H : false = false -> _ |- _ => specialize (H eq_refl)
      end; try lia.
  Qed.

  (** An argument that compares as a key does splits the elements where the key does. *)
  Lemma stands_splits x k l :
    strict_weak (less c) -> ordered kd c l -> stands_for c x k l ->
    exists m n, splits x l m n /\ lower_pos c l k m /\ upper_pos c l k n.
  Proof.
    intros Hr Ho Hx. destruct (lower_exists kd c k l Hr Ho) as [m Hm].
    destruct (upper_exists kd c k l Hr Ho) as [n Hn]. exists m, n. split; [|done].
    pose proof (lower_le_upper c k l m n Hr Hm Hn). destruct Hm as [Hml Hm], Hn as [Hnl Hn].
    split; [lia|]. intros j w Hw. destruct (Hx w) as [-> ->]; [by eapply elem_of_list_lookup_2|].
    split; [by apply Hm|by apply Hn].
  Qed.

  (** The same call with the key [k] instead of the argument. *)
  Definition as_key (o : hop) (k : Key) : fop :=
    match o with
    | HLower _ => FLower k
    | HUpper _ => FUpper k
    | HEqualRange _ => FEqualRange k
    | HFind _ => FFind k
    | HCount _ => FCount k
    | HContains _ => FContains k
    | HErase _ => FEraseKey k
    | HInsert _ v => FInsert (XVal v)
    | HInsertHint h _ v => FInsertHint h (XVal v)
    | HAssign _ k m => FInsertOrAssign k m
    | HAssignHint h _ k m => FInsertOrAssignHint h k m
    | HAt _ => FAt k
    | HIndex _ k => FIndex k
    end.

  Section at_key.
    Variable l : list V.
    Variable k : Key.
    Variables m n : nat.
    Context (Hr : strict_weak (less c)) (Ho : ordered kd c l).
    Context (Hlo : lower_pos c l k m) (Hup : upper_pos c l k n).

    Lemma at_found : (m < n)%nat -> found c l k m.
    Proof using Hr Ho Hlo Hup.
      intros Hmn. destruct (lookup_lt_is_Some_2 l m) as [w Hw]; [destruct Hup; lia|].
      apply (lower_found c l k m w Hlo Hw). by apply (proj2 Hup m w Hw).
    Qed.
    Lemma at_none : ~ (m < n)%nat -> forall w, l !! m = Some w -> less c k (key w) = true.
    Proof using Hup.
      intros Hmn w Hw. destruct (less c k (key w)) eqn:Hl; [done|]. apply (proj2 Hup m w Hw) in Hl. done.
    Qed.
    Lemma at_absent : ~ (m < n)%nat -> absent c l k.
    Proof using Hr Ho Hlo Hup. intros Hmn. by eapply lower_absent, at_none. Qed.
    Lemma at_insert v : multi kd = false -> key v = k -> ~ (m < n)%nat ->
      inserted kd c v l m true (put_at m v l).
    Proof using Hr Ho Hlo Hup.
      intros Hm Hk Hmn. apply inserted_gap; [done|done|]. rewrite Hk. apply lower_gap_unique; [done|done|by apply at_none].
    Qed.
    Lemma at_there v : multi kd = false -> key v = k -> (m < n)%nat -> inserted kd c v l m false l.
    Proof using Hr Ho Hlo Hup.
      intros Hm Hk Hmn. left. rewrite Hk. split_and!; try done. by apply at_found.
    Qed.
    Lemma at_filter :
      List.filter (fun v => negb (equivb c k v)) l = take m l ++ drop n l /\
      length (List.filter (equivb c k) l) = (n - m)%nat.
    Proof using Hr Ho Hlo Hup.
      apply filter_range; [by eapply lower_le_upper|apply Hup|by apply equal_between].
    Qed.
    Lemma at_one : multi kd = false -> (m < n)%nat -> n = S m.
    Proof using Hr Ho Hlo Hup.
      intros Hm Hmn. destruct (unique_filter kd c l k m Hr Hm Ho (at_found Hmn)) as [_ H1].
      destruct at_filter as [_ H2]. rewrite H1 in H2. lia.
    Qed.

    Lemma het_result_like raw room o r l' :
      het_pre kd room o (length l) = true ->
      (forall v, new_elem o = Some v -> key v = k) ->
      het_result kd o m n l r l' -> flat_sorted kd c raw (as_key o k) l r l'.
    Proof using Hr Ho Hlo Hup.
      intros Hpre Hk Hres. unfold het_result, as_key in *.
      destruct o; cbn [het_pre new_elem flat_sorted] in *;
        rewrite ?andb_true_iff ?negb_true_iff in Hpre; revert Hres; destruct_and?; intros Hres;
        try specialize (Hk _ eq_refl); rewrite ?key_entry in Hk; cbn [arg_value].
      - eauto.
      - eauto.
      - eauto.
      - subst r. destruct (Nat.ltb_spec m n) as [Hmn|Hmn].
        + left. exists m. split; [done|]. split; [by apply at_found|]. intros j. by apply lower_first.
        + right. split; [done|]. apply at_absent. lia.
      - subst r. destruct at_filter as [_ ->]. destruct (multi kd) eqn:Hm; [done|].
        destruct (Nat.ltb_spec m n) as [Hmn|Hmn]; f_equal; [|lia]. rewrite (at_one Hm Hmn). lia.
      - subst r. eexists. split; [done|]. rewrite Nat.ltb_lt. split.
        + intros Hmn. exists m. by apply at_found.
        + intros [i Hi]. destruct (decide (m < n)%nat) as [|Hmn]; [done|]. by destruct (at_absent Hmn i).
      - destruct at_filter as [-> ->]. destruct (multi kd) eqn:Hm; [done|].
        destruct (Nat.ltb_spec m n) as [Hmn|Hmn].
        + rewrite (at_one Hm Hmn). destruct Hres as [-> ->]. split; [done|]. f_equal. lia.
        + pose proof (lower_le_upper c k l m n Hr Hlo Hup). assert (n = m) as -> by lia.
          destruct Hres as [-> ->]. rewrite take_drop. split; [done|]. f_equal. lia.
      - exists v. unfold ins_result. rewrite H. cbn.
        destruct (Nat.ltb_spec m n) as [Hmn|Hmn]; destruct Hres as [-> ->].
        + exists m, false. split_and!; try done. by apply at_there.
        + exists m, true. split_and!; try done. apply at_insert; [done|done|lia].
      - exists v. unfold ins_result. cbn. destruct Hres as [-> ->].
        destruct (Nat.ltb_spec m n) as [Hmn|Hmn].
        + exists m, false. split_and!; try done. by apply at_there.
        + exists m, true. split_and!; try done. apply at_insert; [done|done|lia].
      - subst k0. destruct (Nat.ltb_spec m n) as [Hmn|Hmn].
        + left. destruct (at_found Hmn) as (w' & Hw' & He). destruct Hres as (w & Hw & -> & ->). exists m, w.
          simplify_eq. done.
        + right. destruct Hres as [-> ->]. exists m. split; [|done].
          apply at_insert; [done|by rewrite key_entry|lia].
      - subst k0. destruct Hres as [-> Hres]. destruct (Nat.ltb_spec m n) as [Hmn|Hmn].
        + left. destruct (at_found Hmn) as (w' & Hw' & He). destruct Hres as (w & Hw & ->). exists m, w.
          simplify_eq. done.
        + right. subst l'. exists m. split; [|done].
          apply at_insert; [done|by rewrite key_entry|lia].
      - destruct Hres as (w & Hmn & Hw & ->). destruct (at_found Hmn) as (w' & Hw' & He). simplify_eq. eauto.
      - subst k0. destruct (Nat.ltb_spec m n) as [Hmn|Hmn].
        + destruct Hres as [-> (w & Hw & ->)]. exists m, false, w. split_and!; try done.
          apply at_there; [done|by rewrite key_entry|done].
        + destruct Hres as [-> ->]. exists m, true, (entry k mdef). split_and!.
          * apply at_insert; [done|by rewrite key_entry|lia].
          * unfold put_at. apply list_lookup_middle. rewrite take_length. destruct Hlo. lia.
          * by rewrite mapped_entry.
    Qed.
  End at_key.

  Lemma as_key_order room o k l r l' :
    strict_weak (less c) -> ordered kd c l -> het_pre kd room o (length l) = true ->
    het_always o l l' -> flat_sorted kd c false (as_key o k) l r l' -> ordered kd c l'.
  Proof.
    intros Hr Ho Hpre Hal Hs. unfold het_always, as_key in *. destruct o; cbn [new_elem flat_sorted] in *; try by subst.
    - destruct Hs as [-> _]. by apply ordered_filter.
    - destruct Hs as (w & i & b & _ & Hi & _). by eapply inserted_ordered.
    - destruct Hs as (w & i & b & _ & Hi & _). by eapply inserted_ordered.
    - destruct Hs as [(i & w & Hw & _ & -> & _)|(i & Hi & _)]; [by apply ordered_put|by eapply inserted_ordered].
    - destruct Hs as [(i & w & Hw & _ & -> & _)|(i & Hi & _)]; [by apply ordered_put|by eapply inserted_ordered].
    - destruct Hs as (i & b & w & Hi & _). by eapply inserted_ordered.
  Qed.
End like_key.

Section het_thms.
  Context `{KD : Keyed}.
  Variable fl : flavour.
  Variable kd : fkind.
  Hypothesis HN : sane fl.
  Notation R := (is_flat fl).
  Notation call := (het_call fl kd).
  Notation raw := (is_static_flat fl).

  Lemma static_het_ok N o (x : sobj) (A : tabs) :
    het_pre kd (S (length A.2) <=? N)%nat o (length A.2) = true ->
    tinv N x A ⊢ wp (member (fun _ => run_het kd (static_exact N (multi kd)) (static_room N) o)) x
      (fun r x' => ∃ A' : tabs, ⟦A'.1 = A.1 /\ het_post kd o A.2 r A'.2⟧ ∗ tinv N x' A')%I
      (fun e x' => ∃ A' : tabs, ⟦A'.1 = A.1 /\ het_exn false true o A.2 e A'.2⟧ ∗ tinv N x' A')%I.
  Proof.
    destruct A as [ib l]. cbn [fst snd]. iIntros (Hpre) "[%Hx Hb]". destruct Hx as [Hib ->]. cbn [fst snd] in *.
    iDestruct (body_len with "Hb") as "[%Hlen Hb]".
    assert (Hneed : (het_need o l <= N)%nat).
    { unfold het_need. destruct o; cbn [new_elem het_pre] in *; rewrite ?andb_true_iff in Hpre; destruct_and?; lia. }
    iApply wp_member. cbn [fst snd].
    iApply (run_het_ok kd _ _ _ _ _ _ (static_exact_ok N (multi kd)) o 0%nat ib l (Z.of_nat N) with "[Hb]");
      [exact Hpre| |].
    { unfold static_fv. by iFrame. }
    iSplit.
    - iIntros (r f' cap' l') "%Hp [%Hf Hb]". destruct Hp as [Hp [Hst _]]. destruct Hf as (_ & _ & ->).
      destruct (Hst ltac:(lia)) as [-> _]. iExists (ib, l'). iSplit; [done|]. by iApply tinv_intro.
    - iIntros (e l') "%Hp [%Hf Hb]".
      iExists (ib, l'). iSplit; [done|]. by iApply tinv_intro.
  Qed.
  Lemma small_het_ok N (HN' : Z.of_nat N <= max_size) o (x : sobj) (A : sabs) :
    het_pre kd true o (length (q_elems A.2)) = true ->
    sinv N HN' x A ⊢ wp (member (fun ib => run_het kd (small_exact (small_storage N ib) (multi kd)) (ret tt) o)) x
      (fun r x' => ∃ A' : sabs, ⟦A'.1 = A.1 /\ het_post kd o (q_elems A.2) r (q_elems A'.2)⟧ ∗ sinv N HN' x' A')%I
      (fun e x' => ∃ A' : sabs, ⟦A'.1 = A.1 /\
         het_exn true (nothrow_move || copyable) o (q_elems A.2) e (q_elems A'.2)⟧ ∗ sinv N HN' x' A')%I.
  Proof.
    iIntros (Hpre) "Hx". iDestruct (sinv_open with "Hx") as (ib a f l cap) "[%Hx Hv]".
    destruct Hx as [-> ->]. cbn [fst snd q_elems] in *.
    iApply wp_member. cbn [fst snd].
    iApply (run_het_ok kd _ _ _ _ _ _ (small_exact_ok (small_storage N ib) (small_ok N ib) (multi kd)) o
      a f l cap with "Hv"); [exact Hpre|].
    iSplit.
    - iIntros (r f' cap' l') "%Hp Hv". destruct Hp as [Hp _]. iExists (ib, VAbs a f' l' cap').
      iSplit; [done|]. by iApply sinv_intro.
    - iIntros (e l') "%Hp Hv". iExists (ib, VAbs a f l' cap).
      iSplit; [done|]. by iApply sinv_intro.
  Qed.

  Lemma het_call_ok o x l w hf :
    holds R x l w hf -> het_allowed fl kd o l = true ->
    match call o x w with
    | Ok r x' w' => exists l', het_post kd o l r l' /\ holds R x' l' w' hf /\ quiet w w'
    | Exn e x' w' => exists l', het_exn (negb raw) (unbreakable fl) o l e l' /\
        holds R x' l' w' hf /\ reason e w w'
    | UB => False
    end.
  Proof using HN.
    intros (Hwf & m & Hm & Hd & Hh) Hpre. unfold het_call, is_flat, het_allowed, can_hold, sane in *.
    destruct fl as [N|N]; cbn [is_static_flat unbreakable negb].
    - destruct Hm as [ib Hm]. apply static_iff in Hm.
      pose proof (wp_state (tinv N) _ _ _ (fun r A' => A'.1 = ib /\ het_post kd o l r A'.2)
        (fun e A' => A'.1 = ib /\ het_exn false true o l e A'.2) m hf w
        (static_het_ok N o x (ib, l) Hpre) Hm Hwf Hd Hh) as H.
      destruct (member _ x w) as [r x' w'|e x' w'|]; [| |done];
        destruct H as ([ib' l'] & [_ H1] & (Hwf' & m' & H2 & H3) & H4); exists l'; (split; [done|]);
        (split; [|done]); (split; [done|]); exists m'; (split; [|done]); exists ib'; by apply static_iff.
    - destruct Hm as (ib & a & d & cap & Hm). apply (is_small_iff N HN) in Hm.
      pose proof (wp_state (sinv N HN) _ _ _ _ _ m hf w
        (small_het_ok N HN o x (ib, VAbs a d l cap) Hpre) Hm Hwf Hd Hh) as H.
      destruct (member _ x w) as [r x' w'|e x' w'|]; [| |done];
        destruct H as ([ib' [a' d' l' cap']] & (_ & H1) & (Hwf' & m' & H2 & H3) & H4); exists l'; (split; [done|]);
        (split; [|done]); (split; [done|]); exists m'; (split; [|done]); exists ib', a', d', cap';
        by apply (is_small_iff N HN).
  Qed.

  (** ** C59: lookup *)
  Definition looks_up (o : hop) : Prop :=
    match o with
    | HLower _ | HUpper _ | HEqualRange _ | HFind _ | HCount _ | HContains _ | HAt _ => True
    | _ => False
    end.
  Lemma het_lookup o x l w hf :
    holds R x l w hf -> het_allowed fl kd o l = true -> looks_up o ->
    match call o x w with
    | Ok r x' w' => holds R x' l w' hf /\ forall m n, splits (probe_of o) l m n -> het_result kd o m n l r l
    | Exn e x' w' => holds R x' l w' hf /\ reason e w w' /\
        (e = EUser \/
         e = EOutOfRange /\ exists p, o = HAt p /\ forall m n, splits p l m n -> m = n)
    | UB => False
    end.
  Proof using HN.
    intros Hx Hp Hl. pose proof (het_call_ok o x l w hf Hx Hp) as H.
    destruct (call o x w) as [r x' w'|e x' w'|]; [| |done].
    - destruct H as (l' & [H1 H2] & H3 & _).
      assert (l' = l) as -> by (by destruct o). done.
    - destruct H as (l' & [H1 H2] & H3 & H4).
      assert (l' = l) as -> by (destruct o; try done; by destruct H1).
      split; [done|]. split; [done|]. destruct e; [| | |by left].
      + destruct H2 as (_ & _ & H2). by destruct o.
      + by right.
      + destruct H2 as (_ & _ & H2). by destruct o.
  Qed.

  (** ** C60: changes *)
  Lemma het_returns o x l w hf r x' w' m n :
    holds R x l w hf -> het_allowed fl kd o l = true -> call o x w = Ok r x' w' ->
    splits (probe_of o) l m n ->
    exists l', holds R x' l' w' hf /\ het_result kd o m n l r l'.
  Proof using HN.
    intros Hx Hp Hc Hs. pose proof (het_call_ok o x l w hf Hx Hp) as H. rewrite Hc in H.
    destruct H as (l' & [H1 H2] & H3 & _). eauto.
  Qed.
  Lemma het_throws o x l w hf e x' w' :
    holds R x l w hf -> het_allowed fl kd o l = true -> call o x w = Exn e x' w' ->
    exists l', holds R x' l' w' hf /\ reason e w w' /\ het_exn (negb raw) (unbreakable fl) o l e l'.
  Proof using HN.
    intros Hx Hp Hc. pose proof (het_call_ok o x l w hf Hx Hp) as H. rewrite Hc in H.
    destruct H as (l' & H1 & H2 & H3). eauto.
  Qed.
  Lemma het_no_ub o x l w hf :
    holds R x l w hf -> het_allowed fl kd o l = true -> call o x w <> UB.
  Proof using HN.
    intros Hx Hp Hc. pose proof (het_call_ok o x l w hf Hx Hp) as H. by rewrite Hc in H.
  Qed.

  Lemma het_like_key c k o x l w hf r x' w' :
    strict_weak (less c) -> ordered kd c l -> stands_for c (probe_of o) k l ->
    (forall v, new_elem o = Some v -> key v = k) ->
    holds R x l w hf -> het_allowed fl kd o l = true -> call o x w = Ok r x' w' ->
    exists l', holds R x' l' w' hf /\ flat_sorted kd c false (as_key o k) l r l' /\ ordered kd c l'.
  Proof using HN.
    intros Hr Ho Hst Hk Hx Hp Hc. pose proof (het_call_ok o x l w hf Hx Hp) as H. rewrite Hc in H.
    destruct H as (l' & [H1 H2] & H3 & _). exists l'. split; [done|].
    destruct (stands_splits kd c (probe_of o) k l Hr Ho Hst) as (m & n & Hs & Hlo & Hup).
    assert (Hf : flat_sorted kd c false (as_key o k) l r l').
    { eapply het_result_like; [done|done|exact Hlo|exact Hup|exact Hp|done|by apply H2]. }
    split; [done|]. eapply as_key_order; [done|done|exact Hp|done|exact Hf].
  Qed.

  (** ** C61: counting and erasing *)
  Lemma het_count_all p x l w hf r x' w' m n :
    holds R x l w hf -> call (HCount p) x w = Ok r x' w' -> splits p l m n ->
    (multi kd = true \/ (n <= S m)%nat) ->
    holds R x' l w' hf /\ r = Num (length (List.filter (matches p) l)).
  Proof using HN.
    intros Hx Hc Hs Hm. pose proof (het_call_ok (HCount p) x l w hf Hx eq_refl) as H. rewrite Hc in H.
    destruct H as (l' & [H1 H2] & H3 & _). cbn in H1. subst l'. split; [done|].
    destruct (splits_filter p l m n Hs) as [_ ->]. specialize (H2 m n Hs). cbn [het_result] in H2. subst r. f_equal.
    destruct (multi kd); [done|]. destruct Hm as [|Hm]; [done|].
    destruct Hs as [Hs _]. destruct (Nat.ltb_spec m n); lia.
  Qed.
  Lemma het_erase_all p x l w hf r x' w' m n :
    holds R x l w hf -> call (HErase p) x w = Ok r x' w' -> splits p l m n ->
    (multi kd = true \/ (n <= S m)%nat) ->
    holds R x' (List.filter (fun v => negb (matches p v)) l) w' hf /\
    r = Num (length (List.filter (matches p) l)).
  Proof using HN.
    intros Hx Hc Hs Hm. pose proof (het_call_ok (HErase p) x l w hf Hx eq_refl) as H. rewrite Hc in H.
    destruct H as (l' & [H1 H2] & H3 & _). destruct (splits_filter p l m n Hs) as [-> ->].
    specialize (H2 m n Hs). cbn [het_result] in H2. destruct Hs as [Hs _].
    destruct (multi kd); [by destruct H2 as [<- ->]|]. destruct Hm as [|Hm]; [done|].
    destruct (Nat.ltb_spec m n); destruct H2 as [-> ->].
    - replace (n - m)%nat with 1%nat by lia. by replace n with (S m) by lia.
    - replace n with m in * by lia. rewrite take_drop Nat.sub_diag. done.
  Qed.
End het_thms.

(** ** Concrete cases *)
Section demo.
  Context `{KD : Keyed}.

  Definition splitsb (x : probe) (l : list V) (m n : nat) : bool :=
    (m <=? n)%nat && (n <=? length l)%nat &&
    forallb (fun j => match l !! j with
                      | Some w => Bool.eqb (before x w) (j <? m)%nat && Bool.eqb (negb (behind x w)) (j <? n)%nat
                      | None => true
                      end) (seq 0 (length l)).
  Lemma splitsb_ok x l m n : splitsb x l m n = true -> splits x l m n.
  Proof.
    unfold splitsb. rewrite !andb_true_iff forallb_forall !Nat.leb_le. intros [[Hm Hn] Hs]. split; [lia|].
    intros j w Hw. specialize (Hs j). rewrite Hw in Hs.
    assert (Hj : In j (seq 0 (length l))).
    { apply in_seq. apply lookup_lt_Some in Hw. lia. }
    specialize (Hs Hj). apply andb_true_iff in Hs as [H1 H2].
    apply Bool.eqb_prop in H1, H2. rewrite H1. split; [by rewrite Nat.ltb_lt|].
    rewrite -negb_true_iff H2. by rewrite Nat.ltb_lt.
  Qed.

  Variable N : nat.
  Variable kd : fkind.
  Variable c : Cmp.
  Lemma static_het_demo vs os o l r :
    static_after N kd c vs os (fun x w => returned (het_call (StaticF N) kd o x w)) = Some (l, r) ->
    exists x w hf x' w', holds (is_flat (StaticF N)) x l w hf /\ het_call (StaticF N) kd o x w = Ok r x' w'.
  Proof.
    intros Ha. apply static_after_ok in Ha as (x & w & hf & Hx & Hr). apply returned_ok in Hr as (x' & w' & Hr).
    by exists x, w, hf, x', w'.
  Qed.
  Lemma small_het_demo (HN : Z.of_nat N <= max_size) vs os o l r :
    small_after N kd c vs os (fun x w => returned (het_call (SmallF N) kd o x w)) = Some (l, r) ->
    exists x w hf x' w', holds (is_flat (SmallF N)) x l w hf /\ het_call (SmallF N) kd o x w = Ok r x' w'.
  Proof.
    intros Ha. apply (small_after_ok N kd c HN) in Ha as (x & w & hf & Hx & Hr).
    apply returned_ok in Hr as (x' & w' & Hr). by exists x, w, hf, x', w'.
  Qed.
  Lemma static_het_demo_exn vs os o l e :
    static_after N kd c vs os (fun x w => thrown (het_call (StaticF N) kd o x w)) = Some (l, e) ->
    exists x w hf x' w', holds (is_flat (StaticF N)) x l w hf /\ het_call (StaticF N) kd o x w = Exn e x' w'.
  Proof.
    intros Ha. apply static_after_ok in Ha as (x & w & hf & Hx & Hr). apply thrown_exn in Hr as (x' & w' & Hr).
    by exists x, w, hf, x', w'.
  Qed.
  Lemma small_het_demo_exn (HN : Z.of_nat N <= max_size) vs os o l e :
    small_after N kd c vs os (fun x w => thrown (het_call (SmallF N) kd o x w)) = Some (l, e) ->
    exists x w hf x' w', holds (is_flat (SmallF N)) x l w hf /\ het_call (SmallF N) kd o x w = Exn e x' w'.
  Proof.
    intros Ha. apply (small_after_ok N kd c HN) in Ha as (x & w & hf & Hx & Hr).
    apply thrown_exn in Hr as (x' & w' & Hr). by exists x, w, hf, x', w'.
  Qed.

  (** A call, and another one afterwards. *)
  Definition het_twice (fl : flavour) (o o2 : hop) (x : sobj) (w : world) : option (frv * frv) :=
    match het_call fl kd o x w with
    | Ok r x' w' => match het_call fl kd o2 x' w' with Ok r2 _ _ => Some (r, r2) | _ => None end
    | _ => None
    end.
  Lemma het_twice_ok fl o o2 x w r r2 :
    het_twice fl o o2 x w = Some (r, r2) ->
    exists x' w' x2 w2, het_call fl kd o x w = Ok r x' w' /\ het_call fl kd o2 x' w' = Ok r2 x2 w2.
  Proof.
    unfold het_twice. destruct (het_call fl kd o x w) as [r' x' w'| |]; [|done..].
    destruct (het_call fl kd o2 x' w') as [r2' x2 w2| |] eqn:Hc; [|done..]. intros [= -> ->].
    by exists x', w', x2, w2.
  Qed.
End demo.

(** Two-digit numbers, looked up by their first digit. *)
Definition digit (th : opk -> nat -> bool) (a b p : bool) (d : nat) : @probe (demo th a b p) :=
  @Probe (demo th a b p) (fun v : nat => (v / 10 <? d)%nat) (fun v : nat => (d <? v / 10)%nat).
Definition calm_digit (d : nat) : @probe calm := digit _ _ _ _ d.
(** Entries of a map looked up by the key plus one. *)
Definition above (th : opk -> nat -> bool) (a b p : bool) (d : nat) : @probe (pairs th a b p) :=
  @Probe (pairs th a b p) (fun v : nat * nat => (S v.1 <? d)%nat) (fun v : nat * nat => (d <? S v.1)%nat).
Definition calm_above (d : nat) : @probe calm_pairs := above _ _ _ _ d.

(** The set {11, 12, 25} and the argument 1: two elements are equivalent to the
    argument, count() says 1; erase() removes one of them, contains() still says
    yes. *)
Definition partial_key_case (fl : flavour) : Prop :=
  exists (E : Env) (KD : Keyed) c p x l w hf m n,
    strict_weak (less c) /\ ordered set_ c l /\ holds (is_flat fl) x l w hf /\ splits p l m n /\
    length (List.filter (matches p) l) = 2%nat /\
    (exists x' w', het_call fl set_ (HCount p) x w = Ok (Num 1) x' w') /\
    (exists r x' w' x2 w2, het_call fl set_ (HErase p) x w = Ok r x' w' /\
       het_call fl set_ (HContains p) x' w' = Ok (One (RBool true)) x2 w2).
Lemma partial_key_refuted : partial_key_case (StaticF 4) /\ partial_key_case (SmallF 4).
Proof.
  pose (KD := calm_set). pose (p := calm_digit 1).
  pose (f := fun fl x w => match returned (het_call (KD := KD) fl set_ (@HCount _ KD p) x w),
                                 het_twice (KD := KD) set_ fl (@HErase _ KD p) (@HContains _ KD p) x w with
                           | Some r, Some rr => Some (r, rr) | _, _ => None end).
  split.
  - destruct (static_after_ok (KD := KD) 4 set_ true [25; 11; 12]%nat [] (f (StaticF 4)) [11; 12; 25]%nat
      (@Num _ KD 1, (@Num _ KD 1, @One _ KD (RBool true)))) as (x & w & hf & Hx & Hf); [vm_compute; reflexivity|].
    unfold f in Hf. destruct (returned _) as [r|] eqn:H1; [|done].
    destruct (het_twice _ _ _ _ _ _) as [[r1 r2]|] eqn:H2; [|done]. injection Hf as -> -> ->.
    apply returned_ok in H1. apply het_twice_ok in H2 as (x' & w' & x2 & w2 & H2 & H3).
    exists calm, KD, true, p, x, [11; 12; 25]%nat, w, hf, 0%nat, 2%nat. split_and!; try done.
    + apply nat_less_strict.
    + by apply orderedb_ok.
    + by apply splitsb_ok.
    + by exists (@Num _ KD 1), x', w', x2, w2.
  - assert (HN : Z.of_nat 4 <= @max_size calm) by (vm_compute; discriminate).
    destruct (small_after_ok (KD := KD) 4 set_ true HN [25; 11; 12]%nat [] (f (SmallF 4)) [11; 12; 25]%nat
      (@Num _ KD 1, (@Num _ KD 1, @One _ KD (RBool true)))) as (x & w & hf & Hx & Hf); [vm_compute; reflexivity|].
    unfold f in Hf. destruct (returned _) as [r|] eqn:H1; [|done].
    destruct (het_twice _ _ _ _ _ _) as [[r1 r2]|] eqn:H2; [|done]. injection Hf as -> -> ->.
    apply returned_ok in H1. apply het_twice_ok in H2 as (x' & w' & x2 & w2 & H2 & H3).
    exists calm, KD, true, p, x, [11; 12; 25]%nat, w, hf, 0%nat, 2%nat. split_and!; try done.
    + apply nat_less_strict.
    + by apply orderedb_ok.
    + by apply splitsb_ok.
    + by exists (@Num _ KD 1), x', w', x2, w2.
Qed.
Lemma partial_key_both fl : fl = StaticF 4 \/ fl = SmallF 4 -> partial_key_case fl.
Proof. intros [-> | ->]; apply partial_key_refuted. Qed.
