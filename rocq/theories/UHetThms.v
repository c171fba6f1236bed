(** * Consequences of the specification of the functions that take an argument of
      another type, for the unordered flat containers

    The lemmas behind Props_UHet.v. *)

From iris.proofmode Require Import tactics.
From Verif Require Export UHetProofs UnordDemo.
From Coq Require Import ZifyBool.
Open Scope Z_scope.

(** ** The argument stands for a key *)
Section like_key.
  Context `{KD : Keyed}.
  Variable kd : fkind.
  Variable c : Cmp.
  Implicit Types (l : list V) (x : V -> bool) (k : Key).

  (** The argument is equal to exactly those elements that have the key [k]. *)
  Definition equals_key x k l : Prop := forall v, v ∈ l -> x v = has c k v.

  Lemma equals_first x k l i : equals_key x k l -> first_hit x l i -> first_at c l k i.
  Proof.
    intros Hx (w & Hw & Hk & Hno). exists w. split; [done|]. split.
    - rewrite -Hx; [done|]. by eapply elem_of_list_lookup_2.
    - intros j w' Hj Hw'. rewrite -Hx; [by eapply Hno|]. by eapply elem_of_list_lookup_2.
  Qed.
  Lemma equals_missing x k l : equals_key x k l -> no_hit x l -> missing c l k.
  Proof.
    intros Hx Hno j w Hw. rewrite -Hx; [by eapply Hno|]. by eapply elem_of_list_lookup_2.
  Qed.
  Lemma equals_filter x k l : equals_key x k l ->
    List.filter x l = List.filter (has c k) l /\
    List.filter (fun v => negb (x v)) l = List.filter (lacks c k) l /\
    existsb x l = existsb (has c k) l.
  Proof.
    induction l as [|v l IH]; intros Hx; [done|]. cbn. unfold lacks at 1. rewrite Hx; [|left].
    destruct IH as (-> & -> & ->); [|done]. intros w Hw. apply Hx. by right.
  Qed.
  Lemma equals_put x k v l i b l' : multi kd = false -> key v = k -> equals_key x k l ->
    yput x v as_was l i b l' -> uinserted kd c v l i b l'.
  Proof.
    intros Hm <- Hx. unfold yput, as_was. destruct b.
    - intros (H1 & -> & ->). right. split_and!; try done. intros _. by eapply equals_missing.
    - intros (H1 & ->). left. split_and!; try done. by eapply equals_first.
  Qed.
  Lemma equals_assign x k d l i b l' : equals_key x k l ->
    yput x (entry k d) (mapped_set d) l i b l' ->
    (exists w, b = false /\ l !! i = Some w /\ first_at c l k i /\ l' = <[i := entry (key w) d]> l) \/
    (b = true /\ missing c l k /\ l' = l ++ [entry k d] /\ i = length l).
  Proof.
    intros Hx. unfold yput, mapped_set. destruct b.
    - intros (H1 & -> & ->). right. split_and!; try done. by eapply equals_missing.
    - intros (H1 & w & H2 & ->). left. exists w. split_and!; try done. by eapply equals_first.
  Qed.

  (** The same call with the key [k] instead of the argument. *)
  Definition as_ukey (o : yop) k : uop :=
    match o with
    | YFind _ => UFind k
    | YCount _ => UCount k
    | YContains _ => UContains k
    | YErase _ => UEraseKey k
    | YInsert _ v => UInsert (XVal v)
    | YInsertHint h _ v => UInsertHint h (XVal v)
    | YAssign _ k m => UInsertOrAssign k m
    | YAssignHint h _ k m => UInsertOrAssignHint h k m
    | YAt _ => UAt k
    | YIndex _ k => UIndex k
    end.
  Lemma uhet_like room o k l r l' :
    uhet_pre kd room o (length l) = true ->
    (forall v, new_y o = Some v -> key v = k) -> equals_key (arg_y o) k l ->
    uhet_post kd o l r l' -> unord_post kd false false c (as_ukey o k) l r l'.
  Proof.
    intros Hpre Hk Hx. unfold as_ukey.
    destruct o as [x|x|x|x|x v|h x v|x k' m|h x k' m|x|x k']; cbn [uhet_pre new_y arg_y uhet_post unord_post] in *;
      rewrite ?andb_true_iff ?negb_true_iff in Hpre; try specialize (Hk _ eq_refl); rewrite ?key_entry in Hk.
    - intros [-> [(i & Hi & ->)|[Hi ->]]]; (split; [done|]).
      + left. exists i. split; [|done]. by eapply equals_first.
      + right. split; [|done]. by eapply equals_missing.
    - destruct (equals_filter x k l Hx) as (-> & _ & ->). done.
    - destruct (equals_filter x k l Hx) as (_ & _ & ->). done.
    - destruct (equals_filter x k l Hx) as (-> & -> & _). unfold erased_key. destruct (multi kd); [done|].
      intros [(H1 & H2)|(i & H1 & H2)]; [left|right].
      + split; [|done]. by eapply equals_missing.
      + exists i. split; [|done]. by eapply equals_first.
    - intros (i & b & H1 & ->). exists v, i, b. split; [done|]. split.
      + eapply equals_put; [tauto|exact Hk|exact Hx|done].
      + unfold ins_result. destruct Hpre as [-> _]. done.
    - intros (i & b & H1 & ->). exists v, i, b. split; [done|]. split; [|done].
      eapply equals_put; [tauto|exact Hk|exact Hx|done].
    - subst k'. intros (i & b & H1 & ->). apply (equals_assign x k m l i b l' Hx) in H1 as [(w & -> & H1)|(-> & H1 & H2 & ->)].
      + left. exists i, w. tauto.
      + by right.
    - subst k'. intros (i & b & H1 & ->). apply (equals_assign x k m l i b l' Hx) in H1 as [(w & -> & H1)|(-> & H1 & H2 & ->)].
      + left. exists i, w. tauto.
      + by right.
    - intros [-> (i & w & H1 & H2 & ->)]. split; [done|]. exists i, w. split_and!; try done. by eapply equals_first.
    - subst k'. intros (i & b & w & H1 & H2 & ->). exists i, b, w. split; [|done].
      eapply equals_put; [tauto|by rewrite key_entry|exact Hx|done].
  Qed.
End like_key.

Section uhet_thms.
  Context `{KD : Keyed}.
  Variable fl : flavour.
  Variable kd : fkind.
  Hypothesis HN : sane fl.
  Notation R := (is_flat fl).
  Notation call := (uhet_call fl kd).
  Notation raw := (is_static_flat fl).

  Lemma static_uhet_ok N o (x : sobj) (A : tabs) :
    uhet_pre kd (S (length A.2) <=? N)%nat o (length A.2) = true ->
    tinv N x A ⊢ wp (member (fun _ => run_uhet kd (static_emplace_back N) (static_room N) o)) x
      (fun r x' => ∃ A' : tabs, ⟦A'.1 = A.1 /\ uhet_post kd o A.2 r A'.2⟧ ∗ tinv N x' A')%I
      (fun e x' => ∃ A' : tabs, ⟦A'.1 = A.1 /\ uhet_exn false true o A.2 e A'.2⟧ ∗ tinv N x' A')%I.
  Proof.
    destruct A as [ib l]. cbn [fst snd]. iIntros (Hpre) "[%Hx Hb]". destruct Hx as [Hib ->]. cbn [fst snd] in *.
    iDestruct (body_len with "Hb") as "[%Hlen Hb]".
    assert (Hneed : (match new_y o with Some _ => S (length l) | None => length l end <= N)%nat).
    { destruct o; cbn [new_y uhet_pre] in *; rewrite ?andb_true_iff in Hpre; destruct_and?; lia. }
    iApply wp_member. cbn [fst snd].
    iApply (run_uhet_ok kd _ _ _ _ _ _ _ (static_exact_ok N (multi kd)) (static_back_ok N) o 0%nat ib l (Z.of_nat N) with "[Hb]");
      [exact Hpre| |].
    { unfold static_fv. by iFrame. }
    iSplit.
    - iIntros (r f' cap' l') "%Hp [%Hf Hb]". destruct Hp as [Hp [Hst _]]. destruct Hf as (_ & _ & ->).
      destruct (Hst ltac:(lia)) as [-> _]. iExists (ib, l'). iSplit; [done|]. by iApply tinv_intro.
    - iIntros (e l') "%Hp [%Hf Hb]".
      iExists (ib, l'). iSplit; [done|]. by iApply tinv_intro.
  Qed.
  Lemma small_uhet_ok N (HN' : Z.of_nat N <= max_size) o (x : sobj) (A : sabs) :
    uhet_pre kd true o (length (q_elems A.2)) = true ->
    sinv N HN' x A ⊢ wp (member (fun ib => run_uhet kd (emplace_back_ (small_storage N ib)) (ret tt) o)) x
      (fun r x' => ∃ A' : sabs, ⟦A'.1 = A.1 /\ uhet_post kd o (q_elems A.2) r (q_elems A'.2)⟧ ∗ sinv N HN' x' A')%I
      (fun e x' => ∃ A' : sabs, ⟦A'.1 = A.1 /\
         uhet_exn true (nothrow_move || copyable) o (q_elems A.2) e (q_elems A'.2)⟧ ∗ sinv N HN' x' A')%I.
  Proof.
    iIntros (Hpre) "Hx". iDestruct (sinv_open with "Hx") as (ib a f l cap) "[%Hx Hv]".
    destruct Hx as [-> ->]. cbn [fst snd q_elems] in *.
    iApply wp_member. cbn [fst snd].
    iApply (run_uhet_ok kd _ _ _ _ _ _ _ (small_exact_ok (small_storage N ib) (small_ok N ib) (multi kd))
      (small_back_ok (small_storage N ib) (small_ok N ib)) o a f l cap with "Hv"); [exact Hpre|].
    iSplit.
    - iIntros (r f' cap' l') "%Hp Hv". destruct Hp as [Hp _]. iExists (ib, VAbs a f' l' cap').
      iSplit; [done|]. by iApply sinv_intro.
    - iIntros (e l') "%Hp Hv". iExists (ib, VAbs a f l' cap).
      iSplit; [done|]. by iApply sinv_intro.
  Qed.

  Lemma uhet_call_ok o x l w hf :
    holds R x l w hf -> uhet_allowed fl kd o l = true ->
    match call o x w with
    | Ok r x' w' => exists l', uhet_post kd o l r l' /\ holds R x' l' w' hf /\ quiet w w'
    | Exn e x' w' => exists l', uhet_exn (negb raw) (unbreakable fl) o l e l' /\
        holds R x' l' w' hf /\ reason e w w'
    | UB => False
    end.
  Proof using HN.
    intros (Hwf & m & Hm & Hd & Hh) Hpre. unfold uhet_call, is_flat, uhet_allowed, can_hold, sane in *.
    destruct fl as [N|N]; cbn [is_static_flat unbreakable negb].
    - destruct Hm as [ib Hm]. apply static_iff in Hm.
      pose proof (wp_state (tinv N) _ _ _ (fun r A' => A'.1 = ib /\ uhet_post kd o l r A'.2)
        (fun e A' => A'.1 = ib /\ uhet_exn false true o l e A'.2) m hf w
        (static_uhet_ok N o x (ib, l) Hpre) Hm Hwf Hd Hh) as H.
      destruct (member _ x w) as [r x' w'|e x' w'|]; [| |done];
        destruct H as ([ib' l'] & [_ H1] & (Hwf' & m' & H2 & H3) & H4); exists l'; (split; [done|]);
        (split; [|done]); (split; [done|]); exists m'; (split; [|done]); exists ib'; by apply static_iff.
    - destruct Hm as (ib & a & d & cap & Hm). apply (is_small_iff N HN) in Hm.
      pose proof (wp_state (sinv N HN) _ _ _ _ _ m hf w
        (small_uhet_ok N HN o x (ib, VAbs a d l cap) Hpre) Hm Hwf Hd Hh) as H.
      destruct (member _ x w) as [r x' w'|e x' w'|]; [| |done];
        destruct H as ([ib' [a' d' l' cap']] & (_ & H1) & (Hwf' & m' & H2 & H3) & H4); exists l'; (split; [done|]);
        (split; [|done]); (split; [done|]); exists m'; (split; [|done]); exists ib', a', d', cap';
        by apply (is_small_iff N HN).
  Qed.

  (** ** C62: lookup *)
  Definition y_looks_up (o : yop) : Prop :=
    match o with YFind _ | YCount _ | YContains _ | YAt _ => True | _ => False end.
  Lemma uhet_lookup o x l w hf :
    holds R x l w hf -> uhet_allowed fl kd o l = true -> y_looks_up o ->
    match call o x w with
    | Ok r x' w' => holds R x' l w' hf /\ uhet_post kd o l r l
    | Exn e x' w' => holds R x' l w' hf /\ reason e w w' /\
        (e = EUser \/ e = EOutOfRange /\ exists p, o = YAt p /\ no_hit p l)
    | UB => False
    end.
  Proof using HN.
    intros Hx Hp Hl. pose proof (uhet_call_ok o x l w hf Hx Hp) as H.
    destruct (call o x w) as [r x' w'|e x' w'|]; [| |done].
    - destruct H as (l' & H1 & H3 & _).
      assert (l' = l) as -> by (destruct o; try done; by destruct H1). done.
    - destruct H as (l' & [H1 H2] & H3 & H4).
      assert (l' = l) as -> by (by destruct o).
      split; [done|]. split; [done|]. destruct e; [| | |by left].
      + destruct H2 as (_ & _ & H2). by destruct o.
      + by right.
      + destruct H2 as (_ & _ & H2). by destruct o.
  Qed.

  (** ** C63: changes *)
  Lemma uhet_returns o x l w hf r x' w' :
    holds R x l w hf -> uhet_allowed fl kd o l = true -> call o x w = Ok r x' w' ->
    exists l', holds R x' l' w' hf /\ uhet_post kd o l r l'.
  Proof using HN.
    intros Hx Hp Hc. pose proof (uhet_call_ok o x l w hf Hx Hp) as H. rewrite Hc in H.
    destruct H as (l' & H1 & H3 & _). eauto.
  Qed.
  Lemma uhet_throws o x l w hf e x' w' :
    holds R x l w hf -> uhet_allowed fl kd o l = true -> call o x w = Exn e x' w' ->
    exists l', holds R x' l' w' hf /\ reason e w w' /\ uhet_exn (negb raw) (unbreakable fl) o l e l'.
  Proof using HN.
    intros Hx Hp Hc. pose proof (uhet_call_ok o x l w hf Hx Hp) as H. rewrite Hc in H.
    destruct H as (l' & H1 & H2 & H3). eauto.
  Qed.
  Lemma uhet_no_ub o x l w hf :
    holds R x l w hf -> uhet_allowed fl kd o l = true -> call o x w <> UB.
  Proof using HN.
    intros Hx Hp Hc. pose proof (uhet_call_ok o x l w hf Hx Hp) as H. by rewrite Hc in H.
  Qed.
  Lemma uhet_like_key c k o x l w hf r x' w' :
    equals_key c (arg_y o) k l -> (forall v, new_y o = Some v -> key v = k) ->
    holds R x l w hf -> uhet_allowed fl kd o l = true -> call o x w = Ok r x' w' ->
    exists l', holds R x' l' w' hf /\ unord_post kd false false c (as_ukey o k) l r l' /\
      (multi kd = false -> equality_ok c -> distinct c l -> distinct c l').
  Proof using HN.
    intros He Hk Hx Hp Hc. destruct (uhet_returns o x l w hf r x' w' Hx Hp Hc) as (l' & H1 & H2).
    exists l'. split; [done|].
    pose proof (uhet_like kd c _ o k l r l' Hp Hk He H2) as H. split; [done|]. intros Hm Hq Hd.
    eapply (post_distinct c kd Hq false (fun _ => true) (fun _ => true) false (as_ukey o k) l r l' Hm); try done.
    unfold uhet_allowed in Hp. destruct o; cbn in Hp |- *; rewrite ?Hm ?andb_true_r in Hp |- *; cbn in Hp |- *;
      rewrite ?andb_true_iff in Hp |- *; tauto.
  Qed.

  (** ** C64: counting and erasing *)
  Lemma few_hits (p : V -> bool) l i : first_hit p l i -> (length (List.filter p l) <= 1)%nat ->
    length (List.filter p l) = 1%nat /\
    forall l', erased_at i l l' -> Permutation (List.filter (fun v => negb (p v)) l) l'.
  Proof.
    intros (w & Hw & Hp & _) Hle. pose proof (elem_of_list_split_length l i w Hw) as (a & b & -> & Hi).
    rewrite List.filter_app /= Hp app_length /= in Hle |- *.
    assert (Ha : List.filter p a = []) by (apply length_zero_iff_nil; lia).
    assert (Hb : List.filter p b = []) by (apply length_zero_iff_nil; lia).
    rewrite Ha Hb. split; [done|]. intros l' He.
    assert (Hn : forall l0 : list V, List.filter p l0 = [] -> List.filter (fun v => negb (p v)) l0 = l0).
    { intros l0. induction l0 as [|v l0 IH]; [done|]. cbn. destruct (p v); [done|]. cbn. intros H. by rewrite IH. }
    rewrite List.filter_app /= Hp /= (Hn a Ha) (Hn b Hb).
    apply erased_at_perm in He as (a' & x & b1 & b2 & Heq & -> & Hi' & Hperm).
    apply app_inj_1 in Heq as [-> [= -> ->]]; [|lia]. by rewrite Hperm.
  Qed.
  Lemma uhet_count_all p x l w hf r x' w' :
    holds R x l w hf -> call (YCount p) x w = Ok r x' w' ->
    (multi kd = true \/ (length (List.filter p l) <= 1)%nat) ->
    holds R x' l w' hf /\ r = Num (length (List.filter p l)).
  Proof using HN.
    intros Hx Hc Hm. destruct (uhet_returns (YCount p) x l w hf r x' w' Hx eq_refl Hc) as (l' & H1 & [-> ->]).
    split; [done|]. f_equal. destruct (multi kd); [done|]. destruct Hm as [|Hm]; [done|].
    destruct (existsb p l) eqn:He.
    - apply existsb_exists in He as (v & Hv & Hp).
      assert (H : In v (List.filter p l)) by (by apply filter_In). destruct (List.filter p l); [done|]. cbn in *. lia.
    - destruct (List.filter p l) as [|v f] eqn:Hf; [done|]. assert (H : In v (List.filter p l)) by (rewrite Hf; by left).
      apply filter_In in H as [H2 H3]. assert (existsb p l = true) by (apply existsb_exists; eauto). congruence.
  Qed.
  Lemma uhet_erase_all p x l w hf r x' w' :
    holds R x l w hf -> call (YErase p) x w = Ok r x' w' ->
    (multi kd = true \/ (length (List.filter p l) <= 1)%nat) ->
    exists l', holds R x' l' w' hf /\ Permutation (List.filter (fun v => negb (p v)) l) l' /\
      r = Num (length (List.filter p l)).
  Proof using HN.
    intros Hx Hc Hm. destruct (uhet_returns (YErase p) x l w hf r x' w' Hx eq_refl Hc) as (l' & H1 & H2).
    exists l'. split; [done|]. cbn [uhet_post] in H2. destruct (multi kd); [done|]. destruct Hm as [|Hm]; [done|].
    destruct H2 as [(H2 & -> & ->)|(i & H2 & -> & H3)].
    - pose proof (filter_split p l) as Hs. destruct (no_hit_filter _ _ H2) as [Hf _]. rewrite Hf. split; [|done].
      clear -Hf. induction l as [|v l IH]; [done|]. cbn in *. destruct (p v); [done|]. cbn. constructor. by apply IH.
    - destruct (few_hits p l i H2 Hm) as [-> H4]. split; [by apply H4|done].
  Qed.
End uhet_thms.

(** ** Concrete cases *)
Section demo.
  Context `{KD : Keyed}.
  Variable N : nat.
  Variable kd : fkind.
  Variable c : Cmp.
  Lemma static_uhet_demo vs os o l r :
    static_uafter N kd c vs os (fun x w => returned (uhet_call (StaticF N) kd o x w)) = Some (l, r) ->
    exists x w hf x' w', holds (is_flat (StaticF N)) x l w hf /\ uhet_call (StaticF N) kd o x w = Ok r x' w'.
  Proof.
    intros Ha. apply static_uafter_ok in Ha as (x & w & hf & Hx & Hr). apply returned_ok in Hr as (x' & w' & Hr).
    by exists x, w, hf, x', w'.
  Qed.
  Lemma small_uhet_demo (HN : Z.of_nat N <= max_size) vs os o l r :
    small_uafter N kd c vs os (fun x w => returned (uhet_call (SmallF N) kd o x w)) = Some (l, r) ->
    exists x w hf x' w', holds (is_flat (SmallF N)) x l w hf /\ uhet_call (SmallF N) kd o x w = Ok r x' w'.
  Proof.
    intros Ha. apply (small_uafter_ok N kd c HN) in Ha as (x & w & hf & Hx & Hr).
    apply returned_ok in Hr as (x' & w' & Hr). by exists x, w, hf, x', w'.
  Qed.
  Lemma static_uhet_demo_exn vs os o l e :
    static_uafter N kd c vs os (fun x w => thrown (uhet_call (StaticF N) kd o x w)) = Some (l, e) ->
    exists x w hf x' w', holds (is_flat (StaticF N)) x l w hf /\ uhet_call (StaticF N) kd o x w = Exn e x' w'.
  Proof.
    intros Ha. apply static_uafter_ok in Ha as (x & w & hf & Hx & Hr). apply thrown_exn in Hr as (x' & w' & Hr).
    by exists x, w, hf, x', w'.
  Qed.
  Lemma small_uhet_demo_exn (HN : Z.of_nat N <= max_size) vs os o l e :
    small_uafter N kd c vs os (fun x w => thrown (uhet_call (SmallF N) kd o x w)) = Some (l, e) ->
    exists x w hf x' w', holds (is_flat (SmallF N)) x l w hf /\ uhet_call (SmallF N) kd o x w = Exn e x' w'.
  Proof.
    intros Ha. apply (small_uafter_ok N kd c HN) in Ha as (x & w & hf & Hx & Hr).
    apply thrown_exn in Hr as (x' & w' & Hr). by exists x, w, hf, x', w'.
  Qed.

  (** A call, and another one afterwards. *)
  Definition uhet_twice (fl : flavour) (o o2 : yop) (x : sobj) (w : world) : option (frv * frv) :=
    match uhet_call fl kd o x w with
    | Ok r x' w' => match uhet_call fl kd o2 x' w' with Ok r2 _ _ => Some (r, r2) | _ => None end
    | _ => None
    end.
  Lemma uhet_twice_ok fl o o2 x w r r2 :
    uhet_twice fl o o2 x w = Some (r, r2) ->
    exists x' w' x2 w2, uhet_call fl kd o x w = Ok r x' w' /\ uhet_call fl kd o2 x' w' = Ok r2 x2 w2.
  Proof.
    unfold uhet_twice. destruct (uhet_call fl kd o x w) as [r' x' w'| |]; [|done..].
    destruct (uhet_call fl kd o2 x' w') as [r2' x2 w2| |] eqn:Hc; [|done..]. intros [= -> ->].
    by exists x', w', x2, w2.
  Qed.
End demo.

(** Two-digit numbers, looked up by their first digit. *)
Definition first_digit (d : nat) : @V calm -> bool := fun v : nat => Nat.eqb (v / 10) d.
Definition first_digit_at (t : nat) (d : nat) : @V (throws_at t) -> bool := fun v : nat => Nat.eqb (v / 10) d.
(** Entries of a map looked up by the key plus one. *)
Definition key_after (d : nat) : @V calm_pairs -> bool := fun v : nat * nat => Nat.eqb (S v.1) d.

(** The set {11, 25, 12} and the argument 1. *)
Definition partial_ukey_case (fl : flavour) : Prop :=
  exists (E : Env) (KD : Keyed) c p x l w hf,
    equality_ok c /\ distinct c l /\ holds (is_flat fl) x l w hf /\
    length (List.filter p l) = 2%nat /\
    (exists x' w', uhet_call fl set_ (YCount p) x w = Ok (Num 1) x' w') /\
    (exists r x' w' x2 w2, uhet_call fl set_ (YErase p) x w = Ok r x' w' /\
       uhet_call fl set_ (YContains p) x' w' = Ok (One (RBool true)) x2 w2).
Lemma partial_ukey_refuted : partial_ukey_case (StaticF 4) /\ partial_ukey_case (SmallF 4).
Proof.
  pose (KD := calm_eset). pose (p := first_digit 1).
  pose (f := fun fl x w => match returned (uhet_call (KD := KD) fl set_ (@YCount _ KD p) x w),
                                 uhet_twice (KD := KD) set_ fl (@YErase _ KD p) (@YContains _ KD p) x w with
                           | Some r, Some rr => Some (r, rr) | _, _ => None end).
  split.
  - destruct (static_uafter_ok (KD := KD) 4 set_ true [11; 25; 12]%nat [] (f (StaticF 4)) [11; 25; 12]%nat
      (@Num _ KD 1, (@Num _ KD 1, @One _ KD (RBool true)))) as (x & w & hf & Hx & Hf); [vm_compute; reflexivity|].
    unfold f in Hf. destruct (returned _) as [r|] eqn:H1; [|done].
    destruct (uhet_twice _ _ _ _ _ _) as [[r1 r2]|] eqn:H2; [|done]. injection Hf as -> -> ->.
    apply returned_ok in H1. apply uhet_twice_ok in H2 as (x' & w' & x2 & w2 & H2 & H3).
    exists calm, KD, true, p, x, [11; 25; 12]%nat, w, hf. split_and!; try done.
    + apply nat_same_ok.
    + by apply distinctb_ok.
    + by exists (@Num _ KD 1), x', w', x2, w2.
  - assert (HN : Z.of_nat 4 <= @max_size calm) by (vm_compute; discriminate).
    destruct (small_uafter_ok (KD := KD) 4 set_ true HN [11; 25; 12]%nat [] (f (SmallF 4)) [11; 25; 12]%nat
      (@Num _ KD 1, (@Num _ KD 1, @One _ KD (RBool true)))) as (x & w & hf & Hx & Hf); [vm_compute; reflexivity|].
    unfold f in Hf. destruct (returned _) as [r|] eqn:H1; [|done].
    destruct (uhet_twice _ _ _ _ _ _) as [[r1 r2]|] eqn:H2; [|done]. injection Hf as -> -> ->.
    apply returned_ok in H1. apply uhet_twice_ok in H2 as (x' & w' & x2 & w2 & H2 & H3).
    exists calm, KD, true, p, x, [11; 25; 12]%nat, w, hf. split_and!; try done.
    + apply nat_same_ok.
    + by apply distinctb_ok.
    + by exists (@Num _ KD 1), x', w', x2, w2.
Qed.
Lemma partial_ukey_both fl : fl = StaticF 4 \/ fl = SmallF 4 -> partial_ukey_case fl.
Proof. intros [-> | ->]; apply partial_ukey_refuted. Qed.
