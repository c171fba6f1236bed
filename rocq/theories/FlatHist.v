(** * Histories of ordered flat containers

    [tidy cs os]: the objects whose elements are certainly in order after the
    commands [cs] had the outcomes [os].  An object is in order when it has been
    constructed or cleared, and stays so as long as its functions return; copies and
    targets of moves are as their source was.  The order is given up when a call
    throws halfway, when elements have been moved away one by one, and when a list
    is assigned as it is ([raw], see the refuted property about static containers). *)

From stdpp Require Import gmap.
From Verif Require Export FlatClient.
Open Scope nat_scope.

(** What a call of a member function does to the order. *)
Inductive effect := Keeps | Makes | Breaks.
Definition apply_effect (e : effect) (i : nat) (G : gset nat) : gset nat :=
  match e with Keeps => G | Makes => {[i]} ∪ G | Breaks => G ∖ {[i]} end.

Section hist.
  Context `{KD : Keyed}.

  Definition own_effect (raw : bool) (o : fop) (returned : bool) : effect :=
    match o with
    | FClear => if returned then Makes else Breaks
    | FAssignList _ => if returned && negb raw then Makes else Breaks
    | FPut _ _ => Keeps
    | _ => if returned || is_lookup o then Keeps else Breaks
    end.
  Definition shared_effect (o : vop) (returned : bool) : effect :=
    match o with
    | OGet _ | OCapacity => Keeps
    | OReserve _ | OShrink => if returned then Keeps else Breaks
    | _ => Breaks
    end.

  (** Element [i] is as tidy as [j] is. *)
  Definition like (i j : nat) (G : gset nat) : gset nat :=
    if decide (j ∈ G) then {[i]} ∪ G else G ∖ {[i]}.
  Definition exchange (i j : nat) (G : gset nat) : gset nat :=
    (if decide (j ∈ G) then {[i]} else ∅) ∪ (if decide (i ∈ G) then {[j]} else ∅) ∪ (G ∖ {[i; j]}).
  Definition effect2 (o : vop2) (returned : bool) (i j : nat) (G : gset nat) : gset nat :=
    match o, returned with
    | PCopy, true => like i j G
    | PCopy, false => G ∖ {[i]}
    | PMove, true => like i j G ∖ {[j]}
    | PSwap, true => exchange i j G
    | PMove, false | PSwap, false => G ∖ {[i; j]}
    | PEq _, _ | PLt _, _ => G
    end.

  Section container.
    Context {C : container}.
    Context (own : op1 C -> bool -> effect) (moves : ctor2 C -> bool) (two : op2 C -> vop2).

    Definition tidy_step (c : cmd C) (o : outcome (rv C)) (G : gset nat) : gset nat :=
      match c, o with
      | New i _, Created => {[i]} ∪ G
      | NewFrom i j k, Created => if moves k then like i j G ∖ {[j]} else like i j G
      | NewFrom i j k, Threw _ => if moves k then G ∖ {[j]} else G
      | Do i p, Returned _ => apply_effect (own p true) i G
      | Do i p, Threw _ => apply_effect (own p false) i G
      | Do2 i j p, Returned _ => effect2 (two p) true i j G
      | Do2 i j p, Threw _ => effect2 (two p) false i j G
      | Drop i, Dropped => G ∖ {[i]}
      | _, _ => G
      end.
    Fixpoint tidy_from (cs : list (cmd C)) (os : list (outcome (rv C))) (G : gset nat) : gset nat :=
      match cs, os with
      | c :: cs', o :: os' => tidy_from cs' os' (tidy_step c o G)
      | _, _ => G
      end.

    Context {S : cspec C}.

    (** Histories in which nothing is ever given up. *)
    Definition plain_cmd (c : cmd C) : bool :=
      match c with
      | NewFrom _ _ k => negb (moves k)
      | Do _ p => match own p true with Breaks => false | _ => true end
      | Do2 _ _ p => match two p with PMove => false | _ => true end
      | _ => true
      end.
    Lemma plain_step c A o A' G :
      astep S c A o A' -> plain_cmd c = true -> (forall e, o <> Threw e) ->
      (forall i, is_Some (A !! i) -> i ∈ G) -> forall i, is_Some (A' !! i) -> i ∈ tidy_step c o G.
    Proof.
      intros Hstep Hpl Hnt HG.
      destruct Hstep as [i k A a Hi Hpre Hpost|i k A e Hi Hpre Hexn|i k A Hsk
        |i j k A b a b' Hi Hj Hpre Hpost|i j k A b e b' Hi Hj Hpre Hexn|i j k A Hsk
        |i p A a r a' Hi Hpre Hpost|i p A a e a' Hi Hpre Hexn|i p A Hsk
        |i j p A a b r a' b' Hi Hj Hij Hpre Hpost|i j p A a b e a' b' Hi Hj Hij Hpre Hexn|i j p A Hsk
        |i A a Hi|i A Hi]; cbn [tidy_step]; try done; try (by edestruct Hnt);
        intros n; rewrite ?lookup_insert_is_Some ?lookup_delete_is_Some.
      - intros [->|[_ Hn]]; set_solver.
      - cbn in Hpl. destruct (moves k); [done|]. unfold like.
        assert (j ∈ G) by (apply HG; by eexists). rewrite decide_True; [|done].
        intros [->|[_ [->|[_ Hn]]]]; set_solver.
      - cbn in Hpl. assert (i ∈ G) by (apply HG; by eexists).
        intros [->|[_ Hn]]; destruct (own p true); cbn; set_solver.
      - cbn in Hpl. assert (i ∈ G) by (apply HG; by eexists). assert (j ∈ G) by (apply HG; by eexists).
        assert (n = i \/ i <> n /\ (n = j \/ j <> n /\ is_Some (A !! n)) -> n ∈ G) as Hin.
        { intros [->|[_ [->|[_ Hn]]]]; [done|done|by apply HG]. }
        intros Hn. assert (n ∈ G) by (apply Hin; destruct Hn as [->|[? [->|[? ?]]]]; auto).
        destruct (two p); cbn [effect2]; unfold like, exchange; try done.
        + rewrite decide_True; [|done]. set_solver.
        + rewrite !decide_True; [|done..].
          destruct (decide (n = i)), (decide (n = j)); set_solver.
      - intros [Hne Hn]. apply HG in Hn. set_solver.
    Qed.
    Lemma plain_ok cs : forall A os A' G,
      atrace S cs A os A' -> forallb plain_cmd cs = true -> (forall e, Threw e ∉ os) ->
      (forall i, is_Some (A !! i) -> i ∈ G) -> forall i, is_Some (A' !! i) -> i ∈ tidy_from cs os G.
    Proof.
      induction cs as [|c cs IH]; intros A os A' G Ht Hp Hn HG; inversion Ht; subst; cbn; [done|].
      cbn in Hp. apply andb_true_iff in Hp as [Hp1 Hp2]. eapply IH; [done|done| |].
      - intros e He. apply (Hn e). by right.
      - eapply plain_step; [done|done| |done]. intros e ->. apply (Hn e). by left.
    Qed.

    Context (good : abs S -> Prop).
    Context (Hnew : forall k a, cpost S k a -> good a).
    Context (Hcopy : forall k b a b', cpost2 S k b a b' ->
      (good b -> good a) /\ (moves k = false -> b' = b)).
    Context (Hcopy_exn : forall k b e b', cexn2 S k b e b' -> moves k = false -> b' = b).
    Context (Hown : forall p a r a', pre1 S p a -> post1 S p a r a' ->
      match own p true with Keeps => good a -> good a' | Makes => good a' | Breaks => True end).
    Context (Hown_exn : forall p a e a', pre1 S p a -> exn1 S p a e a' ->
      match own p false with Keeps => good a -> good a' | Makes => good a' | Breaks => True end).
    Context (Htwo : forall p a b r a' b', post2 S p a b r a' b' ->
      match two p with
      | PCopy => (good b -> good a') /\ b' = b
      | PMove => good b -> good a'
      | PSwap => (good b -> good a') /\ (good a -> good b')
      | PEq _ | PLt _ => (good a -> good a') /\ (good b -> good b')
      end).
    Context (Htwo_exn : forall p a b e a' b', exn2 S p a b e a' b' ->
      match two p with
      | PCopy => b' = b
      | PMove | PSwap => True
      | PEq _ | PLt _ => (good a -> good a') /\ (good b -> good b')
      end).

    Definition all_good (A : apool S) (G : gset nat) : Prop :=
      forall i, i ∈ G -> exists a, A !! i = Some a /\ good a.

    Lemma all_good_sub A G G' : G' ⊆ G -> all_good A G -> all_good A G'.
    Proof. intros Hs HG i Hi. apply HG. set_solver. Qed.
    Lemma all_good_ins A G G' i a :
      all_good A G -> (forall j, j ∈ G' -> j <> i -> j ∈ G) -> (i ∈ G' -> good a) ->
      all_good (<[i := a]> A) G'.
    Proof.
      intros HG Hsub Ha j Hj. destruct (decide (j = i)) as [->|Hne].
      - exists a. rewrite lookup_insert. split; [done|]. by apply Ha.
      - rewrite lookup_insert_ne; [|done]. by apply HG, Hsub.
    Qed.
    Lemma all_good_ins2 A G G' i j a b :
      i <> j -> all_good A G -> (forall n, n ∈ G' -> n <> i -> n <> j -> n ∈ G) ->
      (i ∈ G' -> good a) -> (j ∈ G' -> good b) ->
      all_good (<[i := a]> (<[j := b]> A)) G'.
    Proof.
      intros Hij HG Hsub Ha Hb n Hn. destruct (decide (n = i)) as [->|Hne].
      - exists a. rewrite lookup_insert. split; [done|]. by apply Ha.
      - rewrite lookup_insert_ne; [|done]. destruct (decide (n = j)) as [->|Hne'].
        + exists b. rewrite lookup_insert. split; [done|]. by apply Hb.
        + rewrite lookup_insert_ne; [|done]. by apply HG, Hsub.
    Qed.

    Lemma tidy_step_ok c A o A' G : astep S c A o A' -> all_good A G -> all_good A' (tidy_step c o G).
    Proof.
      intros Hstep HG.
      assert (Hat : forall i a, A !! i = Some a -> i ∈ G -> good a).
      { intros i a Ha Hi. destruct (HG i Hi) as (a' & Ha' & Hg). by simplify_eq. }
      assert (Hout : forall i, A !! i = None -> i ∉ G).
      { intros i Hi Hin. destruct (HG i Hin) as (a & Ha & _). congruence. }
      destruct Hstep as [i k A a Hi Hpre Hpost|i k A e Hi Hpre Hexn|i k A Hsk
        |i j k A b a b' Hi Hj Hpre Hpost|i j k A b e b' Hi Hj Hpre Hexn|i j k A Hsk
        |i p A a r a' Hi Hpre Hpost|i p A a e a' Hi Hpre Hexn|i p A Hsk
        |i j p A a b r a' b' Hi Hj Hij Hpre Hpost|i j p A a b e a' b' Hi Hj Hij Hpre Hexn|i j p A Hsk
        |i A a Hi|i A Hi]; cbn [tidy_step]; try done.
      - apply (all_good_ins _ G); [done|set_solver|]. intros _. by eapply Hnew.
      - destruct (Hcopy k b a b' Hpost) as [H1 H2].
        assert (i <> j) as Hij by congruence.
        destruct (moves k); unfold like.
        + apply (all_good_ins2 _ G); [done|done|case_decide; set_solver| |set_solver].
          case_decide; [|set_solver]. intros _. apply H1. by eapply Hat.
        + rewrite (H2 eq_refl). apply (all_good_ins2 _ G); [done|done|case_decide; set_solver| |].
          * case_decide; [|set_solver]. intros _. apply H1. by eapply Hat.
          * intros Hin. eapply Hat; [exact Hj|]. case_decide; set_solver.
      - specialize (Hcopy_exn k b e b' Hexn). destruct (moves k).
        + apply (all_good_ins _ G); [done|set_solver|set_solver].
        + rewrite (Hcopy_exn eq_refl). apply (all_good_ins _ G); [done|set_solver|]. by eapply Hat.
      - specialize (Hown p a r a' Hpre Hpost). destruct (own p true); cbn [apply_effect].
        + apply (all_good_ins _ G); [done|set_solver|]. intros Hin. apply Hown. by eapply Hat.
        + apply (all_good_ins _ G); [done|set_solver|done].
        + apply (all_good_ins _ G); [done|set_solver|set_solver].
      - specialize (Hown_exn p a e a' Hpre Hexn). destruct (own p false); cbn [apply_effect].
        + apply (all_good_ins _ G); [done|set_solver|]. intros Hin. apply Hown_exn. by eapply Hat.
        + apply (all_good_ins _ G); [done|set_solver|done].
        + apply (all_good_ins _ G); [done|set_solver|set_solver].
      - specialize (Htwo p a b r a' b' Hpost). destruct (two p); cbn [effect2]; unfold like, exchange.
        + destruct Htwo as [H1 ->]. apply (all_good_ins2 _ G); [done|done|case_decide; set_solver| |].
          * case_decide; [|set_solver]. intros _. apply H1. by eapply Hat.
          * intros Hin. eapply Hat; [exact Hj|]. case_decide; set_solver.
        + apply (all_good_ins2 _ G); [done|done|case_decide; set_solver| |set_solver].
          case_decide; [|set_solver]. intros _. apply Htwo. by eapply Hat.
        + destruct Htwo as [H1 H2]. apply (all_good_ins2 _ G); [done|done|repeat case_decide; set_solver| |].
          * intros Hin. apply H1. eapply Hat; [exact Hj|]. repeat case_decide; set_solver.
          * intros Hin. apply H2. eapply Hat; [exact Hi|]. repeat case_decide; set_solver.
        + destruct Htwo as [H1 H2]. apply (all_good_ins2 _ G); [done|done|done| |]; intros Hin.
          * apply H1. by eapply Hat.
          * apply H2. by eapply Hat.
        + destruct Htwo as [H1 H2]. apply (all_good_ins2 _ G); [done|done|done| |]; intros Hin.
          * apply H1. by eapply Hat.
          * apply H2. by eapply Hat.
      - specialize (Htwo_exn p a b e a' b' Hexn). destruct (two p); cbn [effect2].
        + subst b'. apply (all_good_ins2 _ G); [done|done|set_solver|set_solver|].
          intros Hin. eapply Hat; [exact Hj|]. set_solver.
        + apply (all_good_ins2 _ G); [done|done|set_solver|set_solver|set_solver].
        + apply (all_good_ins2 _ G); [done|done|set_solver|set_solver|set_solver].
        + destruct Htwo_exn as [H1 H2]. apply (all_good_ins2 _ G); [done|done|done| |]; intros Hin.
          * apply H1. by eapply Hat.
          * apply H2. by eapply Hat.
        + destruct Htwo_exn as [H1 H2]. apply (all_good_ins2 _ G); [done|done|done| |]; intros Hin.
          * apply H1. by eapply Hat.
          * apply H2. by eapply Hat.
      - intros n Hn. rewrite lookup_delete_ne; [|set_solver]. apply HG. set_solver.
    Qed.

    Lemma tidy_ok cs : forall A os A' G,
      atrace S cs A os A' -> all_good A G -> all_good A' (tidy_from cs os G).
    Proof.
      induction cs as [|c cs IH]; intros A os A' G Ht HG; inversion Ht; subst; cbn; [done|].
      eapply IH; [done|]. by eapply tidy_step_ok.
    Qed.

  End container.
End hist.
