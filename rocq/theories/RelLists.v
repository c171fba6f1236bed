(** * Lexicographic order *)

From stdpp Require Import list.
From Verif Require Export RelSpec.
From Coq Require Import Lia.

Section lists.
  Context `{E : Env}.
  Implicit Types lt eqv : V -> V -> bool.
  Lemma lex_nil lt l : ~ lexicographic lt l [].
  Proof. intros [(k & x & y & _ & H & _)|[H _]]; [done|simpl in H; lia]. Qed.
  Lemma lex_nil_l lt y l : lexicographic lt [] (y :: l).
  Proof. right. simpl. split; [lia|]. intros j ? ? Hj; lia. Qed.
  Lemma lex_cons lt x l1 y l2 : lexicographic lt (x :: l1) (y :: l2) <->
    lt x y = true \/ (lt x y = false /\ lt y x = false /\ lexicographic lt l1 l2).
  Proof.
    assert (forall k, agree lt (x :: l1) (y :: l2) (S k) <-> (lt x y = false /\ lt y x = false) /\ agree lt l1 l2 k) as Ha.
    { intros k. split.
      - intros H. split; [by apply (H 0%nat x y); [lia|..]|]. intros j a b Hj H1 H2. apply (H (S j)); [lia|done..].
      - intros [H0 H] [|j] a b Hj H1 H2; [cbn in H1, H2; by simplify_eq|]. apply (H j); [lia|done..]. }
    split.
    - intros [([|k] & a & b & H1 & H2 & H3 & H4)|[H1 H2]].
      + simpl in *. simplify_eq. by left.
      + apply Ha in H4 as [[]]. right. split_and!; [done..|]. left. by exists k, a, b.
      + simpl in H1, H2. apply Ha in H2 as [[]]. right. split_and!; [done..|]. right. split; [lia|done].
    - intros [H|(H1 & H2 & [(k & a & b & H3 & H4 & H5 & H6)|[H3 H4]])].
      + left. exists 0%nat, x, y. split_and!; [done..|]. intros j ? ? Hj; lia.
      + left. exists (S k), a, b. split_and!; [done..|]. by apply Ha.
      + right. simpl. split; [lia|]. by apply Ha.
  Qed.
  Lemma lex_asym lt l1 : (forall x y, lt x y = true -> lt y x = false) -> forall l2, lexicographic lt l1 l2 -> ~ lexicographic lt l2 l1.
  Proof.
    intros Has. induction l1 as [|x l1 IH]; intros [|y l2] H; [by apply lex_nil in H|apply lex_nil|by apply lex_nil in H|].
    apply lex_cons in H. rewrite lex_cons. intros [H2|(H1 & H2 & H3)].
    - pose proof (Has _ _ H2) as H3. destruct H as [H|(H & H4 & _)]; congruence.
    - destruct H as [H|(_ & _ & H)]; [congruence|]. by apply (IH l2).
  Qed.
  Lemma lex_differ eqv lt l1 : consistent eqv lt -> forall l2, lexicographic lt l1 l2 -> ~ same_elems eqv l1 l2 /\ ~ same_elems eqv l2 l1.
  Proof.
    intros [Has Heq]. induction l1 as [|x l1 IH]; intros [|y l2] H; try by apply lex_nil in H.
    - split; intros H2; inversion H2.
    - apply lex_cons in H. split; intros H2; inversion H2; subst.
      + destruct H as [H|(_ & _ & H)]; [|by apply IH in H as [H _]]. apply Heq in H4 as [H4 _]. congruence.
      + destruct H as [H|(_ & _ & H)]; [|by apply IH in H as [_ H]]. apply Heq in H4 as [_ H4]. congruence.
  Qed.
  Lemma lex_tri eqv lt l1 : consistent eqv lt -> forall l2, lexicographic lt l1 l2 \/ same_elems eqv l1 l2 \/ lexicographic lt l2 l1.
  Proof.
    intros [Has Heq]. induction l1 as [|x l1 IH]; intros [|y l2].
    - right; left. constructor.
    - left. apply lex_nil_l.
    - right; right. apply lex_nil_l.
    - rewrite !lex_cons. destruct (lt x y) eqn:Hxy; [by left; left|]. destruct (lt y x) eqn:Hyx; [by right; right; left|].
      destruct (IH l2) as [H|[H|H]]; [by left; right| |by right; right; right].
      right; left. constructor; [by apply Heq|done].
  Qed.
  Lemma lex_trans lt l1 : transitive_lt lt -> (forall x y, lt x y = true -> lt y x = false) -> forall l2 l3,
    lexicographic lt l1 l2 -> lexicographic lt l2 l3 -> lexicographic lt l1 l3.
  Proof.
    intros [Ht He] Has. induction l1 as [|x l1 IH]; intros [|y l2] [|z l3] H1 H2;
      try (by apply lex_nil in H1); try (by apply lex_nil in H2); [apply lex_nil_l|].
    apply lex_cons in H1, H2. apply lex_cons. destruct H1 as [H1|(H1 & H1' & H1l)], H2 as [H2|(H2 & H2' & H2l)].
    - left. by eapply Ht.
    - left. destruct (lt x z) eqn:Hxz; [done|]. destruct (lt z x) eqn:Hzx.
      { pose proof (Ht _ _ _ Hzx H1). congruence. }
      destruct (He x z y) as [H _]; [done..|]. congruence.
    - left. destruct (lt x z) eqn:Hxz; [done|]. destruct (lt z x) eqn:Hzx.
      { pose proof (Ht _ _ _ H2 Hzx). congruence. }
      destruct (He y x z) as [H _]; [done..|]. congruence.
    - right. destruct (He x y z) as [Ha Hb]; [done..|]. split_and!; [done..|]. by eapply IH.
  Qed.
  Lemma one_relation eqv lt l1 l2 : consistent eqv lt ->
    (related RLt eqv lt l1 l2 /\ ~ related REq eqv lt l1 l2 /\ ~ related RGt eqv lt l1 l2) \/
    (related REq eqv lt l1 l2 /\ ~ related RLt eqv lt l1 l2 /\ ~ related RGt eqv lt l1 l2) \/
    (related RGt eqv lt l1 l2 /\ ~ related RLt eqv lt l1 l2 /\ ~ related REq eqv lt l1 l2).
  Proof.
    intros Hc. cbn. destruct (lex_tri eqv lt l1 Hc l2) as [H|[H|H]].
    - left. split_and!; [done|exact (proj1 (lex_differ eqv lt l1 Hc l2 H))|]. apply lex_asym; [apply Hc|done].
    - right; left. split_and!; [done| |]; intros H2.
      + exact (proj1 (lex_differ eqv lt l1 Hc l2 H2) H).
      + exact (proj2 (lex_differ eqv lt l2 Hc l1 H2) H).
    - right; right. split_and!; [done| |exact (proj2 (lex_differ eqv lt l2 Hc l1 H))]. apply lex_asym; [apply Hc|done].
  Qed.
End lists.
