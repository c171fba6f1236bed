(** * Consequences of the specification of the ordered flat containers: lists *)

From iris.proofmode Require Import tactics.
From Verif Require Export FlatPure.
Open Scope nat_scope.

Section lists.
  Context `{KD : Keyed}.
  Variable kd : fkind.
  Variable c : Cmp.
  Notation lt := (less c).
  Hypothesis Hr : strict_weak lt.

  (** ** Every call that returns keeps the order *)
  Lemma post_keeps_order room whole raw o l r l' :
    flat_pre kd room whole o (length l) = true ->
    flat_post kd c raw o l r l' ->
    ordered kd c l \/ o = FClear \/ (replaces_all o /\ raw = false) ->
    (replaces_all o -> raw = false) ->
    ordered kd c l'.
  Proof.
    intros Hpre [Hal Hs] Ho Hraw.
    assert (Hcl : o = FClear -> ordered kd c l').
    { intros ->. destruct Hal as [_ ->]. apply ordered_nil. }
    assert (Hrep : replaces_all o -> ordered kd c l').
    { intros Hx. specialize (Hs Hr (or_intror Hx)). destruct o; try done.
      eapply inserted_all_ordered; [apply ordered_nil|]. by apply Hs, Hraw. }
    destruct Ho as [Ho|[Ho|[Ho _]]]; [|by apply Hcl|by apply Hrep].
    specialize (Hs Hr (or_introl Ho)).
    destruct o; cbn [flat_always flat_sorted is_lookup adds] in Hal, Hs; try (by subst); try (by apply Hrep);
      try (by apply Hcl); try (by destruct Hal as [_ ->]).
    - destruct Hs as (v & i & b & _ & Hi & _). by eapply inserted_ordered.
    - destruct Hs as (v & i & b & _ & Hi & _). by eapply inserted_ordered.
    - destruct Hs as (v & i & b & _ & Hi & _). by eapply inserted_ordered.
    - destruct Hs as (v & i & b & _ & Hi & _). by eapply inserted_ordered.
    - destruct Hs as (_ & Hi). by eapply inserted_all_ordered.
    - destruct Hal as [_ ->]. apply ordered_cut; [lia|done].
    - destruct Hal as [_ ->]. cbn in Hpre. apply andb_true_iff in Hpre as [Hp _]. apply Nat.leb_le in Hp.
      by apply ordered_cut.
    - destruct Hs as [-> _]. by apply ordered_filter.
    - destruct Hal as [-> _]. by apply ordered_filter.
    - destruct Hs as (i & b & Hi & _). by eapply inserted_ordered.
    - destruct Hs as (i & b & Hi & _). by eapply inserted_ordered.
    - destruct Hs as [(i & w & Hw & _ & -> & _)|(i & Hi & _)]; [by apply ordered_put|by eapply inserted_ordered].
    - destruct Hs as [(i & w & Hw & _ & -> & _)|(i & Hi & _)]; [by apply ordered_put|by eapply inserted_ordered].
    - destruct Hs as (i & b & w & Hi & _). by eapply inserted_ordered.
    - destruct Hal as (_ & v & Hv & ->). by apply ordered_put.
  Qed.

  (** ** Where an insertion can take place *)
  Lemma inserted_new v l i l' :
    inserted kd c v l i true l' ->
    (multi kd = false -> absent c l (key v)) /\ i <= length l /\ l' = take i l ++ v :: drop i l /\ ordered kd c l' /\
    (forall j w, l !! j = Some w -> j < i -> in_order kd c (key w) (key v)) /\
    (forall j w, l !! j = Some w -> i <= j -> in_order kd c (key v) (key w)).
  Proof.
    intros [(_ & ? & _)|(H1 & _ & H2 & -> & H3)]; [done|]. split_and!; try done.
    - intros j w Hw Hj. apply (H3 j i w v Hj); rewrite ins_lookup; try done.
      + by destruct (Nat.ltb_spec j i); [|lia].
      + destruct (Nat.ltb_spec i i); [lia|]. by rewrite Nat.eqb_refl.
    - intros j w Hw Hj. apply (H3 i (S j) v w ltac:(lia)); rewrite ins_lookup; try done.
      + destruct (Nat.ltb_spec i i); [lia|]. by rewrite Nat.eqb_refl.
      + destruct (Nat.ltb_spec (S j) i); [lia|]. destruct (Nat.eqb_spec (S j) i); [lia|].
        by rewrite Nat.sub_1_r.
  Qed.

  (** Sets and maps: the result is determined. *)
  Lemma inserted_unique v l i b l1 j b' l2 :
    multi kd = false -> ordered kd c l ->
    inserted kd c v l i b l1 -> inserted kd c v l j b' l2 -> i = j /\ b = b' /\ l1 = l2.
  Proof.
    intros Hm Ho H1 H2. destruct b, b'.
    - apply inserted_new in H1 as (_ & Hi & -> & _ & A1 & A2).
      apply inserted_new in H2 as (_ & Hj & -> & _ & B1 & B2).
      unfold in_order in *. rewrite Hm in A1 A2 B1 B2.
      assert (i = j) as ->; [|done].
      destruct (lt_eq_lt_dec i j) as [[Hlt|]|Hlt]; [|done|].
      + destruct (lookup_lt_is_Some_2 l i) as [w Hw]; [lia|].
        specialize (A2 i w Hw ltac:(lia)). specialize (B1 i w Hw Hlt).
        apply (sw_asym lt Hr) in B1. congruence.
      + destruct (lookup_lt_is_Some_2 l j) as [w Hw]; [lia|].
        specialize (A1 j w Hw Hlt). specialize (B2 j w Hw ltac:(lia)).
        apply (sw_asym lt Hr) in B2. congruence.
    - destruct H1 as [(_ & ? & _)|(Ha & _)]; [done|]. destruct H2 as [(_ & _ & Hf & _)|(_ & ? & _)]; [|done].
      by destruct (Ha Hm j).
    - destruct H2 as [(_ & ? & _)|(Ha & _)]; [done|]. destruct H1 as [(_ & _ & Hf & _)|(_ & ? & _)]; [|done].
      by destruct (Ha Hm i).
    - destruct H1 as [(_ & _ & Hf1 & ->)|(_ & ? & _)]; [|done]. destruct H2 as [(_ & _ & Hf2 & ->)|(_ & ? & _)]; [|done].
      split; [|done]. by eapply unique_found.
  Qed.

  Lemma equiv_refl k : FlatSpec.equiv c k k.
  Proof. split; by apply sw_irrefl. Qed.
  Lemma equiv_sym k k' : FlatSpec.equiv c k k' -> FlatSpec.equiv c k' k.
  Proof. intros [H1 H2]. done. Qed.
  Lemma equiv_trans k1 k2 k3 : FlatSpec.equiv c k1 k2 -> FlatSpec.equiv c k2 k3 -> FlatSpec.equiv c k1 k3.
  Proof. intros [H1 H2] [H3 H4]. split; by eapply sw_neg. Qed.

  (** Two lists with, position by position, equivalent keys. *)
  Definition same_keys (l1 l2 : list V) : Prop :=
    length l1 = length l2 /\
    forall n x y, l1 !! n = Some x -> l2 !! n = Some y -> FlatSpec.equiv c (key x) (key y).

  Lemma same_keys_sym l1 l2 : same_keys l1 l2 -> same_keys l2 l1.
  Proof. intros [H1 H2]. split; [done|]. intros n x y Hx Hy. apply equiv_sym. by eapply H2. Qed.

  Lemma gaps_same v l i j :
    multi kd = true -> ordered kd c l -> i <= j -> j <= length l ->
    (forall n w, l !! n = Some w -> i <= n -> in_order kd c (key v) (key w)) ->
    (forall n w, l !! n = Some w -> n < j -> in_order kd c (key w) (key v)) ->
    same_keys (take i l ++ v :: drop i l) (take j l ++ v :: drop j l).
  Proof.
    intros Hm Ho Hij Hj A B. split.
    { rewrite !app_length /= !take_length !drop_length. lia. }
    assert (Hmid : forall n w, l !! n = Some w -> i <= n -> n < j -> FlatSpec.equiv c (key w) (key v)).
    { intros n w Hw H1 H2. specialize (A n w Hw H1). specialize (B n w Hw H2).
      unfold in_order in *. rewrite Hm in A B. done. }
    intros n x y Hx Hy. rewrite ins_lookup in Hx; [|lia]. rewrite ins_lookup in Hy; [|lia].
    destruct (Nat.ltb_spec n i).
    - destruct (Nat.ltb_spec n j); [|lia]. simplify_eq. apply equiv_refl.
    - destruct (Nat.eqb_spec n i) as [->|].
      + injection Hx as <-. destruct (Nat.ltb_spec i j).
        * apply equiv_sym. apply (Hmid i y Hy); lia.
        * destruct (Nat.eqb_spec i j); [|lia]. injection Hy as <-. apply equiv_refl.
      + destruct (Nat.ltb_spec n j).
        * apply (equiv_trans _ (key v)); [apply (Hmid (n - 1) x Hx); lia|].
          apply equiv_sym. apply (Hmid n y Hy); lia.
        * destruct (Nat.eqb_spec n j) as [->|].
          -- injection Hy as <-. apply (Hmid (j - 1) x Hx); lia.
          -- simplify_eq. apply equiv_refl.
  Qed.

  (** Multisets and multimaps: the order among equivalent keys is left open. *)
  Lemma inserted_multi_same v l i b l1 j b' l2 :
    multi kd = true -> ordered kd c l ->
    inserted kd c v l i b l1 -> inserted kd c v l j b' l2 -> b = true /\ b' = true /\ same_keys l1 l2.
  Proof.
    intros Hm Ho H1 H2.
    assert (b = true) as ->. { destruct H1 as [(? & _)|(_ & ? & _)]; [congruence|done]. }
    assert (b' = true) as ->. { destruct H2 as [(? & _)|(_ & ? & _)]; [congruence|done]. }
    split; [done|]. split; [done|].
    apply inserted_new in H1 as (_ & Hi & -> & _ & A1 & A2).
    apply inserted_new in H2 as (_ & Hj & -> & _ & B1 & B2).
    destruct (le_ge_dec i j).
    - by apply gaps_same.
    - apply same_keys_sym. by apply gaps_same.
  Qed.

  Lemma inserted_same v l i b l1 j b' l2 :
    ordered kd c l -> inserted kd c v l i b l1 -> inserted kd c v l j b' l2 ->
    b = b' /\ same_keys l1 l2 /\ (multi kd = false -> i = j /\ l1 = l2).
  Proof.
    intros Ho H1 H2. destruct (multi kd) eqn:Hm.
    - destruct (inserted_multi_same v l i b l1 j b' l2 Hm Ho H1 H2) as (-> & -> & H). done.
    - destruct (inserted_unique v l i b l1 j b' l2 Hm Ho H1 H2) as (-> & -> & ->). split; [done|]. split; [|done].
      split; [done|]. intros n x y Hx Hy. simplify_eq. apply equiv_refl.
  Qed.

  (** ** Inserting many elements *)
  Lemma inserted_sublist v l i b l' : inserted kd c v l i b l' -> sublist l l'.
  Proof.
    intros [(_ & _ & _ & ->)|(_ & _ & Hi & -> & _)]; [done|].
    rewrite -{1}(take_drop i l). apply sublist_app; [done|]. by apply sublist_cons.
  Qed.
  Lemma inserted_from v l i b l' x : inserted kd c v l i b l' -> x ∈ l' -> x ∈ l \/ x = v.
  Proof.
    intros [(_ & _ & _ & ->)|(_ & _ & Hi & -> & _)]; [by left|].
    rewrite elem_of_app elem_of_cons. intros [Hx|[->|Hx]]; [| by right|]; left.
    - rewrite -(take_drop i l) elem_of_app. by left.
    - rewrite -(take_drop i l) elem_of_app. by right.
  Qed.
  Lemma inserted_found v l i b l' : inserted kd c v l i b l' -> found c l' (key v) i.
  Proof.
    intros [(_ & _ & Hf & ->)|(_ & _ & Hi & -> & _)]; [done|]. exists v. split; [|apply equiv_refl].
    rewrite ins_lookup; [|done]. destruct (Nat.ltb_spec i i); [lia|]. by rewrite Nat.eqb_refl.
  Qed.
  Lemma inserted_perm v l i b l' : multi kd = true -> inserted kd c v l i b l' -> l' ≡ₚ v :: l.
  Proof.
    intros Hm [(? & _)|(_ & _ & Hi & -> & _)]; [congruence|].
    rewrite -{3}(take_drop i l). by rewrite Permutation_middle.
  Qed.
  Lemma sublist_found l l' k : sublist l l' -> (exists i, found c l k i) -> exists i, found c l' k i.
  Proof.
    intros Hs (i & w & Hw & He). apply elem_of_list_lookup_2 in Hw.
    assert (w ∈ l') as Hw' by (eapply elem_of_submseteq; [exact Hw|by apply sublist_submseteq]).
    apply elem_of_list_lookup in Hw' as [j Hj]. exists j, w. done.
  Qed.

  (** [l'] holds the keys of [l] and of [vs]; nothing of [l] is lost or reordered;
      nothing is invented. *)
  Lemma inserted_all_facts vs : forall l l',
    inserted_all kd c vs l l' ->
    sublist l l' /\ (forall x, x ∈ l' -> x ∈ l \/ x ∈ vs) /\
    (forall v, v ∈ vs -> exists i, found c l' (key v) i) /\
    (multi kd = true -> l' ≡ₚ vs ++ l).
  Proof.
    induction vs as [|v vs IH]; intros l l'.
    - intros ->. split_and!; [done|by left|by intros v Hv%elem_of_nil|done].
    - intros (i & b & l1 & H1 & H2). destruct (IH _ _ H2) as (S1 & S2 & S3 & S4). split_and!.
      + etrans; [by eapply inserted_sublist|done].
      + intros x Hx. destruct (S2 x Hx) as [Hx1|Hx1]; [|right; by right].
        destruct (inserted_from v l i b l1 x H1 Hx1) as [Hy| ->]; [by left|right; by left].
      + intros x [->|Hx]%elem_of_cons; [|by apply S3].
        eapply sublist_found; [exact S1|]. exists i. by eapply inserted_found.
      + intros Hm. rewrite (S4 Hm) (inserted_perm v l i b l1 Hm H1). cbn. by rewrite Permutation_middle.
  Qed.
End lists.
