(** * Lists ordered by a comparator: facts used by the proofs about flat containers *)

From Coq Require Import ZifyBool.
From iris.proofmode Require Import tactics.
From Verif Require Export FlatModel.
Open Scope nat_scope.

Section pure.
  Context `{KD : Keyed}.

  (** ** Partitioned lists *)
  Definition parted (p : V -> bool) (l : list V) (m : nat) : Prop :=
    m <= length l /\ forall j v, l !! j = Some v -> (p v = true <-> j < m).

  Lemma parted_exists p l :
    (forall i j x y, i < j -> l !! i = Some x -> l !! j = Some y -> p y = true -> p x = true) ->
    exists m, parted p l m.
  Proof.
    induction l as [|z l IH]; intros Hm.
    - exists 0. split; [done|]. intros j v Hj. by rewrite lookup_nil in Hj.
    - destruct IH as (m & Hle & Hm').
      { intros i j x y Hij Hx Hy. apply (Hm (S i) (S j)); [lia|done|done]. }
      destruct (p z) eqn:Hz.
      + exists (S m). split; [cbn; lia|]. intros [|j] v Hj; cbn in Hj.
        * injection Hj as ->. split; [lia|done].
        * rewrite (Hm' j v Hj). lia.
      + exists 0. split; [lia|]. intros j v Hj. split; [|lia]. intros Hv. exfalso.
        destruct j as [|j]; cbn in Hj; [congruence|].
        enough (p z = true) by congruence. by apply (Hm 0 (S j) z v ltac:(lia) eq_refl Hj).
  Qed.

  Lemma parted_unique p l m m' : parted p l m -> parted p l m' -> m = m'.
  Proof.
    intros [H1 H2] [H3 H4]. destruct (lt_eq_lt_dec m m') as [[Hlt| ->]|Hlt]; [|done|].
    - destruct (lookup_lt_is_Some_2 l m) as [v Hv]; [lia|].
      specialize (H2 m v Hv). specialize (H4 m v Hv). destruct H2, H4. lia.
    - destruct (lookup_lt_is_Some_2 l m') as [v Hv]; [lia|].
      specialize (H2 m' v Hv). specialize (H4 m' v Hv). destruct H2, H4. lia.
  Qed.

  Lemma parted_take p l m : parted p l m -> List.filter p (take m l) = take m l.
  Proof.
    intros [_ Hm].
    assert (Ha : forall x, In x (take m l) -> p x = true).
    { intros x (j & Hj)%elem_of_list_In%elem_of_list_lookup.
      apply lookup_take_Some in Hj as [Hj Hlt]. by apply (Hm j x Hj). }
    revert Ha. induction (take m l) as [|y t IH]; intros Ha; [done|]. cbn.
    rewrite (Ha y (or_introl eq_refl)). f_equal. apply IH. intros x Hx. apply Ha. by right.
  Qed.

  Lemma filter_all (p : V -> bool) l :
    (forall j v, l !! j = Some v -> p v = true) -> List.filter p l = l.
  Proof.
    induction l as [|y t IH]; intros Ha; [done|]. cbn.
    rewrite (Ha 0 y eq_refl). f_equal. apply IH. intros j v. apply (Ha (S j)).
  Qed.
  Lemma filter_none (p : V -> bool) l :
    (forall j v, l !! j = Some v -> p v = false) -> List.filter p l = [].
  Proof.
    induction l as [|y t IH]; intros Ha; [done|]. cbn.
    rewrite (Ha 0 y eq_refl). apply IH. intros j v. apply (Ha (S j)).
  Qed.
  Lemma filter_app' (p : V -> bool) l1 l2 :
    List.filter p (l1 ++ l2) = List.filter p l1 ++ List.filter p l2.
  Proof. induction l1 as [|x t IH]; [done|]. cbn. destruct (p x); cbn; by rewrite IH. Qed.
  (** The elements satisfying [p] are those from [i] to [j]. *)
  Lemma filter_range (p : V -> bool) l i j :
    i <= j -> j <= length l ->
    (forall n v, l !! n = Some v -> (p v = true <-> i <= n < j)) ->
    List.filter (fun v => negb (p v)) l = take i l ++ drop j l /\
    length (List.filter p l) = j - i.
  Proof.
    intros Hij Hj Hp.
    assert (Hl : l = take i l ++ (take (j - i) (drop i l) ++ drop j l)).
    { rewrite -{1}(take_drop i l) -{1}(take_drop (j - i) (drop i l)) drop_drop.
      do 3 f_equal. lia. }
    assert (H1 : forall n v, take i l !! n = Some v -> p v = false).
    { intros n v Hn. apply lookup_take_Some in Hn as [Hn Hlt]. specialize (Hp n v Hn).
      destruct (p v); [|done]. destruct Hp as [Hp _]. specialize (Hp eq_refl). lia. }
    assert (H2 : forall n v, take (j - i) (drop i l) !! n = Some v -> p v = true).
    { intros n v Hn. apply lookup_take_Some in Hn as [Hn Hlt]. rewrite lookup_drop in Hn.
      apply (Hp (i + n) v Hn). lia. }
    assert (H3 : forall n v, drop j l !! n = Some v -> p v = false).
    { intros n v Hn. rewrite lookup_drop in Hn. specialize (Hp (j + n) v Hn).
      destruct (p v); [|done]. destruct Hp as [Hp _]. specialize (Hp eq_refl). lia. }
    split.
    - rewrite {1}Hl !filter_app'. rewrite (filter_all _ (take i l)).
      2:{ intros n v Hn. by rewrite (H1 n v Hn). }
      rewrite (filter_none _ (take (j - i) (drop i l))).
      2:{ intros n v Hn. by rewrite (H2 n v Hn). }
      rewrite (filter_all _ (drop j l)); [done|]. intros n v Hn. by rewrite (H3 n v Hn).
    - rewrite {1}Hl !filter_app' (filter_none _ (take i l)); [|done].
      rewrite (filter_all _ (take (j - i) (drop i l))); [|done].
      rewrite (filter_none _ (drop j l)); [|done]. cbn.
      rewrite app_nil_r take_length drop_length. lia.
  Qed.

  (** ** Insertion into a list *)
  Lemma ins_lookup (v : V) l i j :
    i <= length l ->
    (take i l ++ v :: drop i l) !! j =
    if j <? i then l !! j else if j =? i then Some v else l !! (j - 1).
  Proof.
    intros Hi. destruct (Nat.ltb_spec j i).
    - rewrite lookup_app_l; [|rewrite take_length; lia]. by rewrite lookup_take.
    - rewrite lookup_app_r; [|rewrite take_length; lia]. rewrite take_length.
      replace (j - i `min` length l) with (j - i) by lia.
      destruct (Nat.eqb_spec j i) as [->|Hne]; [by rewrite Nat.sub_diag|].
      destruct (j - i) as [|n] eqn:Hn; [lia|]. cbn. rewrite lookup_drop. f_equal. lia.
  Qed.

  (** ** Strict weak orders *)
  Section order.
    Variable r : Key -> Key -> bool.
    Hypothesis Hr : strict_weak r.
    Lemma sw_irrefl x : r x x = false.
    Proof. by destruct Hr as (H & _). Qed.
    Lemma sw_trans x y z : r x y = true -> r y z = true -> r x z = true.
    Proof. destruct Hr as (_ & H & _). apply H. Qed.
    Lemma sw_neg x y z : r x y = false -> r y z = false -> r x z = false.
    Proof.
      destruct Hr as (_ & _ & H). intros H1 H2. destruct (r x z) eqn:H3; [|done].
      destruct (H x y z H3); congruence.
    Qed.
    Lemma sw_asym x y : r x y = true -> r y x = false.
    Proof.
      intros H1. destruct (r y x) eqn:H2; [|done].
      pose proof (sw_trans x y x H1 H2) as H3. by rewrite sw_irrefl in H3.
    Qed.
    (* x < y <= z, x <= y < z *)
    Lemma sw_lt_le x y z : r x y = true -> r z y = false -> r x z = true.
    Proof.
      intros H1 H2. destruct (r x z) eqn:H3; [done|].
      pose proof (sw_neg x z y H3 H2). congruence.
    Qed.
    Lemma sw_le_lt x y z : r y x = false -> r y z = true -> r x z = true.
    Proof.
      intros H1 H2. destruct (r x z) eqn:H3; [done|].
      pose proof (sw_neg y x z H1 H3). congruence.
    Qed.
  End order.

  Variable kd : fkind.
  Variable c : Cmp.
  Notation lt := (less c).

  Lemma ordered_le l i j x y :
    strict_weak lt -> ordered kd c l -> i < j -> l !! i = Some x -> l !! j = Some y ->
    lt (key y) (key x) = false.
  Proof.
    intros Hr Ho Hij Hx Hy. specialize (Ho i j x y Hij Hx Hy). unfold in_order in Ho.
    destruct (multi kd); [done|]. by apply sw_asym.
  Qed.
  Lemma ordered_le_eq l i j x y :
    strict_weak lt -> ordered kd c l -> i <= j -> l !! i = Some x -> l !! j = Some y ->
    lt (key y) (key x) = false.
  Proof.
    intros Hr Ho Hij Hx Hy. destruct (decide (i = j)) as [->|].
    - rewrite Hx in Hy. injection Hy as ->. by apply sw_irrefl.
    - eapply (ordered_le l i j); [done|done|lia|done|done].
  Qed.

  Lemma lower_parted k l i : lower_pos c l k i <-> parted (goes_before lt k) l i.
  Proof. done. Qed.
  Lemma upper_parted k l i : upper_pos c l k i <-> parted (not_behind lt k) l i.
  Proof.
    unfold upper_pos, parted, not_behind. split; intros [Hi Hj]; (split; [done|]); intros j v Hv;
      specialize (Hj j v Hv); rewrite negb_true_iff in Hj |- *; done.
  Qed.

  Lemma lower_exists k l : strict_weak lt -> ordered kd c l -> exists i, lower_pos c l k i.
  Proof.
    intros Hr Ho. apply (parted_exists (goes_before lt k)). intros i j x y Hij Hx Hy Hp.
    unfold goes_before in *. eapply sw_le_lt; [done| |exact Hp].
    by eapply (ordered_le l i j).
  Qed.
  Lemma upper_exists k l : strict_weak lt -> ordered kd c l -> exists i, upper_pos c l k i.
  Proof.
    intros Hr Ho. destruct (parted_exists (not_behind lt k) l) as [i Hi].
    { intros i j x y Hij Hx Hy Hp. unfold not_behind in *. apply negb_true_iff in Hp. apply negb_true_iff.
      eapply sw_neg; [done|exact Hp|]. by eapply (ordered_le l i j). }
    exists i. by apply upper_parted.
  Qed.
  Lemma lower_le_upper k l i j :
    strict_weak lt -> lower_pos c l k i -> upper_pos c l k j -> i <= j.
  Proof.
    intros Hr [Hi Hil] [Hj Hjl]. destruct (decide (i <= j)) as [|Hn]; [done|]. exfalso.
    destruct (lookup_lt_is_Some_2 l j) as [v Hv]; [lia|].
    pose proof (proj2 (Hil j v Hv) ltac:(lia)) as H1.
    pose proof (sw_asym lt Hr _ _ H1) as H2. apply (Hjl j v Hv) in H2. lia.
  Qed.

  (** ** Ordered lists *)
  Lemma ordered_nil : ordered kd c [].
  Proof. intros i j x y _ Hx. by rewrite lookup_nil in Hx. Qed.

  Lemma ordered_insert l i v :
    ordered kd c l -> i <= length l ->
    (forall j w, l !! j = Some w -> j < i -> in_order kd c (key w) (key v)) ->
    (forall j w, l !! j = Some w -> i <= j -> in_order kd c (key v) (key w)) ->
    ordered kd c (take i l ++ v :: drop i l).
  Proof.
    intros Ho Hi H1 H2 j1 j2 x y Hj Hx Hy.
    rewrite ins_lookup in Hx; [|done]. rewrite ins_lookup in Hy; [|done].
    destruct (Nat.ltb_spec j1 i), (Nat.ltb_spec j2 i);
      destruct (Nat.eqb_spec j1 i), (Nat.eqb_spec j2 i); try lia.
    - by apply (Ho j1 j2).
    - injection Hy as <-. by apply (H1 j1).
    - apply (Ho j1 (j2 - 1)); [lia|done|done].
    - injection Hx as <-. apply (H2 (j2 - 1)); [done|lia].
    - apply (Ho (j1 - 1) (j2 - 1)); [lia|done|done].
  Qed.

  (** Between smaller-or-equal keys on the left and greater-or-equal keys on the
      right (strictly, if keys are unique) a key can be inserted. *)
  Definition gap (l : list V) (k : Key) (i : nat) : Prop :=
    i <= length l /\
    (forall w, i <> 0 -> l !! (i - 1) = Some w -> in_order kd c (key w) k) /\
    (forall w, l !! i = Some w -> in_order kd c k (key w)).

  Lemma gap_insert l v i :
    strict_weak lt -> ordered kd c l -> gap l (key v) i ->
    ordered kd c (take i l ++ v :: drop i l) /\ (multi kd = false -> absent c l (key v)).
  Proof.
    intros Hr Ho (Hi & Hlo & Hhi).
    assert (H1 : forall j w, l !! j = Some w -> j < i -> in_order kd c (key w) (key v)).
    { intros j w Hw Hj. destruct (lookup_lt_is_Some_2 l (i - 1)) as [u Hu]; [lia|].
      specialize (Hlo u ltac:(lia) Hu).
      destruct (decide (j = i - 1)) as [->|Hne]; [by simplify_eq|].
      specialize (Ho j (i - 1) w u ltac:(lia) Hw Hu). unfold in_order in *.
      destruct (multi kd); [by eapply sw_neg|by eapply sw_trans]. }
    assert (H2 : forall j w, l !! j = Some w -> i <= j -> in_order kd c (key v) (key w)).
    { intros j w Hw Hj. destruct (lookup_lt_is_Some_2 l i) as [u Hu].
      { apply lookup_lt_Some in Hw. lia. }
      specialize (Hhi u Hu).
      destruct (decide (j = i)) as [->|Hne]; [by simplify_eq|].
      specialize (Ho i j u w ltac:(lia) Hu Hw). unfold in_order in *.
      destruct (multi kd); [by eapply sw_neg|by eapply sw_trans]. }
    split; [by apply ordered_insert|].
    intros Hm j (w & Hw & He1 & He2). unfold in_order in *. rewrite Hm in H1, H2.
    destruct (decide (j < i)).
    - specialize (H1 j w Hw ltac:(lia)). congruence.
    - specialize (H2 j w Hw ltac:(lia)). congruence.
  Qed.

  Lemma lower_gap_unique l k i :
    multi kd = false -> lower_pos c l k i -> (forall w, l !! i = Some w -> lt k (key w) = true) ->
    gap l k i.
  Proof.
    intros Hm [Hi Hl] Hn. unfold gap, in_order. rewrite Hm. split; [done|]. split; [|done].
    intros w Hne Hw. apply (Hl (i - 1) w Hw). lia.
  Qed.
  Lemma lower_gap_multi l k i :
    strict_weak lt -> multi kd = true -> lower_pos c l k i -> gap l k i.
  Proof.
    intros Hr Hm [Hi Hl]. unfold gap, in_order. rewrite Hm. split; [done|]. split.
    - intros w Hne Hw. apply sw_asym; [done|]. apply (Hl (i - 1) w Hw). lia.
    - intros w Hw. destruct (lt (key w) k) eqn:Hlt; [|done]. apply (Hl i w Hw) in Hlt. lia.
  Qed.
  Lemma lower_found l k i w :
    lower_pos c l k i -> l !! i = Some w -> lt k (key w) = false -> found c l k i.
  Proof.
    intros [Hi Hl] Hw Hlt. exists w. split; [done|]. split; [|done].
    destruct (lt (key w) k) eqn:H1; [|done]. apply (Hl i w Hw) in H1. lia.
  Qed.
  Lemma lower_first l k i j : lower_pos c l k i -> found c l k j -> i <= j.
  Proof.
    intros [Hi Hl] (w & Hw & H1 & H2). destruct (decide (j < i)) as [Hj|]; [|lia].
    apply (Hl j w Hw) in Hj. congruence.
  Qed.
  Lemma lower_absent l k i :
    strict_weak lt -> ordered kd c l -> lower_pos c l k i ->
    (forall w, l !! i = Some w -> lt k (key w) = true) -> absent c l k.
  Proof.
    intros Hr Ho Hp Hn j Hf. pose proof (lower_first l k i j Hp Hf) as Hij.
    destruct Hf as (w & Hw & H1 & H2).
    destruct (lookup_lt_is_Some_2 l i) as [u Hu].
    { apply lookup_lt_Some in Hw. lia. }
    specialize (Hn u Hu). pose proof (ordered_le_eq l i j u w Hr Ho Hij Hu Hw) as H3.
    pose proof (sw_lt_le lt Hr _ _ _ Hn H3). congruence.
  Qed.

  Lemma inserted_gap v l i :
    strict_weak lt -> ordered kd c l -> gap l (key v) i ->
    inserted kd c v l i true (take i l ++ v :: drop i l).
  Proof.
    intros Hr Ho Hg. destruct (gap_insert l v i Hr Ho Hg) as [H1 H2]. right.
    destruct Hg as [Hi _]. done.
  Qed.

  Lemma inserted_ordered v l i b l' : ordered kd c l -> inserted kd c v l i b l' -> ordered kd c l'.
  Proof. intros Ho [(_ & _ & _ & ->)|(_ & _ & _ & _ & H1)]; done. Qed.
  Lemma inserted_all_ordered vs : forall l l',
    ordered kd c l -> inserted_all kd c vs l l' -> ordered kd c l'.
  Proof.
    induction vs as [|v vs IH]; intros l l' Ho; [by intros ->|].
    intros (i & b & l1 & H1 & H2). eapply IH; [|exact H2]. by eapply inserted_ordered.
  Qed.

  (** ** Positions of equivalent keys *)
  Lemma equivb_spec k v : equivb c k v = true <-> equiv c (key v) k.
  Proof.
    unfold equivb, equiv. rewrite andb_true_iff !negb_true_iff. done.
  Qed.
  Lemma equal_between l k i j :
    lower_pos c l k i -> upper_pos c l k j ->
    forall n v, l !! n = Some v -> (equivb c k v = true <-> i <= n < j).
  Proof.
    intros [Hi Hl] [Hj Hu] n v Hv. rewrite equivb_spec. unfold equiv.
    specialize (Hl n v Hv). specialize (Hu n v Hv).
    destruct (lt (key v) k), (lt k (key v)); destruct Hl as [Hl1 Hl2], Hu as [Hu1 Hu2];
      split; intros H1; try (destruct H1; congruence).
    all: try (specialize (Hl1 eq_refl)); try (specialize (Hu1 eq_refl)); try lia.
    all: try (destruct (decide (n < i)) as [Ha|Ha]; [specialize (Hl2 Ha); congruence|]).
    all: try (destruct (decide (n < j)) as [Hb|Hb]; [specialize (Hu2 Hb); congruence|]).
    all: try lia. all: done.
  Qed.

  (** In a set or map at most one element has a given key. *)
  Lemma unique_found l k i j :
    strict_weak lt -> multi kd = false -> ordered kd c l -> found c l k i -> found c l k j -> i = j.
  Proof.
    intros Hr Hm Ho (v & Hv & H1 & H2) (w & Hw & H3 & H4).
    assert (Hx : forall x y, lt x k = false -> lt k y = false -> lt x y = false).
    { intros x y Ha Hb. by eapply sw_neg. }
    destruct (lt_eq_lt_dec i j) as [[Hlt|]|Hlt]; [|done|].
    - specialize (Ho i j v w Hlt Hv Hw). unfold in_order in Ho. rewrite Hm in Ho.
      rewrite (Hx (key v) (key w)) in Ho; done.
    - specialize (Ho j i w v Hlt Hw Hv). unfold in_order in Ho. rewrite Hm in Ho.
      rewrite (Hx (key w) (key v)) in Ho; done.
  Qed.
  Lemma unique_filter l k i :
    strict_weak lt -> multi kd = false -> ordered kd c l -> found c l k i ->
    List.filter (fun v => negb (equivb c k v)) l = take i l ++ drop (S i) l /\
    length (List.filter (equivb c k) l) = 1.
  Proof.
    intros Hr Hm Ho Hf.
    assert (Hi : i < length l). { destruct Hf as (w & Hw & _). by apply lookup_lt_Some in Hw. }
    replace 1 with (S i - i) by lia. apply filter_range; [lia|lia|].
    intros n v Hv. rewrite equivb_spec. split.
    - intros He. rewrite (unique_found l k i n Hr Hm Ho Hf); [lia|]. by exists v.
    - intros Hn. replace n with i in Hv by lia. destruct Hf as (w & Hw & He). by simplify_eq.
  Qed.
  Lemma absent_filter l k :
    absent c l k ->
    List.filter (fun v => negb (equivb c k v)) l = l /\ length (List.filter (equivb c k) l) = 0.
  Proof.
    intros Ha.
    assert (H1 : forall j v, l !! j = Some v -> equivb c k v = false).
    { intros j v Hv. destruct (equivb c k v) eqn:He; [|done]. exfalso.
      apply equivb_spec in He. apply (Ha j). by exists v. }
    split; [apply filter_all; intros j v Hv; by rewrite (H1 j v Hv)|].
    by rewrite filter_none.
  Qed.

  (** ** Removing elements and writing mapped values *)
  Lemma ordered_sub l l' (f : nat -> nat) :
    ordered kd c l ->
    (forall i j, i < j -> f i < f j) ->
    (forall i x, l' !! i = Some x -> exists y, l !! f i = Some y /\ key y = key x) ->
    ordered kd c l'.
  Proof.
    intros Ho Hf Hl i j x y Hij Hx Hy.
    destruct (Hl i x Hx) as (x' & Hx' & <-). destruct (Hl j y Hy) as (y' & Hy' & <-).
    eapply (Ho (f i) (f j)); [by apply Hf|done|done].
  Qed.
  Lemma ordered_cut l i j : i <= j -> ordered kd c l -> ordered kd c (take i l ++ drop j l).
  Proof.
    intros Hij Ho.
    apply (ordered_sub l _ (fun n => if n <? i then n else n + (j - i)) Ho).
    - intros n m Hnm. destruct (Nat.ltb_spec n i), (Nat.ltb_spec m i); lia.
    - intros n x Hx. exists x. split; [|done].
      apply lookup_app_Some in Hx as [Hx|[Hlen Hx]].
      + apply lookup_take_Some in Hx as [Hx Hlt]. destruct (Nat.ltb_spec n i); [done|lia].
      + rewrite take_length in Hlen Hx. rewrite lookup_drop in Hx.
        pose proof (lookup_lt_Some _ _ _ Hx).
        destruct (Nat.ltb_spec n i); [lia|]. rewrite -Hx. f_equal. lia.
  Qed.
  Lemma filter_lookup (p : V -> bool) l n x :
    List.filter p l !! n = Some x -> exists m, n <= m /\ l !! m = Some x.
  Proof.
    revert n. induction l as [|y l IH]; intros n; cbn; [by rewrite lookup_nil|].
    destruct (p y).
    - destruct n as [|n]; cbn.
      + intros [= ->]. by exists 0.
      + intros Hn. destruct (IH n Hn) as (m & Hm & Hx). exists (S m). split; [lia|done].
    - intros Hn. destruct (IH n Hn) as (m & Hm & Hx). exists (S m). split; [lia|done].
  Qed.
  Lemma ordered_cons l x :
    ordered kd c (x :: l) <->
    ordered kd c l /\ forall j y, l !! j = Some y -> in_order kd c (key x) (key y).
  Proof.
    split.
    - intros Ho. split.
      + intros i j a b Hij Ha Hb. apply (Ho (S i) (S j)); [lia|done|done].
      + intros j y Hy. apply (Ho 0 (S j) x y); [lia|done|done].
    - intros [Ho Hx] [|i] [|j] a b Hij Ha Hb; try lia; cbn in Ha, Hb.
      + injection Ha as <-. by apply (Hx j).
      + apply (Ho i j); [lia|done|done].
  Qed.
  Lemma ordered_filter l (p : V -> bool) : ordered kd c l -> ordered kd c (List.filter p l).
  Proof.
    induction l as [|x l IH]; intros Ho; [done|]. apply ordered_cons in Ho as [Ho Hx]. cbn.
    destruct (p x); [|by apply IH]. apply ordered_cons. split; [by apply IH|].
    intros j y (m & _ & Hm)%filter_lookup. by apply (Hx m).
  Qed.
  Lemma ordered_put l i v m :
    l !! i = Some v -> ordered kd c l -> ordered kd c (<[i := entry (key v) m]> l).
  Proof.
    intros Hv Ho. apply (ordered_sub l _ (fun n => n) Ho); [done|].
    intros n x Hx. destruct (decide (n = i)) as [->|Hne].
    - rewrite list_lookup_insert in Hx; [|by apply lookup_lt_Some in Hv].
      injection Hx as <-. exists v. by rewrite key_entry.
    - rewrite list_lookup_insert_ne in Hx; [|done]. by exists x.
  Qed.
End pure.
