(** * Lists without equal keys as finite maps *)

From Coq Require Import ZifyBool.
From iris.proofmode Require Import tactics.
From Verif Require Export UnordMap UnordProofs.
Open Scope Z_scope.

Section lists.
  Context `{KD : Keyed}.
  Variable c : Cmp.
  Variable kd : fkind.

  (** ** [distinct] *)
  Lemma distinct_nil : distinct c [].
  Proof. intros i j x y _ Hx. by rewrite lookup_nil in Hx. Qed.
  Lemma distinct_cons x l :
    distinct c (x :: l) <->
    (forall y, y ∈ l -> same c (key x) (key y) = false /\ same c (key y) (key x) = false) /\ distinct c l.
  Proof.
    split.
    - intros Hd. split.
      + intros y Hy. apply elem_of_list_lookup in Hy as [i Hi]. split; [eapply (Hd 0%nat (S i))|eapply (Hd (S i) 0%nat)]; done.
      + intros i j y z Hij Hy Hz. apply (Hd (S i) (S j)); [congruence|done|done].
    - intros [Hx Hd] [|i] [|j] y z Hij Hy Hz; cbn in Hy, Hz; simplify_eq; try done.
      + apply Hx. by eapply elem_of_list_lookup_2.
      + apply Hx. by eapply elem_of_list_lookup_2.
      + eapply (Hd i j); [congruence|done|done].
  Qed.
  Lemma distinct_perm l l' : Permutation l l' -> distinct c l -> distinct c l'.
  Proof.
    induction 1 as [|x l l' Hp IH|x y l|l1 l2 l3 Hp1 IH1 Hp2 IH2]; [done| | |auto].
    - rewrite !distinct_cons. intros [Hx Hd]. split; [|by apply IH]. intros y Hy. apply Hx. by rewrite Hp.
    - rewrite !distinct_cons. intros (Hx & Hy & Hd). split_and!; [| |done].
      + intros z Hz. apply elem_of_cons in Hz as [-> |Hz]; [|by apply Hy].
        destruct (Hx x) as [? ?]; [by left|done].
      + intros z Hz. apply Hx. by right.
  Qed.
  Lemma distinct_app l1 l2 : distinct c (l1 ++ l2) -> distinct c l1 /\ distinct c l2.
  Proof.
    induction l1 as [|x l1 IH]; cbn; [by split; [apply distinct_nil|]|].
    rewrite !distinct_cons. intros [Hx Hd]. destruct (IH Hd). split_and!; try done.
    intros y Hy. apply Hx. by apply elem_of_app; left.
  Qed.
  Lemma distinct_filter (p : V -> bool) l : distinct c l -> distinct c (List.filter p l).
  Proof.
    induction l as [|x l IH]; cbn; [done|]. rewrite distinct_cons. intros [Hx Hd].
    destruct (p x); [|by apply IH]. rewrite distinct_cons. split; [|by apply IH].
    intros y Hy. apply Hx. apply elem_of_list_In, filter_In in Hy as [Hy _]. by apply elem_of_list_In.
  Qed.
  Lemma distinct_put l i w m : l !! i = Some w -> distinct c l -> distinct c (<[i := entry (key w) m]> l).
  Proof.
    intros Hw Hd a b x y Hab Hx Hy.
    assert (Hk : forall n z, <[i := entry (key w) m]> l !! n = Some z -> exists z', l !! n = Some z' /\ key z = key z').
    { intros n z Hz. apply list_lookup_insert_Some in Hz as [(-> & <- & _)|[Hne Hz]]; [|by exists z].
      exists w. split; [done|]. apply key_entry. }
    apply Hk in Hx as (x' & Hx & ->). apply Hk in Hy as (y' & Hy & ->). by apply (Hd a b).
  Qed.

  Hypothesis Heq : equality_ok c.
  Lemma same_refl x : same c x x = true.
  Proof using Heq. exact (proj1 Heq x). Qed.
  Lemma same_sym x y : same c x y = same c y x.
  Proof using Heq.
    destruct Heq as (_ & Hs & _). destruct (same c x y) eqn:H1, (same c y x) eqn:H2; try done;
      apply Hs in H1 || apply Hs in H2; congruence.
  Qed.
  Lemma same_trans x y z : same c x y = true -> same c y z = same c x z.
  Proof using Heq.
    intros Hxy. pose proof (same_sym x y). destruct Heq as (_ & Hs & Ht).
    destruct (same c y z) eqn:H1, (same c x z) eqn:H2; try done.
    - by rewrite (Ht x y z) in H2.
    - rewrite (Ht y x z) in H1; try done. congruence.
  Qed.

  Lemma distinct_snoc l v : missing c l (key v) -> distinct c l -> distinct c (l ++ [v]).
  Proof using Heq.
    intros Hm Hd. apply (distinct_perm (v :: l)).
    { by rewrite Permutation_cons_append. }
    apply distinct_cons. split; [|done]. intros y Hy. apply elem_of_list_lookup in Hy as [i Hi].
    specialize (Hm i y Hi). unfold has in Hm. by rewrite (same_sym (key v)).
  Qed.
  Lemma uinserted_distinct v l i b l' :
    multi kd = false -> uinserted kd c v l i b l' -> distinct c l -> distinct c l'.
  Proof using Heq.
    intros Hk [(_ & _ & _ & ->)|(Hm & _ & _ & ->)]; [done|]. apply distinct_snoc. by apply Hm.
  Qed.
  Lemma uinserted_all_distinct vs : forall l l',
    multi kd = false -> uinserted_all kd c vs l l' -> distinct c l -> distinct c l'.
  Proof using Heq.
    induction vs as [|v vs IH]; cbn; intros l l' Hk.
    - by intros ->.
    - intros (i & b & l1 & Hi & Hv) Hd. eapply IH; [done|done|]. by eapply uinserted_distinct.
  Qed.
  Lemma erased_at_out i l l' : erased_at i l l' ->
    exists x, l !! i = Some x /\ Permutation l (x :: l') /\ take i l' = take i l.
  Proof.
    intros (a & x & b & -> & <- & [[-> ->]|(b' & y & -> & ->)]); exists x.
    - split_and!; [by apply list_lookup_middle|by rewrite Permutation_app_comm|by rewrite take_app take_ge].
    - split_and!; [by apply list_lookup_middle| |by rewrite !take_app].
      rewrite -Permutation_middle. constructor. f_equiv. by rewrite -Permutation_cons_append.
  Qed.
  Lemma erased_at_distinct i l l' : erased_at i l l' -> distinct c l -> distinct c l'.
  Proof.
    intros He Hd. apply erased_at_out in He as (x & Hx & Hp & _).
    apply (distinct_perm _ _ Hp) in Hd. by apply distinct_cons in Hd as [_ Hd].
  Qed.
  Lemma erased_range_perm i j l l' :
    erased_range i j l l' ->
    exists a x b, l = a ++ x ++ b /\ length a = i /\ (i + length x)%nat = j /\
      Permutation l (x ++ l') /\ take i l' = a /\ length l' = (length a + length b)%nat.
  Proof.
    intros (a & x & b & -> & Ha & Hj & [[_ ->]|(b1 & b2 & -> & Hl & ->)]); exists a, x.
    - exists b. split_and!; try done.
      + by rewrite Permutation_app_swap_app.
      + rewrite -Ha. by rewrite take_app.
      + by rewrite app_length.
    - exists (b1 ++ b2). split_and!; try done.
      + rewrite Permutation_app_swap_app. by rewrite (Permutation_app_comm b1).
      + rewrite -Ha. by rewrite take_app.
      + rewrite !app_length. lia.
  Qed.

  (** ** [as_map] *)
  Lemma as_map_None l k : as_map c l k = None <-> missing c l k.
  Proof.
    unfold as_map, missing. split.
    - intros Hf i w Hi. eapply find_none; [done|]. apply elem_of_list_In. by eapply elem_of_list_lookup_2.
    - intros Hm. destruct (List.find (has c k) l) as [v|] eqn:Hf; [|done].
      apply find_some in Hf as [Hin Hh]. apply elem_of_list_In, elem_of_list_lookup in Hin as [i Hi].
      rewrite (Hm i v Hi) in Hh. done.
  Qed.
  Lemma as_map_Some l k v : as_map c l k = Some v -> v ∈ l /\ has c k v = true.
  Proof. intros Hf. apply find_some in Hf as [Hin Hh]. by apply elem_of_list_In in Hin. Qed.
  Lemma as_map_in l k v : distinct c l -> v ∈ l -> has c k v = true -> as_map c l k = Some v.
  Proof using Heq.
    induction l as [|x l IH]; [by intros _ Hn; apply elem_of_nil in Hn|].
    rewrite distinct_cons. intros [Hx Hd] Hv Hh. unfold as_map. cbn [List.find].
    apply elem_of_cons in Hv as [-> |Hv].
    - by rewrite Hh.
    - destruct (has c k x) eqn:Hxk; [|by apply IH].
      exfalso. destruct (Hx v Hv) as [H1 _]. unfold has in *.
      rewrite -(same_trans (key x) k (key v)) // in H1. rewrite same_sym in H1. congruence.
  Qed.
  Lemma as_map_self l v : distinct c l -> v ∈ l -> belongs (as_map c l) v.
  Proof using Heq. intros Hd Hv. apply as_map_in; [done|done|]. apply same_refl. Qed.
  Lemma as_map_iff l k v : distinct c l -> as_map c l k = Some v <-> v ∈ l /\ has c k v = true.
  Proof using Heq. intros Hd. split; [apply as_map_Some|]. intros [H1 H2]. by apply as_map_in. Qed.
  Lemma as_map_perm l l' k : distinct c l -> Permutation l l' -> as_map c l k = as_map c l' k.
  Proof using Heq.
    intros Hd Hp. pose proof (distinct_perm _ _ Hp Hd) as Hd'.
    destruct (as_map c l k) as [v|] eqn:H1.
    - symmetry. apply as_map_iff in H1 as [H1 H2]; [|done]. apply as_map_iff; [done|]. by rewrite -Hp.
    - symmetry. destruct (as_map c l' k) as [v|] eqn:H2; [|done].
      apply as_map_iff in H2 as [H2 H3]; [|done]. rewrite (as_map_in l k v) in H1; try done. by rewrite Hp.
  Qed.

  Lemma as_map_snoc l v : km_eq (as_map c (l ++ [v])) (km_insert c v (as_map c l)).
  Proof.
    intros k. unfold as_map, km_insert. induction l as [|x l IH]; cbn; [done|]. by destruct (has c k x).
  Qed.
  Lemma first_at_in l k i : first_at c l k i -> exists w, l !! i = Some w /\ w ∈ l /\ has c k w = true.
  Proof.
    intros (w & H1 & H2 & _). exists w. split; [done|]. split; [|done]. by eapply elem_of_list_lookup_2.
  Qed.
  Lemma map_insert_old l v i : first_at c l (key v) i -> km_eq (as_map c l) (km_insert c v (as_map c l)).
  Proof using Heq.
    intros (w & Hw & Hin & Hh)%first_at_in k. unfold km_insert.
    destruct (as_map c l k) as [u|] eqn:Hu; [done|].
    destruct (same c (key v) k) eqn:Hk; [|done]. exfalso.
    apply as_map_None in Hu. specialize (Hu i w Hw). unfold has in *.
    rewrite (same_trans (key v) (key w) k) in Hu; [congruence|by rewrite same_sym].
  Qed.
  Lemma as_map_inserted v l i b l' :
    uinserted kd c v l i b l' -> km_eq (as_map c l') (km_insert c v (as_map c l)).
  Proof using Heq.
    intros [(_ & _ & Hf & ->)|(_ & _ & _ & ->)]; [by eapply map_insert_old|apply as_map_snoc].
  Qed.
  Lemma map_insert_all_eq vs : forall m m', km_eq m m' -> km_eq (km_insert_all c vs m) (km_insert_all c vs m').
  Proof.
    induction vs as [|v vs IH]; cbn; intros m m' Hm; [done|]. apply IH. intros k. unfold km_insert. by rewrite Hm.
  Qed.
  Lemma as_map_inserted_all vs : forall l l',
    uinserted_all kd c vs l l' -> km_eq (as_map c l') (km_insert_all c vs (as_map c l)).
  Proof using Heq.
    induction vs as [|v vs IH]; cbn; intros l l'.
    - by intros ->.
    - intros (i & b & l1 & Hi & Hv) k. rewrite (IH l1 l' Hv k).
      apply map_insert_all_eq. by eapply as_map_inserted.
  Qed.
  Lemma as_map_remove_all x l : distinct c (x ++ l) ->
    km_eq (as_map c l) (km_erase_all c (map key x) (as_map c (x ++ l))).
  Proof using Heq.
    intros Hd k. unfold km_erase_all. induction x as [|v x IH]; cbn; [done|].
    cbn in Hd. apply distinct_cons in Hd as [Hv Hd]. specialize (IH Hd). unfold has at 1.
    destruct (same c (key v) k) eqn:Hk; cbn; [|exact IH].
    apply as_map_None. intros i w Hw. unfold has. destruct (same c (key w) k) eqn:Hwk; [|done].
    destruct (Hv w) as [H1 _]; [apply elem_of_app; right; by eapply elem_of_list_lookup_2|].
    rewrite same_sym in Hk. rewrite (same_trans k (key v) (key w)) // in H1. rewrite same_sym in H1. congruence.
  Qed.
  Lemma as_map_erased_range i j l l' : distinct c l -> erased_range i j l l' ->
    exists vs, Forall (belongs (as_map c l)) vs /\ vs = take (j - i) (drop i l) /\
      km_eq (as_map c l') (km_erase_all c (map key vs) (as_map c l)).
  Proof using Heq.
    intros Hd (a & x & b & Hl & Ha & Hj & Hp & _ & _)%erased_range_perm. exists x. split_and!.
    - apply Forall_forall. intros v Hv. apply as_map_self; [done|]. rewrite Hl. set_solver.
    - subst l i j. rewrite drop_app. replace (length a + length x - length a)%nat with (length x) by lia.
      by rewrite take_app.
    - intros k. pose proof (distinct_perm _ _ Hp Hd) as Hd'. rewrite (as_map_remove_all x l' Hd' k).
      unfold km_erase_all. by rewrite (as_map_perm l _ k Hd Hp).
  Qed.
  Lemma as_map_erased_at i l l' : distinct c l -> erased_at i l l' ->
    exists v, l !! i = Some v /\ belongs (as_map c l) v /\ km_eq (as_map c l') (km_erase c (key v) (as_map c l)).
  Proof using Heq.
    intros Hd (v & Hv & Hp & _)%erased_at_out. exists v. split; [done|]. split.
    { apply as_map_self; [done|]. by eapply elem_of_list_lookup_2. }
    intros k. pose proof (distinct_perm _ _ Hp Hd) as Hd'. rewrite (as_map_remove_all [v] l' Hd' k).
    unfold km_erase_all, km_erase. cbn. rewrite orb_false_r. by rewrite (as_map_perm l _ k Hd Hp).
  Qed.
  Lemma map_erase_same k0 k1 m : same c k0 k1 = true -> km_eq (km_erase c k0 m) (km_erase c k1 m).
  Proof using Heq. intros Hk k. unfold km_erase. by rewrite (same_trans k0 k1 k). Qed.
  Lemma as_map_erased_key k0 l r l' : multi kd = false -> distinct c l -> erased_key kd c k0 l r l' ->
    km_eq (as_map c l') (km_erase c k0 (as_map c l)).
  Proof using Heq.
    intros Hk Hd. unfold erased_key. rewrite Hk.
    intros [(Hm & _ & ->)|(i & Hf & _ & He)] k.
    - unfold km_erase. destruct (same c k0 k) eqn:Hs; [|done]. apply as_map_None.
      intros i w Hw. specialize (Hm i w Hw). unfold has in *. rewrite same_sym.
      rewrite same_sym in Hs. rewrite -(same_trans k k0) // same_sym. done.
    - apply first_at_in in Hf as (w & Hw & Hin & Hh).
      destruct (as_map_erased_at i l l' Hd He) as (v & Hv & _ & He'). simplify_eq.
      rewrite He'. by apply map_erase_same.
  Qed.
  Lemma as_map_filter (p : V -> bool) l : distinct c l ->
    km_eq (as_map c (List.filter (fun v => negb (p v)) l)) (km_erase_if p (as_map c l)).
  Proof using Heq.
    intros Hd k. unfold km_erase_if. destruct (as_map c l k) as [v|] eqn:Hv.
    - apply as_map_Some in Hv as [Hin Hh]. destruct (p v) eqn:Hp.
      + apply as_map_None. intros i w Hw. destruct (has c k w) eqn:Hwk; [|done]. exfalso.
        apply elem_of_list_lookup_2, elem_of_list_In, filter_In in Hw as [Hw Hpw]. apply elem_of_list_In in Hw.
        assert (Some v = Some w) as [= ->].
        { rewrite -(as_map_in l k v Hd Hin Hh). by apply as_map_in. }
        by rewrite Hp in Hpw.
      + apply as_map_in; [by apply distinct_filter| |done].
        apply elem_of_list_In, filter_In. split; [by apply elem_of_list_In|]. by rewrite Hp.
    - apply as_map_None. rewrite as_map_None in Hv. intros i w Hw.
      apply elem_of_list_lookup_2, elem_of_list_In, filter_In in Hw as [Hw _].
      apply elem_of_list_In, elem_of_list_lookup in Hw as [j Hj]. by apply (Hv j).
  Qed.
  Lemma as_map_put l i w m : distinct c l -> l !! i = Some w ->
    km_eq (as_map c (<[i := entry (key w) m]> l)) (km_put c (entry (key w) m) (as_map c l)).
  Proof using Heq.
    intros Hd Hw k. pose proof (distinct_put l i w m Hw Hd) as Hd'.
    unfold km_put. rewrite (as_map_perm l (w :: take i l ++ drop (S i) l) k Hd).
    2: { rewrite Permutation_middle. by rewrite take_drop_middle. }
    rewrite (as_map_perm _ (entry (key w) m :: take i l ++ drop (S i) l) k Hd').
    2: { rewrite Permutation_middle. rewrite insert_take_drop; [done|by eapply lookup_lt_Some]. }
    unfold as_map. cbn. unfold has at 1 3. rewrite key_entry. by destruct (same c (key w) k).
  Qed.
  Lemma map_put_same v m m' : km_eq m m' -> km_eq (km_put c v m) (km_put c v m').
  Proof. intros Hm k. unfold km_put. by rewrite Hm. Qed.

  (** Erasing by key or predicate, up to order. *)
  Lemma erased_key_all k0 l r l' : distinct c l -> erased_key kd c k0 l r l' ->
    Permutation (List.filter (lacks c k0) l) l' /\ r = Num (length (List.filter (has c k0) l)).
  Proof using Heq.
    intros Hd. unfold erased_key. destruct (multi kd); [done|].
    assert (Hmiss : forall l0, (forall w, w ∈ l0 -> has c k0 w = false) ->
      List.filter (lacks c k0) l0 = l0 /\ List.filter (has c k0) l0 = []).
    { induction l0 as [|y l0 IH]; [done|]. intros Hn. cbn. unfold lacks at 1.
      rewrite (Hn y (elem_of_list_here _ _)). destruct IH as [H1 H2].
      { intros w Hw. apply Hn. by right. }
      cbn. by rewrite H1 H2. }
    intros [(Hm & -> & ->)|(i & Hf & -> & He)].
    - destruct (Hmiss l) as [H1 H2].
      { intros w Hw. apply elem_of_list_lookup in Hw as [j Hj]. by apply (Hm j). }
      by rewrite H1 H2.
    - apply first_at_in in Hf as (w & Hw & _ & Hh). apply erased_at_out in He as (v & Hv & Hp & _).
      rewrite Hv in Hw. injection Hw as <-.
      pose proof (distinct_perm _ _ Hp Hd) as Hd'. apply distinct_cons in Hd' as [Hv' _].
      destruct (Hmiss l') as [H1 H2].
      { intros y Hy. destruct (Hv' y Hy) as [H1 _]. unfold has in *.
        rewrite -(same_trans (key v) k0 (key y) Hh) in H1. by rewrite same_sym. }
      rewrite (perm_filter _ _ _ Hp).
      assert (length (List.filter (has c k0) l) = length (List.filter (has c k0) (v :: l'))) as ->.
      { apply Permutation_length. by apply perm_filter. }
      cbn. unfold lacks at 1. rewrite Hh. cbn. by rewrite H1 H2.
  Qed.

  (** ** All member functions *)
  Variable eager : bool.
  Definition assigns_list (o : uop) : Prop := match o with UAssignList _ => True | _ => False end.

  Lemma post_distinct room whole raw o l r l' :
    multi kd = false -> unord_pre kd room whole o (length l) = true ->
    unord_post kd raw eager c o l r l' -> distinct c l -> (assigns_list o -> raw = false) -> distinct c l'.
  Proof using Heq.
    intros Hk Hpre Hp Hd Hraw.
    assert (Hins : forall h x, insert_post kd c h x l r l' -> distinct c l').
    { intros h x (v & i & b & _ & Hi & _). by eapply uinserted_distinct. }
    destruct o; cbn in Hp.
    - destruct Hp as [_ Hp]. apply (Hins false x), Hp. intros _ _. exact (proj1 Heq).
    - by eapply Hins.
    - destruct Hp as [_ Hp]. apply (Hins true x), Hp. intros _ _. exact (proj1 Heq).
    - by eapply Hins.
    - destruct Hp as [_ Hp]. by eapply uinserted_all_distinct.
    - destruct Hp as [_ Hp]. rewrite (Hraw I) in Hp. eapply uinserted_all_distinct; [done|done|apply distinct_nil].
    - destruct Hp as [_ Hp]. by eapply erased_at_distinct.
    - destruct Hp as [_ Hp]. apply erased_range_perm in Hp as (a & x & b & _ & _ & _ & Hp & _ & _).
      apply (distinct_perm _ _ Hp) in Hd. by apply distinct_app in Hd as [_ ?].
    - apply erased_key_all in Hp as [Hp _]; [|done]. eapply distinct_perm; [done|]. by apply distinct_filter.
    - destruct Hp as (w & _ & Hp).
      apply erased_key_all in Hp as [Hp _]; [|done]. eapply distinct_perm; [done|]. by apply distinct_filter.
    - destruct Hp as [Hp _]. eapply distinct_perm; [done|]. by apply distinct_filter.
    - destruct Hp as [_ ->]. apply distinct_nil.
    - by destruct Hp as [-> _].
    - by destruct Hp as [-> _].
    - by destruct Hp as [-> _].
    - by destruct Hp as [-> _].
    - destruct Hp as (i & b & Hp & _). by eapply uinserted_distinct.
    - destruct Hp as (i & b & Hp & _). by eapply uinserted_distinct.
    - destruct Hp as [(i & w & Hw & _ & -> & _)|(Hm & -> & _)]; [by apply distinct_put|].
      apply distinct_snoc; [|done]. by rewrite key_entry.
    - destruct Hp as [(i & w & Hw & _ & -> & _)|(Hm & -> & _)]; [by apply distinct_put|].
      apply distinct_snoc; [|done]. by rewrite key_entry.
    - by destruct Hp as [-> _].
    - destruct Hp as (i & b & w & Hp & _). by eapply uinserted_distinct.
    - destruct Hp as (_ & v & Hv & ->). by apply distinct_put.
  Qed.

  Lemma post_map room whole raw o l r l' :
    multi kd = false -> unord_pre kd room whole o (length l) = true ->
    unord_post kd raw eager c o l r l' -> distinct c l -> (assigns_list o -> raw = false) ->
    km_step c o (as_map c l) (as_map c l').
  Proof using Heq.
    intros Hk Hpre Hp Hd Hraw.
    assert (Hins : forall h x, insert_post kd c h x l r l' ->
      exists v, arg_in x (as_map c l) v /\ km_eq (as_map c l') (km_insert c v (as_map c l))).
    { intros h x (v & i & b & Hv & Hi & _). exists v. split; [|by eapply as_map_inserted].
      destruct x; cbn in Hv |- *; [by injection Hv as <-|by injection Hv as <-|..];
        (apply as_map_self; [done|]; by eapply elem_of_list_lookup_2). }
    assert (Hioa : forall k m r1 r2,
      (exists i w, l !! i = Some w /\ first_at c l k i /\ l' = <[i := entry (key w) m]> l /\ r = r1 i) \/
      (missing c l k /\ l' = l ++ [entry k m] /\ r = r2) ->
      km_eq (as_map c l') (km_put c (match as_map c l k with Some w => entry (key w) m | None => entry k m end) (as_map c l))).
    { intros k m r1 r2 [(i & w & Hw & Hf & -> & _)|(Hm & -> & _)].
      - apply first_at_in in Hf as (w' & Hw' & Hin & Hh). rewrite Hw in Hw'. injection Hw' as <-.
        rewrite (as_map_in l k w Hd Hin Hh).
        by apply as_map_put.
      - pose proof Hm as Hn. apply as_map_None in Hn. rewrite Hn. intros k'. rewrite (as_map_snoc l _ k').
        unfold km_insert, km_put. rewrite key_entry. destruct (as_map c l k') as [u|] eqn:Hu; [|done].
        destruct (same c k k') eqn:Hs; [|done]. exfalso.
        apply as_map_Some in Hu as [Hin Hh]. apply elem_of_list_lookup in Hin as [i Hi]. specialize (Hm i u Hi).
        unfold has in *. rewrite same_sym in Hs. rewrite same_sym in Hh. rewrite same_sym in Hm.
        rewrite (same_trans _ _ (key u) Hs) in Hm. congruence. }
    destruct o; cbn in Hp |- *.
    - destruct Hp as [_ Hp]. apply (Hins false x), Hp. intros _ _. exact (proj1 Heq).
    - by eapply Hins.
    - destruct Hp as [_ Hp]. apply (Hins true x), Hp. intros _ _. exact (proj1 Heq).
    - by eapply Hins.
    - destruct Hp as [_ Hp]. by apply as_map_inserted_all.
    - destruct Hp as [_ Hp]. rewrite (Hraw I) in Hp. intros k. by rewrite (as_map_inserted_all _ _ _ Hp k).
    - destruct Hp as [_ Hp]. destruct (as_map_erased_at _ _ _ Hd Hp) as (v & _ & H1 & H2). by exists v.
    - destruct Hp as [_ Hp]. destruct (as_map_erased_range _ _ _ _ Hd Hp) as (vs & H1 & _ & H2). by exists vs.
    - by eapply as_map_erased_key.
    - destruct Hp as (w & Hw & Hp). exists w. split; [|by eapply as_map_erased_key].
      apply as_map_self; [done|]. by eapply elem_of_list_lookup_2.
    - destruct Hp as [Hp _]. intros k.
      rewrite -(as_map_perm _ _ k (distinct_filter _ _ Hd) Hp). by apply as_map_filter.
    - by destruct Hp as [_ ->].
    - by destruct Hp as [-> _].
    - by destruct Hp as [-> _].
    - by destruct Hp as [-> _].
    - by destruct Hp as [-> _].
    - destruct Hp as (i & b & Hp & _). by eapply as_map_inserted.
    - destruct Hp as (i & b & Hp & _). by eapply as_map_inserted.
    - apply (Hioa _ _ (fun i => PosNew i false) (PosNew (length l) true)), Hp.
    - apply (Hioa _ _ (fun i => Pos i) (Pos (length l))), Hp.
    - by destruct Hp as [-> _].
    - destruct Hp as (i & b & w & Hp & _). by eapply as_map_inserted.
    - destruct Hp as (_ & v & Hv & ->). exists v. split; [|by apply as_map_put].
      apply as_map_self; [done|]. by eapply elem_of_list_lookup_2.
  Qed.
End lists.
