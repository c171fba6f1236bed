(** * Cost of insertion into the unordered flat containers

    Also of the constructors of static_unordered_flat_* from a range. *)

From iris.proofmode Require Import tactics.
From Verif Require Export FlatRange SmallCost.
From Coq Require Import Lia ZifyBool.
Open Scope Z_scope.

Section search.
  Context `{KD : Keyed}.
  (** A search that ends at [q] has looked at all the elements before. *)
  Lemma ufind_loop_cost eqk k n : forall it s w q s' w',
    ufind_loop eqk k n it s w = Ok q s' w' ->
    s' = s /\ it.2 <= q.2 /\ Z.of_nat (tick w) + (q.2 - it.2) <= Z.of_nat (tick w').
  Proof.
    induction n as [|n IH]; intros it s w q s' w' Hr; cbn [ufind_loop] in Hr.
    { injection Hr as <- <- <-. split; [done|lia]. }
    apply run_bind in Hr as (b & s1 & w1 & H1 & Hr).
    assert (s1 = s /\ tick w1 = S (tick w)) as [-> Ht].
    { unfold test_ in H1. apply run_bind in H1 as (v & s2 & w2 & H2 & H1). apply run_bind in H1 as (u & s3 & w3 & H3 & H1).
      injection H1 as <- <- <-.
      assert (s2 = s /\ w2 = w) as [-> ->].
      { unfold read in H2. destruct (heap w !! it) as [[]|]; try done. injection H2 as <- <- <-. done. }
      unfold step_, oracle, bind in H3. cbn in H3. destruct (throws _ _); [done|]. injection H3 as <- <- <-. done. }
    destruct b.
    - injection Hr as <- <- <-. split; [done|lia].
    - destruct (IH _ _ _ _ _ _ Hr) as (-> & H2 & H3). split; [done|]. unfold loc_add in *. cbn in *. lia.
  Qed.
  Lemma ufind_cost eqk k s w q s' w' : ufind eqk k s w = Ok q s' w' ->
    s' = s /\ (tick w <= tick w')%nat /\ Z.of_nat (tick w) + (q.2 - (v_first s).2) <= Z.of_nat (tick w').
  Proof.
    intros Hr. apply run_bind in Hr as (o & s1 & w1 & H1 & Hr). injection H1 as <- <- <-.
    apply run_bind in Hr as (n & s1 & w1 & H1 & Hr). destruct (still_range _ _ _ _ _ _ _ H1) as [-> Ht].
    destruct (ufind_loop_cost _ _ _ _ _ _ _ _ _ Hr) as (-> & ? & H2). split; [done|lia].
  Qed.

  Context (eqk : Key -> Key -> bool) (kd : fkind) (back : arg -> M vdata loc) (room : M vdata unit).
  Hypothesis Hback : forall a s w r s' w', back a s w = Ok r s' w' -> (tick w <= tick w')%nat.
  Hypothesis Hroom : still room.
  Lemma uinsert_cost a s w p s' w' :
    multi kd = false -> uinsert eqk kd back room a s w = Ok (p, true) s' w' ->
    Z.of_nat (tick w) + ((v_last s).2 - (v_first s).2) <= Z.of_nat (tick w').
  Proof.
    intros Hk Hr. apply run_bind in Hr as ([] & s1 & w1 & H1 & Hr). destruct (Hroom _ _ _ _ _ H1) as [-> Ht1].
    rewrite Hk in Hr. apply run_bind in Hr as (k & s1 & w2 & H2 & Hr). destruct (still_key _ _ _ _ _ _ H2) as [-> Ht2].
    apply run_bind in Hr as (it & s1 & w3 & H3 & Hr). destruct (ufind_cost _ _ _ _ _ _ _ H3) as (-> & _ & Ht3).
    apply run_bind in Hr as (o & s1 & w4 & H4 & Hr). injection H4 as <- <- <-.
    destruct (loc_eqb it (v_last s)) eqn:He; [|done]. apply run_bind in Hr as (p' & s1 & w5 & H5 & Hr).
    injection Hr as <- <- <-. apply Hback in H5. unfold loc_eqb in He. lia.
  Qed.
End search.

Section back.
  Context `{KD : Keyed}.
  Lemma still_static_full N : still (full_ N).
  Proof. apply still_bind; [apply still_size|]. intros n. apply still_ret. Qed.
  Lemma static_back N a s w r s' w' : static_emplace_back N a s w = Ok r s' w' ->
    r = v_last s /\ s' = Vec (v_alloc s) (v_first s) (v_last s +ₗ 1) (v_eos s) /\
    (tick w <= tick w' <= S (tick w))%nat.
  Proof.
    intros Hr. apply run_bind in Hr as (b & s1 & w1 & H1 & Hr).
    assert (w1 = w) as ->.
    { revert H1. unfold full_, size_, bind, getS, ptr_sub, ret. by destruct (_ =? _); intros [= <- <- <-]. }
    destruct (still_static_full N _ _ _ _ _ H1) as [-> _].
    apply run_bind in Hr as ([] & s1 & w1 & H2 & Hr). destruct b; [done|]. injection H2 as <- <-.
    apply run_bind in Hr as (o & s1 & w1 & H2 & Hr). injection H2 as <- <- <-.
    apply run_bind in Hr as ([] & s1 & w1 & H2 & Hr). destruct (still_construct _ _ _ _ _ _ _ H2) as [-> Ht].
    pose proof (bounded_construct (v_last s) a s w) as Hb. rewrite H2 in Hb.
    injection Hr as <- <- <-. split; [done|]. split; [done|lia].
  Qed.
  Lemma small_back N ib a s w r s' w' :
    emplace_back_ (small_storage N ib) a s w = Ok r s' w' -> (tick w <= tick w')%nat.
  Proof.
    intros Hr. apply run_bind in Hr as (o & s1 & w1 & H1 & Hr). injection H1 as <- <- <-.
    destruct (negb _).
    - apply run_bind in Hr as (o & s1 & w1 & H1 & Hr). injection H1 as <- <- <-.
      apply run_bind in Hr as ([] & s1 & w1 & H2 & Hr). destruct (still_construct _ _ _ _ _ _ _ H2) as [-> Ht].
      injection Hr as <- <- <-. done.
    - apply run_bind in Hr as (nc & s1 & w1 & H1 & Hr). pose proof (bounded_new_capacity_s N ib 1 s w) as Hn.
      rewrite H1 in Hn. pose proof (costs_append_s N ib 1 nc a s1 w1) as Ha. rewrite Hr in Ha. lia.
  Qed.
  Lemma still_static_room' N : still (static_room N).
  Proof. apply still_bind; [apply still_static_full|]. intros b. apply still_assert. Qed.

  (** Inserting an element with a new key compares it with all the others. *)
  Lemma unord_insert_cost fl kd c a x l w hf i x' w' :
    multi kd = false -> holds (is_flat fl) x l w hf ->
    unord_call fl kd c (UInsert a) x w = Ok (PosNew i true) x' w' ->
    (tick w + length l <= tick w')%nat.
  Proof.
    intros Hk Hx Hr. destruct Hx as (_ & m & Hm & _). apply is_flat_sized in Hm. unfold sized in Hm.
    assert (forall eager back room list, still room ->
      (forall a s w r s' w', back a s w = Ok r s' w' -> (tick w <= tick w')%nat) ->
      forall s', run_unord (same c) kd eager back room list (UInsert a) x.2 w = Ok (PosNew i true) s' w' ->
      (tick w + length l <= tick w')%nat) as H.
    { clear Hr. intros eager back room list Hroom Hback s' Hr. unfold run_unord in Hr.
      apply run_bind in Hr as (o & s1 & w1 & H1 & Hr). injection H1 as <- <- <-.
      unfold as_ins, as_pair in Hr. rewrite Hk in Hr. apply run_bind in Hr as ([p b] & s1 & w1 & H1 & Hr).
      apply run_bind in Hr as (o & s2 & w2 & H2 & Hr). injection H2 as <- <- <-.
      apply run_bind in Hr as (z & s2 & w2 & H2 & Hr). destruct (still_sub _ _ _ _ _ _ _ H2) as [-> Ht].
      injection Hr as _ -> <- <-. cbn in H1. apply (uinsert_cost _ _ _ _ Hback Hroom) in H1; [lia|done]. }
    unfold unord_call, member in Hr. destruct fl as [N|N].
    - destruct (static_unord_run N kd c (UInsert a) x.2 w) as [r s' w1| |] eqn:H1; try done. injection Hr as -> <- <-.
      apply (H true (static_emplace_back N) (static_room N) (static_list N)) with s'; [apply still_static_room'| |exact H1].
      intros b s0 w0 r s1 w2 H2. apply static_back in H2 as (_ & _ & H2). lia.
    - destruct (small_unord_run N kd x.1 c (UInsert a) x.2 w) as [r s' w1| |] eqn:H1; try done. injection Hr as -> <- <-.
      apply (H (is_map kd) (emplace_back_ (small_storage N x.1)) (ret tt) (fun _ => ret tt) (still_ret tt)
        (fun b s0 w0 r s1 w2 H2 => small_back N x.1 b s0 w0 r s1 w2 H2) _ H1).
  Qed.
End back.

Section construct.
  Context `{KD : Keyed}.
  Variable N : nat.
  Variable kd : fkind.
  Variable c : Cmp.
  Notation each := (fun v => uemplace (same c) kd true (static_emplace_back N) (static_room N) (AVal v)).
  Notation loop := (uemplace_loop (same c) kd true (static_emplace_back N) (static_room N)).

  (** Either the container grows by one, after looking at all its elements, or it
      does not grow. *)
  Lemma uemplace_grows v s w r s' w' :
    multi kd = false -> each v s w = Ok r s' w' ->
    (tick w <= tick w')%nat /\ v_first s' = v_first s /\
    ((v_last s').2 = (v_last s).2 + 1 /\
       Z.of_nat (tick w) + ((v_last s).2 - (v_first s).2) <= Z.of_nat (tick w') \/
     (v_last s').2 = (v_last s).2).
  Proof.
    intros Hk Hr. apply run_bind in Hr as ([] & s1 & w1 & H1 & Hr). destruct (still_static_room' N _ _ _ _ _ H1) as [-> Ht1].
    rewrite Hk in Hr. apply run_bind in Hr as (it1 & s1 & w2 & H2 & Hr). apply static_back in H2 as (-> & -> & Ht2).
    apply run_bind in Hr as (u & s1 & w3 & H3 & Hr). destruct (still_read _ _ _ _ _ _ H3) as [-> Ht3].
    apply run_bind in Hr as (it2 & s1 & w4 & H4 & Hr). destruct (ufind_cost _ _ _ _ _ _ _ H4) as (-> & ? & Ht4). cbn in Ht4.
    destruct (loc_eqb (v_last s) it2) eqn:He.
    - injection Hr as <- <- <-. unfold loc_eqb in He. cbn. split; [lia|]. split; [done|]. left. lia.
    - apply run_bind in Hr as ([] & s1 & w5 & H5 & Hr). injection Hr as <- <- <-.
      unfold pop_back_ in H5. apply run_bind in H5 as (o & s2 & w6 & H6 & H5). injection H6 as <- <- <-.
      apply run_bind in H5 as ([] & s2 & w6 & H6 & H5). destruct (still_assert _ _ _ _ _ _ H6) as [-> Ht6].
      apply run_bind in H5 as ([] & s2 & w7 & H7 & H5). injection H7 as <- <-.
      pose proof (bounded_destroy_at (v_last s +ₗ 1 +ₗ -1) (Vec (v_alloc s) (v_first s) (v_last s +ₗ 1 +ₗ -1) (v_eos s)) w6) as Hd.
      unfold destroy_at in H5, Hd. cbn in H5, Hd.
      destruct (heap w6 !! _) as [[]|]; try done. injection H5 as <- <-. cbn. split; [lia|]. split; [done|]. right. lia.
  Qed.
  Lemma uemplace_loop_cost vs : forall s w s' w',
    multi kd = false -> loop vs s w = Ok tt s' w' ->
    let size (x : vdata) := (v_last x).2 - (v_first x).2 in
    0 <= size s -> size s' = size s + Z.of_nat (length vs) ->
    2 * Z.of_nat (tick w) + Z.of_nat (length vs) * (Z.of_nat (length vs) - 1) <= 2 * Z.of_nat (tick w').
  Proof.
    intros s w s' w' Hk Hr size H0.
    enough (forall s w s' w', loop vs s w = Ok tt s' w' ->
      size s' <= size s + Z.of_nat (length vs) /\
      (0 <= size s -> size s' = size s + Z.of_nat (length vs) ->
       2 * Z.of_nat (tick w) + Z.of_nat (length vs) * (2 * size s + Z.of_nat (length vs) - 1) <= 2 * Z.of_nat (tick w'))) as H.
    { intros Hs. destruct (H _ _ _ _ Hr) as [_ H2]. specialize (H2 H0 Hs). nia. }
    clear s w s' w' Hr H0. induction vs as [|v vs IH]; intros s w s' w' Hr.
    { injection Hr as <- <-. cbn. lia. }
    cbn [uemplace_loop] in Hr. apply run_bind in Hr as (r & s1 & w1 & H1 & Hr).
    destruct (uemplace_grows _ _ _ _ _ _ Hk H1) as (Ht & Hf & Hg). destruct (IH _ _ _ _ Hr) as [I1 I2]. clear IH.
    unfold size in *. cbn [length]. rewrite Hf in I1, I2. split; [lia|]. intros H0 Hs.
    destruct Hg as [[Hg1 Hg2]|Hg]; [|lia]. specialize (I2 ltac:(lia) ltac:(lia)). nia.
  Qed.
  (** A container of elements with distinct keys holds all of them. *)
  Lemma uinserted_all_new vs : forall l l',
    (forall x y, x ∈ l -> y ∈ vs -> same c (key x) (key y) = false) -> distinct c vs ->
    uinserted_all kd c vs l l' -> length l' = (length l + length vs)%nat.
  Proof.
    induction vs as [|v vs IH]; intros l l' Hd Hv.
    { intros ->. cbn. lia. }
    intros (i & b & l1 & H1 & H2). apply IH in H2.
    - destruct H1 as [(_ & _ & H1 & ->)|(_ & _ & _ & ->)]; [|rewrite H2 app_length; cbn; lia].
      exfalso. destruct H1 as (u & Hu & Hs & _). unfold UnordSpec.has in Hs. rewrite (Hd u v) in Hs; [done|by eapply elem_of_list_lookup_2|left].
    - intros x y Hx Hy. destruct H1 as [(_ & _ & _ & ->)|(_ & _ & _ & ->)]; [apply Hd; [done|by right]|].
      apply elem_of_app in Hx as [Hx|Hx%elem_of_list_singleton]; [apply Hd; [done|by right]|]. subst x.
      apply elem_of_list_lookup in Hy as [j Hj]. by apply (Hv 0%nat (S j)).
    - intros a b' x y Hab Hx Hy. by apply (Hv (S a) (S b')); [lia|..].
  Qed.
End construct.

Section static.
  Context `{KD : Keyed}.
  Variable N : nat.
  Variable kd : fkind.
  (** The loop of the constructor. *)
  Lemma unew_range_steps c a vs w x u w' :
    unord_new (StaticF N) kd (NewRange c a vs) tt w = Ok x u w' ->
    exists w1, tick w1 = tick w /\
      uemplace_loop (same c) kd true (static_emplace_back N) (static_room N) vs (static_empty N x.1) w1 = Ok tt x.2 w'.
  Proof.
    intros Hr. cbn [unord_new] in Hr. unfold construct_small in Hr. apply run_bind in Hr as (ib & s1 & w1 & H1 & Hr).
    exists w1. assert (tick w1 = tick w) as Ht.
    { unfold buffer in H1. revert H1. repeat case_match; try done; by intros [= <- <- <-]. }
    split; [done|]. unfold try_ in Hr. unfold static_unord_init in Hr.
    destruct (try_ _ _ _ w1) as [r o' w2|e o' w2|] eqn:H2; [|by destruct (drop_buffer _ _ _ _)|done].
    injection Hr as <- <- <-. unfold try_ in H2. cbn.
    destruct (uemplace_loop _ _ _ _ _ _ _ w1) as [[] o1 w3|? o1 w3|] eqn:H3; [|by destruct (static_destructor _ _)|done].
    injection H2 as <- <- <-. done.
  Qed.
  Lemma unord_range_quadratic c a vs w hf x u w' :
    multi kd = false -> equality_ok c -> distinct c vs -> holds0 w hf -> (length vs <= N)%nat ->
    unord_new (StaticF N) kd (NewRange c a vs) tt w = Ok x u w' ->
    (2 * tick w + length vs * (length vs - 1) <= 2 * tick w')%nat.
  Proof.
    intros Hk He Hv Hw Hn Hr.
    assert (length (fc_vals (NewRange c a vs)) <=? N = true)%nat as Hn' by (cbn; lia).
    pose proof (unord_new_ok (StaticF N) kd I (NewRange c a vs) w hf Hw Hn') as H. rewrite Hr in H.
    destruct H as (l & (_ & m & Hm & _) & [_ Hp] & _). specialize (Hp (fun _ _ => proj1 He)). cbn in Hp.
    apply uinserted_all_new in Hp; [|intros ? ? []%elem_of_nil|done]. cbn in Hp. apply is_flat_sized in Hm.
    destruct (unew_range_steps c a vs w x u w' Hr) as (w1 & Ht & Hl).
    apply uemplace_loop_cost in Hl; [|done|cbn; lia|unfold sized in Hm; cbn; lia]. rewrite -Ht.
    destruct (length vs); cbn [Nat.sub]; nia.
  Qed.
  (** The multi containers just append. *)
  Lemma unord_range_linear c a vs w x u w' :
    multi kd = true -> unord_new (StaticF N) kd (NewRange c a vs) tt w = Ok x u w' ->
    (tick w' <= tick w + length vs)%nat.
  Proof.
    intros Hk Hr. destruct (unew_range_steps c a vs w x u w' Hr) as (w1 & <- & Hl). clear Hr.
    revert Hl. generalize (static_empty N x.1) as s, x.2 as s'. intros s s'. revert w1 s.
    induction vs as [|v vs IH]; intros w1 s Hl.
    { injection Hl as <- <-. cbn. lia. }
    cbn [uemplace_loop] in Hl. apply run_bind in Hl as (r & s1 & w2 & H1 & Hl). apply IH in Hl. cbn [length].
    apply run_bind in H1 as ([] & s2 & w3 & H2 & H1). pose proof (bounded_static_room N s w1) as Hb. rewrite H2 in Hb.
    rewrite Hk in H1. apply run_bind in H1 as (p & s3 & w4 & H3 & H1). injection H1 as <- <- <-.
    apply static_back in H3 as (_ & _ & H3). lia.
  Qed.
  Lemma unord_append_cost c a x w r x' w' :
    multi kd = true -> unord_call (StaticF N) kd c (UInsert a) x w = Ok r x' w' -> (tick w' <= S (tick w))%nat.
  Proof.
    intros Hk Hr. unfold unord_call, member in Hr.
    destruct (static_unord_run N kd c (UInsert a) x.2 w) as [r1 s' w1| |] eqn:H1; try done. injection Hr as -> <- <-.
    unfold static_unord_run, run_unord in H1. apply run_bind in H1 as (o & s1 & w2 & H2 & Hr). injection H2 as <- <- <-.
    unfold as_ins, as_pos in Hr. rewrite Hk in Hr.
    apply run_bind in Hr as (y & s0 & w9 & Hr1 & Hr). injection Hr as _ <- <-. rename Hr1 into Hr.
    apply run_bind in Hr as (q & s1 & w2 & H2 & Hr). apply run_bind in Hr as (o & s2 & w3 & H3 & Hr). injection H3 as <- <- <-.
    apply run_bind in Hr as (z & s2 & w3 & H3 & Hr). injection Hr as <- <- <-.
    pose proof (bounded_ptr_sub q (v_first s1) s1 w2) as Hb. rewrite H3 in Hb.
    apply run_bind in H2 as (q' & s4 & w4 & H4 & H2). injection H2 as <- <- <-.
    apply run_bind in H4 as ([] & s5 & w5 & H5 & H4). pose proof (bounded_static_room N x.2 w) as Hb2. rewrite H5 in Hb2.
    rewrite Hk in H4. apply run_bind in H4 as (p & s3 & w6 & H6 & H4). injection H4 as <- <- <-.
    apply static_back in H6 as (_ & _ & H6). lia.
  Qed.
  Lemma unord_range_returns c a vs :
    (forall k t, may_throw k t = false) -> (length vs <= N)%nat ->
    exists x w', unord_new (StaticF N) kd (NewRange c a vs) tt w0 = Ok x tt w'.
  Proof.
    intros Hq Hn. pose proof (static_ubuild_ok N kd (NewRange c a vs) Hn) as Hwp.
    pose proof (wp_run _ _ _ _ ∅ ∅ w0 (wp_entails emp%I _ _ _ _ ∅ Hwp eq_refl) w0_wf (map_disjoint_empty_l _) (eq_sym (left_id_L ∅ (∪) ∅))) as Hrun.
    cbn [unord_new]. destruct (construct_small _ _ _ tt w0) as [x [] w'|e [] w'|]; [by do 2 eexists| |done].
    destruct Hrun as (h & _ & _ & (_ & Hc) & _ & ->). destruct Hc as (k & t & _ & Ht & _).
    rewrite Hq in Ht. done.
  Qed.
End static.
