(** * Cost of insertion and erasure in vector, small_vector and static_vector *)

From iris.proofmode Require Import tactics.
From Verif Require Export EraseCost InsertSpec.
From Coq Require Import Lia ZifyBool.
Open Scope Z_scope.

Section inplace.
  Context `{E : Env}.
  Notation cost w w' := (Z.of_nat (tick w') - Z.of_nat (tick w)).

  Lemma takes_fill {St} p q a : takes (Algo.fill p q a : M St unit) (q.2 - p.2) (q.2 - p.2).
  Proof.
    apply takes_range. intros _ Hle. eapply takes_mono; [apply (takes_bind _ _ (q.2 - p.2) (q.2 - p.2) 0 0)|..];
      [|intros; apply takes_ret|lia..].
    eapply takes_mono; [apply takes_assign_loop|rewrite replicate_length; lia..].
  Qed.
  Lemma takes_uninit_fill {St} p q a : takes (uninitialized_fill_a p q a : M St unit) (q.2 - p.2) (q.2 - p.2).
  Proof.
    apply takes_range. intros _ Hle. eapply takes_mono; [apply (takes_bind _ _ (q.2 - p.2) (q.2 - p.2) 0 0)|..];
      [|intros; apply takes_ret|lia..].
    eapply takes_mono; [apply takes_uninit_loop|rewrite replicate_length; lia..].
  Qed.

  Lemma emplace_inplace_run pos a s w r s' w' : emplace_inplace pos a s w = Ok r s' w' ->
    r = pos /\ s' = with_last (v_last s +ₗ 1) s /\
    cost w w' = (if pos.2 =? (v_last s).2 then 1 else (v_last s).2 - pos.2 + 2) /\
    (v_first s).2 <= pos.2 <= (v_last s).2.
  Proof.
    intros Hr. apply run_bind in Hr as (o & s1 & w1 & H1 & Hr). injection H1 as <- <- <-.
    apply run_bind in Hr as (k & s1 & w1 & H1 & Hr). destruct (offset_value _ _ _ _ _ _ H1) as (-> & -> & Hk & Hb & Hk2 & Hl).
    replace (v_first s +ₗ k) with pos in Hr
      by (destruct pos, (v_first s); unfold loc_add; cbn in *; f_equal; lia).
    cbv zeta in Hr. destruct (loc_eqb pos (v_last s)) eqn:He.
    - apply run_bind in Hr as (u1 & s1 & w1 & H2 & Hr). destruct (still_construct _ _ _ _ _ _ _ H2) as [-> _]. apply takes_construct in H2.
      apply run_bind in Hr as (u2 & s2 & w2 & H3 & Hr). injection H3 as <- <- <-. injection Hr as <- <- <-.
      split; [done|]. split; [done|]. unfold loc_eqb in He. destruct (pos.2 =? _) eqn:?; lia.
    - apply run_bind in Hr as (tmp & s1 & w1 & H2 & Hr). destruct (still_make _ _ _ _ _ _ H2) as [-> _]. apply takes_make in H2.
      apply run_bind in Hr as (u1 & s1 & w2 & H3 & Hr). destruct (still_construct _ _ _ _ _ _ _ H3) as [-> _]. apply takes_construct in H3.
      apply run_bind in Hr as (u2 & s2 & w3 & H4 & Hr). injection H4 as <- <- <-.
      apply run_bind in Hr as (u3 & s3 & w4 & H5 & Hr). destruct (still_move_backward _ _ _ _ _ _ _ _ H5) as [-> _]. apply takes_move_backward in H5.
      apply run_bind in Hr as (u4 & s4 & w5 & H6 & Hr). destruct (still_assign _ _ _ _ _ _ _ H6) as [-> _]. apply takes_assign in H6.
      injection Hr as <- <- <-. split; [done|]. split; [done|].
      unfold loc_eqb in He. unfold loc_add in *. cbn in *. destruct (pos.2 =? _) eqn:?; lia.
  Qed.
  Lemma fill_inplace_cost pos n a s w r s' w' : insert_fill_inplace pos n a s w = Ok r s' w' ->
    cost w w' = 1 + n + ((v_last s).2 - pos.2).
  Proof.
    intros Hr. apply run_bind in Hr as (o & s1 & w1 & H1 & Hr). injection H1 as <- <- <-.
    apply run_bind in Hr as (tmp & s1 & w1 & H2 & Hr). destruct (still_make _ _ _ _ _ _ H2) as [-> _]. apply takes_make in H2.
    apply run_bind in Hr as (k & s1 & w2 & H1 & Hr). destruct (offset_value _ _ _ _ _ _ H1) as (-> & -> & Hk & Hb & Hk2 & Hl).
    apply run_bind in Hr as (d & s1 & w2 & H3 & Hr). unfold ptr_sub in H3. destruct (_ =? _) in H3; [|done]. injection H3 as <- <- <-.
    destruct (0 <=? _) eqn:Hd.
    - apply run_bind in Hr as (nl & s1 & w2 & H3 & Hr). apply takes_uninit_move in H3.
      apply run_bind in Hr as ([] & s2 & w3 & H4 & Hr). injection H4 as <- <-.
      apply run_bind in Hr as (u & s3 & w3 & H5 & Hr). apply takes_move_backward in H5.
      apply run_bind in Hr as ([] & s4 & w4 & H6 & Hr). apply takes_fill in H6. injection Hr as <- <- <-.
      unfold loc_add in *. cbn in *. lia.
    - apply run_bind in Hr as ([] & s1 & w2 & H3 & Hr). apply takes_uninit_fill in H3.
      apply run_bind in Hr as ([] & s2 & w3 & H4 & Hr). injection H4 as <- <-.
      apply run_bind in Hr as (u & s3 & w3 & H5 & Hr). apply takes_uninit_move in H5.
      apply run_bind in Hr as ([] & s4 & w4 & H6 & Hr). injection H6 as <- <-.
      apply run_bind in Hr as ([] & s5 & w4 & H6 & Hr). apply takes_fill in H6. injection Hr as <- <- <-.
      unfold loc_add in *. cbn in *. lia.
  Qed.
  Lemma range_inplace_cost pos srcs s w r s' w' : insert_range_inplace pos srcs s w = Ok r s' w' ->
    cost w w' = Z.of_nat (length srcs) + ((v_last s).2 - pos.2).
  Proof.
    intros Hr. apply run_bind in Hr as (o & s1 & w1 & H1 & Hr). injection H1 as <- <- <-.
    apply run_bind in Hr as (k & s1 & w2 & H1 & Hr). destruct (offset_value _ _ _ _ _ _ H1) as (-> & -> & Hk & Hb & Hk2 & Hl).
    apply run_bind in Hr as (d & s1 & w2 & H3 & Hr). unfold ptr_sub in H3. destruct (_ =? _) in H3; [|done]. injection H3 as <- <- <-.
    destruct (0 <=? _) eqn:Hd.
    - apply run_bind in Hr as (nl & s1 & w2 & H3 & Hr). apply takes_uninit_move in H3.
      apply run_bind in Hr as ([] & s2 & w3 & H4 & Hr). injection H4 as <- <-.
      apply run_bind in Hr as (u & s3 & w3 & H5 & Hr). apply takes_move_backward in H5.
      apply run_bind in Hr as (q & s4 & w4 & H6 & Hr). apply takes_assign_loop in H6. injection Hr as <- <- <-.
      unfold loc_add in *. cbn in *. lia.
    - apply run_bind in Hr as (d & s1 & w2 & H3 & Hr). unfold ptr_sub in H3. destruct (_ =? _) in H3; [|done]. injection H3 as <- <- <-.
      apply run_bind in Hr as (nl & s1 & w2 & H3 & Hr). apply takes_uninit_loop in H3. rewrite drop_length in H3.
      apply run_bind in Hr as ([] & s2 & w3 & H4 & Hr). injection H4 as <- <-.
      apply run_bind in Hr as (u & s3 & w3 & H5 & Hr). apply takes_uninit_move in H5.
      apply run_bind in Hr as ([] & s4 & w4 & H6 & Hr). injection H6 as <- <-.
      apply run_bind in Hr as (q & s5 & w4 & H6 & Hr). apply takes_assign_loop in H6. rewrite take_length in H6. injection Hr as <- <- <-.
      unfold loc_add in *. cbn in *. lia.
  Qed.
  (** erase(pos) and erase(first, last) *)
  Lemma erase_range_cost p q s w r s' w' : erase_range_ p q s w = Ok r s' w' ->
    cost w w' = if p.2 =? q.2 then 0 else (v_last s).2 - q.2.
  Proof.
    intros Hr. apply run_bind in Hr as (o & s1 & w1 & H1 & Hr). injection H1 as <- <- <-.
    apply run_bind in Hr as (k1 & s1 & w1 & H1 & Hr). destruct (offset_value _ _ _ _ _ _ H1) as (-> & -> & Hk1 & Hb1 & _).
    apply run_bind in Hr as (k2 & s1 & w1 & H2 & Hr). destruct (offset_value _ _ _ _ _ _ H2) as (-> & -> & Hk & Hb & _).
    apply run_bind in Hr as ([] & s1 & w1 & H3 & Hr). destruct (_ <=? _) in H3; [|done]. injection H3 as <- <-.
    destruct (loc_eqb _ _) eqn:He; unfold loc_eqb in He.
    { injection Hr as <- <- <-. destruct (p.2 =? q.2) eqn:?; lia. }
    apply run_bind in Hr as (nl & s1 & w1 & H3 & Hr). apply takes_move in H3.
    apply run_bind in Hr as (u & s2 & w2 & H4 & Hr). apply takes_destroy in H4.
    apply run_bind in Hr as ([] & s3 & w3 & H5 & Hr). injection H5 as <- <-. injection Hr as <- <- <-.
    unfold loc_add in *. cbn in *. destruct (p.2 =? q.2) eqn:?; lia.
  Qed.

  (** Input iterators: [put] inserts one element in place. *)
  Section put.
    Variable put : loc -> arg -> M vdata loc.
    Fixpoint put_loop (pos : loc) (srcs : list arg) : M vdata unit :=
      match srcs with
      | [] => ret tt
      | a :: srcs' => p <- put pos a;; put_loop (p +ₗ 1) srcs'
      end%prog.
  End put.
  Definition input_cost (n dist : Z) : Z := if dist =? 0 then n else n * (dist + 2).
  Lemma put_loop_cost put srcs : forall pos s w u s' w',
    (forall pos a s w r s' w', (v_last s).2 < (v_eos s).2 -> put pos a s w = Ok r s' w' -> emplace_inplace pos a s w = Ok r s' w') ->
    (v_last s).2 + Z.of_nat (length srcs) <= (v_eos s).2 ->
    put_loop put pos srcs s w = Ok u s' w' ->
    cost w w' = input_cost (Z.of_nat (length srcs)) ((v_last s).2 - pos.2).
  Proof.
    unfold input_cost. induction srcs as [|a srcs IH]; intros pos s w u s' w' Hput Hroom Hr; cbn [put_loop length] in *.
    { injection Hr as <- <- <-. destruct (_ =? _); lia. }
    apply run_bind in Hr as (p & s1 & w1 & H1 & Hr). apply Hput in H1; [|lia].
    apply emplace_inplace_run in H1 as (-> & -> & Hc & _).
    apply IH in Hr; [|done|cbn; lia]. unfold loc_add in Hr. cbn in Hr.
    replace ((v_last s).2 + 1 - (pos.2 + 1)) with ((v_last s).2 - pos.2) in Hr by lia.
    destruct (pos.2 =? _) eqn:H1; destruct (_ - _ =? 0) eqn:H2; lia.
  Qed.
End inplace.

(** ** The member functions *)
Section functions.
  Context `{E : Env}.
  Notation cost w w' := (Z.of_nat (tick w') - Z.of_nat (tick w)).
  Notation size s := ((v_last s).2 - (v_first s).2).

  Lemma as_idx_run m s w r s' w' : as_idx m s w = Ok r s' w' -> exists p w1, m s w = Ok p s' w1 /\ tick w' = tick w1.
  Proof.
    intros Hr. apply run_bind in Hr as (p & s1 & w1 & H1 & Hr). apply run_bind in Hr as (o & s2 & w2 & H2 & Hr). injection H2 as <- <- <-.
    apply run_bind in Hr as (k & s2 & w2 & H2 & Hr). unfold ptr_sub in H2. destruct (_ =? _) in H2; [|done]. injection H2 as <- <- <-.
    injection Hr as <- <- <-. by exists p, w1.
  Qed.
  Lemma back_inplace_run a s w r s' w' : emplace_back_inplace a s w = Ok r s' w' ->
    tick w' = S (tick w).
  Proof.
    intros Hr. apply run_bind in Hr as (o & s1 & w1 & H1 & Hr). injection H1 as <- <- <-.
    apply run_bind in Hr as (u1 & s1 & w1 & H2 & Hr). apply takes_construct in H2.
    apply run_bind in Hr as (u2 & s2 & w2 & H3 & Hr). injection H3 as <- <- <-. injection Hr as <- <- <-. lia.
  Qed.
  Lemma pop_back_tick s w u s' w' : pop_back_ s w = Ok u s' w' -> tick w' = tick w.
  Proof.
    intros Hr. apply run_bind in Hr as (o & s1 & w1 & H1 & Hr). injection H1 as <- <- <-.
    apply run_bind in Hr as ([] & s1 & w1 & H2 & Hr). destruct (negb _) in H2; [|done]. injection H2 as <- <-.
    apply run_bind in Hr as ([] & s1 & w1 & H2 & Hr). injection H2 as <- <-.
    pose proof (bounded_destroy_at (v_last s +ₗ -1) (with_last (v_last s +ₗ -1) s) w) as H. rewrite Hr in H. lia.
  Qed.
  Lemma clear_tick s w u s' w' : clear_ s w = Ok u s' w' -> tick w' = tick w.
  Proof.
    intros Hr. apply run_bind in Hr as (o & s1 & w1 & H1 & Hr). injection H1 as <- <- <-.
    apply run_bind in Hr as ([] & s1 & w1 & H2 & Hr). apply takes_destroy in H2. injection Hr as <- <- <-. lia.
  Qed.
  Lemma erase_range_ends p q s w r s' w' : erase_range_ p q s w = Ok r s' w' ->
    (v_first s).2 <= p.2 <= q.2 /\ q.2 <= (v_last s).2.
  Proof.
    intros Hr. apply run_bind in Hr as (o & s1 & w1 & H1 & Hr). injection H1 as <- <- <-.
    apply run_bind in Hr as (k1 & s1 & w1 & H1 & Hr). destruct (offset_value _ _ _ _ _ _ H1) as (-> & -> & Hk1 & _ & Hb1 & _).
    apply run_bind in Hr as (k2 & s1 & w1 & H2 & Hr). destruct (offset_value _ _ _ _ _ _ H2) as (-> & -> & Hk & _ & Hb & _).
    apply run_bind in Hr as ([] & s1 & w1 & H3 & Hr). destruct (_ <=? _) eqn:He in H3; [|done]. lia.
  Qed.

  Section storage.
    Variable st : storage.
    Hypothesis Hnc : forall n, bounded (new_capacity st n) 0.
    Hypothesis Hac : forall n, bounded (acquire st n) 1.
    Hypothesis Hrs : forall f l e, bounded (replace_storage st f l e) 0.
    Variable sp : special.

    Lemma emplace_room pos a s w r s' w' : (v_last s).2 < (v_eos s).2 ->
      emplace_ st pos a s w = Ok r s' w' -> emplace_inplace pos a s w = Ok r s' w'.
    Proof using.
      intros Hlt Hr. apply run_bind in Hr as (o & s1 & w1 & H1 & Hr). injection H1 as <- <- <-.
      apply run_bind in Hr as (k & s1 & w1 & H1 & Hr). destruct (offset_value _ _ _ _ _ _ H1) as (-> & -> & _).
      replace (loc_eqb (v_last s) (v_eos s)) with false in Hr by (unfold loc_eqb; lia). done.
    Qed.
    Lemma room_steps o s w r s' w' n c : steps o n = Some c ->
      size s = Z.of_nat n -> (v_last s).2 + Z.of_nat (grows o) <= (v_eos s).2 ->
      run_vop st sp o s w = Ok r s' w' -> tick w' = (tick w + c)%nat.
    Proof using.
      intros Hc Hn Hroom Hr. apply run_bind in Hr as (o' & s1 & w1 & H1 & Hr). injection H1 as <- <- <-.
      destruct o; try done; cbn [grows] in Hroom; cbn [steps] in Hc; injection Hc as <-.
      - apply as_idx_run in Hr as (p & w1 & Hr & ->). apply emplace_room in Hr; [|lia].
        apply emplace_inplace_run in Hr as (_ & _ & Hr & Hi). unfold loc_add in *. cbn in *.
        destruct (Nat.eqb i n) eqn:He; destruct (_ =? _) eqn:He2; lia.
      - apply as_idx_run in Hr as (p & w1 & Hr & ->). apply run_bind in Hr as (o & s1 & w2 & H1 & Hr). injection H1 as <- <- <-.
        replace (loc_eqb (v_last s) (v_eos s)) with false in Hr by (unfold loc_eqb; lia). cbn [negb] in Hr.
        apply back_inplace_run in Hr. lia.
      - apply as_idx_run in Hr as (p & w1 & Hr & ->). apply run_bind in Hr as (o & s1 & w2 & H1 & Hr). injection H1 as <- <- <-.
        apply run_bind in Hr as (k & s1 & w2 & H1 & Hr). destruct (offset_value _ _ _ _ _ _ H1) as (-> & -> & Hk & _ & Hk2 & _).
        destruct (_ =? 0) eqn:H0. { injection Hr as <- <- <-. destruct (Nat.eqb n0 0) eqn:?; lia. }
        apply run_bind in Hr as (av & s1 & w2 & H2 & Hr). apply run_bind in H2 as (o & s2 & w3 & H3 & H2). injection H3 as <- <- <-.
        unfold ptr_sub in H2. destruct (_ =? _) in H2; [|done]. injection H2 as <- <- <-.
        destruct (_ <=? _) eqn:Hav in Hr; [|lia]. apply fill_inplace_cost in Hr. unfold loc_add in *. cbn in *.
        destruct (Nat.eqb n0 0) eqn:?; lia.
      - apply as_idx_run in Hr as (p & w1 & Hr & ->). apply run_bind in Hr as (o & s1 & w2 & H1 & Hr). injection H1 as <- <- <-.
        apply run_bind in Hr as (k & s1 & w2 & H1 & Hr). destruct (offset_value _ _ _ _ _ _ H1) as (-> & -> & Hk & _ & Hk2 & _).
        rewrite fmap_length in Hr.
        destruct (Nat.eqb _ _) eqn:H0. { injection Hr as <- <- <-. lia. }
        apply run_bind in Hr as (av & s1 & w2 & H2 & Hr). apply run_bind in H2 as (o & s2 & w3 & H3 & H2). injection H3 as <- <- <-.
        unfold ptr_sub in H2. destruct (_ =? _) in H2; [|done]. injection H2 as <- <- <-.
        destruct (_ <=? _) eqn:Hav in Hr; [|lia]. apply range_inplace_cost in Hr. rewrite fmap_length in Hr. unfold loc_add in *. cbn in *. lia.
      - apply as_idx_run in Hr as (p & w1 & Hr & ->).
        apply run_bind in Hr as (k & s1 & w2 & H1 & Hr). destruct (offset_value _ _ _ _ _ _ H1) as (-> & -> & Hk & _ & Hk2 & _).
        apply run_bind in Hr as (u & s1 & w2 & H2 & Hr). apply run_bind in Hr as (o & s2 & w3 & H3 & Hr). injection H3 as <- <- <-.
        injection Hr as <- <- <-.
        change (insert_input_loop st) with (put_loop (emplace_ st)) in H2.
        apply put_loop_cost in H2; [|apply emplace_room|rewrite fmap_length; lia].
        rewrite fmap_length in H2. unfold input_cost, loc_add in *. cbn in *.
        destruct (Nat.eqb i n) eqn:He; destruct (_ =? _) eqn:He2; lia.
      - apply run_bind in Hr as ([] & s1 & w1 & H1 & Hr). injection Hr as <- <- <-. apply pop_back_tick in H1. lia.
      - apply as_idx_run in Hr as (p & w1 & Hr & ->). apply erase_cost in Hr as (_ & _ & _ & Hlt & Hr). unfold loc_add in *. cbn in *. lia.
      - apply as_idx_run in Hr as (p & w1 & Hr & ->). pose proof (erase_range_ends _ _ _ _ _ _ _ Hr) as He. apply erase_range_cost in Hr.
        unfold loc_add in *. cbn in *. destruct (Nat.eqb i j) eqn:?; destruct (_ =? _) eqn:?; lia.
      - apply run_bind in Hr as ([] & s1 & w1 & H1 & Hr). injection Hr as <- <- <-. apply clear_tick in H1. lia.
    Qed.

    (** With or without reallocation. *)
    Lemma takes_upto {St A} (m : M St A) c : bounded m c -> takes m 0 (Z.of_nat c).
    Proof using. intros Hm s w r s' w' Hr. specialize (Hm s w). rewrite Hr in Hm. lia. Qed.
    Lemma takes_uninit_mine {St} p q d : takes (uninitialized_move_if_noexcept_a p q d : M St loc) (q.2 - p.2) (q.2 - p.2).
    Proof using.
      intros s w r s' w'. unfold uninitialized_move_if_noexcept_a, range, bind, range_len, ret.
      destruct (_ =? _); [|done]. destruct (_ <=? _) eqn:Hle; [|done]. intros Hr.
      pose proof (takes_uninit_loop _ _ _ _ _ _ _ _ Hr) as H. rewrite refs_length in H. lia.
    Qed.
    Lemma realloc_insert_cost off n nc mk undo c s w r s' w' :
      (forall p, takes (mk p) c c) -> realloc_insert st off n nc mk undo s w = Ok r s' w' ->
      c + size s <= cost w w' <= c + size s + 1.
    Proof using Hac Hrs.
      intros Hmk Hr. apply run_bind in Hr as (o & s1 & w1 & H1 & Hr). injection H1 as <- <- <-.
      apply run_bind in Hr as ([nf ne] & s1 & w1 & H1 & Hr). apply (takes_upto _ _ (Hac _)) in H1.
      apply run_bind in Hr as (nl & s2 & w2 & H2 & Hr).
      apply run_bind in Hr as (u & s3 & w3 & H3 & Hr). apply (takes_upto _ _ (Hrs _ _ _)) in H3. injection Hr as <- <- <-.
      assert (c + size s <= cost w1 w2 <= c + size s) as H; [|lia].
      cut (takes_at (local_ (L := loc) nf
        (try_ (mk (nf +ₗ off);; setl_ null;;
               nl <- uninitialized_move_if_noexcept_a (v_first s) (v_first s +ₗ off) nf;;
               setl_ nl;; setl_ (nl +ₗ n);;
               nl2 <- uninitialized_move_if_noexcept_a (v_first s +ₗ off) (v_last s) (nl +ₗ n);;
               setl_ nl2)
              (nl <- getl_;;
               (if loc_eqb nl null then undo (nf +ₗ off) else destroy_a nf nl);;
               lift_ (release st nf nc));;
         getl_)%prog) s1 (c + size s) (c + size s)).
      { intros H. apply H in H2. lia. }
      apply at_takes, takes_local.
      apply (takes_mono _ (c + size s + 0) (c + size s + 0)); [|lia..]. apply takes_bind; [|intros; apply takes_bounded, bounded_getl].
      apply takes_try. apply takes_bind; [apply Hmk|]. intros _. apply takes_bind0; [apply takes_bounded, bounded_setl|]. intros _.
      apply (takes_mono _ ((v_first s +ₗ off).2 - (v_first s).2 + ((v_last s).2 - (v_first s +ₗ off).2))
                          ((v_first s +ₗ off).2 - (v_first s).2 + ((v_last s).2 - (v_first s +ₗ off).2))); [|lia..].
      apply takes_bind; [apply takes_uninit_mine|]. intros q.
      do 2 (apply takes_bind0; [apply takes_bounded, bounded_setl|]; intros _).
      apply (takes_mono _ ((v_last s).2 - (v_first s +ₗ off).2 + 0) ((v_last s).2 - (v_first s +ₗ off).2 + 0)); [|lia..].
      apply takes_bind; [apply takes_uninit_mine|]. intros q2. apply takes_bounded, bounded_setl.
    Qed.
    Lemma realloc_append_cost n nc mk undo c s w r s' w' :
      (forall p, takes (mk p) c c) -> realloc_append st n nc mk undo s w = Ok r s' w' ->
      c + size s <= cost w w' <= c + size s + 1.
    Proof using Hac Hrs.
      intros Hmk Hr. apply run_bind in Hr as (o & s1 & w1 & H1 & Hr). injection H1 as <- <- <-.
      apply run_bind in Hr as (sz & s1 & w1 & H1 & Hr). apply (takes_bounded _ bounded_size) in H1.
      apply run_bind in Hr as ([nf ne] & s2 & w2 & H2 & Hr). apply (takes_upto _ _ (Hac _)) in H2.
      apply run_bind in Hr as (nl & s3 & w3 & H3 & Hr).
      apply run_bind in Hr as (u & s4 & w4 & H4 & Hr). apply (takes_upto _ _ (Hrs _ _ _)) in H4. injection Hr as <- <- <-.
      assert (c + size s <= cost w2 w3 <= c + size s) as H; [|lia].
      cut (takes_at (local_ (L := loc) nf
        (try_ (mk (nf +ₗ sz);; setl_ null;;
               nl <- uninitialized_move_if_noexcept_a (v_first s) (v_last s) nf;;
               setl_ nl;; setl_ (nl +ₗ n))
              (nl <- getl_;;
               (if loc_eqb nl null then undo (nf +ₗ sz) else destroy_a nf nl);;
               lift_ (release st nf nc));;
         getl_)%prog) s2 (c + size s) (c + size s)).
      { intros H. apply H in H3. lia. }
      apply at_takes, takes_local.
      apply (takes_mono _ (c + size s + 0) (c + size s + 0)); [|lia..]. apply takes_bind; [|intros; apply takes_bounded, bounded_getl].
      apply takes_try. apply takes_bind; [apply Hmk|]. intros _. apply takes_bind0; [apply takes_bounded, bounded_setl|]. intros _.
      apply (takes_mono _ (size s + 0) (size s + 0)); [|lia..].
      apply takes_bind; [apply takes_uninit_mine|]. intros q.
      apply takes_bind0; [apply takes_bounded, bounded_setl|]; intros _. apply takes_bounded, bounded_setl.
    Qed.
    Lemma realloc_range_cost k srcs s w r s' w' : insert_range_realloc st k srcs s w = Ok r s' w' ->
      Z.of_nat (length srcs) + size s <= cost w w' <= Z.of_nat (length srcs) + size s + 1.
    Proof using Hnc Hac Hrs.
      intros Hr. apply run_bind in Hr as (o & s1 & w1 & H1 & Hr). injection H1 as <- <- <-.
      apply run_bind in Hr as (nc & s1 & w1 & H1 & Hr). apply (takes_bounded _ (Hnc _)) in H1.
      apply run_bind in Hr as ([nf ne] & s2 & w2 & H2 & Hr). apply (takes_upto _ _ (Hac _)) in H2.
      apply run_bind in Hr as (nl & s3 & w3 & H3 & Hr).
      apply run_bind in Hr as (u & s4 & w4 & H4 & Hr). apply (takes_upto _ _ (Hrs _ _ _)) in H4. injection Hr as <- <- <-.
      set (c := Z.of_nat (length srcs)) in *.
      assert (c + size s <= cost w2 w3 <= c + size s) as H; [|lia].
      cut (takes_at (local_ (L := loc) nf
        (try_ (nl <- uninitialized_move_if_noexcept_a (v_first s) (v_first s +ₗ k) nf;;
               setl_ nl;;
               nl2 <- uninitialized_copy_a srcs nl;;
               setl_ nl2;;
               nl3 <- uninitialized_move_if_noexcept_a (v_first s +ₗ k) (v_last s) nl2;;
               setl_ nl3)
              (nl <- getl_;; destroy_a nf nl;; lift_ (release st nf nc));;
         getl_)%prog) s2 (c + size s) (c + size s)).
      { intros H. apply H in H3. lia. }
      apply at_takes, takes_local.
      apply (takes_mono _ (c + size s + 0) (c + size s + 0)); [|lia..]. apply takes_bind; [|intros; apply takes_bounded, bounded_getl].
      apply takes_try.
      set (h1 := (v_first s +ₗ k).2 - (v_first s).2). set (h2 := (v_last s).2 - (v_first s +ₗ k).2).
      apply (takes_mono _ (h1 + (c + (h2 + 0))) (h1 + (c + (h2 + 0)))); [|unfold h1, h2; lia..].
      apply takes_bind; [apply takes_uninit_mine|]. intros q. apply takes_bind0; [apply takes_bounded, bounded_setl|]; intros _.
      apply takes_bind; [apply takes_uninit_loop|]. intros q2. apply takes_bind0; [apply takes_bounded, bounded_setl|]; intros _.
      apply takes_bind; [apply takes_uninit_mine|]. intros q3. apply takes_bounded, bounded_setl.
    Qed.
    Lemma any_steps o s w r s' w' n c : steps o n = Some c -> input_op o = false ->
      size s = Z.of_nat n -> (v_last s).2 <= (v_eos s).2 -> run_vop st sp o s w = Ok r s' w' -> (tick w <= tick w' <= tick w + n + grows o + 1)%nat.
    Proof using Hnc Hac Hrs.
      intros Hc Hi Hn Hle Hr. destruct (decide ((v_last s).2 + Z.of_nat (grows o) <= (v_eos s).2)) as [Hroom|Hroom].
      { pose proof (room_steps _ _ _ _ _ _ _ _ Hc Hn Hroom Hr) as ->.
        assert (c <= n + grows o + 1)%nat; [|lia].
        destruct o; try done; cbn [steps] in Hc; injection Hc as <-; cbn [grows];
          repeat match goal with |- context [Nat.eqb ?a ?b] => destruct (Nat.eqb a b) eqn:? end; lia. }
      apply run_bind in Hr as (o' & s1 & w1 & H1 & Hr). injection H1 as <- <- <-.
      destruct o; try done; cbn [grows] in *.
      - apply as_idx_run in Hr as (p & w1 & Hr & ->). apply run_bind in Hr as (o & s1 & w2 & H1 & Hr). injection H1 as <- <- <-.
        apply run_bind in Hr as (k & s1 & w2 & H1 & Hr). destruct (offset_value _ _ _ _ _ _ H1) as (-> & -> & Hk & _ & Hk2 & _).
        destruct (negb _). { apply emplace_inplace_run in Hr as (_ & _ & Hr & Hb). unfold loc_add in *. cbn in *. destruct (_ =? _); lia. }
        apply run_bind in Hr as (nc & s1 & w2 & H2 & Hr). destruct (still_new_capacity _ _ _ _ _ _ _ H2) as [-> _].
        apply (takes_bounded _ (Hnc _)) in H2. apply (realloc_insert_cost _ _ _ _ _ 1) in Hr; [lia|].
        intros q. apply takes_construct.
      - apply as_idx_run in Hr as (p & w1 & Hr & ->). apply run_bind in Hr as (o & s1 & w2 & H1 & Hr). injection H1 as <- <- <-.
        destruct (negb _). { apply back_inplace_run in Hr. lia. }
        apply run_bind in Hr as (nc & s1 & w2 & H2 & Hr). destruct (still_new_capacity _ _ _ _ _ _ _ H2) as [-> _].
        apply (takes_bounded _ (Hnc _)) in H2. apply (realloc_append_cost _ _ _ _ 1) in Hr; [lia|].
        intros q. apply takes_construct.
      - apply as_idx_run in Hr as (p & w1 & Hr & ->). apply run_bind in Hr as (o & s1 & w2 & H1 & Hr). injection H1 as <- <- <-.
        apply run_bind in Hr as (k & s1 & w2 & H1 & Hr). destruct (offset_value _ _ _ _ _ _ H1) as (-> & -> & Hk & _ & Hk2 & _).
        destruct (_ =? 0) eqn:H0. { injection Hr as <- <- <-. lia. }
        apply run_bind in Hr as (av & s1 & w2 & H2 & Hr). apply run_bind in H2 as (o & s2 & w3 & H3 & H2). injection H3 as <- <- <-.
        unfold ptr_sub in H2. destruct (_ =? _) in H2; [|done]. injection H2 as <- <- <-.
        destruct (_ <=? _) eqn:Hav in Hr; [lia|].
        apply run_bind in Hr as (nc & s1 & w2 & H2 & Hr). destruct (still_new_capacity _ _ _ _ _ _ _ H2) as [-> _].
        apply (takes_bounded _ (Hnc _)) in H2. apply (realloc_insert_cost _ _ _ _ _ (Z.of_nat n0)) in Hr; [lia|].
        intros q. apply (takes_mono _ (Z.of_nat n0 + 0) (Z.of_nat n0 + 0)); [|lia..].
        apply takes_bind; [|intros; apply takes_ret].
        eapply takes_mono; [apply takes_uninit_loop|rewrite replicate_length; lia..].
      - apply as_idx_run in Hr as (p & w1 & Hr & ->). apply run_bind in Hr as (o & s1 & w2 & H1 & Hr). injection H1 as <- <- <-.
        apply run_bind in Hr as (k & s1 & w2 & H1 & Hr). destruct (offset_value _ _ _ _ _ _ H1) as (-> & -> & Hk & _ & Hk2 & _).
        rewrite fmap_length in Hr.
        destruct (Nat.eqb _ _) eqn:H0. { injection Hr as <- <- <-. lia. }
        apply run_bind in Hr as (av & s1 & w2 & H2 & Hr). apply run_bind in H2 as (o & s2 & w3 & H3 & H2). injection H3 as <- <- <-.
        unfold ptr_sub in H2. destruct (_ =? _) in H2; [|done]. injection H2 as <- <- <-.
        destruct (_ <=? _) eqn:Hav in Hr; [lia|]. apply realloc_range_cost in Hr. rewrite fmap_length in Hr. lia.
      - lia.
      - lia.
      - lia.
      - lia.
    Qed.
  End storage.

  (** static_vector *)
  Lemma full_run N s w b s' w' : full_ N s w = Ok b s' w' -> s' = s /\ w' = w.
  Proof. unfold full_, size_, bind, getS, ptr_sub, ret. destruct (_ =? _); [|done]. by intros [= <- <- <-]. Qed.
  Lemma static_put N pos a s w r s' w' : static_emplace N pos a s w = Ok r s' w' -> emplace_inplace pos a s w = Ok r s' w'.
  Proof.
    intros Hr. apply run_bind in Hr as (b & s1 & w1 & H1 & Hr). apply full_run in H1 as [-> ->].
    apply run_bind in Hr as ([] & s1 & w1 & H1 & Hr). destruct (negb _) in H1; [|done]. by injection H1 as <- <-.
  Qed.
  Lemma static_room_run N s w z s' w' : static_available N s w = Ok z s' w' -> s' = s /\ w' = w.
  Proof. unfold static_available, size_, bind, getS, ptr_sub, ret. destruct (_ =? _); [|done]. by intros [= <- <- <-]. Qed.
  Lemma static_steps N o s w r s' w' n c : steps o n = Some c ->
    size s = Z.of_nat n -> (v_last s).2 + Z.of_nat (grows o) <= (v_eos s).2 ->
    run_static N o s w = Ok r s' w' -> tick w' = (tick w + c)%nat.
  Proof.
    intros Hc Hn Hroom Hr. apply run_bind in Hr as (o' & s1 & w1 & H1 & Hr). injection H1 as <- <- <-.
    destruct o; try done; cbn [grows] in Hroom; cbn [steps] in Hc; injection Hc as <-.
    - apply as_idx_run in Hr as (p & w1 & Hr & ->). apply static_put in Hr.
      apply emplace_inplace_run in Hr as (_ & _ & Hr & Hi). unfold loc_add in *. cbn in *.
      destruct (Nat.eqb i n) eqn:He; destruct (_ =? _) eqn:He2; lia.
    - apply as_idx_run in Hr as (p & w1 & Hr & ->). apply run_bind in Hr as (b & s1 & w2 & H1 & Hr). apply full_run in H1 as [-> ->].
      apply run_bind in Hr as ([] & s1 & w2 & H1 & Hr). destruct (negb _) in H1; [|done]. injection H1 as <- <-.
      apply back_inplace_run in Hr. lia.
    - apply as_idx_run in Hr as (p & w1 & Hr & ->). apply run_bind in Hr as (av & s1 & w2 & H1 & Hr). apply static_room_run in H1 as [-> ->].
      apply run_bind in Hr as ([] & s1 & w2 & H1 & Hr). destruct (_ <=? _) in H1; [|done]. injection H1 as <- <-.
      apply run_bind in Hr as (o & s1 & w2 & H1 & Hr). injection H1 as <- <- <-.
      apply run_bind in Hr as (k & s1 & w2 & H1 & Hr). destruct (offset_value _ _ _ _ _ _ H1) as (-> & -> & Hk & _ & Hk2 & _).
      destruct (_ =? 0) eqn:H0. { injection Hr as <- <- <-. destruct (Nat.eqb n0 0) eqn:?; lia. }
      apply fill_inplace_cost in Hr. unfold loc_add in *. cbn in *. destruct (Nat.eqb n0 0) eqn:?; lia.
    - apply as_idx_run in Hr as (p & w1 & Hr & ->). apply run_bind in Hr as (av & s1 & w2 & H1 & Hr). apply static_room_run in H1 as [-> ->].
      apply run_bind in Hr as ([] & s1 & w2 & H1 & Hr). destruct (_ <=? _) in H1; [|done]. injection H1 as <- <-.
      apply run_bind in Hr as (o & s1 & w2 & H1 & Hr). injection H1 as <- <- <-.
      apply run_bind in Hr as (k & s1 & w2 & H1 & Hr). destruct (offset_value _ _ _ _ _ _ H1) as (-> & -> & Hk & _ & Hk2 & _).
      rewrite fmap_length in Hr. destruct (Nat.eqb _ _) eqn:H0. { injection Hr as <- <- <-. lia. }
      apply range_inplace_cost in Hr. rewrite fmap_length in Hr. unfold loc_add in *. cbn in *. lia.
    - apply as_idx_run in Hr as (p & w1 & Hr & ->).
      apply run_bind in Hr as (k & s1 & w2 & H1 & Hr). destruct (offset_value _ _ _ _ _ _ H1) as (-> & -> & Hk & _ & Hk2 & _).
      apply run_bind in Hr as (u & s1 & w2 & H2 & Hr). apply run_bind in Hr as (o & s2 & w3 & H3 & Hr). injection H3 as <- <- <-.
      injection Hr as <- <- <-. change (static_insert_loop N) with (put_loop (static_emplace N)) in H2.
      apply put_loop_cost in H2; [|intros until 1; apply static_put|rewrite fmap_length; lia].
      rewrite fmap_length in H2. unfold input_cost, loc_add in *. cbn in *.
      destruct (Nat.eqb i n) eqn:He; destruct (_ =? _) eqn:He2; lia.
    - apply run_bind in Hr as ([] & s1 & w1 & H1 & Hr). injection Hr as <- <- <-. apply pop_back_tick in H1. lia.
    - apply as_idx_run in Hr as (p & w1 & Hr & ->). apply erase_cost in Hr as (_ & _ & _ & Hlt & Hr). unfold loc_add in *. cbn in *. lia.
    - apply as_idx_run in Hr as (p & w1 & Hr & ->). pose proof (erase_range_ends _ _ _ _ _ _ _ Hr) as He. apply erase_range_cost in Hr.
      unfold loc_add in *. cbn in *. destruct (Nat.eqb i j) eqn:?; destruct (_ =? _) eqn:?; lia.
    - apply run_bind in Hr as ([] & s1 & w1 & H1 & Hr). injection Hr as <- <- <-. apply clear_tick in H1. lia.
  Qed.

  (** ** The containers *)
  Lemma vec_steps o x A w hf r x' w' c : steps o (length (q_elems A)) = Some c ->
    holds is_vec x A w hf -> Z.of_nat (length (q_elems A) + grows o) <= q_cap A ->
    vec_call o x w = Ok r x' w' -> tick w' = (tick w + c)%nat.
  Proof.
    intros Hc (_ & m & Hm & _) Hroom Hr. eapply room_steps; [done| | |exact Hr];
      rewrite ?(iv_first _ _ _ Hm) ?(iv_last _ _ _ Hm) ?(iv_eos _ _ _ Hm); unfold loc_add; cbn; lia.
  Qed.
  Lemma vec_any_steps o x A w hf r x' w' c : steps o (length (q_elems A)) = Some c -> input_op o = false ->
    holds is_vec x A w hf -> vec_call o x w = Ok r x' w' ->
    (tick w' <= tick w + length (q_elems A) + grows o + 1)%nat.
  Proof.
    intros Hc Hi (_ & m & Hm & _) Hr. pose proof (iv_size _ _ _ Hm) as Hs.
    eapply (any_steps vec_storage bounded_new_capacity bounded_acquire bounded_replace); [done|done| | |exact Hr];
      rewrite ?(iv_first _ _ _ Hm) ?(iv_last _ _ _ Hm) ?(iv_eos _ _ _ Hm); unfold loc_add; cbn; lia.
  Qed.
  Lemma small_steps N o x (A : SmallSpec.sabs) w hf r x' w' c : steps o (length (q_elems A.2)) = Some c ->
    holds (is_small N) x A w hf -> Z.of_nat (length (q_elems A.2) + grows o) <= q_cap A.2 ->
    small_call N o x w = Ok r x' w' -> tick w' = (tick w + c)%nat.
  Proof.
    intros Hc (_ & m & Hm & _) Hroom Hr. unfold small_call, member in Hr.
    destruct (run_vop _ _ _ x.2 w) as [r1 s' w1| |] eqn:H; try done. injection Hr as <- <- <-.
    eapply room_steps; [done| | |exact H];
      rewrite ?(is_first _ _ _ _ Hm) ?(is_last _ _ _ _ Hm) ?(is_eos _ _ _ _ Hm); unfold loc_add; cbn; lia.
  Qed.
  Lemma small_any_steps N o x (A : SmallSpec.sabs) w hf r x' w' c : steps o (length (q_elems A.2)) = Some c -> input_op o = false ->
    holds (is_small N) x A w hf -> small_call N o x w = Ok r x' w' ->
    (tick w' <= tick w + length (q_elems A.2) + grows o + 1)%nat.
  Proof.
    intros Hc Hi (_ & m & Hm & _) Hr. pose proof (is_size _ _ _ _ Hm) as Hs. unfold small_call, member in Hr.
    destruct (run_vop _ _ _ x.2 w) as [r1 s' w1| |] eqn:H; try done. injection Hr as <- <- <-.
    eapply (any_steps (small_storage N x.1) (bounded_new_capacity_s N x.1) (bounded_acquire_s N x.1) (bounded_replace_s N x.1)); [done|done| | |exact H];
      rewrite ?(is_first _ _ _ _ Hm) ?(is_last _ _ _ _ Hm) ?(is_eos _ _ _ _ Hm); unfold loc_add; cbn; lia.
  Qed.
  Lemma static_call_steps N o x (A : tabs) w hf r x' w' c : steps o (length A.2) = Some c ->
    holds (is_static N) x A w hf -> (length A.2 + grows o <= N)%nat ->
    static_call N o x w = Ok r x' w' -> tick w' = (tick w + c)%nat.
  Proof.
    intros Hc (_ & m & Hm & _) Hroom Hr. unfold static_call, member in Hr.
    destruct (run_static _ _ x.2 w) as [r1 s' w1| |] eqn:H; try done. injection Hr as <- <- <-.
    eapply static_steps; [done| | |exact H]; rewrite (it_data _ _ _ _ Hm); unfold loc_add; cbn; lia.
  Qed.
End functions.
