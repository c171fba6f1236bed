(** * Cost of erase_if *)

From iris.proofmode Require Import tactics.
From Verif Require Export UnordRange VectorThms SmallThms StaticThms DevThms.
From Coq Require Import Lia ZifyBool.
Open Scope Z_scope.

Section moves.
  Context `{E : Env}.
  Context {St : Type}.
  Lemma assign_loop_end srcs : forall d (s : St) w r s' w',
    assign_loop d srcs s w = Ok r s' w' -> s' = s /\ r = d +ₗ Z.of_nat (length srcs).
  Proof.
    induction srcs as [|a srcs IH]; intros d s w r s' w' Hr; cbn [assign_loop] in Hr.
    { injection Hr as <- <- <-. split; [done|]. cbn. destruct d. unfold loc_add. cbn. f_equal. lia. }
    apply run_bind in Hr as (u & s1 & w1 & H1 & Hr). destruct (still_assign _ _ _ _ _ _ _ H1) as [-> _].
    apply IH in Hr as [-> ->]. split; [done|]. destruct d. unfold loc_add. cbn. f_equal. lia.
  Qed.
  Lemma move_end p q d (s : St) w r s' w' :
    move p q d s w = Ok r s' w' -> s' = s /\ r = d +ₗ (q.2 - p.2) /\ p.2 <= q.2.
  Proof.
    intros Hr. apply run_bind in Hr as (srcs & s1 & w1 & H1 & Hr). unfold range in H1.
    apply run_bind in H1 as (n & s2 & w2 & H2 & H1). unfold range_len in H2.
    destruct (_ =? _); [|done]. destruct (p.2 <=? q.2) eqn:Hle; [|done]. injection H2 as <- <- <-.
    injection H1 as <- <- <-. apply assign_loop_end in Hr as [-> ->]. rewrite refs_length.
    split; [done|]. split; [f_equal; lia|lia].
  Qed.
End moves.

Section ordered.
  Context `{KD : Keyed}.
  Lemma erase_cost pos s w r s' w' : erase_ pos s w = Ok r s' w' ->
    r.1 = (v_last s').1 /\ r.2 = pos.2 /\ (v_last s').2 = (v_last s).2 - 1 /\ pos.2 < (v_last s).2 /\
    Z.of_nat (tick w') = Z.of_nat (tick w) + ((v_last s).2 - pos.2 - 1).
  Proof.
    intros Hr. apply run_bind in Hr as (o & s1 & w1 & H1 & Hr). injection H1 as <- <- <-.
    apply run_bind in Hr as (k & s2 & w2 & H2 & Hr). destruct (offset_value _ _ _ _ _ _ H2) as (-> & -> & Hk & Hb & Hk2 & Hl).
    apply run_bind in Hr as ([] & s3 & w3 & H3 & Hr). destruct (loc_eqb pos (v_last s)) eqn:He; [done|]. injection H3 as <- <-.
    apply run_bind in Hr as (nl & s3 & w3 & H3 & Hr). pose proof (takes_move _ _ _ _ _ _ _ _ H3) as Ht.
    apply move_end in H3 as (-> & -> & Hle). apply run_bind in Hr as ([] & s4 & w4 & H4 & Hr). injection H4 as <- <-.
    apply run_bind in Hr as ([] & s5 & w5 & H5 & Hr). injection Hr as <- <- <-.
    unfold destroy_at in H5. cbn in H5. destruct (heap w3 !! _) as [[]|]; try done. injection H5 as <- <-.
    unfold loc_add in *. cbn in *. lia.
  Qed.
  Lemma erase_if_loop_all p fuel : (forall v, p v = true) -> forall it s w s' w',
    erase_if_loop p fuel it s w = Ok tt s' w' -> it.2 <= (v_last s).2 ->
    let h := (v_last s).2 - it.2 in 2 * Z.of_nat (tick w') = 2 * Z.of_nat (tick w) + h * (h + 1).
  Proof.
    intros Hp. induction fuel as [|fuel IH]; intros it s w s' w' Hr Hle h; cbn [erase_if_loop] in Hr;
      apply run_bind in Hr as (o & s1 & w1 & H1 & Hr); injection H1 as <- <- <-;
      destruct (loc_eqb it (v_last s)) eqn:He.
    - injection Hr as <- <-. unfold loc_eqb in He. replace h with 0 by lia. lia.
    - done.
    - injection Hr as <- <-. unfold loc_eqb in He. replace h with 0 by lia. lia.
    - apply run_bind in Hr as (b & s1 & w1 & H1 & Hr).
      destruct (still_test p it _ _ _ _ _ H1) as [-> _].
      assert (b = true /\ tick w1 = S (tick w)) as [-> Ht].
      { unfold test_ in H1. apply run_bind in H1 as (v & s2 & w2 & H2 & H1). apply run_bind in H1 as (u & s3 & w3 & H3 & H1).
        injection H1 as <- <- <-. split; [apply Hp|].
        assert (w2 = w) as ->.
        { unfold read in H2. destruct (heap w !! it) as [[]|]; try done. by injection H2 as <- <- <-. }
        unfold step_, oracle, bind in H3. cbn in H3. destruct (throws _ _); [done|]. by injection H3 as <- <- <-. }
      apply run_bind in Hr as (it' & s1 & w2 & H2 & Hr). apply erase_cost in H2 as (Hb & Hi & Hl & Hlt & Ht2).
      apply IH in Hr; [|lia]. rewrite Hi Hl in Hr. unfold h. cbv zeta in Hr. nia.
  Qed.
  Lemma test_cost p it (s : vdata) w b s' w' : test_ p it s w = Ok b s' w' -> s' = s /\ tick w' = S (tick w).
  Proof.
    intros H1. split; [apply (still_test p it _ _ _ _ _ H1)|].
    unfold test_ in H1. apply run_bind in H1 as (v & s2 & w2 & H2 & H1). apply run_bind in H1 as (u & s3 & w3 & H3 & H1).
    injection H1 as <- <- <-.
    assert (w2 = w) as ->.
    { unfold read in H2. destruct (heap w !! it) as [[]|]; try done. by injection H2 as <- <- <-. }
    unfold step_, oracle, bind in H3. cbn in H3. destruct (throws _ _); [done|]. by injection H3 as <- <- <-.
  Qed.
  Lemma erase_if_loop_upper p fuel : forall it s w s' w',
    erase_if_loop p fuel it s w = Ok tt s' w' -> it.1 = (v_last s).1 -> it.2 <= (v_last s).2 ->
    let h := (v_last s).2 - it.2 in 2 * Z.of_nat (tick w') <= 2 * Z.of_nat (tick w) + h * (h + 1).
  Proof.
    induction fuel as [|fuel IH]; intros it s w s' w' Hr Hb0 Hle h; cbn [erase_if_loop] in Hr;
      apply run_bind in Hr as (o & s1 & w1 & H1 & Hr); injection H1 as <- <- <-;
      destruct (loc_eqb it (v_last s)) eqn:He.
    - injection Hr as <- <-. nia.
    - done.
    - injection Hr as <- <-. nia.
    - apply run_bind in Hr as (b & s1 & w1 & H1 & Hr). apply test_cost in H1 as [-> Ht].
      destruct b.
      + apply run_bind in Hr as (it' & s1 & w2 & H2 & Hr). apply erase_cost in H2 as (Hb & Hi & Hl & Hlt & Ht2).
        apply IH in Hr; [|done|lia]. rewrite Hi Hl in Hr. unfold h. cbv zeta in Hr. nia.
      + unfold loc_eqb in He.
        apply IH in Hr; [|done|unfold loc_add; cbn; lia]. unfold loc_add in Hr. cbn in Hr. unfold h. nia.
  Qed.
  (** Erasing everything. *)
  Lemma flat_erase_if_all fl kd c p x l w hf r x' w' :
    (forall v, p v = true) -> holds (is_flat fl) x l w hf ->
    flat_call fl kd c (FEraseIf p) x w = Ok r x' w' ->
    (2 * tick w' = 2 * tick w + length l * (length l + 1))%nat.
  Proof.
    intros Hp (_ & m & Hm & _) Hr. apply is_flat_sized in Hm. unfold sized in Hm.
    assert (exists s', as_one (as_num (erase_if_each p)) x.2 w = Ok r s' w') as [s' H].
    { unfold flat_call, member in Hr. destruct fl as [N|N]; cbn in Hr.
      - change (static_flat_run N kd c (FEraseIf p) x.2 w) with (as_one (as_num (erase_if_each p)) x.2 w) in Hr.
        destruct (as_one _ _ _) as [r1 s' w1| |] eqn:H1; try done. injection Hr as <- <- <-. by exists s'.
      - change (small_flat_run N kd x.1 c (FEraseIf p) x.2 w) with (as_one (as_num (erase_if_each p)) x.2 w) in Hr.
        destruct (as_one _ _ _) as [r1 s' w1| |] eqn:H1; try done. injection Hr as <- <- <-. by exists s'. }
    apply run_bind in H as (r1 & s1 & w1 & H1 & H). injection H as <- <- <-.
    apply run_bind in H1 as (z & s2 & w2 & H2 & H1). injection H1 as <- <- <-.
    apply run_bind in H2 as (o & s3 & w3 & H3 & H2). injection H3 as <- <- <-.
    apply run_bind in H2 as (n & s3 & w3 & H3 & H2). pose proof (bounded_size x.2 w) as Hb. rewrite H3 in Hb.
    destruct (still_size _ _ _ _ _ H3) as [-> _].
    apply run_bind in H2 as ([] & s4 & w4 & H4 & H2). apply erase_if_loop_all in H4; [|done|lia].
    apply run_bind in H2 as (n2 & s5 & w5 & H5 & H2). pose proof (bounded_size s4 w4) as Hb2. rewrite H5 in Hb2.
    injection H2 as <- <- <-. cbv zeta in H4. rewrite Hm in H4. nia.
  Qed.
  Lemma flat_erase_if_run fl kd c p x w r x' w' : flat_call fl kd c (FEraseIf p) x w = Ok r x' w' ->
    exists s', as_one (as_num (erase_if_each p)) x.2 w = Ok r s' w'.
  Proof.
    intros Hr. unfold flat_call, member in Hr. destruct fl as [N|N]; cbn in Hr.
    - change (static_flat_run N kd c (FEraseIf p) x.2 w) with (as_one (as_num (erase_if_each p)) x.2 w) in Hr.
      destruct (as_one _ _ _) as [r1 s' w1| |] eqn:H1; try done. injection Hr as <- <- <-. by exists s'.
    - change (small_flat_run N kd x.1 c (FEraseIf p) x.2 w) with (as_one (as_num (erase_if_each p)) x.2 w) in Hr.
      destruct (as_one _ _ _) as [r1 s' w1| |] eqn:H1; try done. injection Hr as <- <- <-. by exists s'.
  Qed.
  Lemma flat_based fl x l m : is_flat fl x l m -> (v_first x.2).1 = (v_last x.2).1.
  Proof.
    destruct fl as [N|N]; cbn.
    - intros [ib H]. by rewrite (it_data _ _ _ _ H).
    - intros (ib & a & d & cap & H). by rewrite (is_first _ _ _ _ H) (is_last _ _ _ _ H).
  Qed.
  Lemma flat_erase_if_upper fl kd c p x l w hf r x' w' :
    holds (is_flat fl) x l w hf ->
    flat_call fl kd c (FEraseIf p) x w = Ok r x' w' ->
    (2 * tick w' <= 2 * tick w + length l * (length l + 1))%nat.
  Proof.
    intros (_ & m & Hm & _) Hr. pose proof (flat_based _ _ _ _ Hm) as Hfb. apply is_flat_sized in Hm. unfold sized in Hm.
    apply flat_erase_if_run in Hr as [s' H].
    apply run_bind in H as (r1 & s1 & w1 & H1 & H). injection H as <- <- <-.
    apply run_bind in H1 as (z & s2 & w2 & H2 & H1). injection H1 as <- <- <-.
    apply run_bind in H2 as (o & s3 & w3 & H3 & H2). injection H3 as <- <- <-.
    apply run_bind in H2 as (n & s3 & w3 & H3 & H2). pose proof (bounded_size x.2 w) as Hb. rewrite H3 in Hb.
    destruct (still_size _ _ _ _ _ H3) as [-> _].
    apply run_bind in H2 as ([] & s4 & w4 & H4 & H2). apply erase_if_loop_upper in H4; [|done|lia].
    apply run_bind in H2 as (n2 & s5 & w5 & H5 & H2). pose proof (bounded_size s4 w4) as Hb2. rewrite H5 in Hb2.
    injection H2 as <- <- <-. cbv zeta in H4. rewrite Hm in H4. nia.
  Qed.

  (** Unordered. *)
  Lemma uerase_cost pos s w r s' w' : uerase pos s w = Ok r s' w' ->
    r.1 = (v_last s').1 /\ r.2 = pos.2 /\ (v_last s').2 = (v_last s).2 - 1 /\ pos.2 < (v_last s).2 /\
    (tick w' <= S (tick w))%nat.
  Proof.
    intros Hr. apply run_bind in Hr as (o & s1 & w1 & H1 & Hr). injection H1 as <- <- <-.
    apply run_bind in Hr as (k & s2 & w2 & H2 & Hr). destruct (offset_value _ _ _ _ _ _ H2) as (-> & -> & Hk & Hb & Hk2 & Hl).
    apply run_bind in Hr as ([] & s3 & w3 & H3 & Hr). destruct (loc_eqb pos (v_last s)) eqn:He; [done|]. injection H3 as <- <-.
    apply run_bind in Hr as (d & s3 & w3 & H3 & Hr). unfold ptr_sub in H3.
    destruct (_ =? _) in H3; [|done]. injection H3 as <- <- <-.
    apply run_bind in Hr as ([] & s4 & w4 & H4 & Hr).
    assert (s4 = s /\ (tick w4 <= S (tick w))%nat) as [-> Ht].
    { destruct (0 <? _).
      - split; [apply (still_assign _ _ _ _ _ _ _ H4)|]. apply (takes_assign _ _) in H4. lia.
      - injection H4 as <- <-. split; [done|lia]. }
    apply run_bind in Hr as ([] & s5 & w5 & H5 & Hr). injection H5 as <- <-.
    apply run_bind in Hr as ([] & s6 & w6 & H6 & Hr). injection Hr as <- <- <-.
    unfold destroy_at in H6. cbn in H6. destruct (heap w4 !! _) as [[]|]; try done. injection H6 as <- <-.
    unfold loc_eqb in He. unfold loc_add in *. cbn in *. lia.
  Qed.
  Lemma uerase_loop_upper p fuel : forall it s w s' w',
    uerase_loop (test_ p) fuel it s w = Ok tt s' w' -> it.1 = (v_last s).1 -> it.2 <= (v_last s).2 ->
    Z.of_nat (tick w') <= Z.of_nat (tick w) + 2 * ((v_last s).2 - it.2).
  Proof.
    induction fuel as [|fuel IH]; intros it s w s' w' Hr Hb0 Hle; cbn [uerase_loop] in Hr;
      apply run_bind in Hr as (o & s1 & w1 & H1 & Hr); injection H1 as <- <- <-;
      destruct (loc_eqb it (v_last s)) eqn:He.
    - injection Hr as <- <-. lia.
    - done.
    - injection Hr as <- <-. lia.
    - apply run_bind in Hr as (b & s1 & w1 & H1 & Hr). apply test_cost in H1 as [-> Ht].
      destruct b.
      + apply run_bind in Hr as (it' & s1 & w2 & H2 & Hr). apply uerase_cost in H2 as (Hb & Hi & Hl & Hlt & Ht2).
        apply IH in Hr; [|done|lia]. rewrite Hi Hl in Hr. lia.
      + unfold loc_eqb in He.
        apply IH in Hr; [|done|unfold loc_add; cbn; lia]. unfold loc_add in Hr. cbn in Hr. lia.
  Qed.
  Lemma unord_erase_if_upper fl kd c p x l w hf r x' w' :
    holds (is_flat fl) x l w hf ->
    unord_call fl kd c (UEraseIf p) x w = Ok r x' w' ->
    (tick w' <= tick w + 2 * length l)%nat.
  Proof.
    intros (_ & m & Hm & _) Hr. pose proof (flat_based _ _ _ _ Hm) as Hfb. apply is_flat_sized in Hm. unfold sized in Hm.
    assert (exists s', as_one (as_num (uerase_if p)) x.2 w = Ok r s' w') as [s' H].
    { unfold unord_call, member in Hr. destruct fl as [N|N].
      - change (static_unord_run N kd c (UEraseIf p) x.2 w) with (as_one (as_num (uerase_if p)) x.2 w) in Hr.
        destruct (as_one _ _ _) as [r1 s' w1| |] eqn:H1; try done. injection Hr as <- <- <-. by exists s'.
      - change (small_unord_run N kd x.1 c (UEraseIf p) x.2 w) with (as_one (as_num (uerase_if p)) x.2 w) in Hr.
        destruct (as_one _ _ _) as [r1 s' w1| |] eqn:H1; try done. injection Hr as <- <- <-. by exists s'. }
    apply run_bind in H as (r1 & s1 & w1 & H1 & H). injection H as <- <- <-.
    apply run_bind in H1 as (z & s2 & w2 & H2 & H1). injection H1 as <- <- <-.
    apply run_bind in H2 as (o & s3 & w3 & H3 & H2). injection H3 as <- <- <-.
    apply run_bind in H2 as (n & s3 & w3 & H3 & H2). pose proof (bounded_size x.2 w) as Hb. rewrite H3 in Hb.
    destruct (still_size _ _ _ _ _ H3) as [-> _].
    apply run_bind in H2 as ([] & s4 & w4 & H4 & H2). apply uerase_loop_upper in H4; [|done|lia].
    apply run_bind in H2 as (n2 & s5 & w5 & H5 & H2). pose proof (bounded_size s4 w4) as Hb2. rewrite H5 in Hb2.
    injection H2 as <- <- <-. lia.
  Qed.
End ordered.

(** ** Sequences *)
Section sequences.
  Context `{E : Env}.
  Lemma still_test' {St} (p : V -> bool) x : still (test_ p x : M St bool).
  Proof. apply still_bind; [apply still_read|]. intros v. apply still_bind; [apply still_step|]. intros _. apply still_ret. Qed.
  Lemma takes_test {St} (p : V -> bool) x : takes (test_ p x : M St bool) 1 1.
  Proof.
    apply takes_bind0; [apply takes_read|]. intros v. apply (takes_bind _ _ 1 1 0 0); [apply takes_step|].
    intros _. apply takes_ret.
  Qed.
  Lemma remove_loop_cost {St} (p : V -> bool) n : forall d x,
    still (remove_loop_ p d x n : M St loc) /\ takes (remove_loop_ p d x n : M St loc) (Z.of_nat n) (2 * Z.of_nat n).
  Proof.
    induction n as [|n IH]; intros d x; cbn [remove_loop_].
    { split; [apply still_ret|]. apply (takes_mono _ 0 0); [apply takes_ret|lia..]. }
    split.
    - apply still_bind; [apply still_test'|]. intros []; [apply IH|]. apply still_bind; [apply still_assign|]. intros _. apply IH.
    - apply (takes_mono _ (1 + Z.of_nat n) (1 + (1 + 2 * Z.of_nat n))); [|lia..].
      apply takes_bind; [apply takes_test|]. intros [].
      + eapply takes_mono; [apply IH|lia..].
      + apply (takes_mono _ (1 + Z.of_nat n) (1 + 2 * Z.of_nat n)); [|lia..]. apply takes_bind; [apply takes_assign|]. intros _. apply IH.
  Qed.
  Lemma find_if_cost {St} (p : V -> bool) n : forall x (s : St) w k s' w',
    find_if_ p x n s w = Ok k s' w' ->
    s' = s /\ (k <= n)%nat /\ tick w' = (tick w + if Nat.eqb k n then n else S k)%nat.
  Proof.
    induction n as [|n IH]; intros x s w k s' w' Hr; cbn [find_if_] in Hr.
    { injection Hr as <- <- <-. cbn. split; [done|]. lia. }
    apply run_bind in Hr as (b & s1 & w1 & H1 & Hr). destruct (still_test' _ _ _ _ _ _ _ H1) as [-> _].
    apply takes_test in H1. destruct b.
    { injection Hr as <- <- <-. cbn. split; [done|]. lia. }
    apply run_bind in Hr as (j & s1 & w2 & H2 & Hr). injection Hr as <- <- <-. apply IH in H2 as (-> & Hj & H2).
    split; [done|]. cbn. destruct (Nat.eqb j n); lia.
  Qed.
  Lemma remove_if_cost {St} (p : V -> bool) first last (s : St) w it s' w' :
    remove_if_ p first last s w = Ok it s' w' ->
    s' = s /\ let n := last.2 - first.2 in
      Z.of_nat (tick w) + n <= Z.of_nat (tick w') <= Z.of_nat (tick w) + 2 * n.
  Proof.
    intros Hr. apply run_bind in Hr as (n & s1 & w1 & H1 & Hr). unfold range_len in H1.
    destruct (_ =? _); [|done]. destruct (first.2 <=? last.2) eqn:Hle; [|done]. injection H1 as <- <- <-.
    apply run_bind in Hr as (k & s1 & w1 & H1 & Hr). apply find_if_cost in H1 as (-> & Hk & H1).
    destruct (Nat.eqb k _) eqn:He.
    - injection Hr as <- <- <-. split; [done|]. lia.
    - destruct (remove_loop_cost (St := St) p (Z.to_nat (last.2 - first.2) - S k) (first +ₗ Z.of_nat k) (first +ₗ Z.of_nat (S k))) as [Ha Hb].
      destruct (Ha _ _ _ _ _ Hr) as [-> _]. apply Hb in Hr. split; [done|]. lia.
  Qed.
  (** Erasing up to the end moves nothing. *)
  Lemma erase_tail_cost it s w r s' w' : erase_range_ it (v_last s) s w = Ok r s' w' -> tick w' = tick w.
  Proof.
    intros Hr. apply run_bind in Hr as (o & s1 & w1 & H1 & Hr). injection H1 as <- <- <-.
    apply run_bind in Hr as (k1 & s1 & w1 & H1 & Hr). destruct (offset_value _ _ _ _ _ _ H1) as (-> & -> & _).
    apply run_bind in Hr as (k2 & s1 & w1 & H2 & Hr). destruct (offset_value _ _ _ _ _ _ H2) as (-> & -> & Hk & _).
    apply run_bind in Hr as ([] & s1 & w1 & H3 & Hr). destruct (_ <=? _) in H3; [|done]. injection H3 as <- <-.
    destruct (loc_eqb _ _); [by injection Hr as <- <- <-|].
    apply run_bind in Hr as (nl & s1 & w1 & H3 & Hr). apply takes_move in H3.
    apply run_bind in Hr as (u & s2 & w2 & H4 & Hr). apply takes_destroy in H4.
    apply run_bind in Hr as ([] & s3 & w3 & H5 & Hr). injection H5 as <- <-. injection Hr as <- <- <-.
    unfold loc_add in *. cbn in *. lia.
  Qed.
  Lemma erase_if_cost p s w r s' w' : erase_if_ p s w = Ok r s' w' ->
    let n := (v_last s).2 - (v_first s).2 in
    Z.of_nat (tick w) + n <= Z.of_nat (tick w') <= Z.of_nat (tick w) + 2 * n.
  Proof.
    intros Hr. apply run_bind in Hr as (o & s1 & w1 & H1 & Hr). injection H1 as <- <- <-.
    apply run_bind in Hr as (it & s1 & w1 & H1 & Hr). apply remove_if_cost in H1 as [-> H1].
    apply run_bind in Hr as (z & s1 & w2 & H2 & Hr). unfold ptr_sub in H2. destruct (_ =? _) in H2; [|done]. injection H2 as <- <- <-.
    apply run_bind in Hr as (q & s1 & w2 & H2 & Hr). apply erase_tail_cost in H2. injection Hr as <- <- <-.
    cbv zeta in *. lia.
  Qed.
  Lemma dev_offset_pos pos s w k s' w' : dv_offset pos s w = Ok k s' w' -> 0 <= k.
  Proof.
    intros Hr. apply run_bind in Hr as (o & s1 & w1 & H1 & Hr). apply run_bind in Hr as (k0 & s2 & w2 & H2 & Hr).
    apply run_bind in Hr as (n & s3 & w3 & H3 & Hr). apply run_bind in Hr as (u & s4 & w4 & H4 & Hr).
    destruct (_ && _) eqn:Hk in H4; [|done]. injection Hr as <- <- <-. lia.
  Qed.
  Lemma dev_erase_tail_cost it s w r s' w' : dv_erase_range it (d_last s) s w = Ok r s' w' -> tick w' = tick w.
  Proof.
    intros Hr. apply run_bind in Hr as (o & s1 & w1 & H1 & Hr). injection H1 as <- <- <-.
    apply run_bind in Hr as (k1 & s1 & w1 & H1 & Hr). destruct (reads_offset _ _ _ _ _ _ H1) as (-> & Hk1 & Ht1).
    apply run_bind in Hr as (k2 & s1 & w2 & H2 & Hr). destruct (reads_offset _ _ _ _ _ _ H2) as (-> & Hk2 & Ht2).
    apply run_bind in Hr as ([] & s1 & w3 & H3 & Hr). destruct (_ <=? _) in H3; [|done]. injection H3 as <- <-.
    destruct (loc_eqb _ _). { injection Hr as <- <- <-. lia. }
    apply run_bind in Hr as (m & s1 & w3 & H3 & Hr). unfold ptr_sub in H3. destruct (_ =? _) in H3; [|done]. injection H3 as <- <- <-.
    apply dev_offset_pos in H1. destruct (k1 <? _) eqn:Hlt; [lia|].
    apply run_bind in Hr as (nl & s1 & w3 & H3 & Hr). apply takes_move in H3.
    apply run_bind in Hr as (u & s2 & w4 & H4 & Hr). apply takes_destroy in H4.
    apply run_bind in Hr as ([] & s3 & w5 & H5 & Hr). injection H5 as <- <-. injection Hr as <- <- <-.
    unfold loc_add in *. cbn in *. lia.
  Qed.
  Lemma vec_erase_if_cost p x A w hf r x' w' :
    holds is_vec x A w hf -> vec_call (OEraseIf p) x w = Ok r x' w' ->
    let n := length (q_elems A) in (tick w + n <= tick w' <= tick w + 2 * n)%nat.
  Proof.
    intros (_ & m & Hm & _) Hr n. apply run_bind in Hr as (o & s1 & w1 & H1 & Hr). injection H1 as <- <- <-.
    apply run_bind in Hr as (z & s1 & w1 & H1 & Hr). injection Hr as <- <- <-. apply erase_if_cost in H1.
    rewrite (iv_first _ _ _ Hm) (iv_last _ _ _ Hm) in H1. unfold loc_add in H1. cbn in H1. unfold n. lia.
  Qed.
  Lemma small_erase_if_cost N p x A w hf r x' w' :
    holds (is_small N) x A w hf -> small_call N (OEraseIf p) x w = Ok r x' w' ->
    let n := length (q_elems A.2) in (tick w + n <= tick w' <= tick w + 2 * n)%nat.
  Proof.
    intros (_ & m & Hm & _) Hr n. unfold small_call, member in Hr.
    destruct (run_vop _ _ _ x.2 w) as [r1 s' w1| |] eqn:H; try done. injection Hr as <- <- <-.
    apply run_bind in H as (o & s1 & w2 & H1 & Hr). injection H1 as <- <- <-.
    apply run_bind in Hr as (z & s1 & w2 & H1 & Hr). injection Hr as <- <- <-. apply erase_if_cost in H1.
    rewrite (is_first _ _ _ _ Hm) (is_last _ _ _ _ Hm) in H1. unfold loc_add in H1. cbn in H1. unfold n. lia.
  Qed.
  Lemma static_erase_if_cost N p x A w hf r x' w' :
    holds (is_static N) x A w hf -> static_call N (OEraseIf p) x w = Ok r x' w' ->
    let n := length A.2 in (tick w + n <= tick w' <= tick w + 2 * n)%nat.
  Proof.
    intros (_ & m & Hm & _) Hr n. unfold static_call, member in Hr.
    destruct (run_static _ _ x.2 w) as [r1 s' w1| |] eqn:H; try done. injection Hr as <- <- <-.
    apply run_bind in H as (o & s1 & w2 & H1 & Hr). injection H1 as <- <- <-.
    apply run_bind in Hr as (z & s1 & w2 & H1 & Hr). injection Hr as <- <- <-. apply erase_if_cost in H1.
    rewrite (it_data _ _ _ _ Hm) in H1. unfold loc_add in H1. cbn in H1. unfold n. lia.
  Qed.
  Lemma dev_erase_if_cost p x A w hf r x' w' :
    holds is_dev x A w hf -> dev_call (DEraseIf p) x w = Ok r x' w' ->
    let n := length (e_elems A) in (tick w + n <= tick w' <= tick w + 2 * n)%nat.
  Proof.
    intros (_ & m & Hm & _) Hr n. apply run_bind in Hr as (o & s1 & w1 & H1 & Hr). injection H1 as <- <- <-.
    apply run_bind in Hr as (z & s1 & w1 & H1 & Hr). injection Hr as <- <- <-.
    apply run_bind in H1 as (o & s2 & w2 & H2 & Hr). injection H2 as <- <- <-.
    apply run_bind in Hr as (it & s2 & w2 & H1 & Hr). apply remove_if_cost in H1 as [-> H1].
    apply run_bind in Hr as (z2 & s2 & w3 & H2 & Hr). unfold ptr_sub in H2. destruct (_ =? _) in H2; [|done]. injection H2 as <- <- <-.
    apply run_bind in Hr as (q & s2 & w3 & H2 & Hr). apply dev_erase_tail_cost in H2. injection Hr as <- <- <-.
    rewrite (id_first _ _ _ Hm) (id_last _ _ _ Hm) in H1. unfold loc_add in H1. cbn in H1. unfold n. lia.
  Qed.
End sequences.
