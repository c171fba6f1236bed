(** * Cost of filling a flat container from a range

    The constructors from a range insert the elements one after the other. *)

From iris.proofmode Require Import tactics.
From Verif Require Export FlatCost DevCost Demo.
From Coq Require Import Lia ZifyBool.
Open Scope Z_scope.

(** Each key goes before all the previous ones. *)
Definition descending `{KD : Keyed} (c : Cmp) (vs : list V) : Prop :=
  forall i j x y, (i < j)%nat -> vs !! i = Some x -> vs !! j = Some y -> less c (key y) (key x) = true.

(** Each key goes behind all the previous ones. *)
Definition ascending `{KD : Keyed} (c : Cmp) (vs : list V) : Prop :=
  forall i j x y, (i < j)%nat -> vs !! i = Some x -> vs !! j = Some y -> less c (key x) (key y) = true.

Section still.
  Context `{E : Env}.
  Context {St : Type}.

  (** [m] leaves the object alone and does not turn back time. *)
  Definition still {A} (m : M St A) : Prop := forall s w r s' w',
    m s w = Ok r s' w' -> s' = s /\ (tick w <= tick w')%nat.
  Lemma still_bind {A B} (m : M St A) (k : A -> M St B) :
    still m -> (forall a, still (k a)) -> still (bind m k).
  Proof.
    intros Hm Hk s w r s' w'. unfold bind. destruct (m s w) as [a s1 w1| |] eqn:H1; try done. intros H2.
    destruct (Hm _ _ _ _ _ H1) as [-> Ht1]. destruct (Hk _ _ _ _ _ _ H2) as [-> Ht2]. split; [done|lia].
  Qed.
  Lemma still_ret {A} (a : A) : still (ret a).
  Proof. by intros s w r s' w' [= <- <- <-]. Qed.
  Lemma still_throw {A} e : still (throw e : M St A).
  Proof. by intros s w r s' w'. Qed.
  Lemma still_get : still (getS : M St St).
  Proof. by intros s w r s' w' [= <- <- <-]. Qed.
  Lemma still_assert b : still (assert_ b : M St unit).
  Proof. destruct b; [apply still_ret|by intros s w r s' w']. Qed.
  Lemma still_read p : still (read p : M St V).
  Proof. intros s w r s' w'. unfold read. destruct (heap w !! p) as [[]|]; try done. by intros [= <- <- <-]. Qed.
  Lemma still_write p v : still (write p v : M St unit).
  Proof. intros s w r s' w'. unfold write. destruct (heap w !! p) as [[]|]; try done. by intros [= <- <- <-]. Qed.
  Lemma still_oracle k : still (oracle k : M St _).
  Proof. intros s w r s' w' Hr. unfold oracle in Hr. injection Hr as <- <- <-. simpl. split; [done|lia]. Qed.
  Lemma still_step k e : still (step_ k e : M St unit).
  Proof. apply still_bind; [apply still_oracle|]. intros [t|]; [apply still_throw|apply still_ret]. Qed.
  Lemma still_make a : still (make a : M St V).
  Proof.
    destruct a as [|v|p|p]; simpl.
    - apply still_bind; [apply still_step|intros; apply still_ret].
    - apply still_bind; [apply still_step|intros; apply still_ret].
    - apply still_bind; [apply still_read|]. intros v. apply still_bind; [apply still_step|intros; apply still_ret].
    - apply still_bind; [apply still_read|]. intros v. apply still_bind; [apply still_oracle|].
      intros [t|]; (apply still_bind; [apply still_write|intros; first [apply still_throw|apply still_ret]]).
  Qed.
  Lemma still_range p q : still (range_len p q : M St nat).
  Proof. unfold range_len. intros s w r s' w'. destruct (_ =? _); [|done]. destruct (_ <=? _); [|done]. by intros [= <- <- <-]. Qed.
  Lemma still_sub p q : still (ptr_sub p q : M St Z).
  Proof. unfold ptr_sub. intros s w r s' w'. destruct (_ =? _); [|done]. by intros [= <- <- <-]. Qed.
  Lemma still_construct p a : still (construct p a : M St unit).
  Proof.
    apply still_bind.
    { intros s w r s' w'. unfold expect_raw. destruct (heap w !! p) as [[]|]; try done. by intros [= <- <- <-]. }
    intros _. apply still_bind; [apply still_make|]. intros v s w r s' w'. unfold set_live.
    destruct (heap w !! p) as [[]|]; try done. by intros [= <- <- <-].
  Qed.
  Lemma still_assign p a : still (assign p a : M St unit).
  Proof.
    destruct a as [|v|q|q]; simpl; (apply still_bind; [apply still_read|]); intros _.
    - apply still_bind; [apply still_oracle|].
      intros [t|]; [apply still_bind; [apply still_write|intros; apply still_throw]|apply still_write].
    - apply still_bind; [apply still_oracle|].
      intros [t|]; [apply still_bind; [apply still_write|intros; apply still_throw]|apply still_write].
    - apply still_bind; [apply still_read|]. intros v. apply still_bind; [apply still_oracle|].
      intros [t|]; [apply still_bind; [apply still_write|intros; apply still_throw]|apply still_write].
    - apply still_bind; [apply still_read|]. intros v. apply still_bind; [apply still_oracle|].
      intros [t|]; (apply still_bind; [|intros; first [apply still_throw|apply still_write]]).
      + apply still_bind; [apply still_write|intros; apply still_write].
      + apply still_write.
  Qed.
  Lemma still_back_loop n p d : still (move_backward_loop n p d : M St loc).
  Proof.
    revert d. induction n as [|n IH]; intros d; [apply still_ret|]. cbn [move_backward_loop].
    apply still_bind; [apply still_assign|intros; apply IH].
  Qed.
  Lemma still_move_backward p q d : still (move_backward p q d : M St loc).
  Proof. apply still_bind; [apply still_range|intros; apply still_back_loop]. Qed.
End still.

Section lookup.
  Context `{KD : Keyed}.
  Lemma still_test (p : V -> bool) x : still (test_ p x : M vdata bool).
  Proof. apply still_bind; [apply still_read|]. intros v. apply still_bind; [apply still_step|intros; apply still_ret]. Qed.
  Lemma still_bound_loop (p : V -> bool) fuel : forall first len, still (bound_loop p fuel first len).
  Proof.
    induction fuel as [|fuel IH]; intros first len; simpl; [apply still_ret|].
    destruct (Nat.eqb len 0); [apply still_ret|]. apply still_bind; [apply still_test|]. intros []; apply IH.
  Qed.
  Lemma still_lower lt k : still (lower_ lt k).
  Proof.
    apply still_bind; [apply still_get|]. intros o. apply still_bind; [apply still_range|]. intros n.
    apply still_bound_loop.
  Qed.
  Lemma still_new lt k it : still (is_new lt k it).
  Proof.
    apply still_bind; [apply still_get|]. intros o. destruct (loc_eqb _ _); [apply still_ret|apply still_test].
  Qed.
  Lemma still_key a : still (arg_key a).
  Proof.
    destruct a; simpl; try apply still_ret; (apply still_bind; [apply still_read|intros; apply still_ret]).
  Qed.
  Lemma still_size : still size_.
  Proof. apply still_bind; [apply still_get|]. intros o. apply still_sub. Qed.
  Lemma still_offset p : still (offset_of p).
  Proof.
    apply still_bind; [apply still_get|]. intros o. apply still_bind; [apply still_sub|]. intros k.
    apply still_bind; [apply still_size|]. intros n. apply still_bind; [apply still_assert|]. intros _. apply still_ret.
  Qed.
End lookup.

(** ** Lower bounds *)
Section lower.
  Context `{KD : Keyed}.

  (** An insertion at position [p] moves the elements from there on. *)
  Definition shifts {A} (m : M vdata A) (at_ : A -> option loc) : Prop := forall s w r s' w' p,
    m s w = Ok r s' w' -> at_ r = Some p ->
    Z.of_nat (tick w) + ((v_last s).2 - (v_first s).2) - (p.2 - (v_first s').2) <= Z.of_nat (tick w').
  Lemma shifts_still {A B} (m : M vdata A) (k : A -> M vdata B) at_ :
    still m -> (forall a, shifts (k a) at_) -> shifts (bind m k) at_.
  Proof.
    intros Hm Hk s w r s' w' p. unfold bind. destruct (m s w) as [a s1 w1| |] eqn:H1; try done. intros H2 Hp.
    destruct (Hm _ _ _ _ _ H1) as [-> Ht1]. specialize (Hk a _ _ _ _ _ _ H2 Hp). lia.
  Qed.
  Lemma shifts_none {A} (m : M vdata A) at_ :
    (forall s w r s' w', m s w = Ok r s' w' -> at_ r = None) -> shifts m at_.
  Proof. intros Hm s w r s' w' p Hr Hp. specialize (Hm _ _ _ _ _ Hr). congruence. Qed.
  Definition new_at (r : loc * bool) : option loc := if r.2 then Some r.1 else None.
  Lemma shifts_pair (m : M vdata loc) : shifts m Some -> shifts (p <- m;; ret (p, true))%prog new_at.
  Proof.
    intros Hm s w r s' w' p. unfold bind. destruct (m s w) as [q s1 w1| |] eqn:H1; try done.
    intros [= <- <- <-]. cbn. intros [= <-]. by eapply Hm.
  Qed.

  Section insert.
    Context (lt : Key -> Key -> bool) (kd : fkind) (exact : loc -> arg -> M vdata loc) (room : M vdata unit).
    Context (EC : forall p a, shifts (exact p a) Some) (RC : still room).
    Lemma shifts_insert_aux a : shifts (insert_aux lt kd exact a) new_at.
    Proof using EC.
      unfold insert_aux, insert_multi, insert_unique. destruct (multi kd).
      - apply shifts_still; [apply still_key|]. intros k. apply shifts_still; [apply still_lower|]. intros it.
        apply shifts_pair, EC.
      - apply shifts_still; [apply still_key|]. intros k. apply shifts_still; [apply still_lower|]. intros it.
        apply shifts_still; [apply still_new|]. intros []; [apply shifts_pair, EC|].
        apply shifts_none. by intros s w r s' w' [= <- <- <-].
    Qed.
    Lemma shifts_insert_value a : shifts (insert_value lt kd exact room a) new_at.
    Proof using EC RC. apply shifts_still; [exact RC|]. intros _. apply shifts_insert_aux. Qed.
    Lemma shifts_emplace_key a : shifts (emplace_key lt kd exact room a) new_at.
    Proof using EC RC.
      apply shifts_still; [exact RC|]. intros _. apply shifts_still; [apply still_make|]. intros v. apply shifts_insert_aux.
    Qed.
  End insert.

  (** *** [insert_exactly_at] *)
  Lemma offset_value p s w k s' w' : offset_of p s w = Ok k s' w' ->
    s' = s /\ w' = w /\ k = p.2 - (v_first s).2 /\ p.1 = (v_first s).1 /\ 0 <= k <= (v_last s).2 - (v_first s).2 /\
    (v_first s).1 = (v_last s).1.
  Proof.
    unfold offset_of, size_, bind, getS, ptr_sub, assert_, ret.
    destruct ((v_first s).1 =? p.1) eqn:H1; [|done].
    destruct ((v_first s).1 =? (v_last s).1) eqn:H2; [|done].
    destruct ((0 <=? _) && _) eqn:H3; [|done].
    intros [= <- <- <-]. split_and!; try done; lia.
  Qed.
  Lemma run_bind {St A B} (m : M St A) (k : A -> M St B) s w r s' w' :
    bind m k s w = Ok r s' w' -> exists a s1 w1, m s w = Ok a s1 w1 /\ k a s1 w1 = Ok r s' w'.
  Proof. unfold bind. destruct (m s w) as [a s1 w1| |] eqn:H; try done. eauto 10. Qed.
  (** The elements from [p1] on move up by one. *)
  Lemma shifts_up (p1 : loc) a o s w r s' w' :
    p1.1 = (v_first o).1 -> v_first s = v_first o ->
    (construct (v_last o) (AMove (v_last o +ₗ -1));;
     set_last (v_last o +ₗ 1);;
     move_backward p1 (v_last o +ₗ -1) (v_last o);;
     assign p1 a;;
     ret p1)%prog s w = Ok r s' w' ->
    r = p1 /\ v_first s' = v_first s /\
    Z.of_nat (tick w') = Z.of_nat (tick w) + ((v_last o).2 - p1.2) + 1.
  Proof.
    intros Hp Hs Hr. apply run_bind in Hr as (u1 & s1 & w1 & H1 & Hr). apply run_bind in Hr as (u2 & s2 & w2 & H2 & Hr).
    apply run_bind in Hr as (u3 & s3 & w3 & H3 & Hr). apply run_bind in Hr as (u4 & s4 & w4 & H4 & Hr).
    injection Hr as <- <- <-.
    destruct (still_construct _ _ _ _ _ _ _ H1) as [-> _]. pose proof (takes_construct _ _ _ _ _ _ _ H1).
    injection H2 as <- <- <-.
    destruct (still_move_backward _ _ _ _ _ _ _ _ H3) as [-> _]. pose proof (takes_move_backward _ _ _ _ _ _ _ _ H3) as Hm.
    destruct (still_assign _ _ _ _ _ _ _ H4) as [-> _]. pose proof (takes_assign _ _ _ _ _ _ _ H4).
    split_and!; try done. cbn in Hm. lia.
  Qed.
  (** At the end of the container or before. *)
  Lemma place_cost temp pos a s w r s' w' : place temp pos a s w = Ok r s' w' ->
    v_first s' = v_first s /\ r.2 = pos.2 /\
    Z.of_nat (tick w') = Z.of_nat (tick w) +
      (if pos.2 =? (v_last s).2 then 1 else (v_last s).2 - pos.2 + (if temp then 2 else 1)).
  Proof.
    unfold place, emplace_inplace, exact_inplace. intros Hr.
    assert (exists k, offset_of pos s w = Ok k s w /\ k = pos.2 - (v_first s).2 /\ pos.1 = (v_first s).1 /\ (v_first s).1 = (v_last s).1 /\
      (if loc_eqb (v_first s +ₗ k) (v_last s) then
         (construct (v_first s +ₗ k) a;; set_last (v_last s +ₗ 1);; ret (v_first s +ₗ k))%prog
       else if temp then
         (tmp <- make a;;
          construct (v_last s) (AMove (v_last s +ₗ -1));;
          set_last (v_last s +ₗ 1);;
          move_backward (v_first s +ₗ k) (v_last s +ₗ -1) (v_last s);;
          assign (v_first s +ₗ k) (AVal tmp);;
          ret (v_first s +ₗ k))%prog
       else
         (construct (v_last s) (AMove (v_last s +ₗ -1));;
          set_last (v_last s +ₗ 1);;
          move_backward (v_first s +ₗ k) (v_last s +ₗ -1) (v_last s);;
          assign (v_first s +ₗ k) a;;
          ret (v_first s +ₗ k))%prog) s w = Ok r s' w') as (k & Hk & -> & Hb & Hl & Hr').
    { destruct temp; apply run_bind in Hr as (o & s1 & w1 & H1 & Hr); injection H1 as <- <- <-;
        apply run_bind in Hr as (k & s2 & w2 & H2 & Hr); destruct (offset_value _ _ _ _ _ _ H2) as (-> & -> & Hk & Hb & _ & Hl);
        exists k; split_and!; try done; by destruct (loc_eqb _ _). }
    clear Hr. replace (v_first s +ₗ (pos.2 - (v_first s).2)) with pos in Hr'.
    2:{ destruct pos as [b i], (v_first s) as [b' i']. cbn in *. unfold loc_add. cbn. f_equal; [done|lia]. }
    destruct (loc_eqb pos (v_last s)) eqn:He.
    - unfold loc_eqb in He. replace (pos.2 =? _) with true by lia.
      apply run_bind in Hr' as (u1 & s1 & w1 & H1 & Hr'). apply run_bind in Hr' as (u2 & s2 & w2 & H2 & Hr').
      injection Hr' as <- <- <-. injection H2 as <- <- <-.
      destruct (still_construct _ _ _ _ _ _ _ H1) as [-> _]. pose proof (takes_construct _ _ _ _ _ _ _ H1).
      split_and!; try done. lia.
    - unfold loc_eqb in He. replace (pos.2 =? _) with false by lia. destruct temp.
      + apply run_bind in Hr' as (v & s1 & w1 & H1 & Hr'). destruct (still_make _ _ _ _ _ _ H1) as [-> _].
        pose proof (takes_make _ _ _ _ _ _ H1). destruct (shifts_up _ _ _ _ _ _ _ _ Hb eq_refl Hr') as (-> & ? & ?).
        split_and!; try done. lia.
      + destruct (shifts_up _ _ _ _ _ _ _ _ Hb eq_refl Hr') as (-> & ? & ?). split_and!; try done. lia.
  Qed.
  Lemma still_static_room N : still (static_room N).
  Proof.
    apply still_bind; [|intros b; apply still_assert]. apply still_bind; [apply still_size|]. intros n. apply still_ret.
  Qed.
  Lemma shifts_static N temp p a : shifts (static_exact N temp p a) Some.
  Proof.
    apply shifts_still; [apply still_static_room|]. intros _ s w r s' w' q Hr [= <-].
    destruct (place_cost _ _ _ _ _ _ _ _ Hr) as (-> & -> & ->). destruct (_ =? _) eqn:?; [lia|]. destruct temp; lia.
  Qed.

  Lemma takes_uninit_mine {St} p q d :
    takes (uninitialized_move_if_noexcept_a p q d : M St loc) (q.2 - p.2) (q.2 - p.2).
  Proof.
    intros s w r s' w'. unfold uninitialized_move_if_noexcept_a, range, bind, range_len, ret.
    destruct (_ =? _); [|done]. destruct (_ <=? _) eqn:Hle; [|done]. intros Hr.
    pose proof (takes_uninit_loop _ _ _ _ _ _ _ _ Hr) as H. rewrite refs_length in H. lia.
  Qed.
  Lemma bounded_small_release N ib p n : bounded (release (small_storage N ib) p n) 0.
  Proof.
    cbn. destruct (loc_eqb _ _); [apply bounded_ret|].
    apply bounded_bind0; [apply bounded_get|intros; apply bounded_deallocate].
  Qed.
  Lemma still_small_acquire N ib n : still (acquire (small_storage N ib) n).
  Proof.
    cbn. apply still_bind; [apply still_get|]. intros o. destruct (_ && _); [apply still_ret|].
    apply still_bind; [|intros; apply still_ret]. intros s w r s' w'. unfold allocate.
    destruct (_ =? _); [by intros [= <- <- <-]|]. destruct (_ <? _); [done|]. destruct (may_throw _ _); [done|].
    intros [= <- <- <-]. cbn. split; [done|lia].
  Qed.
  Lemma small_replace_cost N ib nf nl ne s w u s' w' :
    replace_storage (small_storage N ib) nf nl ne s w = Ok u s' w' -> v_first s' = nf /\ tick w' = tick w.
  Proof.
    intros Hr. split; last first.
    { assert (bounded (replace_storage (small_storage N ib) nf nl ne) 0) as Hb.
      { apply bounded_bind0; [apply bounded_get|]. intros o. apply bounded_bind0; [apply bounded_destroy_a|]. intros _.
        apply bounded_bind0; [apply bounded_ptr_sub|]. intros z.
        apply bounded_bind0; [apply bounded_small_release|]. intros _. apply bounded_mod. }
      specialize (Hb s w). rewrite Hr in Hb. lia. }
    apply run_bind in Hr as (o & s1 & w1 & _ & Hr). apply run_bind in Hr as (u1 & s2 & w2 & _ & Hr).
    apply run_bind in Hr as (z & s3 & w3 & _ & Hr). apply run_bind in Hr as (u2 & s4 & w4 & _ & Hr).
    injection Hr as <- <- <-. done.
  Qed.
  Lemma still_new_capacity st n : still (new_capacity st n).
  Proof.
    apply still_bind; [apply still_size|]. intros a. apply still_bind.
    { apply still_bind; [apply still_get|]. intros o. apply still_sub. }
    intros b. destruct (calc_cap _ _ _ _); [apply still_ret|apply still_throw].
  Qed.
  Lemma small_exact_cost N ib temp p a s w r s' w' :
    small_exact (small_storage N ib) temp p a s w = Ok r s' w' ->
    let h := (v_last s).2 - (v_first s).2 in let i := r.2 - (v_first s').2 in
    0 <= i <= h /\ Z.of_nat (tick w) + (h - i) <= Z.of_nat (tick w') <= Z.of_nat (tick w) + h + 2.
  Proof.
    intros Hr h i. unfold h, i. clear h i.
    apply run_bind in Hr as (o & s1 & w1 & H1 & Hr). injection H1 as <- <- <-.
    apply run_bind in Hr as (k & s2 & w2 & H2 & Hr). destruct (offset_value _ _ _ _ _ _ H2) as (-> & -> & Hk & Hb & Hk2 & Hl).
    destruct (negb _).
    { destruct (place_cost _ _ _ _ _ _ _ _ Hr) as (-> & -> & ->). destruct (_ =? _) eqn:?; [lia|]. destruct temp; lia. }
    apply run_bind in Hr as (nc & s3 & w3 & H3 & Hr). destruct (still_new_capacity _ _ _ _ _ _ _ H3) as [-> Ht3].
    assert (bounded (new_capacity (small_storage N ib) 1) 0) as Hbc.
    { apply bounded_bind0; [apply bounded_size|]. intros z. apply bounded_bind0.
      { apply bounded_bind0; [apply bounded_get|intros; apply bounded_ptr_sub]. }
      intros z2. destruct (calc_cap _ _ _ _); [apply bounded_ret|apply bounded_throw]. }
    specialize (Hbc s w). rewrite H3 in Hbc.
    apply run_bind in Hr as (o & s4 & w4 & H4 & Hr). injection H4 as <- <- <-.
    apply run_bind in Hr as (nb & s5 & w5 & H5 & Hr). destruct (still_small_acquire _ _ _ _ _ _ _ _ H5) as [-> Ht5].
    assert (bounded (acquire (small_storage N ib) nc) 1) as Hba.
    { cbn. apply bounded_bind0; [apply bounded_get|]. intros o.
      destruct (_ && _); [eapply bounded_mono; [apply bounded_ret|lia]|].
      apply bounded_bind_r; [apply bounded_allocate|intros; apply bounded_ret]. }
    specialize (Hba s w3). rewrite H5 in Hba.
    apply run_bind in Hr as (nl & s6 & w6 & H6 & Hr).
    apply run_bind in Hr as (u & s7 & w7 & H7 & Hr). injection Hr as <- <- <-.
    destruct (small_replace_cost _ _ _ _ _ _ _ _ _ _ H7) as [-> Ht7'].
    assert (Z.of_nat (tick w6) = Z.of_nat (tick w5) + 1 + ((v_last s).2 - (v_first s).2)).
    { revert H6. match goal with |- local_ _ ?m _ _ = _ -> _ =>
        enough (takes m (1 + k + ((v_last s).2 - (v_first s).2 - k) + 0) (1 + k + ((v_last s).2 - (v_first s).2 - k) + 0)) as Ht end.
      { intros H6. apply (takes_local nb.1) in Ht. specialize (Ht _ _ _ _ _ H6). lia. }
      apply takes_bind; [|intros; apply takes_bounded, bounded_getl]. apply takes_try.
      rewrite -!Z.add_assoc. apply takes_bind; [apply takes_construct|]. intros _.
      apply takes_bind0; [apply takes_bounded, bounded_setl|]. intros _.
      apply takes_bind; [eapply takes_mono; [apply takes_uninit_mine|cbn; lia..]|]. intros l1.
      apply takes_bind0; [apply takes_bounded, bounded_setl|]. intros _.
      apply takes_bind0; [apply takes_bounded, bounded_setl|]. intros _.
      rewrite -(Z.add_0_r ((v_last s).2 - _ - _)).
      apply takes_bind; [eapply takes_mono; [apply takes_uninit_mine|cbn; lia..]|].
      intros l2. apply takes_bounded, bounded_setl. }
    cbn. lia.
  Qed.
  Lemma shifts_small N ib temp p a : shifts (small_exact (small_storage N ib) temp p a) Some.
  Proof. intros s w r s' w' q Hr [= <-]. pose proof (small_exact_cost _ _ _ _ _ _ _ _ _ _ Hr) as H. cbv zeta in H. lia. Qed.
End lower.

(** ** The loop *)
Section loop.
  Context `{KD : Keyed}.
  Variable c : Cmp.
  Variable kd : fkind.
  Notation lt := (less c).
  Context (exact : loc -> arg -> M vdata loc) (room : M vdata unit)
    (fv : nat -> loc -> list V -> Z -> hProp) (alloc robust : bool) (fits : nat -> bool)
    (EX : exact_ok exact room fv (multi kd) alloc robust fits).

  (** The object [s] holds [l]. *)
  Definition has (s : vdata) (l : list V) (w : world) (hf : heapm) : Prop :=
    wf_world w /\ exists a f cap h, s = vobj a f (length l) cap /\ heap w = h ∪ hf /\ h ##ₘ hf /\ fv a f l cap h.

  Lemma each_step (m : M vdata (loc * bool)) v s l w hf r s' w' :
    (forall a f cap Q X, fv a f l cap ⊢
       ins_cont c kd fv alloc robust pair_at a f l cap v Q X -∗ wp m (vobj a f (length l) cap) Q X) ->
    has s l w hf -> m s w = Ok r s' w' ->
    exists l' i, has s' l' w' hf /\ r.1.2 - (v_first s').2 = Z.of_nat i /\
      (length l <= length l' <= S (length l))%nat /\
      (strict_weak lt -> ordered kd c l -> inserted kd c v l i r.2 l').
  Proof.
    intros Hm (Hwf & a & f & cap & h & -> & Hh & Hd & Hv) Hr.
    assert (fv a f l cap ⊢ wp m (vobj a f (length l) cap)
      (fun r s' => ∃ f' cap' l' i, ⟦r = pair_at f' i r.2 /\ s' = vobj a f' (length l') cap' /\
         ins_ok c kd f cap v l f' cap' l' i r.2⟧ ∗ fv a f' l' cap') (fun _ _ => True))%I as Hwp.
    { iIntros "Hv". iApply (Hm with "Hv"). iSplit.
      - iIntros (f' cap' l' i b) "%Hi Hv". iExists f', cap', l', i. by iFrame.
      - by iIntros. }
    pose proof (wp_run _ _ _ _ h hf w (wp_entails _ _ _ _ _ _ Hwp Hv) Hwf Hd Hh) as Hrun.
    rewrite Hr in Hrun. destruct Hrun as (h' & Hh' & Hd' & (Hwf' & _) & HQ).
    destruct HQ as (f' & cap' & l' & i & HQ). apply pure_holds in HQ as [(Hr1 & -> & H1 & H2 & _ & H4) HQ].
    exists l', i. split; [split; [done|by exists a, f', cap', h']|]. split.
    { rewrite Hr1. unfold pair_at, loc_add. unfold vobj. cbn. lia. }
    done.
  Qed.
  Lemma has_size s l w hf : has s l w hf -> (v_last s).2 - (v_first s).2 = Z.of_nat (length l).
  Proof. intros (_ & a & f & cap & h & -> & _). unfold vobj, loc_add. cbn. lia. Qed.

  (** What goes before everything becomes the first element. *)
  Lemma inserted_front v l i b l' :
    strict_weak lt -> (forall y, y ∈ l -> lt (key v) (key y) = true) -> inserted kd c v l i b l' ->
    b = true /\ i = 0%nat /\ l' = v :: l.
  Proof.
    intros (Hirr & Htr & _) Hv [(_ & _ & (y & Hy & He) & _)|(_ & -> & Hi & -> & Ho)].
    - destruct He as [_ He]. rewrite (Hv y) in He; [done|]. by eapply elem_of_list_lookup_2.
    - assert (i = 0%nat) as ->; [|done]. destruct i as [|i]; [done|]. exfalso.
      destruct l as [|y l]; [cbn in Hi; lia|].
      assert (lt (key v) (key y) = true) as Hlt by (apply Hv; left).
      specialize (Ho 0%nat (S i) y v). cbn in Ho.
      assert (in_order kd c (key y) (key v)) as Hin.
      { apply Ho; [lia|done|]. rewrite lookup_app_r; rewrite take_length; cbn in Hi; [|lia].
        replace (i - _)%nat with 0%nat by lia. done. }
      unfold in_order in Hin. destruct (multi kd); [congruence|].
      specialize (Hirr (key v)). rewrite (Htr _ _ _ Hlt Hin) in Hirr. done.
  Qed.

  Lemma loop_descending (each : V -> M vdata (loc * bool)) (loop : list V -> M vdata unit) :
    (loop [] = ret tt) ->
    (forall v vs, loop (v :: vs) = (each v;; loop vs)%prog) ->
    (forall v, shifts (each v) new_at) ->
    (forall a f l cap v Q X, fits (S (length l)) = true ->
       fv a f l cap ⊢ ins_cont c kd fv alloc robust pair_at a f l cap v Q X -∗ wp (each v) (vobj a f (length l) cap) Q X) ->
    strict_weak lt ->
    forall vs s l w hf s' w', has s l w hf -> fits (length l + length vs) = true ->
    ordered kd c l -> descending c vs -> (forall x y, x ∈ vs -> y ∈ l -> lt (key x) (key y) = true) ->
    loop vs s w = Ok tt s' w' ->
    let n := length vs in (2 * tick w + n * (n - 1) + 2 * n * length l <= 2 * tick w')%nat.
  Proof using EX.
    intros Hnil Hcons Hsh Heach Hsw vs. induction vs as [|v vs IH]; intros s l w hf s' w' Hs Hf Ho Hd Hall Hr.
    { rewrite Hnil in Hr. injection Hr as <- <-. cbn. lia. }
    rewrite Hcons in Hr. apply run_bind in Hr as (r & s1 & w1 & H1 & Hr). cbn [length] in *.
    assert (fits (S (length l)) = true) as Hf1 by (eapply (ex_fits _ _ _ _ _ _ _ EX); [|exact Hf]; lia).
    destruct (each_step (each v) v s l w hf r s1 w1 (fun a f cap Q X => Heach a f l cap v Q X Hf1) Hs H1)
      as (l1 & i & Hs1 & Hi & Hlen & Hins).
    specialize (Hins Hsw Ho). pose proof (inserted_ordered _ _ _ _ _ _ _ Ho Hins) as Ho1.
    destruct (inserted_front v l i r.2 l1 Hsw) as (Hb & -> & ->); [|done|].
    { intros y Hy. apply Hall; [left|done]. }
    assert (new_at r = Some r.1) as Hat by (unfold new_at; by rewrite Hb).
    pose proof (Hsh v _ _ _ _ _ _ H1 Hat) as Ht. rewrite Hi (has_size _ _ _ _ Hs) in Ht.
    specialize (IH s1 (v :: l) w1 hf s' w' Hs1). cbn [length] in IH.
    assert (2 * tick w1 + length vs * (length vs - 1) + 2 * length vs * S (length l) <= 2 * tick w')%nat as IH'.
    { apply IH; try done.
      - by replace (S (length l) + length vs)%nat with (length l + S (length vs))%nat by lia.
      - intros a b x y Hab Hx Hy. eapply (Hd (S a) (S b)); [lia|done|done].
      - intros x y Hx Hy. apply elem_of_cons in Hy as [->|Hy]; [|apply Hall; [by right|done]].
        apply elem_of_list_lookup in Hx as [j Hj]. by apply (Hd 0%nat (S j)); [lia|..]. }
    clear IH. destruct (length vs) as [|n] eqn:Hn; cbn [Nat.sub] in *; nia.
  Qed.
  Context (EC : forall p a, shifts (exact p a) Some) (RC : still room).
  Lemma insert_descending vs s l w hf s' w' :
    strict_weak lt -> has s l w hf -> fits (length l + length vs) = true ->
    ordered kd c l -> descending c vs -> (forall x y, x ∈ vs -> y ∈ l -> lt (key x) (key y) = true) ->
    insert_loop lt kd exact room vs s w = Ok tt s' w' ->
    let n := length vs in (2 * tick w + n * (n - 1) + 2 * n * length l <= 2 * tick w')%nat.
  Proof using EX EC RC.
    intros Hsw. apply (loop_descending (fun v => insert_value lt kd exact room (AVal v))); [done|done| | |done].
    - intros v. by apply shifts_insert_value.
    - intros. apply (wp_insert_value c kd _ _ _ _ _ _ EX); [done|apply ar_val|by intros []].
  Qed.
  Lemma emplace_descending vs s l w hf s' w' :
    strict_weak lt -> has s l w hf -> fits (length l + length vs) = true ->
    ordered kd c l -> descending c vs -> (forall x y, x ∈ vs -> y ∈ l -> lt (key x) (key y) = true) ->
    emplace_loop lt kd exact room vs s w = Ok tt s' w' ->
    let n := length vs in (2 * tick w + n * (n - 1) + 2 * n * length l <= 2 * tick w')%nat.
  Proof using EX EC RC.
    intros Hsw. apply (loop_descending (fun v => emplace_key lt kd exact room (AVal v))); [done|done| | |done].
    - intros v. by apply shifts_emplace_key.
    - intros. apply (wp_emplace_key c kd _ _ _ _ _ _ EX); [done|apply ar_val|by intros []].
  Qed.
End loop.

(** ** Upper bounds *)
Section upper.
  Context `{KD : Keyed}.

  (** [U n i]: what an insertion at position [i] of [n] elements costs at most. *)
  Definition within (U : Z -> Z -> Z) {A} (m : M vdata A) (at_ : A -> option loc) (f : nat -> nat) : Prop :=
    forall s n w r s' w', sized s n -> m s w = Ok r s' w' ->
    Z.of_nat (tick w') <= Z.of_nat (tick w) + Z.of_nat (f n) +
      match at_ r with Some p => U (Z.of_nat n) (p.2 - (v_first s').2) | None => 0 end.
  Lemma within_still U {A B} (m : M vdata A) (k : A -> M vdata B) at_ f g :
    still m -> lookup_cost m f -> (forall a, within U (k a) at_ g) ->
    within U (bind m k) at_ (fun n => f n + g n)%nat.
  Proof.
    intros Hs Hm Hk s n w r s' w' Hn Hr. apply run_bind in Hr as (a & s1 & w1 & H1 & Hr).
    destruct (Hs _ _ _ _ _ H1) as [-> _]. specialize (Hm s n Hn w). rewrite H1 in Hm.
    specialize (Hk a s n w1 r s' w' Hn Hr). destruct (at_ r); lia.
  Qed.
  Lemma within_mono U {A} (m : M vdata A) at_ f g :
    within U m at_ f -> (forall n, (f n <= g n)%nat) -> within U m at_ g.
  Proof. intros Hm Hg s n w r s' w' Hn Hr. specialize (Hm s n w r s' w' Hn Hr). specialize (Hg n). lia. Qed.
  Lemma within_pair U (m : M vdata loc) f : within U m Some f -> within U (p <- m;; ret (p, true))%prog new_at f.
  Proof.
    intros Hm s n w r s' w' Hn Hr. apply run_bind in Hr as (q & s1 & w1 & H1 & Hr). injection Hr as <- <- <-.
    apply (Hm s n w q _ _ Hn H1).
  Qed.
  Lemma bounded_lookup {A} (m : M vdata A) k : bounded m k -> lookup_cost m (fun _ => k).
  Proof. intros Hm x n _. apply Hm. Qed.

  Section insert.
    Context (U : Z -> Z -> Z) (lt : Key -> Key -> bool) (kd : fkind) (exact : loc -> arg -> M vdata loc) (room : M vdata unit).
    Context (EU : forall p a, within U (exact p a) Some (fun _ => 0%nat)) (RC : still room) (RB : bounded room 0).
    Lemma bounded_key a : bounded (arg_key a) 0.
    Proof.
      destruct a; simpl; try apply bounded_ret; (apply bounded_bind0; [apply bounded_read|intros; apply bounded_ret]).
    Qed.
    Lemma within_insert_aux a : within U (insert_aux lt kd exact a) new_at (fun n => digits n + 1)%nat.
    Proof using EU.
      unfold insert_aux, insert_multi, insert_unique. destruct (multi kd).
      - eapply within_mono; [eapply within_still; [apply still_key|apply bounded_lookup, bounded_key|]|].
        { intros k. eapply within_still; [apply still_lower|apply cost_lower|]. intros it. apply within_pair, EU. }
        intros n. cbn. lia.
      - eapply within_mono; [eapply within_still; [apply still_key|apply bounded_lookup, bounded_key|]|].
        { intros k. eapply within_still; [apply still_lower|apply cost_lower|]. intros it.
          eapply (within_still _ _ _ _ (fun _ => 1%nat) (fun _ => 0%nat)); [apply still_new| |].
          { apply bounded_lookup. apply bounded_bind0; [apply bounded_get|]. intros o.
            destruct (loc_eqb _ _); [eapply bounded_mono; [apply bounded_ret|lia]|apply bounded_test]. }
          intros []; [apply within_pair, EU|]. intros s n w r s' w' _ [= <- <- <-]. cbn. lia. }
        intros n. cbn. lia.
    Qed.
    Lemma within_insert_value a : within U (insert_value lt kd exact room a) new_at (fun n => digits n + 2)%nat.
    Proof using EU RC RB.
      eapply within_mono; [eapply within_still; [exact RC|apply bounded_lookup, RB|intros; apply within_insert_aux]|].
      intros n. cbn. lia.
    Qed.
    Lemma within_emplace_key a : within U (emplace_key lt kd exact room a) new_at (fun n => digits n + 2)%nat.
    Proof using EU RC RB.
      eapply within_mono; [eapply within_still; [exact RC|apply bounded_lookup, RB|]|].
      { intros _. eapply within_still; [apply still_make|apply bounded_lookup, bounded_make|].
        intros v. apply within_insert_aux. }
      intros n. cbn. lia.
    Qed.
  End insert.

  Definition static_up (n i : Z) : Z := n - i + 2.
  Definition small_up (n i : Z) : Z := n + 2.
  Lemma bounded_static_room N : bounded (static_room N) 0.
  Proof.
    apply bounded_bind0; [|intros b; apply bounded_assert].
    apply bounded_bind0; [apply bounded_size|intros; apply bounded_ret].
  Qed.
  Lemma within_static N temp p a : within static_up (static_exact N temp p a) Some (fun _ => 0%nat).
  Proof.
    eapply within_mono; [eapply within_still; [apply still_static_room|apply bounded_lookup, bounded_static_room|]|].
    { intros _ s n w r s' w' Hn Hr. assert (s = s) as _ by done.
      destruct (place_cost _ _ _ _ _ _ _ _ Hr) as (-> & -> & ->). unfold sized in Hn. unfold static_up.
      instantiate (1 := fun _ => 0%nat). cbn. destruct (_ =? _) eqn:?; [lia|]. destruct temp; lia. }
    intros n. cbn. lia.
  Qed.
  Lemma within_small N ib temp p a : within small_up (small_exact (small_storage N ib) temp p a) Some (fun _ => 0%nat).
  Proof.
    intros s n w r s' w' Hn Hr. unfold sized in Hn. unfold small_up.
    pose proof (small_exact_cost _ _ _ _ _ _ _ _ _ _ Hr) as H. cbv zeta in H. lia.
  Qed.
End upper.

Section loop_up.
  Context `{KD : Keyed}.
  Variable c : Cmp.
  Variable kd : fkind.
  Notation lt := (less c).
  Context (exact : loc -> arg -> M vdata loc) (room : M vdata unit)
    (fv : nat -> loc -> list V -> Z -> hProp) (alloc robust : bool) (fits : nat -> bool)
    (EX : exact_ok exact room fv (multi kd) alloc robust fits).
  Notation has := (has fv).

  (** What goes behind everything becomes the last element. *)
  Lemma inserted_back v l i b l' :
    strict_weak lt -> (forall y, y ∈ l -> lt (key y) (key v) = true) -> inserted kd c v l i b l' ->
    b = true /\ i = length l /\ l' = l ++ [v].
  Proof.
    intros (Hirr & Htr & _) Hv [(_ & _ & (y & Hy & He) & _)|(_ & -> & Hi & -> & Ho)].
    - destruct He as [He _]. rewrite (Hv y) in He; [done|]. by eapply elem_of_list_lookup_2.
    - assert (i = length l) as ->; [|rewrite take_ge; [|lia]; rewrite drop_ge; [done|lia]].
      destruct (decide (i = length l)) as [|Hne]; [done|]. exfalso.
      destruct (lookup_lt_is_Some_2 l i) as [y Hy]; [lia|].
      assert (lt (key y) (key v) = true) as Hlt by (apply Hv; by eapply elem_of_list_lookup_2).
      specialize (Ho i (S i) v y).
      assert (in_order kd c (key v) (key y)) as Hin.
      { apply Ho; [lia| |].
        - rewrite lookup_app_r; rewrite take_length; [|lia]. by replace (i - _)%nat with 0%nat by lia.
        - rewrite lookup_app_r; rewrite take_length; [|lia]. replace (S i - _)%nat with 1%nat by lia.
          cbn. by rewrite lookup_drop Nat.add_0_r. }
      unfold in_order in Hin. destruct (multi kd); [congruence|].
      specialize (Hirr (key v)). rewrite (Htr _ _ _ Hin Hlt) in Hirr. done.
  Qed.

  Section each.
    Context (each : V -> M vdata (loc * bool)) (loop : list V -> M vdata unit).
    Context (Hnil : loop [] = ret tt) (Hcons : forall v vs, loop (v :: vs) = (each v;; loop vs)%prog).
    Context (Heach : forall a f l cap v Q X, fits (S (length l)) = true ->
       fv a f l cap ⊢ ins_cont c kd fv alloc robust pair_at a f l cap v Q X -∗ wp (each v) (vobj a f (length l) cap) Q X).

    Lemma loop_any (U : Z -> Z -> Z) :
      (forall v, within U (each v) new_at (fun n => digits n + 2)%nat) ->
      (forall n i, 0 <= i -> U n i <= n + 2) ->
      forall vs s l w hf s' w' m, has s l w hf -> fits (length l + length vs) = true ->
      (length l + length vs <= m)%nat -> loop vs s w = Ok tt s' w' ->
      (tick w' <= tick w + length vs * (digits m + m + 4))%nat.
    Proof using EX Hnil Hcons Heach.
      intros Hw HU vs. induction vs as [|v vs IH]; intros s l w hf s' w' m Hs Hf Hm Hr.
      { rewrite Hnil in Hr. injection Hr as <- <-. cbn. lia. }
      rewrite Hcons in Hr. apply run_bind in Hr as (r & s1 & w1 & H1 & Hr). cbn [length] in *.
      assert (fits (S (length l)) = true) as Hf1 by (eapply (ex_fits _ _ _ _ _ _ _ EX); [|exact Hf]; lia).
      destruct (each_step c kd fv alloc robust (each v) v s l w hf r s1 w1 (fun a f cap Q X => Heach a f l cap v Q X Hf1) Hs H1)
        as (l1 & i & Hs1 & Hi & Hlen & _).
      pose proof (Hw v s (length l) w r s1 w1 (has_size _ _ _ _ _ Hs) H1) as Ht.
      pose proof (digits_mono (length l) m ltac:(lia)) as Hdg.
      specialize (IH s1 l1 w1 hf s' w' m Hs1).
      assert (tick w' <= tick w1 + length vs * (digits m + m + 4))%nat as IH'.
      { apply IH; [|lia|done]. eapply (ex_fits _ _ _ _ _ _ _ EX); [|exact Hf]. lia. }
      unfold new_at in Ht. destruct r.2; [pose proof (HU (Z.of_nat (length l)) (r.1.2 - (v_first s1).2) ltac:(lia))|]; nia.
    Qed.
    Lemma loop_ascending (U : Z -> Z -> Z) :
      (forall v, within U (each v) new_at (fun n => digits n + 2)%nat) ->
      (forall n, U n n <= 2) -> strict_weak lt ->
      forall vs s l w hf s' w' m, has s l w hf -> fits (length l + length vs) = true ->
      ordered kd c l -> ascending c vs -> (forall x y, x ∈ vs -> y ∈ l -> lt (key y) (key x) = true) ->
      (length l + length vs <= m)%nat -> loop vs s w = Ok tt s' w' ->
      (tick w' <= tick w + length vs * (digits m + 4))%nat.
    Proof using EX Hnil Hcons Heach.
      intros Hw HU Hsw vs. induction vs as [|v vs IH]; intros s l w hf s' w' m Hs Hf Ho Hd Hall Hm Hr.
      { rewrite Hnil in Hr. injection Hr as <- <-. cbn. lia. }
      rewrite Hcons in Hr. apply run_bind in Hr as (r & s1 & w1 & H1 & Hr). cbn [length] in *.
      assert (fits (S (length l)) = true) as Hf1 by (eapply (ex_fits _ _ _ _ _ _ _ EX); [|exact Hf]; lia).
      destruct (each_step c kd fv alloc robust (each v) v s l w hf r s1 w1 (fun a f cap Q X => Heach a f l cap v Q X Hf1) Hs H1)
        as (l1 & i & Hs1 & Hi & Hlen & Hins).
      specialize (Hins Hsw Ho). pose proof (inserted_ordered _ _ _ _ _ _ _ Ho Hins) as Ho1.
      destruct (inserted_back v l i r.2 l1 Hsw) as (Hb & -> & ->); [|done|].
      { intros y Hy. apply Hall; [left|done]. }
      pose proof (Hw v s (length l) w r s1 w1 (has_size _ _ _ _ _ Hs) H1) as Ht.
      pose proof (digits_mono (length l) m ltac:(lia)) as Hdg.
      specialize (IH s1 (l ++ [v]) w1 hf s' w' m Hs1). rewrite app_length in IH. cbn [length] in IH.
      assert (tick w' <= tick w1 + length vs * (digits m + 4))%nat as IH'.
      { apply IH; try done.
        - by replace (length l + 1 + length vs)%nat with (length l + S (length vs))%nat by lia.
        - intros a b x y Hab Hx Hy. eapply (Hd (S a) (S b)); [lia|done|done].
        - intros x y Hx Hy. apply elem_of_app in Hy as [Hy|Hy%elem_of_list_singleton].
          + apply Hall; [by right|done].
          + subst y. apply elem_of_list_lookup in Hx as [j Hj]. by apply (Hd 0%nat (S j)); [lia|..].
        - lia. }
      unfold new_at in Ht. rewrite Hb Hi in Ht. pose proof (HU (Z.of_nat (length l))). nia.
    Qed.
  End each.
End loop_up.

Lemma val_stays `{Env} v : ~ is_move (AVal v).
Proof. by intros []. Qed.

(** ** The constructors *)
Section construct.
  Context `{KD : Keyed}.
  Variable fl : flavour.
  Variable kd : fkind.
  Hypothesis HN : sane fl.

  (** A constructor from a range is the constructor without elements followed by
      the loop. *)
  Definition fill (c : Cmp) (ib : loc) (vs : list V) : M vdata unit :=
    match fl with
    | StaticF N => emplace_loop (less c) kd (static_exact N (multi kd)) (static_room N) vs
    | SmallF N => insert_loop (less c) kd (small_exact (small_storage N ib) (multi kd)) (ret tt) vs
    end.
  Lemma buffer_tick N w ib (u : unit) w1 : buffer N tt w = Ok ib u w1 -> tick w1 = tick w.
  Proof. unfold buffer. destruct (Nat.eqb _ _); [by intros [= <- <- <-]|]. unfold enter. by intros [= <- <- <-]. Qed.
  Lemma new_range_steps c a vs w x u w' :
    flat_new fl kd (NewRange c a vs) tt w = Ok x u w' ->
    exists x0 w1, flat_new fl kd (NewEmpty c a) tt w = Ok x0 tt w1 /\ tick w1 = tick w /\
      fill c x0.1 vs x0.2 w1 = Ok tt x.2 w'.
  Proof.
    unfold flat_new, fill. destruct fl as [N|N]; unfold construct_small, bind, try_;
      (destruct (buffer N tt w) as [ib [] w1| |] eqn:Hb; [|done..]); pose proof (buffer_tick _ _ _ _ _ Hb) as Ht;
      cbn [static_flat_init small_flat_init]; unfold try_, ret.
    - destruct (emplace_loop _ _ _ _ vs _ w1) as [[] o w2|e o w2|] eqn:Hl; [| |done].
      + intros [= <- <- <-]. by eexists (_, _), _.
      + destruct (static_destructor o w2); try done; by destruct (drop_buffer _ _ _ _).
    - destruct (insert_loop _ _ _ _ vs _ w1) as [[] o w2|e o w2|] eqn:Hl; [| |done].
      + intros [= <- <- <-]. by eexists (_, _), _.
      + destruct (destructor_ _ o w2); try done; by destruct (drop_buffer _ _ _ _).
  Qed.
  Lemma static_has N x l w hf :
    holds (is_flat (StaticF N)) x l w hf -> has (static_fv N) x.2 l w hf.
  Proof.
    intros (Hwf & m & (ib & Hx) & Hh & Hd). split; [done|]. apply static_iff in Hx.
    apply pure_holds in Hx as [[Hib ->] Hb]. cbn [fst snd] in *.
    exists 0%nat, ib, (Z.of_nat N), m. split_and!; try done. apply pure_sep_holds. done.
  Qed.
  Lemma small_has N (HN' : fits N) x l w hf :
    holds (is_flat (SmallF N)) x l w hf ->
    has (vec_at (small_storage N x.1) (small_ok N x.1)) x.2 l w hf.
  Proof.
    intros (Hwf & m & (ib & a & d & cap & Hx) & Hh & Hd). split; [done|]. apply (is_small_iff N HN') in Hx.
    destruct (sinv_open N HN' x (ib, VAbs a d l cap)) as [Ho]. specialize (Ho m Hx).
    destruct Ho as (ib' & a' & f' & l' & cap' & Ho). apply pure_holds in Ho as [[[= <- <- <- <- <-] ->] Hv].
    cbn [fst snd]. exists a, d, cap, m. split_and!; done.
  Qed.
  Lemma start_empty c a w hf x0 w1 :
    holds0 w hf -> flat_new fl kd (NewEmpty c a) tt w = Ok x0 tt w1 -> holds (is_flat fl) x0 [] w1 hf.
  Proof using HN.
    intros Hw Hr. pose proof (flat_new_ok fl kd HN (NewEmpty c a) w hf Hw) as H. rewrite Hr in H.
    destruct H as (l & Hl & [Hlen _] & _); [by destruct fl|]. destruct l; [done|cbn in Hlen; lia].
  Qed.

  Lemma flat_range_quadratic c a vs w hf x u w' :
    strict_weak (less c) -> descending c vs -> holds0 w hf -> can_hold fl (length vs) = true ->
    flat_new fl kd (NewRange c a vs) tt w = Ok x u w' ->
    (2 * tick w + length vs * (length vs - 1) <= 2 * tick w')%nat.
  Proof using HN.
    intros Hsw Hd Hw Hk Hr. destruct (new_range_steps c a vs w x u w' Hr) as (x0 & w1 & H0 & Ht & Hf).
    pose proof (start_empty c a w hf x0 w1 Hw H0) as Hx. rewrite -Ht. unfold fill in Hf.
    assert (forall x y : V, x ∈ vs -> y ∈ [] -> less c (key x) (key y) = true) as Hn.
    { intros ? y _ Hy. by apply elem_of_nil in Hy. }
    destruct fl as [N|N].
    - apply static_has in Hx.
      pose proof (emplace_descending c kd _ _ _ _ _ _ (static_exact_ok N (multi kd)) (shifts_static N (multi kd))
        (still_static_room N) vs _ _ _ _ _ _ Hsw Hx Hk (ordered_nil _ _) Hd Hn Hf) as H. cbn in H. lia.
    - apply (small_has N HN) in Hx.
      pose proof (insert_descending c kd _ _ _ _ _ _ (small_exact_ok (small_storage N x0.1) (small_ok N x0.1) (multi kd))
        (shifts_small N x0.1 (multi kd)) (still_ret tt) vs _ _ _ _ _ _ Hsw Hx Hk (ordered_nil _ _) Hd Hn Hf) as H.
      cbn in H. lia.
  Qed.
  Lemma flat_range_upper c a vs w hf x u w' :
    holds0 w hf -> can_hold fl (length vs) = true ->
    flat_new fl kd (NewRange c a vs) tt w = Ok x u w' ->
    (tick w' <= tick w + length vs * (Nat.log2 (length vs) + length vs + 5))%nat.
  Proof using HN.
    intros Hw Hk Hr. destruct (new_range_steps c a vs w x u w' Hr) as (x0 & w1 & H0 & Ht & Hf).
    pose proof (start_empty c a w hf x0 w1 Hw H0) as Hx. rewrite -Ht. unfold fill in Hf.
    pose proof (digits_log (length vs)) as Hdg.
    enough (tick w' <= tick w1 + length vs * (digits (length vs) + length vs + 4))%nat by nia.
    destruct fl as [N|N].
    - apply static_has in Hx.
      eapply (loop_any c kd _ _ _ _ _ _ (static_exact_ok N (multi kd))
        (fun v => emplace_key (less c) kd (static_exact N (multi kd)) (static_room N) (AVal v))
        (emplace_loop (less c) kd (static_exact N (multi kd)) (static_room N)) eq_refl (fun _ _ => eq_refl)
        (fun a f l cap v Q X Hf => wp_emplace_key c kd _ _ _ _ _ _ (static_exact_ok N (multi kd)) a f l cap (AVal v) v Q X
           Hf (ar_val _ _ _) (val_stays v)) static_up);
        [| |exact Hx|exact Hk|done|exact Hf].
      + intros v. apply within_emplace_key; [apply within_static|apply still_static_room|apply bounded_static_room].
      + unfold static_up. lia.
    - apply (small_has N HN) in Hx.
      eapply (loop_any c kd _ _ _ _ _ _ (small_exact_ok (small_storage N x0.1) (small_ok N x0.1) (multi kd))
        (fun v => insert_value (less c) kd (small_exact (small_storage N x0.1) (multi kd)) (ret tt) (AVal v))
        (insert_loop (less c) kd (small_exact (small_storage N x0.1) (multi kd)) (ret tt)) eq_refl (fun _ _ => eq_refl)
        (fun a f l cap v Q X Hf => wp_insert_value c kd _ _ _ _ _ _
           (small_exact_ok (small_storage N x0.1) (small_ok N x0.1) (multi kd)) a f l cap (AVal v) v Q X
           Hf (ar_val _ _ _) (val_stays v)) small_up);
        [| |exact Hx|exact Hk|done|exact Hf].
      + intros v. apply within_insert_value; [apply within_small|apply still_ret|apply bounded_ret].
      + unfold small_up. lia.
  Qed.
End construct.

Section static.
  Context `{KD : Keyed}.
  Variable N : nat.
  Variable kd : fkind.
  Lemma static_range_ascending c a vs w hf x u w' :
    strict_weak (less c) -> ascending c vs -> holds0 w hf -> (length vs <= N)%nat ->
    flat_new (StaticF N) kd (NewRange c a vs) tt w = Ok x u w' ->
    (tick w' <= tick w + length vs * (Nat.log2 (length vs) + 5))%nat.
  Proof.
    intros Hsw Hd Hw Hk Hr. destruct (new_range_steps (StaticF N) kd I c a vs w x u w' Hr) as (x0 & w1 & H0 & Ht & Hf).
    pose proof (start_empty (StaticF N) kd I c a w hf x0 w1 Hw H0) as Hx. rewrite -Ht. unfold fill in Hf.
    pose proof (digits_log (length vs)) as Hdg.
    enough (tick w' <= tick w1 + length vs * (digits (length vs) + 4))%nat by nia.
    apply static_has in Hx.
    eapply (loop_ascending c kd _ _ _ _ _ _ (static_exact_ok N (multi kd))
        (fun v => emplace_key (less c) kd (static_exact N (multi kd)) (static_room N) (AVal v))
        (emplace_loop (less c) kd (static_exact N (multi kd)) (static_room N)) eq_refl (fun _ _ => eq_refl)
        (fun a f l cap v Q X Hf => wp_emplace_key c kd _ _ _ _ _ _ (static_exact_ok N (multi kd)) a f l cap (AVal v) v Q X
           Hf (ar_val _ _ _) (val_stays v)) static_up);
        [| |done|exact Hx| |apply ordered_nil|done| |done|exact Hf].
    - intros v. apply within_emplace_key; [apply within_static|apply still_static_room|apply bounded_static_room].
    - unfold static_up. lia.
    - apply Nat.leb_le. done.
    - intros ? y _ Hy. by apply elem_of_nil in Hy.
  Qed.
  (** If nothing throws, the constructor returns. *)
  Lemma static_range_returns c a vs :
    (forall k t, may_throw k t = false) -> (length vs <= N)%nat ->
    exists x w', flat_new (StaticF N) kd (NewRange c a vs) tt w0 = Ok x tt w'.
  Proof.
    intros Hq Hk. pose proof (static_build_ok' N kd (NewRange c a vs) Hk) as Hwp.
    pose proof (wp_run _ _ _ _ ∅ ∅ w0 (wp_entails emp%I _ _ _ _ ∅ Hwp eq_refl) w0_wf (map_disjoint_empty_l _) (eq_sym (left_id_L ∅ (∪) ∅))) as Hrun.
    cbn [flat_new]. destruct (construct_small _ _ _ tt w0) as [x [] w'|e [] w'|]; [by do 2 eexists| |done].
    destruct Hrun as (h & _ & _ & (_ & Hc) & _ & ->). destruct Hc as (k & t & _ & Ht & _).
    rewrite Hq in Ht. done.
  Qed.
End static.
