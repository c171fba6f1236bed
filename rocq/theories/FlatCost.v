(** * Cost of lookup in the flat containers

    [tick] counts the calls of the comparator (and every other operation of the
    element type; lookup makes none). *)

From iris.proofmode Require Import tactics.
From Verif Require Export VectorCost FlatThms UnordThms.
From Coq Require Import Lia ZifyBool.
Open Scope Z_scope.

(** How often [n] can be halved before nothing is left: the number of binary
    digits of [n]. *)
Definition digits (n : nat) : nat := if (n =? 0)%nat then 0%nat else S (Nat.log2 n).

Lemma digits_half n : (0 < n)%nat -> digits n = S (digits (Nat.div2 n)).
Proof.
  intros Hn. unfold digits. rewrite (Nat.div2_div n).
  destruct (n =? 0)%nat eqn:H0; [lia|]. f_equal.
  destruct (decide (n = 1)%nat) as [->|H1]; [done|].
  pose proof (Nat.div_mod n 2 ltac:(lia)) as Hdm. pose proof (Nat.mod_upper_bound n 2 ltac:(lia)) as Hmod.
  destruct (n / 2 =? 0)%nat eqn:H2; [lia|].
  remember (n / 2)%nat as m eqn:Hm. remember (n mod 2)%nat as r. rewrite Hdm.
  destruct (decide (r = 0)%nat) as [->|].
  - rewrite Nat.add_0_r Nat.log2_double; lia.
  - assert (r = 1)%nat as -> by lia. rewrite Nat.log2_succ_double; lia.
Qed.
Lemma digits_mono n m : (n <= m)%nat -> (digits n <= digits m)%nat.
Proof.
  intros H. unfold digits. destruct (n =? 0)%nat eqn:H0; [lia|]. destruct (m =? 0)%nat eqn:H1; [lia|].
  pose proof (Nat.log2_le_mono n m H). lia.
Qed.
Lemma digits_rest n : (0 < n)%nat -> (S (digits (n - Nat.div2 n - 1)) <= digits n)%nat.
Proof.
  intros Hn. rewrite (digits_half n Hn). apply le_n_S, digits_mono.
  rewrite Nat.div2_div. pose proof (Nat.div_mod n 2 ltac:(lia)). pose proof (Nat.mod_upper_bound n 2 ltac:(lia)). lia.
Qed.

Section cost.
  Context `{KD : Keyed}.

  Lemma bounded_test (p : V -> bool) x : bounded (test_ p x : M vdata bool) 1.
  Proof.
    apply bounded_bind0; [apply bounded_read|]. intros v.
    apply bounded_bind_r; [apply bounded_step|intros; apply bounded_ret].
  Qed.
  Lemma bounded_bound_loop (p : V -> bool) fuel : forall first len, bounded (bound_loop p fuel first len) (digits len).
  Proof.
    induction fuel as [|fuel IH]; intros first len; simpl.
    { eapply bounded_mono; [apply bounded_ret|lia]. }
    destruct (Nat.eqb len 0) eqn:H0.
    { eapply bounded_mono; [apply bounded_ret|lia]. }
    rewrite (digits_half len ltac:(lia)). apply (bounded_bind _ _ 1); [apply bounded_test|]. intros [].
    - eapply bounded_mono; [apply IH|]. pose proof (digits_rest len ltac:(lia)). rewrite (digits_half len) in H; lia.
    - apply IH.
  Qed.
  Lemma bounded_bound (p : V -> bool) first len : bounded (bound_ p first len) (digits len).
  Proof. apply bounded_bound_loop. Qed.
  Lemma bounded_equal_loop lt k fuel : forall first len, bounded (equal_loop lt k fuel first len) (2 * digits len).
  Proof.
    induction fuel as [|fuel IH]; intros first len; cbn [equal_loop].
    { eapply bounded_mono; [apply bounded_ret|lia]. }
    destruct (Nat.eqb len 0) eqn:H0.
    { eapply bounded_mono; [apply bounded_ret|lia]. }
    pose proof (digits_half len ltac:(lia)) as Hd. pose proof (digits_rest len ltac:(lia)) as Hr.
    eapply (bounded_mono _ (1 + (1 + 2 * digits (Nat.div2 len)))); [|lia].
    apply bounded_bind; [apply bounded_test|]. intros [].
    - eapply bounded_mono; [apply IH|lia].
    - apply bounded_bind; [apply bounded_test|]. intros [].
      + cbn [negb]. eapply (bounded_mono _ (digits (Nat.div2 len) + digits (len - Nat.div2 len - 1))); [|lia].
        apply bounded_bind; [apply bounded_bound|]. intros l.
        apply bounded_bind_r; [apply bounded_bound|]. intros r. apply bounded_ret.
      + cbn [negb]. apply IH.
  Qed.

  (** On an object with [n] elements. *)
  Definition sized (x : vdata) (n : nat) : Prop := (v_last x).2 - (v_first x).2 = Z.of_nat n.
  Definition lookup_cost {A} (m : M vdata A) (f : nat -> nat) : Prop := forall x n, sized x n -> costs m x (f n).

  Lemma range_cost {A} (k : loc -> nat -> M vdata A) (f : nat -> nat) :
    (forall p n, bounded (k p n) (f n)) ->
    lookup_cost (bind getS (fun o => bind (range_len (v_first o) (v_last o)) (k (v_first o)))) f.
  Proof.
    intros Hk x n Hn w. unfold sized in Hn. unfold bind, getS, range_len. destruct (_ =? _); [|done].
    destruct (_ <=? _); [|done]. unfold ret. replace (Z.to_nat _) with n by lia. apply Hk.
  Qed.
  Lemma lookup_then {A B} (m : M vdata A) (k : A -> M vdata B) f c :
    lookup_cost m f -> (forall a, bounded (k a) c) -> lookup_cost (bind m k) (fun n => f n + c)%nat.
  Proof.
    intros Hm Hk x n Hn w. specialize (Hm x n Hn w). unfold bind. destruct (m x w) as [a x1 w1|e x1 w1|]; [|lia|done].
    specialize (Hk a x1 w1). destruct (k a x1 w1); lia.
  Qed.
  Lemma lookup_mono {A} (m : M vdata A) f g :
    lookup_cost m f -> (forall n, (f n <= g n)%nat) -> lookup_cost m g.
  Proof. intros Hm Hg x n Hn. eapply costs_mono; [by apply Hm|done]. Qed.
  Lemma lookup_then0 {A B} (m : M vdata A) (k : A -> M vdata B) f :
    lookup_cost m f -> (forall a, bounded (k a) 0) -> lookup_cost (bind m k) f.
  Proof. intros Hm Hk. eapply lookup_mono; [by apply lookup_then|]. intros n; cbn; lia. Qed.
  Lemma lookup_get {A} (k : vdata -> M vdata A) f :
    (forall o, lookup_cost (k o) f) -> lookup_cost (bind getS k) f.
  Proof. intros Hk x n Hn w. apply Hk, Hn. Qed.

  Lemma cost_lower lt k : lookup_cost (lower_ lt k) digits.
  Proof. apply (range_cost (bound_ (goes_before lt k))). intros. apply bounded_bound. Qed.
  Lemma cost_upper lt k : lookup_cost (upper_ lt k) digits.
  Proof. apply (range_cost (bound_ (not_behind lt k))). intros. apply bounded_bound. Qed.
  Lemma cost_equal lt k : lookup_cost (equal_range_ lt k) (fun n => 2 * digits n)%nat.
  Proof. apply (range_cost (fun p n => equal_loop lt k n p n)). intros. apply bounded_equal_loop. Qed.
  Lemma cost_find lt k : lookup_cost (find_ lt k) (fun n => digits n + 1)%nat.
  Proof.
    apply (lookup_then _ _ digits); [apply cost_lower|]. intros it. apply bounded_bind0; [apply bounded_get|]. intros o.
    destruct (loc_eqb it (v_last o)); [eapply bounded_mono; [apply bounded_ret|lia]|].
    apply bounded_bind_r; [apply bounded_test|]. intros []; apply bounded_ret.
  Qed.
  Lemma cost_count lt kd k : lookup_cost (count_ lt kd k) (fun n => if multi kd then 2 * digits n else digits n + 1)%nat.
  Proof.
    unfold count_. destruct (multi kd).
    - apply lookup_then0; [apply cost_equal|]. intros er. apply bounded_ptr_sub.
    - apply lookup_then0; [apply cost_find|]. intros it. apply bounded_bind0; [apply bounded_get|intros; apply bounded_ret].
  Qed.
  Lemma cost_contains lt k : lookup_cost (contains_ lt k) (fun n => digits n + 1)%nat.
  Proof.
    apply lookup_then0; [apply cost_find|]. intros it. apply bounded_bind0; [apply bounded_get|intros; apply bounded_ret].
  Qed.
  Lemma cost_at lt k : lookup_cost (map_at lt k) (fun n => digits n + 1)%nat.
  Proof.
    apply lookup_then0; [apply cost_find|]. intros it. apply bounded_bind0; [apply bounded_get|]. intros o.
    destruct (loc_eqb it (v_last o)); [apply bounded_throw|].
    apply bounded_bind0; [apply bounded_read|intros; apply bounded_ret].
  Qed.
  Lemma cost_pos m f : lookup_cost m f -> lookup_cost (as_pos m) f.
  Proof.
    intros Hm. apply lookup_then0; [|intros; apply bounded_ret]. apply lookup_then0; [done|]. intros p.
    apply bounded_bind0; [apply bounded_get|]. intros o. apply bounded_bind0; [apply bounded_ptr_sub|intros; apply bounded_ret].
  Qed.
  Lemma cost_num m f : lookup_cost m f -> lookup_cost (as_one (as_num m)) f.
  Proof. intros Hm. apply lookup_then0; [|intros; apply bounded_ret]. apply lookup_then0; [done|]. intros; apply bounded_ret. Qed.

  (** Calls of the comparator a lookup function may make in a container of [n]
      elements. *)
  Definition few (kd : fkind) (o : fop) (n : nat) : nat :=
    match o with
    | FLower _ | FUpper _ => digits n
    | FFind _ | FContains _ | FAt _ => digits n + 1
    | FEqualRange _ => 2 * digits n
    | FCount _ => if multi kd then 2 * digits n else digits n + 1
    | _ => 0
    end%nat.
  Lemma cost_run lt kd exact room list o :
    is_lookup o = true -> lookup_cost (run_flat lt kd exact room list o) (few kd o).
  Proof.
    intros Ho. unfold run_flat. apply lookup_get. intros x. destruct o; try done; cbn [few].
    - apply cost_pos, cost_find.
    - apply cost_pos, cost_lower.
    - apply cost_pos, cost_upper.
    - apply lookup_then0; [apply cost_equal|]. intros r.
      apply bounded_bind0; [apply bounded_ptr_sub|]. intros i.
      apply bounded_bind0; [apply bounded_ptr_sub|]. intros j. apply bounded_ret.
    - apply cost_num, cost_count.
    - apply lookup_then0; [apply cost_contains|]. intros; apply bounded_ret.
    - intros y n _. eapply costs_mono; [|apply le_0_n].
      apply bounded_bind0; [|intros; apply bounded_ret]. apply bounded_bind0; [|intros; apply bounded_ret].
      apply bounded_size.
    - apply lookup_then0; [apply cost_at|]. intros; apply bounded_ret.
  Qed.

  Lemma is_flat_sized fl x l m : is_flat fl x l m -> sized x.2 (length l).
  Proof.
    destruct fl as [N|N]; cbn.
    - intros [ib H]. unfold sized. rewrite (it_data _ _ _ _ H). cbn. lia.
    - intros (ib & a & d & cap & H). unfold sized. rewrite (is_first _ _ _ _ H) (is_last _ _ _ _ H). cbn. lia.
  Qed.
  Lemma costs_member {A} (m : loc -> M vdata A) x c : costs (m x.1) x.2 c -> costs (member m) x c.
  Proof. intros Hm w. specialize (Hm w). unfold member. by destruct (m x.1 x.2 w). Qed.
  Lemma digits_log n : (digits n <= Nat.log2 n + 1)%nat.
  Proof. unfold digits. destruct (n =? 0)%nat; lia. Qed.
  Lemma flat_lookup_cost fl kd c : sane fl -> forall o x l w hf,
    holds (is_flat fl) x l w hf -> allowed_call fl kd o l = true -> is_lookup o = true ->
    match flat_call fl kd c o x w with
    | Ok _ _ w' | Exn _ _ w' =>
        (tick w <= tick w' <= tick w +
         let lg := Nat.log2 (length l) in
         match o with
         | FLower _ | FUpper _ => lg + 1
         | FFind _ | FContains _ | FAt _ => lg + 2
         | FEqualRange _ => 2 * lg + 2
         | FCount _ => if multi kd then 2 * lg + 2 else lg + 2
         | _ => 0
         end)%nat
    | UB => False
    end.
  Proof.
    intros HN o x l w hf Hx Ha Ho. pose proof (flat_lookup fl kd c HN o x l w hf Hx Ha Ho) as Hl.
    destruct Hx as (_ & m & Hm & _). apply is_flat_sized in Hm.
    assert (costs (flat_call fl kd c o) x (few kd o (length l))) as Hc.
    { destruct fl as [N|N]; apply costs_member, cost_run; done. }
    specialize (Hc w). pose proof (digits_log (length l)) as Hd. cbv zeta.
    destruct (flat_call fl kd c o x w); [| |done]; clear Hl; destruct o; try done; cbn [few] in Hc; destruct (multi kd); lia.
  Qed.

  (** ** Unordered containers *)
  Lemma bounded_ufind_loop eqk k n : forall it, bounded (ufind_loop eqk k n it) n.
  Proof.
    induction n as [|n IH]; intros it; cbn [ufind_loop]; [apply bounded_ret|].
    apply (bounded_bind _ _ 1); [apply bounded_test|]. intros [].
    - eapply bounded_mono; [apply bounded_ret|lia].
    - apply IH.
  Qed.
  Lemma bounded_ucount_loop eqk k n : forall it, bounded (ucount_loop eqk k n it) n.
  Proof.
    induction n as [|n IH]; intros it; cbn [ucount_loop]; [apply bounded_ret|].
    apply (bounded_bind _ _ 1); [apply bounded_test|]. intros b.
    apply bounded_bind_r; [apply IH|intros; apply bounded_ret].
  Qed.
  Lemma cost_ufind eqk k : lookup_cost (ufind eqk k) (fun n => n).
  Proof. apply (range_cost (fun p n => ufind_loop eqk k n p)). intros. apply bounded_ufind_loop. Qed.
  Lemma cost_ucount eqk kd k : lookup_cost (ucount eqk kd k) (fun n => n).
  Proof.
    unfold ucount. destruct (multi kd).
    - apply (range_cost (fun p n => ucount_loop eqk k n p)). intros. apply bounded_ucount_loop.
    - apply lookup_then0; [apply cost_ufind|]. intros it. apply bounded_bind0; [apply bounded_get|intros; apply bounded_ret].
  Qed.
  Lemma bounded_assign p a : bounded (assign p a : M vdata unit) 1.
  Proof.
    destruct a as [|v|q|q]; simpl.
    - apply bounded_bind0; [apply bounded_read|]. intros _. apply bounded_bind_r; [apply bounded_oracle|].
      intros [t|]; [apply bounded_bind0; [apply bounded_write|intros; apply bounded_throw]|apply bounded_write].
    - apply bounded_bind0; [apply bounded_read|]. intros _. apply bounded_bind_r; [apply bounded_oracle|].
      intros [t|]; [apply bounded_bind0; [apply bounded_write|intros; apply bounded_throw]|apply bounded_write].
    - apply bounded_bind0; [apply bounded_read|]. intros _. apply bounded_bind0; [apply bounded_read|]. intros v.
      apply bounded_bind_r; [apply bounded_oracle|].
      intros [t|]; [apply bounded_bind0; [apply bounded_write|intros; apply bounded_throw]|apply bounded_write].
    - apply bounded_bind0; [apply bounded_read|]. intros _. apply bounded_bind0; [apply bounded_read|]. intros v.
      apply bounded_bind_r; [apply bounded_oracle|].
      intros [t|]; (apply bounded_bind0; [|intros; first [apply bounded_throw|apply bounded_write]]).
      + apply bounded_bind0; [apply bounded_write|intros; apply bounded_write].
      + apply bounded_write.
  Qed.
  Lemma bounded_assert b : bounded (assert_ b : M vdata unit) 0.
  Proof. destruct b; [apply bounded_ret|apply bounded_ub]. Qed.
  Lemma bounded_offset p : bounded (offset_of p) 0.
  Proof.
    apply bounded_bind0; [apply bounded_get|]. intros o. apply bounded_bind0; [apply bounded_ptr_sub|]. intros k.
    apply bounded_bind0; [apply bounded_size|]. intros n. apply bounded_bind0; [apply bounded_assert|]. intros _.
    apply bounded_ret.
  Qed.
  Lemma bounded_uerase p : bounded (uerase p) 1.
  Proof.
    apply bounded_bind0; [apply bounded_get|]. intros o. apply bounded_bind0; [apply bounded_offset|]. intros k.
    apply bounded_bind0; [apply bounded_assert|]. intros _. apply bounded_bind0; [apply bounded_ptr_sub|]. intros d.
    apply bounded_bind_r.
    - destruct (0 <? d); [apply bounded_assign|]. eapply bounded_mono; [apply bounded_ret|lia].
    - intros _. apply bounded_bind0; [apply bounded_mod|]. intros _.
      apply bounded_bind0; [apply bounded_destroy_at|]. intros _. apply bounded_ret.
  Qed.

  Definition linear (o : uop) : option (nat -> nat) :=
    match o with
    | UFind _ | UCount _ | UContains _ | UAt _ => Some (fun n => n)
    | UErase _ => Some (fun _ => 1%nat)
    | _ => None
    end.
  Lemma cost_urun eqk kd eager back room list o f :
    linear o = Some f -> lookup_cost (run_unord eqk kd eager back room list o) f.
  Proof.
    intros Ho. unfold run_unord. apply lookup_get. intros x. destruct o; try done; injection Ho as <-.
    - apply cost_pos. intros y n _. apply bounded_uerase.
    - apply cost_pos, cost_ufind.
    - apply cost_num, cost_ucount.
    - apply lookup_then0; [|intros; apply bounded_ret]. apply lookup_then0; [apply cost_ufind|]. intros it.
      apply bounded_bind0; [apply bounded_get|intros; apply bounded_ret].
    - apply lookup_then0; [|intros; apply bounded_ret]. apply lookup_then0; [apply cost_ufind|]. intros it.
      apply bounded_bind0; [apply bounded_get|]. intros o. destruct (loc_eqb it (v_last o)); [apply bounded_throw|].
      apply bounded_bind0; [apply bounded_read|intros; apply bounded_ret].
  Qed.
  Lemma unord_cost fl kd c : sane fl -> forall o x l w hf,
    holds (is_flat fl) x l w hf -> uallowed fl kd o (length l) = true ->
    match o with UFind _ | UCount _ | UContains _ | UAt _ | UErase _ => True | _ => False end ->
    match unord_call fl kd c o x w with
    | Ok _ _ w' | Exn _ _ w' =>
        (tick w <= tick w' <= tick w + match o with UErase _ => 1 | _ => length l end)%nat
    | UB => False
    end.
  Proof.
    intros HN o x l w hf Hx Ha Ho. pose proof (ucall_ok fl kd c HN o x l w hf Hx Ha) as Hl.
    destruct Hx as (_ & m & Hm & _). apply is_flat_sized in Hm.
    assert (exists f, linear o = Some f) as [f Hf] by (destruct o; try done; by eexists).
    assert (costs (unord_call fl kd c o) x (f (length l))) as Hc.
    { destruct fl as [N|N]; apply costs_member, cost_urun; done. }
    specialize (Hc w).
    destruct (unord_call fl kd c o x w); [| |done]; clear Hl; destruct o; try done; injection Hf as <-; lia.
  Qed.
End cost.
