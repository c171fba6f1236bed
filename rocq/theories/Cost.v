(** * Counting element operations

    Every operation of the element type and every allocation consults the oracle
    once, so [tick] counts them.  [bounded m c]: running [m] takes at most [c]
    such operations, whether it returns or throws. *)

From iris.proofmode Require Import tactics.
From Verif Require Export Algo.
From Coq Require Import Lia.
Open Scope Z_scope.

Section cost.
  Context `{E : Env}.

  Definition costs {St A} (m : M St A) (s : St) (c : nat) : Prop := forall w,
    match m s w with
    | Ok _ _ w' | Exn _ _ w' => (tick w <= tick w' <= tick w + c)%nat
    | UB => True
    end.
  Definition bounded {St A} (m : M St A) (c : nat) : Prop := forall s, costs m s c.

  Context {St : Type}.

  Lemma costs_mono {A} (m : M St A) s c c' : costs m s c -> (c <= c')%nat -> costs m s c'.
  Proof. intros Hm Hc w. specialize (Hm w). destruct (m s w); lia. Qed.
  Lemma bounded_mono {A} (m : M St A) c c' : bounded m c -> (c <= c')%nat -> bounded m c'.
  Proof. intros Hm Hc s. by eapply costs_mono. Qed.
  Lemma bounded_bind {A B} (m : M St A) (k : A -> M St B) c1 c2 :
    bounded m c1 -> (forall a, bounded (k a) c2) -> bounded (bind m k) (c1 + c2).
  Proof.
    intros Hm Hk s w. specialize (Hm s w). unfold bind. destruct (m s w) as [a s' w'|e s' w'|]; [|lia|done].
    specialize (Hk a s' w'). destruct (k a s' w'); lia.
  Qed.
  Lemma bounded_bind0 {A B} (m : M St A) (k : A -> M St B) c :
    bounded m 0 -> (forall a, bounded (k a) c) -> bounded (bind m k) c.
  Proof. apply (bounded_bind m k 0). Qed.
  Lemma bounded_bind_r {A B} (m : M St A) (k : A -> M St B) c :
    bounded m c -> (forall a, bounded (k a) 0) -> bounded (bind m k) c.
  Proof. intros Hm Hk. rewrite -(Nat.add_0_r c). by apply bounded_bind. Qed.
  Lemma bounded_ret {A} (a : A) : bounded (ret a : M St A) 0.
  Proof. intros s w. simpl. lia. Qed.
  Lemma bounded_throw {A} e : bounded (throw e : M St A) 0.
  Proof. intros s w. simpl. lia. Qed.
  Lemma bounded_ub {A} : bounded (ub : M St A) 0.
  Proof. done. Qed.
  Lemma bounded_get : bounded (getS : M St St) 0.
  Proof. intros s w. simpl. lia. Qed.
  Lemma bounded_mod f : bounded (modS f : M St unit) 0.
  Proof. intros s w. simpl. lia. Qed.
  Lemma bounded_try {A} (m : M St A) h c : bounded m c -> bounded h 0 -> bounded (try_ m h) c.
  Proof.
    intros Hm Hh s w. specialize (Hm s w). unfold try_. destruct (m s w) as [a s' w'|e s' w'|]; [lia| |done].
    specialize (Hh s' w'). destruct (h s' w'); lia.
  Qed.
  Lemma bounded_read p : bounded (read p : M St V) 0.
  Proof. intros s w. unfold read. destruct (heap w !! p) as [[]|]; simpl; try done; lia. Qed.
  Lemma bounded_write p v : bounded (write p v : M St unit) 0.
  Proof. intros s w. unfold write. destruct (heap w !! p) as [[]|]; simpl; try done; lia. Qed.
  Lemma bounded_oracle k : bounded (oracle k : M St _) 1.
  Proof. intros s w. simpl. lia. Qed.
  Lemma bounded_step k e : bounded (step_ k e : M St unit) 1.
  Proof.
    apply bounded_bind_r; [apply bounded_oracle|]. intros [t|]; [apply bounded_throw|apply bounded_ret].
  Qed.
  Lemma bounded_make a : bounded (make a : M St V) 1.
  Proof.
    destruct a as [|v|p|p]; simpl.
    - apply bounded_bind_r; [apply bounded_step|intros; apply bounded_ret].
    - apply bounded_bind_r; [apply bounded_step|intros; apply bounded_ret].
    - apply bounded_bind0; [apply bounded_read|]. intros v.
      apply bounded_bind_r; [apply bounded_step|intros; apply bounded_ret].
    - apply bounded_bind0; [apply bounded_read|]. intros v.
      apply bounded_bind_r; [apply bounded_oracle|]. intros [t|].
      + apply bounded_bind0; [apply bounded_write|intros; apply bounded_throw].
      + apply bounded_bind0; [apply bounded_write|intros; apply bounded_ret].
  Qed.
  Lemma bounded_construct p a : bounded (construct p a : M St unit) 1.
  Proof.
    apply bounded_bind0.
    { intros s w. unfold expect_raw. destruct (heap w !! p) as [[]|]; simpl; try done; lia. }
    intros _. apply bounded_bind_r; [apply bounded_make|]. intros v s w. unfold set_live.
    destruct (heap w !! p) as [[]|]; simpl; try done; lia.
  Qed.
  Lemma bounded_destroy_at p : bounded (destroy_at p : M St unit) 0.
  Proof. intros s w. unfold destroy_at. destruct (heap w !! p) as [[]|]; simpl; try done; lia. Qed.
  Lemma bounded_ptr_sub q p : bounded (ptr_sub q p : M St Z) 0.
  Proof. unfold ptr_sub. destruct (_ =? _); [apply bounded_ret|done]. Qed.
  Lemma bounded_range_len p q : bounded (range_len p q : M St nat) 0.
  Proof. unfold range_len. destruct (_ =? _); [|done]. destruct (_ <=? _); [apply bounded_ret|done]. Qed.
  Lemma bounded_destroy_n p n : bounded (destroy_n_a p n : M St unit) 0.
  Proof.
    revert p. induction n as [|n IH]; intros p; simpl; [apply bounded_ret|].
    apply bounded_bind0; [apply bounded_destroy_at|intros; apply IH].
  Qed.
  Lemma bounded_destroy_a p q : bounded (destroy_a p q : M St unit) 0.
  Proof. apply bounded_bind0; [apply bounded_range_len|intros; apply bounded_destroy_n]. Qed.
  Lemma bounded_uninit_loop p q srcs : bounded (uninit_loop p q srcs : M St loc) (length srcs).
  Proof.
    revert q. induction srcs as [|a srcs IH]; intros q; simpl; [apply bounded_ret|].
    apply (bounded_bind _ _ 1); [|intros; apply IH].
    apply bounded_try; [apply bounded_construct|apply bounded_destroy_a].
  Qed.
  Lemma refs_length mk p n : length (refs mk p n) = n.
  Proof. revert p. induction n as [|n IH]; intros p; simpl; [done|]. by rewrite IH. Qed.
  Lemma bounded_uninit_mine p q d :
    bounded (uninitialized_move_if_noexcept_a p q d : M St loc) (Z.to_nat (q.2 - p.2)).
  Proof.
    unfold uninitialized_move_if_noexcept_a, range, range_len.
    destruct (_ =? _); [|done]. destruct (_ <=? _); [|done].
    apply bounded_bind0.
    { apply bounded_bind0; [apply bounded_ret|intros; apply bounded_ret]. }
    intros srcs.
  Abort.
  Lemma bounded_uninit_mine p q d :
    bounded (uninitialized_move_if_noexcept_a p q d : M St loc) (Z.to_nat (q.2 - p.2)).
  Proof.
    unfold uninitialized_move_if_noexcept_a, range, range_len. intros s w. unfold bind.
    destruct (_ =? _); [|done]. destruct (_ <=? _); [|done]. simpl.
    pose proof (bounded_uninit_loop d d (refs mine p (Z.to_nat (q.2 - p.2))) s w) as Hb.
    by rewrite refs_length in Hb.
  Qed.
  Lemma bounded_allocate a n : bounded (allocate a n : M St loc) 1.
  Proof.
    intros s w. unfold allocate. destruct (_ =? _); [lia|]. destruct (_ <? _); [done|].
    destruct (may_throw _ _); simpl; lia.
  Qed.
  Lemma bounded_deallocate a p n : bounded (deallocate a p n : M St unit) 0.
  Proof.
    intros s w. unfold deallocate. destruct (loc_eqb _ _); [lia|]. destruct (negb _); [done|].
    destruct (heap w !! _) as [[]|]; try done. destruct (_ && _); [|done].
    destruct (del_raws _ _ _ _); simpl; [lia|done].
  Qed.
End cost.

Section cost2.
  Context `{E : Env}.
  Context {St L : Type}.
  Lemma bounded_local {A} (l : L) (m : M (St * L) A) c : bounded m c -> bounded (local_ l m) c.
  Proof.
    intros Hm s w. specialize (Hm (s, l) w). unfold local_. by destruct (m (s, l) w) as [? []|? []|].
  Qed.
  Lemma bounded_lift {A} (m : M St A) c : bounded m c -> bounded (lift_ m : M (St * L) A) c.
  Proof. intros Hm [s l] w. specialize (Hm s w). unfold lift_. simpl. by destruct (m s w). Qed.
  Lemma bounded_setl (l : L) : bounded (setl_ l : M (St * L) unit) 0.
  Proof. intros s w. simpl. lia. Qed.
  Lemma bounded_getl : bounded (getl_ : M (St * L) L) 0.
  Proof. intros s w. simpl. lia. Qed.
End cost2.
