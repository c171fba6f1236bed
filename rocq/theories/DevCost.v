(** * Cost of insertions at the ends of sfl::devector

    [takes m lo hi]: if [m] returns, it has performed at least [lo] and at most
    [hi] operations of elements and allocations. *)

From iris.proofmode Require Import tactics.
From Verif Require Export State Cost DevThms.
From Coq Require Import ZifyBool.
Open Scope Z_scope.

Definition takes `{Env} {St A} (m : M St A) (lo hi : Z) : Prop := forall s w r s' w',
  m s w = Ok r s' w' -> Z.of_nat (tick w) + lo <= Z.of_nat (tick w') <= Z.of_nat (tick w) + hi.

Section takes.
  Context `{E : Env}.
  Context {St : Type}.
  Implicit Types p q d : loc.

  Lemma takes_mono {A} (m : M St A) l h l' h' : takes m l h -> l' <= l -> h <= h' -> takes m l' h'.
  Proof. intros Hm H1 H2 s w r s' w' Hr. specialize (Hm s w r s' w' Hr). lia. Qed.
  Lemma takes_bind {A B} (m : M St A) (k : A -> M St B) l1 h1 l2 h2 :
    takes m l1 h1 -> (forall a, takes (k a) l2 h2) -> takes (bind m k) (l1 + l2) (h1 + h2).
  Proof.
    intros Hm Hk s w r s' w'. unfold bind. destruct (m s w) as [a s1 w1| |] eqn:Hr1; try done. intros Hr2.
    specialize (Hm _ _ _ _ _ Hr1). specialize (Hk _ _ _ _ _ _ Hr2). lia.
  Qed.
  Lemma takes_bind0 {A B} (m : M St A) (k : A -> M St B) l h :
    takes m 0 0 -> (forall a, takes (k a) l h) -> takes (bind m k) l h.
  Proof. apply (takes_bind m k 0 0). Qed.
  Lemma takes_bounded {A} (m : M St A) : bounded m 0 -> takes m 0 0.
  Proof. intros Hm s w r s' w' Hr. specialize (Hm s w). rewrite Hr in Hm. lia. Qed.
  Lemma takes_ret {A} (a : A) : takes (ret a : M St A) 0 0.
  Proof. apply takes_bounded, bounded_ret. Qed.
  Lemma takes_assert b l h : (b = true -> l <= 0 <= h) -> takes (assert_ b : M St unit) l h.
  Proof. intros Hb s w r s' w'. destruct b; [|done]. intros [= <- <- <-]. specialize (Hb eq_refl). lia. Qed.
  Lemma takes_throw {A} e l h : takes (throw e : M St A) l h.
  Proof. by intros s w r s' w' Hr. Qed.
  Lemma takes_try {A} (m : M St A) c l h : takes m l h -> takes (try_ m c) l h.
  Proof.
    intros Hm s w r s' w'. unfold try_. destruct (m s w) as [a s1 w1|e s1 w1|] eqn:Hr; [|destruct (c s1 w1); done|done].
    intros [= <- <- <-]. by eapply Hm.
  Qed.
  Lemma takes_oracle k : takes (oracle k : M St _) 1 1.
  Proof. intros s w r s' w'. unfold oracle. intros Hr. injection Hr as <- <- <-. simpl. lia. Qed.
  Lemma takes_step k e : takes (step_ k e : M St unit) 1 1.
  Proof.
    apply (takes_bind _ _ 1 1 0 0); [apply takes_oracle|]. intros [t|]; [apply takes_throw|apply takes_ret].
  Qed.
  Lemma takes_read p : takes (read p : M St V) 0 0.
  Proof. apply takes_bounded, bounded_read. Qed.
  Lemma takes_write p v : takes (write p v : M St unit) 0 0.
  Proof. apply takes_bounded, bounded_write. Qed.
  Lemma takes_make a : takes (make a : M St V) 1 1.
  Proof.
    destruct a as [|v|p|p]; simpl.
    - apply (takes_bind _ _ 1 1 0 0); [apply takes_step|intros; apply takes_ret].
    - apply (takes_bind _ _ 1 1 0 0); [apply takes_step|intros; apply takes_ret].
    - apply takes_bind0; [apply takes_read|]. intros v.
      apply (takes_bind _ _ 1 1 0 0); [apply takes_step|intros; apply takes_ret].
    - apply takes_bind0; [apply takes_read|]. intros v.
      apply (takes_bind _ _ 1 1 0 0); [apply takes_oracle|]. intros [t|].
      + apply takes_bind0; [apply takes_write|intros; apply takes_throw].
      + apply takes_bind0; [apply takes_write|intros; apply takes_ret].
  Qed.
  Lemma takes_expect p : takes (expect_raw p : M St unit) 0 0.
  Proof. apply takes_bounded. intros s w. unfold expect_raw. destruct (heap w !! p) as [[]|]; try done; lia. Qed.
  Lemma takes_set p v : takes (set_live p v : M St unit) 0 0.
  Proof. apply takes_bounded. intros s w. unfold set_live. destruct (heap w !! p) as [[]|]; simpl; try done; lia. Qed.
  Lemma takes_construct p a : takes (construct p a : M St unit) 1 1.
  Proof.
    apply takes_bind0; [apply takes_expect|]. intros _.
    apply (takes_bind _ _ 1 1 0 0); [apply takes_make|intros; apply takes_set].
  Qed.
  Lemma takes_assign p a : takes (assign p a : M St unit) 1 1.
  Proof.
    destruct a as [|v|q|q]; simpl; (apply takes_bind0; [apply takes_read|]); intros _.
    - apply (takes_bind _ _ 1 1 0 0); [apply takes_oracle|].
      intros [t|]; [apply takes_bind0; [apply takes_write|intros; apply takes_throw]|apply takes_write].
    - apply (takes_bind _ _ 1 1 0 0); [apply takes_oracle|].
      intros [t|]; [apply takes_bind0; [apply takes_write|intros; apply takes_throw]|apply takes_write].
    - apply takes_bind0; [apply takes_read|]. intros v. apply (takes_bind _ _ 1 1 0 0); [apply takes_oracle|].
      intros [t|]; [apply takes_bind0; [apply takes_write|intros; apply takes_throw]|apply takes_write].
    - apply takes_bind0; [apply takes_read|]. intros v. apply (takes_bind _ _ 1 1 0 0); [apply takes_oracle|].
      intros [t|]; (apply takes_bind0; [|intros; first [apply takes_throw|apply takes_write]]).
      + apply takes_bind0; [apply takes_write|intros; apply takes_write].
      + apply takes_write.
  Qed.
  Lemma takes_uninit_loop p q srcs :
    takes (uninit_loop p q srcs : M St loc) (Z.of_nat (length srcs)) (Z.of_nat (length srcs)).
  Proof.
    revert q. induction srcs as [|a srcs IH]; intros q; simpl; [apply takes_ret|].
    eapply takes_mono; [apply (takes_bind _ _ 1 1)|..]; [apply takes_try, takes_construct|intros; apply IH|lia..].
  Qed.
  Lemma takes_assign_loop q srcs :
    takes (assign_loop q srcs : M St loc) (Z.of_nat (length srcs)) (Z.of_nat (length srcs)).
  Proof.
    revert q. induction srcs as [|a srcs IH]; intros q; simpl; [apply takes_ret|].
    eapply takes_mono; [apply (takes_bind _ _ 1 1)|..]; [apply takes_assign|intros; apply IH|lia..].
  Qed.
  Lemma takes_back_loop n p d :
    takes (move_backward_loop n p d : M St loc) (Z.of_nat n) (Z.of_nat n).
  Proof.
    revert d. induction n as [|n IH]; intros d; [apply takes_ret|]. cbn [move_backward_loop].
    eapply takes_mono; [apply (takes_bind _ _ 1 1)|..]; [apply takes_assign|intros; apply IH|lia..].
  Qed.
  Lemma takes_range {A} p q (k : nat -> M St A) l h :
    (p.1 = q.1 -> p.2 <= q.2 -> takes (k (Z.to_nat (q.2 - p.2))) l h) -> takes (bind (range_len p q) k) l h.
  Proof.
    intros Hk s w r s' w'. unfold bind, range_len. destruct (_ =? _) eqn:H1; [|done]. destruct (_ <=? _) eqn:H2; [|done].
    apply Hk; lia.
  Qed.
  Lemma takes_uninit_move p q d : takes (uninitialized_move_a p q d : M St loc) (q.2 - p.2) (q.2 - p.2).
  Proof.
    intros s w r s' w'. unfold uninitialized_move_a, range, bind, range_len, ret.
    destruct (_ =? _); [|done]. destruct (_ <=? _) eqn:Hle; [|done]. intros Hr.
    pose proof (takes_uninit_loop _ _ _ _ _ _ _ _ Hr) as H. rewrite refs_length in H. lia.
  Qed.
  Lemma takes_move p q d : takes (move p q d : M St loc) (q.2 - p.2) (q.2 - p.2).
  Proof.
    intros s w r s' w'. unfold move, range, bind, range_len, ret.
    destruct (_ =? _); [|done]. destruct (_ <=? _) eqn:Hle; [|done]. intros Hr.
    pose proof (takes_assign_loop _ _ _ _ _ _ _ Hr) as H. rewrite refs_length in H. lia.
  Qed.
  Lemma takes_move_backward p q d : takes (move_backward p q d : M St loc) (q.2 - p.2) (q.2 - p.2).
  Proof.
    apply takes_range. intros _ Hle. eapply takes_mono; [apply takes_back_loop|lia..].
  Qed.
  Lemma takes_move_unless p q d :
    let c := if loc_eqb p d then 0 else q.2 - p.2 in
    takes (move_unless_same p q d : M St unit) c c.
  Proof.
    unfold move_unless_same. destruct (loc_eqb p d); simpl; [apply takes_ret|].
    eapply takes_mono; [apply (takes_bind _ _ (q.2 - p.2) (q.2 - p.2) 0 0)|..];
      [apply takes_move|intros; apply takes_ret|lia..].
  Qed.
  Lemma takes_back_unless p q d :
    let c := if loc_eqb q d then 0 else q.2 - p.2 in
    takes (move_backward_unless_same p q d : M St unit) c c.
  Proof.
    unfold move_backward_unless_same. destruct (loc_eqb q d); simpl; [apply takes_ret|].
    eapply takes_mono; [apply (takes_bind _ _ (q.2 - p.2) (q.2 - p.2) 0 0)|..];
      [apply takes_move_backward|intros; apply takes_ret|lia..].
  Qed.
  Lemma takes_destroy p q : takes (destroy_a p q : M St unit) 0 0.
  Proof. apply takes_bounded, bounded_destroy_a. Qed.
  Lemma takes_get : takes (getS : M St St) 0 0.
  Proof. apply takes_bounded, bounded_get. Qed.
  Lemma takes_mod f : takes (modS f : M St unit) 0 0.
  Proof. apply takes_bounded, bounded_mod. Qed.
  Lemma takes_sub {A} p q (k : Z -> M St A) l h :
    (p.1 = q.1 -> takes (k (q.2 - p.2)) l h) -> takes (bind (ptr_sub q p) k) l h.
  Proof.
    intros Hk s w r s' w'. unfold bind, ptr_sub. destruct (_ =? _) eqn:H1; [|done]. apply Hk. lia.
  Qed.
  Lemma takes_ge {A} p q (m1 m2 : M St A) l h :
    (q.2 <= p.2 -> takes m1 l h) -> (p.2 < q.2 -> takes m2 l h) ->
    takes (bind (ge_ p q) (fun c => if c then m1 else m2)) l h.
  Proof.
    intros H1 H2 s w r s' w'. unfold bind, ge_, ptr_sub, bind. destruct (_ =? _); [|done]. unfold ret.
    destruct (0 <=? _) eqn:Hc; [apply H1|apply H2]; lia.
  Qed.
  Lemma takes_le {A} p q (m1 m2 : M St A) l h :
    (p.2 <= q.2 -> takes m1 l h) -> (q.2 < p.2 -> takes m2 l h) ->
    takes (bind (le_ p q) (fun c => if c then m1 else m2)) l h.
  Proof.
    intros H1 H2 s w r s' w'. unfold bind, le_, ptr_sub, bind. destruct (_ =? _); [|done]. unfold ret.
    destruct (0 <=? _) eqn:Hc; [apply H1|apply H2]; lia.
  Qed.
  Lemma takes_px_uninit v d n : takes (px_uninit (PEmplace v) d n : M St _) n n.
  Proof.
    unfold px_uninit. destruct (n =? 0) eqn:H0.
    { replace n with 0 by lia. apply takes_ret. }
    intros s w r s' w'. unfold assert_. destruct (n =? 1) eqn:H1; [|done]. unfold bind at 1, ret at 1.
    replace n with (0 + (1 + 0)) by lia.
    apply (takes_bind _ _ 1 1 0 0); [|intros; apply takes_ret].
    apply takes_bind0; [apply takes_expect|]. intros _. apply (takes_bind _ _ 1 1 0 0); [|intros; apply takes_set].
    apply (takes_bind _ _ 1 1 0 0); [apply takes_oracle|]. intros [t|]; [|apply takes_ret].
    apply takes_bind0; [apply takes_ret|intros; apply takes_throw].
  Qed.
  Lemma takes_px_insert v d n : takes (px_insert (PEmplace v) d n : M St _) (2 * n) (2 * n).
  Proof.
    unfold px_insert. destruct (n =? 0) eqn:H0.
    { replace (2 * n) with 0 by lia. apply takes_ret. }
    intros s w r s' w'. unfold assert_. destruct (n =? 1) eqn:H1; [|done]. unfold bind at 1, ret at 1.
    replace (2 * n) with (2 + 0) by lia.
    apply (takes_bind _ _ 2 2 0 0); [|intros; apply takes_ret].
    apply (takes_bind _ _ 1 1 1 1).
    - apply (takes_bind _ _ 1 1 0 0); [apply takes_oracle|]. intros [t|]; [|apply takes_ret].
      apply takes_bind0; [apply takes_ret|intros; apply takes_throw].
    - intros u. apply takes_bind0; [apply takes_read|]. intros _.
      apply (takes_bind _ _ 1 1 0 0); [apply takes_oracle|].
      intros [t|]; [apply takes_bind0; [apply takes_write|intros; apply takes_throw]|apply takes_write].
  Qed.
  Lemma px_uninit_keeps v d n s w r s' w' :
    (px_uninit (PEmplace v) d n : M St _) s w = Ok r s' w' -> r.2 = PEmplace v.
  Proof.
    unfold px_uninit. destruct (n =? 0); [by intros [= <- _ _]|]. unfold bind, assert_.
    destruct (n =? 1); [|done]. cbn. destruct (construct_moved d v s w); try done. by intros [= <- _ _].
  Qed.
  Lemma px_insert_keeps v d n s w r s' w' :
    (px_insert (PEmplace v) d n : M St _) s w = Ok r s' w' -> r.2 = PEmplace v.
  Proof.
    unfold px_insert. destruct (n =? 0); [by intros [= <- _ _]|]. unfold bind, assert_.
    destruct (n =? 1); [|done]. cbn. destruct (assign_moved d v s w); try done. by intros [= <- _ _].
  Qed.
  Lemma takes_bind_uninit {A} v d n (k : loc * proxy -> M St A) l h :
    (forall q, takes (k (q, PEmplace v)) l h) -> takes (bind (px_uninit (PEmplace v) d n) k) (n + l) (n + h).
  Proof.
    intros Hk s w r s' w'. unfold bind. destruct (px_uninit _ _ _ s w) as [a s1 w1| |] eqn:Hr1; try done. intros Hr2.
    pose proof (takes_px_uninit _ _ _ _ _ _ _ _ Hr1). pose proof (px_uninit_keeps _ _ _ _ _ _ _ _ Hr1) as Ha.
    destruct a as [q px]. simpl in Ha. subst px. specialize (Hk _ _ _ _ _ _ Hr2). lia.
  Qed.
  Lemma takes_bind_insert {A} v d n (k : loc * proxy -> M St A) l h :
    (forall q, takes (k (q, PEmplace v)) l h) ->
    takes (bind (px_insert (PEmplace v) d n) k) (2 * n + l) (2 * n + h).
  Proof.
    intros Hk s w r s' w'. unfold bind. destruct (px_insert _ _ _ s w) as [a s1 w1| |] eqn:Hr1; try done. intros Hr2.
    pose proof (takes_px_insert _ _ _ _ _ _ _ _ Hr1). pose proof (px_insert_keeps _ _ _ _ _ _ _ _ Hr1) as Ha.
    destruct a as [q px]. simpl in Ha. subst px. specialize (Hk _ _ _ _ _ _ Hr2). lia.
  Qed.
End takes.

Local Ltac tk :=
  cbv zeta; cbn [fst snd];
  match goal with
  | |- takes (guarded _ _) _ _ => apply takes_try; tk
  | |- takes (try_ _ _) _ _ => apply takes_try; tk
  | |- takes (bind (px_uninit _ _ _) _) _ _ => apply takes_bind_uninit; intros; tk
  | |- takes (bind (px_insert _ _ _) _) _ _ => apply takes_bind_insert; intros; tk
  | |- takes (bind (ptr_sub _ _) _) _ _ => apply takes_sub; intros _; tk
  | |- takes (bind _ _) _ _ => eapply takes_bind; [tk|intros; tk]
  | |- takes (uninitialized_move_a _ _ _) _ _ => apply takes_uninit_move
  | |- takes (move _ _ _) _ _ => apply takes_move
  | |- takes (move_unless_same _ _ _) _ _ => apply takes_move_unless
  | |- takes (move_backward_unless_same _ _ _) _ _ => apply takes_back_unless
  | |- takes (destroy_a _ _) _ _ => apply takes_destroy
  | |- takes (bind getS _) _ _ => apply takes_bind0; [apply takes_get|intros; tk]
  | |- takes (ret _) _ _ => apply takes_ret
  | |- takes (px_insert _ _ _) _ _ => apply takes_px_insert
  | |- takes (px_uninit _ _ _) _ _ => apply takes_px_uninit
  | |- takes (modS _) _ _ => apply takes_mod
  end.
Local Ltac tk_sum := unfold loc_eqb, loc_add; cbn [fst snd]; repeat match goal with |- context [?a && ?b] => destruct (a && b) eqn:? end; lia.
Local Ltac tk_branch := eapply takes_mono; [tk|tk_sum|tk_sum].

Section shift.
  Context `{E : Env}.
  Context {St : Type}.

  (** One element [v], inserted before the first or behind the last of [s]
      elements that are shifted by [x]. *)
  Lemma takes_shift_back v B f s x :
    0 < x -> 0 <= s ->
    takes (shift_back_body false (PEmplace v) 1 (B, f) (B, f) (B, f + s)
             (B, f + (x - 1)) (B, f + (x - 1)) (B, f + x) (B, f + x + s) : M St unit) (s + 1) (s + 2).
  Proof.
    intros Hx Hs. unfold shift_back_body.
    repeat first [apply takes_ge; cbn [fst snd]; intros ?|apply takes_assert; intros Hf; discriminate Hf].
    all: try (exfalso; lia).
    - unfold back_1. tk_branch.
    - unfold back_4. tk_branch.
    - unfold back_8. tk_branch.
  Qed.
  Lemma takes_shift_front v B f s x :
    0 < x -> 0 <= s ->
    takes (shift_front_body false (PEmplace v) 1 (B, f) (B, f + s) (B, f + s)
             (B, f - x) (B, f - x + s) (B, f - x + s + 1) (B, f - x + s + 1) : M St unit) (s + 1) (s + 2).
  Proof.
    intros Hx Hs. unfold shift_front_body.
    repeat first [apply takes_le; cbn [fst snd]; intros ?|apply takes_assert; intros Hf; discriminate Hf].
    all: try (exfalso; lia).
    all: unfold front_1, front_2, front_3, front_4, front_5, front_6, front_7, front_8; tk_branch.
  Qed.
End shift.

Section calls.
  Context `{E : Env}.

  Lemma takes_offset p : takes (dv_offset p) 0 0.
  Proof.
    apply takes_bind0; [apply takes_get|]. intros o. apply takes_sub. intros _.
    apply takes_bind0; [apply takes_bind0; [apply takes_get|]; intros; apply takes_bounded, bounded_ptr_sub|]. intros n.
    apply takes_bind0; [apply takes_assert; lia|intros; apply takes_ret].
  Qed.
  Lemma takes_room_b : takes dv_back_room 0 0.
  Proof. apply takes_bind0; [apply takes_get|]. intros; apply takes_bounded, bounded_ptr_sub. Qed.
  Lemma takes_room_f : takes dv_front_room 0 0.
  Proof. apply takes_bind0; [apply takes_get|]. intros; apply takes_bounded, bounded_ptr_sub. Qed.
  Lemma takes_dv_size : takes dv_size 0 0.
  Proof. apply takes_bind0; [apply takes_get|]. intros; apply takes_bounded, bounded_ptr_sub. Qed.
  Lemma takes_dv_cap : takes dv_capacity 0 0.
  Proof. apply takes_bind0; [apply takes_get|]. intros; apply takes_bounded, bounded_ptr_sub. Qed.
  Lemma takes_alloc a n : 0 < n -> takes (allocate a n : M ddata loc) 1 1.
  Proof.
    intros Hn s w r s' w'. unfold allocate. destruct (n =? 0) eqn:?; [lia|]. destruct (_ <? _); [done|].
    destruct (may_throw _ _); [done|]. intros [= <- <- <-]. simpl. lia.
  Qed.
  Lemma takes_replace b f l e : takes (dv_replace b f l e) 0 0.
  Proof.
    apply takes_bind0; [apply takes_get|]. intros o. apply takes_bind0; [apply takes_destroy|]. intros _.
    apply takes_sub. intros _. apply takes_bind0; [apply takes_bounded, bounded_deallocate|]. intros _. apply takes_mod.
  Qed.
  Lemma takes_local {St L A} (l : L) (m : M (St * L) A) lo hi : takes m lo hi -> takes (local_ l m) lo hi.
  Proof.
    intros Hm s w r s' w'. unfold local_. destruct (m (s, l) w) as [a [s1 l1] w1|? []|] eqn:Hr; try done.
    intros [= <- <- <-]. by eapply Hm.
  Qed.

  (** [m] run in state [s] leaves [s] alone and its result satisfies [P]. *)
  Definition reads {St A} (m : M St A) (s : St) (P : A -> Prop) (c : Z) : Prop := forall w r s' w',
    m s w = Ok r s' w' -> s' = s /\ P r /\ Z.of_nat (tick w') = Z.of_nat (tick w) + c.
  Definition takes_at {St A} (m : M St A) (s : St) (lo hi : Z) : Prop := forall w r s' w',
    m s w = Ok r s' w' -> Z.of_nat (tick w) + lo <= Z.of_nat (tick w') <= Z.of_nat (tick w) + hi.
  Lemma at_takes {St A} (m : M St A) s lo hi : takes m lo hi -> takes_at m s lo hi.
  Proof. intros Hm w r s' w'. apply Hm. Qed.
  Lemma at_mono {St A} (m : M St A) s lo hi lo' hi' : takes_at m s lo hi -> lo' <= lo -> hi <= hi' -> takes_at m s lo' hi'.
  Proof. intros Hm ?? w r s' w' Hr. specialize (Hm _ _ _ _ Hr). lia. Qed.
  Lemma at_reads {St A B} (m : M St A) (k : A -> M St B) s P c lo hi :
    reads m s P c -> (forall a, P a -> takes_at (k a) s lo hi) -> takes_at (bind m k) s (c + lo) (c + hi).
  Proof.
    intros Hm Hk w r s' w'. unfold bind. destruct (m s w) as [a s1 w1| |] eqn:H1; try done. intros H2.
    destruct (Hm _ _ _ _ H1) as (-> & Ha & Ht). specialize (Hk a Ha _ _ _ _ H2). lia.
  Qed.
  Lemma at_reads0 {St A B} (m : M St A) (k : A -> M St B) s P lo hi :
    reads m s P 0 -> (forall a, P a -> takes_at (k a) s lo hi) -> takes_at (bind m k) s lo hi.
  Proof. apply (at_reads m k s P 0). Qed.
  Lemma reads_reads {St A B} (m : M St A) (k : A -> M St B) s P Q c :
    reads m s P 0 -> (forall a, P a -> reads (k a) s Q c) -> reads (bind m k) s Q c.
  Proof.
    intros Hm Hk w r s' w'. unfold bind. destruct (m s w) as [a s1 w1| |] eqn:H1; try done. intros H2.
    destruct (Hm _ _ _ _ H1) as (-> & Ha & Ht). destruct (Hk a Ha _ _ _ _ H2) as (-> & Hq & Ht2). split_and!; [done..|lia].
  Qed.
  Lemma reads_get {St} (s : St) : reads getS s (eq s) 0.
  Proof. intros w r s' w' [= <- <- <-]. split_and!; [done..|lia]. Qed.
  Lemma reads_ret {St A} (s : St) (a : A) (P : A -> Prop) : P a -> reads (ret a) s P 0.
  Proof. intros HP w r s' w' [= <- <- <-]. split_and!; [done..|lia]. Qed.
  Lemma reads_assert {St} (s : St) b : reads (assert_ b) s (fun _ => b = true) 0.
  Proof. intros w r s' w'. destruct b; [|done]. intros [= <- <- <-]. split_and!; [done..|lia]. Qed.
  Lemma reads_sub {St} (s : St) q p : reads (ptr_sub q p) s (fun d => d = q.2 - p.2) 0.
  Proof. intros w r s' w'. unfold ptr_sub. destruct (_ =? _); [|done]. intros [= <- <- <-]. split_and!; [done..|lia]. Qed.
  Lemma reads_make {St} (s : St) a : reads (make a) s (fun _ => True) 1.
  Proof.
    intros w r s' w' Hr. split_and!; [|done|].
    - revert Hr. destruct a as [|v|p|p]; unfold make, step_, oracle, read, write, throw, ret, bind;
        repeat (case_match; simplify_eq/=); try done; intros; by simplify_eq/=.
    - pose proof (takes_make _ _ _ _ _ _ Hr). lia.
  Qed.
  Lemma reads_dv_size x : reads dv_size x (fun n => n = (d_last x).2 - (d_first x).2) 0.
  Proof. eapply reads_reads; [apply reads_get|]. intros ? <-. apply reads_sub. Qed.
  Lemma reads_dv_cap x : reads dv_capacity x (fun n => n = (d_eos x).2 - (d_bos x).2) 0.
  Proof. eapply reads_reads; [apply reads_get|]. intros ? <-. apply reads_sub. Qed.
  Lemma reads_room_b x : reads dv_back_room x (fun n => n = (d_eos x).2 - (d_last x).2) 0.
  Proof. eapply reads_reads; [apply reads_get|]. intros ? <-. apply reads_sub. Qed.
  Lemma reads_room_f x : reads dv_front_room x (fun n => n = (d_first x).2 - (d_bos x).2) 0.
  Proof. eapply reads_reads; [apply reads_get|]. intros ? <-. apply reads_sub. Qed.
  Lemma reads_offset pos x : reads (dv_offset pos) x (fun k => k = pos.2 - (d_first x).2) 0.
  Proof.
    eapply reads_reads; [apply reads_get|]. intros ? <-. eapply reads_reads; [apply reads_sub|]. intros k ->.
    eapply reads_reads; [apply reads_dv_size|]. intros n ->. eapply reads_reads; [apply reads_assert|]. intros ? ?.
    by apply reads_ret.
  Qed.
  Lemma reads_extra_front x :
    reads (dv_extra_front 1) x (fun n => n = let cf := (d_last x).2 - (d_bos x).2 in
      let af := (d_first x).2 - (d_bos x).2 in if af <=? 1 then Z.max (1 - af) (cf / 2) else cf / 2) 0.
  Proof.
    eapply reads_reads; [apply reads_get|]. intros ? <-. eapply reads_reads; [apply reads_sub|]. intros ? ->.
    eapply reads_reads; [apply reads_sub|]. intros ? ->. by apply reads_ret.
  Qed.
  Lemma reads_extra_back x :
    reads (dv_extra_back 1) x (fun n => n = let cb := (d_eos x).2 - (d_first x).2 in
      let ab := (d_eos x).2 - (d_last x).2 in if ab <=? 1 then Z.max (1 - ab) (cb / 2) else cb / 2) 0.
  Proof.
    eapply reads_reads; [apply reads_get|]. intros ? <-. eapply reads_reads; [apply reads_sub|]. intros ? ->.
    eapply reads_reads; [apply reads_sub|]. intros ? ->. by apply reads_ret.
  Qed.
  Lemma takes_px_result {St A} v d n (k : loc * proxy -> M St A) l h :
    (forall q, takes (k (q, PEmplace v)) l h) -> takes (bind (px_uninit (PEmplace v) d n) k) (n + l) (n + h).
  Proof. apply takes_bind_uninit. Qed.

  (** Growing: one allocation, one move per element and the new element. *)
  Lemma at_grow_insert to_front add pos v x :
    0 <= (d_eos x).2 - (d_bos x).2 ->
    let c := (d_last x).2 - (d_first x).2 + 2 in
    takes_at (dv_grow_insert to_front add pos 1 (PEmplace v)) x c c.
  Proof.
    intros Hcap c. unfold dv_grow_insert.
    eapply at_reads0; [apply reads_assert|]. intros ? Hadd. cbn in Hadd.
    eapply at_reads0; [apply reads_get|]. intros ? <-.
    eapply at_reads0; [apply reads_offset|]. intros k Hk.
    eapply at_reads0; [apply reads_assert|]. intros ? ?.
    eapply at_reads0; [apply reads_dv_cap|]. intros cap ->.
    destruct (max_size - _ <? add); [intros w r s' w' Hr; discriminate|].
    eapply at_reads0; [apply reads_dv_size|]. intros n ->.
    eapply at_reads0; [apply reads_room_b|]. intros ab ->.
    eapply at_reads0; [apply reads_room_f|]. intros af ->.
    apply at_takes. eapply takes_mono; [eapply takes_bind|..].
    - apply takes_alloc. lia.
    - intros b. eapply takes_bind; [apply takes_local|].
      + eapply takes_bind; [apply takes_try|].
        * eapply takes_bind; [apply takes_uninit_move|]. intros nl.
          apply takes_bind0; [apply takes_bounded, bounded_setl|]. intros _.
          apply takes_bind_uninit. intros q.
          apply takes_bind0; [apply takes_bounded, bounded_setl|]. intros _.
          eapply takes_bind; [apply takes_uninit_move|]. intros nl3. apply takes_bounded, bounded_setl.
        * intros _. apply takes_bounded, bounded_getl.
      + intros nl. eapply takes_bind; [apply takes_replace|]. intros _. apply takes_ret.
    - subst c. unfold loc_add. simpl. lia.
    - subst c. unfold loc_add. simpl. lia.
  Qed.

  Lemma at_emplace_front a x (A : dabs) m :
    is_dev x A m ->
    let s := Z.of_nat (length (e_elems A)) in
    takes_at (dv_emplace_front false a) x (if 0 <? e_front A then 1 else s + 2) (if 0 <? e_front A then 1 else s + 3).
  Proof.
    intros [I1 I2 I3 I4 I5 I6 I7 I8 I9 _] s. unfold dv_emplace_front.
    eapply at_reads0; [apply reads_get|]. intros ? <-.
    assert (loc_eqb (d_first x) (d_bos x) = negb (0 <? e_front A)) as ->.
    { rewrite I2 I3. unfold loc_eqb, loc_add. simpl. lia. }
    destruct (0 <? e_front A) eqn:Hf; cbn [negb].
    - apply at_takes. apply (takes_bind _ _ 1 1 0 0); [apply takes_construct|].
      intros _. apply takes_bind0; [apply takes_mod|intros; apply takes_ret].
    - replace (s + 2) with (1 + (s + 1)) by lia. replace (s + 3) with (1 + (s + 2)) by lia.
      eapply at_reads; [apply reads_make|]. intros tmp _.
      eapply at_reads0; [apply reads_extra_front|]. intros add Hadd.
      eapply at_reads0; [apply reads_room_b|]. intros ab ->.
      destruct (add <? _).
      + unfold dv_shift_to_back.
        eapply at_reads0; [apply reads_assert|]. intros ? H0. cbn in H0.
        eapply at_reads0; [apply reads_get|]. intros ? <-.
        eapply at_reads0; [apply reads_offset|]. intros k Hk.
        eapply at_reads0; [apply reads_assert|]. intros ? ?.
        eapply at_reads0; [apply reads_sub|]. intros n Hn.
        apply at_takes. cbv zeta.
        replace (s + 1) with (s + 1 + 0) by lia. replace (s + 2) with (s + 2 + 0) by lia.
        eapply takes_bind.
        2:{ intros _. eapply takes_bind0; [apply takes_mod|]. intros _.
            eapply takes_bind0; [apply takes_mod|]. intros _. apply takes_ret. }
        pose proof (takes_shift_back (St := ddata) tmp (e_bos A).1 ((e_bos A).2 + e_front A) s add) as Hs.
        rewrite I3 I4 in Hk, Hn |- *. unfold loc_add in *. cbn [fst snd] in *.
        replace k with 0 by lia. replace n with s by lia.
        eapply takes_mono; [|reflexivity|reflexivity].
        match type of Hs with _ -> _ -> takes ?m _ _ => match goal with |- takes ?m' _ _ => replace m' with m; [apply Hs; lia|] end end.
        do 2 f_equal; try lia. all: f_equal; lia.
      + eapply at_mono; [apply at_grow_insert|..].
        * rewrite I2 I5. unfold loc_add. simpl. lia.
        * rewrite I3 I4. unfold loc_add. simpl. lia.
        * rewrite I3 I4. unfold loc_add. simpl. lia.
  Qed.

  Lemma at_emplace_back a x (A : dabs) m :
    is_dev x A m ->
    let s := Z.of_nat (length (e_elems A)) in
    let b := g_back (geom_of A) in
    takes_at (dv_emplace_back false a) x (if 0 <? b then 1 else s + 2) (if 0 <? b then 1 else s + 3).
  Proof.
    intros [I1 I2 I3 I4 I5 I6 I7 I8 I9 _] s b. unfold g_back, geom_of in b. cbn in b. unfold dv_emplace_back.
    eapply at_reads0; [apply reads_get|]. intros ? <-.
    assert (loc_eqb (d_last x) (d_eos x) = negb (0 <? b)) as ->.
    { rewrite I4 I5. unfold loc_eqb, loc_add. simpl. lia. }
    destruct (0 <? b) eqn:Hf; cbn [negb].
    - apply at_takes. apply (takes_bind _ _ 1 1 0 0); [apply takes_construct|].
      intros _. apply takes_bind0; [apply takes_mod|intros; apply takes_ret].
    - replace (s + 2) with (1 + (s + 1)) by lia. replace (s + 3) with (1 + (s + 2)) by lia.
      eapply at_reads; [apply reads_make|]. intros tmp _.
      eapply at_reads0; [apply reads_extra_back|]. intros add Hadd.
      eapply at_reads0; [apply reads_room_f|]. intros ab ->.
      destruct (add <? _).
      + unfold dv_shift_to_front.
        eapply at_reads0; [apply reads_assert|]. intros ? H0. cbn in H0.
        eapply at_reads0; [apply reads_get|]. intros ? <-.
        eapply at_reads0; [apply reads_offset|]. intros k Hk.
        eapply at_reads0; [apply reads_assert|]. intros ? ?.
        eapply at_reads0; [apply reads_sub|]. intros n Hn.
        apply at_takes. cbv zeta.
        replace (s + 1) with (s + 1 + 0) by lia. replace (s + 2) with (s + 2 + 0) by lia.
        eapply takes_bind.
        2:{ intros _. eapply takes_bind0; [apply takes_mod|]. intros _.
            eapply takes_bind0; [apply takes_mod|]. intros _. apply takes_ret. }
        pose proof (takes_shift_front (St := ddata) tmp (e_bos A).1 ((e_bos A).2 + e_front A) s add) as Hs.
        rewrite I3 I4 in Hk, Hn |- *. unfold loc_add in *. cbn [fst snd] in *.
        replace k with s by lia. replace n with 0 by lia.
        match type of Hs with _ -> _ -> takes ?m _ _ => match goal with |- takes ?m' _ _ => replace m' with m; [apply Hs; lia|] end end.
        do 2 f_equal; try lia. all: f_equal; lia.
      + eapply at_mono; [apply at_grow_insert|..].
        * rewrite I2 I5. unfold loc_add. simpl. lia.
        * rewrite I3 I4. unfold loc_add. simpl. lia.
        * rewrite I3 I4. unfold loc_add. simpl. lia.
  Qed.

  Lemma takes_d_idx m x lo hi : takes_at m x lo hi -> takes_at (d_idx m) x lo hi.
  Proof.
    intros Hm w r x' w'. unfold d_idx, bind. destruct (m x w) as [p x1 w1| |] eqn:H1; try done.
    specialize (Hm _ _ _ _ H1). unfold getS, ptr_sub. destruct (_ =? _); [|done]. by intros [= <- <- <-].
  Qed.

  (** push_front and push_back: one operation if there is room at that end, else
      one per element. *)
  Lemma dev_push_cost (at_front : bool) a x (A : dabs) w hf r x' w' :
    holds is_dev x A w hf ->
    dev_call (if at_front then DEmplaceFront a else DEmplaceBack a) x w = Ok r x' w' ->
    let s := Z.of_nat (length (e_elems A)) in
    let room := if at_front then g_front (geom_of A) else g_back (geom_of A) in
    if 0 <? room then Z.of_nat (tick w') = Z.of_nat (tick w) + 1
    else s + 2 <= Z.of_nat (tick w') - Z.of_nat (tick w) <= s + 3.
  Proof.
    intros (_ & m & Hm & _) Hr s room. unfold dev_call, run_dop in Hr.
    destruct at_front; unfold bind at 1, getS at 1 in Hr.
    - pose proof (takes_d_idx _ _ _ _ (at_emplace_front (d_arg x a) x A m Hm) _ _ _ _ Hr) as H.
      unfold room, geom_of. cbn [g_front]. destruct (0 <? e_front A); lia.
    - pose proof (takes_d_idx _ _ _ _ (at_emplace_back (d_arg x a) x A m Hm) _ _ _ _ Hr) as H.
      unfold room. destruct (0 <? g_back _); lia.
  Qed.
End calls.

(** ** Sequences of insertions at the ends *)
Section sequences.
  Context `{E : Env}.

  (** [c.push_front(v)] for [(true, v)], [c.push_back(v)] for [(false, v)]. *)
  Fixpoint dev_push_all (vs : list (bool * V)) : M ddata unit :=
    match vs with
    | [] => ret tt
    | (fr, v) :: vs' =>
        (dev_call (if fr : bool then DEmplaceFront (XVal v) else DEmplaceBack (XVal v));; dev_push_all vs')%prog
    end.
  (** The elements afterwards. *)
  Fixpoint pushed (vs : list (bool * V)) (l : list V) : list V :=
    match vs with
    | [] => l
    | (fr, v) :: vs' => pushed vs' (if fr : bool then v :: l else l ++ [v])
    end.

  Definition side (s t r : Z) : Z := Z.max 0 (s - 2 * t) + if s <? 2 * t then s + r else 0.
  Definition budget (g : geom) (r : Z) : Z := 8 * r + side (g_size g) (g_front g) r + side (g_size g) (g_back g) r.
  Lemma budget_step (fr : bool) g r :
    0 <= g_front g -> 0 <= g_size g -> 0 <= g_back g -> 0 < r ->
    let room := if fr then g_front g else g_back g in
    (if 0 <? room then 1 else g_size g + 3) + budget (make_room fr 1 g).2 (r - 1) <= budget g r.
  Proof.
    destruct g as [f s c]. unfold budget, make_room, extra_front, extra_back, g_back.
    cbn [g_front g_size g_cap]. intros Hf Hs Hb Hr. cbv zeta.
    remember (c - f - s) as b eqn:Hbe.
    destruct fr.
    - destruct (0 <? f) eqn:H0.
      + replace (1 <=? f) with true by lia. cbn [snd g_front g_size g_cap]. unfold side.
        replace (c - (f - 1) - (s + 1)) with b by lia.
        repeat match goal with |- context [if ?a <? ?d then _ else _] => destruct (a <? d) eqn:? end; lia.
      + replace (1 <=? f) with false by lia. assert (f = 0) as -> by lia.
        pose proof (Z.div_mod s 2). pose proof (Z.mod_pos_bound s 2).
        replace (0 + s) with s by lia. set (x := Z.max (1 - 0) (s / 2)).
        assert (x = 1 /\ s <= 1 \/ 2 * x = s \/ 2 * x = s - 1) as Hx by lia.
        assert (1 <= x) by lia. clearbody x.
        destruct (x <? b) eqn:Hxb; cbn [snd g_front g_size g_cap]; unfold side.
        * replace (c - (0 + x - 1) - (s + 1)) with (b - x) by lia.
          repeat match goal with |- context [if ?a <? ?d then _ else _] => destruct (a <? d) eqn:? end; lia.
        * replace (c + x - (0 + x - 1) - (s + 1)) with b by lia.
          repeat match goal with |- context [if ?a <? ?d then _ else _] => destruct (a <? d) eqn:? end; lia.
    - destruct (0 <? b) eqn:H0.
      + replace (1 <=? b) with true by lia. cbn [snd g_front g_size g_cap]. unfold side.
        replace (c - f - (s + 1)) with (b - 1) by lia.
        repeat match goal with |- context [if ?a <? ?d then _ else _] => destruct (a <? d) eqn:? end; lia.
      + replace (1 <=? b) with false by lia. assert (b = 0) as -> by lia.
        pose proof (Z.div_mod s 2). pose proof (Z.mod_pos_bound s 2).
        replace (s + 0) with s by lia. set (x := Z.max (1 - 0) (s / 2)).
        assert (x = 1 /\ s <= 1 \/ 2 * x = s \/ 2 * x = s - 1) as Hx by lia.
        assert (1 <= x) by lia. clearbody x.
        destruct (x <? f) eqn:Hxb; cbn [snd g_front g_size g_cap]; unfold side.
        * replace (c - (f - x) - (s + 1)) with (x - 1) by lia.
          repeat match goal with |- context [if ?a <? ?d then _ else _] => destruct (a <? d) eqn:? end; lia.
        * replace (c + x - f - (s + 1)) with (x - 1) by lia.
          repeat match goal with |- context [if ?a <? ?d then _ else _] => destruct (a <? d) eqn:? end; lia.
  Qed.

  Lemma dev_push_state (fr : bool) v x (A : dabs) w hf r x' w' :
    holds is_dev x A w hf ->
    dev_call (if fr then DEmplaceFront (XVal v) else DEmplaceBack (XVal v)) x w = Ok r x' w' ->
    exists A' : dabs, holds is_dev x' A' w' hf /\ e_elems A' = (if fr then v :: e_elems A else e_elems A ++ [v]) /\
      geom_of A' = (make_room fr 1 (geom_of A)).2.
  Proof.
    intros Hx Hr.
    assert (dev_doc (if fr then DEmplaceFront (XVal v) else DEmplaceBack (XVal v)) (geom_of A) = true) as Hd by by destruct fr.
    destruct (dev_returns _ x A w hf r x' w' Hx Hd Hr) as (A' & Hx' & _ & Hp & Hs & _).
    exists A'. split; [done|].
    assert (e_elems A' = if fr then v :: e_elems A else e_elems A ++ [v]) as He.
    { destruct fr; destruct Hp as (u & [= <-] & _ & ->); done. }
    split; [done|].
    assert (made_room fr 1 A A') as Hm by by destruct fr.
    unfold made_room in Hm.
    assert (g_size (make_room fr 1 (geom_of A)).2 = Z.of_nat (length (e_elems A')) ) as Hn.
    { rewrite He. unfold make_room. destruct fr; repeat case_match; simpl; rewrite ?app_length /=; lia. }
    destruct (make_room fr 1 (geom_of A)) as [re g]. destruct Hm as (H1 & H2 & _). simpl in *.
    unfold geom_of. rewrite H1 H2 -Hn. by destruct g.
  Qed.

  Lemma dev_push_all_budget vs x (A : dabs) w hf x' w' :
    holds is_dev x A w hf -> dev_push_all vs x w = Ok tt x' w' ->
    exists A' : dabs, holds is_dev x' A' w' hf /\ e_elems A' = pushed vs (e_elems A) /\
      Z.of_nat (tick w) <= Z.of_nat (tick w') <= Z.of_nat (tick w) + budget (geom_of A) (Z.of_nat (length vs)).
  Proof.
    revert x A w. induction vs as [|[fr v] vs IH]; intros x A w Hx Hr; simpl in Hr.
    { injection Hr as -> ->. exists A. split; [done|]. split; [done|].
      pose proof (dev_bounds _ _ _ _ Hx). unfold budget, side. repeat case_match; simpl; lia. }
    unfold bind in Hr.
    destruct (dev_call _ x w) as [r x1 w1|e x1 w1|] eqn:Hr1; try done.
    pose proof (dev_push_cost fr _ _ _ _ _ _ _ _ Hx Hr1) as Hc.
    destruct (dev_push_state fr v x A w hf r x1 w1 Hx Hr1) as (A1 & Hx1 & Hl1 & Hg1).
    destruct (IH x1 A1 w1 Hx1 Hr) as (A' & Hx' & Hl' & Ht).
    exists A'. split; [done|]. split; [by rewrite Hl' Hl1|].
    pose proof (dev_bounds _ _ _ _ Hx) as [Hb1 Hb2].
    pose proof (budget_step fr (geom_of A) (Z.of_nat (length ((fr, v) :: vs)))) as Hb.
    rewrite -Hg1 in Hb. cbn [length] in Hb |- *.
    replace (Z.of_nat (S (length vs)) - 1) with (Z.of_nat (length vs)) in Hb by lia.
    unfold g_back in *. cbn [geom_of g_front g_size g_cap] in *.
    specialize (Hb ltac:(lia) ltac:(lia) ltac:(lia) ltac:(lia)). cbv zeta in Hb, Hc.
    destruct (0 <? _) eqn:H0 in Hb, Hc; lia.
  Qed.

  (** n insertions at the ends, in any order, cost O(size + n). *)
  Lemma dev_push_all_amortised vs x (A : dabs) w hf x' w' :
    holds is_dev x A w hf -> dev_push_all vs x w = Ok tt x' w' ->
    exists A' : dabs, holds is_dev x' A' w' hf /\ e_elems A' = pushed vs (e_elems A) /\
      (tick w <= tick w' <= tick w + 10 * length vs + 2 * length (e_elems A))%nat.
  Proof.
    intros Hx Hr. destruct (dev_push_all_budget vs x A w hf x' w' Hx Hr) as (A' & H1 & H2 & H3 & H4).
    exists A'. split_and!; try done; [lia|].
    revert H4. unfold budget, side. pose proof (dev_bounds _ _ _ _ Hx). cbn [geom_of g_front g_size g_cap].
    unfold g_back. cbn [geom_of g_front g_size g_cap]. repeat case_match; lia.
  Qed.
End sequences.
