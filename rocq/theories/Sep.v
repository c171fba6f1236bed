(** * A linear separation logic over heaps, and weakest preconditions.

    Assertions are predicates on finite heaps; [P ∗ Q] splits the heap.  The
    logic is linear: an assertion describes a heap exactly, so a proved
    postcondition also excludes leaks.  It is registered as a [bi] to make the
    Iris proof mode available (no other part of Iris is used). *)

From Verif Require Export Lang.
From iris.bi Require Export bi.
From iris.proofmode Require Export proofmode.
Open Scope Z_scope.

Record hProp `{Env} := HProp { hprop_holds :> gmap loc cell -> Prop }.
Arguments HProp {_} _.
Arguments hprop_holds {_} _ _ : simpl never.
Add Printing Constructor hProp.

Section ofe.
  Context `{E : Env}.
  Inductive hprop_equiv' (P Q : hProp) : Prop :=
    { hprop_in_equiv : forall h, P h <-> Q h }.
  Local Instance hprop_equiv : Equiv hProp := hprop_equiv'.
  Local Instance hprop_equivalence : Equivalence (≡@{hProp}).
  Proof. split; repeat destruct 1; constructor; naive_solver. Qed.
  Set Warnings "-redundant-canonical-projection".
  Canonical Structure hPropO := discreteO hProp.
End ofe.

Section defs.
  Context `{E : Env}.
  Inductive hprop_entails (P Q : hProp) : Prop :=
    { hprop_in_entails : forall h, P h -> Q h }.
  Definition hprop_emp : hProp := HProp (fun h => h = ∅).
  Definition hprop_pure (φ : Prop) : hProp := HProp (fun _ => φ).
  Definition hprop_and (P Q : hProp) : hProp := HProp (fun h => P h /\ Q h).
  Definition hprop_or (P Q : hProp) : hProp := HProp (fun h => P h \/ Q h).
  Definition hprop_impl (P Q : hProp) : hProp := HProp (fun h => P h -> Q h).
  Definition hprop_forall {A} (Ψ : A -> hProp) : hProp := HProp (fun h => forall a, Ψ a h).
  Definition hprop_exist {A} (Ψ : A -> hProp) : hProp := HProp (fun h => exists a, Ψ a h).
  Definition hprop_sep (P Q : hProp) : hProp :=
    HProp (fun h => exists h1 h2, h = h1 ∪ h2 /\ h1 ##ₘ h2 /\ P h1 /\ Q h2).
  Definition hprop_wand (P Q : hProp) : hProp :=
    HProp (fun h => forall h', h ##ₘ h' -> P h' -> Q (h ∪ h')).
  Definition hprop_persistently (P : hProp) : hProp := HProp (fun _ => P ∅).
  Definition hprop_later (P : hProp) : hProp := P.
End defs.

Section mixins.
  Context `{E : Env}.
  Lemma hprop_bi_mixin :
    BiMixin hprop_entails hprop_emp hprop_pure hprop_and hprop_or hprop_impl
      (@hprop_forall _) (@hprop_exist _) hprop_sep hprop_wand hprop_persistently.
  Proof.
    split.
    - split.
      + intros P; by split.
      + intros P Q R [H1] [H2]; split; intros h Hh; by apply H2, H1.
    - intros P Q; split.
      + intros [H]; split; split; intros h Hh; by apply H.
      + intros [[H1] [H2]]; split; intros h; split; auto.
    - intros n P Q H; split; intros h; exact H.
    - intros n P P' [HP] Q Q' [HQ]; split; intros h; unfold hprop_and, hprop_holds; naive_solver.
    - intros n P P' [HP] Q Q' [HQ]; split; intros h; unfold hprop_or, hprop_holds; naive_solver.
    - intros n P P' [HP] Q Q' [HQ]; split; intros h; unfold hprop_impl, hprop_holds; naive_solver.
    - intros A n Φ Φ' HΦ; split; intros h; split; intros HH a; apply (HΦ a); apply HH.
    - intros A n Φ Φ' HΦ; split; intros h; split; intros [a HH]; exists a; by apply (HΦ a).
    - intros n P P' [HP] Q Q' [HQ]; split; intros h; split;
        intros (h1 & h2 & -> & ? & ? & ?); exists h1, h2; naive_solver.
    - intros n P P' [HP] Q Q' [HQ]; split; intros h; split; intros HH h' Hd HP';
        apply HQ, HH; auto; by apply HP.
    - intros n P Q [HP]; split; intros h; apply (HP ∅).
    - intros φ P Hφ; split; intros h _; exact Hφ.
    - intros φ P H; split; intros h Hφ; by apply (H Hφ).
    - intros P Q; split; intros h [? ?]; done.
    - intros P Q; split; intros h [? ?]; done.
    - intros P Q R [H1] [H2]; split; intros h Hh; split; auto.
    - intros P Q; split; intros h Hh; by left.
    - intros P Q; split; intros h Hh; by right.
    - intros P Q R [H1] [H2]; split; intros h [?|?]; auto.
    - intros P Q R [H]; split; intros h HP HQ; apply H; by split.
    - intros P Q R [H]; split; intros h [HP HQ]; by apply H.
    - intros A P Ψ H; split; intros h HP a; by apply (H a).
    - intros A Ψ a; split; intros h HH; apply HH.
    - intros A Ψ a; split; intros h HH; by exists a.
    - intros A Φ Q H; split; intros h [a HH]; by apply (H a).
    - intros P P' Q Q' [HP] [HQ]; split; intros h (h1 & h2 & -> & ? & ? & ?);
        exists h1, h2; naive_solver.
    - intros P; split; intros h HP; exists ∅, h.
      split_and!; [by rewrite left_id_L|apply map_disjoint_empty_l|done|done].
    - intros P; split; intros h (h1 & h2 & -> & Hd & He & HP).
      unfold hprop_emp, hprop_holds in He; subst. by rewrite left_id_L.
    - intros P Q; split; intros h (h1 & h2 & -> & Hd & ? & ?); exists h2, h1.
      split_and!; [by apply map_union_comm|by symmetry|done|done].
    - intros P Q R; split; intros h (h12 & h3 & -> & Hd & (h1 & h2 & -> & Hd' & ? & ?) & ?).
      apply map_disjoint_union_l in Hd as [Hd1 Hd2].
      exists h1, (h2 ∪ h3). split_and!; [by rewrite assoc_L| |done|].
      + apply map_disjoint_union_r; by split.
      + exists h2, h3; done.
    - intros P Q R [H]; split; intros h HP h' Hd HQ. apply H. by exists h, h'.
    - intros P Q R [H]; split; intros h (h1 & h2 & -> & Hd & HP & HQ). by apply H.
    - intros P Q [H]; split; intros h HP. by apply H.
    - intros P; split; intros h HP; exact HP.
    - split; intros h _. done.
    - intros P Q; split; intros h [HP HQ]. by split.
    - intros A Ψ; split; intros h [a HH]. by exists a.
    - intros P Q; split; intros h (h1 & h2 & -> & Hd & HP & HQ). exact HP.
    - intros P Q; split; intros h [HP HQ]. exists ∅, h.
      split_and!; [by rewrite left_id_L|apply map_disjoint_empty_l|exact HP|done].
  Qed.

  Lemma hprop_bi_later_mixin :
    BiLaterMixin hprop_entails hprop_pure hprop_or hprop_impl
      (@hprop_forall _) (@hprop_exist _) hprop_sep hprop_persistently hprop_later.
  Proof. eapply bi_later_mixin_id; [done|apply hprop_bi_mixin]. Qed.
End mixins.

Canonical Structure hPropI `{E : Env} : bi :=
  {| bi_ofe_mixin := ofe_mixin_of hProp;
     bi_bi_mixin := hprop_bi_mixin; bi_bi_later_mixin := hprop_bi_later_mixin |}.

Global Instance hprop_pure_forall `{E : Env} : BiPureForall hPropI.
Proof. intros A φ. split. intros h Hh. exact (fun a => Hh a). Qed.

(** ** Well-formed worlds and weakest preconditions *)

(** Every block in use has a number between [- next] and [next]. *)
Definition wf_world `{Env} (w : world) : Prop :=
  0 < next w /\ forall p, is_Some (heap w !! p) -> - next w < p.1 < next w.

(** Why exception [e] was thrown between times [t0] and [t1]: an operation of
    the element type, or an allocation, threw in that interval; the other two
    are thrown by the library itself. *)
Definition cause `{Env} (e : exn) (t0 t1 : nat) : Prop :=
  match e with
  | EUser => exists k t, k <> KAlloc /\ may_throw k t = true /\ (t0 <= t < t1)%nat
  | EBadAlloc => exists t, may_throw KAlloc t = true /\ (t0 <= t < t1)%nat
  | _ => True
  end.
Lemma cause_mono `{Env} e t0 t1 t0' t1' :
  cause e t0 t1 -> (t0' <= t0)%nat -> (t1 <= t1')%nat -> cause e t0' t1'.
Proof.
  destruct e; simpl; try done.
  - intros (t & ? & ?) ? ?. exists t. split; [done|lia].
  - intros (k & t & ? & ? & ?) ? ?. exists k, t. split_and!; try done; lia.
Qed.

(** [w'] after a call that returned: nothing has thrown in between, that is, no
    exception has been swallowed. *)
Definition after `{Env} (w w' : world) : Prop :=
  wf_world w' /\ (tick w <= tick w')%nat /\ fired w' = fired w.
(** [w'] after a call that threw [e]. *)
Definition after_exn `{Env} (e : exn) (w w' : world) : Prop :=
  (wf_world w' /\ (tick w <= tick w')%nat) /\ cause e (tick w) (tick w').

(** [wp m s Q X] holds of a heap [h] if running [m] from any world whose heap
    is [h] plus a disjoint frame never has undefined behaviour, leaves the
    frame untouched, establishes [Q] on return and [X] on an exception, and
    throws only for a reason. *)
Definition wp_def `{Env} {St A} (m : M St A) (s : St)
    (Q : A -> St -> hProp) (X : exn -> St -> hProp) : hProp :=
  HProp (fun h => forall hf w, wf_world w -> h ##ₘ hf -> heap w = h ∪ hf ->
    match m s w with
    | Ok a s' w' => exists h', heap w' = h' ∪ hf /\ h' ##ₘ hf /\ after w w' /\ Q a s' h'
    | Exn e s' w' => exists h', heap w' = h' ∪ hf /\ h' ##ₘ hf /\ after_exn e w w' /\ X e s' h'
    | UB => False
    end).
Definition wp_aux : seal (@wp_def). Proof. by eexists. Qed.
Definition wp := unseal wp_aux.
Arguments wp {_ _ _} m s Q X.
Lemma wp_unseal : @wp = @wp_def. Proof. exact (seal_eq wp_aux). Qed.

Definition mapsto `{Env} (p : loc) (c : cell) : hProp := HProp (fun h => h = {[p := c]}).
(** Pure facts that own no memory. *)
Notation "⟦ φ ⟧" := (bi_affinely (bi_pure φ%type)) (at level 0, φ at level 200) : bi_scope.
Notation "p ↦ c" := (mapsto p c) (at level 20, format "p  ↦  c") : bi_scope.

Section rules.
  Context `{E : Env}.
  Context {St : Type}.
  Implicit Types s : St.

  Lemma wp_mono {A} (m : M St A) s Q Q' X X' :
    (forall a s', Q a s' ⊢ Q' a s') -> (forall e s', X e s' ⊢ X' e s') ->
    wp m s Q X ⊢ wp m s Q' X'.
  Proof.
    intros HQ HX. rewrite wp_unseal. split. intros h Hwp hf w Hwf Hd Hh.
    specialize (Hwp hf w Hwf Hd Hh). destruct (m s w); [| |done].
    - destruct Hwp as (h' & ? & ? & ? & ?). exists h'. split_and!; try done. by apply HQ.
    - destruct Hwp as (h' & ? & ? & ? & ?). exists h'. split_and!; try done. by apply HX.
  Qed.

  Lemma wp_frame {A} (m : M St A) s Q X R :
    wp m s Q X ∗ R ⊢ wp m s (fun a s' => Q a s' ∗ R) (fun e s' => X e s' ∗ R).
  Proof.
    rewrite wp_unseal. split. intros h (h1 & h2 & -> & Hd12 & Hwp & HR) hf w Hwf Hd Hh.
    apply map_disjoint_union_l in Hd as [Hd1 Hd2].
    assert (h1 ##ₘ h2 ∪ hf) as Hd' by (apply map_disjoint_union_r; by split).
    rewrite -assoc_L in Hh.
    specialize (Hwp (h2 ∪ hf) w Hwf Hd' Hh).
    destruct (m s w); [| |done];
      destruct Hwp as (h' & ? & Hd'' & ? & ?); exists (h' ∪ h2);
      apply map_disjoint_union_r in Hd'' as [? ?];
      (split_and!; [by rewrite -assoc_L|apply map_disjoint_union_l; by split|done|];
       exists h', h2; done).
  Qed.

  (** Consequence: normal and exceptional continuations share the frame. *)
  Lemma wp_wand {A} (m : M St A) s Q Q' X X' :
    wp m s Q X ⊢ ((∀ a s', Q a s' -∗ Q' a s') ∧ (∀ e s', X e s' -∗ X' e s')) -∗
    wp m s Q' X'.
  Proof.
    iIntros "Hwp Hk".
    iPoseProof (wp_frame m s Q X
      ((∀ a s', Q a s' -∗ Q' a s') ∧ (∀ e s', X e s' -∗ X' e s'))%I with "[Hwp Hk]") as "Hwp".
    { iFrame. }
    iApply (wp_mono with "Hwp").
    - iIntros (a s') "[HQ HK]". iDestruct "HK" as "[HK _]". by iApply "HK".
    - iIntros (e s') "[HQ HK]". iDestruct "HK" as "[_ HK]". by iApply "HK".
  Qed.

  Lemma after_refl w : wf_world w -> after w w.
  Proof. by split. Qed.
  Lemma after_trans w1 w2 w3 : after w1 w2 -> after w2 w3 -> after w1 w3.
  Proof. intros (?&?&?) (?&?&?). split_and!; [done|lia|congruence]. Qed.
  Lemma after_exn_l e w1 w2 w3 : after w1 w2 -> after_exn e w2 w3 -> after_exn e w1 w3.
  Proof.
    intros (H1 & H2 & _) ((H3 & H4) & Hc). split; [split; [done|lia]|].
    eapply cause_mono; [done|done|done].
  Qed.
  Lemma after_exn_r e w1 w2 w3 : after_exn e w1 w2 -> after w2 w3 -> after_exn e w1 w3.
  Proof.
    intros ((H1 & H2) & Hc) (H3 & H4 & _). split; [split; [done|lia]|].
    eapply cause_mono; [done|done|done].
  Qed.
  Lemma after_exn_2 e e' w1 w2 w3 : after_exn e' w1 w2 -> after_exn e w2 w3 -> after_exn e w1 w3.
  Proof.
    intros ((H1 & H2) & _) ((H3 & H4) & Hc). split; [split; [done|lia]|].
    eapply cause_mono; [done|done|done].
  Qed.
  Lemma after_self w h t :
    wf_world (World h t (next w) (fired w)) -> (tick w <= t)%nat -> after w (World h t (next w) (fired w)).
  Proof. intros ??. split; [done|]. split; done. Qed.
  Hint Resolve after_refl : core.
  Hint Resolve after_exn_l after_exn_r after_self : core.

  Lemma wp_ret {A} (a : A) s Q X : Q a s ⊢ wp (ret a) s Q X.
  Proof. rewrite wp_unseal. split. intros h HQ hf w Hwf Hd Hh. exists h. auto. Qed.
  Definition own_exn (e : exn) : Prop := e = ELength \/ e = EOutOfRange.
  Lemma wp_throw {A} e s (Q : A -> St -> hProp) X :
    own_exn e -> X e s ⊢ wp (throw e) s Q X.
  Proof.
    intros He. rewrite wp_unseal. split. intros h HQ hf w Hwf Hd Hh. exists h.
    split_and!; auto. split; [auto|]. by destruct He as [->| ->].
  Qed.
  Lemma wp_get s Q X : Q s s ⊢ wp getS s Q X.
  Proof. rewrite wp_unseal. split. intros h HQ hf w Hwf Hd Hh. exists h. auto. Qed.
  Lemma wp_put s s' Q X : Q tt s' ⊢ wp (putS s') s Q X.
  Proof. rewrite wp_unseal. split. intros h HQ hf w Hwf Hd Hh. exists h. auto. Qed.
  Lemma wp_modify s f Q X : Q tt (f s) ⊢ wp (modS f) s Q X.
  Proof. rewrite wp_unseal. split. intros h HQ hf w Hwf Hd Hh. exists h. auto. Qed.
  Lemma wp_assert (b : bool) s Q X : b = true -> Q tt s ⊢ wp (assert_ b) s Q X.
  Proof. intros ->. apply wp_ret. Qed.

  Lemma wp_bind {A B} (m : M St A) (k : A -> M St B) s Q X :
    wp m s (fun a s' => wp (k a) s' Q X) X ⊢ wp (bind m k) s Q X.
  Proof.
    rewrite wp_unseal. split. intros h Hwp hf w Hwf Hd Hh. specialize (Hwp hf w Hwf Hd Hh).
    unfold bind. destruct (m s w) as [a s' w'| |]; [|done|done].
    destruct Hwp as (h' & Hh' & Hd' & Haf & Hk). specialize (Hk hf _ (proj1 Haf) Hd' Hh').
    destruct (k a s' w'); [| |done]; destruct Hk as (h'' & ? & ? & ? & ?); exists h'';
      split_and!; eauto using after_trans.
  Qed.

  Lemma wp_try {A} (m : M St A) c s Q X :
    wp m s Q (fun e s' => wp c s' (fun _ s'' => X e s'') X) ⊢ wp (try_ m c) s Q X.
  Proof.
    rewrite wp_unseal. split. intros h Hwp hf w Hwf Hd Hh. specialize (Hwp hf w Hwf Hd Hh).
    unfold try_. destruct (m s w) as [a s' w'|e s' w'|]; [done| |done].
    destruct Hwp as (h' & Hh' & Hd' & Haf & Hk). specialize (Hk hf _ (proj1 (proj1 Haf)) Hd' Hh').
    destruct (c s' w'); [| |done]; destruct Hk as (h'' & ? & ? & ? & ?); exists h'';
      split_and!; eauto using after_exn_2.
  Qed.

  Lemma wp_local {L A} (l : L) (m : M (St * L) A) s Q X :
    wp m (s, l) (fun a sl => Q a sl.1) (fun e sl => X e sl.1) ⊢ wp (local_ l m) s Q X.
  Proof.
    rewrite wp_unseal. split. intros h Hwp hf w Hwf Hd Hh. specialize (Hwp hf w Hwf Hd Hh).
    unfold local_. destruct (m (s, l) w) as [a [s' l'] w'|e [s' l'] w'|]; done.
  Qed.
  Lemma wp_lift {L A} (m : M St A) s (l : L) Q X :
    wp m s (fun a s' => Q a (s', l)) (fun e s' => X e (s', l)) ⊢ wp (lift_ m) (s, l) Q X.
  Proof.
    rewrite wp_unseal. split. intros h Hwp hf w Hwf Hd Hh. specialize (Hwp hf w Hwf Hd Hh).
    unfold lift_; simpl. destruct (m s w); done.
  Qed.
  Lemma wp_getl {L} s (l : L) (Q : L -> St * L -> hProp) X : Q l (s, l) ⊢ wp getl_ (s, l) Q X.
  Proof. rewrite wp_unseal. split. intros h HQ hf w Hwf Hd Hh. exists h. auto. Qed.
  Lemma wp_setl {L} s (l l' : L) (Q : unit -> St * L -> hProp) X :
    Q tt (s, l') ⊢ wp (setl_ l') (s, l) Q X.
  Proof. rewrite wp_unseal. split. intros h HQ hf w Hwf Hd Hh. exists h. auto. Qed.
  Lemma wp_on1 {S2 A} (m : M St A) s (s2 : S2) Q X :
    wp m s (fun a s' => Q a (s', s2)) (fun e s' => X e (s', s2)) ⊢ wp (on1 m) (s, s2) Q X.
  Proof.
    rewrite wp_unseal. split. intros h Hwp hf w Hwf Hd Hh. specialize (Hwp hf w Hwf Hd Hh).
    unfold on1; simpl. destruct (m s w); done.
  Qed.
  Lemma wp_on2 {S1 A} (m : M St A) s (s1 : S1) Q X :
    wp m s (fun a s' => Q a (s1, s')) (fun e s' => X e (s1, s')) ⊢ wp (on2 m) (s1, s) Q X.
  Proof.
    rewrite wp_unseal. split. intros h Hwp hf w Hwf Hd Hh. specialize (Hwp hf w Hwf Hd Hh).
    unfold on2; simpl. destruct (m s w); done.
  Qed.

  Lemma wp_if {A} (b : bool) (m1 m2 : M St A) s Q X :
    (if b then wp m1 s Q X else wp m2 s Q X) ⊢ wp (if b then m1 else m2) s Q X.
  Proof. by destruct b. Qed.

  (** *** Points-to *)

  Lemma mapsto_excl p c c' : p ↦ c ∗ p ↦ c' ⊢ False.
  Proof.
    split. intros h (h1 & h2 & -> & Hd & -> & ->).
    by apply map_disjoint_singleton_l in Hd; rewrite lookup_singleton in Hd.
  Qed.
  Lemma mapsto_ne p q c c' : p ↦ c ∗ q ↦ c' ⊢ ⌜p <> q⌝.
  Proof.
    destruct (decide (p = q)) as [->|Hne].
    - iIntros "H". iExFalso. by iApply mapsto_excl.
    - split. intros h _. exact Hne.
  Qed.

  Lemma wf_same_dom (w : world) h' t' n' :
    wf_world w -> (forall p, is_Some (h' !! p) -> is_Some (heap w !! p)) -> wf_world (World h' t' (next w) n').
  Proof. intros [Hn Hw] Hd. split; [done|]. intros p Hp. apply Hw, Hd, Hp. Qed.

  Lemma single_lookup (p : loc) (c : cell) hf (w : world) :
    heap w = {[p := c]} ∪ hf -> heap w !! p = Some c.
  Proof. intros ->. apply lookup_union_Some_l, lookup_singleton. Qed.

  Lemma single_update (p : loc) (c c' : cell) (hf : gmap loc cell) :
    <[p := c']> ({[p := c]} ∪ hf) = {[p := c']} ∪ hf.
  Proof. by rewrite insert_union_l insert_singleton. Qed.

  Lemma single_disj (p : loc) (c c' : cell) (hf : gmap loc cell) :
    {[p := c]} ##ₘ hf -> {[p := c']} ##ₘ hf.
  Proof. intros Hd. apply map_disjoint_singleton_l in Hd. by apply map_disjoint_singleton_l. Qed.

  Lemma wf_update (w : world) (p : loc) (c c' : cell) hf t' n' :
    wf_world w -> heap w = {[p := c]} ∪ hf -> wf_world (World ({[p := c']} ∪ hf) t' (next w) n').
  Proof.
    intros Hwf Hh. apply wf_same_dom; [done|]. intros q [x Hq]. rewrite Hh.
    apply lookup_union_is_Some. apply lookup_union_Some_raw in Hq as [Hq|[_ Hq]].
    - apply lookup_singleton_Some in Hq as [-> _]. left. rewrite lookup_singleton. by eexists.
    - right. by eexists.
  Qed.

  (** Lifting a deterministic non-throwing step with an exact result. *)
  Lemma wp_exact {A} (P P' : hProp) (m : M St A) s a s' Q X :
    (P ⊢ wp m s (fun a' s'' => ⟦a' = a /\ s'' = s'⟧ ∗ P')%I (fun _ _ => False)%I) ->
    P ⊢ (P' -∗ Q a s') -∗ wp m s Q X.
  Proof.
    iIntros (HP) "HP HQ". iApply (wp_wand with "[HP]"); [by iApply HP|].
    iSplit; [|by iIntros (??) "[]"].
    iIntros (a' s'') "[%Heq HP]". destruct Heq as [-> ->]. by iApply "HQ".
  Qed.

  Lemma hold_pure_sep (φ : Prop) (P : hProp) h : φ -> P h -> (⟦φ⟧ ∗ P)%I h.
  Proof.
    intros Hφ HP. exists ∅, h. split_and!; [by rewrite left_id_L|apply map_disjoint_empty_l| |done].
    split; [done|exact Hφ].
  Qed.

  (** An operation that may throw; [c] is what happens before the exception leaves. *)
  Lemma wp_oracle_case {B} k (c : nat -> M St unit) (m : M St B) s Q X :
    k <> KAlloc ->
    (∀ t, ⟦k = KMove -> nothrow_move = false⟧ -∗
       wp (c t) s (fun _ s' => X EUser s') (fun _ _ => False)) ∧ wp m s Q X ⊢
    wp (o <- oracle k;; match o with Some t => c t;; throw EUser | None => m end)%prog s Q X.
  Proof.
    intros Hk. rewrite wp_unseal. split. intros h [HX HQ] hf w Hwf Hd Hh.
    unfold bind, oracle. destruct (may_throw k (tick w)) eqn:Ht.
    - specialize (HX (tick w) ∅). rewrite right_id_L in HX.
      assert (k = KMove -> nothrow_move = false) as Hn.
      { intros ->. unfold may_throw in Ht. by destruct nothrow_move. }
      specialize (HX ltac:(apply map_disjoint_empty_r) ltac:(split; [done|exact Hn]) hf (bump true w) Hwf Hd Hh).
      destruct (c (tick w) s (bump true w)) as [a s' w'|e s' w'|]; [| |done].
      + destruct HX as (h' & ? & ? & (Haf1 & Haf2 & _) & ?). exists h'. split_and!; try done.
        simpl in Haf2. split; [split; [done|lia]|]. exists k, (tick w). split_and!; try done; lia.
      + by destruct HX as (h' & ? & ? & ? & []).
    - specialize (HQ hf (bump false w) Hwf Hd Hh).
      destruct (m s (bump false w)) as [a s' w'|e s' w'|]; [| |done];
        destruct HQ as (h' & ? & ? & ? & ?); exists h'; split_and!; try done.
      + by apply (after_trans _ (bump false w)); [split_and!; [done|simpl; lia|done]|].
      + by apply (after_exn_l _ _ (bump false w)); [split_and!; [done|simpl; lia|done]|].
  Qed.

  Lemma wp_step k s Q X :
    k <> KAlloc -> (Q tt s) ∧ (X EUser s) ⊢ wp (step_ k EUser) s Q X.
  Proof.
    intros Hk. rewrite wp_unseal. split. intros h [HQ HX] hf w Hwf Hd Hh.
    unfold step_, bind, oracle. destruct (may_throw k (tick w)) eqn:Ht; exists h; split_and!; try done.
    - split; [split; [done|simpl; lia]|]. exists k, (tick w). split_and!; try done; simpl; lia.
    - split_and!; [done|simpl; lia|done].
  Qed.

  Lemma wp_read p v s Q X :
    p ↦ Live v ⊢ (p ↦ Live v -∗ Q v s) -∗ wp (read p) s Q X.
  Proof.
    apply wp_exact. rewrite wp_unseal. split. intros h -> hf w Hwf Hd Hh.
    unfold read. rewrite (single_lookup _ _ _ _ Hh). exists {[p := Live v]}.
    split_and!; auto. by apply hold_pure_sep.
  Qed.

  Lemma wp_write p v v' s Q X :
    p ↦ Live v ⊢ (p ↦ Live v' -∗ Q tt s) -∗ wp (write p v') s Q X.
  Proof.
    apply wp_exact. rewrite wp_unseal. split. intros h -> hf w Hwf Hd Hh.
    unfold write. rewrite (single_lookup _ _ _ _ Hh). exists {[p := Live v']}.
    unfold set_heap; simpl. rewrite Hh single_update.
    split_and!; [done|by eapply single_disj|apply after_self; [by eapply wf_update|simpl; lia]|by apply hold_pure_sep].
  Qed.

  Lemma wp_expect_raw p s Q X :
    p ↦ Raw ⊢ (p ↦ Raw -∗ Q tt s) -∗ wp (expect_raw p) s Q X.
  Proof.
    apply wp_exact. rewrite wp_unseal. split. intros h -> hf w Hwf Hd Hh.
    unfold expect_raw. rewrite (single_lookup _ _ _ _ Hh). exists {[p := Raw]}.
    split_and!; auto. by apply hold_pure_sep.
  Qed.

  Lemma wp_set_live p v s Q X :
    p ↦ Raw ⊢ (p ↦ Live v -∗ Q tt s) -∗ wp (set_live p v) s Q X.
  Proof.
    apply wp_exact. rewrite wp_unseal. split. intros h -> hf w Hwf Hd Hh.
    unfold set_live. rewrite (single_lookup _ _ _ _ Hh). exists {[p := Live v]}.
    unfold set_heap; simpl. rewrite Hh single_update.
    split_and!; [done|by eapply single_disj|apply after_self; [by eapply wf_update|simpl; lia]|by apply hold_pure_sep].
  Qed.

  Lemma wp_destroy_at p v s Q X :
    p ↦ Live v ⊢ (p ↦ Raw -∗ Q tt s) -∗ wp (destroy_at p) s Q X.
  Proof.
    apply wp_exact. rewrite wp_unseal. split. intros h -> hf w Hwf Hd Hh.
    unfold destroy_at. rewrite (single_lookup _ _ _ _ Hh). exists {[p := Raw]}.
    unfold set_heap; simpl. rewrite Hh single_update.
    split_and!; [done|by eapply single_disj|apply after_self; [by eapply wf_update|simpl; lia]|by apply hold_pure_sep].
  Qed.

  Lemma wp_ptr_sub (p q : loc) s Q X :
    p.1 = q.1 -> Q (q.2 - p.2) s ⊢ wp (ptr_sub q p) s Q X.
  Proof. intros Hpq. unfold ptr_sub. rewrite Hpq Z.eqb_refl. apply wp_ret. Qed.
  Lemma wp_range_len (p q : loc) s Q X :
    p.1 = q.1 -> p.2 <= q.2 -> Q (Z.to_nat (q.2 - p.2)) s ⊢ wp (range_len p q) s Q X.
  Proof.
    intros Hpq Hle. unfold range_len. rewrite Hpq Z.eqb_refl.
    apply Z.leb_le in Hle. rewrite Hle. apply wp_ret.
  Qed.
End rules.

(** ** Array segments *)

(** [arr p cs]: the consecutive cells [cs] starting at [p]. *)
Fixpoint arr `{Env} (p : loc) (cs : list cell) : hProp :=
  match cs with
  | [] => emp
  | c :: cs' => p ↦ c ∗ arr (p +ₗ 1) cs'
  end%I.
Notation "p ↦∗ cs" := (arr p cs) (at level 20, format "p  ↦∗  cs") : bi_scope.

(** [elems p l]: live elements with values [l] starting at [p]. *)
Definition elems `{Env} (p : loc) (l : list V) : hProp := arr p (Live <$> l).
(** [raws p n]: [n] raw cells starting at [p]. *)
Definition raws `{Env} (p : loc) (n : nat) : hProp := arr p (replicate n Raw).

(** Ownership of an allocated block of [n] elements at [p] (its header);
    for [n = 0] there is no block and [p] is null. *)
Definition ablock `{Env} (a : nat) (p : loc) (n : Z) : hProp :=
  if decide (n = 0) then ⟦p = null⟧%I
  else (⟦p.2 = 0 /\ 0 < p.1 /\ 0 < n⟧ ∗ (p.1, hdr_off) ↦ Hdr a n)%I.

Lemma loc_add_0 p : p +ₗ 0 = p.
Proof. destruct p; unfold loc_add; simpl; f_equal; lia. Qed.
Lemma loc_add_assoc p a b : p +ₗ a +ₗ b = p +ₗ (a + b).
Proof. unfold loc_add; simpl; f_equal; lia. Qed.
Lemma loc_add_inj p a b : p +ₗ a = p +ₗ b <-> a = b.
Proof. unfold loc_add; split; [intros [= ?]; lia|by intros ->]. Qed.
Lemma loc_eqb_spec p q : loc_eqb p q = true <-> p = q.
Proof.
  unfold loc_eqb. destruct p, q; simpl. rewrite andb_true_iff !Z.eqb_eq.
  split; [intros [-> ->]; done|intros [= -> ->]; done].
Qed.
Lemma loc_eqb_add p a b : loc_eqb (p +ₗ a) (p +ₗ b) = (a =? b)%Z.
Proof.
  unfold loc_eqb, loc_add; simpl. rewrite Z.eqb_refl; simpl.
  destruct (Z.eqb_spec a b); [apply Z.eqb_eq; lia|apply Z.eqb_neq; lia].
Qed.
Lemma loc_eqb_refl p : loc_eqb p p = true.
Proof. by apply loc_eqb_spec. Qed.

Section arr.
  Context `{E : Env}.

  Lemma arr_nil p : p ↦∗ [] ⊣⊢ emp. Proof. done. Qed.
  Lemma arr_cons p c cs : p ↦∗ (c :: cs) ⊣⊢ p ↦ c ∗ (p +ₗ 1) ↦∗ cs. Proof. done. Qed.
  Lemma arr_app p cs1 cs2 :
    p ↦∗ (cs1 ++ cs2) ⊣⊢ p ↦∗ cs1 ∗ (p +ₗ Z.of_nat (length cs1)) ↦∗ cs2.
  Proof.
    induction cs1 as [|c cs1 IH] in p |- *; simpl.
    - by rewrite loc_add_0 left_id.
    - rewrite IH loc_add_assoc -assoc.
      by replace (1 + Z.of_nat (length cs1)) with (Z.of_nat (S (length cs1))) by lia.
  Qed.
  Lemma arr_singleton p c : p ↦∗ [c] ⊣⊢ p ↦ c.
  Proof. by rewrite arr_cons arr_nil right_id. Qed.
  Lemma elems_nil p : elems p [] ⊣⊢ emp. Proof. done. Qed.
  Lemma elems_cons p v l : elems p (v :: l) ⊣⊢ p ↦ Live v ∗ elems (p +ₗ 1) l.
  Proof. done. Qed.
  Lemma elems_app p l1 l2 :
    elems p (l1 ++ l2) ⊣⊢ elems p l1 ∗ elems (p +ₗ Z.of_nat (length l1)) l2.
  Proof. unfold elems. by rewrite fmap_app arr_app fmap_length. Qed.
  Lemma elems_singleton p v : elems p [v] ⊣⊢ p ↦ Live v.
  Proof. apply arr_singleton. Qed.
  Lemma elems_snoc p l v :
    elems p (l ++ [v]) ⊣⊢ elems p l ∗ (p +ₗ Z.of_nat (length l)) ↦ Live v.
  Proof. by rewrite elems_app elems_singleton. Qed.
  Lemma raws_0 p : raws p 0 ⊣⊢ emp. Proof. done. Qed.
  Lemma raws_S p n : raws p (S n) ⊣⊢ p ↦ Raw ∗ raws (p +ₗ 1) n. Proof. done. Qed.
  Lemma raws_add p n m : raws p (n + m) ⊣⊢ raws p n ∗ raws (p +ₗ Z.of_nat n) m.
  Proof. unfold raws. by rewrite replicate_add arr_app replicate_length. Qed.
  Lemma raws_1 p : raws p 1 ⊣⊢ p ↦ Raw.
  Proof. apply arr_singleton. Qed.

  Lemma arr_acc p cs i c :
    cs !! i = Some c ->
    p ↦∗ cs ⊢ (p +ₗ Z.of_nat i) ↦ c ∗ (∀ c', (p +ₗ Z.of_nat i) ↦ c' -∗ p ↦∗ (<[i := c']> cs)).
  Proof.
    iIntros (Hi) "H".
    assert (Hlt := lookup_lt_Some _ _ _ Hi).
    rewrite -{1}(take_drop_middle cs i c Hi) arr_app arr_cons.
    rewrite take_length_le; [|lia].
    iDestruct "H" as "(H1 & $ & H2)". iIntros (c') "Hc".
    rewrite insert_take_drop; [|done].
    rewrite arr_app arr_cons take_length_le; [|lia]. iFrame.
  Qed.
  Lemma elems_acc p l i v :
    l !! i = Some v ->
    elems p l ⊢ (p +ₗ Z.of_nat i) ↦ Live v ∗
      (∀ v', (p +ₗ Z.of_nat i) ↦ Live v' -∗ elems p (<[i := v']> l)).
  Proof.
    iIntros (Hi) "H". unfold elems.
    iDestruct (arr_acc _ _ i (Live v) with "H") as "[$ H]".
    { by rewrite list_lookup_fmap Hi. }
    iIntros (v') "Hv". rewrite list_fmap_insert. by iApply "H".
  Qed.
End arr.

(** ** Allocation *)

(** Cells that may be returned to the allocator. *)
Definition dead `{Env} (c : cell) : Prop :=
  match c with Raw | Ptr _ => True | _ => False end.

Section alloc.
  Context `{E : Env}.
  Context {St : Type}.
  Implicit Types s : St.

  Lemma add_raws_spec b o n h :
    (forall p, p.1 = b -> h !! p = None) ->
    exists h1, add_raws b o n h = h1 ∪ h /\ raws (b, o) n h1 /\
      (forall p, is_Some (h1 !! p) -> p.1 = b /\ o <= p.2 < o + Z.of_nat n).
  Proof.
    intros Hh. induction n as [|n IH] in o |- *; simpl.
    - exists ∅. split_and!; [by rewrite left_id_L|done|].
      intros p [x Hx]. by rewrite lookup_empty in Hx.
    - destruct (IH (o + 1)) as (h1 & -> & Hr & Hdom).
      exists ({[(b, o) := Raw]} ∪ h1).
      assert (Hn : h1 !! (b, o) = None).
      { apply eq_None_not_Some. intros Hs. apply Hdom in Hs as [_ Hs]. simpl in Hs. lia. }
      split_and!.
      + by rewrite insert_union_singleton_l assoc_L.
      + exists {[(b, o) := Raw]}, h1. split_and!; [done| |done|done].
        by apply map_disjoint_singleton_l.
      + intros p [x Hx]. apply lookup_union_Some_raw in Hx as [Hx|[_ Hx]].
        * apply lookup_singleton_Some in Hx as [<- _]. simpl. lia.
        * destruct (Hdom p) as [? ?]; [by eexists|]. split; [done|lia].
  Qed.

  Lemma del_raws_spec b o cs h1 hf :
    Forall dead cs -> arr (b, o) cs h1 -> h1 ##ₘ hf ->
    del_raws b o (length cs) (h1 ∪ hf) = Some hf.
  Proof.
    intros Hcs. induction Hcs as [|c cs Hc Hcs IH] in o, h1 |- *; simpl.
    - intros He Hd. change (h1 = ∅) in He. subst. by rewrite left_id_L.
    - intros (h2 & h3 & -> & Hd23 & Hs & Harr) Hd.
      change (h2 = {[(b, o) := c]}) in Hs. subst h2.
      apply map_disjoint_union_l in Hd as [Hd2 Hd3].
      rewrite -assoc_L.
      rewrite (lookup_union_Some_l _ _ _ c); [|apply lookup_singleton].
      assert (Hdel : delete (b, o) (({[(b, o) := c]} : gmap loc cell) ∪ (h3 ∪ hf)) = h3 ∪ hf).
      { rewrite -insert_union_singleton_l delete_insert; [done|].
        apply map_disjoint_singleton_l in Hd23. apply map_disjoint_singleton_l in Hd2.
        by apply lookup_union_None. }
      destruct c; try done; rewrite -> Hdel; by apply IH.
  Qed.

  Lemma wp_allocate a n s Q X :
    0 <= n ->
    ((∀ p, ablock a p n -∗ raws p (Z.to_nat n) -∗ Q p s) ∧ X EBadAlloc s) ⊢
    wp (allocate a n) s Q X.
  Proof.
    intros Hn. destruct (decide (n = 0)) as [->|Hn0].
    { rewrite wp_unseal. split. intros h [HQ _] hf w Hwf Hd Hh. unfold allocate; simpl.
      exists h. split_and!; [done|done|by split|].
      specialize (HQ null ∅). rewrite right_id_L in HQ.
      specialize (HQ ltac:(apply map_disjoint_empty_r) ltac:(done) ∅).
      rewrite right_id_L in HQ. apply HQ; [apply map_disjoint_empty_r|done]. }
    rewrite wp_unseal. split. intros h [HQ HX] hf w Hwf Hd Hh. unfold allocate.
    destruct (Z.eqb_spec n 0); [done|]. destruct (Z.ltb_spec n 0); [lia|].
    destruct (may_throw KAlloc (tick w)) eqn:Ht.
    { exists h. split_and!; try done. split; [split; [done|simpl; lia]|].
      exists (tick w). simpl. split; [done|lia]. }
    destruct (add_raws_spec (next w) 0 (Z.to_nat n) (heap w)) as (h1 & Heq & Hr & Hdom).
    { intros p Hp. apply eq_None_not_Some. intros Hs. apply Hwf in Hs. lia. }
    set (hh := {[(next w, hdr_off) := Hdr a n]} : gmap loc cell).
    assert (Hfresh : forall p, p.1 = next w -> heap w !! p = None).
    { intros p Hp. apply eq_None_not_Some. intros Hs. apply Hwf in Hs. lia. }
    assert (Hdh : hh ##ₘ heap w).
    { apply map_disjoint_singleton_l. by apply Hfresh. }
    assert (Hd1 : h1 ##ₘ heap w).
    { apply map_disjoint_spec. intros p x y Hx Hy. destruct (Hdom p) as [Hp _]; [by eexists|].
      rewrite Hfresh in Hy; done. }
    assert (Hdh1 : hh ##ₘ h1).
    { apply map_disjoint_singleton_l. apply eq_None_not_Some. intros Hs.
      apply Hdom in Hs as [_ Hs]. simpl in Hs. unfold hdr_off in Hs. lia. }
    exists (h ∪ hh ∪ h1). simpl. rewrite Heq Hh. rewrite Hh in Hdh Hd1.
    apply map_disjoint_union_r in Hdh as [Hdh1' Hdh2]. apply map_disjoint_union_r in Hd1 as [Hd11 Hd12].
    split_and!.
    - rewrite insert_union_singleton_l. fold hh.
      rewrite !assoc_L (map_union_comm (h ∪ hh) h1).
      + rewrite (map_union_comm hh h1); [|done]. rewrite -(assoc_L _ h1 hh h).
        rewrite (map_union_comm hh h); done.
      + apply map_disjoint_union_l. split; [by symmetry|done].
    - apply map_disjoint_union_l; split; [|done]. apply map_disjoint_union_l; done.
    - split; [|simpl; lia]. destruct Hwf as [Hwf0 Hwf1]. split; simpl; [lia|]. intros p [x Hx].
      rewrite insert_union_singleton_l in Hx.
      apply lookup_union_Some_raw in Hx as [Hx|[_ Hx]].
      { apply lookup_singleton_Some in Hx as [<- _]. simpl. lia. }
      apply lookup_union_Some_raw in Hx as [Hx|[_ Hx]].
      { destruct (Hdom p) as [-> _]; [by eexists|]. lia. }
      rewrite -Hh in Hx. assert (- next w < p.1 < next w); [|lia]. apply Hwf1. by eexists.
    - apply (HQ (next w, 0) hh); [by symmetry| |apply map_disjoint_union_l; split; [by symmetry|done]|done].
      unfold ablock. rewrite decide_False; [|done].
      apply hold_pure_sep; [|done]. simpl. destruct Hwf. lia.
  Qed.

  Lemma wp_enter n s Q X :
    (∀ p, ⟦p.1 < 0 /\ p.2 = 0⟧ -∗ raws p n -∗ Q p s) ⊢ wp (enter n) s Q X.
  Proof.
    rewrite wp_unseal. split. intros h HQ hf w Hwf Hd Hh. unfold enter.
    assert (Hfresh : forall p, p.1 = - next w -> heap w !! p = None).
    { intros p Hp. apply eq_None_not_Some. intros Hs. apply Hwf in Hs. lia. }
    destruct (add_raws_spec (- next w) 0 n (heap w) Hfresh) as (h1 & Heq & Hr & Hdom).
    assert (Hd1 : h1 ##ₘ heap w).
    { apply map_disjoint_spec. intros p x y Hx Hy. destruct (Hdom p) as [Hp _]; [by eexists|].
      rewrite Hfresh in Hy; done. }
    rewrite Hh in Hd1. apply map_disjoint_union_r in Hd1 as [Hd11 Hd12].
    exists (h ∪ h1). simpl. rewrite Heq Hh. destruct Hwf as [Hwf0 Hwf1]. split_and!.
    - rewrite (map_union_comm h h1); [|by symmetry]. by rewrite assoc_L.
    - by apply map_disjoint_union_l.
    - split; [|simpl; lia]. split; simpl; [lia|]. intros p [x Hx].
      apply lookup_union_Some_raw in Hx as [Hx|[_ Hx]].
      { destruct (Hdom p) as [-> _]; [by eexists|]. lia. }
      rewrite -Hh in Hx. assert (- next w < p.1 < next w); [|lia]. apply Hwf1. by eexists.
    - specialize (HQ (- next w, 0) ∅). rewrite right_id_L in HQ.
      specialize (HQ ltac:(apply map_disjoint_empty_r)). apply HQ; [|by symmetry|done].
      split; [done|]. change (-next w < 0 /\ 0 = 0). lia.
  Qed.

  Lemma wp_leave p n s Q X : raws p n ⊢ Q tt s -∗ wp (leave p n) s Q X.
  Proof.
    iIntros "Hr HQ". iApply (wp_exact _ emp%I with "Hr"); [|by iIntros "_"].
    rewrite wp_unseal. split. intros h Hr hf w Hwf Hd Hh. unfold leave.
    destruct p as [b o]; simpl. rewrite Hh.
    pose proof (del_raws_spec b o (replicate n Raw) h hf) as Hdel.
    rewrite replicate_length in Hdel. rewrite Hdel; [|by apply Forall_replicate|done|done].
    exists ∅. rewrite left_id_L. split_and!; [done|apply map_disjoint_empty_l| |by apply hold_pure_sep].
    split; [|simpl; lia]. apply wf_same_dom; [done|]. intros q Hq. rewrite Hh.
    apply lookup_union_is_Some. by right.
  Qed.

  Lemma wp_deallocate_gen a p n cs s Q X :
    Forall dead cs -> Z.of_nat (length cs) = n ->
    ablock a p n ⊢ p ↦∗ cs -∗ Q tt s -∗ wp (deallocate a p n) s Q X.
  Proof.
    intros Hcs Hlen. unfold ablock. case_decide as Hn.
    { iIntros (->) "H HQ". destruct cs; simpl in Hlen; [|lia].
      iStopProof. rewrite arr_nil left_id. rewrite wp_unseal. split. intros h HQ hf w Hwf Hd Hh.
      unfold deallocate. simpl. exists h. split_and!; try done. }
    iIntros "[%Hp Hh] Ha HQ". destruct Hp as (Hp2 & Hp1 & Hn0).
    destruct p as [b o]; simpl in *; subst o.
    iCombine "Hh Ha" as "H".
    iApply (wp_exact _ emp%I with "H"); [|by iIntros "_"].
    rewrite wp_unseal. split. intros h (h1 & h2 & -> & Hd12 & -> & Ha) hf w Hwf Hd Hh.
    unfold deallocate; simpl.
    assert (loc_eqb (b, 0) null = false) as ->.
    { unfold loc_eqb; simpl. destruct (Z.eqb_spec b 0); [lia|done]. }
    apply map_disjoint_union_l in Hd as [Hd1 Hd2].
    rewrite -assoc_L in Hh.
    rewrite (single_lookup _ _ _ _ Hh) Nat.eqb_refl Z.eqb_refl; simpl.
    assert (Hdel : delete (b, hdr_off) (heap w) = h2 ∪ hf).
    { rewrite Hh -insert_union_singleton_l delete_insert; [done|].
      apply map_disjoint_singleton_l in Hd12. apply map_disjoint_singleton_l in Hd1.
      by apply lookup_union_None. }
    rewrite Hdel -Hlen Nat2Z.id. rewrite (del_raws_spec b 0 cs h2 hf); [|done..].
    exists ∅. rewrite left_id_L. split_and!; [done|apply map_disjoint_empty_l| |by apply hold_pure_sep].
    split; [|simpl; lia]. apply wf_same_dom; [done|]. intros q Hq. rewrite Hh assoc_L.
    apply lookup_union_is_Some. by right.
  Qed.

  Lemma wp_deallocate a p n s Q X :
    ablock a p n ⊢ raws p (Z.to_nat n) -∗ Q tt s -∗ wp (deallocate a p n) s Q X.
  Proof.
    iIntros "Hb Hr HQ".
    iAssert (⟦0 <= n⟧ ∗ ablock a p n)%I with "[Hb]" as "[%Hn Hb]".
    { unfold ablock. case_decide; [iFrame; iPureIntro; lia|].
      iDestruct "Hb" as "[%Hp Hb]". iFrame. iSplit; iPureIntro; [lia|done]. }
    iApply (wp_deallocate_gen with "Hb Hr HQ").
    - apply Forall_replicate. done.
    - rewrite replicate_length. lia.
  Qed.
End alloc.
