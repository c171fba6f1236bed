(** * Proof library for the contiguous containers: object shape, tactics *)

From Verif Require Export Contig AlgoProofs.
From iris.proofmode Require Import tactics.
Open Scope Z_scope.

Lemma loc_eq (p q : loc) : p.1 = q.1 -> p.2 = q.2 -> p = q.
Proof. destruct p, q; simpl. by intros -> ->. Qed.

Create HintDb len.
Global Hint Rewrite @app_length @take_length @drop_length @fmap_length @replicate_length
  @insert_length @cons_length @nil_length @refs_length : len.
Ltac len := autorewrite with len in *.
Ltac llia := first [lia | autorewrite with len; lia | autorewrite with len in *; lia].
Ltac nlia := first [llia | autorewrite with len in *].
Ltac loc_solve :=
  apply loc_eq; unfold loc_add; cbn [fst snd]; [reflexivity|llia].

Section eqs.
  Context `{E : Env}.
  Lemma elems_eq p q l l' : p = q -> l = l' -> elems p l ⊢ elems q l'.
  Proof. by intros -> ->. Qed.
  Lemma raws_eq p q n m : p = q -> n = m -> raws p n ⊢ raws q m.
  Proof. by intros -> ->. Qed.
  Lemma mapsto_eq p q c c' : p = q -> c = c' -> p ↦ c ⊢ q ↦ c'.
  Proof. by intros -> ->. Qed.
  Lemma raws_nil_eq p n : n = 0%nat -> emp ⊢ raws p n.
  Proof. by intros ->. Qed.
  Lemma raws_0_eq p n : n = 0%nat -> raws p n ⊢ emp.
  Proof. by intros ->. Qed.
  Lemma elems_0_eq p l : length l = 0%nat -> elems p l ⊢ emp.
  Proof. by intros ->%nil_length_inv. Qed.
  (** Splitting and joining with free offsets. *)
  Lemma elems_split p l l1 l2 q :
    l = l1 ++ l2 -> q = p +ₗ Z.of_nat (length l1) -> elems p l ⊢ elems p l1 ∗ elems q l2.
  Proof. intros -> ->. by rewrite elems_app. Qed.
  Lemma elems_join p l l1 l2 q :
    q = p +ₗ Z.of_nat (length l1) -> l = l1 ++ l2 -> elems p l1 ⊢ elems q l2 -∗ elems p l.
  Proof. intros -> ->. rewrite elems_app. iIntros "H1 H2". iFrame. Qed.
  Lemma raws_split p n n1 n2 q :
    n = (n1 + n2)%nat -> q = p +ₗ Z.of_nat n1 -> raws p n ⊢ raws p n1 ∗ raws q n2.
  Proof. intros -> ->. by rewrite raws_add. Qed.
  Lemma raws_join p n n1 n2 q :
    q = p +ₗ Z.of_nat n1 -> n = (n1 + n2)%nat -> raws p n1 ⊢ raws q n2 -∗ raws p n.
  Proof. intros -> ->. rewrite raws_add. iIntros "H1 H2". iFrame. Qed.
  Lemma raws_one p n q m :
    n = S m -> q = p +ₗ 1 -> raws p n ⊢ p ↦ Raw ∗ raws q m.
  Proof. intros -> ->. by rewrite raws_S. Qed.
  Lemma raws_one_join p n q m :
    q = p +ₗ 1 -> n = S m -> p ↦ Raw ⊢ raws q m -∗ raws p n.
  Proof. intros -> ->. rewrite raws_S. iIntros "H1 H2". iFrame. Qed.
  Lemma elems_snoc_join p l l1 v q :
    q = p +ₗ Z.of_nat (length l1) -> l = l1 ++ [v] -> elems p l1 ⊢ q ↦ Live v -∗ elems p l.
  Proof. intros -> ->. rewrite elems_snoc. iIntros "H1 H2". iFrame. Qed.
  Lemma elems_snoc_split p l l1 v q :
    l = l1 ++ [v] -> q = p +ₗ Z.of_nat (length l1) -> elems p l ⊢ elems p l1 ∗ q ↦ Live v.
  Proof. intros -> ->. by rewrite elems_snoc. Qed.
  Lemma elems_cons_join p l l1 v q :
    q = p +ₗ 1 -> l = v :: l1 -> p ↦ Live v ⊢ elems q l1 -∗ elems p l.
  Proof. intros -> ->. rewrite elems_cons. iIntros "H1 H2". iFrame. Qed.
  Lemma elems_one p v : p ↦ Live v ⊢ elems p [v].
  Proof. by rewrite elems_singleton. Qed.
End eqs.

(** Close a goal that is a memory assertion by a hypothesis, up to offsets. *)
Ltac iex H :=
  first [ iApply (elems_eq with H); [try loc_solve|try done]
        | iApply (raws_eq with H); [try loc_solve|try llia]
        | iApply (mapsto_eq with H); [try loc_solve|try done]
        | iExact H ].

(** Stepping through the monad. *)
Ltac wbeta := cbv beta zeta.
Ltac wbind := iApply wp_bind; wbeta.

Section shape.
  Context `{E : Env}.

  (** The object with [n] elements in storage of capacity [cap] at [f]. *)
  Definition vobj (a : nat) (f : loc) (n : nat) (cap : Z) : vdata :=
    Vec a f (f +ₗ Z.of_nat n) (f +ₗ cap).

  (** Its memory: the elements, then raw storage up to the capacity. *)
  Definition body (f : loc) (l : list V) (cap : Z) : hProp :=
    (⟦Z.of_nat (length l) <= cap⟧ ∗
     elems f l ∗ raws (f +ₗ Z.of_nat (length l)) (Z.to_nat cap - length l))%I.

  Lemma with_last_vobj q a f n n' cap :
    q = f +ₗ Z.of_nat n' -> with_last q (vobj a f n cap) = vobj a f n' cap.
  Proof. by intros ->. Qed.

  Lemma body_len f l cap : body f l cap ⊢ ⟦Z.of_nat (length l) <= cap⟧ ∗ body f l cap.
  Proof. iIntros "[%H ?]". iFrame. iSplit; by iPureIntro. Qed.

  Lemma body_intro f l cap q n :
    q = f +ₗ Z.of_nat (length l) -> Z.of_nat (length l) <= cap ->
    n = (Z.to_nat cap - length l)%nat ->
    elems f l ⊢ raws q n -∗ body f l cap.
  Proof. intros -> Hl ->. iIntros "H1 H2". iFrame. by iPureIntro. Qed.

  Lemma wp_size a f n cap Q X :
    Q (Z.of_nat n) (vobj a f n cap) ⊢ wp size_ (vobj a f n cap) Q X.
  Proof.
    iIntros "H". unfold size_. wbind. iApply wp_get. wbeta. iApply wp_ptr_sub; [done|].
    simpl. by replace (f.2 + Z.of_nat n - f.2) with (Z.of_nat n) by lia.
  Qed.
  Lemma wp_capacity a f n cap Q X :
    Q cap (vobj a f n cap) ⊢ wp capacity_ (vobj a f n cap) Q X.
  Proof.
    iIntros "H". unfold capacity_. wbind. iApply wp_get. wbeta. iApply wp_ptr_sub; [done|].
    simpl. by replace (f.2 + cap - f.2) with cap by lia.
  Qed.
  Lemma wp_available a f n cap Q X :
    Q (cap - Z.of_nat n) (vobj a f n cap) ⊢ wp available_ (vobj a f n cap) Q X.
  Proof.
    iIntros "H". unfold available_. wbind. iApply wp_get. wbeta. iApply wp_ptr_sub; [done|].
    simpl. by replace (f.2 + cap - (f.2 + Z.of_nat n)) with (cap - Z.of_nat n) by lia.
  Qed.
  Lemma wp_psub {St} (p q : loc) z (s : St) Q X :
    q = p +ₗ z -> Q z s ⊢ wp (ptr_sub q p) s Q X.
  Proof.
    intros ->. iIntros "H". iApply wp_ptr_sub; [done|]. simpl.
    by replace (p.2 + z - p.2) with z by lia.
  Qed.
  Lemma wp_offset_of a f n cap i Q X :
    (i <= n)%nat ->
    Q (Z.of_nat i) (vobj a f n cap) ⊢ wp (offset_of (f +ₗ Z.of_nat i)) (vobj a f n cap) Q X.
  Proof.
    iIntros (Hi) "H". unfold offset_of. wbind. iApply wp_get. wbeta. wbind.
    iApply wp_psub; [done|]. wbeta. wbind. iApply wp_size. wbeta. wbind.
    iApply wp_assert; [lia|]. by iApply wp_ret.
  Qed.
  Lemma wp_set_last a f n n' cap q Q X :
    q = f +ₗ Z.of_nat n' ->
    Q tt (vobj a f n' cap) ⊢ wp (set_last q) (vobj a f n cap) Q X.
  Proof. iIntros (->) "H". by iApply wp_modify. Qed.
  Lemma wp_check_size n (s : vdata) Q X :
    ((⟦n <= max_size⟧ -∗ Q tt s) ∧ (⟦max_size < n⟧ -∗ X ELength s)) ⊢ wp (check_size n) s Q X.
  Proof.
    iIntros "H". unfold check_size. destruct (Z.ltb_spec max_size n).
    - iDestruct "H" as "[_ H]". iApply wp_throw; [by (left + right)|]. by iApply "H".
    - iDestruct "H" as "[H _]". iApply wp_ret. by iApply "H".
  Qed.

  (** *** Arguments that may refer to an element of the container itself *)

  (** [arg_rel f l a v l1]: evaluating [a] when the container at [f] holds [l]
      gives [v] and leaves [l1]. *)
  Inductive arg_rel (f : loc) (l : list V) : arg -> V -> list V -> Prop :=
    | ar_def : arg_rel f l ADef vdef l
    | ar_val v : arg_rel f l (AVal v) v l
    | ar_copy i v : l !! i = Some v -> arg_rel f l (ACopy (f +ₗ Z.of_nat i)) v l
    | ar_move i v : l !! i = Some v ->
        arg_rel f l (AMove (f +ₗ Z.of_nat i)) v (<[i := vmoved v]> l).
  (** If evaluating [a] throws, the container holds [l']. *)
  Definition arg_exn (a : arg) (l l' : list V) : Prop :=
    length l' = length l /\
    match a with AMove _ => nothrow_move = false | _ => l' = l end.
  Definition is_move (a : arg) : Prop := match a with AMove _ => True | _ => False end.

  Lemma arg_rel_length f l a v l1 : arg_rel f l a v l1 -> length l1 = length l.
  Proof. destruct 1; [done..|]. by rewrite insert_length. Qed.

  Lemma arg_rel_mk f l a v l1 :
    arg_rel f l a v l1 ->
    mk_ok (∃ l', ⟦arg_exn a l l'⟧ ∗ elems f l') (elems f l) a v (elems f l1).
  Proof.
    destruct 1 as [|v|i v Hi|i v Hi].
    - eapply mk_ok_conseq; [apply mk_ok_def|done|done|]. iIntros "H". iExists l. iFrame. done.
    - eapply mk_ok_conseq; [apply mk_ok_val|done|done|]. iIntros "H". iExists l. iFrame. done.
    - eapply mk_ok_conseq; [by apply mk_ok_copy|done|done|]. iIntros "H". iExists l. iFrame. done.
    - eapply mk_ok_conseq; [by apply mk_ok_move|done|done|].
      iIntros "H". iDestruct "H" as (v') "[%Hn H]". iExists _. iFrame. iPureIntro.
      split; [by rewrite insert_length|done].
  Qed.
  (** For [const T&] arguments (no moves) the container is unchanged. *)
  Lemma arg_rel_const f l a v l1 :
    arg_rel f l a v l1 -> ~ is_move a -> l1 = l /\ mk_ok (elems f l) (elems f l) a v (elems f l).
  Proof.
    destruct 1 as [|v|i v Hi|i v Hi]; simpl; intros Hm; [split..|]; try done.
    - apply mk_ok_def.
    - apply mk_ok_val.
    - by apply mk_ok_copy.
  Qed.

  Definition insert_at (i : nat) (vs l : list V) : list V := take i l ++ vs ++ drop i l.
  Lemma insert_at_length i vs l : length (insert_at i vs l) = (length vs + length l)%nat.
  Proof. unfold insert_at. rewrite !app_length take_length drop_length. lia. Qed.
  Lemma insert_at_end i vs l : i = length l -> insert_at i vs l = l ++ vs.
  Proof. intros ->. unfold insert_at. rewrite take_ge; [|done]. rewrite drop_all. by rewrite app_nil_r. Qed.

  (** What an in-place insertion of [n] elements at index [i] may leave behind
      when an exception is thrown. *)
  Definition ins_exn (l : list V) (i n : nat) (a : arg) (l' : list V) : Prop :=
    arg_exn a l l' \/ ((i < length l)%nat /\ (length l <= length l' <= length l + n)%nat).
End shape.
Global Hint Rewrite @insert_at_length : len.
Arguments vobj : simpl never.
