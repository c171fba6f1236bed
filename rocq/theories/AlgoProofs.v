(** * Specifications of the private.hpp algorithms *)

From Verif Require Export Sep Algo.

(** Initialising an object from [a] yields the value [v], turning the resource
    [P] (that [a] refers to) into [P'], or into [PX] if it throws. *)
Definition mk_ok `{Env} (PX P : hProp) (a : arg) (v : V) (P' : hProp) : Prop :=
  forall (St : Type) (s : St) Q X,
    P ⊢ ((P' -∗ Q v s) ∧ (PX -∗ X EUser s)) -∗ wp (make a) s Q X.

Inductive mks_ok `{Env} (PX : hProp) : hProp -> list arg -> list V -> hProp -> Prop :=
  | mks_nil P : mks_ok PX P [] [] P
  | mks_cons P a v P1 srcs vs P2 :
      mk_ok PX P a v P1 -> mks_ok PX P1 srcs vs P2 -> mks_ok PX P (a :: srcs) (v :: vs) P2.

(** The same for assignment to an object outside [P]. *)
Definition as_ok `{Env} (PX P : hProp) (a : arg) (v : V) (P' : hProp) : Prop :=
  forall (St : Type) (s : St) Q X d c,
    P ⊢ d ↦ Live c -∗
    ((P' -∗ d ↦ Live v -∗ Q tt s) ∧ (∀ c', PX -∗ d ↦ Live c' -∗ X EUser s)) -∗
    wp (assign d a) s Q X.

Inductive ass_ok `{Env} (PX : hProp) : hProp -> list arg -> list V -> hProp -> Prop :=
  | ass_nil P : ass_ok PX P [] [] P
  | ass_cons P a v P1 srcs vs P2 :
      as_ok PX P a v P1 -> ass_ok PX P1 srcs vs P2 -> ass_ok PX P (a :: srcs) (v :: vs) P2.

Arguments mk_ok {_} (PX P)%I a v P'%I.
Arguments mks_ok {_} (PX _)%I _ _ _%I.
Arguments as_ok {_} (PX P)%I a v P'%I.
Arguments ass_ok {_} (PX _)%I _ _ _%I.

Section algo_proofs.
  Context `{E : Env}.

  (** ** Arguments *)

  Lemma mk_ok_def P : mk_ok P P ADef vdef P.
  Proof.
    iIntros (St s Q X) "HP HK". simpl. iApply wp_bind. iApply wp_step; [done|]. iSplit.
    - iDestruct "HK" as "[HK _]". iApply wp_ret. by iApply "HK".
    - iDestruct "HK" as "[_ HK]". by iApply "HK".
  Qed.
  Lemma mk_ok_val P v : mk_ok P P (AVal v) v P.
  Proof.
    iIntros (St s Q X) "HP HK". simpl. iApply wp_bind. iApply wp_step; [done|]. iSplit.
    - iDestruct "HK" as "[HK _]". iApply wp_ret. by iApply "HK".
    - iDestruct "HK" as "[_ HK]". by iApply "HK".
  Qed.
  Lemma mk_ok_copy1 q v : mk_ok (q ↦ Live v) (q ↦ Live v) (ACopy q) v (q ↦ Live v).
  Proof.
    iIntros (St s Q X) "HP HK". simpl. iApply wp_bind.
    iApply (wp_read with "HP"). iIntros "HP". iApply wp_bind. iApply wp_step; [done|]. iSplit.
    - iDestruct "HK" as "[HK _]". iApply wp_ret. by iApply "HK".
    - iDestruct "HK" as "[_ HK]". by iApply "HK".
  Qed.
  Lemma mk_ok_move1 q v :
    mk_ok (∃ v', ⟦nothrow_move = false⟧ ∗ q ↦ Live v') (q ↦ Live v) (AMove q) v
          (q ↦ Live (vmoved v)).
  Proof.
    iIntros (St s Q X) "HP HK". simpl. iApply wp_bind.
    iApply (wp_read with "HP"). iIntros "HP". iApply wp_oracle_case; [done|]. iSplit.
    - iIntros (t Ho). iApply (wp_write with "HP"). iIntros "HP".
      iDestruct "HK" as "[_ HK]". iApply "HK". iExists _. iFrame "HP". iPureIntro.
      by apply Ho.
    - iApply wp_bind. iApply (wp_write with "HP"). iIntros "HP". iApply wp_ret.
      iDestruct "HK" as "[HK _]". by iApply "HK".
  Qed.

  Lemma mk_ok_frame PX P a v P' R :
    mk_ok PX P a v P' -> mk_ok (PX ∗ R) (P ∗ R) a v (P' ∗ R).
  Proof.
    iIntros (Hok St s Q X) "[HP HR] HK". iApply (Hok with "HP"). iSplit.
    - iIntros "HP". iDestruct "HK" as "[HK _]". iApply "HK". iFrame.
    - iIntros "HP". iDestruct "HK" as "[_ HK]". iApply "HK". iFrame.
  Qed.
  Lemma mk_ok_conseq PX P a v P' PX2 P2 P2' :
    mk_ok PX P a v P' -> (P2 ⊢ P) -> (P' ⊢ P2') -> (PX ⊢ PX2) -> mk_ok PX2 P2 a v P2'.
  Proof.
    iIntros (Hok H1 H2 H3 St s Q X) "HP HK". iApply (Hok with "[HP]"); [by iApply H1|].
    iSplit.
    - iIntros "HP". iDestruct "HK" as "[HK _]". iApply "HK". by iApply H2.
    - iIntros "HP". iDestruct "HK" as "[_ HK]". iApply "HK". by iApply H3.
  Qed.

  (** A reference into an array segment. *)
  Lemma mk_ok_copy q l i v :
    l !! i = Some v ->
    mk_ok (elems q l) (elems q l) (ACopy (q +ₗ Z.of_nat i)) v (elems q l).
  Proof.
    intros Hi. iIntros (St s Q X) "HP HK".
    iDestruct (elems_acc _ _ i with "HP") as "[Hv Hcl]"; [done|].
    iApply (mk_ok_copy1 with "Hv").
    iSplit; iIntros "Hv"; iSpecialize ("Hcl" with "Hv"); rewrite list_insert_id //.
    - iDestruct "HK" as "[HK _]". by iApply "HK".
    - iDestruct "HK" as "[_ HK]". by iApply "HK".
  Qed.
  Lemma mk_ok_move q l i v :
    l !! i = Some v ->
    mk_ok (∃ v', ⟦nothrow_move = false⟧ ∗ elems q (<[i := v']> l)) (elems q l)
          (AMove (q +ₗ Z.of_nat i)) v (elems q (<[i := vmoved v]> l)).
  Proof.
    intros Hi. iIntros (St s Q X) "HP HK".
    iDestruct (elems_acc _ _ i with "HP") as "[Hv Hcl]"; [done|].
    iApply (mk_ok_move1 with "Hv"). iSplit.
    - iIntros "Hv". iDestruct "HK" as "[HK _]". iApply "HK". by iApply "Hcl".
    - iIntros "Hv". iDestruct "Hv" as (v') "[% Hv]".
      iDestruct "HK" as "[_ HK]". iApply "HK". iExists v'. iSplit; [done|]. by iApply "Hcl".
  Qed.

  Lemma as_ok_def P : as_ok P P ADef vdef P.
  Proof.
    iIntros (St s Q X d c) "HP Hd HK". simpl. iApply wp_bind. iApply (wp_read with "Hd").
    iIntros "Hd". iApply wp_oracle_case; [done|]. iSplit.
    - iIntros (t Ho). iApply (wp_write with "Hd"). iIntros "Hd".
      iDestruct "HK" as "[_ HK]". iApply ("HK" with "HP Hd").
    - iApply (wp_write with "Hd"). iIntros "Hd".
      iDestruct "HK" as "[HK _]". iApply ("HK" with "HP Hd").
  Qed.
  Lemma as_ok_val P v : as_ok P P (AVal v) v P.
  Proof.
    iIntros (St s Q X d c) "HP Hd HK". simpl. iApply wp_bind. iApply (wp_read with "Hd").
    iIntros "Hd". iApply wp_oracle_case; [done|]. iSplit.
    - iIntros (t Ho). iApply (wp_write with "Hd"). iIntros "Hd".
      iDestruct "HK" as "[_ HK]". iApply ("HK" with "HP Hd").
    - iApply (wp_write with "Hd"). iIntros "Hd".
      iDestruct "HK" as "[HK _]". iApply ("HK" with "HP Hd").
  Qed.
  Lemma as_ok_copy1 q v : as_ok (q ↦ Live v) (q ↦ Live v) (ACopy q) v (q ↦ Live v).
  Proof.
    iIntros (St s Q X d c) "HP Hd HK". simpl. iApply wp_bind. iApply (wp_read with "Hd").
    iIntros "Hd". iApply wp_bind. iApply (wp_read with "HP"). iIntros "HP".
    iApply wp_oracle_case; [done|]. iSplit.
    - iIntros (t Ho). iApply (wp_write with "Hd"). iIntros "Hd".
      iDestruct "HK" as "[_ HK]". iApply ("HK" with "HP Hd").
    - iApply (wp_write with "Hd"). iIntros "Hd".
      iDestruct "HK" as "[HK _]". iApply ("HK" with "HP Hd").
  Qed.
  Lemma as_ok_move1 q v :
    as_ok (∃ v', q ↦ Live v') (q ↦ Live v) (AMove q) v (q ↦ Live (vmoved v)).
  Proof.
    iIntros (St s Q X d c) "HP Hd HK". simpl. iApply wp_bind. iApply (wp_read with "Hd").
    iIntros "Hd". iApply wp_bind. iApply (wp_read with "HP"). iIntros "HP".
    iApply wp_oracle_case; [done|]. iSplit.
    - iIntros (t Ho). iApply wp_bind. iApply (wp_write with "Hd"). iIntros "Hd".
      iApply (wp_write with "HP"). iIntros "HP".
      iDestruct "HK" as "[_ HK]". iApply ("HK" with "[HP] Hd"). by iExists _.
    - iApply wp_bind. iApply (wp_write with "Hd"). iIntros "Hd".
      iApply (wp_write with "HP"). iIntros "HP".
      iDestruct "HK" as "[HK _]". iApply ("HK" with "HP Hd").
  Qed.
  Lemma as_ok_conseq PX P a v P' PX2 P2 P2' :
    as_ok PX P a v P' -> (P2 ⊢ P) -> (P' ⊢ P2') -> (PX ⊢ PX2) -> as_ok PX2 P2 a v P2'.
  Proof.
    iIntros (Hok H1 H2 H3 St s Q X d c) "HP Hd HK".
    iApply (Hok with "[HP] Hd"); [by iApply H1|]. iSplit.
    - iIntros "HP Hd". iDestruct "HK" as "[HK _]". iApply ("HK" with "[HP] Hd"). by iApply H2.
    - iIntros (c') "HP Hd". iDestruct "HK" as "[_ HK]". iApply ("HK" with "[HP] Hd"). by iApply H3.
  Qed.
  Lemma as_ok_copy q l i v :
    l !! i = Some v ->
    as_ok (elems q l) (elems q l) (ACopy (q +ₗ Z.of_nat i)) v (elems q l).
  Proof.
    intros Hi. iIntros (St s Q X d c) "HP Hd HK".
    iDestruct (elems_acc _ _ i with "HP") as "[Hv Hcl]"; [done|].
    iApply (as_ok_copy1 with "Hv Hd"). iSplit.
    - iIntros "Hv Hd". iSpecialize ("Hcl" with "Hv"). rewrite list_insert_id //.
      iDestruct "HK" as "[HK _]". iApply ("HK" with "Hcl Hd").
    - iIntros (c') "Hv Hd". iSpecialize ("Hcl" with "Hv"). rewrite list_insert_id //.
      iDestruct "HK" as "[_ HK]". iApply ("HK" with "Hcl Hd").
  Qed.
  Lemma as_ok_move q l i v :
    l !! i = Some v ->
    as_ok (∃ v', elems q (<[i := v']> l)) (elems q l)
          (AMove (q +ₗ Z.of_nat i)) v (elems q (<[i := vmoved v]> l)).
  Proof.
    intros Hi. iIntros (St s Q X d c) "HP Hd HK".
    iDestruct (elems_acc _ _ i with "HP") as "[Hv Hcl]"; [done|].
    iApply (as_ok_move1 with "Hv Hd"). iSplit.
    - iIntros "Hv Hd". iSpecialize ("Hcl" with "Hv").
      iDestruct "HK" as "[HK _]". iApply ("HK" with "Hcl Hd").
    - iIntros (c') "Hv Hd". iDestruct "Hv" as (v') "Hv". iSpecialize ("Hcl" with "Hv").
      iDestruct "HK" as "[_ HK]". iApply ("HK" with "[Hcl] Hd"). by iExists _.
  Qed.

  (** ** Source ranges *)

  Lemma mks_vals P vs : mks_ok P P (AVal <$> vs) vs P.
  Proof. induction vs as [|v vs IH]; simpl; econstructor; [apply mk_ok_val|done]. Qed.
  Lemma ass_vals P vs : ass_ok P P (AVal <$> vs) vs P.
  Proof. induction vs as [|v vs IH]; simpl; econstructor; [apply as_ok_val|done]. Qed.
  Lemma mks_def P n : mks_ok P P (replicate n ADef) (replicate n vdef) P.
  Proof. induction n as [|n IH]; simpl; econstructor; [apply mk_ok_def|done]. Qed.
  Lemma mks_repl P a v n : mk_ok P P a v P -> mks_ok P P (replicate n a) (replicate n v) P.
  Proof. intros Hok. induction n as [|n IH]; simpl; econstructor; [done|done]. Qed.
  Lemma ass_repl P a v n : as_ok P P a v P -> ass_ok P P (replicate n a) (replicate n v) P.
  Proof. intros Hok. induction n as [|n IH]; simpl; econstructor; [done|done]. Qed.
  Lemma mks_length PX P srcs vs P' : mks_ok PX P srcs vs P' -> length srcs = length vs.
  Proof. induction 1; simpl; congruence. Qed.
  Lemma ass_length PX P srcs vs P' : ass_ok PX P srcs vs P' -> length srcs = length vs.
  Proof. induction 1; simpl; congruence. Qed.
  Lemma refs_length mk p n : length (refs mk p n) = n.
  Proof. induction n as [|n IH] in p |- *; simpl; congruence. Qed.
  Lemma refs_app mk p n m :
    refs mk p (n + m) = refs mk p n ++ refs mk (p +ₗ Z.of_nat n) m.
  Proof.
    induction n as [|n IH] in p |- *; simpl; [by rewrite loc_add_0|].
    rewrite IH loc_add_assoc. do 3 f_equal. f_equal. lia.
  Qed.
  Lemma refs_take mk p n k : (k <= n)%nat -> take k (refs mk p n) = refs mk p k.
  Proof.
    intros Hk. replace n with (k + (n - k))%nat by lia.
    rewrite refs_app take_app_le; [|by rewrite refs_length].
    apply take_ge. by rewrite refs_length.
  Qed.
  Lemma refs_drop mk p n k :
    (k <= n)%nat -> drop k (refs mk p n) = refs mk (p +ₗ Z.of_nat k) (n - k).
  Proof.
    intros Hk. replace n with (k + (n - k))%nat at 1 by lia.
    rewrite refs_app drop_app_alt; [done|]. by rewrite refs_length.
  Qed.

  (** Copying out of an array segment. *)
  Lemma mks_refs_copy_gen q l0 l1 :
    mks_ok (elems q (l0 ++ l1)) (elems q (l0 ++ l1))
           (refs ACopy (q +ₗ Z.of_nat (length l0)) (length l1)) l1 (elems q (l0 ++ l1)).
  Proof.
    induction l1 as [|v l1 IH] in l0 |- *; simpl; [constructor|].
    econstructor.
    - apply mk_ok_copy. by apply list_lookup_middle.
    - specialize (IH (l0 ++ [v])). rewrite -assoc_L app_length /= in IH.
      rewrite loc_add_assoc. by rewrite Nat2Z.inj_add in IH.
  Qed.
  Lemma mks_refs_copy q l :
    mks_ok (elems q l) (elems q l) (refs ACopy q (length l)) l (elems q l).
  Proof. pose proof (mks_refs_copy_gen q [] l) as Hq. simpl in Hq. by rewrite loc_add_0 in Hq. Qed.

  Lemma mks_refs_move_gen PX q l0 l1 :
    (forall l', length l' = (length l0 + length l1)%nat -> nothrow_move = false -> elems q l' ⊢ PX) ->
    mks_ok PX (elems q (l0 ++ l1))
           (refs AMove (q +ₗ Z.of_nat (length l0)) (length l1)) l1
           (elems q (l0 ++ (vmoved <$> l1))).
  Proof.
    induction l1 as [|v l1 IH] in l0 |- *; simpl; intros HPX; [constructor|].
    econstructor.
    - eapply mk_ok_conseq.
      + apply (mk_ok_move q (l0 ++ v :: l1) (length l0) v). by apply list_lookup_middle.
      + done.
      + done.
      + iIntros "H". iDestruct "H" as (v') "[%Hn H]". iApply HPX; [|done|done].
        rewrite insert_length app_length /=. lia.
    - specialize (IH (l0 ++ [vmoved v])).
      rewrite insert_app_r_alt; [|lia]. rewrite Nat.sub_diag /=.
      rewrite -!assoc_L app_length /= in IH.
      rewrite loc_add_assoc. rewrite Nat2Z.inj_add /= in IH.
      apply IH. intros l' Hl'. apply HPX. lia.
  Qed.
  Lemma mks_refs_move q l :
    mks_ok (∃ l', ⟦length l' = length l /\ nothrow_move = false⟧ ∗ elems q l')
      (elems q l) (refs AMove q (length l)) l (elems q (vmoved <$> l)).
  Proof.
    pose proof (mks_refs_move_gen
      (∃ l', ⟦length l' = length l /\ nothrow_move = false⟧ ∗ elems q l')%I q [] l) as Hq.
    simpl in Hq. rewrite loc_add_0 in Hq. apply Hq.
    iIntros (l' Hl' Hn) "H". iExists l'. by iFrame.
  Qed.

  (** After [std::move_if_noexcept] the source holds: *)
  Definition mine_after (l : list V) : list V := if moves_if_noexcept then vmoved <$> l else l.
  (** ... and if it throws: *)
  Definition mine_exn (l l' : list V) : Prop :=
    length l' = length l /\ (nothrow_move || copyable = true -> l' = l) .

  Lemma mine_after_length l : length (mine_after l) = length l.
  Proof. unfold mine_after. destruct moves_if_noexcept; by rewrite ?fmap_length. Qed.

  Lemma mks_conseq_X PX PX' P srcs vs P' :
    mks_ok PX P srcs vs P' -> (PX ⊢ PX') -> mks_ok PX' P srcs vs P'.
  Proof.
    intros Hok HX. induction Hok; econstructor; [|done].
    eapply mk_ok_conseq; [done|done|done|done].
  Qed.

  Lemma mks_refs_mine q l :
    mks_ok (∃ l', ⟦mine_exn l l' /\ nothrow_move = false⟧ ∗ elems q l')
      (elems q l) (refs mine q (length l)) l (elems q (mine_after l)).
  Proof.
    unfold mine, mine_after, mine_exn, moves_if_noexcept.
    destruct nothrow_move eqn:Hn; [|destruct copyable eqn:Hc]; simpl.
    - eapply mks_conseq_X; [apply mks_refs_move|]. rewrite Hn.
      iIntros "H". iDestruct "H" as (l') "[%Hl H]". by destruct Hl.
    - eapply mks_conseq_X; [apply mks_refs_copy|].
      iIntros "H". iExists l. by iFrame.
    - eapply mks_conseq_X; [apply mks_refs_move|].
      iIntros "H". iDestruct "H" as (l') "[%Hl H]". iExists l'. iFrame. iPureIntro.
      naive_solver.
  Qed.
End algo_proofs.

Section loops.
  Context `{E : Env}.
  Context {St : Type}.
  Implicit Types s : St.

  Lemma wp_construct PX P a v P' p s Q X :
    mk_ok PX P a v P' ->
    P ⊢ p ↦ Raw -∗
    ((P' -∗ p ↦ Live v -∗ Q tt s) ∧ (PX -∗ p ↦ Raw -∗ X EUser s)) -∗
    wp (construct p a) s Q X.
  Proof.
    iIntros (Hok) "HP Hp HK". unfold construct.
    iApply wp_bind. iApply (wp_expect_raw with "Hp"). iIntros "Hp".
    iApply wp_bind. iApply (Hok with "HP"). iSplit.
    - iIntros "HP". iApply (wp_set_live with "Hp"). iIntros "Hp".
      iDestruct "HK" as "[HK _]". iApply ("HK" with "HP Hp").
    - iIntros "HP". iDestruct "HK" as "[_ HK]". iApply ("HK" with "HP Hp").
  Qed.

  Lemma wp_destroy_n_a p l s Q X :
    elems p l ⊢ (raws p (length l) -∗ Q tt s) -∗ wp (destroy_n_a p (length l)) s Q X.
  Proof.
    iIntros "Hl HQ". iInduction l as [|v l] "IH" forall (p); simpl.
    - iApply wp_ret. iApply "HQ". by rewrite raws_0 elems_nil.
    - rewrite elems_cons raws_S. iDestruct "Hl" as "[Hv Hl]".
      iApply wp_bind. iApply (wp_destroy_at with "Hv"). iIntros "Hv".
      iApply ("IH" with "Hl"). iIntros "Hr". iApply "HQ". iFrame.
  Qed.

  Lemma wp_destroy_a p q l s Q X :
    q = p +ₗ Z.of_nat (length l) ->
    elems p l ⊢ (raws p (length l) -∗ Q tt s) -∗ wp (destroy_a p q) s Q X.
  Proof.
    iIntros (->) "Hl HQ". unfold destroy_a. iApply wp_bind.
    iApply wp_range_len; [done|simpl; lia|]. simpl.
    replace (Z.to_nat _) with (length l) by lia. by iApply (wp_destroy_n_a with "Hl").
  Qed.

  Lemma wp_range mk p q n s Q X :
    q = p +ₗ Z.of_nat n ->
    Q (refs mk p n) s ⊢ wp (range mk p q) s Q X.
  Proof.
    iIntros (->) "HQ". unfold range. iApply wp_bind.
    iApply wp_range_len; [done|simpl; lia|]. simpl.
    replace (Z.to_nat _) with n by lia. by iApply wp_ret.
  Qed.

  Lemma wp_uninit_loop PX P srcs vs P' d vs0 s Q X :
    mks_ok PX P srcs vs P' ->
    P ⊢ elems d vs0 -∗ raws (d +ₗ Z.of_nat (length vs0)) (length vs) -∗
    ((P' -∗ elems d (vs0 ++ vs) -∗ Q (d +ₗ Z.of_nat (length (vs0 ++ vs))) s) ∧
     (PX -∗ raws d (length (vs0 ++ vs)) -∗ X EUser s)) -∗
    wp (uninit_loop d (d +ₗ Z.of_nat (length vs0)) srcs) s Q X.
  Proof.
    intros Hok. revert vs0. induction Hok as [P|P a v P1 srcs vs P2 Hmk Hok IH]; intros vs0; simpl.
    - iIntros "HP Hvs0 Hr HK". rewrite app_nil_r raws_0. iApply wp_ret.
      iDestruct "HK" as "[HK _]". iApply ("HK" with "HP"). iFrame.
    - iIntros "HP Hvs0 Hr HK". rewrite raws_S. iDestruct "Hr" as "[Hr0 Hr]".
      iApply wp_bind. iApply wp_try.
      iApply (wp_construct with "HP Hr0"); [done|]. iSplit.
      + iIntros "HP Hv". specialize (IH (vs0 ++ [v])).
        rewrite app_length /= Nat2Z.inj_add -!assoc_L /= in IH. rewrite !loc_add_assoc.
        iApply (IH with "HP [Hvs0 Hv] Hr HK").
        rewrite elems_snoc. iFrame.
      + iIntros "HP Hr0". iApply (wp_destroy_a with "Hvs0"); [done|]. iIntros "Hr1".
        iDestruct "HK" as "[_ HK]". iApply ("HK" with "HP").
        rewrite app_length raws_add /= raws_S. iFrame.
  Qed.

  Lemma wp_ucopy PX P srcs vs P' d s Q X :
    mks_ok PX P srcs vs P' ->
    P ⊢ raws d (length vs) -∗
    ((P' -∗ elems d vs -∗ Q (d +ₗ Z.of_nat (length vs)) s) ∧
     (PX -∗ raws d (length vs) -∗ X EUser s)) -∗
    wp (uninitialized_copy_a srcs d) s Q X.
  Proof.
    iIntros (Hok) "HP Hr HK". unfold uninitialized_copy_a.
    iPoseProof (wp_uninit_loop PX P srcs vs P' d [] s Q X Hok) as "H". simpl. rewrite loc_add_0.
    iApply ("H" with "HP [] Hr HK"). by rewrite elems_nil.
  Qed.

  Lemma wp_umove p q l d s Q X :
    q = p +ₗ Z.of_nat (length l) ->
    elems p l ⊢ raws d (length l) -∗
    ((elems p (vmoved <$> l) -∗ elems d l -∗ Q (d +ₗ Z.of_nat (length l)) s) ∧
     (∀ l', ⟦(length l' = length l /\ nothrow_move = false) /\ (0 < length l)%nat⟧ -∗ elems p l' -∗
            raws d (length l) -∗ X EUser s)) -∗
    wp (uninitialized_move_a p q d) s Q X.
  Proof.
    iIntros (->) "Hl Hr HK". unfold uninitialized_move_a. iApply wp_bind.
    iApply wp_range; [done|].
    destruct l as [|v l].
    { simpl. unfold uninitialized_copy_a. simpl. iApply wp_ret. iDestruct "HK" as "[HK _]".
      rewrite loc_add_0. iApply ("HK" with "Hl Hr"). }
    iApply (wp_ucopy with "Hl Hr"); [apply mks_refs_move|]. iSplit.
    - by iDestruct "HK" as "[HK _]".
    - iIntros "H Hr". iDestruct "H" as (l') "[%Hl' H]".
      iDestruct "HK" as "[_ HK]". iApply ("HK" with "[] H Hr"). iPureIntro. simpl; split; [done|lia].
  Qed.

  Lemma wp_umine p q l d s Q X :
    q = p +ₗ Z.of_nat (length l) ->
    elems p l ⊢ raws d (length l) -∗
    ((elems p (mine_after l) -∗ elems d l -∗ Q (d +ₗ Z.of_nat (length l)) s) ∧
     (∀ l', ⟦(mine_exn l l' /\ nothrow_move = false) /\ (0 < length l)%nat⟧ -∗ elems p l' -∗
            raws d (length l) -∗ X EUser s)) -∗
    wp (uninitialized_move_if_noexcept_a p q d) s Q X.
  Proof.
    iIntros (->) "Hl Hr HK". unfold uninitialized_move_if_noexcept_a. iApply wp_bind.
    iApply wp_range; [done|].
    destruct l as [|v l].
    { simpl. unfold uninitialized_copy_a. simpl. iApply wp_ret. iDestruct "HK" as "[HK _]".
      rewrite loc_add_0. iApply ("HK" with "[Hl] Hr"). unfold mine_after. by destruct moves_if_noexcept. }
    iApply (wp_ucopy with "Hl Hr"); [apply mks_refs_mine|]. iSplit.
    - by iDestruct "HK" as "[HK _]".
    - iIntros "H Hr". iDestruct "H" as (l') "[%Hl' H]".
      iDestruct "HK" as "[_ HK]". iApply ("HK" with "[] H Hr"). iPureIntro. simpl; split; [done|lia].
  Qed.

  Lemma wp_ufill_n P a v d n s Q X :
    mk_ok P P a v P ->
    P ⊢ raws d n -∗
    ((P -∗ elems d (replicate n v) -∗ Q (d +ₗ Z.of_nat n) s) ∧
     (P -∗ raws d n -∗ X EUser s)) -∗
    wp (uninitialized_fill_n_a d n a) s Q X.
  Proof.
    iIntros (Hok) "HP Hr HK".
    iPoseProof (wp_ucopy P P (replicate n a) (replicate n v) P d s Q X (mks_repl _ _ _ _ Hok)) as "H".
    rewrite replicate_length. iApply ("H" with "HP Hr HK").
  Qed.
  Lemma wp_udefault_n d n s Q X :
    raws d n ⊢
    ((elems d (replicate n vdef) -∗ Q (d +ₗ Z.of_nat n) s) ∧ (raws d n -∗ X EUser s)) -∗
    wp (uninitialized_default_construct_n_a d n) s Q X.
  Proof.
    iIntros "Hr HK". iApply (wp_ufill_n emp%I with "[] Hr [HK]"); [apply mk_ok_def|done|].
    iSplit.
    - iIntros "_". by iDestruct "HK" as "[HK _]".
    - iIntros "_". by iDestruct "HK" as "[_ HK]".
  Qed.
  Lemma wp_ufill P a v d q n s Q X :
    mk_ok P P a v P -> q = d +ₗ Z.of_nat n ->
    P ⊢ raws d n -∗
    ((P -∗ elems d (replicate n v) -∗ Q tt s) ∧ (P -∗ raws d n -∗ X EUser s)) -∗
    wp (uninitialized_fill_a d q a) s Q X.
  Proof.
    iIntros (Hok ->) "HP Hr HK". unfold uninitialized_fill_a.
    iApply wp_bind. iApply wp_range_len; [done|simpl; lia|]. simpl.
    replace (Z.to_nat _) with n by lia.
    iApply wp_bind. iApply (wp_ufill_n with "HP Hr"); [done|]. iSplit.
    - iIntros "HP Hd". iApply wp_ret. iDestruct "HK" as "[HK _]". iApply ("HK" with "HP Hd").
    - by iDestruct "HK" as "[_ HK]".
  Qed.

  Lemma wp_assign_loop PX P srcs vs P' d l s Q X :
    ass_ok PX P srcs vs P' -> length l = length vs ->
    P ⊢ elems d l -∗
    ((P' -∗ elems d vs -∗ Q (d +ₗ Z.of_nat (length vs)) s) ∧
     (∀ l', ⟦length l' = length l /\ (0 < length l)%nat⟧ -∗ PX -∗ elems d l' -∗ X EUser s)) -∗
    wp (assign_loop d srcs) s Q X.
  Proof.
    intros Hok. revert d l Q X.
    induction Hok as [P|P a v P1 srcs vs P2 Has Hok IH]; intros d l Q X Hl; simpl.
    - iIntros "HP Hl HK". iApply wp_ret. iDestruct "HK" as "[HK _]".
      rewrite loc_add_0. destruct l; [|done]. iApply ("HK" with "HP Hl").
    - iIntros "HP Hl HK". destruct l as [|c l]; [done|]. rewrite elems_cons.
      iDestruct "Hl" as "[Hc Hl]". iApply wp_bind.
      iApply (Has with "HP Hc"). iSplit.
      + iIntros "HP Hv". iApply (IH with "HP Hl"); [simpl in *; lia|]. iSplit.
        * iIntros "HP Hl". rewrite loc_add_assoc.
          replace (1 + Z.of_nat (length vs)) with (Z.of_nat (S (length vs))) by lia.
          iDestruct "HK" as "[HK _]". iApply ("HK" with "HP"). rewrite elems_cons. iFrame.
        * iIntros (l' Hl') "HP Hl". iDestruct "HK" as "[_ HK]".
          iApply ("HK" $! (v :: l') with "[] HP"); [iPureIntro; simpl in *; lia|].
          rewrite elems_cons. iFrame.
      + iIntros (c') "HP Hv". iDestruct "HK" as "[_ HK]".
        iApply ("HK" $! (c' :: l) with "[] HP"); [iPureIntro; simpl; lia|]. rewrite elems_cons. iFrame.
  Qed.

  Lemma wp_fill P a v d q l s Q X :
    as_ok P P a v P -> q = d +ₗ Z.of_nat (length l) ->
    P ⊢ elems d l -∗
    ((P -∗ elems d (replicate (length l) v) -∗ Q tt s) ∧
     (∀ l', ⟦length l' = length l /\ (0 < length l)%nat⟧ -∗ P -∗ elems d l' -∗ X EUser s)) -∗
    wp (fill d q a) s Q X.
  Proof.
    iIntros (Hok ->) "HP Hl HK". unfold fill.
    iApply wp_bind. iApply wp_range_len; [done|simpl; lia|]. simpl.
    replace (Z.to_nat _) with (length l) by lia.
    iApply wp_bind. iApply (wp_assign_loop with "HP Hl").
    - by apply ass_repl.
    - by rewrite replicate_length.
    - iSplit.
      + iIntros "HP Hl". iApply wp_ret. iDestruct "HK" as "[HK _]". iApply ("HK" with "HP Hl").
      + iDestruct "HK" as "[_ HK]". done.
  Qed.

  (** Moving a segment [l2] down over a non-empty gap [l1] (overlapping). *)
  Lemma wp_move_loop d l1 l2 s Q X :
    (0 < length l1)%nat ->
    elems d (l1 ++ l2) ⊢
    ((∀ l', ⟦length l' = length l1⟧ -∗ elems d (l2 ++ l') -∗ Q (d +ₗ Z.of_nat (length l2)) s) ∧
     (∀ l', ⟦length l' = (length l1 + length l2)%nat /\ (0 < length l2)%nat⟧ -∗ elems d l' -∗ X EUser s)) -∗
    wp (assign_loop d (refs AMove (d +ₗ Z.of_nat (length l1)) (length l2))) s Q X.
  Proof.
    induction l2 as [|b l2 IH] in d, l1, Q, X |- *; intros Hl1; simpl.
    - iIntros "Hl HK". iApply wp_ret. iDestruct "HK" as "[HK _]". rewrite app_nil_r loc_add_0.
      by iApply ("HK" with "[] Hl").
    - iIntros "Hl HK". destruct l1 as [|a l1]; [simpl in Hl1; lia|]. simpl.
      rewrite elems_cons elems_app elems_cons.
      iDestruct "Hl" as "(Ha & Hl1 & Hb & Hl2)".
      iApply wp_bind. rewrite loc_add_assoc.
      replace (1 + Z.of_nat (length l1)) with (Z.of_nat (S (length l1))) by lia.
      iApply (as_ok_move1 with "Hb Ha"). iSplit.
      + iIntros "Hb Ha". specialize (IH (d +ₗ 1) (l1 ++ [vmoved b])).
        rewrite app_length /= in IH. rewrite !loc_add_assoc.
        rewrite !loc_add_assoc in IH.
        replace (1 + Z.of_nat (length l1 + 1)) with (Z.of_nat (S (length l1)) + 1) in IH by lia.
        iApply (IH with "[Hl1 Hb Hl2]"); [lia| |].
        * rewrite -assoc_L elems_app /= elems_cons. rewrite !loc_add_assoc.
          replace (1 + Z.of_nat (length l1)) with (Z.of_nat (S (length l1))) by lia. iFrame.
        * iSplit.
          -- iIntros (l' Hl') "Hl". iDestruct "HK" as "[HK _]".
             replace (1 + Z.of_nat (length l2)) with (Z.of_nat (S (length l2))) by lia.
             iApply ("HK" $! l' with "[]"); [iPureIntro; simpl; lia|].
             rewrite elems_cons. iFrame.
          -- iIntros (l' Hl') "Hl". iDestruct "HK" as "[_ HK]".
             iApply ("HK" $! (b :: l')); [iPureIntro; simpl; lia|].
             rewrite elems_cons. iFrame.
      + iIntros (c') "Hb Ha". iDestruct "Hb" as (b') "Hb". iDestruct "HK" as "[_ HK]".
        iApply ("HK" $! (c' :: l1 ++ b' :: l2)).
        * iPureIntro. simpl. rewrite app_length /=. lia.
        * rewrite elems_cons elems_app elems_cons !loc_add_assoc.
          replace (1 + Z.of_nat (length l1)) with (Z.of_nat (S (length l1))) by lia. iFrame.
  Qed.

  Lemma wp_move d p q l1 l2 s Q X :
    (0 < length l1)%nat -> p = d +ₗ Z.of_nat (length l1) -> q = p +ₗ Z.of_nat (length l2) ->
    elems d (l1 ++ l2) ⊢
    ((∀ l', ⟦length l' = length l1⟧ -∗ elems d (l2 ++ l') -∗ Q (d +ₗ Z.of_nat (length l2)) s) ∧
     (∀ l', ⟦length l' = (length l1 + length l2)%nat /\ (0 < length l2)%nat⟧ -∗ elems d l' -∗ X EUser s)) -∗
    wp (move p q d) s Q X.
  Proof.
    iIntros (Hl1 -> ->) "Hl HK". unfold move. iApply wp_bind. iApply wp_range; [done|].
    by iApply (wp_move_loop with "Hl").
  Qed.

  (** Moving a segment [l1] up over a non-empty gap [l2] (overlapping). *)
  Lemma wp_move_backward_loop p l1 l2 s Q X :
    (0 < length l2)%nat ->
    elems p (l1 ++ l2) ⊢
    ((∀ l', ⟦length l' = length l2⟧ -∗ elems p (l' ++ l1) -∗ Q (p +ₗ Z.of_nat (length l2)) s) ∧
     (∀ l', ⟦length l' = (length l1 + length l2)%nat /\ (0 < length l1)%nat⟧ -∗ elems p l' -∗ X EUser s)) -∗
    wp (move_backward_loop (length l1) p (p +ₗ Z.of_nat (length l1 + length l2))) s Q X.
  Proof.
    induction l1 as [|b l1 IH] using rev_ind in l2, Q, X |- *; intros Hl2; simpl.
    - iIntros "Hl HK". iApply wp_ret. iDestruct "HK" as "[HK _]".
      iApply ("HK" with "[]"); [done|]. by rewrite app_nil_r.
    - iIntros "Hl HK".
      replace (length (l1 ++ [b])) with (S (length l1)) by (rewrite app_length /=; lia). simpl.
      destruct l2 as [|a l2 _] using rev_ind; [simpl in Hl2; lia|].
      rewrite -assoc_L /= elems_app elems_cons elems_app elems_singleton.
      iDestruct "Hl" as "(Hl1 & Hb & Hl2 & Ha)".
      iApply wp_bind. rewrite !loc_add_assoc !app_length /=.
      replace (Z.of_nat (S (length l1 + (length l2 + 1))) + -1)
        with (Z.of_nat (length l1) + 1 + Z.of_nat (length l2)) by lia.
      iApply (as_ok_move1 with "Hb Ha"). iSplit.
      + iIntros "Hb Ha". specialize (IH (vmoved b :: l2)). simpl in IH.
        replace (Z.of_nat (length l1) + 1 + Z.of_nat (length l2))
          with (Z.of_nat (length l1 + S (length l2))) by lia.
        iApply (IH with "[Hl1 Hb Hl2]"); [lia| |].
        * rewrite elems_app elems_cons !loc_add_assoc. iFrame.
        * iSplit.
          -- iIntros (l' Hl') "Hl". iDestruct "HK" as "[HK _]".
             replace (Z.of_nat (length l2 + 1)) with (Z.of_nat (S (length l2))) by lia.
             iApply ("HK" $! l' with "[]"); [iPureIntro; simpl; lia|].
             rewrite assoc_L elems_snoc app_length Hl'. iFrame "Hl".
             replace (Z.of_nat (S (length l2) + length l1))
               with (Z.of_nat (length l1 + S (length l2))) by lia. done.
          -- iIntros (l' [Hl' _]) "Hl". iDestruct "HK" as "[_ HK]".
             iApply ("HK" $! (l' ++ [b])).
             { iPureIntro. rewrite app_length /=. lia. }
             rewrite elems_snoc Hl'. iFrame.
      + iIntros (c') "Hb Ha". iDestruct "Hb" as (b') "Hb". iDestruct "HK" as "[_ HK]".
        iApply ("HK" $! (l1 ++ b' :: l2 ++ [c'])).
        * iPureIntro. rewrite !app_length /= app_length /=. lia.
        * rewrite elems_app elems_cons elems_snoc !loc_add_assoc. iFrame.
  Qed.

  Lemma wp_move_backward p q d l1 l2 s Q X :
    (0 < length l2)%nat -> q = p +ₗ Z.of_nat (length l1) -> d = q +ₗ Z.of_nat (length l2) ->
    elems p (l1 ++ l2) ⊢
    ((∀ l', ⟦length l' = length l2⟧ -∗ elems p (l' ++ l1) -∗ Q (p +ₗ Z.of_nat (length l2)) s) ∧
     (∀ l', ⟦length l' = (length l1 + length l2)%nat /\ (0 < length l1)%nat⟧ -∗ elems p l' -∗ X EUser s)) -∗
    wp (move_backward p q d) s Q X.
  Proof.
    iIntros (Hl2 -> ->) "Hl HK". unfold move_backward. iApply wp_bind.
    iApply wp_range_len; [done|simpl; lia|]. simpl.
    replace (Z.to_nat _) with (length l1) by lia.
    rewrite loc_add_assoc -Nat2Z.inj_add. by iApply (wp_move_backward_loop with "Hl").
  Qed.
End loops.
