(** * Segmented containers: the member functions, by positions

    The rules of this file describe the contents of the storage by a function
    from positions to elements; the following files restate them for lists. *)

From Verif Require Export SegLib.
From Coq Require Import ZifyBool.
From iris.proofmode Require Import environments tactics.
Open Scope Z_scope.

Section basic.
  Context `{E : Env} `{SZ : SegSize}.
  Implicit Types segs : list loc.
  Implicit Types T : tab.
  Implicit Types f : Z -> option V.

  Lemma sobj_first T segs p m : sg_first (sobj T segs p m) = sitr (t_at T) segs p.
  Proof. done. Qed.
  Lemma sobj_last T segs p m : sg_last (sobj T segs p m) = sitr (t_at T) segs (p + m).
  Proof. done. Qed.
  Lemma sobj_bos T segs p m : sg_bos (sobj T segs p m) = sitr (t_at T) segs 0.
  Proof. done. Qed.
  Lemma sobj_eos T segs p m : sg_eos (sobj T segs p m) = sitr (t_at T) segs (slots segs - 1).
  Proof. done. Qed.
  Lemma sobj_alloc T segs p m : sg_alloc (sobj T segs p m) = t_al T.
  Proof. done. Qed.
  Lemma sobj_tfirst T segs p m : sg_tfirst (sobj T segs p m) = t_at T.
  Proof. done. Qed.
  Lemma sitr_deref t segs i : it_deref (sitr t segs i) = saddr segs i.
  Proof. done. Qed.
End basic.
Global Arguments sobj : simpl never.
Ltac sred := rewrite ?sobj_first ?sobj_last ?sobj_bos ?sobj_eos ?sobj_alloc ?sobj_tfirst ?sitr_deref.

Section rules.
  Context `{E : Env} `{SZ : SegSize}.
  Implicit Types segs : list loc.
  Implicit Types T : tab.
  Implicit Types f : Z -> option V.

  Lemma wp_sw_set_last T segs p m q Q X :
    Q tt (sobj T segs p (q - p)) ⊢ wp (sq_set_last (sitr (t_at T) segs q)) (sobj T segs p m) Q X.
  Proof.
    iIntros "HQ". unfold sq_set_last. iApply wp_modify.
    replace (sg_set_last (sitr (t_at T) segs q) (sobj T segs p m)) with (sobj T segs p (q - p)); [done|].
    unfold sobj, sg_set_last, sg_set_iters; simpl. by replace (p + (q - p)) with q by lia.
  Qed.
  Lemma wp_sw_set_first T segs p m q Q X :
    Q tt (sobj T segs q (p + m - q)) ⊢ wp (sq_set_first (sitr (t_at T) segs q)) (sobj T segs p m) Q X.
  Proof.
    iIntros "HQ". unfold sq_set_first. iApply wp_modify.
    replace (sg_set_first (sitr (t_at T) segs q) (sobj T segs p m)) with (sobj T segs q (p + m - q)); [done|].
    unfold sobj, sg_set_first, sg_set_iters; simpl. by replace (q + (p + m - q)) with (p + m) by lia.
  Qed.

  Context {St : Type}.
  Implicit Types s : St.
  Lemma wp_sw_succ t segs i f s Q X :
    0 <= i -> i + 1 < slots segs ->
    swin t segs f ⊢ (swin t segs f -∗ Q (sitr t segs (i + 1)) s) -∗ wp (it_succ (sitr t segs i)) s Q X.
  Proof.
    iIntros (H1 H2) "[Ht Hw] HK". iApply (wp_it_succ with "Ht"); [done..|]. iIntros "Ht". iApply "HK". iFrame.
  Qed.
  Lemma wp_sw_pred t segs i f s Q X :
    0 < i -> i < slots segs ->
    swin t segs f ⊢ (swin t segs f -∗ Q (sitr t segs (i - 1)) s) -∗ wp (it_pred (sitr t segs i)) s Q X.
  Proof.
    iIntros (H1 H2) "[Ht Hw] HK". iApply (wp_it_pred with "Ht"); [done..|]. iIntros "Ht". iApply "HK". iFrame.
  Qed.
  Lemma wp_sw_add t segs i n f s Q X :
    0 <= i -> i < slots segs -> 0 <= i + n -> i + n < slots segs ->
    swin t segs f ⊢ (swin t segs f -∗ Q (sitr t segs (i + n)) s) -∗ wp (it_add (sitr t segs i) n) s Q X.
  Proof.
    iIntros (H1 H2 H3 H4) "[Ht Hw] HK". iApply (wp_it_add with "Ht"); [done..|]. iIntros "Ht". iApply "HK". iFrame.
  Qed.
  Lemma wp_sw_minus t segs i n f s Q X :
    0 <= i -> i < slots segs -> 0 <= i - n -> i - n < slots segs ->
    swin t segs f ⊢ (swin t segs f -∗ Q (sitr t segs (i - n)) s) -∗ wp (it_minus (sitr t segs i) n) s Q X.
  Proof.
    iIntros (H1 H2 H3 H4) "[Ht Hw] HK". iApply (wp_it_minus with "Ht"); [done..|]. iIntros "Ht". iApply "HK". iFrame.
  Qed.
  Lemma wp_sw_diff t segs i j f s Q X :
    0 <= i -> i < slots segs -> 0 <= j -> j < slots segs ->
    swin t segs f ⊢ (swin t segs f -∗ Q (i - j) s) -∗ wp (it_diff (sitr t segs i) (sitr t segs j)) s Q X.
  Proof.
    iIntros (H1 H2 H3 H4) "[Ht Hw] HK". iApply (wp_it_diff with "Ht"); [done..|]. iIntros "Ht". iApply "HK". iFrame.
  Qed.
  Lemma wp_sw_move_backward t segs a b d' f s Q X :
    0 <= a -> a <= b -> b < slots segs -> 0 <= d' - (b - a) -> d' < slots segs ->
    (a < d' - (b - a) \/ d' <= a \/ a = b) ->
    (forall i, a <= i < b -> live f i = true) ->
    (forall i, d' - (b - a) <= i < d' -> live f i = true) ->
    swin t segs f ⊢
    ((∀ f', ⟦moved a b (d' - (b - a)) f f'⟧ -∗ swin t segs f' -∗ Q (sitr t segs (d' - (b - a))) s) ∧
     (∀ f', ⟦shaken f f' /\ a < b⟧ -∗ swin t segs f' -∗ X EUser s)) -∗
    wp (s_move_backward (sitr t segs a) (sitr t segs b) (sitr t segs d')) s Q X.
  Proof.
    intros H1 H2 H3 H4 H5 H6 H7 H8. iIntros "Hw HK".
    replace d' with (d' - (b - a) + (b - a)) at 1 by lia.
    iApply (wp_s_move_backward with "Hw"); try done; try lia.
    intros i Hi. apply H8. lia.
  Qed.
  Lemma wp_sw_ufill t segs a b f v s Q X :
    0 <= a -> a <= b -> b < slots segs -> (forall i, a <= i < b -> live f i = false) ->
    swin t segs f ⊢
    ((∀ f', ⟦stored a (replicate (Z.to_nat (b - a)) v) f f'⟧ -∗ swin t segs f' -∗ Q tt s) ∧
     (swin t segs f -∗ X EUser s)) -∗
    wp (s_uninitialized_fill_a (sitr t segs a) (sitr t segs b) (AVal v)) s Q X.
  Proof.
    intros H1 H2 H3 H4. iIntros "Hw HK". iApply (wp_s_ufill_a _ _ _ _ _ emp%I with "[//] Hw"); [apply mk_ok_val|done..|].
    iSplit.
    - iIntros (f') "%Hf _ Hw". iDestruct "HK" as "[HK _]". by iApply ("HK" with "[%]").
    - iIntros "_ Hw". iDestruct "HK" as "[_ HK]". by iApply "HK".
  Qed.
  Lemma wp_sw_fill t segs a b f v s Q X :
    0 <= a -> a <= b -> b < slots segs -> (forall i, a <= i < b -> live f i = true) ->
    swin t segs f ⊢
    ((∀ f', ⟦stored a (replicate (Z.to_nat (b - a)) v) f f'⟧ -∗ swin t segs f' -∗ Q tt s) ∧
     (∀ f', ⟦shaken f f' /\ a < b⟧ -∗ swin t segs f' -∗ X EUser s)) -∗
    wp (s_fill (sitr t segs a) (sitr t segs b) (AVal v)) s Q X.
  Proof.
    intros H1 H2 H3 H4. iIntros "Hw HK". iApply (wp_s_fill _ _ _ _ _ emp%I with "[//] Hw"); [apply as_ok_val|done..|].
    iSplit.
    - iIntros (f') "%Hf _ Hw". iDestruct "HK" as "[HK _]". by iApply ("HK" with "[%]").
    - iIntros (f') "%Hf _ Hw". iDestruct "HK" as "[_ HK]". by iApply ("HK" with "[%]").
  Qed.
End rules.

(** ** Automation

    The contents are the hypothesis "Hw", the continuation is "HK". *)
Ltac slive :=
  repeat match goal with
  | |- context [live (at_pos ?p ?l) ?i] => rewrite (live_at_pos p l i)
  | |- context [live ?f ?i] =>
      match goal with
      | H : moved _ _ _ _ f |- _ => rewrite (mv_live _ _ _ _ _ H i)
      | H : stored _ _ _ f |- _ => rewrite (st_live _ _ _ _ H i)
      | H : cleared _ _ _ f |- _ => rewrite (cl_live _ _ _ _ H i)
      | H : shaken _ f |- _ => rewrite (H i)
      | H : shaken _ f /\ _ |- _ => rewrite (proj1 H i)
      | H : forall j, live f j = _ |- _ => rewrite (H i)
      end
  end; unfold within; rewrite ?replicate_length; cbn [length].
(** To be extended in SegFeed.v. *)
Ltac schase_more := fail.
Ltac sx_more := fail.
Ltac sstep_more := fail.
Ltac slen :=
  repeat match goal with H : context [length (replicate _ _)] |- _ => rewrite replicate_length in H end;
  repeat match goal with H : _ <= _ < _ |- _ => progress cbn [length] in H end;
  repeat match goal with H : ~ _ <= _ < _ |- _ => progress cbn [length] in H end;
  rewrite ?replicate_length; cbn [length].
Ltac sconj := repeat match goal with H : _ /\ _ |- _ => destruct H end.
Ltac sside := first [lia | slive; lia | intros ? ?; slive; lia | intros ?; slive; lia | intros ?; exfalso; lia | intros ?; reflexivity].
Ltac schase :=
  repeat first
  [ progress exfalso; lia
  | match goal with
    | |- ?f ?i = _ =>
      match goal with
      | H : moved ?a ?e ?d _ f |- _ =>
          destruct (decide (d <= i < d + (e - a)));
          [first [exfalso; lia|rewrite (mv_dst _ _ _ _ _ H i); [|lia]]
          |first [exfalso; lia|rewrite (mv_rest _ _ _ _ _ H i); [|lia..]]]
      | H : stored ?d ?vs _ f |- _ =>
          destruct (decide (d <= i < d + zlen vs));
          [first [exfalso; slen; lia|rewrite (st_dst _ _ _ _ H i); [|assumption]]
          |first [exfalso; slen; lia|rewrite (st_rest _ _ _ _ H i); [|assumption]]];
          slen
      | H : cleared ?a ?e _ f |- _ => rewrite (cl_rest _ _ _ _ H i); [|lia]
      end
    end ];
  first [done | exfalso; lia | f_equal; lia | f_equal; f_equal; lia
        | rewrite !lookup_replicate_2; [done|lia..]
        | (match goal with |- [_] !! ?x = [_] !! ?y => replace x with y by lia; done end)
        | schase_more].
(** After an exception. *)
Ltac sx :=
  sconj; wbeta; iDestruct "HK" as "[_ HK]"; first [iApply ("HK" with "[%] Hw")|sx_more];
  repeat match goal with |- _ /\ _ => split end; sside.
Ltac smv L :=
  iApply (L with "Hw"); [sside..|];
  iSplit; [iIntros (?) "% Hw"; wbeta; cbn [fst snd] | iIntros (?) "% Hw"; sx].
Ltac sstep :=
  lazymatch goal with
  | |- envs_entails _ (wp (bind _ _) _ _ _) => wbind
  | |- envs_entails _ (wp getS _ _ _) => iApply wp_get; wbeta; sred
  | |- envs_entails _ (wp (sq_set_last _) _ _ _) => iApply wp_sw_set_last; wbeta
  | |- envs_entails _ (wp (sq_set_first _) _ _ _) => iApply wp_sw_set_first; wbeta
  | |- envs_entails _ (wp (it_succ _) _ _ _) =>
      iApply (wp_sw_succ with "Hw"); [lia..|]; iIntros "Hw"; wbeta; sred
  | |- envs_entails _ (wp (it_pred _) _ _ _) =>
      iApply (wp_sw_pred with "Hw"); [lia..|]; iIntros "Hw"; wbeta; sred
  | |- envs_entails _ (wp (it_add _ _) _ _ _) =>
      iApply (wp_sw_add with "Hw"); [lia..|]; iIntros "Hw"; wbeta; sred
  | |- envs_entails _ (wp (it_minus _ _) _ _ _) =>
      iApply (wp_sw_minus with "Hw"); [lia..|]; iIntros "Hw"; wbeta; sred
  | |- envs_entails _ (wp (it_diff _ _) _ _ _) =>
      iApply (wp_sw_diff with "Hw"); [lia..|]; iIntros "Hw"; wbeta; sred
  | |- envs_entails _ (wp (it_ltb _ _) _ _ _) => iApply wp_it_ltb; wbeta
  | |- envs_entails _ (wp (assert_ _) _ _ _) => iApply wp_assert; [lia|]; wbeta
  | |- envs_entails _ (wp (s_umove _ _ _) _ _ _) => smv wp_s_umove
  | |- envs_entails _ (wp (s_move _ _ _) _ _ _) => smv wp_s_move
  | |- envs_entails _ (wp (s_move_backward _ _ _) _ _ _) => smv wp_sw_move_backward
  | |- envs_entails _ (wp (s_fill _ _ _) _ _ _) => smv wp_sw_fill
  | |- envs_entails _ (wp (assign _ (AVal _)) _ _ _) => smv wp_sw_assign_val
  | |- envs_entails _ (wp (construct _ (AMove _)) _ _ _) => smv wp_sw_move_construct
  | |- envs_entails _ (wp (s_uninitialized_fill_a _ _ (AVal _)) _ _ _) =>
      iApply (wp_sw_ufill with "Hw"); [sside..|];
      iSplit; [iIntros (?) "% Hw"; wbeta; cbn [fst snd] | iIntros "Hw"; sx]
  | |- envs_entails _ (wp (s_destroy_a _ _) _ _ _) =>
      iApply (wp_s_destroy_a with "Hw"); [sside..|]; iIntros (?) "% Hw"; wbeta
  | |- envs_entails _ (wp (destroy_at _) _ _ _) =>
      iApply (wp_sw_destroy_at with "Hw"); [sside..|]; iIntros (?) "% Hw"; wbeta
  | |- envs_entails _ (wp (ret _) _ _ _) => iApply wp_ret; wbeta
  | |- _ => sstep_more
  end.
(** The continuation is [∀ f' r o', ⟦… /\ r = … /\ o' = …⟧ -∗ swin f' -∗ Q r o']. *)
Ltac sfinish :=
  iDestruct "HK" as "[HK _]"; iApply ("HK" with "[%] Hw");
  repeat match goal with
  | |- _ /\ _ => split
  | |- spread _ _ _ _ _ _ _ => split; [intros ? ?; slen; schase..|intros ?; slive; lia]
  | |- sitr _ _ _ = _ => f_equal; lia
  | |- sobj _ _ _ _ = _ => f_equal; lia
  end.

Section inserts.
  Context `{E : Env} `{SZ : SegSize}.
  Implicit Types segs : list loc.
  Implicit Types T : tab.
  Implicit Types f : Z -> option V.

  (** v 1542-1601, d 2231-2300. *)
  Lemma wp_fill_back T segs p m k n far b tmp f Q X :
    0 <= p -> 0 <= k <= m -> 0 < n -> p + m + n < slots segs ->
    (forall i, live f i = within p (p + m) i) ->
    (forall Q' : bool -> sgdata -> hProp, Q' b (sobj T segs p m) ⊢ wp (far (sitr (t_at T) segs (p + k + n))) (sobj T segs p m) Q' X) ->
    (b = true -> n <= m - k) -> (b = false -> m - k <= n) ->
    swin (t_at T) segs f ⊢
    ((∀ f' r o', ⟦spread p m p k (replicate (Z.to_nat n) tmp) f f' /\
          r = sitr (t_at T) segs (p + k) /\ o' = sobj T segs p (m + n)⟧ -∗
        swin (t_at T) segs f' -∗ Q r o') ∧
     (∀ f' p' m', ⟦(forall i, live f' i = within p' (p' + m') i) /\ p' = p /\ m <= m' <= m + n /\
          (k = m -> f' = f)⟧ -∗ swin (t_at T) segs f' -∗ X EUser (sobj T segs p' m'))) -∗
    wp (sq_fill_back (sitr (t_at T) segs (p + k)) n far tmp) (sobj T segs p m) Q X.
  Proof.
    intros Hp Hk Hn Hs Hl Hfar Hb1 Hb2. iIntros "Hw HK". unfold sq_fill_back.
    do 4 sstep. wbind. iApply Hfar. wbeta. destruct b.
    - specialize (Hb1 eq_refl). repeat sstep. sfinish.
    - specialize (Hb2 eq_refl). repeat sstep. sfinish.
  Qed.
  (** d 2150-2228. *)
  Lemma wp_fill_front T segs p m k n tmp f Q X :
    0 <= p - n -> 0 <= k <= m -> 0 < n -> p + m < slots segs ->
    (forall i, live f i = within p (p + m) i) ->
    swin (t_at T) segs f ⊢
    ((∀ f' r o', ⟦spread p m (p - n) k (replicate (Z.to_nat n) tmp) f f' /\
          r = sitr (t_at T) segs (p - n + k) /\ o' = sobj T segs (p - n) (m + n)⟧ -∗
        swin (t_at T) segs f' -∗ Q r o') ∧
     (∀ f' p' m', ⟦(forall i, live f' i = within p' (p' + m') i) /\ (p' + m' = p + m)%Z /\ m <= m' <= m + n /\
          (k = 0 -> f' = f)⟧ -∗ swin (t_at T) segs f' -∗ X EUser (sobj T segs p' m'))) -∗
    wp (sd_fill_front (sitr (t_at T) segs (p + k)) k n tmp) (sobj T segs p m) Q X.
  Proof.
    intros Hp Hk Hn Hs Hl. iIntros "Hw HK". unfold sd_fill_front.
    do 4 sstep. wbeta. destruct (Z.ltb_spec n k).
    - repeat sstep. sfinish.
    - repeat sstep. sfinish.
  Qed.
  (** The end of [sq_emplace_at], after the temporary has been made. *)
  Lemma wp_emplace_mid T segs p m k tmp f Q X :
    0 <= p -> 0 <= k < m -> p + m + 1 < slots segs ->
    (forall i, live f i = within p (p + m) i) ->
    swin (t_at T) segs f ⊢
    ((∀ f' r o', ⟦spread p m p k [tmp] f f' /\
          r = sitr (t_at T) segs (p + k) /\ o' = sobj T segs p (m + 1)⟧ -∗
        swin (t_at T) segs f' -∗ Q r o') ∧
     (∀ f' p' m', ⟦(forall i, live f' i = within p' (p' + m') i) /\ p' = p /\ m <= m' <= m + 1⟧ -∗
        swin (t_at T) segs f' -∗ X EUser (sobj T segs p' m'))) -∗
    wp (construct (saddr segs (p + m)) (AMove (saddr segs (p + m - 1)));;
        x <- it_succ (sitr (t_at T) segs (p + m));;
        sq_set_last x;;
        s_move_backward (sitr (t_at T) segs (p + k)) (sitr (t_at T) segs (p + m - 1)) (sitr (t_at T) segs (p + m));;
        assign (saddr segs (p + k)) (AVal tmp);;
        ret (sitr (t_at T) segs (p + k)))%prog (sobj T segs p m) Q X.
  Proof.
    intros Hp Hk Hs Hl. iIntros "Hw HK". repeat sstep. sfinish.
  Qed.
  Lemma wp_emplace_front_mid T segs p m k tmp f Q X :
    0 < p -> 0 < k <= m -> p + m < slots segs ->
    (forall i, live f i = within p (p + m) i) ->
    swin (t_at T) segs f ⊢
    ((∀ f' r o', ⟦spread p m (p - 1) k [tmp] f f' /\
          r = sitr (t_at T) segs (p - 1 + k) /\ o' = sobj T segs (p - 1) (m + 1)⟧ -∗
        swin (t_at T) segs f' -∗ Q r o') ∧
     (∀ f' p' m', ⟦(forall i, live f' i = within p' (p' + m') i) /\ (p' + m' = p + m)%Z /\ m <= m' <= m + 1⟧ -∗
        swin (t_at T) segs f' -∗ X EUser (sobj T segs p' m'))) -∗
    wp (construct (saddr segs (p - 1)) (AMove (saddr segs p));;
        sq_set_first (sitr (t_at T) segs (p - 1));;
        s_move (sitr (t_at T) segs (p + 1)) (sitr (t_at T) segs (p + k)) (sitr (t_at T) segs p);;
        assign (saddr segs (p + k - 1)) (AVal tmp);;
        ret (sitr (t_at T) segs (p + k - 1)))%prog (sobj T segs p m) Q X.
  Proof.
    intros Hp Hk Hs Hl. iIntros "Hw HK". repeat sstep. sfinish.
  Qed.
End inserts.
