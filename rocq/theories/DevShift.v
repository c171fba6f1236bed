(** * sfl::devector: the branches of insert_aux, proved one by one *)

From Verif Require Export DevLib.
From Coq Require Import ZifyBool.
From iris.proofmode Require Import environments tactics.
Open Scope Z_scope.

Section rules.
  Context `{E : Env}.
  Context {St : Type}.
  Implicit Types s : St.
  Implicit Types f g : Z -> option V.
  Variables (b : loc) (cap : Z).
  Notation W := (win (loc_add b) 0 cap).

  Lemma wp_b_umove a e d f s Q X :
    0 <= a -> a <= e -> e <= cap -> 0 <= d -> d + (e - a) <= cap ->
    (forall i, a <= i < e -> live f i = true) ->
    (forall i, d <= i < d + (e - a) -> live f i = false) ->
    W f ⊢
    ((∀ f', ⟦moved a e d f f'⟧ -∗ W f' -∗ Q (b +ₗ (d + (e - a))) s) ∧
     (∀ f', ⟦shaken f f'⟧ -∗ W f' -∗ X EUser s)) -∗
    wp (uninitialized_move_a (b +ₗ a) (b +ₗ e) (b +ₗ d)) s Q X.
  Proof.
    intros H1 H2 H3 H4 H5 Hl Hr. iIntros "Hw HK".
    iApply (wp_win_umove _ _ _ a e d with "Hw"); try done; [apply contig_base|apply contig_base| |].
    { rewrite loc_add_assoc. f_equal. lia. }
    iSplit.
    - iDestruct "HK" as "[HK _]". by rewrite loc_add_assoc.
    - iIntros (f') "%Hs Hw". iDestruct "HK" as "[_ HK]". iApply ("HK" with "[%] Hw"). apply Hs.
  Qed.
  Lemma wp_b_move a e d f s Q X :
    0 <= a -> a <= e -> e <= cap -> 0 <= d -> d + (e - a) <= cap ->
    (d < a \/ e <= d \/ e <= a) ->
    (forall i, a <= i < e -> live f i = true) ->
    (forall i, d <= i < d + (e - a) -> live f i = true) ->
    W f ⊢
    ((∀ f', ⟦moved a e d f f'⟧ -∗ W f' -∗ Q (b +ₗ (d + (e - a))) s) ∧
     (∀ f', ⟦shaken f f'⟧ -∗ W f' -∗ X EUser s)) -∗
    wp (move (b +ₗ a) (b +ₗ e) (b +ₗ d)) s Q X.
  Proof.
    intros H1 H2 H3 H4 H5 Hdis Hl Hr. iIntros "Hw HK".
    iApply (wp_win_move _ _ _ a e d with "Hw"); try done; [apply contig_base|apply contig_base| |].
    { rewrite loc_add_assoc. f_equal. lia. }
    by rewrite loc_add_assoc.
  Qed.
  Lemma wp_b_move_backward a e d' f s Q X :
    0 <= a -> a <= e -> e <= cap -> 0 <= d' - (e - a) -> d' <= cap ->
    (a < d' - (e - a) \/ d' <= a \/ e <= a) ->
    (forall i, a <= i < e -> live f i = true) ->
    (forall i, d' - (e - a) <= i < d' -> live f i = true) ->
    W f ⊢
    ((∀ f', ⟦moved a e (d' - (e - a)) f f'⟧ -∗ W f' -∗ Q (b +ₗ (d' - (e - a))) s) ∧
     (∀ f', ⟦shaken f f'⟧ -∗ W f' -∗ X EUser s)) -∗
    wp (move_backward (b +ₗ a) (b +ₗ e) (b +ₗ d')) s Q X.
  Proof.
    intros H1 H2 H3 H4 H5 Hdis Hl Hr. iIntros "Hw HK".
    iApply (wp_win_move_backward _ _ _ a e (d' - (e - a)) with "Hw"); try lia;
      [apply contig_base|apply contig_base| | |done| |done].
    { rewrite loc_add_assoc. f_equal. lia. }
    { rewrite loc_add_assoc. f_equal. lia. }
    { intros i Hi. apply Hr. lia. }
  Qed.
  Lemma wp_b_move_unless a e d f s Q X :
    0 <= a -> a <= e -> e <= cap -> 0 <= d -> d + (e - a) <= cap ->
    (d <= a \/ e <= d \/ e <= a) ->
    (forall i, a <= i < e -> live f i = true) ->
    (forall i, d <= i < d + (e - a) -> live f i = true) ->
    W f ⊢
    ((∀ f', ⟦moved a e d f f'⟧ -∗ W f' -∗ Q tt s) ∧
     (∀ f', ⟦shaken f f'⟧ -∗ W f' -∗ X EUser s)) -∗
    wp (move_unless_same (b +ₗ a) (b +ₗ e) (b +ₗ d)) s Q X.
  Proof.
    intros H1 H2 H3 H4 H5 Hdis Hl Hr. iIntros "Hw HK". unfold move_unless_same.
    rewrite loc_eqb_add. destruct (Z.eqb_spec a d) as [->|Hne]; simpl.
    - iApply wp_ret. iDestruct "HK" as "[HK _]". iApply ("HK" with "[%] Hw"). by apply moved_self.
    - wbind. iApply (wp_b_move with "Hw"); try done; [lia|]. iSplit.
      + iIntros (f') "%Hf Hw". iApply wp_ret. iDestruct "HK" as "[HK _]". by iApply ("HK" with "[%] Hw").
      + iDestruct "HK" as "[_ HK]". done.
  Qed.
  Lemma wp_b_move_backward_unless a e d' f s Q X :
    0 <= a -> a <= e -> e <= cap -> 0 <= d' - (e - a) -> d' <= cap ->
    (a <= d' - (e - a) \/ d' <= a \/ e <= a) ->
    (forall i, a <= i < e -> live f i = true) ->
    (forall i, d' - (e - a) <= i < d' -> live f i = true) ->
    W f ⊢
    ((∀ f', ⟦moved a e (d' - (e - a)) f f'⟧ -∗ W f' -∗ Q tt s) ∧
     (∀ f', ⟦shaken f f'⟧ -∗ W f' -∗ X EUser s)) -∗
    wp (move_backward_unless_same (b +ₗ a) (b +ₗ e) (b +ₗ d')) s Q X.
  Proof.
    intros H1 H2 H3 H4 H5 Hdis Hl Hr. iIntros "Hw HK". unfold move_backward_unless_same.
    rewrite loc_eqb_add. destruct (Z.eqb_spec e d') as [->|Hne]; simpl.
    - iApply wp_ret. iDestruct "HK" as "[HK _]". iApply ("HK" with "[%] Hw").
      replace (d' - (d' - a)) with a by lia. by apply moved_self.
    - wbind. iApply (wp_b_move_backward with "Hw"); try done; [lia|]. iSplit.
      + iIntros (f') "%Hf Hw". iApply wp_ret. iDestruct "HK" as "[HK _]". by iApply ("HK" with "[%] Hw").
      + iDestruct "HK" as "[_ HK]". done.
  Qed.
  Lemma wp_b_destroy a e f s Q X :
    0 <= a -> a <= e -> e <= cap ->
    (forall i, a <= i < e -> live f i = true) ->
    W f ⊢ (∀ f', ⟦cleared a e f f'⟧ -∗ W f' -∗ Q tt s) -∗
    wp (destroy_a (b +ₗ a) (b +ₗ e)) s Q X.
  Proof.
    intros H1 H2 H3 Hl. iIntros "Hw HK".
    iApply (wp_win_destroy _ _ _ a e with "Hw"); try done; [apply contig_base|].
    rewrite loc_add_assoc. f_equal. lia.
  Qed.
  Lemma wp_b_destroy_n a n f s Q X :
    0 <= a -> 0 <= n -> a + n <= cap ->
    (forall i, a <= i < a + n -> live f i = true) ->
    W f ⊢ (∀ f', ⟦cleared a (a + n) f f'⟧ -∗ W f' -∗ Q tt s) -∗
    wp (destroy_n_a (b +ₗ a) (Z.to_nat n)) s Q X.
  Proof.
    intros H1 H2 H3 Hl. iIntros "Hw HK".
    iApply (wp_win_destroy_n _ _ _ a (Z.to_nat n) with "Hw"); rewrite ?Z2Nat.id; try done; [apply contig_base].
  Qed.
  Lemma wp_b_sub x y z s (Q : Z -> St -> hProp) X :
    z = x - y -> Q z s ⊢ wp (ptr_sub (b +ₗ x) (b +ₗ y)) s Q X.
  Proof. intros ->. apply wp_psub. rewrite loc_add_assoc. f_equal. lia. Qed.
  Lemma wp_b_ge x y s (Q : bool -> St -> hProp) X :
    Q (0 <=? x - y) s ⊢ wp (ge_ (b +ₗ x) (b +ₗ y)) s Q X.
  Proof. iIntros "HQ". unfold ge_. wbind. iApply wp_b_sub; [done|]. by iApply wp_ret. Qed.
  Lemma wp_b_le x y s (Q : bool -> St -> hProp) X :
    Q (0 <=? y - x) s ⊢ wp (le_ (b +ₗ x) (b +ₗ y)) s Q X.
  Proof. iIntros "HQ". unfold le_. wbind. iApply wp_b_sub; [done|]. by iApply wp_ret. Qed.

  (** The elements [p, p + m) have been spread: the first [k] of them to [q],
      then the values [vs], then the others. *)
  Record spread (p m q k : Z) (vs : list V) f f' : Prop := Spread {
    sp_left : forall i, q <= i < q + k -> f' i = f (i - q + p);
    sp_mid : forall i, q + k <= i < q + k + Z.of_nat (length vs) -> f' i = vs !! Z.to_nat (i - (q + k));
    sp_right : forall i, q + k + Z.of_nat (length vs) <= i < q + Z.of_nat (length vs) + m ->
      f' i = f (i - Z.of_nat (length vs) - q + p);
    sp_live : forall i, live f' i = within q (q + Z.of_nat (length vs) + m) i;
  }.
End rules.

(** ** Automation *)
Ltac blive :=
  repeat match goal with
  | |- context [live ?f ?i] =>
      match goal with
      | H : moved _ _ _ _ f |- _ => rewrite (mv_live _ _ _ _ _ H i)
      | H : put _ _ _ _ _ f |- _ => rewrite (pt_live _ _ _ _ _ _ H i)
      | H : cleared _ _ _ f |- _ => rewrite (cl_live _ _ _ _ H i)
      | H : shaken _ f |- _ => rewrite (H i)
      | H : forall j, live f j = _ |- _ => rewrite (H i)
      end
  end; unfold within.
Ltac bside := first [lia | intros ? ?; blive; lia | intros ?; blive; lia].
Ltac bchase :=
  repeat first
  [ progress exfalso; lia
  | match goal with
    | |- ?f ?i = _ =>
      match goal with
      | H : moved ?a ?e ?d _ f |- _ =>
          destruct (decide (d <= i < d + (e - a)));
          [first [exfalso; lia|rewrite (mv_dst _ _ _ _ _ H i); [|lia]]
          |first [exfalso; lia|rewrite (mv_rest _ _ _ _ _ H i); [|lia..]]]
      | H : put ?d ?n _ _ _ f |- _ =>
          destruct (decide (d <= i < d + n));
          [first [exfalso; lia|rewrite (pt_dst _ _ _ _ _ _ H i); [|lia]]
          |first [exfalso; lia|rewrite (pt_rest _ _ _ _ _ _ H i); [|lia]]]
      | H : cleared ?a ?e _ f |- _ => rewrite (cl_rest _ _ _ _ H i); [|lia]
      end
    end ];
  first [done | exfalso; lia | f_equal; lia | f_equal; f_equal; lia].
Ltac bunwind :=
  wbeta;
  lazymatch goal with
  | |- envs_entails _ (wp (destroy_a _ _) _ _ _) =>
      iApply (wp_b_destroy with "Hw"); [bside..|]; iIntros (?) "% Hw"; bunwind
  | |- envs_entails _ (wp (destroy_n_a _ _) _ _ _) =>
      iApply (wp_b_destroy_n with "Hw"); [bside..|]; iIntros (?) "% Hw"; bunwind
  | |- _ =>
      iDestruct "HK" as "[_ HK]"; iApply ("HK" with "[%] Hw"); intros ?; blive; lia
  end.
Ltac bfinish :=
  iDestruct "HK" as "[HK _]"; iApply ("HK" with "[%] Hw");
  split; [intros ? ?; bchase..| intros ?; blive; lia].
Ltac bmv L :=
  iApply (L with "Hw"); [bside..|];
  iSplit; [iIntros (?) "% Hw"; wbeta; cbn [fst snd] | iIntros (?) "% Hw"; bunwind].
Ltac bpx L :=
  iApply (L with "Hw"); [eassumption|bside..|];
  iSplit; [iIntros (? ?) "% Hw";
    match goal with H : (px_at _ _ _ /\ _) /\ put _ _ _ _ _ _ |- _ => destruct H as [[? _] ?] end;
    wbeta; cbn [fst snd] | ].
Ltac bstep :=
  lazymatch goal with
  | |- envs_entails _ (wp (bind _ _) _ _ _) => wbind
  | |- envs_entails _ (wp (guarded _ _) _ _ _) => unfold guarded at 1; iApply wp_try; wbeta
  | |- envs_entails _ (wp (ptr_sub _ _) _ _ _) =>
      iApply wp_b_sub; [reflexivity|]; wbeta; rewrite ?loc_add_assoc
  | |- envs_entails _ (wp (uninitialized_move_a _ _ _) _ _ _) => bmv wp_b_umove
  | |- envs_entails _ (wp (move _ _ _) _ _ _) => bmv wp_b_move
  | |- envs_entails _ (wp (move_unless_same _ _ _) _ _ _) => bmv wp_b_move_unless
  | |- envs_entails _ (wp (move_backward_unless_same _ _ _) _ _ _) => bmv wp_b_move_backward_unless
  | |- envs_entails _ (wp (px_uninit _ _ _) _ _ _) => bpx wp_px_uninit; [|iIntros "_ Hw"; bunwind]
  | |- envs_entails _ (wp (px_insert _ _ _) _ _ _) => bpx wp_px_insert; [|iIntros (?) "% Hw"; bunwind]
  | |- envs_entails _ (wp (destroy_a _ _) _ _ _) =>
      iApply (wp_b_destroy with "Hw"); [bside..|]; iIntros (?) "% Hw"; wbeta
  | |- envs_entails _ (wp (ret tt) _ _ _) => iApply wp_ret
  | |- envs_entails _ (wp (ge_ _ _) _ _ _) => iApply wp_b_ge; wbeta
  | |- envs_entails _ (wp (le_ _ _) _ _ _) => iApply wp_b_le; wbeta
  end.

Section branches.
  Context `{E : Env}.
  Context {St : Type}.
  Implicit Types s : St.
  Variables (b : loc) (cap : Z).
  Notation W := (win (loc_add b) 0 cap).

  Lemma wp_insert_front_1 px vs p m k f s Q X :
    px_at px 0 vs -> 0 <= k <= m -> 0 <= p - Z.of_nat (length vs) -> p + m <= cap ->
    (forall i, live f i = within p (p + m) i) -> Z.of_nat (length vs) < k ->
    W f ⊢
    ((∀ f', ⟦spread p m (p - Z.of_nat (length vs)) k vs f f'⟧ -∗ W f' -∗ Q tt s) ∧
     (∀ f', ⟦shaken f f'⟧ -∗ W f' -∗ X EUser s)) -∗
    wp (insert_front_1 px (b +ₗ p) k (Z.of_nat (length vs))) s Q X.
  Proof.
    intros Hpx Hk Hp Hm Hl Hn. iIntros "Hw HK". unfold insert_front_1. wbeta. rewrite ?loc_add_assoc.
    repeat bstep. bfinish.
  Qed.
  Lemma wp_insert_front_2 px vs p m k f s Q X :
    px_at px 0 vs -> 0 <= k <= m -> 0 <= p - Z.of_nat (length vs) -> p + m <= cap ->
    (forall i, live f i = within p (p + m) i) -> k <= Z.of_nat (length vs) ->
    W f ⊢
    ((∀ f', ⟦spread p m (p - Z.of_nat (length vs)) k vs f f'⟧ -∗ W f' -∗ Q tt s) ∧
     (∀ f', ⟦shaken f f'⟧ -∗ W f' -∗ X EUser s)) -∗
    wp (insert_front_2 px (b +ₗ p) k (Z.of_nat (length vs))) s Q X.
  Proof.
    intros Hpx Hk Hp Hm Hl Hn. iIntros "Hw HK". unfold insert_front_2. wbeta. rewrite ?loc_add_assoc.
    repeat bstep. bfinish.
  Qed.
  Lemma wp_insert_back_1 px vs p m k f s Q X :
    px_at px 0 vs -> 0 <= k <= m -> 0 <= p -> p + m + Z.of_nat (length vs) <= cap ->
    (forall i, live f i = within p (p + m) i) -> Z.of_nat (length vs) < m - k ->
    W f ⊢
    ((∀ f', ⟦spread p m p k vs f f'⟧ -∗ W f' -∗ Q tt s) ∧
     (∀ f', ⟦shaken f f'⟧ -∗ W f' -∗ X EUser s)) -∗
    wp (insert_back_1 px (b +ₗ p) (b +ₗ (p + m)) k (m - k) (Z.of_nat (length vs))) s Q X.
  Proof.
    intros Hpx Hk Hp Hm Hl Hn. iIntros "Hw HK". unfold insert_back_1. wbeta. rewrite ?loc_add_assoc.
    repeat bstep. bfinish.
  Qed.
  Lemma wp_insert_back_2 px vs p m k f s Q X :
    px_at px 0 vs -> 0 <= k <= m -> 0 <= p -> p + m + Z.of_nat (length vs) <= cap ->
    (forall i, live f i = within p (p + m) i) -> m - k <= Z.of_nat (length vs) ->
    W f ⊢
    ((∀ f', ⟦spread p m p k vs f f'⟧ -∗ W f' -∗ Q tt s) ∧
     (∀ f', ⟦shaken f f'⟧ -∗ W f' -∗ X EUser s)) -∗
    wp (insert_back_2 px (b +ₗ p) (b +ₗ (p + m)) k (m - k) (Z.of_nat (length vs))) s Q X.
  Proof.
    intros Hpx Hk Hp Hm Hl Hn. iIntros "Hw HK". unfold insert_back_2. wbeta. rewrite ?loc_add_assoc.
    repeat bstep. bfinish.
  Qed.
End branches.
