(** * sfl::devector: the branches of insert_aux_shift_to_back *)

From Verif Require Export DevShift.
From Coq Require Import ZifyBool.
From iris.proofmode Require Import environments tactics.
Open Scope Z_scope.

Section branches.
  Context `{E : Env}.
  Context {St : Type}.
  Implicit Types s : St.
  Variables (b : loc) (cap : Z).
  Notation W := (win (loc_add b) 0 cap).

  (** [insert_aux_shift_to_back] up to the final assignments to [first_] and
      [last_]. *)
  Lemma wp_shift_back_body fixed px vs p m k q f s Q X :
    let n := Z.of_nat (length vs) in
    px_at px 0 vs -> 0 <= k <= m -> 0 <= p -> p + m <= cap -> 0 <= q -> q + n + m <= cap -> p <= q + n ->
    (forall i, live f i = within p (p + m) i) ->
    (fixed = false -> p + m <= q + k + n -> p <= q + k -> q < p -> False) ->
    W f ⊢
    ((∀ f', ⟦spread p m q k vs f f'⟧ -∗ W f' -∗ Q tt s) ∧
     (∀ f', ⟦shaken f f'⟧ -∗ W f' -∗ X EUser s)) -∗
    wp (shift_back_body fixed px n (b +ₗ p) (b +ₗ (p + k)) (b +ₗ (p + m))
          (b +ₗ q) (b +ₗ (q + k)) (b +ₗ (q + k + n)) (b +ₗ (q + k + n + (m - k)))) s Q X.
  Proof.
    intros n Hpx Hk Hp Hm Hq Hqm Hqn Hl Hfix. iIntros "Hw HK". unfold shift_back_body.
    do 2 bstep. destruct (Z.leb_spec 0 (q + k + n - (p + m))) as [H30|H30].
    - do 2 bstep. destruct (Z.leb_spec 0 (q + k - (p + m))) as [H20|H20].
      + do 2 bstep. destruct (Z.leb_spec 0 (q - (p + m))) as [H10|H10].
        { unfold back_1. wbeta. repeat bstep. bfinish. }
        do 2 bstep. destruct (Z.leb_spec 0 (q - (p + k))) as [H11|H11].
        { unfold back_2. wbeta. repeat bstep. bfinish. }
        do 2 bstep. destruct (Z.leb_spec 0 (q - p)) as [H12|H12]; [|lia].
        unfold back_3. wbeta. repeat bstep. bfinish.
      + do 2 bstep. destruct (Z.leb_spec 0 (q + k - (p + k))) as [H21|H21].
        * do 2 bstep. destruct (Z.leb_spec 0 (q - (p + k))) as [H11|H11].
          { unfold back_4. wbeta. repeat bstep. bfinish. }
          do 2 bstep. destruct (Z.leb_spec 0 (q - p)) as [H12|H12]; [|lia].
          unfold back_5. wbeta. repeat bstep. bfinish.
        * do 2 bstep. destruct (Z.leb_spec 0 (q + k - p)) as [H22|H22].
          { destruct fixed; [|lia]. unfold back_6. wbeta. repeat bstep. bfinish. }
          unfold back_7. wbeta. repeat bstep. bfinish.
    - do 2 bstep. destruct (Z.leb_spec 0 (q + k - (p + k))) as [H21|H21].
      + do 2 bstep. destruct (Z.leb_spec 0 (q - (p + k))) as [H11|H11].
        { unfold back_8. wbeta. repeat bstep. bfinish. }
        do 2 bstep. destruct (Z.leb_spec 0 (q - p)) as [H12|H12]; [|lia].
        unfold back_9. wbeta. repeat bstep. bfinish.
      + do 2 bstep. destruct (Z.leb_spec 0 (q + k - p)) as [H22|H22].
        { unfold back_10. wbeta. repeat bstep. bfinish. }
        unfold back_11. wbeta. repeat bstep. bfinish.
  Qed.
End branches.
