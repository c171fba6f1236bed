(** * sfl::devector: the branches of insert_aux_shift_to_front *)

From Verif Require Export DevShift.
From Coq Require Import ZifyBool.
From iris.proofmode Require Import environments tactics.
Open Scope Z_scope.

Section branches.
  Context `{E : Env}.
  Context {St : Type}.
  Implicit Types s : St.
  Variables (b : loc) (cap : Z).
  Notation W := (win (loc_add b) 0 cap).

  (** [insert_aux_shift_to_front] up to the final assignments to [first_] and
      [last_]. *)
  Lemma wp_shift_front_body fixed px vs p m k q f s Q X :
    let n := Z.of_nat (length vs) in
    px_at px 0 vs -> 0 <= k <= m -> 0 <= p -> p + m <= cap -> 0 <= q -> q + n + m <= cap -> q <= p ->
    (forall i, live f i = within p (p + m) i) ->
    (fixed = false -> p < q + k -> q + n <= p -> p + k < q + n + m -> False) ->
    W f ⊢
    ((∀ f', ⟦spread p m q k vs f f'⟧ -∗ W f' -∗ Q tt s) ∧
     (∀ f', ⟦shaken f f'⟧ -∗ W f' -∗ X EUser s)) -∗
    wp (shift_front_body fixed px n (b +ₗ p) (b +ₗ (p + k)) (b +ₗ (p + m))
          (b +ₗ q) (b +ₗ (q + k)) (b +ₗ (q + k + n)) (b +ₗ (q + k + n + (m - k)))) s Q X.
  Proof.
    intros n Hpx Hk Hp Hm Hq Hqm Hqn Hl Hfix. iIntros "Hw HK". unfold shift_front_body.
    do 2 bstep. destruct (Z.leb_spec 0 (p - (q + k))) as [H20|H20].
    - do 2 bstep. destruct (Z.leb_spec 0 (p - (q + k + n))) as [H30|H30].
      + do 2 bstep. destruct (Z.leb_spec 0 (p - (q + k + n + (m - k)))) as [H40|H40].
        { unfold front_1. wbeta. repeat bstep. bfinish. }
        do 2 bstep. destruct (Z.leb_spec 0 (p + k - (q + k + n + (m - k)))) as [H41|H41].
        { unfold front_2. wbeta. repeat bstep. bfinish. }
        do 2 bstep. destruct (Z.leb_spec 0 (p + m - (q + k + n + (m - k)))) as [H42|H42]; [|lia].
        unfold front_2. wbeta. repeat bstep. bfinish.
      + do 2 bstep. destruct (Z.leb_spec 0 (p + k - (q + k + n))) as [H31|H31].
        * do 2 bstep. destruct (Z.leb_spec 0 (p + k - (q + k + n + (m - k)))) as [H41|H41].
          { unfold front_3. wbeta. repeat bstep. bfinish. }
          do 2 bstep. destruct (Z.leb_spec 0 (p + m - (q + k + n + (m - k)))) as [H42|H42]; [|lia].
          unfold front_3. wbeta. repeat bstep. bfinish.
        * do 2 bstep. destruct (Z.leb_spec 0 (p + m - (q + k + n))) as [H32|H32].
          { unfold front_4. wbeta. repeat bstep. bfinish. }
          unfold front_5. wbeta. repeat bstep. bfinish.
    - do 2 bstep. destruct (Z.leb_spec 0 (p + k - (q + k + n))) as [H31|H31].
      + do 2 bstep. destruct (Z.leb_spec 0 (p + k - (q + k + n + (m - k)))) as [H41|H41].
        { unfold front_6. wbeta. repeat bstep. bfinish. }
        do 2 bstep. destruct (Z.leb_spec 0 (p + m - (q + k + n + (m - k)))) as [H42|H42]; [|lia].
        destruct fixed; [|lia]. unfold front_6. wbeta. repeat bstep. bfinish.
      + do 2 bstep. destruct (Z.leb_spec 0 (p + m - (q + k + n))) as [H32|H32].
        { unfold front_7. wbeta. repeat bstep. bfinish. }
        unfold front_8. wbeta. repeat bstep. bfinish.
  Qed.
End branches.
