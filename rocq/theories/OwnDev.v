(** * devector: [assign(n, value)] with an element of the container, enough storage *)

From Coq Require Import ZifyBool.
From Verif Require Export OwnFill OwnRun DevThms DevAssign.
From iris.proofmode Require Import environments tactics.
Open Scope Z_scope.
Notation fill := Algo.fill.

Section devector.
  Context `{E : Env}.

  Lemma wp_fill_elems_own a b p l cap (i : nat) v (s : ddata) q1 q2 (k : nat) Q X :
    l !! i = Some v -> (k <= length l)%nat -> q1 = b +ₗ p -> q2 = b +ₗ (p + Z.of_nat k) ->
    dev_at a b p l cap ⊢
    ((dev_at a b p (replicate k v ++ drop k l) cap -∗ Q tt s) ∧
     (∀ l', ⟦length l' = length l⟧ -∗ dev_at a b p l' cap -∗ X EUser s)) -∗
    wp (fill q1 q2 (ACopy ((b +ₗ p) +ₗ Z.of_nat i))) s Q X.
  Proof.
    iIntros (Hi Hk -> ->) "Hd HK". iDestruct (dev_at_open with "Hd") as "[Hl Hd]".
    iApply (wp_fill_own (b +ₗ p) l i k v with "Hl"); [done|done|by rewrite loc_add_assoc|]. iSplit.
    - iIntros "Hl". iDestruct "HK" as "[HK _]". iApply "HK". iApply ("Hd" with "[%] Hl"). len. lia.
    - iIntros (l') "%Hx Hl". iDestruct "HK" as "[_ HK]". iApply ("HK" with "[%//]"). by iApply ("Hd" with "[%] Hl").
  Qed.

  (** 1720-1831 [assign_fill_n], enough storage. *)
  Lemma wp_dv_assign_fill_own a b p l cap (i : nat) v (n : nat) Q X :
    l !! i = Some v -> Z.of_nat n <= cap ->
    dev_at a b p l cap ⊢
    ((∀ b' p' cap', ⟦assign_to n p cap b b' p' cap'⟧ -∗
       dev_at a b' p' (replicate n v) cap' -∗ Q tt (dobj a b' p' (Z.of_nat n) cap')) ∧
     (∀ l', dev_at a b p l' cap -∗ X EUser (dobj a b p (zlen l') cap))) -∗
    wp (dv_assign_fill (Z.of_nat n) (ACopy ((b +ₗ p) +ₗ Z.of_nat i))) (dobj a b p (zlen l) cap) Q X.
  Proof.
    iIntros (Hi Hcap) "Hd HK". iDestruct (dev_at_len with "Hd") as "[%Hlen Hd]".
    pose proof (lookup_lt_Some _ _ _ Hi) as Hlt.
    set (x := ACopy ((b +ₗ p) +ₗ Z.of_nat i)).
    assert (forall k, (length l <= k)%nat -> arg_rel (b +ₗ p) (replicate k v) x v (replicate k v)) as Hfree.
    { intros k Hk. constructor. apply lookup_replicate. split; [done|lia]. }
    assert (~ is_move x) as Hm by (intros []).
    unfold dv_assign_fill. wbind. iApply wp_dv_size. wbeta. wbind. iApply wp_get. wbeta. dred.
    destruct (Z.leb_spec (Z.of_nat n) (zlen l)) as [Hc|Hc].
    { wbind. rewrite loc_add_assoc.
      iApply (wp_fill_elems_own a b p l cap i v _ _ _ n with "Hd"); [done|lia|done|done|]. iSplit; last first.
      { iIntros (l') "%Hl' Hd". iDestruct "HK" as "[_ HK]". rewrite -Hl'. by iApply "HK". }
      iIntros "Hd". wbind. iDestruct (dev_at_cut _ _ _ _ _ n with "Hd") as "[Hl Hd]"; [len; lia|].
      rewrite take_app_alt; [|len; lia]. rewrite drop_app_alt; [|len; lia].
      iApply (wp_destroy_a with "Hl"); [rewrite loc_add_assoc; f_equal; len; lia|]. iIntros "Hl".
      iApply (wp_set_last _ _ _ _ _ _ (Z.of_nat n)); [done|]. iDestruct "HK" as "[HK _]".
      iApply ("HK" with "[%]"). { unfold assign_to. rewrite (proj2 (Z.leb_le _ _)); [done|lia]. }
      by iApply "Hd". }
    wbind. iApply wp_dv_back_room. wbeta.
    destruct (Z.leb_spec (Z.of_nat n) (zlen l + (cap - p - zlen l))) as [Hc2|Hc2].
    { wbind. iApply (wp_fill_elems_own a b p l cap i v _ _ _ (length l) with "Hd"); [done|lia|done|done|]. iSplit; last first.
      { iIntros (l') "%Hl' Hd". iDestruct "HK" as "[_ HK]". rewrite -Hl'. by iApply "HK". }
      rewrite drop_all app_nil_r. set (l1 := replicate (length l) v).
      assert (length l1 = length l) as Hl1 by (unfold l1; len; lia). rewrite -Hl1. iIntros "Hd". wbind.
      iApply (wp_fill_back with "Hd"); [apply Hfree; lia|done|lia|done|]. iSplit; last first.
      { iIntros "Hd". iDestruct "HK" as "[_ HK]". by iApply "HK". }
      iIntros "Hd". wbeta. iApply (wp_set_last _ _ _ _ _ _ (Z.of_nat n)); [f_equal; len; lia|].
      iDestruct "HK" as "[HK _]". iApply ("HK" with "[%]").
      { unfold assign_to. rewrite (proj2 (Z.leb_le _ _)); [done|lia]. }
      replace (replicate n v) with (l1 ++ replicate (Z.to_nat (Z.of_nat n - zlen l1)) v); [done|].
      unfold l1. rewrite replicate_length -replicate_add. f_equal. lia. }
    wbind. iApply wp_dv_front_room. wbeta.
    destruct (Z.leb_spec (Z.of_nat n) (p + zlen l + (cap - p - zlen l))) as [Hc3|Hc3].
    { wbind. iApply (wp_fill_elems_own a b p l cap i v _ _ _ (length l) with "Hd"); [done|lia|done|done|]. iSplit; last first.
      { iIntros (l') "%Hl' Hd". iDestruct "HK" as "[_ HK]". rewrite -Hl'. by iApply "HK". }
      rewrite drop_all app_nil_r. set (l1 := replicate (length l) v).
      assert (length l1 = length l) as Hl1 by (unfold l1; len; lia). rewrite -Hl1. iIntros "Hd". wbind.
      iApply (wp_ufill_back a b p l1 cap _ v (Z.to_nat (cap - p - zlen l1)) with "Hd");
        [apply Hfree; lia|done|lia|done|rewrite loc_add_assoc; f_equal; lia|]. iSplit; last first.
      { iIntros "Hd". iDestruct "HK" as "[_ HK]". by iApply "HK". }
      iIntros "Hd". wbind. set (l2 := replicate (Z.to_nat (cap - p - zlen l1)) v).
      assert (zlen l2 = cap - p - zlen l1) as Hl2 by (unfold l2; len; lia).
      iApply (wp_set_last _ _ _ _ _ _ (zlen (l1 ++ l2))); [f_equal; len; lia|]. wbind. rewrite loc_add_assoc.
      set (k := Z.to_nat (Z.of_nat n - (cap - p))).
      iApply (wp_fill_front a b p l1 l2 cap _ v k with "Hd"); [apply Hfree; lia|done|lia|f_equal; lia|done|].
      iSplit; last first.
      { iIntros "Hd". iDestruct "HK" as "[_ HK]". by iApply "HK". }
      iIntros "Hd". iApply (wp_set_first _ _ _ _ _ _ (cap - Z.of_nat n) (Z.of_nat n)); [f_equal; lia|len; lia|].
      iDestruct "HK" as "[HK _]". iApply ("HK" with "[%]").
      { unfold assign_to. rewrite (proj2 (Z.leb_gt _ _)); [|lia]. rewrite (proj2 (Z.leb_le _ _)); [done|lia]. }
      replace (p - Z.of_nat k) with (cap - Z.of_nat n) by lia.
      replace (replicate n v) with (replicate k v ++ l1 ++ l2); [done|].
      unfold l1, l2. rewrite -!replicate_add. f_equal. lia. }
    lia.
  Qed.
End devector.

Section calls.
  Context `{E : Env}.

  (** devector.hpp 1720-1831 [assign_fill_n], [value] a reference to element [i]:
      [c.assign(n, c[i])]. *)
  Definition dev_assign_own (n i : nat) : M ddata rval :=
    (o <- getS;; d_unit (dv_assign_fill (Z.of_nat n) (d_arg o (XCopy i))))%prog.

  Lemma dev_assign_own_ok n i v x A w hf :
    holds is_dev x A w hf -> e_elems A !! i = Some v -> Z.of_nat n <= e_cap A ->
    match dev_assign_own n i x w with
    | Ok r x' w' => exists A',
        (r = RUnit /\ A' = DAbs (e_alloc A) (e_bos A) (Z.min (e_front A) (e_cap A - Z.of_nat n)) (replicate n v) (e_cap A)) /\
        holds is_dev x' A' w' hf /\ quiet w w'
    | Exn e x' w' => exists A',
        (e = EUser /\ exists l', A' = DAbs (e_alloc A) (e_bos A) (e_front A) l' (e_cap A)) /\
        holds is_dev x' A' w' hf /\ reason e w w'
    | UB => False
    end.
  Proof.
    intros Hx Hi Hn. apply (state_run is_dev dinv is_dev_iff (dev_assign_own n i) x A w hf _ _ Hx).
    iIntros "Hv". iDestruct (dinv_open with "Hv") as (a b p l cap) "[%HA Hv]". destruct HA as [-> ->].
    cbn [e_alloc e_bos e_front e_elems e_cap] in *. iDestruct (dev_at_len with "Hv") as "[%Hlen Hv]".
    unfold dev_assign_own. wbind. iApply wp_get. wbeta. cbn [d_arg d_first dobj]. unfold d_unit. wbind.
    iApply (wp_dv_assign_fill_own a b p l cap i v n with "Hv"); [done|done|]. iSplit.
    - iIntros (b' p' cap') "%Hto Hv". wbeta. iApply wp_ret. iExists _. iSplit; [done|].
      assert (b' = b /\ p' = Z.min p (cap - Z.of_nat n) /\ cap' = cap) as (-> & -> & ->).
      { unfold assign_to in Hto. destruct (Z.leb_spec (Z.of_nat n) (cap - p)); [naive_solver lia|].
        destruct (Z.leb_spec (Z.of_nat n) cap); [naive_solver lia|lia]. }
      iApply (dinv_intro with "Hv"). by rewrite replicate_length.
    - iIntros (l') "Hv". iExists _. iSplit; [iPureIntro; split; [done|]; by exists l'|]. by iApply (dinv_intro with "Hv").
  Qed.
  Definition dev_case_ub := @case_ub E (devector false) (devector_spec false) (devector_ok false) is_dev (dev_iff false) dev_view dev_view_ok.
End calls.
