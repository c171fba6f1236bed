(** * Filling a range with copies of an object inside the container *)

From Coq Require Import ZifyBool.
From Verif Require Export FlatExact CompactAssign.
From iris.proofmode Require Import environments tactics.
Open Scope Z_scope.
Notation fill := Algo.fill.

(** ** Contiguous storage *)
Section contiguous.
  Context `{E : Env}.

  Lemma wp_assign_loop_own {St} f l (i j m : nat) v (s : St) Q X :
    l !! i = Some v -> (j + m <= length l)%nat ->
    elems f l ⊢
    ((elems f (take j l ++ replicate m v ++ drop (j + m) l) -∗ Q (f +ₗ Z.of_nat (j + m)) s) ∧
     (∀ l', ⟦length l' = length l⟧ -∗ elems f l' -∗ X EUser s)) -∗
    wp (assign_loop (f +ₗ Z.of_nat j) (replicate m (ACopy (f +ₗ Z.of_nat i)))) s Q X.
  Proof.
    induction m as [|m IH] in l, j |- *; intros Hi Hm; simpl.
    - iIntros "Hl HK". iApply wp_ret. iDestruct "HK" as "[HK _]".
      replace (j + 0)%nat with j by lia. rewrite take_drop. by iApply "HK".
    - iIntros "Hl HK". wbind.
      destruct (lookup_lt_is_Some_2 l j) as [x Hx]; [lia|].
      assert (<[j := v]> l !! i = Some v) as Hi'.
      { destruct (decide (i = j)) as [->|Hne].
        - rewrite list_lookup_insert; [done|lia].
        - by rewrite list_lookup_insert_ne. }
      iApply (wp_assign_in f l j x (ACopy (f +ₗ Z.of_nat i)) v with "Hl"); [done|by constructor|by intros []|]. iSplit.
      + iIntros "Hl". rewrite loc_add_assoc. replace (Z.of_nat j + 1) with (Z.of_nat (S j)) by lia.
        iApply (IH with "Hl"); [done|rewrite insert_length; lia|]. iSplit.
        * iIntros "Hl". iDestruct "HK" as "[HK _]". replace (S j + m)%nat with (j + S m)%nat by lia.
          iApply "HK". iApply (elems_eq with "Hl"); [done|].
          rewrite drop_insert_gt; [|lia]. 
          rewrite (take_S_r _ _ v); [|rewrite list_lookup_insert; [done|lia]].
          rewrite take_insert; [|lia]. by rewrite -app_assoc.
        * iIntros (l') "%Hl' Hl". iDestruct "HK" as "[_ HK]". rewrite insert_length in Hl'. by iApply ("HK" with "[%//]").
      + iIntros (c) "Hl". iDestruct "HK" as "[_ HK]". iApply ("HK" with "[%] Hl"). by rewrite insert_length.
  Qed.

  Lemma wp_fill_own {St} f l (i k : nat) v (s : St) q Q X :
    l !! i = Some v -> (k <= length l)%nat -> q = f +ₗ Z.of_nat k ->
    elems f l ⊢
    ((elems f (replicate k v ++ drop k l) -∗ Q tt s) ∧
     (∀ l', ⟦length l' = length l⟧ -∗ elems f l' -∗ X EUser s)) -∗
    wp (fill f q (ACopy (f +ₗ Z.of_nat i))) s Q X.
  Proof.
    iIntros (Hi Hk ->) "Hl HK". unfold Algo.fill. wbind. iApply wp_range_len; [done|simpl; lia|]. simpl. wbeta.
    replace (Z.to_nat _) with k by lia. wbind.
    iPoseProof (wp_assign_loop_own f l i 0 k v s) as "H"; [done|lia|].
    change (Z.of_nat 0) with 0. rewrite loc_add_0. iApply ("H" with "Hl"). iClear "H". iSplit.
    - iIntros "Hl". wbeta. iApply wp_ret. iDestruct "HK" as "[HK _]". by iApply "HK".
    - iDestruct "HK" as "[_ HK]". done.
  Qed.

  (** v 1430-1471, s 1836-1877, t 191-232 [assign_fill_n] without reallocation. *)
  Lemma wp_assign_fill_inplace_own a f l cap n (i : nat) v Q X :
    l !! i = Some v -> Z.of_nat n <= cap ->
    body f l cap ⊢
    ((body f (replicate n v) cap -∗ Q tt (vobj a f n cap)) ∧
     (∀ l', ⟦length l' = length l⟧ -∗ body f l' cap -∗ X EUser (vobj a f (length l) cap))) -∗
    wp (assign_fill_inplace (Z.of_nat n) (ACopy (f +ₗ Z.of_nat i))) (vobj a f (length l) cap) Q X.
  Proof.
    iIntros (Hi Hn) "(%Hc & Hl & Hr) HK". pose proof (lookup_lt_Some _ _ _ Hi) as Hlt.
    unfold assign_fill_inplace. wbind. iApply wp_get. wbeta. wbind.
    iApply wp_size. wbeta. simpl. destruct (Z.leb_spec (Z.of_nat n) (Z.of_nat (length l))).
    - wbind. wbind.
      iApply (wp_fill_own f l i n v with "Hl"); [done|lia|done|]. iSplit; last first.
      { iIntros (l') "%Hl' Hl". iDestruct "HK" as "[_ HK]".
        iApply ("HK" $! l'); [iPureIntro; nlia|].
        iApply (body_intro with "Hl Hr"); [loc_solve|nlia|nlia]. }
      iIntros "Hl". wbeta.
      iDestruct (elems_split _ _ (replicate n v) (drop n l) (f +ₗ Z.of_nat n) with "Hl") as "[H1 H2]";
        [done|loc_solve|].
      iApply (wp_destroy_a with "H2"); [loc_solve|]. iIntros "H2".
      iApply (wp_set_last _ _ _ n); [done|]. iDestruct "HK" as "[HK _]". iApply "HK".
      iDestruct (raws_join with "H2 Hr") as "Hr"; [loc_solve|done|].
      iApply (body_intro with "H1 Hr"); [loc_solve|nlia|nlia].
    - wbind. wbind.
      iApply (wp_fill_own f l i (length l) v with "Hl"); [done|lia|loc_solve|]. iSplit; last first.
      { iIntros (l') "%Hl' Hl". iDestruct "HK" as "[_ HK]".
        iApply ("HK" $! l'); [iPureIntro; nlia|].
        iApply (body_intro with "Hl Hr"); [loc_solve|nlia|nlia]. }
      rewrite drop_all app_nil_r. iIntros "Hl". wbeta.
      iDestruct (raws_split _ _ (n - length l) (Z.to_nat cap - n) with "Hr") as "[Hr1 Hr]"; [lia|done|].
      iApply (wp_ufill _ _ v with "Hl Hr1"); [apply mk_ok_copy; apply lookup_replicate; done|loc_solve|]. iSplit; last first.
      { iIntros "Hl Hr1". iDestruct "HK" as "[_ HK]".
        iDestruct (raws_join with "Hr1 Hr") as "Hr"; [done|done|].
        iApply ("HK" $! (replicate (length l) v)); [iPureIntro; nlia|].
        iApply (body_intro with "Hl Hr"); [loc_solve|nlia|nlia]. }
      iIntros "Hl Hn". iApply (wp_set_last _ _ _ n); [done|]. iDestruct "HK" as "[HK _]". iApply "HK".
      iDestruct (elems_join _ (replicate n v) with "Hl Hn") as "Hl";
        [loc_solve|rewrite -replicate_add; f_equal; lia|].
      iApply (body_intro with "Hl Hr"); [loc_solve|nlia|nlia].
  Qed.
End contiguous.
