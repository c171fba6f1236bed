(** * Specifications of std algorithms, erase_if and the comparison operators *)

From Verif Require Export Vector Ops.
From iris.proofmode Require Import tactics.
Open Scope Z_scope.

(** Lexicographic order by a comparison [lt]: at the first position where the
    two lists are not equivalent the element of the first is smaller, or there
    is no such position and the first list is shorter. *)
Definition equivs {A} (lt : A -> A -> bool) (l1 l2 : list A) (k : nat) : Prop :=
  forall j x y, (j < k)%nat -> l1 !! j = Some x -> l2 !! j = Some y ->
    lt x y = false /\ lt y x = false.
Definition lex_less {A} (lt : A -> A -> bool) (l1 l2 : list A) : Prop :=
  (exists k x y, l1 !! k = Some x /\ l2 !! k = Some y /\ lt x y = true /\ equivs lt l1 l2 k) \/
  ((length l1 < length l2)%nat /\ equivs lt l1 l2 (length l1)).

Lemma equivs_S {A} (lt : A -> A -> bool) x y l1 l2 k :
  lt x y = false -> lt y x = false -> equivs lt l1 l2 k -> equivs lt (x :: l1) (y :: l2) (S k).
Proof.
  intros H1 H2 H [|j] x' y' Hj; simpl; [by intros [= <-] [= <-]|]. apply H. lia.
Qed.
Lemma equivs_inv {A} (lt : A -> A -> bool) x y l1 l2 k :
  equivs lt (x :: l1) (y :: l2) (S k) -> lt x y = false /\ lt y x = false /\ equivs lt l1 l2 k.
Proof.
  intros H. destruct (H 0%nat x y) as [? ?]; [lia|done|done|]. split_and!; try done.
  intros j x' y' Hj. apply (H (S j)). lia.
Qed.
Lemma lex_less_cons {A} (lt : A -> A -> bool) x y l1 l2 :
  lex_less lt (x :: l1) (y :: l2) <->
  (lt x y = true \/ (lt x y = false /\ lt y x = false /\ lex_less lt l1 l2)).
Proof.
  unfold lex_less. split.
  - intros [([|k] & x' & y' & H1 & H2 & H3 & H4)|[H1 H2]].
    + simpl in *. left. by simplify_eq.
    + right. apply equivs_inv in H4 as (? & ? & ?). split_and!; try done. left. by exists k, x', y'.
    + right. simpl in *. apply equivs_inv in H2 as (? & ? & ?). split_and!; try done. right.
      split; [lia|done].
  - intros [H|(H1 & H2 & [(k & x' & y' & ? & ? & ? & ?)|[? ?]])].
    + left. exists 0%nat, x, y. split_and!; try done. intros j ? ? ?. lia.
    + left. exists (S k), x', y'. split_and!; try done. by apply equivs_S.
    + right. simpl. split; [lia|]. by apply equivs_S.
Qed.

Section algos.
  Context `{E : Env}.
  Context {St : Type}.
  Implicit Types s : St.

  Lemma wp_test p x v s Q X :
    x ↦ Live v ⊢ ((x ↦ Live v -∗ Q (p v) s) ∧ (x ↦ Live v -∗ X EUser s)) -∗ wp (test_ p x) s Q X.
  Proof.
    iIntros "Hx HK". unfold test_. wbind. iApply (wp_read with "Hx"). iIntros "Hx". wbind.
    iApply wp_step; [done|]. iSplit.
    - iApply wp_ret. iDestruct "HK" as "[HK _]". by iApply "HK".
    - iDestruct "HK" as "[_ HK]". by iApply "HK".
  Qed.
  Lemma wp_test2 r x y v w s Q X :
    x ↦ Live v ⊢ y ↦ Live w -∗
    ((x ↦ Live v -∗ y ↦ Live w -∗ Q (r v w) s) ∧ (x ↦ Live v -∗ y ↦ Live w -∗ X EUser s)) -∗
    wp (test2_ r x y) s Q X.
  Proof.
    iIntros "Hx Hy HK". unfold test2_. wbind. iApply (wp_read with "Hx"). iIntros "Hx". wbind.
    iApply (wp_read with "Hy"). iIntros "Hy". wbind.
    iApply wp_step; [done|]. iSplit.
    - iApply wp_ret. iDestruct "HK" as "[HK _]". by iApply ("HK" with "Hx Hy").
    - iDestruct "HK" as "[_ HK]". by iApply ("HK" with "Hx Hy").
  Qed.

  Fixpoint first_match (p : V -> bool) (l : list V) : nat :=
    match l with
    | [] => O
    | v :: l' => if p v then O else S (first_match p l')
    end.

  Lemma wp_find_if p x l s Q X :
    elems x l ⊢
    ((elems x l -∗ Q (first_match p l) s) ∧ (elems x l -∗ X EUser s)) -∗
    wp (find_if_ p x (length l)) s Q X.
  Proof.
    revert x Q X. induction l as [|v l IH]; intros x Q X; simpl.
    - iIntros "Hl HK". iApply wp_ret. iDestruct "HK" as "[HK _]". by iApply "HK".
    - iIntros "Hl HK". rewrite elems_cons. iDestruct "Hl" as "[Hx Hl]". wbind.
      iApply (wp_test with "Hx"). iSplit.
      + iIntros "Hx". destruct (p v).
        * iApply wp_ret. iDestruct "HK" as "[HK _]". iApply "HK". iFrame.
        * wbind. iApply (IH with "Hl"). iSplit.
          -- iIntros "Hl". iApply wp_ret. iDestruct "HK" as "[HK _]". iApply "HK". iFrame.
          -- iIntros "Hl". iDestruct "HK" as "[_ HK]". iApply "HK". iFrame.
      + iIntros "Hx". iDestruct "HK" as "[_ HK]". iApply "HK". iFrame.
  Qed.

  Definition keep (p : V -> bool) (l : list V) : list V := List.filter (fun v => negb (p v)) l.

  Lemma first_match_split p l :
    match drop (first_match p l) l with
    | [] => keep p l = l /\ first_match p l = length l
    | v :: l' => p v = true /\ keep p l = take (first_match p l) l ++ keep p l' /\
                 (first_match p l < length l)%nat
    end.
  Proof.
    induction l as [|v l IH]; simpl; [done|]. unfold keep in *. simpl.
    destruct (p v) eqn:Hp; simpl.
    - split_and!; [done|done|lia].
    - destruct (drop (first_match p l) l) as [|v' l'].
      + destruct IH as [-> ->]. done.
      + destruct IH as (? & -> & ?). split_and!; [done|done|lia].
  Qed.

  Lemma wp_remove_loop p f A J R s Q X :
    (0 < length J)%nat ->
    elems f (A ++ J ++ R) ⊢
    ((∀ J', ⟦length J' = (length J + length R - length (keep p R))%nat⟧ -∗
        elems f (A ++ keep p R ++ J') -∗ Q (f +ₗ Z.of_nat (length A + length (keep p R))) s) ∧
     (∀ l', ⟦length l' = (length A + length J + length R)%nat⟧ -∗ elems f l' -∗ X EUser s)) -∗
    wp (remove_loop_ p (f +ₗ Z.of_nat (length A)) (f +ₗ Z.of_nat (length A + length J))
          (length R)) s Q X.
  Proof.
    revert A J Q X. induction R as [|v R IH]; intros A J Q X HJ; simpl.
    - iIntros "Hl HK". iApply wp_ret. iDestruct "HK" as "[HK _]".
      iSpecialize ("HK" $! J with "[] [Hl]"); [iPureIntro; simpl; lia|by rewrite app_nil_r|].
      by rewrite Nat.add_0_r.
    - iIntros "Hl HK". wbind.
      destruct J as [|j J]; [simpl in HJ; lia|].
      iDestruct (elems_split _ _ A (j :: (J ++ v :: R)) with "Hl") as "[HA Hl]"; [done|done|].
      rewrite elems_cons. iDestruct "Hl" as "[Hd Hl]".
      iDestruct (elems_split _ _ J (v :: R) (f +ₗ Z.of_nat (length A + length (j :: J))) with "Hl")
        as "[HJ Hl]"; [done|loc_solve|].
      rewrite elems_cons. iDestruct "Hl" as "[Hx HR]".
      iApply (wp_test with "Hx"). iSplit; last first.
      { iIntros "Hx". iDestruct "HK" as "[_ HK]". iApply ("HK" $! (A ++ j :: J ++ v :: R)).
        { iPureIntro. rewrite !app_length /= !app_length /=. lia. }
        iDestruct (elems_cons_join _ _ R with "Hx HR") as "Hx"; [done|done|].
        iDestruct (elems_join _ _ J with "HJ Hx") as "HJ"; [loc_solve|done|].
        iDestruct (elems_cons_join _ _ _ with "Hd HJ") as "HJ"; [done|done|].
        iApply (elems_join with "HA HJ"); [done|done]. }
      iIntros "Hx". unfold keep. simpl. destruct (p v) eqn:Hp; simpl.
      + iDestruct (elems_cons_join _ _ R with "Hx HR") as "Hx"; [done|done|].
        iDestruct (elems_join _ _ J with "HJ Hx") as "HJ"; [loc_solve|done|].
        iDestruct (elems_cons_join _ _ _ with "Hd HJ") as "HJ"; [done|done|].
        iDestruct (elems_join _ (A ++ ((j :: J) ++ [v]) ++ R) with "HA HJ") as "Hl"; [done|by simplify_list_eq|].
        replace (f +ₗ Z.of_nat (length A + S (length J)) +ₗ 1)
          with (f +ₗ Z.of_nat (length A + length ((j :: J) ++ [v])))
          by (rewrite app_length /=; loc_solve).
        iApply (IH A ((j :: J) ++ [v]) with "Hl"); [rewrite app_length /=; lia|].
        iSplit.
        * iIntros (J') "%HJ' Hl". iDestruct "HK" as "[HK _]".
          iApply ("HK" with "[] Hl"). iPureIntro. rewrite HJ' app_length /=. unfold keep. lia.
        * iIntros (l') "%Hl' Hl". iDestruct "HK" as "[_ HK]".
          iApply ("HK" with "[] Hl"). iPureIntro. rewrite Hl' app_length /=. lia.
      + wbind. iApply (as_ok_move1 _ v with "Hx Hd"). iSplit.
        * iIntros "Hx Hd".
          iDestruct (elems_cons_join _ _ R with "Hx HR") as "Hx"; [done|done|].
          iDestruct (elems_join _ _ J with "HJ Hx") as "HJ"; [loc_solve|done|].
          iDestruct (elems_cons_join _ _ _ with "Hd HJ") as "HJ"; [done|done|].
          iDestruct (elems_join _ ((A ++ [v]) ++ (J ++ [vmoved v]) ++ R) with "HA HJ") as "Hl";
            [done|by simplify_list_eq|].
          replace (f +ₗ Z.of_nat (length A + S (length J)) +ₗ 1)
            with (f +ₗ Z.of_nat (length (A ++ [v]) + length (J ++ [vmoved v])))
            by (rewrite !app_length /=; loc_solve).
          replace (f +ₗ Z.of_nat (length A) +ₗ 1) with (f +ₗ Z.of_nat (length (A ++ [v])))
            by (rewrite !app_length /=; loc_solve).
          iApply (IH (A ++ [v]) (J ++ [vmoved v]) with "Hl"); [rewrite app_length /=; lia|].
          iSplit.
          -- iIntros (J') "%HJ' Hl". iDestruct "HK" as "[HK _]".
             iSpecialize ("HK" $! J' with "[] [Hl]").
             { iPureIntro. rewrite HJ' app_length /=. unfold keep. lia. }
             { by simplify_list_eq. }
             rewrite app_length /=. unfold keep.
             replace (length A + 1 + length (List.filter (fun v => negb (p v)) R))%nat
               with (length A + S (length (List.filter (fun v => negb (p v)) R)))%nat by lia.
             done.
          -- iIntros (l') "%Hl' Hl". iDestruct "HK" as "[_ HK]".
             iApply ("HK" with "[] Hl"). iPureIntro. rewrite Hl' !app_length /=. lia.
        * iIntros (c') "Hx Hd". iDestruct "Hx" as (v') "Hx".
          iDestruct "HK" as "[_ HK]". iApply ("HK" $! (A ++ c' :: J ++ v' :: R)).
          { iPureIntro. rewrite !app_length /= !app_length /=. lia. }
          iDestruct (elems_cons_join _ _ R with "Hx HR") as "Hx"; [done|done|].
          iDestruct (elems_join _ _ J with "HJ Hx") as "HJ"; [loc_solve|done|].
          iDestruct (elems_cons_join _ _ _ with "Hd HJ") as "HJ"; [done|done|].
          iApply (elems_join with "HA HJ"); [done|done].
  Qed.

  Lemma keep_length p l : (length (keep p l) <= length l)%nat.
  Proof. unfold keep. induction l as [|v l IH]; simpl; [lia|]. destruct (p v); simpl; lia. Qed.

  Lemma wp_remove_if p f q l s Q X :
    q = f +ₗ Z.of_nat (length l) ->
    elems f l ⊢
    ((∀ J', ⟦length J' = (length l - length (keep p l))%nat⟧ -∗
        elems f (keep p l ++ J') -∗ Q (f +ₗ Z.of_nat (length (keep p l))) s) ∧
     (∀ l', ⟦length l' = length l⟧ -∗ elems f l' -∗ X EUser s)) -∗
    wp (remove_if_ p f q) s Q X.
  Proof.
    iIntros (->) "Hl HK". unfold remove_if_. wbind. iApply wp_range_len; [done|simpl; lia|].
    wbeta. cbn [fst snd loc_add].
    replace (Z.to_nat (f.2 + Z.of_nat (length l) - f.2)) with (length l) by lia.
    wbind. iApply (wp_find_if with "Hl"). iSplit; last first.
    { iIntros "Hl". iDestruct "HK" as "[_ HK]". by iApply ("HK" with "[] Hl"). }
    iIntros "Hl". pose proof (first_match_split p l) as Hs.
    destruct (Nat.eqb_spec (first_match p l) (length l)) as [Heq|Hne].
    - destruct (drop (first_match p l) l) as [|v l'] eqn:Hd.
      + destruct Hs as [Hk _]. iApply wp_ret. iDestruct "HK" as "[HK _]".
        rewrite Hk. iApply ("HK" $! []); [iPureIntro; simpl; lia|]. by rewrite app_nil_r.
      + lia.
    - destruct (drop (first_match p l) l) as [|v l'] eqn:Hd; [lia|].
      destruct Hs as (Hv & Hk & Hlt).
      assert (l = take (first_match p l) l ++ [v] ++ l') as Hl.
      { change ([v] ++ l') with (v :: l'). by rewrite -Hd take_drop. }
      set (k := first_match p l) in *. set (A := take k l) in *.
      assert (length A = k) as HA. { unfold A. rewrite take_length. lia. }
      assert (length l = (k + S (length l'))%nat) as Hlen.
      { rewrite Hl !app_length HA /=. lia. }
      rewrite Hk. replace (length l - S k)%nat with (length l') by lia.
      replace (Z.of_nat (S k)) with (Z.of_nat (length A + length [v])) by (simpl; lia).
      rewrite -HA.
      iApply (wp_remove_loop p f A [v] l' with "[Hl]"); [simpl; lia|by rewrite {1}Hl|].
      iSplit.
      + iIntros (J') "%HJ' Hl". iDestruct "HK" as "[HK _]". rewrite app_length.
        iApply ("HK" $! J'); [|by simplify_list_eq]. iPureIntro. rewrite HJ' /=.
        pose proof (keep_length p l'). lia.
      + iIntros (l2) "%Hl2 Hl". iDestruct "HK" as "[_ HK]". iApply ("HK" with "[] Hl").
        iPureIntro. rewrite Hl2 /=. lia.
  Qed.

  Lemma Forall2_false_cons {A} (r : A -> A -> bool) x y l1 l2 :
    r x y = false -> ~ Forall2 (fun a b => r a b = true) (x :: l1) (y :: l2).
  Proof. intros Hr HF. inversion HF; subst. congruence. Qed.

  Lemma wp_equal r x y l1 l2 s Q X :
    length l1 = length l2 ->
    elems x l1 ⊢ elems y l2 -∗
    ((∀ b : bool, ⟦b = true <-> Forall2 (fun a b => r a b = true) l1 l2⟧ -∗
        elems x l1 -∗ elems y l2 -∗ Q b s) ∧
     (elems x l1 -∗ elems y l2 -∗ X EUser s)) -∗
    wp (equal_ r x y (length l1)) s Q X.
  Proof.
    revert x y l2 Q X. induction l1 as [|v l1 IH]; intros x y [|w l2] Q X Hlen; try done; simpl.
    - iIntros "H1 H2 HK". iApply wp_ret. iDestruct "HK" as "[HK _]".
      iApply ("HK" with "[] H1 H2"). iPureIntro. split; [constructor|done].
    - iIntros "H1 H2 HK". iDestruct (elems_cons with "H1") as "[Hx H1]".
      iDestruct (elems_cons with "H2") as "[Hy H2]". wbind. iApply (wp_test2 with "Hx Hy").
      iSplit; last first.
      { iIntros "Hx Hy". iDestruct "HK" as "[_ HK]". iApply ("HK" with "[$] [$]"). }
      iIntros "Hx Hy". destruct (r v w) eqn:Hr.
      + iApply (IH with "H1 H2"); [by injection Hlen|]. iSplit.
        * iIntros (b) "%Hb H1 H2". iDestruct "HK" as "[HK _]".
          iApply ("HK" with "[] [Hx H1] [Hy H2]"); [|iFrame..].
          iPureIntro. rewrite Hb Forall2_cons. naive_solver.
        * iIntros "H1 H2". iDestruct "HK" as "[_ HK]".
          iApply ("HK" with "[Hx H1] [Hy H2]"); iFrame.
      + iApply wp_ret. iDestruct "HK" as "[HK _]".
        iApply ("HK" with "[] [Hx H1] [Hy H2]"); [|iFrame..].
        iPureIntro. split; [done|]. intros HF. by apply Forall2_false_cons in HF.
  Qed.

  Lemma wp_lexcmp lt x y l1 l2 s Q X :
    elems x l1 ⊢ elems y l2 -∗
    ((∀ b : bool, ⟦b = true <-> lex_less lt l1 l2⟧ -∗ elems x l1 -∗ elems y l2 -∗ Q b s) ∧
     (elems x l1 -∗ elems y l2 -∗ X EUser s)) -∗
    wp (lexcmp_ lt x (length l1) y (length l2)) s Q X.
  Proof.
    revert x y l2 Q X. induction l1 as [|v l1 IH]; intros x y [|w l2] Q X.
    - iIntros "H1 H2 HK". iApply wp_ret. iDestruct "HK" as "[HK _]".
      iApply ("HK" with "[] H1 H2"). iPureIntro. split; [done|].
      intros [(k & ? & ? & ? & ?)|[? ?]]; [done|]. simpl in *. lia.
    - iIntros "H1 H2 HK". iApply wp_ret. iDestruct "HK" as "[HK _]".
      iApply ("HK" with "[] H1 H2"). iPureIntro. split; [|done]. intros _. right.
      split; [simpl; lia|]. intros j ? ? ?. simpl in *. lia.
    - iIntros "H1 H2 HK". iApply wp_ret. iDestruct "HK" as "[HK _]".
      iApply ("HK" with "[] H1 H2"). iPureIntro. split; [done|].
      intros [(k & ? & ? & ? & ? & ?)|[? ?]]; [done|]. simpl in *. lia.
    - iIntros "H1 H2 HK". iDestruct (elems_cons with "H1") as "[Hx H1]".
      iDestruct (elems_cons with "H2") as "[Hy H2]". simpl. wbind. iApply (wp_test2 with "Hx Hy").
      iSplit; last first.
      { iIntros "Hx Hy". iDestruct "HK" as "[_ HK]". iApply ("HK" with "[$] [$]"). }
      iIntros "Hx Hy". destruct (lt v w) eqn:Hvw.
      { iApply wp_ret. iDestruct "HK" as "[HK _]".
        iApply ("HK" with "[] [Hx H1] [Hy H2]"); [|iFrame..].
        iPureIntro. split; [|done]. intros _. apply lex_less_cons. by left. }
      wbind. iApply (wp_test2 with "Hy Hx"). iSplit; last first.
      { iIntros "Hy Hx". iDestruct "HK" as "[_ HK]". iApply ("HK" with "[$] [$]"). }
      iIntros "Hy Hx". destruct (lt w v) eqn:Hwv.
      { iApply wp_ret. iDestruct "HK" as "[HK _]".
        iApply ("HK" with "[] [Hx H1] [Hy H2]"); [|iFrame..].
        iPureIntro. split; [done|]. rewrite lex_less_cons. intros [?|(? & ? & ?)]; congruence. }
      iApply (IH with "H1 H2"). iSplit.
      + iIntros (b) "%Hb H1 H2". iDestruct "HK" as "[HK _]".
        iApply ("HK" with "[] [Hx H1] [Hy H2]"); [|iFrame..].
        iPureIntro. rewrite Hb lex_less_cons. naive_solver congruence.
      + iIntros "H1 H2". iDestruct "HK" as "[_ HK]".
        iApply ("HK" with "[Hx H1] [Hy H2]"); iFrame.
  Qed.
End algos.

Section free.
  Context `{E : Env}.

  Lemma wp_erase_if a f l cap p Q X :
    body f l cap ⊢
    ((body f (keep p l) cap -∗
        Q (Z.of_nat (length l - length (keep p l))) (vobj a f (length (keep p l)) cap)) ∧
     (∀ l', ⟦length l' = length l⟧ -∗ body f l' cap -∗ X EUser (vobj a f (length l) cap))) -∗
    wp (erase_if_ p) (vobj a f (length l) cap) Q X.
  Proof.
    iIntros "(%Hc & Hl & Hr) HK". unfold erase_if_. wbind. iApply wp_get. wbeta. wbind.
    iApply (wp_remove_if with "Hl"); [done|]. pose proof (keep_length p l) as Hk. iSplit; last first.
    { iIntros (l') "%Hl' Hl". iDestruct "HK" as "[_ HK]". iApply ("HK" $! l'); [done|].
      iApply (body_intro with "Hl Hr"); [by rewrite Hl'|lia|lia]. }
    iIntros (J) "%HJ Hl". wbind.
    iApply (wp_psub _ _ (Z.of_nat (length l - length (keep p l)))).
    { unfold vobj; simpl. loc_solve. }
    set (l2 := keep p l ++ J).
    assert (length l2 = length l) as Hl2. { unfold l2. rewrite app_length. lia. }
    iAssert (body f l2 cap) with "[Hl Hr]" as "Hb".
    { iApply (body_intro with "Hl Hr"); [by rewrite Hl2|lia|lia]. }
    wbind. change (v_last (vobj a f (length l) cap)) with (f +ₗ Z.of_nat (length l)).
    rewrite -Hl2.
    iApply (wp_erase_range with "Hb"); [lia|]. iSplit.
    - iIntros "Hb". iApply wp_ret. iDestruct "HK" as "[HK _]".
      replace (length l2 - (length l2 - length (keep p l)))%nat with (length (keep p l)) by lia.
      iApply "HK".
      replace (remove_range (length (keep p l)) (length l2) l2) with (keep p l); [done|].
      unfold remove_range. rewrite drop_all app_nil_r. unfold l2. by rewrite take_app.
    - iIntros (l') "%Hl' Hb". destruct Hl' as (? & ? & ?). lia.
  Qed.

  Lemma wp_eq r a1 f1 l1 c1 a2 f2 l2 c2 Q X :
    body f1 l1 c1 ⊢ body f2 l2 c2 -∗
    ((∀ b : bool, ⟦b = true <-> Forall2 (fun x y => r x y = true) l1 l2⟧ -∗
        body f1 l1 c1 -∗ body f2 l2 c2 -∗
        Q b (vobj a1 f1 (length l1) c1, vobj a2 f2 (length l2) c2)) ∧
     (body f1 l1 c1 -∗ body f2 l2 c2 -∗
        X EUser (vobj a1 f1 (length l1) c1, vobj a2 f2 (length l2) c2))) -∗
    wp (eq_ r) (vobj a1 f1 (length l1) c1, vobj a2 f2 (length l2) c2) Q X.
  Proof.
    iIntros "(%Hc1 & H1 & Hr1) (%Hc2 & H2 & Hr2) HK". unfold eq_. wbind. iApply wp_on1.
    iApply wp_size. wbind. iApply wp_on2. iApply wp_size. wbind. iApply wp_get. wbeta.
    destruct (Z.eqb_spec (Z.of_nat (length l1)) (Z.of_nat (length l2))) as [Heq|Hne].
    - rewrite Nat2Z.id. cbn [fst snd vobj v_first].
      iApply (wp_equal with "H1 H2"); [lia|]. iSplit.
      + iIntros (b) "%Hb H1 H2". iDestruct "HK" as "[HK _]". iApply ("HK" with "[] [H1 Hr1] [H2 Hr2]").
        * done.
        * by iApply (body_intro with "H1 Hr1").
        * by iApply (body_intro with "H2 Hr2").
      + iIntros "H1 H2". iDestruct "HK" as "[_ HK]". iApply ("HK" with "[H1 Hr1] [H2 Hr2]").
        * by iApply (body_intro with "H1 Hr1").
        * by iApply (body_intro with "H2 Hr2").
    - iApply wp_ret. iDestruct "HK" as "[HK _]". iApply ("HK" with "[] [H1 Hr1] [H2 Hr2]").
      + iPureIntro. split; [done|]. intros HF. apply Forall2_length in HF. lia.
      + by iApply (body_intro with "H1 Hr1").
      + by iApply (body_intro with "H2 Hr2").
  Qed.

  Lemma wp_lt lt a1 f1 l1 c1 a2 f2 l2 c2 Q X :
    body f1 l1 c1 ⊢ body f2 l2 c2 -∗
    ((∀ b : bool, ⟦b = true <-> lex_less lt l1 l2⟧ -∗
        body f1 l1 c1 -∗ body f2 l2 c2 -∗
        Q b (vobj a1 f1 (length l1) c1, vobj a2 f2 (length l2) c2)) ∧
     (body f1 l1 c1 -∗ body f2 l2 c2 -∗
        X EUser (vobj a1 f1 (length l1) c1, vobj a2 f2 (length l2) c2))) -∗
    wp (lt_ lt) (vobj a1 f1 (length l1) c1, vobj a2 f2 (length l2) c2) Q X.
  Proof.
    iIntros "(%Hc1 & H1 & Hr1) (%Hc2 & H2 & Hr2) HK". unfold lt_. wbind. iApply wp_on1.
    iApply wp_size. wbind. iApply wp_on2. iApply wp_size. wbind. iApply wp_get. wbeta.
    rewrite !Nat2Z.id. cbn [fst snd vobj v_first].
    iApply (wp_lexcmp with "H1 H2"). iSplit.
    - iIntros (b) "%Hb H1 H2". iDestruct "HK" as "[HK _]". iApply ("HK" with "[] [H1 Hr1] [H2 Hr2]").
      + done.
      + by iApply (body_intro with "H1 Hr1").
      + by iApply (body_intro with "H2 Hr2").
    - iIntros "H1 H2". iDestruct "HK" as "[_ HK]". iApply ("HK" with "[H1 Hr1] [H2 Hr2]").
      + by iApply (body_intro with "H1 Hr1").
      + by iApply (body_intro with "H2 Hr2").
  Qed.
End free.
