(** * The member functions of the unordered flat containers, continued *)

From Coq Require Import ZifyBool.
From Verif Require Export UnordProofs.
From iris.proofmode Require Import tactics.
Open Scope Z_scope.

Section ops.
  Context `{KD : Keyed}.
  Variable c : Cmp.
  Variable kd : fkind.
  Notation eqk := (same c).
  Context (exact : loc -> arg -> M vdata loc) (room : M vdata unit) (back : arg -> M vdata loc)
    (fv : nat -> loc -> list V -> Z -> hProp) (alloc robust eager : bool) (fits : nat -> bool)
    (EX : exact_ok exact room fv (multi kd) alloc robust fits)
    (BK : back_ok back fv alloc robust fits).
  Notation vo a f l cap := (vobj a f (length l) cap).
  Notation ins_cont2 := (ins_cont2 fv).
  Notation uins_ok := (uins_ok c kd).
  Notation uins_bad := (uins_bad alloc robust).
  Notation uem_ok := (uem_ok c kd eager).
  Notation uem_bad := (uem_bad kd alloc robust eager).

  (** ** Hints *)
  Lemma wp_hinted OK BAD (m : M vdata (loc * bool)) a f l cap h Q X :
    (forall Q' X', fv a f l cap ⊢ ins_cont2 OK BAD pair_at a Q' X' -∗ wp m (vo a f l cap) Q' X') ->
    (h <= length l)%nat -> fits (S (length l)) = true ->
    fv a f l cap ⊢ ins_cont2 OK BAD only_at a Q X -∗
    wp (room;; assert_pos (f +ₗ Z.of_nat h);; r <- m;; ret r.1)%prog (vo a f l cap) Q X.
  Proof.
    iIntros (Hm Hh Hf) "Hv HK". wbind. iApply (ex_room _ _ _ _ _ _ _ EX with "Hv"); [done|]. iIntros "Hv".
    wbind. iApply wp_assert_pos; [done|]. wbind. iApply (Hm with "Hv").
    iSplit; [|iDestruct "HK" as "[_ HK]"; iExact "HK"].
    iIntros (f' cap' l' i b) "%Hx Hv". wbeta. iApply wp_ret. iDestruct "HK" as "[HK _]".
    by iApply ("HK" with "[] Hv").
  Qed.

  (** ** Ranges *)
  Definition kind (e : exn) : Prop := e = EUser \/ ((e = ELength \/ e = EBadAlloc) /\ alloc = true).
  Definition uall_ok (P : Prop) (f : loc) (cap : Z) (vs l : list V) (f' : loc) (cap' : Z) (l' : list V) : Prop :=
    (length l <= length l' <= length l + length vs)%nat /\
    stays (length l + length vs) f cap f' cap' /\ (P -> uinserted_all kd c vs l l').
  Definition uall_bad (P : Prop) (f : loc) (cap : Z) (vs l : list V) (e : exn) (f' : loc) (cap' : Z)
      (l' : list V) : Prop :=
    (length l <= length l' <= length l + length vs)%nat /\
    stays (length l + length vs) f cap f' cap' /\
    (P -> robust = true -> exists n, uinserted_all kd c (take n vs) l l') /\ kind e.
  Definition uone_ok (P : Prop) (f : loc) (cap : Z) (v : V) (l : list V) f' cap' l' (i : nat) (b : bool) : Prop :=
    (length l <= length l' <= S (length l))%nat /\ (P -> uinserted kd c v l i b l') /\
    stays (S (length l)) f cap f' cap'.
  Definition uone_bad (P : Prop) (f : loc) (cap : Z) (l : list V) e f' cap' l' : Prop :=
    (length l <= length l' <= S (length l))%nat /\ stays (S (length l)) f cap f' cap' /\
    (P -> robust = true -> l' = l) /\ kind e.

  Lemma wp_ueach (P P' : Prop) (each : V -> M vdata (loc * bool)) (loop : list V -> M vdata unit) :
    (P' -> P) ->
    (loop [] = ret tt) ->
    (forall v vs, loop (v :: vs) = (each v;; loop vs)%prog) ->
    (forall a f l cap v Q X, fits (S (length l)) = true ->
       fv a f l cap ⊢ ins_cont2 (uone_ok P f cap v l) (uone_bad P' f cap l) pair_at a Q X -∗
       wp (each v) (vo a f l cap) Q X) ->
    forall vs a f l cap Q X, fits (length l + length vs) = true ->
    fv a f l cap ⊢
    ((∀ f' cap' l', ⟦uall_ok P f cap vs l f' cap' l'⟧ -∗ fv a f' l' cap' -∗ Q tt (vo a f' l' cap')) ∧
     (∀ e f' cap' l', ⟦uall_bad P' f cap vs l e f' cap' l'⟧ -∗ fv a f' l' cap' -∗ X e (vo a f' l' cap'))) -∗
    wp (loop vs) (vo a f l cap) Q X.
  Proof.
    intros HP Hnil Hcons Heach vs. induction vs as [|v vs IH]; iIntros (a f l cap Q X Hf) "Hv HK".
    - rewrite Hnil. iApply wp_ret. iDestruct "HK" as "[HK _]". iApply ("HK" with "[] Hv"). iPureIntro.
      split; [cbn; lia|]. split; [apply stays_refl|done].
    - rewrite Hcons. cbn [length] in *. wbind. iApply (Heach with "Hv").
      { eapply (ex_fits _ _ _ _ _ _ _ EX); [|exact Hf]. lia. }
      iSplit; last first.
      { iIntros (e f' cap' l') "%Hx Hv". iDestruct "HK" as "[_ HK]". iApply ("HK" with "[] Hv"). iPureIntro.
        destruct Hx as (H1 & H2 & H3 & H4). split; [cbn; lia|]. split; [|split; [|done]].
        - eapply stays_le; [|exact H2]. cbn. lia.
        - intros Hp Hr. exists 0%nat. cbn. by apply H3. }
      iIntros (f1 cap1 l1 i b) "%Hx Hv". destruct Hx as (H1 & H2 & H3). wbeta.
      assert (Hst : stays (length l + S (length vs)) f cap f1 cap1).
      { eapply stays_le; [|exact H3]. lia. }
      iApply (IH with "Hv").
      { eapply (ex_fits _ _ _ _ _ _ _ EX); [|exact Hf]. lia. }
      iSplit.
      + iIntros (f' cap' l') "%Hx Hv". destruct Hx as (H5 & H6 & H7). iDestruct "HK" as "[HK _]".
        iApply ("HK" with "[] Hv"). iPureIntro. split; [cbn; lia|]. split.
        * cbn. eapply stays_trans; [|exact Hst|]; [lia|]. eapply stays_le; [|exact H6]. lia.
        * intros Hp. exists i, b, l1. split; [by apply H2|]. by apply H7.
      + iIntros (e f' cap' l') "%Hx Hv". destruct Hx as (H5 & H6 & H7 & H8). iDestruct "HK" as "[_ HK]".
        iApply ("HK" with "[] Hv"). iPureIntro. split; [cbn; lia|]. split; [|split; [|done]].
        * cbn. eapply stays_trans; [|exact Hst|]; [lia|]. eapply stays_le; [|exact H6]. lia.
        * intros Hp Hr. destruct (H7 Hp Hr) as [n Hn]. exists (S n). cbn. exists i, b, l1. split; [|done].
          by apply H2, HP.
  Qed.
  Lemma wp_uinsert_loop vs a f l cap Q X :
    fits (length l + length vs) = true ->
    fv a f l cap ⊢
    ((∀ f' cap' l', ⟦uall_ok True f cap vs l f' cap' l'⟧ -∗ fv a f' l' cap' -∗ Q tt (vo a f' l' cap')) ∧
     (∀ e f' cap' l', ⟦uall_bad True f cap vs l e f' cap' l'⟧ -∗ fv a f' l' cap' -∗ X e (vo a f' l' cap'))) -∗
    wp (uinsert_loop eqk kd back room vs) (vo a f l cap) Q X.
  Proof.
    apply (wp_ueach True True (fun v => uinsert eqk kd back room (AVal v))); [done|done|done|].
    iIntros (a' f' l' cap' v Q' X' Hf) "Hv HK".
    iApply (wp_uinsert c kd _ _ _ _ _ _ _ EX BK with "Hv"); [done|apply ar_val|by intros []|]. iSplit.
    - iIntros (f1 cap1 l1 i b) "%Hx Hv". iDestruct "HK" as "[HK _]". iApply ("HK" with "[] Hv"). iPureIntro.
      destruct Hx as [H1 H2]. destruct (uinserted_length c kd _ _ _ _ _ H1). done.
    - iIntros (e f1 cap1 l1) "%Hx Hv". iDestruct "HK" as "[_ HK]". iApply ("HK" with "[] Hv"). iPureIntro.
      destruct Hx as [(H1 & H2 & H3) [-> ->]]. split; [lia|]. split; [apply stays_refl|]. split; [done|].
      destruct H3 as [|(H3 & H4 & _)]; [by left|by right].
  Qed.
  Lemma wp_uemplace_loop vs a f l cap Q X :
    fits (length l + length vs) = true ->
    fv a f l cap ⊢
    ((∀ f' cap' l', ⟦uall_ok (eager = true -> multi kd = false -> self_equal c) f cap vs l f' cap' l'⟧ -∗
        fv a f' l' cap' -∗ Q tt (vo a f' l' cap')) ∧
     (∀ e f' cap' l', ⟦uall_bad False f cap vs l e f' cap' l'⟧ -∗ fv a f' l' cap' -∗ X e (vo a f' l' cap'))) -∗
    wp (uemplace_loop eqk kd eager back room vs) (vo a f l cap) Q X.
  Proof.
    apply (wp_ueach _ False (fun v => uemplace eqk kd eager back room (AVal v))); [done|done|done|].
    iIntros (a' f' l' cap' v Q' X' Hf) "Hv HK".
    iApply (wp_uemplace c kd _ _ _ _ _ _ eager _ EX BK with "Hv"); [done|apply ar_val|by intros []|]. iSplit.
    - iIntros (f1 cap1 l1 i b) "%Hx Hv". iDestruct "HK" as "[HK _]". by iApply ("HK" with "[] Hv").
    - iIntros (e f1 cap1 l1) "%Hx Hv". iDestruct "HK" as "[_ HK]". iApply ("HK" with "[] Hv"). iPureIntro.
      destruct Hx as (H1 & H2 & H3 & H4). split; [lia|]. split; [done|]. split; [done|].
      destruct H4 as [|(H4 & H5 & _)]; [by left|by right].
  Qed.

  (** ** Erasing *)
  Lemma wp_uerase a f l cap i Q X :
    (i < length l)%nat ->
    fv a f l cap ⊢
    ((∀ l', ⟦erased_at i l l'⟧ -∗ fv a f l' cap -∗ Q (f +ₗ Z.of_nat i) (vo a f l' cap)) ∧
     (∀ l', ⟦length l' = length l /\ forall j, j <> i -> S j <> length l -> l' !! j = l !! j⟧ -∗
        fv a f l' cap -∗ X EUser (vo a f l' cap))) -∗
    wp (uerase (f +ₗ Z.of_nat i)) (vo a f l cap) Q X.
  Proof.
    iIntros (Hi) "Hv HK". iDestruct (ex_body _ _ _ _ _ _ _ EX with "Hv") as "[(%Hc & Hl & Hr) Hcl]".
    unfold uerase. wbind. iApply wp_get. wbeta. wbind. iApply wp_offset_of; [lia|]. wbeta. wbind.
    change (v_last (vo a f l cap)) with (f +ₗ Z.of_nat (length l)). change (v_first (vo a f l cap)) with f.
    rewrite loc_eqb_add.
    iApply wp_assert; [rewrite negb_true_iff Z.eqb_neq; lia|]. wbind.
    iApply (wp_psub _ _ (Z.of_nat (length l) - 1 - Z.of_nat i)); [loc_solve|]. wbeta.
    destruct (snoc_case l) as (l0 & y & ->). { intros ->. cbn in Hi. lia. }
    rewrite app_length /= Nat.add_1_r in Hi |- *. rewrite app_length /= in Hc.
    destruct (Z.ltb_spec 0 (Z.of_nat (S (length l0)) - 1 - Z.of_nat i)) as [Hlt|Hge].
    - destruct (lookup_lt_is_Some_2 l0 i) as [x Hx]; [lia|].
      assert (Hl0 : l0 = take i l0 ++ x :: drop (S i) l0) by (by rewrite take_drop_middle).
      assert (Hti : length (take i l0) = i) by (rewrite take_length; lia).
      iDestruct (elems_snoc_split _ _ l0 y (f +ₗ Z.of_nat (S (length l0)) +ₗ -1) with "Hl") as "[Hl Hy]";
        [done|loc_solve|].
      iDestruct (elems_acc _ _ i with "Hl") as "[Hx Hl]"; [done|]. wbind.
      iApply (as_ok_move1 with "Hy Hx"). iSplit; last first.
      { iIntros (z) "Hy Hx". iDestruct "Hy" as (y') "Hy". iSpecialize ("Hl" with "Hx").
        iDestruct (elems_snoc_join with "Hl Hy") as "Hl"; [rewrite insert_length; loc_solve|done|].
        iDestruct "HK" as "[_ HK]".
        iSpecialize ("HK" $! (@insert nat V (list V) list_insert i z l0 ++ [y']) with "[] [Hl Hr Hcl]").
        - iPureIntro. split; [rewrite app_length insert_length /=; lia|]. intros j Hj HS.
          destruct (decide (j < length l0)%nat) as [Hjl|Hjl].
          + rewrite lookup_app_l ?insert_length; [|done]. rewrite lookup_app_l; [|done].
            by rewrite list_lookup_insert_ne.
          + rewrite !lookup_ge_None_2; [done| |]; rewrite ?app_length ?insert_length /=; lia.
        - iApply "Hcl". iApply (body_intro with "Hl Hr"); rewrite app_length insert_length /=;
            [loc_solve|lia|lia].
        - rewrite app_length insert_length /= Nat.add_1_r. iExact "HK". }
      iIntros "Hy Hx". iSpecialize ("Hl" with "Hx"). wbind.
      iApply (wp_set_last _ _ _ (length l0)); [loc_solve|]. wbind.
      iApply (wp_destroy_at with "Hy"). iIntros "Hy". iApply wp_ret. iDestruct "HK" as "[HK _]".
      iDestruct (raws_one_join with "Hy Hr") as "Hr"; [loc_solve|done|].
      iSpecialize ("HK" $! (@insert nat V (list V) list_insert i y l0) with "[] [Hl Hr Hcl]").
      + iPureIntro. exists (take i l0), x, (drop (S i) l0 ++ [y]). split.
        { by rewrite {1}Hl0 -app_assoc. }
        split; [done|]. right. exists (drop (S i) l0), y. split; [done|].
        rewrite {1}Hl0. rewrite insert_app_r_alt; [|lia]. by rewrite Hti Nat.sub_diag.
      + iApply "Hcl". iApply (body_intro with "Hl Hr"); rewrite ?insert_length ?app_length /=;
          [loc_solve|lia|lia].
      + rewrite insert_length. iExact "HK".
    - assert (i = length l0) as -> by lia. wbind. iApply wp_ret. wbind.
      iDestruct (elems_snoc_split _ _ l0 y (f +ₗ Z.of_nat (S (length l0)) +ₗ -1) with "Hl") as "[Hl Hy]";
        [done|loc_solve|].
      iApply (wp_set_last _ _ _ (length l0)); [loc_solve|]. wbind.
      iApply (wp_destroy_at with "Hy"). iIntros "Hy". iApply wp_ret. iDestruct "HK" as "[HK _]".
      iDestruct (raws_one_join with "Hy Hr") as "Hr"; [loc_solve|done|].
      iApply ("HK" $! l0 with "[] [Hl Hr Hcl]").
      + iPureIntro. exists l0, y, []. split; [done|]. split; [done|]. by left.
      + iApply "Hcl". iApply (body_intro with "Hl Hr"); rewrite ?app_length /=;
          [loc_solve|lia|lia].
  Qed.

  Lemma wp_uerase_range a f l cap i j Q X :
    (i <= j <= length l)%nat ->
    fv a f l cap ⊢
    ((∀ l', ⟦erased_range i j l l'⟧ -∗ fv a f l' cap -∗ Q (f +ₗ Z.of_nat i) (vo a f l' cap)) ∧
     (∀ l', ⟦length l' = length l /\ take i l' = take i l⟧ -∗
        fv a f l' cap -∗ X EUser (vo a f l' cap))) -∗
    wp (uerase_range (f +ₗ Z.of_nat i) (f +ₗ Z.of_nat j)) (vo a f l cap) Q X.
  Proof.
    iIntros (Hi) "Hv HK". iDestruct (ex_body _ _ _ _ _ _ _ EX with "Hv") as "[(%Hc & Hl & Hr) Hcl]".
    unfold uerase_range. wbind. iApply wp_get. wbeta. wbind.
    iApply wp_offset_of; [lia|]. wbeta. wbind. iApply wp_offset_of; [lia|]. wbeta. wbind.
    iApply wp_assert; [lia|]. rewrite loc_eqb_add.
    change (v_last (vo a f l cap)) with (f +ₗ Z.of_nat (length l)). change (v_first (vo a f l cap)) with f.
    set (A := take i l). set (B := take (j - i) (drop i l)). set (C := drop j l).
    assert (Hl : l = A ++ B ++ C).
    { unfold A, B, C. rewrite -{1}(take_drop i l). f_equal.
      rewrite -{1}(take_drop (j - i) (drop i l)). f_equal. rewrite drop_drop. f_equal. lia. }
    assert (HA : length A = i) by (unfold A; nlia).
    assert (HB : length B = (j - i)%nat) by (unfold B; nlia).
    assert (HC : length C = (length l - j)%nat) by (unfold C; nlia).
    destruct (Z.eqb_spec (Z.of_nat i) (Z.of_nat j)) as [Heq|Hne].
    { iApply wp_ret. iDestruct "HK" as "[HK _]". iApply ("HK" $! l).
      - iPureIntro. exists A, B, C. split; [done|]. split; [done|]. split; [lia|]. right.
        exists C, []. rewrite app_nil_r. split; [done|]. split; [cbn; lia|].
        assert (B = []) as -> by (apply nil_length_inv; lia). done.
      - iApply "Hcl". iApply (body_intro with "Hl Hr"); [loc_solve|nlia|nlia]. }
    wbind. iApply (wp_psub _ _ (Z.of_nat (length C))); [loc_solve|]. wbeta.
    iDestruct (elems_split _ _ A (B ++ C) (f +ₗ Z.of_nat i) with "Hl") as "[HA Hl]";
      [done|by rewrite HA|].
    destruct (Z.leb_spec (Z.of_nat (length C)) (Z.of_nat j - Z.of_nat i)) as [Hle|Hgt].
    - wbind. iApply (wp_move with "Hl"); [lia|loc_solve|loc_solve|]. iSplit; last first.
      { iIntros (l') "%Hl' Hl". destruct Hl' as [Hl' HC0]. iDestruct "HK" as "[_ HK]".
        iDestruct (elems_join with "HA Hl") as "Hl"; [loc_solve|done|].
        iSpecialize ("HK" $! (A ++ l') with "[] [Hl Hr Hcl]").
        - iPureIntro. split; [nlia|]. by rewrite take_app_alt.
        - iApply "Hcl". iApply (body_intro with "Hl Hr"); [loc_solve|nlia|nlia].
        - replace (length (A ++ l')) with (length l) by nlia. iExact "HK". }
      iIntros (l') "%Hl' Hl". wbind.
      iDestruct (elems_split _ _ C l' with "Hl") as "[Hl H']"; [done|done|].
      iApply (wp_destroy_a with "H'"); [loc_solve|]. iIntros "H'". wbind.
      iApply (wp_set_last _ _ _ (length (A ++ C))); [rewrite app_length; loc_solve|]. iApply wp_ret.
      iDestruct "HK" as "[HK _]".
      iDestruct (elems_join _ (A ++ C) with "HA Hl") as "Hl"; [loc_solve|done|].
      iDestruct (raws_join with "H' Hr") as "Hr"; [loc_solve|done|].
      iApply ("HK" $! (A ++ C)).
      + iPureIntro. exists A, B, C. split; [done|]. split; [done|]. split; [lia|]. left. split; [lia|done].
      + iApply "Hcl". iApply (body_intro with "Hl Hr"); [len; loc_solve|nlia|nlia].
    - (* the last [length B] elements of C *)
      set (C1 := take (length C - length B) C). set (C2 := drop (length C - length B) C).
      assert (HCC : C = C1 ++ C2) by (unfold C1, C2; by rewrite take_drop).
      assert (HC1 : length C1 = (length C - length B)%nat) by (unfold C1; nlia).
      assert (HC2 : length C2 = length B) by (unfold C2; nlia).
      clearbody C1 C2.
      iDestruct (elems_split _ _ (B ++ C1) C2 (f +ₗ Z.of_nat i +ₗ Z.of_nat (length C)) with "Hl") as "[Hl H2]";
        [by rewrite HCC app_assoc|rewrite HCC !app_length; loc_solve|].
      iDestruct (elems_split _ _ B C1 with "Hl") as "[HB H1]"; [done|done|].
      unfold move. wbind. wbind.
      iApply (wp_range _ _ _ (length C2)); [loc_solve|]. wbeta.
      pose proof (ass_refs_move_gen (f +ₗ Z.of_nat i +ₗ Z.of_nat (length C)) [] C2 [] (length C2)) as Has.
      cbn [length] in Has. rewrite app_nil_l app_nil_r loc_add_0 in Has. specialize (Has eq_refl).
      iApply (wp_assign_loop with "H2 HB"); [exact Has|lia|]. iSplit; last first.
      { iIntros (l') "%Hl' H2 HB". iDestruct "H2" as (l2) "[%Hl2 H2]". iDestruct "HK" as "[_ HK]".
        iDestruct (elems_join _ (l' ++ C1) with "HB H1") as "Hl"; [loc_solve|done|].
        iDestruct (elems_join _ ((l' ++ C1) ++ l2) with "Hl H2") as "Hl"; [loc_solve|done|].
        iDestruct (elems_join with "HA Hl") as "Hl"; [loc_solve|done|].
        iSpecialize ("HK" $! (A ++ (l' ++ C1) ++ l2) with "[] [Hl Hr Hcl]").
        - iPureIntro. split; [nlia|]. by rewrite take_app_alt.
        - iApply "Hcl". iApply (body_intro with "Hl Hr"); [loc_solve|nlia|nlia].
        - replace (length (A ++ (l' ++ C1) ++ l2)) with (length l) by nlia. iExact "HK". }
      iIntros "H2 HB". wbind. rewrite app_nil_r app_nil_l.
      iApply (wp_destroy_a with "H2"); [loc_solve|]. iIntros "H2". wbind.
      iApply (wp_set_last _ _ _ (length (A ++ C2 ++ C1))); [rewrite !app_length; loc_solve|]. iApply wp_ret.
      iDestruct "HK" as "[HK _]".
      iDestruct (elems_join _ (C2 ++ C1) with "HB H1") as "Hl"; [loc_solve|done|].
      iDestruct (elems_join _ (A ++ C2 ++ C1) with "HA Hl") as "Hl"; [loc_solve|done|].
      iDestruct (raws_join with "H2 Hr") as "Hr"; [loc_solve|done|].
      iApply ("HK" $! (A ++ C2 ++ C1)).
      + iPureIntro. exists A, B, C. split; [done|]. split; [done|]. split; [lia|]. right.
        exists C1, C2. done.
      + iApply "Hcl". iApply (body_intro with "Hl Hr"); [len; loc_solve|nlia|nlia].
  Qed.

  (** ** Erasing all elements that pass a test *)
  Definition kept (p : V -> bool) (i : nat) (l l' : list V) : Prop :=
    exists t, l' = take i l ++ t /\ Permutation (List.filter (fun v => negb (p v)) (drop i l)) t.

  Lemma wp_uerase_loop p a f cap Q X n : forall l i,
    (i + n = length l)%nat ->
    fv a f l cap ⊢
    ((∀ l', ⟦kept p i l l'⟧ -∗ fv a f l' cap -∗ Q tt (vo a f l' cap)) ∧
     (∀ l', ⟦(length l' <= length l)%nat⟧ -∗ fv a f l' cap -∗ X EUser (vo a f l' cap))) -∗
    wp (uerase_loop (test_ p) n (f +ₗ Z.of_nat i)) (vo a f l cap) Q X.
  Proof.
    induction n as [|n IH]; iIntros (l i Hi) "Hv HK"; cbn [uerase_loop].
    - wbind. iApply wp_get. wbeta. change (v_last (vo a f l cap)) with (f +ₗ Z.of_nat (length l)).
      iApply wp_assert; [rewrite loc_eqb_add Z.eqb_eq; lia|]. iDestruct "HK" as "[HK _]".
      iApply ("HK" $! l with "[] Hv"). iPureIntro. exists []. rewrite drop_ge; [|lia].
      rewrite take_ge; [|lia]. by rewrite app_nil_r.
    - wbind. iApply wp_get. wbeta. change (v_last (vo a f l cap)) with (f +ₗ Z.of_nat (length l)).
      rewrite loc_eqb_add. destruct (Z.eqb_spec (Z.of_nat i) (Z.of_nat (length l))) as [Heq|Hne]; [lia|].
      destruct (lookup_lt_is_Some_2 l i) as [v Hv]; [lia|]. wbind.
      iDestruct (fv_elems kd _ _ _ _ _ _ EX with "Hv") as "[Hl Hcl]".
      iApply (wp_test_at with "Hl"); [done|]. iSplit; last first.
      { iIntros "Hl". iSpecialize ("Hcl" with "Hl"). iDestruct "HK" as "[_ HK]". by iApply ("HK" with "[] Hcl"). }
      iIntros "Hl". iSpecialize ("Hcl" with "Hl"). wbeta. destruct (p v) eqn:Hp.
      + wbind. iApply (wp_uerase with "Hcl"); [lia|]. iSplit; last first.
        { iIntros (l') "%Hx Hv". iDestruct "HK" as "[_ HK]". iApply ("HK" with "[] Hv"). iPureIntro. lia. }
        iIntros (l') "%Hx Hv". wbeta. pose proof (erased_at_length _ _ _ Hx) as Hlen.
        iApply (IH with "Hv"); [lia|]. iSplit.
        * iIntros (l2) "%H2 Hv". iDestruct "HK" as "[HK _]". iApply ("HK" with "[] Hv"). iPureIntro.
          destruct (erased_at_perm _ _ _ Hx) as (x & w & b & b' & -> & -> & Hxi & Hb).
          destruct H2 as (t & -> & Ht). exists t. rewrite !take_app_alt in Ht |- *; [|done..]. split; [done|].
          rewrite drop_app_alt in Ht; [|done]. rewrite drop_app_alt; [|done].
          rewrite lookup_app_r in Hv; [|lia]. rewrite Hxi Nat.sub_diag in Hv. cbn in Hv. simplify_eq.
          cbn. rewrite Hp. cbn. rewrite -Ht. by apply perm_filter.
        * iIntros (l2) "%H2 Hv". iDestruct "HK" as "[_ HK]". iApply ("HK" with "[] Hv"). iPureIntro. lia.
      + replace (f +ₗ Z.of_nat i +ₗ 1) with (f +ₗ Z.of_nat (S i)) by loc_solve.
        iApply (IH with "Hcl"); [lia|]. iSplit.
        * iIntros (l2) "%H2 Hv". iDestruct "HK" as "[HK _]". iApply ("HK" with "[] Hv"). iPureIntro.
          destruct H2 as (t & -> & Ht). exists (v :: t). rewrite (take_S_r _ _ v Hv) -app_assoc. split; [done|].
          rewrite (drop_S l v i Hv). cbn. rewrite Hp. cbn. by constructor.
        * iIntros (l2) "%H2 Hv". iDestruct "HK" as "[_ HK]". iApply ("HK" with "[] Hv"). iPureIntro. lia.
  Qed.
  Lemma wp_uerase_each p a f l cap Q X :
    fv a f l cap ⊢
    ((∀ l', ⟦Permutation (List.filter (fun v => negb (p v)) l) l'⟧ -∗ fv a f l' cap -∗
        Q (Z.of_nat (length (List.filter p l))) (vo a f l' cap)) ∧
     (∀ l', ⟦(length l' <= length l)%nat⟧ -∗ fv a f l' cap -∗ X EUser (vo a f l' cap))) -∗
    wp (uerase_each (test_ p)) (vo a f l cap) Q X.
  Proof.
    iIntros "Hv HK". unfold uerase_each. wbind. iApply wp_get. wbeta. wbind. iApply wp_size. wbeta. wbind.
    rewrite Nat2Z.id. change (v_first (vo a f l cap)) with f.
    replace (uerase_loop (test_ p) (length l) f) with (uerase_loop (test_ p) (length l) (f +ₗ Z.of_nat 0))
      by (by rewrite loc_add_0).
    iApply (wp_uerase_loop p a f cap _ _ (length l) l 0 with "Hv"); [done|].
    iSplit; [|iDestruct "HK" as "[_ HK]"; iExact "HK"].
    iIntros (l') "%Hx Hv". wbeta. wbind. iApply wp_size. wbeta. iApply wp_ret. iDestruct "HK" as "[HK _]".
    destruct Hx as (t & -> & Ht). rewrite drop_0 in Ht. rewrite take_0 app_nil_l.
    iSpecialize ("HK" with "[] Hv"); [done|]. apply Permutation_length in Ht.
    pose proof (filter_split p l).
    assert (Heq : Z.of_nat (length l) - Z.of_nat (length t) = Z.of_nat (length (List.filter p l))) by lia.
    rewrite Heq.
    iExact "HK".
  Qed.

  Lemma wp_uerase_unique k a f l cap Q X :
    multi kd = false ->
    fv a f l cap ⊢
    ((∀ n l', ⟦erased_key kd c k l (Num n) l'⟧ -∗ fv a f l' cap -∗ Q (Z.of_nat n) (vo a f l' cap)) ∧
     (∀ l', ⟦(length l' <= length l)%nat⟧ -∗ fv a f l' cap -∗ X EUser (vo a f l' cap))) -∗
    wp (uerase_unique eqk k) (vo a f l cap) Q X.
  Proof.
    iIntros (Hmu) "Hv HK". unfold uerase_unique. wbind.
    iDestruct (fv_elems kd _ _ _ _ _ _ EX with "Hv") as "[Hl Hcl]".
    iApply (wp_ufind c with "Hl"). iSplit; last first.
    { iIntros "Hl". iSpecialize ("Hcl" with "Hl"). iDestruct "HK" as "[_ HK]". by iApply ("HK" with "[] Hcl"). }
    iIntros (i) "%Hi Hl". iSpecialize ("Hcl" with "Hl"). wbeta. wbind. iApply wp_get. wbeta.
    change (v_last (vo a f l cap)) with (f +ₗ Z.of_nat (length l)). rewrite loc_eqb_add.
    destruct Hi as [[Hi Hk]|[-> Hk]].
    - destruct (Z.eqb_spec (Z.of_nat i) (Z.of_nat (length l))) as [Heq|Hne]; [lia|]. wbind.
      iApply (wp_uerase with "Hcl"); [done|]. iSplit.
      + iIntros (l') "%Hx Hv". wbeta. iApply wp_ret. iDestruct "HK" as "[HK _]".
        iApply ("HK" $! 1%nat l' with "[] Hv"). iPureIntro. unfold erased_key. rewrite Hmu. right. eauto.
      + iIntros (l') "%Hx Hv". iDestruct "HK" as "[_ HK]". iApply ("HK" with "[] Hv"). iPureIntro. lia.
    - rewrite Z.eqb_refl. iApply wp_ret. iDestruct "HK" as "[HK _]".
      iApply ("HK" $! 0%nat l with "[] Hcl"). iPureIntro. unfold erased_key. rewrite Hmu. left. done.
  Qed.
  Lemma wp_uerase_key k a f l cap Q X :
    fv a f l cap ⊢
    ((∀ n l', ⟦erased_key kd c k l (Num n) l'⟧ -∗ fv a f l' cap -∗ Q (Z.of_nat n) (vo a f l' cap)) ∧
     (∀ l', ⟦(length l' <= length l)%nat⟧ -∗ fv a f l' cap -∗ X EUser (vo a f l' cap))) -∗
    wp (uerase_key eqk kd k) (vo a f l cap) Q X.
  Proof.
    iIntros "Hv HK". unfold uerase_key. destruct (multi_or kd) as [Hmu|Hmu]; rewrite Hmu.
    - iApply (wp_uerase_each with "Hv"). iSplit; [|iDestruct "HK" as "[_ HK]"; iExact "HK"].
      iIntros (l') "%Hx Hv". iDestruct "HK" as "[HK _]". iApply ("HK" with "[] Hv"). iPureIntro.
      unfold erased_key. rewrite Hmu. done.
    - by iApply (wp_uerase_unique with "Hv HK").
  Qed.
  Lemma wp_uerase_key_ref i w a f l cap Q X :
    multi kd = false -> l !! i = Some w ->
    fv a f l cap ⊢
    ((∀ n l', ⟦erased_key kd c (key w) l (Num n) l'⟧ -∗ fv a f l' cap -∗ Q (Z.of_nat n) (vo a f l' cap)) ∧
     (∀ l', ⟦(length l' <= length l)%nat⟧ -∗ fv a f l' cap -∗ X EUser (vo a f l' cap))) -∗
    wp (uerase_key_ref eqk kd (f +ₗ Z.of_nat i)) (vo a f l cap) Q X.
  Proof.
    iIntros (Hmu Hi) "Hv HK". unfold uerase_key_ref. rewrite Hmu. wbind.
    iDestruct (fv_elems kd _ _ _ _ _ _ EX with "Hv") as "[Hl Hcl]".
    iDestruct (elems_acc _ _ i with "Hl") as "[Hd Hl]"; [done|].
    iApply (wp_read with "Hd"). iIntros "Hd". iSpecialize ("Hl" $! w with "Hd").
    rewrite (list_insert_id l i w Hi). iSpecialize ("Hcl" with "Hl"). wbeta.
    by iApply (wp_uerase_unique with "Hcl HK").
  Qed.

  (** ** Maps *)
  Lemma wp_utry_emplace k m a f l cap Q X :
    multi kd = false -> fits (S (length l)) = true ->
    fv a f l cap ⊢ ins_cont2 (uins_ok f cap (entry k m) l) (uins_bad f cap l) pair_at a Q X -∗
    wp (utry_emplace eqk back room k m) (vo a f l cap) Q X.
  Proof.
    iIntros (Hmu Hf) "Hv HK". unfold utry_emplace. wbind.
    iApply (ex_room _ _ _ _ _ _ _ EX with "Hv"); [done|]. iIntros "Hv". wbind.
    iDestruct (fv_elems kd _ _ _ _ _ _ EX with "Hv") as "[Hl Hcl]".
    iApply (wp_ufind c with "Hl"). iSplit; last first.
    { iIntros "Hl". iSpecialize ("Hcl" with "Hl"). iDestruct "HK" as "[_ HK]".
      iApply ("HK" with "[] Hcl"). iPureIntro. apply uins_bad_same. }
    iIntros (i) "%Hi Hl". iSpecialize ("Hcl" with "Hl"). wbeta. wbind. iApply wp_get. wbeta.
    change (v_last (vo a f l cap)) with (f +ₗ Z.of_nat (length l)). rewrite loc_eqb_add.
    destruct Hi as [[Hi Hk]|[-> Hk]].
    - destruct (Z.eqb_spec (Z.of_nat i) (Z.of_nat (length l))) as [Heq|Hne]; [lia|].
      iApply wp_ret. iDestruct "HK" as "[HK _]". iApply ("HK" $! f cap l i false with "[] Hcl").
      iPureIntro. split; [|apply stays_refl]. left. rewrite key_entry. done.
    - rewrite Z.eqb_refl.
      iApply (wp_append c kd _ _ _ _ _ BK with "Hcl HK"); [done|apply ar_val|by intros []|].
      rewrite key_entry. done.
  Qed.

  Definition uioa_ok (f : loc) (cap : Z) (k : Key) (m : Mapped) (l : list V) f' cap' l' i (b : bool) : Prop :=
    stays (S (length l)) f cap f' cap' /\
    if b then missing c l k /\ l' = l ++ [entry k m] /\ i = length l
    else exists w, l !! i = Some w /\ first_at c l k i /\ l' = <[i := entry (key w) m]> l.
  Definition uioa_bad (f : loc) (cap : Z) (k : Key) (l : list V) e f' cap' l' : Prop :=
    length l' = length l /\ f' = f /\ cap' = cap /\
    (robust = true ->
     l' = l \/ exists i w t, first_at c l k i /\ l !! i = Some w /\ l' = <[i := entry (key w) (mjunk t)]> l) /\
    (e = EUser \/ ((e = ELength \/ e = EBadAlloc) /\ alloc = true /\ l' = l)).
  Lemma wp_uinsert_or_assign k m a f l cap Q X :
    multi kd = false -> fits (S (length l)) = true ->
    fv a f l cap ⊢ ins_cont2 (uioa_ok f cap k m l) (uioa_bad f cap k l) pair_at a Q X -∗
    wp (uinsert_or_assign eqk back room k m) (vo a f l cap) Q X.
  Proof.
    iIntros (Hmu Hf) "Hv HK". unfold uinsert_or_assign. wbind.
    iApply (ex_room _ _ _ _ _ _ _ EX with "Hv"); [done|]. iIntros "Hv". wbind.
    iDestruct (fv_elems kd _ _ _ _ _ _ EX with "Hv") as "[Hl Hcl]".
    iApply (wp_ufind c with "Hl"). iSplit; last first.
    { iIntros "Hl". iSpecialize ("Hcl" with "Hl"). iDestruct "HK" as "[_ HK]".
      iApply ("HK" with "[] Hcl"). iPureIntro. unfold uioa_bad. eauto 10. }
    iIntros (i) "%Hi Hl". iSpecialize ("Hcl" with "Hl"). wbeta. wbind. iApply wp_get. wbeta.
    change (v_last (vo a f l cap)) with (f +ₗ Z.of_nat (length l)). rewrite loc_eqb_add.
    destruct Hi as [[Hi Hk]|[-> Hk]].
    - destruct (Z.eqb_spec (Z.of_nat i) (Z.of_nat (length l))) as [Heq|Hne]; [lia|].
      destruct (lookup_lt_is_Some_2 l i Hi) as [w Hw]. wbind.
      iApply (wp_assign_second kd _ _ _ _ _ _ EX with "Hcl"); [done|]. iSplit.
      + iIntros "Hv". wbeta. iApply wp_ret. iDestruct "HK" as "[HK _]".
        iSpecialize ("HK" $! f cap _ i false with "[] Hv"); last first. { rewrite insert_length. iExact "HK". }
        iPureIntro. split; [apply stays_refl|]. eauto.
      + iIntros (t) "Hv". iDestruct "HK" as "[_ HK]".
        iSpecialize ("HK" $! EUser f cap with "[] Hv"); last first. { rewrite insert_length. iExact "HK". }
        iPureIntro. split; [by rewrite insert_length|]. split; [done|]. split; [done|]. split; [|by left].
        intros _. right. eauto 10.
    - rewrite Z.eqb_refl.
      iApply (wp_append c kd _ _ _ _ _ BK with "Hcl"); [done|apply ar_val|by intros []|by rewrite key_entry|].
      iSplit.
      + iIntros (f' cap' l' i b) "%Hx Hv". iDestruct "HK" as "[HK _]".
        iApply ("HK" with "[] Hv"). iPureIntro. destruct Hx as [H1 H2]. split; [done|].
        destruct H1 as [(_ & -> & Hat & _)|(_ & -> & -> & ->)]; [|done]. exfalso. rewrite key_entry in Hat.
        destruct Hat as (w & Hw & Hh & _). rewrite (Hk _ _ Hw) in Hh. done.
      + iIntros (e f' cap' l') "%Hx Hv". iDestruct "HK" as "[_ HK]". iApply ("HK" with "[] Hv").
        iPureIntro. destruct Hx as ((H1 & H2 & H3) & -> & ->). split; [done|]. split; [done|]. split; [done|].
        split; [|done]. intros Hr. left. by apply H2.
  Qed.
  Lemma wp_umap_index k a f l cap Q X :
    multi kd = false -> fits (S (length l)) = true ->
    fv a f l cap ⊢
    ((∀ f' cap' l' i b w, ⟦uins_ok f cap (entry k mdef) l f' cap' l' i b /\ l' !! i = Some w⟧ -∗
        fv a f' l' cap' -∗ Q (mapped w) (vo a f' l' cap')) ∧
     (∀ e f' cap' l', ⟦uins_bad f cap l e f' cap' l'⟧ -∗ fv a f' l' cap' -∗ X e (vo a f' l' cap'))) -∗
    wp (umap_index eqk back room k) (vo a f l cap) Q X.
  Proof.
    iIntros (Hmu Hf) "Hv HK". unfold umap_index. wbind. iApply (wp_utry_emplace with "Hv"); [done|done|].
    iSplit; [|iDestruct "HK" as "[_ HK]"; iExact "HK"].
    iIntros (f' cap' l' i b) "%Hx Hv". wbeta. cbn [pair_at fst].
    destruct (uinserted_length c kd _ _ _ _ _ (proj1 Hx)) as [_ Hi].
    destruct (lookup_lt_is_Some_2 l' i Hi) as [w Hw]. wbind.
    iDestruct (fv_elems kd _ _ _ _ _ _ EX with "Hv") as "[Hl Hcl]".
    iDestruct (elems_acc _ _ i with "Hl") as "[Hd Hl]"; [done|].
    iApply (wp_read with "Hd"). iIntros "Hd". iSpecialize ("Hl" $! w with "Hd").
    rewrite (list_insert_id l' i w Hw). iSpecialize ("Hcl" with "Hl"). wbeta. iApply wp_ret.
    iDestruct "HK" as "[HK _]". by iApply ("HK" with "[] Hcl").
  Qed.
End ops.
