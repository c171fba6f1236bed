(** * sfl::devector: the insertion functions *)

From Verif Require Export DevProofs.
From Coq Require Import ZifyBool.
From iris.proofmode Require Import environments tactics.
Open Scope Z_scope.

Section inserting.
  Context `{E : Env}.
  Variable fixed : bool.

  (** 2119-2378 [insert_aux]. *)
  Lemma wp_insert_aux a b p l cap (k : nat) px vs pos n Q X :
    let g := Geom p (zlen l) cap in
    px_at px 0 vs -> (k <= length l)%nat -> n = zlen vs ->
    fixed || negb (hazard k n g) = true ->
    pos = b +ₗ (p + Z.of_nat k) ->
    dev_at a b p l cap ⊢
    ((∀ b' p' cap', ⟦room_to (near_front k g) n g b b' p' cap'⟧ -∗ dev_at a b' p' (insert_at k vs l) cap' -∗
        Q (b' +ₗ (p' + Z.of_nat k)) (dobj a b' p' (zlen (insert_at k vs l)) cap')) ∧
     (∀ e l', ⟦ins_bad (near_front k g) n g (px_throws px) e l l'⟧ -∗ dev_at a b p l' cap -∗
        X e (dobj a b p (zlen l) cap))) -∗
    wp (dv_insert_aux fixed pos n px) (dobj a b p (zlen l) cap) Q X.
  Proof.
    intros g Hpx Hk -> Hhaz ->. iIntros "Hd HK". iDestruct (dev_at_len with "Hd") as "[%Hlen Hd]".
    unfold dv_insert_aux. wbind. iApply wp_get. wbeta. wbind.
    iApply (wp_dv_offset _ _ _ _ _ _ (Z.of_nat k)); [lia|done|]. wbeta.
    destruct (Z.eqb_spec (zlen vs) 0) as [Hn0|Hn0].
    { iApply wp_ret. iDestruct "HK" as "[HK _]".
      assert (vs = []) as -> by (destruct vs; [done|simpl in Hn0; lia]).
      iSpecialize ("HK" $! b p cap with "[%]").
      { unfold room_to, make_room, g, g_back, near_front. cbn [g_front g_size g_cap length].
        destruct (_ <? _).
        - rewrite (proj2 (Z.leb_le _ _)); [|simpl; lia]. cbn [fst snd g_front g_cap]. simpl. split_and!; try done. lia.
        - rewrite (proj2 (Z.leb_le _ _)); [|simpl; lia]. cbn [fst snd g_front g_cap]. done. }
      unfold insert_at. rewrite /= take_drop. iSpecialize ("HK" with "Hd").
      dred. by rewrite loc_add_assoc. }
    wbind. dred. iApply wp_b_sub; [done|]. wbeta. wbind.
    iApply wp_dv_front_room. wbeta. wbind. iApply wp_dv_back_room. wbeta.
    replace (Z.of_nat k <? p + zlen l - (p + Z.of_nat k)) with (near_front k g)
      by (unfold near_front, g; cbn [g_size]; f_equal; lia).
    destruct (near_front k g) eqn:Hnear.
    - destruct (Z.leb_spec (zlen vs) p) as [Hroom|Hroom].
      + assert (make_room true (zlen vs) g = (false, Geom (p - zlen vs) (zlen l + zlen vs) cap)) as Hm.
        { unfold make_room, g. cbn [g_front g_size g_cap]. rewrite (proj2 (Z.leb_le _ _)); [done|lia]. }
        dred. rewrite dev_at_win. iDestruct "Hd" as "(_ & Ha & Hw)".
        replace (b +ₗ p +ₗ - zlen vs) with (b +ₗ (p - zlen vs)) by (rewrite loc_add_assoc; f_equal; lia).
        rewrite !loc_add_assoc.
        wbind.
        iAssert (wp (if zlen vs <? Z.of_nat k then insert_front_1 px (b +ₗ p) (Z.of_nat k) (zlen vs)
                     else insert_front_2 px (b +ₗ p) (Z.of_nat k) (zlen vs)) (dobj a b p (zlen l) cap)
                  (fun _ s => ⟦s = dobj a b p (zlen l) cap⟧ ∗ ∃ f',
                     ⟦spread p (zlen l) (p - zlen vs) (Z.of_nat k) vs (at_pos p l) f'⟧ ∗
                     win (loc_add b) 0 cap f')
                  (fun e s => ⟦e = EUser /\ s = dobj a b p (zlen l) cap⟧ ∗ ∃ f',
                     ⟦shaken (at_pos p l) f'⟧ ∗ win (loc_add b) 0 cap f'))%I with "[Hw]" as "Hwp".
        { destruct (Z.ltb_spec (zlen vs) (Z.of_nat k)).
          - iApply (wp_insert_front_1 b cap px vs p (zlen l) (Z.of_nat k) with "Hw"); [done|lia|lia|lia| |lia|].
            { intros i. rewrite live_at_pos. done. }
            iSplit; iIntros (f') "%Hs Hw"; (iSplit; [done|]); iExists f'; by iFrame.
          - iApply (wp_insert_front_2 b cap px vs p (zlen l) (Z.of_nat k) with "Hw"); [done|lia|lia|lia| |lia|].
            { intros i. rewrite live_at_pos. done. }
            iSplit; iIntros (f') "%Hs Hw"; (iSplit; [done|]); iExists f'; by iFrame. }
        iApply (wp_wand with "Hwp"). iSplit.
        * iIntros ([] s) "[-> Hw]". iDestruct "Hw" as (f') "[%Hs Hw]". wbind.
          iApply (wp_set_first _ _ _ _ _ _ (p - zlen vs) (zlen (insert_at k vs l))); [done|len; lia|].
          iApply wp_ret. iDestruct "HK" as "[HK _]".
          iApply ("HK" with "[%]"). { unfold room_to. by rewrite Hm. }
          iApply (dev_at_of_win with "Ha Hw"); [lia|len; lia|]. intros i _. by apply (spread_list p l).
        * iIntros (e s) "[%He Hw]". destruct He as [-> ->]. iDestruct "Hw" as (f') "[%Hs Hw]".
          destruct (shaken_list _ _ _ Hs) as (l' & Hl' & Hf').
          iDestruct "HK" as "[_ HK]". iApply ("HK" $! _ l' with "[%]"). { unfold ins_bad. by rewrite Hm. }
          iApply (dev_at_of_win with "Ha Hw"); [lia|lia|]. intros i _. apply Hf'.
      + wbind. iApply wp_dv_extra_front; [lia|]. wbeta.
        iApply (wp_make_room fixed true a b p l cap k px vs with "Hd HK"); try done; try lia.
        intros Hf. rewrite Hf in Hhaz. simpl in Hhaz. fold g. unfold hazard, leaks in Hhaz. rewrite Hnear in Hhaz.
        unfold g, g_back in *. cbn [g_front g_size g_cap] in *. lia.
    - destruct (Z.leb_spec (zlen vs) (cap - p - zlen l)) as [Hroom|Hroom].
      + assert (make_room false (zlen vs) g = (false, Geom p (zlen l + zlen vs) cap)) as Hm.
        { unfold make_room, g, g_back. cbn [g_front g_size g_cap]. rewrite (proj2 (Z.leb_le _ _)); [done|lia]. }
        dred. rewrite dev_at_win.
        iDestruct "Hd" as "(_ & Ha & Hw)".
        rewrite !loc_add_assoc. wbind.
        replace (p + zlen l - (p + Z.of_nat k)) with (zlen l - Z.of_nat k) by lia.
        iAssert (wp (if zlen vs <? zlen l - Z.of_nat k
                     then insert_back_1 px (b +ₗ p) (b +ₗ (p + zlen l)) (Z.of_nat k) (zlen l - Z.of_nat k) (zlen vs)
                     else insert_back_2 px (b +ₗ p) (b +ₗ (p + zlen l)) (Z.of_nat k) (zlen l - Z.of_nat k) (zlen vs))
                  (dobj a b p (zlen l) cap)
                  (fun _ s => ⟦s = dobj a b p (zlen l) cap⟧ ∗ ∃ f',
                     ⟦spread p (zlen l) p (Z.of_nat k) vs (at_pos p l) f'⟧ ∗
                     win (loc_add b) 0 cap f')
                  (fun e s => ⟦e = EUser /\ s = dobj a b p (zlen l) cap⟧ ∗ ∃ f',
                     ⟦shaken (at_pos p l) f'⟧ ∗ win (loc_add b) 0 cap f'))%I with "[Hw]" as "Hwp".
        { destruct (Z.ltb_spec (zlen vs) (zlen l - Z.of_nat k)).
          - iApply (wp_insert_back_1 b cap px vs p (zlen l) (Z.of_nat k) with "Hw"); [done|lia|lia|lia| |lia|].
            { intros i. rewrite live_at_pos. done. }
            iSplit; iIntros (f') "%Hs Hw"; (iSplit; [done|]); iExists f'; by iFrame.
          - iApply (wp_insert_back_2 b cap px vs p (zlen l) (Z.of_nat k) with "Hw"); [done|lia|lia|lia| |lia|].
            { intros i. rewrite live_at_pos. done. }
            iSplit; iIntros (f') "%Hs Hw"; (iSplit; [done|]); iExists f'; by iFrame. }
        iApply (wp_wand with "Hwp"). iSplit.
        * iIntros ([] s) "[-> Hw]". iDestruct "Hw" as (f') "[%Hs Hw]". wbind.
          iApply (wp_set_last _ _ _ _ _ _ (zlen (insert_at k vs l))); [f_equal; len; lia|].
          iApply wp_ret. iDestruct "HK" as "[HK _]".
          iApply ("HK" with "[%]"). { unfold room_to. by rewrite Hm. }
          iApply (dev_at_of_win with "Ha Hw"); [lia|len; lia|]. intros i _. by apply (spread_list p l).
        * iIntros (e s) "[%He Hw]". destruct He as [-> ->]. iDestruct "Hw" as (f') "[%Hs Hw]".
          destruct (shaken_list _ _ _ Hs) as (l' & Hl' & Hf').
          iDestruct "HK" as "[_ HK]". iApply ("HK" $! _ l' with "[%]"). { unfold ins_bad. by rewrite Hm. }
          iApply (dev_at_of_win with "Ha Hw"); [lia|lia|]. intros i _. apply Hf'.
      + wbind. iApply wp_dv_extra_back; [lia|]. wbeta.
        iApply (wp_make_room fixed false a b p l cap k px vs with "Hd HK"); try done; try lia.
        intros Hf. rewrite Hf in Hhaz. simpl in Hhaz. fold g. unfold hazard, double_destroys in Hhaz.
        rewrite Hnear in Hhaz. unfold g, g_back in *. cbn [g_front g_size g_cap] in *. lia.
  Qed.

  (** The elements after [emplace] has thrown; [here]: there is room where the
      element goes. *)
  Definition emp_bad (at_front : bool) (g : geom) (here : Prop) (ar : arg) (l l1 : list V) (e : exn)
      (l' : list V) : Prop :=
    length l' = length l /\
    match e with
    | ELength => l' = l1 /\ (make_room at_front 1 g).1 = true /\ max_size < g_cap (make_room at_front 1 g).2
    | EBadAlloc => l' = l1 /\ (make_room at_front 1 g).1 = true
    | EUser => ~ is_move ar -> here \/ ((make_room at_front 1 g).1 = true /\ nothrow_move = true) -> l' = l
    | EOutOfRange => False
    end.

  Lemma ins_emp_bad at_front g (here : Prop) ar (l l1 : list V) v e l' :
    length l1 = length l -> ~ here ->
    ins_bad at_front 1 g (px_throws (PEmplace v)) e l1 l' -> emp_bad at_front g here ar l l1 e l'.
  Proof.
    intros Hl Hh [Hx He]. split; [by rewrite Hx|]. destruct e; try done.
    intros _ [?|[Hr Hn]]; [done|]. destruct (He Hr) as [Hn'|Hn']; [|simpl in Hn']; by rewrite Hn in Hn'.
  Qed.
  Lemma arg_emp_bad at_front g here ar (l l1 l' : list V) :
    arg_exn ar l l' -> emp_bad at_front g here ar l l1 EUser l'.
  Proof. intros [Hl Ha]. split; [done|]. intros Hm _. by destruct ar. Qed.

  (** The temporary made from the argument. *)
  Lemma wp_make_tmp a b p l cap ar v l1 {St} (s : St) Q X :
    arg_rel (b +ₗ p) l ar v l1 ->
    dev_at a b p l cap ⊢
    ((dev_at a b p l1 cap -∗ Q v s) ∧ (∀ l', ⟦arg_exn ar l l'⟧ -∗ dev_at a b p l' cap -∗ X EUser s)) -∗
    wp (make ar) s Q X.
  Proof.
    iIntros (Har) "(%Hlen & Ha & Hr1 & Hl & Hr2) HK".
    iApply ((arg_rel_mk _ _ _ _ _ Har) with "Hl"). iSplit.
    - iIntros "Hl". iDestruct "HK" as "[HK _]". iApply "HK". unfold dev_at.
      rewrite (arg_rel_length _ _ _ _ _ Har). by iFrame.
    - iIntros "Hl". iDestruct "Hl" as (l') "[%Hx Hl]". iDestruct "HK" as "[_ HK]".
      iApply ("HK" with "[%//]"). unfold dev_at. destruct Hx as [Hx _]. rewrite Hx. by iFrame.
  Qed.

  Lemma insert_at_0 (vs l : list V) : insert_at 0 vs l = vs ++ l.
  Proof. unfold insert_at. by rewrite take_0 drop_0. Qed.

  (** 2043-2078 [emplace_front_aux]. *)
  Lemma wp_emplace_front a b p l cap ar v l1 Q X :
    let g := Geom p (zlen l) cap in
    arg_rel (b +ₗ p) l ar v l1 ->
    dev_at a b p l cap ⊢
    ((∀ b' p' cap', ⟦room_to true 1 g b b' p' cap'⟧ -∗ dev_at a b' p' (v :: l1) cap' -∗
        Q (b' +ₗ p') (dobj a b' p' (zlen (v :: l1)) cap')) ∧
     (∀ e l', ⟦emp_bad true g (0 < p) ar l l1 e l'⟧ -∗ dev_at a b p l' cap -∗
        X e (dobj a b p (zlen l) cap))) -∗
    wp (dv_emplace_front fixed ar) (dobj a b p (zlen l) cap) Q X.
  Proof.
    intros g Har. iIntros "Hd HK". iDestruct (dev_at_len with "Hd") as "[%Hlen Hd]".
    pose proof (arg_rel_length _ _ _ _ _ Har) as Hl1.
    unfold dv_emplace_front. wbind. iApply wp_get. wbeta. dred.
    replace (loc_eqb (b +ₗ p) b) with (p =? 0) by (rewrite -{2}(loc_add_0 b) loc_eqb_add; done).
    destruct (Z.eqb_spec p 0) as [Hp0|Hp0]; cbn [negb].
    - wbind. iApply (wp_make_tmp with "Hd"); [done|]. iSplit; last first.
      { iIntros (l') "%Hx Hd". iDestruct "HK" as "[_ HK]". iApply ("HK" with "[%] Hd"). by apply arg_emp_bad. }
      iIntros "Hd". wbeta. wbind. iApply wp_dv_extra_front; [lia|]. wbeta. wbind. iApply wp_dv_back_room. wbeta.
      rewrite -Hl1 in Hlen |- *. fold g.
      iApply (wp_make_room fixed true a b p l1 cap 0 (PEmplace v) [v] with "Hd"); try done; try lia.
      { by rewrite Z.add_0_r. }
      rewrite Hl1. iSplit.
      + iIntros (b' p' cap') "Hr Hd". rewrite insert_at_0 Z.add_0_r. iDestruct "HK" as "[HK _]".
        iApply ("HK" with "Hr Hd").
      + iIntros (e l') "%Hx Hd". iDestruct "HK" as "[_ HK]". iApply ("HK" with "[%] Hd").
        by eapply ins_emp_bad; [|lia|].
    - assert (make_room true 1 g = (false, Geom (p - 1) (zlen l + 1) cap)) as Hm.
      { unfold make_room, g. cbn [g_front g_size g_cap]. rewrite (proj2 (Z.leb_le _ _)); [done|lia]. }
      wbind. rewrite loc_add_assoc. iDestruct "Hd" as "(_ & Ha & Hr1 & Hl & Hr2)".
      iDestruct (raws_split _ _ (Z.to_nat (p - 1)) 1 (b +ₗ (p + -1)) with "Hr1") as "[Hr1 Hr]"; [lia|f_equal; lia|].
      iDestruct (raws_one _ _ _ 0 with "Hr") as "[Hr _]"; [done|done|].
      iApply (wp_construct with "Hl Hr"); [by apply arg_rel_mk|]. iSplit.
      + iIntros "Hl Hr". wbeta. wbind. iApply (wp_set_first _ _ _ _ _ _ (p - 1) (zlen (v :: l1))); [done|simpl; lia|].
        iApply wp_ret. iDestruct "HK" as "[HK _]".
        replace (p + -1) with (p - 1) by lia.
        iApply ("HK" with "[%]"). { unfold room_to. by rewrite Hm. }
        iDestruct (elems_cons_join with "Hr Hl") as "Hl"; [rewrite loc_add_assoc; f_equal; lia|done|].
        iApply (dev_at_intro with "Ha Hr1 Hl"); [lia|simpl; lia|].
        iApply (raws_eq with "Hr2"); [f_equal; simpl; lia|simpl; lia].
      + iIntros "Hl Hr". iDestruct "Hl" as (l') "[%Hx Hl]". iDestruct "HK" as "[_ HK]".
        iApply ("HK" with "[%]"). { by apply arg_emp_bad. }
        iDestruct (raws_one_join _ 1 _ 0 with "Hr []") as "Hr"; [done|done|done|].
        iDestruct (raws_join _ (Z.to_nat p) with "Hr1 Hr") as "Hr1"; [f_equal; lia|lia|].
        destruct Hx as [Hx _]. rewrite -Hx. iFrame. iPureIntro. lia.
  Qed.

  (** 2080-2115 [emplace_back_aux]. *)
  Lemma wp_emplace_back a b p l cap ar v l1 Q X :
    let g := Geom p (zlen l) cap in
    arg_rel (b +ₗ p) l ar v l1 ->
    dev_at a b p l cap ⊢
    ((∀ b' p' cap', ⟦room_to false 1 g b b' p' cap'⟧ -∗ dev_at a b' p' (l1 ++ [v]) cap' -∗
        Q (b' +ₗ (p' + zlen l)) (dobj a b' p' (zlen (l1 ++ [v])) cap')) ∧
     (∀ e l', ⟦emp_bad false g (0 < cap - p - zlen l) ar l l1 e l'⟧ -∗ dev_at a b p l' cap -∗
        X e (dobj a b p (zlen l) cap))) -∗
    wp (dv_emplace_back fixed ar) (dobj a b p (zlen l) cap) Q X.
  Proof.
    intros g Har. iIntros "Hd HK". iDestruct (dev_at_len with "Hd") as "[%Hlen Hd]".
    pose proof (arg_rel_length _ _ _ _ _ Har) as Hl1.
    unfold dv_emplace_back. wbind. iApply wp_get. wbeta. dred. rewrite loc_eqb_add.
    destruct (Z.eqb_spec (p + zlen l) cap) as [Hp0|Hp0]; cbn [negb].
    - wbind. iApply (wp_make_tmp with "Hd"); [done|]. iSplit; last first.
      { iIntros (l') "%Hx Hd". iDestruct "HK" as "[_ HK]". iApply ("HK" with "[%] Hd"). by apply arg_emp_bad. }
      iIntros "Hd". wbeta. wbind. iApply wp_dv_extra_back; [lia|]. wbeta. wbind. iApply wp_dv_front_room. wbeta.
      rewrite -Hl1 in Hlen Hp0 |- *. fold g.
      iApply (wp_make_room fixed false a b p l1 cap (length l1) (PEmplace v) [v] with "Hd"); try done; try lia.
      rewrite Hl1. iSplit.
      + iIntros (b' p' cap') "Hr Hd". rewrite insert_at_end; [|done]. iDestruct "HK" as "[HK _]".
        iApply ("HK" with "Hr Hd").
      + iIntros (e l') "%Hx Hd". iDestruct "HK" as "[_ HK]". iApply ("HK" with "[%] Hd").
        by eapply ins_emp_bad; [|lia|].
    - assert (make_room false 1 g = (false, Geom p (zlen l + 1) cap)) as Hm.
      { unfold make_room, g, g_back. cbn [g_front g_size g_cap]. rewrite (proj2 (Z.leb_le _ _)); [done|lia]. }
      wbind. rewrite loc_add_assoc. iDestruct "Hd" as "(_ & Ha & Hr1 & Hl & Hr2)".
      iDestruct (raws_one _ _ _ (Z.to_nat (cap - (p + zlen l + 1))) with "Hr2") as "[Hr Hr2]"; [lia|done|].
      iApply (wp_construct with "Hl Hr"); [by apply arg_rel_mk|]. iSplit.
      + iIntros "Hl Hr". wbeta. wbind. iApply (wp_set_last _ _ _ _ _ _ (zlen (l1 ++ [v]))); [f_equal; len; simpl; lia|].
        iApply wp_ret. iDestruct "HK" as "[HK _]".
        iApply ("HK" with "[%]"). { unfold room_to. by rewrite Hm. }
        iDestruct (elems_snoc_join with "Hl Hr") as "Hl"; [rewrite loc_add_assoc; f_equal; lia|done|].
        iApply (dev_at_intro with "Ha Hr1 Hl"); [lia|len; simpl; lia|].
        iApply (raws_eq with "Hr2"); [rewrite loc_add_assoc; f_equal; len; simpl; lia|len; simpl; lia].
      + iIntros "Hl Hr". iDestruct "Hl" as (l') "[%Hx Hl]". iDestruct "HK" as "[_ HK]".
        iApply ("HK" with "[%]"). { by apply arg_emp_bad. }
        iDestruct (raws_one_join _ (Z.to_nat (cap - (p + zlen l))) with "Hr Hr2") as "Hr2"; [done|lia|].
        destruct Hx as [Hx _]. rewrite -Hx. iFrame. iPureIntro. lia.
  Qed.

  (** 701-722 [emplace]. *)
  Definition emplace_here (k : nat) (g : geom) : Prop :=
    (k = 0%nat /\ 0 < g_front g) \/ ((0 < k)%nat /\ Z.of_nat k = g_size g /\ 0 < g_back g).
  Lemma wp_dv_emplace a b p l cap (k : nat) ar v l1 pos Q X :
    let g := Geom p (zlen l) cap in
    (k <= length l)%nat -> arg_rel (b +ₗ p) l ar v l1 ->
    fixed || negb (emplace_hazard k g) = true ->
    pos = b +ₗ (p + Z.of_nat k) ->
    dev_at a b p l cap ⊢
    ((∀ b' p' cap', ⟦room_to (emplace_front_side k g) 1 g b b' p' cap'⟧ -∗
        dev_at a b' p' (insert_at k [v] l1) cap' -∗
        Q (b' +ₗ (p' + Z.of_nat k)) (dobj a b' p' (zlen (insert_at k [v] l1)) cap')) ∧
     (∀ e l', ⟦emp_bad (emplace_front_side k g) g (emplace_here k g) ar l l1 e l'⟧ -∗ dev_at a b p l' cap -∗
        X e (dobj a b p (zlen l) cap))) -∗
    wp (dv_emplace fixed pos ar) (dobj a b p (zlen l) cap) Q X.
  Proof.
    intros g Hk Har Hhaz ->. iIntros "Hd HK". iDestruct (dev_at_len with "Hd") as "[%Hlen Hd]".
    pose proof (arg_rel_length _ _ _ _ _ Har) as Hl1.
    unfold dv_emplace. wbind. iApply wp_get. wbeta. wbind.
    iApply (wp_dv_offset _ _ _ _ _ _ (Z.of_nat k)); [lia|done|]. wbeta. dred. rewrite !loc_eqb_add.
    destruct (Z.eqb_spec (p + Z.of_nat k) p) as [H0|H0].
    { assert (k = 0%nat) as -> by lia. iApply (wp_emplace_front with "Hd"); [done|]. iSplit.
      - iIntros (b' p' cap') "Hr Hd". iDestruct "HK" as "[HK _]".
        iSpecialize ("HK" $! b' p' cap'). rewrite insert_at_0 Z.add_0_r. iApply ("HK" with "Hr Hd").
      - iIntros (e l') "%Hx Hd". iDestruct "HK" as "[_ HK]". iApply ("HK" with "[%] Hd").
        destruct Hx as [Hx He]. split; [done|]. destruct e; try done. intros Hm Hh. apply He; [done|].
        destruct Hh as [[[_ ?]|[? _]]|Hh]; [by left|lia|by right]. }
    assert (emplace_front_side k g = near_front k g) as Hside.
    { unfold emplace_front_side. destruct (Nat.eqb_spec k 0); [lia|done]. }
    destruct (Z.eqb_spec (p + Z.of_nat k) (p + zlen l)) as [H1|H1].
    { assert (k = length l) as -> by lia.
      assert (near_front (length l) g = false) as Hnear by (unfold near_front, g; cbn [g_size]; lia).
      rewrite Hside Hnear.
      iApply (wp_emplace_back with "Hd"); [done|]. iSplit.
      - iIntros (b' p' cap') "Hr Hd". iDestruct "HK" as "[HK _]". rewrite insert_at_end; [|done].
        iApply ("HK" with "Hr Hd").
      - iIntros (e l') "%Hx Hd". iDestruct "HK" as "[_ HK]". iApply ("HK" with "[%] Hd").
        destruct Hx as [Hx He]. split; [done|]. destruct e; try done. intros Hm Hh. apply He; [done|].
        destruct Hh as [[[? _]|(_ & _ & ?)]|Hh]; [lia|by left|by right]. }
    rewrite Hside. wbind. iApply (wp_make_tmp with "Hd"); [done|]. iSplit; last first.
    { iIntros (l') "%Hx Hd". iDestruct "HK" as "[_ HK]". iApply ("HK" with "[%] Hd"). by apply arg_emp_bad. }
    iIntros "Hd". wbeta. unfold g in *. rewrite -Hl1 in Hlen Hk Hhaz |- *.
    iApply (wp_insert_aux a b p l1 cap k (PEmplace v) [v] with "Hd"); try done.
    { unfold emplace_hazard in Hhaz. destruct fixed; [done|]. simpl in *. cbn [g_size] in Hhaz.
      destruct (Nat.eqb_spec k 0); [lia|]. destruct (Z.eqb_spec (Z.of_nat k) (zlen l1)); [lia|]. done. }
    iSplit.
    - iDestruct "HK" as "[HK _]". iExact "HK".
    - iIntros (e l') "%Hx Hd". iDestruct "HK" as "[_ HK]". iApply ("HK" with "[%] Hd").
      eapply ins_emp_bad; [done| |done]. intros [[? _]|(_ & ? & _)]; cbn [g_size] in *; lia.
  Qed.

  Lemma wp_dv_insert_fill a b p l cap (k : nat) v n pos Q X :
    let g := Geom p (zlen l) cap in
    (k <= length l)%nat ->
    fixed || negb (hazard k (Z.of_nat n) g) = true ->
    pos = b +ₗ (p + Z.of_nat k) ->
    dev_at a b p l cap ⊢
    ((∀ b' p' cap', ⟦room_to (near_front k g) (Z.of_nat n) g b b' p' cap'⟧ -∗
        dev_at a b' p' (insert_at k (replicate n v) l) cap' -∗
        Q (b' +ₗ (p' + Z.of_nat k)) (dobj a b' p' (zlen (insert_at k (replicate n v) l)) cap')) ∧
     (∀ e l', ⟦ins_bad (near_front k g) (Z.of_nat n) g True e l l'⟧ -∗ dev_at a b p l' cap -∗
        X e (dobj a b p (zlen l) cap))) -∗
    wp (dv_insert_fill fixed pos (Z.of_nat n) (AVal v)) (dobj a b p (zlen l) cap) Q X.
  Proof.
    intros g Hk Hhaz ->. iIntros "Hd HK". iDestruct (dev_at_len with "Hd") as "[%Hlen Hd]".
    unfold dv_insert_fill. wbind.
    iApply (wp_dv_offset _ _ _ _ _ _ (Z.of_nat k)); [lia|done|]. wbeta.
    iApply (wp_insert_aux a b p l cap k (PFill (AVal v)) (replicate n v) with "Hd HK"); try done.
    - exists v. by rewrite replicate_length.
    - by rewrite replicate_length.
  Qed.
  Lemma wp_dv_insert_range a b p l cap (k : nat) vs pos Q X :
    let g := Geom p (zlen l) cap in
    (k <= length l)%nat ->
    fixed || negb (hazard k (zlen vs) g) = true ->
    pos = b +ₗ (p + Z.of_nat k) ->
    dev_at a b p l cap ⊢
    ((∀ b' p' cap', ⟦room_to (near_front k g) (zlen vs) g b b' p' cap'⟧ -∗
        dev_at a b' p' (insert_at k vs l) cap' -∗
        Q (b' +ₗ (p' + Z.of_nat k)) (dobj a b' p' (zlen (insert_at k vs l)) cap')) ∧
     (∀ e l', ⟦ins_bad (near_front k g) (zlen vs) g True e l l'⟧ -∗ dev_at a b p l' cap -∗
        X e (dobj a b p (zlen l) cap))) -∗
    wp (dv_insert_range fixed pos (AVal <$> vs)) (dobj a b p (zlen l) cap) Q X.
  Proof.
    intros g Hk Hhaz ->. iIntros "Hd HK". iDestruct (dev_at_len with "Hd") as "[%Hlen Hd]".
    unfold dv_insert_range. wbind.
    iApply (wp_dv_offset _ _ _ _ _ _ (Z.of_nat k)); [lia|done|]. wbeta. rewrite fmap_length.
    iApply (wp_insert_aux a b p l cap k (PRange (AVal <$> vs)) vs with "Hd HK"); try done.
  Qed.

  Lemma insert_at_step (i : nat) v (vs l : list V) :
    (i <= length l)%nat -> insert_at (S i) vs (insert_at i [v] l) = insert_at i (v :: vs) l.
  Proof.
    intros Hi. unfold insert_at. rewrite (assoc_L app (take i l) [v]).
    rewrite take_app_alt; [|len; simpl; lia]. rewrite drop_app_alt; [|len; simpl; lia].
    by rewrite -assoc_L.
  Qed.
  Lemma make_room_size at_front n g : g_size (make_room at_front n g).2 = g_size g + n.
  Proof. unfold make_room. destruct at_front; repeat case_match; done. Qed.

  Lemma wp_dv_insert_input_loop a b p l cap (k : nat) vs Q X :
    (k <= length l)%nat ->
    fixed || negb (input_hazard k (length vs) (Geom p (zlen l) cap)) = true ->
    dev_at a b p l cap ⊢
    ((∀ b' p' cap', dev_at a b' p' (insert_at k vs l) cap' -∗
        Q tt (dobj a b' p' (zlen (insert_at k vs l)) cap')) ∧
     (∀ e b' p' l' cap', ⟦e <> EOutOfRange /\ (length l <= length l' < length l + length vs)%nat⟧ -∗
        dev_at a b' p' l' cap' -∗ X e (dobj a b' p' (zlen l') cap'))) -∗
    wp (dv_insert_input_loop fixed (b +ₗ (p + Z.of_nat k)) (AVal <$> vs)) (dobj a b p (zlen l) cap) Q X.
  Proof.
    intros Hk Hhaz. iIntros "Hd HK". iInduction vs as [|v vs] "IH" forall (b p l cap k Hk Hhaz); simpl.
    { iApply wp_ret. iDestruct "HK" as "[HK _]". unfold insert_at. rewrite /= take_drop. by iApply "HK". }
    wbind. iApply (wp_dv_emplace with "Hd"); [done|constructor| |done|].
    { destruct fixed; [done|]. simpl in *. lia. }
    iSplit; last first.
    { iIntros (e l') "%Hx Hd". iDestruct "HK" as "[_ HK]". destruct Hx as [Hl He]. rewrite -Hl.
      iApply ("HK" with "[%] Hd"). split; [by destruct e|lia]. }
    iIntros (b' p' cap') "%Hr Hd". rewrite loc_add_assoc. destruct Hr as (Hp & Hc & _).
    replace (p' + Z.of_nat k + 1) with (p' + Z.of_nat (S k)) by lia.
    iApply ("IH" with "[%] [%] Hd"); [len; simpl; lia| |].
    { destruct fixed; [done|]. simpl in *.
      replace (Geom p' (zlen (insert_at k [v] l)) cap')
        with (make_room (emplace_front_side k (Geom p (zlen l) cap)) 1 (Geom p (zlen l) cap)).2; [lia|].
      pose proof (make_room_size (emplace_front_side k (Geom p (zlen l) cap)) 1 (Geom p (zlen l) cap)) as Hs.
      destruct (make_room _ _ _) as [? [x1 x2 x3]]. cbn [snd g_front g_size g_cap] in *. subst. f_equal. len. simpl. lia. }
    iSplit.
    - rewrite insert_at_step; [|done]. iDestruct "HK" as "[HK _]". iExact "HK".
    - iIntros (e b2 p2 l' cap2) "%Hx Hd". iDestruct "HK" as "[_ HK]". iApply ("HK" with "[%] Hd").
      assert (length (insert_at k [v] l) = S (length l)) by (len; simpl; lia). destruct Hx. split; [done|lia].
  Qed.
  Lemma wp_dv_insert_input a b p l cap (k : nat) vs pos Q X :
    (k <= length l)%nat ->
    fixed || negb (input_hazard k (length vs) (Geom p (zlen l) cap)) = true ->
    pos = b +ₗ (p + Z.of_nat k) ->
    dev_at a b p l cap ⊢
    ((∀ b' p' cap', dev_at a b' p' (insert_at k vs l) cap' -∗
        Q (b' +ₗ (p' + Z.of_nat k)) (dobj a b' p' (zlen (insert_at k vs l)) cap')) ∧
     (∀ e b' p' l' cap', ⟦e <> EOutOfRange /\ (length l <= length l' < length l + length vs)%nat⟧ -∗
        dev_at a b' p' l' cap' -∗ X e (dobj a b' p' (zlen l') cap'))) -∗
    wp (dv_insert_input fixed pos (AVal <$> vs)) (dobj a b p (zlen l) cap) Q X.
  Proof.
    intros Hk Hhaz ->. iIntros "Hd HK". unfold dv_insert_input. wbind.
    iApply (wp_dv_offset _ _ _ _ _ _ (Z.of_nat k)); [lia|done|]. wbeta. wbind.
    iApply (wp_dv_insert_input_loop with "Hd"); [done|done|]. iSplit.
    - iIntros (b' p' cap') "Hd". wbind. iApply wp_get. wbeta. dred. rewrite loc_add_assoc.
      iApply wp_ret. iDestruct "HK" as "[HK _]". iApply ("HK" with "Hd").
    - iDestruct "HK" as "[_ HK]". iExact "HK".
  Qed.

  (** [push_back] in a loop. *)
  Lemma wp_dv_append_loop a b p l cap vs Q X :
    dev_at a b p l cap ⊢
    ((∀ b' p' cap', ⟦zlen l + zlen vs <= cap - p -> b' = b /\ p' = p /\ cap' = cap⟧ -∗
        dev_at a b' p' (l ++ vs) cap' -∗ Q tt (dobj a b' p' (zlen (l ++ vs)) cap')) ∧
     (∀ e b' p' l' cap', ⟦e <> EOutOfRange /\ (length l <= length l' < length l + length vs)%nat⟧ -∗
        dev_at a b' p' l' cap' -∗ X e (dobj a b' p' (zlen l') cap'))) -∗
    wp (dv_append_loop fixed (AVal <$> vs)) (dobj a b p (zlen l) cap) Q X.
  Proof.
    iIntros "Hd HK". iInduction vs as [|v vs] "IH" forall (b p l cap); simpl.
    { iApply wp_ret. iDestruct "HK" as "[HK _]". rewrite app_nil_r. by iApply ("HK" with "[%]"). }
    wbind. iApply (wp_emplace_back with "Hd"); [constructor|].
    iSplit; last first.
    { iIntros (e l') "%Hx Hd". iDestruct "HK" as "[_ HK]". destruct Hx as [Hl He]. rewrite -Hl.
      iApply ("HK" with "[%] Hd"). split; [by destruct e|lia]. }
    iIntros (b' p' cap') "%Hr Hd".
    iApply ("IH" with "Hd"). iSplit.
    - rewrite -assoc_L /=. iIntros (b2 p2 cap2) "%Hk Hd". iDestruct "HK" as "[HK _]".
      iApply ("HK" with "[%] Hd"). intros Hfit. destruct Hr as (Hp & Hc & Hb).
      unfold make_room, g_back in *. cbn [g_front g_size g_cap] in *.
      rewrite (proj2 (Z.leb_le _ _)) in Hp, Hc, Hb; [|simpl in Hfit; lia..]. cbn [fst snd g_front g_cap] in *.
      subst p' cap'. specialize (Hb eq_refl). subst b'. apply Hk. len. simpl in *. lia.
    - iIntros (e b2 p2 l' cap2) "%Hx Hd". iDestruct "HK" as "[_ HK]". iApply ("HK" with "[%] Hd").
      assert (length (l ++ [v]) = S (length l)) by (len; simpl; lia). destruct Hx. split; [done|lia].
  Qed.
End inserting.
