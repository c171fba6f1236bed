(** * Cost of insertion and erasure in sfl::devector *)

From iris.proofmode Require Import tactics.
From Verif Require Export InsertCost DevInsertSpec.
From Coq Require Import Lia ZifyBool.
Open Scope Z_scope.

Section px.
  Context `{E : Env} {St : Type}.
  Lemma any_px_uninit px d n : takes (px_uninit px d n : M St _) n (Z.max 0 n).
  Proof.
    destruct px as [v|srcs|a].
    - eapply takes_mono; [apply takes_px_uninit|lia..].
    - unfold px_uninit. intros s w r s' w'. unfold assert_. destruct (n <=? _) eqn:Hn; [|done]. unfold bind at 1, ret at 1.
      intros Hr. apply run_bind in Hr as (q & s1 & w1 & H1 & Hr). injection Hr as <- <- <-.
      apply takes_uninit_loop in H1. rewrite take_length in H1. lia.
    - unfold px_uninit. intros s w r s' w' Hr. apply run_bind in Hr as (q & s1 & w1 & H1 & Hr). injection Hr as <- <- <-.
      apply takes_uninit_fill in H1. unfold loc_add in H1. cbn in H1. lia.
  Qed.
  Lemma any_px_insert px d n : takes (px_insert px d n : M St _) n (2 * Z.max 0 n).
  Proof.
    destruct px as [v|srcs|a].
    - unfold px_insert. destruct (n =? 0) eqn:?; [eapply takes_mono; [apply takes_ret|lia..]|].
      intros s w r s' w' Hr. unfold assert_ in Hr. destruct (n =? 1) eqn:Hn; [|done].
      assert (n = 1) as -> by lia. apply (takes_px_insert v d 1 s w r s' w') in Hr. lia.
    - unfold px_insert. intros s w r s' w'. unfold assert_. destruct (n <=? _) eqn:Hn; [|done]. unfold bind at 1, ret at 1.
      intros Hr. apply run_bind in Hr as (q & s1 & w1 & H1 & Hr). injection Hr as <- <- <-.
      apply takes_assign_loop in H1. rewrite take_length in H1. lia.
    - unfold px_insert. intros s w r s' w' Hr. apply run_bind in Hr as (q & s1 & w1 & H1 & Hr). injection Hr as <- <- <-.
      apply takes_fill in H1. unfold loc_add in H1. cbn in H1. lia.
  Qed.
End px.

Local Ltac tk :=
  cbv zeta; cbn [fst snd];
  match goal with
  | |- takes (guarded _ _) _ _ => apply takes_try; tk
  | |- takes (try_ _ _) _ _ => apply takes_try; tk
  | |- takes (bind (ptr_sub _ _) _) _ _ => apply takes_sub; intros _; tk
  | |- takes (bind _ _) _ _ => eapply takes_bind; [tk|intros; tk]
  | |- takes (uninitialized_move_a _ _ _) _ _ => apply takes_uninit_move
  | |- takes (move _ _ _) _ _ => apply takes_move
  | |- takes (move_unless_same _ _ _) _ _ => apply takes_move_unless
  | |- takes (move_backward_unless_same _ _ _) _ _ => apply takes_back_unless
  | |- takes (destroy_a _ _) _ _ => apply takes_destroy
  | |- takes (ret _) _ _ => apply takes_ret
  | |- takes (px_insert _ _ _) _ _ => apply any_px_insert
  | |- takes (px_uninit _ _ _) _ _ => apply any_px_uninit
  end.
Local Ltac tk_sum := unfold loc_eqb, loc_add; cbn [fst snd]; repeat match goal with |- context [?a && ?b] => destruct (a && b) eqn:? end; lia.
Local Ltac tk_branch := eapply takes_mono; [tk|tk_sum|tk_sum].

Section shift.
  Context `{E : Env}.
  Context {St : Type}.
  Lemma any_shift_back px B f k m n x : 0 <= k -> 0 <= m -> 0 < n -> 0 < x ->
    takes (shift_back_body false px n (B, f) (B, f + k) (B, f + (k + m))
             (B, f + (x - n)) (B, f + (x - n) + k) (B, f + (x - n) + k + n) (B, f + (x - n) + k + n + m) : M St unit)
      0 (k + m + 2 * n).
  Proof.
    intros Hk Hm Hn Hx. unfold shift_back_body.
    repeat first [apply takes_ge; cbn [fst snd]; intros ?|apply takes_assert; intros Hf; discriminate Hf].
    all: try (exfalso; lia).
    all: unfold back_1, back_2, back_3, back_4, back_5, back_6, back_7, back_8, back_9, back_10, back_11.
    all: tk_branch.
  Qed.
  Lemma any_shift_front px B f k m n x : 0 <= k -> 0 <= m -> 0 < n -> 0 < x ->
    takes (shift_front_body false px n (B, f) (B, f + k) (B, f + (k + m))
             (B, f - x) (B, f - x + k) (B, f - x + k + n) (B, f - x + k + n + m) : M St unit)
      0 (k + m + 2 * n).
  Proof.
    intros Hk Hm Hn Hx. unfold shift_front_body.
    repeat first [apply takes_le; cbn [fst snd]; intros ?|apply takes_assert; intros Hf; discriminate Hf].
    all: try (exfalso; lia).
    all: unfold front_1, front_2, front_3, front_4, front_5, front_6, front_7, front_8.
    all: tk_branch.
  Qed.

  Lemma takes_insert_front px first k n : 0 <= k -> 0 < n ->
    takes (if n <? k then insert_front_1 px first k n else insert_front_2 px first k n : M St unit) (k + n) (k + 2 * n).
  Proof.
    intros Hk Hn. destruct first as [B f]. destruct (n <? k) eqn:?; [unfold insert_front_1|unfold insert_front_2]; tk_branch.
  Qed.
  Lemma takes_insert_back px B f k m n : 0 <= k -> 0 <= m -> 0 < n ->
    takes (if n <? m then insert_back_1 px (B, f) (B, f + (k + m)) k m n
           else insert_back_2 px (B, f) (B, f + (k + m)) k m n : M St unit) (m + n) (m + 2 * n).
  Proof.
    intros Hk Hm Hn. destruct (n <? m) eqn:?; [unfold insert_back_1|unfold insert_back_2]; tk_branch.
  Qed.
End shift.

Section calls.
  Context `{E : Env}.
  Lemma at_throw {St A} e (s : St) lo hi : takes_at (throw e : M St A) s lo hi.
  Proof. by intros w r s' w' Hr. Qed.
  Lemma any_grow_insert to_front add pos n px x :
    0 <= (d_eos x).2 - (d_bos x).2 ->
    let c := (d_last x).2 - (d_first x).2 + n + 1 in
    takes_at (dv_grow_insert to_front add pos n px) x c c.
  Proof.
    intros Hcap c. unfold dv_grow_insert.
    eapply at_reads0; [apply reads_assert|]. intros ? Hadd. cbn in Hadd.
    eapply at_reads0; [apply reads_get|]. intros ? <-.
    eapply at_reads0; [apply reads_offset|]. intros k Hk.
    eapply at_reads0; [apply reads_assert|]. intros ? Hn. cbn in Hn.
    eapply at_reads0; [apply reads_dv_cap|]. intros cap ->.
    destruct (max_size - _ <? add); [apply at_throw|].
    eapply at_reads0; [apply reads_dv_size|]. intros sz ->.
    eapply at_reads0; [apply reads_room_b|]. intros ab ->.
    eapply at_reads0; [apply reads_room_f|]. intros af ->.
    apply at_takes. eapply takes_mono; [eapply takes_bind|..].
    - apply takes_alloc. lia.
    - intros b. eapply takes_bind; [apply takes_local|].
      + eapply takes_bind; [apply takes_try|].
        * eapply takes_bind; [apply takes_uninit_move|]. intros nl.
          apply takes_bind0; [apply takes_bounded, bounded_setl|]. intros _.
          eapply takes_bind; [apply any_px_uninit|]. intros q.
          apply takes_bind0; [apply takes_bounded, bounded_setl|]. intros _.
          eapply takes_bind; [apply takes_uninit_move|]. intros nl3. apply takes_bounded, bounded_setl.
        * intros _. apply takes_bounded, bounded_getl.
      + intros nl. eapply takes_bind; [apply takes_replace|]. intros _. apply takes_ret.
    - subst c. unfold loc_add. simpl. lia.
    - subst c. unfold loc_add. simpl. lia.
  Qed.

  Lemma offset_in pos x : reads (dv_offset pos) x
    (fun k => k = pos.2 - (d_first x).2 /\ 0 <= k <= (d_last x).2 - (d_first x).2) 0.
  Proof.
    eapply reads_reads; [apply reads_get|]. intros ? <-. eapply reads_reads; [apply reads_sub|]. intros k ->.
    eapply reads_reads; [apply reads_dv_size|]. intros n ->. eapply reads_reads; [apply reads_assert|]. intros ? Hb.
    apply reads_ret. cbn beta in Hb. lia.
  Qed.
  Lemma reads_any_front n x :
    reads (dv_extra_front n) x (fun r => (d_first x).2 - (d_bos x).2 < n -> 0 < r) 0.
  Proof.
    eapply reads_reads; [apply reads_get|]. intros ? <-. eapply reads_reads; [apply reads_sub|]. intros ? ->.
    eapply reads_reads; [apply reads_sub|]. intros ? ->. apply reads_ret. intros Hlt. destruct (_ <=? _) eqn:?; lia.
  Qed.
  Lemma reads_any_back n x :
    reads (dv_extra_back n) x (fun r => (d_eos x).2 - (d_last x).2 < n -> 0 < r) 0.
  Proof.
    eapply reads_reads; [apply reads_get|]. intros ? <-. eapply reads_reads; [apply reads_sub|]. intros ? ->.
    eapply reads_reads; [apply reads_sub|]. intros ? ->. apply reads_ret. intros Hlt. destruct (_ <=? _) eqn:?; lia.
  Qed.

  Lemma at_shift_back shift px n x (A : dabs) mm i :
    is_dev x A mm -> 0 <= i <= Z.of_nat (length (e_elems A)) ->
    takes_at (dv_shift_to_back false shift (d_first x +ₗ i) n px) x 0 (Z.of_nat (length (e_elems A)) + 2 * n).
  Proof.
    intros [I1 I2 I3 I4 I5 I6 I7 I8 I9 _] Hi. unfold dv_shift_to_back.
    eapply at_reads0; [apply reads_assert|]. intros ? H0. cbn in H0.
    eapply at_reads0; [apply reads_get|]. intros ? <-.
    eapply at_reads0; [apply reads_offset|]. intros k Hk.
    eapply at_reads0; [apply reads_assert|]. intros ? Hn. cbn in Hn.
    eapply at_reads0; [apply reads_sub|]. intros m Hm.
    apply at_takes. cbv zeta. eapply takes_mono; [eapply takes_bind|..].
    2:{ intros _. eapply takes_bind0; [apply takes_mod|]. intros _.
        eapply takes_bind0; [apply takes_mod|]. intros _. apply takes_ret. }
    - pose proof (any_shift_back (St := ddata) px (e_bos A).1 ((e_bos A).2 + e_front A) i (Z.of_nat (length (e_elems A)) - i) n shift) as Hs.
      rewrite I3 I4 in Hk, Hm |- *. unfold loc_add in *. cbn [fst snd] in *.
      replace k with i by lia. replace m with (Z.of_nat (length (e_elems A)) - i) by lia.
      match type of Hs with _ -> _ -> _ -> _ -> takes ?m _ _ => match goal with |- takes ?m' _ _ => replace m' with m; [apply Hs; lia|] end end.
      do 2 f_equal; lia.
    - lia.
    - lia.
  Qed.
  Lemma at_shift_front shift px n x (A : dabs) mm i :
    is_dev x A mm -> 0 <= i <= Z.of_nat (length (e_elems A)) ->
    takes_at (dv_shift_to_front false shift (d_first x +ₗ i) n px) x 0 (Z.of_nat (length (e_elems A)) + 2 * n).
  Proof.
    intros [I1 I2 I3 I4 I5 I6 I7 I8 I9 _] Hi. unfold dv_shift_to_front.
    eapply at_reads0; [apply reads_assert|]. intros ? H0. cbn in H0.
    eapply at_reads0; [apply reads_get|]. intros ? <-.
    eapply at_reads0; [apply reads_offset|]. intros k Hk.
    eapply at_reads0; [apply reads_assert|]. intros ? Hn. cbn in Hn.
    eapply at_reads0; [apply reads_sub|]. intros m Hm.
    apply at_takes. cbv zeta. eapply takes_mono; [eapply takes_bind|..].
    2:{ intros _. eapply takes_bind0; [apply takes_mod|]. intros _.
        eapply takes_bind0; [apply takes_mod|]. intros _. apply takes_ret. }
    - pose proof (any_shift_front (St := ddata) px (e_bos A).1 ((e_bos A).2 + e_front A) i (Z.of_nat (length (e_elems A)) - i) n shift) as Hs.
      rewrite I3 I4 in Hk, Hm |- *. unfold loc_add in *. cbn [fst snd] in *.
      replace k with i by lia. replace m with (Z.of_nat (length (e_elems A)) - i) by lia.
      match type of Hs with _ -> _ -> _ -> _ -> takes ?m _ _ => match goal with |- takes ?m' _ _ => replace m' with m; [apply Hs; lia|] end end.
      do 2 f_equal; lia.
    - lia.
    - lia.
  Qed.

  (** What [n] new elements before element [i] cost. *)
  Definition lo (i n s room total : Z) : Z :=
    if n =? 0 then 0 else if n <=? room then Z.min i (s - i) + n else if total =? 0 then s + n + 1 else 0.
  Definition hi (i n s room : Z) : Z :=
    if n =? 0 then 0 else if n <=? room then Z.min i (s - i) + 2 * n else s + 2 * n + 1.

  Lemma at_insert_aux px n x (A : dabs) mm i :
    is_dev x A mm -> 0 <= i <= Z.of_nat (length (e_elems A)) -> 0 <= n ->
    let s := Z.of_nat (length (e_elems A)) in
    let g := geom_of A in
    let room := if i <? s - i then g_front g else g_back g in
    takes_at (dv_insert_aux false (d_first x +ₗ i) n px) x (lo i n s room (g_cap g - s)) (hi i n s room).
  Proof.
    intros Hd Hi Hn s g room. pose proof Hd as [I1 I2 I3 I4 I5 I6 I7 I8 I9 _]. unfold dv_insert_aux.
    eapply at_reads0; [apply reads_get|]. intros ? <-.
    eapply at_reads0; [apply reads_offset|]. intros k Hk.
    unfold lo, hi. destruct (n =? 0) eqn:H0; [apply at_takes, takes_ret|].
    eapply at_reads0; [apply reads_sub|]. intros m Hm.
    eapply at_reads0; [apply reads_room_f|]. intros af Haf.
    eapply at_reads0; [apply reads_room_b|]. intros ab Hab.
    assert (k = i) as -> by (rewrite Hk; unfold loc_add; simpl; lia).
    assert (m = s - i) as -> by (rewrite Hm I3 I4; unfold loc_add, s; simpl; lia).
    assert (af = g_front g) as -> by (rewrite Haf I3 I2; unfold loc_add, g, geom_of; simpl; lia).
    assert (ab = g_back g) as -> by (rewrite Hab I4 I5; unfold loc_add, g, geom_of, g_back; simpl; lia).
    assert ((d_last x).2 - (d_first x).2 = s) as Hsz by (rewrite I3 I4; unfold loc_add, s; simpl; lia).
    assert (0 <= (d_eos x).2 - (d_bos x).2) as Hc by (rewrite I5 I2; unfold loc_add; simpl; lia).
    assert (0 <= g_front g /\ 0 <= s /\ 0 <= g_back g) as (G1 & G2 & G3) by (unfold g, geom_of, g_back, s; simpl; lia).
    assert (g_cap g - s = g_front g + g_back g) as G4 by (unfold g, geom_of, g_back, s; simpl; lia).
    unfold room. destruct (i <? s - i) eqn:Hs.
    - destruct (n <=? g_front g) eqn:Hr.
      + apply at_takes. cbv zeta. eapply takes_mono; [eapply takes_bind; [apply takes_insert_front; lia|]|..].
        * intros _. eapply takes_bind0; [apply takes_mod|]. intros _. apply takes_ret.
        * lia.
        * lia.
      + eapply at_reads0; [apply reads_any_front|]. intros add Hadd. rewrite <- Haf in Hadd. specialize (Hadd ltac:(lia)).
        destruct (add <? g_back g) eqn:Hab2.
        * destruct (g_cap g - s =? 0) eqn:?; [lia|].
          eapply at_mono; [by eapply at_shift_back|lia|fold s; lia].
        * eapply at_mono; [by apply any_grow_insert|destruct (g_cap g - s =? 0); lia|lia].
    - destruct (n <=? g_back g) eqn:Hr.
      + apply at_takes. cbv zeta. pose proof (takes_insert_back (St := ddata) px (d_first x).1 (d_first x).2 i (s - i) n) as Hb.
        eapply takes_mono; [eapply takes_bind|..].
        * match type of Hb with _ -> _ -> _ -> takes ?m _ _ => match goal with |- takes ?m' _ _ => replace m' with m; [apply Hb; lia|] end end.
          rewrite <- surjective_pairing. replace ((d_first x).1, (d_first x).2 + (i + (s - i))) with (d_last x); [done|].
          rewrite I3 I4. unfold loc_add, s. simpl. f_equal. lia.
        * intros _. eapply takes_bind0; [apply takes_mod|]. intros _. apply takes_ret.
        * lia.
        * lia.
      + eapply at_reads0; [apply reads_any_back|]. intros add Hadd. rewrite <- Hab in Hadd. specialize (Hadd ltac:(lia)).
        destruct (add <? g_front g) eqn:Hab2.
        * destruct (g_cap g - s =? 0) eqn:?; [lia|].
          eapply at_mono; [by eapply at_shift_front|lia|fold s; lia].
        * eapply at_mono; [by apply any_grow_insert|destruct (g_cap g - s =? 0); lia|lia].
  Qed.

  Notation cost w w' := (Z.of_nat (tick w') - Z.of_nat (tick w)).
  (** The three cases of an insertion. *)
  Definition fits (i n s : nat) (room total : Z) (c : Z) : Prop :=
    let k := Z.of_nat i in let m := Z.of_nat n in let z := Z.of_nat s in
    (n = 0%nat -> c <= 0) /\
    ((0 < n)%nat -> m <= room -> Z.min k (z - k) + m <= c <= Z.min k (z - k) + 2 * m + 1) /\
    (c <= z + 2 * m + 2) /\
    ((0 < n)%nat -> total = 0 -> z + m + 1 <= c).
  Lemma fits_lo_hi i n s room total c : (i <= s)%nat -> 0 <= room <= total ->
    lo (Z.of_nat i) (Z.of_nat n) (Z.of_nat s) room total <= c <= hi (Z.of_nat i) (Z.of_nat n) (Z.of_nat s) room ->
    fits i n s room total c.
  Proof.
    unfold lo, hi, fits. intros Hi Hr Hc. cbv zeta.
    destruct (Z.of_nat n =? 0) eqn:?; [|destruct (_ <=? room) eqn:?]; [..|destruct (total =? 0) eqn:?]; lia.
  Qed.
  Lemma dev_insert_fits o x (A : dabs) w hf r x' w' i n :
    let s := length (e_elems A) in let g := geom_of A in
    dev_inserts o s = Some (i, n) -> (i <= s)%nat ->
    holds is_dev x A w hf -> dev_call o x w = Ok r x' w' ->
    fits i n s (near_room o g) (g_cap g - Z.of_nat s) (cost w w').
  Proof.
    intros s g Ho Hi (_ & mm & Hd & _) Hr. pose proof Hd as [I1 I2 I3 I4 I5 I6 I7 I8 I9 _].
    assert (0 <= g_front g /\ 0 <= g_back g) as (G1 & G3) by (unfold g, geom_of, g_back, s; simpl; lia).
    assert (g_cap g - Z.of_nat s = g_front g + g_back g) as G4 by (unfold g, geom_of, g_back, s; simpl; lia).
    assert (0 <= near_room o g <= g_cap g - Z.of_nat s) as G5 by (unfold near_room; destruct (front_side o g); lia).
    unfold dev_call, run_dop in Hr. unfold bind at 1, getS at 1 in Hr. cbv zeta in Hr.
    assert (forall a, takes_at (dv_emplace_front false a) x
              (if 0 <? g_front g then 1 else Z.of_nat s + 2) (if 0 <? g_front g then 1 else Z.of_nat s + 3)) as Hfr
      by (intros a; exact (at_emplace_front a x A mm Hd)).
    assert (forall a, takes_at (dv_emplace_back false a) x
              (if 0 <? g_back g then 1 else Z.of_nat s + 2) (if 0 <? g_back g then 1 else Z.of_nat s + 3)) as Hba
      by (intros a; exact (at_emplace_back a x A mm Hd)).
    destruct o; try discriminate Ho; injection Ho as <- <-.
    - (* emplace *)
      unfold dv_emplace in Hr.
      assert (loc_eqb (d_first x +ₗ Z.of_nat i0) (d_first x) = (i0 =? 0)%nat) as Hq1
        by (unfold loc_eqb, loc_add; simpl; lia).
      assert (loc_eqb (d_first x +ₗ Z.of_nat i0) (d_last x) = (i0 =? s)%nat) as Hq2
        by (rewrite I3 I4; unfold loc_eqb, loc_add, s; simpl; lia).
      assert (takes_at (dv_emplace false (d_first x +ₗ Z.of_nat i0) (d_arg x x0)) x
        (if (i0 =? 0)%nat then if 0 <? g_front g then 1 else Z.of_nat s + 2 else
         if (i0 =? s)%nat then if 0 <? g_back g then 1 else Z.of_nat s + 2 else
           1 + lo (Z.of_nat i0) 1 (Z.of_nat s) (near_room (DEmplace i0 x0) g) (g_cap g - Z.of_nat s))
        (if (i0 =? 0)%nat then if 0 <? g_front g then 1 else Z.of_nat s + 3 else
         if (i0 =? s)%nat then if 0 <? g_back g then 1 else Z.of_nat s + 3 else
           1 + hi (Z.of_nat i0) 1 (Z.of_nat s) (near_room (DEmplace i0 x0) g))) as Ht.
      { unfold dv_emplace. eapply at_reads0; [apply reads_get|]. intros ? <-.
        eapply at_reads0; [apply reads_offset|]. intros k Hk. rewrite Hq1 Hq2.
        destruct (i0 =? 0)%nat eqn:Q1; [apply Hfr|]. destruct (i0 =? s)%nat eqn:Q2; [apply Hba|].
        eapply at_reads; [apply reads_make|]. intros tmp _.
        pose proof (at_insert_aux (PEmplace tmp) 1 x A mm (Z.of_nat i0) Hd ltac:(fold s; lia) ltac:(lia)) as Hx.
        cbv zeta in Hx. fold s g in Hx. unfold near_room, front_side, emplace_front_side, near_front. rewrite Q1.
        exact Hx. }
      apply (takes_d_idx _ _ _ _ Ht) in Hr. clear Ht.
      unfold near_room, front_side, emplace_front_side, near_front in *. change (g_size g) with (Z.of_nat s) in *.
      destruct (i0 =? 0)%nat eqn:Q1; cbn [orb] in *; [unfold fits; destruct (0 <? g_front g) eqn:?; lia|].
      destruct (i0 =? s)%nat eqn:Q2.
      { unfold fits. replace (Z.of_nat i0 <? Z.of_nat s - Z.of_nat i0) with false in * by lia.
        destruct (0 <? g_back g) eqn:?; lia. }
      assert (forall c room, fits i0 1 s room (g_cap g - Z.of_nat s) c -> c = cost w w' - 1 ->
        1 + hi (Z.of_nat i0) 1 (Z.of_nat s) room >= cost w w' -> fits i0 1 s room (g_cap g - Z.of_nat s) (cost w w')) as Hf.
      { intros c room (F1 & F2 & F3 & F4) -> Hh. unfold hi in Hh. cbn in Hh. unfold fits. split_and!; [lia| |destruct (1 <=? room); lia|lia].
        intros _ Hrm. specialize (F2 ltac:(lia) Hrm). change (Z.of_nat 1) with 1 in *.
        destruct (1 <=? room) eqn:?; lia. }
      eapply Hf; [|reflexivity|lia]. apply fits_lo_hi; [lia|lia|]. change (Z.of_nat 1) with 1. lia.
    - apply (takes_d_idx _ _ _ _ (Hfr _)) in Hr. unfold fits, near_room, front_side. destruct (0 <? g_front g) eqn:?; lia.
    - apply (takes_d_idx _ _ _ _ (Hba _)) in Hr. unfold fits, near_room, front_side. destruct (0 <? g_back g) eqn:?; lia.
    - apply fits_lo_hi; [done|done|].
      assert (takes_at (dv_insert_fill false (d_first x +ₗ Z.of_nat i0) (Z.of_nat n0) (d_arg x x0)) x
        (lo (Z.of_nat i0) (Z.of_nat n0) (Z.of_nat s) (near_room (DInsertN i0 n0 x0) g) (g_cap g - Z.of_nat s))
        (hi (Z.of_nat i0) (Z.of_nat n0) (Z.of_nat s) (near_room (DInsertN i0 n0 x0) g))) as Ht.
      { unfold dv_insert_fill. eapply at_reads0; [apply reads_offset|]. intros k Hk.
        exact (at_insert_aux (PFill (d_arg x x0)) (Z.of_nat n0) x A mm (Z.of_nat i0) Hd ltac:(fold s; lia) ltac:(lia)). }
      apply (takes_d_idx _ _ _ _ Ht) in Hr. lia.
    - apply fits_lo_hi; [done|done|].
      assert (takes_at (dv_insert_range false (d_first x +ₗ Z.of_nat i0) (AVal <$> vs)) x
        (lo (Z.of_nat i0) (Z.of_nat (length vs)) (Z.of_nat s) (near_room (DInsertRange i0 vs) g) (g_cap g - Z.of_nat s))
        (hi (Z.of_nat i0) (Z.of_nat (length vs)) (Z.of_nat s) (near_room (DInsertRange i0 vs) g))) as Ht.
      { unfold dv_insert_range. eapply at_reads0; [apply reads_offset|]. intros k Hk.
        set (srcs := (AVal <$> vs : list arg)). assert (length srcs = length vs) as Hl by apply fmap_length.
        pose proof (at_insert_aux (PRange srcs) (Z.of_nat (length srcs)) x A mm (Z.of_nat i0) Hd ltac:(fold s; lia) ltac:(lia)) as Hx.
        rewrite Hl in Hx |- *. exact Hx. }
      apply (takes_d_idx _ _ _ _ Ht) in Hr. lia.
  Qed.

  (** ** The statements *)
  Lemma dev_insert_near o x (A : dabs) w hf r x' w' i n :
    dev_inserts o (length (e_elems A)) = Some (i, n) -> (i <= length (e_elems A))%nat -> (0 < n)%nat ->
    holds is_dev x A w hf -> Z.of_nat n <= near_room o (geom_of A) -> dev_call o x w = Ok r x' w' ->
    (tick w + near i (length (e_elems A)) + n <= tick w' <= tick w + near i (length (e_elems A)) + 2 * n + 1)%nat.
  Proof.
    intros Ho Hi Hn Hx Hroom Hr. destruct (dev_insert_fits o x A w hf r x' w' i n Ho Hi Hx Hr) as (_ & H & _).
    specialize (H Hn Hroom). unfold near. lia.
  Qed.
  Lemma dev_insert_any o x (A : dabs) w hf r x' w' i n :
    dev_inserts o (length (e_elems A)) = Some (i, n) -> (i <= length (e_elems A))%nat ->
    holds is_dev x A w hf -> dev_call o x w = Ok r x' w' ->
    (tick w' <= tick w + length (e_elems A) + 2 * n + 2)%nat.
  Proof.
    intros Ho Hi Hx Hr. destruct (dev_insert_fits o x A w hf r x' w' i n Ho Hi Hx Hr) as (_ & _ & H & _). lia.
  Qed.
  Lemma dev_insert_full o x (A : dabs) w hf r x' w' i n :
    dev_inserts o (length (e_elems A)) = Some (i, n) -> (i <= length (e_elems A))%nat -> (0 < n)%nat ->
    holds is_dev x A w hf -> e_cap A = Z.of_nat (length (e_elems A)) -> dev_call o x w = Ok r x' w' ->
    (tick w + length (e_elems A) + n + 1 <= tick w')%nat.
  Proof.
    intros Ho Hi Hn Hx Hf Hr. destruct (dev_insert_fits o x A w hf r x' w' i n Ho Hi Hx Hr) as (_ & _ & _ & H).
    cbn in H. specialize (H Hn ltac:(lia)). lia.
  Qed.

  Lemma dev_remove_cost o x (A : dabs) w hf r x' w' c :
    dev_removes o (length (e_elems A)) = Some c -> holds is_dev x A w hf ->
    dev_call o x w = Ok r x' w' -> tick w' = (tick w + c)%nat.
  Proof.
    intros Ho (_ & mm & Hd & _) Hr. pose proof Hd as [I1 I2 I3 I4 I5 I6 I7 I8 I9 _].
    set (s := length (e_elems A)) in *.
    unfold dev_call, run_dop in Hr. unfold bind at 1, getS at 1 in Hr. cbv zeta in Hr.
    assert (forall m : M ddata unit, takes m 0 0 -> takes_at (d_unit m) x 0 0) as Hu.
    { intros m Hm. apply at_takes. apply takes_bind0; [done|]. intros; apply takes_ret. }
    assert (forall p : loc, takes (destroy_at p : M ddata unit) 0 0) as Hda by (intros p; apply takes_bounded, bounded_destroy_at).
    destruct o; try discriminate Ho; injection Ho as <-.
    - apply Hu in Hr; [lia|]. unfold dv_pop_front. apply takes_bind0; [apply takes_get|]. intros o.
      apply takes_bind0; [apply takes_assert; lia|]. intros _. apply takes_bind0; [done|intros; apply takes_mod].
    - apply Hu in Hr; [lia|]. unfold dv_pop_back. apply takes_bind0; [apply takes_get|]. intros o.
      apply takes_bind0; [apply takes_assert; lia|]. intros _. apply takes_bind0; [apply takes_mod|intros; done].
    - 
      assert (takes_at (dv_erase (d_first x +ₗ Z.of_nat i)) x (Z.of_nat (Nat.min i (s - S i))) (Z.of_nat (Nat.min i (s - S i)))) as Ht.
      { eapply at_reads0; [apply reads_get|]. intros ? <-.
        eapply at_reads0; [apply offset_in|]. intros k (Hk & Hk2).
        eapply at_reads0; [apply reads_assert|]. intros ? Hne. eapply at_reads0; [apply reads_sub|]. intros m Hm.
        rewrite I3 I4 in Hk, Hk2, Hm, Hne |- *. unfold loc_add, loc_eqb in *. cbn [fst snd] in *. fold s in Hk2, Hm, Hne |- *.
        apply at_takes. destruct (k <? m) eqn:Hkm.
        - eapply takes_mono; [eapply (takes_bind _ _ _ _ 0 0); [apply takes_move_backward|]|cbn [fst snd]; lia..].
          intros nf. apply takes_bind0; [apply takes_mod|]. intros _. apply takes_bind0; [done|intros; apply takes_ret].
        - eapply takes_mono; [eapply (takes_bind _ _ _ _ 0 0); [apply takes_move|]|cbn [fst snd]; lia..].
          intros nf. apply takes_bind0; [apply takes_mod|]. intros _. apply takes_bind0; [done|intros; apply takes_ret]. }
      apply (takes_d_idx _ _ _ _ Ht) in Hr. lia.
    - set (c := (if (i =? j)%nat then 0 else Nat.min i (s - j))%nat).
      assert (takes_at (dv_erase_range (d_first x +ₗ Z.of_nat i) (d_first x +ₗ Z.of_nat j)) x (Z.of_nat c) (Z.of_nat c)) as Ht.
      { eapply at_reads0; [apply reads_get|]. intros ? <-.
        eapply at_reads0; [apply offset_in|]. intros k1 (Hk1 & Hk12).
        eapply at_reads0; [apply offset_in|]. intros k2 (Hk2 & Hk22).
        eapply at_reads0; [apply reads_assert|]. intros ? Hle. cbn beta in Hle.
        rewrite I3 I4 in Hk1, Hk12, Hk2, Hk22 |- *. unfold loc_add in *. cbn [fst snd] in *. fold s in Hk12, Hk22 |- *.
        assert (loc_eqb ((e_bos A).1, (e_bos A).2 + e_front A + Z.of_nat i) ((e_bos A).1, (e_bos A).2 + e_front A + Z.of_nat j) = (i =? j)%nat) as ->
          by (unfold loc_eqb; simpl; lia).
        unfold c. destruct (i =? j)%nat eqn:Hij; [apply at_takes; apply takes_ret|].
        eapply at_reads0; [apply reads_sub|]. intros m Hm. cbn [fst snd] in Hm.
        apply at_takes. destruct (k1 <? m) eqn:Hkm.
        - eapply takes_mono; [eapply (takes_bind _ _ _ _ 0 0); [apply takes_move_backward|]|cbn [fst snd]; lia..].
          intros nf. apply takes_bind0; [apply takes_destroy|]. intros _. apply takes_bind0; [apply takes_mod|intros; apply takes_ret].
        - eapply takes_mono; [eapply (takes_bind _ _ _ _ 0 0); [apply takes_move|]|cbn [fst snd]; lia..].
          intros nf. apply takes_bind0; [apply takes_destroy|]. intros _. apply takes_bind0; [apply takes_mod|intros; apply takes_ret]. }
      apply (takes_d_idx _ _ _ _ Ht) in Hr. lia.
    - apply Hu in Hr; [lia|]. unfold dv_clear. apply takes_bind0; [apply takes_get|]. intros o.
      apply takes_bind0; [apply takes_destroy|intros; apply takes_mod].
  Qed.
End calls.
