(** * segmented_devector: the member functions that work at the front *)

From Verif Require Export SegAccess.
From Coq Require Import ZifyBool.
From iris.proofmode Require Import environments tactics.
Open Scope Z_scope.
Notation frame := SegGrow.frame.

Section front.
  Context `{E : Env} `{SZ : SegSize}.
  Implicit Types segs new : list loc.
  Implicit Types T : tab.

  (** Segments added at the front for [k] more places. *)
  Definition fgrown segs (k : Z) new : Prop :=
    zlen new = more_front k /\ (slots segs - 1 <= max_size -> slots segs - 1 + k <= max_size).
  Lemma more_front_0 k : k <= 0 -> more_front k = 0.
  Proof. intros Hk. unfold more_front. rewrite (proj2 (Z.leb_le _ _)); [done|lia]. Qed.
  Lemma fgrown_0 segs k : k <= 0 -> fgrown segs k [].
  Proof. intros Hk. split; [by rewrite more_front_0|lia]. Qed.
  Lemma fgrown_nil segs k new : fgrown segs k new -> k <= 0 -> new = [].
  Proof. intros [Hl _] Hk. rewrite more_front_0 in Hl; [|done]. by destruct new. Qed.
  Lemma more_front_room segs new k : fgrown segs k new -> k <= slots new /\ 0 <= slots new.
  Proof.
    pose proof SS_pos. unfold slots, fgrown, more_front. destruct (Z.leb_spec k 0) as [Hk|Hk]; intros [Hl _]; [nia|].
    assert (SS <> 0) as Hss by lia. pose proof (Z.div_mod (k + SS - 1) SS Hss).
    pose proof (Z.mod_pos_bound (k + SS - 1) SS SS_pos). nia.
  Qed.

  (** Exceptions of a function that first makes room for [add] more places at the
      front, and then may leave [l'] if [R l']; the end of the elements does not
      move. *)
  Definition fop_exn (p : Z) (l : list V) segs (add : Z) (R : list V -> Prop) (e : exn) new (p' : Z) (l' : list V) : Prop :=
    (new = [] /\ p' = p /\ l' = l /\ 0 < add /\ grow_exn e segs add) \/
    (e = EUser /\ (new = [] \/ fgrown segs add new) /\ p' + zlen l' = slots new + p + zlen l /\ R l').

  (** [m] turns [l] into [l2], beginning [s] places earlier, after making room for
      [add] more places at the front, and returns [r]. *)
  Definition front_op {A} T segs (p : Z) (l : list V) (add s : Z) (m : M sgdata A) (l2 : list V)
      (r : tab -> list loc -> Z -> A) (R : list V -> Prop) : Prop :=
    forall Q X,
      sg_at T segs p l ⊢
      ((∀ T' new, ⟦t_al T' = t_al T /\ fgrown segs add new⟧ -∗ sg_at T' (new ++ segs) (slots new + p - s) l2 -∗
          Q (r T' (new ++ segs) (slots new + p - s)) (sobj T' (new ++ segs) (slots new + p - s) (zlen l2))) ∧
       (∀ e T' new p' l', ⟦t_al T' = t_al T /\ fop_exn p l segs add R e new p' l'⟧ -∗ sg_at T' (new ++ segs) p' l' -∗
          X e (sobj T' (new ++ segs) p' (zlen l')))) -∗
      wp m (sobj T segs p (zlen l)) Q X.

  Lemma wp_room_front T segs p l (c : bool) n add Q X :
    (c = true -> n = add /\ 0 < add) -> (c = false -> add <= 0) ->
    sg_at T segs p l ⊢
    ((∀ T' new, ⟦t_al T' = t_al T /\ fgrown segs add new⟧ -∗ sg_at T' (new ++ segs) (slots new + p) l -∗
        Q tt (sobj T' (new ++ segs) (slots new + p) (zlen l))) ∧
     (∀ e T' new p' l', ⟦t_al T' = t_al T /\ fop_exn p l segs add (fun _ => False) e new p' l'⟧ -∗
        sg_at T' (new ++ segs) p' l' -∗ X e (sobj T' (new ++ segs) p' (zlen l')))) -∗
    wp (if c then sd_grow_front n else ret tt) (sobj T segs p (zlen l)) Q X.
  Proof.
    iIntros (Hc1 Hc2) "Ha HK". destruct c.
    - destruct (Hc1 eq_refl) as [-> Hadd]. iApply (wp_grow_front with "Ha"); [lia|]. iSplit.
      + iIntros (T' new) "%H' Ha". iDestruct "HK" as "[HK _]". iApply ("HK" with "[%] Ha").
        destruct H' as (H1 & H2 & H3). split; [done|]. split; [|done]. unfold more_front.
        destruct (Z.leb_spec add 0); [lia|done].
      + iIntros (e T') "%H' Ha". iDestruct "HK" as "[_ HK]".
        iSpecialize ("HK" $! e T' [] p l with "[%]"); [|by iApply "HK"].
        split; [tauto|]. left. tauto.
    - iApply wp_ret. iDestruct "HK" as "[HK _]".
      iSpecialize ("HK" $! T [] with "[%]").
      { split; [done|]. apply fgrown_0. by apply Hc2. }
      assert (slots [] + p = p) as -> by (unfold slots; simpl; lia). by iApply "HK".
  Qed.
  Lemma fop_exn_weaken p l segs add (R1 R2 : list V -> Prop) e new p' l' :
    (forall l, R1 l -> R2 l) -> fop_exn p l segs add R1 e new p' l' -> fop_exn p l segs add R2 e new p' l'.
  Proof. unfold fop_exn. intros HR [H|H]; [by left|]. right. naive_solver. Qed.
  Lemma slots_front new segs : slots (new ++ segs) = slots new + slots segs.
  Proof. apply slots_app. Qed.
End front.

(** Making room at the front, with the storage open in "Hf" and "Hw". *)
Ltac sroomf add T' new :=
  iDestruct (sg_at_close with "Hf Hw") as "Hs"; [lia..|];
  wbind; iApply (wp_room_front _ _ _ _ _ _ add with "Hs"); [lia..|]; iSplit;
  [ iIntros (T' new) "% Hs";
    match goal with H : t_al _ = _ /\ fgrown _ _ _ |- context [sobj _ (_ ++ ?segs)] =>
      destruct (more_front_room segs _ _ (proj2 H)) as (Hr1 & Hr2); pose proof (slots_front new segs) as Hr3;
      destruct H as [HT Hnew] end; wbeta;
    iDestruct (sg_at_open with "Hs") as "(_ & Hf & Hw)"
  | iIntros (? ? ? ? ?) "% Hs"; iDestruct "HK" as "[_ HK]"; iApply ("HK" with "[%] Hs");
    match goal with H : t_al _ = _ /\ fop_exn _ _ _ _ _ _ _ _ _ |- _ =>
      split; [exact (proj1 H)|eapply fop_exn_weaken; [|exact (proj2 H)]; done] end ].

Section ops.
  Context `{E : Env} `{SZ : SegSize}.
  Implicit Types segs new : list loc.
  Implicit Types T : tab.

  (** d 690-709 [emplace_front]. *)
  Lemma front_emplace_front T segs p l a v l1 :
    sarg segs p l a v l1 ->
    front_op T segs p l (1 - p) 1 (sd_emplace_front a) ([v] ++ l1) (fun _ segs' p' => saddr segs' p') (arg_exn a l).
  Proof.
    intros Ha Q X. sopen. pose proof (sarg_length _ _ _ _ _ _ Ha) as Hlen.
    unfold sd_emplace_front. sstep. sstep.
    iDestruct (swin_eqb (t_at T) segs _ p 0 with "Hw") as %->; [lia..|].
    sroomf (1 - p) T' new. sstep. sstep. sstep. sstep.
    wbind. iApply (wp_sw_construct with "Hw").
    { apply sarg_grow_front; [lia|lia|done]. }
    { lia. } { lia. } { lia. } { lia. }
    iSplit.
    - iIntros (f') "%Hst Hw". wbeta. repeat sstep. iDestruct "HK" as "[HK _]".
      replace (slots new + p + zlen l - (slots new + p - 1)) with (zlen ([v] ++ l1)) by (len; simpl; lia).
      iApply ("HK" with "[%//]"). iApply (sg_at_close with "Hf [Hw]"); [lia|len; simpl; lia|].
      iApply (swin_eq with "Hw"). apply (stored_front (slots new + p) l1 [v]); [simpl; lia|done].
    - iIntros (l') "%He Hw". iDestruct "HK" as "[_ HK]". destruct (He) as [Hl' _].
      replace (sobj T' (new ++ segs) (slots new + p) (zlen l)) with (sobj T' (new ++ segs) (slots new + p) (zlen l')) by (f_equal; lia).
      iApply ("HK" with "[%]").
      { split; [done|]. right. split; [done|]. split; [by right|]. split; [lia|done]. }
      iApply (sg_at_close with "Hf Hw"); lia.
  Qed.
  (** d 427-436 [reserve_front]. *)
  Lemma front_reserve_front T segs p l n :
    front_op T segs p l (n - (zlen l + p)) 0 (sd_reserve_front n) l (fun _ _ _ => tt) (fun _ => False).
  Proof.
    intros Q X. sopen. unfold sd_reserve_front.
    wbind. iApply (wp_sq_size with "Hw"); [lia..|]. iIntros "Hw". wbeta.
    wbind. iApply (wp_sq_front_room with "Hw"); [lia..|]. iIntros "Hw". wbeta.
    iDestruct (sg_at_close with "Hf Hw") as "Hs"; [lia..|].
    iApply (wp_room_front _ _ _ _ _ _ (n - (zlen l + p)) with "Hs"); [lia..|]. iSplit.
    - iIntros (T' new) "%H Hs". iDestruct "HK" as "[HK _]". iSpecialize ("HK" with "[//]").
      rewrite Z.sub_0_r. by iApply "HK".
    - iDestruct "HK" as "[_ HK]". done.
  Qed.

  (** d 557-596: [emplace] in the first half, there being room. *)
  Lemma front_sd_emplace T segs p l a v l1 (k : nat) pos :
    sarg segs p l a v l1 -> Z.of_nat k < zlen l - Z.of_nat k -> pos = sitr (t_at T) segs (p + Z.of_nat k) ->
    front_op T segs p l (1 - p) 1 (sd_emplace pos a) (insert_at k [v] l1)
      (fun T' segs' p' => sitr (t_at T') segs' (p' + Z.of_nat k))
      (fun l' => arg_exn a l l' \/ ((0 < k)%nat /\ (length l <= length l' <= length l + 1)%nat)).
  Proof.
    intros Ha Hk -> Q X. sopen. pose proof (sarg_length _ _ _ _ _ _ Ha) as Hlen.
    unfold sd_emplace. wbind. iApply (wp_sq_offset _ _ _ _ k with "Hw"); [lia|lia|lia|done|]. iIntros "Hw". wbeta.
    do 6 sstep. destruct (Z.ltb_spec (Z.of_nat k) (p + zlen l - (p + Z.of_nat k))) as [_|Hf]; [|exfalso; lia].
    iDestruct (swin_eqb (t_at T) segs _ p 0 with "Hw") as %->; [lia..|].
    assert (forall T' new, t_al T' = t_al T -> fgrown segs (1 - p) new ->
      sg_at T' (new ++ segs) (slots new + p) l ⊢
      ((∀ T' new, ⟦t_al T' = t_al T /\ fgrown segs (1 - p) new⟧ -∗
          sg_at T' (new ++ segs) (slots new + p - 1) (insert_at k [v] l1) -∗
          Q (sitr (t_at T') (new ++ segs) (slots new + p - 1 + Z.of_nat k))
            (sobj T' (new ++ segs) (slots new + p - 1) (zlen (insert_at k [v] l1)))) ∧
       (∀ e T' new p' l', ⟦t_al T' = t_al T /\ fop_exn p l segs (1 - p)
            (fun l' => arg_exn a l l' \/ ((0 < k)%nat /\ (length l <= length l' <= length l + 1)%nat)) e new p' l'⟧ -∗
          sg_at T' (new ++ segs) p' l' -∗ X e (sobj T' (new ++ segs) p' (zlen l')))) -∗
      wp (sd_emplace_front_at (sitr (t_at T') (new ++ segs) (slots new + p + Z.of_nat k)) a)
        (sobj T' (new ++ segs) (slots new + p) (zlen l)) Q X) as Hat.
    { intros T' new HT Hnew. iIntros "Hs HK".
      destruct (more_front_room segs new _ Hnew) as (Hr1 & Hr2). pose proof (slots_front new segs) as Hr3.
      iDestruct (sg_at_open with "Hs") as "(_ & Hf & Hw)".
      iApply (wp_l_emplace_front_at _ _ _ _ _ _ _ k with "Hw").
      { apply sarg_grow_front; [lia|lia|done]. }
      { lia. } { lia. } { lia. } { done. }
      iSplit.
      - iIntros "Hw". iDestruct "HK" as "[HK _]". iApply ("HK" with "[%//]").
        iApply (sg_at_close with "Hf Hw"); [lia|unfold insert_at; len; simpl; lia].
      - iIntros (p' l') "%He Hw". destruct He as [He1 He]. iDestruct "HK" as "[_ HK]". iApply ("HK" with "[%]").
        { split; [done|]. right. split; [done|]. split; [by right|]. split; [lia|done]. }
        iApply (sg_at_close with "Hf Hw"); destruct He as [[He _]|He]; lia. }
    iDestruct (sg_at_close with "Hf Hw") as "Hs"; [lia..|].
    destruct (Z.eqb_spec p 0) as [Heq|Hne].
    - do 2 wbind. iPoseProof (wp_room_front T segs p l true 1 (1 - p)
        (fun _ s => wp (sd_nth (Z.of_nat k)) s (fun p1 s => wp (sd_emplace_front_at p1 a) s Q X) X) X with "Hs [HK]") as "H"; [lia|lia| |].
      2:{ iApply "H". }
      iSplit.
      2:{ iIntros (e T' new p' l') "%He Hs". iDestruct "HK" as "[_ HK]". iApply ("HK" with "[%] Hs").
          split; [tauto|]. destruct He as [_ He]. eapply fop_exn_weaken; [|done]. done. }
      iIntros (T' new) "%HT Hs". destruct HT as [HT Hnew].
      destruct (more_front_room segs new _ Hnew) as (Hr1 & Hr2). pose proof (slots_front new segs) as Hr3.
      iDestruct (sg_at_open with "Hs") as "(_ & Hf & Hw)".
      iApply (wp_sd_nth with "Hw"); [lia|lia|lia|]. iIntros "Hw". iDestruct (sg_at_close with "Hf Hw") as "Hs"; [lia..|].
      iApply (Hat T' new HT Hnew with "Hs HK").
    - wbind. iApply wp_ret. wbeta. iPoseProof (Hat T [] eq_refl with "[Hs] HK") as "H".
      { apply fgrown_0. lia. }
      { assert (slots [] + p = p) as -> by (unfold slots; simpl; lia). done. }
      assert (slots [] + p = p) as -> by (unfold slots; simpl; lia). done.
  Qed.
  (** The same in the second half: d 609-650. *)
  Lemma back_sd_emplace T segs p l a v l1 (k : nat) pos :
    sarg segs p l a v l1 -> (k <= length l)%nat -> ~ Z.of_nat k < zlen l - Z.of_nat k ->
    pos = sitr (t_at T) segs (p + Z.of_nat k) ->
    back_op T segs p l (p + zlen l + 1 - (slots segs - 1)) (sd_emplace pos a) (insert_at k [v] l1)
      (fun T' segs' => sitr (t_at T') segs' (p + Z.of_nat k)) (ins_exn l k 1 a).
  Proof.
    intros Ha Hk Hfar -> Q X. sopen. pose proof (sarg_length _ _ _ _ _ _ Ha) as Hlen.
    unfold sd_emplace. wbind. iApply (wp_sq_offset _ _ _ _ k with "Hw"); [lia|lia|lia|done|]. iIntros "Hw". wbeta.
    do 6 sstep. destruct (Z.ltb_spec (Z.of_nat k) (p + zlen l - (p + Z.of_nat k))) as [Hf|_]; [exfalso; lia|].
    iDestruct (swin_eqb (t_at T) segs _ (p + zlen l) (slots segs - 1) with "Hw") as %->; [lia..|].
    iDestruct (sg_at_close with "Hf Hw") as "Hs"; [lia..|].
    assert (forall T' new, same_tab T T' -> sgrown segs (p + zlen l + 1 - (slots segs - 1)) new ->
      sg_at T' (segs ++ new) p l ⊢
      ((∀ T' new, ⟦same_tab T T' /\ sgrown segs (p + zlen l + 1 - (slots segs - 1)) new⟧ -∗
          sg_at T' (segs ++ new) p (insert_at k [v] l1) -∗
          Q (sitr (t_at T') (segs ++ new) (p + Z.of_nat k)) (sobj T' (segs ++ new) p (zlen (insert_at k [v] l1)))) ∧
       (∀ e T' new l', ⟦same_tab T T' /\ op_exn l segs (p + zlen l + 1 - (slots segs - 1)) (ins_exn l k 1 a) e new l'⟧ -∗
          sg_at T' (segs ++ new) p l' -∗ X e (sobj T' (segs ++ new) p (zlen l')))) -∗
      wp (sq_emplace_at (sitr (t_at T') (segs ++ new) (p + Z.of_nat k)) a) (sobj T' (segs ++ new) p (zlen l)) Q X) as Hat.
    { intros T' new HT Hnew. iIntros "Hs HK".
      destruct (more_segs_room segs new _ Hnew) as (Hr1 & Hr2 & Hr3 & _).
      iDestruct (sg_at_open with "Hs") as "(_ & Hf & Hw)".
      iApply (wp_l_emplace_at with "Hw").
      { apply sarg_grow_back; [lia|lia|done]. }
      { lia. } { done. } { lia. } { done. }
      iSplit.
      - iIntros "Hw". iDestruct "HK" as "[HK _]". iApply ("HK" with "[%//]").
        iApply (sg_at_close with "Hf Hw"); [lia|unfold insert_at; len; simpl; lia].
      - iIntros (p' l') "%He Hw". destruct He as [-> He]. iDestruct "HK" as "[_ HK]". iApply ("HK" with "[%]").
        { split; [done|]. right. split; [done|]. split; [by right|done]. }
        iApply (sg_at_close with "Hf Hw"); [lia|]. destruct He as [[He _]|He]; lia. }
    destruct (Z.eqb_spec (p + zlen l) (slots segs - 1)) as [Heq|Hne].
    - do 2 wbind. iPoseProof (wp_room_back T segs p l true 1 (p + zlen l + 1 - (slots segs - 1))
        (fun _ s => wp (sd_nth (Z.of_nat k)) s (fun p1 s => wp (sq_emplace_at p1 a) s Q X) X) X with "Hs [HK]") as "H"; [lia|lia| |].
      2:{ iApply "H". }
      iSplit.
      2:{ iIntros (e T' new l') "%He Hs". iDestruct "HK" as "[_ HK]". iApply ("HK" with "[%] Hs").
          split; [tauto|]. destruct He as [_ He]. eapply op_exn_weaken; [|done]. done. }
      iIntros (T' new) "%HT Hs". destruct HT as [HT Hnew].
      destruct (more_segs_room segs new _ Hnew) as (Hr1 & Hr2 & Hr3 & _).
      iDestruct (sg_at_open with "Hs") as "(_ & Hf & Hw)".
      iApply (wp_sd_nth with "Hw"); [lia|lia|lia|]. iIntros "Hw". iDestruct (sg_at_close with "Hf Hw") as "Hs"; [lia..|].
      iApply (Hat T' new HT Hnew with "Hs HK").
    - wbind. iApply wp_ret. wbeta. iPoseProof (Hat T [] (same_tab_refl T) with "[Hs] HK") as "H".
      { apply grown_0. lia. }
      { by rewrite app_nil_r. }
      by rewrite app_nil_r.
  Qed.
End ops.
