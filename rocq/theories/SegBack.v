(** * Segmented containers: the member functions that work at the back *)

From Verif Require Export SegSeq SegSpec.
From Coq Require Import ZifyBool.
From iris.proofmode Require Import tactics.
Open Scope Z_scope.
Notation frame := SegGrow.frame.

Section back.
  Context `{E : Env} `{SZ : SegSize}.
  Implicit Types segs new : list loc.
  Implicit Types T : tab.

  Definition same_tab T T' : Prop := t_al T' = t_al T /\ t_pre T' = t_pre T.
  Lemma same_tab_refl T : same_tab T T.
  Proof. done. Qed.

  Lemma sg_at_open T segs p l :
    sg_at T segs p l ⊢ ⟦0 <= p /\ p + zlen l < slots segs⟧ ∗ frame T segs ∗ swin (t_at T) segs (at_pos p l).
  Proof. done. Qed.
  Lemma sg_at_close T segs p l :
    0 <= p -> p + zlen l < slots segs ->
    frame T segs ⊢ swin (t_at T) segs (at_pos p l) -∗ sg_at T segs p l.
  Proof. iIntros (H1 H2) "Hf Hw". iFrame. done. Qed.

  Lemma more_segs_0 n : n <= 0 -> more_segs n = 0.
  Proof. intros Hn. unfold more_segs. rewrite (proj2 (Z.leb_le _ _)); [done|lia]. Qed.
  Lemma more_segs_pos n : 0 < n -> more_segs n = n / SS + 1.
  Proof. intros Hn. unfold more_segs. destruct (Z.leb_spec n 0); [lia|done]. Qed.
  (** Segments added for [n] more places; [max_size()] was respected, provided that
      the capacity was within it. *)
  Definition sgrown segs (n : Z) new : Prop :=
    zlen new = more_segs n /\ (slots segs - 1 <= max_size -> slots segs - 1 + n <= max_size).
  Lemma grown_0 segs n : n <= 0 -> sgrown segs n [].
  Proof. intros Hn. split; [by rewrite more_segs_0|lia]. Qed.
  Lemma grown_nil segs n new : sgrown segs n new -> n <= 0 -> new = [].
  Proof. intros [Hl _] Hn. rewrite more_segs_0 in Hl; [|done]. by destruct new. Qed.
  Lemma more_segs_room segs new n :
    sgrown segs n new -> slots segs + n <= slots (segs ++ new) /\ slots segs <= slots (segs ++ new) /\
      (0 < n -> slots segs + n < slots (segs ++ new)) /\ (n <= 0 -> new = []).
  Proof.
    pose proof SS_pos. rewrite slots_app. unfold slots.
    unfold sgrown, more_segs. destruct (Z.leb_spec n 0) as [Hn|Hn]; intros [Hl _].
    - destruct new; [|simpl in Hl; lia]. simpl. repeat split; [lia|lia|lia].
    - assert (SS <> 0) as Hss by lia. pose proof (Z.div_mod n SS Hss). pose proof (Z.mod_pos_bound n SS SS_pos).
      repeat split; [nia|nia|nia|lia].
  Qed.

  (** Exceptions of a function that first makes room for [add] more places, and
      then may leave [l'] if [R l']. *)
  Definition op_exn (l : list V) segs (add : Z) (R : list V -> Prop) (e : exn) new (l' : list V) : Prop :=
    (new = [] /\ l' = l /\ 0 < add /\ grow_exn e segs add) \/
    (e = EUser /\ (new = [] \/ sgrown segs add new) /\ R l').

  (** [m] turns [l] into [l2], after making room for [add] more places, and
      returns [r]. *)
  Definition back_op {A} T segs (p : Z) (l : list V) (add : Z) (m : M sgdata A) (l2 : list V)
      (r : tab -> list loc -> A) (R : list V -> Prop) : Prop :=
    forall Q X,
      sg_at T segs p l ⊢
      ((∀ T' new, ⟦same_tab T T' /\ sgrown segs add new⟧ -∗ sg_at T' (segs ++ new) p l2 -∗
          Q (r T' (segs ++ new)) (sobj T' (segs ++ new) p (zlen l2))) ∧
       (∀ e T' new l', ⟦same_tab T T' /\ op_exn l segs add R e new l'⟧ -∗ sg_at T' (segs ++ new) p l' -∗
          X e (sobj T' (segs ++ new) p (zlen l')))) -∗
      wp m (sobj T segs p (zlen l)) Q X.

  Lemma wp_room_back T segs p l (c : bool) n add Q X :
    (c = true -> n = add /\ 0 < add) -> (c = false -> add <= 0) ->
    sg_at T segs p l ⊢
    ((∀ T' new, ⟦same_tab T T' /\ sgrown segs add new⟧ -∗ sg_at T' (segs ++ new) p l -∗
        Q tt (sobj T' (segs ++ new) p (zlen l))) ∧
     (∀ e T' new l', ⟦same_tab T T' /\ op_exn l segs add (fun _ => False) e new l'⟧ -∗ sg_at T' (segs ++ new) p l' -∗
        X e (sobj T' (segs ++ new) p (zlen l')))) -∗
    wp (if c then sq_grow_back n else ret tt) (sobj T segs p (zlen l)) Q X.
  Proof.
    iIntros (Hc1 Hc2) "Ha HK". destruct c.
    - destruct (Hc1 eq_refl) as [-> Hadd]. iApply (wp_grow_back with "Ha"); [lia|]. iSplit.
      + iIntros (T' new) "%H' Ha". iDestruct "HK" as "[HK _]". iApply ("HK" with "[%] Ha").
        unfold sgrown. rewrite more_segs_pos //. unfold same_tab. tauto.
      + iIntros (e T') "%H' Ha". iDestruct "HK" as "[_ HK]".
        iSpecialize ("HK" $! e T' [] l with "[%]"); [|by rewrite app_nil_r; iApply "HK"].
        unfold same_tab, op_exn. split; [tauto|]. left. tauto.
    - iApply wp_ret. iDestruct "HK" as "[HK _]".
      iSpecialize ("HK" $! T [] with "[%]"); [|by rewrite app_nil_r; iApply "HK"].
      split; [done|]. apply grown_0. by apply Hc2.
  Qed.
  Lemma op_exn_weaken l segs add (R1 R2 : list V -> Prop) e new l' :
    (forall l, R1 l -> R2 l) -> op_exn l segs add R1 e new l' -> op_exn l segs add R2 e new l'.
  Proof. unfold op_exn. intros HR [H|H]; [by left|]. right. naive_solver. Qed.

End back.

(** Making room, with the storage open in "Hf" and "Hw". *)
Ltac sroom add T' new :=
  iDestruct (sg_at_close with "Hf Hw") as "Hs"; [lia..|];
  wbind; iApply (wp_room_back _ _ _ _ _ _ add with "Hs"); [lia..|]; iSplit;
  [ iIntros (T' new) "% Hs";
    match goal with H : same_tab _ _ /\ sgrown _ _ _ |- context [sobj _ (?segs ++ _)] =>
      destruct (more_segs_room segs _ _ (proj2 H)) as (Hr1 & Hr2 & Hr3 & _); destruct H as [HT Hnew] end; wbeta;
    iDestruct (sg_at_open with "Hs") as "(_ & Hf & Hw)"
  | iIntros (? ? ? ?) "% Hs"; iDestruct "HK" as "[_ HK]"; iApply ("HK" with "[%] Hs");
    match goal with H : same_tab _ _ /\ op_exn _ _ _ _ _ _ _ |- _ =>
      split; [exact (proj1 H)|eapply op_exn_weaken; [|exact (proj2 H)]; done] end ].

Section ops.
  Context `{E : Env} `{SZ : SegSize}.
  Implicit Types segs new : list loc.
  Implicit Types T : tab.

  (** v 639-658, d 712-731 [emplace_back]. *)
  Lemma back_emplace_back T segs p l a v l1 :
    sarg segs p l a v l1 ->
    back_op T segs p l (p + zlen l + 1 - (slots segs - 1)) (sq_emplace_back a) (l1 ++ [v])
      (fun _ segs' => saddr segs' (p + zlen l)) (arg_exn a l).
  Proof.
    intros Ha Q X. iIntros "Hs HK". iDestruct (sg_at_open with "Hs") as "(%Hb & Hf & Hw)". destruct Hb as [Hp Hb].
    pose proof (sarg_length _ _ _ _ _ _ Ha) as Hlen.
    unfold sq_emplace_back. sstep. sstep.
    iDestruct (swin_eqb (t_at T) segs _ (p + zlen l) (slots segs - 1) with "Hw") as %->; [lia..|].
    sroom (p + zlen l + 1 - (slots segs - 1)) T' new.
    sstep. sstep. wbind. iApply (wp_sw_construct with "Hw").
    { apply sarg_grow_back; [lia|lia|done]. }
    { lia. } { lia. } { lia. } { lia. }
    iSplit.
    - iIntros (f') "%Hst Hw". wbeta. repeat sstep. iDestruct "HK" as "[HK _]".
      replace (p + zlen l + 1 - p) with (zlen (l1 ++ [v])) by (len; simpl; lia).
      iApply ("HK" with "[%//]"). iApply (sg_at_close with "Hf [Hw]"); [lia|len; simpl; lia|].
      iApply (swin_eq with "Hw"). apply stored_back. by rewrite Hlen.
    - iIntros (l') "%He Hw". iDestruct "HK" as "[_ HK]". destruct (He) as [Hl' _].
      replace (sobj T' (segs ++ new) p (zlen l)) with (sobj T' (segs ++ new) p (zlen l')) by (f_equal; lia). iApply ("HK" with "[%]").
      { split; [done|]. right. split; [done|]. split; [by right|done]. }
      iApply (sg_at_close with "Hf Hw"); lia.
  Qed.

  (** v 389-393, d 377-381. *)
  Lemma wp_sq_offset T segs p m (k : nat) f pos Q X :
    0 <= p -> Z.of_nat k <= m -> p + m < slots segs -> pos = sitr (t_at T) segs (p + Z.of_nat k) ->
    swin (t_at T) segs f ⊢ (swin (t_at T) segs f -∗ Q (Z.of_nat k) (sobj T segs p m)) -∗
    wp (sq_offset pos) (sobj T segs p m) Q X.
  Proof.
    iIntros (Hp Hk Hs ->) "Hw HK". unfold sq_offset. sstep. sstep.
    repeat sstep. replace (p + Z.of_nat k - p) with (Z.of_nat k) by lia. by iApply "HK".
  Qed.
  (** v 361-372; any container. *)
  Lemma wp_sv_nth T segs m n f Q X :
    0 <= n <= m -> m < slots segs ->
    swin (t_at T) segs f ⊢ (swin (t_at T) segs f -∗ Q (sitr (t_at T) segs n) (sobj T segs 0 m)) -∗
    wp (sv_nth n) (sobj T segs 0 m) Q X.
  Proof.
    iIntros (Hn Hs) "Hw HK". pose proof SS_pos. unfold sv_nth.
    wbind. iApply (wp_sq_size with "Hw"); [lia..|]. iIntros "Hw". wbeta. wbind. iApply wp_assert; [lia|]. wbeta.
    sstep. sstep. iDestruct "Hw" as "[Ht Hw]". wbind.
    assert (0 <= n / SS < zlen segs).
    { split; [apply Z.div_pos; lia|]. apply Z.div_lt_upper_bound; unfold slots in Hs; lia. }
    iApply (wp_read_tbl with "Ht"); [done|lia|]. iIntros "Ht". wbeta. iApply wp_ret.
    replace (It (t_at T +ₗ n / SS) (segs !!! Z.to_nat (n / SS) +ₗ (n - n / SS * SS))) with (sitr (t_at T) segs n).
    { iApply "HK". iFrame. }
    unfold sitr, saddr. do 2 f_equal. rewrite Z.mod_eq; lia.
  Qed.
  Lemma wp_sd_nth T segs p m n f Q X :
    0 <= p -> 0 <= n <= m -> p + m < slots segs ->
    swin (t_at T) segs f ⊢ (swin (t_at T) segs f -∗ Q (sitr (t_at T) segs (p + n)) (sobj T segs p m)) -∗
    wp (sd_nth n) (sobj T segs p m) Q X.
  Proof.
    iIntros (Hp Hn Hs) "Hw HK". unfold sd_nth.
    wbind. iApply (wp_sq_size with "Hw"); [lia..|]. iIntros "Hw". wbeta. wbind. iApply wp_assert; [lia|]. wbeta.
    sstep. sstep. sstep. by iApply "HK".
  Qed.

  (** v 546-603 [emplace]. *)
  Lemma back_sv_emplace T segs l a v l1 (k : nat) pos :
    sarg segs 0 l a v l1 -> (k <= length l)%nat -> pos = sitr (t_at T) segs (Z.of_nat k) ->
    back_op T segs 0 l (zlen l + 1 - (slots segs - 1)) (sv_emplace pos a) (insert_at k [v] l1)
      (fun T' segs' => sitr (t_at T') segs' (Z.of_nat k)) (ins_exn l k 1 a).
  Proof.
    intros Ha Hk -> Q X. iIntros "Hs HK". iDestruct (sg_at_open with "Hs") as "(%Hb & Hf & Hw)". destruct Hb as [Hp Hb].
    pose proof (sarg_length _ _ _ _ _ _ Ha) as Hlen.
    unfold sv_emplace. wbind. iApply (wp_sq_offset _ _ _ _ k with "Hw"); [lia|lia|lia|by rewrite Z.add_0_l|]. iIntros "Hw". wbeta.
    do 4 sstep.
    iDestruct (swin_eqb (t_at T) segs _ (0 + zlen l) (slots segs - 1) with "Hw") as %->; [lia..|].
    iDestruct (sg_at_close with "Hf Hw") as "Hs"; [lia..|].
    assert (forall T' new, same_tab T T' -> sgrown segs (zlen l + 1 - (slots segs - 1)) new ->
      sg_at T' (segs ++ new) 0 l ⊢
      ((∀ T' new, ⟦same_tab T T' /\ sgrown segs (zlen l + 1 - (slots segs - 1)) new⟧ -∗
          sg_at T' (segs ++ new) 0 (insert_at k [v] l1) -∗
          Q (sitr (t_at T') (segs ++ new) (Z.of_nat k)) (sobj T' (segs ++ new) 0 (zlen (insert_at k [v] l1)))) ∧
       (∀ e T' new l', ⟦same_tab T T' /\ op_exn l segs (zlen l + 1 - (slots segs - 1)) (ins_exn l k 1 a) e new l'⟧ -∗
          sg_at T' (segs ++ new) 0 l' -∗ X e (sobj T' (segs ++ new) 0 (zlen l')))) -∗
      wp (sq_emplace_at (sitr (t_at T') (segs ++ new) (0 + Z.of_nat k)) a) (sobj T' (segs ++ new) 0 (zlen l)) Q X) as Hat.
    { intros T' new HT Hnew. iIntros "Hs HK".
      destruct (more_segs_room segs new _ Hnew) as (Hr1 & Hr2 & Hr3 & _).
      iDestruct (sg_at_open with "Hs") as "(_ & Hf & Hw)".
      iApply (wp_l_emplace_at with "Hw").
      { apply sarg_grow_back; [lia|lia|done]. }
      { lia. } { done. } { lia. } { done. }
      iSplit.
      - iIntros "Hw". iDestruct "HK" as "[HK _]". rewrite Z.add_0_l. iApply ("HK" with "[%//]").
        iApply (sg_at_close with "Hf Hw"); [lia|unfold insert_at; len; simpl; lia].
      - iIntros (p' l') "%He Hw". destruct He as [-> He]. iDestruct "HK" as "[_ HK]". iApply ("HK" with "[%]").
        { split; [done|]. right. split; [done|]. split; [by right|done]. }
        iApply (sg_at_close with "Hf Hw"); [lia|]. destruct He as [[He _]|He]; lia. }
    destruct (Z.eqb_spec (0 + zlen l) (slots segs - 1)) as [Heq|Hne].
    - do 2 wbind. iPoseProof (wp_room_back T segs 0 l true 1 (zlen l + 1 - (slots segs - 1))
        (fun _ s => wp (sv_nth (Z.of_nat k)) s (fun p1 s => wp (sq_emplace_at p1 a) s Q X) X) X with "Hs [HK]") as "H"; [lia|lia| |].
      2:{ iApply "H". }
      iSplit.
      2:{ iIntros (e T' new l') "%He Hs". iDestruct "HK" as "[_ HK]". iApply ("HK" with "[%] Hs").
          split; [tauto|]. destruct He as [_ He]. eapply op_exn_weaken; [|done]. done. }
      iIntros (T' new) "%HT Hs". destruct HT as [HT Hnew].
      destruct (more_segs_room segs new _ Hnew) as (Hr1 & Hr2 & Hr3 & _).
      iDestruct (sg_at_open with "Hs") as "(_ & Hf & Hw)".
      iApply (wp_sv_nth with "Hw"); [lia|lia|]. iIntros "Hw". iDestruct (sg_at_close with "Hf Hw") as "Hs"; [lia..|].
      iPoseProof (Hat T' new HT Hnew with "Hs HK") as "H". by rewrite Z.add_0_l.
    - wbind. iApply wp_ret. wbeta. iPoseProof (Hat T [] (same_tab_refl T) with "[Hs] HK") as "H".
      { apply grown_0. lia. }
      { by rewrite app_nil_r. }
      by rewrite app_nil_r.
  Qed.
End ops.

(** ** Functions that need no more room *)
Section keep.
  Context `{E : Env} `{SZ : SegSize}.
  Implicit Types segs new : list loc.
  Implicit Types T : tab.

  (** [m] turns [l], from position [p] on, into [l2], from [p2] on. *)
  Definition keep_op {A} T segs (p : Z) (l : list V) (m : M sgdata A) (p2 : Z) (l2 : list V) (r : A)
      (R : list V -> Prop) : Prop :=
    forall Q X,
      sg_at T segs p l ⊢
      ((sg_at T segs p2 l2 -∗ Q r (sobj T segs p2 (zlen l2))) ∧
       (∀ l', ⟦R l'⟧ -∗ sg_at T segs p l' -∗ X EUser (sobj T segs p (zlen l')))) -∗
      wp m (sobj T segs p (zlen l)) Q X.
  Lemma keep_back {A} T segs p l (m : M sgdata A) l2 r (r' : tab -> list loc -> A) R add :
    keep_op T segs p l m p l2 r R -> add <= 0 -> r' T segs = r -> back_op T segs p l add m l2 r' R.
  Proof.
    intros Hk Hadd <- Q X. iIntros "Hs HK". iApply (Hk with "Hs"). iSplit.
    - iIntros "Hs". iDestruct "HK" as "[HK _]". iSpecialize ("HK" $! T [] with "[%]").
      { split; [done|]. by apply grown_0. }
      rewrite app_nil_r. by iApply "HK".
    - iIntros (l') "%HR Hs". iDestruct "HK" as "[_ HK]". iSpecialize ("HK" $! EUser T [] l' with "[%]").
      { split; [done|]. right. split; [done|]. by split; [left|]. }
      rewrite app_nil_r. by iApply "HK".
  Qed.
  Lemma keep_strong {A} T segs p l (m : M sgdata A) p2 l2 r (R R' : list V -> Prop) :
    (forall l', R l' -> R' l') -> keep_op T segs p l m p2 l2 r R -> keep_op T segs p l m p2 l2 r R'.
  Proof.
    intros HR Hk Q X. iIntros "Hs HK". iApply (Hk with "Hs"). iSplit.
    - iDestruct "HK" as "[HK _]". done.
    - iIntros (l') "%H Hs". iDestruct "HK" as "[_ HK]". iApply ("HK" with "[%] Hs"). by apply HR.
  Qed.
  Lemma shaken_at T segs p l f' (R : list V -> Prop) X :
    shaken (at_pos p l) f' -> 0 <= p -> p + zlen l < slots segs ->
    (forall l', length l' = length l -> R l') ->
    frame T segs ⊢ swin (t_at T) segs f' -∗
    (∀ l', ⟦R l'⟧ -∗ sg_at T segs p l' -∗ X EUser (sobj T segs p (zlen l'))) -∗ X EUser (sobj T segs p (zlen l)).
  Proof.
    iIntros (Hs Hp Hb HR) "Hf Hw HK". destruct (DevProofs.shaken_list p l _ Hs) as (l' & Hl & Hf').
    replace (sobj T segs p (zlen l)) with (sobj T segs p (zlen l')) by (f_equal; lia).
    iApply ("HK" with "[%]"); [by apply HR|]. iApply (sg_at_close with "Hf [Hw]"); [lia..|].
    by iApply (swin_eq with "Hw").
  Qed.
End keep.

Ltac sopen := iIntros "Hs HK"; iDestruct (sg_at_open with "Hs") as "(% & Hf & Hw)";
  match goal with H : 0 <= _ /\ _ < slots _ |- _ => destruct H as [Hp Hb] end.
(** The end of a call, the contents being those of the list [l2]. *)
Ltac sdone :=
  iDestruct "HK" as "[HK _]"; iApply "HK"; iApply (sg_at_close with "Hf [Hw]"); [len; lia..|];
  iApply (swin_eq with "Hw").

Section keepops.
  Context `{E : Env} `{SZ : SegSize}.
  Implicit Types segs new : list loc.
  Implicit Types T : tab.

  Lemma wp_sq_empty T segs p m f Q X :
    0 <= p -> 0 <= m -> p + m < slots segs ->
    swin (t_at T) segs f ⊢ (swin (t_at T) segs f -∗ Q (m =? 0) (sobj T segs p m)) -∗
    wp sq_empty (sobj T segs p m) Q X.
  Proof.
    iIntros (H1 H2 H3) "Hw HK". unfold sq_empty. do 2 sstep.
    iDestruct (swin_eqb (t_at T) segs _ (p + m) p with "Hw") as %->; [lia..|]. sstep.
    replace (p + m =? p) with (m =? 0) by lia. by iApply "HK".
  Qed.

  (** v 534-544, d 524-534. *)
  Lemma keep_clear T segs p l : keep_op T segs p l sq_clear p [] tt (fun _ => False).
  Proof.
    intros Q X. sopen. unfold sq_clear. repeat sstep.
    replace (p - p) with (zlen (@nil V)) by (simpl; lia). sdone.
    assert (0 <= 0 <= zlen l) as H0 by lia.
    intros i. rewrite (cleared_back p l 0 f' (p + zlen l)); [by rewrite take_0|lia|lia|].
    by rewrite Z.add_0_r.
  Qed.
  (** v 670-677, d 762-769. *)
  Lemma keep_pop_back T segs p l v : keep_op T segs p (l ++ [v]) sq_pop_back p l tt (fun _ => False).
  Proof.
    intros Q X. sopen. unfold sq_pop_back. assert (zlen (l ++ [v]) = zlen l + 1) as Hl by (len; simpl; lia).
    wbind. iApply (wp_sq_empty with "Hw"); [lia..|]. iIntros "Hw". wbeta. repeat sstep.
    replace (p + zlen (l ++ [v]) - 1 - p) with (zlen l) by lia. sdone.
    intros i. rewrite (cleared_back p (l ++ [v]) (zlen l) f' (p + zlen l + 1)); [|lia|lia|].
    - rewrite Nat2Z.id. by rewrite take_app.
    - replace (p + zlen (l ++ [v]) - 1) with (p + zlen l) in H by lia. done.
  Qed.
  (** d 753-760. *)
  Lemma keep_pop_front T segs p l v : keep_op T segs p (v :: l) sd_pop_front (p + 1) l tt (fun _ => False).
  Proof.
    intros Q X. sopen. unfold sd_pop_front. assert (zlen (v :: l) = zlen l + 1) as Hl by (simpl; lia).
    wbind. iApply (wp_sq_empty with "Hw"); [lia..|]. iIntros "Hw". wbeta. repeat sstep.
    replace (p + zlen (v :: l) - (p + 1)) with (zlen l) by lia. sdone.
    intros i. rewrite (cleared_front p (v :: l) 1 f'); [done|lia|done].
  Qed.
  (** v 679-690. *)
  Lemma keep_sv_erase T segs p l (k : nat) pos :
    (k < length l)%nat -> pos = sitr (t_at T) segs (p + Z.of_nat k) ->
    keep_op T segs p l (sv_erase pos) p (take k l ++ drop (S k) l) (sitr (t_at T) segs (p + Z.of_nat k))
      (fun l' => length l' = length l).
  Proof.
    intros Hk -> Q X. sopen. unfold sv_erase.
    wbind. iApply (wp_sq_offset _ _ _ _ k with "Hw"); [lia|lia|lia|done|]. iIntros "Hw". wbeta.
    sstep. sstep. sstep. sstep. sstep. sstep. sstep. sstep. sstep. sstep. 
    sstep. iApply (wp_s_move with "Hw"); [sside..|]. iSplit.
    2:{ iIntros (f') "%Hs Hw". iApply (shaken_at _ _ _ _ _ (fun l' => length l' = length l) with "Hf Hw"); [apply Hs|lia|lia|done|].
        iDestruct "HK" as "[_ HK]". done. }
    iIntros (f') "%Hm Hw". wbeta. cbn [fst snd]. repeat sstep.
    replace (p + Z.of_nat k + (p + zlen l - (p + Z.of_nat k + 1)) - p) with (zlen (take k l ++ drop (S k) l)) by (len; lia).
    sdone. intros i.
    rewrite (erased_back p l (Z.of_nat k) (Z.of_nat k + 1) f' f'0); [|lia|lia| |].
    - rewrite Nat2Z.id. do 2 f_equal. f_equal. lia.
    - by rewrite Z.add_assoc.
    - replace (p + Z.of_nat k + (zlen l - (Z.of_nat k + 1))) with (p + zlen l - 1) by lia.
      replace (p + Z.of_nat k + (p + zlen l - (p + Z.of_nat k + 1))) with (p + zlen l - 1) in H by lia.
      replace (p + zlen l - 1 + 1) with (p + zlen l) in H by lia. done.
  Qed.
  (** v 701-710, d 828-838. *)
  Lemma keep_erase_back T segs p l (i j : nat) :
    (i <= j <= length l)%nat -> (i < j)%nat ->
    keep_op T segs p l (sq_erase_back (sitr (t_at T) segs (p + Z.of_nat i)) (sitr (t_at T) segs (p + Z.of_nat j)))
      p (take i l ++ drop j l) (sitr (t_at T) segs (p + Z.of_nat i)) (fun l' => length l' = length l).
  Proof.
    intros Hi Hij Q X. sopen. unfold sq_erase_back. sstep. sstep.
    wbind. iApply (wp_s_move with "Hw"); [sside..|]. iSplit.
    2:{ iIntros (f') "%Hs Hw". iApply (shaken_at _ _ _ _ _ (fun l' => length l' = length l) with "Hf Hw"); [apply Hs|lia|lia|done|].
        iDestruct "HK" as "[_ HK]". done. }
    iIntros (f') "%Hm Hw". wbeta. cbn [fst snd]. repeat sstep.
    replace (p + Z.of_nat i + (p + zlen l - (p + Z.of_nat j)) - p) with (zlen (take i l ++ drop j l)) by (len; lia).
    sdone. intros x.
    rewrite (erased_back p l (Z.of_nat i) (Z.of_nat j) f' f'0); [|lia|lia|done|].
    - by rewrite !Nat2Z.id.
    - replace (p + Z.of_nat i + (zlen l - Z.of_nat j)) with (p + Z.of_nat i + (p + zlen l - (p + Z.of_nat j))) by lia. done.
  Qed.
  (** v 692-711. *)
  Lemma keep_sv_erase_range T segs p l (i j : nat) first last :
    (i <= j <= length l)%nat -> first = sitr (t_at T) segs (p + Z.of_nat i) -> last = sitr (t_at T) segs (p + Z.of_nat j) ->
    keep_op T segs p l (sv_erase_range first last) p (take i l ++ drop j l) (sitr (t_at T) segs (p + Z.of_nat i))
      (fun l' => length l' = length l).
  Proof.
    intros Hi -> -> Q X. sopen. unfold sv_erase_range.
    wbind. iApply (wp_sq_offset _ _ _ _ i with "Hw"); [lia|lia|lia|done|]. iIntros "Hw". wbeta.
    wbind. iApply (wp_sq_offset _ _ _ _ j with "Hw"); [lia|lia|lia|done|]. iIntros "Hw". wbeta.
    do 6 sstep.
    iDestruct (swin_eqb (t_at T) segs _ (p + Z.of_nat i) (p + Z.of_nat j) with "Hw") as %->; [lia..|].
    destruct (Z.eqb_spec (p + Z.of_nat i) (p + Z.of_nat j)) as [Heq|Hne].
    - assert (i = j) as <- by lia. sstep. rewrite take_drop.
      iDestruct "HK" as "[HK _]". iApply "HK". iApply (sg_at_close with "Hf Hw"); lia.
    - do 4 sstep. iDestruct (sg_at_close with "Hf Hw") as "Hs"; [lia..|].
      iApply (keep_erase_back with "Hs"); [lia|lia|]. done.
  Qed.
  Lemma keep_cut_back T segs p l (n : nat) nl :
    (n <= length l)%nat -> nl = sitr (t_at T) segs (p + Z.of_nat n) ->
    keep_op T segs p l (sq_cut_back nl) p (take n l) tt (fun _ => False).
  Proof.
    intros Hn -> Q X. sopen. unfold sq_cut_back. repeat sstep.
    replace (p + Z.of_nat n - p) with (zlen (take n l)) by (len; lia). sdone.
    intros i. rewrite (cleared_back p l (Z.of_nat n) f' (p + zlen l)); [by rewrite Nat2Z.id|lia|lia|done].
  Qed.
End keepops.
