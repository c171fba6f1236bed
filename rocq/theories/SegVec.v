(** * Segmented containers: insertion, assignment and resizing at the back *)

From Verif Require Export SegFeed.
From Coq Require Import ZifyBool.
From iris.proofmode Require Import environments tactics.
Open Scope Z_scope.
Notation frame := SegGrow.frame.

Section feedop.
  Context `{E : Env} `{SZ : SegSize}.
  Implicit Types segs new : list loc.
  Implicit Types T : tab.

  (** Like [back_op], with a source of [n] elements. *)
  Definition feed_op {A} (W : (Z -> bool) -> hProp) (WX : hProp) (n : Z) T segs (p : Z) (l : list V) (add : Z)
      (m : M sgdata A) (l2 : list V) (r : tab -> list loc -> A) (R : list V -> Prop) : Prop :=
    forall Q X,
      sg_at T segs p l ⊢ W none_of -∗
      ((∀ T' new C, ⟦same_tab T T' /\ sgrown segs add new /\ (forall i, 0 <= i < n -> C i = true)⟧ -∗ W C -∗
          sg_at T' (segs ++ new) p l2 -∗ Q (r T' (segs ++ new)) (sobj T' (segs ++ new) p (zlen l2))) ∧
       (∀ e T' new l', ⟦same_tab T T' /\ op_exn l segs add R e new l'⟧ -∗ WX -∗ sg_at T' (segs ++ new) p l' -∗
          X e (sobj T' (segs ++ new) p (zlen l')))) -∗
      wp m (sobj T segs p (zlen l)) Q X.

  Lemma feed_back {A} n T segs p l add (m : M sgdata A) l2 r R :
    feed_op (fun _ => emp%I) emp%I n T segs p l add m l2 r R -> back_op T segs p l add m l2 r R.
  Proof.
    intros Hf Q X. iIntros "Hs HK". iApply (Hf with "Hs [//]"). iSplit.
    - iIntros (T' new C) "%H _ Hs". iDestruct "HK" as "[HK _]". iApply ("HK" with "[%] Hs"). tauto.
    - iIntros (e T' new l') "%H _ Hs". iDestruct "HK" as "[_ HK]". by iApply ("HK" with "[%] Hs").
  Qed.

  (** [data_.last_ = uninitialized_fill_n_a(alloc, data_.last_, n, value)]. *)
  Lemma keep_append_n T segs p l n a v :
    sconst segs p l a v -> 0 <= n -> p + zlen l + n < slots segs ->
    keep_op T segs p l (sq_append_n n a) p (l ++ replicate (Z.to_nat n) v) tt (fun l' => l' = l).
  Proof.
    intros Ha Hn Hs Q X. sopen. unfold sq_append_n. sstep. sstep. sstep.
    iApply (wp_s_ufill_n_a_self with "Hw"); [apply sconst_warg; [lia|lia|exact Ha]|lia|lia| |].
    { intros i Hi. apply live_out. lia. }
    iSplit.
    - iIntros (f') "%Hf Hw". wbeta. sstep.
      replace (p + zlen l + Z.of_nat (Z.to_nat n) - p) with (zlen (l ++ replicate (Z.to_nat n) v)) by (len; lia).
      sdone. by apply stored_back.
    - iIntros "Hw". iDestruct "HK" as "[_ HK]". iApply ("HK" with "[%//]"). iApply (sg_at_close with "Hf Hw"); lia.
  Qed.
End feedop.

(** The end of a function after room was made: [K] needs no more room. *)
Ltac skeep K :=
  iDestruct (sg_at_close with "Hf Hw") as "Hs"; [len; lia..|];
  iApply (K with "Hs"); [..|iSplit].
Ltac sfail :=
  iDestruct "HK" as "[_ HK]"; iApply ("HK" with "[%] Hs");
  split; [assumption|right; split; [done|split; [by right|]]].

(** Making room; the source is in "HW". *)
Ltac sroomw add T' new Hfd :=
  iDestruct (sg_at_close with "Hf Hw") as "Hs"; [lia..|];
  wbind; iApply (wp_room_back _ _ _ _ _ _ add with "Hs"); [lia..|]; iSplit;
  [ iIntros (T' new) "% Hs";
    match goal with H : same_tab _ _ /\ sgrown _ _ _ |- context [sobj _ (?segs ++ _)] =>
      destruct (more_segs_room segs _ _ (proj2 H)) as (Hr1 & Hr2 & Hr3 & _); destruct H as [HT Hnew] end; wbeta;
    iDestruct (sg_at_open with "Hs") as "(_ & Hf & Hw)"
  | iIntros (? ? ? ?) "% Hs"; iDestruct (fd_abort _ _ _ _ Hfd with "HW") as "HW";
    iDestruct "HK" as "[_ HK]"; iApply ("HK" with "[%] HW Hs");
    match goal with H : same_tab _ _ /\ op_exn _ _ _ _ _ _ _ |- _ =>
      split; [exact (proj1 H)|eapply op_exn_weaken; [|exact (proj2 H)]; done] end ].

Section spread.
  Context `{E : Env} `{SZ : SegSize}.
  Implicit Types segs new : list loc.
  Implicit Types T : tab.

  (** The end of [insert_range], towards the back. *)
  Lemma spread_done (W : (Z -> bool) -> hProp) (WX : hProp) n T T' segs new p l (k : nat) vs add Q X :
    same_tab T T' -> sgrown segs add new -> 0 <= p -> (k <= length l)%nat -> n = zlen vs ->
    p + zlen l + zlen vs < slots (segs ++ new) ->
    frame T' (segs ++ new) ⊢
    ((∀ T' new C, ⟦same_tab T T' /\ sgrown segs add new /\ (forall i, 0 <= i < n -> C i = true)⟧ -∗ W C -∗
        sg_at T' (segs ++ new) p (insert_at k vs l) -∗
        Q (sitr (t_at T') (segs ++ new) (p + Z.of_nat k)) (sobj T' (segs ++ new) p (zlen (insert_at k vs l)))) ∧
     (∀ e T' new l', ⟦same_tab T T' /\ op_exn l segs add
          (fun l' => zlen l <= zlen l' <= zlen l + zlen vs /\ (k = length l -> l' = l)) e new l'⟧ -∗ WX -∗
        sg_at T' (segs ++ new) p l' -∗ X e (sobj T' (segs ++ new) p (zlen l')))) -∗
    ((∀ f' r o' C, ⟦spread p (zlen l) p (Z.of_nat k) vs (at_pos p l) f' /\
          r = sitr (t_at T') (segs ++ new) (p + Z.of_nat k) /\ o' = sobj T' (segs ++ new) p (zlen l + zlen vs) /\
          (forall i, 0 <= i < zlen vs -> C i = true)⟧ -∗
        W C -∗ swin (t_at T') (segs ++ new) f' -∗ Q r o') ∧
     (∀ f' p' m', ⟦(forall i, live f' i = within p' (p' + m') i) /\ p' = p /\ zlen l <= m' <= zlen l + zlen vs /\
          (Z.of_nat k = zlen l -> f' = at_pos p l)⟧ -∗ WX -∗ swin (t_at T') (segs ++ new) f' -∗
        X EUser (sobj T' (segs ++ new) p' m'))).
  Proof.
    intros HT Hnew Hp Hk -> Hs. iIntros "Hf HK". iSplit.
    - iIntros (f' r o' C) "%H HW Hw". destruct H as (Hsp & -> & -> & HC).
      iDestruct "HK" as "[HK _]".
      replace (zlen l + zlen vs) with (zlen (insert_at k vs l)) by (unfold insert_at; len; lia).
      iApply ("HK" $! T' new C with "[%] HW"); [done|].
      iApply (sg_at_close with "Hf [Hw]"); [lia|unfold insert_at; len; lia|].
      iApply (swin_eq with "Hw"). by apply (DevProofs.spread_list p l).
    - iIntros (f' p' m') "%H HW Hw". destruct H as (Hl & -> & Hm & Hx).
      destruct (alive_list p m' f') as (l' & Hlen & Hf'); [lia|done|]. rewrite -Hlen.
      iDestruct "HK" as "[_ HK]". iApply ("HK" $! EUser T' new l' with "[%] HW").
      + split; [done|]. right. split; [done|]. split; [by right|]. split; [lia|]. intros Hkl.
        apply (at_pos_inj p). intros i. rewrite -Hf'. rewrite Hx; [done|lia].
      + iApply (sg_at_close with "Hf [Hw]"); [lia|lia|]. by iApply (swin_eq with "Hw").
  Qed.
End spread.

Section vecops.
  Context `{E : Env} `{SZ : SegSize}.
  Implicit Types segs new : list loc.
  Implicit Types T : tab.

  Lemma slots_pos segs : 0 < slots segs -> 0 < zlen segs.
  Proof. destruct segs; unfold slots; simpl; lia. Qed.

  (** v 713-748, v 750-786 [resize]. *)
  Lemma back_sv_resize T segs l (n : nat) a v :
    sconst segs 0 l a v ->
    back_op T segs 0 l (Z.of_nat n - (slots segs - 1)) (sv_resize (Z.of_nat n) a)
      (take n l ++ replicate (n - length l) v) (fun _ _ => tt) (fun l' => l' = l /\ (length l < n)%nat).
  Proof.
    intros Ha Q X. sopen. unfold sv_resize.
    wbind. iApply (wp_sq_size with "Hw"); [lia..|]. iIntros "Hw". wbeta.
    destruct (Z.leb_spec (Z.of_nat n) (zlen l)) as [Hle|Hlt].
    - wbind. iApply (wp_sv_nth with "Hw"); [lia..|]. iIntros "Hw". wbeta.
      iDestruct (sg_at_close with "Hf Hw") as "Hs"; [lia..|].
      replace (n - length l)%nat with 0%nat by lia. rewrite app_nil_r.
      iApply (keep_back _ _ _ _ _ _ tt (fun _ _ => tt) _ (Z.of_nat n - (slots segs - 1)) with "Hs HK"); [|lia|done].
      eapply keep_strong; [|apply (keep_cut_back T segs 0 l n); [lia|by rewrite Z.add_0_l]]. done.
    - wbind. iApply (wp_sq_capacity with "Hw"); [apply slots_pos; lia|]. iIntros "Hw". wbeta.
      sroom (Z.of_nat n - (slots segs - 1)) T' new.
      skeep (keep_append_n T' (segs ++ new) 0 l (Z.of_nat n - zlen l)); [apply sconst_grow_back; [lia|lia|exact Ha]|lia|lia| |].
      + iIntros "Hs". iDestruct "HK" as "[HK _]". rewrite take_ge; [|lia].
        replace (Z.to_nat (Z.of_nat n - zlen l)) with (n - length l)%nat by lia. by iApply ("HK" with "[%//]").
      + iIntros (l') "-> Hs". sfail. split; [done|lia].
  Qed.

  (** v 1522-1602 [insert_fill_n]. *)
  Lemma back_sv_insert_fill T segs p l (k n : nat) a v pos :
    sarg segs p l a v l -> ~ is_move a -> (k <= length l)%nat -> pos = sitr (t_at T) segs (p + Z.of_nat k) ->
    back_op T segs p l (p + zlen l + Z.of_nat n - (slots segs - 1)) (sv_insert_fill pos (Z.of_nat n) a)
      (insert_at k (replicate n v) l) (fun T' segs' => sitr (t_at T') segs' (p + Z.of_nat k))
      (fun l' => zlen l <= zlen l' <= zlen l + Z.of_nat n /\ (k = length l -> l' = l)).
  Proof.
    intros Ha Hmv Hk -> Q X. sopen. unfold sv_insert_fill.
    wbind. iApply (wp_sq_offset _ _ _ _ k with "Hw"); [lia|lia|lia|done|]. iIntros "Hw". wbeta.
    destruct (Z.eqb_spec (Z.of_nat n) 0) as [Hz|Hnz].
    - do 3 sstep. iDestruct (sg_at_close with "Hf Hw") as "Hs"; [lia..|].
      iDestruct "HK" as "[HK _]". iSpecialize ("HK" $! T [] with "[%]").
      { split; [done|]. apply grown_0. lia. }
      replace n with 0%nat by lia. unfold insert_at. simpl. rewrite take_drop app_nil_r. by iApply "HK".
    - wbind. iApply (sarg_mk _ _ _ _ _ _ _ Hp Hb Ha with "Hw"). iSplit.
      2:{ iIntros "H". iDestruct "H" as (l') "[%He Hw]". destruct He as [Hl He].
          assert (l' = l) as -> by (destruct Ha; simpl in *; tauto).
          iDestruct (sg_at_close with "Hf Hw") as "Hs"; [lia..|].
          iDestruct "HK" as "[_ HK]". iSpecialize ("HK" $! EUser T [] l with "[%]").
          { split; [done|]. right. split; [done|]. split; [by left|]. split; [lia|done]. }
          rewrite app_nil_r. by iApply "HK". }
      iIntros "Hw". wbeta.
      wbind. iApply (wp_sq_back_room with "Hw"); [lia..|]. iIntros "Hw". wbeta.
      sroom (p + zlen l + Z.of_nat n - (slots segs - 1)) T' new.
      do 4 sstep.
      iApply (wp_l_fill_back _ _ _ _ k _ _ (negb (p + zlen l <? p + Z.of_nat k + Z.of_nat n)) with "Hw");
        [lia|lia|lia|lia| |lia|lia|done|].
      { intros Q'. iIntros "HQ". wbind. iApply wp_it_ltb. wbeta. by iApply wp_ret. }
      iSplit.
      + iIntros "Hw". iDestruct "HK" as "[HK _]". rewrite Nat2Z.id. iApply ("HK" with "[%//]").
        iApply (sg_at_close with "Hf Hw"); [lia|unfold insert_at; len; lia].
      + iIntros (p' l') "%He Hw". destruct He as (-> & He & Hx).
        iDestruct (sg_at_close with "Hf Hw") as "Hs"; [lia..|]. sfail. done.
  Qed.

  (** v 1622-1702 [insert_range], forward iterators. *)
  Lemma feed_sv_insert_range W WX vs sub T segs p l (k : nat) pos :
    feeds W WX vs sub -> (k <= length l)%nat -> pos = sitr (t_at T) segs (p + Z.of_nat k) ->
    feed_op W WX (zlen vs) T segs p l (p + zlen l + zlen vs - (slots segs - 1)) (sv_insert_range pos (sub 0 (zlen vs)))
      (insert_at k vs l) (fun T' segs' => sitr (t_at T') segs' (p + Z.of_nat k))
      (fun l' => zlen l <= zlen l' <= zlen l + zlen vs /\ (k = length l -> l' = l)).
  Proof.
    intros Hfd Hk -> Q X. iIntros "Hs HW HK". iDestruct (sg_at_open with "Hs") as "(%Hpb & Hf & Hw)".
    destruct Hpb as [Hp Hb]. unfold sv_insert_range.
    wbind. iApply (wp_sq_offset _ _ _ _ k with "Hw"); [lia|lia|lia|done|]. iIntros "Hw". wbeta.
    wbind. iApply (fd_len _ _ _ _ Hfd with "HW"); [lia|lia|]. iIntros "HW". wbeta. rewrite Z.sub_0_r.
    sstep. sstep. destruct (Z.eqb_spec (zlen vs) 0) as [Hz|Hnz].
    - sstep. iDestruct (sg_at_close with "Hf Hw") as "Hs"; [lia..|].
      iDestruct "HK" as "[HK _]". iSpecialize ("HK" $! T [] none_of with "[%] HW").
      { split; [done|]. split; [|lia]. apply grown_0. lia. }
      destruct vs; [|simpl in Hz; lia]. unfold insert_at. simpl. rewrite take_drop app_nil_r. by iApply "HK".
    - sstep. sstep. wbind. iApply (wp_sq_back_room with "Hw"); [lia..|]. iIntros "Hw". wbeta.
      sroomw (p + zlen l + zlen vs - (slots segs - 1)) T' new Hfd.
      do 8 sstep. destruct (Z.ltb_spec (p + zlen l) (p + Z.of_nat k + zlen vs)) as [Hlt|Hge]; simpl.
      + replace (p + zlen l - (p + Z.of_nat k)) with (zlen l - Z.of_nat k) by lia.
        iApply (wp_range_near _ _ _ _ Hfd with "Hw HW"); [lia|lia|lia|lia|lia|apply live_within|].
        iApply (spread_done with "Hf HK"); first [done|lia].
      + do 2 sstep.
        iApply (wp_range_far _ _ _ _ Hfd with "Hw HW"); [lia|lia|lia|lia|lia|apply live_within|].
        iApply (spread_done with "Hf HK"); first [done|lia].
  Qed.
End vecops.
