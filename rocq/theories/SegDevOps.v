(** * segmented_devector: erasure, resizing, insertion *)

From Verif Require Export SegFront.
From Coq Require Import ZifyBool.
From iris.proofmode Require Import environments tactics.
Open Scope Z_scope.
Notation frame := SegGrow.frame.

Section erases.
  Context `{E : Env} `{SZ : SegSize}.
  Implicit Types segs new : list loc.
  Implicit Types T : tab.

  (** d 771-799 [erase(pos)]. *)
  Lemma keep_sd_erase T segs p l (k : nat) pos :
    let p2 := if Z.of_nat k <? zlen l - Z.of_nat k then p + 1 else p in
    (k < length l)%nat -> pos = sitr (t_at T) segs (p + Z.of_nat k) ->
    keep_op T segs p l (sd_erase pos) p2 (take k l ++ drop (S k) l) (sitr (t_at T) segs (p2 + Z.of_nat k))
      (fun l' => length l' = length l).
  Proof.
    intros p2 Hk -> Q X. subst p2. sopen. unfold sd_erase.
    wbind. iApply (wp_sq_offset _ _ _ _ k with "Hw"); [lia|lia|lia|done|]. iIntros "Hw". wbeta.
    do 12 sstep. replace (p + zlen l - (p + Z.of_nat k)) with (zlen l - Z.of_nat k) by lia.
    destruct (Z.ltb_spec (Z.of_nat k) (zlen l - Z.of_nat k)) as [Hf|Hf].
    - sstep. iApply (wp_sw_move_backward with "Hw"); [sside..|]. iSplit.
      2:{ iIntros (f') "%Hs Hw". iApply (shaken_at _ _ _ _ _ (fun l' => length l' = length l) with "Hf Hw"); [apply Hs|lia|lia|done|].
          iDestruct "HK" as "[_ HK]". done. }
      iIntros (f') "%Hm Hw". wbeta. cbn [fst snd]. repeat sstep.
      replace (p + Z.of_nat k + 1 - (p + Z.of_nat k - p)) with (p + 1) by lia.
      replace (p + zlen l - (p + 1)) with (zlen (take k l ++ drop (S k) l)) by (len; lia).
      replace (p + Z.of_nat k + 1) with (p + 1 + Z.of_nat k) by lia.
      sdone. intros i.
      rewrite (erased_front p l (Z.of_nat k) (Z.of_nat k + 1) f' f'0); [|lia|lia| |].
      + rewrite Nat2Z.id. do 2 f_equal; [lia|]. do 2 f_equal. lia.
      + replace (p + (Z.of_nat k + 1 - Z.of_nat k)) with (p + Z.of_nat k + 1 - (p + Z.of_nat k - p)) by lia. done.
      + replace (p + (Z.of_nat k + 1 - Z.of_nat k)) with (p + 1) by lia. done.
    - sstep. iApply (wp_s_move with "Hw"); [sside..|]. iSplit.
      2:{ iIntros (f') "%Hs Hw". iApply (shaken_at _ _ _ _ _ (fun l' => length l' = length l) with "Hf Hw"); [apply Hs|lia|lia|done|].
          iDestruct "HK" as "[_ HK]". done. }
      iIntros (f') "%Hm Hw". wbeta. cbn [fst snd]. repeat sstep.
      replace (p + Z.of_nat k + (p + zlen l - (p + Z.of_nat k + 1)) - p) with (zlen (take k l ++ drop (S k) l)) by (len; lia).
      sdone. intros i.
      rewrite (erased_back p l (Z.of_nat k) (Z.of_nat k + 1) f' f'0); [|lia|lia| |].
      + rewrite Nat2Z.id. do 2 f_equal. f_equal. lia.
      + by rewrite Z.add_assoc.
      + replace (p + Z.of_nat k + (zlen l - (Z.of_nat k + 1))) with (p + zlen l - 1) by lia.
        replace (p + Z.of_nat k + (p + zlen l - (p + Z.of_nat k + 1))) with (p + zlen l - 1) in H by lia.
        replace (p + zlen l - 1 + 1) with (p + zlen l) in H by lia. done.
  Qed.
  (** d 801-839 [erase(first, last)]. *)
  Lemma keep_sd_erase_range T segs p l (i j : nat) first last :
    let p2 := if Z.of_nat i <? zlen l - Z.of_nat j then p + (Z.of_nat j - Z.of_nat i) else p in
    (i <= j <= length l)%nat -> first = sitr (t_at T) segs (p + Z.of_nat i) -> last = sitr (t_at T) segs (p + Z.of_nat j) ->
    keep_op T segs p l (sd_erase_range first last) p2 (take i l ++ drop j l) (sitr (t_at T) segs (p2 + Z.of_nat i))
      (fun l' => length l' = length l).
  Proof.
    intros p2 Hi -> -> Q X. subst p2. sopen. unfold sd_erase_range.
    wbind. iApply (wp_sq_offset _ _ _ _ i with "Hw"); [lia|lia|lia|done|]. iIntros "Hw". wbeta.
    wbind. iApply (wp_sq_offset _ _ _ _ j with "Hw"); [lia|lia|lia|done|]. iIntros "Hw". wbeta.
    do 6 sstep.
    iDestruct (swin_eqb (t_at T) segs _ (p + Z.of_nat i) (p + Z.of_nat j) with "Hw") as %->; [lia..|].
    destruct (Z.eqb_spec (p + Z.of_nat i) (p + Z.of_nat j)) as [Heq|Hne].
    - assert (i = j) as <- by lia. sstep. rewrite take_drop.
      replace (if Z.of_nat i <? zlen l - Z.of_nat i then p + (Z.of_nat i - Z.of_nat i) else p) with p
        by (destruct (_ <? _); lia).
      iDestruct "HK" as "[HK _]". iApply "HK". iApply (sg_at_close with "Hf Hw"); lia.
    - do 6 sstep. replace (p + zlen l - (p + Z.of_nat j)) with (zlen l - Z.of_nat j) by lia.
      destruct (Z.ltb_spec (Z.of_nat i) (zlen l - Z.of_nat j)) as [Hf|Hf].
      + sstep. iApply (wp_sw_move_backward with "Hw"); [sside..|]. iSplit.
        2:{ iIntros (f') "%Hs Hw". iApply (shaken_at _ _ _ _ _ (fun l' => length l' = length l) with "Hf Hw"); [apply Hs|lia|lia|done|].
            iDestruct "HK" as "[_ HK]". done. }
        iIntros (f') "%Hm Hw". wbeta. cbn [fst snd]. repeat sstep.
        replace (p + Z.of_nat j - (p + Z.of_nat i - p)) with (p + (Z.of_nat j - Z.of_nat i)) in * by lia.
        replace (p + zlen l - (p + (Z.of_nat j - Z.of_nat i))) with (zlen (take i l ++ drop j l)) by (len; lia).
        replace (p + Z.of_nat j) with (p + (Z.of_nat j - Z.of_nat i) + Z.of_nat i) by lia.
        sdone. intros x. rewrite (erased_front p l (Z.of_nat i) (Z.of_nat j) f' f'0); [|lia|lia|done|done].
        by rewrite !Nat2Z.id.
      + iDestruct (sg_at_close with "Hf Hw") as "Hs"; [lia..|].
        iApply (keep_erase_back with "Hs"); [lia|lia|]. done.
  Qed.
  (** d 2595-2615 [erase], [erase_if]. *)
  Lemma keep_sd_erase_if T segs p l (pr : V -> bool) :
    keep_op T segs p l (sq_erase_if sd_erase_range pr) p (keep pr l) (zlen l - zlen (keep pr l))
      (fun l' => length l' = length l).
  Proof.
    intros Q X. sopen. unfold sq_erase_if. pose proof (keep_length pr l) as Hk. sstep. sstep.
    wbind. iApply (wp_s_remove_if with "Hw"); [done|done|]. iSplit.
    2:{ iIntros (l') "%Hl' Hw". iDestruct "HK" as "[_ HK]".
        replace (sobj T segs p (zlen l)) with (sobj T segs p (zlen l')) by (f_equal; lia).
        iApply ("HK" with "[//]"). iApply (sg_at_close with "Hf Hw"); lia. }
    iIntros (J') "%HJ Hw". wbeta. sstep. sstep.
    assert (length (keep pr l ++ J') = length l) as Hlen by (rewrite app_length; lia).
    replace (p + zlen l) with (p + Z.of_nat (length l)) by lia.
    iDestruct (sg_at_close _ _ p (keep pr l ++ J') with "Hf Hw") as "Hs"; [lia..|].
    replace (sobj T segs p (zlen l)) with (sobj T segs p (zlen (keep pr l ++ J'))) by (f_equal; lia).
    wbind. iApply (keep_sd_erase_range T segs p (keep pr l ++ J') (length (keep pr l)) (length l) with "Hs"); [lia|done|done|].
    rewrite Hlen. replace (zlen (keep pr l) <? zlen l - zlen l) with false by lia.
    iSplit.
    - iIntros "Hs". wbeta. iApply wp_ret. iDestruct "HK" as "[HK _]".
      rewrite take_app drop_ge; [|lia]. rewrite app_nil_r.
      replace (zlen l - zlen (keep pr l)) with (p + zlen l - (p + zlen (keep pr l))) by lia. by iApply "HK".
    - iIntros (l') "%Hl' Hs". wbeta. iDestruct "HK" as "[_ HK]". iApply ("HK" with "[%] Hs"). lia.
  Qed.
End erases.

(** ** Resizing *)
Section resizes.
  Context `{E : Env} `{SZ : SegSize}.
  Implicit Types segs new : list loc.
  Implicit Types T : tab.

  (** Like [feed_op]; the first element ends up at [p2]. *)
  Definition wide_op (W : (Z -> bool) -> hProp) (WX : hProp) (n : Z) T segs (p : Z) (l : list V) (add : Z)
      (m : M sgdata unit) (p2 : Z) (l2 : list V) (R : list V -> Prop) : Prop :=
    forall Q X,
      sg_at T segs p l ⊢ W none_of -∗
      ((∀ T' new C, ⟦same_tab T T' /\ sgrown segs add new /\ (forall i, 0 <= i < n -> C i = true)⟧ -∗ W C -∗
          sg_at T' (segs ++ new) p2 l2 -∗ Q tt (sobj T' (segs ++ new) p2 (zlen l2))) ∧
       (∀ e T' new l', ⟦same_tab T T' /\ op_exn l segs add R e new l'⟧ -∗ WX -∗ sg_at T' (segs ++ new) p l' -∗
          X e (sobj T' (segs ++ new) p (zlen l')))) -∗
      wp m (sobj T segs p (zlen l)) Q X.
  (** The same without source. *)
  Definition shift_op T segs (p : Z) (l : list V) (add : Z) (m : M sgdata unit) (p2 : Z) (l2 : list V)
      (R : list V -> Prop) : Prop :=
    forall Q X,
      sg_at T segs p l ⊢
      ((∀ T' new, ⟦same_tab T T' /\ sgrown segs add new⟧ -∗
          sg_at T' (segs ++ new) p2 l2 -∗ Q tt (sobj T' (segs ++ new) p2 (zlen l2))) ∧
       (∀ e T' new l', ⟦same_tab T T' /\ op_exn l segs add R e new l'⟧ -∗ sg_at T' (segs ++ new) p l' -∗
          X e (sobj T' (segs ++ new) p (zlen l')))) -∗
      wp m (sobj T segs p (zlen l)) Q X.
  Lemma wide_shift n T segs p l add m p2 l2 R :
    wide_op (fun _ => emp%I) emp%I n T segs p l add m p2 l2 R -> shift_op T segs p l add m p2 l2 R.
  Proof.
    intros Hf Q X. iIntros "Hs HK". iApply (Hf with "Hs [//]"). iSplit.
    - iIntros (T' new C) "%H _ Hs". iDestruct "HK" as "[HK _]". iApply ("HK" with "[%] Hs"). tauto.
    - iIntros (e T' new l') "%H _ Hs". iDestruct "HK" as "[_ HK]". by iApply ("HK" with "[%] Hs").
  Qed.
  Lemma keep_shift T segs p l add m p2 l2 R :
    keep_op T segs p l m p2 l2 tt R -> add <= 0 -> shift_op T segs p l add m p2 l2 R.
  Proof.
    intros Hk Hadd Q X. iIntros "Hs HK". iApply (Hk with "Hs"). iSplit.
    - iIntros "Hs". iDestruct "HK" as "[HK _]". iSpecialize ("HK" $! T [] with "[%]").
      { split; [done|]. by apply grown_0. }
      rewrite app_nil_r. by iApply "HK".
    - iIntros (l') "%HR Hs". iDestruct "HK" as "[_ HK]". iSpecialize ("HK" $! EUser T [] l' with "[%]").
      { split; [done|]. right. split; [done|]. by split; [left|]. }
      rewrite app_nil_r. by iApply "HK".
  Qed.

  (** [uninitialized_fill_a(alloc, new_first, first_, value); first_ = new_first]. *)
  Lemma keep_prepend T segs p l q a v :
    sconst segs p l a v -> 0 <= q <= p ->
    keep_op T segs p l
      (s_uninitialized_fill_a (sitr (t_at T) segs q) (sitr (t_at T) segs p) a;; sq_set_first (sitr (t_at T) segs q))%prog
      q (replicate (Z.to_nat (p - q)) v ++ l) tt (fun l' => l' = l).
  Proof.
    intros Ha Hq Q X. sopen. wbind.
    iApply (wp_s_ufill_a_self with "Hw"); [apply sconst_warg; [lia|lia|exact Ha]|lia|lia|lia| |].
    { intros i Hi. apply live_out. lia. }
    iSplit.
    - iIntros (f') "%Hf Hw". wbeta. sstep.
      replace (p + zlen l - q) with (zlen (replicate (Z.to_nat (p - q)) v ++ l)) by (len; lia).
      sdone. apply (stored_front p l); [len; lia|done].
    - iIntros "Hw". iDestruct "HK" as "[_ HK]". iApply ("HK" with "[%//]"). iApply (sg_at_close with "Hf Hw"); lia.
  Qed.

  (** d 1006-1083 [resize_front]. *)
  Lemma front_sd_resize_front T segs p l (n : nat) a v :
    sconst segs p l a v ->
    front_op T segs p l (Z.of_nat n - zlen l - p) (Z.of_nat n - zlen l) (sd_resize_front (Z.of_nat n) a)
      (replicate (n - length l) v ++ drop (length l - n) l) (fun _ _ _ => tt) (fun l' => l' = l /\ (length l < n)%nat).
  Proof.
    intros Ha Q X. sopen. unfold sd_resize_front.
    wbind. iApply (wp_sq_size with "Hw"); [lia..|]. iIntros "Hw". wbeta.
    destruct (Z.leb_spec (Z.of_nat n) (zlen l)) as [Hle|Hlt].
    - wbind. iApply (wp_sd_nth with "Hw"); [lia..|]. iIntros "Hw". wbeta. repeat sstep.
      replace (n - length l)%nat with 0%nat by lia. cbn [replicate app].
      iDestruct "HK" as "[HK _]". iSpecialize ("HK" $! T [] with "[%]").
      { split; [done|]. apply fgrown_0. lia. }
      replace (slots [] + p - (Z.of_nat n - zlen l)) with (p + (zlen l - Z.of_nat n)) by (unfold slots; simpl; lia).
      replace (p + zlen l - (p + (zlen l - Z.of_nat n))) with (zlen (drop (length l - n) l)) by (len; lia).
      iApply "HK". iApply (sg_at_close with "Hf [Hw]"); [len; lia..|].
      iApply (swin_eq with "Hw"). intros i. rewrite (cleared_front p l (zlen l - Z.of_nat n) f'); [|lia|done].
      f_equal. f_equal. lia.
    - wbind. iApply (wp_sq_front_room with "Hw"); [lia..|]. iIntros "Hw". wbeta.
      sroomf (Z.of_nat n - zlen l - p) T' new. do 4 sstep.
      skeep (keep_prepend T' (new ++ segs) (slots new + p) l (slots new + p - (Z.of_nat n - zlen l))); [apply sconst_grow_front; [lia|lia|exact Ha]|lia| |].
      + iIntros "Hs". iDestruct "HK" as "[HK _]".
        replace (Z.to_nat (slots new + p - (slots new + p - (Z.of_nat n - zlen l)))) with (n - length l)%nat by lia.
        replace (length l - n)%nat with 0%nat by lia. rewrite drop_0. by iApply ("HK" with "[%//]").
      + iIntros (l') "-> Hs". iDestruct "HK" as "[_ HK]". iApply ("HK" with "[%] Hs").
        split; [done|]. right. split; [done|]. split; [by right|]. split; [lia|]. split; [done|lia].
  Qed.
  (** d 1085-1154 [resize_back]. *)
  Lemma back_sd_resize_back T segs p l (n : nat) a v :
    sconst segs p l a v ->
    back_op T segs p l (p + Z.of_nat n - (slots segs - 1)) (sd_resize_back (Z.of_nat n) a)
      (take n l ++ replicate (n - length l) v) (fun _ _ => tt) (fun l' => l' = l /\ (length l < n)%nat).
  Proof.
    intros Ha Q X. sopen. unfold sd_resize_back.
    wbind. iApply (wp_sq_size with "Hw"); [lia..|]. iIntros "Hw". wbeta.
    destruct (Z.leb_spec (Z.of_nat n) (zlen l)) as [Hle|Hlt].
    - wbind. iApply (wp_sd_nth with "Hw"); [lia..|]. iIntros "Hw". wbeta.
      iDestruct (sg_at_close with "Hf Hw") as "Hs"; [lia..|].
      replace (n - length l)%nat with 0%nat by lia. rewrite app_nil_r.
      iApply (keep_back _ _ _ _ _ _ tt (fun _ _ => tt) _ (p + Z.of_nat n - (slots segs - 1)) with "Hs HK"); [|lia|done].
      eapply keep_strong; [|apply (keep_cut_back T segs p l n); [lia|done]]. done.
    - wbind. iApply (wp_sq_back_room with "Hw"); [lia..|]. iIntros "Hw". wbeta.
      sroom (p + Z.of_nat n - (slots segs - 1)) T' new.
      skeep (keep_append_n T' (segs ++ new) p l (Z.of_nat n - zlen l)); [apply sconst_grow_back; [lia|lia|exact Ha]|lia|lia| |].
      + iIntros "Hs". iDestruct "HK" as "[HK _]". rewrite take_ge; [|lia].
        replace (Z.to_nat (Z.of_nat n - zlen l)) with (n - length l)%nat by lia. by iApply ("HK" with "[%//]").
      + iIntros (l') "-> Hs". sfail. split; [done|lia].
  Qed.
  (** d 841-1004 [resize]. *)
  Definition sresized segs (p : Z) (n : Z) (l : list V) : Z := Z.max 0 (Z.min p (n - (slots segs - 1 - p))).
  Lemma shift_sd_resize T segs p l (n : nat) a v :
    let k := sresized segs p (Z.of_nat n) l in
    sconst segs p l a v ->
    shift_op T segs p l (Z.of_nat n - (slots segs - 1)) (sd_resize (Z.of_nat n) a) (p - k)
      (replicate (Z.to_nat k) v ++ take n l ++ replicate (n - length l - Z.to_nat k) v)
      (fun l' => (length l < n)%nat /\ (exists j, (length l + j <= n)%nat /\ l' = l ++ replicate j v) /\
                 (p + Z.of_nat n <= slots segs - 1 -> l' = l)).
  Proof.
    intros k Ha Q X. unfold sresized in k. sopen. unfold sd_resize.
    wbind. iApply (wp_sq_size with "Hw"); [lia..|]. iIntros "Hw". wbeta.
    destruct (Z.leb_spec (Z.of_nat n) (zlen l)) as [Hle|Hlt].
    { wbind. iApply (wp_sd_nth with "Hw"); [lia..|]. iIntros "Hw". wbeta.
      iDestruct (sg_at_close with "Hf Hw") as "Hs"; [lia..|].
      assert (k = 0) as -> by lia. change (Z.to_nat 0) with 0%nat.
      replace (n - length l - 0)%nat with 0%nat by lia. rewrite Z.sub_0_r app_nil_r. cbn [replicate app].
      iApply (keep_shift _ _ _ _ (Z.of_nat n - (slots segs - 1)) with "Hs HK"); [|lia].
      eapply keep_strong; [|apply (keep_cut_back T segs p l n); [lia|done]]. done. }
    wbind. iApply (wp_sq_back_room with "Hw"); [lia..|]. iIntros "Hw". wbeta.
    destruct (Z.leb_spec (Z.of_nat n) (zlen l + (slots segs - 1 - (p + zlen l)))) as [Hr|Hr].
    { iDestruct (sg_at_close with "Hf Hw") as "Hs"; [lia..|].
      assert (k = 0) as -> by lia. change (Z.to_nat 0) with 0%nat. rewrite Z.sub_0_r Nat.sub_0_r. cbn [replicate app].
      rewrite take_ge; [|lia].
      iApply (keep_shift _ _ _ _ (Z.of_nat n - (slots segs - 1)) with "Hs HK"); [|lia].
      replace (n - length l)%nat with (Z.to_nat (Z.of_nat n - zlen l)) by lia.
      eapply keep_strong; [|apply (keep_append_n T segs p l (Z.of_nat n - zlen l)); [exact Ha|lia|lia]].
      intros l' ->. split; [lia|]. split; [|done]. exists 0%nat. split; [lia|]. by rewrite app_nil_r. }
    wbind. iApply (wp_sq_front_room with "Hw"); [lia..|]. iIntros "Hw". wbeta.
    destruct (Z.leb_spec (Z.of_nat n) (p + zlen l + (slots segs - 1 - (p + zlen l)))) as [Hr2|Hr2].
    - assert (k = Z.of_nat n - (slots segs - 1 - p)) as Hk by lia.
      sstep. sstep. sstep.
      iApply (wp_s_ufill_a_self with "Hw"); [apply sconst_warg; [lia|lia|exact Ha]|lia|lia|lia| |].
      { intros i Hi. apply live_out. lia. }
      iSplit.
      2:{ iIntros "Hw". iDestruct "HK" as "[_ HK]". iSpecialize ("HK" $! EUser T [] l with "[%]").
          { split; [done|]. right. split; [done|]. split; [by left|]. split; [lia|]. split; [|done].
            exists 0%nat. split; [lia|]. by rewrite app_nil_r. }
          rewrite app_nil_r. iApply "HK". iApply (sg_at_close with "Hf Hw"); lia. }
      iIntros (f') "%Hf Hw". wbeta. sstep. sstep.
      pose proof (stored_back _ _ _ _ Hf) as Hf'. iDestruct (swin_eq _ _ _ _ Hf' with "Hw") as "Hw".
      set (l1 := l ++ replicate (Z.to_nat (slots segs - 1 - (p + zlen l))) v) in *.
      assert (zlen l1 = slots segs - 1 - p) as Hl1 by (subst l1; len; lia).
      replace (slots segs - 1 - p) with (zlen l1) by lia. do 2 sstep.
      skeep (keep_prepend T segs p l1 (p - (Z.of_nat n - (zlen l + (slots segs - 1 - (p + zlen l)))))); [by apply sconst_app|lia| |].
      + iIntros "Hs". iDestruct "HK" as "[HK _]". iSpecialize ("HK" $! T [] with "[%]").
        { split; [done|]. apply grown_0. lia. }
        rewrite app_nil_r take_ge; [|lia].
        replace (n - length l - Z.to_nat k)%nat with (Z.to_nat (slots segs - 1 - (p + zlen l))) by lia. fold l1.
        replace (p - (Z.of_nat n - (zlen l + (slots segs - 1 - (p + zlen l))))) with (p - k) by lia.
        replace (p - (p - k)) with k by lia. by iApply "HK".
      + iIntros (l') "-> Hs". iDestruct "HK" as "[_ HK]". iSpecialize ("HK" $! EUser T [] l1 with "[%]").
        { split; [done|]. right. split; [done|]. split; [by left|]. split; [lia|]. split; [|lia].
          eexists. split; [|done]. lia. }
        rewrite app_nil_r. by iApply "HK".
    - assert (k = p) as Hk by lia.
      iDestruct (sg_at_close with "Hf Hw") as "Hs"; [lia..|].
      wbind. iPoseProof (wp_room_back T segs p l true (Z.of_nat n - (p + zlen l + (slots segs - 1 - (p + zlen l))))
        (Z.of_nat n - (slots segs - 1))) as "H"; [lia|lia|]. iApply ("H" with "Hs"). iClear "H". iSplit.
      2:{ iIntros (e T' new l') "%He Hs". iDestruct "HK" as "[_ HK]". iApply ("HK" with "[%] Hs").
          split; [tauto|]. destruct He as [_ He]. eapply op_exn_weaken; [|done]. done. }
      iIntros (T' new) "%HT Hs". wbeta. destruct HT as [HT Hnew].
      destruct (more_segs_room segs new _ Hnew) as (Hr3 & Hr4 & Hr5 & _).
      wbind. iApply (keep_append_n T' (segs ++ new) p l with "Hs"); [by apply sconst_grow_back; [lia|lia|]|lia|lia|]. iSplit.
      2:{ iIntros (l') "-> Hs". sfail. split; [lia|]. split; [|done]. exists 0%nat. split; [lia|]. by rewrite app_nil_r. }
      iIntros "Hs". wbeta. iDestruct (sg_at_open with "Hs") as "(%Hb2 & Hf & Hw)".
      set (l1 := l ++ replicate (Z.to_nat (Z.of_nat n - (zlen l + p))) v) in *.
      sstep. sstep.
      skeep (keep_prepend T' (segs ++ new) p l1 0); [apply sconst_app; by apply sconst_grow_back; [lia|lia|]|lia| |].
      + iIntros "Hs". iDestruct "HK" as "[HK _]". rewrite take_ge; [|lia]. rewrite Hk.
        replace (n - length l - Z.to_nat p)%nat with (Z.to_nat (Z.of_nat n - (zlen l + p))) by lia. fold l1.
        rewrite Z.sub_0_r. replace (p - p) with 0 by lia. by iApply ("HK" with "[%//]").
      + iIntros (l') "-> Hs". sfail. split; [lia|]. split; [|lia]. eexists. split; [|done]. lia.
  Qed.
End resizes.
