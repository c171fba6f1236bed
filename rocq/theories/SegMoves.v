(** * Proof rules for the segmented algorithms, continued *)

From Verif Require Export SegWin.
From Coq Require Import ZifyBool.
From iris.proofmode Require Import tactics.
Open Scope Z_scope.

Section sources.
  Context `{E : Env}.
  Implicit Types f g : Z -> option V.
  Implicit Types addr : Z -> loc.

  Lemma mks_split PX P srcs vs P' j :
    mks_ok PX P srcs vs P' ->
    exists Pj, mks_ok PX P (take j srcs) (take j vs) Pj /\ mks_ok PX Pj (drop j srcs) (drop j vs) P'.
  Proof.
    intros Hok. induction Hok as [P|P x v P1 srcs vs P2 H1 H2 IH] in j |- *.
    - exists P. rewrite !take_nil !drop_nil. split; constructor.
    - destruct j as [|j]; simpl.
      + exists P. split; [constructor|by econstructor].
      + destruct (IH j) as (Pj & Ha & Hb). exists Pj. split; [by econstructor|done].
  Qed.
  Lemma ass_split PX P srcs vs P' j :
    ass_ok PX P srcs vs P' ->
    exists Pj, ass_ok PX P (take j srcs) (take j vs) Pj /\ ass_ok PX Pj (drop j srcs) (drop j vs) P'.
  Proof.
    intros Hok. induction Hok as [P|P x v P1 srcs vs P2 H1 H2 IH] in j |- *.
    - exists P. rewrite !take_nil !drop_nil. split; constructor.
    - destruct j as [|j]; simpl.
      + exists P. split; [constructor|by econstructor].
      + destruct (IH j) as (Pj & Ha & Hb). exists Pj. split; [by econstructor|done].
  Qed.

  (** Sources inside a window. *)
  Lemma refs_addr mk addr p x n :
    contig addr x (x + Z.of_nat n) p -> refs mk p n = (fun i => mk (addr i)) <$> seqZ x (Z.of_nat n).
  Proof.
    induction n as [|n IH] in x, p |- *; intros Hc.
    - done.
    - rewrite seqZ_cons; [|lia]. simpl. f_equal.
      + rewrite (Hc x); [|lia]. by rewrite Z.sub_diag loc_add_0.
      + replace (Z.pred (Z.of_nat (S n))) with (Z.of_nat n) by lia. apply IH.
        intros i Hi. rewrite Hc; [|lia]. rewrite loc_add_assoc. f_equal. lia.
  Qed.
  Lemma win_mk_copy addr lo hi g i v :
    lo <= i < hi -> g i = Some v ->
    mk_ok (win addr lo hi g) (win addr lo hi g) (ACopy (addr i)) v (win addr lo hi g).
  Proof.
    intros Hi Hg St s Q X. iIntros "Hw HK".
    iDestruct (win_acc1 _ _ _ i with "Hw") as "[Hc Hw]"; [done|]. rewrite {1}Hg. simpl.
    assert (forall o, o = Some v -> win addr lo hi (upd g i o) ⊢ win addr lo hi g) as Hback.
    { intros o ->. apply win_eq. intros j Hj. unfold upd. destruct (Z.eqb_spec j i) as [->|]; done. }
    iApply (mk_ok_copy1 with "Hc"). iSplit.
    - iIntros "Hc". iDestruct "HK" as "[HK _]". iApply "HK".
      iApply (Hback (Some v)); [done|]. by iApply "Hw".
    - iIntros "Hc". iDestruct "HK" as "[_ HK]". iApply "HK".
      iApply (Hback (Some v)); [done|]. by iApply "Hw".
  Qed.
  Lemma win_as_copy addr lo hi g i v :
    lo <= i < hi -> g i = Some v ->
    as_ok (win addr lo hi g) (win addr lo hi g) (ACopy (addr i)) v (win addr lo hi g).
  Proof.
    intros Hi Hg St s Q X d c. iIntros "Hw Hd HK".
    iDestruct (win_acc1 _ _ _ i with "Hw") as "[Hc Hw]"; [done|]. rewrite {1}Hg. simpl.
    assert (forall o, o = Some v -> win addr lo hi (upd g i o) ⊢ win addr lo hi g) as Hback.
    { intros o ->. apply win_eq. intros j Hj. unfold upd. destruct (Z.eqb_spec j i) as [->|]; done. }
    iApply (as_ok_copy1 with "Hc Hd"). iSplit.
    - iIntros "Hc Hd". iDestruct "HK" as "[HK _]". iApply ("HK" with "[Hc Hw] Hd").
      iApply (Hback (Some v)); [done|]. by iApply "Hw".
    - iIntros (c') "Hc Hd". iDestruct "HK" as "[_ HK]". iApply ("HK" with "[Hc Hw] Hd").
      iApply (Hback (Some v)); [done|]. by iApply "Hw".
  Qed.
  Lemma mks_win_copy addr lo hi g x n vs :
    n = Z.of_nat (length vs) -> lo <= x -> x + n <= hi ->
    (forall i, x <= i < x + n -> g i = vs !! Z.to_nat (i - x)) ->
    mks_ok (win addr lo hi g) (win addr lo hi g) ((fun i => ACopy (addr i)) <$> seqZ x n) vs (win addr lo hi g).
  Proof.
    intros -> Hx Hh Hg. induction vs as [|v vs IH] in x, Hx, Hh, Hg |- *.
    - constructor.
    - rewrite seqZ_cons; [|simpl; lia]. simpl. econstructor.
      + apply win_mk_copy; [simpl in *; lia|]. rewrite Hg; [|simpl; lia]. by rewrite Z.sub_diag.
      + replace (Z.pred (Z.of_nat (S (length vs)))) with (Z.of_nat (length vs)) by lia.
        apply IH; [lia|simpl in *; lia|]. intros i Hi. rewrite Hg; [|simpl; lia].
        replace (Z.to_nat (i - x)) with (S (Z.to_nat (i - Z.succ x))) by lia. done.
  Qed.
  Lemma ass_win_copy addr lo hi g x n vs :
    n = Z.of_nat (length vs) -> lo <= x -> x + n <= hi ->
    (forall i, x <= i < x + n -> g i = vs !! Z.to_nat (i - x)) ->
    ass_ok (win addr lo hi g) (win addr lo hi g) ((fun i => ACopy (addr i)) <$> seqZ x n) vs (win addr lo hi g).
  Proof.
    intros -> Hx Hh Hg. induction vs as [|v vs IH] in x, Hx, Hh, Hg |- *.
    - constructor.
    - rewrite seqZ_cons; [|simpl; lia]. simpl. econstructor.
      + apply win_as_copy; [simpl in *; lia|]. rewrite Hg; [|simpl; lia]. by rewrite Z.sub_diag.
      + replace (Z.pred (Z.of_nat (S (length vs)))) with (Z.of_nat (length vs)) by lia.
        apply IH; [lia|simpl in *; lia|]. intros i Hi. rewrite Hg; [|simpl; lia].
        replace (Z.to_nat (i - x)) with (S (Z.to_nat (i - Z.succ x))) by lia. done.
  Qed.

  (** Moving out of a window. *)
  Definition moved_out (x n : Z) g : Z -> option V :=
    fun i => if within x (x + n) i then vmoved <$> g i else g i.
  Lemma win_mk_move addr lo hi g i v :
    lo <= i < hi -> g i = Some v ->
    mk_ok (∃ g', ⟦shaken g g' /\ nothrow_move = false⟧ ∗ win addr lo hi g') (win addr lo hi g)
      (AMove (addr i)) v (win addr lo hi (upd g i (Some (vmoved v)))).
  Proof.
    intros Hi Hg St s Q X. iIntros "Hw HK".
    iDestruct (win_acc1 _ _ _ i with "Hw") as "[Hc Hw]"; [done|]. rewrite {1}Hg. simpl.
    iApply (mk_ok_move1 with "Hc"). iSplit.
    - iIntros "Hc". iDestruct "HK" as "[HK _]". iApply "HK". by iApply ("Hw" $! (Some (vmoved v))).
    - iIntros "Hc". iDestruct "Hc" as (v') "[%Hn Hc]". iDestruct "HK" as "[_ HK]". iApply "HK".
      iExists _. iSplitR; [|by iApply ("Hw" $! (Some v'))]. iPureIntro. split; [|done].
      intros j. unfold live, upd. destruct (Z.eqb_spec j i) as [->|]; [by rewrite Hg|done].
  Qed.
  Lemma win_as_move addr lo hi g i v :
    lo <= i < hi -> g i = Some v ->
    as_ok (∃ g', ⟦shaken g g'⟧ ∗ win addr lo hi g') (win addr lo hi g)
      (AMove (addr i)) v (win addr lo hi (upd g i (Some (vmoved v)))).
  Proof.
    intros Hi Hg St s Q X d c. iIntros "Hw Hd HK".
    iDestruct (win_acc1 _ _ _ i with "Hw") as "[Hc Hw]"; [done|]. rewrite {1}Hg. simpl.
    iApply (as_ok_move1 with "Hc Hd"). iSplit.
    - iIntros "Hc Hd". iDestruct "HK" as "[HK _]". iApply ("HK" with "[Hc Hw] Hd"). by iApply ("Hw" $! (Some (vmoved v))).
    - iIntros (c') "Hc Hd". iDestruct "Hc" as (v') "Hc". iDestruct "HK" as "[_ HK]".
      iApply ("HK" with "[Hc Hw] Hd").
      iExists _. iSplitR; [|by iApply ("Hw" $! (Some v'))]. iPureIntro.
      intros j. unfold live, upd. destruct (Z.eqb_spec j i) as [->|]; [by rewrite Hg|done].
  Qed.
End sources.

Section algos.
  Context `{E : Env} `{SZ : SegSize}.
  Context {St : Type}.
  Implicit Types s : St.
  Implicit Types segs : list loc.
  Implicit Types f g : Z -> option V.

  (** *** [n] copies in raw storage *)
  Lemma s_each_n_fill_gen (inner : loc -> nat -> M St loc) t segs a n f P v s :
    (forall x y f1, a <= x -> x <= y -> y <= a + Z.of_nat n ->
       (forall i, ~ (a <= i < a + Z.of_nat n) -> f1 i = f i) ->
       forall p n s' Q X, P ∗ around segs x y f1 ⊢ raws p n -∗
       ((P ∗ around segs x y f1 -∗ elems p (replicate n v) -∗ Q (p +ₗ Z.of_nat n) s') ∧
        (P ∗ around segs x y f1 -∗ raws p n -∗ X EUser s')) -∗
       wp (inner p n) s' Q X) ->
    0 <= a -> a + Z.of_nat n < slots segs -> (forall i, a <= i < a + Z.of_nat n -> live f i = false) ->
    P ∗ swin t segs f ⊢
    wp (seg_each_n inner (undo_n (sitr t segs a) n) (sitr t segs a) n) s
      (keeps s (fun r => ⟦r = sitr t segs (a + Z.of_nat n)⟧ ∗
         ∃ f', ⟦stored a (replicate n v) f f'⟧ ∗ P ∗ swin t segs f')%I)
      (fails s (P ∗ swin t segs f)).
  Proof.
    intros Hin Ha Hb Hl. iIntros "(HP & Ht & Hw)".
    iPoseProof (wp_seg_each_n inner (undo_n (sitr t segs a) n) t segs a (a + Z.of_nat n)
      (fun x => ∃ f', ⟦stored a (replicate (Z.to_nat (x - a)) v) f f'⟧ ∗ P ∗ win (saddr segs) 0 (slots segs) f')%I
      (fun x => ∃ f', ⟦stored a (replicate (Z.to_nat (x - a)) v) f f'⟧ ∗ P ∗ win (saddr segs) 0 (slots segs) f')%I
      (P ∗ win (saddr segs) 0 (slots segs) f)%I s with "[HP Ht Hw]") as "H".
    - intros x c p Hx Hy Hc. iIntros "[Ht HI]". iDestruct "HI" as (f1) "(%Hf & HP & Hw)".
      iDestruct (around_out segs x (x + Z.of_nat c) with "Hw") as "[Hd Hw]"; [lia..|].
      assert (forall i, x <= i < x + Z.of_nat c -> live f1 i = false) as Hl1.
      { intros i Hi. rewrite (st_live _ _ _ _ Hf) replicate_length Hl; [|lia]. unfold within. simpl. lia. }
      rewrite (win_raws _ x (x + Z.of_nat c) p c); [|done|lia|done].
      iApply (Hin x (x + Z.of_nat c) f1 with "[$HP $Hw] Hd"); [lia|lia|lia| |iSplit].
      { intros i Hi. apply (st_rest _ _ _ _ Hf). rewrite replicate_length. lia. }
      + iIntros "[HP Hw] Hd". iSplit; [done|]. iFrame "Ht". iSplit; [done|].
        iDestruct (around_in segs x (x + Z.of_nat c) f1 (at_pos x (replicate c v)) with "[$Hw Hd]") as "Hw"; [lia..| |].
        { rewrite (win_elems _ _ _ p (replicate c v)); [done|done|rewrite replicate_length; lia|].
          intros i Hi. apply at_pos_in. rewrite replicate_length. lia. }
        iExists _. iFrame "HP Hw". iPureIntro.
        replace (Z.to_nat (x + Z.of_nat c - a)) with (Z.to_nat (x - a) + c)%nat by lia.
        rewrite replicate_add. eapply stored_app; [done|]. rewrite replicate_length.
        replace (a + Z.of_nat (Z.to_nat (x - a))) with x by lia. split.
        * intros i Hi. rewrite replicate_length in Hi. unfold patch.
          rewrite (_ : within _ _ _ = true); [|unfold within; lia]. apply at_pos_in. by rewrite replicate_length.
        * intros i Hi. rewrite replicate_length in Hi. unfold patch.
          rewrite (_ : within _ _ _ = false); [done|unfold within; lia].
        * intros i. rewrite replicate_length.
          unfold live at 1. unfold patch. destruct (within _ _ i) eqn:Hwi.
          { pose proof (live_at_pos x (replicate c v) i) as Hlp.
            rewrite replicate_length in Hlp.
            rewrite Hwi in Hlp. unfold live in Hlp. rewrite Hlp. by rewrite orb_true_r. }
          by rewrite orb_false_r.
      + iIntros "[HP Hw] Hd". iSplit; [done|]. iFrame "Ht". iExists f1. iFrame "HP".
        iSplit; [done|]. iDestruct (around_in segs x (x + Z.of_nat c) f1 (fun _ => None) with "[$Hw Hd]") as "Hw"; [lia..| |].
        { rewrite (win_raws _ x (x + Z.of_nat c) p c); [done|done|lia|done]. }
        iApply (win_eq with "Hw"). intros i Hi. unfold patch. destruct (within _ _ i) eqn:Hwi; [|done].
        symmetry. apply live_false, Hl1. unfold within in Hwi. lia.
    - intros x Hax Hx. iIntros "[Ht HI]". iDestruct "HI" as (f1) "(%Hf & HP & Hw)". unfold undo_n. wbind.
      set (m := Z.to_nat (Z.of_nat n - (a + Z.of_nat n - x))). assert (a + Z.of_nat m = x) as Hm by lia. clearbody m.
      assert (Z.to_nat (x - a) = m) as Hm2 by lia. rewrite Hm2 in Hf.
      iPoseProof (s_destroy_n_a_tr t segs a m f1 s with "[$Ht $Hw]") as "H"; [lia|lia| |].
      { intros i Hi. rewrite (st_live _ _ _ _ Hf) replicate_length. unfold within. lia. }
      iApply (wp_wand with "H"). iSplit; [|by iIntros (? ?) "[]"].
      iIntros (u s') "(%Hs & %Hr & H)". subst s'. iDestruct "H" as (f2) "[%Hc Hw]". wbeta.
      iApply wp_ret. iSplit; [done|]. iFrame "HP".
      iApply (swin_undone with "Hw"); [exact Hf| |]; rewrite replicate_length; [done|].
      intros i Hi. apply Hl. lia.
    - done.
    - done.
    - done.
    - iFrame "Ht". iExists f. rewrite Z.sub_diag. iFrame. iPureIntro. apply stored_nil.
    - iApply (wp_wand with "H"). iSplit.
      + iIntros (u s') "(%Hs & %Hr & Ht & H)". subst s'. iDestruct "H" as (f') "(%Hf & HP & Hw)".
        iSplit; [done|]. iSplit; [done|]. iExists f'. iFrame. iPureIntro.
        by replace (Z.to_nat (a + Z.of_nat n - a)) with n in Hf by lia.
      + iIntros (e s') "(%He & Ht & HP & Hw)". iFrame. done.
  Qed.
  Lemma s_each_n_fill_tr (inner : loc -> nat -> M St loc) t segs a n f P v s :
    (forall p n s' Q X, P ⊢ raws p n -∗
       ((P -∗ elems p (replicate n v) -∗ Q (p +ₗ Z.of_nat n) s') ∧ (P -∗ raws p n -∗ X EUser s')) -∗
       wp (inner p n) s' Q X) ->
    0 <= a -> a + Z.of_nat n < slots segs -> (forall i, a <= i < a + Z.of_nat n -> live f i = false) ->
    P ∗ swin t segs f ⊢
    wp (seg_each_n inner (undo_n (sitr t segs a) n) (sitr t segs a) n) s
      (keeps s (fun r => ⟦r = sitr t segs (a + Z.of_nat n)⟧ ∗
         ∃ f', ⟦stored a (replicate n v) f f'⟧ ∗ P ∗ swin t segs f')%I)
      (fails s (P ∗ swin t segs f)).
  Proof.
    intros Hin. apply s_each_n_fill_gen. intros x y f1 _ _ _ _ p m s' Q X. iIntros "[HP Ho] Hr HK".
    iApply (Hin with "HP Hr"). iSplit.
    - iIntros "HP Hd". iDestruct "HK" as "[HK _]". iApply ("HK" with "[$HP $Ho] Hd").
    - iIntros "HP Hd". iDestruct "HK" as "[_ HK]". iApply ("HK" with "[$HP $Ho] Hd").
  Qed.
  (** private.hpp 1503-1553 [uninitialized_default_construct_n_a]. *)
  Lemma wp_s_default_construct_n_a t segs a n f s Q X :
    0 <= a -> a + Z.of_nat n < slots segs -> (forall i, a <= i < a + Z.of_nat n -> live f i = false) ->
    swin t segs f ⊢
    ((∀ f', ⟦stored a (replicate n vdef) f f'⟧ -∗ swin t segs f' -∗ Q (sitr t segs (a + Z.of_nat n)) s) ∧
     (swin t segs f -∗ X EUser s)) -∗
    wp (s_default_construct_n_a (sitr t segs a) n) s Q X.
  Proof.
    intros Ha Hb Hl. iIntros "Hw HK".
    iAssert (emp ∗ swin t segs f)%I with "[$Hw]" as "H".
    iApply (wp_use with "H"); [apply (s_each_n_fill_tr uninitialized_default_construct_n_a t segs a n f emp%I vdef s); [|done..]|].
    - intros p m s' Q' X'. iIntros "_ Hr HK".
      iApply (wp_udefault_n with "Hr"). iSplit.
      + iIntros "H". iDestruct "HK" as "[HK _]". by iApply ("HK" with "[] H").
      + iIntros "H". iDestruct "HK" as "[_ HK]". by iApply ("HK" with "[] H").
    - iSplit.
      + iIntros (u) "[%Hu H]". iDestruct "H" as (f') "(%Hf & _ & Hw)". subst u. iDestruct "HK" as "[HK _]". by iApply "HK".
      + iIntros "[_ Hw]". iDestruct "HK" as "[_ HK]". by iApply "HK".
  Qed.
  (** private.hpp 1665-1716 [uninitialized_fill_n_a]. *)
  Lemma wp_s_ufill_n_a t segs a n f P x v s Q X :
    mk_ok P P x v P ->
    0 <= a -> a + Z.of_nat n < slots segs -> (forall i, a <= i < a + Z.of_nat n -> live f i = false) ->
    P ⊢ swin t segs f -∗
    ((∀ f', ⟦stored a (replicate n v) f f'⟧ -∗ P -∗ swin t segs f' -∗ Q (sitr t segs (a + Z.of_nat n)) s) ∧
     (P -∗ swin t segs f -∗ X EUser s)) -∗
    wp (s_uninitialized_fill_n_a (sitr t segs a) n x) s Q X.
  Proof.
    intros Hok Ha Hb Hl. iIntros "HP Hw HK". iCombine "HP Hw" as "H".
    iApply (wp_use with "H"); [apply (s_each_n_fill_tr (fun p k => uninitialized_fill_n_a p k x) t segs a n f P v s); [|done..]|].
    - intros p m s' Q' X'. iIntros "HP Hr HK". iApply (wp_ufill_n with "HP Hr"); [done|done].
    - iSplit.
      + iIntros (u) "[%Hu H]". iDestruct "H" as (f') "(%Hf & HP & Hw)". subst u. iDestruct "HK" as "[HK _]".
        by iApply ("HK" with "[%] HP Hw").
      + iIntros "[HP Hw]". iDestruct "HK" as "[_ HK]". by iApply ("HK" with "HP Hw").
  Qed.

  (** The value to be stored: a constant, or what is at a position of the window. *)
  Definition warg segs f (a : arg) (v : V) : Prop :=
    mk_ok emp emp a v emp \/ exists i, 0 <= i < slots segs /\ f i = Some v /\ a = ACopy (saddr segs i).
  Lemma warg_around segs f x v lo hi f1 a b :
    warg segs f x v -> a <= lo -> lo <= hi -> hi <= b ->
    (forall i, a <= i < b -> live f i = false) -> (forall i, ~ (a <= i < b) -> f1 i = f i) ->
    mk_ok (emp ∗ around segs lo hi f1) (emp ∗ around segs lo hi f1) x v (emp ∗ around segs lo hi f1).
  Proof.
    intros [Hok|(i & Hi & Hv & ->)] H1 H2 H3 Hl Hf.
    - by apply mk_ok_frame.
    - assert (~ (a <= i < b)) as Hout.
      { intros Hin. specialize (Hl i Hin). unfold live in Hl. by rewrite Hv in Hl. }
      assert (f1 i = Some v) as Hv1 by (by rewrite Hf).
      destruct (decide (i < lo)) as [Hlt|Hge].
      + pose proof (win_mk_copy (saddr segs) 0 lo f1 i v ltac:(lia) Hv1) as Hm.
        apply (mk_ok_frame _ _ _ _ _ (win (saddr segs) hi (slots segs) f1)) in Hm.
        eapply mk_ok_conseq; [exact Hm| | |]; unfold around; by rewrite left_id.
      + assert (hi <= i < slots segs) as Hi2 by lia.
        pose proof (win_mk_copy (saddr segs) hi (slots segs) f1 i v Hi2 Hv1) as Hm.
        apply (mk_ok_frame _ _ _ _ _ (win (saddr segs) 0 lo f1)) in Hm.
        eapply mk_ok_conseq; [exact Hm| | |]; unfold around; rewrite left_id; by rewrite comm.
  Qed.
  (** [uninitialized_fill_a], [uninitialized_fill_n_a] with such a value. *)
  Lemma wp_s_ufill_a_self t segs a b f x v s Q X :
    warg segs f x v ->
    0 <= a -> a <= b -> b < slots segs -> (forall i, a <= i < b -> live f i = false) ->
    swin t segs f ⊢
    ((∀ f', ⟦stored a (replicate (Z.to_nat (b - a)) v) f f'⟧ -∗ swin t segs f' -∗ Q tt s) ∧
     (swin t segs f -∗ X EUser s)) -∗
    wp (s_uninitialized_fill_a (sitr t segs a) (sitr t segs b) x) s Q X.
  Proof.
    intros Hx Ha Hab Hb Hl. iIntros "Hw HK".
    iAssert (emp ∗ swin t segs f)%I with "[$Hw]" as "H".
    iApply (wp_use with "H"); [apply (s_each_fill_gen (fun p q => uninitialized_fill_a p q x) t segs a b f emp%I v s); [|done..]|].
    - intros lo hi f1 H1 H2 H3 Hf p n s' Q' X'. iIntros "HP Hr HK".
      iApply (wp_ufill with "HP Hr"); [by eapply warg_around|done|done].
    - iSplit.
      + iIntros (u) "H". iDestruct "H" as (f') "(%Hf & _ & Hw)". destruct u. iDestruct "HK" as "[HK _]". by iApply "HK".
      + iIntros "[_ Hw]". iDestruct "HK" as "[_ HK]". by iApply "HK".
  Qed.
  Lemma wp_s_ufill_n_a_self t segs a n f x v s Q X :
    warg segs f x v ->
    0 <= a -> a + Z.of_nat n < slots segs -> (forall i, a <= i < a + Z.of_nat n -> live f i = false) ->
    swin t segs f ⊢
    ((∀ f', ⟦stored a (replicate n v) f f'⟧ -∗ swin t segs f' -∗ Q (sitr t segs (a + Z.of_nat n)) s) ∧
     (swin t segs f -∗ X EUser s)) -∗
    wp (s_uninitialized_fill_n_a (sitr t segs a) n x) s Q X.
  Proof.
    intros Hx Ha Hb Hl. iIntros "Hw HK".
    iAssert (emp ∗ swin t segs f)%I with "[$Hw]" as "H".
    iApply (wp_use with "H"); [apply (s_each_n_fill_gen (fun p k => uninitialized_fill_n_a p k x) t segs a n f emp%I v s); [|done..]|].
    - intros lo hi f1 H1 H2 H3 Hf p m s' Q' X'. iIntros "HP Hr HK".
      iApply (wp_ufill_n with "HP Hr"); [by eapply warg_around|done].
    - iSplit.
      + iIntros (u) "[%Hu H]". iDestruct "H" as (f') "(%Hf & _ & Hw)". subst u. iDestruct "HK" as "[HK _]". by iApply "HK".
      + iIntros "[_ Hw]". iDestruct "HK" as "[_ HK]". by iApply "HK".
  Qed.

  (** private.hpp 1177-1225 [fill]. *)
  Lemma wp_s_fill t segs a b f P x v s Q X :
    as_ok P P x v P ->
    0 <= a -> a <= b -> b < slots segs -> (forall i, a <= i < b -> live f i = true) ->
    P ⊢ swin t segs f -∗
    ((∀ f', ⟦stored a (replicate (Z.to_nat (b - a)) v) f f'⟧ -∗ P -∗ swin t segs f' -∗ Q tt s) ∧
     (∀ f', ⟦shaken f f' /\ a < b⟧ -∗ P -∗ swin t segs f' -∗ X EUser s)) -∗
    wp (s_fill (sitr t segs a) (sitr t segs b) x) s Q X.
  Proof.
    intros Hok Ha Hab Hb Hl. iIntros "HP [Ht Hw] HK".
    iAssert (table t segs ∗ ∃ f', ⟦stored a (replicate (Z.to_nat (a - a)) v) f f'⟧ ∗ P ∗
       win (saddr segs) 0 (slots segs) f')%I with "[Ht HP Hw]" as "H".
    { iFrame "Ht". iExists f. rewrite Z.sub_diag. iFrame. iPureIntro. apply stored_nil. }
    iApply (wp_use with "H").
    { apply (wp_seg_each (fun p q => fill p q x) (fun _ => ret tt) t segs a b
        (fun y => ∃ f', ⟦stored a (replicate (Z.to_nat (y - a)) v) f f'⟧ ∗ P ∗ win (saddr segs) 0 (slots segs) f')%I
        (fun _ => ∃ f', ⟦shaken f f' /\ a < b⟧ ∗ P ∗ win (saddr segs) 0 (slots segs) f')%I
        (∃ f', ⟦shaken f f' /\ a < b⟧ ∗ P ∗ win (saddr segs) 0 (slots segs) f')%I s); [| |done..].
      - intros y z p Hy Hyz Hz Hc. iIntros "[Ht HI]". iDestruct "HI" as (f1) "(%Hf & HP & Hw)".
        assert (forall i, y <= i < z -> live f1 i = true) as Hl1.
        { intros i Hi. rewrite (st_live _ _ _ _ Hf) Hl; [done|lia]. }
        unfold fill. wbind. iApply wp_range_len; [done|simpl; lia|]. simpl. wbeta.
        set (c := Z.to_nat (p.2 + (z - y) - p.2)). assert (z = y + Z.of_nat c) as Hz2 by lia.
        clearbody c. subst z. wbind.
        iApply (wp_win_assigns P P (replicate c x) (replicate c v) P _ _ _ y with "HP Hw").
        + by apply ass_repl.
        + by rewrite replicate_length.
        + lia.
        + rewrite replicate_length. lia.
        + by rewrite replicate_length.
        + iSplit.
          * iIntros (f2) "%Hf2 HP Hw". wbeta. iApply wp_ret. iSplit; [done|]. iFrame "Ht". iExists f2.
            iFrame. iPureIntro. replace (Z.to_nat (y + Z.of_nat c - a)) with (Z.to_nat (y - a) + c)%nat by lia.
            rewrite replicate_add. eapply stored_app; [done|]. rewrite replicate_length.
            by replace (a + Z.of_nat (Z.to_nat (y - a))) with y by lia.
          * iIntros (f2) "%Hf2 HP Hw". destruct Hf2 as [Hf2 Hne]. iSplit; [done|]. iFrame "Ht". iExists f2. iFrame.
            iPureIntro. destruct c; [done|]. split; [|lia]. eapply shaken_trans; [|done].
            eapply stored_shaken; [done|]. rewrite replicate_length. intros i Hi. apply Hl. lia.
      - intros k _ _ _ _. iIntros "H". iApply wp_ret. by iFrame. }
    iSplit.
    - iIntros ([]) "[Ht H]". iDestruct "H" as (f') "(%Hf & HP & Hw)". iDestruct "HK" as "[HK _]".
      iApply ("HK" with "[%] HP [$Ht $Hw]"). done.
    - iIntros "[Ht H]". iDestruct "H" as (f') "(%Hf & HP & Hw)". iDestruct "HK" as "[_ HK]".
      iApply ("HK" with "[%] HP [$Ht $Hw]"). done.
  Qed.

  (** *** From a random access range *)
  Lemma take_more {A} (l : list A) j c : take (j + c) l = take j l ++ take c (drop j l).
  Proof. by rewrite take_take_drop. Qed.

  Lemma wp_s_copy_ra PX P srcs vs P' t segs d f s Q X :
    ass_ok PX P srcs vs P' ->
    0 <= d -> d + Z.of_nat (length vs) < slots segs ->
    (forall i, d <= i < d + Z.of_nat (length vs) -> live f i = true) ->
    P ⊢ swin t segs f -∗
    ((∀ f', ⟦stored d vs f f'⟧ -∗ P' -∗ swin t segs f' -∗ Q (sitr t segs (d + Z.of_nat (length vs))) s) ∧
     (∀ f', ⟦shaken f f' /\ vs <> []⟧ -∗ PX -∗ swin t segs f' -∗ X EUser s)) -∗
    wp (s_copy_ra srcs (sitr t segs d)) s Q X.
  Proof.
    intros Hok Hd Hb Hl. pose proof (ass_length _ _ _ _ _ Hok) as Hlen. iIntros "HP [Ht Hw] HK".
    iAssert (table t segs ∗ ∃ Pj f', ⟦stored d (take 0 vs) f f' /\ ass_ok PX Pj (drop 0 srcs) (drop 0 vs) P'⟧ ∗ Pj ∗
       win (saddr segs) 0 (slots segs) f')%I with "[Ht HP Hw]" as "H".
    { iFrame "Ht". iExists P, f. iFrame. iPureIntro. split; [apply stored_nil|by rewrite !drop_0]. }
    iApply (wp_use with "H").
    { apply (wp_seg_out copy (fun _ _ => ret tt) t segs d srcs
        (fun j => ∃ Pj f', ⟦stored d (take j vs) f f' /\ ass_ok PX Pj (drop j srcs) (drop j vs) P'⟧ ∗ Pj ∗
           win (saddr segs) 0 (slots segs) f')%I
        (fun _ => ∃ f', ⟦shaken f f' /\ vs <> []⟧ ∗ PX ∗ win (saddr segs) 0 (slots segs) f')%I
        (∃ f', ⟦shaken f f' /\ vs <> []⟧ ∗ PX ∗ win (saddr segs) 0 (slots segs) f')%I s); [| |done|lia].
      - intros j c p Hj Hc. iIntros "[Ht HI]". iDestruct "HI" as (Pj f1) "(%Hf & HP & Hw)".
        destruct Hf as [Hf Ha]. destruct (ass_split _ _ _ _ _ c Ha) as (Pc & Ha1 & Ha2).
        rewrite drop_drop in Ha2. rewrite (drop_drop vs) in Ha2.
        assert (length (take c (drop j vs)) = c) as Hlc by (rewrite take_length drop_length; lia).
        iApply (wp_win_assigns _ _ _ _ _ _ _ _ (d + Z.of_nat j) with "HP Hw"); [exact Ha1|by rewrite Hlc|lia|lia| |].
        { intros i Hi. rewrite (st_live _ _ _ _ Hf) Hl; [done|lia]. }
        iSplit.
        + rewrite Hlc. iIntros (f2) "%Hf2 HP Hw". iSplit; [done|]. iFrame "Ht". iSplit; [done|].
          iExists Pc, f2. iFrame. iPureIntro. split; [|done]. rewrite take_more. eapply stored_app; [done|].
          by replace (Z.of_nat (length (take j vs))) with (Z.of_nat j) by (rewrite take_length; lia).
        + iIntros (f2) "%Hf2 HP Hw". destruct Hf2 as [Hf2 Hne]. iSplit; [done|]. iFrame "Ht". iExists f2. iFrame.
          iPureIntro. split.
          * eapply shaken_trans; [|done]. eapply stored_shaken; [done|]. rewrite take_length. intros i Hi. apply Hl. lia.
          * intros ->. apply Hne. by rewrite drop_nil take_nil.
      - intros j k _ _ _ _. iIntros "H". iApply wp_ret. by iFrame. }
    iSplit.
    - iIntros (r) "(%Hr & Ht & H)". iDestruct "H" as (Pj f') "(%Hf & HP & Hw)". destruct Hf as [Hf Ha].
      rewrite Hlen !drop_all in Ha. rewrite Hlen firstn_all in Hf. rewrite -Hlen drop_all in Ha.
      inversion Ha; subst. iDestruct "HK" as "[HK _]". rewrite Hlen.
      iApply ("HK" with "[%] HP [$Ht $Hw]"). done.
    - iIntros "[Ht H]". iDestruct "H" as (f') "(%Hf & HP & Hw)". iDestruct "HK" as "[_ HK]".
      iApply ("HK" with "[%] HP [$Ht $Hw]"). done.
  Qed.

  Lemma wp_s_ucopy_ra PX P srcs vs P' t segs d f s Q X :
    mks_ok PX P srcs vs P' ->
    0 <= d -> d + Z.of_nat (length vs) < slots segs ->
    (forall i, d <= i < d + Z.of_nat (length vs) -> live f i = false) ->
    P ⊢ swin t segs f -∗
    ((∀ f', ⟦stored d vs f f'⟧ -∗ P' -∗ swin t segs f' -∗ Q (sitr t segs (d + Z.of_nat (length vs))) s) ∧
     (PX -∗ swin t segs f -∗ X EUser s)) -∗
    wp (s_ucopy_ra srcs (sitr t segs d)) s Q X.
  Proof.
    intros Hok Hd Hb Hl. pose proof (mks_length _ _ _ _ _ Hok) as Hlen. iIntros "HP [Ht Hw] HK".
    iAssert (table t segs ∗ ∃ Pj f', ⟦stored d (take 0 vs) f f' /\ mks_ok PX Pj (drop 0 srcs) (drop 0 vs) P'⟧ ∗ Pj ∗
       win (saddr segs) 0 (slots segs) f')%I with "[Ht HP Hw]" as "H".
    { iFrame "Ht". iExists P, f. iFrame. iPureIntro. split; [apply stored_nil|by rewrite !drop_0]. }
    iApply (wp_use with "H").
    { apply (wp_seg_out (fun srcs d => uninit_loop d d srcs) (undo_out (sitr t segs d)) t segs d srcs
        (fun j => ∃ Pj f', ⟦stored d (take j vs) f f' /\ mks_ok PX Pj (drop j srcs) (drop j vs) P'⟧ ∗ Pj ∗
           win (saddr segs) 0 (slots segs) f')%I
        (fun j => ∃ f', ⟦stored d (take j vs) f f'⟧ ∗ PX ∗ win (saddr segs) 0 (slots segs) f')%I
        (PX ∗ win (saddr segs) 0 (slots segs) f)%I s); [| |done|lia].
      - intros j c p Hj Hc. iIntros "[Ht HI]". iDestruct "HI" as (Pj f1) "(%Hf & HP & Hw)".
        destruct Hf as [Hf Ha]. destruct (mks_split _ _ _ _ _ c Ha) as (Pc & Ha1 & Ha2).
        rewrite drop_drop in Ha2. rewrite (drop_drop vs) in Ha2.
        assert (length (take c (drop j vs)) = c) as Hlc by (rewrite take_length drop_length; lia).
        iApply (wp_win_ucopy _ _ _ _ _ _ _ _ (d + Z.of_nat j) with "HP Hw"); [exact Ha1|by rewrite Hlc|lia|lia| |].
        { intros i Hi. rewrite (st_live _ _ _ _ Hf) Hl; [|lia]. rewrite take_length. unfold within. simpl. lia. }
        iSplit.
        + rewrite Hlc. iIntros (f2) "%Hf2 HP Hw". iSplit; [done|]. iFrame "Ht". iSplit; [done|].
          iExists Pc, f2. iFrame. iPureIntro. split; [|done]. rewrite take_more. eapply stored_app; [done|].
          by replace (Z.of_nat (length (take j vs))) with (Z.of_nat j) by (rewrite take_length; lia).
        + iIntros "HP Hw". iSplit; [done|]. iFrame "Ht". iExists f1. iFrame. done.
      - intros j k Hj Hk Hk1 Hk2. iIntros "[Ht HI]". iDestruct "HI" as (f1) "(%Hf & HP & Hw)".
        unfold undo_out. wbind.
        iApply (wp_compose _ _ _ _ (d + Z.of_nat j) with "Ht"); [lia|lia|lia|done|]. iIntros "Ht". wbeta.
        assert (length (take j vs) = j) as Hlj by (rewrite take_length; lia).
        iApply (wp_s_destroy_a _ _ d (d + Z.of_nat j) f1 with "[$Ht $Hw]"); [lia|lia|lia| |].
        { intros i Hi. rewrite (st_live _ _ _ _ Hf) Hlj. unfold within. lia. }
        iIntros (f2) "%Hc Hw". iSplit; [done|]. iFrame "HP".
        iApply (swin_undone with "Hw"); [exact Hf|by rewrite Hlj|rewrite Hlj]. intros i Hi. apply Hl. lia. }
    iSplit.
    - iIntros (r) "(%Hr & Ht & H)". iDestruct "H" as (Pj f') "(%Hf & HP & Hw)". destruct Hf as [Hf Ha].
      rewrite Hlen !drop_all in Ha. rewrite Hlen firstn_all in Hf. rewrite -Hlen drop_all in Ha.
      inversion Ha; subst. iDestruct "HK" as "[HK _]". rewrite Hlen.
      iApply ("HK" with "[%] HP [$Ht $Hw]"). done.
    - iIntros "(Ht & HP & Hw)". iDestruct "HK" as "[_ HK]". iApply ("HK" with "HP [$Ht $Hw]").
  Qed.

  (** *** From a range that is not random access *)
  Lemma wp_s_copy_fwd PX P srcs vs P' t segs d f s Q X :
    ass_ok PX P srcs vs P' ->
    0 <= d -> d + Z.of_nat (length vs) < slots segs ->
    (forall i, d <= i < d + Z.of_nat (length vs) -> live f i = true) ->
    P ⊢ swin t segs f -∗
    ((∀ f', ⟦stored d vs f f'⟧ -∗ P' -∗ swin t segs f' -∗ Q (sitr t segs (d + Z.of_nat (length vs))) s) ∧
     (∀ f', ⟦shaken f f' /\ vs <> []⟧ -∗ PX -∗ swin t segs f' -∗ X EUser s)) -∗
    wp (s_copy_fwd srcs (sitr t segs d)) s Q X.
  Proof.
    intros Hok. induction Hok as [P|P x v P1 srcs vs P2 H1 H2 IH] in d, f |- *; intros Hd Hb Hl; simpl in *.
    - iIntros "HP Hw HK". iApply wp_ret. iDestruct "HK" as "[HK _]". rewrite Z.add_0_r.
      iApply ("HK" with "[%] HP Hw"). apply stored_nil.
    - iIntros "HP [Ht Hw] HK". wbind. unfold it_deref. try rewrite sitr_loc.
      iDestruct (win_acc1 _ _ _ d with "Hw") as "[Hc Hw]"; [lia|].
      destruct (live_some f d) as [c Hc]; [apply Hl; lia|]. rewrite {1}Hc. simpl.
      iApply (H1 with "HP Hc"). iSplit.
      + iIntros "HP Hc". iSpecialize ("Hw" $! (Some v) with "Hc"). wbeta. wbind.
        iApply (wp_it_succ with "Ht"); [lia|lia|]. iIntros "Ht". wbeta.
        assert (stored d [v] f (upd f d (Some v))) as Hst.
        { split; simpl.
          - intros i Hi. assert (i = d) as -> by lia. unfold upd. by rewrite Z.eqb_refl Z.sub_diag.
          - intros i Hi. unfold upd. destruct (Z.eqb_spec i d); [lia|done].
          - intros i. unfold live, upd, within. destruct (Z.eqb_spec i d) as [->|]; [rewrite Hc; simpl; lia|].
            destruct (f i); [done|simpl; lia]. }
        iApply (IH (d + 1) (upd f d (Some v)) with "HP [$Ht $Hw]"); [lia|lia| |].
        { intros i Hi. rewrite (st_live _ _ _ _ Hst) Hl; [done|lia]. }
        replace (d + 1 + Z.of_nat (length vs)) with (d + Z.of_nat (S (length vs))) by lia. iSplit.
        * iIntros (f2) "%Hf HP Hw". iDestruct "HK" as "[HK _]". iApply ("HK" with "[%] HP Hw").
          by apply (stored_app _ [v] vs f (upd f d (Some v)) f2).
        * iIntros (f2) "%Hf HP Hw". destruct Hf as [Hf Hne]. iDestruct "HK" as "[_ HK]".
          iApply ("HK" with "[%] HP Hw"). split; [|done]. eapply shaken_trans; [|done].
          eapply stored_shaken; [done|]. simpl. intros i Hi. apply Hl. lia.
      + iIntros (c') "HP Hc". iSpecialize ("Hw" $! (Some c') with "Hc"). iDestruct "HK" as "[_ HK]".
        iApply ("HK" with "[%] HP [$Ht $Hw]"). split; [|done]. intros i. unfold live, upd.
        destruct (Z.eqb_spec i d) as [->|]; [by rewrite Hc|done].
  Qed.

  Lemma wp_s_ucopy_loop PX P srcs vs P' t segs d0 vs0 f f0 s Q X :
    mks_ok PX P srcs vs P' ->
    0 <= d0 -> d0 + Z.of_nat (length vs0) + Z.of_nat (length vs) < slots segs ->
    (forall i, d0 <= i < d0 + Z.of_nat (length vs0) + Z.of_nat (length vs) -> live f0 i = false) ->
    stored d0 vs0 f0 f ->
    P ⊢ swin t segs f -∗
    ((∀ f', ⟦stored d0 (vs0 ++ vs) f0 f'⟧ -∗ P' -∗ swin t segs f' -∗
        Q (sitr t segs (d0 + Z.of_nat (length vs0) + Z.of_nat (length vs))) s) ∧
     (PX -∗ swin t segs f0 -∗ X EUser s)) -∗
    wp (s_ucopy_loop (sitr t segs d0) (sitr t segs (d0 + Z.of_nat (length vs0))) srcs) s Q X.
  Proof.
    intros Hok. induction Hok as [P|P x v P1 srcs vs P2 H1 H2 IH] in vs0, f |- *; intros Hd Hb Hl Hst; simpl in *.
    - iIntros "HP Hw HK". iApply wp_ret. iDestruct "HK" as "[HK _]". rewrite Z.add_0_r app_nil_r.
      by iApply ("HK" with "[%] HP Hw").
    - iIntros "HP [Ht Hw] HK". wbind. iApply wp_try. unfold it_deref. try rewrite sitr_loc.
      iApply (wp_win_construct _ _ _ _ _ _ _ _ (d0 + Z.of_nat (length vs0)) with "HP Hw"); [done|done|lia| |].
      { rewrite (st_live _ _ _ _ Hst) Hl; [|lia]. unfold within. simpl. lia. }
      iSplit.
      + iIntros (f1) "%Hf1 HP Hw". wbeta. wbind.
        iApply (wp_it_succ with "Ht"); [lia|lia|]. iIntros "Ht". wbeta.
        replace (d0 + Z.of_nat (length vs0) + 1) with (d0 + Z.of_nat (length (vs0 ++ [v]))) by (rewrite app_length; simpl; lia).
        iApply (IH (vs0 ++ [v]) f1 with "HP [$Ht $Hw]").
        * done.
        * rewrite app_length /=. lia.
        * rewrite app_length /=. intros i Hi. apply Hl. lia.
        * by eapply stored_app.
        * replace (d0 + Z.of_nat (length (vs0 ++ [v])) + Z.of_nat (length vs)) with
            (d0 + Z.of_nat (length vs0) + Z.of_nat (S (length vs))) by (rewrite app_length; simpl; lia).
          rewrite -assoc_L. done.
      + iIntros "HP Hw".
        iApply (wp_s_destroy_a _ _ d0 (d0 + Z.of_nat (length vs0)) f with "[$Ht $Hw]"); [lia|lia|lia| |].
        { intros i Hi. rewrite (st_live _ _ _ _ Hst). unfold within. lia. }
        iIntros (f2) "%Hc Hw". iDestruct "HK" as "[_ HK]". iApply ("HK" with "HP").
        iApply (swin_undone with "Hw"); [exact Hst|done|]. intros i Hi. apply Hl. lia.
  Qed.
  Lemma wp_s_ucopy_fwd PX P srcs vs P' t segs d f s Q X :
    mks_ok PX P srcs vs P' ->
    0 <= d -> d + Z.of_nat (length vs) < slots segs ->
    (forall i, d <= i < d + Z.of_nat (length vs) -> live f i = false) ->
    P ⊢ swin t segs f -∗
    ((∀ f', ⟦stored d vs f f'⟧ -∗ P' -∗ swin t segs f' -∗ Q (sitr t segs (d + Z.of_nat (length vs))) s) ∧
     (PX -∗ swin t segs f -∗ X EUser s)) -∗
    wp (s_ucopy_fwd srcs (sitr t segs d)) s Q X.
  Proof.
    intros Hok Hd Hb Hl. unfold s_ucopy_fwd.
    pose proof (wp_s_ucopy_loop PX P srcs vs P' t segs d [] f f s Q X Hok Hd) as H. simpl in H.
    rewrite Z.add_0_r in H. apply H; [done|done|apply stored_nil].
  Qed.

  (** *** From another segmented container *)
  Lemma wp_s_ucopy t2 segs2 a b g vs t segs d f s Q X :
    0 <= a -> a <= b -> b < slots segs2 -> Z.of_nat (length vs) = b - a ->
    (forall i, a <= i < b -> g i = vs !! Z.to_nat (i - a)) ->
    0 <= d -> d + (b - a) < slots segs -> (forall i, d <= i < d + (b - a) -> live f i = false) ->
    swin t2 segs2 g ⊢ swin t segs f -∗
    ((∀ f', ⟦stored d vs f f'⟧ -∗ swin t2 segs2 g -∗ swin t segs f' -∗ Q (sitr t segs (d + (b - a))) s) ∧
     (swin t2 segs2 g -∗ swin t segs f -∗ X EUser s)) -∗
    wp (s_ucopy (sitr t2 segs2 a) (sitr t2 segs2 b) (sitr t segs d)) s Q X.
  Proof.
    intros Ha Hab Hb Hlen Hg Hd Hs Hl. iIntros "[Ht2 Hg] Hw HK".
    set (G := win (saddr segs2) 0 (slots segs2) g).
    iAssert (table t2 segs2 ∗ ∃ f', ⟦stored d (take (Z.to_nat (a - a)) vs) f f'⟧ ∗ G ∗ swin t segs f')%I
      with "[Ht2 Hg Hw]" as "H".
    { iFrame "Ht2". iExists f. iFrame. iPureIntro. rewrite Z.sub_diag. apply stored_nil. }
    pose proof (wp_seg_in (fun p q d => srcs <- range ACopy p q;; s_ucopy_ra srcs d)%prog
        (fun r => s_destroy_a (sitr t segs d) r) t2 segs2 a b (fun x => sitr t segs (d + (x - a)))
        (fun x => ∃ f', ⟦stored d (take (Z.to_nat (x - a)) vs) f f'⟧ ∗ G ∗ swin t segs f')%I
        (fun x => ∃ f', ⟦stored d (take (Z.to_nat (x - a)) vs) f f'⟧ ∗ G ∗ swin t segs f')%I
        (G ∗ swin t segs f)%I s) as Hin. cbv beta in Hin.
    replace (d + (a - a)) with d in Hin by lia.
    iApply (wp_use with "H"); [apply Hin; clear Hin| clear Hin].
    - intros x y p Hx Hxy Hy Hc. iIntros "[Ht HI]". iDestruct "HI" as (f1) "(%Hf & HG & Hw)". wbind.
      assert (exists n : nat, y = x + Z.of_nat n) as [n ->] by (exists (Z.to_nat (y - x)); lia).
      iApply (wp_range _ _ _ n); [f_equal; lia|]. wbeta.
      rewrite (refs_addr _ (saddr segs2) _ x); [|done].
      set (ws := take n (drop (Z.to_nat (x - a)) vs)).
      assert (length ws = n) as Hws by (unfold ws; rewrite take_length drop_length; lia).
      iApply (wp_s_ucopy_ra G G _ ws G t segs (d + (x - a)) f1 with "HG Hw").
      { apply mks_win_copy; [lia|lia|lia|]. intros i Hi. rewrite Hg; [|lia]. unfold ws.
        rewrite lookup_take; [|lia]. rewrite lookup_drop. f_equal. lia. }
      { lia. } { lia. }
      { intros i Hi. rewrite (st_live _ _ _ _ Hf) Hl; [|lia]. rewrite take_length. unfold within. simpl. lia. }
      rewrite Hws. iSplit.
      + iIntros (f2) "%Hf2 HG Hw". iSplit; [done|]. iFrame "Ht". iSplit; [iPureIntro; f_equal; lia|].
        iExists f2. iFrame. iPureIntro.
        replace (Z.to_nat (x + Z.of_nat n - a)) with (Z.to_nat (x - a) + n)%nat by lia. rewrite take_more.
        eapply stored_app; [done|]. rewrite take_length.
        by replace (Z.of_nat (Z.to_nat (x - a) `min` length vs)) with (x - a) by lia.
      + iIntros "HG Hw". iSplit; [done|]. iFrame "Ht". iExists f1. iFrame. done.
    - intros x Hx1 Hx2. iIntros "[Ht HI]". iDestruct "HI" as (f1) "(%Hf & HG & Hw)".
      assert (length (take (Z.to_nat (x - a)) vs) = Z.to_nat (x - a)) as Hlx by (rewrite take_length; lia).
      iApply (wp_s_destroy_a _ _ d (d + (x - a)) f1 with "Hw"); [lia|lia|lia| |].
      { intros i Hi. rewrite (st_live _ _ _ _ Hf) Hlx. unfold within. lia. }
      iIntros (f2) "%Hc Hw". iSplit; [done|]. iFrame "Ht HG".
      iApply (swin_undone with "Hw"); [exact Hf| |]; rewrite Hlx.
      { by replace (d + Z.of_nat (Z.to_nat (x - a))) with (d + (x - a)) by lia. }
      intros i Hi. apply Hl. lia.
    - iIntros "HI". iDestruct "HI" as (f1) "(%Hf & $ & $ & Hw)". iApply (win_eq with "Hw").
      intros i _. rewrite Z.sub_diag in Hf. simpl in Hf. apply (st_rest _ _ _ _ Hf). simpl. lia.
    - done.
    - done.
    - done.
    - iSplit.
      + iIntros (r) "(%Hr & Ht & H)". subst r. iDestruct "H" as (f') "(%Hf & HG & Hw)". iDestruct "HK" as "[HK _]".
        iApply ("HK" with "[%] [$Ht $HG] Hw"). rewrite take_ge in Hf; [done|lia].
      + iIntros "(Ht & HG & Hw)". iDestruct "HK" as "[_ HK]". iApply ("HK" with "[$Ht $HG] Hw").
  Qed.

  Lemma wp_s_copy t2 segs2 a b g vs t segs d f s Q X :
    0 <= a -> a <= b -> b < slots segs2 -> Z.of_nat (length vs) = b - a ->
    (forall i, a <= i < b -> g i = vs !! Z.to_nat (i - a)) ->
    0 <= d -> d + (b - a) < slots segs -> (forall i, d <= i < d + (b - a) -> live f i = true) ->
    swin t2 segs2 g ⊢ swin t segs f -∗
    ((∀ f', ⟦stored d vs f f'⟧ -∗ swin t2 segs2 g -∗ swin t segs f' -∗ Q (sitr t segs (d + (b - a))) s) ∧
     (∀ f', ⟦shaken f f' /\ vs <> []⟧ -∗ swin t2 segs2 g -∗ swin t segs f' -∗ X EUser s)) -∗
    wp (s_copy (sitr t2 segs2 a) (sitr t2 segs2 b) (sitr t segs d)) s Q X.
  Proof.
    intros Ha Hab Hb Hlen Hg Hd Hs Hl. iIntros "[Ht2 Hg] Hw HK".
    set (G := win (saddr segs2) 0 (slots segs2) g).
    iAssert (table t2 segs2 ∗ ∃ f', ⟦stored d (take (Z.to_nat (a - a)) vs) f f'⟧ ∗ G ∗ swin t segs f')%I
      with "[Ht2 Hg Hw]" as "H".
    { iFrame "Ht2". iExists f. iFrame. iPureIntro. rewrite Z.sub_diag. apply stored_nil. }
    pose proof (wp_seg_in (fun p q d => srcs <- range ACopy p q;; s_copy_ra srcs d)%prog
        (fun _ => ret tt) t2 segs2 a b (fun x => sitr t segs (d + (x - a)))
        (fun x => ∃ f', ⟦stored d (take (Z.to_nat (x - a)) vs) f f'⟧ ∗ G ∗ swin t segs f')%I
        (fun x => ∃ f', ⟦shaken f f' /\ vs <> []⟧ ∗ G ∗ swin t segs f')%I
        (∃ f', ⟦shaken f f' /\ vs <> []⟧ ∗ G ∗ swin t segs f')%I s) as Hin. cbv beta in Hin.
    replace (d + (a - a)) with d in Hin by lia.
    iApply (wp_use with "H"); [apply Hin; clear Hin| clear Hin].
    - intros x y p Hx Hxy Hy Hc. iIntros "[Ht HI]". iDestruct "HI" as (f1) "(%Hf & HG & Hw)". wbind.
      assert (exists n : nat, y = x + Z.of_nat n) as [n ->] by (exists (Z.to_nat (y - x)); lia).
      iApply (wp_range _ _ _ n); [f_equal; lia|]. wbeta.
      rewrite (refs_addr _ (saddr segs2) _ x); [|done].
      set (ws := take n (drop (Z.to_nat (x - a)) vs)).
      assert (length ws = n) as Hws by (unfold ws; rewrite take_length drop_length; lia).
      iApply (wp_s_copy_ra G G _ ws G t segs (d + (x - a)) f1 with "HG Hw").
      { apply ass_win_copy; [lia|lia|lia|]. intros i Hi. rewrite Hg; [|lia]. unfold ws.
        rewrite lookup_take; [|lia]. rewrite lookup_drop. f_equal. lia. }
      { lia. } { lia. }
      { intros i Hi. rewrite (st_live _ _ _ _ Hf) Hl; [done|lia]. }
      rewrite Hws. iSplit.
      + iIntros (f2) "%Hf2 HG Hw". iSplit; [done|]. iFrame "Ht". iSplit; [iPureIntro; f_equal; lia|].
        iExists f2. iFrame. iPureIntro.
        replace (Z.to_nat (x + Z.of_nat n - a)) with (Z.to_nat (x - a) + n)%nat by lia. rewrite take_more.
        eapply stored_app; [done|]. rewrite take_length.
        by replace (Z.of_nat (Z.to_nat (x - a) `min` length vs)) with (x - a) by lia.
      + iIntros (f2) "%Hf2 HG Hw". destruct Hf2 as [Hf2 Hne]. iSplit; [done|]. iFrame "Ht". iExists f2. iFrame.
        iPureIntro. split.
        * eapply shaken_trans; [|done]. eapply stored_shaken; [done|]. rewrite take_length. intros i Hi. apply Hl. lia.
        * intros ->. apply Hne. unfold ws. by rewrite drop_nil take_nil.
    - intros x Hx1 Hx2. iIntros "H". iApply wp_ret. by iFrame.
    - done.
    - done.
    - done.
    - done.
    - iSplit.
      + iIntros (r) "(%Hr & Ht & H)". subst r. iDestruct "H" as (f') "(%Hf & HG & Hw)". iDestruct "HK" as "[HK _]".
        iApply ("HK" with "[%] [$Ht $HG] Hw"). rewrite take_ge in Hf; [done|lia].
      + iIntros "(Ht & H)". iDestruct "H" as (f') "(%Hf & HG & Hw)". iDestruct "HK" as "[_ HK]".
        iApply ("HK" with "[%] [$Ht $HG] Hw"). done.
  Qed.
End algos.
