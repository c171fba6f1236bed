(** * Proof rules for the segmented algorithms *)

From Verif Require Export SegLoops InPlace.
From Coq Require Import ZifyBool.
From iris.proofmode Require Import tactics.
Open Scope Z_scope.

(** ** Effects compose *)
Section compose.
  Context `{E : Env}.
  Implicit Types f g : Z -> option V.

  Lemma moved_app a m e d f f1 f2 :
    a <= m -> m <= e -> (d <= a \/ e <= d) ->
    moved a m d f f1 -> moved m e (d + (m - a)) f1 f2 -> moved a e d f f2.
  Proof.
    intros Ham Hme Hd [H1 H2 H3] [G1 G2 G3]. split.
    - intros i Hi. destruct (decide (d + (m - a) <= i)) as [Hle|Hlt].
      + rewrite G1; [|lia]. rewrite H2; [f_equal; lia|lia|lia].
      + destruct (decide (m <= i < e)) as [Hin|Hout].
        * (* only possible if the target overlaps the source from the right *)
          lia.
        * rewrite G2; [|lia|lia]. apply H1. lia.
    - intros i Hi Hi'. rewrite G2; [|lia|lia]. apply H2; lia.
    - intros i. rewrite G3 H3. unfold within. destruct (live f i); [done|]. simpl. lia.
  Qed.
  Lemma moved_app_back a m e d f f1 f2 :
    a <= m -> m <= e -> (a <= d \/ d + (e - a) <= a) ->
    moved m e (d + (m - a)) f f1 -> moved a m d f1 f2 -> moved a e d f f2.
  Proof.
    intros Ham Hme Hd [H1 H2 H3] [G1 G2 G3]. split.
    - intros i Hi. destruct (decide (i < d + (m - a))) as [Hlt|Hle].
      + rewrite G1; [|lia]. rewrite H2; [done|lia|lia].
      + rewrite G2; [|lia|lia]. rewrite H1; [f_equal; lia|lia].
    - intros i Hi Hi'. rewrite G2; [|lia|lia]. apply H2; lia.
    - intros i. rewrite G3 H3. unfold within. destruct (live f i); [done|]. simpl. lia.
  Qed.
  Lemma stored_app d vs1 vs2 f f1 f2 :
    stored d vs1 f f1 -> stored (d + Z.of_nat (length vs1)) vs2 f1 f2 -> stored d (vs1 ++ vs2) f f2.
  Proof.
    intros [H1 H2 H3] [G1 G2 G3]. split.
    - intros i Hi. rewrite app_length in Hi.
      destruct (decide (i < d + Z.of_nat (length vs1))) as [Hlt|Hge].
      + rewrite G2; [|lia]. rewrite H1; [|lia]. rewrite lookup_app_l; [done|lia].
      + rewrite G1; [|lia]. rewrite lookup_app_r; [|lia]. f_equal. lia.
    - intros i Hi. rewrite app_length in Hi. rewrite G2; [|lia]. apply H2. lia.
    - intros i. rewrite G3 H3 app_length. unfold within. destruct (live f i); [done|]. simpl. lia.
  Qed.
  Lemma cleared_app a m b f f1 f2 :
    a <= m -> m <= b -> cleared a m f f1 -> cleared m b f1 f2 -> cleared a b f f2.
  Proof.
    intros Ham Hmb [H2 H3] [G2 G3]. split.
    - intros i Hi. rewrite G2; [|lia]. apply H2. lia.
    - intros i. rewrite G3 H3. unfold within. destruct (live f i); [|done]. simpl. lia.
  Qed.
  (** Undoing: what was stored in raw storage is destroyed again. *)
  Lemma stored_cleared d vs f f1 f2 i :
    stored d vs f f1 -> cleared d (d + Z.of_nat (length vs)) f1 f2 ->
    (forall i, d <= i < d + Z.of_nat (length vs) -> live f i = false) -> f2 i = f i.
  Proof.
    intros [H1 H2 H3] [G2 G3] Hl.
    destruct (decide (d <= i < d + Z.of_nat (length vs))) as [Hin|Hout].
    - rewrite (live_false f i); [|by apply Hl]. apply live_false. rewrite G3. unfold within. lia.
    - rewrite G2; [|done]. by apply H2.
  Qed.
  Lemma shaken_refl f : shaken f f.
  Proof. by intros i. Qed.
  Lemma shaken_trans f g h : shaken f g -> shaken g h -> shaken f h.
  Proof. intros H1 H2 i. by rewrite H2. Qed.
  Lemma stored_shaken d vs f f' :
    stored d vs f f' -> (forall i, d <= i < d + Z.of_nat (length vs) -> live f i = true) -> shaken f f'.
  Proof.
    intros [H1 H2 H3] Hl i. rewrite H3. unfold within.
    destruct (decide (d <= i < d + Z.of_nat (length vs))) as [Hin|Hout]; [rewrite Hl; [done|lia]|].
    destruct (live f i); [done|]. simpl. lia.
  Qed.
  Lemma moved_shaken a e d f f' :
    moved a e d f f' -> (forall i, d <= i < d + (e - a) -> live f i = true) -> shaken f f'.
  Proof.
    intros [H1 H2 H3] Hl i. rewrite H3. unfold within.
    destruct (decide (d <= i < d + (e - a))) as [Hin|Hout]; [rewrite Hl; [done|lia]|].
    destruct (live f i); [done|]. simpl. lia.
  Qed.
End compose.

Section algos.
  Context `{E : Env} `{SZ : SegSize}.
  Context {St : Type}.
  Implicit Types s : St.
  Implicit Types segs : list loc.
  Implicit Types f g : Z -> option V.

  (** The segments of a container and their table. *)
  Definition swin (t : loc) segs f : hProp := (table t segs ∗ win (saddr segs) 0 (slots segs) f)%I.

  (** *** Destruction *)
  Lemma s_destroy_a_tr t segs a b f s :
    0 <= a -> a <= b -> b < slots segs -> (forall i, a <= i < b -> live f i = true) ->
    swin t segs f ⊢
    wp (s_destroy_a (sitr t segs a) (sitr t segs b)) s
      (keeps s (fun _ => ∃ f', ⟦cleared a b f f'⟧ ∗ swin t segs f')%I) (fun _ _ => False)%I.
  Proof.
    intros Ha Hab Hb Hl. iIntros "[Ht Hw]".
    iPoseProof (wp_seg_each destroy_a (fun _ => ret tt) t segs a b
      (fun x => ∃ f', ⟦cleared a x f f'⟧ ∗ win (saddr segs) 0 (slots segs) f')%I
      (fun _ => False)%I False%I s with "[Ht Hw]") as "H".
    - intros x y p Hx Hxy Hy Hc. iIntros "[Ht HI]". iDestruct "HI" as (f1) "[%Hf Hw]".
      iApply (wp_win_destroy _ _ _ x y with "Hw"); [done|done|lia|lia|lia| |].
      { intros i Hi. rewrite (cl_live _ _ _ _ Hf) Hl; [|lia]. unfold within. lia. }
      iIntros (f2) "%Hf2 Hw". iSplit; [done|]. iFrame "Ht". iExists f2. iFrame. iPureIntro.
      by eapply cleared_app.
    - intros k _ _ _ _. iIntros "[_ []]".
    - done.
    - done.
    - done.
    - done.
    - iFrame "Ht". iExists f. iFrame. iPureIntro. apply cleared_nil. lia.
    - iApply (wp_wand with "H"). iSplit.
      + iIntros (u s') "(%Hs & Ht & H)". subst s'. iDestruct "H" as (f') "[%Hf Hw]".
        iSplit; [done|]. iExists f'. iFrame. done.
      + iIntros (e s') "(_ & _ & [])".
  Qed.
  Lemma wp_s_destroy_a t segs a b f s Q X :
    0 <= a -> a <= b -> b < slots segs -> (forall i, a <= i < b -> live f i = true) ->
    swin t segs f ⊢
    (∀ f', ⟦cleared a b f f'⟧ -∗ swin t segs f' -∗ Q tt s) -∗
    wp (s_destroy_a (sitr t segs a) (sitr t segs b)) s Q X.
  Proof.
    intros Ha Hab Hb Hl. iIntros "Hw HK". iApply (wp_undo with "Hw"); [by apply s_destroy_a_tr|].
    iIntros "H". iDestruct "H" as (f') "[%Hf Hw]". by iApply "HK".
  Qed.
  Lemma s_destroy_n_a_tr t segs a n f s :
    0 <= a -> a + Z.of_nat n < slots segs -> (forall i, a <= i < a + Z.of_nat n -> live f i = true) ->
    swin t segs f ⊢
    wp (s_destroy_n_a (sitr t segs a) n) s
      (keeps s (fun r => ⟦r = sitr t segs (a + Z.of_nat n)⟧ ∗
         ∃ f', ⟦cleared a (a + Z.of_nat n) f f'⟧ ∗ swin t segs f')%I) (fun _ _ => False)%I.
  Proof.
    intros Ha Hb Hl. iIntros "[Ht Hw]".
    iPoseProof (wp_seg_each_n (fun p k => destroy_n_a p k;; ret (p +ₗ Z.of_nat k))%prog
      (fun _ => ret tt) t segs a (a + Z.of_nat n)
      (fun x => ∃ f', ⟦cleared a x f f'⟧ ∗ win (saddr segs) 0 (slots segs) f')%I
      (fun _ => False)%I False%I s with "[Ht Hw]") as "H".
    - intros x c p Hx Hy Hc. iIntros "[Ht HI]". iDestruct "HI" as (f1) "[%Hf Hw]". wbind.
      iApply (wp_win_destroy_n _ _ _ x with "Hw"); [done|lia|lia| |].
      { intros i Hi. rewrite (cl_live _ _ _ _ Hf) Hl; [|lia]. unfold within. lia. }
      iIntros (f2) "%Hf2 Hw". wbeta. iApply wp_ret. iSplit; [done|]. iFrame "Ht". iSplit; [done|]. iExists f2.
      iFrame. iPureIntro. eapply (cleared_app _ x); [lia|lia|done|done].
    - intros k _ _. iIntros "[_ []]".
    - done.
    - done.
    - done.
    - iFrame "Ht". iExists f. iFrame. iPureIntro. apply cleared_nil. lia.
    - iApply (wp_wand with "H"). iSplit.
      + iIntros (u s') "(%Hs & %Hr & Ht & H)". subst s'. iDestruct "H" as (f') "[%Hf Hw]".
        iSplit; [done|]. iSplit; [done|]. iExists f'. iFrame. done.
      + iIntros (e s') "(_ & _ & [])".
  Qed.

  (** *** Construction in raw storage *)

  (** What is left after undoing. *)
  Lemma swin_undone t segs d vs f f1 f2 :
    stored d vs f f1 -> cleared d (d + Z.of_nat (length vs)) f1 f2 ->
    (forall i, d <= i < d + Z.of_nat (length vs) -> live f i = false) ->
    swin t segs f2 ⊢ swin t segs f.
  Proof.
    intros H1 H2 H3. iIntros "[$ Hw]". iApply (win_eq with "Hw"). intros i _. by eapply stored_cleared.
  Qed.

  Lemma undo_to_tr t segs a k n v f f1 s (P : hProp) :
    0 <= a -> 0 <= k -> a + Z.of_nat n = k * SS -> k * SS < slots segs ->
    stored a (replicate n v) f f1 -> (forall i, a <= i < a + Z.of_nat n -> live f i = false) ->
    table t segs ∗ P ∗ win (saddr segs) 0 (slots segs) f1 ⊢
    wp (undo_to (sitr t segs a) (t +ₗ k)) s (keeps s (fun _ => table t segs ∗ P ∗ win (saddr segs) 0 (slots segs) f)%I)
      (fun _ _ => False)%I.
  Proof.
    intros Ha Hk Hn Hb Hst Hl. pose proof SS_pos. iIntros "(Ht & HP & Hw)". unfold undo_to. wbind.
    iApply (wp_read_tbl with "Ht"); [done|unfold slots in *; nia|]. iIntros "Ht". wbeta. wbind.
    iApply (wp_compose _ _ _ _ (k * SS) with "Ht"); [lia|lia|lia| |].
    { rewrite -{1}(loc_add_0 (segs !!! Z.to_nat k)). f_equal. lia. }
    iIntros "Ht". wbeta.
    iApply (wp_s_destroy_a _ _ a (k * SS) f1 with "[$Ht $Hw]"); [lia|lia|lia| |].
    { intros i Hi. rewrite (st_live _ _ _ _ Hst) replicate_length. unfold within. lia. }
    iIntros (f2) "%Hc Hw". iSplit; [done|]. iDestruct (swin_undone with "Hw") as "[Ht Hw]"; [exact Hst| | |by iFrame].
    - rewrite replicate_length. by rewrite Hn.
    - by rewrite replicate_length.
  Qed.

  (** All positions but [x, y). *)
  Definition around segs (x y : Z) f : hProp :=
    (win (saddr segs) 0 x f ∗ win (saddr segs) y (slots segs) f)%I.
  Lemma around_out segs x y f :
    0 <= x -> x <= y -> y <= slots segs ->
    win (saddr segs) 0 (slots segs) f ⊢ win (saddr segs) x y f ∗ around segs x y f.
  Proof.
    intros H1 H2 H3. rewrite (win_split _ 0 x); [|lia]. rewrite (win_split _ x y (slots segs)); [|lia].
    iIntros "(H1 & H2 & H3)". iFrame.
  Qed.
  Lemma around_in segs x y f g :
    0 <= x -> x <= y -> y <= slots segs ->
    win (saddr segs) x y g ∗ around segs x y f ⊢ win (saddr segs) 0 (slots segs) (patch f x y g).
  Proof.
    intros H1 H2 H3. rewrite (win_split _ 0 x (slots segs)); [|lia]. rewrite (win_split _ x y (slots segs)); [|lia].
    iIntros "(H2 & H1 & H3)". iSplitL "H1"; [|iSplitL "H2"].
    - iApply (win_eq with "H1"). intros i Hi. unfold patch, within. destruct (Z.leb_spec x i); [lia|done].
    - iApply (win_eq with "H2"). intros i Hi. unfold patch, within.
      rewrite (proj2 (Z.leb_le x i)); [|lia]. by rewrite (proj2 (Z.ltb_lt i y)); [|lia].
    - iApply (win_eq with "H3"). intros i Hi. unfold patch, within. destruct (Z.ltb_spec i y); [lia|by rewrite andb_false_r].
  Qed.

  (** The value stored may be read from the other positions. *)
  Lemma s_each_fill_gen (inner : loc -> loc -> M St unit) t segs a b f P v s :
    (forall x y f1, a <= x -> x <= y -> y <= b -> (forall i, ~ (a <= i < b) -> f1 i = f i) ->
       forall p n s' Q X, P ∗ around segs x y f1 ⊢ raws p n -∗
       ((P ∗ around segs x y f1 -∗ elems p (replicate n v) -∗ Q tt s') ∧
        (P ∗ around segs x y f1 -∗ raws p n -∗ X EUser s')) -∗
       wp (inner p (p +ₗ Z.of_nat n)) s' Q X) ->
    0 <= a -> a <= b -> b < slots segs -> (forall i, a <= i < b -> live f i = false) ->
    P ∗ swin t segs f ⊢
    wp (seg_each inner (undo_to (sitr t segs a)) (sitr t segs a) (sitr t segs b)) s
      (keeps s (fun _ => ∃ f', ⟦stored a (replicate (Z.to_nat (b - a)) v) f f'⟧ ∗ P ∗ swin t segs f')%I)
      (fails s (P ∗ swin t segs f)).
  Proof.
    intros Hin Ha Hab Hb Hl. iIntros "(HP & Ht & Hw)".
    iPoseProof (wp_seg_each inner (undo_to (sitr t segs a)) t segs a b
      (fun x => ∃ f', ⟦stored a (replicate (Z.to_nat (x - a)) v) f f'⟧ ∗ P ∗ win (saddr segs) 0 (slots segs) f')%I
      (fun x => ∃ f', ⟦stored a (replicate (Z.to_nat (x - a)) v) f f'⟧ ∗ P ∗ win (saddr segs) 0 (slots segs) f')%I
      (P ∗ win (saddr segs) 0 (slots segs) f)%I s with "[HP Ht Hw]") as "H".
    - intros x y p Hx Hxy Hy Hc. iIntros "[Ht HI]". iDestruct "HI" as (f1) "(%Hf & HP & Hw)".
      iDestruct (around_out segs x y with "Hw") as "[Hd Hw]"; [lia..|].
      assert (forall i, x <= i < y -> live f1 i = false) as Hl1.
      { intros i Hi. rewrite (st_live _ _ _ _ Hf) replicate_length Hl; [|lia]. unfold within. simpl. lia. }
      rewrite (win_raws _ x y p (Z.to_nat (y - x))); [|done|lia|done].
      replace (p +ₗ (y - x)) with (p +ₗ Z.of_nat (Z.to_nat (y - x))) by (f_equal; lia).
      iApply (Hin x y f1 with "[$HP $Hw] Hd"); [done|done|done| |iSplit].
      { intros i Hi. apply (st_rest _ _ _ _ Hf). rewrite replicate_length. lia. }
      + iIntros "[HP Hw] Hd". iSplit; [done|]. iFrame "Ht".
        iDestruct (around_in segs x y f1 (at_pos x (replicate (Z.to_nat (y - x)) v)) with "[$Hw Hd]") as "Hw"; [lia..| |].
        { rewrite (win_elems _ _ _ p (replicate (Z.to_nat (y - x)) v)); [done|done|rewrite replicate_length; lia|].
          intros i Hi. apply at_pos_in. rewrite replicate_length. lia. }
        iExists _. iFrame "HP Hw". iPureIntro.
        replace (Z.to_nat (y - a)) with (Z.to_nat (x - a) + Z.to_nat (y - x))%nat by lia.
        rewrite replicate_add. eapply stored_app; [done|]. rewrite replicate_length.
        replace (a + Z.of_nat (Z.to_nat (x - a))) with x by lia. split.
        * intros i Hi. rewrite replicate_length in Hi. unfold patch.
          rewrite (_ : within _ _ _ = true); [|unfold within; lia]. apply at_pos_in. by rewrite replicate_length.
        * intros i Hi. rewrite replicate_length in Hi. unfold patch.
          rewrite (_ : within _ _ _ = false); [done|unfold within; lia].
        * intros i. rewrite replicate_length. replace (x + Z.of_nat (Z.to_nat (y - x))) with y by lia.
          unfold live at 1. unfold patch. destruct (within x y i) eqn:Hwi.
          { pose proof (live_at_pos x (replicate (Z.to_nat (y - x)) v) i) as Hlp.
            rewrite replicate_length in Hlp. replace (x + Z.of_nat (Z.to_nat (y - x))) with y in Hlp by lia.
            rewrite Hwi in Hlp. unfold live in Hlp. rewrite Hlp. by rewrite orb_true_r. }
          by rewrite orb_false_r.
      + iIntros "[HP Hw] Hd". iSplit; [done|]. iFrame "Ht". iExists f1. iFrame "HP".
        iSplit; [done|]. iDestruct (around_in segs x y f1 (fun _ => None) with "[$Hw Hd]") as "Hw"; [lia..| |].
        { rewrite (win_raws _ x y p (Z.to_nat (y - x))); [done|done|lia|done]. }
        iApply (win_eq with "Hw"). intros i Hi. unfold patch. destruct (within _ _ i) eqn:Hwi; [|done].
        symmetry. apply live_false, Hl1. unfold within in Hwi. lia.
    - intros k Hk Hak Hkb Hks. iIntros "[Ht HI]". iDestruct "HI" as (f1) "(%Hf & HP & Hw)".
      iApply (undo_to_tr t segs a k (Z.to_nat (k * SS - a)) v f f1 s P with "[$Ht $HP $Hw]"); [lia|lia|lia|lia|done|].
      intros i Hi. apply Hl. lia.
    - iIntros "HI". iDestruct "HI" as (f1) "(%Hf & $ & Hw)". iApply (win_eq with "Hw").
      intros i _. rewrite Z.sub_diag in Hf. simpl in Hf. apply (st_rest _ _ _ _ Hf). simpl. lia.
    - done.
    - done.
    - done.
    - iFrame "Ht". iExists f. rewrite Z.sub_diag. iFrame. iPureIntro. apply stored_nil.
    - iApply (wp_wand with "H"). iSplit.
      + iIntros (u s') "(%Hs & Ht & H)". subst s'. iDestruct "H" as (f') "(%Hf & HP & Hw)".
        iSplit; [done|]. iExists f'. iFrame. done.
      + iIntros (e s') "(%He & Ht & HP & Hw)". iFrame. done.
  Qed.
  Lemma s_each_fill_tr (inner : loc -> loc -> M St unit) t segs a b f P v s :
    (forall p n s' Q X, P ⊢ raws p n -∗
       ((P -∗ elems p (replicate n v) -∗ Q tt s') ∧ (P -∗ raws p n -∗ X EUser s')) -∗
       wp (inner p (p +ₗ Z.of_nat n)) s' Q X) ->
    0 <= a -> a <= b -> b < slots segs -> (forall i, a <= i < b -> live f i = false) ->
    P ∗ swin t segs f ⊢
    wp (seg_each inner (undo_to (sitr t segs a)) (sitr t segs a) (sitr t segs b)) s
      (keeps s (fun _ => ∃ f', ⟦stored a (replicate (Z.to_nat (b - a)) v) f f'⟧ ∗ P ∗ swin t segs f')%I)
      (fails s (P ∗ swin t segs f)).
  Proof.
    intros Hin. apply s_each_fill_gen. intros x y f1 _ _ _ _ p n s' Q X. iIntros "[HP Ho] Hr HK".
    iApply (Hin with "HP Hr"). iSplit.
    - iIntros "HP Hd". iDestruct "HK" as "[HK _]". iApply ("HK" with "[$HP $Ho] Hd").
    - iIntros "HP Hd". iDestruct "HK" as "[_ HK]". iApply ("HK" with "[$HP $Ho] Hd").
  Qed.

  (** private.hpp 1417-1479 [uninitialized_default_construct_a]. *)
  Lemma wp_s_default_construct_a t segs a b f s Q X :
    0 <= a -> a <= b -> b < slots segs -> (forall i, a <= i < b -> live f i = false) ->
    swin t segs f ⊢
    ((∀ f', ⟦stored a (replicate (Z.to_nat (b - a)) vdef) f f'⟧ -∗ swin t segs f' -∗ Q tt s) ∧
     (swin t segs f -∗ X EUser s)) -∗
    wp (s_default_construct_a (sitr t segs a) (sitr t segs b)) s Q X.
  Proof.
    intros Ha Hab Hb Hl. iIntros "Hw HK".
    iAssert (emp ∗ swin t segs f)%I with "[$Hw]" as "H".
    iApply (wp_use with "H"); [apply (s_each_fill_tr uninitialized_default_construct_a t segs a b f emp%I vdef s); [|done..]|].
    - intros p n s' Q' X'. iIntros "_ Hr HK". unfold uninitialized_default_construct_a. wbind.
      iApply wp_range_len; [done|simpl; lia|]. simpl. wbeta.
      replace (Z.to_nat (p.2 + Z.of_nat n - p.2)) with n by lia. wbind.
      iApply (wp_udefault_n with "Hr"). iSplit.
      + iIntros "H". wbeta. iApply wp_ret. iDestruct "HK" as "[HK _]". by iApply ("HK" with "[] H").
      + iIntros "H". iDestruct "HK" as "[_ HK]". by iApply ("HK" with "[] H").
    - iSplit.
      + iIntros (u) "H". iDestruct "H" as (f') "(%Hf & _ & Hw)". destruct u. iDestruct "HK" as "[HK _]". by iApply "HK".
      + iIntros "[_ Hw]". iDestruct "HK" as "[_ HK]". by iApply "HK".
  Qed.
  (** private.hpp 1575-1641 [uninitialized_fill_a]. *)
  Lemma wp_s_ufill_a t segs a b f P x v s Q X :
    mk_ok P P x v P ->
    0 <= a -> a <= b -> b < slots segs -> (forall i, a <= i < b -> live f i = false) ->
    P ⊢ swin t segs f -∗
    ((∀ f', ⟦stored a (replicate (Z.to_nat (b - a)) v) f f'⟧ -∗ P -∗ swin t segs f' -∗ Q tt s) ∧
     (P -∗ swin t segs f -∗ X EUser s)) -∗
    wp (s_uninitialized_fill_a (sitr t segs a) (sitr t segs b) x) s Q X.
  Proof.
    intros Hok Ha Hab Hb Hl. iIntros "HP Hw HK". iCombine "HP Hw" as "H".
    iApply (wp_use with "H"); [apply (s_each_fill_tr (fun p q => uninitialized_fill_a p q x) t segs a b f P v s); [|done..]|].
    - intros p n s' Q' X'. iIntros "HP Hr HK". iApply (wp_ufill with "HP Hr"); [done|done|done].
    - iSplit.
      + iIntros (u) "H". iDestruct "H" as (f') "(%Hf & HP & Hw)". destruct u. iDestruct "HK" as "[HK _]".
        by iApply ("HK" with "[%] HP Hw").
      + iIntros "[HP Hw]". iDestruct "HK" as "[_ HK]". by iApply ("HK" with "HP Hw").
  Qed.
End algos.
