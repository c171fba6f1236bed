(** * sfl::vector meets its specification *)

From Verif Require Export SeqProofs Client.
From iris.proofmode Require Import tactics.
Open Scope Z_scope.

Section vector_ok.
  Context `{E : Env}.
  Notation vec_at := (vec_at vec_storage vec_ok).
  Notation vinv := (vinv vec_storage vec_ok).

  Lemma vec_special_ok : special_ok vec_storage vec_ok vec_special 0.
  Proof.
    split.
    - intros n Hn. simpl. lia.
    - simpl. lia.
    - simpl. intros len cap n c Hl Hc Hn He.  rewrite vec_calc_cap_spec in He; [|lia..].
      case_decide; [done|]. injection He as <-. unfold growth. lia.
    - iIntros (a f l cap n Q X) "Hv HK".
      iApply (wp_vec_reserve with "Hv"); [lia|]. iSplit.
      + iIntros (f') "%Hf Hv". iDestruct "HK" as "[HK _]". iApply ("HK" with "[] Hv").
        iPureIntro. case_decide; [split; [by apply Hf|lia]|lia].
      + iDestruct "HK" as "[_ HK]". iApply "HK".
    - iIntros (a f l cap Q X) "Hv HK". iDestruct (vec_at_len with "Hv") as "[%Hlen Hv]".
      iApply (wp_vec_shrink with "Hv"). iSplit.
      + iIntros (f') "%Hf Hv". iDestruct "HK" as "[HK _]".
        iApply ("HK" with "[] Hv"). iPureIntro. split; [lia|done].
      + iIntros (e l') "%Hx Hv". iDestruct "HK" as "[_ HK]". iApply ("HK" with "[] Hv").
        iPureIntro. tauto.
    - iIntros (a f l cap Q X) "Hv HK". iApply (wp_vec_assign_move_self with "Hv"). iIntros "Hv".
      iDestruct "HK" as "[HK _]". iApply ("HK" with "Hv").
  Qed.

  (** A program on a fresh object, and on a fresh object and its source. *)
  Lemma wp_construct_obj {O} (o : O) m (Q : O -> unit -> hProp) (X : exn -> unit -> hProp) :
    wp m o (fun _ o' => Q o' tt) (fun e _ => X e tt) ⊢ wp (construct_obj o m) tt Q X.
  Proof.
    rewrite !wp_unseal. split. intros h Hwp hf w Hwf Hd Hh. specialize (Hwp hf w Hwf Hd Hh).
    unfold construct_obj. by destruct (m o w).
  Qed.
  Lemma wp_construct_from {O} (o src : O) m (Q : O -> O -> hProp) (X : exn -> O -> hProp) :
    wp m (o, src) (fun _ oo => Q oo.1 oo.2) (fun e oo => X e oo.2) ⊢ wp (construct_from o m) src Q X.
  Proof.
    rewrite !wp_unseal. split. intros h Hwp hf w Hwf Hd Hh. specialize (Hwp hf w Hwf Hd Hh).
    unfold construct_from. by destruct (m (o, src) w) as [? []|? []|].
  Qed.

  Lemma vinv_open x A :
    vinv x A ⊢ ∃ a f l cap, ⟦A = VAbs a f l cap /\ x = vobj a f (length l) cap⟧ ∗ vec_at a f l cap.
  Proof.
    destruct A as [a f l cap]. iIntros "[%Hx Hv]". iExists a, f, l, cap. iFrame. done.
  Qed.

  Lemma vec_build_ok c :
    ⊢ wp (build vector c) tt (fun x _ => ∃ A, ⟦k_post 0 c A⟧ ∗ vinv x A)%I
         (fun e _ => ⟦k_exn (k_elems c) e⟧)%I.
  Proof.
    iApply wp_construct_obj. rewrite vec_empty_vobj.
    iApply (wp_wand with "[]").
    { iApply (wp_ctor _ _ _ _ vec_special_ok c null). by iApply vec_at_null. }
    iSplit.
    - iIntros (r x) "Hx". done.
    - iIntros (e x) "[%He _]". done.
  Qed.

  Lemma ctor_exn (l : list V) e : ctor_fail (length l) e -> k_exn l e.
  Proof. by destruct e. Qed.

  Lemma vec_build2_ok c x A :
    vinv x A ⊢ wp (build2 vector c) x
      (fun y x' => ∃ B A', ⟦vec_k2_post c A B A'⟧ ∗ vinv y B ∗ vinv x' A')%I
      (fun e x' => ∃ A', ⟦vec_k2_exn c A e A'⟧ ∗ vinv x' A')%I.
  Proof.
    iIntros "Hx". iDestruct (vinv_open with "Hx") as (a f l cap) "[%Hx Hv]". destruct Hx as [-> ->].
    iApply wp_construct_from. destruct c as [|a'| |a']; simpl.
    - iApply (wp_vec_copy_ctor with "Hv"). iSplit.
      + iIntros (f') "Hn Hv". iExists (VAbs _ _ _ _), _.
        iSplit; [|iSplitL "Hn"; [by iApply vinv_vec|by iApply vinv_vec]]. iPureIntro. by split_and!.
      + iIntros (e s1) "%He Hv". iExists _. iSplit; [|by iApply vinv_vec].
        iPureIntro. split; [by apply ctor_exn|done].
    - iApply (wp_vec_copy_ctor_alloc with "Hv"). iSplit.
      + iIntros (f') "Hn Hv". iExists (VAbs _ _ _ _), _.
        iSplit; [|iSplitL "Hn"; [by iApply vinv_vec|by iApply vinv_vec]]. iPureIntro. by split_and!.
      + iIntros (e s1) "%He Hv". iExists _. iSplit; [|by iApply vinv_vec].
        iPureIntro. split; [by apply ctor_exn|done].
    - iApply (wp_vec_move_ctor with "Hv"). iIntros "Hn Hv". iExists (VAbs _ _ _ _), (VAbs _ _ [] _).
      iSplit; [|iSplitL "Hn"; [by iApply vinv_vec|by iApply (vinv_vec with "Hv")]]. iPureIntro. by split_and!.
    - iApply (wp_vec_move_ctor_alloc with "Hv"). iSplit.
      + iIntros (f' c' f2' c2') "%Hs Hn Hv". destruct Hs as [Hs Hc]. iExists (VAbs _ _ _ _), (VAbs _ _ _ _).
        iSplit; [|iSplitL "Hn"; [by iApply vinv_vec|by iApply vinv_vec]]. iPureIntro.
        split; [done|]. cbn [q_alloc]. unfold stolen, moved_out in *.
        destruct (decide (a' = a)) as [->|Ha].
        * rewrite bool_decide_eq_true_2 // in Hs |- *.
          destruct Hs as (-> & -> & -> & ->). done.
        * rewrite bool_decide_eq_false_2 // in Hs |- *.
          destruct Hs as [-> ->]. split_and!; try done. by apply Hc.
      + iIntros (e s1 l2') "%He Hv". iExists _. iSplit; [|by iApply vinv_vec].
        iPureIntro. destruct He as (He & Ha & Hl & Hx). split; [by apply ctor_exn|].
        split_and!; try done. intros Hu. simpl. by rewrite Hx.
  Qed.

  Lemma vec_run2_ok o x A y B :
    vec_pre2 o A B ->
    vinv x A ∗ vinv y B ⊢ wp (vec_run2 o) (x, y)
      (fun r xy => ∃ A' B', ⟦vec_post2 o A B r A' B'⟧ ∗ vinv xy.1 A' ∗ vinv xy.2 B')%I
      (fun e xy => ∃ A' B', ⟦vec_exn2 o A B e A' B'⟧ ∗ vinv xy.1 A' ∗ vinv xy.2 B')%I.
  Proof.
    iIntros (Hpre) "[Hx Hy]".
    iDestruct (vinv_open with "Hx") as (a1 f1 l1 c1) "[%Hx Hx]". destruct Hx as [-> ->].
    iDestruct (vinv_open with "Hy") as (a2 f2 l2 c2) "[%Hy Hy]". destruct Hy as [-> ->].
    destruct o as [| | |r|lt]; cbn [vec_run2]; unfold unit_result, bool_result.
    - wbind. iApply (wp_vec_assign_copy with "Hx Hy"). iSplit.
      + iIntros (f1' c1') "%Hk Hx Hy". iApply wp_ret. iExists (VAbs _ _ _ _), _.
        iSplit; [|iSplitL "Hx"; by iApply vinv_vec]. iPureIntro. by split_and!.
      + iIntros (e f1' l1' c1') "%He Hx Hy". iExists (VAbs _ _ _ _), _.
        iSplit; [|iSplitL "Hx"; by iApply vinv_vec]. iPureIntro.
        by split_and!.
    - wbind. iApply (wp_vec_assign_move with "Hx Hy"). iSplit.
      + iIntros (f1' c1' f2' c2') "%Hk Hx Hy". iApply wp_ret. iExists (VAbs _ _ _ _), (VAbs _ _ _ _).
        iSplit; [|iSplitL "Hx"; by iApply vinv_vec]. iPureIntro.
        destruct Hk as [Hs Hk]. split; [done|]. unfold move_alloc. cbn [q_alloc].
        fold (ma_alloc a1 a2). unfold stolen, moved_out in *.
        destruct (decide (ma_alloc a1 a2 = a2)) as [Ha|Ha].
        * rewrite bool_decide_eq_true_2 // in Hs |- *.
          destruct Hs as (-> & -> & -> & ->). by rewrite Ha.
        * rewrite bool_decide_eq_false_2 // in Hs |- *. destruct Hs as [-> ->].
          assert (pocma = false) as Hp by (unfold ma_alloc in Ha; by destruct pocma).
          split_and!; try done; intros Hfit; split; by apply Hk.
      + iIntros (e f1' l1' c1' l2') "%He Hx Hy". destruct He as (He & Ha & Hl).
        iExists (VAbs _ _ _ _), (VAbs _ _ _ _). iSplit; [|iSplitL "Hx"; by iApply vinv_vec].
        iPureIntro. split_and!; try done.
    - wbind. iApply (wp_vec_swap with "Hx Hy"); [done|]. iIntros "Hx Hy". iApply wp_ret.
      iExists (VAbs _ _ _ _), (VAbs _ _ _ _). iSplit; [|iSplitL "Hx"; by iApply vinv_vec]. done.
    - iDestruct (vec_at_body with "Hx") as "[Hb1 Hx]". iDestruct (vec_at_body with "Hy") as "[Hb2 Hy]".
      wbind. iApply (wp_eq with "Hb1 Hb2"). iSplit.
      + iIntros (b) "%Hb Hb1 Hb2". iDestruct ("Hx" with "Hb1") as "Hx". iDestruct ("Hy" with "Hb2") as "Hy".
        iApply wp_ret. iExists (VAbs _ _ _ _), (VAbs _ _ _ _).
        iSplit; [|iSplitL "Hx"; by iApply vinv_vec]. iPureIntro. split_and!; try done. by eexists.
      + iIntros "Hb1 Hb2". iDestruct ("Hx" with "Hb1") as "Hx". iDestruct ("Hy" with "Hb2") as "Hy".
        iExists (VAbs _ _ _ _), (VAbs _ _ _ _). iSplit; [|iSplitL "Hx"; by iApply vinv_vec]. done.
    - iDestruct (vec_at_body with "Hx") as "[Hb1 Hx]". iDestruct (vec_at_body with "Hy") as "[Hb2 Hy]".
      wbind. iApply (wp_lt with "Hb1 Hb2"). iSplit.
      + iIntros (b) "%Hb Hb1 Hb2". iDestruct ("Hx" with "Hb1") as "Hx". iDestruct ("Hy" with "Hb2") as "Hy".
        iApply wp_ret. iExists (VAbs _ _ _ _), (VAbs _ _ _ _).
        iSplit; [|iSplitL "Hx"; by iApply vinv_vec]. iPureIntro. split_and!; try done. by eexists.
      + iIntros "Hb1 Hb2". iDestruct ("Hx" with "Hb1") as "Hx". iDestruct ("Hy" with "Hb2") as "Hy".
        iExists (VAbs _ _ _ _), (VAbs _ _ _ _). iSplit; [|iSplitL "Hx"; by iApply vinv_vec]. done.
  Qed.

  Lemma pure_holds (φ : Prop) (P : hProp) h : (⟦φ⟧ ∗ P)%I h -> φ /\ P h.
  Proof.
    intros (h1 & h2 & -> & Hd & [Hemp Hφ] & HP). change (h1 = ∅) in Hemp. subst.
    rewrite left_id_L. by split.
  Qed.

  Lemma osize_vobj a f n cap : osize (vobj a f n cap) = n.
  Proof. unfold osize. simpl. lia. Qed.

  Program Definition vector_ok : container_ok vector_spec := {| inv := vinv : obj vector -> abs vector_spec -> hProp |}.
  Next Obligation. done. Qed.
  Next Obligation. done. Qed.
  Next Obligation.
    intros o x A h Hi. apply pure_holds in Hi as [-> _]. simpl. by rewrite osize_vobj.
  Qed.
  Next Obligation.
    intros o x A y B h h' Hx Hy. apply pure_holds in Hx as [-> _]. apply pure_holds in Hy as [-> _].
    destruct o; simpl; try done. by rewrite orb_true_iff Nat.eqb_eq.
  Qed.
  Next Obligation. intros c _. apply vec_build_ok. Qed.
  Next Obligation. intros c x A _. apply vec_build2_ok. Qed.
  Next Obligation.
    intros o x A Hpre. iIntros "Hx". iDestruct (vinv_open with "Hx") as (a f l cap) "[%Hx Hv]".
    destruct Hx as [-> ->].
    iApply (wp_wand with "[Hv]"); [iApply (wp_vop _ _ _ _ vec_special_ok o with "Hv"); done|].
    iSplit; iIntros (r x') "Hx"; iExact "Hx".
  Qed.
  Next Obligation. intros o x A y B Hpre. by apply vec_run2_ok. Qed.
  Next Obligation.
    intros x A. iIntros "Hx". iDestruct (vinv_open with "Hx") as (a f l cap) "[%Hx Hv]".
    destruct Hx as [-> ->]. iApply (wp_destructor with "Hv"). by iIntros "_".
  Qed.
End vector_ok.
