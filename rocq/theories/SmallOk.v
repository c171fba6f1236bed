(** * sfl::small_vector meets its specification *)

From Verif Require Export VectorOk SmallTwo SmallClient.
From iris.proofmode Require Import tactics.
From Coq Require Import ZifyBool.
Open Scope Z_scope.

(** ** Objects with internal storage *)
Section lift.
  Context `{E : Env}.
  Variable N : nat.

  Lemma wp_buffer {St} (s : St) Q X :
    (∀ ib, ⟦ib_ok N ib⟧ -∗ raws ib N -∗ Q ib s) ⊢ wp (buffer N) s Q X.
  Proof.
    unfold buffer, ib_ok. destruct (Nat.eqb_spec N 0) as [HN|HN].
    - iIntros "HK". iApply wp_ret. iApply "HK"; [by rewrite decide_True|]. rewrite HN. by iApply raws_0.
    - iIntros "HK". iApply wp_enter. iIntros (p) "%Hp Hr". iApply ("HK" with "[] Hr").
      by rewrite decide_False.
  Qed.
  Lemma wp_drop_buffer {St} ib (s : St) Q X : raws ib N ⊢ Q tt s -∗ wp (drop_buffer N ib) s Q X.
  Proof.
    unfold drop_buffer. destruct (Nat.eqb_spec N 0) as [HN|HN].
    - iIntros "Hr HK". iApply wp_ret. rewrite HN. iDestruct "Hr" as "_". done.
    - apply wp_leave.
  Qed.

  Lemma wp_member {T} (m : loc -> M vdata T) x Q X :
    wp (m x.1) x.2 (fun a o => Q a (x.1, o)) (fun e o => X e (x.1, o)) ⊢ wp (member m) x Q X.
  Proof.
    rewrite !wp_unseal. split. intros h Hwp hf w Hwf Hd Hh. specialize (Hwp hf w Hwf Hd Hh).
    unfold member. by destruct (m x.1 x.2 w).
  Qed.
  Lemma wp_member2 {T} (m : loc -> loc -> M (vdata * vdata) T) x y Q X :
    wp (m x.1 y.1) (x.2, y.2) (fun a o => Q a ((x.1, o.1), (y.1, o.2)))
       (fun e o => X e ((x.1, o.1), (y.1, o.2))) ⊢ wp (member2 m) (x, y) Q X.
  Proof.
    rewrite !wp_unseal. split. intros h Hwp hf w Hwf Hd Hh. specialize (Hwp hf w Hwf Hd Hh).
    unfold member2. simpl. by destruct (m x.1 y.1 (x.2, y.2) w).
  Qed.

  Lemma wp_construct_small o m (Q : sobj -> unit -> hProp) (X : exn -> unit -> hProp) :
    (∀ ib, ⟦ib_ok N ib⟧ -∗ raws ib N -∗
       wp (m ib) (o ib) (fun _ d => Q (ib, d) tt) (fun e _ => raws ib N ∗ X e tt))
    ⊢ wp (construct_small N o m) tt Q X.
  Proof.
    iIntros "HK". unfold construct_small. wbind. iApply wp_buffer. iIntros (ib) "%Hib Hr". wbeta.
    iApply wp_try. iDestruct ("HK" $! ib with "[//] Hr") as "HK".
    iAssert (wp (m ib) (o ib) (fun _ d => Q (ib, d) tt)
               (fun e _ => wp (drop_buffer N ib) tt (fun _ s => X e s) X))%I with "[HK]" as "HK".
    { iApply (wp_wand with "HK"). iSplit; [by iIntros (??) "$"|].
      iIntros (e d) "[Hr HX]". by iApply (wp_drop_buffer with "Hr"). }
    iStopProof. rewrite !wp_unseal. split. intros h Hwp hf w Hwf Hd Hh. specialize (Hwp hf w Hwf Hd Hh).
    by destruct (m ib (o ib) w).
  Qed.
  Lemma wp_construct_small_from o m (y : sobj) (Q : sobj -> sobj -> hProp) (X : exn -> sobj -> hProp) :
    (∀ ib, ⟦ib_ok N ib⟧ -∗ raws ib N -∗
       wp (m ib y.1) (o ib, y.2) (fun _ d => Q (ib, d.1) (y.1, d.2))
         (fun e d => raws ib N ∗ X e (y.1, d.2)))
    ⊢ wp (construct_small_from N o m) y Q X.
  Proof.
    iIntros "HK". unfold construct_small_from. wbind. iApply wp_buffer. iIntros (ib) "%Hib Hr". wbeta.
    iApply wp_try. iDestruct ("HK" $! ib with "[//] Hr") as "HK".
    iAssert (wp (m ib y.1) (o ib, y.2) (fun _ d => Q (ib, d.1) (y.1, d.2))
               (fun e d => wp (drop_buffer N ib) (y.1, d.2) (fun _ s => X e s) X))%I with "[HK]" as "HK".
    { iApply (wp_wand with "HK"). iSplit; [by iIntros (??) "$"|].
      iIntros (e d) "[Hr HX]". by iApply (wp_drop_buffer with "Hr"). }
    iStopProof. rewrite !wp_unseal. split. intros h Hwp hf w Hwf Hd Hh. specialize (Hwp hf w Hwf Hd Hh).
    by destruct (m ib y.1 (o ib, y.2) w).
  Qed.
  Lemma wp_kill_small m x Q X :
    wp (m x.1) x.2 (fun _ d => raws x.1 N ∗ Q tt (x.1, d)) (fun e d => X e (x.1, d))
    ⊢ wp (kill_small N m) x Q X.
  Proof.
    iIntros "HK". unfold kill_small. wbind. iApply wp_member. iApply (wp_wand with "HK"). iSplit.
    - iIntros (a d) "[Hr HQ]". wbind. iApply wp_get. simpl. by iApply (wp_drop_buffer with "Hr").
    - by iIntros (e d) "$".
  Qed.
End lift.

Section small_ok.
  Context `{E : Env}.
  Variable N : nat.
  Context (HN : fits N).
  Notation NZ := (Z.of_nat N).
  Notation sat ib := (Grow.vec_at (small_storage N ib) (small_ok N ib)).
  Notation svinv ib := (SeqProofs.vinv (small_storage N ib) (small_ok N ib)).

  Definition sinv (x : sobj) (A : sabs) : hProp := (⟦x.1 = A.1⟧ ∗ svinv A.1 x.2 A.2)%I.

  Lemma sinv_open x A :
    sinv x A ⊢ ∃ ib a f l cap,
      ⟦A = (ib, VAbs a f l cap) /\ x = (ib, vobj a f (length l) cap)⟧ ∗ sat ib a f l cap.
  Proof.
    destruct A as [ib [a f l cap]], x as [ib' x]. iIntros "[%Hib [%Hx Hv]]". simpl in *.
    iExists ib, a, f, l, cap. iFrame. by rewrite Hib Hx.
  Qed.
  Lemma sinv_intro ib a f l cap n :
    n = length l -> sat ib a f l cap ⊢ sinv (ib, vobj a f n cap) (ib, VAbs a f l cap).
  Proof. iIntros (->) "Hv". iSplit; [done|]. by iSplit. Qed.
  Lemma svinv_sinv ib x A : svinv ib x A ⊢ sinv (ib, x) (ib, A).
  Proof. iIntros "Hv". by iSplit. Qed.

  Lemma small_build_ok c :
    ⊢ wp (build (small_vector N) c) tt (fun x _ => ∃ A : sabs, ⟦k_post NZ c A.2⟧ ∗ sinv x A)%I
         (fun e _ => ⟦k_exn (k_elems c) e⟧)%I.
  Proof.
    iApply wp_construct_small. iIntros (ib) "%Hib Hr". rewrite small_empty_vobj.
    iApply (wp_wand with "[Hr]").
    { iApply (wp_ctor _ _ _ _ (small_special_ok N ib) c ib). by iApply small_at_base. }
    iSplit.
    - iIntros (r x) "Hx". iDestruct "Hx" as (A) "[%Hp Hx]". iExists (ib, A).
      iSplit; [done|]. by iApply svinv_sinv.
    - iIntros (e x) "[%He [_ $]]". done.
  Qed.

  Lemma taken_made ib1 ib2 a1 a2 f2 c2 l2 f' c' f2' l2' c2' :
    taken N ib1 ib2 (bool_decide (a1 = a2)) f2 c2 l2 f' c' f2' l2' c2' ->
    (c2 = NZ \/ a1 <> a2 -> c' = Z.max NZ (Z.of_nat (length l2))) ->
    move_made N a1 (VAbs a2 f2 l2 c2) (VAbs a1 f' l2 c') (VAbs a2 f2' l2' c2').
  Proof.
    intros Ht Hc. unfold taken, move_made, handed_over, inside, moved_each, same_storage, room_for, empty_like in *.
    simpl in *.
    destruct (handed_over_dec N a1 (VAbs a2 f2 l2 c2)) as [[H1 H2]|Hh];
      unfold handed_over, inside in *; simpl in *.
    - rewrite decide_False // bool_decide_eq_true_2 // in Ht. destruct Ht as (-> & -> & -> & -> & ->).
      by rewrite H2.
    - assert (f2' = f2 /\ c2' = c2 /\ l2' = vmoved <$> l2) as (-> & -> & ->).
      { destruct (decide (c2 = NZ)); [done|]. case_bool_decide; [|done]. tauto. }
      split_and!; try done. apply Hc. destruct (decide (c2 = NZ)); [by left|]. right. tauto.
  Qed.

  Lemma small_move_made c ib1 ib2 a1 a2 f2 l2 c2 :
    c = FromMove /\ a1 = a2 \/ c = FromMoveAlloc a1 ->
    ib_ok N ib1 ->
    raws ib1 N ⊢ sat ib2 a2 f2 l2 c2 -∗
    wp (small_initialize_move N ib1 ib2) (small_empty N ib1 a1, vobj a2 f2 (length l2) c2)
      (fun _ d => ∃ (A B' : sabs), ⟦B'.1 = ib2 /\ small_k2_post N c (VAbs a2 f2 l2 c2) A.2 B'.2⟧ ∗
                  sinv (ib1, d.1) A ∗ sinv (ib2, d.2) B')%I
      (fun e d => raws ib1 N ∗ ∃ B' : sabs, ⟦B'.1 = ib2 /\ small_k2_exn N c (VAbs a2 f2 l2 c2) e B'.2⟧ ∗
                  sinv (ib2, d.2) B')%I.
  Proof.
    iIntros (Hc Hib) "Hr Hv". iApply (wp_small_init_move with "Hr Hv"); [done|]. iSplit.
    - iIntros (f' c' f2' l2' c2') "%Ht Hx Hy". destruct Ht as [Ht Hc'].
      iExists (ib1, VAbs a1 f' l2 c'), (ib2, VAbs a2 f2' l2' c2').
      iSplit; [|iSplitL "Hx"; by iApply sinv_intro]. iPureIntro. split; [done|]. split; [done|].
      pose proof (taken_made _ _ _ _ _ _ _ _ _ _ _ _ Ht Hc') as Hm.
      destruct Hc as [[-> ->]| ->]; exact Hm.
    - iIntros (e s1 l2') "%He Hr Hy". iFrame "Hr". iExists (ib2, VAbs a2 f2 l2' c2).
      iSplit; [|by iApply sinv_intro]. iPureIntro. split; [done|].
      destruct He as (He & Hw & Hl & Hx). split; [by apply ctor_exn|].
      assert (move_failed N a1 (VAbs a2 f2 l2 c2) e (VAbs a2 f2 l2' c2)) as Hf.
      { unfold move_failed, handed_over, inside. simpl. split_and!; try done; [tauto| |tauto].
        intros Hu. by rewrite Hx. }
      destruct Hc as [[-> ->]| ->]; exact Hf.
  Qed.

  Lemma small_copy_made c ib1 ib2 a1 a2 f2 l2 c2 :
    c = FromCopy /\ a1 = soccc a2 \/ c = FromCopyAlloc a1 ->
    ib_ok N ib1 ->
    raws ib1 N ⊢ sat ib2 a2 f2 l2 c2 -∗
    wp (small_initialize_copy N ib1) (small_empty N ib1 a1, vobj a2 f2 (length l2) c2)
      (fun _ d => ∃ (A B' : sabs), ⟦B'.1 = ib2 /\ small_k2_post N c (VAbs a2 f2 l2 c2) A.2 B'.2⟧ ∗
                  sinv (ib1, d.1) A ∗ sinv (ib2, d.2) B')%I
      (fun e d => raws ib1 N ∗ ∃ B' : sabs, ⟦B'.1 = ib2 /\ small_k2_exn N c (VAbs a2 f2 l2 c2) e B'.2⟧ ∗
                  sinv (ib2, d.2) B')%I.
  Proof.
    iIntros (Hc Hib) "Hr Hv". iApply (wp_small_init_copy with "Hr Hv"); [done|]. iSplit.
    - iIntros (f') "Hx Hy". iExists (ib1, VAbs a1 f' l2 _), (ib2, VAbs a2 f2 l2 c2).
      iSplit; [|iSplitL "Hx"; by iApply sinv_intro]. iPureIntro. split; [done|]. split; [done|].
      destruct Hc as [[-> ->]| ->]; done.
    - iIntros (e s1) "%He Hr Hy". iFrame "Hr". iExists (ib2, VAbs a2 f2 l2 c2).
      iSplit; [|by iApply sinv_intro]. iPureIntro. split; [done|].
      split; [by apply ctor_exn|]. destruct Hc as [[-> ->]| ->]; done.
  Qed.

  Lemma small_build2_ok c x (A : sabs) :
    sinv x A ⊢ wp (build2 (small_vector N) c) x
      (fun y x' => ∃ B A' : sabs, ⟦A'.1 = A.1 /\ small_k2_post N c A.2 B.2 A'.2⟧ ∗ sinv y B ∗ sinv x' A')%I
      (fun e x' => ∃ A' : sabs, ⟦A'.1 = A.1 /\ small_k2_exn N c A.2 e A'.2⟧ ∗ sinv x' A')%I.
  Proof.
    iIntros "Hx". iDestruct (sinv_open with "Hx") as (ib a f l cap) "[%Hx Hv]". destruct Hx as [-> ->].
    iApply wp_construct_small_from. iIntros (ib1) "%Hib Hr". cbn [fst snd].
    destruct c as [|a'| |a']; simpl;
      (wbind; iApply wp_get; cbn [fst snd]; wbind; iApply wp_put; wbeta).
    - iApply (small_copy_made with "Hr Hv"); [by left|done].
    - iApply (small_copy_made with "Hr Hv"); [by right|done].
    - iApply (small_move_made with "Hr Hv"); [by left|done].
    - iApply (small_move_made with "Hr Hv"); [by right|done].
  Qed.

  Lemma small_run2_ok o x (A : sabs) y (B : sabs) :
    small_pre2 N o A.2 B.2 ->
    sinv x A ∗ sinv y B ⊢ wp (small_run2 N o) (x, y)
      (fun r xy => ∃ A' B' : sabs, ⟦A'.1 = A.1 /\ B'.1 = B.1 /\ small_post2 N o A.2 B.2 r A'.2 B'.2⟧ ∗
                   sinv xy.1 A' ∗ sinv xy.2 B')%I
      (fun e xy => ∃ A' B' : sabs, ⟦A'.1 = A.1 /\ B'.1 = B.1 /\ small_exn2 N o A.2 B.2 e A'.2 B'.2⟧ ∗
                   sinv xy.1 A' ∗ sinv xy.2 B')%I.
  Proof.
    iIntros (Hpre) "[Hx Hy]".
    iDestruct (sinv_open with "Hx") as (ib1 a1 f1 l1 c1) "[%Hx Hx]". destruct Hx as [-> ->].
    iDestruct (sinv_open with "Hy") as (ib2 a2 f2 l2 c2) "[%Hy Hy]". destruct Hy as [-> ->].
    destruct o as [| | |r|lt]; cbn [small_run2]; unfold unit_result, bool_result; wbind; iApply wp_member2; cbn [fst snd].
    - iApply (wp_small_assign_copy with "Hx Hy"). iSplit.
      + iIntros (f1' c1') "%Hk Hx Hy". iApply wp_ret. iExists (ib1, VAbs _ _ _ _), (ib2, VAbs _ _ _ _).
        iSplit; [|iSplitL "Hx"; by iApply sinv_intro]. iPureIntro. by split_and!.
      + iIntros (e f1' l1' c1') "%He Hx Hy". iExists (ib1, VAbs _ _ _ _), (ib2, VAbs _ _ _ _).
        iSplit; [|iSplitL "Hx"; by iApply sinv_intro]. iPureIntro.
        by split_and!.
    - iApply (wp_small_assign_move with "Hx Hy"). iSplit.
      + iIntros (f1' c1' f2' l2' c2') "%Hk Hx Hy". iApply wp_ret. destruct Hk as [Ht Hk].
        iExists (ib1, VAbs _ _ _ _), (ib2, VAbs _ _ _ _).
        iSplit; [|iSplitL "Hx"; by iApply sinv_intro]. iPureIntro.
        split; [done|]. split; [done|]. split; [done|]. unfold move_alloc. cbn [q_alloc snd].
        fold (ma_alloc a1 a2). unfold taken in Ht.
        destruct (handed_over_dec N (ma_alloc a1 a2) (VAbs a2 f2 l2 c2)) as [[H1 H2]|Hh];
          unfold handed_over, inside in *; cbn [q_cap q_alloc] in *.
        * rewrite decide_False // bool_decide_eq_true_2 // in Ht. destruct Ht as (-> & -> & -> & -> & ->).
          by rewrite H2.
        * assert (f2' = f2 /\ c2' = c2 /\ l2' = vmoved <$> l2) as (-> & -> & ->).
          { destruct (decide (c2 = NZ)); [done|]. case_bool_decide; [|done]. tauto. }
          split_and!; try done. apply Hk. destruct (decide (c2 = NZ)); [by left|]. right. tauto.
      + iIntros (e f1' l1' c1' l2') "%He Hx Hy". destruct He as (He & Ha & Hl).
        iExists (ib1, VAbs _ f1' l1' c1'), (ib2, VAbs a2 f2 l2' c2).
        iSplit; [|iSplitL "Hx"; by iApply sinv_intro]. iPureIntro.
        split; [done|]. split; [done|]. split; [done|]. split; [|done]. unfold handed_over, inside, move_alloc. cbn [q_cap q_alloc snd].
        intros [Hh1 Hh2]. unfold ma_alloc in Ha. by destruct Ha.
    - iApply (wp_small_swap with "Hx Hy"); [exact Hpre|]. iSplit.
      + iIntros (f1' f2') "%Hk Hx Hy". iApply wp_ret. iExists (ib1, VAbs _ _ _ _), (ib2, VAbs _ _ _ _).
        iSplit; [|iSplitL "Hx"; by iApply sinv_intro]. iPureIntro. destruct Hk. by split_and!.
      + iIntros (l1' l2') "%Hk Hx Hy". iExists (ib1, VAbs a2 f1 l1' c1), (ib2, VAbs a1 f2 l2' c2).
        iSplit; [|iSplitL "Hx"; by iApply sinv_intro]. iPureIntro. destruct Hk as (? & ? & ?). by split_and!.
    - iDestruct (vec_at_body with "Hx") as "[Hb1 Hx]". iDestruct (vec_at_body with "Hy") as "[Hb2 Hy]".
      iApply (wp_eq with "Hb1 Hb2"). iSplit.
      + iIntros (b) "%Hb Hb1 Hb2". iDestruct ("Hx" with "Hb1") as "Hx". iDestruct ("Hy" with "Hb2") as "Hy".
        iApply wp_ret. iExists (ib1, VAbs _ _ _ _), (ib2, VAbs _ _ _ _).
        iSplit; [|iSplitL "Hx"; by iApply sinv_intro]. iPureIntro. split; [done|]. split; [done|]. split; [done|]. split; [done|]. exists b. split; [done|exact Hb].
      + iIntros "Hb1 Hb2". iDestruct ("Hx" with "Hb1") as "Hx". iDestruct ("Hy" with "Hb2") as "Hy".
        iExists (ib1, VAbs _ _ _ _), (ib2, VAbs _ _ _ _). iSplit; [|iSplitL "Hx"; by iApply sinv_intro]. done.
    - iDestruct (vec_at_body with "Hx") as "[Hb1 Hx]". iDestruct (vec_at_body with "Hy") as "[Hb2 Hy]".
      iApply (wp_lt with "Hb1 Hb2"). iSplit.
      + iIntros (b) "%Hb Hb1 Hb2". iDestruct ("Hx" with "Hb1") as "Hx". iDestruct ("Hy" with "Hb2") as "Hy".
        iApply wp_ret. iExists (ib1, VAbs _ _ _ _), (ib2, VAbs _ _ _ _).
        iSplit; [|iSplitL "Hx"; by iApply sinv_intro]. iPureIntro. split; [done|]. split; [done|]. split; [done|]. split; [done|]. exists b. split; [done|exact Hb].
      + iIntros "Hb1 Hb2". iDestruct ("Hx" with "Hb1") as "Hx". iDestruct ("Hy" with "Hb2") as "Hy".
        iExists (ib1, VAbs _ _ _ _), (ib2, VAbs _ _ _ _). iSplit; [|iSplitL "Hx"; by iApply sinv_intro]. done.
  Qed.

  Lemma small_run1_ok o x (A : sabs) :
    seq_pre o (length (q_elems A.2)) = true ->
    sinv x A ⊢ wp (run1 (small_vector N) o) x
      (fun r x' => ∃ A' : sabs,
         ⟦A'.1 = A.1 /\ seq_post NZ o (q_elems A.2) r (q_elems A'.2) /\ q_alloc A'.2 = q_alloc A.2 /\
          seq_storage NZ o A.2 A'.2 /\ (o = OCapacity -> r = RNum (q_cap A.2))⟧ ∗ sinv x' A')%I
      (fun e x' => ∃ A' : sabs, ⟦A'.1 = A.1 /\ seq_exn NZ o A.2 e A'.2⟧ ∗ sinv x' A')%I.
  Proof.
    iIntros (Hpre) "Hx". iDestruct (sinv_open with "Hx") as (ib a f l cap) "[%Hx Hv]".
    destruct Hx as [-> ->]. iApply wp_member. cbn [fst snd].
    iApply (wp_wand with "[Hv]"); [iApply (wp_vop _ _ _ _ (small_special_ok N ib) o with "Hv"); done|].
    iSplit.
    - iIntros (r x') "Hx". iDestruct "Hx" as (A') "[%Hp Hx]". iExists (ib, A'). iSplit; [done|].
      by iApply svinv_sinv.
    - iIntros (r x') "Hx". iDestruct "Hx" as (A') "[%Hp Hx]". iExists (ib, A'). iSplit; [done|].
      by iApply svinv_sinv.
  Qed.

  Lemma hold_lift (P : hProp) (φ : Prop) h : P h -> (P ⊢ ⟦φ⟧ ∗ P) -> φ.
  Proof. intros HP [HL]. specialize (HL h HP). by apply pure_holds in HL as [? _]. Qed.

  Lemma sinv_view x A h :
    sinv x A h -> exists ib a f l cap,
      A = (ib, VAbs a f l cap) /\ x = (ib, vobj a f (length l) cap) /\ (is_internal x = true <-> cap = NZ).
  Proof.
    intros Hx. destruct (sinv_open x A) as [Ho]. specialize (Ho h Hx).
    destruct Ho as (ib & a & f & l & cap & Ho). apply pure_holds in Ho as [[-> ->] Hv].
    exists ib, a, f, l, cap. split_and!; try done.
    apply (hold_lift _ (ib_ok N ib /\ (f = ib <-> cap = NZ))) in Hv as [_ <-]; [|apply sat_base].
    unfold is_internal. simpl. apply loc_eqb_true.
  Qed.

  Program Definition small_vector_ok : container_ok (small_spec N) :=
    {| inv := sinv : obj (small_vector N) -> abs (small_spec N) -> hProp |}.
  Next Obligation. done. Qed.
  Next Obligation. done. Qed.
  Next Obligation.
    intros o x A h Hi. apply sinv_view in Hi as (ib & a & f & l & cap & -> & -> & _).
    simpl. by rewrite osize_vobj.
  Qed.
  Next Obligation.
    intros o x A y B h h' Hx Hy. apply sinv_view in Hx as (ib & a & f & l & cap & -> & -> & Hi).
    apply sinv_view in Hy as (ib' & a' & f' & l' & cap' & -> & -> & Hi').
    destruct o; simpl; try done. unfold inside. cbn [q_cap].
    rewrite -Hi -Hi' orb_true_iff andb_true_iff orb_true_iff Nat.eqb_eq eqb_true_iff.
    destruct (is_internal _), (is_internal _); naive_solver.
  Qed.
  Next Obligation. intros c _. apply small_build_ok. Qed.
  Next Obligation. intros c x A _. apply small_build2_ok. Qed.
  Next Obligation. intros o x A Hpre. by apply small_run1_ok. Qed.
  Next Obligation. intros o x A y B Hpre. by apply small_run2_ok. Qed.
  Next Obligation.
    intros x A. iIntros "Hx". iDestruct (sinv_open with "Hx") as (ib a f l cap) "[%Hx Hv]".
    destruct Hx as [-> ->]. iApply wp_kill_small. cbn [fst snd]. iApply (wp_destructor with "Hv").
    iIntros "[_ $]".
  Qed.
End small_ok.
