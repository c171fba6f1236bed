(** * The unordered flat containers meet their specifications *)

From Coq Require Import ZifyBool.
From Verif Require Export UnordClient UnordRun UnordEq StaticOk SmallOk.
From iris.proofmode Require Import tactics.
Open Scope Z_scope.

Section unord_ok.
  Context `{KD : Keyed}.
  Variable N : nat.
  Variable kd : fkind.
  Notation NZ := (Z.of_nat N).

  Lemma all_uctor eager c vs l :
    (length (@nil V) <= length l <= length (@nil V) + length vs)%nat ->
    ((eager = true -> multi kd = false -> self_equal c) -> uinserted_all kd c vs [] l) ->
    forall a, uctor_post kd eager (NewRange c a vs) l.
  Proof. intros Hl Hs a. split; [cbn in *; lia|]. done. Qed.
  Lemma empty_uctor eager c a : uctor_post kd eager (NewEmpty c a) [].
  Proof. split; done. Qed.

  (** ** static *)
  Lemma uneed_fits o (l : list V) :
    unord_pre kd (fun n => length l + n <=? N)%nat (fun n => n <=? N)%nat o (length l) = true ->
    (length l <= N)%nat -> (unord_need o l <= N)%nat.
  Proof.
    intros Hpre Hl. destruct o; cbn in *; rewrite ?andb_true_iff in Hpre; destruct_and?; lia.
  Qed.

  Lemma static_bag_run2_ok (o : vop2) (x : sobj) (A : tabs) (y : sobj) (B : tabs) :
    keeps_eq o = true ->
    tinv N x A ∗ tinv N y B ⊢ wp (static_bag_run2 N o) (x, y)
      (fun r xy => ∃ A' B' : tabs,
         ⟦match o with PEq e => A' = A /\ B' = B /\ bag_eq e A.2 B.2 r | _ => static_post2 o A B r A' B' end⟧ ∗
         tinv N xy.1 A' ∗ tinv N xy.2 B')%I
      (fun e xy => ∃ A' B' : tabs, ⟦static_exn2 o A B e A' B'⟧ ∗ tinv N xy.1 A' ∗ tinv N xy.2 B')%I.
  Proof.
    destruct o as [| | |r|lt]; cbn [keeps_eq static_bag_run2]; intros Ho;
      [exact (ok_run2 _ (static_vector_ok N) PCopy x A y B I)
      |exact (ok_run2 _ (static_vector_ok N) PMove x A y B I)
      |exact (ok_run2 _ (static_vector_ok N) PSwap x A y B I)| |done].
    destruct A as [ib1 l1], B as [ib2 l2].
    iIntros "[[%Hx H1] [%Hy H2]]". destruct Hx as [Hib1 ->], Hy as [Hib2 ->]. cbn [fst snd] in *.
    iDestruct (body_len with "H1") as "[%Hlen1 H1]". iDestruct (body_len with "H2") as "[%Hlen2 H2]".
    unfold bool_result. wbind. iApply wp_member2. cbn [fst snd].
    iApply (wp_perm_eq with "H1 H2"). iSplit.
    - iIntros (b) "%Hb H1 H2". iApply wp_ret. iExists (ib1, l1), (ib2, l2).
      iSplit; [iPureIntro; split_and!; try done; by exists b|]. cbn [fst snd].
      iSplitL "H1"; [by iApply (tinv_intro with "H1")|by iApply (tinv_intro with "H2")].
    - iIntros "H1 H2". iExists (ib1, l1), (ib2, l2). iSplit; [done|]. cbn [fst snd].
      iSplitL "H1"; [by iApply (tinv_intro with "H1")|by iApply (tinv_intro with "H2")].
  Qed.
  Lemma static_bag_guard (o : vop2) (x : sobj) (a : tabs) (y : sobj) (b : tabs) (h h' : gmap loc cell) :
    tinv N x a h -> tinv N y b h' -> keeps_eq o = true <-> keeps_eq o = true.
  Proof. done. Qed.
  Definition static_bag_ok : container_ok (static_bag_spec N) :=
    rebuilt_ok (static_vector N) _ _ (static_spec N) _ _ (static_vector_ok N)
      static_bag_guard static_bag_run2_ok.

  Lemma static_urun_ok c o (x : sobj) (A : tabs) :
    unord_pre kd (fun n => length A.2 + n <=? N)%nat (fun n => n <=? N)%nat o (length A.2) = true ->
    tinv N x A ⊢ wp (member (fun _ => static_unord_run N kd c o)) x
      (fun r x' => ∃ A' : tabs, ⟦A'.1 = A.1 /\ unord_post kd true true c o A.2 r A'.2⟧ ∗ tinv N x' A')%I
      (fun e x' => ∃ A' : tabs, ⟦A'.1 = A.1 /\ unord_exn kd true true c false true o A.2 e A'.2⟧ ∗ tinv N x' A')%I.
  Proof.
    destruct A as [ib l]. cbn [fst snd]. iIntros (Hpre) "[%Hx Hb]". destruct Hx as [Hib ->]. cbn [fst snd] in *.
    iDestruct (body_len with "Hb") as "[%Hlen Hb]".
    pose proof (uneed_fits o l Hpre ltac:(lia)) as Hneed.
    iApply wp_member. cbn [fst snd].
    iApply (run_unord_ok c kd _ _ _ _ true _ _ true _ (static_exact_ok N (multi kd)) (static_back_ok N) _
      (ustatic_list_ok c kd N) o 0%nat ib l NZ with "[Hb]"); [exact Hpre| |].
    { unfold static_fv. by iFrame. }
    iSplit.
    - iIntros (r f' cap' l') "%Hp [%Hf Hb]". destruct Hp as [Hp [Hst _]]. destruct Hf as (_ & _ & ->).
      destruct (Hst ltac:(lia)) as [-> _]. iExists (ib, l'). iSplit; [done|]. by iApply tinv_intro.
    - iIntros (e f' cap' l') "%Hp [%Hf Hb]". destruct Hp as [Hp [Hst _]]. destruct Hf as (_ & _ & ->).
      destruct (Hst ltac:(lia)) as [-> _]. iExists (ib, l'). iSplit; [done|]. by iApply tinv_intro.
  Qed.

  Lemma static_ubuild_ok (k : fctor) :
    (length (fc_vals k) <= N)%nat ->
    ⊢ wp (construct_small N (static_empty N) (fun _ => static_unord_init N kd k)) tt
      (fun x _ => ∃ A : tabs, ⟦uctor_post kd true k A.2⟧ ∗ tinv N x A)%I (fun e _ => ⟦e = EUser⟧)%I.
  Proof.
    iIntros (Hk). iApply wp_construct_small. iIntros (ib) "%Hib Hr". rewrite static_empty_vobj.
    iDestruct (fresh_body with "Hr") as "Hb".
    destruct k as [c a|c a vs]; cbn [static_unord_init fc_vals] in *.
    - iApply wp_ret. iExists (ib, []). iSplit; [iPureIntro; apply empty_uctor|]. by iApply tinv_intro.
    - iApply wp_try. iApply (wp_uemplace_loop c kd _ _ _ _ _ _ _ _ (static_exact_ok N (multi kd)) (static_back_ok N)
        vs 0%nat ib [] NZ with "[Hb]"); [cbn; lia|by unfold static_fv; iFrame|]. iSplit.
      + iIntros (f' cap' l') "%Hx [%Hf Hb]". destruct Hx as (H1 & [Hst _] & H3). destruct Hf as (_ & _ & ->).
        destruct Hst as [-> _]; [cbn; lia|]. iExists (ib, l'). iSplit; [|by iApply tinv_intro].
        iPureIntro. by apply all_uctor.
      + iIntros (e f' cap' l') "%Hx [%Hf Hb]". destruct Hx as (H1 & [Hst _] & _ & H3). destruct Hf as (_ & _ & ->).
        destruct Hst as [-> _]; [cbn; lia|].
        iApply (wp_static_destructor with "Hb"). iIntros "Hb".
        iSplitL.
        * iExact "Hb".
        * iPureIntro. destruct H3 as [|[_ H3]]; done.
  Qed.

  Lemma static_unord_wrap_ok : wrap_ok (static_unord_code N kd) (static_unord_wspec N kd) static_bag_ok.
  Proof.
    split.
    - intros k. cbn. apply Nat.leb_le.
    - intros o x A h Hi. apply pure_holds in Hi as [[_ ->] _]. cbn. by rewrite osize_vobj.
    - intros k Hk. by apply static_ubuild_ok.
    - intros c o x A Hpre. by apply static_urun_ok.
  Qed.
  Definition static_unord_ok : container_ok (static_unord_spec N kd) :=
    wrapped_ok (static_unord_code N kd) (static_unord_wspec N kd) static_bag_ok static_unord_wrap_ok.

  (** ** small *)
  Context (HN : fits N).

  Lemma small_bag_run2_ok (o : vop2) (x : sobj) (A : sabs) (y : sobj) (B : sabs) :
    keeps_eq o = true /\ small_pre2 N o A.2 B.2 ->
    sinv N HN x A ∗ sinv N HN y B ⊢ wp (small_bag_run2 N o) (x, y)
      (fun r xy => ∃ A' B' : sabs,
         ⟦match o with
          | PEq e => A' = A /\ B' = B /\ bag_eq e (q_elems A.2) (q_elems B.2) r
          | _ => A'.1 = A.1 /\ B'.1 = B.1 /\ small_post2 N o A.2 B.2 r A'.2 B'.2
          end⟧ ∗
         sinv N HN xy.1 A' ∗ sinv N HN xy.2 B')%I
      (fun e xy => ∃ A' B' : sabs, ⟦A'.1 = A.1 /\ B'.1 = B.1 /\ small_exn2 N o A.2 B.2 e A'.2 B'.2⟧ ∗
         sinv N HN xy.1 A' ∗ sinv N HN xy.2 B')%I.
  Proof.
    intros [Ho Hpre]. destruct o as [| | |r|lt]; cbn [keeps_eq small_bag_run2] in *;
      [exact (ok_run2 _ (small_vector_ok N HN) PCopy x A y B Hpre)
      |exact (ok_run2 _ (small_vector_ok N HN) PMove x A y B Hpre)
      |exact (ok_run2 _ (small_vector_ok N HN) PSwap x A y B Hpre)| |done].
    iIntros "[Hx Hy]".
    iDestruct (sinv_open with "Hx") as (ib1 a1 f1 l1 c1) "[%Hx Hx]". destruct Hx as [-> ->].
    iDestruct (sinv_open with "Hy") as (ib2 a2 f2 l2 c2) "[%Hy Hy]". destruct Hy as [-> ->].
    unfold bool_result. wbind. iApply wp_member2. cbn [fst snd].
    iDestruct (vec_at_body with "Hx") as "[Hb1 Hx]". iDestruct (vec_at_body with "Hy") as "[Hb2 Hy]".
    iApply (wp_perm_eq with "Hb1 Hb2"). iSplit.
    - iIntros (b) "%Hb Hb1 Hb2". iDestruct ("Hx" with "Hb1") as "Hx". iDestruct ("Hy" with "Hb2") as "Hy".
      iApply wp_ret. iExists (ib1, VAbs _ _ _ _), (ib2, VAbs _ _ _ _).
      iSplit; [|iSplitL "Hx"; by iApply sinv_intro]. iPureIntro. split; [done|]. split; [done|]. exists b. split; [done|exact Hb].
    - iIntros "Hb1 Hb2". iDestruct ("Hx" with "Hb1") as "Hx". iDestruct ("Hy" with "Hb2") as "Hy".
      iExists (ib1, VAbs _ _ _ _), (ib2, VAbs _ _ _ _). iSplit; [|iSplitL "Hx"; by iApply sinv_intro]. done.
  Qed.
  Lemma small_bag_guard (o : vop2) (x : sobj) (a : sabs) (y : sobj) (b : sabs) (h h' : gmap loc cell) :
    sinv N HN x a h -> sinv N HN y b h' ->
    keeps_eq o && guard2 (small_vector N) o x y = true <-> keeps_eq o = true /\ small_pre2 N o a.2 b.2.
  Proof.
    intros H1 H2. rewrite andb_true_iff.
    by rewrite (guard2_ok _ (small_vector_ok N HN) o x a y b h h' H1 H2).
  Qed.
  Definition small_bag_ok : container_ok (small_bag_spec N) :=
    rebuilt_ok (small_vector N) _ _ (small_spec N) _ _ (small_vector_ok N HN)
      small_bag_guard small_bag_run2_ok.

  Lemma small_urun_ok c o (x : sobj) (A : sabs) :
    unord_pre kd (fun _ => true) (fun _ => true) o (length (q_elems A.2)) = true ->
    sinv N HN x A ⊢ wp (member (fun ib => small_unord_run N kd ib c o)) x
      (fun r x' => ∃ A' : sabs, ⟦A'.1 = A.1 /\
         unord_post kd false (is_map kd) c o (q_elems A.2) r (q_elems A'.2) /\
         storage_stays (unord_need o (q_elems A.2)) A.2 A'.2⟧ ∗ sinv N HN x' A')%I
      (fun e x' => ∃ A' : sabs, ⟦A'.1 = A.1 /\
         unord_exn kd false (is_map kd) c true (nothrow_move || copyable) o (q_elems A.2) e (q_elems A'.2) /\
         storage_stays (unord_need o (q_elems A.2)) A.2 A'.2⟧ ∗ sinv N HN x' A')%I.
  Proof.
    iIntros (Hpre) "Hx". iDestruct (sinv_open with "Hx") as (ib a f l cap) "[%Hx Hv]".
    destruct Hx as [-> ->]. cbn [fst snd q_elems] in *.
    iApply wp_member. cbn [fst snd].
    iApply (run_unord_ok c kd _ _ _ _ false _ _ (is_map kd) _
      (small_exact_ok (small_storage N ib) (small_ok N ib) (multi kd))
      (small_back_ok (small_storage N ib) (small_ok N ib)) _
      (uclear_insert_ok c kd _ _ _ _ _ _ _ (small_exact_ok (small_storage N ib) (small_ok N ib) (multi kd))
         (small_back_ok (small_storage N ib) (small_ok N ib))) o
      a f l cap with "Hv"); [exact Hpre|].
    iSplit.
    - iIntros (r f' cap' l') "%Hp Hv". destruct Hp as [Hp [Hst _]]. iExists (ib, VAbs a f' l' cap').
      iSplit; [done|]. by iApply sinv_intro.
    - iIntros (e f' cap' l') "%Hp Hv". destruct Hp as [Hp [Hst _]]. iExists (ib, VAbs a f' l' cap').
      iSplit; [done|]. by iApply sinv_intro.
  Qed.

  Lemma small_ubuild_ok (k : fctor) :
    ⊢ wp (construct_small N (fun ib => small_empty N ib (fc_alloc k)) (fun ib => small_unord_init N kd ib k)) tt
      (fun x _ => ∃ A : sabs, ⟦uctor_post kd false k (q_elems A.2) /\ q_alloc A.2 = fc_alloc k⟧ ∗ sinv N HN x A)%I
      (fun e _ => ⟦e <> EOutOfRange⟧)%I.
  Proof.
    iApply wp_construct_small. iIntros (ib) "%Hib Hr". rewrite small_empty_vobj.
    iDestruct (small_at_base N ib (fc_alloc k) Hib with "Hr") as "Hv".
    destruct k as [c a|c a vs]; cbn [small_unord_init fc_vals fc_alloc] in *.
    - iApply wp_ret. iExists (ib, VAbs a ib [] NZ). iSplit; [iPureIntro; split; [apply empty_uctor|done]|].
      by iApply sinv_intro.
    - iApply wp_try. iApply (wp_uinsert_loop c kd _ _ _ _ _ _ _
        (small_exact_ok (small_storage N ib) (small_ok N ib) (multi kd))
        (small_back_ok (small_storage N ib) (small_ok N ib)) vs a ib [] NZ with "Hv"); [done|]. iSplit.
      + iIntros (f' cap' l') "%Hx Hv". destruct Hx as (H1 & [Hst _] & H3). iExists (ib, VAbs a f' l' cap').
        iSplit; [|by iApply sinv_intro]. iPureIntro. split; [|done]. apply all_uctor; [done|]. intros _. by apply H3.
      + iIntros (e f' cap' l') "%Hx Hv". destruct Hx as (H1 & [Hst _] & _ & H3).
        iApply (wp_destructor with "Hv"). iIntros "[_ $]". iPureIntro. unfold kind in H3. naive_solver.
  Qed.

  Lemma small_unord_wrap_ok : wrap_ok (small_unord_code N kd) (small_unord_wspec N kd) small_bag_ok.
  Proof.
    split.
    - done.
    - intros o x A h Hi. apply sinv_view in Hi as (ib & a & f & l & cap & -> & -> & _).
      cbn. by rewrite osize_vobj.
    - intros k _. by apply small_ubuild_ok.
    - intros c o x A Hpre. by apply small_urun_ok.
  Qed.
  Definition small_unord_ok : container_ok (small_unord_spec N kd) :=
    wrapped_ok (small_unord_code N kd) (small_unord_wspec N kd) small_bag_ok small_unord_wrap_ok.
End unord_ok.
