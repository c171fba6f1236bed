(** * The ordered flat containers meet their specifications *)

From Coq Require Import ZifyBool.
From Verif Require Export FlatClient FlatRun StaticOk SmallOk.
From iris.proofmode Require Import tactics.
Open Scope Z_scope.

Section flat_ok.
  Context `{KD : Keyed}.
  Variable N : nat.
  Variable kd : fkind.
  Notation NZ := (Z.of_nat N).

  Lemma all_ctor c vs l :
    (length (@nil V) <= length l <= length (@nil V) + length vs)%nat ->
    (strict_weak (less c) -> ordered kd c [] -> inserted_all kd c vs [] l) ->
    forall a, fctor_post kd (NewRange c a vs) l.
  Proof.
    intros Hl Hs a. split; [cbn in *; lia|]. intros Hr. apply Hs; [done|apply ordered_nil].
  Qed.
  Lemma empty_ctor c a : fctor_post kd (NewEmpty c a) [].
  Proof. split; [done|]. done. Qed.

  (** ** static *)
  Lemma need_fits o (l : list V) :
    flat_pre kd (fun n => length l + n <=? N)%nat (fun n => n <=? N)%nat o (length l) = true ->
    (length l <= N)%nat -> (flat_need o l <= N)%nat.
  Proof.
    intros Hpre Hl. destruct o; cbn in *; rewrite ?andb_true_iff in Hpre; destruct_and?; lia.
  Qed.

  Lemma static_run_ok c o (x : sobj) (A : tabs) :
    flat_pre kd (fun n => length A.2 + n <=? N)%nat (fun n => n <=? N)%nat o (length A.2) = true ->
    tinv N x A ⊢ wp (member (fun _ => static_flat_run N kd c o)) x
      (fun r x' => ∃ A' : tabs, ⟦A'.1 = A.1 /\ flat_post kd c true o A.2 r A'.2⟧ ∗ tinv N x' A')%I
      (fun e x' => ∃ A' : tabs, ⟦A'.1 = A.1 /\ flat_exn kd c true false true o A.2 e A'.2⟧ ∗ tinv N x' A')%I.
  Proof.
    destruct A as [ib l]. cbn [fst snd]. iIntros (Hpre) "[%Hx Hb]". destruct Hx as [Hib ->]. cbn [fst snd] in *.
    iDestruct (body_len with "Hb") as "[%Hlen Hb]".
    pose proof (need_fits o l Hpre ltac:(lia)) as Hneed.
    iApply wp_member. cbn [fst snd].
    iApply (run_flat_ok c kd _ _ _ true _ _ _ (static_exact_ok N (multi kd)) _ (static_list_ok c kd N) o
      0%nat ib l NZ with "[Hb]"); [exact Hpre| |].
    { unfold static_fv. by iFrame. }
    iSplit.
    - iIntros (r f' cap' l') "%Hp [%Hf Hb]". destruct Hp as [Hp [Hst _]]. destruct Hf as (_ & _ & ->).
      destruct (Hst ltac:(lia)) as [-> _]. iExists (ib, l'). iSplit; [done|]. by iApply tinv_intro.
    - iIntros (e f' cap' l') "%Hp [%Hf Hb]". destruct Hp as [Hp [Hst _]]. destruct Hf as (_ & _ & ->).
      destruct (Hst ltac:(lia)) as [-> _]. iExists (ib, l'). iSplit; [done|]. by iApply tinv_intro.
  Qed.

  Lemma static_build_ok' (k : fctor) :
    (length (fc_vals k) <= N)%nat ->
    ⊢ wp (construct_small N (static_empty N) (fun _ => static_flat_init N kd k)) tt
      (fun x _ => ∃ A : tabs, ⟦fctor_post kd k A.2⟧ ∗ tinv N x A)%I (fun e _ => ⟦e = EUser⟧)%I.
  Proof.
    iIntros (Hk). iApply wp_construct_small. iIntros (ib) "%Hib Hr". rewrite static_empty_vobj.
    iDestruct (fresh_body with "Hr") as "Hb".
    destruct k as [c a|c a vs]; cbn [static_flat_init fc_vals] in *.
    - iApply wp_ret. iExists (ib, []). iSplit; [iPureIntro; apply empty_ctor|]. by iApply tinv_intro.
    - iApply wp_try. iApply (wp_emplace_loop c kd _ _ _ _ _ _ (static_exact_ok N (multi kd)) vs 0%nat ib []
        NZ with "[Hb]"); [cbn; lia|by unfold static_fv; iFrame|]. iSplit.
      + iIntros (f' cap' l') "%Hx [%Hf Hb]". destruct Hx as (H1 & [Hst _] & H3). destruct Hf as (_ & _ & ->).
        destruct Hst as [-> _]; [cbn; lia|]. iExists (ib, l'). iSplit; [|by iApply tinv_intro].
        iPureIntro. by apply all_ctor.
      + iIntros (e f' cap' l') "%Hx [%Hf Hb]". destruct Hx as (H1 & [Hst _] & H3). destruct Hf as (_ & _ & ->).
        destruct Hst as [-> _]; [cbn; lia|].
        iApply (wp_static_destructor with "Hb"). iIntros "Hb".
        iSplitL.
        * iExact "Hb".
        * iPureIntro. destruct H3 as [|[_ H3]]; done.
  Qed.

  Lemma static_flat_wrap_ok : wrap_ok (static_flat_code N kd) (static_flat_wspec N kd) (static_vector_ok N).
  Proof.
    split.
    - intros k. cbn. apply Nat.leb_le.
    - intros o x A h Hi. apply pure_holds in Hi as [[_ ->] _]. cbn. by rewrite osize_vobj.
    - intros k Hk. by apply static_build_ok'.
    - intros c o x A Hpre. by apply static_run_ok.
  Qed.
  Definition static_flat_ok : container_ok (static_flat_spec N kd) :=
    wrapped_ok (static_flat_code N kd) (static_flat_wspec N kd) (static_vector_ok N) static_flat_wrap_ok.

  (** ** small *)
  Context (HN : fits N).

  Lemma small_run_ok c o (x : sobj) (A : sabs) :
    flat_pre kd (fun _ => true) (fun _ => true) o (length (q_elems A.2)) = true ->
    sinv N HN x A ⊢ wp (member (fun ib => small_flat_run N kd ib c o)) x
      (fun r x' => ∃ A' : sabs, ⟦A'.1 = A.1 /\ flat_post kd c false o (q_elems A.2) r (q_elems A'.2) /\
         storage_stays (flat_need o (q_elems A.2)) A.2 A'.2⟧ ∗ sinv N HN x' A')%I
      (fun e x' => ∃ A' : sabs, ⟦A'.1 = A.1 /\
         flat_exn kd c false true (nothrow_move || copyable) o (q_elems A.2) e (q_elems A'.2) /\
         storage_stays (flat_need o (q_elems A.2)) A.2 A'.2⟧ ∗ sinv N HN x' A')%I.
  Proof.
    iIntros (Hpre) "Hx". iDestruct (sinv_open with "Hx") as (ib a f l cap) "[%Hx Hv]".
    destruct Hx as [-> ->]. cbn [fst snd q_elems] in *.
    iApply wp_member. cbn [fst snd].
    iApply (run_flat_ok c kd _ _ _ false _ _ _ (small_exact_ok (small_storage N ib) (small_ok N ib) (multi kd)) _
      (clear_insert_ok c kd _ _ _ _ _ _ (small_exact_ok (small_storage N ib) (small_ok N ib) (multi kd))) o
      a f l cap with "Hv"); [exact Hpre|].
    iSplit.
    - iIntros (r f' cap' l') "%Hp Hv". destruct Hp as [Hp [Hst _]]. iExists (ib, VAbs a f' l' cap').
      iSplit; [done|]. by iApply sinv_intro.
    - iIntros (e f' cap' l') "%Hp Hv". destruct Hp as [Hp [Hst _]]. iExists (ib, VAbs a f' l' cap').
      iSplit; [done|]. by iApply sinv_intro.
  Qed.

  Lemma small_build_ok' (k : fctor) :
    ⊢ wp (construct_small N (fun ib => small_empty N ib (fc_alloc k)) (fun ib => small_flat_init N kd ib k)) tt
      (fun x _ => ∃ A : sabs, ⟦fctor_post kd k (q_elems A.2) /\ q_alloc A.2 = fc_alloc k⟧ ∗ sinv N HN x A)%I
      (fun e _ => ⟦e <> EOutOfRange⟧)%I.
  Proof.
    iApply wp_construct_small. iIntros (ib) "%Hib Hr". rewrite small_empty_vobj.
    iDestruct (small_at_base N ib (fc_alloc k) Hib with "Hr") as "Hv".
    destruct k as [c a|c a vs]; cbn [small_flat_init fc_vals fc_alloc] in *.
    - iApply wp_ret. iExists (ib, VAbs a ib [] NZ). iSplit; [iPureIntro; split; [apply empty_ctor|done]|].
      by iApply sinv_intro.
    - iApply wp_try. iApply (wp_insert_loop c kd _ _ _ _ _ _
        (small_exact_ok (small_storage N ib) (small_ok N ib) (multi kd)) vs a ib [] NZ with "Hv"); [done|]. iSplit.
      + iIntros (f' cap' l') "%Hx Hv". destruct Hx as (H1 & [Hst _] & H3). iExists (ib, VAbs a f' l' cap').
        iSplit; [|by iApply sinv_intro]. iPureIntro. split; [|done]. by apply all_ctor.
      + iIntros (e f' cap' l') "%Hx Hv". destruct Hx as (H1 & [Hst _] & H3).
        iApply (wp_destructor with "Hv"). iIntros "[_ $]". iPureIntro. naive_solver.
  Qed.

  Lemma small_flat_wrap_ok : wrap_ok (small_flat_code N kd) (small_flat_wspec N kd) (small_vector_ok N HN).
  Proof.
    split.
    - done.
    - intros o x A h Hi. apply sinv_view in Hi as (ib & a & f & l & cap & -> & -> & _).
      cbn. by rewrite osize_vobj.
    - intros k _. by apply small_build_ok'.
    - intros c o x A Hpre. by apply small_run_ok.
  Qed.
  Definition small_flat_ok : container_ok (small_flat_spec N kd) :=
    wrapped_ok (small_flat_code N kd) (small_flat_wspec N kd) (small_vector_ok N HN) small_flat_wrap_ok.
End flat_ok.
