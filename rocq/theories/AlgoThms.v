(** * The algorithms of private.hpp as statements about memory *)

From iris.proofmode Require Import tactics.
From Verif Require Export State MemProofs VectorProofs.
Open Scope Z_scope.

(** [cells p cs m]: [m] consists of the cells [cs] at [p], [p + 1], ... *)
Definition cells `{Env} (p : loc) (cs : list cell) (m : heapm) : Prop :=
  forall q, m !! q = if decide (q.1 = p.1 /\ p.2 <= q.2) then cs !! Z.to_nat (q.2 - p.2) else None.
(** Elements and raw memory. *)
Definition lives `{Env} (l : list V) : list cell := Live <$> l.
Definition raw_cells `{Env} (n : nat) : list cell := replicate n Raw.

Section thms.
  Context `{E : Env} {St : Type}.
  Implicit Types s : St.

  (** What a program does to one array, ... *)
  Definition does1 {T} (m : M St T) s (p : loc) (cs : list cell) w hf
      (φ : T -> list cell -> Prop) (ψ : list cell -> Prop) : Prop :=
    match m s w with
    | Ok r s' w' => s' = s /\ exists cs', φ r cs' /\ holds cells p cs' w' hf /\ quiet w w'
    | Exn e s' w' => s' = s /\ e = EUser /\ exists cs', ψ cs' /\ holds cells p cs' w' hf /\ reason e w w'
    | UB => False
    end.
  (** ... and to two separate ones. *)
  Definition does2 {T} (m : M St T) s (p : loc) (cs : list cell) (d : loc) (ds : list cell) w hf
      (φ : T -> list cell -> list cell -> Prop) (ψ : list cell -> list cell -> Prop) : Prop :=
    match m s w with
    | Ok r s' w' => s' = s /\ exists cs' ds', φ r cs' ds' /\ holds2 cells p cs' d ds' w' hf /\ quiet w w'
    | Exn e s' w' => s' = s /\ e = EUser /\
        exists cs' ds', ψ cs' ds' /\ holds2 cells p cs' d ds' w' hf /\ reason e w w'
    | UB => False
    end.

  Lemma cells_arr p cs m : cells p cs m <-> arr p cs m.
  Proof. by rewrite arr_heap. Qed.

  Lemma run1 {T} (m : M St T) s p cs w hf φ ψ :
    (arr p cs ⊢ wp m s (fun r s' => ∃ cs', ⟦s' = s /\ φ r cs'⟧ ∗ arr p cs')%I
                       (fun e s' => ∃ cs', ⟦s' = s /\ e = EUser /\ ψ cs'⟧ ∗ arr p cs')%I) ->
    holds cells p cs w hf -> does1 m s p cs w hf φ ψ.
  Proof.
    intros Hwp (Hwf & mh & Hm & Hd & Hh). apply cells_arr in Hm.
    pose proof (wp_run _ _ _ _ mh hf w (wp_entails _ _ _ _ _ mh Hwp Hm) Hwf Hd Hh) as Hrun.
    unfold does1. destruct (m s w) as [r s' w'|e s' w'|]; [| |done];
      destruct Hrun as (h' & Hh' & Hd' & Haf & HQ); apply pure_ex in HQ as (cs' & Ha & HQ).
    - destruct Ha as [-> Ha]. split; [done|]. exists cs'. split; [done|].
      split; [|apply Haf]. split; [apply Haf|]. exists h'. by rewrite cells_arr.
    - destruct Ha as (-> & -> & Ha). split; [done|]. split; [done|]. exists cs'. split; [done|].
      split; [|apply Haf]. split; [apply Haf|]. exists h'. by rewrite cells_arr.
  Qed.
  Lemma run2 {T} (m : M St T) s p cs d ds w hf φ ψ :
    (arr p cs ∗ arr d ds ⊢
       wp m s (fun r s' => ∃ z : list cell * list cell, ⟦s' = s /\ φ r z.1 z.2⟧ ∗ (arr p z.1 ∗ arr d z.2))%I
              (fun e s' => ∃ z : list cell * list cell, ⟦s' = s /\ e = EUser /\ ψ z.1 z.2⟧ ∗ (arr p z.1 ∗ arr d z.2))%I) ->
    holds2 cells p cs d ds w hf -> does2 m s p cs d ds w hf φ ψ.
  Proof.
    intros Hwp (Hwf & m1 & m2 & Hm1 & Hm2 & Hd12 & Hd1 & Hd2 & Hh). apply cells_arr in Hm1, Hm2.
    assert (Hm : (arr p cs ∗ arr d ds)%I (m1 ∪ m2)) by (by exists m1, m2).
    assert (Hd : m1 ∪ m2 ##ₘ hf) by (by apply map_disjoint_union_l).
    pose proof (wp_run _ _ _ _ _ hf w (wp_entails _ _ _ _ _ _ Hwp Hm) Hwf Hd Hh) as Hrun.
    unfold does2. destruct (m s w) as [r s' w'|e s' w'|]; [| |done];
      destruct Hrun as (h' & Hh' & Hd' & Haf & HQ); apply pure_ex in HQ as ([cs' ds'] & Ha & HQ);
      destruct HQ as (h1 & h2 & -> & Hd12' & H1 & H2); cbn in Ha;
      apply map_disjoint_union_l in Hd' as [? ?].
    - destruct Ha as [-> Ha]. split; [done|]. exists cs', ds'. split; [done|].
      split; [|apply Haf]. split; [apply Haf|]. exists h1, h2. by rewrite !cells_arr.
    - destruct Ha as (-> & -> & Ha). split; [done|]. split; [done|]. exists cs', ds'. split; [done|].
      split; [|apply Haf]. split; [apply Haf|]. exists h1, h2. by rewrite !cells_arr.
  Qed.

  (** ** Constructing elements in raw memory *)
  Lemma ucopy_values s vs d w hf :
    holds cells d (raw_cells (length vs)) w hf ->
    does1 (uninitialized_copy_a (AVal <$> vs) d) s d (raw_cells (length vs)) w hf
      (fun r cs => r = d +ₗ Z.of_nat (length vs) /\ cs = lives vs) (fun cs => cs = raw_cells (length vs)).
  Proof.
    apply run1. iIntros "Hr".
    iApply (wp_ucopy emp%I emp%I (AVal <$> vs) vs emp%I d with "[] [Hr]"); [apply mks_vals|done|done|]. iSplit.
    - iIntros "_ Hl". iExists (lives vs). iFrame. done.
    - iIntros "_ Hl". iExists (raw_cells (length vs)). iFrame. done.
  Qed.
  Lemma ucopy_range s p l d w hf :
    holds2 cells p (lives l) d (raw_cells (length l)) w hf ->
    does2 (uninitialized_copy_a (refs ACopy p (length l)) d) s p (lives l) d (raw_cells (length l)) w hf
      (fun r cs ds => r = d +ₗ Z.of_nat (length l) /\ cs = lives l /\ ds = lives l)
      (fun cs ds => cs = lives l /\ ds = raw_cells (length l)).
  Proof.
    apply run2. iIntros "[Hp Hr]". iApply (wp_ucopy with "Hp Hr"); [apply mks_refs_copy|]. iSplit.
    - iIntros "Hp Hl". iExists (lives l, lives l). iFrame. done.
    - iIntros "Hp Hl". iExists (lives l, raw_cells (length l)). iFrame. done.
  Qed.
  Lemma umove_range s p l d w hf :
    holds2 cells p (lives l) d (raw_cells (length l)) w hf ->
    does2 (uninitialized_move_a p (p +ₗ Z.of_nat (length l)) d) s p (lives l) d (raw_cells (length l)) w hf
      (fun r cs ds => r = d +ₗ Z.of_nat (length l) /\ cs = lives (vmoved <$> l) /\ ds = lives l)
      (fun cs ds => nothrow_move = false /\ (exists l', length l' = length l /\ cs = lives l') /\
                    ds = raw_cells (length l)).
  Proof.
    apply run2. iIntros "[Hp Hr]". iApply (wp_umove with "Hp Hr"); [done|]. iSplit.
    - iIntros "Hp Hl". iExists (lives (vmoved <$> l), lives l). iFrame. done.
    - iIntros (l' Hl') "Hp Hl". iExists (lives l', raw_cells (length l)). iFrame. iPureIntro. naive_solver.
  Qed.
  Lemma umine_range s p l d w hf :
    holds2 cells p (lives l) d (raw_cells (length l)) w hf ->
    does2 (uninitialized_move_if_noexcept_a p (p +ₗ Z.of_nat (length l)) d) s
      p (lives l) d (raw_cells (length l)) w hf
      (fun r cs ds => r = d +ₗ Z.of_nat (length l) /\
         cs = lives (if nothrow_move || negb copyable then vmoved <$> l else l) /\ ds = lives l)
      (fun cs ds => nothrow_move = false /\ (exists l', length l' = length l /\ cs = lives l') /\
         (copyable = true -> cs = lives l) /\ ds = raw_cells (length l)).
  Proof.
    apply run2. iIntros "[Hp Hr]". iApply (wp_umine with "Hp Hr"); [done|]. iSplit.
    - iIntros "Hp Hl". iExists (lives (mine_after l), lives l). iFrame. done.
    - iIntros (l' Hl') "Hp Hl". iExists (lives l', raw_cells (length l)). iFrame. iPureIntro.
      destruct Hl' as [[[Hl' Hm] Hn] _]. cbn. split_and!; try done; [by exists l'|].
      intros Hc. by rewrite Hm; [|rewrite Hn Hc].
  Qed.
  Lemma ufill_values s v d n w hf :
    holds cells d (raw_cells n) w hf ->
    does1 (uninitialized_fill_n_a d n (AVal v)) s d (raw_cells n) w hf
      (fun r cs => r = d +ₗ Z.of_nat n /\ cs = lives (replicate n v)) (fun cs => cs = raw_cells n) /\
    does1 (uninitialized_fill_a d (d +ₗ Z.of_nat n) (AVal v)) s d (raw_cells n) w hf
      (fun r cs => cs = lives (replicate n v)) (fun cs => cs = raw_cells n).
  Proof.
    intros Hx. split; revert Hx; apply run1; iIntros "Hr".
    - iApply (wp_ufill_n emp%I with "[] [Hr]"); [apply mk_ok_val|done|done|]. iSplit.
      + iIntros "_ Hl". iExists (lives (replicate n v)). iFrame. done.
      + iIntros "_ Hl". iExists (raw_cells n). iFrame. done.
    - iApply (wp_ufill emp%I with "[] [Hr]"); [apply mk_ok_val|done|done|done|]. iSplit.
      + iIntros "_ Hl". iExists (lives (replicate n v)). iFrame. done.
      + iIntros "_ Hl". iExists (raw_cells n). iFrame. done.
  Qed.
  Lemma udefault_values s d n w hf :
    holds cells d (raw_cells n) w hf ->
    does1 (uninitialized_default_construct_n_a d n) s d (raw_cells n) w hf
      (fun r cs => r = d +ₗ Z.of_nat n /\ cs = lives (replicate n vdef)) (fun cs => cs = raw_cells n) /\
    does1 (uninitialized_default_construct_a d (d +ₗ Z.of_nat n)) s d (raw_cells n) w hf
      (fun r cs => cs = lives (replicate n vdef)) (fun cs => cs = raw_cells n).
  Proof.
    intros Hx. split; revert Hx; apply run1; iIntros "Hr".
    - iApply (wp_udefault_n with "[Hr]"); [done|]. iSplit.
      + iIntros "Hl". iExists (lives (replicate n vdef)). iFrame. done.
      + iIntros "Hl". iExists (raw_cells n). iFrame. done.
    - change (uninitialized_default_construct_a d (d +ₗ Z.of_nat n))
        with (uninitialized_fill_a (St := St) d (d +ₗ Z.of_nat n) ADef).
      iApply (wp_ufill emp%I with "[] [Hr]"); [apply mk_ok_def|done|done|done|]. iSplit.
      + iIntros "_ Hl". iExists (lives (replicate n vdef)). iFrame. done.
      + iIntros "_ Hl". iExists (raw_cells n). iFrame. done.
  Qed.
  Lemma destroy_range s p l w hf :
    holds cells p (lives l) w hf ->
    does1 (destroy_a p (p +ₗ Z.of_nat (length l))) s p (lives l) w hf
      (fun r cs => cs = raw_cells (length l)) (fun _ => False).
  Proof.
    apply run1. iIntros "Hr". iApply (wp_destroy_a with "[Hr]"); [done|done|].
    iIntros "Hr". iExists (raw_cells (length l)). iFrame. done.
  Qed.

  (** ** Assigning to elements *)
  Lemma copy_values s vs d l w hf :
    length l = length vs -> holds cells d (lives l) w hf ->
    does1 (copy (AVal <$> vs) d) s d (lives l) w hf
      (fun r cs => r = d +ₗ Z.of_nat (length vs) /\ cs = lives vs)
      (fun cs => exists l', length l' = length l /\ cs = lives l').
  Proof.
    intros Hl. apply run1. iIntros "Hl".
    iApply (wp_assign_loop emp%I emp%I _ vs emp%I with "[] [Hl]"); [apply ass_vals|done|done|done|]. iSplit.
    - iIntros "_ Hl". iExists (lives vs). iFrame. done.
    - iIntros (l' Hl') "_ Hl". iExists (lives l'). iFrame. iPureIntro. naive_solver.
  Qed.
  Lemma copy_range s p l d l2 w hf :
    length l2 = length l -> holds2 cells p (lives l) d (lives l2) w hf ->
    does2 (copy (refs ACopy p (length l)) d) s p (lives l) d (lives l2) w hf
      (fun r cs ds => r = d +ₗ Z.of_nat (length l) /\ cs = lives l /\ ds = lives l)
      (fun cs ds => cs = lives l /\ exists l', length l' = length l /\ ds = lives l').
  Proof.
    intros Hl. apply run2. iIntros "[Hp Hl]".
    iApply (wp_assign_loop with "[Hp] Hl"); [|done|iExact "Hp"|].
    { pose proof (ass_refs_copy_gen p [] l) as H1. simpl in H1. rewrite loc_add_0 in H1. exact H1. }
    iSplit.
    - iIntros "Hp Hl". iExists (lives l, lives l). iFrame. done.
    - iIntros (l' Hl') "Hp Hl". iExists (lives l, lives l'). iFrame. iPureIntro. cbn.
      destruct Hl' as [Hl' _]. split_and!; try done. exists l'. split; [congruence|done].
  Qed.
  Lemma move_range s p l d l2 w hf :
    length l2 = length l -> holds2 cells p (lives l) d (lives l2) w hf ->
    does2 (move p (p +ₗ Z.of_nat (length l)) d) s p (lives l) d (lives l2) w hf
      (fun r cs ds => r = d +ₗ Z.of_nat (length l) /\ cs = lives (vmoved <$> l) /\ ds = lives l)
      (fun cs ds => (exists l', length l' = length l /\ cs = lives l') /\
                    (exists l', length l' = length l /\ ds = lives l')).
  Proof.
    intros Hl. apply run2. iIntros "[Hp Hl]". unfold move. iApply wp_bind. iApply wp_range; [done|].
    iApply (wp_assign_loop with "[Hp] Hl"); [|done|iExact "Hp"|].
    { pose proof (ass_refs_move_gen p [] l [] (length l)) as H1. simpl in H1. rewrite loc_add_0 !app_nil_r in H1.
      by apply H1. }
    iSplit.
    - iIntros "Hp Hl". iExists (lives (vmoved <$> l), lives l). iFrame. done.
    - iIntros (l' Hl') "Hp Hl". iDestruct "Hp" as (l3 Hl3) "Hp". iExists (lives l3, lives l'). iFrame. iPureIntro. cbn.
      destruct Hl' as [Hl' _]. split_and!; try done; [by exists l3|exists l'; split; [congruence|done]].
  Qed.
  (** The ranges overlap or touch, the target begins in front of the source. *)
  Lemma move_down s d l1 l2 w hf :
    l1 <> [] -> holds cells d (lives (l1 ++ l2)) w hf ->
    does1 (move (d +ₗ Z.of_nat (length l1)) (d +ₗ Z.of_nat (length (l1 ++ l2))) d) s d (lives (l1 ++ l2)) w hf
      (fun r cs => r = d +ₗ Z.of_nat (length l2) /\ exists l', length l' = length l1 /\ cs = lives (l2 ++ l'))
      (fun cs => exists l', length l' = length (l1 ++ l2) /\ cs = lives l').
  Proof.
    intros Hl1. apply run1. iIntros "Hl". iApply (wp_move with "Hl").
    - destruct l1; [done|cbn; lia].
    - done.
    - rewrite app_length. loc_solve.
    - iSplit.
      + iIntros (l' Hl') "Hl". iExists (lives (l2 ++ l')). iFrame. iPureIntro. naive_solver.
      + iIntros (l' Hl') "Hl". iExists (lives l'). iFrame. iPureIntro. rewrite app_length. naive_solver.
  Qed.
  (** ... ends behind the source. *)
  Lemma move_up s p l1 l2 w hf :
    l2 <> [] -> holds cells p (lives (l1 ++ l2)) w hf ->
    does1 (move_backward p (p +ₗ Z.of_nat (length l1)) (p +ₗ Z.of_nat (length (l1 ++ l2)))) s p (lives (l1 ++ l2)) w hf
      (fun r cs => r = p +ₗ Z.of_nat (length l2) /\ exists l', length l' = length l2 /\ cs = lives (l' ++ l1))
      (fun cs => exists l', length l' = length (l1 ++ l2) /\ cs = lives l').
  Proof.
    intros Hl2. apply run1. iIntros "Hl". iApply (wp_move_backward with "Hl").
    - destruct l2; [done|cbn; lia].
    - done.
    - rewrite app_length. loc_solve.
    - iSplit.
      + iIntros (l' Hl') "Hl". iExists (lives (l' ++ l1)). iFrame. iPureIntro. naive_solver.
      + iIntros (l' Hl') "Hl". iExists (lives l'). iFrame. iPureIntro. rewrite app_length. naive_solver.
  Qed.
  Lemma fill_values s v d l w hf :
    holds cells d (lives l) w hf ->
    does1 (fill d (d +ₗ Z.of_nat (length l)) (AVal v)) s d (lives l) w hf
      (fun r cs => cs = lives (replicate (length l) v))
      (fun cs => exists l', length l' = length l /\ cs = lives l').
  Proof.
    apply run1. iIntros "Hl". iApply (wp_fill emp%I with "[] [Hl]"); [apply as_ok_val|done|done|done|]. iSplit.
    - iIntros "_ Hl". iExists (lives (replicate (length l) v)). iFrame. done.
    - iIntros (l' Hl') "_ Hl". iExists (lives l'). iFrame. iPureIntro. naive_solver.
  Qed.
End thms.

(** ** Concrete memory, for the examples *)
Section concrete.
  Context `{E : Env}.
  Fixpoint mem_of (p : loc) (cs : list cell) : heapm :=
    match cs with [] => ∅ | c :: cs' => <[p := c]> (mem_of (p +ₗ 1) cs') end.
  Lemma mem_of_cells p cs : cells p cs (mem_of p cs).
  Proof.
    revert p. induction cs as [|c cs IH]; intros p q; cbn [mem_of].
    - rewrite lookup_empty. by case_decide.
    - destruct (decide (q = p)) as [->|Hq].
      + rewrite lookup_insert decide_True; [|split; [done|lia]]. by rewrite Z.sub_diag.
      + rewrite lookup_insert_ne; [|done]. rewrite (IH (p +ₗ 1) q). unfold loc_add. cbn [fst snd].
        repeat case_decide; try done; destruct_and?.
        * replace (Z.to_nat (q.2 - p.2)) with (S (Z.to_nat (q.2 - (p.2 + 1)))) by lia. done.
        * lia.
        * destruct q as [q1 q2], p as [p1 p2]. simpl in *.
          assert (q2 = p2) by (destruct (decide (q2 = p2)); [done|]; exfalso; lia). by subst.
  Qed.
  Lemma cells_in p cs m q c : cells p cs m -> m !! q = Some c -> q.1 = p.1.
  Proof. intros Hm Hq. rewrite Hm in Hq. by case_decide; destruct_and?. Qed.
  (** Arrays at the beginning of the blocks -1 and -2, nothing else. *)
  Definition one_array (cs : list cell) : world := World (mem_of (-1, 0) cs) 0 3 0.
  Definition two_arrays (cs ds : list cell) : world := World (mem_of (-1, 0) cs ∪ mem_of (-2, 0) ds) 0 3 0.
  Lemma one_array_holds cs : holds cells (-1, 0) cs (one_array cs) ∅.
  Proof.
    split.
    - split; cbn; [lia|]. intros p [c Hc]. apply (cells_in _ _ _ _ _ (mem_of_cells _ _)) in Hc. cbn in Hc. lia.
    - exists (mem_of (-1, 0) cs). split; [apply mem_of_cells|]. split; [apply map_disjoint_empty_r|].
      by rewrite right_id_L.
  Qed.
  Lemma two_arrays_holds cs ds : holds2 cells (-1, 0) cs (-2, 0) ds (two_arrays cs ds) ∅.
  Proof.
    split.
    - split; cbn; [lia|]. intros p [c Hc].
      apply lookup_union_Some_raw in Hc as [Hc|[_ Hc]]; apply (cells_in _ _ _ _ _ (mem_of_cells _ _)) in Hc; cbn in Hc; lia.
    - exists (mem_of (-1, 0) cs), (mem_of (-2, 0) ds). split; [apply mem_of_cells|]. split; [apply mem_of_cells|].
      split; [|split; [apply map_disjoint_empty_r|split; [apply map_disjoint_empty_r|by rewrite right_id_L]]].
      apply map_disjoint_spec. intros q c1 c2 H1 H2.
      apply (cells_in _ _ _ _ _ (mem_of_cells _ _)) in H1, H2. cbn in H1, H2. lia.
  Qed.
End concrete.
