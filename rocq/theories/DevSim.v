(** * sfl::devector: the code as it is and the corrected code

    They differ only in what is done when something throws (and in [reset]), so
    a call that returns does the same in both. *)

From iris.proofmode Require Import tactics.
From Verif Require Export DevState.
Open Scope Z_scope.

Section same_ok.
  Context `{E : Env}.

  (** The two programs return in the same cases, with the same result. *)
  Definition same_ok {St T} (m1 m2 : M St T) : Prop :=
    forall s w r s' w', m1 s w = Ok r s' w' <-> m2 s w = Ok r s' w'.
  Lemma same_refl {St T} (m : M St T) : same_ok m m.
  Proof. done. Qed.
  Lemma same_bind {St T U} (m1 m2 : M St T) (f1 f2 : T -> M St U) :
    same_ok m1 m2 -> (forall a, same_ok (f1 a) (f2 a)) -> same_ok (bind m1 f1) (bind m2 f2).
  Proof.
    intros Hm Hf s w r s' w'. unfold bind. specialize (Hm s w).
    destruct (m1 s w) as [a s1 w1|e s1 w1|] eqn:H1, (m2 s w) as [a2 s2 w2|e2 s2 w2|] eqn:H2; try done;
      try (discriminate (proj1 (Hm _ _ _) eq_refl));
      try (discriminate (proj2 (Hm _ _ _) eq_refl)).
    pose proof (proj1 (Hm _ _ _) eq_refl) as Heq. injection Heq as -> -> ->. apply Hf.
  Qed.
  Lemma same_try {St T} (m1 m2 : M St T) c1 c2 : same_ok m1 m2 -> same_ok (try_ m1 c1) (try_ m2 c2).
  Proof.
    intros Hm s w r s' w'. unfold try_. specialize (Hm s w r s' w').
    destruct (m1 s w) as [a s1 w1|e s1 w1|], (m2 s w) as [a2 s2 w2|e2 s2 w2|]; try done;
      repeat match goal with |- context [match ?c ?s ?w with _ => _ end] => destruct (c s w) end; naive_solver.
  Qed.
  Lemma same_guarded {St} (m1 m2 : M St unit) c1 c2 : same_ok m1 m2 -> same_ok (guarded c1 m1) (guarded c2 m2).
  Proof. apply same_try. Qed.
  Lemma same_if {St T} (b : bool) (m1 m2 n1 n2 : M St T) :
    same_ok m1 m2 -> same_ok n1 n2 -> same_ok (if b then m1 else n1) (if b then m2 else n2).
  Proof. by destruct b. Qed.

  Ltac same :=
    cbv beta zeta;
    lazymatch goal with
    | |- same_ok ?m1 ?m2 =>
        tryif constr_eq m1 m2 then apply same_refl
        else lazymatch m1 with
          | bind _ _ => apply same_bind; [same|intros; same]
          | guarded _ _ => apply same_guarded; same
          | if _ then _ else _ => apply same_if; same
          | _ => idtac
          end
    end.

  Lemma same_shift_back {St} px n p10 p20 p30 q10 q20 q30 q40 :
    same_ok (St := St) (shift_back_body false px n p10 p20 p30 q10 q20 q30 q40)
                       (shift_back_body true px n p10 p20 p30 q10 q20 q30 q40).
  Proof. unfold shift_back_body. same. unfold back_6. same. Qed.
  Lemma same_shift_front {St} px n p10 p20 p30 q10 q20 q30 q40 :
    same_ok (St := St) (shift_front_body false px n p10 p20 p30 q10 q20 q30 q40)
                       (shift_front_body true px n p10 p20 p30 q10 q20 q30 q40).
  Proof. unfold shift_front_body. same. unfold front_6. same. Qed.
  Lemma same_to_back shift pos n px :
    same_ok (dv_shift_to_back false shift pos n px) (dv_shift_to_back true shift pos n px).
  Proof. unfold dv_shift_to_back. same; try apply same_shift_back. Qed.
  Lemma same_to_front shift pos n px :
    same_ok (dv_shift_to_front false shift pos n px) (dv_shift_to_front true shift pos n px).
  Proof. unfold dv_shift_to_front. same; try apply same_shift_front. Qed.
  Lemma same_emplace_front a : same_ok (dv_emplace_front false a) (dv_emplace_front true a).
  Proof. unfold dv_emplace_front. same; try apply same_to_back. Qed.
  Lemma same_emplace_back a : same_ok (dv_emplace_back false a) (dv_emplace_back true a).
  Proof. unfold dv_emplace_back. same; try apply same_to_front. Qed.
  Lemma same_insert_aux pos n px : same_ok (dv_insert_aux false pos n px) (dv_insert_aux true pos n px).
  Proof. unfold dv_insert_aux. same; first [apply same_to_back|apply same_to_front]. Qed.
  Lemma same_emplace pos a : same_ok (dv_emplace false pos a) (dv_emplace true pos a).
  Proof.
    unfold dv_emplace. same; first [apply same_emplace_front|apply same_emplace_back|apply same_insert_aux].
  Qed.
  Lemma same_input_loop srcs : forall pos,
    same_ok (dv_insert_input_loop false pos srcs) (dv_insert_input_loop true pos srcs).
  Proof. induction srcs as [|a srcs IH]; intros pos; simpl; same; first [apply same_emplace|apply IH]. Qed.
  Lemma same_append_loop srcs : same_ok (dv_append_loop false srcs) (dv_append_loop true srcs).
  Proof. induction srcs as [|a srcs IH]; simpl; same; first [apply same_emplace_back|apply IH]. Qed.

  Lemma same_run o : o <> DSelfMove -> same_ok (run_dop false o) (run_dop true o).
  Proof.
    intros Ho. unfold run_dop. apply same_bind; [apply same_refl|]. intros x.
    destruct o; cbv zeta iota beta;
      try match goal with |- same_ok ?m1 ?m2 => constr_eq m1 m2; apply same_refl end;
      try (by destruct Ho); unfold d_idx, d_unit; (apply same_bind; [|intros; apply same_refl]).
    - apply same_emplace.
    - apply same_emplace_front.
    - apply same_emplace_back.
    - unfold dv_insert_fill. same; try apply same_insert_aux.
    - unfold dv_insert_range. same; try apply same_insert_aux.
    - unfold dv_insert_input. same; try apply same_input_loop.
    - unfold dv_assign_input. apply same_bind; [apply same_refl|]. intros o.
      apply same_bind; [apply same_refl|]. intros [q rest]. simpl. destruct rest as [|a rest]; [apply same_refl|].
      apply (same_append_loop (a :: rest)).
  Qed.
End same_ok.

Section reset.
  Context `{E : Env}.

  (** [reset] of a devector with free storage before its first element. *)
  Lemma reset_ub x A w hf n :
    holds is_dev x A w hf -> 0 < e_front A -> dv_reset false n x w = UB.
  Proof.
    intros (Hwf & m & Hm & Hd & Hh) Hf. pose proof (id_first _ _ _ Hm) as Hfirst.
    pose proof (id_size _ _ _ Hm) as Hs. destruct (id_block _ _ _ Hm) as [Hb1 Hb2]; [lia|].
    apply is_dev_iff in Hm. destruct A as [a b p l cap]. cbn [e_alloc e_bos e_front e_elems e_cap] in *.
    assert (dinv x (DAbs a b p l cap) ⊢
            wp (destroy_a (d_first x) (d_last x)) x (fun _ s => ⟦s = x⟧ ∗ True) (fun _ _ => False)) as Hwp.
    { iIntros "Hx". iDestruct (dinv_open with "Hx") as (a' b' p' l' cap') "[%Hx Hd]". destruct Hx as [Heq ->].
      iDestruct "Hd" as "(_ & Hb & Hr1 & Hl & Hr2)". dred.
      iApply (wp_destroy_a with "Hl"); [by rewrite loc_add_assoc|]. iIntros "Hr". by iFrame. }
    pose proof (wp_run _ _ _ _ m hf w (wp_entails _ _ _ _ _ m Hwp Hm) Hwf Hd Hh) as Hrun.
    unfold dv_reset, bind, getS.
    destruct (destroy_a (d_first x) (d_last x) x w) as [[] s' w'|e s' w'|] eqn:Hdes; [| |done].
    - unfold ptr_sub. destruct (_ =? _); [|done]. unfold ret, deallocate.
      unfold loc_eqb. rewrite Hfirst. unfold loc_add. simpl.
      replace (b.1 =? 0) with false by lia. simpl. replace (b.2 + p =? 0) with false by lia. done.
    - destruct Hrun as (h' & _ & _ & _ & HX). destruct HX.
  Qed.
  Lemma self_move_ub x A w hf :
    holds is_dev x A w hf -> 0 < e_front A -> run_dop false DSelfMove x w = UB.
  Proof.
    intros Hx Hf. unfold run_dop, d_unit, dv_assign_move_self, bind, getS.
    by rewrite (reset_ub x A w hf 0).
  Qed.
End reset.
