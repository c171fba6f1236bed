(** * Cost of push_back in sfl::small_vector

    As VectorCost.v, for the storage of small_vector. *)

From iris.proofmode Require Import tactics.
From Verif Require Export State Cost VectorCost SmallThms.
From Coq Require Import ZifyBool.
Open Scope Z_scope.

Section one.
  Context `{E : Env}.
  Variable N : nat.
  Variable ib : loc.
  Notation st := (small_storage N ib).

  Lemma bounded_new_capacity_s n : bounded (new_capacity st n) 0.
  Proof.
    apply bounded_bind0; [apply bounded_size|]. intros s. apply bounded_bind0; [apply bounded_capacity|].
    intros c. destruct (calc_cap st s c n); [apply bounded_ret|apply bounded_throw].
  Qed.
  Lemma bounded_release_s p n : bounded (release st p n) 0.
  Proof.
    cbn. destruct (loc_eqb p ib); [apply bounded_ret|].
    apply bounded_bind0; [apply bounded_get|intros; apply bounded_deallocate].
  Qed.
  Lemma bounded_acquire_s n : bounded (acquire st n) 1.
  Proof.
    cbn. apply bounded_bind0; [apply bounded_get|]. intros o. destruct (_ && _).
    - eapply bounded_mono; [apply bounded_ret|lia].
    - apply bounded_bind_r; [apply bounded_allocate|intros; apply bounded_ret].
  Qed.
  Lemma bounded_replace_s f l e : bounded (replace_storage st f l e) 0.
  Proof.
    apply bounded_bind0; [apply bounded_get|]. intros o.
    apply bounded_bind0; [apply bounded_destroy_a|]. intros _.
    apply bounded_bind0; [apply bounded_ptr_sub|]. intros c.
    apply bounded_bind0; [apply bounded_release_s|]. intros _. apply bounded_mod.
  Qed.

  Lemma costs_append_s n new_cap a s :
    costs (realloc_append st n new_cap (fun p => construct p a) (fun p => destroy_at p)) s
      (2 + Z.to_nat ((v_last s).2 - (v_first s).2)).
  Proof.
    apply costs_bind_get. apply bounded_bind0; [apply bounded_size|]. intros size.
    change (2 + Z.to_nat ((v_last s).2 - (v_first s).2))%nat
      with (1 + (1 + Z.to_nat ((v_last s).2 - (v_first s).2)))%nat.
    apply bounded_bind; [apply bounded_acquire_s|]. intros [p e].
    apply bounded_bind_r; [|intros; apply bounded_bind0; [apply bounded_replace_s|intros; apply bounded_ret]].
    apply bounded_local. apply bounded_bind_r; [|intros; apply bounded_getl].
    apply bounded_try.
    - apply bounded_bind; [apply bounded_construct|]. intros _.
      apply bounded_bind0; [apply bounded_setl|]. intros _.
      apply bounded_bind_r; [apply bounded_uninit_mine|]. intros nl.
      apply bounded_bind0; [apply bounded_setl|intros; apply bounded_setl].
    - apply bounded_bind0; [apply bounded_getl|]. intros nl.
      apply bounded_bind0; [destruct (loc_eqb nl null); [apply bounded_destroy_at|apply bounded_destroy_a]|].
      intros _. apply bounded_lift, bounded_release_s.
  Qed.

  Lemma costs_emplace_back_s a s :
    costs (run_vop st (small_special N ib) (OEmplaceBack a)) s
      (if loc_eqb (v_last s) (v_eos s) then 2 + Z.to_nat ((v_last s).2 - (v_first s).2) else 1)%nat.
  Proof.
    apply costs_bind_get. unfold as_idx.
    set (c := if loc_eqb _ _ then _ else _).
    assert (costs (emplace_back_ st (arg_of s a)) s c) as Hc.
    { apply costs_bind_get. unfold c. destruct (loc_eqb (v_last s) (v_eos s)); cbn [negb].
      - intros w. pose proof (bounded_new_capacity_s 1 s w) as Hn. unfold bind.
        destruct (new_capacity st 1 s w) as [nc s' w'|? ? w'|] eqn:Hnc; [|lia|done].
        assert (s' = s) as ->.
        { revert Hnc. unfold new_capacity, size_, capacity_, bind, getS, ptr_sub, ret, ub, throw.
          repeat (destruct (_ =? _)); try done.
          destruct (calc_cap _ _ _ _); congruence. }
        pose proof (costs_append_s 1 nc (arg_of s a) s w') as Ha.
        destruct (realloc_append _ _ _ _ _ s w'); try done; lia.
      - apply bounded_bind0; [apply bounded_get|]. intros o.
        apply bounded_bind_r; [apply bounded_construct|]. intros _.
        apply bounded_bind0; [apply bounded_mod|intros; apply bounded_ret]. }
    intros w. specialize (Hc w). unfold bind at 1. destruct (emplace_back_ _ _ s w) as [p s' w'|e s' w'|]; try done.
    assert (bounded (bind getS (fun o => bind (ptr_sub p (v_first o)) (fun k => ret (RIdx k)))) 0) as Hb.
    { apply bounded_bind0; [apply bounded_get|]. intros o.
      apply bounded_bind0; [apply bounded_ptr_sub|intros; apply bounded_ret]. }
    specialize (Hb s' w'). destruct (bind getS _ s' w'); try done; lia.
  Qed.
End one.

Section pushes.
  Context `{E : Env}.
  Variable N : nat.
  Context (HN : Z.of_nat N <= max_size).
  Notation NZ := (Z.of_nat N).
  Notation R := (is_small N).

  (** [for (const auto& v : vs) c.push_back(v);] *)
  Fixpoint small_push_all (vs : list V) : M sobj unit :=
    match vs with
    | [] => ret tt
    | v :: vs' => (small_call N (OEmplaceBack (XVal v));; small_push_all vs')%prog
    end.

  Lemma small_push_cost v x w :
    match small_call N (OEmplaceBack (XVal v)) x w with
    | Ok _ _ w' | Exn _ _ w' =>
        (tick w <= tick w' <= tick w +
          if loc_eqb (v_last x.2) (v_eos x.2) then 2 + Z.to_nat ((v_last x.2).2 - (v_first x.2).2) else 1)%nat
    | UB => True
    end.
  Proof.
    pose proof (costs_emplace_back_s N x.1 (XVal v) x.2 w) as H. unfold small_call, member.
    by destruct (run_vop _ _ _ x.2 w).
  Qed.

  Lemma small_push_state v x (A : sabs) w hf r x' w' :
    holds R x A w hf -> small_call N (OEmplaceBack (XVal v)) x w = Ok r x' w' ->
    exists A' : sabs, holds R x' A' w' hf /\ q_elems A'.2 = q_elems A.2 ++ [v] /\ (tick w <= tick w')%nat /\
      if decide (Z.of_nat (length (q_elems A.2)) < q_cap A.2)
      then q_cap A'.2 = q_cap A.2 /\ (tick w' <= tick w + 1)%nat
      else q_cap A'.2 = Z.max NZ (growth (Z.of_nat (length (q_elems A.2))) (q_cap A.2) 1) /\
           (tick w' <= tick w + 2 + length (q_elems A.2))%nat.
  Proof using HN.
    intros Hx Hr. pose proof (small_push_cost v x w) as Hc. rewrite Hr in Hc. destruct Hc as [Hc1 Hc].
    pose proof (small_call_ok N HN (OEmplaceBack (XVal v)) x A w hf Hx eq_refl) as Hm. rewrite Hr in Hm.
    destruct Hm as (A' & (_ & Hp & _ & Hs & _) & Hx' & _). exists A'. split; [done|].
    destruct Hp as (v' & Hv' & _ & Hl). injection Hv' as <-. split; [done|]. split; [done|].
    destruct Hx as (_ & m & [I1 I2 I3 I4 I5 I6 I7 I8] & _).
    unfold seq_storage, needed in Hs.
    rewrite I3 I4 I5 in Hc. unfold loc_eqb in Hc. cbn in Hc. rewrite Z.eqb_refl in Hc. cbn in Hc.
    destruct (decide (Z.of_nat (length (q_elems A.2)) < q_cap A.2)) as [Hlt|Hge].
    - destruct (decide _) in Hs; [|lia]. split; [apply Hs|].
      destruct (_ =? _) eqn:Heq in Hc; [lia|]. lia.
    - destruct (decide _) in Hs; [lia|]. split.
      { rewrite Hs. f_equal. f_equal; lia. }
      destruct (_ =? _) eqn:Heq in Hc; lia.
  Qed.

  Lemma small_push_all_cost vs x (A : sabs) w hf M x' w' :
    holds R x A w hf -> small_push_all vs x w = Ok tt x' w' ->
    Z.of_nat M <= 4 * Z.of_nat (length (q_elems A.2)) ->
    (Z.of_nat M <= 3 * q_cap A.2 \/ q_cap A.2 = max_size) ->
    exists A' : sabs, holds R x' A' w' hf /\ q_elems A'.2 = q_elems A.2 ++ vs /\
      (M + (tick w' - tick w) <= 2 * length vs + 4 * (length (q_elems A.2) + length vs))%nat /\
      (tick w <= tick w')%nat.
  Proof using HN.
    revert x A w M. induction vs as [|v vs IH]; intros x A w M Hx Hr HM1 HM2; simpl in Hr.
    { injection Hr as -> ->. exists A. rewrite app_nil_r. split_and!; try done; simpl; lia. }
    unfold bind in Hr.
    destruct (small_call N (OEmplaceBack (XVal v)) x w) as [r x1 w1|e x1 w1|] eqn:Hr1; try done.
    destruct (small_push_state v x A w hf r x1 w1 Hx Hr1) as (A1 & Hx1 & Hl1 & Hc & Hcost).
    destruct Hx as (_ & m & HI & _). pose proof (is_size _ _ _ _ HI) as Hsz.
    assert (Hlen : length (q_elems A1.2) = S (length (q_elems A.2))) by (rewrite Hl1 app_length; simpl; lia).
    destruct Hx1 as (Hwf1 & m1 & HI1 & Hrest1). pose proof (is_size _ _ _ _ HI1) as Hsz1.
    assert (Hx1 : holds R x1 A1 w1 hf) by (split; [done|by exists m1]).
    destruct (decide _) as [Hlt|Hge]; destruct Hcost as [Hcap Htick].
    - destruct (IH x1 A1 w1 M Hx1 Hr) as (A' & Hx' & Hl' & Hb & Ht); [lia|rewrite Hcap; done|].
      exists A'. split; [done|]. split; [by rewrite Hl' Hl1 -app_assoc|]. rewrite Hlen in Hb. simpl length. lia.
    - destruct (IH x1 A1 w1 (M + length (q_elems A.2))%nat Hx1 Hr) as (A' & Hx' & Hl' & Hb & Ht).
      + lia.
      + rewrite Hcap. unfold growth. pose proof (Z.div_mod (q_cap A.2) 2). pose proof (Z.mod_pos_bound (q_cap A.2) 2).
        rewrite Hcap in Hsz1. unfold growth in Hsz1. lia.
      + exists A'. split; [done|]. split; [by rewrite Hl' Hl1 -app_assoc|]. rewrite Hlen in Hb. simpl length. lia.
  Qed.

  Lemma small_push_all_amortised vs x (A : sabs) w hf x' w' :
    holds R x A w hf -> small_push_all vs x w = Ok tt x' w' ->
    exists A' : sabs, holds R x' A' w' hf /\ q_elems A'.2 = q_elems A.2 ++ vs /\
      (tick w <= tick w' <= tick w + 2 * length vs + 4 * (length (q_elems A.2) + length vs))%nat.
  Proof using HN.
    intros Hx Hr. destruct (small_push_all_cost vs x A w hf 0 x' w' Hx Hr) as (A' & H1 & H2 & H3 & H4); [lia| |].
    { left. destruct Hx as (_ & m & HI & _). pose proof (is_size _ _ _ _ HI). lia. }
    exists A'. split_and!; try done. lia.
  Qed.
End pushes.
