(** * Cost of push_back in sfl::vector *)

From iris.proofmode Require Import tactics.
From Verif Require Export State Cost VectorState VecMem.
Open Scope Z_scope.

Section one.
  Context `{E : Env}.

  Lemma bounded_size : bounded size_ 0.
  Proof. apply bounded_bind0; [apply bounded_get|intros; apply bounded_ptr_sub]. Qed.
  Lemma bounded_capacity : bounded capacity_ 0.
  Proof. apply bounded_bind0; [apply bounded_get|intros; apply bounded_ptr_sub]. Qed.
  Lemma bounded_new_capacity n : bounded (new_capacity vec_storage n) 0.
  Proof.
    apply bounded_bind0; [apply bounded_size|]. intros s. apply bounded_bind0; [apply bounded_capacity|].
    intros c. destruct (calc_cap vec_storage s c n); [apply bounded_ret|apply bounded_throw].
  Qed.
  Lemma bounded_release p n : bounded (release vec_storage p n) 0.
  Proof. apply bounded_bind0; [apply bounded_get|intros; apply bounded_deallocate]. Qed.
  Lemma bounded_acquire n : bounded (acquire vec_storage n) 1.
  Proof.
    apply bounded_bind0; [apply bounded_get|]. intros o.
    apply bounded_bind_r; [apply bounded_allocate|intros; apply bounded_ret].
  Qed.
  Lemma bounded_replace f l e : bounded (replace_storage vec_storage f l e) 0.
  Proof.
    apply bounded_bind0; [apply bounded_get|]. intros o.
    apply bounded_bind0; [apply bounded_destroy_a|]. intros _.
    apply bounded_bind0; [apply bounded_ptr_sub|]. intros c.
    apply bounded_bind0; [apply bounded_release|]. intros _. apply bounded_mod.
  Qed.

  Lemma costs_bind_get {A} (k : vdata -> M vdata A) s c : costs (k s) s c -> costs (bind getS k) s c.
  Proof. intros Hk w. apply Hk. Qed.

  Lemma costs_append n new_cap a s :
    costs (realloc_append vec_storage n new_cap (fun p => construct p a) (fun p => destroy_at p)) s
      (2 + Z.to_nat ((v_last s).2 - (v_first s).2)).
  Proof.
    apply costs_bind_get. apply bounded_bind0; [apply bounded_size|]. intros size.
    change (2 + Z.to_nat ((v_last s).2 - (v_first s).2))%nat
      with (1 + (1 + Z.to_nat ((v_last s).2 - (v_first s).2)))%nat.
    apply bounded_bind; [apply bounded_acquire|]. intros [p e].
    apply bounded_bind_r; [|intros; apply bounded_bind0; [apply bounded_replace|intros; apply bounded_ret]].
    apply bounded_local. apply bounded_bind_r; [|intros; apply bounded_getl].
    apply bounded_try.
    - apply bounded_bind; [apply bounded_construct|]. intros _.
      apply bounded_bind0; [apply bounded_setl|]. intros _.
      apply bounded_bind_r; [apply bounded_uninit_mine|]. intros nl.
      apply bounded_bind0; [apply bounded_setl|intros; apply bounded_setl].
    - apply bounded_bind0; [apply bounded_getl|]. intros nl.
      apply bounded_bind0; [destruct (loc_eqb nl null); [apply bounded_destroy_at|apply bounded_destroy_a]|].
      intros _. apply bounded_lift, bounded_release.
  Qed.

  Lemma costs_emplace_back a s :
    costs (run_vop vec_storage vec_special (OEmplaceBack a)) s
      (if loc_eqb (v_last s) (v_eos s) then 2 + Z.to_nat ((v_last s).2 - (v_first s).2) else 1)%nat.
  Proof.
    apply costs_bind_get. unfold as_idx.
    set (c := if loc_eqb _ _ then _ else _).
    assert (costs (emplace_back_ vec_storage (arg_of s a)) s c) as Hc.
    { apply costs_bind_get. unfold c. destruct (loc_eqb (v_last s) (v_eos s)); simpl.
      - intros w. pose proof (bounded_new_capacity 1 s w) as Hn. unfold bind.
        destruct (new_capacity vec_storage 1 s w) as [nc s' w'|? ? w'|] eqn:Hnc; [|lia|done].
        assert (s' = s) as ->.
        { revert Hnc. unfold new_capacity, size_, capacity_, bind, getS, ptr_sub, ret, ub, throw.
          repeat (destruct (_ =? _); simpl); try done.
          destruct (vec_calc_cap _ _ _); congruence. }
        pose proof (costs_append 1 nc (arg_of s a) s w') as Ha.
        destruct (realloc_append _ _ _ _ _ s w'); try done; lia.
      - apply bounded_bind0; [apply bounded_get|]. intros o.
        apply bounded_bind_r; [apply bounded_construct|]. intros _.
        apply bounded_bind0; [apply bounded_mod|intros; apply bounded_ret]. }
    intros w. specialize (Hc w). unfold bind at 1. destruct (emplace_back_ _ _ s w) as [p s' w'|e s' w'|]; try done.
    assert (bounded (bind getS (fun o => bind (ptr_sub p (v_first o)) (fun k => ret (RIdx k)))) 0) as Hb.
    { apply bounded_bind0; [apply bounded_get|]. intros o.
      apply bounded_bind0; [apply bounded_ptr_sub|intros; apply bounded_ret]. }
    specialize (Hb s' w'). destruct (bind getS _ s' w'); try done; lia.
  Qed.
End one.

Section pushes.
  Context `{E : Env}.

  (** [for (const auto& v : vs) c.push_back(v);] *)
  Fixpoint push_all (vs : list V) : M vdata unit :=
    match vs with
    | [] => ret tt
    | v :: vs' => (run_vop vec_storage vec_special (OEmplaceBack (XVal v));; push_all vs')%prog
    end.

  Lemma push_state v x A w hf r x' w' :
    holds is_vec x A w hf ->
    run_vop vec_storage vec_special (OEmplaceBack (XVal v)) x w = Ok r x' w' ->
    exists A', holds is_vec x' A' w' hf /\ q_elems A' = q_elems A ++ [v] /\
      if decide (Z.of_nat (length (q_elems A)) < q_cap A)
      then q_cap A' = q_cap A /\ (tick w' <= tick w + 1)%nat
      else q_cap A' = growth (Z.of_nat (length (q_elems A))) (q_cap A) 1 /\
           (tick w' <= tick w + 2 + length (q_elems A))%nat.
  Proof.
    intros Hx Hr. pose proof (costs_emplace_back (XVal v) x w) as Hc. rewrite Hr in Hc.
    pose proof (run1_state vector_ok is_vec vec_iff (OEmplaceBack (XVal v)) x A w hf Hx) as Hm.
    unfold member_ok in Hm. cbn -[run_vop] in Hm. rewrite Hr in Hm.
    destruct (Hm eq_refl) as (A' & (Hp & Ha & Hs & _) & Hx' & _). exists A'. split; [done|].
    destruct Hp as (v' & Hv' & _ & Hl). injection Hv' as <-. split; [done|].
    destruct Hx as (_ & m & [I1 I2 I3 I4 I5 I6 I7 I8] & _).
    unfold seq_storage, needed in Hs.
    rewrite I3 I4 I2 in Hc. unfold loc_eqb in Hc. simpl in Hc. rewrite Z.eqb_refl in Hc. simpl in Hc.
    destruct (decide (Z.of_nat (length (q_elems A)) < q_cap A)) as [Hlt|Hge].
    - destruct (decide _) in Hs; [|lia]. split; [apply Hs|].
      destruct (_ =? _) eqn:Heq in Hc; [lia|]. lia.
    - destruct (decide _) in Hs; [lia|]. split.
      { rewrite Hs Z.max_r; [|unfold growth; lia]. f_equal; lia. }
      destruct (_ =? _) eqn:Heq in Hc; lia.
  Qed.

  Lemma push_all_cost vs x A w hf M x' w' :
    holds is_vec x A w hf -> push_all vs x w = Ok tt x' w' ->
    Z.of_nat M <= 4 * Z.of_nat (length (q_elems A)) ->
    (Z.of_nat M <= 3 * q_cap A \/ q_cap A = max_size) ->
    exists A', holds is_vec x' A' w' hf /\ q_elems A' = q_elems A ++ vs /\
      (M + (tick w' - tick w) <= 2 * length vs + 4 * (length (q_elems A) + length vs))%nat /\
      (tick w <= tick w')%nat.
  Proof.
    revert x A w M. induction vs as [|v vs IH]; intros x A w M Hx Hr HM1 HM2; simpl in Hr.
    { injection Hr as -> ->. exists A. rewrite app_nil_r. split_and!; try done; simpl; lia. }
    unfold bind in Hr.
    destruct (run_vop vec_storage vec_special (OEmplaceBack (XVal v)) x w) as [r x1 w1|e x1 w1|] eqn:Hr1; try done.
    pose proof (costs_emplace_back (XVal v) x w) as Hc. rewrite Hr1 in Hc. destruct Hc as [Hc _].
    destruct (push_state v x A w hf r x1 w1 Hx Hr1) as (A1 & Hx1 & Hl1 & Hcost).
    destruct Hx as (_ & m & HI & _). pose proof (iv_size _ _ _ HI) as Hsz.
    assert (Hlen : length (q_elems A1) = S (length (q_elems A))) by (rewrite Hl1 app_length; simpl; lia).
    destruct Hx1 as (Hwf1 & m1 & HI1 & Hrest1). pose proof (iv_size _ _ _ HI1) as Hsz1.
    assert (Hx1 : holds is_vec x1 A1 w1 hf) by (split; [done|by exists m1]).
    destruct (decide _) as [Hlt|Hge]; destruct Hcost as [Hcap Htick].
    - destruct (IH x1 A1 w1 M Hx1 Hr) as (A' & Hx' & Hl' & Hb & Ht); [lia|rewrite Hcap; done|].
      exists A'. split; [done|]. split; [by rewrite Hl' Hl1 -app_assoc|]. rewrite Hlen in Hb. simpl length. lia.
    - assert (q_cap A <> max_size) as Hnm by lia.
      destruct (IH x1 A1 w1 (M + length (q_elems A))%nat Hx1 Hr) as (A' & Hx' & Hl' & Hb & Ht).
      + lia.
      + rewrite Hcap. unfold growth. pose proof (Z.div_mod (q_cap A) 2). pose proof (Z.mod_pos_bound (q_cap A) 2).
        destruct (decide (max_size <= q_cap A + q_cap A / 2)); [right; lia|left; lia].
      + exists A'. split; [done|]. split; [by rewrite Hl' Hl1 -app_assoc|]. rewrite Hlen in Hb. simpl length. lia.
  Qed.

  Lemma push_all_amortised vs x A w hf x' w' :
    holds is_vec x A w hf -> push_all vs x w = Ok tt x' w' ->
    exists A', holds is_vec x' A' w' hf /\ q_elems A' = q_elems A ++ vs /\
      (tick w <= tick w' <= tick w + 2 * length vs + 4 * (length (q_elems A) + length vs))%nat.
  Proof.
    intros Hx Hr. destruct (push_all_cost vs x A w hf 0 x' w' Hx Hr) as (A' & H1 & H2 & H3 & H4); [lia| |].
    { left. destruct Hx as (_ & m & HI & _). pose proof (iv_size _ _ _ HI). lia. }
    exists A'. split_and!; try done. lia.
  Qed.
End pushes.
