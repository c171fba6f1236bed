(** * Cost of adding an element at an end of a segmented container

    [tick] counts operations of the element type and allocations, as in Cost.v.
    Copying entries of the segment table is not counted. *)

From iris.proofmode Require Import tactics.
From Verif Require Export Cost SegThms SegDevThms.
From Coq Require Import Lia ZifyBool.
Open Scope Z_scope.

Section cost.
  Context `{E : Env} `{SZ : SegSize}.
  Context {St : Type}.

  Lemma bounded_read_ptr p : bounded (read_ptr p : M St loc) 0.
  Proof. intros s w. unfold read_ptr. destruct (heap w !! p) as [[]|]; simpl; try done; lia. Qed.
  Lemma bounded_write_ptr p q : bounded (write_ptr p q : M St unit) 0.
  Proof. intros s w. unfold write_ptr. destruct (heap w !! p) as [[]|]; simpl; try done; lia. Qed.
  Lemma bounded_assert b : bounded (assert_ b : M St unit) 0.
  Proof. intros s w. destruct b; simpl; [lia|done]. Qed.
End cost.

(** Programs without element operations and allocations. *)
Ltac free := repeat (first
  [ done
  | match goal with H : _ |- _ => apply H end
  | match goal with |- bounded (bind _ _) 0 => apply bounded_bind0; [|intros] end
  | match goal with |- bounded (if ?b then _ else _) 0 => destruct b end
  | match goal with |- bounded (let _ := _ in _) 0 => intro end
  | apply bounded_ret | apply bounded_get | apply bounded_mod | apply bounded_read_ptr | apply bounded_write_ptr
  | apply bounded_ptr_sub | apply bounded_range_len | apply bounded_assert | apply bounded_throw
  | apply bounded_deallocate | apply bounded_destroy_at | apply bounded_read ]).

Section iters.
  Context `{E : Env} `{SZ : SegSize}.
  Context {St : Type}.
  Lemma bounded_it_succ x : bounded (it_succ x : M St sit) 0.
  Proof. unfold it_succ. simpl. free. Qed.
  Lemma bounded_it_pred x : bounded (it_pred x : M St sit) 0.
  Proof. unfold it_pred. free. Qed.
  Lemma bounded_it_add x n : bounded (it_add x n : M St sit) 0.
  Proof.
    unfold it_add. apply bounded_bind0; [free|]. intros b. apply bounded_bind0; [free|]. intros d. cbv zeta.
    match goal with |- context [?a && ?b] => destruct (a && b) end; free.
  Qed.
  Lemma bounded_it_index x n : bounded (it_index x n : M St loc) 0.
  Proof. unfold it_index. apply bounded_bind0; [apply bounded_it_add|intros; free]. Qed.
  Lemma bounded_it_diff x y : bounded (it_diff x y : M St Z) 0.
  Proof. unfold it_diff. free. Qed.
End iters.

Section seg.
  Context `{E : Env} `{SZ : SegSize}.

  Lemma bounded_free_loop p n : bounded (sq_free_loop p n) 0.
  Proof. revert p. induction n as [|n IH]; intros p; simpl; free. Qed.
  Lemma bounded_free_segments p q : bounded (sq_deallocate_segments p q) 0.
  Proof. unfold sq_deallocate_segments. apply bounded_bind0; [free|intros; apply bounded_free_loop]. Qed.
  Lemma bounded_alloc_loop first curr n : bounded (sq_alloc_loop first curr n) n.
  Proof.
    revert curr. induction n as [|n IH]; intros curr; simpl; [free|].
    apply bounded_bind0; [free|]. intros o. apply (bounded_bind _ _ 1).
    - apply bounded_try; [apply bounded_allocate|apply bounded_free_segments].
    - intros q. apply bounded_bind0; [free|intros; apply IH].
  Qed.
  Lemma bounded_alloc_segments p k : bounded (sq_allocate_segments p (p +ₗ k)) (Z.to_nat k).
  Proof.
    unfold sq_allocate_segments, range_len. simpl.
    destruct (_ =? _); [|intros s w; done]. destruct (_ <=? _); [|intros s w; done].
    intros s w. unfold bind, ret. replace (Z.to_nat (p.2 + k - p.2)) with (Z.to_nat k) by lia.
    apply bounded_alloc_loop.
  Qed.
  Lemma bounded_alloc_segments_front p k : bounded (sq_allocate_segments (p +ₗ - k) p) (Z.to_nat k).
  Proof.
    unfold sq_allocate_segments, range_len. simpl.
    destruct (_ =? _); [|intros s w; done]. destruct (_ <=? _); [|intros s w; done].
    intros s w. unfold bind, ret. replace (Z.to_nat (p.2 - (p.2 + - k))) with (Z.to_nat k) by lia.
    apply bounded_alloc_loop.
  Qed.
  Lemma bounded_copy_ptrs p n d : bounded (copy_ptrs p n d) 0.
  Proof. revert p d. induction n as [|n IH]; intros p d; simpl; free. Qed.
  Lemma bounded_copy_ptrs_backward p n d : bounded (copy_ptrs_backward p n d) 0.
  Proof. revert p d. induction n as [|n IH]; intros p d; simpl; free. Qed.
  Lemma bounded_copy_table p q d : bounded (copy_table p q d) 0.
  Proof.
    unfold copy_table. apply bounded_bind0; [free|]. intros n.
    apply bounded_bind0; [apply bounded_copy_ptrs|intros; free].
  Qed.
  Lemma bounded_copy_table_backward p q d : bounded (copy_table_backward p q d) 0.
  Proof.
    unfold copy_table_backward. apply bounded_bind0; [free|]. intros n.
    apply bounded_bind0; [apply bounded_copy_ptrs_backward|intros; free].
  Qed.
  Lemma bounded_new_table b e f l d1 d2 : bounded (sq_new_table b e f l d1 d2) 0.
  Proof. unfold sq_new_table. free. Qed.

  Lemma bounded_table_back k : bounded (sq_table_back k) 1.
  Proof.
    unfold sq_table_back. apply bounded_bind0; [free|]. intros o. apply bounded_bind0; [free|]. intros av.
    destruct (av <? k); [|eapply bounded_mono; [apply bounded_ret|lia]].
    apply bounded_bind0; [free|]. intros tcap. cbv zeta.
    apply bounded_bind0; [free|]. intros d1. apply bounded_bind0; [free|]. intros d2.
    apply bounded_bind_r; [apply bounded_allocate|]. intros nb.
    apply bounded_bind0; [free|]. intros d. apply bounded_bind0; [apply bounded_copy_table|]. intros nl.
    apply bounded_bind0; [free|]. intros _. apply bounded_new_table.
  Qed.
  Lemma bounded_table_front k : bounded (sd_table_front k) 1.
  Proof.
    unfold sd_table_front. apply bounded_bind0; [free|]. intros o. apply bounded_bind0; [free|]. intros av.
    destruct (av <? k); [|eapply bounded_mono; [apply bounded_ret|lia]].
    apply bounded_bind0; [free|]. intros tcap. cbv zeta.
    apply bounded_bind0; [free|]. intros d1. apply bounded_bind0; [free|]. intros d2.
    apply bounded_bind_r; [apply bounded_allocate|]. intros nb.
    apply bounded_bind0; [free|]. intros d. apply bounded_bind0; [apply bounded_copy_table_backward|]. intros nl.
    apply bounded_bind0; [free|]. intros _. apply bounded_new_table.
  Qed.
  Lemma bounded_segs_back k : bounded (sq_segs_back k) (Z.to_nat k).
  Proof.
    unfold sq_segs_back. apply bounded_bind0; [free|]. intros o. cbv zeta.
    apply bounded_bind_r; [apply bounded_alloc_segments|]. intros _. free.
  Qed.
  Lemma bounded_segs_front k : bounded (sd_segs_front k) (Z.to_nat k).
  Proof.
    unfold sd_segs_front. apply bounded_bind0; [free|]. intros o. cbv zeta.
    apply bounded_bind_r; [apply bounded_alloc_segments_front|]. intros _. free.
  Qed.
  Lemma bounded_capacity : bounded sq_capacity 0.
  Proof. unfold sq_capacity. apply bounded_bind0; [free|intros; apply bounded_it_diff]. Qed.
  Lemma bounded_size : bounded sq_size 0.
  Proof. unfold sq_size. apply bounded_bind0; [free|intros; apply bounded_it_diff]. Qed.

  Lemma bounded_grow_back n : 0 <= n -> bounded (sq_grow_back n) (Z.to_nat (n / SS) + 2).
  Proof.
    intros Hn. unfold sq_grow_back. apply bounded_bind0; [apply bounded_capacity|]. intros cap.
    destruct (_ <? n); [eapply bounded_mono; [apply bounded_throw|lia]|]. cbv zeta.
    pose proof (Z.div_pos n SS Hn SS_pos).
    replace (Z.to_nat (n / SS) + 2)%nat with (1 + Z.to_nat (n / SS + 1))%nat by lia.
    apply bounded_bind; [apply bounded_table_back|intros; apply bounded_segs_back].
  Qed.
  Lemma bounded_grow_front n : 0 <= n -> bounded (sd_grow_front n) (1 + Z.to_nat (n / SS + (if n mod SS =? 0 then 0 else 1))).
  Proof.
    intros Hn. unfold sd_grow_front. apply bounded_bind0; [apply bounded_capacity|]. intros cap.
    destruct (_ <? n); [eapply bounded_mono; [apply bounded_throw|lia]|]. cbv zeta.
    apply bounded_bind; [apply bounded_table_front|intros; apply bounded_segs_front].
  Qed.

  (** A segment more is allocated; two if segments have one place each. *)
  Definition new_segs : nat := if SS =? 1 then 2%nat else 1%nat.
  Lemma bounded_emplace_back a : bounded (sq_emplace_back a) (1 + new_segs + 1).
  Proof.
    unfold sq_emplace_back. apply bounded_bind0; [free|]. intros o.
    apply (bounded_bind _ _ (1 + new_segs) 1).
    - destruct (it_eqb _ _); [|eapply bounded_mono; [apply bounded_ret|lia]].
      eapply bounded_mono; [apply bounded_grow_back; lia|]. unfold new_segs. pose proof (SS_pos (SegSize := SZ)) as Hss.
      destruct (SS =? 1) eqn:H1.
      + replace SS with 1 by lia. rewrite Z.div_1_r. lia.
      + rewrite Z.div_small; lia.
    - intros _. apply bounded_bind0; [free|]. intros o1.
      apply bounded_bind_r; [apply bounded_construct|]. intros _.
      apply bounded_bind0; [apply bounded_it_succ|]. intros x. unfold sq_set_last. free.
  Qed.
  Lemma bounded_emplace_front a : bounded (sd_emplace_front a) 3.
  Proof.
    unfold sd_emplace_front. apply bounded_bind0; [free|]. intros o.
    apply (bounded_bind _ _ 2 1).
    - destruct (it_eqb _ _); [|eapply bounded_mono; [apply bounded_ret|lia]].
      eapply bounded_mono; [apply bounded_grow_front; lia|]. pose proof (SS_pos (SegSize := SZ)) as Hss.
      destruct (Z.eqb_spec SS 1) as [H1|H1].
      + rewrite H1 Z.div_1_r Z.mod_1_r. vm_compute. lia.
      + rewrite Z.div_small ?Z.mod_small; [|lia..]. vm_compute. lia.
    - intros _. apply bounded_bind0; [free|]. intros o1.
      apply bounded_bind0; [apply bounded_it_pred|]. intros x.
      apply bounded_bind_r; [apply bounded_construct|]. intros _. unfold sq_set_first. free.
  Qed.
  Lemma bounded_pop_back : bounded sq_pop_back 0.
  Proof.
    unfold sq_pop_back, sq_empty. apply bounded_bind0; [free|]. intros e. apply bounded_bind0; [free|]. intros _.
    apply bounded_bind0; [free|]. intros o. apply bounded_bind0; [apply bounded_it_pred|]. intros x.
    unfold sq_set_last. free.
  Qed.
  Lemma bounded_pop_front : bounded sd_pop_front 0.
  Proof.
    unfold sd_pop_front, sq_empty. apply bounded_bind0; [free|]. intros e. apply bounded_bind0; [free|]. intros _.
    apply bounded_bind0; [free|]. intros o. apply bounded_bind0; [free|]. intros _. apply bounded_bind0; [apply bounded_it_succ|]. intros x.
    unfold sq_set_first. free.
  Qed.
  Lemma bounded_s_arg x : bounded (s_arg x) 0.
  Proof.
    assert (forall j, bounded (s_ref j) 0) as Hr.
    { intros j. unfold s_ref. apply bounded_bind0; [free|intros; apply bounded_it_index]. }
    destruct x; simpl; free.
  Qed.
  Lemma bounded_is_ref p i : bounded (s_is_ref p i) 0.
  Proof. unfold s_is_ref. apply bounded_bind0; [free|]. intros o. apply bounded_bind0; [apply bounded_it_index|intros; free]. Qed.
  Lemma bounded_ref_back m c : bounded m c -> bounded (s_ref_back m) c.
  Proof.
    intros Hm. unfold s_ref_back. apply bounded_bind_r; [done|]. intros p.
    apply bounded_bind0; [apply bounded_size|intros; apply bounded_is_ref].
  Qed.
  Lemma bounded_ref_front m c : bounded m c -> bounded (s_ref_front m) c.
  Proof. intros Hm. unfold s_ref_front. apply bounded_bind_r; [done|intros; apply bounded_is_ref]. Qed.

  Lemma seg_end_cost ra o x (A : sabs) w hf :
    holds (is_seg false) x A w hf -> sv_pre o (length (s_elems A)) = true ->
    match o with OEmplaceBack _ | OPopBack => True | _ => False end ->
    match seg_call ra o x w with
    | Ok _ _ w' | Exn _ _ w' =>
        (tick w <= tick w' <= tick w +
         match o with OEmplaceBack _ => if (SS =? 1)%Z then 4 else 3 | _ => 0 end)%nat
    | UB => False
    end.
  Proof.
    intros Hx Hp Ho. pose proof (seg_call_ok ra o x A w hf Hx Hp) as Hok.
    assert (bounded (seg_call ra o) match o with OEmplaceBack _ => 2 + new_segs | _ => 0 end) as Hb.
    { destruct o; try done; unfold seg_call; simpl.
      - apply bounded_bind0; [apply bounded_s_arg|]. intros a. apply bounded_ref_back.
        eapply bounded_mono; [apply bounded_emplace_back|lia].
      - apply bounded_bind0; [apply bounded_pop_back|intros; free]. }
    specialize (Hb x w). unfold new_segs in Hb.
    destruct (seg_call ra o x w); [| |done]; destruct o; try done; destruct (SS =? 1); lia.
  Qed.
  Lemma segd_end_cost ra o x (A : sabs) w hf :
    holds (is_seg true) x A w hf -> sd_pre o (sd_geom A) = true ->
    match o with DEmplaceFront _ | DEmplaceBack _ | DPopFront | DPopBack => True | _ => False end ->
    match segd_call ra o x w with
    | Ok _ _ w' | Exn _ _ w' =>
        (tick w <= tick w' <= tick w +
         match o with DEmplaceBack _ => if (SS =? 1)%Z then 4 else 3 | DEmplaceFront _ => 3 | _ => 0 end)%nat
    | UB => False
    end.
  Proof.
    intros Hx Hp Ho. pose proof (segd_call_ok ra o x A w hf Hx Hp) as Hok.
    assert (bounded (segd_call ra o) match o with DEmplaceBack _ => 2 + new_segs | DEmplaceFront _ => 3 | _ => 0 end) as Hb.
    { destruct o; try done; unfold segd_call; simpl.
      - apply bounded_bind0; [apply bounded_s_arg|]. intros a. apply bounded_ref_front. apply bounded_emplace_front.
      - apply bounded_bind0; [apply bounded_s_arg|]. intros a. apply bounded_ref_back.
        eapply bounded_mono; [apply bounded_emplace_back|lia].
      - apply bounded_bind0; [apply bounded_pop_front|intros; free].
      - apply bounded_bind0; [apply bounded_pop_back|intros; free]. }
    specialize (Hb x w). unfold new_segs in Hb.
    destruct (segd_call ra o x w); [| |done]; destruct o; try done; destruct (SS =? 1); lia.
  Qed.
End seg.
