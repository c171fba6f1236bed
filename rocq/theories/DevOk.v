(** * sfl::devector meets its specification *)

From Verif Require Export DevTwo DevClient.
From Verif Require SeqProofs VectorOk.
From Coq Require Import ZifyBool.
From iris.proofmode Require Import environments tactics.
Open Scope Z_scope.

Section member.
  Context `{E : Env} (fixed : bool).

  (** The object [x] holds the abstract value [A]. *)
  Definition dinv (x : ddata) (A : dabs) : hProp :=
    (⟦x = dobj (e_alloc A) (e_bos A) (e_front A) (zlen (e_elems A)) (e_cap A)⟧ ∗
     dev_at (e_alloc A) (e_bos A) (e_front A) (e_elems A) (e_cap A))%I.

  Lemma dinv_intro a b p l cap m :
    m = zlen l -> dev_at a b p l cap ⊢ dinv (dobj a b p m cap) (DAbs a b p l cap).
  Proof. intros ->. iIntros "H". by iFrame. Qed.
  Lemma dinv_open x A :
    dinv x A ⊢ ∃ a b p l cap, ⟦A = DAbs a b p l cap /\ x = dobj a b p (zlen l) cap⟧ ∗ dev_at a b p l cap.
  Proof.
    destruct A as [a b p l cap]. iIntros "[%Hx Hv]". iExists a, b, p, l, cap. iFrame. done.
  Qed.

  Definition dpost (o : dop) (A : dabs) (r : rval) (A' : dabs) : Prop :=
    dev_post o (geom_of A) (e_elems A) r (e_elems A') /\ e_alloc A' = e_alloc A /\ dev_storage_post o A A'.
  Definition dop_ok (o : dop) : Prop := forall a b p l cap,
    let A := DAbs a b p l cap in
    dev_doc o (geom_of A) = true -> fixed || negb (dev_hazard o (geom_of A)) = true ->
    dev_at a b p l cap ⊢
    wp (run_dop fixed o) (dobj a b p (zlen l) cap)
      (fun r x' => ∃ A', ⟦dpost o A r A'⟧ ∗ dinv x' A')%I
      (fun e x' => ∃ A', ⟦dev_exn o A e A'⟧ ∗ dinv x' A')%I.

  Lemma d_arg_rel a b p (l : list V) cap x :
    x_ok (length l) x = true ->
    exists v, arg_value l x = Some v /\
      arg_rel (b +ₗ p) l (d_arg (dobj a b p (zlen l) cap) x) v (arg_rest l x).
  Proof.
    destruct x as [|v|j|j]; simpl; intros Hx.
    - eexists. split; [done|constructor].
    - eexists. split; [done|constructor].
    - apply Nat.ltb_lt in Hx. destruct (lookup_lt_is_Some_2 l j Hx) as [v Hv].
      exists v. split; [done|]. by constructor.
    - apply Nat.ltb_lt in Hx. destruct (lookup_lt_is_Some_2 l j Hx) as [v Hv].
      exists v. split; [done|]. rewrite Hv. by constructor.
  Qed.
  Lemma d_arg_move (o : ddata) x : x_moves x = false -> ~ is_move (d_arg o x).
  Proof. intros Hx. destruct x; simpl in *; try tauto; done. Qed.
  (** Arguments of the [resize] functions. *)
  Lemma d_arg_const a b p (l : list V) cap x (room : bool) :
    x_const (Z.to_nat (zlen l)) x room = true ->
    exists v, arg_value l x = Some v /\
      arg_rel (b +ₗ p) l (d_arg (dobj a b p (zlen l) cap) x) v l /\
      ~ is_move (d_arg (dobj a b p (zlen l) cap) x) /\
      (room = false -> free_arg (d_arg (dobj a b p (zlen l) cap) x) v).
  Proof.
    rewrite Nat2Z.id. intros Hx.
    assert (x_ok (length l) x = true /\ arg_rest l x = l) as [Hok Hr].
    { destruct x; simpl in *; try done. split; [|done]. by apply andb_true_iff in Hx as [? _]. }
    destruct (d_arg_rel a b p l cap x Hok) as (v & Hv & Har). rewrite Hr in Har. exists v.
    split_and!; try done.
    - apply d_arg_move. by destruct x.
    - intros ->. destruct x; simpl in *; [| |by rewrite andb_false_r in Hx|done].
      + injection Hv as <-. intros f l'. constructor.
      + injection Hv as <-. intros f l'. constructor.
  Qed.

  Lemma ret_didx q (k : nat) x p Q X :
    d_first x = q -> p = q +ₗ Z.of_nat k ->
    Q (RIdx (Z.of_nat k)) x ⊢
    wp (o <- getS;; z <- ptr_sub p (d_first o);; ret (RIdx z))%prog x Q X.
  Proof.
    iIntros (Hf ->) "HQ". wbind. iApply wp_get. wbeta. wbind.
    iApply (wp_psub _ _ (Z.of_nat k)); [by rewrite Hf|]. by iApply wp_ret.
  Qed.

  Ltac start Hlen :=
    match goal with A := DAbs _ _ _ _ _ |- _ => subst A end;
    iIntros "Hd"; iDestruct (dev_at_len with "Hd") as "[%Hlen Hd]";
    unfold run_dop; wbind; iApply wp_get; wbeta; cbv zeta; dred; rewrite ?loc_add_assoc.
  Ltac finish a b p l cap :=
    iExists (DAbs a b p l cap); iSplit; [iPureIntro|iApply (dinv_intro with "Hd"); try done; try lia].
  Ltac red_spec :=
    unfold dpost, dev_exn, dev_strong, dev_storage_post, dev_post, stays, made_room, renewed, geom_of in *;
    cbn [e_alloc e_bos e_front e_elems e_cap g_front g_size g_cap] in *.

  Lemma room_to_spec at_front n a b p l cap b' p' l' cap' a' :
    room_to at_front n (Geom p (zlen l) cap) b b' p' cap' ->
    made_room at_front n (DAbs a b p l cap) (DAbs a' b' p' l' cap').
  Proof.
    intros (-> & -> & Hb). unfold made_room, geom_of. cbn [e_front e_elems e_cap e_bos].
    destruct (make_room at_front n _) as [realloc g]. by split_and!.
  Qed.

  Lemma ok_emplace i x : dop_ok (DEmplace i x).
  Proof.
    intros a b p l cap A Hpre Hhaz. simpl in Hpre. apply andb_true_iff in Hpre as [Hi Hx].
    rewrite Nat2Z.id in Hi, Hx. apply Nat.leb_le in Hi.
    destruct (d_arg_rel a b p l cap x Hx) as (v & Hv & Har).
    start Hlen. unfold d_idx. wbind. iApply (wp_dv_emplace with "Hd"); [done|done|done|done|]. iSplit.
    - iIntros (b' p' cap') "%Hr Hd". iApply (ret_didx (b' +ₗ p') i); [done|by rewrite loc_add_assoc|].
      finish a b' p' (insert_at i [v] (arg_rest l x)) cap'. split_and!; [|done|].
      + exists v. by split_and!.
      + by apply room_to_spec.
    - iIntros (e l') "%Hb Hd". destruct Hb as [Hl Hb]. finish a b p l' cap. red_spec.
      split_and!; try done.
      + intros [Hm Hs]. rewrite (SeqProofs.arg_rest_same l x Hm) in Hb. f_equal.
        destruct e; try (by destruct Hb). apply Hb; [by apply d_arg_move|].
        unfold emplace_here. cbn [g_front g_size g_cap]. destruct Hs as [?|[(?&?&?)|?]]; [by left; left| |by right].
        left. right. split_and!; [done|lia|done].
      + by destruct e.
  Qed.
  Lemma ok_emplace_front x : dop_ok (DEmplaceFront x).
  Proof.
    intros a b p l cap A Hpre _. simpl in Hpre. rewrite Nat2Z.id in Hpre.
    destruct (d_arg_rel a b p l cap x Hpre) as (v & Hv & Har).
    start Hlen. unfold d_idx. wbind. iApply (wp_emplace_front with "Hd"); [done|]. iSplit.
    - iIntros (b' p' cap') "%Hr Hd". iApply (ret_didx (b' +ₗ p') 0); [done|by rewrite loc_add_0|].
      finish a b' p' (v :: arg_rest l x) cap'. split_and!; [|done|].
      + exists v. by split_and!.
      + by apply room_to_spec.
    - iIntros (e l') "%Hb Hd". destruct Hb as [Hl Hb]. finish a b p l' cap. red_spec.
      split_and!; try done.
      + intros [Hm Hs]. rewrite (SeqProofs.arg_rest_same l x Hm) in Hb. f_equal.
        destruct e; try (by destruct Hb). apply Hb; [by apply d_arg_move|done].
      + by destruct e.
  Qed.
  Lemma ok_emplace_back x : dop_ok (DEmplaceBack x).
  Proof.
    intros a b p l cap A Hpre _. simpl in Hpre. rewrite Nat2Z.id in Hpre.
    destruct (d_arg_rel a b p l cap x Hpre) as (v & Hv & Har).
    start Hlen. unfold d_idx. wbind. iApply (wp_emplace_back with "Hd"); [done|]. iSplit.
    - iIntros (b' p' cap') "%Hr Hd". iApply (ret_didx (b' +ₗ p') (length l)); [done|by rewrite loc_add_assoc|].
      finish a b' p' (arg_rest l x ++ [v]) cap'. split_and!; [|done|].
      + exists v. by split_and!.
      + by apply room_to_spec.
    - iIntros (e l') "%Hb Hd". destruct Hb as [Hl Hb]. finish a b p l' cap. red_spec.
      split_and!; try done.
      + intros [Hm Hs]. rewrite (SeqProofs.arg_rest_same l x Hm) in Hb. f_equal.
        destruct e; try (by destruct Hb). apply Hb; [by apply d_arg_move|done].
      + by destruct e.
  Qed.
  Lemma ok_insert_n i n x : dop_ok (DInsertN i n x).
  Proof.
    intros a b p l cap A Hpre Hhaz. simpl in Hpre. apply andb_true_iff in Hpre as [Hi Hx].
    rewrite Nat2Z.id in Hi. apply Nat.leb_le in Hi. destruct x as [|v|j|j]; try done. cbn [d_arg].
    start Hlen. unfold d_idx. wbind. iApply (wp_dv_insert_fill with "Hd"); [done|done|done|]. iSplit.
    - iIntros (b' p' cap') "%Hr Hd". iApply (ret_didx (b' +ₗ p') i); [done|by rewrite loc_add_assoc|].
      finish a b' p' (insert_at i (replicate n v) l) cap'. split_and!; [|done|].
      + exists v. by split_and!.
      + by apply room_to_spec.
    - iIntros (e l') "%Hb Hd". destruct Hb as [Hl Hb]. finish a b p l' cap. red_spec.
      split_and!; try done. by destruct e.
  Qed.
  Lemma ok_insert_range i vs : dop_ok (DInsertRange i vs).
  Proof.
    intros a b p l cap A Hi Hhaz. simpl in Hi.
    rewrite Nat2Z.id in Hi. apply Nat.leb_le in Hi.
    start Hlen. unfold d_idx. wbind. iApply (wp_dv_insert_range with "Hd"); [done|done|done|]. iSplit.
    - iIntros (b' p' cap') "%Hr Hd". iApply (ret_didx (b' +ₗ p') i); [done|by rewrite loc_add_assoc|].
      finish a b' p' (insert_at i vs l) cap'. split_and!; [done|done|by apply room_to_spec].
    - iIntros (e l') "%Hb Hd". destruct Hb as [Hl Hb]. finish a b p l' cap. red_spec.
      split_and!; try done. by destruct e.
  Qed.
  Lemma ok_insert_input i vs : dop_ok (DInsertInput i vs).
  Proof.
    intros a b p l cap A Hi Hhaz. simpl in Hi.
    rewrite Nat2Z.id in Hi. apply Nat.leb_le in Hi.
    start Hlen. unfold d_idx. wbind. iApply (wp_dv_insert_input with "Hd"); [done|done|done|]. iSplit.
    - iIntros (b' p' cap') "Hd". iApply (ret_didx (b' +ₗ p') i); [done|by rewrite loc_add_assoc|].
      finish a b' p' (insert_at i vs l) cap'. done.
    - iIntros (e b' p' l' cap') "%Hb Hd". finish a b' p' l' cap'. red_spec.
      destruct Hb as [? Hb]. split_and!; try done; lia.
  Qed.
  Lemma ok_pop_front : dop_ok DPopFront.
  Proof.
    intros a b p l cap A Hi _. simpl in Hi. destruct l as [|v l]; [done|].
    start Hlen. unfold d_unit. wbind. iApply (wp_dv_pop_front with "Hd"). iIntros "Hd". iApply wp_ret.
    finish a b (p + 1) l cap. red_spec. split_and!; try done. by exists v.
  Qed.
  Lemma ok_pop_back : dop_ok DPopBack.
  Proof.
    intros a b p l cap A Hi _. simpl in Hi.
    destruct l as [|v l _] using rev_ind; [done|].
    start Hlen. unfold d_unit. wbind. iApply (wp_dv_pop_back with "Hd"). iIntros "Hd". iApply wp_ret.
    finish a b p l cap. red_spec. split_and!; try done. by exists v.
  Qed.
  Lemma ok_erase i : dop_ok (DErase i).
  Proof.
    intros a b p l cap A Hi _. simpl in Hi. rewrite Nat2Z.id in Hi. apply Nat.ltb_lt in Hi.
    start Hlen. unfold d_idx. wbind. iApply (wp_dv_erase with "Hd"); [done|done|]. iSplit.
    - cbv zeta. iIntros "Hd".
      set (p' := if Z.of_nat i <? zlen l - Z.of_nat i then p + 1 else p).
      iApply (ret_didx (b +ₗ p') i); [done|by rewrite loc_add_assoc|].
      finish a b p' (take i l ++ drop (S i) l) cap. done.
    - iIntros (l') "%Hx Hd". destruct Hx as [Hl Hx]. finish a b p l' cap. red_spec. by split_and!.
  Qed.
  Lemma ok_erase_range i j : dop_ok (DEraseRange i j).
  Proof.
    intros a b p l cap A Hi _. simpl in Hi. rewrite Nat2Z.id in Hi.
    start Hlen. unfold d_idx. wbind. iApply (wp_dv_erase_range _ _ _ _ _ i j with "Hd"); [lia|done|done|]. iSplit.
    - cbv zeta. iIntros "Hd".
      set (p' := if Z.of_nat i <? zlen l - Z.of_nat j then p + (Z.of_nat j - Z.of_nat i) else p).
      iApply (ret_didx (b +ₗ p') i); [done|by rewrite loc_add_assoc|].
      finish a b p' (take i l ++ drop j l) cap. done.
    - iIntros (l') "%Hx Hd". destruct Hx as [Hl Hx]. finish a b p l' cap. red_spec. by split_and!.
  Qed.
  Lemma ok_resize n x : dop_ok (DResize n x).
  Proof.
    intros a b p l cap A Hx _. unfold dev_doc in Hx. cbn in Hx.
    destruct (d_arg_const a b p l cap x _ Hx) as (v & Hv & Har & Hm & Hfree).
    start Hlen. unfold d_unit. wbind. iApply (wp_dv_resize with "Hd"); [done|done| |].
    { intros. apply Hfree. lia. }
    iSplit.
    - iIntros (b' p' cap') "%Hr Hd". iApply wp_ret.
      iDestruct (dev_at_len with "Hd") as "[%Hlen' Hd]".
      assert (zlen (DevSpec.resized (Geom p (zlen l) cap) n v l) = Z.of_nat n) as Hn.
      { unfold DevSpec.resized, g_back. cbn [g_front g_size g_cap]. len. lia. }
      finish a b' p' (DevSpec.resized (Geom p (zlen l) cap) n v l) cap'. red_spec. split_and!; try done.
      + by exists v.
      + unfold g_back. cbn [g_front g_size g_cap].
        replace (zlen l + (cap - p - zlen l)) with (cap - p) by lia.
        destruct (Z.of_nat n <=? cap - p); [naive_solver|]. destruct (Z.of_nat n <=? cap); naive_solver.
    - iIntros (e b' l' cap') "%Hb Hd". destruct Hb as (Hn & Hl & Hk & Hs & He).
      finish a b' p l' cap'. red_spec. split_and!; try done.
      + unfold g_back. cbn [g_front g_size g_cap]. intros. destruct Hs as (-> & -> & ->); [lia|done].
      + lia.
      + lia.
      + intros Hc. destruct (Hk Hc) as [k Hk']. by exists k, v.
      + destruct e; try done; destruct He as (-> & -> & -> & ?); done.
  Qed.
  Lemma ok_resize_front n x : dop_ok (DResizeFront n x).
  Proof.
    intros a b p l cap A Hx _. unfold dev_doc in Hx. cbn in Hx.
    destruct (d_arg_const a b p l cap x _ Hx) as (v & Hv & Har & Hm & Hfree).
    start Hlen. unfold d_unit. wbind. iApply (wp_dv_resize_front with "Hd"); [done|done| |].
    { intros. apply Hfree. lia. }
    iSplit.
    - iIntros (b' p' cap') "%Hr Hd". iApply wp_ret.
      finish a b' p' (replicate (n - length l) v ++ drop (length l - n) l) cap'; last by len; lia.
      red_spec. split_and!; try done.
      + by exists v.
      + unfold g_back. cbn [g_front g_size g_cap]. destruct (Z.of_nat n <=? p + zlen l); naive_solver.
    - iIntros (e b' p' l' cap') "%Hb Hd". destruct Hb as (Hn & Hl & He).
      finish a b' p' l' cap'. red_spec. unfold g_back in *. cbn [g_front g_size g_cap] in *. split_and!; try done.
      + intros Hr. destruct Hl as [(-> & -> & -> & _ & Hl)|[? _]]; [|lia]. rewrite Hl; [done|by right].
      + destruct Hl as [(-> & -> & -> & Hl1 & Hl)|(? & ? & ? & ?)]; [left|right; by split_and!].
        split_and!; try done. intros Hr. by rewrite Hl.
      + destruct e; try done; destruct He as (-> & -> & -> & -> & ?); done.
  Qed.
  Lemma ok_resize_back n x : dop_ok (DResizeBack n x).
  Proof.
    intros a b p l cap A Hx _. unfold dev_doc in Hx. cbn in Hx. unfold g_back in Hx. cbn in Hx.
    destruct (d_arg_const a b p l cap x _ Hx) as (v & Hv & Har & Hm & Hfree).
    start Hlen. unfold d_unit. wbind. iApply (wp_dv_resize_back with "Hd"); [done|done| |].
    { intros. apply Hfree. lia. }
    iSplit.
    - iIntros (b' cap') "%Hr Hd". iApply wp_ret.
      finish a b' p (take n l ++ replicate (n - length l) v) cap'; last by len; lia.
      red_spec. split_and!; try done.
      + by exists v.
      + unfold g_back. cbn [g_front g_size g_cap].
        replace (zlen l + (cap - p - zlen l)) with (cap - p) by lia.
        destruct (Z.of_nat n <=? cap - p); naive_solver.
    - iIntros (e b' p' l' cap') "%Hb Hd". destruct Hb as (Hn & Hl & He).
      finish a b' p' l' cap'. red_spec. unfold g_back in *. cbn [g_front g_size g_cap] in *.
      replace (zlen l + (cap - p - zlen l)) with (cap - p) by lia. split_and!; try done.
      + intros Hr. destruct Hl as [(-> & -> & -> & _ & Hl)|[? _]]; [|lia]. rewrite Hl; [done|by right].
      + destruct Hl as [(-> & -> & -> & Hl1 & Hl)|(? & ? & ? & ?)]; [left|right; by split_and!].
        split_and!; try done. intros Hr. by rewrite Hl.
      + destruct e; try done; destruct He as (-> & -> & -> & -> & ?); done.
  Qed.

  Lemma assign_to_spec (n : nat) a b p l cap b' p' l' cap' a' :
    assign_to n p cap b b' p' cap' ->
    let A := DAbs a b p l cap in let A' := DAbs a' b' p' l' cap' in
    if Z.of_nat n <=? g_size (geom_of A) + g_back (geom_of A) then stays A A' (e_front A)
    else if Z.of_nat n <=? e_cap A then stays A A' (e_cap A - Z.of_nat n) else renewed A' 0 (Z.of_nat n).
  Proof.
    unfold assign_to, stays, renewed, geom_of, g_back. cbn [e_front e_elems e_cap e_bos g_front g_size g_cap].
    replace (zlen l + (cap - p - zlen l)) with (cap - p) by lia. intros H.
    destruct (Z.of_nat n <=? cap - p); [naive_solver|]. destruct (Z.of_nat n <=? cap); naive_solver.
  Qed.
  Lemma ok_assign_n n v : dop_ok (DAssignN n v).
  Proof.
    intros a b p l cap A _ _. start Hlen. unfold d_unit. wbind. iApply (wp_dv_assign_fill with "Hd"). iSplit.
    - iIntros (b' p' cap') "%Hr Hd". iApply wp_ret. finish a b' p' (replicate n v) cap'; last by len; lia.
      split_and!; [done|done|]. by apply assign_to_spec.
    - iIntros (e b' l' cap') "%Hb Hd". destruct Hb as (Hl & Hs & He).
      finish a b' p l' cap'. red_spec. unfold g_back in *. cbn [g_front g_size g_cap] in *. split_and!; try done.
      + intros. destruct Hs as (-> & -> & ?); [lia|done].
      + destruct e; try done; destruct He as (-> & -> & -> & ?); done.
  Qed.
  Lemma ok_assign_range vs : dop_ok (DAssignRange vs).
  Proof.
    intros a b p l cap A _ _. start Hlen. unfold d_unit. wbind.
    iApply (wp_dv_assign_range emp%I emp%I emp%I with "[//] Hd"); [apply src3_vals|]. iSplit.
    - iIntros (b' p' cap') "%Hr _ Hd". iApply wp_ret. finish a b' p' vs cap'.
      split_and!; [done|done|]. by apply assign_to_spec.
    - iIntros (e b' l' cap') "%Hb H Hd". destruct Hb as (Hl & Hs & He).
      iAssert emp%I with "[H]" as "_"; [by destruct e|].
      finish a b' p l' cap'. red_spec. unfold g_back in *. cbn [g_front g_size g_cap] in *. split_and!; try done.
      + intros. destruct Hs as (-> & -> & ?); [lia|done].
      + destruct e; try done; destruct He as (-> & -> & -> & ?); done.
  Qed.
  Lemma ok_assign_input vs : dop_ok (DAssignInput vs).
  Proof.
    intros a b p l cap A _ _. start Hlen. unfold d_unit. wbind.
    iApply (wp_dv_assign_input with "Hd"). iSplit.
    - iIntros (b' p' cap') "%Hr Hd". iApply wp_ret. finish a b' p' vs cap'.
      red_spec. unfold g_back. cbn [g_front g_size g_cap]. split_and!; try done.
      intros. destruct Hr as (-> & -> & ->); [lia|done].
    - iIntros (e b' p' l' cap') "%Hb Hd". finish a b' p' l' cap'. red_spec.
      destruct Hb as [? Hb]. split_and!; try done; lia.
  Qed.
  Lemma ok_clear : dop_ok DClear.
  Proof.
    intros a b p l cap A _ _. start Hlen. unfold d_unit. wbind. iApply (wp_dv_clear with "Hd").
    iIntros "Hd". iApply wp_ret. finish a b p (@nil V) cap. done.
  Qed.

  Lemma move_bad_spec cap' e a b p l cap l' :
    move_bad cap' e l l' -> cap <> cap' ->
    let A := DAbs a b p l cap in let A' := DAbs a b p l' cap in
    (nothrow_move || copyable = true -> A' = A) /\
    stays A A' p /\ length l' = length l /\
    match e with
    | ELength => A' = A /\ max_size < cap'
    | EBadAlloc => A' = A
    | EUser => cap' <> cap
    | EOutOfRange => False
    end.
  Proof.
    intros (Hl & Hs & He) Hc. cbv zeta. split_and!; try done.
    - intros Hn. by rewrite Hs.
    - destruct e; try done.
      + by destruct He as [-> ?].
      + by rewrite He.
  Qed.
  Lemma ok_reserve_front n : dop_ok (DReserveFront n).
  Proof.
    intros a b p l cap A _ _. start Hlen. unfold d_unit. wbind.
    iApply (wp_dv_reserve_front with "Hd"); [lia|]. iSplit.
    - iIntros (b' p' cap') "%Hr Hd". iApply wp_ret. finish a b' p' l cap'.
      split_and!; [done|done|]. unfold to_storage in Hr. red_spec. unfold g_back. cbn [g_front g_size g_cap].
      destruct (Z.of_nat n <=? p + zlen l); naive_solver.
    - iIntros (e l') "%Hb Hd". destruct Hb as [Hb Hn]. finish a b p l' cap; last by destruct Hb; lia.
      destruct (move_bad_spec _ _ a b p _ cap _ Hb) as (?&?&?&?); [lia|]. unfold dev_exn, dev_strong.
      by split_and!.
  Qed.
  Lemma ok_reserve_back n : dop_ok (DReserveBack n).
  Proof.
    intros a b p l cap A _ _. start Hlen. unfold d_unit. wbind.
    iApply (wp_dv_reserve_back with "Hd"); [lia|]. iSplit.
    - iIntros (b' p' cap') "%Hr Hd". iApply wp_ret. finish a b' p' l cap'.
      split_and!; [done|done|]. unfold to_storage in Hr. red_spec. unfold g_back. cbn [g_front g_size g_cap].
      destruct (Z.of_nat n <=? zlen l + (cap - p - zlen l)); naive_solver.
    - iIntros (e l') "%Hb Hd". destruct Hb as [Hb Hn]. finish a b p l' cap; last by destruct Hb; lia.
      destruct (move_bad_spec _ _ a b p _ cap _ Hb) as (?&?&?&?); [lia|]. unfold dev_exn, dev_strong.
      by split_and!.
  Qed.
  Lemma ok_shrink : dop_ok DShrink.
  Proof.
    intros a b p l cap A _ _. start Hlen. unfold d_unit. wbind.
    iApply (wp_dv_shrink with "Hd"). iSplit.
    - iIntros (b' p' cap') "%Hr Hd". iApply wp_ret. finish a b' p' l cap'.
      split_and!; [done|done|]. unfold to_storage in Hr. red_spec.
      destruct (cap <=? zlen l); naive_solver.
    - iIntros (e l') "%Hb Hd". destruct Hb as [Hb Hn]. finish a b p l' cap; last by destruct Hb; lia.
      destruct (move_bad_spec _ _ a b p _ cap _ Hb) as (?&?&?&?); [lia|]. unfold dev_exn, dev_strong.
      by split_and!.
  Qed.

  Lemma wp_read_elem f (l : list V) i v (s : ddata) q Q X :
    l !! i = Some v -> q = f +ₗ Z.of_nat i ->
    elems f l ⊢ (elems f l -∗ Q v s) -∗ wp (read q) s Q X.
  Proof.
    iIntros (Hi ->) "Hl HQ".
    iDestruct (elems_split _ _ (take i l) (v :: drop (S i) l) (f +ₗ Z.of_nat i) with "Hl") as "[H1 H2]".
    { symmetry. by apply take_drop_middle. }
    { rewrite take_length_le; [done|]. apply lookup_lt_Some in Hi. lia. }
    iDestruct (elems_cons with "H2") as "[Hx H2]".
    iApply (wp_read with "Hx"). iIntros "Hx". iApply "HQ".
    iApply (elems_join with "H1 [Hx H2]").
    { rewrite take_length_le; [done|]. apply lookup_lt_Some in Hi. lia. }
    { symmetry. by apply take_drop_middle. }
    rewrite elems_cons. iFrame.
  Qed.
  Lemma wp_dev_read a b p l cap i v (s : ddata) q Q X :
    l !! i = Some v -> q = b +ₗ (p + Z.of_nat i) ->
    dev_at a b p l cap ⊢ (dev_at a b p l cap -∗ Q v s) -∗ wp (read q) s Q X.
  Proof.
    iIntros (Hi ->) "Hd HQ". iDestruct (dev_at_open with "Hd") as "[Hl Hd]".
    iApply (wp_read_elem with "Hl"); [done|by rewrite loc_add_assoc|]. iIntros "Hl". iApply "HQ". by iApply "Hd".
  Qed.
  Lemma wp_dv_index a b p (l : list V) cap i Q X :
    (i < length l)%nat ->
    Q (b +ₗ (p + Z.of_nat i)) (dobj a b p (zlen l) cap) ⊢
    wp (dv_index (Z.of_nat i)) (dobj a b p (zlen l) cap) Q X.
  Proof.
    iIntros (Hi) "HQ". unfold dv_index. wbind. iApply wp_get. wbeta. dred. wbind. iApply wp_dv_size. wbeta. wbind.
    iApply wp_assert; [lia|]. rewrite loc_add_assoc. by iApply wp_ret.
  Qed.
  Lemma ok_at i : dop_ok (DAt i).
  Proof.
    intros a b p l cap A _ _. start Hlen. wbind. unfold dv_at. wbind. iApply wp_dv_size. wbeta. wbind.
    iApply wp_get. wbeta. dred. destruct (Z.leb_spec (zlen l) (Z.of_nat i)) as [Hi|Hi].
    - iApply wp_throw; [by (left + right)|]. finish a b p l cap. red_spec. split_and!; try done. lia.
    - destruct (lookup_lt_is_Some_2 l i) as [v Hv]; [lia|]. rewrite loc_add_assoc.
      iApply (wp_dev_read with "Hd"); [done|done|]. iIntros "Hd". iApply wp_ret. finish a b p l cap.
      red_spec. split_and!; try done. by exists v.
  Qed.
  Lemma ok_get i : dop_ok (DGet i).
  Proof.
    intros a b p l cap A Hi _. simpl in Hi. rewrite Nat2Z.id in Hi. apply Nat.ltb_lt in Hi.
    start Hlen. unfold d_val. wbind. iApply wp_dv_index; [done|]. wbind.
    destruct (lookup_lt_is_Some_2 l i Hi) as [v Hv].
    iApply (wp_dev_read with "Hd"); [done|done|]. iIntros "Hd". iApply wp_ret. finish a b p l cap.
    red_spec. split_and!; try done. by exists v.
  Qed.
  Lemma ok_front : dop_ok DFront.
  Proof.
    intros a b p l cap A Hi _. simpl in Hi. rewrite Nat2Z.id in Hi. apply Nat.ltb_lt in Hi.
    start Hlen. unfold d_val. wbind. unfold dv_get_front. wbind. iApply wp_get. wbeta. dred. wbind.
    iApply wp_assert; [by apply not_empty|]. iApply wp_ret. wbind.
    destruct l as [|v l]; [simpl in Hi; lia|].
    iApply (wp_dev_read _ _ _ _ _ 0 v with "Hd"); [done|f_equal; lia|]. iIntros "Hd". iApply wp_ret.
    finish a b p (v :: l) cap. red_spec. split_and!; try done. by exists v.
  Qed.
  Lemma ok_back : dop_ok DBack.
  Proof.
    intros a b p l cap A Hi _. simpl in Hi. rewrite Nat2Z.id in Hi. apply Nat.ltb_lt in Hi.
    start Hlen. unfold d_val. wbind. unfold dv_get_back. wbind. iApply wp_get. wbeta. dred. wbind.
    iApply wp_assert; [by apply not_empty|]. iApply wp_ret. wbind.
    destruct (lookup_lt_is_Some_2 l (length l - 1)) as [v Hv]; [lia|].
    iApply (wp_dev_read _ _ _ _ _ (length l - 1) v with "Hd"); [done|rewrite loc_add_assoc; f_equal; lia|].
    iIntros "Hd". iApply wp_ret. finish a b p l cap. red_spec. split_and!; try done. exists v. split_and!; try done.
    rewrite last_lookup. by replace (pred (length l)) with (length l - 1)%nat by lia.
  Qed.
  Lemma ok_set i v : dop_ok (DSet i v).
  Proof.
    intros a b p l cap A Hi _. simpl in Hi. rewrite Nat2Z.id in Hi. apply Nat.ltb_lt in Hi.
    start Hlen. unfold d_unit. wbind. wbind. iApply wp_dv_index; [done|].
    destruct (lookup_lt_is_Some_2 l i Hi) as [u Hu].
    iDestruct (dev_at_open with "Hd") as "[Hl Hd]".
    iDestruct (elems_split _ _ (take i l) (u :: drop (S i) l) (b +ₗ (p + Z.of_nat i)) with "Hl") as "[H1 H2]".
    { symmetry. by apply take_drop_middle. }
    { rewrite take_length_le; [by rewrite loc_add_assoc|lia]. }
    iDestruct (elems_cons with "H2") as "[Hx H2]".
    assert (forall u', length (<[i := u']> l) = length l) as Hins by (intros; apply insert_length).
    iAssert (∀ u', (b +ₗ (p + Z.of_nat i)) ↦ Live u' -∗ dev_at a b p (<[i := u']> l) cap)%I
      with "[H1 H2 Hd]" as "Hcl".
    { iIntros (u') "Hx". iApply "Hd"; [by rewrite Hins|].
      iApply (elems_join _ (<[i := u']> l) (take i l) (u' :: drop (S i) l) with "H1 [Hx H2]").
      { rewrite take_length_le; [by rewrite loc_add_assoc|lia]. }
      { by apply (insert_take_drop l i u'). }
      rewrite elems_cons. iFrame. }
    iApply (as_ok_val emp%I v with "[//] Hx"). iSplit.
    - iIntros "_ Hx". iDestruct ("Hcl" with "Hx") as "Hd". iApply wp_ret.
      finish a b p (<[i := v]> l) cap; last by rewrite Hins. done.
    - iIntros (c) "_ Hx". iDestruct ("Hcl" with "Hx") as "Hd".
      finish a b p (<[i := c]> l) cap; last by rewrite Hins.
      red_spec. split_and!; try done. by exists c.
  Qed.
  Lemma ok_size : dop_ok DSize.
  Proof.
    intros a b p l cap A _ _. start Hlen. unfold d_num. wbind. iApply wp_dv_size. iApply wp_ret.
    finish a b p l cap. done.
  Qed.
  Lemma ok_capacity : dop_ok DCapacity.
  Proof.
    intros a b p l cap A _ _. start Hlen. unfold d_num. wbind. iApply wp_dv_capacity. iApply wp_ret.
    finish a b p l cap. done.
  Qed.
  Lemma ok_room_front : dop_ok DRoomFront.
  Proof.
    intros a b p l cap A _ _. start Hlen. unfold d_num. wbind. iApply wp_dv_front_room. iApply wp_ret.
    finish a b p l cap. done.
  Qed.
  Lemma ok_room_back : dop_ok DRoomBack.
  Proof.
    intros a b p l cap A _ _. start Hlen. unfold d_num. wbind. iApply wp_dv_back_room. iApply wp_ret.
    finish a b p l cap. done.
  Qed.
  Lemma ok_erase_if f : dop_ok (DEraseIf f).
  Proof.
    intros a b p l cap A _ _. start Hlen. unfold d_num. wbind. iApply (wp_dv_erase_if with "Hd"). iSplit.
    - iIntros "Hd". iApply wp_ret. finish a b p (keep f l) cap. red_spec. split_and!; try done.
      by rewrite SeqProofs.filter_split_length.
    - iIntros (l') "%Hl Hd". finish a b p l' cap. red_spec. by split_and!.
  Qed.
  Lemma ok_self_move : dop_ok DSelfMove.
  Proof.
    intros a b p l cap A _ Hhaz. cbn in Hhaz. start Hlen. unfold d_unit. wbind.
    iApply (wp_dv_assign_move_self with "Hd").
    { destruct fixed; [by left|right]. simpl in Hhaz. lia. }
    iIntros "Hd". iApply wp_ret. finish a null 0 (@nil V) 0. done.
  Qed.

  Lemma dop_all o : dop_ok o.
  Proof.
    destruct o; eauto using ok_emplace, ok_emplace_front, ok_emplace_back, ok_insert_n, ok_insert_range,
      ok_insert_input, ok_pop_front, ok_pop_back, ok_erase, ok_erase_range, ok_resize, ok_resize_front,
      ok_resize_back, ok_assign_n, ok_assign_range, ok_assign_input, ok_clear, ok_reserve_front,
      ok_reserve_back, ok_shrink, ok_at, ok_get, ok_front, ok_back, ok_set, ok_size, ok_capacity,
      ok_room_front, ok_room_back, ok_erase_if, ok_self_move.
  Qed.

  Lemma dev_build_ok c :
    ⊢ wp (build (devector fixed) c) tt (fun x _ => ∃ A, ⟦dev_k_post c A⟧ ∗ dinv x A)%I
         (fun e _ => ⟦dev_k_exn c e⟧)%I.
  Proof.
    iApply VectorOk.wp_construct_obj. rewrite dev_empty_dobj.
    destruct c as [a|a n x|a vs|a vs]; cbn [k_alloc dv_ctor].
    - iApply wp_ret. iDestruct (dev_at_null a with "[//]") as "Hd". finish a null 0 (@nil V) 0. done.
    - assert (Hx : exists v ar, dv_ctor fixed (KFill a n x) = dv_init_fill (Z.of_nat n) ar /\
                   mk_ok emp emp ar v emp /\ k_elems (KFill a n x) = replicate n v).
      { destruct x as [v|]; eexists _, _; (split; [done|split; [|done]]); [apply mk_ok_val|apply mk_ok_def]. }
      destruct Hx as (v & ar & Hr & Hmk & Hk). cbn [dv_ctor] in Hr. rewrite Hr.
      iApply (wp_dv_init_fill with "[//]"); [done|]. iSplit.
      + iIntros (b) "Hd". finish a b 0 (replicate n v) (Z.of_nat n); last by len; lia.
        unfold dev_k_post. rewrite Hk. split_and!; try done. cbn. by rewrite replicate_length.
      + iIntros (e s) "%He". iPureIntro. unfold dev_k_exn. rewrite Hk.
        destruct e; simpl in *; rewrite ?replicate_length; try done. by left.
    - iApply (wp_dv_init_range emp%I emp%I emp%I with "[//]"); [apply mks_vals|by rewrite fmap_length|]. iSplit.
      + iIntros (b) "_ Hd". finish a b 0 vs (zlen vs). done.
      + iIntros (e s) "%He HP". iAssert emp%I with "[HP]" as "_"; [by destruct e|].
        iPureIntro. destruct e; simpl in *; try done. by left.
    - iApply (wp_dv_init_input with "[//]"). iSplit.
      + iIntros (b p cap) "Hd". iDestruct (dev_at_len with "Hd") as "[%Hlen Hd]".
        finish a b p vs cap. split_and!; try done. cbn. lia.
      + iIntros (e s) "%He". iPureIntro. destruct e; simpl in *; try done. right. by eexists _, _.
  Qed.

  Lemma ctor_exn (l : list V) e : ctor_fail (length l) e -> k_exn l e.
  Proof. by destruct e. Qed.
  Ltac give H a b p l cap :=
    iSplitL H; [iApply (dinv_intro a b p l cap with H); len; lia|].

  Lemma dev_build2_ok c x A :
    dinv x A ⊢ wp (build2 (devector fixed) c) x
      (fun y x' => ∃ B A', ⟦dev_k2_post c A B A'⟧ ∗ dinv y B ∗ dinv x' A')%I
      (fun e x' => ∃ A', ⟦dev_k2_exn c A e A'⟧ ∗ dinv x' A')%I.
  Proof.
    iIntros "Hx". iDestruct (dinv_open with "Hx") as (a b p l cap) "[%Hx Hd]". destruct Hx as [-> ->].
    iApply VectorOk.wp_construct_from. destruct c as [|a'| |a']; cbn [dv_ctor2].
    - iApply (wp_dv_copy_ctor with "Hd"). iSplit.
      + iIntros (b') "Hn Hd". iExists (DAbs _ _ _ _ _), _.
        iSplit; [|iSplitL "Hn"; by iApply dinv_intro]. iPureIntro. by split_and!.
      + iIntros (e s1) "%He Hd". iExists _. iSplit; [|by iApply dinv_intro].
        iPureIntro. split; [by apply ctor_exn|done].
    - iApply (wp_dv_copy_ctor_alloc with "Hd"). iSplit.
      + iIntros (b') "Hn Hd". iExists (DAbs _ _ _ _ _), _.
        iSplit; [|iSplitL "Hn"; by iApply dinv_intro]. iPureIntro. by split_and!.
      + iIntros (e s1) "%He Hd". iExists _. iSplit; [|by iApply dinv_intro].
        iPureIntro. split; [by apply ctor_exn|done].
    - unfold dv_move_ctor. wbind. iApply wp_get. wbind. iApply wp_put. cbn [fst snd]. dred.
      rewrite dev_empty_dobj. iApply (wp_dv_init_move_same with "Hd"). iIntros "Hn Hd".
      iExists (DAbs _ _ _ _ _), (DAbs _ _ _ [] _).
      iSplit; [|iSplitL "Hn"; [by iApply dinv_intro|by iApply (dinv_intro with "Hd")]]. iPureIntro. by split_and!.
    - unfold dv_move_ctor_alloc. wbind. iApply wp_get. wbind. iApply wp_put. cbn [fst snd]. rewrite dev_empty_dobj.
      destruct (decide (a' = a)) as [->|Ha].
      + iApply (wp_dv_init_move_same with "Hd"). iIntros "Hn Hd".
        iExists (DAbs _ _ _ _ _), (DAbs _ _ _ [] _).
        iSplit; [|iSplitL "Hn"; [by iApply dinv_intro|by iApply (dinv_intro with "Hd")]]. iPureIntro.
        split; [done|]. cbn [e_alloc]. by rewrite decide_True.
      + iApply (wp_dv_init_move_other with "Hd"); [done|]. iSplit.
        * iIntros (b') "Hn Hd". iExists (DAbs _ _ _ _ _), (DAbs _ _ _ _ _).
          iSplit; [|iSplitL "Hn"; by iApply dinv_intro]. iPureIntro. split; [done|]. cbn [e_alloc].
          rewrite decide_False; [|done]. by split_and!.
        * iIntros (e s1 l2') "%He Hd". destruct He as (He & Hl & Hx). iExists _. iSplit; [|by iApply dinv_intro].
          iPureIntro. split; [by apply ctor_exn|]. split_and!; try done. intros Hu. by rewrite Hx.
  Qed.

  Lemma dev_run2_ok o x A y B :
    dev_pre2 o A B -> (fixed = false -> ~ dev_hazard2 o A B) ->
    dinv x A ∗ dinv y B ⊢ wp (dv_run2 fixed o) (x, y)
      (fun r xy => ∃ A' B', ⟦dev_post2 o A B r A' B'⟧ ∗ dinv xy.1 A' ∗ dinv xy.2 B')%I
      (fun e xy => ∃ A' B', ⟦dev_exn2 o A B e A' B'⟧ ∗ dinv xy.1 A' ∗ dinv xy.2 B')%I.
  Proof.
    iIntros (Hpre Hhaz) "[Hx Hy]".
    iDestruct (dinv_open with "Hx") as (a1 b1 p1 l1 c1) "[%Hx Hx]". destruct Hx as [-> ->].
    iDestruct (dinv_open with "Hy") as (a2 b2 p2 l2 c2) "[%Hy Hy]". destruct Hy as [-> ->].
    assert (Hh : dev_hazard2 o (DAbs a1 b1 p1 l1 c1) (DAbs a2 b2 p2 l2 c2) -> fixed = true).
    { intros. destruct fixed; [done|]. by destruct Hhaz. }
    destruct o as [| | |r|lt]; cbn [dv_run2]; unfold unit_result, bool_result.
    - wbind. iApply (wp_dv_assign_copy with "Hx Hy").
      { intros. destruct (decide (p1 = 0)); [by right|left]. by apply Hh. }
      iSplit.
      + iIntros (b1' p1' c1') "%Hk Hx Hy". iApply wp_ret. iExists (DAbs _ _ _ _ _), _.
        iSplit; [|iSplitL "Hx"; by iApply dinv_intro]. iPureIntro. by split_and!.
      + iIntros (e b1' p1' l1' c1') "%He Hx Hy". iExists (DAbs _ _ _ _ _), _.
        iSplit; [|iSplitL "Hx"; by iApply dinv_intro]. iPureIntro.
        split_and!; try done.
    - wbind. destruct (decide (ma_alloc a1 a2 = a2)) as [Ha|Ha].
      + iApply (wp_dv_assign_move_same with "Hx Hy"); [done| |].
        { destruct (decide (p1 = 0)); [by right|left]. by apply Hh. }
        iIntros "Hx Hy". iApply wp_ret. iExists (DAbs _ _ _ _ _), (DAbs _ _ _ [] _).
        iSplit; [|iSplitL "Hx"; [by iApply dinv_intro|by iApply (dinv_intro with "Hy")]]. iPureIntro.
        split; [done|]. change (dev_move_alloc _ _) with (ma_alloc a1 a2). cbn [e_alloc].
        by rewrite decide_True.
      + iApply (wp_dv_assign_move_other with "Hx Hy"); [done|]. iSplit.
        * iIntros (b1' p1' c1') "%Hk Hx Hy". iApply wp_ret. iExists (DAbs _ _ _ _ _), (DAbs _ _ _ _ _).
          iSplit; [|iSplitL "Hx"; by iApply dinv_intro]. iPureIntro.
          split; [done|]. change (dev_move_alloc _ _) with (ma_alloc a1 a2). cbn [e_alloc].
          rewrite decide_False; [|done]. by split_and!.
        * iIntros (e b1' p1' l1' c1' l2') "%He Hx Hy". destruct He as (He & Hl).
          iExists (DAbs _ _ _ _ _), (DAbs _ _ _ _ _). iSplit; [|iSplitL "Hx"; by iApply dinv_intro].
          iPureIntro. split_and!; try done.
    - wbind. iApply (wp_dv_swap with "Hx Hy"); [done|]. iIntros "Hx Hy". iApply wp_ret.
      iExists (DAbs _ _ _ _ _), (DAbs _ _ _ _ _). iSplit; [|iSplitL "Hx"; by iApply dinv_intro]. done.
    - wbind. iApply (wp_dv_eq with "Hx Hy"). iSplit.
      + iIntros (b) "%Hb Hx Hy". iApply wp_ret. iExists (DAbs _ _ _ _ _), (DAbs _ _ _ _ _).
        iSplit; [|iSplitL "Hx"; by iApply dinv_intro]. iPureIntro. split_and!; try done. by eexists.
      + iIntros "Hx Hy". iExists (DAbs _ _ _ _ _), (DAbs _ _ _ _ _).
        iSplit; [|iSplitL "Hx"; by iApply dinv_intro]. done.
    - wbind. iApply (wp_dv_lt with "Hx Hy"). iSplit.
      + iIntros (b) "%Hb Hx Hy". iApply wp_ret. iExists (DAbs _ _ _ _ _), (DAbs _ _ _ _ _).
        iSplit; [|iSplitL "Hx"; by iApply dinv_intro]. iPureIntro. split_and!; try done. by eexists.
      + iIntros "Hx Hy". iExists (DAbs _ _ _ _ _), (DAbs _ _ _ _ _).
        iSplit; [|iSplitL "Hx"; by iApply dinv_intro]. done.
  Qed.

  Lemma ogeom_dobj a b p m cap : ogeom (dobj a b p m cap) = Geom p m cap.
  Proof. unfold ogeom, dobj. simpl. f_equal; lia. Qed.
  Lemma guard_hazard (h : bool) : fixed || negb h = true <-> (fixed = false -> h = false).
  Proof. destruct fixed, h; simpl; naive_solver. Qed.

  Program Definition devector_ok : container_ok (devector_spec fixed) :=
    {| inv := dinv : obj (devector fixed) -> abs (devector_spec fixed) -> hProp |}.
  Next Obligation. done. Qed.
  Next Obligation. done. Qed.
  Next Obligation.
    intros o x A h Hi. apply VectorOk.pure_holds in Hi as [-> _]. simpl. rewrite ogeom_dobj andb_true_iff guard_hazard.
    done.
  Qed.
  Next Obligation.
    intros o x A y B h h' Hx Hy. apply VectorOk.pure_holds in Hx as [-> _]. apply VectorOk.pure_holds in Hy as [-> _].
    simpl. unfold dv_guard2. rewrite ogeom_dobj. dred. cbn [g_front].
    destruct (Nat.eqb_spec (e_alloc A) (e_alloc B)) as [Ha|Ha]; destruct (Z.eqb_spec (e_front A) 0) as [Hp|Hp];
      destruct o; unfold dev_pre2, dev_hazard2, dev_move_alloc; simpl;
      destruct fixed, pocca, pocma, pocs; simpl; naive_solver.
  Qed.
  Next Obligation. intros c _. apply dev_build_ok. Qed.
  Next Obligation. intros c x A _. apply dev_build2_ok. Qed.
  Next Obligation.
    intros o x A [Hdoc Hhaz]. iIntros "Hx". iDestruct (dinv_open with "Hx") as (a b p l cap) "[%Hx Hv]".
    destruct Hx as [-> ->].
    iApply (wp_wand with "[Hv]"); [iApply (dop_all o with "Hv"); [done|by apply guard_hazard]|].
    iSplit; iIntros (r x') "Hx"; iExact "Hx".
  Qed.
  Next Obligation. intros o x A y B [Hpre Hhaz]. by apply dev_run2_ok. Qed.
  Next Obligation.
    intros x A. iIntros "Hx". iDestruct (dinv_open with "Hx") as (a b p l cap) "[%Hx Hv]".
    destruct Hx as [-> ->]. iApply (wp_dv_destructor with "Hv"). iIntros (s). done.
  Qed.
End member.
