(** * [insert_exactly_at] of the flat containers *)

From Coq Require Import ZifyBool.
From Verif Require Export FlatPure SmallOk StaticOk.
From iris.proofmode Require Import tactics.
Open Scope Z_scope.

Section exact.
  Context `{E : Env}.

  Lemma wp_assign_in {St} f l i x ar v (s : St) Q X :
    l !! i = Some x -> arg_rel f l ar v l -> ~ is_move ar ->
    elems f l ⊢
    ((elems f (<[i := v]> l) -∗ Q tt s) ∧ (∀ c, elems f (<[i := c]> l) -∗ X EUser s)) -∗
    wp (assign (f +ₗ Z.of_nat i) ar) s Q X.
  Proof.
    iIntros (Hi Har Hm) "Hl HK".
    destruct ar as [|w|q|q]; [| | |done].
    - inversion Har; subst. iDestruct (elems_acc _ _ i with "Hl") as "[Hd Hcl]"; [done|].
      iApply (as_ok_def emp%I with "[//] Hd"). iSplit.
      + iIntros "_ Hd". iDestruct "HK" as "[HK _]". iApply "HK". by iApply "Hcl".
      + iIntros (c) "_ Hd". iDestruct "HK" as "[_ HK]". iApply "HK". by iApply "Hcl".
    - inversion Har; subst. iDestruct (elems_acc _ _ i with "Hl") as "[Hd Hcl]"; [done|].
      iApply (as_ok_val emp%I with "[//] Hd"). iSplit.
      + iIntros "_ Hd". iDestruct "HK" as "[HK _]". iApply "HK". by iApply "Hcl".
      + iIntros (c) "_ Hd". iDestruct "HK" as "[_ HK]". iApply "HK". by iApply "Hcl".
    - inversion Har as [| |j ? Hj|]; subst. unfold assign.
      iDestruct (elems_acc _ _ i with "Hl") as "[Hd Hcl]"; [done|]. wbind.
      iApply (wp_read with "Hd"). iIntros "Hd". iSpecialize ("Hcl" with "Hd").
      rewrite (list_insert_id l i x Hi).
      iDestruct (elems_acc _ _ j with "Hcl") as "[Hq Hcl]"; [done|]. wbind.
      iApply (wp_read with "Hq"). iIntros "Hq". iSpecialize ("Hcl" with "Hq").
      rewrite (list_insert_id l j v Hj).
      iDestruct (elems_acc _ _ i with "Hcl") as "[Hd Hcl]"; [done|].
      iApply wp_oracle_case; [done|]. iSplit.
      + iIntros (t) "_". iApply (wp_write with "Hd"). iIntros "Hd".
        iDestruct "HK" as "[_ HK]". iApply "HK". by iApply "Hcl".
      + iApply (wp_write with "Hd"). iIntros "Hd".
        iDestruct "HK" as "[HK _]". iApply "HK". by iApply "Hcl".
  Qed.

  (** Arguments whose value does not depend on the container's elements. *)
  Definition foreign (ar : arg) : Prop := match ar with ADef | AVal _ => True | _ => False end.

  Lemma arg_rel_grow f l l' ar v :
    arg_rel f l ar v l -> ~ is_move ar -> (length l <= length l')%nat ->
    exists v', arg_rel f l' ar v' l' /\ (foreign ar -> v' = v).
  Proof.
    intros Har Hm Hl. destruct ar as [|w|q|q]; [| | |done].
    - inversion Har; subst. exists vdef. split; [constructor|done].
    - inversion Har; subst. exists v. split; [constructor|done].
    - inversion Har as [| |j ? Hj|]; subst.
      destruct (lookup_lt_is_Some_2 l' j) as [u Hu].
      { apply lookup_lt_Some in Hj. lia. }
      exists u. split; [by constructor|done].
  Qed.

  Lemma wp_exact_inplace a f l cap i ar v Q X :
    (i <= length l)%nat -> Z.of_nat (length l) < cap -> arg_rel f l ar v l -> ~ is_move ar ->
    body f l cap ⊢
    ((∀ l', ⟦length l' = S (length l) /\ (foreign ar -> l' = insert_at i [v] l)⟧ -∗
        body f l' cap -∗ Q (f +ₗ Z.of_nat i) (vobj a f (S (length l)) cap)) ∧
     (∀ l' n', ⟦n' = length l' /\ ins_exn l i 1 ar l'⟧ -∗ body f l' cap -∗ X EUser (vobj a f n' cap))) -∗
    wp (exact_inplace (f +ₗ Z.of_nat i) ar) (vobj a f (length l) cap) Q X.
  Proof.
    iIntros (Hi Hc Har Hm) "(_ & Hl & Hr) HK".
    unfold exact_inplace. wbind. iApply wp_get. wbeta. wbind. iApply wp_offset_of; [done|].
    wbeta. simpl. rewrite loc_eqb_add.
    iDestruct (raws_one _ _ _ (Z.to_nat cap - S (length l)) with "Hr") as "[Hr1 Hr]"; [lia|done|].
    destruct (Z.eqb_spec (Z.of_nat i) (Z.of_nat (length l))) as [Heq|Hne].
    { wbind. assert (i = length l) as -> by lia.
      iApply (wp_construct with "Hl Hr1"); [by apply arg_rel_mk|]. iSplit.
      - iIntros "Hl Hv". wbind. iApply (wp_set_last _ _ _ (S (length l))); [loc_solve|]. iApply wp_ret.
        iDestruct "HK" as "[HK _]". iApply ("HK" $! (insert_at (length l) [v] l)).
        { iPureIntro. split; [nlia|done]. }
        rewrite insert_at_end; [|done].
        iDestruct (elems_snoc_join with "Hl Hv") as "Hl"; [done|done|].
        iApply (body_intro with "Hl Hr"); [loc_solve|nlia|nlia].
      - iIntros "H Hr1". iDestruct "H" as (l') "[%Hx Hl]". iDestruct "HK" as "[_ HK]".
        destruct (Hx) as [Hx1 Hx2].
        iApply "HK"; [iPureIntro; split; [done|by left]|].
        iDestruct (raws_one_join with "Hr1 Hr") as "Hr"; [done|done|].
        iApply (body_intro with "Hl Hr"); [loc_solve|nlia|nlia]. }
    destruct (snoc_case (drop i l)) as (B & x & HB).
    { intros Hn. apply (f_equal length) in Hn. nlia. }
    assert (Hl1 : l = take i l ++ B ++ [x]) by (by rewrite -HB take_drop).
    set (A := take i l) in *.
    assert (HA : length A = i) by (unfold A; nlia).
    assert (HBl : length B = (length l - i - 1)%nat).
    { apply (f_equal length) in HB. nlia. }
    rewrite {1}Hl1.
    iDestruct (elems_split _ _ A _ (f +ₗ Z.of_nat i) with "Hl") as "[HA Hl]"; [done|by rewrite HA|].
    iDestruct (elems_snoc_split _ _ B x (f +ₗ Z.of_nat (length l) +ₗ -1) with "Hl") as "[HB Hx]";
      [done|loc_solve|].
    wbind. iApply (wp_construct with "Hx Hr1"); [apply mk_ok_move1|].
    iSplit; last first.
    { iIntros "H Hr1". iDestruct "H" as (x') "[_ Hx]".
      iDestruct "HK" as "[_ HK]".
      iDestruct (elems_snoc_join with "HB Hx") as "Hl"; [loc_solve|done|].
      iDestruct (elems_join with "HA Hl") as "Hl"; [loc_solve|done|].
      iApply ("HK" $! (A ++ B ++ [x'])); [iPureIntro; split; [|right]; nlia|].
      iDestruct (raws_one_join with "Hr1 Hr") as "Hr"; [done|done|].
      iApply (body_intro with "Hl Hr"); [loc_solve|nlia|nlia]. }
    iIntros "Hx Hx2". wbind. iApply (wp_set_last _ _ _ (S (length l))); [loc_solve|].
    wbind.
    iDestruct (elems_snoc_join with "HB Hx") as "Hl"; [loc_solve|done|].
    iApply (wp_move_backward with "Hl"); [simpl; lia|loc_solve|loc_solve|].
    iSplit; last first.
    { iIntros (l') "%Hl' Hl". iDestruct "HK" as "[_ HK]".
      iDestruct (elems_join with "HA Hl") as "Hl"; [loc_solve|done|].
      iDestruct (elems_snoc_join with "Hl Hx2") as "Hl"; [loc_solve|done|].
      iApply ("HK" $! ((A ++ l') ++ [x])); [iPureIntro; split; [|right]; nlia|].
      iApply (body_intro with "Hl Hr"); [loc_solve|nlia|nlia]. }
    iIntros (l') "%Hl' Hl". destruct l' as [|y [|]]; try done.
    iDestruct (elems_join with "HA Hl") as "Hl"; [loc_solve|done|].
    iDestruct (elems_snoc_join _ (A ++ y :: B ++ [x]) with "Hl Hx2") as "Hl";
      [loc_solve|by rewrite -!assoc_L|].
    destruct (arg_rel_grow f l (A ++ y :: B ++ [x]) ar v Har Hm) as (w & Hw & Hwv); [nlia|].
    assert (Hins : forall z, <[i := z]> (A ++ y :: B ++ [x]) = A ++ z :: B ++ [x]).
    { intros z. rewrite -HA -(Nat.add_0_r (length A)) insert_app_r. done. }
    wbind. iApply (wp_assign_in _ _ i y with "Hl").
    { rewrite -HA. by apply list_lookup_middle. }
    { done. } { done. }
    iSplit; last first.
    { iIntros (z) "Hl". iDestruct "HK" as "[_ HK]". rewrite Hins.
      iApply ("HK" $! (A ++ z :: B ++ [x])); [iPureIntro; split; [|right]; nlia|].
      iApply (body_intro with "Hl Hr"); [loc_solve|nlia|nlia]. }
    iIntros "Hl". iApply wp_ret. iDestruct "HK" as "[HK _]". rewrite Hins.
    iApply ("HK" $! (A ++ w :: B ++ [x])).
    { iPureIntro. split; [nlia|]. intros Hf. rewrite (Hwv Hf). unfold insert_at.
      fold A. by rewrite HB. }
    iApply (body_intro with "Hl Hr"); [loc_solve|nlia|nlia].
  Qed.

  (** With or without the temporary. *)
  Lemma wp_place temp a f l cap i ar v Q X :
    (i <= length l)%nat -> Z.of_nat (length l) < cap -> arg_rel f l ar v l -> ~ is_move ar ->
    body f l cap ⊢
    ((∀ l', ⟦length l' = S (length l) /\ (temp = true \/ foreign ar -> l' = insert_at i [v] l)⟧ -∗
        body f l' cap -∗ Q (f +ₗ Z.of_nat i) (vobj a f (S (length l)) cap)) ∧
     (∀ l' n', ⟦n' = length l' /\ ins_exn l i 1 ar l'⟧ -∗ body f l' cap -∗ X EUser (vobj a f n' cap))) -∗
    wp (place temp (f +ₗ Z.of_nat i) ar) (vobj a f (length l) cap) Q X.
  Proof.
    iIntros (Hi Hc Har Hm) "Hb HK". destruct temp; cbn [place].
    - iApply (wp_emplace_inplace with "Hb"); [done|done|done|]. iSplit.
      + iIntros "Hb". iDestruct "HK" as "[HK _]". iApply ("HK" with "[] Hb"). iPureIntro.
        split; [nlia|done].
      + iIntros (l' n') "%Hx Hb". iDestruct "HK" as "[_ HK]". by iApply ("HK" with "[] Hb").
    - iApply (wp_exact_inplace with "Hb"); [done|done|done|done|]. iSplit.
      + iIntros (l') "%Hx Hb". iDestruct "HK" as "[HK _]". iApply ("HK" with "[] Hb"). iPureIntro.
        destruct Hx as [Hx1 Hx2]. split; [done|]. intros [|]; [done|]. by apply Hx2.
      + iIntros (l' n') "%Hx Hb". iDestruct "HK" as "[_ HK]". by iApply ("HK" with "[] Hb").
  Qed.

  (** What is left by a throwing [insert_exactly_at]. *)
  Definition exact_exn (alloc robust : bool) (l : list V) (i : nat) (e : exn) (l' : list V) : Prop :=
    (length l <= length l' <= S (length l))%nat /\
    (i = length l -> robust = true -> l' = l) /\
    (e = EUser \/ ((e = ELength \/ e = EBadAlloc) /\ alloc = true /\ l' = l)).
  (** The storage stays where it is as long as it can hold [n] elements. *)
  Definition stays (n : nat) (f : loc) (cap : Z) (f' : loc) (cap' : Z) : Prop :=
    (Z.of_nat n <= cap -> f' = f /\ cap' = cap) /\ cap <= cap'.

  Lemma stays_refl n f cap : stays n f cap f cap.
  Proof. split; [done|lia]. Qed.
  Lemma stays_trans n1 n2 f cap f1 cap1 f2 cap2 :
    (n1 <= n2)%nat -> stays n1 f cap f1 cap1 -> stays n2 f1 cap1 f2 cap2 -> stays n2 f cap f2 cap2.
  Proof.
    intros Hn [H1 H2] [H3 H4]. split; [|lia]. intros Hc.
    destruct (H1 ltac:(lia)) as [-> ->]. by apply H3.
  Qed.
  Lemma stays_le n1 n2 f cap f' cap' : (n1 <= n2)%nat -> stays n1 f cap f' cap' -> stays n2 f cap f' cap'.
  Proof. intros Hn [H1 H2]. split; [|done]. intros. apply H1. lia. Qed.

  (** What the flat functions need to know about [insert_exactly_at] and about
      [SFL_ASSERT(!full())]; [fv]: the object's memory, [fits n]: [n] elements are
      allowed. *)
  Record exact_ok (exact : loc -> arg -> M vdata loc) (room : M vdata unit)
      (fv : nat -> loc -> list V -> Z -> hProp) (temp alloc robust : bool) (fits : nat -> bool) : Prop := {
    ex_body : forall a f l cap,
      fv a f l cap ⊢ body f l cap ∗ (∀ l', body f l' cap -∗ fv a f l' cap);
    ex_room : forall a f l cap Q X,
      fits (S (length l)) = true ->
      fv a f l cap ⊢ (fv a f l cap -∗ Q tt (vobj a f (length l) cap)) -∗
      wp room (vobj a f (length l) cap) Q X;
    ex_fits : forall n m, (n <= m)%nat -> fits m = true -> fits n = true;
    ex_at : forall a f l cap i ar v Q X,
      (i <= length l)%nat -> fits (S (length l)) = true -> arg_rel f l ar v l -> ~ is_move ar ->
      fv a f l cap ⊢
      ((∀ f' cap' l',
          ⟦length l' = S (length l) /\ (temp = true \/ foreign ar -> l' = insert_at i [v] l) /\
           stays (S (length l)) f cap f' cap'⟧ -∗
          fv a f' l' cap' -∗ Q (f' +ₗ Z.of_nat i) (vobj a f' (S (length l)) cap')) ∧
       (∀ e l' n', ⟦n' = length l' /\ exact_exn alloc robust l i e l'⟧ -∗
          fv a f l' cap -∗ X e (vobj a f n' cap))) -∗
      wp (exact (f +ₗ Z.of_nat i) ar) (vobj a f (length l) cap) Q X;
  }.

  Lemma ins_exn_exact alloc robust l i ar l' :
    ~ is_move ar -> (i <= length l)%nat -> ins_exn l i 1 ar l' -> exact_exn alloc robust l i EUser l'.
  Proof.
    intros Hm Hi [[H1 H2]|[H1 H2]].
    - assert (l' = l) as -> by (by destruct ar). split; [lia|]. split; [done|by left].
    - split; [lia|]. split; [lia|by left].
  Qed.

  (** ** The static containers *)
  Definition static_fv (N : nat) (a : nat) (f : loc) (l : list V) (cap : Z) : hProp :=
    (⟦ib_ok N f /\ a = 0%nat /\ cap = Z.of_nat N⟧ ∗ body f l cap)%I.
  Lemma static_exact_ok N temp :
    exact_ok (static_exact N temp) (static_room N) (static_fv N) temp false true (fun n => (n <=? N)%nat).
  Proof.
    assert (Hroom : forall a f l cap Q X, (S (length l) <= N)%nat ->
      static_fv N a f l cap ⊢ (static_fv N a f l cap -∗ Q tt (vobj a f (length l) cap)) -∗
      wp (static_room N) (vobj a f (length l) cap) Q X).
    { iIntros (a f l cap Q X Hf) "Hv HK". unfold static_room. wbind. unfold full_. wbind.
      iApply wp_size. wbeta. iApply wp_ret. iApply wp_assert.
      { rewrite negb_true_iff Z.eqb_neq. lia. }
      by iApply "HK". }
    split.
    - iIntros (a f l cap) "[%H Hb]". iFrame "Hb". iIntros (l') "Hb". unfold static_fv. by iFrame.
    - intros. apply Hroom. lia.
    - intros. lia.
    - iIntros (a f l cap i ar v Q X Hi Hf Har Hm) "Hv HK". unfold static_exact. wbind.
      iApply (Hroom with "Hv"); [lia|]. iIntros "[%Hv Hb]". destruct Hv as (Hib & -> & ->).
      iApply (wp_place with "Hb"); [done|lia|done|done|]. iSplit.
      + iIntros (l') "%Hx Hb". destruct Hx as [Hx1 Hx2]. iDestruct "HK" as "[HK _]".
        iApply ("HK" $! f (Z.of_nat N) l' with "[] [Hb]").
        * iPureIntro. split; [done|]. split; [done|apply stays_refl].
        * unfold static_fv. by iFrame.
      + iIntros (l' n') "%Hx Hb". destruct Hx as [Hx1 Hx2]. iDestruct "HK" as "[_ HK]".
        iApply ("HK" $! EUser l' n' with "[] [Hb]").
        * iPureIntro. split; [done|]. by eapply ins_exn_exact.
        * unfold static_fv. by iFrame.
  Qed.

  (** ** The small containers *)
  Lemma small_exact_ok (st : storage) (so : storage_ok st) temp :
    exact_ok (small_exact st temp) (ret tt) (vec_at st so) temp true (nothrow_move || copyable) (fun _ => true).
  Proof.
    split.
    - apply vec_at_body.
    - iIntros (a f l cap Q X _) "Hv HK". iApply wp_ret. by iApply "HK".
    - done.
    - iIntros (a f l cap i ar v Q X Hi _ Har Hm) "Hv HK". unfold small_exact. wbind. iApply wp_get.
      wbeta. wbind. iApply wp_offset_of; [done|]. wbeta. cbn [vobj v_last v_eos]. rewrite loc_eqb_add.
      iDestruct (vec_at_len with "Hv") as "[%Hlen Hv]". destruct Hlen as [Hok Hlen].
      destruct (Z.eqb_spec (Z.of_nat (length l)) cap) as [Hfull|Hfull]; cbn [negb].
      + wbind. iApply (wp_new_capacity st so); [lia|done|done|]. iSplit; last first.
        { iIntros "%Hms". iDestruct "HK" as "[_ HK]". iApply ("HK" $! ELength l with "[] Hv").
          iPureIntro. split; [done|]. split; [lia|]. split; [done|]. right. split; [by left|done]. }
        iIntros (c) "%Hc". destruct Hc as (Hc1 & Hc2 & Hc3 & Hc4).
        iApply (wp_realloc_insert st so _ _ l l _ _ 1 c ar [v] with "Hv");
          [intros; by apply wp_construct_at|intros; apply wp_destroy_one|done
          | |done|lia|done|lia|lia|].
        { intros _. by apply (arg_rel_const _ _ _ _ _ Har). }
        iSplit.
        * iIntros (p) "Hv". iDestruct "HK" as "[HK _]". rewrite Hc4. iApply ("HK" with "[] Hv").
          iPureIntro. split; [nlia|]. split; [done|]. split; [lia|lia].
        * iIntros (e l') "%Hx Hv". iDestruct "HK" as "[_ HK]". iApply ("HK" with "[] Hv").
          iPureIntro. destruct Hx as (Hx1 & Hx2 & Hx3). split; [done|]. split; [lia|].
          destruct Hx3 as [[-> ->]| ->].
          -- split; [done|]. right. split; [by right|done].
          -- split; [|by left]. intros _ Hrob. by apply Hx2.
      + iDestruct "Hv" as "(_ & Hown & Hb)".
        iApply (wp_place with "Hb"); [done|lia|done|done|]. iSplit.
        * iIntros (l') "%Hx Hb". destruct Hx as [Hx1 Hx2]. iDestruct "HK" as "[HK _]".
          iApply ("HK" $! f cap l' with "[] [Hb Hown]").
          -- iPureIntro. split; [done|]. split; [done|apply stays_refl].
          -- unfold Grow.vec_at. iFrame "Hown Hb". done.
        * iIntros (l' n') "%Hx Hb". destruct Hx as [Hx1 Hx2]. iDestruct "HK" as "[_ HK]".
          iApply ("HK" $! EUser l' n' with "[] [Hb Hown]").
          -- iPureIntro. split; [done|]. by eapply ins_exn_exact.
          -- unfold Grow.vec_at. iFrame "Hown Hb". done.
  Qed.
End exact.
