(** * Facts shared by the sequence containers *)

From iris.proofmode Require Import tactics.
From Verif Require Export SeqClient ContigLib State Grow.
From Coq Require Import ZifyBool.
Open Scope Z_scope.

(** First position an operation may touch. *)
Definition touched_from `{Env} (o : vop) (l : list V) : nat :=
  match o with
  | OEmplace i _ | OInsertN i _ _ | OInsertRange i _ | OInsertInput i _ | OErase i
  | OEraseRange i _ | OSet i _ => i
  | OEmplaceBack _ | OReserve _ | OShrink | OAt _ | OGet _ | OFront | OBack | OSize | OCapacity => length l
  | OPopBack => pred (length l)
  | OResize n _ => n
  | _ => 0%nat
  end.
Definition moving_arg `{Env} (o : vop) : bool :=
  match o with OEmplace _ (XMove _) | OEmplaceBack (XMove _) => true | _ => false end.

Section pure_facts.
  Context `{E : Env}.

  Lemma arg_rest_length l x : length (arg_rest l x) = length l.
  Proof. destruct x; simpl; try done. destruct (_ !! _); [by rewrite insert_length|done]. Qed.

  (** Size after a call that adds elements. *)
  Lemma grow_length base o l r l' :
    seq_pre o (length l) = true -> seq_post base o l r l' ->
    match o with
    | OEmplace _ _ | OEmplaceBack _ | OInsertN _ _ _ | OInsertRange _ _ | OInsertInput _ _
    | OAssignN _ _ | OAssignRange _ | OAssignInput _ | OResize _ _ => length l' = needed o l
    | _ => True
    end.
  Proof.
    intros Hp Hpost. destruct o; simpl in *; try done.
    - destruct Hpost as (v & _ & _ & ->). apply andb_prop in Hp as [Hp _]. apply Nat.leb_le in Hp.
      rewrite !app_length /= take_length drop_length arg_rest_length. simpl. lia.
    - destruct Hpost as (v & _ & _ & ->). rewrite app_length arg_rest_length. simpl. lia.
    - destruct Hpost as (v & _ & _ & ->). apply andb_prop in Hp as [Hp _]. apply andb_prop in Hp as [Hp _].
      apply Nat.leb_le in Hp. rewrite !app_length take_length drop_length replicate_length. lia.
    - destruct Hpost as (_ & ->). apply Nat.leb_le in Hp. rewrite !app_length take_length drop_length. lia.
    - destruct Hpost as (_ & ->). apply Nat.leb_le in Hp. rewrite !app_length take_length drop_length. lia.
    - destruct Hpost as (v & _ & _ & ->). rewrite app_length take_length replicate_length. lia.
    - destruct Hpost as (_ & ->). by rewrite replicate_length.
    - by destruct Hpost as (_ & ->).
    - by destruct Hpost as (_ & ->).
  Qed.

  Lemma alias_post base o l j v r l' :
    l !! j = Some v -> seq_post base o l r l' ->
    match o with
    | OEmplace i (XCopy k) => k = j -> l' = take i l ++ [v] ++ drop i l
    | OEmplaceBack (XCopy k) => k = j -> l' = l ++ [v]
    | OInsertN i n (XCopy k) => k = j -> l' = take i l ++ replicate n v ++ drop i l
    | OResize n (XCopy k) => k = j -> l' = take n l ++ replicate (n - length l)%nat v
    | OEmplace i (XMove k) =>
        k = j -> l' = take i (<[j := vmoved v]> l) ++ [v] ++ drop i (<[j := vmoved v]> l)
    | OEmplaceBack (XMove k) => k = j -> l' = <[j := vmoved v]> l ++ [v]
    | _ => True
    end.
  Proof.
    intros Hj Hpost.
    destruct o as [i [| |k|k]|[| |k|k]|i n [| |k|k]| | | | | |n [| |k|k]| | | | | | | | | | | | | | |];
      try done; intros ->; simpl in Hpost; rewrite Hj in Hpost;
      destruct Hpost as (v' & [= <-] & _ & ->); done.
  Qed.

  Lemma prefix_post base o l r l' i v :
    moving_arg o = false -> seq_post base o l r l' ->
    (i < touched_from o l)%nat -> l !! i = Some v -> l' !! i = Some v.
  Proof.
    intros Hm Hpost Hi Hv. pose proof (lookup_lt_Some _ _ _ Hv) as Hlt.
    assert (Hpre : forall k tl, (i < k)%nat -> (take k l ++ tl) !! i = Some v).
    { intros k tl Hk. rewrite lookup_app_l; [|rewrite take_length; lia]. by rewrite lookup_take. }
    destruct o; simpl in Hi, Hpost, Hm; try lia.
    - destruct Hpost as (v' & _ & _ & ->). destruct x; try done; by apply Hpre.
    - destruct Hpost as (v' & _ & _ & ->). destruct x; try done; by rewrite lookup_app_l.
    - destruct Hpost as (v' & _ & _ & ->). by apply Hpre.
    - destruct Hpost as (_ & ->). by apply Hpre.
    - destruct Hpost as (_ & ->). by apply Hpre.
    - destruct Hpost as (_ & v' & He). subst l. rewrite app_length /= in Hi.
      rewrite lookup_app_l in Hv; [done|lia].
    - destruct Hpost as (_ & ->). by apply Hpre.
    - destruct Hpost as (_ & ->). by apply Hpre.
    - destruct Hpost as (v' & _ & _ & ->). by apply Hpre.
    - by destruct Hpost as (_ & ->).
    - by destruct Hpost as (_ & ->).
    - by destruct Hpost as (? & _ & _ & ->).
    - by destruct Hpost as (? & _ & _ & ->).
    - by destruct Hpost as (? & _ & _ & ->).
    - by destruct Hpost as (? & _ & _ & ->).
    - destruct Hpost as (_ & ->). rewrite list_lookup_insert_ne; [done|lia].
    - by destruct Hpost as (_ & ->).
    - by destruct Hpost as (_ & ->).
  Qed.

  Lemma filter_count (p : V -> bool) l :
    length (List.filter p l) = (length l - length (List.filter (fun v => negb (p v)) l))%nat.
  Proof.
    induction l as [|v l IH]; simpl; [done|].
    assert (forall q : V -> bool, length (List.filter q l) <= length l)%nat as Hle.
    { clear. intros q. induction l as [|v l IH]; simpl; [done|]. destruct (q v); simpl; lia. }
    pose proof (Hle p). pose proof (Hle (fun v => negb (p v))).
    destruct (p v); simpl; lia.
  Qed.
End pure_facts.

(** Requests beyond max_size(). *)
Section length_error.
  Context `{E : Env} (st : storage) (sp : special).
  Context (Hcc : forall len cap n, 0 <= len <= cap -> cap <= max_size -> 0 <= n -> max_size < len + n ->
                   calc_cap st len cap n = None).
  Context (Hres : forall n x w, max_size < n -> sp_reserve sp n x w = Exn ELength x w).

  Context (a : nat) (f : loc) (l : list V) (cap : Z).
  Context (Hlc : Z.of_nat (length l) <= cap <= max_size).
  Notation x := (vobj a f (length l) cap).

  Lemma size_eval w : size_ x w = Ok (Z.of_nat (length l)) x w.
  Proof.
    unfold size_, bind, getS, ptr_sub. simpl. rewrite Z.eqb_refl. unfold ret. do 2 f_equal. lia.
  Qed.
  Lemma capacity_eval w : capacity_ x w = Ok cap x w.
  Proof.
    unfold capacity_, bind, getS, ptr_sub. simpl. rewrite Z.eqb_refl. unfold ret. do 2 f_equal. lia.
  Qed.
  Lemma available_eval w : available_ x w = Ok (cap - Z.of_nat (length l)) x w.
  Proof.
    unfold available_, bind, getS, ptr_sub. simpl. rewrite Z.eqb_refl. unfold ret. f_equal. lia.
  Qed.
  Lemma offset_eval w i :
    (i <= length l)%nat -> offset_of (f +ₗ Z.of_nat i) x w = Ok (Z.of_nat i) x w.
  Proof.
    intros Hl. unfold offset_of, bind, getS, ptr_sub. simpl.
    rewrite Z.eqb_refl. unfold ret. rewrite size_eval.
    replace (f.2 + Z.of_nat i - f.2) with (Z.of_nat i) by lia.
    unfold assert_. destruct (_ && _) eqn:Hb; [done|lia].
  Qed.
  Lemma newcap_eval w n :
    0 <= n -> max_size < Z.of_nat (length l) + n -> new_capacity st n x w = Exn ELength x w.
  Proof.
    intros Hn Hm. unfold new_capacity, bind. rewrite size_eval capacity_eval. rewrite Hcc; [done|lia..].
  Qed.
  Lemma full_eval : max_size < Z.of_nat (length l) + 1 -> loc_eqb (v_last x) (v_eos x) = true.
  Proof. intros Hm. unfold loc_eqb. simpl. lia. Qed.

  Lemma length_error_eval o w :
    seq_pre o (length l) = true -> is_input o = false -> max_size < Z.of_nat (needed o l) ->
    run_vop st sp o x w = Exn ELength x w.
  Proof.
    intros Hp Hin Hm.
    assert (Hck : forall n, max_size < n -> check_size n x w = Exn ELength x w).
    { intros n Hn. unfold check_size. by destruct (_ <? _) eqn:Hlt; [|lia]. }
    destruct o; simpl in Hp, Hin, Hm; try done; try lia; unfold run_vop, as_idx, as_unit, bind at 1, getS.
    - apply andb_prop in Hp as [Hp _]. apply Nat.leb_le in Hp. unfold emplace_, bind, getS.
      change (v_first (vobj a f (length l) cap)) with f. rewrite offset_eval; [|done]. rewrite full_eval; [|lia]. simpl.
      rewrite newcap_eval; [done|lia..].
    - unfold emplace_back_, bind, getS. rewrite full_eval; [|lia]. simpl.
      rewrite newcap_eval; [done|lia..].
    - apply andb_prop in Hp as [Hp _]. apply andb_prop in Hp as [Hp _]. apply Nat.leb_le in Hp.
      unfold insert_fill_, bind, getS. change (v_first (vobj a f (length l) cap)) with f. rewrite offset_eval; [|done].
      destruct (_ =? _) eqn:H0; [lia|]. rewrite available_eval.
      destruct (_ <=? _) eqn:H1; [lia|]. rewrite newcap_eval; [done|lia..].
    - apply Nat.leb_le in Hp.
      unfold insert_range_, bind, getS. change (v_first (vobj a f (length l) cap)) with f. rewrite offset_eval; [|done].
      destruct (_ =? _)%nat eqn:H0; [rewrite fmap_length in H0; apply Nat.eqb_eq in H0; lia|].
      rewrite available_eval.
      destruct (_ <=? _) eqn:H1; [rewrite fmap_length in H1; lia|].
      unfold insert_range_realloc, bind, getS. rewrite newcap_eval; [done|lia|]. rewrite fmap_length. lia.
    - unfold resize_, bind. rewrite Hck; [done|lia].
    - unfold assign_fill_, bind. rewrite Hck; [done|lia].
    - unfold assign_range_, bind. rewrite Hck; [done|]. rewrite fmap_length. lia.
    - unfold bind. rewrite Hres; [done|lia].
  Qed.

  Lemma at_eval i w :
    run_vop st sp (OAt i) x w =
      if Z.of_nat (length l) <=? Z.of_nat i then Exn EOutOfRange x w
      else match heap w !! (f +ₗ Z.of_nat i) with Some (Live v) => Ok (RVal v) x w | _ => UB end.
  Proof.
    unfold run_vop, at_, bind, getS. rewrite size_eval. unfold throw, read. change (v_first (vobj a f (length l) cap)) with f.
    destruct (_ <=? _); [done|]. by destruct (heap w !! _) as [[]|].
  Qed.
End length_error.
