(** * Consequences of the specification of sfl::vector

    The lemmas behind Props_Vector.v. *)

From iris.proofmode Require Import tactics.
From Verif Require Export State VectorState VecMem VectorCost SeqThms.
From Coq Require Import ZifyBool.
Open Scope Z_scope.

Notation vec_call := (run_vop vec_storage vec_special).

Section vector_thms.
  Context `{E : Env}.

  Lemma vec_call_ok o x A w hf :
    holds is_vec x A w hf -> seq_pre o (length (q_elems A)) = true ->
    match vec_call o x w with
    | Ok r x' w' => exists A', (seq_post 0 o (q_elems A) r (q_elems A') /\ q_alloc A' = q_alloc A /\
                                seq_storage 0 o A A' /\ (o = OCapacity -> r = RNum (q_cap A))) /\
                               holds is_vec x' A' w' hf /\ quiet w w'
    | Exn e x' w' => exists A', seq_exn 0 o A e A' /\ holds is_vec x' A' w' hf /\ reason e w w'
    | UB => False
    end.
  Proof. intros Hx Hpre. apply (run1_state vector_ok is_vec vec_iff o x A w hf Hx Hpre). Qed.

  Lemma vec_returns o x A w hf r x' w' :
    holds is_vec x A w hf -> seq_pre o (length (q_elems A)) = true ->
    vec_call o x w = Ok r x' w' ->
    exists A', holds is_vec x' A' w' hf /\ seq_post 0 o (q_elems A) r (q_elems A').
  Proof.
    intros Hx Hp Hr. pose proof (vec_call_ok o x A w hf Hx Hp) as H. rewrite Hr in H.
    destruct H as (A' & (H1 & _) & H2 & _). eauto.
  Qed.

  Lemma vec_safe o x A w hf :
    holds is_vec x A w hf -> seq_pre o (length (q_elems A)) = true ->
    match vec_call o x w with
    | Ok _ x' w' | Exn _ x' w' => exists A', holds is_vec x' A' w' hf
    | UB => False
    end.
  Proof.
    intros Hx Hp. pose proof (vec_call_ok o x A w hf Hx Hp) as H.
    destruct (vec_call o x w); [| |done]; destruct H as (A' & _ & H & _); eauto.
  Qed.

  Lemma vec_ctor_safe c w hf :
    holds0 w hf ->
    match build vector c tt w with
    | Ok x _ w' => exists A, holds is_vec x A w' hf /\ k_post 0 c A /\ quiet w w'
    | Exn e _ w' => holds0 w' hf /\ k_exn (k_elems c) e /\ reason e w w'
    | UB => False
    end.
  Proof.
    intros Hw. pose proof (build_state vector_ok is_vec vec_iff c w hf Hw I) as H. unfold build_ok in H.
    destruct (build vector c tt w) as [x [] w'|e [] w'|]; [| |done].
    - destruct H as (A & H1 & H2 & H3). exists A. done.
    - destruct H as (H1 & H2 & H3). done.
  Qed.

  Lemma vec_ctor2_safe c y B w hf :
    holds is_vec y B w hf ->
    match build2 vector c y w with
    | Ok x y' w' => exists A B', holds2 is_vec x A y' B' w' hf /\ vec_k2_post c B A B' /\ quiet w w'
    | Exn e y' w' => exists B', holds is_vec y' B' w' hf /\ vec_k2_exn c B e B' /\ reason e w w'
    | UB => False
    end.
  Proof.
    intros Hw. pose proof (build2_state vector_ok is_vec vec_iff c y B w hf Hw I) as H. unfold build2_ok in H.
    destruct (build2 vector c y w) as [x y' w'|e y' w'|]; [| |done].
    - destruct H as (A & B' & H1 & H2 & H3). exists A, B'. done.
    - destruct H as (B' & H1 & H2 & H3). exists B'. done.
  Qed.

  Lemma vec_two_safe o x A y B w hf :
    holds2 is_vec x A y B w hf -> vec_pre2 o A B ->
    match vec_run2 o (x, y) w with
    | Ok r (x', y') w' =>
        exists A' B', holds2 is_vec x' A' y' B' w' hf /\ vec_post2 o A B r A' B' /\ quiet w w'
    | Exn e (x', y') w' =>
        exists A' B', holds2 is_vec x' A' y' B' w' hf /\ vec_exn2 o A B e A' B' /\ reason e w w'
    | UB => False
    end.
  Proof.
    intros Hw Hp. pose proof (run2_state vector_ok is_vec vec_iff o x A y B w hf Hw Hp) as H. unfold two_ok in H.
    change (@pair (obj vector) (obj vector) x y) with (@pair vdata vdata x y) in H.
    change (run2 vector o) with (vec_run2 o) in H.
    destruct (vec_run2 o (x, y) w) as [r [x' y'] w'|e [x' y'] w'|]; [| |done];
      destruct H as (A' & B' & H1 & H2 & H3); exists A', B'; exact (conj H2 (conj H1 H3)).
  Qed.

  Lemma vec_dtor_safe x A w hf :
    holds is_vec x A w hf ->
    match destructor_ vec_storage x w with
    | Ok _ _ w' => holds0 w' hf
    | _ => False
    end.
  Proof.
    intros Hw. pose proof (kill_state vector_ok is_vec vec_iff x A w hf Hw) as H. unfold kill_ok in H.
    simpl in H. destruct (destructor_ vec_storage x w); [|done..]. apply H.
  Qed.

  Lemma vec_throws o x A w hf e x' w' :
    holds is_vec x A w hf -> seq_pre o (length (q_elems A)) = true ->
    vec_call o x w = Exn e x' w' ->
    exists A', holds is_vec x' A' w' hf /\ q_alloc A' = q_alloc A /\
               exn_size o (q_elems A) (q_elems A') /\ reason e w w'.
  Proof.
    intros Hx Hp Hr. pose proof (vec_call_ok o x A w hf Hx Hp) as H. rewrite Hr in H.
    destruct H as (A' & (H1 & H2 & _) & H3 & H4). eauto.
  Qed.
  Lemma vec_no_swallow o x A w hf r x' w' :
    holds is_vec x A w hf -> seq_pre o (length (q_elems A)) = true ->
    vec_call o x w = Ok r x' w' -> fired w' = fired w.
  Proof.
    intros Hx Hp Hr. pose proof (vec_call_ok o x A w hf Hx Hp) as H. rewrite Hr in H.
    destruct H as (A' & _ & _ & H). done.
  Qed.

  Lemma is_vec_det x x' A m m' : is_vec x A m -> is_vec x' A m' -> x' = x.
  Proof.
    intros [H1 H2 H3 H4 _ _ _ _] [G1 G2 G3 G4 _ _ _ _].
    destruct x as [a f l e], x' as [a' f' l' e']. simpl in *. congruence.
  Qed.
  Lemma is_vec_mem x A m x' m' : is_vec x A m -> is_vec x' A m' -> m' = m.
  Proof. intros H1 H2. apply map_eq. intros p. by rewrite (iv_mem _ _ _ H1) (iv_mem _ _ _ H2). Qed.
  Lemma holds_det x x' A w w' hf :
    holds is_vec x A w hf -> holds is_vec x' A w' hf -> x' = x /\ heap w' = heap w.
  Proof.
    intros (_ & m & H1 & _ & H3) (_ & m' & H4 & _ & H6). split; [by eapply is_vec_det|].
    rewrite H3 H6. f_equal. by eapply is_vec_mem.
  Qed.

  Lemma vec_strong o x A w hf e x' w' :
    holds is_vec x A w hf -> seq_pre o (length (q_elems A)) = true -> strong o A ->
    vec_call o x w = Exn e x' w' ->
    x' = x /\ heap w' = heap w.
  Proof.
    intros Hx Hp Hs Hr. pose proof (vec_call_ok o x A w hf Hx Hp) as H. rewrite Hr in H.
    destruct H as (A' & (_ & _ & H3 & _) & H4 & _). specialize (H3 Hs) as ->. by eapply holds_det.
  Qed.
  Lemma vec_strong_documented o x A w hf e x' w' :
    holds is_vec x A w hf -> nothrow_move || copyable = true ->
    (exists n, o = OReserve n) \/ o = OShrink \/ (exists v, o = OEmplaceBack (XVal v)) ->
    vec_call o x w = Exn e x' w' ->
    x' = x /\ heap w' = heap w.
  Proof.
    intros Hx Hm Ho. apply (vec_strong o x A w hf); [done|..];
      destruct Ho as [[n ->]|[->|[v ->]]]; try done. split; [done|]. by left.
  Qed.

  Lemma vec_bounds x A w hf :
    holds is_vec x A w hf -> Z.of_nat (length (q_elems A)) <= q_cap A <= max_size.
  Proof. intros (_ & m & H & _). apply H. Qed.

  Lemma vec_capacity o x A w hf r x' w' :
    holds is_vec x A w hf -> seq_pre o (length (q_elems A)) = true ->
    vec_call o x w = Ok r x' w' ->
    exists A', holds is_vec x' A' w' hf /\
      match o with
      | OReserve n => q_cap A' = Z.max (q_cap A) (Z.of_nat n)
      | OShrink => q_cap A' = Z.of_nat (length (q_elems A'))
      | OClear | OPopBack | OErase _ | OEraseRange _ _ | OEraseIf _ | OSet _ _ => q_cap A' = q_cap A
      | OResize n _ | OAssignN n _ => q_cap A' = Z.max (q_cap A) (Z.of_nat n)
      | OAssignRange vs => q_cap A' = Z.max (q_cap A) (Z.of_nat (length vs))
      | OEmplace _ _ | OEmplaceBack _ | OInsertN _ _ _ | OInsertRange _ _ =>
          let size' := Z.of_nat (length (q_elems A')) in
          q_cap A' = if size' <=? q_cap A then q_cap A
                     else Z.max size' (Z.min max_size (q_cap A + q_cap A / 2))
      | OCapacity => r = RNum (q_cap A) /\ q_cap A' = q_cap A
      | _ => True
      end.
  Proof.
    intros Hx Hp Hr. pose proof (vec_bounds _ _ _ _ Hx) as Hb.
    pose proof (vec_call_ok o x A w hf Hx Hp) as H. rewrite Hr in H.
    destruct H as (A' & (H1 & _ & H2 & H3) & H4 & _). exists A'. split; [done|].
    destruct o; simpl in H2; unfold same_storage, growth in H2; try done;
      try (by apply H2); try (case_decide; [destruct H2; lia|lia]).
    - assert (length (q_elems A') = S (length (q_elems A))) as Hl.
      { destruct H1 as (v & _ & _ & ->). simpl in Hp. apply andb_prop in Hp as [Hp _]. apply Nat.leb_le in Hp.
        rewrite !app_length take_length drop_length. simpl.
        assert (length (arg_rest (q_elems A) x0) = length (q_elems A)) as ->; [|lia].
        destruct x0; simpl; try done. destruct (_ !! _); [by rewrite insert_length|done]. }
      cbn zeta. case_decide; [destruct H2 as [_ H2]|]; destruct (Z.leb_spec (Z.of_nat (length (q_elems A'))) (q_cap A)); rewrite Hl in H0 |- *; lia.
    - assert (length (q_elems A') = S (length (q_elems A))) as Hl.
      { destruct H1 as (v & _ & _ & ->). 
        rewrite !app_length. simpl.
        assert (length (arg_rest (q_elems A) x0) = length (q_elems A)) as ->; [|lia].
        destruct x0; simpl; try done. destruct (_ !! _); [by rewrite insert_length|done]. }
      cbn zeta. case_decide; [destruct H2 as [_ H2]|]; destruct (Z.leb_spec (Z.of_nat (length (q_elems A'))) (q_cap A)); rewrite Hl in H0 |- *; lia.
    - assert (length (q_elems A') = length (q_elems A) + n)%nat as Hl.
      { destruct H1 as (v & _ & _ & ->). simpl in Hp. apply andb_prop in Hp as [Hp _]. apply andb_prop in Hp as [Hp _].
        apply Nat.leb_le in Hp.
        rewrite !app_length take_length drop_length replicate_length. lia. }
      cbn zeta. case_decide; [destruct H2 as [_ H2]|]; destruct (Z.leb_spec (Z.of_nat (length (q_elems A'))) (q_cap A)); rewrite Hl in H0 |- *; lia.
    - assert (length (q_elems A') = length (q_elems A) + length vs)%nat as Hl.
      { destruct H1 as (_ & ->). simpl in Hp. apply Nat.leb_le in Hp.
        rewrite !app_length take_length drop_length. lia. }
      cbn zeta. case_decide; [destruct H2 as [_ H2]|]; destruct (Z.leb_spec (Z.of_nat (length (q_elems A'))) (q_cap A)); rewrite Hl in H0 |- *; lia.
    - destruct H1 as [_ ->]. lia.
    - split; [by apply H3|apply H2].
  Qed.

  (** Requests beyond max_size(). *)
  Lemma vobj_of x A m : is_vec x A m -> x = Vec (q_alloc A) (q_data A)
    (q_data A +ₗ Z.of_nat (length (q_elems A))) (q_data A +ₗ q_cap A).
  Proof. intros [H1 H2 H3 H4 _ _ _ _]. destruct x. simpl in *. congruence. Qed.
  Lemma size_eq x w A m : is_vec x A m -> size_ x w = Ok (Z.of_nat (length (q_elems A))) x w.
  Proof.
    intros Hi. unfold size_, bind, getS, ptr_sub. rewrite (vobj_of _ _ _ Hi). simpl.
    rewrite Z.eqb_refl. unfold ret. do 2 f_equal. lia.
  Qed.
  Lemma capacity_eq x w A m : is_vec x A m -> capacity_ x w = Ok (q_cap A) x w.
  Proof.
    intros Hi. unfold capacity_, bind, getS, ptr_sub. rewrite (vobj_of _ _ _ Hi). simpl.
    rewrite Z.eqb_refl. unfold ret. do 2 f_equal. lia.
  Qed.
  Lemma available_eq x w A m :
    is_vec x A m -> available_ x w = Ok (q_cap A - Z.of_nat (length (q_elems A))) x w.
  Proof.
    intros Hi. unfold available_, bind, getS, ptr_sub. rewrite (vobj_of _ _ _ Hi). simpl.
    rewrite Z.eqb_refl. unfold ret. f_equal. lia.
  Qed.
  Lemma offset_eq x w A m i :
    is_vec x A m -> (i <= length (q_elems A))%nat ->
    offset_of (v_first x +ₗ Z.of_nat i) x w = Ok (Z.of_nat i) x w.
  Proof.
    intros Hi Hl. unfold offset_of, bind, getS, ptr_sub. simpl.
    rewrite Z.eqb_refl. unfold ret. rewrite (size_eq _ _ _ _ Hi).
    replace ((v_first x).2 + Z.of_nat i - (v_first x).2) with (Z.of_nat i) by lia.
    unfold assert_. destruct (_ && _) eqn:Hb; [done|lia].
  Qed.
  Lemma newcap_eq x w A m n :
    is_vec x A m -> max_size < Z.of_nat (length (q_elems A)) + n ->
    new_capacity vec_storage n x w = Exn ELength x w.
  Proof.
    intros Hi Hm. unfold new_capacity, bind. rewrite (size_eq _ _ _ _ Hi) (capacity_eq _ _ _ _ Hi).
    pose proof (iv_size _ _ _ Hi). pose proof max_size_ok. simpl. unfold vec_calc_cap, wrap.
    rewrite Z.mod_small; [|lia]. destruct (_ <? n) eqn:Hb; [done|lia].
  Qed.
  Lemma full_eq x A m :
    is_vec x A m -> max_size < Z.of_nat (length (q_elems A)) + 1 -> loc_eqb (v_last x) (v_eos x) = true.
  Proof.
    intros Hi Hm. rewrite (vobj_of _ _ _ Hi). pose proof (iv_size _ _ _ Hi). unfold loc_eqb. simpl. lia.
  Qed.

  Lemma vec_length_error o x A w hf :
    holds is_vec x A w hf -> seq_pre o (length (q_elems A)) = true ->
    is_input o = false -> max_size < Z.of_nat (needed o (q_elems A)) ->
    vec_call o x w = Exn ELength x w.
  Proof.
    intros (_ & m & Hi & _) Hp Hin Hm. pose proof (iv_size _ _ _ Hi) as Hb.
    assert (Hck : forall n, max_size < n -> check_size n x w = Exn ELength x w).
    { intros n Hn. unfold check_size. by destruct (_ <? _) eqn:Hlt; [|lia]. }
    destruct o; simpl in Hp, Hin, Hm; try done; try lia; unfold run_vop, as_idx, as_unit, bind at 1, getS.
    - apply andb_prop in Hp as [Hp _]. apply Nat.leb_le in Hp. unfold emplace_, bind, getS.
      rewrite (offset_eq _ _ _ _ _ Hi Hp). rewrite (full_eq _ _ _ Hi); [|lia]. simpl.
      rewrite (newcap_eq _ _ _ _ _ Hi); [done|lia].
    - unfold emplace_back_, bind, getS. rewrite (full_eq _ _ _ Hi); [|lia]. simpl.
      rewrite (newcap_eq _ _ _ _ _ Hi); [done|lia].
    - apply andb_prop in Hp as [Hp _]. apply andb_prop in Hp as [Hp _]. apply Nat.leb_le in Hp.
      unfold insert_fill_, bind, getS. rewrite (offset_eq _ _ _ _ _ Hi Hp).
      destruct (_ =? _) eqn:H0; [lia|]. rewrite (available_eq _ _ _ _ Hi).
      destruct (_ <=? _) eqn:H1; [lia|]. rewrite (newcap_eq _ _ _ _ _ Hi); [done|lia].
    - apply Nat.leb_le in Hp.
      unfold insert_range_, bind, getS. rewrite (offset_eq _ _ _ _ _ Hi Hp).
      destruct (_ =? _)%nat eqn:H0; [rewrite fmap_length in H0; apply Nat.eqb_eq in H0; lia|].
      rewrite (available_eq _ _ _ _ Hi).
      destruct (_ <=? _) eqn:H1; [rewrite fmap_length in H1; lia|].
      unfold insert_range_realloc, bind, getS. rewrite (newcap_eq _ _ _ _ _ Hi); [done|]. rewrite fmap_length. lia.
    - unfold resize_, bind. rewrite Hck; [done|lia].
    - unfold assign_fill_, bind. rewrite Hck; [done|lia].
    - unfold assign_range_, bind. rewrite Hck; [done|]. rewrite fmap_length. lia.
    - simpl. unfold vec_reserve, bind. rewrite Hck; [done|lia].
  Qed.

  (** Arguments that are references to elements. *)
  Lemma vec_alias (o : vop) (x : vdata) (A : vabs) (w : world) hf (j : nat) (v : V) r x' w' :
    holds is_vec x A w hf -> q_elems A !! j = Some v ->
    seq_pre o (length (q_elems A)) = true -> vec_call o x w = Ok r x' w' ->
    exists A', holds is_vec x' A' w' hf /\
      match o with
      | OEmplace i (XCopy k) => k = j -> q_elems A' = take i (q_elems A) ++ [v] ++ drop i (q_elems A)
      | OEmplaceBack (XCopy k) => k = j -> q_elems A' = q_elems A ++ [v]
      | OInsertN i n (XCopy k) =>
          k = j -> q_elems A' = take i (q_elems A) ++ replicate n v ++ drop i (q_elems A)
      | OResize n (XCopy k) =>
          k = j -> q_elems A' = take n (q_elems A) ++ replicate (n - length (q_elems A))%nat v
      | OEmplace i (XMove k) =>
          k = j -> q_elems A' = take i (<[j := vmoved v]> (q_elems A)) ++ [v] ++
                                drop i (<[j := vmoved v]> (q_elems A))
      | OEmplaceBack (XMove k) => k = j -> q_elems A' = <[j := vmoved v]> (q_elems A) ++ [v]
      | _ => True
      end.
  Proof.
    intros Hx Hj Hp Hr. destruct (vec_returns o x A w hf r x' w' Hx Hp Hr) as (A' & Hx' & Hpost).
    exists A'. split; [done|].
    destruct o as [i [| |k|k]|[| |k|k]|i n [| |k|k]| | | | | |n [| |k|k]| | | | | | | | | | | | | | |];
      try done; intros ->; simpl in Hpost; rewrite Hj in Hpost;
      destruct Hpost as (v' & [= <-] & _ & ->); done.
  Qed.

  (** Stability of storage. *)
  Lemma vec_stable o x A w hf :
    holds is_vec x A w hf -> seq_pre o (length (q_elems A)) = true ->
    Z.of_nat (needed o (q_elems A)) <= q_cap A ->
    o <> OShrink -> o <> OSelfMove ->
    match vec_call o x w with
    | Ok _ x' w' | Exn _ x' w' =>
        exists A', holds is_vec x' A' w' hf /\ q_data A' = q_data A /\ q_cap A' = q_cap A
    | UB => False
    end.
  Proof.
    intros Hx Hp Hn Hs Hm. pose proof (vec_call_ok o x A w hf Hx Hp) as H.
    destruct (vec_call o x w) as [r x' w'|e x' w'|] eqn:Hr; [| |done].
    - destruct H as (A' & (H1 & _ & H2 & _) & H4 & _). exists A'. split; [done|].
      destruct o; simpl in H2, Hn; try done; try (by apply H2); try (destruct (decide _) in H2; [apply H2|lia]).
    - destruct H as (A' & (_ & _ & _ & _ & H1 & _) & H4 & _). exists A'. split; [done|]. by apply H1.
  Qed.

  Lemma vec_prefix o x A w hf r x' w' :
    holds is_vec x A w hf -> seq_pre o (length (q_elems A)) = true -> moving_arg o = false ->
    vec_call o x w = Ok r x' w' ->
    exists A', holds is_vec x' A' w' hf /\
      forall i v, (i < touched_from o (q_elems A))%nat -> q_elems A !! i = Some v -> q_elems A' !! i = Some v.
  Proof.
    intros Hx Hp Hm Hr. destruct (vec_returns o x A w hf r x' w' Hx Hp Hr) as (A' & Hx' & Hpost).
    exists A'. split; [done|]. intros i v Hi Hv. by eapply prefix_post.
  Qed.

  (** Histories *)
  Lemma vec_history cs w :
    wf_world w ->
    exists os P w' A h,
      exec_all vector cs ∅ w = Some (os, P, w') /\ atrace vector_spec cs ∅ os A /\
      pool_mem (S := vector_spec) is_vec P A h /\ h ##ₘ heap w /\ heap w' = h ∪ heap w /\
      ((forall e, Threw e ∉ os) -> fired w' = fired w).
  Proof. apply (history_state vector_ok is_vec vec_iff). Qed.
  Lemma vec_no_leak (cs : list (cmd vector)) w :
    wf_world w ->
    exists os w', exec_all vector (cs ++ (Drop <$> created cs)) ∅ w = Some (os, ∅, w') /\
                  heap w' = heap w.
  Proof. apply (no_leak vector_ok). Qed.

  Lemma vec_at_ok i x A w hf :
    holds is_vec x A w hf ->
    vec_call (OAt i) x w =
      match q_elems A !! i with
      | Some v => Ok (RVal v) x w
      | None => Exn EOutOfRange x w
      end.
  Proof.
    intros Hx. pose proof (vec_call_ok (OAt i) x A w hf Hx eq_refl) as H. destruct Hx as (Hwf & m & Hi & Hx).
    assert (vec_call (OAt i) x w =
      if Z.of_nat (length (q_elems A)) <=? Z.of_nat i then Exn EOutOfRange x w
      else match heap w !! (v_first x +ₗ Z.of_nat i) with Some (Live v) => Ok (RVal v) x w | _ => UB end) as He.
    { unfold run_vop, at_, bind, getS. rewrite (size_eq _ _ _ _ Hi). unfold throw, read.
      destruct (_ <=? _); [done|]. by destruct (heap w !! _) as [[]|]. }
    rewrite He in H |- *. destruct (_ <=? _) eqn:Hle.
    - rewrite lookup_ge_None_2; [done|lia].
    - destruct (heap w !! _) as [[]|]; try done. destruct H as (A' & (H & _) & _).
      destruct H as (v' & Hl & [= ->] & _). by rewrite Hl.
  Qed.

  Lemma vec_erase_if p x A w hf r x' w' :
    holds is_vec x A w hf -> vec_call (OEraseIf p) x w = Ok r x' w' ->
    exists A', holds is_vec x' A' w' hf /\
      q_elems A' = List.filter (fun v => negb (p v)) (q_elems A) /\
      r = RNum (Z.of_nat (length (q_elems A) - length (q_elems A'))%nat) /\
      q_data A' = q_data A /\ q_cap A' = q_cap A.
  Proof.
    intros Hx Hr. pose proof (vec_call_ok (OEraseIf p) x A w hf Hx eq_refl) as H. rewrite Hr in H.
    destruct H as (A' & ((H1 & H2) & _ & H3 & _) & H4 & _). exists A'. split; [done|]. split; [done|].
    split; [|apply H3]. rewrite H2 H1. do 2 f_equal. clear.
    induction (q_elems A) as [|v l IH]; simpl; [done|].
    assert (forall q : V -> bool, length (List.filter q l) <= length l)%nat as Hle.
    { clear. intros q. induction l as [|v l IH]; simpl; [done|]. destruct (q v); simpl; lia. }
    pose proof (Hle p). pose proof (Hle (fun v => negb (p v))).
    destruct (p v); simpl; lia.
  Qed.
End vector_thms.
