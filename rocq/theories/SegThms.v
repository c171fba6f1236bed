(** * Consequences of the specification of sfl::segmented_vector

    The lemmas behind Props_SegVector.v. *)

From iris.proofmode Require Import tactics.
From Verif Require Export SegState Demo.
From Verif Require Import SeqThms.
From Coq Require Import ZifyBool.
Open Scope Z_scope.
Notation frame := SegGrow.frame.

(** A call of a member function. *)
Definition seg_call `{Env} `{SegSize} (ra : bool) (o : vop) : M sgdata rval := run_svop ra o.

(** ** What both containers have in common *)
Section seg_common.
  Context `{E : Env} `{SZ : SegSize} (dev : bool).
  Notation R := (is_seg dev).

  Lemma seg_bounds x A w hf :
    holds R x A w hf -> 0 <= s_front A /\ s_front A + s_size A <= s_cap A.
  Proof.
    intros (_ & m & (tb & cs1 & cs2 & H & _) & _). split; [apply (ig_front _ _ _ _ _ _ H)|apply (ig_size _ _ _ _ _ _ H)].
  Qed.

  (** Where elements are. *)
  Lemma blks_cell_at bs i b k :
    NoDup (b_id <$> bs) -> bs !! i = Some b -> blks_cell bs (b_id b, k) = blk_cell b k.
  Proof.
    revert i. induction bs as [|b' bs IH]; intros i Hn Hi; [done|].
    cbn [fmap list_fmap blks_cell fst snd] in *. apply NoDup_cons in Hn as [Hnew Hn].
    destruct i as [|i]; simpl in Hi; [injection Hi as ->; by rewrite decide_True|].
    case_decide as Hb; [|by eapply IH]. exfalso. apply Hnew. rewrite -Hb.
    apply elem_of_list_fmap. exists b. split; [done|]. by eapply elem_of_list_lookup_2.
  Qed.
  Lemma slot_elem A j v : s_elems A !! j = Some v -> slot A (s_front A + Z.of_nat j) = Live v.
  Proof.
    intros Hj. unfold slot. rewrite decide_True; [|lia].
    replace (Z.to_nat _) with j by lia. by rewrite Hj.
  Qed.
  Lemma seg_mem tb cs1 cs2 x A m i :
    is_seg_at tb cs1 cs2 x A m -> 0 <= i <= s_cap A ->
    exists q, s_segs A !! Z.to_nat (i / SS) = Some q /\ q.2 = 0 /\ m !! (q +ₗ i mod SS) = Some (slot A i).
  Proof.
    intros H Hi. pose proof SS_pos as HSS. pose proof (Z.mod_pos_bound i SS HSS) as Hm.
    assert (SS <> 0) as Hne by lia. pose proof (Z.div_mod i SS Hne) as Hd.
    assert (0 <= i / SS < zlen (s_segs A)) as Hk.
    { split; [apply Z.div_pos; lia|]. unfold s_cap in Hi. apply Z.div_lt_upper_bound; lia. }
    destruct (lookup_lt_is_Some_2 (s_segs A) (Z.to_nat (i / SS))) as [q Hq]; [lia|]. exists q. split; [done|].
    pose proof (ig_offsets _ _ _ _ _ _ H) as Ho. rewrite Forall_lookup in Ho. specialize (Ho _ _ Hq). split; [done|].
    destruct (ig_mem _ _ _ _ _ _ H) as (_ & Hn & Hmem). rewrite Hmem.
    replace (q +ₗ i mod SS) with (q.1, i mod SS) by (unfold loc_add; rewrite Ho; f_equal; lia).
    rewrite (blks_cell_at _ (S (Z.to_nat (i / SS))) (Blk q.1 (s_alloc A) (seg_cells A (Z.to_nat (i / SS)))) _ Hn).
    - unfold blk_cell. rewrite decide_False; [|unfold hdr_off; lia]. rewrite decide_True; [|lia]. cbn [b_cells].
      unfold seg_cells. rewrite list_lookup_fmap lookup_seqZ_lt; [|lia]. simpl. do 2 f_equal. lia.
    - unfold seg_blocks. simpl. rewrite list_lookup_imap Hq. done.
  Qed.
  Lemma seg_elem_mem x A w hf j v :
    holds R x A w hf -> s_elems A !! j = Some v ->
    exists p, elem_at A j = Some p /\ heap w !! p = Some (Live v).
  Proof.
    intros (Hwf & m & (tb & cs1 & cs2 & H & _) & Hd & Hh) Hj. pose proof (lookup_lt_Some _ _ _ Hj) as Hlt.
    pose proof (ig_size _ _ _ _ _ _ H) as Hs. pose proof (ig_front _ _ _ _ _ _ H) as Hf. unfold s_size in Hs.
    destruct (seg_mem _ _ _ _ _ _ (s_front A + Z.of_nat j) H) as (q & Hq & _ & Hm); [lia|].
    unfold elem_at. rewrite Hq. eexists. split; [done|]. rewrite Hh.
    rewrite (slot_elem _ _ _ Hj) in Hm. by apply lookup_union_Some_l.
  Qed.
  (** The address as the program sees it: [&*(begin() + j)]. *)
  Lemma it_index_pure {St} (s : St) w i n q s' w' : it_index i n s w = Ok q s' w' -> s' = s /\ w' = w.
  Proof.
    unfold it_index, it_add, read_ptr, ptr_sub, bind, ret. intros Hr.
    repeat (case_match; try done); naive_solver.
  Qed.
  Lemma seg_ref x A w hf j p :
    holds R x A w hf -> (j < length (s_elems A))%nat -> elem_at A j = Some p -> s_ref j x w = Ok p x w.
  Proof.
    intros Hx Hj Hp. destruct Hx as (Hwf & m & Hm & Hd & Hh). apply is_seg_iff in Hm. destruct A as [a segs f l].
    apply ex_holds in Hm as (T & HT). apply pure_sep_holds in HT as [(-> & Ha & HI) Hs].
    cbn [s_alloc s_segs s_front s_elems] in *. subst a.
    assert (p = saddr segs (f + Z.of_nat j)) as ->.
    { unfold elem_at in Hp. cbn [s_front s_segs] in Hp. unfold saddr.
      destruct (segs !! _) as [q|] eqn:Hq; [|done]. by rewrite (list_lookup_total_correct _ _ _ Hq); injection Hp as <-. }
    assert (sg_at T segs f l ⊢ wp (s_ref j) (sobj T segs f (zlen l))
      (fun q x' => ⟦q = saddr segs (f + Z.of_nat j) /\ x' = sobj T segs f (zlen l)⟧ ∗ sg_at T segs f l)
      (fun _ _ => False))%I as Hwp.
    { iIntros "Hs". unfold s_ref. iApply (wp_s_ref with "Hs"); [lia|]. iIntros "Hs". by iFrame. }
    pose proof (wp_run _ _ _ _ m hf w (wp_entails _ _ _ _ _ m Hwp Hs) Hwf Hd Hh) as Hrun.
    destruct (s_ref j _ w) as [q x' w'|e x' w'|] eqn:He; [| |done]; destruct Hrun as (h' & Hh' & Hd' & Haf & HQ); [|done].
    apply pure_sep_holds in HQ as [[-> ->] HQ].
    unfold s_ref, bind, getS in He. by apply it_index_pure in He as [_ ->].
  Qed.

  (** Reading the abstract value off memory. *)
  Fixpoint read_ptrs (p : loc) (n : nat) (h : heapm) : option (list loc) :=
    match n with
    | O => Some []
    | S n' =>
        match h !! p, read_ptrs (p +ₗ 1) n' h with
        | Some (Ptr q), Some l => Some (q :: l)
        | _, _ => None
        end
    end.
  Fixpoint read_at (ps : list loc) (h : heapm) : option (list V) :=
    match ps with
    | [] => Some []
    | p :: ps' =>
        match h !! p, read_at ps' h with
        | Some (Live v), Some l => Some (v :: l)
        | _, _ => None
        end
    end.
  Lemma read_ptrs_ok p l h :
    (forall i q, l !! i = Some q -> h !! (p +ₗ Z.of_nat i) = Some (Ptr q)) -> read_ptrs p (length l) h = Some l.
  Proof.
    revert p. induction l as [|q l IH]; intros p Hl; simpl; [done|].
    pose proof (Hl 0%nat q eq_refl) as H0. rewrite loc_add_0 in H0. rewrite H0. rewrite IH; [done|].
    intros i q' Hq. rewrite -(Hl (S i) q' Hq). f_equal. rewrite loc_add_assoc. f_equal. lia.
  Qed.
  Lemma read_at_ok ps l h :
    length ps = length l ->
    (forall i p v, ps !! i = Some p -> l !! i = Some v -> h !! p = Some (Live v)) -> read_at ps h = Some l.
  Proof.
    revert l. induction ps as [|p ps IH]; intros [|v l] Hlen Hl; simpl in *; [done|lia|lia|].
    rewrite (Hl 0%nat p v eq_refl eq_refl). rewrite (IH l); [done|lia|].
    intros i p' v' Hp Hv. by apply (Hl (S i)).
  Qed.
  Definition seg_view (x : sgdata) (w : world) : option sabs :=
    match read_ptrs (sg_tfirst x) (Z.to_nat ((sg_tlast x).2 - (sg_tfirst x).2)) (heap w) with
    | Some segs =>
        let p := s_dist (sg_first x) (sg_bos x) in
        let addr i := segs !!! Z.to_nat (i / SS) +ₗ i mod SS in
        match read_at (addr <$> seqZ p (s_dist (sg_last x) (sg_first x))) (heap w) with
        | Some l => Some (SAbs (sg_alloc x) segs p l)
        | None => None
        end
    | None => None
    end.
  Lemma seg_view_ok x A m w : R x A m -> m ⊆ heap w -> seg_view x w = Some A.
  Proof.
    intros (tb & cs1 & cs2 & H & _) Hm. pose proof SS_pos as HSS.
    pose proof (ig_size _ _ _ _ _ _ H) as Hs. pose proof (ig_front _ _ _ _ _ _ H) as Hf.
    assert (forall i j, 0 <= i <= s_cap A -> 0 <= j <= s_cap A ->
      s_dist (place (tb, zlen cs1) A i) (place (tb, zlen cs1) A j) = i - j) as Hdist.
    { intros i j Hi Hj. assert (SS <> 0) as Hne by lia.
      pose proof (Z.div_mod i SS Hne) as Hdi. pose proof (Z.div_mod j SS Hne) as Hdj.
      destruct (seg_mem _ _ _ _ _ _ i H Hi) as (q & Hq & Hq0 & _).
      destruct (seg_mem _ _ _ _ _ _ j H Hj) as (q' & Hq' & Hq0' & _).
      unfold s_dist, place, loc_add. cbn [it_seg it_loc fst snd].
      rewrite (list_lookup_total_correct _ _ _ Hq) (list_lookup_total_correct _ _ _ Hq') Hq0 Hq0'. lia. }
    unfold seg_view. rewrite (ig_tfirst _ _ _ _ _ _ H) (ig_tlast _ _ _ _ _ _ H) (ig_alloc _ _ _ _ _ _ H)
      (ig_first _ _ _ _ _ _ H) (ig_last _ _ _ _ _ _ H) (ig_bos _ _ _ _ _ _ H). cbn [snd].
    replace (Z.to_nat _) with (length (s_segs A)) by lia.
    unfold s_size in *.
    rewrite (read_ptrs_ok _ (s_segs A)).
    2:{ intros i q Hi. eapply lookup_weaken; [|exact Hm]. destruct (ig_mem _ _ _ _ _ _ H) as (_ & Hn & Hmem).
        rewrite Hmem. unfold loc_add. cbn [fst snd].
        rewrite (blks_cell_at _ 0 (Blk tb (s_alloc A) (cs1 ++ (Ptr <$> s_segs A) ++ cs2)) _ Hn); [|done].
        unfold blk_cell. rewrite decide_False; [|unfold hdr_off; lia]. rewrite decide_True; [|lia]. cbn [b_cells].
        rewrite lookup_app_r; [|lia]. replace (Z.to_nat _ - _)%nat with i by lia.
        rewrite lookup_app_l; [|rewrite fmap_length; by eapply lookup_lt_Some]. by rewrite list_lookup_fmap Hi. }
    cbv zeta. rewrite !Hdist; [|lia..]. rewrite !Z.sub_0_r.
    rewrite (read_at_ok _ (s_elems A)).
    - by destruct A.
    - rewrite fmap_length seqZ_length. lia.
    - intros i p v Hp Hv. apply list_lookup_fmap_Some in Hp as (k & Hk & ->). apply lookup_seqZ in Hk as [-> Hk].
      destruct (seg_mem _ _ _ _ _ _ (s_front A + Z.of_nat i) H) as (q & Hq & Hq0 & Hmem); [lia|].
      rewrite (list_lookup_total_correct _ _ _ Hq). eapply lookup_weaken; [|exact Hm].
      by rewrite Hmem (slot_elem _ _ _ Hv).
  Qed.
End seg_common.

(** ** sfl::segmented_vector *)
Section seg_thms.
  Context `{E : Env} `{SZ : SegSize} (ra : bool).
  Notation R := (is_seg false).
  Notation call := (seg_call ra).
  Notation pre o A := (sv_pre o (length (s_elems A)) = true).

  Lemma seg_call_ok o x A w hf :
    holds R x A w hf -> pre o A ->
    match call o x w with
    | Ok r x' w' => exists A', svpost o A r A' /\ holds R x' A' w' hf /\ quiet w w'
    | Exn e x' w' => exists A', sv_exn o A e A' /\ holds R x' A' w' hf /\ reason e w w'
    | UB => False
    end.
  Proof. intros Hx Hp. apply (run1_state (segvec_ok ra) R (segvec_iff ra) o x A w hf Hx Hp). Qed.

  Lemma seg_returns o x A w hf r x' w' :
    holds R x A w hf -> pre o A -> call o x w = Ok r x' w' ->
    exists A', holds R x' A' w' hf /\ s_alloc A' = s_alloc A /\
      seq_post 0 o (s_elems A) r (s_elems A') /\ sv_storage o A A' /\
      (o = OCapacity -> r = RNum (s_cap A)) /\ fired w' = fired w.
  Proof.
    intros Hx Hp Hr. pose proof (seg_call_ok o x A w hf Hx Hp) as H. rewrite Hr in H.
    destruct H as (A' & (H1 & H2 & H3 & H4) & H5 & H6). exists A'. by split_and!.
  Qed.
  Lemma seg_safe o x A w hf :
    holds R x A w hf -> pre o A ->
    match call o x w with
    | Ok _ x' w' => exists A', holds R x' A' w' hf
    | Exn e x' w' => exists A', holds R x' A' w' hf /\ sv_exn o A e A' /\ reason e w w'
    | UB => False
    end.
  Proof.
    intros Hx Hp. pose proof (seg_call_ok o x A w hf Hx Hp) as H.
    destruct (call o x w); [| |done]; destruct H as (A' & ? & ? & ?); eauto.
  Qed.
  (** Nothing throws: the call returns, or the size is too big. *)
  Lemma seg_calm o x A w hf :
    (forall k t, may_throw k t = false) -> holds R x A w hf -> pre o A ->
    match call o x w with
    | Ok r x' w' => exists A', holds R x' A' w' hf /\ s_alloc A' = s_alloc A /\
        seq_post 0 o (s_elems A) r (s_elems A') /\ sv_storage o A A'
    | Exn e x' w' => (e = ELength /\ max_size < Z.of_nat (needed o (s_elems A)) \/
        e = EOutOfRange /\ exists i, o = OAt i /\ (length (s_elems A) <= i)%nat) /\
        exists A', holds R x' A' w' hf /\ sv_exn o A e A'
    | UB => False
    end.
  Proof.
    intros Hq Hx Hp. pose proof (seg_call_ok o x A w hf Hx Hp) as H.
    destruct (call o x w) as [r x' w'|e x' w'|]; [| |done].
    - destruct H as (A' & (? & ? & ? & ?) & ? & ?). exists A'. by split_and!.
    - destruct H as (A' & He & Hx' & Hre). split; [|by exists A'].
      destruct He as (_ & _ & _ & _ & _ & He). destruct e; simpl in Hre.
      + left. split; [done|]. apply He.
      + right. split; [done|]. destruct He as [(i & ? & ?) _]. by exists i.
      + destruct Hre as (t & Ht & _). pose proof (Hq KAlloc t) as Hq'. simpl in Hq'. congruence.
      + destruct Hre as (k & t & _ & Ht & _). pose proof (Hq k t) as Hq'. simpl in Hq'. congruence.
  Qed.

  (** ** Elements stay where they are *)

  (** Element [j] of [n] is neither removed, nor assigned to, nor moved from. *)
  Definition sv_keeps (o : vop) (n j : nat) : Prop :=
    let unmoved x := match x with XMove k => j <> k | _ => True end in
    match o with
    | OEmplaceBack x => unmoved x
    | OEmplace i x => (j < i)%nat /\ unmoved x
    | OInsertN i _ x => (j < i)%nat /\ unmoved x
    | OInsertRange i _ | OInsertInput i _ | OErase i | OEraseRange i _ => (j < i)%nat
    | OPopBack => (S j < n)%nat
    | OResize m _ => (j < m)%nat
    | OSet i _ => j <> i
    | OReserve _ | OShrink | OAt _ | OGet _ | OFront | OBack | OSize | OCapacity => True
    | OAssignN _ _ | OAssignRange _ | OAssignInput _ | OClear | OEraseIf _ | OSelfMove => False
    end.
  Lemma elem_at_extended A A' j p :
    s_front A' = s_front A -> extended A A' -> elem_at A j = Some p -> elem_at A' j = Some p.
  Proof.
    intros Hf [new Hn] Hp. unfold elem_at in *. rewrite Hf Hn.
    apply fmap_Some in Hp as (q & Hq & ->). by rewrite (lookup_app_l_Some _ _ _ _ Hq).
  Qed.
  Lemma arg_rest_lookup (l : list V) x (j : nat) :
    match x with XMove k => j <> k | _ => True end -> arg_rest l x !! j = l !! j.
  Proof.
    destruct x as [| | |k]; try done. simpl. intros Hj. destruct (l !! k); [|done]. by apply list_lookup_insert_ne.
  Qed.
  Lemma sv_keeps_value o l r l' j v :
    sv_keeps o (length l) j -> sv_pre o (length l) = true -> seq_post 0 o l r l' ->
    l !! j = Some v -> l' !! j = Some v.
  Proof.
    intros Hk Hp Hs Hj. pose proof (lookup_lt_Some _ _ _ Hj) as Hlt.
    assert (forall i (k k' : list V), (j < i)%nat -> (i <= length k)%nat -> k !! j = Some v ->
      (take i k ++ k') !! j = Some v) as Htake.
    { intros i k k' Hi Hl Hv. rewrite lookup_app_l; [|rewrite take_length; lia]. by rewrite lookup_take. }
    unfold sv_pre in Hp. destruct o; simpl in Hk, Hp, Hs; try done; rewrite ?andb_true_iff in Hp; destruct_and? Hp;
      try (destruct Hs as (v' & _ & _ & Hl')); try (destruct Hs as [_ Hl']).
    - rewrite Hl'. destruct Hk as [Hk1 Hk2]. apply Htake; [done|rewrite arg_rest_length; lia|by rewrite arg_rest_lookup].
    - rewrite Hl'. apply lookup_app_l_Some. by rewrite arg_rest_lookup.
    - rewrite Hl'. apply Htake; [lia|lia|done].
    - rewrite Hl'. apply Htake; [lia|lia|done].
    - rewrite Hl'. apply Htake; [lia|lia|done].
    - destruct Hl' as [v' ->]. rewrite app_length /= in Hk. rewrite lookup_app_l in Hj; [done|lia].
    - rewrite Hl'. apply Htake; [lia|lia|done].
    - rewrite Hl'. apply Htake; [lia|lia|done].
    - rewrite Hl'. apply lookup_app_l_Some. rewrite lookup_take; [done|lia].
    - by rewrite Hl'.
    - by rewrite Hl'.
    - by rewrite Hl'.
    - by rewrite Hl'.
    - by rewrite Hl'.
    - by rewrite Hl'.
    - rewrite Hl'. by rewrite list_lookup_insert_ne.
    - by rewrite Hl'.
    - by rewrite Hl'.
  Qed.
  Lemma elem_at_shrunk A A' j p :
    s_front A' = s_front A -> s_front A = 0 -> (j < length (s_elems A))%nat ->
    s_segs A' = take (Z.to_nat (s_size A / SS + 1)) (s_segs A) ->
    elem_at A j = Some p -> elem_at A' j = Some p.
  Proof.
    intros Hf H0 Hj Hs Hp. unfold elem_at in *. rewrite Hf Hs H0. rewrite H0 in Hp. rewrite Z.add_0_l in Hp |- *.
    rewrite lookup_take; [done|]. pose proof SS_pos. unfold s_size.
    assert (Z.of_nat j / SS <= zlen (s_elems A) / SS) by (apply Z.div_le_mono; lia).
    assert (0 <= Z.of_nat j / SS) by (apply Z.div_pos; lia). lia.
  Qed.
  Lemma keeps_elem_at o A A' j p :
    sv_keeps o (length (s_elems A)) j -> s_front A = 0 -> (j < length (s_elems A))%nat -> sv_storage o A A' ->
    elem_at A j = Some p -> elem_at A' j = Some p.
  Proof.
    intros Hk H0 Hj [Hf Hs] Hp.
    assert (s_segs A' = s_segs A -> elem_at A' j = Some p) as Hsame.
    { intros Hss. apply (elem_at_extended A A'); [done| |done]. exists []. by rewrite app_nil_r. }
    destruct o; try done; try (by apply Hsame).
    all: try (destruct Hs as [(new & Hn & _) _]; apply (elem_at_extended A A'); [done|by exists new|done]).
    - destruct Hs as [Hn _]. by apply (elem_at_extended A A').
    - by apply (elem_at_shrunk A A').
  Qed.
  Lemma seg_front_0 x A w hf : holds R x A w hf -> s_front A = 0.
  Proof. intros (_ & m & (tb & cs1 & cs2 & _ & H) & _). by apply H. Qed.

  Lemma seg_references o x A w hf r x' w' j v p :
    holds R x A w hf -> pre o A -> call o x w = Ok r x' w' ->
    sv_keeps o (length (s_elems A)) j -> s_elems A !! j = Some v -> elem_at A j = Some p ->
    s_ref j x w = Ok p x w /\ s_ref j x' w' = Ok p x' w' /\ heap w' !! p = Some (Live v).
  Proof.
    intros Hx Hp Hr Hk Hj He. pose proof (lookup_lt_Some _ _ _ Hj) as Hlt.
    destruct (seg_returns o x A w hf r x' w' Hx Hp Hr) as (A' & Hx' & _ & Hs & Hst & _).
    pose proof (sv_keeps_value _ _ _ _ _ _ Hk Hp Hs Hj) as Hj'.
    pose proof (keeps_elem_at o A A' j p Hk (seg_front_0 _ _ _ _ Hx) Hlt Hst He) as He'.
    split; [by eapply seg_ref|]. split; [eapply seg_ref; [done|by eapply lookup_lt_Some|done]|].
    destruct (seg_elem_mem false _ _ _ _ _ _ Hx' Hj') as (p' & Hp' & Hm). congruence.
  Qed.
  (** The same after an exception. *)
  Lemma seg_strong o x A w hf e x' w' :
    holds R x A w hf -> pre o A -> sv_strong o A -> call o x w = Exn e x' w' ->
    exists A', holds R x' A' w' hf /\ s_alloc A' = s_alloc A /\ s_elems A' = s_elems A /\
      forall j p, (j < length (s_elems A))%nat -> elem_at A j = Some p -> elem_at A' j = Some p.
  Proof.
    intros Hx Hp Hst Hr. pose proof (seg_call_ok o x A w hf Hx Hp) as H. rewrite Hr in H.
    destruct H as (A' & (Ha & Hf & _ & Hs & Hseg & He) & Hx' & _). exists A'. split_and!; [done|done|by apply Hs|].
    intros j p Hj Hjp. pose proof (seg_front_0 _ _ _ _ Hx) as H0.
    assert (A' = A -> elem_at A' j = Some p) as Hsame by by intros ->.
    destruct o; try (destruct Hseg as [Hseg _]; by apply (elem_at_extended A A')).
    simpl in He. destruct e; [apply Hsame, He; done|apply Hsame, He| |done].
    by apply (elem_at_shrunk A A').
  Qed.

  (** ** Size and max_size *)
  Lemma seg_within_max o x A w hf r x' w' :
    holds R x A w hf -> pre o A -> s_cap A <= max_size -> is_input o = false ->
    call o x w = Ok r x' w' ->
    exists A', holds R x' A' w' hf /\ s_size A' <= max_size.
  Proof.
    intros Hx Hp Hc Hin Hr. destruct (seg_returns o x A w hf r x' w' Hx Hp Hr) as (A' & Hx' & _ & Hs & [_ Hst] & _).
    exists A'. split; [done|]. pose proof (seg_bounds _ _ _ _ _ Hx) as Hb. pose proof (seg_bounds _ _ _ _ _ Hx') as Hb'.
    assert (s_segs A' = s_segs A -> s_size A' <= max_size) as Hsame.
    { intros Hss. unfold s_cap in *. rewrite Hss in Hb'. lia. }
    assert (s_elems A' = s_elems A -> s_size A' <= max_size) as Hsame2.
    { intros Hss. unfold s_size in *. rewrite Hss. lia. }
    unfold s_size in *.
    destruct o; try done; try (by apply Hsame); try (destruct Hst as [_ Hst]; specialize (Hst Hc)); simpl in Hs, Hst.
    - destruct Hs as (v & _ & _ & ->). repeat progress (rewrite ?app_length ?take_length ?drop_length ?replicate_length ?arg_rest_length; simpl). lia.
    - destruct Hs as (v & _ & _ & ->). repeat progress (rewrite ?app_length ?take_length ?drop_length ?replicate_length ?arg_rest_length; simpl). lia.
    - destruct Hs as (v & _ & _ & ->). repeat progress (rewrite ?app_length ?take_length ?drop_length ?replicate_length ?arg_rest_length; simpl). lia.
    - destruct Hs as (_ & ->). repeat progress (rewrite ?app_length ?take_length ?drop_length ?replicate_length ?arg_rest_length; simpl). lia.
    - destruct Hs as (v & _ & _ & ->). repeat progress (rewrite ?app_length ?take_length ?drop_length ?replicate_length ?arg_rest_length; simpl). lia.
    - destruct Hs as (_ & ->). repeat progress (rewrite ?app_length ?take_length ?drop_length ?replicate_length ?arg_rest_length; simpl). lia.
    - destruct Hs as (_ & ->). lia.
    - apply Hsame2, Hs.
    - apply Hsame2, Hs.
    - destruct Hs as (_ & [->|[Hz _]]); [simpl; pose proof max_size_ok; lia|lia].
  Qed.

  (** ** Constructors, destructor, functions of two objects, histories *)
  Lemma seg_ctor_safe c w hf :
    holds0 w hf ->
    match build (segvec ra) c tt w with
    | Ok x _ w' => exists A, holds R x A w' hf /\ sv_k_post c A /\ quiet w w'
    | Exn e _ w' => holds0 w' hf /\ k_exn (k_elems c) e /\ reason e w w'
    | UB => False
    end.
  Proof.
    intros Hw. pose proof (build_state (segvec_ok ra) R (segvec_iff ra) c w hf Hw I) as H. unfold build_ok in H.
    destruct (build (segvec ra) c tt w) as [x [] w'|e [] w'|]; [| |done].
    - destruct H as (A & H1 & H2 & H3). by exists A.
    - destruct H as (H1 & H2 & H3). done.
  Qed.
  Lemma seg_ctor2_safe c y B w hf :
    holds R y B w hf ->
    match build2 (segvec ra) c y w with
    | Ok x y' w' => exists A B', holds2 R x A y' B' w' hf /\ sv_k2_post c B A B' /\ quiet w w'
    | Exn e y' w' => exists B', holds R y' B' w' hf /\ sv_k2_exn c B e B' /\ reason e w w'
    | UB => False
    end.
  Proof.
    intros Hw. pose proof (build2_state (segvec_ok ra) R (segvec_iff ra) c y B w hf Hw I) as H. unfold build2_ok in H.
    destruct (build2 (segvec ra) c y w) as [x y' w'|e y' w'|]; [| |done].
    - destruct H as (A & B' & H1 & H2 & H3). by exists A, B'.
    - destruct H as (B' & H1 & H2 & H3). by exists B'.
  Qed.
  Lemma seg_two_safe o x A y B w hf :
    holds2 R x A y B w hf -> sv_pre2 o A B ->
    match sq_run2 sv_assign_range o (x, y) w with
    | Ok r (x', y') w' =>
        exists A' B', holds2 R x' A' y' B' w' hf /\ sv_post2 true o A B r A' B' /\ quiet w w'
    | Exn e (x', y') w' =>
        exists A' B', holds2 R x' A' y' B' w' hf /\ sv_exn2 o A B e A' B' /\ reason e w w'
    | UB => False
    end.
  Proof.
    intros Hw Hp. pose proof (run2_state (segvec_ok ra) R (segvec_iff ra) o x A y B w hf Hw Hp) as H.
    unfold two_ok in H.
    change (@pair (obj (segvec ra)) (obj (segvec ra)) x y) with (@pair sgdata sgdata x y) in H.
    change (run2 (segvec ra) o) with (sq_run2 sv_assign_range o) in H.
    destruct (sq_run2 sv_assign_range o (x, y) w) as [r [x' y'] w'|e [x' y'] w'|]; [| |done];
      destruct H as (A' & B' & H1 & H2 & H3); exists A', B'; by split_and!.
  Qed.
  Lemma seg_swap x A y B w hf :
    holds2 R x A y B w hf -> s_alloc A = s_alloc B ->
    match sq_run2 sv_assign_range PSwap (x, y) w with
    | Ok r (x', y') w' => r = RUnit /\ holds2 R x' B y' A w' hf
    | _ => False
    end.
  Proof.
    intros Hw Ha. pose proof (seg_two_safe PSwap x A y B w hf Hw Ha) as H.
    destruct (sq_run2 sv_assign_range PSwap (x, y) w) as [r [x' y'] w'|e [x' y'] w'|]; [| |done].
    - by destruct H as (A' & B' & Hxy & (-> & -> & ->) & _).
    - by destruct H as (A' & B' & _ & He & _).
  Qed.
  Lemma seg_dtor_safe x A w hf :
    holds R x A w hf ->
    match sq_destructor x w with
    | Ok _ _ w' => holds0 w' hf
    | _ => False
    end.
  Proof.
    intros Hw. pose proof (kill_state (segvec_ok ra) R (segvec_iff ra) x A w hf Hw) as H. unfold kill_ok in H.
    change (kill (segvec ra)) with sq_destructor in H.
    destruct (sq_destructor x w); [|done..]. apply H.
  Qed.
  Lemma seg_history (cs : list (cmd (segvec ra))) w :
    wf_world w ->
    exists os P w' A h,
      exec_all (segvec ra) cs ∅ w = Some (os, P, w') /\ atrace (segvec_spec ra) cs ∅ os A /\
      pool_mem (S := segvec_spec ra) R P A h /\ h ##ₘ heap w /\ heap w' = h ∪ heap w /\
      ((forall e, Threw e ∉ os) -> fired w' = fired w).
  Proof. apply (history_state (segvec_ok ra) R (segvec_iff ra)). Qed.
  Lemma seg_no_leak (cs : list (cmd (segvec ra))) w :
    wf_world w ->
    exists os w', exec_all (segvec ra) (cs ++ (Drop <$> created cs)) ∅ w = Some (os, ∅, w') /\
                  heap w' = heap w.
  Proof. apply (no_leak (segvec_ok ra)). Qed.

  Lemma seg_at_eval i x A w hf :
    holds R x A w hf ->
    match call (OAt i) x w with
    | Ok r _ _ => exists v, s_elems A !! i = Some v /\ r = RVal v
    | Exn e x' w' => s_elems A !! i = None /\ e = EOutOfRange /\ holds R x' A w' hf
    | UB => False
    end.
  Proof.
    intros Hx. pose proof (seg_call_ok (OAt i) x A w hf Hx eq_refl) as H. pose proof (seg_bounds _ _ _ _ _ Hx) as Hb.
    destruct (call (OAt i) x w) as [r x' w'|e x' w'|]; [| |done].
    - destruct H as (A' & ((v & Hv & -> & _) & _) & _). by exists v.
    - destruct H as (A' & (_ & _ & _ & _ & _ & He) & Hx' & _). destruct e; simpl in He.
      + by destruct He.
      + destruct He as [(i' & [= <-] & Hi) ->]. split_and!; [by apply lookup_ge_None|done|done].
      + unfold s_size in Hb. lia.
      + done.
  Qed.

  Definition seg_case_ok := @case_ok E (segvec ra) (segvec_spec ra) (segvec_ok ra) R (segvec_iff ra) seg_view (seg_view_ok false).
  Definition seg_case_exn := @case_exn E (segvec ra) (segvec_spec ra) (segvec_ok ra) R (segvec_iff ra) seg_view (seg_view_ok false).
  Definition seg_case := @case_at E (segvec ra) (segvec_spec ra) (segvec_ok ra) R (segvec_iff ra) seg_view (seg_view_ok false).
  Definition seg_case2_ok := @case2_ok E (segvec ra) (segvec_spec ra) (segvec_ok ra) R (segvec_iff ra) seg_view (seg_view_ok false).
  Definition seg_case2_exn := @case2_exn E (segvec ra) (segvec_spec ra) (segvec_ok ra) R (segvec_iff ra) seg_view (seg_view_ok false).
End seg_thms.
Arguments seg_case_ok {E SZ ra} cs i {T}. Arguments seg_case_exn {E SZ ra} cs i {T}. Arguments seg_case {E SZ ra} cs i.
Arguments seg_case2_ok {E SZ ra} cs i j {T}. Arguments seg_case2_exn {E SZ ra} cs i j {T}.
