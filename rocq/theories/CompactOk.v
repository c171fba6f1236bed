(** * sfl::compact_vector meets its specification *)

From Verif Require Export CompactClient CompactAssign VectorOk.
From iris.proofmode Require Import tactics.
From Coq Require Import ZifyBool.
Open Scope Z_scope.

Section compact_ok.
  Context `{E : Env}.
  Context (undo : Z -> M vdata unit) (b : bool).

  (** The object [x] holds the abstract value [A]. *)
  Definition cinv (x : vdata) (A : vabs) : hProp :=
    (⟦compact A⟧ ∗ vinv vec_storage vec_ok x A)%I.

  Lemma cinv_intro a f l n :
    n = length l -> cat a f l ⊢ cinv (cobj a f n) (VAbs a f l (Z.of_nat (length l))).
  Proof.
    iIntros (->) "Hv". iSplit; [done|]. by iApply vinv_vec.
  Qed.
  Lemma cinv_open x A :
    cinv x A ⊢ ∃ a f l, ⟦A = VAbs a f l (Z.of_nat (length l)) /\ x = cobj a f (length l)⟧ ∗ cat a f l.
  Proof.
    iIntros "[%Hc Hx]". destruct A as [a f l cap]. unfold compact in Hc. simpl in Hc. subst.
    iDestruct "Hx" as "[%Hx Hv]". iExists a, f, l. by iFrame.
  Qed.

  Notation ca a f l := (VAbs a f l (Z.of_nat (length l))).

  Ltac finish a f l :=
    iExists (ca a f l); iSplit; [iPureIntro|iApply (cinv_intro with "Hv"); try done].

  Section run.
    Context (Hundo : forall n, b = true \/ n = 0%nat -> no_throw \/ undo_ok undo n).

    Definition cop_ok (o : vop) : Prop := forall a f l,
      compact_pre b o (length l) = true ->
      cat a f l ⊢ wp (run_compact undo o) (cobj a f (length l))
        (fun r x' => ∃ A', ⟦q_alloc A' = a /\ compact_post o l r (q_elems A') /\
                            (in_place o l -> q_data A' = f)⟧ ∗ cinv x' A')%I
        (fun e x' => ∃ A', ⟦compact_exn o (ca a f l) e A'⟧ ∗ cinv x' A')%I.

    Ltac start := iIntros "Hv"; unfold run_compact; wbind; iApply wp_get; cbn [cobj vobj v_first].

    (** Functions whose failure keeps the storage. *)
    Lemma cexn_of o a f l need S e l' :
      cfail l need S e l' -> need = needed o l -> (compact_strong o l -> S) -> ~ in_place o l ->
      is_assign o = false -> is_input o = false ->
      match o with OEraseIf _ | OAt _ | OGet _ | OFront | OBack | OSize | OCapacity | OClear | OSelfMove => False
      | _ => True end ->
      compact_exn o (ca a f l) e (ca a f l').
    Proof.
      intros [Hl He] -> HS Hip Ha Hi Ho. unfold compact_exn. cbn [q_alloc q_elems q_data].
      assert (e = EUser \/ l' = l) as Heq by (destruct e; naive_solver).
      split; [done|]. split.
      { destruct o; simpl in *; try done; lia. }
      split.
      { intros Hs. destruct Heq as [->| ->]; [|done]. by rewrite (He (HS Hs)). }
      split; [done|]. split; [done|].
      destruct e; simpl in He.
      - destruct He as [-> He]. done.
      - done.
      - subst l'. split; [done|]. split_and!; try (by intros ->). by destruct o.
      - by destruct o.
    Qed.
    Lemma cexn_er o a f l (S : Prop) e l' :
      length l' = length l -> (e = EBadAlloc /\ l' = l \/ e = EUser /\ (S -> l' = l)) ->
      (compact_strong o l -> S) -> ~ in_place o l -> is_assign o = false -> is_input o = false ->
      match o with OEraseIf _ | OAt _ | OGet _ | OFront | OBack | OSize | OCapacity | OClear | OSelfMove => False
      | _ => True end ->
      compact_exn o (ca a f l) e (ca a f l').
    Proof.
      intros Hl He HS Hip Ha Hi Ho. eapply cexn_of; try done. split; [done|].
      destruct He as [[-> ->]|[-> He]]; done.
    Qed.

    Lemma cpre_seq o n : compact_pre b o n = true -> seq_pre o n = true.
    Proof. unfold compact_pre. intros Hp. by apply andb_true_iff in Hp as [? _]. Qed.

    Lemma cok_emplace i x : cop_ok (OEmplace i x).
    Proof.
      intros a f l Hpre%cpre_seq. cbn [seq_pre] in Hpre. apply andb_true_iff in Hpre as [Hi Hx].
      apply Nat.leb_le in Hi.
      destruct (arg_of_rel a f l (Z.of_nat (length l)) x Hx) as (v & Hv & Har).
      pose proof (arg_of_move a f l (Z.of_nat (length l)) x) as Hm.
      start. unfold as_idx. wbind. iApply (wp_compact_emplace with "Hv"); [done|done|]. iSplit.
      - iIntros (f') "Hv". iApply (ret_idx f' i); [done|done|]. finish a f' (insert_at i [v] (arg_rest l x)).
        + split_and!; try done. simpl. exists v. by split_and!.
        + rewrite insert_at_length arg_rest_length. simpl. lia.
      - iIntros (e l') "%Hf Hv". finish a f l'; [|by rewrite (proj1 Hf)].
        eapply cexn_of; try done; [|intros []]. intros [Hs1 Hs2]. split; [by apply Hm|done].
    Qed.
    Lemma cok_emplace_back x : cop_ok (OEmplaceBack x).
    Proof.
      intros a f l Hx%cpre_seq. cbn [seq_pre] in Hx.
      destruct (arg_of_rel a f l (Z.of_nat (length l)) x Hx) as (v & Hv & Har).
      pose proof (arg_of_move a f l (Z.of_nat (length l)) x) as Hm.
      start. unfold as_idx. wbind. iApply (wp_compact_emplace_back with "Hv"); [done|]. iSplit.
      - iIntros (f') "Hv". iApply (ret_idx f' (length l)); [done|done|]. finish a f' (arg_rest l x ++ [v]).
        + split_and!; try done. simpl. exists v. by split_and!.
        + rewrite app_length arg_rest_length. simpl. lia.
      - iIntros (e l') "%Hf Hv". finish a f l'; [|by rewrite (proj1 Hf)].
        eapply cexn_of; try done; [|intros []]. intros [Hs1 Hs2]. split; [by apply Hm|done].
    Qed.
    Lemma cok_insert_n i n x : cop_ok (OInsertN i n x).
    Proof.
      intros a f l Hpre%cpre_seq. cbn [seq_pre] in Hpre. apply andb_true_iff in Hpre as [Hpre Hm].
      apply andb_true_iff in Hpre as [Hi Hx]. apply Nat.leb_le in Hi. apply negb_true_iff in Hm.
      destruct (arg_of_rel a f l (Z.of_nat (length l)) x Hx) as (v & Hv & Har). rewrite arg_rest_same in Har; [|done].
      apply (arg_of_move a f l (Z.of_nat (length l))) in Hm as Hm'.
      start. unfold as_idx. wbind. iApply (wp_compact_insert_fill with "Hv"); [done|done|done|]. iSplit.
      - iIntros (f') "%Hn Hv". iApply (ret_idx f' i); [done|done|]. finish a f' (insert_at i (replicate n v) l).
        + split_and!; try done. simpl. exists v. by split_and!.
        + rewrite insert_at_length replicate_length. lia.
      - iIntros (e l') "%Hf Hv". destruct Hf as [Hf Hn]. finish a f l'; [|by rewrite (proj1 Hf)].
        by eapply cexn_of.
    Qed.
    Lemma cok_insert_range i vs : cop_ok (OInsertRange i vs).
    Proof.
      intros a f l Hi%cpre_seq. cbn [seq_pre] in Hi. apply Nat.leb_le in Hi.
      start. unfold as_idx. wbind. iApply (wp_compact_insert_range with "Hv"); [done|]. iSplit.
      - iIntros (f') "%Hn Hv". iApply (ret_idx f' i); [done|done|]. finish a f' (insert_at i vs l).
        + split_and!; try done.
        + rewrite insert_at_length. lia.
      - iIntros (e l') "%Hf Hv". destruct Hf as [Hf Hn]. finish a f l'; [|by rewrite (proj1 Hf)].
        by eapply cexn_of.
    Qed.
    Lemma cok_insert_input i vs : cop_ok (OInsertInput i vs).
    Proof.
      intros a f l Hi%cpre_seq. cbn [seq_pre] in Hi. apply Nat.leb_le in Hi.
      start. unfold as_idx. wbind. iApply (wp_compact_insert_input with "Hv"); [done|]. iSplit.
      - iIntros (f') "%Hn Hv". iApply (ret_idx f' i); [done|done|]. finish a f' (insert_at i vs l).
        + split_and!; try done.
        + rewrite insert_at_length. lia.
      - iIntros (e f' l') "%Hf Hv". destruct Hf as (Hf1 & Hf2 & Hf3). finish a f' l'.
        assert (vs <> []) as Hvs by (intros ->; simpl in *; lia).
        unfold compact_exn. cbn [q_alloc q_elems q_data]. split_and!; try done.
        destruct e; simpl; try done. by split; [apply Hf2|].
    Qed.
    Lemma cok_pop_back : cop_ok OPopBack.
    Proof.
      intros a f l Hi%cpre_seq. cbn [seq_pre] in Hi. apply Nat.ltb_lt in Hi.
      start. unfold as_unit. wbind. iApply (wp_compact_pop_back with "Hv"); [done|]. iSplit.
      - iIntros (f') "Hv". iApply wp_ret. finish a f' (take (length l - 1) l).
        + split_and!; try done. simpl. split; [done|].
          destruct (lookup_lt_is_Some_2 l (length l - 1)) as [v Hv]; [lia|]. exists v.
          rewrite -{1}(take_drop_middle l _ v Hv). f_equal.
          replace (S (length l - 1)) with (length l) by lia. by rewrite drop_all.
        + rewrite take_length. lia.
      - iIntros (e l') "%Hf Hv". destruct Hf as [Hl Hf]. finish a f l'. eapply cexn_er; try done; by intros [].
    Qed.
    Lemma cok_erase i : cop_ok (OErase i).
    Proof.
      intros a f l Hi%cpre_seq. cbn [seq_pre] in Hi. apply Nat.ltb_lt in Hi.
      start. unfold as_idx. wbind. iApply (wp_compact_erase with "Hv"); [done|]. iSplit.
      - iIntros (f') "Hv". iApply (ret_idx f' i); [done|done|]. finish a f' (remove_range i (S i) l).
        + split_and!; try done.
        + unfold remove_range. rewrite app_length take_length drop_length. lia.
      - iIntros (e l') "%Hf Hv". destruct Hf as [Hl Hf]. finish a f l'. eapply cexn_er; try done; by intros [].
    Qed.
    Lemma cok_erase_range i j : cop_ok (OEraseRange i j).
    Proof.
      intros a f l Hi%cpre_seq. cbn [seq_pre] in Hi. apply andb_true_iff in Hi as [Hi Hj].
      apply Nat.leb_le in Hi, Hj.
      start. unfold as_idx. wbind. iApply (wp_compact_erase_range with "Hv"); [done|]. iSplit.
      - iIntros (f') "%Hn Hv". iApply (ret_idx f' i); [done|done|]. finish a f' (remove_range i j l).
        + split_and!; try done.
        + unfold remove_range. rewrite app_length take_length drop_length. lia.
      - iIntros (e l') "%Hf Hv". destruct Hf as (Hl & Hn & Hf). finish a f l'. by eapply cexn_er.
    Qed.
    Lemma cok_resize n x : cop_ok (OResize n x).
    Proof.
      intros a f l Hpre%cpre_seq. cbn [seq_pre] in Hpre. apply andb_true_iff in Hpre as [Hx Hm].
      apply negb_true_iff in Hm.
      set (l1 := if decide (length l < n)%nat then relocated l else l).
      assert (length l1 = length l) as Hl1.
      { unfold l1, relocated. case_decide; [|done]. destruct (nothrow_move || negb copyable); by rewrite ?fmap_length. }
      assert (x_ok (length l1) x = true) as Hx1 by (by rewrite Hl1).
      destruct (arg_of_rel a f l1 (Z.of_nat (length l)) x Hx1) as (v & Hv & Har).
      rewrite arg_rest_same in Har; [|done]. rewrite Hl1 in Har.
      apply (arg_of_move a f l (Z.of_nat (length l))) in Hm as Hm'.
      start. unfold as_unit. wbind. iApply (wp_compact_resize with "Hv"); [exact Har|done|]. iSplit.
      - iIntros (f') "%Hn Hv". iApply wp_ret. finish a f' (take n l ++ replicate (n - length l) v).
        + split_and!; try done. simpl. exists v. by split_and!.
        + rewrite app_length take_length replicate_length. lia.
      - iIntros (e l') "%Hf Hv". destruct Hf as [Hf Hn]. finish a f l'; [|by rewrite (proj1 Hf)].
        by eapply cexn_of.
    Qed.
    Lemma cok_asg_exn o a f l n e f' l' :
      casg_fail l n f e f' l' -> needed o l = n ->
      match o with OAssignN m _ => m = n | OAssignRange vs => length vs = n | _ => False end ->
      compact_exn o (ca a f l) e (ca a f' l').
    Proof.
      intros Hf Hn Ho. unfold compact_exn. cbn [q_alloc q_elems q_data]. split; [done|].
      assert (length l' = length l \/ l' = []) as Hsz.
      { destruct e; simpl in Hf; [destruct Hf as [-> _]; by left|done|destruct Hf as [-> _]; by right|].
        case_decide; naive_solver. }
      split; [by destruct o|]. split; [by destruct o|]. split; [by destruct o|]. split.
      { intros Hip. assert (n = length l) as ->. { destruct o; simpl in *; try done; lia. }
        destruct e; simpl in Hf; [naive_solver..|]. rewrite decide_True in Hf; [naive_solver|done]. }
      destruct e; simpl in Hf.
      - destruct Hf as (-> & -> & Hf). by rewrite Hn.
      - done.
      - destruct Hf as [-> Hf]. split_and!; [|by intros ->|by intros ->|by destruct o].
        destruct o; simpl in *; try done; lia.
      - by destruct o.
    Qed.
    Lemma cok_assign_n n v : cop_ok (OAssignN n v).
    Proof.
      intros a f l Hpre. unfold compact_pre in Hpre. simpl in Hpre.
      start. unfold as_unit. wbind. iApply (wp_compact_assign_fill with "Hv").
      { destruct (Nat.eqb_spec n (length l)) as [->|Hne]; [by left|]. right. apply Hundo.
        destruct b; [by left|]. simpl in Hpre. right. by apply Nat.eqb_eq. }
      iSplit.
      - iIntros (f') "%Hn Hv". iApply wp_ret. finish a f' (replicate n v).
        + split_and!; try done.
        + by rewrite replicate_length.
      - iIntros (e f' l') "%Hf Hv". finish a f' l'. by eapply cok_asg_exn.
    Qed.
    Lemma cok_assign_range vs : cop_ok (OAssignRange vs).
    Proof.
      intros a f l Hpre. unfold compact_pre in Hpre. simpl in Hpre.
      start. unfold as_unit. wbind.
      iApply (wp_compact_assign_range undo a f l emp%I emp%I _ vs emp%I with "[//] Hv"); [apply src_vals| |].
      { destruct (Nat.eqb_spec (length vs) (length l)) as [Heq|Hne]; [by left|]. right. apply Hundo.
        destruct b; [by left|]. simpl in Hpre. right. by apply Nat.eqb_eq. }
      iSplit.
      - iIntros (f') "%Hn _ Hv". iApply wp_ret. finish a f' vs. by split_and!.
      - iIntros (e f' l') "%Hf He Hv". iAssert emp%I with "[He]" as "_"; [by destruct e|].
        finish a f' l'. by eapply cok_asg_exn.
    Qed.
    Lemma cok_assign_input vs : cop_ok (OAssignInput vs).
    Proof.
      intros a f l _. start. unfold as_unit. wbind. iApply (wp_compact_assign_input with "Hv"). iSplit.
      - iIntros (f') "Hv". iApply wp_ret. finish a f' vs. by split_and!.
      - iIntros (e f' l') "%Hf Hv". destruct Hf as (Hf1 & Hf2 & Hf3). finish a f' l'.
        unfold compact_exn. cbn [q_alloc q_elems q_data]. simpl in Hf1, Hf2. split_and!; try done.
        + simpl. lia.
        + destruct e; simpl; [by split; [apply Hf2|]|done| |done]. split_and!; try done. by intros [].
    Qed.
    Lemma cok_clear : cop_ok OClear.
    Proof.
      intros a f l _. start. unfold as_unit. wbind. iApply (wp_compact_clear with "Hv"). iApply wp_ret.
      iAssert (cat a null []) as "Hv"; [by iApply cat_null|]. finish a null (@nil V). by split_and!.
    Qed.
    Lemma cok_self_move : cop_ok OSelfMove.
    Proof.
      intros a f l _. start. unfold as_unit. wbind. iApply (wp_compact_self_move with "Hv"). iIntros "Hv". iApply wp_ret.
      finish a null (@nil V). by split_and!.
    Qed.
    Lemma cok_erase_if p : cop_ok (OEraseIf p).
    Proof.
      intros a f l _. start. unfold as_num. wbind. iApply (wp_compact_erase_if with "Hv"). iSplit.
      - iIntros (f') "Hv". iApply wp_ret. finish a f' (keep p l). split_and!; try done. simpl. split; [done|].
        by rewrite filter_split_length.
      - iIntros (e l') "%Hf Hv". destruct Hf as [Hl Hf]. finish a f l'.
        unfold compact_exn. cbn [q_alloc q_elems q_data]. split_and!; try done.
        destruct Hf as [->| ->]; [|done]. split_and!; try done. by intros [].
    Qed.
    Lemma cok_capacity : cop_ok OCapacity.
    Proof.
      intros a f l _. start. unfold as_num. wbind. iApply wp_size. iApply wp_ret. finish a f l. by split_and!.
    Qed.
    (** Functions with the text of vector. *)
    Lemma cok_same o :
      match o with OAt _ | OGet _ | OFront | OBack | OSet _ _ | OSize => True | _ => False end -> cop_ok o.
    Proof.
      intros Ho a f l Hpre%cpre_seq. iIntros "Hv".
      assert (run_compact undo o = run_vop vec_storage vec_special o) as -> by (by destruct o).
      iDestruct (wp_vop _ _ _ _ vec_special_ok o a f l (Z.of_nat (length l)) Hpre with "Hv") as "H".
      iApply (wp_wand with "H"). iSplit.
      - iIntros (r x') "H". iDestruct "H" as (A') "[%HA H]". destruct HA as (H1 & H2 & H3 & _).
        iExists A'. assert (same_storage (ca a f l) A') as [Hd Hc] by (by destruct o).
        simpl in H2. iSplit.
        + iPureIntro. split_and!; try done. by destruct o.
        + iFrame. iPureIntro. unfold compact. rewrite Hc. simpl. f_equal.
          destruct o; simpl in H1; try done; try (by destruct H1 as (? & _ & _ & ->));
            destruct H1 as [_ ->]; by rewrite ?insert_length.
      - iIntros (e x') "H". iDestruct "H" as (A') "[%HA H]". destruct HA as (H1 & H2 & H3 & H4 & H5 & _ & H7).
        iExists A'. assert (same_storage (ca a f l) A') as [Hd Hc].
        { apply H4; by destruct o. }
        assert (length (q_elems A') = length l) as Hl by (by destruct o).
        iSplit.
        + iPureIntro. unfold compact_exn. split; [done|]. split; [by destruct o|].
          split; [intros Hs; apply H3; by destruct o|]. split; [done|]. split; [done|].
          destruct e; [done|done| |by destruct o]. simpl in H7. exfalso.
          destruct H7 as [[?|[?|?]] _]; by destruct o; simpl in *; try done; lia.
        + iFrame. iPureIntro. unfold compact. rewrite Hc Hl. done.
    Qed.

    Lemma wp_cop o : cop_ok o.
    Proof.
      destruct o; auto using cok_emplace, cok_emplace_back, cok_insert_n, cok_insert_range, cok_insert_input,
        cok_pop_back, cok_erase, cok_erase_range, cok_resize, cok_assign_n, cok_assign_range, cok_assign_input,
        cok_clear, cok_self_move, cok_erase_if, cok_capacity, cok_same;
      try (by apply cok_same).
      - intros a f l Hpre. unfold compact_pre in Hpre. by rewrite andb_false_r in Hpre.
      - intros a f l Hpre. unfold compact_pre in Hpre. by rewrite andb_false_r in Hpre.
    Qed.

    Lemma compact_build_ok c :
      ⊢ wp (build (compact_vector undo b) c) tt (fun x _ => ∃ A, ⟦compact_k_post c A⟧ ∗ cinv x A)%I
           (fun e _ => ⟦k_exn (k_elems c) e⟧)%I.
    Proof.
      iApply wp_construct_obj. rewrite vec_empty_vobj.
      destruct c as [a|a n x|a vs|a vs]; cbn [k_alloc compact_run_ctor].
      - iApply wp_ret. iAssert (cat a null []) as "Hv"; [by iApply cat_null|]. by finish a null (@nil V).
      - assert (Hx : exists v ar, compact_run_ctor (KFill a n x) = init_fill_ compact_storage (Z.of_nat n) ar /\
                     mk_ok emp emp ar v emp /\ k_elems (KFill a n x) = replicate n v).
        { destruct x as [v|]; eexists _, _; (split; [done|split; [|done]]); [apply mk_ok_val|apply mk_ok_def]. }
        destruct Hx as (v & ar & Hr & Hmk & Hk). cbn [compact_run_ctor] in Hr. rewrite Hr.
        iApply (wp_init_fill compact_storage compact_ok a null with "[]"); [done|by iApply (cat_null a)|]. iSplit.
        + iIntros (f') "Hv".
          iDestruct (cat_eq with "Hv") as "Hv"; [by rewrite replicate_length|].
          finish a f' (replicate n v); [by split_and!|by rewrite replicate_length].
        + iIntros (e s) "%He _". iPureIntro. rewrite Hk. destruct e; simpl in *; rewrite ?replicate_length; done.
      - iApply (wp_init_range compact_storage compact_ok emp%I emp%I emp%I a null with "[//] []"); [apply mks_vals|by iApply (cat_null a)|].
        iSplit.
        + iIntros (f') "_ Hv". by finish a f' vs.
        + iIntros (e s) "%He HP _". iAssert emp%I with "[HP]" as "_"; [by destruct e|].
          iPureIntro. destruct e; simpl in *; done.
      - iApply (wp_compact_init_input a vs with "[//]"). iSplit.
        + iIntros (f') "Hv". by finish a f' vs.
        + iIntros (e s) "%He". iPureIntro. destruct e; simpl in *; done.
    Qed.

    Lemma compact_build2_ok c x A :
      cinv x A ⊢ wp (build2 (compact_vector undo b) c) x
        (fun y x' => ∃ B A', ⟦vec_k2_post c A B A'⟧ ∗ cinv y B ∗ cinv x' A')%I
        (fun e x' => ∃ A', ⟦vec_k2_exn c A e A'⟧ ∗ cinv x' A')%I.
    Proof.
      iIntros "[%Hc Hx]".
      iPoseProof (vec_build2_ok c x A with "Hx") as "H". iApply (wp_wand with "H"). iSplit.
      - iIntros (y x') "H". iDestruct "H" as (B A') "(%HA & H1 & H2)". iExists B, A'.
        iFrame. iPureIntro. split; [done|]. unfold compact in *. destruct HA as [He HA].
        destruct c as [|a'| |a'].
        1,2: destruct HA as (H1 & H2 & ->); split; [congruence|done].
        { destruct HA as [-> ->]. done. }
        cbn beta iota in HA. destruct (decide (a' = q_alloc A)); [by destruct HA as [-> ->]|].
        destruct HA as (H1 & H2 & H3 & [H4 H5] & H6).
        split; [congruence|]. by rewrite H5 H6 fmap_length.
      - iIntros (e x') "H". iDestruct "H" as (A') "(%HA & H1)". iExists A'. iFrame. iPureIntro.
        split; [done|]. unfold compact in *. destruct HA as [He HA].
        destruct c as [|a'| |a']; [by subst|by subst|done|]. destruct HA as (H1 & H2 & [H3 H4] & H5 & _). congruence.
    Qed.

    Lemma compact_run2_ok o x A y B :
      compact_pre2 b o (q_alloc A) (length (q_elems A)) (q_alloc B) (length (q_elems B)) = true ->
      cinv x A ∗ cinv y B ⊢ wp (compact_run2 undo o) (x, y)
        (fun r xy => ∃ A' B', ⟦compact_post2 o A B r A' B'⟧ ∗ cinv xy.1 A' ∗ cinv xy.2 B')%I
        (fun e xy => ∃ A' B', ⟦compact_exn2 o A B e A' B'⟧ ∗ cinv xy.1 A' ∗ cinv xy.2 B')%I.
    Proof.
      iIntros (Hpre) "[Hx Hy]".
      destruct o as [| | |r|lt].
      4,5: (iDestruct "Hx" as "[%Hcx Hx]"; iDestruct "Hy" as "[%Hcy Hy]";
        match goal with |- context [compact_run2 undo ?o] =>
          iPoseProof (vec_run2_ok o x A y B I with "[$Hx $Hy]") as "H" end;
        iApply (wp_wand with "H"); iSplit;
        [iIntros (r' xy) "H"; iDestruct "H" as (A' B') "(%HA & H1 & H2)"; iExists A', B';
         iFrame; iPureIntro; simpl in *; naive_solver
        |iIntros (e xy) "H"; iDestruct "H" as (A' B') "(%HA & H1 & H2)"; iExists A', B';
         iFrame; iPureIntro; simpl in *; naive_solver]).
      all: iDestruct (cinv_open with "Hx") as (a1 f1 l1) "[%Hx Hx]"; destruct Hx as [-> ->];
        iDestruct (cinv_open with "Hy") as (a2 f2 l2) "[%Hy Hy]"; destruct Hy as [-> ->];
        cbn [compact_run2]; unfold unit_result; cbn [q_alloc q_elems] in Hpre.
      - wbind. iApply (wp_compact_assign_copy undo with "Hx Hy").
        { simpl in Hpre. apply orb_true_iff in Hpre as [Hpre|Hpre].
          - right. apply Hundo. apply orb_true_iff in Hpre as [->|Hpre]; [by left|right]. by apply Nat.eqb_eq.
          - left. apply andb_true_iff in Hpre as [H1 H2]. apply Nat.eqb_eq in H1. split; [done|].
            apply orb_true_iff in H2 as [H2|H2]; [left; by destruct pocca|right; by apply Nat.eqb_eq]. }
        iSplit.
        + iIntros (f1') "%Hk Hx Hy". iApply wp_ret. iExists (ca _ f1' l2), (ca _ f2 l2).
          iSplit; [|iSplitL "Hx"; by iApply cinv_intro]. iPureIntro. by split_and!.
        + iIntros (e f1' l1') "%He Hx Hy". iExists (ca _ f1' l1'), (ca _ f2 l2).
          iSplit; [|iSplitL "Hx"; by iApply cinv_intro]. iPureIntro. destruct He. by split_and!.
      - wbind. iApply (wp_compact_assign_move undo with "Hx Hy").
        { simpl in Hpre. unfold ma_alloc. destruct pocma; [by left|].
          destruct (Nat.eqb_spec a1 a2); [by left|].
          destruct (Nat.eqb_spec (length l2) (length l1)); [by right; left|]. right; right. apply Hundo.
          destruct b; [by left|right]. simpl in Hpre. by apply Nat.eqb_eq. }
        iSplit; [|iSplit].
        + iIntros "%Hk Hx Hy". iApply wp_ret. iExists (ca a2 f2 l2), (ca a2 null (@nil V)).
          iSplit; [|iSplitL "Hx"; by iApply cinv_intro]. iPureIntro. split; [done|].
          unfold move_alloc. cbn [q_alloc]. fold (ma_alloc a1 a2). by rewrite decide_True.
        + iIntros (f1') "%Hk Hx Hy". destruct Hk as [Hne Hk]. iApply wp_ret.
          iExists (ca _ f1' l2), (ca a2 f2 (vmoved <$> l2)).
          iSplit; [|iSplitL "Hx"; (iApply cinv_intro; [by rewrite ?fmap_length|done])]. iPureIntro. split; [done|].
          unfold move_alloc. cbn [q_alloc]. fold (ma_alloc a1 a2). rewrite decide_False; [|done].
          split_and!; try done. unfold same_storage. simpl. by rewrite fmap_length.
        + iIntros (e f1' l1' l2') "%He Hx Hy". destruct He as (He & Ha & Hl & Hl').
          iExists (ca _ f1' l1'), (ca a2 f2 l2').
          iSplit; [|iSplitL "Hx"; by iApply cinv_intro]. iPureIntro.
          split_and!; try done. unfold same_storage. simpl. by rewrite Hl.
      - wbind. iApply (wp_vec_swap with "Hx Hy").
        { simpl in Hpre. apply orb_true_iff in Hpre as [?|?]; [by left|right; by apply Nat.eqb_eq]. }
        iIntros "Hx Hy". iApply wp_ret.
        iExists (ca _ _ _), (ca _ _ _). iSplit; [|iSplitL "Hx"; by iApply cinv_intro]. done.
    Qed.
  End run.

  Lemma cinv_size x A h : cinv x A h -> v_alloc x = q_alloc A /\ osize x = length (q_elems A).
  Proof.
    intros Hi. apply pure_holds in Hi as [_ Hi]. apply pure_holds in Hi as [-> _].
    split; [done|]. by rewrite osize_vobj.
  Qed.

  Program Definition compact_vector_ok
      (Hundo : forall n, b = true \/ n = 0%nat -> no_throw \/ undo_ok undo n) :
      container_ok (compact_spec undo b) :=
    {| inv := cinv : obj (compact_vector undo b) -> abs (compact_spec undo b) -> hProp |}.
  Next Obligation. done. Qed.
  Next Obligation. done. Qed.
  Next Obligation.
    intros _ o x A h Hi. apply cinv_size in Hi as [H1 H2]. simpl. by rewrite H2.
  Qed.
  Next Obligation.
    intros _ o x A y B h h' Hx Hy. apply cinv_size in Hx as [H1 H2]. apply cinv_size in Hy as [H3 H4].
    simpl. by rewrite H1 H2 H3 H4.
  Qed.
  Next Obligation. intros Hundo c _. by apply compact_build_ok. Qed.
  Next Obligation. intros Hundo c x A _. by apply compact_build2_ok. Qed.
  Next Obligation.
    intros Hundo o x A Hpre. iIntros "Hx". iDestruct (cinv_open with "Hx") as (a f l) "[%Hx Hv]".
    destruct Hx as [-> ->].
    iApply (wp_wand with "[Hv]"); [iApply (wp_cop Hundo o with "Hv"); done|].
    iSplit; iIntros (r x') "Hx"; iExact "Hx".
  Qed.
  Next Obligation. intros Hundo o x A y B Hpre. by apply compact_run2_ok. Qed.
  Next Obligation.
    intros Hundo x A. iIntros "Hx". iDestruct (cinv_open with "Hx") as (a f l) "[%Hx Hv]".
    destruct Hx as [-> ->]. iApply (wp_compact_destructor with "Hv"). by iIntros (s).
  Qed.
End compact_ok.
