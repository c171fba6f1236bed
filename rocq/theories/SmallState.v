(** * sfl::small_vector: theorems about plain states *)

From iris.proofmode Require Import tactics.
From Verif Require Export SmallOk State MemProofs SmallMem.
Open Scope Z_scope.

Section small_state.
  Context `{E : Env}.
  Variable N : nat.
  Context (HN : fits N).
  Notation NZ := (Z.of_nat N).
  Notation sat ib := (Grow.vec_at (small_storage N ib) (small_ok N ib)).

  Lemma raws_heap p n h :
    raws p n h <-> forall q, h !! q = if decide (q.1 = p.1) then buffer_cell [] (Z.of_nat n) (q.2 - p.2) else None.
  Proof.
    assert (raws p n ⊣⊢ body p [] (Z.of_nat n)) as ->.
    { unfold body. simpl. rewrite loc_add_0 Nat2Z.id Nat.sub_0_r. iSplit.
      - iIntros "$". rewrite /elems /=. iPureIntro. lia.
      - iIntros "(_ & _ & $)". }
    rewrite body_heap. split; [by intros [_ ?]|]. intros Hh. split; [simpl; lia|done].
  Qed.
  Lemma ablock_heap a f cap h :
    0 < cap ->
    ablock a f cap h <-> f.2 = 0 /\ 0 < f.1 /\ h = {[(f.1, hdr_off) := Hdr a cap]}.
  Proof.
    intros Hc. unfold ablock. destruct (decide (cap = 0)); [lia|]. rewrite pure_sep_holds.
    split; [intros [(?&?&?) Hh]|intros (?&?&->)]; split_and!; try done.
  Qed.

  Lemma ib_ok_2 ib : ib_ok N ib -> ib.2 = 0.
  Proof. unfold ib_ok. destruct (decide (N = 0%nat)); [by intros ->|lia]. Qed.
  Lemma ib_ok_ne ib (f : loc) : ib_ok N ib -> 0 < f.1 -> f.1 <> ib.1.
  Proof. unfold ib_ok. destruct (decide (N = 0%nat)); [intros ->; simpl; lia|lia]. Qed.

  Lemma is_small_iff x A h : is_small N x A h <-> sinv N _ x A h.
  Proof.
    pose proof (HN : NZ <= max_size) as HN'.
    destruct A as [ib [a f l cap]], x as [ib' x]. unfold sinv, SeqProofs.vinv. rewrite pure_sep_holds pure_sep_holds.
    cbn [q_alloc q_data q_elems q_cap fst snd].
    destruct (decide (f = ib)) as [->|Hne].
    - (* inside *)
      split.
      + intros [H1 H2 H3 H4 H5 H6 H7 H8 H9]. cbn [q_alloc q_data q_elems q_cap fst snd] in *.
        split; [done|]. split; [destruct x; simpl in *; subst; done|].
        assert (cap = NZ) as ->.
        { unfold inside in *. destruct H8 as [[? _]|[[-> ->]|(? & ? & ?)]]; [done| |].
          - case_decide; [lia|]. simpl in H7. lia.
          - case_decide; [|lia]. assert (ib.1 = 0) by (by rewrite H7). lia. }
        rewrite (equiv_holds _ _ h (sat_inside N ib a l)). rewrite pure_sep_holds.
        split; [done|]. apply body_heap. split; [lia|]. intros q. rewrite H9. unfold small_cell. simpl.
        destruct (decide (inside N (VAbs a ib l NZ))) as [_|[]]; [|done].
        assert (ib.2 = 0) as -> by (by apply ib_ok_2). by rewrite Z.sub_0_r.
      + intros (-> & -> & Hv).
        assert (cap = NZ) as ->.
        { apply (hold_lift _ (ib_ok N ib /\ (ib = ib <-> cap = NZ))) in Hv as [_ Hv]; [by apply Hv|apply sat_base]. }
        rewrite (equiv_holds _ _ h (sat_inside N ib a l)) pure_sep_holds body_heap in Hv.
        destruct Hv as (Hib & Hl & Hh). split; simpl; try done; try lia; try (by left).
        intros p. rewrite Hh. unfold small_cell. simpl.
        destruct (decide (inside N (VAbs a ib l NZ))) as [_|[]]; [|done].
        assert (ib.2 = 0) as -> by (by apply ib_ok_2). by rewrite Z.sub_0_r.
    - (* outside *)
      rewrite (equiv_holds _ _ h (sat_outside N ib a f l cap Hne)) pure_sep_holds.
      split.
      + intros [H1 H2 H3 H4 H5 H6 H7 H8 H9]. cbn [q_alloc q_data q_elems q_cap fst snd] in *.
        split; [done|]. split; [destruct x; simpl in *; subst; done|].
        destruct H8 as [[_ ?]|H8]; [done|].
        assert (Hib2 : ib.2 = 0) by (by apply ib_ok_2).
        assert (Hcap : cap <> NZ).
        { destruct H8 as [[-> ->]|(? & ? & ?)]; [|lia]. intros Hc. rewrite decide_True in H7; [|lia]. by subst. }
        assert (Hins : ~ inside N (VAbs a f l cap)) by done.
        split.
        { unfold small_cap, ib_ok, ext_cap. split_and!; [lia|done|lia]. }
        rewrite !sep_holds. destruct H8 as [[-> ->]|(Hc & Hf1 & Hf2)].
        * exists ∅, h. rewrite left_id_L. split_and!; [done|apply map_disjoint_empty_l|by rewrite ablock_0|].
          rewrite sep_holds. exists ∅, h. rewrite left_id_L. split_and!; [done|apply map_disjoint_empty_l| |].
          { apply body_heap. split; [lia|]. intros q. rewrite lookup_empty. unfold buffer_cell.
            repeat case_decide; try done; lia. }
          apply raws_heap. intros q. rewrite H9. unfold small_cell. simpl.
          destruct (decide (inside N _)) as [?|_]; [done|]. rewrite Hib2 Z.sub_0_r.
          unfold vec_cell, buffer_cell. simpl. 
          repeat case_decide; try done; lia.
        * set (hi := filter (fun kc => kc.1.1 = ib.1) h).
          set (he := filter (fun kc => ~ kc.1.1 = ib.1) h).
          assert (h = hi ∪ he /\ hi ##ₘ he) as [Hhh Hdd].
          { split; [symmetry; apply map_filter_union_complement|apply map_disjoint_filter_complement]. }
          assert (Hblk : f.1 <> ib.1) by (by apply ib_ok_ne).
          assert (he !! (f.1, hdr_off) = Some (Hdr a cap)) as Hhd.
          { unfold he. apply map_filter_lookup_Some. split; [|done]. rewrite H9. unfold small_cell. simpl.
            rewrite decide_False //. destruct (decide (inside N _)) as [?|_]; [done|]. unfold vec_cell. simpl.
            rewrite decide_True // decide_True //. split; [done|lia]. }
          assert (Hhe : forall q, he !! q = if decide (q.1 = ib.1) then None else vec_cell (VAbs a f l cap) q).
          { intros q. unfold he. rewrite map_filter_lookup H9. unfold small_cell. simpl.
            destruct (decide (q.1 = ib.1)).
            - destruct (buffer_cell _ _ _); simpl; [|done]. by case_option_guard.
            - destruct (decide (inside N _)) as [?|_]; [done|]. destruct (vec_cell _ _); simpl; [|done]. by case_option_guard. }
          exists {[(f.1, hdr_off) := Hdr a cap]}, (delete (f.1, hdr_off) he ∪ hi).
          split_and!.
          -- rewrite assoc_L -insert_union_singleton_l insert_delete // map_union_comm //.
          -- apply map_disjoint_union_r. split; [apply map_disjoint_singleton_l, lookup_delete|].
             apply map_disjoint_singleton_l. unfold hi. apply map_filter_lookup_None. right. intros c _. simpl. done.
          -- apply ablock_heap; [lia|]. by split_and!.
          -- rewrite sep_holds. exists (delete (f.1, hdr_off) he), hi. split_and!; [done| | |].
             { by apply map_disjoint_delete_l. }
             { apply body_heap. split; [lia|]. intros q.
               destruct (decide (q = (f.1, hdr_off))) as [->|Hq].
               { rewrite lookup_delete. simpl. rewrite decide_True //. unfold buffer_cell, hdr_off.
                 rewrite decide_False //. lia. }
               rewrite lookup_delete_ne; [|done]. rewrite Hhe. unfold vec_cell. simpl.
               rewrite Hf2 Z.sub_0_r. repeat case_decide; try done; try congruence;
                 destruct q as [q1 q2]; simpl in *; naive_solver. }
             { apply raws_heap. intros q. unfold hi. rewrite map_filter_lookup H9. unfold small_cell. simpl.
               rewrite Hib2 Z.sub_0_r. destruct (decide (q.1 = ib.1)).
               - destruct (decide (inside N _)) as [?|_]; [done|]. destruct (buffer_cell _ _ _); simpl; [|done]. by case_option_guard.
               - destruct (decide (inside N _)) as [?|_]; [done|]. destruct (vec_cell _ _); simpl; [|done]. by case_option_guard. }
      + intros (-> & -> & (Hsc & Hib & Hec) & Hh). rewrite sep_holds in Hh.
        destruct Hh as (h1 & h2 & -> & Hd1 & Hblk & Hh). rewrite sep_holds in Hh.
        destruct Hh as (h3 & h4 & -> & Hd2 & Hb & Hr).
        apply body_heap in Hb as [Hl Hb]. rewrite raws_heap in Hr.
        unfold small_cap, ib_ok, ext_cap in *.
        assert (Hib2 : ib.2 = 0) by (by apply ib_ok_2).
        destruct (decide (cap = 0)) as [->|Hc].
        * rewrite ablock_0 in Hblk. destruct Hblk as [Hemp Hf]. change (h1 = ∅) in Hemp. change (f = null) in Hf. subst.
          assert (N <> 0%nat) as HN0. { intros HN0. apply Hne. destruct (decide (N = 0%nat)); [by rewrite Hib|done]. }
          assert (~ inside N (VAbs a null l 0)) as Hins by (unfold inside; simpl; lia).
          assert (h3 = ∅) as ->.
          { apply map_eq. intros q. rewrite Hb lookup_empty. unfold buffer_cell. repeat case_decide; try done; lia. }
          split; simpl; try done; try lia; try tauto.
          intros p. rewrite !left_id_L Hr. unfold small_cell. simpl. rewrite Hib2 Z.sub_0_r.
          destruct (decide (inside N _)) as [?|_]; [done|]. unfold vec_cell. simpl. unfold buffer_cell.
          repeat case_decide; try done; lia.
        * apply ablock_heap in Hblk as (Hf2 & Hf1 & ->); [|lia].
          assert (~ inside N (VAbs a f l cap)) as Hins by (unfold inside; simpl; lia).
          assert (Hblk : f.1 <> ib.1) by (by apply ib_ok_ne).
          split; simpl; try done; try lia; try (right; right; lia).
          intros p. unfold small_cell. simpl. destruct (decide (inside N _)) as [?|_]; [done|].
          destruct (decide (p.1 = ib.1)) as [Hp|Hp].
          -- rewrite !lookup_union_r; [|rewrite Hb decide_False //; congruence|apply lookup_singleton_ne; intros <-; simpl in *; congruence].
             rewrite Hr decide_True // Hib2 Z.sub_0_r //.
          -- assert (h4 !! p = None) as H4 by (rewrite Hr decide_False //).
             unfold vec_cell. simpl.
             destruct (decide (p = (f.1, hdr_off))) as [->|Hq].
             ++ rewrite (lookup_union_Some_l _ _ _ (Hdr a cap)); [|by apply lookup_singleton].
                simpl. rewrite decide_True // decide_True //. split; [done|lia].
             ++ rewrite lookup_union_r; [|by apply lookup_singleton_ne].
                rewrite lookup_union_l; [|done]. rewrite Hb Hf2 Z.sub_0_r.
                repeat case_decide; try done; destruct p as [q1 q2]; simpl in *; destruct_and?; by subst.
  Qed.

  Definition small_iff : forall x A h, is_small N x A h <-> inv (small_vector_ok N _) x A h := is_small_iff.
End small_state.
