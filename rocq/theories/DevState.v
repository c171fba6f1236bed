(** * sfl::devector: theorems about plain states *)

From iris.proofmode Require Import tactics.
From Verif Require Export DevMem DevOk State MemProofs.
Open Scope Z_scope.

Section dev_state.
  Context `{E : Env}.

  Lemma dev_body_heap b p (l : list V) cap h :
    0 <= p -> p + zlen l <= cap ->
    (raws b (Z.to_nat p) ∗ elems (b +ₗ p) l ∗ raws (b +ₗ (p + zlen l)) (Z.to_nat (cap - (p + zlen l))))%I h <->
    forall q, h !! q =
      if decide (q.1 = b.1) then
        if decide (0 <= q.2 - b.2 < cap) then
          if decide (q.2 - b.2 < p) then Some Raw
          else match l !! Z.to_nat (q.2 - b.2 - p) with Some v => Some (Live v) | None => Some Raw end
        else None
      else None.
  Proof.
    intros Hp Hl.
    set (cs := replicate (Z.to_nat p) Raw ++ (Live <$> l) ++ replicate (Z.to_nat (cap - (p + zlen l))) Raw).
    assert (raws b (Z.to_nat p) ∗ elems (b +ₗ p) l ∗ raws (b +ₗ (p + zlen l)) (Z.to_nat (cap - (p + zlen l)))
            ⊣⊢ arr b cs) as Heq.
    { unfold cs, elems, raws. rewrite !arr_app fmap_length replicate_length loc_add_assoc.
      rewrite Z2Nat.id; [done|lia]. }
    rewrite (equiv_holds _ _ h Heq) arr_heap.
    assert (Hcell : forall i,
      (if decide (0 <= i < cap) then
          if decide (i < p) then Some Raw
          else match l !! Z.to_nat (i - p) with Some v => Some (Live v) | None => Some Raw end
        else None) = if decide (0 <= i) then cs !! Z.to_nat i else None).
    { intros i. unfold cs. repeat case_decide; try done; try lia.
      - rewrite lookup_app_l; [|rewrite replicate_length; lia]. rewrite lookup_replicate_2; [done|lia].
      - rewrite lookup_app_r; [|rewrite replicate_length; lia]. rewrite replicate_length.
        replace (Z.to_nat i - Z.to_nat p)%nat with (Z.to_nat (i - p)) by lia.
        destruct (l !! Z.to_nat (i - p)) as [v|] eqn:Hv.
        + rewrite lookup_app_l; [|rewrite fmap_length; by eapply lookup_lt_Some].
          by rewrite list_lookup_fmap Hv.
        + apply lookup_ge_None in Hv.
          rewrite lookup_app_r; [|by rewrite fmap_length].
          rewrite lookup_replicate_2; [done|]. rewrite fmap_length. lia.
      - symmetry. apply lookup_ge_None. rewrite !app_length fmap_length !replicate_length. lia. }
    split; intros Hh q; rewrite Hh; clear Hh; rewrite ?Hcell; repeat case_decide; try done; try lia; naive_solver lia.
  Qed.

  Lemma is_dev_iff x A h : is_dev x A h <-> dinv x A h.
  Proof.
    destruct A as [a b p l cap]. unfold dinv. rewrite pure_sep_holds. cbn [e_alloc e_bos e_front e_elems e_cap].
    unfold dev_at. rewrite pure_sep_holds sep_holds.
    split.
    - intros [H1 H2 H3 H4 H5 H6 H6' H7 H8 H9]. cbn [e_alloc e_bos e_front e_elems e_cap] in *.
      split; [destruct x; simpl in *; subst; done|]. split; [done|].
      destruct (decide (cap = 0)) as [->|Hc].
      + exists ∅, h. rewrite left_id_L. split_and!; [done|apply map_disjoint_empty_l| |].
        { unfold ablock. destruct (decide (0 = 0)); [|done]. split; [done|]. by apply H7. }
        apply dev_body_heap; [lia..|]. intros q. rewrite H9. unfold dev_cell. simpl.
        repeat case_decide; try done; lia.
      + destruct H8 as [H8 H8']; [lia|].
        exists {[(b.1, hdr_off) := Hdr a cap]}, (delete (b.1, hdr_off) h).
        assert (h !! (b.1, hdr_off) = Some (Hdr a cap)) as Hhd.
        { rewrite H9. unfold dev_cell. simpl. rewrite decide_True // decide_True //. split; [done|lia]. }
        split_and!.
        * by rewrite -insert_union_singleton_l insert_delete.
        * apply map_disjoint_singleton_l, lookup_delete.
        * unfold ablock. destruct (decide (cap = 0)); [done|]. apply pure_sep_holds. split; [|done]. split_and!; [done|done|lia].
        * apply dev_body_heap; [lia..|]. intros q.
          destruct (decide (q = (b.1, hdr_off))) as [->|Hq].
          { rewrite lookup_delete. simpl. rewrite decide_True //. unfold hdr_off.
            rewrite decide_False //. lia. }
          rewrite lookup_delete_ne; [|done]. rewrite H9. unfold dev_cell. simpl.
          rewrite H8' !Z.sub_0_r. destruct q as [q1 q2]. simpl in *.
          repeat case_decide; try done; naive_solver.
    - intros (-> & Hcap & h1 & h2 & -> & Hd & Hown & Hb). 
      pose proof (proj1 (dev_body_heap b p l cap h2 ltac:(lia) ltac:(lia)) Hb) as Hb'. clear Hb. rename Hb' into Hb.
      unfold ablock in Hown. destruct (decide (cap = 0)) as [->|Hc].
      + destruct Hown as [Hemp Hf]. change (h1 = ∅) in Hemp. subst h1. change (b = null) in Hf. subst b.
        split; simpl; try done; try lia.
        intros q. rewrite left_id_L Hb. unfold dev_cell. simpl. repeat case_decide; try done; lia.
      + rewrite pure_sep_holds in Hown. destruct Hown as [(Hf2 & Hf1 & Hc0) Hh1].
        change (h1 = {[(b.1, hdr_off) := Hdr a cap]}) in Hh1. subst h1.
        split; simpl; try done; try lia.
        intros q. unfold dev_cell. simpl.
        destruct (decide (q = (b.1, hdr_off))) as [->|Hp].
        * rewrite (lookup_union_Some_l _ _ _ (Hdr a cap)); [|by apply lookup_singleton].
          simpl. rewrite decide_True // decide_True //.
        * rewrite lookup_union_r; [|by apply lookup_singleton_ne]. rewrite Hb Hf2 !Z.sub_0_r.
          destruct q as [q1 q2]. simpl in *. repeat case_decide; try done; naive_solver.
  Qed.

  Definition dev_iff (fixed : bool) : forall x A h, is_dev x A h <-> inv (devector_ok fixed) x A h := is_dev_iff.
End dev_state.
