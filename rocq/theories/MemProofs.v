(** * Assertions about arrays and buffers as statements about heaps *)

From iris.proofmode Require Import tactics.
From Verif Require Export VecMem Grow.
Open Scope Z_scope.

Section heaps.
  Context `{E : Env}.

  Lemma sep_holds (P Q : hProp) h :
    (P ∗ Q)%I h <-> exists h1 h2, h = h1 ∪ h2 /\ h1 ##ₘ h2 /\ P h1 /\ Q h2.
  Proof. done. Qed.
  Lemma pure_sep_holds (φ : Prop) (P : hProp) h : (⟦φ⟧ ∗ P)%I h <-> φ /\ P h.
  Proof.
    split.
    - intros (h1 & h2 & -> & Hd & [Hemp Hφ] & HP). change (h1 = ∅) in Hemp. subst.
      rewrite left_id_L. by split.
    - intros [Hφ HP]. by apply hold_pure_sep.
  Qed.
  Lemma equiv_holds (P Q : hProp) h : (P ⊣⊢ Q) -> P h <-> Q h.
  Proof. intros [HPQ]. apply HPQ. Qed.

  Lemma arr_heap p cs h :
    arr p cs h <->
    forall q, h !! q = if decide (q.1 = p.1 /\ p.2 <= q.2) then cs !! Z.to_nat (q.2 - p.2) else None.
  Proof.
    revert p h. induction cs as [|c cs IH]; intros p h.
    - split.
      + intros Hh q. change (h = ∅) in Hh. subst. rewrite lookup_empty. by case_decide.
      + intros Hh. change (h = ∅). apply map_eq. intros q. rewrite Hh lookup_empty. by case_decide.
    - split.
      + intros (h1 & h2 & -> & Hd & Hc & Hcs) q. change (h1 = {[p := c]}) in Hc. subst.
        rewrite (IH (p +ₗ 1)) in Hcs.
        destruct (decide (q = p)) as [->|Hq].
        * rewrite (lookup_union_Some_l _ _ _ c); [|by apply lookup_singleton].
          rewrite decide_True; [|split; [done|lia]]. by rewrite Z.sub_diag.
        * rewrite lookup_union_r; [|by apply lookup_singleton_ne]. rewrite Hcs.
          unfold loc_add. cbn [fst snd]. repeat case_decide; try done; destruct_and?.
          -- replace (Z.to_nat (q.2 - p.2)) with (S (Z.to_nat (q.2 - (p.2 + 1)))) by lia. done.
          -- lia.
          -- destruct q as [q1 q2], p as [p1 p2]. simpl in *.
             assert (q2 = p2) by (destruct (decide (q2 = p2)); [done|]; exfalso; lia).
             by subst.
      + intros Hh. exists {[p := c]}, (delete p h).
        assert (h !! p = Some c) as Hp.
        { rewrite Hh decide_True; [|split; [done|lia]]. by rewrite Z.sub_diag. }
        split_and!.
        * by rewrite -insert_union_singleton_l insert_delete.
        * apply map_disjoint_singleton_l, lookup_delete.
        * done.
        * apply (IH (p +ₗ 1)). intros q. unfold loc_add. cbn [fst snd].
          destruct (decide (q = p)) as [->|Hq].
          { rewrite lookup_delete decide_False; [done|lia]. }
          rewrite lookup_delete_ne; [|done]. rewrite Hh. repeat case_decide; try done; destruct_and?.
          -- destruct (decide (q.2 = p.2)); [destruct q, p; simpl in *; subst; done|].
             replace (Z.to_nat (q.2 - p.2)) with (S (Z.to_nat (q.2 - (p.2 + 1)))) by lia. done.
          -- destruct (decide (q.2 = p.2)); [destruct q, p; simpl in *; subst; done|].
             exfalso. lia.
          -- exfalso. lia.
  Qed.

  Lemma body_heap f l cap h :
    body f l cap h <->
    Z.of_nat (length l) <= cap /\
    forall q, h !! q = if decide (q.1 = f.1) then buffer_cell l cap (q.2 - f.2) else None.
  Proof.
    unfold body. rewrite pure_sep_holds.
    assert (elems f l ∗ raws (f +ₗ Z.of_nat (length l)) (Z.to_nat cap - length l) ⊣⊢
            arr f ((Live <$> l) ++ replicate (Z.to_nat cap - length l) Raw)) as Heq.
    { unfold elems, raws. rewrite arr_app fmap_length. done. }
    rewrite (equiv_holds _ _ h Heq) arr_heap.
    assert (Hcell : forall i, Z.of_nat (length l) <= cap ->
      buffer_cell l cap i =
        if decide (0 <= i) then ((Live <$> l) ++ replicate (Z.to_nat cap - length l) Raw) !! Z.to_nat i
        else None).
    { intros i Hl. unfold buffer_cell. repeat case_decide; try done; try lia.
      - destruct (l !! Z.to_nat i) as [v|] eqn:Hv.
        + rewrite lookup_app_l; [|rewrite fmap_length; by eapply lookup_lt_Some].
          by rewrite list_lookup_fmap Hv.
        + apply lookup_ge_None in Hv.
          rewrite lookup_app_r; [|by rewrite fmap_length].
          rewrite lookup_replicate_2; [done|]. rewrite fmap_length. lia.
      - symmetry. apply lookup_ge_None. rewrite app_length fmap_length replicate_length. lia. }
    split; intros [Hl Hh]; (split; [done|]); intros q; rewrite Hh; rewrite ?Hcell //;
      repeat case_decide; try done; try lia; naive_solver lia.
  Qed.
End heaps.
