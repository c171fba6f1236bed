(** * sfl::vector: theorems about plain states *)

From iris.proofmode Require Import tactics.
From Verif Require Export VectorOk State MemProofs.
Open Scope Z_scope.

Section vector_state.
  Context `{E : Env}.
  Notation vinv := (vinv vec_storage vec_ok).

  Lemma is_vec_iff x A h : is_vec x A h <-> vinv x A h.
  Proof.
    destruct A as [a f l cap]. unfold SeqProofs.vinv. rewrite pure_sep_holds. cbn [q_alloc q_data q_elems q_cap].
    unfold Grow.vec_at. rewrite pure_sep_holds sep_holds. simpl so_cap. simpl so_own.
    split.
    - intros [H1 H2 H3 H4 H5 H6 H7 H8]. cbn [q_alloc q_data q_elems q_cap] in *.
      split; [destruct x; simpl in *; subst; done|]. split; [lia|].
      destruct (decide (cap = 0)) as [->|Hc].
      + exists ∅, h. rewrite left_id_L. split_and!; [done|apply map_disjoint_empty_l| |].
        { unfold ablock. destruct (decide (0 = 0)); [|done]. split; [done|]. by apply H6. }
        apply body_heap. split; [lia|]. intros q. rewrite H8. unfold vec_cell. simpl.
        unfold buffer_cell. repeat case_decide; try done; lia.
      + destruct H7 as [H7 H7']; [lia|].
        exists {[(f.1, hdr_off) := Hdr a cap]}, (delete (f.1, hdr_off) h).
        assert (h !! (f.1, hdr_off) = Some (Hdr a cap)) as Hhd.
        { rewrite H8. unfold vec_cell. simpl. rewrite decide_True // decide_True //. split; [done|lia]. }
        split_and!.
        * by rewrite -insert_union_singleton_l insert_delete.
        * apply map_disjoint_singleton_l, lookup_delete.
        * unfold ablock. destruct (decide (cap = 0)); [done|]. apply pure_sep_holds. split; [|done]. split_and!; [done|done|lia].
        * apply body_heap. split; [lia|]. intros q.
          destruct (decide (q = (f.1, hdr_off))) as [->|Hq].
          { rewrite lookup_delete. simpl. rewrite decide_True //. unfold buffer_cell, hdr_off.
            rewrite decide_False //. lia. }
          rewrite lookup_delete_ne; [|done]. rewrite H8. unfold vec_cell. simpl.
          rewrite H7' Z.sub_0_r. repeat case_decide; try done.
          destruct q as [q1 q2]. simpl in *. naive_solver.
    - intros (-> & Hcap & h1 & h2 & -> & Hd & Hown & Hb). apply body_heap in Hb as [Hl Hb].
      unfold ablock in Hown. destruct (decide (cap = 0)) as [->|Hc].
      + destruct Hown as [Hemp Hf]. change (h1 = ∅) in Hemp. subst h1. change (f = null) in Hf. subst f.
        split; simpl; try done; try lia.
        intros p. rewrite left_id_L Hb. unfold vec_cell. simpl.
        unfold buffer_cell. repeat case_decide; try done; lia.
      + rewrite pure_sep_holds in Hown. destruct Hown as [(Hf2 & Hf1 & Hc0) Hh1].
        change (h1 = {[(f.1, hdr_off) := Hdr a cap]}) in Hh1. subst h1.
        split; simpl; try done; try lia.
        intros p. unfold vec_cell. simpl.
        destruct (decide (p = (f.1, hdr_off))) as [->|Hp].
        * rewrite (lookup_union_Some_l _ _ _ (Hdr a cap)); [|by apply lookup_singleton].
          simpl. rewrite decide_True // decide_True //.
        * rewrite lookup_union_r; [|by apply lookup_singleton_ne]. rewrite Hb Hf2 Z.sub_0_r.
          repeat case_decide; try done. destruct p as [q1 q2]. simpl in *. naive_solver.
  Qed.

  Definition vec_iff : forall x A h, is_vec x A h <-> inv vector_ok x A h := is_vec_iff.
End vector_state.
