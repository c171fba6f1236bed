(** * Concrete states of sfl::vector *)

From iris.proofmode Require Import tactics.
From Verif Require Export VectorThms Demo.
Open Scope Z_scope.

Section demo.
  Context `{E : Env}.

  Definition vec_view (x : vdata) (w : world) : option vabs :=
    match read_cells (v_first x) (osize x) (heap w) with
    | Some l => Some (VAbs (v_alloc x) (v_first x) l ((v_eos x).2 - (v_first x).2))
    | None => None
    end.
  Lemma vec_view_ok x A m w : is_vec x A m -> m ⊆ heap w -> vec_view x w = Some A.
  Proof.
    intros Hi Hm. pose proof (vobj_of _ _ _ Hi) as ->. unfold vec_view, osize. simpl.
    replace (Z.to_nat _) with (length (q_elems A)) by lia.
    rewrite read_cells_ok.
    - destruct A as [a f l cap]. simpl. do 2 f_equal. lia.
    - intros i v Hv. eapply lookup_weaken; [|exact Hm]. rewrite (iv_mem _ _ _ Hi).
      pose proof (iv_size _ _ _ Hi) as Hs. pose proof (lookup_lt_Some _ _ _ Hv) as Hlt.
      destruct (iv_block _ _ _ Hi) as [_ H0]; [lia|].
      unfold vec_cell, buffer_cell. simpl. rewrite H0. rewrite decide_True //.
      rewrite decide_False; [|unfold hdr_off; lia]. rewrite decide_True; [|lia].
      replace (Z.to_nat _) with i by lia. by rewrite Hv.
  Qed.

  Definition vec_case_ok := @case_ok E vector vector_spec vector_ok is_vec vec_iff vec_view vec_view_ok.
  Definition vec_case_exn := @case_exn E vector vector_spec vector_ok is_vec vec_iff vec_view vec_view_ok.
  Definition vec_case := @case_at E vector vector_spec vector_ok is_vec vec_iff vec_view vec_view_ok.
  Definition vec_case2_ok := @case2_ok E vector vector_spec vector_ok is_vec vec_iff vec_view vec_view_ok.
  Definition vec_case2_exn := @case2_exn E vector vector_spec vector_ok is_vec vec_iff vec_view vec_view_ok.
End demo.
Arguments vec_case_ok {E} cs i {T}. Arguments vec_case_exn {E} cs i {T}. Arguments vec_case {E}.
Arguments vec_case2_ok {E} cs i j {T}. Arguments vec_case2_exn {E} cs i j {T}.
