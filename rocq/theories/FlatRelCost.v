(** * Cost of the relational operators of the ordered flat containers *)

From Verif Require Export RelCost FlatRel.
Open Scope Z_scope.

Section cost.
  Context `{E : Env}.
  Lemma flat_compare_cost fl o eqv lt x l y l' w hf : holds2 (is_flat fl) x l y l' w hf ->
    match compare_ (flat_rel fl) o eqv lt (x, y) w with
    | Ok _ _ w' | Exn _ _ w' => (tick w' <= tick w + compare_most o (length l) (length l'))%nat
    | UB => True
    end.
  Proof.
    intros (Hwf & m1 & m2 & H1 & H2 & Hd). destruct fl as [N|N]; cbn [is_flat] in *.
    - destruct H1 as [ib1 H1], H2 as [ib2 H2].
      apply (static_compare_cost N o eqv lt x (ib1, l) y (ib2, l') w hf). split; [done|]. by exists m1, m2.
    - destruct H1 as (ib1 & a1 & d1 & c1 & H1), H2 as (ib2 & a2 & d2 & c2 & H2).
      apply (small_compare_cost N o eqv lt x (ib1, VAbs a1 d1 l c1) y (ib2, VAbs a2 d2 l' c2) w hf). split; [done|]. by exists m1, m2.
  Qed.
End cost.
