(** * What memory looks like when an object is an sfl::vector

    [is_vec x A m]: the data members of [x] represent the abstract vector [A],
    and [m] is exactly the memory the vector owns: one block of capacity() cells
    obtained from its allocator for capacity() elements (none if capacity() is
    0), of which the first size() hold live objects with the values of the
    elements and the others are raw. *)

From Verif Require Export SeqSpec Contig.
Open Scope Z_scope.

Section mem.
  Context `{Env}.

  (** Content of a buffer of [cap] cells holding the elements [l]. *)
  Definition buffer_cell (l : list V) (cap : Z) (i : Z) : option cell :=
    if decide (0 <= i < cap) then
      match l !! Z.to_nat i with Some v => Some (Live v) | None => Some Raw end
    else None.

  Definition vec_cell (A : vabs) (p : loc) : option cell :=
    if decide (p.1 = (q_data A).1) then
      if decide (p.2 = hdr_off /\ 0 < q_cap A) then Some (Hdr (q_alloc A) (q_cap A))
      else buffer_cell (q_elems A) (q_cap A) p.2
    else None.

  Record is_vec (x : vdata) (A : vabs) (m : gmap loc cell) : Prop := {
    iv_alloc : v_alloc x = q_alloc A;
    iv_first : v_first x = q_data A;
    iv_last : v_last x = q_data A +ₗ Z.of_nat (length (q_elems A));
    iv_eos : v_eos x = q_data A +ₗ q_cap A;
    iv_size : Z.of_nat (length (q_elems A)) <= q_cap A <= max_size;
    iv_null : q_cap A = 0 -> q_data A = null;
    iv_block : 0 < q_cap A -> 0 < (q_data A).1 /\ (q_data A).2 = 0;
    iv_mem : forall p, m !! p = vec_cell A p;
  }.
End mem.
