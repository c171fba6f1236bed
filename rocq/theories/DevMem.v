(** * What memory looks like when an object is an sfl::devector

    [is_dev x A m]: the data members of [x] represent the abstract devector [A],
    and [m] is exactly the memory it owns: one block of capacity() cells obtained
    from its allocator for capacity() elements (none if capacity() is 0).  After
    available_front() raw cells come size() cells holding live objects with the
    values of the elements; the other cells are raw. *)

From Verif Require Export DevSpec Devector Contig.
Open Scope Z_scope.

Section mem.
  Context `{Env}.

  Definition dev_cell (A : dabs) (p : loc) : option cell :=
    if decide (p.1 = (e_bos A).1) then
      if decide (p.2 = hdr_off /\ 0 < e_cap A) then Some (Hdr (e_alloc A) (e_cap A))
      else if decide (0 <= p.2 < e_cap A) then
        if decide (p.2 < e_front A) then Some Raw
        else match e_elems A !! Z.to_nat (p.2 - e_front A) with
             | Some v => Some (Live v)
             | None => Some Raw
             end
      else None
    else None.

  Record is_dev (x : ddata) (A : dabs) (m : gmap loc cell) : Prop := {
    id_alloc : d_alloc x = e_alloc A;
    id_bos : d_bos x = e_bos A;
    id_first : d_first x = e_bos A +ₗ e_front A;
    id_last : d_last x = e_bos A +ₗ (e_front A + Z.of_nat (length (e_elems A)));
    id_eos : d_eos x = e_bos A +ₗ e_cap A;
    id_front : 0 <= e_front A;
    id_size : e_front A + Z.of_nat (length (e_elems A)) <= e_cap A <= max_size;
    id_null : e_cap A = 0 -> e_bos A = null;
    id_block : 0 < e_cap A -> 0 < (e_bos A).1 /\ (e_bos A).2 = 0;
    id_mem : forall p, m !! p = dev_cell A p;
  }.
End mem.
