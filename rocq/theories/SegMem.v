(** * What memory looks like when an object is a segmented container

    [is_seg dev x A m]: the data members of [x] represent the abstract container
    [A], and [m] is exactly the memory it owns: a block with the table of
    pointers to the segments, and one block for each segment, all of them obtained
    from the allocator of the container.  [dev]: sfl::segmented_devector, otherwise
    sfl::segmented_vector. *)

From Verif Require Export SegSpec Segmented.
Open Scope Z_scope.

(** ** Memory that consists of blocks *)
Section blocks.
  Context `{Env}.

  (** A block: its number, the allocator it comes from, its cells. *)
  Record blk := Blk { b_id : Z; b_al : nat; b_cells : list cell }.
  Definition blk_cell (b : blk) (i : Z) : option cell :=
    if decide (i = hdr_off) then Some (Hdr (b_al b) (Z.of_nat (length (b_cells b))))
    else if decide (0 <= i) then b_cells b !! Z.to_nat i else None.
  Fixpoint blks_cell (bs : list blk) (p : loc) : option cell :=
    match bs with
    | [] => None
    | b :: bs => if decide (p.1 = b_id b) then blk_cell b p.2 else blks_cell bs p
    end.
  (** [m] consists of the blocks [bs] and nothing else. *)
  Definition only_blocks (bs : list blk) (m : gmap loc cell) : Prop :=
    Forall (fun b => 0 < b_id b /\ b_cells b <> []) bs /\ NoDup (b_id <$> bs) /\
    forall p, m !! p = blks_cell bs p.
End blocks.

Section mem.
  Context `{Env} `{SegSize}.

  (** Place number [i] of the container, counted from the beginning of the first
      segment: contents, address. *)
  Definition slot (A : sabs) (i : Z) : cell :=
    if decide (s_front A <= i) then
      match s_elems A !! Z.to_nat (i - s_front A) with Some v => Live v | None => Raw end
    else Raw.
  Definition place (t : loc) (A : sabs) (i : Z) : sit :=
    It (t +ₗ i / SS) (s_segs A !!! Z.to_nat (i / SS) +ₗ i mod SS).

  Definition seg_cells (A : sabs) (k : nat) : list cell :=
    (fun r => slot A (Z.of_nat k * SS + r)) <$> seqZ 0 SS.
  (** [cs1], [cs2]: table entries not in use. *)
  Definition seg_blocks (A : sabs) (tb : Z) (cs1 cs2 : list cell) : list blk :=
    Blk tb (s_alloc A) (cs1 ++ (Ptr <$> s_segs A) ++ cs2) ::
    imap (fun k (q : loc) => Blk q.1 (s_alloc A) (seg_cells A k)) (s_segs A).
  Definition no_object (c : cell) : Prop := c = Raw \/ exists q, c = Ptr q.

  Record is_seg_at (tb : Z) (cs1 cs2 : list cell) (x : sgdata) (A : sabs) (m : gmap loc cell) : Prop := {
    ig_alloc : sg_alloc x = s_alloc A;
    ig_tbos : sg_tbos x = (tb, 0);
    ig_teos : sg_teos x = (tb, Z.of_nat (length cs1 + length (s_segs A) + length cs2));
    ig_tfirst : sg_tfirst x = (tb, Z.of_nat (length cs1));
    ig_tlast : sg_tlast x = (tb, Z.of_nat (length cs1 + length (s_segs A)));
    ig_bos : sg_bos x = place (tb, Z.of_nat (length cs1)) A 0;
    ig_eos : sg_eos x = place (tb, Z.of_nat (length cs1)) A (s_cap A);
    ig_first : sg_first x = place (tb, Z.of_nat (length cs1)) A (s_front A);
    ig_last : sg_last x = place (tb, Z.of_nat (length cs1)) A (s_front A + s_size A);
    ig_front : 0 <= s_front A;
    ig_size : s_front A + s_size A <= s_cap A;
    ig_unused : Forall no_object (cs1 ++ cs2);
    ig_offsets : Forall (fun q : loc => q.2 = 0) (s_segs A);
    ig_mem : only_blocks (seg_blocks A tb cs1 cs2) m;
  }.
  Definition is_seg (dev : bool) (x : sgdata) (A : sabs) (m : gmap loc cell) : Prop :=
    exists tb cs1 cs2, is_seg_at tb cs1 cs2 x A m /\ (dev = false -> cs1 = [] /\ s_front A = 0).
End mem.
