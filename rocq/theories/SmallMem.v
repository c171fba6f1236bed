(** * What memory looks like when an object is an sfl::small_vector<T, N>

    [is_small N x A m]: the object [x] (the address of its internal storage and its
    data members) represents the abstract small vector [A], and [m] is exactly the
    memory it owns: N cells of internal storage, and, unless the elements are
    inside, one block of capacity() cells obtained from its allocator (none if
    capacity() is 0).  The first size() cells of the storage in use hold the
    elements, all other cells are raw. *)

From stdpp Require Import gmap.
From Verif Require Export SmallSpec VecMem.
Open Scope Z_scope.

Section mem.
  Context `{Env}.
  Variable N : nat.
  Notation NZ := (Z.of_nat N).

  Global Instance inside_dec A : Decision (inside N A) := ltac:(unfold inside; apply _).
  Definition small_cell (A : sabs) (p : loc) : option cell :=
    if decide (p.1 = A.1.1) then
      buffer_cell (if decide (inside N A.2) then q_elems A.2 else []) NZ p.2
    else if decide (inside N A.2) then None
    else vec_cell A.2 p.

  Record is_small (x : loc * vdata) (A : sabs) (m : gmap loc cell) : Prop := {
    is_buf : x.1 = A.1;
    is_alloc : v_alloc x.2 = q_alloc A.2;
    is_first : v_first x.2 = q_data A.2;
    is_last : v_last x.2 = q_data A.2 +ₗ Z.of_nat (length (q_elems A.2));
    is_eos : v_eos x.2 = q_data A.2 +ₗ q_cap A.2;
    is_size : Z.of_nat (length (q_elems A.2)) <= q_cap A.2 <= max_size;
    (* internal storage *)
    is_ib : if decide (N = 0%nat) then A.1 = null else A.1.1 < 0 /\ A.1.2 = 0;
    (* the three states: inside, moved from, in a block of the allocator *)
    is_state : q_cap A.2 = NZ /\ q_data A.2 = A.1 \/
               q_cap A.2 = 0 /\ q_data A.2 = null \/
               NZ < q_cap A.2 /\ 0 < (q_data A.2).1 /\ (q_data A.2).2 = 0;
    is_mem : forall p, m !! p = small_cell A p;
  }.
End mem.
