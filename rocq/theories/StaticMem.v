(** * What memory looks like when an object is an sfl::static_vector<T, N>

    [is_static N x A m]: the object [x] (the address of the array inside it and its
    data members) holds the elements [A.2], and [m] is exactly the memory it owns:
    the N cells of its array at [A.1], of which the first size() hold the elements
    and the others are raw. *)

From stdpp Require Import gmap.
From Verif Require Export StaticSpec VecMem.
Open Scope Z_scope.

Section mem.
  Context `{Env}.
  Variable N : nat.
  Notation NZ := (Z.of_nat N).

  Record is_static (x : loc * vdata) (A : tabs) (m : gmap loc cell) : Prop := {
    it_buf : x.1 = A.1;
    it_data : x.2 = Vec 0 A.1 (A.1 +ₗ Z.of_nat (length A.2)) (A.1 +ₗ NZ);
    it_size : (length A.2 <= N)%nat;
    it_ib : if decide (N = 0%nat) then A.1 = null else A.1.1 < 0 /\ A.1.2 = 0;
    it_mem : forall p, m !! p = if decide (p.1 = A.1.1) then buffer_cell A.2 NZ p.2 else None;
  }.
End mem.
