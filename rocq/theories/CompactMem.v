(** * What a sfl::compact_vector looks like in memory

    As vector ([is_vec], VecMem.v), with a block of exactly size() elements, no block
    if empty. *)

From Verif Require Export VecMem CompactSpec.
Open Scope Z_scope.

Definition is_compact `{Env} (x : vdata) (A : vabs) (m : gmap loc cell) : Prop :=
  is_vec x A m /\ compact A.
