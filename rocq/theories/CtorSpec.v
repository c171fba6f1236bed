(** * What the construction of a sequence container costs *)

From Verif Require Export SeqSpec.

Section spec.
  Context `{Env}.
  (** One operation for each element and one allocation, if there are elements. *)
  Definition one_block (n : nat) : nat := if Nat.eqb n 0 then 0 else n + 1.
  (** Construction from a range given by input iterators. *)
  Definition k_input (c : vctor) : bool := match c with KInput _ _ => true | _ => false end.
  (** Construction as a copy. *)
  Definition k2_copy (c : vctor2) : bool := match c with FromCopy | FromCopyAlloc _ => true | _ => false end.
  (** The new object moved from one with allocator [a] has an equal allocator. *)
  Definition k2_same (c : vctor2) (a : nat) : bool :=
    match c with FromMove => true | FromMoveAlloc b => Nat.eqb b a | _ => false end.
End spec.
