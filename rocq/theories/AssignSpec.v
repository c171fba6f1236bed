(** * What assignment to a sequence container costs *)

From Verif Require Export SeqSpec DevSpec.

Section spec.
  Context `{Env}.
  (** The number of elements afterwards, for [assign] from a value or a range. *)
  Definition assigns (o : vop) : option nat :=
    match o with OAssignN n _ => Some n | OAssignRange vs => Some (length vs) | _ => None end.
  Definition dev_assigns (o : dop) : option nat :=
    match o with DAssignN n _ => Some n | DAssignRange vs => Some (length vs) | _ => None end.
  (** Copy or move assignment; the storage can be taken over: a move, and the allocator is
      equal to the other one ([a], [b]) or becomes equal. *)
  Definition assigns2 (o : vop2) : bool := match o with PCopy | PMove => true | _ => false end.
  Definition takes_over (o : vop2) (a b : nat) : bool :=
    match o with PMove => pocma || Nat.eqb a b | _ => false end.
End spec.
