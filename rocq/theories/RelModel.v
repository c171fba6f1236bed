(** * The relational operators *)

From Verif Require Export Lang SeqSpec RelSpec.

Section model.
  Context `{Env} {O : Type}.
  (** [==] and [<] of the container. *)
  Context (run2 : vop2 -> M (O * O) rval).

  (** The arguments exchanged: [y < x]. *)
  Definition flipped {T} (m : M (O * O) T) : M (O * O) T := fun s w =>
    match m (s.2, s.1) w with
    | Ok r s' w' => Ok r (s'.2, s'.1) w'
    | Exn e s' w' => Exn e (s'.2, s'.1) w'
    | UB => UB
    end.
  (** [!(...)]; the operand is a truth value. *)
  Definition negated (m : M (O * O) rval) : M (O * O) rval := fun s w =>
    match m s w with
    | Ok (RBool b) s' w' => Ok (RBool (negb b)) s' w'
    | Ok _ _ _ => UB
    | Exn e s' w' => Exn e s' w'
    | UB => UB
    end.
  (** vector.hpp 1984-2048, small_vector.hpp 2442-2506, static_vector.hpp 1021-1085,
      compact_vector.hpp 1542-1606, devector.hpp 4086-4150, segmented_vector.hpp 1710-1774,
      segmented_devector.hpp 2491-2555, and with the same text small_flat_set.hpp 1801-1863,
      small_flat_multiset.hpp 1770-1832, small_flat_map.hpp 2105-2167, small_flat_multimap.hpp
      1843-1905, static_flat_set.hpp 968-1030, static_flat_multiset.hpp 935-997,
      static_flat_map.hpp 1285-1347, static_flat_multimap.hpp 1011-1073: [operator!=] is [!(x == y)], [operator>] is [y < x],
      [operator<=] is [!(y < x)], [operator>=] is [!(x < y)].  [eqv], [lt]: the operators
      of the elements. *)
  Definition compare_ (o : relop) (eqv lt : V -> V -> bool) : M (O * O) rval :=
    match o with
    | REq => run2 (PEq eqv)
    | RNe => negated (run2 (PEq eqv))
    | RLt => run2 (PLt lt)
    | RGt => flipped (run2 (PLt lt))
    | RLe => negated (flipped (run2 (PLt lt)))
    | RGe => negated (run2 (PLt lt))
    end.
End model.
