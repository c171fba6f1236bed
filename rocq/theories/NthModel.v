(** * [nth] and [index_of] of the containers with contiguous storage

    For the segmented containers they are [sv_nth], [sd_nth] and [sq_offset] (Segmented.v). *)

From Verif Require Export Lang Vector Devector.
Open Scope Z_scope.

Section nth.
  Context `{Env}.
  (** vector.hpp 343-354, small_vector.hpp 396-407, static_vector.hpp 421-432,
      compact_vector.hpp 347-358, and with the same text small_flat_set.hpp 507-518,
      small_flat_multiset.hpp 507-518, small_flat_map.hpp 560-571, small_flat_multimap.hpp
      560-571, static_flat_set.hpp 355-366, static_flat_multiset.hpp 355-366,
      static_flat_map.hpp 409-420, static_flat_multimap.hpp 409-420,
      small_unordered_flat_set.hpp 463-474, small_unordered_flat_multiset.hpp 463-474,
      small_unordered_flat_map.hpp 529-540, small_unordered_flat_multimap.hpp 528-539,
      static_unordered_flat_set.hpp 306-317, static_unordered_flat_multiset.hpp 306-317,
      static_unordered_flat_map.hpp 371-382, static_unordered_flat_multimap.hpp 371-382:
      [SFL_ASSERT(pos <= size()); return iterator(first_ + pos)].
      An iterator is a pointer; [iterator] and [const_iterator] are not distinguished. *)
  Definition nth_ (pos : Z) : M vdata loc :=
    (n <- size_;;
     assert_ (pos <=? n);;
     o <- getS;;
     ret (v_first o +ₗ pos))%prog.
  (** vector.hpp 357-361, small_vector.hpp 410-414, static_vector.hpp 435-439,
      compact_vector.hpp 361-365, and after [nth] in the headers of the flat containers: [SFL_ASSERT(cbegin() <= pos && pos <= cend());
      return std::distance(cbegin(), pos)].  Comparing pointers into different blocks is
      undefined. *)
  Definition index_of_ (pos : loc) : M vdata Z :=
    (o <- getS;;
     a <- ptr_sub pos (v_first o);;
     b <- ptr_sub (v_last o) pos;;
     assert_ ((0 <=? a) && (0 <=? b));;
     ret a)%prog.
  (** devector.hpp 357-368. *)
  Definition dv_nth (pos : Z) : M ddata loc :=
    (n <- dv_size;;
     assert_ (pos <=? n);;
     o <- getS;;
     ret (d_first o +ₗ pos))%prog.
  (** devector.hpp 371-375. *)
  Definition dv_index_of (pos : loc) : M ddata Z :=
    (o <- getS;;
     a <- ptr_sub pos (d_first o);;
     b <- ptr_sub (d_last o) pos;;
     assert_ ((0 <=? a) && (0 <=? b));;
     ret a)%prog.
End nth.
