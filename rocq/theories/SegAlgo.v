(** * Model of segmented iterators and of the algorithms of private.hpp for them

    A segmented container keeps its elements in segments of [SS] elements each;
    a table holds the pointers to the segments.  The table is modelled memory
    too: reading a table entry that is out of bounds or was never written is
    undefined behaviour. *)

From Verif Require Export Algo.
Open Scope Z_scope.

(** The template parameter [N] (SegmentSize) of the segmented containers,
    asserted to be positive at segmented_vector.hpp 43. *)
Class SegSize := { SS : Z; SS_pos : 0 < SS }.

(** private.hpp 433-445 [segmented_iterator]: data members [segment_], [local_]. *)
Record sit := It { it_seg : loc; it_loc : loc }.

Section seg_algo.
  Context `{Env} `{SegSize}.
  Context {St : Type}.

  (** [*p] for a pointer [p] into a segment table. *)
  Definition read_ptr (p : loc) : M St loc := fun s w =>
    match heap w !! p with
    | Some (Ptr q) => Ok q s w
    | _ => UB
    end.
  (** [*p = q] for a pointer [p] into a segment table; pointers are trivial
      types, so an entry that was never written may be assigned to. *)
  Definition write_ptr (p q : loc) : M St unit := fun s w =>
    match heap w !! p with
    | Some Raw | Some (Ptr _) => Ok tt s (set_heap w (<[p := Ptr q]> (heap w)))
    | _ => UB
    end.

  (** ** Iterators *)

  (** private.hpp 495-499 [operator*] : the address of the element. *)
  Definition it_deref (x : sit) : loc := it_loc x.
  (** private.hpp 507-518 [operator++]. *)
  Definition it_succ (x : sit) : M St sit :=
    let l := it_loc x +ₗ 1 in
    (b <- read_ptr (it_seg x);;
     if loc_eqb l (b +ₗ SS)
     then b' <- read_ptr (it_seg x +ₗ 1);; ret (It (it_seg x +ₗ 1) b')
     else ret (It (it_seg x) l))%prog.
  (** private.hpp 527-538 [operator--]. *)
  Definition it_pred (x : sit) : M St sit :=
    (b <- read_ptr (it_seg x);;
     if loc_eqb (it_loc x) b
     then b' <- read_ptr (it_seg x +ₗ -1);; ret (It (it_seg x +ₗ -1) (b' +ₗ SS +ₗ -1))
     else ret (It (it_seg x) (it_loc x +ₗ -1)))%prog.
  (** private.hpp 547-568 [operator+=] (also 576-582 [operator+]); [Z.quot] is
      the division of C++. *)
  Definition it_add (x : sit) (n : Z) : M St sit :=
    (b <- read_ptr (it_seg x);;
     d <- ptr_sub (it_loc x) b;;
     let offset := d + n in
     if (0 <=? offset) && (offset <? SS)
     then ret (It (it_seg x) (it_loc x +ₗ n))
     else
       let k := if 0 <? offset then Z.quot offset SS else - Z.quot (- offset - 1) SS - 1 in
       b' <- read_ptr (it_seg x +ₗ k);;
       ret (It (it_seg x +ₗ k) (b' +ₗ (offset - k * SS))))%prog.
  (** private.hpp 570-573 [operator-=] (also 584-590 [operator-]). *)
  Definition it_minus (x : sit) (n : Z) : M St sit := it_add x (- n).
  (** private.hpp 592-598 [operator[]]: the address of the element. *)
  Definition it_index (x : sit) (n : Z) : M St loc := (y <- it_add x n;; ret (it_deref y))%prog.
  (** private.hpp 606-611 [operator-]. *)
  Definition it_diff (x y : sit) : M St Z :=
    (k <- ptr_sub (it_seg x) (it_seg y);;
     bx <- read_ptr (it_seg x);; dx <- ptr_sub (it_loc x) bx;;
     b_y <- read_ptr (it_seg y);; dy <- ptr_sub (it_loc y) b_y;;
     ret (k * SS + dx - dy))%prog.
  (** private.hpp 613-617 [operator==]. *)
  Definition it_eqb (x y : sit) : bool := loc_eqb (it_loc x) (it_loc y).
  (** private.hpp 625-629 [operator<]; comparing pointers into different blocks
      is treated as undefined. *)
  Definition it_ltb (x y : sit) : M St bool :=
    (if loc_eqb (it_seg x) (it_seg y)
     then d <- ptr_sub (it_loc y) (it_loc x);; ret (0 <? d)
     else d <- ptr_sub (it_seg y) (it_seg x);; ret (0 <? d))%prog.
  (** private.hpp 680-690 [segmented_iterator_traits::compose]. *)
  Definition seg_compose (sg l : loc) : M St sit :=
    (b <- read_ptr sg;;
     d <- ptr_sub l b;;
     assert_ ((0 <=? d) && (d <=? SS));;
     if loc_eqb l (b +ₗ SS)
     then b' <- read_ptr (sg +ₗ 1);; ret (It (sg +ₗ 1) b')
     else ret (It sg l))%prog.

  (** ** The loops over segments

      private.hpp writes the same four loops out for every algorithm; here each
      loop is written once and takes as a parameter what is called for one
      segment.  [h] is what the catch block does, [fun _ => ret tt] where there
      is none. *)

  (** Over a range of a segmented container, e.g. private.hpp 1290-1338. *)
  Fixpoint each_loop (inner : loc -> loc -> M St unit) (h : loc -> M St unit)
      (n : nat) (sg : loc) : M St unit :=
    match n with
    | O => ret tt
    | S n' =>
        b <- read_ptr sg;;
        try_ (inner b (b +ₗ SS)) (h sg);;
        each_loop inner h n' (sg +ₗ 1)
    end%prog.
  Definition seg_each (inner : loc -> loc -> M St unit) (h : loc -> M St unit)
      (first last : sit) : M St unit :=
    (if loc_eqb (it_seg first) (it_seg last)
     then inner (it_loc first) (it_loc last)
     else
       b <- read_ptr (it_seg first);;
       inner (it_loc first) (b +ₗ SS);;
       n <- range_len (it_seg first +ₗ 1) (it_seg last);;
       each_loop inner h n (it_seg first +ₗ 1);;
       b' <- read_ptr (it_seg last);;
       try_ (inner b' (it_loc last)) (h (it_seg last)))%prog.

  (** Over [n] elements from an iterator, e.g. private.hpp 1353-1395.  The loop
      [while (true)] gets a bound on the number of iterations; exceeding it
      would be reported as undefined behaviour. *)
  Fixpoint each_n_loop (inner : loc -> nat -> M St loc) (h : Z -> M St unit)
      (fuel : nat) (sg l : loc) (remaining : Z) : M St sit :=
    match fuel with
    | O => ub
    | S fuel' =>
        b <- read_ptr sg;;
        d <- ptr_sub (b +ₗ SS) l;;
        let count := Z.min remaining d in
        l' <- try_ (inner l (Z.to_nat count)) (h remaining);;
        assert_ (remaining - count <=? remaining);;
        if remaining - count =? 0
        then seg_compose sg l'
        else
          b' <- read_ptr (sg +ₗ 1);;
          each_n_loop inner h fuel' (sg +ₗ 1) b' (remaining - count)
    end%prog.
  Definition seg_each_n (inner : loc -> nat -> M St loc) (h : Z -> M St unit)
      (first : sit) (n : nat) : M St sit :=
    each_n_loop inner h (S n) (it_seg first) (it_loc first) (Z.of_nat n).

  (** From a random access range into a segmented container, e.g. private.hpp
      711-762.  The source range is the list of what its iterators yield. *)
  Fixpoint out_loop (inner : list arg -> loc -> M St loc) (h : loc -> loc -> M St unit)
      (fuel : nat) (srcs : list arg) (sg l : loc) : M St sit :=
    match fuel with
    | O => ub
    | S fuel' =>
        b <- read_ptr sg;;
        d <- ptr_sub (b +ₗ SS) l;;
        let count := Z.to_nat (Z.min (Z.of_nat (length srcs)) d) in
        l' <- try_ (inner (take count srcs) l) (h sg l);;
        match drop count srcs with
        | [] => seg_compose sg l'
        | srcs' =>
            b' <- read_ptr (sg +ₗ 1);;
            out_loop inner h fuel' srcs' (sg +ₗ 1) b'
        end
    end%prog.
  Definition seg_out (inner : list arg -> loc -> M St loc) (h : loc -> loc -> M St unit)
      (srcs : list arg) (d_first : sit) : M St sit :=
    match srcs with
    | [] => ret d_first
    | _ => out_loop inner h (length srcs) srcs (it_seg d_first) (it_loc d_first)
    end.

  (** From a segmented container, e.g. private.hpp 764-814; [inner first last d]
      handles one piece of the source. *)
  Fixpoint in_loop (inner : loc -> loc -> sit -> M St sit) (h : sit -> M St unit)
      (n : nat) (sg : loc) (d : sit) : M St sit :=
    match n with
    | O => ret d
    | S n' =>
        b <- read_ptr sg;;
        d' <- try_ (inner b (b +ₗ SS) d) (h d);;
        in_loop inner h n' (sg +ₗ 1) d'
    end%prog.
  Definition seg_in (inner : loc -> loc -> sit -> M St sit) (h : sit -> M St unit)
      (first last d_first : sit) : M St sit :=
    (if loc_eqb (it_seg first) (it_seg last)
     then inner (it_loc first) (it_loc last) d_first
     else
       b <- read_ptr (it_seg first);;
       d <- inner (it_loc first) (b +ₗ SS) d_first;;
       n <- range_len (it_seg first +ₗ 1) (it_seg last);;
       d <- in_loop inner h n (it_seg first +ₗ 1) d;;
       b' <- read_ptr (it_seg last);;
       try_ (inner b' (it_loc last) d) (h d))%prog.

  (** The same from back to front: into a segmented container, private.hpp
      1065-1116 ([first], [n]: the source range of pointers) ... *)
  Fixpoint back_out_loop (fuel : nat) (first : loc) (n : Z) (sg l : loc) : M St sit :=
    match fuel with
    | O => ub
    | S fuel' =>
        b <- read_ptr sg;;
        d <- ptr_sub l b;;
        let count := Z.min n d in
        l' <- move_backward (first +ₗ (n - count)) (first +ₗ n) l;;
        if n - count =? 0
        then seg_compose sg l'
        else
          b' <- read_ptr (sg +ₗ -1);;
          back_out_loop fuel' first (n - count) (sg +ₗ -1) (b' +ₗ SS)
    end%prog.
  Definition move_backward_out (first last : loc) (d_last : sit) : M St sit :=
    (n <- range_len first last;;
     match n with
     | O => ret d_last
     | _ => back_out_loop (S n) first (Z.of_nat n) (it_seg d_last) (it_loc d_last)
     end)%prog.
  (** ... and from a segmented container, private.hpp 1118-1168. *)
  Fixpoint back_in_loop (n : nat) (sg : loc) (d : sit) : M St sit :=
    match n with
    | O => ret d
    | S n' =>
        b <- read_ptr sg;;
        d' <- move_backward_out b (b +ₗ SS) d;;
        back_in_loop n' (sg +ₗ -1) d'
    end%prog.
  Definition s_move_backward (first last d_last : sit) : M St sit :=
    (if loc_eqb (it_seg first) (it_seg last)
     then move_backward_out (it_loc first) (it_loc last) d_last
     else
       b <- read_ptr (it_seg last);;
       d <- move_backward_out b (it_loc last) d_last;;
       n <- range_len (it_seg first) (it_seg last +ₗ -1);;
       d <- back_in_loop n (it_seg last +ₗ -1) d;;
       b' <- read_ptr (it_seg first);;
       move_backward_out (it_loc first) (b' +ₗ SS) d)%prog.

  (** ** The algorithms *)

  (** private.hpp 1290-1338 [destroy_a]. *)
  Definition s_destroy_a (first last : sit) : M St unit :=
    seg_each destroy_a (fun _ => ret tt) first last.
  (** private.hpp 1353-1395 [destroy_n_a]. *)
  Definition s_destroy_n_a (first : sit) (n : nat) : M St sit :=
    seg_each_n (fun p k => destroy_n_a p k;; ret (p +ₗ Z.of_nat k))%prog (fun _ => ret tt) first n.

  (** The catch block of private.hpp 1466-1476 and 1628-1638. *)
  Definition undo_to (first : sit) (sg : loc) : M St unit :=
    (b <- read_ptr sg;; e <- seg_compose sg b;; s_destroy_a first e)%prog.
  (** private.hpp 1417-1479 [uninitialized_default_construct_a]. *)
  Definition s_default_construct_a (first last : sit) : M St unit :=
    seg_each uninitialized_default_construct_a (undo_to first) first last.
  (** private.hpp 1575-1641 [uninitialized_fill_a]. *)
  Definition s_uninitialized_fill_a (first last : sit) (value : arg) : M St unit :=
    seg_each (fun p q => uninitialized_fill_a p q value) (undo_to first) first last.
  (** The catch block of private.hpp 1549-1552 and 1712-1715. *)
  Definition undo_n (first : sit) (n : nat) (remaining : Z) : M St unit :=
    (s_destroy_n_a first (Z.to_nat (Z.of_nat n - remaining));; ret tt)%prog.
  (** private.hpp 1503-1553 [uninitialized_default_construct_n_a]. *)
  Definition s_default_construct_n_a (first : sit) (n : nat) : M St sit :=
    seg_each_n uninitialized_default_construct_n_a (undo_n first n) first n.
  (** private.hpp 1665-1716 [uninitialized_fill_n_a]. *)
  Definition s_uninitialized_fill_n_a (first : sit) (n : nat) (value : arg) : M St sit :=
    seg_each_n (fun p k => uninitialized_fill_n_a p k value) (undo_n first n) first n.

  (** private.hpp 1177-1225 [fill]. *)
  Definition s_fill (first last : sit) (value : arg) : M St unit :=
    seg_each (fun p q => fill p q value) (fun _ => ret tt) first last.

  (** private.hpp 711-762 [copy] from a random access range. *)
  Definition s_copy_ra (srcs : list arg) (d_first : sit) : M St sit :=
    seg_out copy (fun _ _ => ret tt) srcs d_first.
  (** private.hpp 700-709 [copy] from a range that is not random access:
      [std::copy], one element after the other. *)
  Fixpoint s_copy_fwd (srcs : list arg) (d : sit) : M St sit :=
    match srcs with
    | [] => ret d
    | a :: srcs' => assign (it_deref d) a;; d' <- it_succ d;; s_copy_fwd srcs' d'
    end%prog.
  (** private.hpp 764-814 [copy] from a segmented container. *)
  Definition s_copy (first last d_first : sit) : M St sit :=
    seg_in (fun p q d => srcs <- range ACopy p q;; s_copy_ra srcs d)%prog (fun _ => ret tt) first last d_first.
  (** private.hpp 949-1052 [move] from a segmented container. *)
  Definition s_move (first last d_first : sit) : M St sit :=
    seg_in (fun p q d => srcs <- range AMove p q;; s_copy_ra srcs d)%prog (fun _ => ret tt) first last d_first.

  (** The catch block of private.hpp 1800-1808 and 1962-1970. *)
  Definition undo_out (d_first : sit) (sg l : loc) : M St unit :=
    (e <- seg_compose sg l;; s_destroy_a d_first e)%prog.
  (** private.hpp 1744-1809 [uninitialized_copy_a] (and 1908-1973
      [uninitialized_move_a]) from a random access range. *)
  Definition s_ucopy_ra (srcs : list arg) (d_first : sit) : M St sit :=
    seg_out (fun srcs d => uninit_loop d d srcs) (undo_out d_first) srcs d_first.
  (** private.hpp 1718-1742 [uninitialized_copy_a] from a range that is not
      random access. *)
  Fixpoint s_ucopy_loop (d_first d : sit) (srcs : list arg) : M St sit :=
    match srcs with
    | [] => ret d
    | a :: srcs' =>
        try_ (construct (it_deref d) a) (s_destroy_a d_first d);;
        d' <- it_succ d;;
        s_ucopy_loop d_first d' srcs'
    end%prog.
  Definition s_ucopy_fwd (srcs : list arg) (d_first : sit) : M St sit :=
    s_ucopy_loop d_first d_first srcs.
  (** private.hpp 1811-1880 [uninitialized_copy_a] from a segmented container. *)
  Definition s_ucopy (first last d_first : sit) : M St sit :=
    seg_in (fun p q d => srcs <- range ACopy p q;; s_ucopy_ra srcs d)%prog
           (fun d => s_destroy_a d_first d) first last d_first.
  (** private.hpp 1975-2044 [uninitialized_move_a] from a segmented container. *)
  Definition s_umove (first last d_first : sit) : M St sit :=
    seg_in (fun p q d => srcs <- range AMove p q;; s_ucopy_ra srcs d)%prog
           (fun d => s_destroy_a d_first d) first last d_first.
  (** private.hpp 2139-2208 [uninitialized_move_if_noexcept_a] from a segmented
      container. *)
  Definition s_umove_if_noexcept (first last d_first : sit) : M St sit :=
    seg_in (fun p q d => srcs <- range mine p q;; s_ucopy_ra srcs d)%prog
           (fun d => s_destroy_a d_first d) first last d_first.
End seg_algo.
