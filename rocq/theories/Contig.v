(** * Model of the contiguous containers: code shared by sfl::vector and
      sfl::small_vector (and, for the in-place parts, sfl::static_vector)

    vector.hpp and small_vector.hpp contain the same text for most member
    functions; they differ only in where storage comes from.  The functions here
    are written once over a [storage] record holding these differences; the two
    instances are in Vector.v and SmallVector.v.  "v" line numbers refer to
    include/sfl/vector.hpp, "s" line numbers to include/sfl/small_vector.hpp,
    "t" line numbers to include/sfl/static_vector.hpp. *)

From Verif Require Export Algo.

(** Data members: v 50-60 [data_], s 81-84, plus the allocator the object
    carries.  [static_vector] has no [eos_] and no allocator: its [eos_] is the
    constant end of the internal array. *)
Record vdata := Vec {
  v_alloc : nat;
  v_first : loc;
  v_last : loc;
  v_eos : loc;
}.

Definition with_last (q : loc) (o : vdata) : vdata := Vec (v_alloc o) (v_first o) q (v_eos o).
Definition with_storage (f l e : loc) (o : vdata) : vdata := Vec (v_alloc o) f l e.
Definition with_alloc (a : nat) (o : vdata) : vdata := Vec a (v_first o) (v_last o) (v_eos o).

(** What differs between the containers. *)
Record storage `{Env} := {
  (* new storage for at least [n] elements: (new_first, new_eos) *)
  acquire : Z -> M vdata (loc * loc);
  (* give storage back *)
  release : loc -> Z -> M vdata unit;
  (* calculate_new_capacity(size, capacity, n); None: std::length_error *)
  calc_cap : Z -> Z -> Z -> option Z;
  (* reset(new_cap) after the old elements and storage are gone *)
  restock : Z -> M vdata unit;
  (* storage chosen by a constructor for [n] elements, and giving it back *)
  init_acquire : Z -> M vdata unit;
  init_release : Z -> M vdata unit;
}.

Section contig.
  Context `{Env}.

  Definition set_last (q : loc) : M vdata unit := modS (with_last q).

  (** v 374-377, s 427-430, t 457-461 [size]. *)
  Definition size_ : M vdata Z := (o <- getS;; ptr_sub (v_last o) (v_first o))%prog.
  (** v 390-393, s 443-446 [capacity]. *)
  Definition capacity_ : M vdata Z := (o <- getS;; ptr_sub (v_eos o) (v_first o))%prog.
  (** v 396-399, s 449-452, t 475-479 [available]. *)
  Definition available_ : M vdata Z := (o <- getS;; ptr_sub (v_eos o) (v_last o))%prog.
  (** v 1186-1192, s 1541-1547 [check_size]. *)
  Definition check_size (n : Z) : M vdata unit :=
    if max_size <? n then throw ELength else ret tt.
  (** [cbegin() <= pos && pos <= cend()], then [std::distance(cbegin(), pos)]. *)
  Definition offset_of (pos : loc) : M vdata Z :=
    (o <- getS;;
     k <- ptr_sub pos (v_first o);;
     n <- size_;;
     assert_ ((0 <=? k) && (k <=? n));;
     ret k)%prog.

  (** v 510-529, s 659-678, t 485-505 [at]: the element itself is returned. *)
  Definition at_ (i : Z) : M vdata V :=
    (n <- size_;;
     o <- getS;;
     if n <=? i then throw EOutOfRange else read (v_first o +ₗ i))%prog.

  (** v 531-543, s 680-692, t 507-519 [operator[]]; v 545-571, s 694-720, t
      521-547 [front], [back].  The address of the element is returned. *)
  Definition index_ (i : Z) : M vdata loc :=
    (o <- getS;;
     n <- size_;;
     assert_ (i <? n);;
     ret (v_first o +ₗ i))%prog.
  Definition front_ : M vdata loc :=
    (o <- getS;;
     assert_ (negb (loc_eqb (v_first o) (v_last o)));;
     ret (v_first o))%prog.
  Definition back_ : M vdata loc :=
    (o <- getS;;
     assert_ (negb (loc_eqb (v_first o) (v_last o)));;
     ret (v_last o +ₗ -1))%prog.

  (** v 589-599, s 738-748, t 565-569 [clear]. *)
  Definition clear_ : M vdata unit :=
    (o <- getS;;
     destroy_a (v_first o) (v_last o);;
     set_last (v_first o))%prog.

  (** v 883-890, s 1074-1081, t 823-830 [pop_back]. *)
  Definition pop_back_ : M vdata unit :=
    (o <- getS;;
     assert_ (negb (loc_eqb (v_first o) (v_last o)));;
     set_last (v_last o +ₗ -1);;
     destroy_at (v_last o +ₗ -1))%prog.

  (** v 892-903, s 1083-1094, t 832-843 [erase(pos)]. *)
  Definition erase_ (pos : loc) : M vdata loc :=
    (o <- getS;;
     k <- offset_of pos;;
     assert_ (negb (loc_eqb pos (v_last o)));;
     let p := v_first o +ₗ k in
     new_last <- move (p +ₗ 1) (v_last o) p;;
     set_last new_last;;
     destroy_at new_last;;
     ret p)%prog.

  (** v 905-924, s 1096-1115, t 845-864 [erase(first, last)]. *)
  Definition erase_range_ (first last : loc) : M vdata loc :=
    (o <- getS;;
     k1 <- offset_of first;;
     k2 <- offset_of last;;
     assert_ (k1 <=? k2);;
     if loc_eqb first last then ret (v_first o +ₗ k1)
     else
       let p1 := v_first o +ₗ k1 in
       let p2 := v_first o +ₗ k2 in
       new_last <- move p2 (v_last o) p1;;
       destroy_a new_last (v_last o);;
       set_last new_last;;
       ret p1)%prog.

  (** v 606-649, s 755-799, t 575-617 [emplace], branch without reallocation.
      [*p1 = std::move(tmp)] is modelled as assignment of the value of [tmp]. *)
  Definition emplace_inplace (pos : loc) (a : arg) : M vdata loc :=
    (o <- getS;;
     k <- offset_of pos;;
     let p1 := v_first o +ₗ k in
     if loc_eqb p1 (v_last o) then
       construct p1 a;;
       set_last (v_last o +ₗ 1);;
       ret p1
     else
       tmp <- make a;;
       let p2 := v_last o +ₗ -1 in
       let old_last := v_last o in
       construct (v_last o) (AMove p2);;
       set_last (v_last o +ₗ 1);;
       move_backward p1 p2 old_last;;
       assign p1 (AVal tmp);;
       ret p1)%prog.

  (** v 779-793, s 951-965, t 799-811 [emplace_back], branch without
      reallocation; the returned reference is given by its address. *)
  Definition emplace_back_inplace (a : arg) : M vdata loc :=
    (o <- getS;;
     construct (v_last o) a;;
     set_last (v_last o +ₗ 1);;
     ret (v_last o))%prog.

  (** v 1642-1709, s 2056-2123, t 638-700 [insert_fill_n], branch without
      reallocation; [n > 0].  The temporary [tmp] is a value. *)
  Definition insert_fill_inplace (pos : loc) (n : Z) (a : arg) : M vdata loc :=
    (o <- getS;;
     tmp <- make a;;
     k <- offset_of pos;;
     let p1 := v_first o +ₗ k in
     let p2 := p1 +ₗ n in
     let old_last := v_last o in
     d <- ptr_sub old_last p2;;
     if 0 <=? d then
       let p3 := old_last +ₗ - n in
       nl <- uninitialized_move_a p3 old_last old_last;;
       set_last nl;;
       move_backward p1 p3 old_last;;
       fill p1 p2 (AVal tmp);;
       ret p1
     else
       uninitialized_fill_a old_last p2 (AVal tmp);;
       set_last p2;;
       nl <- uninitialized_move_a p1 old_last p2;;
       set_last nl;;
       fill p1 old_last (AVal tmp);;
       ret p1)%prog.

  (** v 1819-1887, s 2271-2341, t 726-791 [insert_range] (forward iterators),
      branch without reallocation; the range is not empty. *)
  Definition insert_range_inplace (pos : loc) (srcs : list arg) : M vdata loc :=
    (o <- getS;;
     k <- offset_of pos;;
     let n := Z.of_nat (length srcs) in
     let p1 := v_first o +ₗ k in
     let p2 := p1 +ₗ n in
     let old_last := v_last o in
     d <- ptr_sub old_last p2;;
     if 0 <=? d then
       let p3 := old_last +ₗ - n in
       nl <- uninitialized_move_a p3 old_last old_last;;
       set_last nl;;
       move_backward p1 p3 old_last;;
       copy srcs p1;;
       ret p1
     else
       tail <- ptr_sub old_last p1;;
       let mid := Z.to_nat tail in
       nl <- uninitialized_copy_a (drop mid srcs) old_last;;
       set_last nl;;
       nl2 <- uninitialized_move_a p1 old_last nl;;
       set_last nl2;;
       copy (take mid srcs) p1;;
       ret p1)%prog.

  (** v 1430-1471, s 1836-1877, t 191-232 [assign_fill_n], branch without
      reallocation. *)
  Definition assign_fill_inplace (n : Z) (value : arg) : M vdata unit :=
    (o <- getS;;
     size <- size_;;
     let new_last := v_first o +ₗ n in
     (if n <=? size then
        fill (v_first o) new_last value;;
        destroy_a new_last (v_last o)
      else
        fill (v_first o) (v_last o) value;;
        uninitialized_fill_a (v_last o) new_last value);;
     set_last new_last)%prog.

  (** v 1525-1564, s 1929-1970, t 263-308 [assign_range] (forward iterators),
      branch without reallocation. *)
  Definition assign_range_inplace (srcs : list arg) : M vdata unit :=
    (o <- getS;;
     size <- size_;;
     if Z.of_nat (length srcs) <=? size then
       new_last <- copy srcs (v_first o);;
       destroy_a new_last (v_last o);;
       set_last new_last
     else
       let mid := Z.to_nat size in
       copy (take mid srcs) (v_first o);;
       nl <- uninitialized_copy_a (drop mid srcs) (v_last o);;
       set_last nl)%prog.

  (** v 932-945, s 1123-1135, t 870-881 [resize], shrinking. *)
  Definition truncate (n : Z) : M vdata unit :=
    (o <- getS;;
     let new_last := v_first o +ₗ n in
     destroy_a new_last (v_last o);;
     set_last new_last)%prog.

  Section growing.
    Variable st : storage.

    (** v 1194-1216, s 1549-1571 [calculate_new_capacity]. *)
    Definition new_capacity (n : Z) : M vdata Z :=
      (size <- size_;;
       cap <- capacity_;;
       match calc_cap st size cap n with
       | Some c => ret c
       | None => throw ELength
       end)%prog.

    (** The tail of every reallocating function, e.g. v 723-741: destroy the old
        elements, give the old storage back, install the new storage. *)
    Definition replace_storage (new_first new_last new_eos : loc) : M vdata unit :=
      (o <- getS;;
       destroy_a (v_first o) (v_last o);;
       cap <- ptr_sub (v_eos o) (v_first o);;
       release st (v_first o) cap;;
       modS (with_storage new_first new_last new_eos))%prog.

    (** The reallocating branch of [emplace] (v 651-742, s 801-913) and of
        [insert_fill_n] (v 1711-1789, s 2125-2241): [mk] creates the [n] new
        elements at [p], [undo] destroys them. *)
    Definition realloc_insert (offset n new_cap : Z)
        (mk undo : loc -> M (vdata * loc) unit) : M vdata loc :=
      (o <- getS;;
       nb <- acquire st new_cap;;
       let new_first := nb.1 in
       let new_eos := nb.2 in
       let p := new_first +ₗ offset in
       new_last <- local_ new_first
         (try_
            (mk p;;
             setl_ null;;
             nl <- uninitialized_move_if_noexcept_a (v_first o) (v_first o +ₗ offset) new_first;;
             setl_ nl;;
             setl_ (nl +ₗ n);;
             nl2 <- uninitialized_move_if_noexcept_a (v_first o +ₗ offset) (v_last o) (nl +ₗ n);;
             setl_ nl2)
            (nl <- getl_;;
             (if loc_eqb nl null then undo p else destroy_a new_first nl);;
             lift_ (release st new_first new_cap));;
          getl_);;
       replace_storage new_first new_last new_eos;;
       ret p)%prog.

    (** The reallocating branch of [emplace_back] (v 795-870, s 967-1061) and of
        the two [resize] functions (v 951-1025 and 1065-1140, s 1142-1233 and
        1272-1364): as before, new elements at the end.  In [emplace_back] the
        catch block does nothing if [new_last != nullptr]; [new_last] is then
        [new_first], so this is the same as destroying [new_first, new_last). *)
    Definition realloc_append (n new_cap : Z)
        (mk undo : loc -> M (vdata * loc) unit) : M vdata loc :=
      (o <- getS;;
       size <- size_;;
       nb <- acquire st new_cap;;
       let new_first := nb.1 in
       let new_eos := nb.2 in
       let p := new_first +ₗ size in
       new_last <- local_ new_first
         (try_
            (mk p;;
             setl_ null;;
             nl <- uninitialized_move_if_noexcept_a (v_first o) (v_last o) new_first;;
             setl_ nl;;
             setl_ (nl +ₗ n))
            (nl <- getl_;;
             (if loc_eqb nl null then undo p else destroy_a new_first nl);;
             lift_ (release st new_first new_cap));;
          getl_);;
       replace_storage new_first new_last new_eos;;
       ret p)%prog.

    (** v 601-743, s 750-914 [emplace]; v 745-757, s 916-926 [insert] of one
        value call it with a copy / move argument. *)
    Definition emplace_ (pos : loc) (a : arg) : M vdata loc :=
      (o <- getS;;
       k <- offset_of pos;;
       if negb (loc_eqb (v_last o) (v_eos o)) then emplace_inplace pos a
       else
         new_cap <- new_capacity 1;;
         realloc_insert k 1 new_cap (fun p => construct p a) (fun p => destroy_at p))%prog.

    (** v 777-871, s 948-1062 [emplace_back]; [push_back] (v 873-881, s
        1064-1072) calls it. *)
    Definition emplace_back_ (a : arg) : M vdata loc :=
      (o <- getS;;
       if negb (loc_eqb (v_last o) (v_eos o)) then emplace_back_inplace a
       else
         new_cap <- new_capacity 1;;
         realloc_append 1 new_cap (fun p => construct p a) (fun p => destroy_at p))%prog.

    (** v 1635-1790, s 2049-2242 [insert_fill_n] (called by [insert(pos, n,
        value)], v 759-763). *)
    Definition insert_fill_ (pos : loc) (n : Z) (a : arg) : M vdata loc :=
      (o <- getS;;
       k <- offset_of pos;;
       if n =? 0 then ret (v_first o +ₗ k)
       else
         av <- available_;;
         if n <=? av then insert_fill_inplace pos n a
         else
           new_cap <- new_capacity n;;
           realloc_insert k n new_cap
             (fun p => uninitialized_fill_n_a p (Z.to_nat n) a;; ret tt)
             (fun p => destroy_n_a p (Z.to_nat n)))%prog.

    (** v 1889-1976, s 2343-2434 [insert_range] (forward iterators), reallocating branch. *)
    Definition insert_range_realloc (k : Z) (srcs : list arg) : M vdata loc :=
      (o <- getS;;
       let n := Z.of_nat (length srcs) in
       new_cap <- new_capacity n;;
       nb <- acquire st new_cap;;
       let new_first := nb.1 in
       let new_eos := nb.2 in
       let p := new_first +ₗ k in
       new_last <- local_ new_first
         (try_
            (nl <- uninitialized_move_if_noexcept_a (v_first o) (v_first o +ₗ k) new_first;;
             setl_ nl;;
             nl2 <- uninitialized_copy_a srcs nl;;
             setl_ nl2;;
             nl3 <- uninitialized_move_if_noexcept_a (v_first o +ₗ k) (v_last o) nl2;;
             setl_ nl3)
            (nl <- getl_;;
             destroy_a new_first nl;;
             lift_ (release st new_first new_cap));;
          getl_);;
       replace_storage new_first new_last new_eos;;
       ret p)%prog.

    (** v 1808-1977, s 2260-2435 [insert_range] (forward iterators). *)
    Definition insert_range_ (pos : loc) (srcs : list arg) : M vdata loc :=
      (o <- getS;;
       k <- offset_of pos;;
       if Nat.eqb (length srcs) 0 then ret (v_first o +ₗ k)
       else
         av <- available_;;
         if Z.of_nat (length srcs) <=? av then insert_range_inplace pos srcs
         else insert_range_realloc k srcs)%prog.

    (** The loop of v 1792-1806, s 2244-2258 [insert_range] (input iterators):
        [pos = insert(pos, *first); ++pos; ++first]. *)
    Fixpoint insert_input_loop (pos : loc) (srcs : list arg) : M vdata unit :=
      match srcs with
      | [] => ret tt
      | a :: srcs' => p <- emplace_ pos a;; insert_input_loop (p +ₗ 1) srcs'
      end%prog.
    Definition insert_input_ (pos : loc) (srcs : list arg) : M vdata loc :=
      (k <- offset_of pos;;
       insert_input_loop pos srcs;;
       o <- getS;;
       ret (v_first o +ₗ k))%prog.

    (** v 926-1037 and 1039-1152, s 1117-1245 and 1247-1377 [resize(n)] and
        [resize(n, value)]: the two functions differ only in how new elements
        are created; [a] is [ADef] for the first. *)
    Definition resize_ (n : Z) (a : arg) : M vdata unit :=
      (check_size n;;
       size <- size_;;
       o <- getS;;
       cap <- capacity_;;
       if n <? size then truncate n
       else if size <? n then
         let delta := n - size in
         if cap <? n then
           realloc_append delta n
             (fun p => uninitialized_fill_n_a p (Z.to_nat delta) a;; ret tt)
             (fun p => destroy_n_a p (Z.to_nat delta));; ret tt
         else
           nl <- uninitialized_fill_n_a (v_last o) (Z.to_nat delta) a;;
           set_last nl
       else ret tt)%prog.

    (** v 1218-1247, s 1573-1605 [reset]. *)
    Definition reset_ (new_cap : Z) : M vdata unit :=
      (o <- getS;;
       destroy_a (v_first o) (v_last o);;
       cap <- ptr_sub (v_eos o) (v_first o);;
       release st (v_first o) cap;;
       restock st new_cap)%prog.

    (** v 1426-1484, s 1832-1890 [assign_fill_n]. *)
    Definition assign_fill_ (n : Z) (value : arg) : M vdata unit :=
      (check_size n;;
       cap <- capacity_;;
       if n <=? cap then assign_fill_inplace n value
       else
         reset_ n;;
         o <- getS;;
         nl <- uninitialized_fill_n_a (v_first o) (Z.to_nat n) value;;
         set_last nl)%prog.

    (** v 1517-1577, s 1921-1983 [assign_range] (forward iterators). *)
    Definition assign_range_ (srcs : list arg) : M vdata unit :=
      (let n := Z.of_nat (length srcs) in
       check_size n;;
       cap <- capacity_;;
       if n <=? cap then assign_range_inplace srcs
       else
         reset_ n;;
         o <- getS;;
         nl <- uninitialized_copy_a srcs (v_first o);;
         set_last nl)%prog.

    (** v 1486-1515, s 1892-1919 [assign_range] (input iterators): first loop. *)
    Fixpoint assign_input_loop (curr last : loc) (srcs : list arg) : M vdata (loc * list arg) :=
      match srcs with
      | [] => ret (curr, [])
      | a :: srcs' =>
          if loc_eqb curr last then ret (curr, srcs)
          else assign curr a;; assign_input_loop (curr +ₗ 1) last srcs'
      end%prog.
    (** The [emplace_back( *first)] loops: v 1500-1508, 1304-1308, s 1905-1913, 1676-1680. *)
    Fixpoint append_loop (srcs : list arg) : M vdata unit :=
      match srcs with
      | [] => ret tt
      | a :: srcs' => emplace_back_ a;; append_loop srcs'
      end%prog.
    Definition assign_input_ (srcs : list arg) : M vdata unit :=
      (o <- getS;;
       cr <- assign_input_loop (v_first o) (v_last o) srcs;;
       match cr.2 with
       | [] =>
           if loc_eqb cr.1 (v_last o) then ret tt
           else destroy_a cr.1 (v_last o);; set_last cr.1
       | rest => append_loop rest
       end)%prog.

    (** v 1249-1297, s 1607-1668 [initialize_default_n], [initialize_fill_n], and v
        1332-1361, s 1705-1739 [initialize_range] (forward iterators), v
        1363-1389, s 1741-1773 [initialize_copy]: they differ only in the source
        of the elements. *)
    Definition init_range_ (srcs : list arg) : M vdata unit :=
      (let n := Z.of_nat (length srcs) in
       check_size n;;
       init_acquire st n;;
       o <- getS;;
       try_ (nl <- uninitialized_copy_a srcs (v_first o);; set_last nl)
            (init_release st n))%prog.
    (** The fill versions take a count ([n > max_size] must not build a list). *)
    Definition init_fill_ (n : Z) (a : arg) : M vdata unit :=
      (check_size n;;
       init_acquire st n;;
       o <- getS;;
       try_ (nl <- uninitialized_fill_n_a (v_first o) (Z.to_nat n) a;; set_last nl)
            (init_release st n))%prog.

    (** v 200-215, s 250-268 destructor. *)
    Definition destructor_ : M vdata unit :=
      (o <- getS;;
       destroy_a (v_first o) (v_last o);;
       cap <- ptr_sub (v_eos o) (v_first o);;
       release st (v_first o) cap)%prog.

    (** v 1299-1330, s 1670-1703 [initialize_range] (input iterators). *)
    Definition init_input_ (srcs : list arg) : M vdata unit :=
      try_ (append_loop srcs) destructor_.
  End growing.
End contig.
