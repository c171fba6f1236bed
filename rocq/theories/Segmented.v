(** * Model of sfl::segmented_vector and sfl::segmented_devector

    "v" line numbers refer to include/sfl/segmented_vector.hpp, "d" line numbers
    to include/sfl/segmented_devector.hpp.  Functions with the same text in both
    headers are modelled once.

    The two containers share one record of data members.  segmented_vector has
    no members [table_bos_] and [bos_]; where the text of the two headers only
    differs in that segmented_vector uses [table_first_] and [first_] instead,
    the function is modelled once too, and the model keeps copies of
    [table_first_] and [first_] in the two fields.

    Sizes and distances are integers; the only subtraction of unsigned numbers
    that can wrap around, in [grow_storage], is modelled with [wrap]. *)

From Verif Require Export SegAlgo Vector.
Open Scope Z_scope.

(** v 80-96, d 80-97 [data_base], and the allocator. *)
Record sgdata := Sg {
  sg_alloc : nat;
  sg_tbos : loc;       (* table_bos_ *)
  sg_teos : loc;       (* table_eos_ *)
  sg_tfirst : loc;     (* table_first_ *)
  sg_tlast : loc;      (* table_last_ *)
  sg_bos : sit;
  sg_eos : sit;
  sg_first : sit;
  sg_last : sit;
}.

Definition sg_set_alloc (a : nat) (o : sgdata) : sgdata :=
  Sg a (sg_tbos o) (sg_teos o) (sg_tfirst o) (sg_tlast o) (sg_bos o) (sg_eos o) (sg_first o) (sg_last o).
Definition sg_set_table (b e f l : loc) (o : sgdata) : sgdata :=
  Sg (sg_alloc o) b e f l (sg_bos o) (sg_eos o) (sg_first o) (sg_last o).
Definition sg_set_iters (b e f l : sit) (o : sgdata) : sgdata :=
  Sg (sg_alloc o) (sg_tbos o) (sg_teos o) (sg_tfirst o) (sg_tlast o) b e f l.
Definition sg_set_first (i : sit) (o : sgdata) : sgdata :=
  sg_set_iters (sg_bos o) (sg_eos o) i (sg_last o) o.
Definition sg_set_last (i : sit) (o : sgdata) : sgdata :=
  sg_set_iters (sg_bos o) (sg_eos o) (sg_first o) i o.
(** [it.segment_ = sg]. *)
Definition it_set_seg (sg : loc) (x : sit) : sit := It sg (it_loc x).

(** A range of source elements: what random access iterators ([ra = true]) or
    other forward iterators yield, or a range of another segmented container. *)
Inductive source `{Env} :=
  | SList (ra : bool) (srcs : list arg)
  | SSeg (first last : sit).

Section segmented.
  Context `{Env} `{SegSize}.

  Section sources.
    Context {St : Type}.
    (** [std::distance(first, last)]. *)
    Definition src_len (x : source) : M St Z :=
      match x with
      | SList _ l => ret (Z.of_nat (length l))
      | SSeg first last => it_diff last first
      end.
    (** [mid = std::next(first, k)]: the ranges [first, mid) and [mid, last). *)
    Definition src_cut (x : source) (k : Z) : M St (source * source) :=
      match x with
      | SList ra l => ret (SList ra (take (Z.to_nat k) l), SList ra (drop (Z.to_nat k) l))
      | SSeg first last => mid <- it_add first k;; ret (SSeg first mid, SSeg mid last)
      end%prog.
    (** The overload of [copy] chosen for the iterators: private.hpp 700-814. *)
    Definition src_copy (x : source) (d : sit) : M St sit :=
      match x with
      | SList true l => s_copy_ra l d
      | SList false l => s_copy_fwd l d
      | SSeg first last => s_copy first last d
      end.
    (** The overload of [uninitialized_copy_a]: private.hpp 1718-1880. *)
    Definition src_ucopy (x : source) (d : sit) : M St sit :=
      match x with
      | SList true l => s_ucopy_ra l d
      | SList false l => s_ucopy_fwd l d
      | SSeg first last => s_ucopy first last d
      end.
    (** What [n] iterators from [x] on yield, wrapped by [std::move_iterator]:
        the elements are read later, but the table they are reached through does
        not change meanwhile. *)
    Fixpoint seg_refs (mk : loc -> arg) (x : sit) (n : nat) : M St (list arg) :=
      match n with
      | O => ret []
      | S n' => y <- it_succ x;; l <- seg_refs mk y n';; ret (mk (it_deref x) :: l)
      end%prog.
  End sources.

  Definition sq_set_first (i : sit) : M sgdata unit := modS (sg_set_first i).
  Definition sq_set_last (i : sit) : M sgdata unit := modS (sg_set_last i).

  (** ** Size *)

  (** v 400-404, d 388-392 [empty]. *)
  Definition sq_empty : M sgdata bool := (o <- getS;; ret (it_eqb (sg_last o) (sg_first o)))%prog.
  (** v 406-410, d 394-398 [size]. *)
  Definition sq_size : M sgdata Z := (o <- getS;; it_diff (sg_last o) (sg_first o))%prog.
  (** d 410-414 [capacity]; v 422-426: the same with [first_]. *)
  Definition sq_capacity : M sgdata Z := (o <- getS;; it_diff (sg_eos o) (sg_bos o))%prog.
  (** d 416-420 [available_front]. *)
  Definition sq_front_room : M sgdata Z := (o <- getS;; it_diff (sg_first o) (sg_bos o))%prog.
  (** v 428-432 [available], d 422-426 [available_back]. *)
  Definition sq_back_room : M sgdata Z := (o <- getS;; it_diff (sg_eos o) (sg_last o))%prog.
  (** [SFL_ASSERT(cbegin() <= pos && pos <= cend())], then
      [std::distance(cbegin(), pos)]: v 389-393, d 377-381 [index_of], and the
      beginning of the member functions that take an iterator.  [operator<=] is
      defined by [operator<] (private.hpp 631-647). *)
  Definition sq_offset (pos : sit) : M sgdata Z :=
    (o <- getS;;
     c1 <- it_ltb pos (sg_first o);;
     c2 <- it_ltb (sg_last o) pos;;
     assert_ (negb c1 && negb c2);;
     it_diff pos (sg_first o))%prog.

  (** ** Storage *)

  (** v 837-853, d 1205-1221 [allocate_segment], [deallocate_segment];
      v 878-885, d 1246-1253 [deallocate_segments]. *)
  Fixpoint sq_free_loop (p : loc) (n : nat) : M sgdata unit :=
    match n with
    | O => ret tt
    | S n' =>
        o <- getS;;
        q <- read_ptr p;;
        deallocate (sg_alloc o) q SS;;
        sq_free_loop (p +ₗ 1) n'
    end%prog.
  Definition sq_deallocate_segments (first last : loc) : M sgdata unit :=
    (n <- range_len first last;; sq_free_loop first n)%prog.
  (** v 855-872, d 1223-1240 [allocate_segments]. *)
  Fixpoint sq_alloc_loop (first curr : loc) (n : nat) : M sgdata unit :=
    match n with
    | O => ret tt
    | S n' =>
        o <- getS;;
        q <- try_ (allocate (sg_alloc o) SS) (sq_deallocate_segments first curr);;
        write_ptr curr q;;
        sq_alloc_loop first (curr +ₗ 1) n'
    end%prog.
  Definition sq_allocate_segments (first last : loc) : M sgdata unit :=
    (n <- range_len first last;; sq_alloc_loop first first n)%prog.
  (** [sfl::dtl::copy] of table entries (private.hpp 700-709), and
      [sfl::dtl::copy_backward] (private.hpp 822-831). *)
  Fixpoint copy_ptrs (first : loc) (n : nat) (d : loc) : M sgdata unit :=
    match n with
    | O => ret tt
    | S n' => q <- read_ptr first;; write_ptr d q;; copy_ptrs (first +ₗ 1) n' (d +ₗ 1)
    end%prog.
  Definition copy_table (first last d : loc) : M sgdata loc :=
    (n <- range_len first last;; copy_ptrs first n d;; ret (d +ₗ Z.of_nat n))%prog.
  Fixpoint copy_ptrs_backward (last : loc) (n : nat) (d_last : loc) : M sgdata unit :=
    match n with
    | O => ret tt
    | S n' =>
        q <- read_ptr (last +ₗ -1);;
        write_ptr (d_last +ₗ -1) q;;
        copy_ptrs_backward (last +ₗ -1) n' (d_last +ₗ -1)
    end%prog.
  Definition copy_table_backward (first last d_last : loc) : M sgdata loc :=
    (n <- range_len first last;; copy_ptrs_backward last n d_last;; ret (d_last +ₗ - Z.of_nat n))%prog.

  (** v 887-890, d 1255-1258 [min_table_capacity]. *)
  Definition min_table : Z := 8.
  (** v 896-931, d 1264-1302 [allocate_storage] ([allocate_table]: v 817-821,
      d 1185-1189). *)
  Definition sq_allocate_storage (n : Z) : M sgdata unit :=
    (if max_size <? n then throw ELength
     else
       let required := n / SS + 1 in
       let cap := Z.max required min_table in
       o <- getS;;
       t <- allocate (sg_alloc o) cap;;
       modS (sg_set_table t (t +ₗ cap) t (t +ₗ required));;
       try_
         (sq_allocate_segments t (t +ₗ required);;
          b <- read_ptr t;;
          e <- read_ptr (t +ₗ required +ₗ -1);;
          modS (sg_set_iters (It t b) (It (t +ₗ required +ₗ -1) (e +ₗ (SS - 1))) (It t b) (It t b)))
         (deallocate (sg_alloc o) t cap))%prog.
  (** d 1308-1321 [deallocate_storage]; v 937-950: the same with [table_first_]. *)
  Definition sq_deallocate_storage : M sgdata unit :=
    (o <- getS;;
     sq_deallocate_segments (sg_tfirst o) (sg_tlast o);;
     cap <- ptr_sub (sg_teos o) (sg_tbos o);;
     deallocate (sg_alloc o) (sg_tbos o) cap)%prog.

  (** "Update table" and "Update iterators" after the table was replaced, e.g.
      d 1384-1395; [dist1], [dist2]: the segments of [first_] and [last_]. *)
  Definition sq_new_table (b e f l : loc) (dist1 dist2 : Z) : M sgdata unit :=
    (o <- getS;;
     modS (sg_set_table b e f l);;
     modS (sg_set_iters (it_set_seg f (sg_bos o)) (it_set_seg (l +ₗ -1) (sg_eos o))
             (it_set_seg (f +ₗ dist1) (sg_first o)) (it_set_seg (f +ₗ dist2) (sg_last o))))%prog.

  (** d 1341-1396: room for [required] more entries before [table_first_]. *)
  Definition sd_table_front (required : Z) : M sgdata unit :=
    (o <- getS;;
     available <- ptr_sub (sg_tfirst o) (sg_tbos o);;
     if available <? required then
       tcap <- ptr_sub (sg_teos o) (sg_tbos o);;
       let new_cap := Z.max (tcap + tcap / 2) (tcap - available + required) in
       dist1 <- ptr_sub (it_seg (sg_first o)) (it_seg (sg_bos o));;
       dist2 <- ptr_sub (it_seg (sg_last o)) (it_seg (sg_bos o));;
       new_bos <- allocate (sg_alloc o) new_cap;;
       let new_eos := new_bos +ₗ new_cap in
       d <- ptr_sub (sg_teos o) (sg_tlast o);;
       let new_last := new_eos +ₗ - d in
       new_first <- copy_table_backward (sg_tfirst o) (sg_tlast o) new_last;;
       deallocate (sg_alloc o) (sg_tbos o) tcap;;
       sq_new_table new_bos new_eos new_first new_last dist1 dist2
     else ret tt)%prog.
  (** d 1398-1408: [required] more segments at the front. *)
  Definition sd_segs_front (required : Z) : M sgdata unit :=
    (o <- getS;;
     let new_first := sg_tfirst o +ₗ - required in
     sq_allocate_segments new_first (sg_tfirst o);;
     b <- read_ptr new_first;;
     modS (sg_set_table (sg_tbos o) (sg_teos o) new_first (sg_tlast o));;
     modS (sg_set_iters (It new_first b) (sg_eos o) (sg_first o) (sg_last o)))%prog.
  (** d 1327-1409 [grow_storage_front]. *)
  Definition sd_grow_front (add : Z) : M sgdata unit :=
    (cap <- sq_capacity;;
     if wrap (max_size - cap) <? add then throw ELength
     else
       let required := add / SS + (if add mod SS =? 0 then 0 else 1) in
       sd_table_front required;;
       sd_segs_front required)%prog.

  (** d 1427-1483, v 967-1018: room for [required] more entries after
      [table_last_].  In v the distances are from [first_] to [last_] and to
      [eos_], and the new [eos_.segment_] is the old one moved to the new
      table. *)
  Definition sq_table_back (required : Z) : M sgdata unit :=
    (o <- getS;;
     available <- ptr_sub (sg_teos o) (sg_tlast o);;
     if available <? required then
       tcap <- ptr_sub (sg_teos o) (sg_tbos o);;
       let new_cap := Z.max (tcap + tcap / 2) (tcap - available + required) in
       dist1 <- ptr_sub (it_seg (sg_first o)) (it_seg (sg_bos o));;
       dist2 <- ptr_sub (it_seg (sg_last o)) (it_seg (sg_bos o));;
       new_bos <- allocate (sg_alloc o) new_cap;;
       let new_eos := new_bos +ₗ new_cap in
       d <- ptr_sub (sg_tfirst o) (sg_tbos o);;
       let new_first := new_bos +ₗ d in
       new_last <- copy_table (sg_tfirst o) (sg_tlast o) new_first;;
       deallocate (sg_alloc o) (sg_tbos o) tcap;;
       sq_new_table new_bos new_eos new_first new_last dist1 dist2
     else ret tt)%prog.
  (** d 1485-1497, v 1020-1031: [required] more segments at the back. *)
  Definition sq_segs_back (required : Z) : M sgdata unit :=
    (o <- getS;;
     let new_last := sg_tlast o +ₗ required in
     sq_allocate_segments (sg_tlast o) new_last;;
     e <- read_ptr (new_last +ₗ -1);;
     modS (sg_set_table (sg_tbos o) (sg_teos o) (sg_tfirst o) new_last);;
     modS (sg_set_iters (sg_bos o) (It (new_last +ₗ -1) (e +ₗ (SS - 1))) (sg_first o) (sg_last o)))%prog.
  (** d 1415-1498 [grow_storage_back]; v 956-1032 [grow_storage]: the same with
      [table_first_] and [first_] for [table_bos_] and [bos_]. *)
  Definition sq_grow_back (add : Z) : M sgdata unit :=
    (cap <- sq_capacity;;
     if wrap (max_size - cap) <? add then throw ELength
     else
       let required := add / SS + 1 in
       sq_table_back required;;
       sq_segs_back required)%prog.

  (** d 1507-1517: the first part of [shrink_storage]. *)
  Definition sd_shrink_front : M sgdata unit :=
    (o <- getS;;
     let new_first := it_seg (sg_first o) in
     sq_deallocate_segments (sg_tfirst o) new_first;;
     b <- read_ptr new_first;;
     modS (sg_set_table (sg_tbos o) (sg_teos o) new_first (sg_tlast o));;
     modS (sg_set_iters (It new_first b) (sg_eos o) (sg_first o) (sg_last o)))%prog.
  (** v 1041-1050, d 1520-1529. *)
  Definition sq_shrink_back : M sgdata unit :=
    (o <- getS;;
     let new_last := it_seg (sg_last o) +ₗ 1 in
     sq_deallocate_segments new_last (sg_tlast o);;
     e <- read_ptr (new_last +ₗ -1);;
     modS (sg_set_table (sg_tbos o) (sg_teos o) (sg_tfirst o) new_last);;
     modS (sg_set_iters (sg_bos o) (It (new_last +ₗ -1) (e +ₗ (SS - 1))) (sg_first o) (sg_last o)))%prog.
  (** v 1053-1094, d 1532-1577. *)
  Definition sq_shrink_table : M sgdata unit :=
    (o <- getS;;
     tcap <- ptr_sub (sg_teos o) (sg_tbos o);;
     tsize <- ptr_sub (sg_tlast o) (sg_tfirst o);;
     let new_cap := Z.max tsize min_table in
     dist <- ptr_sub (it_seg (sg_last o)) (it_seg (sg_first o));;
     new_bos <- allocate (sg_alloc o) new_cap;;
     new_last <- copy_table (sg_tfirst o) (sg_tlast o) new_bos;;
     deallocate (sg_alloc o) (sg_tbos o) tcap;;
     sq_new_table new_bos (new_bos +ₗ new_cap) new_bos new_last 0 dist)%prog.
  (** v 1038-1095 [shrink_storage], called by v 443-446 [shrink_to_fit]. *)
  Definition sv_shrink : M sgdata unit := (sq_shrink_back;; sq_shrink_table)%prog.
  (** d 1504-1578 [shrink_storage], called by d 449-452 [shrink_to_fit]. *)
  Definition sd_shrink : M sgdata unit := (sd_shrink_front;; sq_shrink_back;; sq_shrink_table)%prog.

  (** v 433-441 [reserve]. *)
  Definition sv_reserve (n : Z) : M sgdata unit :=
    (cap <- sq_capacity;; if cap <? n then sq_grow_back (n - cap) else ret tt)%prog.
  (** d 427-436 [reserve_front]. *)
  Definition sd_reserve_front (n : Z) : M sgdata unit :=
    (size <- sq_size;;
     af <- sq_front_room;;
     if size + af <? n then sd_grow_front (n - (size + af)) else ret tt)%prog.
  (** d 438-447 [reserve_back]. *)
  Definition sd_reserve_back (n : Z) : M sgdata unit :=
    (size <- sq_size;;
     ab <- sq_back_room;;
     if size + ab <? n then sq_grow_back (n - (size + ab)) else ret tt)%prog.

  (** ** Element access: the address of the element is returned *)

  (** v 361-372 [nth]: through the table.  (v 374-386: the const version.) *)
  Definition sv_nth (pos : Z) : M sgdata sit :=
    (n <- sq_size;;
     assert_ (pos <=? n);;
     o <- getS;;
     let i := pos / SS in
     let j := pos - i * SS in
     b <- read_ptr (sg_tfirst o +ₗ i);;
     ret (It (sg_tfirst o +ₗ i) (b +ₗ j)))%prog.
  (** d 363-367 [nth]. *)
  Definition sd_nth (pos : Z) : M sgdata sit :=
    (n <- sq_size;;
     assert_ (pos <=? n);;
     o <- getS;;
     it_add (sg_first o) pos)%prog.
  (** v 453-479 [at], v 481-501 [operator[]]. *)
  Definition sv_cell (pos : Z) : M sgdata loc :=
    (o <- getS;;
     let i := pos / SS in
     let j := pos - i * SS in
     b <- read_ptr (sg_tfirst o +ₗ i);;
     ret (b +ₗ j))%prog.
  Definition sv_at (pos : Z) : M sgdata V :=
    (n <- sq_size;;
     if n <=? pos then throw EOutOfRange else p <- sv_cell pos;; read p)%prog.
  Definition sv_index (pos : Z) : M sgdata loc :=
    (n <- sq_size;; assert_ (pos <? n);; sv_cell pos)%prog.
  (** d 459-477 [at], d 479-491 [operator[]]. *)
  Definition sd_cell (pos : Z) : M sgdata loc :=
    (o <- getS;; x <- it_add (sg_first o) pos;; ret (it_deref x))%prog.
  Definition sd_at (pos : Z) : M sgdata V :=
    (n <- sq_size;;
     if n <=? pos then throw EOutOfRange else p <- sd_cell pos;; read p)%prog.
  Definition sd_index (pos : Z) : M sgdata loc :=
    (n <- sq_size;; assert_ (pos <? n);; sd_cell pos)%prog.
  (** v 503-515, d 493-505 [front]. *)
  Definition sq_get_front : M sgdata loc :=
    (e <- sq_empty;; assert_ (negb e);; o <- getS;; ret (it_deref (sg_first o)))%prog.
  (** v 517-529, d 507-519 [back]. *)
  Definition sq_get_back : M sgdata loc :=
    (e <- sq_empty;; assert_ (negb e);; o <- getS;; x <- it_pred (sg_last o);; ret (it_deref x))%prog.

  (** ** Modifiers *)

  (** v 534-544, d 524-534 [clear]. *)
  Definition sq_clear : M sgdata unit :=
    (o <- getS;; s_destroy_a (sg_first o) (sg_last o);; sq_set_last (sg_first o))%prog.
  (** d 753-760 [pop_front]. *)
  Definition sd_pop_front : M sgdata unit :=
    (e <- sq_empty;;
     assert_ (negb e);;
     o <- getS;;
     destroy_at (it_deref (sg_first o));;
     x <- it_succ (sg_first o);;
     sq_set_first x)%prog.
  (** v 670-677, d 762-769 [pop_back]. *)
  Definition sq_pop_back : M sgdata unit :=
    (e <- sq_empty;;
     assert_ (negb e);;
     o <- getS;;
     x <- it_pred (sg_last o);;
     sq_set_last x;;
     destroy_at (it_deref x))%prog.

  (** v 639-658, d 712-731 [emplace_back] ([push_back]: v 660-668, d 743-751);
      the returned reference is given by its address. *)
  Definition sq_emplace_back (a : arg) : M sgdata loc :=
    (o <- getS;;
     (if it_eqb (sg_last o) (sg_eos o) then sq_grow_back 1 else ret tt);;
     o1 <- getS;;
     construct (it_deref (sg_last o1)) a;;
     x <- it_succ (sg_last o1);;
     sq_set_last x;;
     ret (it_deref (sg_last o1)))%prog.
  (** d 690-709 [emplace_front] ([push_front]: d 733-741). *)
  Definition sd_emplace_front (a : arg) : M sgdata loc :=
    (o <- getS;;
     (if it_eqb (sg_first o) (sg_bos o) then sd_grow_front 1 else ret tt);;
     o1 <- getS;;
     x <- it_pred (sg_first o1);;
     construct (it_deref x) a;;
     sq_set_first x;;
     ret (it_deref x))%prog.

  (** v 561-600, d 609-650: the part of [emplace] that inserts at [p1] towards
      the back, there being room.  [*p1 = std::move(tmp)] is modelled as
      assignment of the value of [tmp]. *)
  Definition sq_emplace_at (p1 : sit) (a : arg) : M sgdata sit :=
    (o <- getS;;
     if it_eqb p1 (sg_last o) then
       construct (it_deref (sg_last o)) a;;
       x <- it_succ (sg_last o);;
       sq_set_last x;;
       ret p1
     else
       p2 <- it_pred (sg_last o);;
       let old_last := sg_last o in
       tmp <- make a;;
       construct (it_deref old_last) (AMove (it_deref p2));;
       x <- it_succ (sg_last o);;
       sq_set_last x;;
       s_move_backward p1 p2 old_last;;
       assign (it_deref p1) (AVal tmp);;
       ret p1)%prog.
  (** v 546-603 [emplace]; v 606-616 [insert] of one value. *)
  Definition sv_emplace (pos : sit) (a : arg) : M sgdata sit :=
    (k <- sq_offset pos;;
     o <- getS;;
     p1 <- it_add (sg_first o) k;;
     p1 <- (if it_eqb (sg_last o) (sg_eos o) then sq_grow_back 1;; sv_nth k else ret p1);;
     sq_emplace_at p1 a)%prog.
  (** d 557-596: the part of [emplace] that inserts before [p1] towards the
      front, there being room. *)
  Definition sd_emplace_front_at (p1 : sit) (a : arg) : M sgdata sit :=
    (o <- getS;;
     p2 <- it_pred p1;;
     if it_eqb p1 (sg_first o) then
       construct (it_deref p2) a;;
       sq_set_first p2;;
       ret p2
     else
       p3 <- it_succ (sg_first o);;
       p4 <- it_pred (sg_first o);;
       let old_first := sg_first o in
       tmp <- make a;;
       construct (it_deref p4) (AMove (it_deref (sg_first o)));;
       sq_set_first p4;;
       s_move p3 p1 old_first;;
       assign (it_deref p2) (AVal tmp);;
       ret p2)%prog.
  (** d 536-654 [emplace]; d 657-667 [insert] of one value. *)
  Definition sd_emplace (pos : sit) (a : arg) : M sgdata sit :=
    (k <- sq_offset pos;;
     o <- getS;;
     p1 <- it_add (sg_first o) k;;
     m <- it_diff (sg_last o) pos;;
     if k <? m then
       p1 <- (if it_eqb (sg_first o) (sg_bos o) then sd_grow_front 1;; sd_nth k else ret p1);;
       sd_emplace_front_at p1 a
     else
       p1 <- (if it_eqb (sg_last o) (sg_eos o) then sq_grow_back 1;; sd_nth k else ret p1);;
       sq_emplace_at p1 a)%prog.

  (** v 679-690 [erase(pos)]. *)
  Definition sv_erase (pos : sit) : M sgdata sit :=
    (k <- sq_offset pos;;
     o <- getS;;
     c <- it_ltb pos (sg_last o);;
     assert_ c;;
     p <- it_add (sg_first o) k;;
     p' <- it_add p 1;;
     nl <- s_move p' (sg_last o) p;;
     sq_set_last nl;;
     destroy_at (it_deref nl);;
     ret p)%prog.
  (** d 771-799 [erase(pos)]. *)
  Definition sd_erase (pos : sit) : M sgdata sit :=
    (k <- sq_offset pos;;
     o <- getS;;
     c <- it_ltb pos (sg_last o);;
     assert_ c;;
     m <- it_diff (sg_last o) pos;;
     p1 <- it_add (sg_first o) k;;
     p2 <- it_succ p1;;
     if k <? m then
       let old_first := sg_first o in
       nf <- s_move_backward (sg_first o) p1 p2;;
       sq_set_first nf;;
       destroy_at (it_deref old_first);;
       ret p2
     else
       nl <- s_move p2 (sg_last o) p1;;
       sq_set_last nl;;
       destroy_at (it_deref nl);;
       ret p1)%prog.
  (** v 701-710, d 828-838: the end of [erase(first, last)]. *)
  Definition sq_erase_back (p1 p2 : sit) : M sgdata sit :=
    (o <- getS;;
     nl <- s_move p2 (sg_last o) p1;;
     s_destroy_a nl (sg_last o);;
     sq_set_last nl;;
     ret p1)%prog.
  (** v 692-711 [erase(first, last)]. *)
  Definition sv_erase_range (first last : sit) : M sgdata sit :=
    (k1 <- sq_offset first;;
     k2 <- sq_offset last;;
     c <- it_ltb last first;;
     assert_ (negb c);;
     o <- getS;;
     if it_eqb first last then it_add (sg_first o) k1
     else
       p1 <- it_add (sg_first o) k1;;
       p2 <- it_add (sg_first o) k2;;
       sq_erase_back p1 p2)%prog.
  (** d 801-839 [erase(first, last)]. *)
  Definition sd_erase_range (first last : sit) : M sgdata sit :=
    (k1 <- sq_offset first;;
     k2 <- sq_offset last;;
     c <- it_ltb last first;;
     assert_ (negb c);;
     o <- getS;;
     if it_eqb first last then it_add (sg_first o) k1
     else
       m <- it_diff (sg_last o) last;;
       p1 <- it_add (sg_first o) k1;;
       p2 <- it_add (sg_first o) k2;;
       if k1 <? m then
         nf <- s_move_backward (sg_first o) p1 p2;;
         s_destroy_a (sg_first o) nf;;
         sq_set_first nf;;
         ret p2
       else sq_erase_back p1 p2)%prog.

  (** v 717-730 etc.: the shrinking part of the [resize] functions. *)
  Definition sq_cut_back (new_last : sit) : M sgdata unit :=
    (o <- getS;; s_destroy_a new_last (sg_last o);; sq_set_last new_last)%prog.
  (** [data_.last_ = uninitialized_fill_n_a(alloc, data_.last_, n, value)]; with
      [ADef]: [uninitialized_default_construct_n_a]. *)
  Definition sq_append_n (n : Z) (a : arg) : M sgdata unit :=
    (o <- getS;;
     nl <- s_uninitialized_fill_n_a (sg_last o) (Z.to_nat n) a;;
     sq_set_last nl)%prog.
  (** v 713-748 [resize(n)] ([a] is [ADef]: default construction has the same
      text as filling), v 750-786 [resize(n, value)]. *)
  Definition sv_resize (n : Z) (a : arg) : M sgdata unit :=
    (size <- sq_size;;
     if n <=? size then nl <- sv_nth n;; sq_cut_back nl
     else
       cap <- sq_capacity;;
       (if cap <? n then sq_grow_back (n - cap) else ret tt);;
       sq_append_n (n - size) a)%prog.
  (** d 841-919 [resize(n)], d 921-1004 [resize(n, value)]. *)
  Definition sd_resize (n : Z) (a : arg) : M sgdata unit :=
    (size <- sq_size;;
     if n <=? size then nl <- sd_nth n;; sq_cut_back nl
     else
       ab <- sq_back_room;;
       if n <=? size + ab then sq_append_n (n - size) a
       else
         af <- sq_front_room;;
         if n <=? af + size + ab then
           o <- getS;;
           s_uninitialized_fill_a (sg_last o) (sg_eos o) a;;
           sq_set_last (sg_eos o);;
           new_first <- it_minus (sg_first o) (n - (size + ab));;
           s_uninitialized_fill_a new_first (sg_first o) a;;
           sq_set_first new_first
         else
           sq_grow_back (n - (af + size + ab));;
           sq_append_n (n - (size + af)) a;;
           o <- getS;;
           s_uninitialized_fill_a (sg_bos o) (sg_first o) a;;
           sq_set_first (sg_bos o))%prog.
  (** d 1006-1043, d 1045-1083 [resize_front]. *)
  Definition sd_resize_front (n : Z) (a : arg) : M sgdata unit :=
    (size <- sq_size;;
     if n <=? size then
       new_first <- sd_nth (size - n);;
       o <- getS;;
       s_destroy_a (sg_first o) new_first;;
       sq_set_first new_first
     else
       af <- sq_front_room;;
       (if size + af <? n then sd_grow_front (n - (size + af)) else ret tt);;
       o <- getS;;
       new_first <- it_minus (sg_first o) (n - size);;
       s_uninitialized_fill_a new_first (sg_first o) a;;
       sq_set_first new_first)%prog.
  (** d 1085-1118, d 1120-1154 [resize_back]. *)
  Definition sd_resize_back (n : Z) (a : arg) : M sgdata unit :=
    (size <- sq_size;;
     if n <=? size then nl <- sd_nth n;; sq_cut_back nl
     else
       ab <- sq_back_room;;
       (if size + ab <? n then sq_grow_back (n - (size + ab)) else ret tt);;
       sq_append_n (n - size) a)%prog.

  (** ** Insertion *)

  (** v 1542-1601, d 2231-2300: [insert_fill_n] after making room at the back;
      [far]: the condition of the [if], [p2 <= last_] in v and
      [dist_to_end > n] in d. *)
  Definition sq_fill_back (p1 : sit) (n : Z) (far : sit -> M sgdata bool) (tmp : V) : M sgdata sit :=
    (o <- getS;;
     p2 <- it_add p1 n;;
     c <- far p2;;
     let old_last := sg_last o in
     if c then
       p3 <- it_minus (sg_last o) n;;
       nl <- s_umove p3 (sg_last o) (sg_last o);;
       sq_set_last nl;;
       s_move_backward p1 p3 old_last;;
       s_fill p1 p2 (AVal tmp);;
       ret p1
     else
       s_uninitialized_fill_a (sg_last o) p2 (AVal tmp);;
       sq_set_last p2;;
       nl <- s_umove p1 old_last p2;;
       sq_set_last nl;;
       s_fill p1 old_last (AVal tmp);;
       ret p1)%prog.
  (** v 1522-1602 [insert_fill_n], v 618-622 [insert(pos, n, value)]. *)
  Definition sv_insert_fill (pos : sit) (n : Z) (a : arg) : M sgdata sit :=
    (k <- sq_offset pos;;
     if n =? 0 then o <- getS;; it_add (sg_first o) k
     else
       tmp <- make a;;
       ab <- sq_back_room;;
       (if ab <? n then sq_grow_back (n - ab) else ret tt);;
       o <- getS;;
       p1 <- it_add (sg_first o) k;;
       sq_fill_back p1 n (fun p2 => c <- it_ltb (sg_last o) p2;; ret (negb c)) tmp)%prog.
  (** d 2150-2228: [insert_fill_n] towards the front. *)
  Definition sd_fill_front (p1 : sit) (k n : Z) (tmp : V) : M sgdata sit :=
    (o <- getS;;
     p2 <- it_minus p1 n;;
     let old_first := sg_first o in
     if n <? k then
       p3 <- it_add (sg_first o) n;;
       p4 <- it_minus (sg_first o) n;;
       s_umove (sg_first o) p3 p4;;
       sq_set_first p4;;
       s_move p3 p1 old_first;;
       s_fill p2 p1 (AVal tmp);;
       ret p2
     else
       p3 <- it_minus (sg_first o) n;;
       s_uninitialized_fill_a p2 (sg_first o) (AVal tmp);;
       sq_set_first p2;;
       s_umove old_first p1 p3;;
       sq_set_first p3;;
       s_fill old_first p1 (AVal tmp);;
       ret p2)%prog.
  (** d 2138-2301 [insert_fill_n], d 669-673 [insert(pos, n, value)]. *)
  Definition sd_insert_fill (pos : sit) (n : Z) (a : arg) : M sgdata sit :=
    (k <- sq_offset pos;;
     if n =? 0 then o <- getS;; it_add (sg_first o) k
     else
       tmp <- make a;;
       o <- getS;;
       m <- it_diff (sg_last o) pos;;
       if k <? m then
         af <- sq_front_room;;
         (if af <? n then sd_grow_front (n - af) else ret tt);;
         o1 <- getS;;
         p1 <- it_add (sg_first o1) k;;
         sd_fill_front p1 k n tmp
       else
         ab <- sq_back_room;;
         (if ab <? n then sq_grow_back (n - ab) else ret tt);;
         o1 <- getS;;
         p1 <- it_add (sg_first o1) k;;
         sq_fill_back p1 n (fun _ => ret (n <? m)) tmp)%prog.

  (** v 1645-1701, d 2425-2481: [insert_range] after making room at the back, [m]
      elements after [p1].  [p3]: where the last [n] elements begin; in d it is
      called [p2]. *)
  Definition sq_range_far (p1 p3 : sit) (x : source) : M sgdata sit :=
    (o <- getS;;
     let old_last := sg_last o in
     nl <- s_umove p3 (sg_last o) (sg_last o);;
     sq_set_last nl;;
     s_move_backward p1 p3 old_last;;
     src_copy x p1;;
     ret p1)%prog.
  Definition sq_range_near (p1 : sit) (m : Z) (x : source) : M sgdata sit :=
    (o <- getS;;
     let old_last := sg_last o in
     xs <- src_cut x m;;
     nl <- src_ucopy xs.2 (sg_last o);;
     sq_set_last nl;;
     nl2 <- s_umove p1 old_last nl;;
     sq_set_last nl2;;
     src_copy xs.1 p1;;
     ret p1)%prog.
  (** v 1622-1702 [insert_range], forward iterators. *)
  Definition sv_insert_range (pos : sit) (x : source) : M sgdata sit :=
    (k <- sq_offset pos;;
     n <- src_len x;;
     o <- getS;;
     if n =? 0 then it_add (sg_first o) k
     else
       m <- it_diff (sg_last o) pos;;
       ab <- sq_back_room;;
       (if ab <? n then sq_grow_back (n - ab) else ret tt);;
       o1 <- getS;;
       p1 <- it_add (sg_first o1) k;;
       p2 <- it_add p1 n;;
       c <- it_ltb (sg_last o1) p2;;
       if negb c then
         p3 <- it_minus (sg_last o1) n;;
         sq_range_far p1 p3 x
       else sq_range_near p1 m x)%prog.
  (** d 2334-2412: [insert_range] towards the front. *)
  Definition sd_range_front (p1 : sit) (k n : Z) (x : source) : M sgdata sit :=
    (o <- getS;;
     p2 <- it_minus p1 n;;
     let old_first := sg_first o in
     if n <? k then
       p3 <- it_add (sg_first o) n;;
       p4 <- it_minus (sg_first o) n;;
       s_umove (sg_first o) p3 p4;;
       sq_set_first p4;;
       s_move p3 p1 old_first;;
       src_copy x p2;;
       ret p2
     else
       p3 <- it_minus (sg_first o) n;;
       xs <- src_cut x (n - k);;
       src_ucopy xs.1 p2;;
       sq_set_first p2;;
       s_umove old_first p1 p3;;
       sq_set_first p3;;
       src_copy xs.2 old_first;;
       ret p2)%prog.
  (** d 2321-2483 [insert_range], forward iterators.  [p2 = last_ - n] is
      computed before it is known whether the [n] positions before [last_]
      exist. *)
  Definition sd_insert_range (pos : sit) (x : source) : M sgdata sit :=
    (k <- sq_offset pos;;
     n <- src_len x;;
     o <- getS;;
     if n =? 0 then it_add (sg_first o) k
     else
       m <- it_diff (sg_last o) pos;;
       if k <? m then
         af <- sq_front_room;;
         (if af <? n then sd_grow_front (n - af) else ret tt);;
         o1 <- getS;;
         p1 <- it_add (sg_first o1) k;;
         sd_range_front p1 k n x
       else
         ab <- sq_back_room;;
         (if ab <? n then sq_grow_back (n - ab) else ret tt);;
         o1 <- getS;;
         p1 <- it_add (sg_first o1) k;;
         p2 <- it_minus (sg_last o1) n;;
         if n <? m then sq_range_far p1 p2 x else sq_range_near p1 m x)%prog.
  (** v 1604-1618, d 2303-2317 [insert_range], input iterators; [emplace] and
      [nth] are those of the container. *)
  Section input.
    Variable emplace : sit -> arg -> M sgdata sit.
    Variable nth : Z -> M sgdata sit.
    Fixpoint sq_insert_input_loop (pos : sit) (srcs : list arg) : M sgdata unit :=
      match srcs with
      | [] => ret tt
      | a :: srcs' =>
          p <- emplace pos a;;
          p' <- it_succ p;;
          sq_insert_input_loop p' srcs'
      end%prog.
    Definition sq_insert_input (pos : sit) (srcs : list arg) : M sgdata sit :=
      (k <- sq_offset pos;; sq_insert_input_loop pos srcs;; nth k)%prog.
  End input.

  (** ** Assignment *)

  (** v 1239-1286 [assign_fill_n]. *)
  Definition sv_assign_fill (n : Z) (a : arg) : M sgdata unit :=
    (size <- sq_size;;
     o <- getS;;
     if n <=? size then
       nl <- it_add (sg_first o) n;;
       s_fill (sg_first o) nl a;;
       sq_cut_back nl
     else
       cap <- sq_capacity;;
       (if cap <? n then sq_grow_back (n - cap) else ret tt);;
       o1 <- getS;;
       e <- it_add (sg_first o1) size;;
       s_fill (sg_first o1) e a;;
       sq_append_n (n - size) a)%prog.
  (** d 1722-1833 [assign_fill_n]. *)
  Definition sd_assign_fill (n : Z) (a : arg) : M sgdata unit :=
    (size <- sq_size;;
     o <- getS;;
     if n <=? size then
       nl <- it_add (sg_first o) n;;
       s_fill (sg_first o) nl a;;
       sq_cut_back nl
     else
       ab <- sq_back_room;;
       if n <=? size + ab then
         s_fill (sg_first o) (sg_last o) a;;
         sq_append_n (n - size) a
       else
         af <- sq_front_room;;
         if n <=? af + size + ab then
           s_fill (sg_first o) (sg_last o) a;;
           s_uninitialized_fill_a (sg_last o) (sg_eos o) a;;
           sq_set_last (sg_eos o);;
           new_first <- it_minus (sg_first o) (n - (size + ab));;
           s_uninitialized_fill_a new_first (sg_first o) a;;
           sq_set_first new_first
         else
           sq_grow_back (n - (af + size + ab));;
           o1 <- getS;;
           s_fill (sg_first o1) (sg_last o1) a;;
           sq_append_n (n - (size + af)) a;;
           s_uninitialized_fill_a (sg_bos o1) (sg_first o1) a;;
           sq_set_first (sg_bos o1))%prog.
  (** v 1318-1370 [assign_range], forward iterators. *)
  Definition sv_assign_range (x : source) : M sgdata unit :=
    (n <- src_len x;;
     size <- sq_size;;
     o <- getS;;
     if n <=? size then
       nl <- src_copy x (sg_first o);;
       sq_cut_back nl
     else
       cap <- sq_capacity;;
       (if cap <? n then sq_grow_back (n - cap) else ret tt);;
       o1 <- getS;;
       xs <- src_cut x size;;
       src_copy xs.1 (sg_first o1);;
       nl <- src_ucopy xs.2 (sg_last o1);;
       sq_set_last nl)%prog.
  (** d 1864-1983 [assign_range], forward iterators; [y.1]: [first, mid1),
      [z.1]: [mid1, mid2), [z.2]: [mid2, last). *)
  Definition sd_assign_range (x : source) : M sgdata unit :=
    (n <- src_len x;;
     size <- sq_size;;
     o <- getS;;
     if n <=? size then
       nl <- src_copy x (sg_first o);;
       sq_cut_back nl
     else
       ab <- sq_back_room;;
       if n <=? size + ab then
         xs <- src_cut x size;;
         src_copy xs.1 (sg_first o);;
         nl <- src_ucopy xs.2 (sg_last o);;
         sq_set_last nl
       else
         af <- sq_front_room;;
         if n <=? af + size + ab then
           y <- src_cut x (n - (size + ab));;
           z <- src_cut y.2 size;;
           src_copy z.1 (sg_first o);;
           nl <- src_ucopy z.2 (sg_last o);;
           sq_set_last nl;;
           new_first <- it_minus (sg_first o) (n - (size + ab));;
           src_ucopy y.1 new_first;;
           sq_set_first new_first
         else
           sq_grow_back (n - (af + size + ab));;
           o1 <- getS;;
           y <- src_cut x af;;
           z <- src_cut y.2 size;;
           src_copy z.1 (sg_first o1);;
           nl <- src_ucopy z.2 (sg_last o1);;
           sq_set_last nl;;
           src_ucopy y.1 (sg_bos o1);;
           sq_set_first (sg_bos o1))%prog.
  (** v 1289-1316, d 1835-1862 [assign_range], input iterators. *)
  Fixpoint sq_assign_input_loop (curr last : sit) (srcs : list arg) : M sgdata (sit * list arg) :=
    match srcs with
    | [] => ret (curr, [])
    | a :: srcs' =>
        if it_eqb curr last then ret (curr, srcs)
        else
          assign (it_deref curr) a;;
          curr' <- it_succ curr;;
          sq_assign_input_loop curr' last srcs'
    end%prog.
  Fixpoint sq_append_loop (srcs : list arg) : M sgdata unit :=
    match srcs with
    | [] => ret tt
    | a :: srcs' => sq_emplace_back a;; sq_append_loop srcs'
    end%prog.
  Definition sq_assign_input (srcs : list arg) : M sgdata unit :=
    (o <- getS;;
     cr <- sq_assign_input_loop (sg_first o) (sg_last o) srcs;;
     match cr.2 with
     | [] => c <- it_ltb cr.1 (sg_last o);; if c then sq_cut_back cr.1 else ret tt
     | rest => sq_append_loop rest
     end)%prog.

  (** ** Construction and destruction *)

  (** The members before the body of a constructor runs.  In the code they are
      uninitialised; they are not read before [allocate_storage] sets them. *)
  Definition sg_fresh (a : nat) : sgdata :=
    Sg a null null null null (It null null) (It null null) (It null null) (It null null).

  (** v 223-233, d 225-235 destructor. *)
  Definition sq_destructor : M sgdata unit :=
    (o <- getS;; s_destroy_a (sg_first o) (sg_last o);; sq_deallocate_storage)%prog.
  (** v 1102-1143, d 1585-1626 [initialize_default_n], [initialize_fill_n]. *)
  Definition sq_init_fill (n : Z) (a : arg) : M sgdata unit :=
    (sq_allocate_storage n;;
     try_ (o <- getS;; nl <- s_uninitialized_fill_n_a (sg_first o) (Z.to_nat n) a;; sq_set_last nl)
          sq_deallocate_storage)%prog.
  (** v 1165-1207, d 1648-1690 [initialize_range] (forward iterators),
      [initialize_copy]. *)
  Definition sq_init_range (n : Z) (x : source) : M sgdata unit :=
    (sq_allocate_storage n;;
     try_ (o <- getS;; nl <- src_ucopy x (sg_first o);; sq_set_last nl)
          sq_deallocate_storage)%prog.
  (** v 1143-1163, d 1626-1646 [initialize_range], input iterators. *)
  Definition sq_init_input (srcs : list arg) : M sgdata unit :=
    (sq_allocate_storage 0;;
     try_ (sq_append_loop srcs) (sq_clear;; sq_deallocate_storage))%prog.

  (** v 1188-1207, d 1671-1690 [initialize_copy]. *)
  Definition sq_initialize_copy : M (sgdata * sgdata) unit :=
    (oo <- getS;;
     n <- on2 sq_size;;
     on1 (sq_init_range n (SSeg (sg_first oo.2) (sg_last oo.2))))%prog.
  (** [swap(data_, other.data_)]: all members, and the allocator. *)
  Definition sg_swap (oo : sgdata * sgdata) : sgdata * sgdata := (oo.2, oo.1).
  (** v 1209-1237, d 1692-1720 [initialize_move]. *)
  Definition sq_initialize_move : M (sgdata * sgdata) unit :=
    (oo <- getS;;
     if Nat.eqb (sg_alloc oo.1) (sg_alloc oo.2) then
       on1 (sq_allocate_storage 0);;
       modS sg_swap
     else
       n <- on2 sq_size;;
       on1 (sq_allocate_storage n;;
            try_ (o <- getS;;
                  nl <- s_umove (sg_first oo.2) (sg_last oo.2) (sg_first o);;
                  sq_set_last nl)
                 sq_deallocate_storage))%prog.
  (** v 189-221, d 191-223 copy and move constructors, object 1 fresh. *)
  Definition sq_copy_ctor : M (sgdata * sgdata) unit :=
    (oo <- getS;;
     putS (sg_fresh (soccc (sg_alloc oo.2)), oo.2);;
     sq_initialize_copy)%prog.
  Definition sq_copy_ctor_alloc (a : nat) : M (sgdata * sgdata) unit :=
    (oo <- getS;; putS (sg_fresh a, oo.2);; sq_initialize_copy)%prog.
  Definition sq_move_ctor : M (sgdata * sgdata) unit :=
    (oo <- getS;; putS (sg_fresh (sg_alloc oo.2), oo.2);; sq_initialize_move)%prog.
  Definition sq_move_ctor_alloc (a : nat) : M (sgdata * sgdata) unit :=
    (oo <- getS;; putS (sg_fresh a, oo.2);; sq_initialize_move)%prog.

  (** A temporary object of the class, with allocator [a]: constructed before
      [m], destroyed after it; it is the second component of the state. *)
  Definition with_temp (a : nat) (m : M (sgdata * sgdata) unit) : M sgdata unit :=
    local_ (sg_fresh a)
      (on2 (sq_allocate_storage 0);;
       m;;
       on2 sq_destructor)%prog.
  (** [clear()], [deallocate_storage()], and the table pointers set to null:
      v 1386-1392, v 1429-1442, d 1999-2006, d 2043-2057. *)
  Definition sq_drop_storage : M sgdata unit :=
    (sq_clear;; sq_deallocate_storage;; modS (sg_set_table null null null null))%prog.
  (** v 1380-1400, v 1461-1488, d 1993-2014, d 2076-2104: the storage of the object is replaced
      by an empty one from another allocator. *)
  Definition sq_reset_alloc (a : nat) : M sgdata unit :=
    (with_temp a (on1 sq_drop_storage;; modS sg_swap);;
     modS (sg_set_alloc a))%prog.

  Section assign.
    (** [assign_range] of the container. *)
    Variable assign_range : source -> M sgdata unit.

    (** v 1372-1412, d 1985-2026 [assign_copy], two different objects. *)
    Definition sq_assign_copy : M (sgdata * sgdata) unit :=
      (oo <- getS;;
       (if pocca then
          if negb (Nat.eqb (sg_alloc oo.1) (sg_alloc oo.2))
          then on1 (sq_reset_alloc (sg_alloc oo.2))
          else on1 (modS (sg_set_alloc (sg_alloc oo.2)))
        else ret tt);;
       on1 (assign_range (SSeg (sg_first oo.2) (sg_last oo.2))))%prog.
    (** v 1495-1499, v 1504-1508 etc.: element-wise move assignment; a range of
        move iterators is a random access range. *)
    Definition sq_assign_moves : M (sgdata * sgdata) unit :=
      (oo <- getS;;
       n <- on2 sq_size;;
       srcs <- seg_refs AMove (sg_first oo.2) (Z.to_nat n);;
       on1 (assign_range (SList true srcs)))%prog.
    (** v 1414-1510, d 2028-2126 [assign_move], two different objects.  The
        temporary of the first branch is the second component of the state
        [((this, other), temp)]. *)
    Definition sq_assign_move : M (sgdata * sgdata) unit :=
      (oo <- getS;;
       if Nat.eqb (sg_alloc oo.1) (sg_alloc oo.2) then
         local_ (sg_fresh (sg_alloc oo.1))
           (on2 (sq_allocate_storage 0);;
            on1 (on1 sq_drop_storage);;
            on1 (modS sg_swap);;
            modS (fun s : (sgdata * sgdata) * sgdata => ((s.1.1, s.2), s.1.2));;
            on2 sq_destructor);;
         (if pocma then modS (fun s : sgdata * sgdata => (sg_set_alloc (sg_alloc s.2) s.1, s.2)) else ret tt)
       else if pocma then
         on1 (sq_reset_alloc (sg_alloc oo.2));;
         sq_assign_moves
       else sq_assign_moves)%prog.
  End assign.
  (** [assign_move] with [&other == this]: the allocators are equal. *)
  Definition sq_assign_move_self : M sgdata unit :=
    (o <- getS;;
     with_temp (sg_alloc o) (on1 sq_drop_storage;; modS sg_swap))%prog.

  (** v 788-809, d 1156-1177 [swap], two different objects.  The allocators are
      swapped, and swapped again as part of [data_]. *)
  Definition sq_swap : M (sgdata * sgdata) unit :=
    (oo <- getS;;
     assert_ (pocs || Nat.eqb (sg_alloc oo.1) (sg_alloc oo.2));;
     (if pocs then
        putS (sg_set_alloc (sg_alloc oo.2) oo.1, sg_set_alloc (sg_alloc oo.1) oo.2)
      else ret tt);;
     modS sg_swap)%prog.
End segmented.

(** ** Algorithms of the standard library with segmented iterators *)
Section stdalgo.
  Context `{Env} `{SegSize}.
  Context {St : Type}.

  (** [std::find_if] over [n] elements from [x]: the iterator found (or the end),
      and the number of elements left from there. *)
  Fixpoint s_find_if (p : V -> bool) (x : sit) (n : nat) : M St (sit * nat) :=
    match n with
    | O => ret (x, O)
    | S n' =>
        b <- test_ p (it_deref x);;
        if b then ret (x, n)
        else y <- it_succ x;; s_find_if p y n'
    end%prog.
  (** The loop of [std::remove_if] after the first match. *)
  Fixpoint s_remove_loop (p : V -> bool) (d x : sit) (n : nat) : M St sit :=
    match n with
    | O => ret d
    | S n' =>
        b <- test_ p (it_deref x);;
        if b then y <- it_succ x;; s_remove_loop p d y n'
        else
          assign (it_deref d) (AMove (it_deref x));;
          d' <- it_succ d;;
          y <- it_succ x;;
          s_remove_loop p d' y n'
    end%prog.
  (** [std::remove_if(first, last, p)] and [std::remove]; see Vector.v. *)
  Definition s_remove_if (p : V -> bool) (first last : sit) : M St sit :=
    (n <- it_diff last first;;
     xk <- s_find_if p first (Z.to_nat n);;
     match xk.2 with
     | O => ret xk.1
     | S n' => y <- it_succ xk.1;; s_remove_loop p xk.1 y n'
     end)%prog.
  (** [std::equal] of [n] elements. *)
  Fixpoint s_equal (r : V -> V -> bool) (x y : sit) (n : nat) : M St bool :=
    match n with
    | O => ret true
    | S n' =>
        b <- test2_ r (it_deref x) (it_deref y);;
        if b then
          x' <- it_succ x;; y' <- it_succ y;; s_equal r x' y' n'
        else ret false
    end%prog.
  (** [std::lexicographical_compare] of [n] and [m] elements. *)
  Fixpoint s_lexcmp (lt : V -> V -> bool) (x : sit) (n : nat) (y : sit) (m : nat) : M St bool :=
    match n, m with
    | _, O => ret false
    | O, S _ => ret true
    | S n', S m' =>
        b <- test2_ lt (it_deref x) (it_deref y);;
        if b then ret true
        else
          c <- test2_ lt (it_deref y) (it_deref x);;
          if c then ret false
          else x' <- it_succ x;; y' <- it_succ y;; s_lexcmp lt x' n' y' m'
    end%prog.
End stdalgo.

Section free_functions.
  Context `{Env} `{SegSize}.
  (** v 1786-1806, d 2567-2587 [erase], [erase_if]; [erase_range] is that of the
      container. *)
  Definition sq_erase_if (erase_range : sit -> sit -> M sgdata sit) (p : V -> bool) : M sgdata Z :=
    (o <- getS;;
     it <- s_remove_if p (sg_first o) (sg_last o);;
     r <- it_diff (sg_last o) it;;
     erase_range it (sg_last o);;
     ret r)%prog.
  (** v 1710-1719, d 2491-2500 [operator==]; v 1732-1741, d 2513-2522 [operator<]. *)
  Definition sq_eq (r : V -> V -> bool) : M (sgdata * sgdata) bool :=
    (n1 <- on1 sq_size;;
     n2 <- on2 sq_size;;
     oo <- getS;;
     if n1 =? n2 then s_equal r (sg_first oo.1) (sg_first oo.2) (Z.to_nat n1) else ret false)%prog.
  Definition sq_lt (lt : V -> V -> bool) : M (sgdata * sgdata) bool :=
    (n1 <- on1 sq_size;;
     n2 <- on2 sq_size;;
     oo <- getS;;
     s_lexcmp lt (sg_first oo.1) (Z.to_nat n1) (sg_first oo.2) (Z.to_nat n2))%prog.
End free_functions.
