(** * Model of sfl::static_vector (include/sfl/static_vector.hpp)

    The in-place code shared with vector and small_vector is in Contig.v.  Line
    numbers refer to include/sfl/static_vector.hpp.

    An object is [sobj]: the address of the array [first_] (62-82) and a [vdata]
    whose [v_first] is that address, whose [v_eos] is the constant end of the array
    and whose allocator is unused.  The functions of private.hpp without an
    allocator argument (2213-2369) have the same text as those with one, except
    that elements are created by placement new; both are modelled by the same
    definitions. *)

From Verif Require Export SmallVector SeqClient.
From Verif Require Import Client.
Open Scope Z_scope.

Section static.
  Context `{Env}.
  Variable N : nat.
  Notation NZ := (Z.of_nat N).

  (** 73-75: the constructor of [data]. *)
  Definition static_empty (ib : loc) : vdata := Vec 0 ib ib (ib +ₗ NZ).

  (** 451-455 [full]. *)
  Definition full_ : M vdata bool := (n <- size_;; ret (n =? NZ))%prog.
  (** 475-479 [available]. *)
  Definition static_available : M vdata Z := (n <- size_;; ret (NZ - n))%prog.

  (** 571-618 [emplace]; 620-628 [insert] of one value. *)
  Definition static_emplace (pos : loc) (a : arg) : M vdata loc :=
    (b <- full_;; assert_ (negb b);; emplace_inplace pos a)%prog.
  (** 798-811 [emplace_back]; 813-821 [push_back]. *)
  Definition static_emplace_back (a : arg) : M vdata loc :=
    (b <- full_;; assert_ (negb b);; emplace_back_inplace a)%prog.

  (** 630-701 [insert(pos, n, value)]. *)
  Definition static_insert_fill (pos : loc) (n : Z) (a : arg) : M vdata loc :=
    (av <- static_available;;
     assert_ (n <=? av);;
     o <- getS;;
     k <- offset_of pos;;
     if n =? 0 then ret (v_first o +ₗ k) else insert_fill_inplace pos n a)%prog.

  (** 719-792 [insert(pos, first, last)], forward iterators. *)
  Definition static_insert_range (pos : loc) (srcs : list arg) : M vdata loc :=
    (av <- static_available;;
     assert_ (Z.of_nat (length srcs) <=? av);;
     o <- getS;;
     k <- offset_of pos;;
     if Nat.eqb (length srcs) 0 then ret (v_first o +ₗ k) else insert_range_inplace pos srcs)%prog.

  (** 703-715 [insert(pos, first, last)], input iterators. *)
  Fixpoint static_insert_loop (pos : loc) (srcs : list arg) : M vdata unit :=
    match srcs with
    | [] => ret tt
    | a :: srcs' => p <- static_emplace pos a;; static_insert_loop (p +ₗ 1) srcs'
    end%prog.
  Definition static_insert_input (pos : loc) (srcs : list arg) : M vdata loc :=
    (k <- offset_of pos;;
     static_insert_loop pos srcs;;
     o <- getS;;
     ret (v_first o +ₗ k))%prog.

  (** 866-955 [resize(n)], [resize(n, default_init)], [resize(n, value)]. *)
  Definition static_resize (n : Z) (a : arg) : M vdata unit :=
    (assert_ (n <=? NZ);;
     size <- size_;;
     o <- getS;;
     if n <? size then truncate n
     else if size <? n then
       nl <- uninitialized_fill_n_a (v_last o) (Z.to_nat (n - size)) a;;
       set_last nl
     else ret tt)%prog.

  (** 191-232 [assign(n, value)]. *)
  Definition static_assign_fill (n : Z) (value : arg) : M vdata unit :=
    (assert_ (n <=? NZ);; assign_fill_inplace n value)%prog.
  (** 263-308 [assign(first, last)], forward iterators. *)
  Definition static_assign_range (srcs : list arg) : M vdata unit :=
    (assert_ (Z.of_nat (length srcs) <=? NZ);; assign_range_inplace srcs)%prog.
  (** The [emplace_back( *first)] loops of 131-135 and 250-255. *)
  Fixpoint static_append (srcs : list arg) : M vdata unit :=
    match srcs with
    | [] => ret tt
    | a :: srcs' => static_emplace_back a;; static_append srcs'
    end%prog.
  (** 234-261 [assign(first, last)], input iterators. *)
  Definition static_assign_input (srcs : list arg) : M vdata unit :=
    (o <- getS;;
     cr <- assign_input_loop (v_first o) (v_last o) srcs;;
     match cr.2 with
     | [] =>
         if loc_eqb cr.1 (v_last o) then ret tt
         else destroy_a cr.1 (v_last o);; set_last cr.1
     | rest => static_append rest
     end)%prog.

  (** 328-336 move assignment with [&other == this]. *)
  Definition static_self_move : M vdata unit :=
    (o <- getS;;
     srcs <- range AMove (v_first o) (v_last o);;
     static_assign_range srcs)%prog.

  (** 88-89 default constructor, 91-122 [static_vector(n)], [(n, default_init)], [(n, value)]. *)
  Definition static_init_fill (n : Z) (a : arg) : M vdata unit :=
    (assert_ (n <=? NZ);;
     o <- getS;;
     nl <- uninitialized_fill_n_a (v_first o) (Z.to_nat n) a;;
     set_last nl)%prog.
  (** 145-161 [static_vector(first, last)], forward iterators; initializer_list. *)
  Definition static_init_range (srcs : list arg) : M vdata unit :=
    (assert_ (Z.of_nat (length srcs) <=? NZ);;
     o <- getS;;
     nl <- uninitialized_copy_a srcs (v_first o);;
     set_last nl)%prog.
  (** 182-185 destructor. *)
  Definition static_destructor : M vdata unit :=
    (o <- getS;; destroy_a (v_first o) (v_last o))%prog.
  (** 124-143 [static_vector(first, last)], input iterators. *)
  Definition static_init_input (srcs : list arg) : M vdata unit :=
    try_ (static_append srcs) static_destructor.

  (** 163-171 copy constructor and 173-180 move constructor; object 1 is fresh. *)
  Definition static_copy_ctor : M (vdata * vdata) unit :=
    (oo <- getS;;
     srcs <- range ACopy (v_first oo.2) (v_last oo.2);;
     nl <- uninitialized_copy_a srcs (v_first oo.1);;
     on1 (set_last nl))%prog.
  Definition static_move_ctor : M (vdata * vdata) unit :=
    (oo <- getS;;
     nl <- uninitialized_move_a (v_first oo.2) (v_last oo.2) (v_first oo.1);;
     on1 (set_last nl))%prog.

  (** 315-326 copy assignment and 328-336 move assignment, two different objects. *)
  Definition static_assign_copy : M (vdata * vdata) unit :=
    (oo <- getS;;
     srcs <- range ACopy (v_first oo.2) (v_last oo.2);;
     on1 (static_assign_range srcs))%prog.
  Definition static_assign_move : M (vdata * vdata) unit :=
    (oo <- getS;;
     srcs <- range AMove (v_first oo.2) (v_last oo.2);;
     on1 (static_assign_range srcs))%prog.

  (** 957-1014 [swap], two different objects: the text is that of the first case of
      small_vector::swap. *)
  Definition static_swap : M (vdata * vdata) unit := small_swap_internal.

  (** Calls of the member functions.  [reserve] and [shrink_to_fit] do not exist. *)
  Definition run_static (op : vop) : M vdata rval :=
    (o <- getS;;
     let pos (i : nat) := v_first o +ₗ Z.of_nat i in
     match op with
     | OEmplace i x => as_idx (static_emplace (pos i) (arg_of o x))
     | OEmplaceBack x => as_idx (static_emplace_back (arg_of o x))
     | OInsertN i n x => as_idx (static_insert_fill (pos i) (Z.of_nat n) (arg_of o x))
     | OInsertRange i vs => as_idx (static_insert_range (pos i) (AVal <$> vs))
     | OInsertInput i vs => as_idx (static_insert_input (pos i) (AVal <$> vs))
     | OPopBack => as_unit pop_back_
     | OErase i => as_idx (erase_ (pos i))
     | OEraseRange i j => as_idx (erase_range_ (pos i) (pos j))
     | OResize n x => as_unit (static_resize (Z.of_nat n) (arg_of o x))
     | OAssignN n v => as_unit (static_assign_fill (Z.of_nat n) (AVal v))
     | OAssignRange vs => as_unit (static_assign_range (AVal <$> vs))
     | OAssignInput vs => as_unit (static_assign_input (AVal <$> vs))
     | OClear => as_unit clear_
     | OReserve _ | OShrink => as_unit (assert_ false)
     | OAt i => v <- at_ (Z.of_nat i);; ret (RVal v)
     | OGet i => as_val (index_ (Z.of_nat i))
     | OFront => as_val front_
     | OBack => as_val back_
     | OSet i v => as_unit (p <- index_ (Z.of_nat i);; assign p (AVal v))
     | OSize => as_num size_
     | OCapacity => ret (RNum NZ)   (* 469-473 *)
     | OEraseIf p => as_num (erase_if_ p)
     | OSelfMove => as_unit static_self_move
     end)%prog.

  Definition static_run2 (o : vop2) : M (sobj * sobj) rval :=
    match o with
    | PCopy => unit_result (member2 (fun _ _ => static_assign_copy))
    | PMove => unit_result (member2 (fun _ _ => static_assign_move))
    | PSwap => unit_result (member2 (fun _ _ => static_swap))
    | PEq r => bool_result (member2 (fun _ _ => eq_ r))
    | PLt lt => bool_result (member2 (fun _ _ => lt_ lt))
    end.
End static.
