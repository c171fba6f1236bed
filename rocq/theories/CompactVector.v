(** * Model of sfl::compact_vector (include/sfl/compact_vector.hpp)

    Line numbers refer to include/sfl/compact_vector.hpp.

    A compact_vector has two pointers, [first_] and [last_] (50-66), and no
    [eos_]: its storage always holds exactly size() elements.  An object is a
    [vdata] whose component [v_eos] equals [v_last]; code shared with vector that
    mentions [v_eos] (giving back the old storage after a reallocation, swap, move
    construction) has [last_] in this header. *)

From Verif Require Export Vector SeqClient.
From Verif Require Import Client.
Open Scope Z_scope.

Section compact.
  Context `{Env}.

  (** [new_size = size() + n; if (new_size < size() || new_size > max_size()) throw],
      e.g. 516-521, 1335-1343, 1458-1466.  [new_size < size()] holds exactly if the
      sum does not fit [size_type]; see [compact_check] below. *)
  Definition compact_calc (size cap n : Z) : option Z :=
    if max_size <? size + n then None else Some (size + n).
  Lemma compact_check size n :
    0 <= size < 2 ^ 63 -> 0 <= n < 2 ^ 64 ->
    (wrap (size + n) <? size) || (max_size <? wrap (size + n)) = (max_size <? size + n).
  Proof.
    intros H1 H2. pose proof max_size_ok as Hm. unfold wrap.
    destruct (Z.lt_ge_cases (size + n) (2 ^ 64)) as [Hs|Hs].
    - rewrite Z.mod_small; [|lia]. destruct (Z.ltb_spec (size + n) size); [lia|done].
    - rewrite -(Z.mod_unique_pos (size + n) (2 ^ 64) 1 (size + n - 2 ^ 64)); [|lia..].
      destruct (Z.ltb_spec (size + n - 2 ^ 64) size); [|lia]. simpl. symmetry. apply Z.ltb_lt. lia.
  Qed.

  (** The storage is that of vector; only the size check differs. *)
  Definition compact_storage : storage := {|
    acquire := acquire vec_storage;
    release := release vec_storage;
    calc_cap := compact_calc;
    restock := restock vec_storage;
    init_acquire := init_acquire vec_storage;
    init_release := init_release vec_storage;
  |}.

  Definition set_storage (f l : loc) : M vdata unit := modS (with_storage f l l).

  (** 489-507 [clear]. *)
  Definition compact_clear : M vdata unit :=
    (o <- getS;;
     destroy_a (v_first o) (v_last o);;
     n <- ptr_sub (v_last o) (v_first o);;
     deallocate (v_alloc o) (v_first o) n;;
     set_storage null null)%prog.

  (** 509-608 [emplace]; 610-620 [insert] of one value. *)
  Definition compact_emplace (pos : loc) (a : arg) : M vdata loc :=
    (k <- offset_of pos;;
     new_size <- new_capacity compact_storage 1;;
     realloc_insert compact_storage k 1 new_size (fun p => construct p a) (fun p => destroy_at p))%prog.
  (** 642-656 [emplace_back], [push_back]. *)
  Definition compact_emplace_back (a : arg) : M vdata loc :=
    (o <- getS;; compact_emplace (v_last o) a)%prog.

  (** 1329-1432 [insert_fill_n]. *)
  Definition compact_insert_fill (pos : loc) (n : Z) (a : arg) : M vdata loc :=
    (o <- getS;;
     k <- offset_of pos;;
     if n =? 0 then ret (v_first o +ₗ k)
     else
       new_size <- new_capacity compact_storage n;;
       realloc_insert compact_storage k n new_size
         (fun p => uninitialized_fill_n_a p (Z.to_nat n) a;; ret tt)
         (fun p => destroy_n_a p (Z.to_nat n)))%prog.

  (** 1450-1536 [insert_range], forward iterators. *)
  Definition compact_insert_range (pos : loc) (srcs : list arg) : M vdata loc :=
    (o <- getS;;
     k <- offset_of pos;;
     if Nat.eqb (length srcs) 0 then ret (v_first o +ₗ k)
     else insert_range_realloc compact_storage k srcs)%prog.

  (** 1434-1448 [insert_range], input iterators. *)
  Fixpoint compact_insert_loop (pos : loc) (srcs : list arg) : M vdata unit :=
    match srcs with
    | [] => ret tt
    | a :: srcs' => p <- compact_emplace pos a;; compact_insert_loop (p +ₗ 1) srcs'
    end%prog.
  Definition compact_insert_input (pos : loc) (srcs : list arg) : M vdata loc :=
    (k <- offset_of pos;;
     compact_insert_loop pos srcs;;
     o <- getS;;
     ret (v_first o +ₗ k))%prog.

  (** The common frame of 670-742 [erase(first, last)] and 744-907 [resize]: new storage for
      [n] elements is filled by [mk], which records in the local variable how far
      it got; on an exception everything is undone. *)
  Definition rebuild (n : Z) (mk : loc -> M (vdata * loc) unit) : M vdata unit :=
    (o <- getS;;
     new_first <- allocate (v_alloc o) n;;
     new_last <- local_ new_first
       (try_ (mk new_first)
          (nl <- getl_;;
           destroy_a new_first nl;;
           lift_ (deallocate (v_alloc o) new_first n));;
        getl_);;
     destroy_a (v_first o) (v_last o);;
     size <- ptr_sub (v_last o) (v_first o);;
     deallocate (v_alloc o) (v_first o) size;;
     set_storage new_first new_last)%prog.

  (** 670-742 [erase(first, last)]. *)
  Definition compact_erase_range (first last : loc) : M vdata loc :=
    (o <- getS;;
     k1 <- offset_of first;;
     k2 <- offset_of last;;
     assert_ (k1 <=? k2);;
     if loc_eqb first last then ret (v_first o +ₗ k1)
     else
       size <- size_;;
       rebuild (size - (k2 - k1)) (fun new_first =>
         nl <- uninitialized_move_if_noexcept_a (v_first o) (v_first o +ₗ k1) new_first;;
         setl_ nl;;
         nl2 <- uninitialized_move_if_noexcept_a (v_first o +ₗ k2) (v_last o) nl;;
         setl_ nl2);;
       o' <- getS;;
       ret (v_first o' +ₗ k1))%prog.
  (** 664-668 [erase(pos)]. *)
  Definition compact_erase (pos : loc) : M vdata loc :=
    (o <- getS;;
     k <- offset_of pos;;
     assert_ (negb (loc_eqb pos (v_last o)));;
     compact_erase_range pos (pos +ₗ 1))%prog.
  (** 658-662 [pop_back]. *)
  Definition compact_pop_back : M vdata unit :=
    (o <- getS;;
     assert_ (negb (loc_eqb (v_first o) (v_last o)));;
     compact_erase (v_last o +ₗ -1);;
     ret tt)%prog.

  (** 744-824 [resize(n)] and 826-907 [resize(n, value)]; they differ in how new elements
      are created. *)
  Definition compact_resize (n : Z) (a : arg) : M vdata unit :=
    (size <- size_;;
     if n =? size then ret tt
     else
       check_size n;;
       o <- getS;;
       rebuild n (fun new_first =>
         if size <? n then
           nl <- uninitialized_move_if_noexcept_a (v_first o) (v_last o) new_first;;
           setl_ nl;;
           nl2 <- uninitialized_fill_n_a nl (Z.to_nat (n - size)) a;;
           setl_ nl2
         else
           nl <- uninitialized_move_if_noexcept_a (v_first o) (v_first o +ₗ n) new_first;;
           setl_ nl))%prog.

  (** The [emplace_back( *first)] loops of 1017-1021 and 1220-1224. *)
  Fixpoint compact_append (srcs : list arg) : M vdata unit :=
    match srcs with
    | [] => ret tt
    | a :: srcs' => compact_emplace_back a;; compact_append srcs'
    end%prog.

  (** 204-219 destructor, and the catch block 1023-1039. *)
  Definition compact_destructor : M vdata unit :=
    (o <- getS;;
     destroy_a (v_first o) (v_last o);;
     n <- ptr_sub (v_last o) (v_first o);;
     deallocate (v_alloc o) (v_first o) n)%prog.

  (** 1011-1041 [initialize_range], input iterators. *)
  Definition compact_init_input (srcs : list arg) : M vdata unit :=
    try_ (compact_append srcs) compact_destructor.

  (** 1170-1211 [assign_fill_n] and 1227-1273 [assign_range] (forward iterators).
      [undo n] is what the catch blocks 1206-1210 and 1267-1271 do; in the code it is
      [clear()], see [code_undo]. *)
  Section assign.
    Variable undo : Z -> M vdata unit.

    Definition compact_assign_fill (n : Z) (value : arg) : M vdata unit :=
      (check_size n;;
       size <- size_;;
       o <- getS;;
       if n =? size then fill (v_first o) (v_last o) value
       else
         compact_clear;;
         p <- allocate (v_alloc o) n;;
         set_storage p p;;
         try_ (nl <- uninitialized_fill_n_a p (Z.to_nat n) value;; set_storage p nl)
              (undo n))%prog.

    Definition compact_assign_range (srcs : list arg) : M vdata unit :=
      (let n := Z.of_nat (length srcs) in
       check_size n;;
       size <- size_;;
       o <- getS;;
       if n =? size then copy srcs (v_first o);; ret tt
       else
         compact_clear;;
         p <- allocate (v_alloc o) n;;
         set_storage p p;;
         try_ (nl <- uninitialized_copy_a srcs p;; set_storage p nl)
              (undo n))%prog.

    (** 1275-1295 [assign_copy], two different objects. *)
    Definition compact_assign_copy : M (vdata * vdata) unit :=
      (oo <- getS;;
       (if pocca then
          (if negb (Nat.eqb (v_alloc oo.1) (v_alloc oo.2))
           then on1 compact_clear else ret tt);;
          on1 (modS (with_alloc (v_alloc oo.2)))
        else ret tt);;
       srcs <- range ACopy (v_first oo.2) (v_last oo.2);;
       on1 (compact_assign_range srcs))%prog.

    (** 1297-1327 [assign_move], two different objects. *)
    Definition compact_assign_move : M (vdata * vdata) unit :=
      (oo <- getS;;
       (if pocma then
          (if negb (Nat.eqb (v_alloc oo.1) (v_alloc oo.2))
           then on1 compact_clear else ret tt);;
          on1 (modS (with_alloc (v_alloc oo.2)))
        else ret tt);;
       oo1 <- getS;;
       if Nat.eqb (v_alloc oo1.1) (v_alloc oo1.2) then
         on1 compact_clear;;
         oo2 <- getS;;
         putS (with_storage (v_first oo2.2) (v_last oo2.2) (v_eos oo2.2) oo2.1,
               with_storage null null null oo2.2)
       else
         srcs <- range AMove (v_first oo.2) (v_last oo.2);;
         on1 (compact_assign_range srcs))%prog.
  End assign.

  (** 1208, 1269: [clear()]. *)
  Definition code_undo (n : Z) : M vdata unit := compact_clear.

  (** 1214-1225 [assign_range], input iterators. *)
  Definition compact_assign_input (srcs : list arg) : M vdata unit :=
    (compact_clear;; compact_append srcs)%prog.

  (** 1297-1327 [assign_move] with [&other == this]. *)
  Definition compact_self_move : M vdata unit :=
    (compact_clear;;
     o <- getS;;
     set_storage (v_first o) (v_last o);;
     set_storage null null)%prog.

  (** 1618-1637 [erase], [erase_if]. *)
  Definition compact_erase_if (p : V -> bool) : M vdata Z :=
    (o <- getS;;
     it <- remove_if_ p (v_first o) (v_last o);;
     r <- ptr_sub (v_last o) it;;
     compact_erase_range it (v_last o);;
     ret r)%prog.

  (** Calls of the member functions.  [reserve] and [shrink_to_fit] do not exist.
      [at], [operator[]], [front], [back], [size] (376-470) have the same text as in vector;
      394-398 [capacity] is [last_ - first_]. *)
  Definition run_compact (undo : Z -> M vdata unit) (op : vop) : M vdata rval :=
    (o <- getS;;
     let pos (i : nat) := v_first o +ₗ Z.of_nat i in
     match op with
     | OEmplace i x => as_idx (compact_emplace (pos i) (arg_of o x))
     | OEmplaceBack x => as_idx (compact_emplace_back (arg_of o x))
     | OInsertN i n x => as_idx (compact_insert_fill (pos i) (Z.of_nat n) (arg_of o x))
     | OInsertRange i vs => as_idx (compact_insert_range (pos i) (AVal <$> vs))
     | OInsertInput i vs => as_idx (compact_insert_input (pos i) (AVal <$> vs))
     | OPopBack => as_unit compact_pop_back
     | OErase i => as_idx (compact_erase (pos i))
     | OEraseRange i j => as_idx (compact_erase_range (pos i) (pos j))
     | OResize n x => as_unit (compact_resize (Z.of_nat n) (arg_of o x))
     | OAssignN n v => as_unit (compact_assign_fill undo (Z.of_nat n) (AVal v))
     | OAssignRange vs => as_unit (compact_assign_range undo (AVal <$> vs))
     | OAssignInput vs => as_unit (compact_assign_input (AVal <$> vs))
     | OClear => as_unit compact_clear
     | OReserve _ | OShrink => as_unit (assert_ false)
     | OAt i => v <- at_ (Z.of_nat i);; ret (RVal v)
     | OGet i => as_val (index_ (Z.of_nat i))
     | OFront => as_val front_
     | OBack => as_val back_
     | OSet i v => as_unit (p <- index_ (Z.of_nat i);; assign p (AVal v))
     | OSize => as_num size_
     | OCapacity => as_num size_
     | OEraseIf p => as_num (compact_erase_if p)
     | OSelfMove => as_unit compact_self_move
     end)%prog.

  (** 112-172: constructors; 940-1009 and 1043-1081 [initialize_default_n],
      [initialize_fill_n], [initialize_range] have the text of vector. *)
  Definition compact_run_ctor (c : vctor) : M vdata unit :=
    match c with
    | KDefault _ => ret tt
    | KFill _ n None => init_fill_ compact_storage (Z.of_nat n) ADef
    | KFill _ n (Some v) => init_fill_ compact_storage (Z.of_nat n) (AVal v)
    | KRange _ vs => init_range_ compact_storage (AVal <$> vs)
    | KInput _ vs => compact_init_input (AVal <$> vs)
    end.

  (** 174-202 copy and move constructors, 1083-1168 [initialize_copy], [initialize_move]:
      the text of vector. *)
  Definition compact_build2 (c : vctor2) : M (vdata * vdata) unit := vec_build2 c.

  (** 909-936 [swap]; 1542-1573 [operator==], [operator<]: the text of vector. *)
  Definition compact_run2 (undo : Z -> M vdata unit) (o : vop2) : M (vdata * vdata) rval :=
    match o with
    | PCopy => unit_result (compact_assign_copy undo)
    | PMove => unit_result (compact_assign_move undo)
    | PSwap => unit_result vec_swap
    | PEq r => bool_result (eq_ r)
    | PLt lt => bool_result (lt_ lt)
    end.
End compact.
