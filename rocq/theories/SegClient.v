(** * Calls of the member functions of the segmented containers

    A call as a user writes it is turned into the model of the member function:
    positions become iterators [begin() + i], references to elements are obtained
    through iterators, returned iterators are measured from [begin()].  All of this
    is done by the iterator functions of the model. *)

From Verif Require Export SegSpec Segmented SeqClient Client.
Open Scope Z_scope.

Section client.
  Context `{Env} `{SegSize}.

  (** [begin() + i] *)
  Definition s_pos (i : nat) : M sgdata sit := (o <- getS;; it_add (sg_first o) (Z.of_nat i))%prog.
  Definition s_ref (i : nat) : M sgdata loc := (o <- getS;; it_index (sg_first o) (Z.of_nat i))%prog.
  Definition s_arg (x : xarg) : M sgdata arg :=
    match x with
    | XDef => ret ADef
    | XVal v => ret (AVal v)
    | XCopy j => p <- s_ref j;; ret (ACopy p)
    | XMove j => p <- s_ref j;; ret (AMove p)
    end%prog.
  Definition s_idx (m : M sgdata sit) : M sgdata rval :=
    (x <- m;; o <- getS;; k <- it_diff x (sg_first o);; ret (RIdx k))%prog.
  Definition s_unit (m : M sgdata unit) : M sgdata rval := (m;; ret RUnit)%prog.
  Definition s_val (m : M sgdata loc) : M sgdata rval := (p <- m;; v <- read p;; ret (RVal v))%prog.
  Definition s_num (m : M sgdata Z) : M sgdata rval := (z <- m;; ret (RNum z))%prog.
  (** The reference returned is compared with the address of element [i] as
      reached by iterators; -1 if it is another one. *)
  Definition s_is_ref (p : loc) (i : Z) : M sgdata rval :=
    (o <- getS;; q <- it_index (sg_first o) i;; ret (RIdx (if loc_eqb p q then i else -1)))%prog.
  Definition s_ref_back (m : M sgdata loc) : M sgdata rval :=
    (p <- m;; n <- sq_size;; s_is_ref p (n - 1))%prog.
  Definition s_ref_front (m : M sgdata loc) : M sgdata rval := (p <- m;; s_is_ref p 0)%prog.

  (** What size(), available_front() and capacity() say, for the guards: segments
      are allocated blocks, addresses in them begin with offset 0. *)
  Definition s_dist (x y : sit) : Z :=
    ((it_seg x).2 - (it_seg y).2) * SS + (it_loc x).2 - (it_loc y).2.
  Definition s_osize (o : sgdata) : nat := Z.to_nat (s_dist (sg_last o) (sg_first o)).

  (** Constructors with an object without storage as start: v 130-187, d 132-189
      ([initialize_empty]: v 1097-1100, d 1580-1583). *)
  Definition sq_ctor (ra : bool) (c : vctor) : M sgdata unit :=
    match c with
    | KDefault _ => sq_allocate_storage 0
    | KFill _ n None => sq_init_fill (Z.of_nat n) ADef
    | KFill _ n (Some v) => sq_init_fill (Z.of_nat n) (AVal v)
    | KRange _ vs => sq_init_range (Z.of_nat (length vs)) (SList ra (AVal <$> vs))
    | KInput _ vs => sq_init_input (AVal <$> vs)
    end.
  Definition sq_ctor2 (c : vctor2) : M (sgdata * sgdata) unit :=
    match c with
    | FromCopy => sq_copy_ctor
    | FromCopyAlloc a => sq_copy_ctor_alloc a
    | FromMove => sq_move_ctor
    | FromMoveAlloc a => sq_move_ctor_alloc a
    end.
  Definition sq_run2 (ar : source -> M sgdata unit) (o : vop2) : M (sgdata * sgdata) rval :=
    match o with
    | PCopy => unit_result (sq_assign_copy ar)
    | PMove => unit_result (sq_assign_move ar)
    | PSwap => unit_result sq_swap
    | PEq r => bool_result (sq_eq r)
    | PLt lt => bool_result (sq_lt lt)
    end.

  (** ** sfl::segmented_vector

      [ra]: iterator pairs passed to constructors and member functions are random
      access iterators ([true]) or other forward iterators ([false]). *)
  Context (ra : bool).

  Definition run_svop (op : vop) : M sgdata rval :=
    match op with
    | OEmplace i x => p <- s_pos i;; a <- s_arg x;; s_idx (sv_emplace p a)
    | OEmplaceBack x => a <- s_arg x;; s_ref_back (sq_emplace_back a)
    | OInsertN i n x => p <- s_pos i;; a <- s_arg x;; s_idx (sv_insert_fill p (Z.of_nat n) a)
    | OInsertRange i vs => p <- s_pos i;; s_idx (sv_insert_range p (SList ra (AVal <$> vs)))
    | OInsertInput i vs => p <- s_pos i;; s_idx (sq_insert_input sv_emplace sv_nth p (AVal <$> vs))
    | OPopBack => s_unit sq_pop_back
    | OErase i => p <- s_pos i;; s_idx (sv_erase p)
    | OEraseRange i j => p <- s_pos i;; q <- s_pos j;; s_idx (sv_erase_range p q)
    | OResize n x => a <- s_arg x;; s_unit (sv_resize (Z.of_nat n) a)
    | OAssignN n v => s_unit (sv_assign_fill (Z.of_nat n) (AVal v))
    | OAssignRange vs => s_unit (sv_assign_range (SList ra (AVal <$> vs)))
    | OAssignInput vs => s_unit (sq_assign_input (AVal <$> vs))
    | OClear => s_unit sq_clear
    | OReserve n => s_unit (sv_reserve (Z.of_nat n))
    | OShrink => s_unit sv_shrink
    | OAt i => v <- sv_at (Z.of_nat i);; ret (RVal v)
    | OGet i => s_val (sv_index (Z.of_nat i))
    | OFront => s_val sq_get_front
    | OBack => s_val sq_get_back
    | OSet i v => s_unit (p <- s_ref i;; assign p (AVal v))
    | OSize => s_num sq_size
    | OCapacity => s_num sq_capacity
    | OEraseIf p => s_num (sq_erase_if sv_erase_range p)
    | OSelfMove => s_unit sq_assign_move_self
    end%prog.

  Definition segvec : container := {|
    obj := sgdata;
    rv := rval;
    ctor := vctor;
    cguard := fun _ => true;
    build := fun c => construct_obj (sg_fresh (k_alloc c)) (sq_ctor ra c);
    ctor2 := vctor2;
    cguard2 := fun _ _ => true;
    build2 := fun c => construct_from (sg_fresh 0) (sq_ctor2 c);
    op1 := vop;
    guard1 := fun o x => sv_pre o (s_osize x);
    run1 := run_svop;
    op2 := vop2;
    guard2 := fun o x y =>
      match o with PSwap => Nat.eqb (sg_alloc x) (sg_alloc y) | _ => true end;
    run2 := sq_run2 sv_assign_range;
    kill := sq_destructor;
  |}.

  (** The specification of sfl::segmented_vector. *)
  Definition segvec_spec : cspec segvec := {|
    abs := sabs;
    cpre := fun _ => True;
    cpost := sv_k_post : ctor segvec -> _;
    cexn := fun c e => k_exn (k_elems c) e;
    cpre2 := fun _ _ => True;
    cpost2 := sv_k2_post : ctor2 segvec -> _;
    cexn2 := sv_k2_exn : ctor2 segvec -> _;
    pre1 := fun (o : op1 segvec) A => sv_pre o (length (s_elems A)) = true;
    post1 := fun (o : op1 segvec) A (r : rv segvec) A' =>
      seq_post 0 o (s_elems A) r (s_elems A') /\ s_alloc A' = s_alloc A /\ sv_storage o A A' /\
      (o = OCapacity -> r = RNum (s_cap A));
    exn1 := sv_exn : op1 segvec -> _;
    pre2 := sv_pre2 : op2 segvec -> _;
    post2 := sv_post2 true : op2 segvec -> _ -> _ -> rv segvec -> _;
    exn2 := sv_exn2 : op2 segvec -> _;
  |}.
End client.
