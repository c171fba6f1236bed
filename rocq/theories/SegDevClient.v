(** * Calls of the member functions of sfl::segmented_devector *)

From Verif Require Export SegDevSpec SegClient.
Open Scope Z_scope.

Section client.
  Context `{Env} `{SegSize} (ra : bool).

  (** available_front() and capacity(), for the guards. *)
  Definition s_ogeom (o : sgdata) : geom :=
    Geom (s_dist (sg_first o) (sg_bos o)) (s_dist (sg_last o) (sg_first o)) (s_dist (sg_eos o) (sg_bos o)).

  Definition run_sdop (op : dop) : M sgdata rval :=
    match op with
    | DEmplace i x => p <- s_pos i;; a <- s_arg x;; s_idx (sd_emplace p a)
    | DEmplaceFront x => a <- s_arg x;; s_ref_front (sd_emplace_front a)
    | DEmplaceBack x => a <- s_arg x;; s_ref_back (sq_emplace_back a)
    | DInsertN i n x => p <- s_pos i;; a <- s_arg x;; s_idx (sd_insert_fill p (Z.of_nat n) a)
    | DInsertRange i vs => p <- s_pos i;; s_idx (sd_insert_range p (SList ra (AVal <$> vs)))
    | DInsertInput i vs => p <- s_pos i;; s_idx (sq_insert_input sd_emplace sd_nth p (AVal <$> vs))
    | DPopFront => s_unit sd_pop_front
    | DPopBack => s_unit sq_pop_back
    | DErase i => p <- s_pos i;; s_idx (sd_erase p)
    | DEraseRange i j => p <- s_pos i;; q <- s_pos j;; s_idx (sd_erase_range p q)
    | DResize n x => a <- s_arg x;; s_unit (sd_resize (Z.of_nat n) a)
    | DResizeFront n x => a <- s_arg x;; s_unit (sd_resize_front (Z.of_nat n) a)
    | DResizeBack n x => a <- s_arg x;; s_unit (sd_resize_back (Z.of_nat n) a)
    | DAssignN n v => s_unit (sd_assign_fill (Z.of_nat n) (AVal v))
    | DAssignRange vs => s_unit (sd_assign_range (SList ra (AVal <$> vs)))
    | DAssignInput vs => s_unit (sq_assign_input (AVal <$> vs))
    | DClear => s_unit sq_clear
    | DReserveFront n => s_unit (sd_reserve_front (Z.of_nat n))
    | DReserveBack n => s_unit (sd_reserve_back (Z.of_nat n))
    | DShrink => s_unit sd_shrink
    | DAt i => v <- sd_at (Z.of_nat i);; ret (RVal v)
    | DGet i => s_val (sd_index (Z.of_nat i))
    | DFront => s_val sq_get_front
    | DBack => s_val sq_get_back
    | DSet i v => s_unit (p <- s_ref i;; assign p (AVal v))
    | DSize => s_num sq_size
    | DCapacity => s_num sq_capacity
    | DRoomFront => s_num sq_front_room
    | DRoomBack => s_num sq_back_room
    | DEraseIf p => s_num (sq_erase_if sd_erase_range p)
    | DSelfMove => s_unit sq_assign_move_self
    end%prog.

  Definition segdev : container := {|
    obj := sgdata;
    rv := rval;
    ctor := vctor;
    cguard := fun _ => true;
    build := fun c => construct_obj (sg_fresh (k_alloc c)) (sq_ctor ra c);
    ctor2 := vctor2;
    cguard2 := fun _ _ => true;
    build2 := fun c => construct_from (sg_fresh 0) (sq_ctor2 c);
    op1 := dop;
    guard1 := fun o x => sd_pre o (s_ogeom x);
    run1 := run_sdop;
    op2 := vop2;
    guard2 := fun o x y =>
      match o with PSwap => Nat.eqb (sg_alloc x) (sg_alloc y) | _ => true end;
    run2 := sq_run2 sd_assign_range;
    kill := sq_destructor;
  |}.

  (** The specification of sfl::segmented_devector. *)
  Definition segdev_spec : cspec segdev := {|
    abs := sabs;
    cpre := fun _ => True;
    cpost := sv_k_post : ctor segdev -> _;
    cexn := fun c e => k_exn (k_elems c) e;
    cpre2 := fun _ _ => True;
    cpost2 := sv_k2_post : ctor2 segdev -> _;
    cexn2 := sv_k2_exn : ctor2 segdev -> _;
    pre1 := fun (o : op1 segdev) A => sd_pre o (sd_geom A) = true;
    post1 := fun (o : op1 segdev) A (r : rv segdev) A' =>
      dev_post o (sd_geom A) (s_elems A) r (s_elems A') /\ s_alloc A' = s_alloc A /\ sd_storage o A A';
    exn1 := sd_exn : op1 segdev -> _;
    pre2 := sv_pre2 : op2 segdev -> _;
    post2 := sv_post2 false : op2 segdev -> _ -> _ -> rv segdev -> _;
    exn2 := sv_exn2 : op2 segdev -> _;
  |}.
End client.
