(** * Calls of the member functions of sfl::devector

    [run_dop] turns a call as a user writes it ([DevSpec.dop]) into the model of
    the member function.  [fixed] chooses between the code as it is ([false]) and
    the code with three corrections ([true], see Devector.v). *)

From Verif Require Export DevSpec Devector SeqClient Client.
Open Scope Z_scope.

Section client.
  Context `{Env} (fixed : bool).

  Definition d_idx (m : M ddata loc) : M ddata rval :=
    (p <- m;; o <- getS;; k <- ptr_sub p (d_first o);; ret (RIdx k))%prog.
  Definition d_unit (m : M ddata unit) : M ddata rval := (m;; ret RUnit)%prog.
  Definition d_val (m : M ddata loc) : M ddata rval := (p <- m;; v <- read p;; ret (RVal v))%prog.
  Definition d_num (m : M ddata Z) : M ddata rval := (z <- m;; ret (RNum z))%prog.
  Definition d_arg (o : ddata) (x : xarg) : arg :=
    match x with
    | XDef => ADef
    | XVal v => AVal v
    | XCopy j => ACopy (d_first o +ₗ Z.of_nat j)
    | XMove j => AMove (d_first o +ₗ Z.of_nat j)
    end.

  Definition run_dop (op : dop) : M ddata rval :=
    (o <- getS;;
     let pos (i : nat) := d_first o +ₗ Z.of_nat i in
     match op with
     | DEmplace i x => d_idx (dv_emplace fixed (pos i) (d_arg o x))
     | DEmplaceFront x => d_idx (dv_emplace_front fixed (d_arg o x))
     | DEmplaceBack x => d_idx (dv_emplace_back fixed (d_arg o x))
     | DInsertN i n x => d_idx (dv_insert_fill fixed (pos i) (Z.of_nat n) (d_arg o x))
     | DInsertRange i vs => d_idx (dv_insert_range fixed (pos i) (AVal <$> vs))
     | DInsertInput i vs => d_idx (dv_insert_input fixed (pos i) (AVal <$> vs))
     | DPopFront => d_unit dv_pop_front
     | DPopBack => d_unit dv_pop_back
     | DErase i => d_idx (dv_erase (pos i))
     | DEraseRange i j => d_idx (dv_erase_range (pos i) (pos j))
     | DResize n x => d_unit (dv_resize (Z.of_nat n) (d_arg o x))
     | DResizeFront n x => d_unit (dv_resize_front (Z.of_nat n) (d_arg o x))
     | DResizeBack n x => d_unit (dv_resize_back (Z.of_nat n) (d_arg o x))
     | DAssignN n v => d_unit (dv_assign_fill (Z.of_nat n) (AVal v))
     | DAssignRange vs => d_unit (dv_assign_range (AVal <$> vs))
     | DAssignInput vs => d_unit (dv_assign_input fixed (AVal <$> vs))
     | DClear => d_unit dv_clear
     | DReserveFront n => d_unit (dv_reserve_front (Z.of_nat n))
     | DReserveBack n => d_unit (dv_reserve_back (Z.of_nat n))
     | DShrink => d_unit dv_shrink
     | DAt i => v <- dv_at (Z.of_nat i);; ret (RVal v)
     | DGet i => d_val (dv_index (Z.of_nat i))
     | DFront => d_val dv_get_front
     | DBack => d_val dv_get_back
     | DSet i v => d_unit (p <- dv_index (Z.of_nat i);; assign p (AVal v))
     | DSize => d_num dv_size
     | DCapacity => d_num dv_capacity
     | DRoomFront => d_num dv_front_room
     | DRoomBack => d_num dv_back_room
     | DEraseIf p => d_num (dv_erase_if p)
     | DSelfMove => d_unit (dv_assign_move_self fixed)
     end)%prog.

  (** What size(), available_front() and capacity() say, for the guards. *)
  Definition ogeom (o : ddata) : geom :=
    Geom ((d_first o).2 - (d_bos o).2) ((d_last o).2 - (d_first o).2) ((d_eos o).2 - (d_bos o).2).

  (** 109-180 constructors. *)
  Definition dv_ctor (c : vctor) : M ddata unit :=
    match c with
    | KDefault _ => ret tt
    | KFill _ n None => dv_init_fill (Z.of_nat n) ADef
    | KFill _ n (Some v) => dv_init_fill (Z.of_nat n) (AVal v)
    | KRange _ vs => dv_init_range (AVal <$> vs)
    | KInput _ vs => dv_init_input fixed (AVal <$> vs)
    end.
  Definition dv_ctor2 (c : vctor2) : M (ddata * ddata) unit :=
    match c with
    | FromCopy => dv_copy_ctor
    | FromCopyAlloc a => dv_copy_ctor_alloc a
    | FromMove => dv_move_ctor
    | FromMoveAlloc a => dv_move_ctor_alloc a
    end.
  Definition dv_run2 (o : vop2) : M (ddata * ddata) rval :=
    match o with
    | PCopy => unit_result (dv_assign_copy fixed)
    | PMove => unit_result (dv_assign_move fixed)
    | PSwap => unit_result dv_swap
    | PEq r => bool_result (dv_eq r)
    | PLt lt => bool_result (dv_lt lt)
    end.
  (** The guard of a function of two objects. *)
  Definition dv_guard2 (o : vop2) (x y : ddata) : bool :=
    let same := Nat.eqb (d_alloc x) (d_alloc y) in
    let flush := fixed || (g_front (ogeom x) =? 0) in
    match o with
    | PSwap => pocs || same
    | PCopy => negb pocca || same || flush
    | PMove => negb (pocma || same) || flush
    | _ => true
    end.

  Definition devector : container := {|
    obj := ddata;
    rv := rval;
    ctor := vctor;
    cguard := fun _ => true;
    build := fun c => construct_obj (dev_empty (k_alloc c)) (dv_ctor c);
    ctor2 := vctor2;
    cguard2 := fun _ _ => true;
    build2 := fun c => construct_from (dev_empty 0) (dv_ctor2 c);
    op1 := dop;
    guard1 := fun o x => dev_doc o (ogeom x) && (fixed || negb (dev_hazard o (ogeom x)));
    run1 := run_dop;
    op2 := vop2;
    guard2 := dv_guard2;
    run2 := dv_run2;
    kill := dv_destructor;
  |}.

  (** The specification.  For the code as it is, calls the findings are about
      are excluded. *)
  Definition devector_spec : cspec devector := {|
    abs := dabs;
    cpre := fun _ => True;
    cpost := dev_k_post : ctor devector -> _;
    cexn := dev_k_exn : ctor devector -> _;
    cpre2 := fun _ _ => True;
    cpost2 := dev_k2_post : ctor2 devector -> _;
    cexn2 := dev_k2_exn : ctor2 devector -> _;
    pre1 := fun (o : op1 devector) A =>
      dev_doc o (geom_of A) = true /\ (fixed = false -> dev_hazard o (geom_of A) = false);
    post1 := fun (o : op1 devector) A (r : rv devector) A' =>
      dev_post o (geom_of A) (e_elems A) r (e_elems A') /\ e_alloc A' = e_alloc A /\
      dev_storage_post o A A';
    exn1 := dev_exn : op1 devector -> _;
    pre2 := fun (o : op2 devector) A B =>
      dev_pre2 o A B /\ (fixed = false -> ~ dev_hazard2 o A B);
    post2 := dev_post2 : op2 devector -> _ -> _ -> rv devector -> _;
    exn2 := dev_exn2 : op2 devector -> _;
  |}.
End client.
