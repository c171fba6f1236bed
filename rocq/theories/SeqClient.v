(** * Calls of the member functions of the sequence containers

    [run_vop] turns a call as a user writes it ([SeqSpec.vop]) into the model of
    the member function: positions become iterators [begin() + i], references to
    elements become addresses, returned iterators are measured from [begin()]. *)

From Verif Require Export SeqSpec Vector.
Open Scope Z_scope.

Section client.
  Context `{Env}.

  (** Members whose code differs between the containers. *)
  Record special := Special {
    sp_reserve : Z -> M vdata unit;
    sp_shrink : M vdata unit;
    sp_self_move : M vdata unit;
  }.

  (** [capacity()] as a result: also part of the abstract state. *)
  Definition as_idx (m : M vdata loc) : M vdata rval :=
    (p <- m;; o <- getS;; k <- ptr_sub p (v_first o);; ret (RIdx k))%prog.
  Definition as_unit (m : M vdata unit) : M vdata rval := (m;; ret RUnit)%prog.
  Definition as_val (m : M vdata loc) : M vdata rval := (p <- m;; v <- read p;; ret (RVal v))%prog.
  Definition as_num (m : M vdata Z) : M vdata rval := (z <- m;; ret (RNum z))%prog.

  Definition arg_of (o : vdata) (x : xarg) : arg :=
    match x with
    | XDef => ADef
    | XVal v => AVal v
    | XCopy j => ACopy (v_first o +ₗ Z.of_nat j)
    | XMove j => AMove (v_first o +ₗ Z.of_nat j)
    end.

  Definition run_vop (st : storage) (sp : special) (op : vop) : M vdata rval :=
    (o <- getS;;
     let pos (i : nat) := v_first o +ₗ Z.of_nat i in
     match op with
     | OEmplace i x => as_idx (emplace_ st (pos i) (arg_of o x))
     | OEmplaceBack x => as_idx (emplace_back_ st (arg_of o x))
     | OInsertN i n x => as_idx (insert_fill_ st (pos i) (Z.of_nat n) (arg_of o x))
     | OInsertRange i vs => as_idx (insert_range_ st (pos i) (AVal <$> vs))
     | OInsertInput i vs => as_idx (insert_input_ st (pos i) (AVal <$> vs))
     | OPopBack => as_unit pop_back_
     | OErase i => as_idx (erase_ (pos i))
     | OEraseRange i j => as_idx (erase_range_ (pos i) (pos j))
     | OResize n x => as_unit (resize_ st (Z.of_nat n) (arg_of o x))
     | OAssignN n v => as_unit (assign_fill_ st (Z.of_nat n) (AVal v))
     | OAssignRange vs => as_unit (assign_range_ st (AVal <$> vs))
     | OAssignInput vs => as_unit (assign_input_ st (AVal <$> vs))
     | OClear => as_unit clear_
     | OReserve n => as_unit (sp_reserve sp (Z.of_nat n))
     | OShrink => as_unit (sp_shrink sp)
     | OAt i => v <- at_ (Z.of_nat i);; ret (RVal v)
     | OGet i => as_val (index_ (Z.of_nat i))
     | OFront => as_val front_
     | OBack => as_val back_
     | OSet i v => as_unit (p <- index_ (Z.of_nat i);; assign p (AVal v))
     | OSize => as_num size_
     | OCapacity => as_num capacity_
     | OEraseIf p => as_num (erase_if_ p)
     | OSelfMove => as_unit (sp_self_move sp)
     end)%prog.

  (** [size()] of an object, for the guard. *)
  Definition osize (o : vdata) : nat := Z.to_nat ((v_last o).2 - (v_first o).2).

  (** Construction of an object [o] by a program. *)
  Definition construct_obj {O} (o : O) (m : M O unit) : M unit O := fun _ w =>
    match m o w with
    | Ok _ o' w' => Ok o' tt w'
    | Exn e _ w' => Exn e tt w'
    | UB => UB
    end.
  (** ... from a source object, which is the state. *)
  Definition construct_from {O} (o : O) (m : M (O * O) unit) : M O O := fun src w =>
    match m (o, src) w with
    | Ok _ (o', src') w' => Ok o' src' w'
    | Exn e (_, src') w' => Exn e src' w'
    | UB => UB
    end.

  (** v 113-165 and s 150-214: constructors with the empty object as start. *)
  Definition run_ctor (st : storage) (c : vctor) : M vdata unit :=
    match c with
    | KDefault _ => ret tt
    | KFill _ n None => init_fill_ st (Z.of_nat n) ADef
    | KFill _ n (Some v) => init_fill_ st (Z.of_nat n) (AVal v)
    | KRange _ vs => init_range_ st (AVal <$> vs)
    | KInput _ vs => init_input_ st (AVal <$> vs)
    end.
End client.

(** ** sfl::vector *)
From Verif Require Import Client.

Section vector_client.
  Context `{Env}.

  Definition vec_special : special := {|
    sp_reserve := vec_reserve;
    sp_shrink := vec_shrink_to_fit;
    sp_self_move := vec_assign_move_self;
  |}.
  Definition bool_result {St} (m : M St bool) : M St rval := (b <- m;; ret (RBool b))%prog.
  Definition unit_result {St} (m : M St unit) : M St rval := (m;; ret RUnit)%prog.

  Definition vec_run2 (o : vop2) : M (vdata * vdata) rval :=
    match o with
    | PCopy => unit_result vec_assign_copy
    | PMove => unit_result vec_assign_move
    | PSwap => unit_result vec_swap
    | PEq r => bool_result (eq_ r)
    | PLt lt => bool_result (lt_ lt)
    end.
  Definition vec_build2 (c : vctor2) : M (vdata * vdata) unit :=
    match c with
    | FromCopy => vec_copy_ctor
    | FromCopyAlloc a => vec_copy_ctor_alloc a
    | FromMove => vec_move_ctor
    | FromMoveAlloc a => vec_move_ctor_alloc a
    end.

  Definition vector : container := {|
    obj := vdata;
    rv := rval;
    ctor := vctor;
    cguard := fun _ => true;
    build := fun c => construct_obj (vec_empty (k_alloc c)) (run_ctor vec_storage c);
    ctor2 := vctor2;
    cguard2 := fun _ _ => true;
    build2 := fun c => construct_from (vec_empty 0) (vec_build2 c);
    op1 := vop;
    guard1 := fun o x => seq_pre o (osize x);
    run1 := run_vop vec_storage vec_special;
    op2 := vop2;
    guard2 := fun o x y =>
      match o with PSwap => pocs || Nat.eqb (v_alloc x) (v_alloc y) | _ => true end;
    run2 := vec_run2;
    kill := destructor_ vec_storage;
  |}.

  (** The specification of sfl::vector. *)
  Definition vector_spec : cspec vector := {|
    abs := vabs;
    cpre := fun _ => True;
    cpost := k_post 0 : ctor vector -> _;
    cexn := fun c e => k_exn (k_elems c) e;
    cpre2 := fun _ _ => True;
    cpost2 := vec_k2_post : ctor2 vector -> _;
    cexn2 := vec_k2_exn : ctor2 vector -> _;
    pre1 := fun o A => seq_pre o (length (q_elems A)) = true;
    post1 := fun (o : op1 vector) A (r : rv vector) A' =>
      seq_post 0 o (q_elems A) r (q_elems A') /\ q_alloc A' = q_alloc A /\ seq_storage 0 o A A' /\
      (o = OCapacity -> r = RNum (q_cap A));
    exn1 := seq_exn 0 : op1 vector -> _;
    pre2 := vec_pre2 : op2 vector -> _;
    post2 := vec_post2 : op2 vector -> _ -> _ -> rv vector -> _;
    exn2 := vec_exn2 : op2 vector -> _;
  |}.
End vector_client.
