(** * sfl::small_vector<T, N> as seen by its clients *)

From Verif Require Export SeqClient SmallVector SmallSpec.
From Verif Require Import Client.
Open Scope Z_scope.

Section small_client.
  Context `{Env}.
  Variable N : nat.

  Definition small_special (ib : loc) : special :=
    Special (small_reserve N ib) (small_shrink_to_fit N ib) (small_assign_move_self N ib).

  Definition small_run2 (o : vop2) : M (sobj * sobj) rval :=
    match o with
    | PCopy => unit_result (member2 (small_assign_copy N))
    | PMove => unit_result (member2 (small_assign_move N))
    | PSwap => unit_result (member2 (small_swap N))
    | PEq r => bool_result (member2 (fun _ _ => eq_ r))
    | PLt lt => bool_result (member2 (fun _ _ => lt_ lt))
    end.
  Definition small_build2 (c : vctor2) : loc -> loc -> M (vdata * vdata) unit :=
    match c with
    | FromCopy => small_copy_ctor N
    | FromCopyAlloc a => small_copy_ctor_alloc N a
    | FromMove => small_move_ctor N
    | FromMoveAlloc a => small_move_ctor_alloc N a
    end.

  (** Do the elements of the object lie in its internal storage? *)
  Definition is_internal (x : sobj) : bool := loc_eqb (v_first x.2) x.1.

  Definition small_vector : container := {|
    obj := sobj;
    rv := rval;
    ctor := vctor;
    cguard := fun _ => true;
    build := fun c =>
      construct_small N (fun ib => small_empty N ib (k_alloc c)) (fun ib => run_ctor (small_storage N ib) c);
    ctor2 := vctor2;
    cguard2 := fun _ _ => true;
    build2 := fun c => construct_small_from N (fun ib => small_empty N ib 0) (small_build2 c);
    op1 := vop;
    guard1 := fun o x => seq_pre o (osize x.2);
    run1 := fun o => member (fun ib => run_vop (small_storage N ib) (small_special ib) o);
    op2 := vop2;
    guard2 := fun o x y =>
      match o with
      | PSwap => Nat.eqb (v_alloc x.2) (v_alloc y.2) ||
                 (pocs && (nothrow_move || Bool.eqb (is_internal x) (is_internal y)))
      | _ => true
      end;
    run2 := small_run2;
    kill := kill_small N (fun ib => destructor_ (small_storage N ib));
  |}.

  Definition small_spec : cspec small_vector := {|
    abs := sabs;
    cpre := fun _ => True;
    cpost := fun (c : ctor small_vector) A => k_post (Z.of_nat N) c A.2;
    cexn := fun c e => k_exn (k_elems c) e;
    cpre2 := fun _ _ => True;
    cpost2 := fun (c : ctor2 small_vector) B A B' => B'.1 = B.1 /\ small_k2_post N c B.2 A.2 B'.2;
    cexn2 := fun (c : ctor2 small_vector) B e B' => B'.1 = B.1 /\ small_k2_exn N c B.2 e B'.2;
    pre1 := fun o A => seq_pre o (length (q_elems A.2)) = true;
    post1 := fun (o : op1 small_vector) A (r : rv small_vector) A' =>
      A'.1 = A.1 /\
      seq_post (Z.of_nat N) o (q_elems A.2) r (q_elems A'.2) /\ q_alloc A'.2 = q_alloc A.2 /\
      seq_storage (Z.of_nat N) o A.2 A'.2 /\ (o = OCapacity -> r = RNum (q_cap A.2));
    exn1 := fun (o : op1 small_vector) A e A' => A'.1 = A.1 /\ seq_exn (Z.of_nat N) o A.2 e A'.2;
    pre2 := fun (o : op2 small_vector) A B => small_pre2 N o A.2 B.2;
    post2 := fun (o : op2 small_vector) A B (r : rv small_vector) A' B' =>
      A'.1 = A.1 /\ B'.1 = B.1 /\ small_post2 N o A.2 B.2 r A'.2 B'.2;
    exn2 := fun (o : op2 small_vector) A B e A' B' =>
      A'.1 = A.1 /\ B'.1 = B.1 /\ small_exn2 N o A.2 B.2 e A'.2 B'.2;
  |}.
End small_client.
