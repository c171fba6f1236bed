(** * sfl::static_vector<T, N> as seen by its clients *)

From Verif Require Export StaticVector StaticSpec.
From Verif Require Import Client.
Open Scope Z_scope.

Section static_client.
  Context `{Env}.
  Variable N : nat.

  Definition static_run_ctor (c : tctor) : M vdata unit :=
    match c with
    | TDefault => ret tt
    | TFill n None => static_init_fill N (Z.of_nat n) ADef
    | TFill n (Some v) => static_init_fill N (Z.of_nat n) (AVal v)
    | TRange vs => static_init_range N (AVal <$> vs)
    | TInput vs => static_init_input N (AVal <$> vs)
    end.
  Definition static_build2 (c : tctor2) : M (vdata * vdata) unit :=
    match c with TCopy => static_copy_ctor | TMove => static_move_ctor end.

  Definition static_vector : container := {|
    obj := sobj;
    rv := rval;
    ctor := tctor;
    cguard := t_pre N;
    build := fun c => construct_small N (static_empty N) (fun _ => static_run_ctor c);
    ctor2 := tctor2;
    cguard2 := fun _ _ => true;
    build2 := fun c => construct_small_from N (static_empty N) (fun _ _ => static_build2 c);
    op1 := vop;
    guard1 := fun o x => static_pre N o (osize x.2);
    run1 := fun o => member (fun _ => run_static N o);
    op2 := vop2;
    guard2 := fun _ _ _ => true;
    run2 := static_run2 N;
    kill := kill_small N (fun _ => static_destructor);
  |}.

  Definition static_spec : cspec static_vector := {|
    abs := tabs;
    cpre := fun (c : ctor static_vector) => t_pre N c = true;
    cpost := fun (c : ctor static_vector) (A : tabs) => A.2 = t_elems c;
    cexn := fun _ e => e = EUser;
    cpre2 := fun _ _ => True;
    cpost2 := static_k2_post : ctor2 static_vector -> _;
    cexn2 := static_k2_exn : ctor2 static_vector -> _;
    pre1 := fun (o : op1 static_vector) (A : tabs) => static_pre N o (length A.2) = true;
    post1 := fun (o : op1 static_vector) (A : tabs) (r : rv static_vector) (A' : tabs) =>
      A'.1 = A.1 /\ static_post N o A.2 r A'.2;
    exn1 := fun (o : op1 static_vector) (A : tabs) e (A' : tabs) => A'.1 = A.1 /\ static_exn o A.2 e A'.2;
    pre2 := fun _ _ _ => True;
    post2 := static_post2 : op2 static_vector -> _ -> _ -> rv static_vector -> _;
    exn2 := static_exn2 : op2 static_vector -> _;
  |}.
End static_client.
