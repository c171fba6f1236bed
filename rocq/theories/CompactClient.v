(** * sfl::compact_vector as seen by its clients *)

From Verif Require Export CompactVector CompactSpec.
From Verif Require Import Client.
Open Scope Z_scope.

Section compact_client.
  Context `{Env}.
  (** [undo]: the catch block of [assign]; [code_undo] is the one in the code.
      [b]: whether clients may replace the storage by [assign]. *)
  Variable undo : Z -> M vdata unit.
  Variable b : bool.

  Definition compact_vector : container := {|
    obj := vdata;
    rv := rval;
    ctor := vctor;
    cguard := fun _ => true;
    build := fun c => construct_obj (vec_empty (k_alloc c)) (compact_run_ctor c);
    ctor2 := vctor2;
    cguard2 := fun _ _ => true;
    build2 := fun c => construct_from (vec_empty 0) (compact_build2 c);
    op1 := vop;
    guard1 := fun o x => compact_pre b o (osize x);
    run1 := run_compact undo;
    op2 := vop2;
    guard2 := fun o x y => compact_pre2 b o (v_alloc x) (osize x) (v_alloc y) (osize y);
    run2 := compact_run2 undo;
    kill := compact_destructor;
  |}.

  Definition compact_spec : cspec compact_vector := {|
    abs := vabs;
    cpre := fun _ => True;
    cpost := compact_k_post : ctor compact_vector -> _;
    cexn := fun (c : ctor compact_vector) => k_exn (k_elems c);
    cpre2 := fun _ _ => True;
    cpost2 := vec_k2_post : ctor2 compact_vector -> _;
    cexn2 := vec_k2_exn : ctor2 compact_vector -> _;
    pre1 := fun (o : op1 compact_vector) (A : vabs) => compact_pre b o (length (q_elems A)) = true;
    post1 := fun (o : op1 compact_vector) (A : vabs) (r : rv compact_vector) (A' : vabs) =>
      q_alloc A' = q_alloc A /\ compact_post o (q_elems A) r (q_elems A') /\
      (in_place o (q_elems A) -> q_data A' = q_data A);
    exn1 := compact_exn : op1 compact_vector -> _;
    pre2 := fun (o : op2 compact_vector) (A B : vabs) =>
      compact_pre2 b o (q_alloc A) (length (q_elems A)) (q_alloc B) (length (q_elems B)) = true;
    post2 := compact_post2 : op2 compact_vector -> _ -> _ -> rv compact_vector -> _;
    exn2 := compact_exn2 : op2 compact_vector -> _;
  |}.
End compact_client.
