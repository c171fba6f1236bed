(** * Specification of sfl::static_vector<T, N>

    The state of a static_vector a user can see is the address of its array (data(),
    part of the object) and its elements. *)

From Verif Require Export SeqSpec.
Open Scope Z_scope.

Section spec.
  Context `{Env}.
  Variable N : nat.
  Notation NZ := (Z.of_nat N).

  Notation tabs := (loc * list V)%type.

  (** Documented preconditions for a container of the given size: those of every
      sequence, and the result must not have more than N elements. *)
  Definition static_pre (o : vop) (size : nat) : bool :=
    seq_pre o size &&
    match o with
    | OEmplace _ _ | OEmplaceBack _ => (S size <=? N)%nat
    | OInsertN _ n _ => (size + n <=? N)%nat
    | OInsertRange _ vs | OInsertInput _ vs => (size + length vs <=? N)%nat
    | OResize n _ | OAssignN n _ => (n <=? N)%nat
    | OAssignRange vs | OAssignInput vs => (length vs <=? N)%nat
    | OReserve _ | OShrink => false     (* no such members *)
    | _ => true
    end.

  (** A call that returns. *)
  Definition static_post (o : vop) (l : list V) (r : rval) (l' : list V) : Prop :=
    seq_post NZ o l r l' /\
    match o with
    | OCapacity => r = RNum NZ
    | OSelfMove => l' = vmoved <$> l
    | _ => True
    end.

  (** Calls after whose failure nothing has changed. *)
  Definition static_strong (o : vop) (l : list V) : Prop :=
    match o with
    | OEmplaceBack x => x_moves x = false
    | OEmplace i x => x_moves x = false /\ i = length l
    | OInsertN i _ _ | OInsertRange i _ => i = length l
    | OResize _ _ | OAt _ => True
    | _ => False
    end.

  (** A call that throws: no element access fails except at(); nothing is ever
      allocated, so nothing but element operations (and at()) throws. *)
  Definition static_exn (o : vop) (l : list V) (e : exn) (l' : list V) : Prop :=
    (static_strong o l -> l' = l) /\
    match o with
    | OEmplace _ _ => length l <= length l' <= S (length l)
    | OInsertN _ n _ => length l <= length l' <= length l + n
    | OInsertRange _ vs | OInsertInput _ vs => length l <= length l' <= length l + length vs
    | OAssignInput vs => length l <= length l' <= Nat.max (length l) (length vs)
    | OErase i | OEraseRange i _ => length l' = length l /\ take i l' = take i l
    | _ => length l' = length l
    end%nat /\
    match e with
    | EOutOfRange => exists i, o = OAt i /\ (length l <= i)%nat
    | EUser =>
        match o with
        | OClear | OPopBack | OAt _ | OGet _ | OFront | OBack | OSize | OCapacity => False
        | OResize n _ => (length l < n)%nat
        | _ => True
        end
    | ELength | EBadAlloc => False
    end.

  (** Constructors. *)
  Inductive tctor :=
    | TDefault
    | TFill (n : nat) (x : option V)     (* static_vector(n), static_vector(n, v) *)
    | TRange (vs : list V)               (* forward iterators, initializer_list *)
    | TInput (vs : list V).              (* input iterators *)
  Definition t_elems (c : tctor) : list V :=
    match c with
    | TDefault => []
    | TFill n None => replicate n vdef
    | TFill n (Some v) => replicate n v
    | TRange vs | TInput vs => vs
    end.
  Definition t_pre (c : tctor) : bool :=
    match c with
    | TDefault => true
    | TFill n _ => (n <=? N)%nat
    | TRange vs | TInput vs => (length vs <=? N)%nat
    end.
  Inductive tctor2 := TCopy | TMove.

  (** [B]: source, [A]: new object, [B']: source afterwards. *)
  Definition static_k2_post (c : tctor2) (B A B' : tabs) : Prop :=
    B'.1 = B.1 /\ A.2 = B.2 /\
    match c with TCopy => B'.2 = B.2 | TMove => B'.2 = vmoved <$> B.2 end.
  Definition static_k2_exn (c : tctor2) (B : tabs) (e : exn) (B' : tabs) : Prop :=
    e = EUser /\ B'.1 = B.1 /\ length B'.2 = length B.2 /\
    match c with TCopy => B'.2 = B.2 | TMove => nothrow_move = false end.

  (** Functions of two objects *)
  Definition static_post2 (o : vop2) (A B : tabs) (r : rval) (A' B' : tabs) : Prop :=
    A'.1 = A.1 /\ B'.1 = B.1 /\
    match o with
    | PCopy => r = RUnit /\ A'.2 = B.2 /\ B'.2 = B.2
    | PMove => r = RUnit /\ A'.2 = B.2 /\ B'.2 = vmoved <$> B.2
    | PSwap => r = RUnit /\ A'.2 = B.2 /\ B'.2 = A.2
    | PEq eqv => A'.2 = A.2 /\ B'.2 = B.2 /\ exists b, r = RBool b /\
        (b = true <-> Forall2 (fun x y => eqv x y = true) A.2 B.2)
    | PLt lt => A'.2 = A.2 /\ B'.2 = B.2 /\ exists b, r = RBool b /\
        (b = true <-> lexicographic lt A.2 B.2)
    end.
  Definition static_exn2 (o : vop2) (A B : tabs) (e : exn) (A' B' : tabs) : Prop :=
    e = EUser /\ A'.1 = A.1 /\ B'.1 = B.1 /\
    length A'.2 = length A.2 /\ length B'.2 = length B.2 /\
    match o with
    | PCopy => B'.2 = B.2
    | PMove | PSwap => True
    | PEq _ | PLt _ => A'.2 = A.2 /\ B'.2 = B.2
    end.
End spec.
Notation tabs := (loc * list V)%type.
