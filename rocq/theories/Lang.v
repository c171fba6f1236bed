(** * Execution model: C++ objects, storage, exceptions.

    Every container operation of the library is modelled as a total Gallina
    function in the monad [M].  A run ends in one of three ways:
    - [Ok]  : the function returned;
    - [Exn] : a C++ exception propagated out of the function;
    - [UB]  : undefined behaviour (use of a dead object, construction over a
              live object, out-of-bounds access, mismatched deallocation,
              violated [SFL_ASSERT], ...).

    This file models the parts of C++ and of [std::allocator_traits] the
    library relies on; it is not a transcription of library code, except where
    a file is cited. *)

From stdpp Require Export gmap list.
From Coq Require Export ZArith Lia.
Open Scope Z_scope.

(** ** Pointers *)

(** A pointer is a block number and an offset counted in elements.  Positive
    block numbers are handed out by the allocator, negative ones stand for
    storage inside a container object (static and small containers), block [0]
    does not exist; [null] is [nullptr].  Pointer arithmetic is total: forming
    an out-of-range pointer is not flagged, accessing through it is
    (simplification). *)
Notation loc := (Z * Z)%type (only parsing).
Definition null : loc := (0, 0).
Definition loc_add (p : loc) (z : Z) : loc := (p.1, p.2 + z).
Notation "p +ₗ z" := (loc_add p z) (at level 50, left associativity).
Definition loc_eqb (p q : loc) : bool := Z.eqb p.1 q.1 && Z.eqb p.2 q.2.

(** ** The environment: element type, oracle, allocator limits *)

(** Kinds of operations that may throw. *)
Inductive opk := KAlloc | KDef | KCopy | KMove | KCopyAssign | KMoveAssign | KEmplace | KCmp.

(** Everything the library is parameterised by and everything it cannot
    control.  All theorems quantify over an arbitrary [Env]. *)
Class Env := {
  V : Type;                          (* value_type *)
  vdef : V;                          (* the value of a value-initialised object T() *)
  vmoved : V -> V;                   (* value left in an object that was moved from *)
  junk1 : nat -> V;                  (* value left in the target of a throwing assignment *)
  junk2 : nat -> V;                  (* value left in the source of a throwing move *)
  throws : opk -> nat -> bool;       (* does the operation at this point in time throw? *)
  nothrow_move : bool;               (* std::is_nothrow_move_constructible<T> *)
  copyable : bool;                   (* std::is_copy_constructible<T> *)
  max_size : Z;                      (* min(allocator max_size, PTRDIFF_MAX / sizeof(T)) *)
  max_size_ok : 0 <= max_size < 2 ^ 63;
  pocca : bool;                      (* propagate_on_container_copy_assignment *)
  pocma : bool;                      (* propagate_on_container_move_assignment *)
  pocs : bool;                       (* propagate_on_container_swap *)
  soccc : nat -> nat;                (* select_on_container_copy_construction *)
}.

(** Arithmetic of [size_type]: unsigned 64 bit, wraps around. *)
Definition wrap (z : Z) : Z := z mod 2 ^ 64.

Definition may_throw `{Env} (k : opk) (t : nat) : bool :=
  match k with
  | KMove => if nothrow_move then false else throws KMove t
  | _ => throws k t
  end.

(** ** Memory *)

(** One cell of memory: raw storage, a live element, a pointer (segment
    tables), or the header of an allocated block. *)
Inductive cell `{Env} :=
  | Raw
  | Live (v : V)
  | Ptr (p : loc)
  | Hdr (a : nat) (n : Z).

(** The header [Hdr a n] of an allocated block [b] sits at [(b, -1)]: the
    block was obtained by [allocate(a, n)].  It is bookkeeping of the model: the
    library never reads it, deallocation checks it. *)
Definition hdr_off : Z := -1.

Record world `{Env} := World {
  heap : gmap loc cell;
  tick : nat;                        (* number of oracle consultations so far *)
  next : Z;                          (* next unused block number *)
  fired : nat;                       (* number of consultations that said "throw" *)
}.
Arguments World {_} heap tick next fired.

Definition set_heap `{Env} (w : world) (h : gmap loc cell) : world :=
  World h (tick w) (next w) (fired w).
Definition bump `{Env} (b : bool) (w : world) : world :=
  World (heap w) (S (tick w)) (next w) (if b then S (fired w) else fired w).

(** ** The monad *)

Inductive exn := ELength | EOutOfRange | EBadAlloc | EUser.
Global Instance exn_dec : EqDecision exn.
Proof. solve_decision. Defined.

Inductive res `{Env} (S A : Type) :=
  | Ok (a : A) (s : S) (w : world)
  | Exn (e : exn) (s : S) (w : world)
  | UB.
Arguments Ok {_ _ _} a s w.
Arguments Exn {_ _ _} e s w.
Arguments UB {_ _ _}.

(** The state type is the record of data members of the container object(s) operated on
    (plus mutable local variables that are visible in a catch block). *)
Definition M `{Env} (St A : Type) : Type := St -> world -> res St A.

Section monad.
  Context `{Env}.
  Context {St : Type}.

  Definition ret {A} (a : A) : M St A := fun s w => Ok a s w.
  Definition bind {A B} (m : M St A) (k : A -> M St B) : M St B := fun s w =>
    match m s w with
    | Ok a s' w' => k a s' w'
    | Exn e s' w' => Exn e s' w'
    | UB => UB
    end.
  Definition throw {A} (e : exn) : M St A := fun s w => Exn e s w.
  Definition ub {A} : M St A := fun _ _ => UB.
  Definition getS : M St St := fun s w => Ok s s w.
  Definition putS (s : St) : M St unit := fun _ w => Ok tt s w.
  Definition modS (f : St -> St) : M St unit := fun s w => Ok tt (f s) w.

  (** [try { m } catch (...) { h; throw; }] *)
  Definition try_ {A} (m : M St A) (h : M St unit) : M St A := fun s w =>
    match m s w with
    | Ok a s' w' => Ok a s' w'
    | Exn e s' w' =>
        match h s' w' with
        | Ok _ s'' w'' => Exn e s'' w''
        | Exn e' s'' w'' => Exn e' s'' w''
        | UB => UB
        end
    | UB => UB
    end.

  (** [SFL_ASSERT(b)]: a violated precondition is undefined behaviour. *)
  Definition assert_ (b : bool) : M St unit := if b then ret tt else ub.
End monad.

(** Mutable local variables that a catch block can see. *)
Definition local_ `{Env} {St L A} (l : L) (m : M (St * L) A) : M St A := fun s w =>
  match m (s, l) w with
  | Ok a (s', _) w' => Ok a s' w'
  | Exn e (s', _) w' => Exn e s' w'
  | UB => UB
  end.
Definition lift_ `{Env} {St L A} (m : M St A) : M (St * L) A := fun sl w =>
  match m sl.1 w with
  | Ok a s' w' => Ok a (s', sl.2) w'
  | Exn e s' w' => Exn e (s', sl.2) w'
  | UB => UB
  end.
Definition getl_ `{Env} {St L} : M (St * L) L := fun sl w => Ok sl.2 sl w.
Definition setl_ `{Env} {St L} (l : L) : M (St * L) unit := fun sl w => Ok tt (sl.1, l) w.

(** Operations on one of two container objects. *)
Definition on1 `{Env} {S1 S2 A} (m : M S1 A) : M (S1 * S2) A := fun ss w =>
  match m ss.1 w with
  | Ok a s' w' => Ok a (s', ss.2) w'
  | Exn e s' w' => Exn e (s', ss.2) w'
  | UB => UB
  end.
Definition on2 `{Env} {S1 S2 A} (m : M S2 A) : M (S1 * S2) A := fun ss w =>
  match m ss.2 w with
  | Ok a s' w' => Ok a (ss.1, s') w'
  | Exn e s' w' => Exn e (ss.1, s') w'
  | UB => UB
  end.

Declare Scope prog_scope.
Delimit Scope prog_scope with prog.
Notation "x <- m ;; k" := (bind m (fun x => k))
  (at level 100, m at next level, k at level 200, only parsing) : prog_scope.
Notation "m ;; k" := (bind m (fun _ => k))
  (at level 100, k at level 200, only parsing) : prog_scope.
Open Scope prog_scope.

(** ** Primitive operations *)

(** Constructor / assignment arguments.  [ADef]: no arguments.  [AVal v]:
    arguments that do not refer to modelled storage and denote the value [v].
    [ACopy p]/[AMove p]: an lvalue / rvalue reference to the object at [p]. *)
Inductive arg `{Env} :=
  | ADef
  | AVal (v : V)
  | ACopy (p : loc)
  | AMove (p : loc).

Section prims.
  Context `{Env}.
  Context {St : Type}.

  (** Ask the oracle whether the operation happening now throws; every call is
      a new point in time.  [Some t]: it throws (at time [t]). *)
  Definition oracle (k : opk) : M St (option nat) := fun s w =>
    Ok (if may_throw k (tick w) then Some (tick w) else None) s (bump (may_throw k (tick w)) w).

  (** An operation without operands that may throw [e]. *)
  Definition step_ (k : opk) (e : exn) : M St unit :=
    (o <- oracle k;; match o with Some _ => throw e | None => ret tt end)%prog.

  (** The value of a live object. *)
  Definition read (p : loc) : M St V := fun s w =>
    match heap w !! p with
    | Some (Live v) => Ok v s w
    | _ => UB
    end.
  (** Overwrite the value of a live object. *)
  Definition write (p : loc) (v : V) : M St unit := fun s w =>
    match heap w !! p with
    | Some (Live _) => Ok tt s (set_heap w (<[p := Live v]> (heap w)))
    | _ => UB
    end.

  (** Initialise a temporary [value_type tmp(args...)].  The temporary is kept
      as a Gallina value: its destruction at scope exit is done by the compiler
      (simplification). *)
  Definition make (a : arg) : M St V :=
    match a with
    | ADef => step_ KDef EUser;; ret vdef
    | AVal v => step_ KEmplace EUser;; ret v
    | ACopy q => v <- read q;; step_ KCopy EUser;; ret v
    | AMove q =>
        v <- read q;;
        o <- oracle KMove;;
        match o with
        | Some t => write q (junk2 t);; throw EUser
        | None => write q (vmoved v);; ret v
        end
    end%prog.

  Definition expect_raw (p : loc) : M St unit := fun s w =>
    match heap w !! p with Some Raw => Ok tt s w | _ => UB end.
  (** Raw storage becomes a live object. *)
  Definition set_live (p : loc) (v : V) : M St unit := fun s w =>
    match heap w !! p with
    | Some Raw => Ok tt s (set_heap w (<[p := Live v]> (heap w)))
    | _ => UB
    end.

  (** private.hpp 1258-1267 [construct_at_a]: allocator_traits::construct
      (placement new at [p]); [p] must be raw storage. *)
  Definition construct (p : loc) (a : arg) : M St unit :=
    (expect_raw p;; v <- make a;; set_live p v)%prog.

  (** private.hpp 1269-1277 [destroy_at_a]. *)
  Definition destroy_at (p : loc) : M St unit := fun s w =>
    match heap w !! p with
    | Some (Live _) => Ok tt s (set_heap w (<[p := Raw]> (heap w)))
    | _ => UB
    end.

  (** Assignment [*d = x]; a throwing assignment leaves arbitrary values in the
      target (and, for a move, in the source). *)
  Definition assign (d : loc) (a : arg) : M St unit :=
    match a with
    | ADef =>
        _ <- read d;;
        o <- oracle KCopyAssign;;
        match o with
        | Some t => write d (junk1 t);; throw EUser
        | None => write d vdef
        end
    | AVal v =>
        _ <- read d;;
        o <- oracle KCopyAssign;;
        match o with
        | Some t => write d (junk1 t);; throw EUser
        | None => write d v
        end
    | ACopy q =>
        _ <- read d;;
        v <- read q;;
        o <- oracle KCopyAssign;;
        match o with
        | Some t => write d (junk1 t);; throw EUser
        | None => write d v
        end
    | AMove q =>
        _ <- read d;;
        v <- read q;;
        o <- oracle KMoveAssign;;
        match o with
        | Some t => (write d (junk1 t);; write q (junk2 t));; throw EUser
        | None => write d v;; write q (vmoved v)
        end
    end%prog.

  (** Distance of two pointers into the same block; undefined otherwise. *)
  Definition ptr_sub (q p : loc) : M St Z :=
    if Z.eqb p.1 q.1 then ret (q.2 - p.2) else ub.

  (** Length of a range [first, last); a range that is not valid (different
      blocks, or last before first) is undefined behaviour: the loop
      [while (first != last)] would run off the block. *)
  Definition range_len (first last : loc) : M St nat :=
    if Z.eqb first.1 last.1 && Z.leb first.2 last.2
    then ret (Z.to_nat (last.2 - first.2)) else ub.

  (** Cells of a fresh block: [n] raw cells from offset [o] of block [b]. *)
  Fixpoint add_raws (b : Z) (o : Z) (n : nat) (h : gmap loc cell) : gmap loc cell :=
    match n with
    | O => h
    | S n' => <[(b, o) := Raw]> (add_raws b (o + 1) n' h)
    end.
  (** Remove [n] cells; [None] unless every one of them exists and holds no
      live element. *)
  Fixpoint del_raws (b : Z) (o : Z) (n : nat) (h : gmap loc cell) : option (gmap loc cell) :=
    match n with
    | O => Some h
    | S n' =>
        match h !! (b, o) with
        | Some Raw => del_raws b (o + 1) n' (delete (b, o) h)
        | Some (Ptr _) => del_raws b (o + 1) n' (delete (b, o) h)
        | _ => None
        end
    end.

  (** private.hpp 1239-1247 [allocate]: nullptr for 0, otherwise
      allocator_traits::allocate, which may throw. *)
  Definition allocate (a : nat) (n : Z) : M St loc := fun s w =>
    if Z.eqb n 0 then Ok null s w
    else if Z.ltb n 0 then UB
    else if may_throw KAlloc (tick w) then Exn EBadAlloc s (bump true w)
    else Ok (next w, 0) s
           (World (<[(next w, hdr_off) := Hdr a n]> (add_raws (next w) 0 (Z.to_nat n) (heap w)))
                  (S (tick w)) (next w + 1) (fired w)).

  (** private.hpp 1249-1256 [deallocate]: nothing for nullptr; otherwise the
      pointer, the size and the allocator must match the allocation and no
      element of the block may be alive. *)
  Definition deallocate (a : nat) (p : loc) (n : Z) : M St unit := fun s w =>
    if loc_eqb p null then Ok tt s w
    else if negb (Z.eqb p.2 0) then UB
    else match heap w !! (p.1, hdr_off) with
         | Some (Hdr a' n') =>
             if Nat.eqb a a' && Z.eqb n n'
             then match del_raws p.1 0 (Z.to_nat n) (delete (p.1, hdr_off) (heap w)) with
                  | Some h' => Ok tt s (set_heap w h')
                  | None => UB
                  end
             else UB
         | _ => UB
         end.

  (** Storage of a container object itself (its internal buffer of [n]
      elements) comes into existence at a fresh address ... *)
  Definition enter (n : nat) : M St loc := fun s w =>
    Ok (- next w, 0) s
       (World (add_raws (- next w) 0 n (heap w)) (tick w) (next w + 1) (fired w)).
  (** ... and disappears with it; an element still alive in it would be lost:
      treated as undefined behaviour. *)
  Definition leave (p : loc) (n : nat) : M St unit := fun s w =>
    match del_raws p.1 p.2 n (heap w) with
    | Some h' => Ok tt s (set_heap w h')
    | None => UB
    end.
End prims.
