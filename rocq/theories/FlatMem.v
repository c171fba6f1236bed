(** * Ordered flat containers in memory, and calls of their functions

    One description for all eight containers: [StaticF N] stands for
    static_flat_{set,map,multiset,multimap}<..., N>, [SmallF N] for
    small_flat_{set,map,multiset,multimap}<..., N>; the [fkind] says which of the
    four. *)

From stdpp Require Import gmap.
From Verif Require Export FlatClient StaticMem SmallMem.
Open Scope Z_scope.

Inductive flavour := StaticF (N : nat) | SmallF (N : nat).

Section mem.
  Context `{KD : Keyed}.
  Variable fl : flavour.

  (** Object [x] holds the elements [l]; its memory is [m] (StaticMem.v,
      SmallMem.v). *)
  Definition is_flat (x : sobj) (l : list V) (m : gmap loc cell) : Prop :=
    match fl with
    | StaticF N => exists ib, is_static N x (ib, l) m
    | SmallF N => exists ib a d cap, is_small N x (ib, VAbs a d l cap) m
    end.

  Definition is_static_flat : bool := match fl with StaticF _ => true | SmallF _ => false end.

  (** The inline capacity does not exceed max_size(). *)
  Definition sane : Prop := match fl with StaticF _ => True | SmallF N => Z.of_nat N <= max_size end.
  (** A container with [n] elements is possible. *)
  Definition can_hold (n : nat) : bool := match fl with StaticF N => (n <=? N)%nat | SmallF _ => true end.
  (** Moving all elements elsewhere cannot lose any. *)
  Definition unbreakable : bool := match fl with StaticF _ => true | SmallF _ => nothrow_move || copyable end.

  Variable kd : fkind.
  (** A call of member function [o] of a container with comparator [c]. *)
  Definition flat_call (c : Cmp) (o : fop) : M sobj frv :=
    match fl with
    | StaticF N => member (fun _ => static_flat_run N kd c o)
    | SmallF N => member (fun ib => small_flat_run N kd ib c o)
    end.
  (** Its preconditions. *)
  Definition allowed_call (o : fop) (l : list V) : bool :=
    flat_pre kd (fun n => can_hold (length l + n)) can_hold o (length l).
  (** Construction. *)
  Definition flat_new (k : fctor) : M unit sobj :=
    match fl with
    | StaticF N => construct_small N (static_empty N) (fun _ => static_flat_init N kd k)
    | SmallF N =>
        construct_small N (fun ib => small_empty N ib (fc_alloc k)) (fun ib => small_flat_init N kd ib k)
    end.
End mem.

(** The state of an object of a history: comparator and the rest. *)
Definition with_cmp `{KD : Keyed} {A} (R : sobj -> A -> gmap loc cell -> Prop)
    (x : Cmp * sobj) (a : Cmp * A) (m : gmap loc cell) : Prop :=
  x.1 = a.1 /\ R x.2 a.2 m.
