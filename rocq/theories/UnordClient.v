(** * The unordered flat containers as seen by their clients

    static_unordered_flat_{set,map,multiset,multimap} and
    small_unordered_flat_{set,map,multiset,multimap}.  Their storage, their
    two-object functions and their destructors have the text of static_vector and
    small_vector (compare e.g. small_unordered_flat_set.hpp 1300-1477 with
    small_vector.hpp 1741-1826, 1921-2054); in addition they copy or swap the key
    equality object, before the elements are touched (small_unordered_flat_set.hpp
    920, 1435, 1453; static_unordered_flat_set.hpp 224, 238, 551).  operator== compares up to order, and
    there is no operator<. *)

From Verif Require Export UnordModel FlatClient.
From iris.proofmode Require Import tactics.
Open Scope Z_scope.

(** ** A container with other comparison functions *)
Section rebuilt.
  Context `{E : Env} (C : container).
  Context (g2 : op2 C -> obj C -> obj C -> bool) (r2 : op2 C -> M (obj C * obj C) (rv C)).

  Definition rebuilt : container := {|
    obj := obj C;
    rv := rv C;
    ctor := ctor C;
    cguard := cguard C;
    build := build C;
    ctor2 := ctor2 C;
    cguard2 := cguard2 C;
    build2 := build2 C;
    op1 := op1 C;
    guard1 := guard1 C;
    run1 := run1 C;
    op2 := op2 C;
    guard2 := g2;
    run2 := r2;
    kill := kill C;
  |}.

  Context (S : cspec C).
  Context (p2 : op2 C -> abs S -> abs S -> Prop)
    (q2 : op2 C -> abs S -> abs S -> rv C -> abs S -> abs S -> Prop).
  Definition rebuilt_spec : cspec rebuilt := {|
    abs := abs S;
    cpre := (cpre S : ctor rebuilt -> Prop);
    cpost := (cpost S : ctor rebuilt -> _);
    cexn := (cexn S : ctor rebuilt -> _);
    cpre2 := (cpre2 S : ctor2 rebuilt -> _);
    cpost2 := (cpost2 S : ctor2 rebuilt -> _);
    cexn2 := (cexn2 S : ctor2 rebuilt -> _);
    pre1 := (pre1 S : op1 rebuilt -> _);
    post1 := (post1 S : op1 rebuilt -> _ -> rv rebuilt -> _);
    exn1 := (exn1 S : op1 rebuilt -> _);
    pre2 := (p2 : op2 rebuilt -> _);
    post2 := (q2 : op2 rebuilt -> _ -> _ -> rv rebuilt -> _);
    exn2 := (exn2 S : op2 rebuilt -> _);
  |}.

  Context (OK : container_ok S).
  Context (Hg : forall o x a y b h h', inv OK x a h -> inv OK y b h' -> g2 o x y = true <-> p2 o a b).
  Context (Hr : forall o x a y b, p2 o a b ->
    inv OK x a ∗ inv OK y b ⊢ wp (r2 o) (x, y)
      (fun r xy => ∃ a' b', ⟦q2 o a b r a' b'⟧ ∗ inv OK xy.1 a' ∗ inv OK xy.2 b')%I
      (fun e xy => ∃ a' b', ⟦exn2 S o a b e a' b'⟧ ∗ inv OK xy.1 a' ∗ inv OK xy.2 b')%I).
  Definition rebuilt_ok : container_ok rebuilt_spec := {|
    inv := (inv OK : obj rebuilt -> abs rebuilt_spec -> hProp);
    cguard_ok := (cguard_ok S OK : forall c : ctor rebuilt, _);
    cguard2_ok := (cguard2_ok S OK : forall c : ctor2 rebuilt, _);
    guard1_ok := (guard1_ok S OK : forall o : op1 rebuilt, _);
    guard2_ok := (Hg : forall o : op2 rebuilt, _);
    ok_build := (ok_build S OK : forall c : ctor rebuilt, _);
    ok_build2 := (ok_build2 S OK : forall c : ctor2 rebuilt, _);
    ok_run1 := (ok_run1 S OK : forall o : op1 rebuilt, _);
    ok_run2 := (Hr : forall o : op2 rebuilt, _);
    ok_kill := (ok_kill S OK : forall x : obj rebuilt, _);
  |}.
End rebuilt.

Section unord_client.
  Context `{KD : Keyed}.
  Variable N : nat.
  Variable kd : fkind.

  Definition keeps_eq (o : vop2) : bool := match o with PLt _ => false | _ => true end.

  (** static_vector and small_vector with operator== of the unordered containers. *)
  Definition static_bag_run2 (o : vop2) : M (sobj * sobj) rval :=
    match o with
    | PEq r => bool_result (member2 (fun _ _ => perm_eq_ r))
    | _ => static_run2 N o
    end.
  Definition static_bag : container :=
    rebuilt (static_vector N) (fun (o : op2 (static_vector N)) _ _ => keeps_eq o)
      (static_bag_run2 : op2 (static_vector N) -> M (obj (static_vector N) * obj (static_vector N)) (rv (static_vector N))).
  Definition small_bag_run2 (o : vop2) : M (sobj * sobj) rval :=
    match o with
    | PEq r => bool_result (member2 (fun _ _ => perm_eq_ r))
    | _ => small_run2 N o
    end.
  Definition small_bag : container :=
    rebuilt (small_vector N)
      (fun (o : op2 (small_vector N)) x y => keeps_eq o && guard2 (small_vector N) o x y)
      (small_bag_run2 : op2 (small_vector N) -> M (obj (small_vector N) * obj (small_vector N)) (rv (small_vector N))).

  (** Equality of elements is an equivalence relation. *)
  Definition equality (r : V -> V -> bool) : Prop :=
    (forall x, r x x = true) /\ (forall x y, r x y = true -> r y x = true) /\
    (forall x y z, r x y = true -> r y z = true -> r x z = true).
  (** The result of operator==: whether the elements are the same up to order. *)
  Definition bag_eq (r : V -> V -> bool) (l1 l2 : list V) (res : rval) : Prop :=
    exists b, res = RBool b /\ (equality r -> (b = true <-> same_elements r l1 l2)).

  Definition static_bag_spec : cspec static_bag :=
    rebuilt_spec (static_vector N) _ _ (static_spec N) (fun (o : op2 (static_vector N)) _ _ => keeps_eq o = true)
      (fun (o : op2 (static_vector N)) (A B : abs (static_spec N)) (r : rv (static_vector N))
           (A' B' : abs (static_spec N)) =>
         match o with
         | PEq e => A' = A /\ B' = B /\ bag_eq e A.2 B.2 r
         | _ => static_post2 o A B r A' B'
         end).
  Definition small_bag_spec : cspec small_bag :=
    rebuilt_spec (small_vector N) _ _ (small_spec N)
      (fun (o : op2 (small_vector N)) (A B : abs (small_spec N)) => keeps_eq o = true /\ small_pre2 N o A.2 B.2)
      (fun (o : op2 (small_vector N)) (A B : abs (small_spec N)) (r : rv (small_vector N))
           (A' B' : abs (small_spec N)) =>
         match o with
         | PEq e => A' = A /\ B' = B /\ bag_eq e (q_elems A.2) (q_elems B.2) r
         | _ => A'.1 = A.1 /\ B'.1 = B.1 /\ small_post2 N o A.2 B.2 r A'.2 B'.2
         end).

  (** *** static_unordered_flat_* *)
  Definition static_unord_run (c : Cmp) (o : uop) : M vdata frv :=
    run_unord (same c) kd true (static_emplace_back N) (static_room N) (static_list N) o.
  (** tus 133-208, tum 133-263, tums 133-208, tumm 133-263: constructors. *)
  Definition static_unord_init (k : fctor) : M vdata unit :=
    match k with
    | NewEmpty _ _ => ret tt
    | NewRange c _ vs =>
        try_ (uemplace_loop (same c) kd true (static_emplace_back N) (static_room N) vs) static_destructor
    end.
  Definition static_unord_code : wcode static_bag := {|
    Fn := Cmp;
    wctor := fctor;
    wop := uop;
    wres := frv;
    wctor_fn := fc_cmp;
    wcguard := fun k => (length (fc_vals k) <=? N)%nat;
    wbuild := fun k =>
      (construct_small N (static_empty N) (fun _ => static_unord_init k) : M unit (obj static_bag));
    wguard := fun o (x : obj static_bag) =>
      unord_pre kd (fun n => osize x.2 + n <=? N)%nat (fun n => n <=? N)%nat o (osize x.2);
    wrun := fun c o => (member (fun _ => static_unord_run c o) : M (obj static_bag) _);
    allowed := static_allowed : op1 static_bag -> bool;
    fn2 := cmp2 : op2 static_bag -> _;
  |}.
  Definition static_unord : container := wrapped static_unord_code.

  (** *** small_unordered_flat_*

      [emplace] of the map appends before it searches (sum 803-814, 1732-1747); that
      of the set makes a temporary first (sus 737-748). *)
  Definition small_unord_run (ib : loc) (c : Cmp) (o : uop) : M vdata frv :=
    let back := emplace_back_ (small_storage N ib) in
    run_unord (same c) kd (is_map kd) back (ret tt) (uclear_insert (same c) kd back (ret tt)) o.
  (** sus 223-393 constructors with 1234-1266 [initialize_range], sum 1481, sums
      1254, summ 1340. *)
  Definition small_unord_init (ib : loc) (k : fctor) : M vdata unit :=
    match k with
    | NewEmpty _ _ => ret tt
    | NewRange c _ vs =>
        try_ (uinsert_loop (same c) kd (emplace_back_ (small_storage N ib)) (ret tt) vs)
             (destructor_ (small_storage N ib))
    end.
  Definition small_unord_code : wcode small_bag := {|
    Fn := Cmp;
    wctor := fctor;
    wop := uop;
    wres := frv;
    wctor_fn := fc_cmp;
    wcguard := fun _ => true;
    wbuild := fun k =>
      (construct_small N (fun ib => small_empty N ib (fc_alloc k)) (fun ib => small_unord_init ib k)
         : M unit (obj small_bag));
    wguard := fun o (x : obj small_bag) =>
      unord_pre kd (fun _ => true) (fun _ => true) o (osize x.2);
    wrun := fun c o => (member (fun ib => small_unord_run ib c o) : M (obj small_bag) _);
    allowed := small_allowed : op1 small_bag -> bool;
    fn2 := cmp2 : op2 small_bag -> _;
  |}.
  Definition small_unord : container := wrapped small_unord_code.

  (** *** Specifications *)
  Definition static_unord_wspec : wspec static_unord_code static_bag_spec := {|
    wcpre := fun k : wctor static_unord_code => (length (fc_vals k) <= N)%nat;
    wcpost := fun (k : wctor static_unord_code) (A : abs static_bag_spec) => uctor_post kd true k A.2;
    wcexn := fun (k : wctor static_unord_code) e => e = EUser;
    wpre := fun (o : wop static_unord_code) (A : abs static_bag_spec) =>
      unord_pre kd (fun n => length A.2 + n <=? N)%nat (fun n => n <=? N)%nat o (length A.2) = true;
    wpost := fun (c : Fn static_unord_code) (o : wop static_unord_code) (A : abs static_bag_spec)
        (r : wres static_unord_code) (A' : abs static_bag_spec) =>
      A'.1 = A.1 /\ unord_post kd true true c o A.2 r A'.2;
    wexn := fun (c : Fn static_unord_code) (o : wop static_unord_code) (A : abs static_bag_spec) e
        (A' : abs static_bag_spec) =>
      A'.1 = A.1 /\ unord_exn kd true true c false true o A.2 e A'.2;
  |}.
  Definition static_unord_spec : cspec static_unord := wrapped_spec static_unord_code static_unord_wspec.

  Definition small_unord_wspec : wspec small_unord_code small_bag_spec := {|
    wcpre := fun _ => True;
    wcpost := fun (k : wctor small_unord_code) (A : abs small_bag_spec) =>
      uctor_post kd false k (q_elems A.2) /\ q_alloc A.2 = fc_alloc k;
    wcexn := fun (k : wctor small_unord_code) e => e <> EOutOfRange;
    wpre := fun (o : wop small_unord_code) (A : abs small_bag_spec) =>
      unord_pre kd (fun _ => true) (fun _ => true) o (length (q_elems A.2)) = true;
    wpost := fun (c : Fn small_unord_code) (o : wop small_unord_code) (A : abs small_bag_spec)
        (r : wres small_unord_code) (A' : abs small_bag_spec) =>
      A'.1 = A.1 /\ unord_post kd false (is_map kd) c o (q_elems A.2) r (q_elems A'.2) /\
      storage_stays (unord_need o (q_elems A.2)) A.2 A'.2;
    wexn := fun (c : Fn small_unord_code) (o : wop small_unord_code) (A : abs small_bag_spec) e
        (A' : abs small_bag_spec) =>
      A'.1 = A.1 /\
      unord_exn kd false (is_map kd) c true (nothrow_move || copyable) o (q_elems A.2) e (q_elems A'.2) /\
      storage_stays (unord_need o (q_elems A.2)) A.2 A'.2;
  |}.
  Definition small_unord_spec : cspec small_unord := wrapped_spec small_unord_code small_unord_wspec.
End unord_client.
