(** * The ordered flat containers as seen by their clients

    static_flat_{set,map,multiset,multimap} and small_flat_{set,map,multiset,multimap}.
    Their storage, their two-object functions and their destructors have the text of
    static_vector and small_vector (compare e.g. small_flat_set.hpp 565-766, 907-1070,
    1259-1576 with small_vector.hpp 454-655, 1379-1537, 1541-1606, 1741-1826,
    1921-2054); in addition they copy or swap the comparator, before the elements
    are touched (small_flat_set.hpp 932, 1527, 1545; static_flat_set.hpp 559-620). *)

From Verif Require Export FlatModel StaticClient SmallClient Wrap.
Open Scope Z_scope.

Section flat_client.
  Context `{KD : Keyed}.
  Variable N : nat.
  Variable kd : fkind.

  (** Assignment copies the comparator, also from a moved-from container; swap
      swaps it. *)
  Definition cmp2 (o : vop2) (c d : Cmp) : Cmp * Cmp :=
    match o with
    | PCopy | PMove => (d, d)
    | PSwap => (d, c)
    | PEq _ | PLt _ => (c, d)
    end.

  (** *** static_flat_* *)
  Definition static_flat_run (c : Cmp) (o : fop) : M vdata frv :=
    run_flat (less c) kd (static_exact N (multi kd)) (static_room N) (static_list N) o.
  (** ts 133-208, tm 133-208, tms 133-208, tmm 133-208: constructors. *)
  Definition static_flat_init (k : fctor) : M vdata unit :=
    match k with
    | NewEmpty _ _ => ret tt
    | NewRange c _ vs =>
        try_ (emplace_loop (less c) kd (static_exact N (multi kd)) (static_room N) vs) static_destructor
    end.
  (** Shared member functions: [begin()[i]], [capacity()], self move assignment. *)
  Definition static_allowed (o : vop) : bool :=
    match o with OGet _ | OCapacity | OSelfMove => true | _ => false end.
  Definition static_flat_code : wcode (static_vector N) := {|
    Fn := Cmp;
    wctor := fctor;
    wop := fop;
    wres := frv;
    wctor_fn := fc_cmp;
    wcguard := fun k => (length (fc_vals k) <=? N)%nat;
    wbuild := fun k =>
      (construct_small N (static_empty N) (fun _ => static_flat_init k) : M unit (obj (static_vector N)));
    wguard := fun o (x : obj (static_vector N)) =>
      flat_pre kd (fun n => osize x.2 + n <=? N)%nat (fun n => n <=? N)%nat o (osize x.2);
    wrun := fun c o => (member (fun _ => static_flat_run c o) : M (obj (static_vector N)) _);
    allowed := static_allowed : op1 (static_vector N) -> bool;
    fn2 := cmp2 : op2 (static_vector N) -> _;
  |}.
  Definition static_flat : container := wrapped static_flat_code.

  (** *** small_flat_* *)
  Definition small_flat_run (ib : loc) (c : Cmp) (o : fop) : M vdata frv :=
    let exact := small_exact (small_storage N ib) (multi kd) in
    run_flat (less c) kd exact (ret tt) (clear_insert (less c) kd exact (ret tt)) o.
  (** ss 224-309 constructors with 1325-1357 [initialize_range], and likewise in the
      other three headers. *)
  Definition small_flat_init (ib : loc) (k : fctor) : M vdata unit :=
    match k with
    | NewEmpty _ _ => ret tt
    | NewRange c _ vs =>
        try_ (insert_loop (less c) kd (small_exact (small_storage N ib) (multi kd)) (ret tt) vs)
             (destructor_ (small_storage N ib))
    end.
  Definition small_allowed (o : vop) : bool :=
    match o with OGet _ | OCapacity | OSelfMove | OReserve _ | OShrink => true | _ => false end.
  Definition small_flat_code : wcode (small_vector N) := {|
    Fn := Cmp;
    wctor := fctor;
    wop := fop;
    wres := frv;
    wctor_fn := fc_cmp;
    wcguard := fun _ => true;
    wbuild := fun k =>
      (construct_small N (fun ib => small_empty N ib (fc_alloc k)) (fun ib => small_flat_init ib k)
         : M unit (obj (small_vector N)));
    wguard := fun o (x : obj (small_vector N)) =>
      flat_pre kd (fun _ => true) (fun _ => true) o (osize x.2);
    wrun := fun c o => (member (fun ib => small_flat_run ib c o) : M (obj (small_vector N)) _);
    allowed := small_allowed : op1 (small_vector N) -> bool;
    fn2 := cmp2 : op2 (small_vector N) -> _;
  |}.
  Definition small_flat : container := wrapped small_flat_code.

  (** *** Specifications *)
  Definition static_flat_wspec : wspec static_flat_code (static_spec N) := {|
    wcpre := fun k : wctor static_flat_code => (length (fc_vals k) <= N)%nat;
    wcpost := fun (k : wctor static_flat_code) (A : abs (static_spec N)) => fctor_post kd k A.2;
    wcexn := fun (k : wctor static_flat_code) e => e = EUser;
    wpre := fun (o : wop static_flat_code) (A : abs (static_spec N)) =>
      flat_pre kd (fun n => length A.2 + n <=? N)%nat (fun n => n <=? N)%nat o (length A.2) = true;
    wpost := fun (c : Fn static_flat_code) (o : wop static_flat_code) (A : abs (static_spec N))
        (r : wres static_flat_code) (A' : abs (static_spec N)) =>
      A'.1 = A.1 /\ flat_post kd c true o A.2 r A'.2;
    wexn := fun (c : Fn static_flat_code) (o : wop static_flat_code) (A : abs (static_spec N)) e
        (A' : abs (static_spec N)) =>
      A'.1 = A.1 /\ flat_exn kd c true false true o A.2 e A'.2;
  |}.
  Definition static_flat_spec : cspec static_flat := wrapped_spec static_flat_code static_flat_wspec.

  (** The storage stays if the elements fit. *)
  Definition storage_stays (n : nat) (A A' : vabs) : Prop :=
    q_alloc A' = q_alloc A /\
    (Z.of_nat n <= q_cap A -> q_data A' = q_data A /\ q_cap A' = q_cap A).
  Definition small_flat_wspec : wspec small_flat_code (small_spec N) := {|
    wcpre := fun _ => True;
    wcpost := fun (k : wctor small_flat_code) (A : abs (small_spec N)) =>
      fctor_post kd k (q_elems A.2) /\ q_alloc A.2 = fc_alloc k;
    wcexn := fun (k : wctor small_flat_code) e => e <> EOutOfRange;
    wpre := fun (o : wop small_flat_code) (A : abs (small_spec N)) =>
      flat_pre kd (fun _ => true) (fun _ => true) o (length (q_elems A.2)) = true;
    wpost := fun (c : Fn small_flat_code) (o : wop small_flat_code) (A : abs (small_spec N))
        (r : wres small_flat_code) (A' : abs (small_spec N)) =>
      A'.1 = A.1 /\ flat_post kd c false o (q_elems A.2) r (q_elems A'.2) /\
      storage_stays (flat_need o (q_elems A.2)) A.2 A'.2;
    wexn := fun (c : Fn small_flat_code) (o : wop small_flat_code) (A : abs (small_spec N)) e
        (A' : abs (small_spec N)) =>
      A'.1 = A.1 /\
      flat_exn kd c false true (nothrow_move || copyable) o (q_elems A.2) e (q_elems A'.2) /\
      storage_stays (flat_need o (q_elems A.2)) A.2 A'.2;
  |}.
  Definition small_flat_spec : cspec small_flat := wrapped_spec small_flat_code small_flat_wspec.
End flat_client.
