(** * Model of sfl::small_vector (include/sfl/small_vector.hpp)

    The members shared with vector are in Contig.v; this file fixes the storage
    policy of small_vector and adds the members specific to it.  Line numbers
    refer to include/sfl/small_vector.hpp.

    [N] is the template parameter; [ib] is the address of the internal storage
    of the object at hand ([internal_storage()], 95-98 and 116-119): null if [N]
    is 0. *)

From Verif Require Export Vector.
Open Scope Z_scope.

Section small.
  Context `{Env}.
  Variable N : nat.
  Notation NZ := (Z.of_nat N).

  (** 1549-1571 [calculate_new_capacity], in [size_type] arithmetic. *)
  Definition small_calc_cap (size cap n : Z) : option Z :=
    if wrap (max_size - size) <? n then None
    else if wrap (max_size - cap) <? cap / 2 then Some max_size
    else if wrap (size + n) <? wrap (cap + cap / 2) then Some (Z.max NZ (wrap (cap + cap / 2)))
    else Some (Z.max NZ (wrap (size + n))).

  (** The storage of small_vector.
      - [acquire]: 810-823 (and the same text in 978-991, 1151-1164, 1282-1295,
        2134-2147, 2351-2364): the internal storage if it is free and large
        enough, else a new block;
      - [release]: e.g. 883-891, deallocate unless it is the internal storage;
      - [restock]: 1590-1604, the second half of [reset];
      - [init_acquire] / [init_release]: 1611-1616, 1629-1632. *)
  Definition small_storage (ib : loc) : storage := {|
    acquire := fun n =>
      (o <- getS;;
       if (n <=? NZ) && negb (loc_eqb (v_first o) ib) then ret (ib, ib +ₗ NZ)
       else p <- allocate (v_alloc o) n;; ret (p, p +ₗ n))%prog;
    release := fun p n =>
      (if loc_eqb p ib then ret tt else o <- getS;; deallocate (v_alloc o) p n)%prog;
    calc_cap := small_calc_cap;
    restock := fun n =>
      (modS (with_storage ib ib (ib +ₗ NZ));;
       if NZ <? n then
         o <- getS;;
         p <- allocate (v_alloc o) n;;
         modS (with_storage p p (p +ₗ n))
       else ret tt)%prog;
    init_acquire := fun n =>
      (if NZ <? n then
         o <- getS;; p <- allocate (v_alloc o) n;; modS (with_storage p p (p +ₗ n))
       else ret tt)%prog;
    init_release := fun n =>
      (if NZ <? n then o <- getS;; deallocate (v_alloc o) (v_first o) n else ret tt)%prog;
  |}.

  (** 86-90 and 110-114 [data_base()]: the state before the constructor body runs. *)
  Definition small_empty (ib : loc) (a : nat) : vdata := Vec a ib ib (ib +ₗ NZ).

  (** 460-551 (body of [reserve]) and 560-651 (body of [shrink_to_fit]), which
      are the same text. *)
  Definition small_relocate (ib : loc) (new_cap : Z) : M vdata unit :=
    (o <- getS;;
     if new_cap <=? NZ then
       if loc_eqb (v_first o) ib then ret tt
       else
         new_last <- uninitialized_move_if_noexcept_a (v_first o) (v_last o) ib;;
         destroy_a (v_first o) (v_last o);;
         cap <- ptr_sub (v_eos o) (v_first o);;
         deallocate (v_alloc o) (v_first o) cap;;
         modS (with_storage ib new_last (ib +ₗ NZ))
     else
       new_first <- allocate (v_alloc o) new_cap;;
       new_last <-
         try_ (uninitialized_move_if_noexcept_a (v_first o) (v_last o) new_first)
              (deallocate (v_alloc o) new_first new_cap);;
       replace_storage (small_storage ib) new_first new_last (new_first +ₗ new_cap))%prog.

  (** 454-552 [reserve]. *)
  Definition small_reserve (ib : loc) (new_cap : Z) : M vdata unit :=
    (check_size new_cap;;
     cap <- capacity_;;
     if cap <? new_cap then small_relocate ib new_cap else ret tt)%prog.

  (** 554-652 [shrink_to_fit]. *)
  Definition small_shrink_to_fit (ib : loc) : M vdata unit :=
    (new_cap <- size_;;
     cap <- capacity_;;
     if new_cap <? cap then small_relocate ib new_cap else ret tt)%prog.

  (** In the following, object 1 has internal storage [ib1], object 2 [ib2]. *)

  (** 1741-1773 [initialize_copy]: object 1 is being constructed from object 2. *)
  Definition small_initialize_copy (ib1 : loc) : M (vdata * vdata) unit :=
    (oo <- getS;;
     srcs <- range ACopy (v_first oo.2) (v_last oo.2);;
     on1 (init_range_ (small_storage ib1) srcs))%prog.

  (** 1775-1830 [initialize_move]. *)
  Definition small_initialize_move (ib1 ib2 : loc) : M (vdata * vdata) unit :=
    (oo <- getS;;
     if loc_eqb (v_first oo.2) ib2 then
       nl <- uninitialized_move_a (v_first oo.2) (v_last oo.2) (v_first oo.1);;
       on1 (set_last nl)
     else if Nat.eqb (v_alloc oo.1) (v_alloc oo.2) then
       putS (with_storage (v_first oo.2) (v_last oo.2) (v_eos oo.2) oo.1,
             with_storage null null null oo.2)
     else
       srcs <- range AMove (v_first oo.2) (v_last oo.2);;
       on1 (init_range_ (small_storage ib1) srcs))%prog.

  (** 211-222 copy constructor, object 1 fresh. *)
  Definition small_copy_ctor (ib1 ib2 : loc) : M (vdata * vdata) unit :=
    (oo <- getS;;
     putS (small_empty ib1 (soccc (v_alloc oo.2)), oo.2);;
     small_initialize_copy ib1)%prog.
  (** 224-228. *)
  Definition small_copy_ctor_alloc (a : nat) (ib1 ib2 : loc) : M (vdata * vdata) unit :=
    (oo <- getS;;
     putS (small_empty ib1 a, oo.2);;
     small_initialize_copy ib1)%prog.
  (** 230-234 move constructor. *)
  Definition small_move_ctor (ib1 ib2 : loc) : M (vdata * vdata) unit :=
    (oo <- getS;;
     putS (small_empty ib1 (v_alloc oo.2), oo.2);;
     small_initialize_move ib1 ib2)%prog.
  (** 236-240. *)
  Definition small_move_ctor_alloc (a : nat) (ib1 ib2 : loc) : M (vdata * vdata) unit :=
    (oo <- getS;;
     putS (small_empty ib1 a, oo.2);;
     small_initialize_move ib1 ib2)%prog.

  (** 1985-2005 [assign_copy], two different objects. *)
  Definition small_assign_copy (ib1 ib2 : loc) : M (vdata * vdata) unit :=
    (oo <- getS;;
     (if pocca then
        (if negb (Nat.eqb (v_alloc oo.1) (v_alloc oo.2))
         then on1 (reset_ (small_storage ib1) NZ) else ret tt);;
        on1 (modS (with_alloc (v_alloc oo.2)))
      else ret tt);;
     srcs <- range ACopy (v_first oo.2) (v_last oo.2);;
     on1 (assign_range_ (small_storage ib1) srcs))%prog.

  (** 2007-2047 [assign_move], two different objects. *)
  Definition small_assign_move (ib1 ib2 : loc) : M (vdata * vdata) unit :=
    (oo <- getS;;
     (if pocma then
        (if negb (Nat.eqb (v_alloc oo.1) (v_alloc oo.2))
         then on1 (reset_ (small_storage ib1) NZ) else ret tt);;
        on1 (modS (with_alloc (v_alloc oo.2)))
      else ret tt);;
     oo1 <- getS;;
     if loc_eqb (v_first oo1.2) ib2 then
       srcs <- range AMove (v_first oo1.2) (v_last oo1.2);;
       on1 (assign_range_ (small_storage ib1) srcs)
     else if Nat.eqb (v_alloc oo1.1) (v_alloc oo1.2) then
       on1 (reset_ (small_storage ib1) NZ);;
       oo2 <- getS;;
       putS (with_storage (v_first oo2.2) (v_last oo2.2) (v_eos oo2.2) oo2.1,
             with_storage null null null oo2.2)
     else
       srcs <- range AMove (v_first oo1.2) (v_last oo1.2);;
       on1 (assign_range_ (small_storage ib1) srcs))%prog.

  (** 2007-2047 [assign_move] with [&other == this]: the allocator is assigned
      to itself. *)
  Definition small_assign_move_self (ib : loc) : M vdata unit :=
    (o <- getS;;
     if loc_eqb (v_first o) ib then
       srcs <- range AMove (v_first o) (v_last o);;
       assign_range_ (small_storage ib) srcs
     else
       reset_ (small_storage ib) NZ;;
       o1 <- getS;;
       modS (with_storage (v_first o1) (v_last o1) (v_eos o1));;
       modS (with_storage null null null))%prog.
End small.

(** [std::swap] of two elements and [std::swap_ranges] of [n] elements: tmp is
    constructed from [*p], then [*p = std::move( *q)] and [*q = std::move(tmp)]
    (assignment of the value of [tmp]). *)
Section swaps.
  Context `{Env} {St : Type}.
  Definition iter_swap (p q : loc) : M St unit :=
    (tmp <- make (AMove p);;
     assign p (AMove q);;
     assign q (AVal tmp))%prog.
  Fixpoint swap_ranges (p q : loc) (n : nat) : M St unit :=
    match n with
    | O => ret tt
    | S n' => iter_swap p q;; swap_ranges (p +ₗ 1) (q +ₗ 1) n'
    end%prog.
End swaps.

Section small_swap.
  Context `{Env}.
  Variable N : nat.
  Notation NZ := (Z.of_nat N).

  (** 1410-1463: both use the internal storage. *)
  Definition small_swap_internal : M (vdata * vdata) unit :=
    (n1 <- on1 size_;;
     n2 <- on2 size_;;
     oo <- getS;;
     let f1 := v_first oo.1 in
     let f2 := v_first oo.2 in
     (if n1 <=? n2 then
        swap_ranges f1 f2 (Z.to_nat n1);;
        uninitialized_move_a (f2 +ₗ n1) (f2 +ₗ n2) (f1 +ₗ n1);;
        destroy_a (f2 +ₗ n1) (f2 +ₗ n2)
      else
        swap_ranges f2 f1 (Z.to_nat n2);;
        uninitialized_move_a (f1 +ₗ n2) (f1 +ₗ n1) (f2 +ₗ n2);;
        destroy_a (f1 +ₗ n2) (f1 +ₗ n1));;
     putS (with_last (f1 +ₗ n2) oo.1, with_last (f2 +ₗ n1) oo.2))%prog.

  (** 1379-1537 [swap], two different objects. *)
  Definition small_swap (ib1 ib2 : loc) : M (vdata * vdata) unit :=
    (oo0 <- getS;;
     assert_ (pocs || Nat.eqb (v_alloc oo0.1) (v_alloc oo0.2));;
     (if pocs then
        putS (with_alloc (v_alloc oo0.2) oo0.1, with_alloc (v_alloc oo0.1) oo0.2)
      else ret tt);;
     oo <- getS;;
     if loc_eqb (v_first oo.1) ib1 && loc_eqb (v_first oo.2) ib2 then small_swap_internal
     else if loc_eqb (v_first oo.1) ib1 then
       (* 1465-1497 *)
       nl <- uninitialized_move_a (v_first oo.1) (v_last oo.1) ib2;;
       destroy_a (v_first oo.1) (v_last oo.1);;
       putS (with_storage (v_first oo.2) (v_last oo.2) (v_eos oo.2) oo.1,
             with_storage ib2 nl (ib2 +ₗ NZ) oo.2)
     else if loc_eqb (v_first oo.2) ib2 then
       (* 1498-1530 *)
       nl <- uninitialized_move_a (v_first oo.2) (v_last oo.2) ib1;;
       destroy_a (v_first oo.2) (v_last oo.2);;
       putS (with_storage ib1 nl (ib1 +ₗ NZ) oo.1,
             with_storage (v_first oo.1) (v_last oo.1) (v_eos oo.1) oo.2)
     else putS (swap_storage oo.1 oo.2))%prog.
End small_swap.

(** ** Objects with internal storage

    An object is the address of its internal storage together with the data
    members.  Its storage appears when construction begins and disappears when
    the object is destroyed or its construction fails. *)
Notation sobj := (loc * vdata)%type.

Section objects.
  Context `{Env}.
  Variable N : nat.

  Definition buffer {St} : M St loc := if Nat.eqb N 0 then ret null else enter N.
  Definition drop_buffer {St} (ib : loc) : M St unit :=
    if Nat.eqb N 0 then ret tt else leave ib N.

  (** A member function of an object. *)
  Definition member {T} (m : loc -> M vdata T) : M sobj T := fun x w =>
    match m x.1 x.2 w with
    | Ok a o w' => Ok a (x.1, o) w'
    | Exn e o w' => Exn e (x.1, o) w'
    | UB => UB
    end.
  Definition member2 {T} (m : loc -> loc -> M (vdata * vdata) T) : M (sobj * sobj) T := fun xy w =>
    match m xy.1.1 xy.2.1 (xy.1.2, xy.2.2) w with
    | Ok a o w' => Ok a ((xy.1.1, o.1), (xy.2.1, o.2)) w'
    | Exn e o w' => Exn e ((xy.1.1, o.1), (xy.2.1, o.2)) w'
    | UB => UB
    end.
  (** Construction: a failing constructor takes the storage with it. *)
  Definition construct_small (o : loc -> vdata) (m : loc -> M vdata unit) : M unit sobj :=
    (ib <- buffer;;
     try_ (fun _ w =>
             match m ib (o ib) w with
             | Ok _ o' w' => Ok (ib, o') tt w'
             | Exn e _ w' => Exn e tt w'
             | UB => UB
             end)
          (drop_buffer ib))%prog.
  Definition construct_small_from (o : loc -> vdata) (m : loc -> loc -> M (vdata * vdata) unit)
      : M sobj sobj :=
    (ib <- buffer;;
     try_ (fun y w =>
             match m ib y.1 (o ib, y.2) w with
             | Ok _ o' w' => Ok (ib, o'.1) (y.1, o'.2) w'
             | Exn e o' w' => Exn e (y.1, o'.2) w'
             | UB => UB
             end)
          (drop_buffer ib))%prog.
  (** Destruction. *)
  Definition kill_small (m : loc -> M vdata unit) : M sobj unit :=
    (member m;; x <- getS;; drop_buffer x.1)%prog.
End objects.
