(** * Model of sfl::vector (include/sfl/vector.hpp)

    The members shared with small_vector are in Contig.v; this file fixes the
    storage policy of vector and adds the members specific to it.  Line numbers
    refer to include/sfl/vector.hpp. *)

From Verif Require Export Contig.

(** [std::swap] of the data members of two container objects. *)
Definition swap_storage (o1 o2 : vdata) : vdata * vdata :=
  (with_storage (v_first o2) (v_last o2) (v_eos o2) o1,
   with_storage (v_first o1) (v_last o1) (v_eos o1) o2).

Section vector.
  Context `{Env}.

  (** 1194-1216 [calculate_new_capacity], in [size_type] arithmetic. *)
  Definition vec_calc_cap (size cap n : Z) : option Z :=
    if wrap (max_size - size) <? n then None
    else if wrap (max_size - cap) <? cap / 2 then Some max_size
    else if wrap (size + n) <? wrap (cap + cap / 2) then Some (wrap (cap + cap / 2))
    else Some (wrap (size + n)).

  (** The storage of vector: always allocated.
      - [acquire]: e.g. 662-664 [new_first = allocate(...); new_eos = new_first + new_cap];
      - [restock]: 1234-1246, the second half of [reset];
      - [init_acquire] / [init_release]: 1253-1255, 1268. *)
  Definition vec_storage : storage := {|
    acquire := fun n =>
      (o <- getS;; p <- allocate (v_alloc o) n;; ret (p, p +ₗ n))%prog;
    release := fun p n => (o <- getS;; deallocate (v_alloc o) p n)%prog;
    calc_cap := vec_calc_cap;
    restock := fun n =>
      (modS (with_storage null null null);;
       if 0 <? n then
         o <- getS;;
         p <- allocate (v_alloc o) n;;
         modS (with_storage p p (p +ₗ n))
       else ret tt)%prog;
    init_acquire := fun n =>
      (o <- getS;; p <- allocate (v_alloc o) n;; modS (with_storage p p (p +ₗ n)))%prog;
    init_release := fun n => (o <- getS;; deallocate (v_alloc o) (v_first o) n)%prog;
  |}.

  (** 62-98 [data()]: the state of a vector before its constructor body runs. *)
  Definition vec_empty (a : nat) : vdata := Vec a null null null.

  (** 407-450 (body of [reserve]) and 459-502 (body of [shrink_to_fit]), which
      are the same text. *)
  Definition relocate_ (new_cap : Z) : M vdata unit :=
    (o <- getS;;
     new_first <- allocate (v_alloc o) new_cap;;
     let new_eos := new_first +ₗ new_cap in
     new_last <-
       try_ (uninitialized_move_if_noexcept_a (v_first o) (v_last o) new_first)
            (deallocate (v_alloc o) new_first new_cap);;
     replace_storage vec_storage new_first new_last new_eos)%prog.

  (** 401-451 [reserve]. *)
  Definition vec_reserve (new_cap : Z) : M vdata unit :=
    (check_size new_cap;;
     cap <- capacity_;;
     if cap <? new_cap then relocate_ new_cap else ret tt)%prog.

  (** 453-503 [shrink_to_fit]. *)
  Definition vec_shrink_to_fit : M vdata unit :=
    (new_cap <- size_;;
     cap <- capacity_;;
     if new_cap <? cap then relocate_ new_cap else ret tt)%prog.

  (** 1363-1389 [initialize_copy] (object 1 is being constructed from object 2). *)
  Definition vec_initialize_copy : M (vdata * vdata) unit :=
    (oo <- getS;;
     srcs <- range ACopy (v_first oo.2) (v_last oo.2);;
     on1 (init_range_ vec_storage srcs))%prog.

  (** 1391-1424 [initialize_move]. *)
  Definition vec_initialize_move : M (vdata * vdata) unit :=
    (oo <- getS;;
     if Nat.eqb (v_alloc oo.1) (v_alloc oo.2) then
       putS (with_storage (v_first oo.2) (v_last oo.2) (v_eos oo.2) oo.1,
             with_storage null null null oo.2)
     else
       srcs <- range AMove (v_first oo.2) (v_last oo.2);;
       on1 (init_range_ vec_storage srcs))%prog.

  (** 167-177 copy constructor, object 1 fresh. *)
  Definition vec_copy_ctor : M (vdata * vdata) unit :=
    (oo <- getS;;
     putS (vec_empty (soccc (v_alloc oo.2)), oo.2);;
     vec_initialize_copy)%prog.
  (** 179-183. *)
  Definition vec_copy_ctor_alloc (a : nat) : M (vdata * vdata) unit :=
    (oo <- getS;;
     putS (vec_empty a, oo.2);;
     vec_initialize_copy)%prog.
  (** 185-189 move constructor; a moved-from allocator keeps its value
      (requirement of the standard). *)
  Definition vec_move_ctor : M (vdata * vdata) unit :=
    (oo <- getS;;
     putS (vec_empty (v_alloc oo.2), oo.2);;
     vec_initialize_move)%prog.
  (** 191-195. *)
  Definition vec_move_ctor_alloc (a : nat) : M (vdata * vdata) unit :=
    (oo <- getS;;
     putS (vec_empty a, oo.2);;
     vec_initialize_move)%prog.

  (** 1579-1599 [assign_copy], [this != &other] ([assign_copy] of an object to
      itself does nothing). *)
  Definition vec_assign_copy : M (vdata * vdata) unit :=
    (oo <- getS;;
     (if pocca then
        (if negb (Nat.eqb (v_alloc oo.1) (v_alloc oo.2))
         then on1 (reset_ vec_storage 0) else ret tt);;
        on1 (modS (with_alloc (v_alloc oo.2)))
      else ret tt);;
     srcs <- range ACopy (v_first oo.2) (v_last oo.2);;
     on1 (assign_range_ vec_storage srcs))%prog.

  (** 1601-1633 [assign_move], two different objects. *)
  Definition vec_assign_move : M (vdata * vdata) unit :=
    (oo <- getS;;
     (if pocma then
        (if negb (Nat.eqb (v_alloc oo.1) (v_alloc oo.2))
         then on1 (reset_ vec_storage 0) else ret tt);;
        on1 (modS (with_alloc (v_alloc oo.2)))
      else ret tt);;
     oo1 <- getS;;
     if Nat.eqb (v_alloc oo1.1) (v_alloc oo1.2) then
       on1 (reset_ vec_storage 0);;
       oo2 <- getS;;
       putS (with_storage (v_first oo2.2) (v_last oo2.2) (v_eos oo2.2) oo2.1,
             with_storage null null null oo2.2)
     else
       srcs <- range AMove (v_first oo.2) (v_last oo.2);;
       on1 (assign_range_ vec_storage srcs))%prog.

  (** 1601-1633 [assign_move] with [&other == this]. *)
  Definition vec_assign_move_self : M vdata unit :=
    (reset_ vec_storage 0;;
     o <- getS;;
     modS (with_storage (v_first o) (v_last o) (v_eos o));;
     modS (with_storage null null null))%prog.

  (** 1154-1182 [swap], two different objects ([swap] with itself does nothing). *)
  Definition vec_swap : M (vdata * vdata) unit :=
    (oo <- getS;;
     assert_ (pocs || Nat.eqb (v_alloc oo.1) (v_alloc oo.2));;
     (if pocs then
        putS (with_alloc (v_alloc oo.2) oo.1, with_alloc (v_alloc oo.1) oo.2)
      else ret tt);;
     oo1 <- getS;;
     putS (swap_storage oo1.1 oo1.2))%prog.
End vector.

(** ** Algorithms of the C++ standard library used by the containers

    [std::remove_if], [std::remove], [std::equal], [std::lexicographical_compare]
    as specified by the standard; predicates and comparisons of elements may
    throw. *)
Section stdalgo.
  Context `{Env}.
  Context {St : Type}.

  Definition test_ (p : V -> bool) (x : loc) : M St bool :=
    (v <- read x;; step_ KCmp EUser;; ret (p v))%prog.
  Definition test2_ (r : V -> V -> bool) (x y : loc) : M St bool :=
    (v <- read x;; w <- read y;; step_ KCmp EUser;; ret (r v w))%prog.

  (** [std::find_if] over the [n] elements from [x]; the result is the number of
      elements before the one found. *)
  Fixpoint find_if_ (p : V -> bool) (x : loc) (n : nat) : M St nat :=
    match n with
    | O => ret O
    | S n' =>
        b <- test_ p x;;
        if b then ret O
        else k <- find_if_ p (x +ₗ 1) n';; ret (S k)
    end%prog.
  (** The loop of [std::remove_if] after the first match. *)
  Fixpoint remove_loop_ (p : V -> bool) (d x : loc) (n : nat) : M St loc :=
    match n with
    | O => ret d
    | S n' =>
        b <- test_ p x;;
        if b then remove_loop_ p d (x +ₗ 1) n'
        else assign d (AMove x);; remove_loop_ p (d +ₗ 1) (x +ₗ 1) n'
    end%prog.
  (** [std::remove_if(first, last, p)]; [std::remove(first, last, value)] is
      [remove_if] with the predicate [== value] ([value] outside the range). *)
  Definition remove_if_ (p : V -> bool) (first last : loc) : M St loc :=
    (n <- range_len first last;;
     k <- find_if_ p first n;;
     if Nat.eqb k n then ret last
     else remove_loop_ p (first +ₗ Z.of_nat k) (first +ₗ Z.of_nat (S k)) (n - S k))%prog.

  (** [std::equal] of [n] elements. *)
  Fixpoint equal_ (r : V -> V -> bool) (x y : loc) (n : nat) : M St bool :=
    match n with
    | O => ret true
    | S n' =>
        b <- test2_ r x y;;
        if b then equal_ r (x +ₗ 1) (y +ₗ 1) n' else ret false
    end%prog.
  (** [std::lexicographical_compare] of [n] and [m] elements. *)
  Fixpoint lexcmp_ (lt : V -> V -> bool) (x : loc) (n : nat) (y : loc) (m : nat) : M St bool :=
    match n, m with
    | _, O => ret false
    | O, S _ => ret true
    | S n', S m' =>
        b <- test2_ lt x y;;
        if b then ret true
        else
          c <- test2_ lt y x;;
          if c then ret false else lexcmp_ lt (x +ₗ 1) n' (y +ₗ 1) m'
    end%prog.
End stdalgo.

Section free_functions.
  Context `{Env}.

  (** 2060-2078 [erase], [erase_if]; s 2510-2530; t: same text. *)
  Definition erase_if_ (p : V -> bool) : M vdata Z :=
    (o <- getS;;
     it <- remove_if_ p (v_first o) (v_last o);;
     r <- ptr_sub (v_last o) it;;
     erase_range_ it (v_last o);;
     ret r)%prog.

  (** 1984-1993 [operator==]. *)
  Definition eq_ (r : V -> V -> bool) : M (vdata * vdata) bool :=
    (n1 <- on1 size_;;
     n2 <- on2 size_;;
     oo <- getS;;
     if n1 =? n2 then equal_ r (v_first oo.1) (v_first oo.2) (Z.to_nat n1) else ret false)%prog.
  (** 2006-2015 [operator<]. *)
  Definition lt_ (lt : V -> V -> bool) : M (vdata * vdata) bool :=
    (n1 <- on1 size_;;
     n2 <- on2 size_;;
     oo <- getS;;
     lexcmp_ lt (v_first oo.1) (Z.to_nat n1) (v_first oo.2) (Z.to_nat n2))%prog.
End free_functions.
