(** * Model of sfl::devector (include/sfl/devector.hpp)

    Line numbers refer to include/sfl/devector.hpp.

    Everything is parametrised by [fixed : bool].  [fixed = false] is the code as
    it stands.  [fixed = true] differs in three places only, marked "fixed:"
    below; it is used to state what the code would guarantee with the three
    corrections, and as a stepping stone for calls in which nothing throws. *)

From Verif Require Export Algo Vector.

(** Data members: 76-120 [data_base], and the allocator. *)
Record ddata := Dev {
  d_alloc : nat;
  d_bos : loc;
  d_first : loc;
  d_last : loc;
  d_eos : loc;
}.

Definition dev_storage (b f l e : loc) (o : ddata) : ddata := Dev (d_alloc o) b f l e.
Definition dev_first (f : loc) (o : ddata) : ddata := Dev (d_alloc o) (d_bos o) f (d_last o) (d_eos o).
Definition dev_last (l : loc) (o : ddata) : ddata := Dev (d_alloc o) (d_bos o) (d_first o) l (d_eos o).
Definition dev_alloc (a : nat) (o : ddata) : ddata := Dev a (d_bos o) (d_first o) (d_last o) (d_eos o).

(** ** The insertion proxies *)
Section proxies.
  Context `{Env}.
  Context {St : Type}.

  (** 1224-1278 [emplace_proxy] holding a reference to a temporary of value [v],
      1280-1308 [insert_range_proxy], 1310-1335 [insert_fill_n_proxy]. *)
  Inductive proxy :=
    | PEmplace (v : V)
    | PRange (srcs : list arg)
    | PFill (a : arg).

  (** [value_type(std::move(tmp))]: the move constructor, from a temporary that is
      not used afterwards. *)
  Definition make_moved (v : V) : M St V :=
    (o <- oracle KMove;;
     match o with
     | Some _ => ret tt;; throw EUser
     | None => ret v
     end)%prog.
  Definition construct_moved (p : loc) (v : V) : M St unit :=
    (expect_raw p;; w <- make_moved v;; set_live p w)%prog.
  (** [*p = value_type(std::move(tmp))]: move construction of a temporary, then
      move assignment. *)
  Definition assign_moved (p : loc) (v : V) : M St unit :=
    (w <- make_moved v;;
     _ <- read p;;
     o <- oracle KMoveAssign;;
     match o with
     | Some t => write p (junk1 t);; throw EUser
     | None => write p w
     end)%prog.

  (** 1234-1246, 1293-1299, 1322-1327 [uninitialized_insert_n].  The result
      contains the proxy after the call ([insert_range_proxy] advances). *)
  Definition px_uninit (px : proxy) (dest : loc) (n : Z) : M St (loc * proxy) :=
    match px with
    | PEmplace v =>
        if n =? 0 then ret (dest, px)
        else assert_ (n =? 1);; construct_moved dest v;; ret (dest +ₗ 1, px)
    | PRange srcs =>
        assert_ (n <=? Z.of_nat (length srcs));;
        q <- uninitialized_copy_a (take (Z.to_nat n) srcs) dest;;
        ret (q, PRange (drop (Z.to_nat n) srcs))
    | PFill a =>
        uninitialized_fill_a dest (dest +ₗ n) a;;
        ret (dest +ₗ n, px)
    end%prog.
  (** 1249-1261, 1301-1307, 1329-1334 [insert_n]. *)
  Definition px_insert (px : proxy) (dest : loc) (n : Z) : M St (loc * proxy) :=
    match px with
    | PEmplace v =>
        if n =? 0 then ret (dest, px)
        else assert_ (n =? 1);; assign_moved dest v;; ret (dest +ₗ 1, px)
    | PRange srcs =>
        assert_ (n <=? Z.of_nat (length srcs));;
        q <- copy (take (Z.to_nat n) srcs) dest;;
        ret (q, PRange (drop (Z.to_nat n) srcs))
    | PFill a =>
        fill dest (dest +ₗ n) a;;
        ret (dest +ₗ n, px)
    end%prog.
End proxies.

(** ** Shifting elements inside the storage *)
Section shifting.
  Context `{Env}.
  Context {St : Type}.

  Definition ge_ (p q : loc) : M St bool := (d <- ptr_sub p q;; ret (0 <=? d))%prog.
  Definition le_ (p q : loc) : M St bool := (d <- ptr_sub q p;; ret (0 <=? d))%prog.
  (** A scope guard (private.hpp 2445-2497) active for the rest of the block and
      dismissed at its end: [c] runs if the rest [m] throws. *)
  Definition guarded (c : M St unit) (m : M St unit) : M St unit := try_ m c.
  (** [if (p != q) { move(p, p_end, q); }] *)
  Definition move_unless_same (p p_end q : loc) : M St unit :=
    (if negb (loc_eqb p q) then move p p_end q;; ret tt else ret tt)%prog.
  (** [if (p_end != q_end) { move_backward(p, p_end, q_end); }] *)
  Definition move_backward_unless_same (p p_end q_end : loc) : M St unit :=
    (if negb (loc_eqb p_end q_end) then move_backward p p_end q_end;; ret tt else ret tt)%prog.

  (** *** 2119-2378 [insert_aux], the branches without reallocation or shift *)

  (** 2141-2192. *)
  Definition insert_front_1 (px : proxy) (first : loc) (k n : Z) : M St unit :=
    (let q10 := first +ₗ - n in
     let q11 := first in
     let q20 := q10 +ₗ k in
     let q30 := first +ₗ k in
     let p10 := first in
     d <- ptr_sub q11 q10;;
     let p11 := p10 +ₗ d in
     let p20 := q30 in
     uninitialized_move_a p10 p11 q10;;
     guarded (destroy_a q10 q11)
       (move_unless_same p11 p20 q11;;
        px_insert px q20 n;;
        ret tt))%prog.
  (** 2193-2244. *)
  Definition insert_front_2 (px : proxy) (first : loc) (k n : Z) : M St unit :=
    (let q10 := first +ₗ - n in
     let q20 := q10 +ₗ k in
     let q21 := first in
     let q30 := first +ₗ k in
     let p10 := first in
     let p20 := q30 in
     uninitialized_move_a p10 p20 q10;;
     guarded (destroy_a q10 q20)
       (d <- ptr_sub q21 q20;;
        r <- px_uninit px q20 d;;
        guarded (destroy_a q20 q21)
          (d2 <- ptr_sub q30 q21;;
           px_insert r.2 q21 d2;;
           ret tt)))%prog.
  (** 2264-2315; [m] is [dist_to_end]. *)
  Definition insert_back_1 (px : proxy) (first last : loc) (k m n : Z) : M St unit :=
    (let q20 := first +ₗ k in
     let q30 := q20 +ₗ n in
     let q31 := last in
     let q40 := q30 +ₗ m in
     let p20 := q20 in
     d <- ptr_sub q31 q30;;
     let p21 := p20 +ₗ d in
     let p30 := q31 in
     uninitialized_move_a p21 p30 q31;;
     guarded (destroy_a q31 q40)
       (move_backward_unless_same p20 p21 q31;;
        px_insert px q20 n;;
        ret tt))%prog.
  (** 2316-2362. *)
  Definition insert_back_2 (px : proxy) (first last : loc) (k m n : Z) : M St unit :=
    (let q20 := first +ₗ k in
     let q21 := last in
     let q30 := q20 +ₗ n in
     let q40 := q30 +ₗ m in
     let p20 := q20 in
     let p30 := q21 in
     uninitialized_move_a p20 p30 q30;;
     guarded (destroy_a q30 q40)
       (r <- px_insert px q20 m;;
        d <- ptr_sub q30 q21;;
        px_uninit r.2 q21 d;;
        ret tt))%prog.

  (** *** 2380-3107 [insert_aux_shift_to_back], branch by branch *)
  Section to_back.
    Variables (fixed : bool) (px : proxy) (n : Z).
    Variables (p10 p20 p30 q10 q20 q30 q40 : loc).

    (** 2406-2453: q30 >= p30, q20 >= p30, q10 >= p30. *)
    Definition back_1 : M St unit :=
      (uninitialized_move_a p10 p20 q10;;
       guarded (destroy_a q10 q20)
         (px_uninit px q20 n;;
          guarded (destroy_a q20 q30)
            (uninitialized_move_a p20 p30 q30;;
             destroy_a p10 p30)))%prog.
    (** 2454-2519: q30 >= p30, q20 >= p30, p20 <= q10 < p30. *)
    Definition back_2 : M St unit :=
      (let q11 := p30 in
       d <- ptr_sub q11 q10;;
       let p11 := p10 +ₗ d in
       let p21 := q10 in
       uninitialized_move_a p20 p30 q30;;
       guarded (destroy_a q30 q40)
         (px_uninit px q20 n;;
          guarded (destroy_a q20 q30)
            (uninitialized_move_a p11 p20 q11;;
             guarded (destroy_a q11 q20)
               (move p10 p11 q10;;
                destroy_a p10 p21))))%prog.
    (** 2520-2588: q30 >= p30, q20 >= p30, p10 <= q10 < p20. *)
    Definition back_3 : M St unit :=
      (let q11 := p30 in
       let p11 := q10 in
       d <- ptr_sub q11 q10;;
       let p12 := p10 +ₗ d in
       uninitialized_move_a p20 p30 q30;;
       guarded (destroy_a q30 q40)
         (px_uninit px q20 n;;
          guarded (destroy_a q20 q30)
            (uninitialized_move_a p12 p20 q11;;
             guarded (destroy_a q11 q20)
               (move_backward_unless_same p10 p12 q11;;
                destroy_a p10 p11))))%prog.
    (** 2597-2649: q30 >= p30, p20 <= q20 < p30, q10 >= p20. *)
    Definition back_4 : M St unit :=
      (let q21 := p30 in
       let p21 := q10 in
       uninitialized_move_a p20 p30 q30;;
       guarded (destroy_a q30 q40)
         (move p10 p20 q10;;
          d <- ptr_sub q21 q20;;
          r <- px_insert px q20 d;;
          d2 <- ptr_sub q30 q21;;
          px_uninit r.2 q21 d2;;
          destroy_a p10 p21))%prog.
    (** 2650-2705: q30 >= p30, p20 <= q20 < p30, p10 <= q10 < p20. *)
    Definition back_5 : M St unit :=
      (let q21 := p30 in
       let p11 := q10 in
       uninitialized_move_a p20 p30 q30;;
       guarded (destroy_a q30 q40)
         (move_backward_unless_same p10 p20 q20;;
          d <- ptr_sub q21 q20;;
          r <- px_insert px q20 d;;
          d2 <- ptr_sub q30 q21;;
          px_uninit r.2 q21 d2;;
          destroy_a p10 p11))%prog.
    (** 2712-2774: q30 >= p30, p10 <= q20 < p20.
        fixed: the second guard destroys [q10, q11) instead of [q10, q10). *)
    Definition back_6 : M St unit :=
      (let q11 := p10 in
       let q21 := p30 in
       d <- ptr_sub q11 q10;;
       let p11 := p10 +ₗ d in
       uninitialized_move_a p20 p30 q30;;
       guarded (destroy_a q30 q40)
         (uninitialized_move_a p10 p11 q10;;
          guarded (destroy_a q10 (if fixed then q11 else q10))
            (move_unless_same p11 p20 q11;;
             d1 <- ptr_sub q21 q20;;
             r <- px_insert px q20 d1;;
             d2 <- ptr_sub q30 q21;;
             px_uninit r.2 q21 d2;;
             ret tt)))%prog.
    (** 2775-2837: q30 >= p30, q20 < p10. *)
    Definition back_7 : M St unit :=
      (let q21 := p10 in
       let q22 := p30 in
       uninitialized_move_a p10 p20 q10;;
       guarded (destroy_a q10 q20)
         (uninitialized_move_a p20 p30 q30;;
          guarded (destroy_a q30 q40)
            (d <- ptr_sub q21 q20;;
             r <- px_uninit px q20 d;;
             guarded (destroy_a q20 q21)
               (d1 <- ptr_sub q22 q21;;
                r2 <- px_insert r.2 q21 d1;;
                d2 <- ptr_sub q30 q22;;
                px_uninit r2.2 q22 d2;;
                ret tt))))%prog.
    (** 2843-2899: q30 < p30, q20 >= p20, q10 >= p20. *)
    Definition back_8 : M St unit :=
      (let q31 := p30 in
       let p21 := q10 in
       d <- ptr_sub q31 q30;;
       let p22 := p20 +ₗ d in
       uninitialized_move_a p22 p30 q31;;
       guarded (destroy_a q31 q40)
         (move_backward_unless_same p20 p22 q31;;
          move p10 p20 q10;;
          px_insert px q20 n;;
          destroy_a p10 p21))%prog.
    (** 2900-2959: q30 < p30, q20 >= p20, p10 <= q10 < p20. *)
    Definition back_9 : M St unit :=
      (let q31 := p30 in
       let p11 := q10 in
       d <- ptr_sub q31 q30;;
       let p21 := p20 +ₗ d in
       uninitialized_move_a p21 p30 q31;;
       guarded (destroy_a q31 q40)
         (move_backward_unless_same p20 p21 q31;;
          move_backward_unless_same p10 p20 q20;;
          px_insert px q20 n;;
          destroy_a p10 p11))%prog.
    (** 2966-3032: q30 < p30, p10 <= q20 < p20. *)
    Definition back_10 : M St unit :=
      (let q11 := p10 in
       let q31 := p30 in
       d <- ptr_sub q11 q10;;
       let p11 := p10 +ₗ d in
       d1 <- ptr_sub q31 q30;;
       let p21 := p20 +ₗ d1 in
       uninitialized_move_a p10 p11 q10;;
       guarded (destroy_a q10 q11)
         (move_unless_same p11 p20 q11;;
          uninitialized_move_a p21 p30 q31;;
          guarded (destroy_a q31 q40)
            (move_backward_unless_same p20 p21 q31;;
             px_insert px q20 n;;
             ret tt)))%prog.
    (** 3033-3100: q30 < p30, q20 < p10. *)
    Definition back_11 : M St unit :=
      (let q21 := p10 in
       let q31 := p30 in
       d <- ptr_sub q31 q30;;
       let p21 := p20 +ₗ d in
       uninitialized_move_a p10 p20 q10;;
       guarded (destroy_a q10 q20)
         (uninitialized_move_a p21 p30 q31;;
          guarded (destroy_a q31 q40)
            (move_backward_unless_same p20 p21 q31;;
             d1 <- ptr_sub q21 q20;;
             r <- px_uninit px q20 d1;;
             guarded (destroy_a q20 q21)
               (d2 <- ptr_sub q30 q21;;
                px_insert r.2 q21 d2;;
                ret tt))))%prog.

    (** 2402-3101, the choice of the branch. *)
    Definition shift_back_body : M St unit :=
      (c <- ge_ q30 p30;;
       if c then
         c <- ge_ q20 p30;;
         if c then
           c <- ge_ q10 p30;;
           if c then back_1 else
           c <- ge_ q10 p20;;
           if c then back_2 else
           c <- ge_ q10 p10;;
           if c then back_3 else assert_ false
         else
         c <- ge_ q20 p20;;
         if c then
           c <- ge_ q10 p20;;
           if c then back_4 else
           c <- ge_ q10 p10;;
           if c then back_5 else assert_ false
         else
         c <- ge_ q20 p10;;
         if c then back_6 else back_7
       else
         c <- ge_ q20 p20;;
         if c then
           c <- ge_ q10 p20;;
           if c then back_8 else
           c <- ge_ q10 p10;;
           if c then back_9 else assert_ false
         else
         c <- ge_ q20 p10;;
         if c then back_10 else back_11)%prog.
  End to_back.

  (** *** 3109-3856 [insert_aux_shift_to_front], branch by branch *)
  Section to_front.
    Variables (fixed : bool) (px : proxy) (n : Z).
    Variables (p10 p20 p30 q10 q20 q30 q40 : loc).

    (** 3135-3182: q20 <= p10, q30 <= p10, q40 <= p10. *)
    Definition front_1 : M St unit :=
      (uninitialized_move_a p10 p20 q10;;
       guarded (destroy_a q10 q20)
         (px_uninit px q20 n;;
          guarded (destroy_n_a q20 (Z.to_nat n))
            (uninitialized_move_a p20 p30 q30;;
             destroy_a p10 p30)))%prog.
    (** 3183-3250 and 3251-3318 (the same text): q20 <= p10, q30 <= p10,
        p10 < q40 <= p30. *)
    Definition front_2 : M St unit :=
      (let q31 := p10 in
       d <- ptr_sub q31 q30;;
       let p21 := p20 +ₗ d in
       uninitialized_move_a p10 p20 q10;;
       guarded (destroy_a q10 q20)
         (px_uninit px q20 n;;
          guarded (destroy_n_a q20 (Z.to_nat n))
            (uninitialized_move_a p20 p21 q30;;
             guarded (destroy_a q30 q31)
               (move_unless_same p21 p30 q31;;
                destroy_a q40 p30))))%prog.
    (** 3327-3387 (where [p11] is [q40]) and 3388-3447 (the same text, with
        [std::move] for [sfl::dtl::move]): q20 <= p10, p10 < q30 <= p20, q40 <= p30. *)
    Definition front_3 : M St unit :=
      (let q21 := p10 in
       uninitialized_move_a p10 p20 q10;;
       guarded (destroy_a q10 q20)
         (d <- ptr_sub q21 q20;;
          r <- px_uninit px q20 d;;
          guarded (destroy_a q20 q21)
            (d2 <- ptr_sub q30 q21;;
             px_insert r.2 q21 d2;;
             move_unless_same p20 p30 q30;;
             destroy_a q40 p30)))%prog.
    (** 3454-3521: q20 <= p10, p20 < q30 <= p30. *)
    Definition front_4 : M St unit :=
      (let q21 := p10 in
       let q31 := p30 in
       d <- ptr_sub q31 q30;;
       let p21 := p20 +ₗ d in
       uninitialized_move_a p10 p20 q10;;
       guarded (destroy_a q10 q20)
         (d1 <- ptr_sub q21 q20;;
          r <- px_uninit px q20 d1;;
          guarded (destroy_a q20 q21)
            (uninitialized_move_a p21 p30 q31;;
             guarded (destroy_a q31 q40)
               (move_backward_unless_same p20 p21 q31;;
                d2 <- ptr_sub q30 q21;;
                px_insert r.2 q21 d2;;
                ret tt))))%prog.
    (** 3522-3590: q20 <= p10, q30 > p30. *)
    Definition front_5 : M St unit :=
      (let q21 := p10 in
       let q22 := p30 in
       uninitialized_move_a p10 p20 q10;;
       guarded (destroy_a q10 q20)
         (d <- ptr_sub q21 q20;;
          r <- px_uninit px q20 d;;
          guarded (destroy_a q20 q21)
            (uninitialized_move_a p20 p30 q30;;
             guarded (destroy_a q30 q40)
               (d1 <- ptr_sub q22 q21;;
                r2 <- px_insert r.2 q21 d1;;
                d2 <- ptr_sub q30 q22;;
                px_uninit r2.2 q22 d2;;
                ret tt))))%prog.
    (** 3596-3654: q20 > p10, q30 <= p20, q40 <= p20; and 3655-3713: the same
        with p20 < q40 <= p30.  [guard_end] is where the first guard stops: [q11]
        in the first case, [q20] in the second.
        fixed: [q11] in both cases. *)
    Definition front_6 (guard_end : loc) : M St unit :=
      (let q11 := p10 in
       d <- ptr_sub q11 q10;;
       let p11 := p10 +ₗ d in
       uninitialized_move_a p10 p11 q10;;
       guarded (destroy_a q10 guard_end)
         (move_unless_same p11 p20 q11;;
          px_insert px q20 n;;
          move_unless_same p20 p30 q30;;
          destroy_a q40 p30))%prog.
    (** 3720-3786: q20 > p10, p20 < q30 <= p30. *)
    Definition front_7 : M St unit :=
      (let q11 := p10 in
       let q31 := p30 in
       d <- ptr_sub q11 q10;;
       let p11 := p10 +ₗ d in
       d1 <- ptr_sub q31 q30;;
       let p21 := p20 +ₗ d1 in
       uninitialized_move_a p10 p11 q10;;
       guarded (destroy_a q10 q11)
         (move_unless_same p11 p20 q11;;
          uninitialized_move_a p21 p30 q31;;
          guarded (destroy_a q31 q40)
            (move_backward_unless_same p20 p21 q31;;
             px_insert px q20 n;;
             ret tt)))%prog.
    (** 3787-3849: q20 > p10, q30 > p30. *)
    Definition front_8 : M St unit :=
      (let q11 := p10 in
       let q21 := p30 in
       d <- ptr_sub q11 q10;;
       let p11 := p10 +ₗ d in
       uninitialized_move_a p10 p11 q10;;
       guarded (destroy_a q10 q11)
         (move_unless_same p11 p20 q11;;
          uninitialized_move_a p20 p30 q30;;
          guarded (destroy_a q30 q40)
            (d1 <- ptr_sub q21 q20;;
             r <- px_insert px q20 d1;;
             d2 <- ptr_sub q30 q21;;
             px_uninit r.2 q21 d2;;
             ret tt)))%prog.

    (** 3131-3850, the choice of the branch. *)
    Definition shift_front_body : M St unit :=
      (c <- le_ q20 p10;;
       if c then
         c <- le_ q30 p10;;
         if c then
           c <- le_ q40 p10;;
           if c then front_1 else
           c <- le_ q40 p20;;
           if c then front_2 else
           c <- le_ q40 p30;;
           if c then front_2 else assert_ false
         else
         c <- le_ q30 p20;;
         if c then
           c <- le_ q40 p20;;
           if c then front_3 else
           c <- le_ q40 p30;;
           if c then front_3 else assert_ false
         else
         c <- le_ q30 p30;;
         if c then front_4 else front_5
       else
         c <- le_ q30 p20;;
         if c then
           c <- le_ q40 p20;;
           if c then front_6 p10 else
           c <- le_ q40 p30;;
           if c then front_6 (if fixed then p10 else q20) else assert_ false
         else
         c <- le_ q30 p30;;
         if c then front_7 else front_8)%prog.
  End to_front.
End shifting.

Section devector.
  Context `{Env}.
  Variable fixed : bool.

  Definition set_first_ (p : loc) : M ddata unit := modS (dev_first p).
  Definition set_last_ (p : loc) : M ddata unit := modS (dev_last p).

  (** 387-391 [size]. *)
  Definition dv_size : M ddata Z := (o <- getS;; ptr_sub (d_last o) (d_first o))%prog.
  (** 403-407 [capacity]. *)
  Definition dv_capacity : M ddata Z := (o <- getS;; ptr_sub (d_eos o) (d_bos o))%prog.
  (** 409-413 [available_front]. *)
  Definition dv_front_room : M ddata Z := (o <- getS;; ptr_sub (d_first o) (d_bos o))%prog.
  (** 415-419 [available_back]. *)
  Definition dv_back_room : M ddata Z := (o <- getS;; ptr_sub (d_eos o) (d_last o))%prog.
  (** 1339-1345 [check_size]. *)
  Definition dv_check_size (n : Z) : M ddata unit :=
    if max_size <? n then throw ELength else ret tt.
  (** [cbegin() <= pos && pos <= cend()], then [std::distance(cbegin(), pos)]. *)
  Definition dv_offset (pos : loc) : M ddata Z :=
    (o <- getS;;
     k <- ptr_sub pos (d_first o);;
     n <- dv_size;;
     assert_ ((0 <=? k) && (k <=? n));;
     ret k)%prog.

  (** Destroying the old elements, giving the old storage back and installing the
      new one: e.g. 465-482. *)
  Definition dv_replace (b f l e : loc) : M ddata unit :=
    (o <- getS;;
     destroy_a (d_first o) (d_last o);;
     cap <- ptr_sub (d_eos o) (d_bos o);;
     deallocate (d_alloc o) (d_bos o) cap;;
     modS (dev_storage b f l e))%prog.
  (** New storage of [n] elements with the elements starting [off] after its
      begin: the bodies of 421-484 [reserve_front], 486-549 [reserve_back],
      551-603 [shrink_to_fit], 1418-1475 [grow_storage_front], 1477-1534
      [grow_storage_back]; they differ in [n] and in where the elements go. *)
  Definition dv_relocate (n : Z) (off : Z) : M ddata unit :=
    (o <- getS;;
     new_bos <- allocate (d_alloc o) n;;
     let new_eos := new_bos +ₗ n in
     let new_first := new_bos +ₗ off in
     new_last <-
       try_ (uninitialized_move_if_noexcept_a (d_first o) (d_last o) new_first)
            (deallocate (d_alloc o) new_bos n);;
     dv_replace new_bos new_first new_last new_eos)%prog.

  (** 421-484 [reserve_front]; [new_first = new_eos - distance(first_, eos_)]. *)
  Definition dv_reserve_front (new_cap : Z) : M ddata unit :=
    (ab <- dv_back_room;;
     if max_size - ab <? new_cap then throw ELength
     else
       size <- dv_size;;
       af <- dv_front_room;;
       if size + af <? new_cap then
         let n := ab + new_cap in
         o <- getS;;
         d <- ptr_sub (d_eos o) (d_first o);;
         dv_relocate n (n - d)
       else ret tt)%prog.
  (** 486-549 [reserve_back]; [new_first = new_bos + distance(bos_, first_)]. *)
  Definition dv_reserve_back (new_cap : Z) : M ddata unit :=
    (af <- dv_front_room;;
     if max_size - af <? new_cap then throw ELength
     else
       size <- dv_size;;
       ab <- dv_back_room;;
       if size + ab <? new_cap then
         dv_relocate (af + new_cap) af
       else ret tt)%prog.
  (** 551-603 [shrink_to_fit]. *)
  Definition dv_shrink : M ddata unit :=
    (new_cap <- dv_size;;
     cap <- dv_capacity;;
     if new_cap <? cap then dv_relocate new_cap 0 else ret tt)%prog.

  (** 609-629 [at]; 631-643 [operator[]], 645-671 [front], [back]: the address of
      the element is returned. *)
  Definition dv_at (i : Z) : M ddata V :=
    (n <- dv_size;;
     o <- getS;;
     if n <=? i then throw EOutOfRange else read (d_first o +ₗ i))%prog.
  Definition dv_index (i : Z) : M ddata loc :=
    (o <- getS;;
     n <- dv_size;;
     assert_ (i <? n);;
     ret (d_first o +ₗ i))%prog.
  Definition dv_get_front : M ddata loc :=
    (o <- getS;;
     assert_ (negb (loc_eqb (d_first o) (d_last o)));;
     ret (d_first o))%prog.
  Definition dv_get_back : M ddata loc :=
    (o <- getS;;
     assert_ (negb (loc_eqb (d_first o) (d_last o)));;
     ret (d_last o +ₗ -1))%prog.

  (** 689-699 [clear]. *)
  Definition dv_clear : M ddata unit :=
    (o <- getS;;
     destroy_a (d_first o) (d_last o);;
     set_last_ (d_first o))%prog.
  (** 788-795 [pop_front]. *)
  Definition dv_pop_front : M ddata unit :=
    (o <- getS;;
     assert_ (negb (loc_eqb (d_first o) (d_last o)));;
     destroy_at (d_first o);;
     set_first_ (d_first o +ₗ 1))%prog.
  (** 797-804 [pop_back]. *)
  Definition dv_pop_back : M ddata unit :=
    (o <- getS;;
     assert_ (negb (loc_eqb (d_first o) (d_last o)));;
     set_last_ (d_last o +ₗ -1);;
     destroy_at (d_last o +ₗ -1))%prog.

  (** 806-834 [erase(pos)]. *)
  Definition dv_erase (pos : loc) : M ddata loc :=
    (o <- getS;;
     k <- dv_offset pos;;
     assert_ (negb (loc_eqb pos (d_last o)));;
     m <- ptr_sub (d_last o) pos;;
     let p1 := d_first o +ₗ k in
     let p2 := p1 +ₗ 1 in
     if k <? m then
       nf <- move_backward (d_first o) p1 p2;;
       set_first_ nf;;
       destroy_at (d_first o);;
       ret p2
     else
       nl <- move p2 (d_last o) p1;;
       set_last_ nl;;
       destroy_at nl;;
       ret p1)%prog.
  (** 836-874 [erase(first, last)]. *)
  Definition dv_erase_range (first last : loc) : M ddata loc :=
    (o <- getS;;
     k1 <- dv_offset first;;
     k2 <- dv_offset last;;
     assert_ (k1 <=? k2);;
     if loc_eqb first last then ret (d_first o +ₗ k1)
     else
       m <- ptr_sub (d_last o) last;;
       let p1 := d_first o +ₗ k1 in
       let p2 := d_first o +ₗ k2 in
       if k1 <? m then
         nf <- move_backward (d_first o) p1 p2;;
         destroy_a (d_first o) nf;;
         set_first_ nf;;
         ret p2
       else
         nl <- move p2 (d_last o) p1;;
         destroy_a nl (d_last o);;
         set_last_ nl;;
         ret p1)%prog.

  (** 1418-1475 [grow_storage_front] and 1477-1534 [grow_storage_back]. *)
  Definition dv_grow_front (add : Z) : M ddata unit :=
    (cap <- dv_capacity;;
     if max_size - cap <? add then throw ELength
     else
       let n := cap + add in
       o <- getS;;
       d <- ptr_sub (d_eos o) (d_first o);;
       dv_relocate n (n - d))%prog.
  Definition dv_grow_back (add : Z) : M ddata unit :=
    (cap <- dv_capacity;;
     if max_size - cap <? add then throw ELength
     else
       af <- dv_front_room;;
       dv_relocate (cap + add) af)%prog.

  (** 876-954 [resize(n)] ([a] is [ADef]) and 956-1039 [resize(n, value)]. *)
  Definition dv_resize (n : Z) (a : arg) : M ddata unit :=
    (size <- dv_size;;
     o <- getS;;
     if n <=? size then
       destroy_a (d_first o +ₗ n) (d_last o);;
       set_last_ (d_first o +ₗ n)
     else
       ab <- dv_back_room;;
       if n <=? size + ab then
         nl <- uninitialized_fill_n_a (d_last o) (Z.to_nat (n - size)) a;;
         set_last_ nl
       else
         af <- dv_front_room;;
         if n <=? af + size + ab then
           uninitialized_fill_a (d_last o) (d_eos o) a;;
           set_last_ (d_eos o);;
           let new_first := d_first o +ₗ - (n - (size + ab)) in
           uninitialized_fill_a new_first (d_first o) a;;
           set_first_ new_first
         else
           dv_grow_back (n - (af + size + ab));;
           o1 <- getS;;
           nl <- uninitialized_fill_n_a (d_last o1) (Z.to_nat (n - (size + af))) a;;
           set_last_ nl;;
           uninitialized_fill_a (d_bos o1) (d_first o1) a;;
           set_first_ (d_bos o1))%prog.
  (** 1041-1078, 1080-1118 [resize_front]. *)
  Definition dv_resize_front (n : Z) (a : arg) : M ddata unit :=
    (size <- dv_size;;
     o <- getS;;
     if n <=? size then
       let new_first := d_first o +ₗ (size - n) in
       destroy_a (d_first o) new_first;;
       set_first_ new_first
     else
       af <- dv_front_room;;
       (if size + af <? n then dv_grow_front (n - (size + af)) else ret tt);;
       o1 <- getS;;
       let new_first := d_first o1 +ₗ - (n - size) in
       uninitialized_fill_a new_first (d_first o1) a;;
       set_first_ new_first)%prog.
  (** 1120-1153, 1155-1189 [resize_back]. *)
  Definition dv_resize_back (n : Z) (a : arg) : M ddata unit :=
    (size <- dv_size;;
     o <- getS;;
     if n <=? size then
       destroy_a (d_first o +ₗ n) (d_last o);;
       set_last_ (d_first o +ₗ n)
     else
       ab <- dv_back_room;;
       (if size + ab <? n then dv_grow_back (n - (size + ab)) else ret tt);;
       o1 <- getS;;
       nl <- uninitialized_fill_n_a (d_last o1) (Z.to_nat (n - size)) a;;
       set_last_ nl)%prog.

  (** 1347-1364 [calculate_additional_capacity_for_grow_storage_front]. *)
  Definition dv_extra_front (n : Z) : M ddata Z :=
    (o <- getS;;
     cf <- ptr_sub (d_last o) (d_bos o);;
     af <- ptr_sub (d_first o) (d_bos o);;
     ret (if af <=? n then Z.max (n - af) (cf / 2) else cf / 2))%prog.
  (** 1366-1383 [calculate_additional_capacity_for_grow_storage_back]. *)
  Definition dv_extra_back (n : Z) : M ddata Z :=
    (o <- getS;;
     cb <- ptr_sub (d_eos o) (d_first o);;
     ab <- ptr_sub (d_eos o) (d_last o);;
     ret (if ab <=? n then Z.max (n - ab) (cb / 2) else cb / 2))%prog.

  (** 1385-1416 [reset].
      fixed: the storage is given back through [bos_], not [first_]. *)
  Definition dv_reset (new_cap : Z) : M ddata unit :=
    (o <- getS;;
     destroy_a (d_first o) (d_last o);;
     cap <- ptr_sub (d_eos o) (d_bos o);;
     deallocate (d_alloc o) (if fixed then d_bos o else d_first o) cap;;
     modS (dev_storage null null null null);;
     if 0 <? new_cap then
       p <- allocate (d_alloc o) new_cap;;
       modS (dev_storage p p p (p +ₗ new_cap))
     else ret tt)%prog.

  (** 2380-3107 [insert_aux_shift_to_back]. *)
  Definition dv_shift_to_back (shift : Z) (pos : loc) (n : Z) (px : proxy) : M ddata loc :=
    (assert_ (0 <? shift);;
     o <- getS;;
     k <- dv_offset pos;;
     assert_ (0 <? n);;
     m <- ptr_sub (d_last o) pos;;
     let p10 := d_first o in
     let p20 := p10 +ₗ k in
     let p30 := d_last o in
     let q10 := d_first o +ₗ (shift - n) in
     let q20 := q10 +ₗ k in
     let q30 := q20 +ₗ n in
     let q40 := q30 +ₗ m in
     shift_back_body fixed px n p10 p20 p30 q10 q20 q30 q40;;
     set_first_ q10;;
     set_last_ q40;;
     ret q20)%prog.
  (** 3109-3856 [insert_aux_shift_to_front]. *)
  Definition dv_shift_to_front (shift : Z) (pos : loc) (n : Z) (px : proxy) : M ddata loc :=
    (assert_ (0 <? shift);;
     o <- getS;;
     k <- dv_offset pos;;
     assert_ (0 <? n);;
     m <- ptr_sub (d_last o) pos;;
     let p10 := d_first o in
     let p20 := p10 +ₗ k in
     let p30 := d_last o in
     let q10 := d_first o +ₗ - shift in
     let q20 := q10 +ₗ k in
     let q30 := q20 +ₗ n in
     let q40 := q30 +ₗ m in
     shift_front_body fixed px n p10 p20 p30 q10 q20 q30 q40;;
     set_first_ q10;;
     set_last_ q40;;
     ret q20)%prog.

  (** 3858-3951 [insert_aux_grow_storage_front] ([to_front = true]) and 3953-4046
      [insert_aux_grow_storage_back]: the same text but for [new_first]. *)
  Definition dv_grow_insert (to_front : bool) (add : Z) (pos : loc) (n : Z) (px : proxy) : M ddata loc :=
    (assert_ (0 <? add);;
     o <- getS;;
     offset <- dv_offset pos;;
     assert_ (0 <? n);;
     cap <- dv_capacity;;
     if max_size - cap <? add then throw ELength
     else
       let new_cap := cap + add in
       size <- dv_size;;
       ab <- dv_back_room;;
       af <- dv_front_room;;
       new_bos <- allocate (d_alloc o) new_cap;;
       let new_eos := new_bos +ₗ new_cap in
       let new_first :=
         if to_front then new_eos +ₗ (- ab - size - n) else new_bos +ₗ af in
       let p := new_first +ₗ offset in
       new_last <- local_ new_first
         (try_
            (nl <- uninitialized_move_a (d_first o) (d_first o +ₗ offset) new_first;;
             setl_ nl;;
             r <- px_uninit px nl n;;
             setl_ r.1;;
             nl3 <- uninitialized_move_a (d_first o +ₗ offset) (d_last o) r.1;;
             setl_ nl3)
            (nl <- getl_;;
             destroy_a new_first nl;;
             deallocate (d_alloc o) new_bos new_cap);;
          getl_);;
       dv_replace new_bos new_first new_last new_eos;;
       ret p)%prog.

  (** 2043-2078 [emplace_front_aux]. *)
  Definition dv_emplace_front (a : arg) : M ddata loc :=
    (o <- getS;;
     if negb (loc_eqb (d_first o) (d_bos o)) then
       let new_first := d_first o +ₗ -1 in
       construct new_first a;;
       set_first_ new_first;;
       ret new_first
     else
       tmp <- make a;;
       add <- dv_extra_front 1;;
       ab <- dv_back_room;;
       if add <? ab then dv_shift_to_back add (d_first o) 1 (PEmplace tmp)
       else dv_grow_insert true add (d_first o) 1 (PEmplace tmp))%prog.
  (** 2080-2115 [emplace_back_aux]. *)
  Definition dv_emplace_back (a : arg) : M ddata loc :=
    (o <- getS;;
     if negb (loc_eqb (d_last o) (d_eos o)) then
       construct (d_last o) a;;
       set_last_ (d_last o +ₗ 1);;
       ret (d_last o)
     else
       tmp <- make a;;
       add <- dv_extra_back 1;;
       af <- dv_front_room;;
       if add <? af then dv_shift_to_front add (d_last o) 1 (PEmplace tmp)
       else dv_grow_insert false add (d_last o) 1 (PEmplace tmp))%prog.

  (** 2119-2378 [insert_aux]. *)
  Definition dv_insert_aux (pos : loc) (n : Z) (px : proxy) : M ddata loc :=
    (o <- getS;;
     k <- dv_offset pos;;
     if n =? 0 then ret (d_first o +ₗ k)
     else
       m <- ptr_sub (d_last o) pos;;
       af <- dv_front_room;;
       ab <- dv_back_room;;
       if k <? m then
         if n <=? af then
           let q10 := d_first o +ₗ - n in
           let q20 := q10 +ₗ k in
           (if n <? k then insert_front_1 px (d_first o) k n
            else insert_front_2 px (d_first o) k n);;
           set_first_ q10;;
           ret q20
         else
           add <- dv_extra_front n;;
           if add <? ab then dv_shift_to_back add pos n px
           else dv_grow_insert true add pos n px
       else
         if n <=? ab then
           let q20 := d_first o +ₗ k in
           let q30 := q20 +ₗ n in
           let q40 := q30 +ₗ m in
           (if n <? m then insert_back_1 px (d_first o) (d_last o) k m n
            else insert_back_2 px (d_first o) (d_last o) k m n);;
           set_last_ q40;;
           ret q20
         else
           add <- dv_extra_back n;;
           if add <? af then dv_shift_to_front add pos n px
           else dv_grow_insert false add pos n px)%prog.

  (** 701-722 [emplace]; 724-734 [insert] of one value. *)
  Definition dv_emplace (pos : loc) (a : arg) : M ddata loc :=
    (o <- getS;;
     dv_offset pos;;
     if loc_eqb pos (d_first o) then dv_emplace_front a
     else if loc_eqb pos (d_last o) then dv_emplace_back a
     else
       tmp <- make a;;
       dv_insert_aux pos 1 (PEmplace tmp))%prog.
  (** 736-740, 4050-4054 [insert(pos, n, value)]. *)
  Definition dv_insert_fill (pos : loc) (n : Z) (a : arg) : M ddata loc :=
    (dv_offset pos;; dv_insert_aux pos n (PFill a))%prog.
  (** 742-754, 4072-4079 [insert(pos, first, last)], forward iterators. *)
  Definition dv_insert_range (pos : loc) (srcs : list arg) : M ddata loc :=
    (dv_offset pos;; dv_insert_aux pos (Z.of_nat (length srcs)) (PRange srcs))%prog.
  (** 4056-4070, input iterators. *)
  Fixpoint dv_insert_input_loop (pos : loc) (srcs : list arg) : M ddata unit :=
    match srcs with
    | [] => ret tt
    | a :: srcs' => p <- dv_emplace pos a;; dv_insert_input_loop (p +ₗ 1) srcs'
    end%prog.
  Definition dv_insert_input (pos : loc) (srcs : list arg) : M ddata loc :=
    (k <- dv_offset pos;;
     dv_insert_input_loop pos srcs;;
     o <- getS;;
     ret (d_first o +ₗ k))%prog.

  (** 1720-1831 [assign_fill_n]. *)
  Definition dv_assign_fill (n : Z) (a : arg) : M ddata unit :=
    (size <- dv_size;;
     o <- getS;;
     if n <=? size then
       let new_last := d_first o +ₗ n in
       fill (d_first o) new_last a;;
       destroy_a new_last (d_last o);;
       set_last_ new_last
     else
       ab <- dv_back_room;;
       if n <=? size + ab then
         fill (d_first o) (d_last o) a;;
         nl <- uninitialized_fill_n_a (d_last o) (Z.to_nat (n - size)) a;;
         set_last_ nl
       else
         af <- dv_front_room;;
         if n <=? af + size + ab then
           fill (d_first o) (d_last o) a;;
           uninitialized_fill_a (d_last o) (d_eos o) a;;
           set_last_ (d_eos o);;
           let new_first := d_first o +ₗ - (n - (size + ab)) in
           uninitialized_fill_a new_first (d_first o) a;;
           set_first_ new_first
         else
           dv_grow_back (n - (af + size + ab));;
           o1 <- getS;;
           fill (d_first o1) (d_last o1) a;;
           nl <- uninitialized_fill_n_a (d_last o1) (Z.to_nat (n - (size + af))) a;;
           set_last_ nl;;
           uninitialized_fill_a (d_bos o1) (d_first o1) a;;
           set_first_ (d_bos o1))%prog.
  (** 1862-1981 [assign_range], forward iterators. *)
  Definition dv_assign_range (srcs : list arg) : M ddata unit :=
    (let n := Z.of_nat (length srcs) in
     size <- dv_size;;
     o <- getS;;
     if n <=? size then
       nl <- copy srcs (d_first o);;
       destroy_a nl (d_last o);;
       set_last_ nl
     else
       ab <- dv_back_room;;
       if n <=? size + ab then
         let mid := Z.to_nat size in
         copy (take mid srcs) (d_first o);;
         nl <- uninitialized_copy_a (drop mid srcs) (d_last o);;
         set_last_ nl
       else
         af <- dv_front_room;;
         if n <=? af + size + ab then
           let mid1 := Z.to_nat (n - (size + ab)) in
           let mid2 := (mid1 + Z.to_nat size)%nat in
           copy (take (Z.to_nat size) (drop mid1 srcs)) (d_first o);;
           nl <- uninitialized_copy_a (drop mid2 srcs) (d_last o);;
           set_last_ nl;;
           let new_first := d_first o +ₗ - (n - (size + ab)) in
           uninitialized_copy_a (take mid1 srcs) new_first;;
           set_first_ new_first
         else
           dv_grow_back (n - (af + size + ab));;
           o1 <- getS;;
           let mid1 := Z.to_nat af in
           let mid2 := (mid1 + Z.to_nat size)%nat in
           copy (take (Z.to_nat size) (drop mid1 srcs)) (d_first o1);;
           nl <- uninitialized_copy_a (drop mid2 srcs) (d_last o1);;
           set_last_ nl;;
           uninitialized_copy_a (take mid1 srcs) (d_bos o1);;
           set_first_ (d_bos o1))%prog.
  (** 1833-1860 [assign_range], input iterators. *)
  Fixpoint dv_assign_input_loop (curr last : loc) (srcs : list arg) : M ddata (loc * list arg) :=
    match srcs with
    | [] => ret (curr, [])
    | a :: srcs' =>
        if loc_eqb curr last then ret (curr, srcs)
        else assign curr a;; dv_assign_input_loop (curr +ₗ 1) last srcs'
    end%prog.
  Fixpoint dv_append_loop (srcs : list arg) : M ddata unit :=
    match srcs with
    | [] => ret tt
    | a :: srcs' => dv_emplace_back a;; dv_append_loop srcs'
    end%prog.
  Definition dv_assign_input (srcs : list arg) : M ddata unit :=
    (o <- getS;;
     cr <- dv_assign_input_loop (d_first o) (d_last o) srcs;;
     match cr.2 with
     | [] =>
         if loc_eqb cr.1 (d_last o) then ret tt
         else destroy_a cr.1 (d_last o);; set_last_ cr.1
     | rest => dv_append_loop rest
     end)%prog.

  (** 85-107: the state before the body of a constructor runs. *)
  Definition dev_empty (a : nat) : ddata := Dev a null null null null.

  (** 1620-1647 [initialize_range] (forward iterators), 1649-1675
      [initialize_copy], 1693-1716 (second half of [initialize_move]). *)
  Definition dv_init_range (srcs : list arg) : M ddata unit :=
    (let n := Z.of_nat (length srcs) in
     dv_check_size n;;
     o <- getS;;
     p <- allocate (d_alloc o) n;;
     modS (dev_storage p p p (p +ₗ n));;
     try_ (nl <- uninitialized_copy_a srcs p;; set_last_ nl)
          (deallocate (d_alloc o) p n))%prog.
  (** 1536-1559 [initialize_default_n], 1561-1585 [initialize_fill_n]. *)
  Definition dv_init_fill (n : Z) (a : arg) : M ddata unit :=
    (dv_check_size n;;
     o <- getS;;
     p <- allocate (d_alloc o) n;;
     modS (dev_storage p p p (p +ₗ n));;
     try_ (nl <- uninitialized_fill_n_a p (Z.to_nat n) a;; set_last_ nl)
          (deallocate (d_alloc o) p n))%prog.
  (** 214-229 destructor. *)
  Definition dv_destructor : M ddata unit :=
    (o <- getS;;
     destroy_a (d_first o) (d_last o);;
     cap <- ptr_sub (d_eos o) (d_bos o);;
     deallocate (d_alloc o) (d_bos o) cap)%prog.
  (** 1587-1617 [initialize_range], input iterators. *)
  Definition dv_init_input (srcs : list arg) : M ddata unit :=
    try_ (dv_append_loop srcs) dv_destructor.

  (** 1649-1675 [initialize_copy]. *)
  Definition dv_initialize_copy : M (ddata * ddata) unit :=
    (oo <- getS;;
     srcs <- range ACopy (d_first oo.2) (d_last oo.2);;
     on1 (dv_init_range srcs))%prog.
  (** 1677-1718 [initialize_move]. *)
  Definition dv_initialize_move : M (ddata * ddata) unit :=
    (oo <- getS;;
     if Nat.eqb (d_alloc oo.1) (d_alloc oo.2) then
       putS (dev_storage (d_bos oo.2) (d_first oo.2) (d_last oo.2) (d_eos oo.2) oo.1,
             dev_storage null null null null oo.2)
     else
       srcs <- range AMove (d_first oo.2) (d_last oo.2);;
       on1 (dv_init_range srcs))%prog.
  (** 184-212 copy and move constructors, object 1 fresh. *)
  Definition dv_copy_ctor : M (ddata * ddata) unit :=
    (oo <- getS;;
     putS (dev_empty (soccc (d_alloc oo.2)), oo.2);;
     dv_initialize_copy)%prog.
  Definition dv_copy_ctor_alloc (a : nat) : M (ddata * ddata) unit :=
    (oo <- getS;;
     putS (dev_empty a, oo.2);;
     dv_initialize_copy)%prog.
  Definition dv_move_ctor : M (ddata * ddata) unit :=
    (oo <- getS;;
     putS (dev_empty (d_alloc oo.2), oo.2);;
     dv_initialize_move)%prog.
  Definition dv_move_ctor_alloc (a : nat) : M (ddata * ddata) unit :=
    (oo <- getS;;
     putS (dev_empty a, oo.2);;
     dv_initialize_move)%prog.

  (** 1983-2003 [assign_copy], two different objects. *)
  Definition dv_assign_copy : M (ddata * ddata) unit :=
    (oo <- getS;;
     (if pocca then
        (if negb (Nat.eqb (d_alloc oo.1) (d_alloc oo.2))
         then on1 (dv_reset 0) else ret tt);;
        on1 (modS (dev_alloc (d_alloc oo.2)))
      else ret tt);;
     srcs <- range ACopy (d_first oo.2) (d_last oo.2);;
     on1 (dv_assign_range srcs))%prog.
  (** 2005-2039 [assign_move], two different objects. *)
  Definition dv_assign_move : M (ddata * ddata) unit :=
    (oo <- getS;;
     (if pocma then
        (if negb (Nat.eqb (d_alloc oo.1) (d_alloc oo.2))
         then on1 (dv_reset 0) else ret tt);;
        on1 (modS (dev_alloc (d_alloc oo.2)))
      else ret tt);;
     oo1 <- getS;;
     if Nat.eqb (d_alloc oo1.1) (d_alloc oo1.2) then
       on1 (dv_reset 0);;
       oo2 <- getS;;
       putS (dev_storage (d_bos oo2.2) (d_first oo2.2) (d_last oo2.2) (d_eos oo2.2) oo2.1,
             dev_storage null null null null oo2.2)
     else
       srcs <- range AMove (d_first oo.2) (d_last oo.2);;
       on1 (dv_assign_range srcs))%prog.
  (** 2005-2039 [assign_move] with [&other == this]. *)
  Definition dv_assign_move_self : M ddata unit :=
    (dv_reset 0;;
     o <- getS;;
     modS (dev_storage (d_bos o) (d_first o) (d_last o) (d_eos o));;
     modS (dev_storage null null null null))%prog.
  (** 1191-1220 [swap], two different objects. *)
  Definition dv_swap : M (ddata * ddata) unit :=
    (oo <- getS;;
     assert_ (pocs || Nat.eqb (d_alloc oo.1) (d_alloc oo.2));;
     (if pocs then
        putS (dev_alloc (d_alloc oo.2) oo.1, dev_alloc (d_alloc oo.1) oo.2)
      else ret tt);;
     oo1 <- getS;;
     putS (dev_storage (d_bos oo1.2) (d_first oo1.2) (d_last oo1.2) (d_eos oo1.2) oo1.1,
           dev_storage (d_bos oo1.1) (d_first oo1.1) (d_last oo1.1) (d_eos oo1.1) oo1.2))%prog.

  (** 4162-4180 [erase], [erase_if]. *)
  Definition dv_erase_if (p : V -> bool) : M ddata Z :=
    (o <- getS;;
     it <- remove_if_ p (d_first o) (d_last o);;
     r <- ptr_sub (d_last o) it;;
     dv_erase_range it (d_last o);;
     ret r)%prog.
  (** 4086-4095 [operator==], 4108-4117 [operator<]. *)
  Definition dv_eq (r : V -> V -> bool) : M (ddata * ddata) bool :=
    (n1 <- on1 dv_size;;
     n2 <- on2 dv_size;;
     oo <- getS;;
     if n1 =? n2 then equal_ r (d_first oo.1) (d_first oo.2) (Z.to_nat n1) else ret false)%prog.
  Definition dv_lt (lt : V -> V -> bool) : M (ddata * ddata) bool :=
    (n1 <- on1 dv_size;;
     n2 <- on2 dv_size;;
     oo <- getS;;
     lexcmp_ lt (d_first oo.1) (Z.to_nat n1) (d_first oo.2) (Z.to_nat n2))%prog.
End devector.
