(** * Model of the ordered flat containers

    include/sfl/static_flat_{set,map,multiset,multimap}.hpp and
    include/sfl/small_flat_{set,map,multiset,multimap}.hpp: the functions that
    work on one object.  Abbreviations: ts = static_flat_set, tm = static_flat_map,
    tms = static_flat_multiset, tmm = static_flat_multimap, ss, sm, sms, smm the
    same for small_flat_...; erase of positions and clear have the text of
    static_vector / small_vector and are those of Contig.v.

    The comparator object is not part of the state here: it only enters through
    the function [lt] it computes.  The key of an argument is read once; the code
    reads it at each comparison, but nothing is written before the insertion. *)

From Verif Require Export StaticVector FlatSpec.
Open Scope Z_scope.

Section model.
  Context `{KD : Keyed}.
  Variable lt : Key -> Key -> bool.     (* data_.ref_to_comp() *)
  Variable kd : fkind.
  (** [insert_exactly_at] and [SFL_ASSERT(!full())], different for the static and
      the small containers (see below). *)
  Variable exact : loc -> arg -> M vdata loc.
  Variable room : M vdata unit.

  (** std::lower_bound and std::upper_bound, binary search as in libstdc++
      (bits/stl_algobase.h, bits/stl_algo.h): the middle element is compared and
      one half is kept.  [p v]: go right of [v].  [fuel] bounds the number of
      iterations; it is at least [len]. *)
  Fixpoint bound_loop (p : V -> bool) (fuel : nat) (first : loc) (len : nat) : M vdata loc :=
    match fuel with
    | O => ret first
    | S fuel' =>
        if Nat.eqb len 0 then ret first
        else
          let half := Nat.div2 len in
          let middle := first +ₗ Z.of_nat half in
          b <- test_ p middle;;
          if b then bound_loop p fuel' (middle +ₗ 1) (len - half - 1)
          else bound_loop p fuel' first half
    end%prog.
  Definition bound_ (p : V -> bool) (first : loc) (len : nat) : M vdata loc :=
    bound_loop p len first len.
  Definition goes_before (k : Key) (v : V) : bool := lt (key v) k.
  Definition not_behind (k : Key) (v : V) : bool := negb (lt k (key v)).

  (** std::equal_range as in libstdc++ (bits/stl_algo.h). *)
  Fixpoint equal_loop (k : Key) (fuel : nat) (first : loc) (len : nat) : M vdata (loc * loc) :=
    match fuel with
    | O => ret (first, first)
    | S fuel' =>
        if Nat.eqb len 0 then ret (first, first)
        else
          let half := Nat.div2 len in
          let middle := first +ₗ Z.of_nat half in
          b <- test_ (goes_before k) middle;;
          if b then equal_loop k fuel' (middle +ₗ 1) (len - half - 1)
          else
            b2 <- test_ (not_behind k) middle;;
            if negb b2 then equal_loop k fuel' first half
            else
              left <- bound_ (goes_before k) first half;;
              right <- bound_ (not_behind k) (middle +ₗ 1) (len - half - 1);;
              ret (left, right)
    end%prog.

  (** ts 626-709, tm 797-880, tms 601-684, tmm 677-760, ss 1073-1156, sm 1231-1314,
      sms 1050-1133, smm 1123-1206 [lower_bound], [upper_bound], [equal_range]. *)
  Definition lower_ (k : Key) : M vdata loc :=
    (o <- getS;; n <- range_len (v_first o) (v_last o);; bound_ (goes_before k) (v_first o) n)%prog.
  Definition upper_ (k : Key) : M vdata loc :=
    (o <- getS;; n <- range_len (v_first o) (v_last o);; bound_ (not_behind k) (v_first o) n)%prog.
  Definition equal_range_ (k : Key) : M vdata (loc * loc) :=
    (o <- getS;; n <- range_len (v_first o) (v_last o);; equal_loop k n (v_first o) n)%prog.

  (** ts 711-722, tm 882-893, tms 686-697, tmm 762-773, ss 1158-1169, sm 1316-1327,
      sms 1135-1146, smm 1208-1219 [find]. *)
  Definition find_ (k : Key) : M vdata loc :=
    (it <- lower_ k;;
     o <- getS;;
     if loc_eqb it (v_last o) then ret it
     else
       b <- test_ (fun v => lt k (key v)) it;;
       if b then ret (v_last o) else ret it)%prog.

  (** [count]: by equal_range tms 742-746, tmm 818-822, sms 1191-1195, smm
      1264-1268; by find ts 767-770, tm 938-941, ss 1214-1217, sm 1372-1375. *)
  Definition count_ (k : Key) : M vdata Z :=
    if multi kd then (er <- equal_range_ k;; ptr_sub er.2 er.1)%prog
    else (it <- find_ k;; o <- getS;; ret (if loc_eqb it (v_last o) then 0 else 1))%prog.
  (** ts 781-784, tm 952-955, tms 758-761, tmm 834-837, ss 1228-1231, sm 1386-1389,
      sms 1207-1210, smm 1280-1283 [contains]. *)
  Definition contains_ (k : Key) : M vdata bool :=
    (it <- find_ k;; o <- getS;; ret (negb (loc_eqb it (v_last o))))%prog.

  (** The key of a function argument. *)
  Definition arg_key (a : arg) : M vdata Key :=
    match a with
    | ADef => ret (key vdef)
    | AVal v => ret (key v)
    | ACopy p | AMove p => (v <- read p;; ret (key v))%prog
    end.

  (** The test [it == end() || comp(k, *it)] after lower_bound. *)
  Definition is_new (k : Key) (it : loc) : M vdata bool :=
    (o <- getS;;
     if loc_eqb it (v_last o) then ret true else test_ (fun v => lt k (key v)) it)%prog.

  (** ts 859-869, tm 1107-1117, ss 1578-1588, sm 1812-1822 [insert_aux(value)] and
      tms 837-840, tmm 913-916, sms 1557-1560, smm 1630-1633. *)
  Definition insert_unique (a : arg) : M vdata (loc * bool) :=
    (k <- arg_key a;;
     it <- lower_ k;;
     b <- is_new k it;;
     if b then p <- exact it a;; ret (p, true) else ret (it, false))%prog.
  Definition insert_multi (a : arg) : M vdata (loc * bool) :=
    (k <- arg_key a;;
     it <- lower_ k;;
     p <- exact it a;;
     ret (p, true))%prog.
  Definition insert_aux (a : arg) : M vdata (loc * bool) :=
    if multi kd then insert_multi a else insert_unique a.

  (** [comp( *it, k)] and [comp(k, *it)]. *)
  Definition before_key (k : Key) (it : loc) : M vdata bool := test_ (fun v => lt (key v) k) it.
  Definition after_key (k : Key) (it : loc) : M vdata bool := test_ (fun v => lt k (key v)) it.
  Definition and_ (x y : M vdata bool) : M vdata bool := (b <- x;; if b then y else ret false)%prog.
  Definition or_ (x y : M vdata bool) : M vdata bool := (b <- x;; if b then ret true else y)%prog.
  Definition not_ (x : M vdata bool) : M vdata bool := (b <- x;; ret (negb b))%prog.
  Definition at_begin (h : loc) : M vdata bool := (o <- getS;; ret (loc_eqb h (v_first o)))%prog.
  Definition is_end (h : loc) : M vdata bool := (o <- getS;; ret (loc_eqb h (v_last o)))%prog.

  (** ts 954-959, tm 1272-1277, ss 1788-1793, sm 2092-2097 [is_insert_hint_good]. *)
  Definition hint_unique (h : loc) (k : Key) : M vdata bool :=
    and_ (or_ (at_begin h) (before_key k (h +ₗ -1)))
         (or_ (is_end h) (after_key k h)).
  (** tms 904-925, tmm 980-1001, sms 1739-1760, smm 1812-1833 [is_insert_hint_good]. *)
  Definition equal_at (h : loc) (k : Key) : M vdata bool :=
    and_ (not_ (before_key k h)) (not_ (after_key k h)).
  Definition hint_multi (h : loc) (k : Key) : M vdata bool :=
    or_ (and_ (not_ (is_end h)) (equal_at h k))
      (or_ (and_ (not_ (at_begin h)) (equal_at (h +ₗ -1) k))
           (and_ (or_ (at_begin h) (before_key k (h +ₗ -1)))
                 (or_ (is_end h) (after_key k h)))).
  Definition hint_good (h : loc) (k : Key) : M vdata bool :=
    if multi kd then hint_multi h k else hint_unique h k.

  (** ts 872-882, tm 1120-1128, ss 1591-1601, sm 1825-1833, tms 843-852, tmm
      919-928, sms 1563-1572, smm 1636-1645 [insert_aux(hint, value)]. *)
  Definition insert_hint (h : loc) (a : arg) : M vdata loc :=
    (k <- arg_key a;;
     g <- hint_good h k;;
     if g then exact h a else r <- insert_aux a;; ret r.1)%prog.

  (** [SFL_ASSERT(cbegin() <= hint && hint <= cend())]. *)
  Definition assert_pos (h : loc) : M vdata unit := (k <- offset_of h;; ret tt)%prog.

  (** ts 426-430, tm 480-484, tms 426-430, tmm 480-484, ss 782-785, sm 835-838, sms
      782-785, smm 835-838 [emplace]: a temporary element is made and inserted. *)
  Definition emplace_key (a : arg) : M vdata (loc * bool) :=
    (room;; tmp <- make a;; insert_aux (AVal tmp))%prog.
  (** ts 433-438, tm 487-492, ss 788-792, sm 841-845 and the same lines of tms, tmm,
      sms, smm [emplace_hint]. *)
  Definition emplace_hint_ (h : loc) (a : arg) : M vdata loc :=
    (room;; assert_pos h;; tmp <- make a;; insert_hint h (AVal tmp))%prog.
  (** ts 440-483, tm 494-535, tms 440-464, tmm 494-535, ss 794-832, sm 847-883, sms
      794-815, smm 847-883 [insert(value)], [insert(hint, value)]. *)
  Definition insert_value (a : arg) : M vdata (loc * bool) := (room;; insert_aux a)%prog.
  Definition insert_value_hint (h : loc) (a : arg) : M vdata loc :=
    (room;; assert_pos h;; insert_hint h a)%prog.
  (** ts 487-499, tm 539-551, tms 468-480, tmm 539-551, ss 835-847, sm 886-898, sms
      818-830, smm 886-898 [insert(first, last)], [insert(ilist)]; the iterators
      yield values from outside the container. *)
  Fixpoint insert_loop (vs : list V) : M vdata unit :=
    match vs with
    | [] => ret tt
    | v :: vs' => insert_value (AVal v);; insert_loop vs'
    end%prog.
  (** ts 148-176 and the same functions of tm, tms, tmm: the loop
      [emplace( *first)] of the range constructor. *)
  Fixpoint emplace_loop (vs : list V) : M vdata unit :=
    match vs with
    | [] => ret tt
    | v :: vs' => emplace_key (AVal v);; emplace_loop vs'
    end%prog.

  (** ts 535-544, tm 706-715, ss 883-892, sm 1041-1050 and tms 516-522, tmm 592-598,
      sms 866-872, smm 939-945 [erase(key)]. *)
  Definition erase_key (k : Key) : M vdata Z :=
    if multi kd then
      (er <- equal_range_ k;;
       n <- ptr_sub er.2 er.1;;
       erase_range_ er.1 er.2;;
       ret n)%prog
    else
      (it <- find_ k;;
       o <- getS;;
       if loc_eqb it (v_last o) then ret 0
       else erase_ it;; ret 1)%prog.

  (** ts 1044-1061, tm 1361-1378, tms 1011-1028, tmm 1087-1104, ss 1878-1895, sm
      2182-2199, sms 1846-1863, smm 1920-1937 [erase_if].
      [fuel] bounds the iterations: each of them brings [it] and [end()] closer
      together, so size() of them are enough; stopping earlier is undefined here. *)
  Fixpoint erase_if_loop (p : V -> bool) (fuel : nat) (it : loc) : M vdata unit :=
    match fuel with
    | O => (o <- getS;; assert_ (loc_eqb it (v_last o)))
    | S fuel' =>
        o <- getS;;
        if loc_eqb it (v_last o) then ret tt
        else
          b <- test_ p it;;
          if b then it' <- erase_ it;; erase_if_loop p fuel' it'
          else erase_if_loop p fuel' (it +ₗ 1)
    end%prog.
  Definition erase_if_each (p : V -> bool) : M vdata Z :=
    (o <- getS;;
     old_size <- size_;;
     erase_if_loop p (Z.to_nat old_size) (v_first o);;
     n <- size_;;
     ret (old_size - n))%prog.

  (** [it->second = m]: the key stays; a throwing assignment leaves some value. *)
  Definition assign_second (it : loc) (m : Mapped) : M vdata unit :=
    (v <- read it;;
     r <- oracle KCopyAssign;;
     match r with
     | Some t => write it (entry (key v) (mjunk t));; throw EUser
     | None => write it (entry (key v) m)
     end)%prog.

  (** tm 603-665, 1180-1224, sm 945-1000, 1885-1929 [try_emplace]. *)
  Definition try_emplace_ (k : Key) (m : Mapped) : M vdata (loc * bool) :=
    (room;;
     it <- lower_ k;;
     b <- is_new k it;;
     if b then
       tmp <- make (AVal (entry k m));;
       p <- exact it (AVal tmp);;
       ret (p, true)
     else ret (it, false))%prog.
  Definition try_emplace_hint (h : loc) (k : Key) (m : Mapped) : M vdata loc :=
    (room;;
     assert_pos h;;
     g <- hint_good h k;;
     if g then tmp <- make (AVal (entry k m));; exact h (AVal tmp)
     else r <- try_emplace_ k m;; ret r.1)%prog.
  (** tm 553-601, 1132-1177, sm 900-943, 1837-1882 [insert_or_assign]. *)
  Definition insert_or_assign_ (k : Key) (m : Mapped) : M vdata (loc * bool) :=
    (room;;
     it <- lower_ k;;
     b <- is_new k it;;
     if b then
       tmp <- make (AVal (entry k m));;
       p <- exact it (AVal tmp);;
       ret (p, true)
     else assign_second it m;; ret (it, false))%prog.
  Definition insert_or_assign_hint (h : loc) (k : Key) (m : Mapped) : M vdata loc :=
    (room;;
     assert_pos h;;
     g <- hint_good h k;;
     if g then tmp <- make (AVal (entry k m));; exact h (AVal tmp)
     else r <- insert_or_assign_ k m;; ret r.1)%prog.

  (** tm 970-1023, sm 1404-1457 [at]. *)
  Definition map_at (k : Key) : M vdata Mapped :=
    (it <- find_ k;;
     o <- getS;;
     if loc_eqb it (v_last o) then throw EOutOfRange
     else v <- read it;; ret (mapped v))%prog.
  (** tm 1026-1045, sm 1460-1479 [operator[]]. *)
  Definition map_index (k : Key) : M vdata Mapped :=
    (r <- try_emplace_ k mdef;; v <- read r.1;; ret (mapped v))%prog.

  (** ss 393-398, sm 446-451, sms 393-398, smm 446-451 [operator=(ilist)]. *)
  Definition clear_insert (vs : list V) : M vdata unit := (clear_;; insert_loop vs)%prog.

  (** Calls of the member functions; returned iterators are measured from begin().
      [assign_list] is [operator=(initializer_list)]. *)
  Variable assign_list : list V -> M vdata unit.
  Definition as_pos (m : M vdata loc) : M vdata frv := (r <- as_idx m;; ret (One r))%prog.
  Definition as_pair (m : M vdata (loc * bool)) : M vdata frv :=
    (r <- m;;
     o <- getS;;
     z <- ptr_sub r.1 (v_first o);;
     ret (PosNew (Z.to_nat z) r.2))%prog.
  Definition as_one (m : M vdata rval) : M vdata frv := (r <- m;; ret (One r))%prog.
  Definition as_ins (m : M vdata (loc * bool)) : M vdata frv :=
    if multi kd then as_pos (r <- m;; ret r.1)%prog else as_pair m.
  Definition run_flat (op : fop) : M vdata frv :=
    (o <- getS;;
     let pos (i : nat) := v_first o +ₗ Z.of_nat i in
     match op with
     | FEmplace x => as_ins (emplace_key (arg_of o x))
     | FInsert x => as_ins (insert_value (arg_of o x))
     | FEmplaceHint h x => as_pos (emplace_hint_ (pos h) (arg_of o x))
     | FInsertHint h x => as_pos (insert_value_hint (pos h) (arg_of o x))
     | FInsertRange vs => as_one (as_unit (insert_loop vs))
     | FAssignList vs => as_one (as_unit (assign_list vs))
     | FErase i => as_pos (erase_ (pos i))
     | FEraseRange i j => as_pos (erase_range_ (pos i) (pos j))
     | FEraseKey k => as_one (as_num (erase_key k))
     | FEraseIf p => as_one (as_num (erase_if_each p))
     | FClear => as_one (as_unit clear_)
     | FFind k => as_pos (find_ k)
     | FLower k => as_pos (lower_ k)
     | FUpper k => as_pos (upper_ k)
     | FEqualRange k =>
         r <- equal_range_ k;;
         i <- ptr_sub r.1 (v_first o);;
         j <- ptr_sub r.2 (v_first o);;
         ret (PosRange (Z.to_nat i) (Z.to_nat j))
     | FCount k => as_one (as_num (count_ k))
     | FContains k => b <- contains_ k;; ret (One (RBool b))
     | FSize => as_one (as_num size_)
     | FTryEmplace k m => as_pair (try_emplace_ k m)
     | FTryEmplaceHint h k m => as_pos (try_emplace_hint (pos h) k m)
     | FInsertOrAssign k m => as_pair (insert_or_assign_ k m)
     | FInsertOrAssignHint h k m => as_pos (insert_or_assign_hint (pos h) k m)
     | FAt k => m <- map_at k;; ret (TheMapped m)
     | FIndex k => m <- map_index k;; ret (TheMapped m)
     | FPut i m => as_one (as_unit (assign_second (pos i) m))
     end)%prog.
End model.

(** ** [insert_exactly_at] *)
Section exact.
  Context `{Env}.

  (** ts 909-952, tm 1227-1268, and the first branch of ss 1628-1671 and sm
      1932-1975: as [emplace_inplace], but without a temporary. *)
  Definition exact_inplace (pos : loc) (a : arg) : M vdata loc :=
    (o <- getS;;
     k <- offset_of pos;;
     let p1 := v_first o +ₗ k in
     if loc_eqb p1 (v_last o) then
       construct p1 a;;
       set_last (v_last o +ₗ 1);;
       ret p1
     else
       let p2 := v_last o +ₗ -1 in
       let old_last := v_last o in
       construct (v_last o) (AMove p2);;
       set_last (v_last o +ₗ 1);;
       move_backward p1 p2 old_last;;
       assign p1 a;;
       ret p1)%prog.
  Definition place (temp : bool) (pos : loc) (a : arg) : M vdata loc :=
    if temp then emplace_inplace pos a else exact_inplace pos a.

  (** ts 252-256, tm 306-310, tms 252-256, tmm 306-310 [operator=(ilist)] with
      [assign_range] ts 814-857, tm 1061-1104, tms 791-834, tmm 867-910. *)
  Definition static_list (N : nat) (vs : list V) : M vdata unit := static_assign_range N (AVal <$> vs).

  (** [temp]: the multi variants make a temporary (tms 855-901, tmm 931-977). *)
  Definition static_room (N : nat) : M vdata unit := (b <- full_ N;; assert_ (negb b))%prog.
  Definition static_exact (N : nat) (temp : bool) (pos : loc) (a : arg) : M vdata loc :=
    (static_room N;; place temp pos a)%prog.

  (** ss 1628-1785, sm 1932-2089, sms 1575-1736, smm 1648-1809. *)
  Definition small_exact (st : storage) (temp : bool) (pos : loc) (a : arg) : M vdata loc :=
    (o <- getS;;
     k <- offset_of pos;;
     if negb (loc_eqb (v_last o) (v_eos o)) then place temp pos a
     else
       new_cap <- new_capacity st 1;;
       realloc_insert st k 1 new_cap (fun p => construct p a) (fun p => destroy_at p))%prog.
End exact.
