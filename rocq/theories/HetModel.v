(** * Model of the functions of the ordered flat containers that take an argument
      of a type other than the key type

    The overloads with [has_is_transparent<Compare, K>] of
    include/sfl/{static,small}_flat_{set,map,multiset,multimap}.hpp.  Abbreviations
    as in FlatModel.v.  The text of these functions is that of the overloads for
    keys; only the argument is of another type, so each comparison is a call of
    [before] or [behind] (HetSpec.v).  The element made from the argument is given
    with the call; making it may throw. *)

From Verif Require Export FlatModel HetSpec FlatMem.
Open Scope Z_scope.

Section model.
  Context `{KD : Keyed}.
  Variable kd : fkind.
  Variable exact : loc -> arg -> M vdata loc.
  Variable room : M vdata unit.

  (** [!comp(x, v)]: std::upper_bound goes right of [v]. *)
  Definition het_not_behind (x : probe) (v : V) : bool := negb (behind x v).

  (** std::equal_range as in libstdc++ (bits/stl_algo.h), as [equal_loop]. *)
  Fixpoint het_equal_loop (x : probe) (fuel : nat) (first : loc) (len : nat) : M vdata (loc * loc) :=
    match fuel with
    | O => ret (first, first)
    | S fuel' =>
        if Nat.eqb len 0 then ret (first, first)
        else
          let half := Nat.div2 len in
          let middle := first +ₗ Z.of_nat half in
          b <- test_ (before x) middle;;
          if b then het_equal_loop x fuel' (middle +ₗ 1) (len - half - 1)
          else
            b2 <- test_ (het_not_behind x) middle;;
            if negb b2 then het_equal_loop x fuel' first half
            else
              left <- bound_ (before x) first half;;
              right <- bound_ (het_not_behind x) (middle +ₗ 1) (len - half - 1);;
              ret (left, right)
    end%prog.

  (** ts 638-652, tm 809-823, tms 613-627, tmm 689-703, ss 1085-1099, sm 1243-1257,
      sms 1062-1076, smm 1135-1149 [lower_bound(x)]. *)
  Definition het_lower (x : probe) : M vdata loc :=
    (o <- getS;; n <- range_len (v_first o) (v_last o);; bound_ (before x) (v_first o) n)%prog.
  (** ts 666-680, tm 837-851, tms 641-655, tmm 717-731, ss 1113-1127, sm 1271-1285,
      sms 1090-1104, smm 1163-1177 [upper_bound(x)]. *)
  Definition het_upper (x : probe) : M vdata loc :=
    (o <- getS;; n <- range_len (v_first o) (v_last o);; bound_ (het_not_behind x) (v_first o) n)%prog.
  (** ts 694-708, tm 865-879, tms 669-683, tmm 745-759, ss 1141-1155, sm 1299-1313,
      sms 1118-1132, smm 1191-1205 [equal_range(x)]. *)
  Definition het_equal_range (x : probe) : M vdata (loc * loc) :=
    (o <- getS;; n <- range_len (v_first o) (v_last o);; het_equal_loop x n (v_first o) n)%prog.

  (** ts 736-764, tm 907-935, tms 711-739, tmm 787-815, ss 1183-1211, sm 1341-1369,
      sms 1160-1188, smm 1233-1261 [find(x)]. *)
  Definition het_find (x : probe) : M vdata loc :=
    (it <- het_lower x;;
     o <- getS;;
     if loc_eqb it (v_last o) then ret it
     else
       b <- test_ (behind x) it;;
       if b then ret (v_last o) else ret it)%prog.
  (** [count(x)]: by equal_range tms 748-755, tmm 824-831, sms 1197-1204, smm
      1270-1277; by find ts 772-778, tm 943-949, ss 1219-1225, sm 1377-1383. *)
  Definition het_count (x : probe) : M vdata Z :=
    if multi kd then (er <- het_equal_range x;; ptr_sub er.2 er.1)%prog
    else (it <- het_find x;; o <- getS;; ret (if loc_eqb it (v_last o) then 0 else 1))%prog.
  (** ts 786-792, tm 957-963, tms 763-769, tmm 839-845, ss 1233-1239, sm 1391-1397,
      sms 1212-1218, smm 1285-1291 [contains(x)]. *)
  Definition het_contains (x : probe) : M vdata bool :=
    (it <- het_find x;; o <- getS;; ret (negb (loc_eqb it (v_last o))))%prog.

  (** ts 546-557, tm 717-728, ss 894-905, sm 1052-1063 and tms 524-532, tmm 600-608,
      sms 874-882, smm 947-955 [erase(x)]. *)
  Definition het_erase (x : probe) : M vdata Z :=
    if multi kd then
      (er <- het_equal_range x;;
       n <- ptr_sub er.2 er.1;;
       erase_range_ er.1 er.2;;
       ret n)%prog
    else
      (it <- het_find x;;
       o <- getS;;
       if loc_eqb it (v_last o) then ret 0
       else erase_ it;; ret 1)%prog.

  (** The test [it == end() || comp(x, *it)] after lower_bound. *)
  Definition het_is_new (x : probe) (it : loc) : M vdata bool :=
    (o <- getS;;
     if loc_eqb it (v_last o) then ret true else test_ (behind x) it)%prog.
  (** ts 954-959, tm 1272-1277, ss 1788-1793, sm 2092-2097 [is_insert_hint_good]. *)
  Definition het_hint_good (h : loc) (x : probe) : M vdata bool :=
    and_ (or_ (at_begin h) (test_ (before x) (h +ₗ -1)))
         (or_ (is_end h) (test_ (behind x) h)).

  (** ts 452-458, 884-895, ss 804-809, 1602-1613 [insert(x)]; tm 619-634, 1179-1203,
      sm 958-972, 1884-1908 [try_emplace(x, args...)]. *)
  Definition het_insert (x : probe) (v : V) : M vdata (loc * bool) :=
    (room;;
     it <- het_lower x;;
     b <- het_is_new x it;;
     if b then
       tmp <- make (AVal v);;
       p <- exact it (AVal tmp);;
       ret (p, true)
     else ret (it, false))%prog.
  (** ts 474-483, 897-907, ss 823-831, 1615-1625 [insert(hint, x)]; tm 652-665,
      1205-1225, sm 988-1000, 1910-1930 [try_emplace(hint, x, args...)]. *)
  Definition het_insert_hint (h : loc) (x : probe) (v : V) : M vdata loc :=
    (room;;
     assert_pos h;;
     g <- het_hint_good h x;;
     if g then tmp <- make (AVal v);; exact h (AVal tmp)
     else r <- het_insert x v;; ret r.1)%prog.
  (** tm 569-576, 1131-1156, sm 914-920, 1836-1861 [insert_or_assign(x, obj)]. *)
  Definition het_assign (x : probe) (k : Key) (m : Mapped) : M vdata (loc * bool) :=
    (room;;
     it <- het_lower x;;
     b <- het_is_new x it;;
     if b then
       tmp <- make (AVal (entry k m));;
       p <- exact it (AVal tmp);;
       ret (p, true)
     else assign_second it m;; ret (it, false))%prog.
  (** tm 596-604, 1158-1177, sm 938-945, 1863-1882 [insert_or_assign(hint, x, obj)]. *)
  Definition het_assign_hint (h : loc) (x : probe) (k : Key) (m : Mapped) : M vdata loc :=
    (room;;
     assert_pos h;;
     g <- het_hint_good h x;;
     if g then tmp <- make (AVal (entry k m));; exact h (AVal tmp)
     else r <- het_assign x k m;; ret r.1)%prog.
  (** tm 995-1023, sm 1429-1457 [at(x)]. *)
  Definition het_at (x : probe) : M vdata Mapped :=
    (it <- het_find x;;
     o <- getS;;
     if loc_eqb it (v_last o) then throw EOutOfRange
     else v <- read it;; ret (mapped v))%prog.
  (** tm 1037-1043, sm 1471-1477 [operator[](x)]. *)
  Definition het_index (x : probe) (k : Key) : M vdata Mapped :=
    (r <- het_insert x (entry k mdef);; v <- read r.1;; ret (mapped v))%prog.

  (** Calls; returned iterators are measured from begin(). *)
  Definition run_het (op : hop) : M vdata frv :=
    (o <- getS;;
     let pos (i : nat) := v_first o +ₗ Z.of_nat i in
     match op with
     | HLower x => as_pos (het_lower x)
     | HUpper x => as_pos (het_upper x)
     | HEqualRange x =>
         r <- het_equal_range x;;
         i <- ptr_sub r.1 (v_first o);;
         j <- ptr_sub r.2 (v_first o);;
         ret (PosRange (Z.to_nat i) (Z.to_nat j))
     | HFind x => as_pos (het_find x)
     | HCount x => as_one (as_num (het_count x))
     | HContains x => b <- het_contains x;; ret (One (RBool b))
     | HErase x => as_one (as_num (het_erase x))
     | HInsert x v => as_pair (het_insert x v)
     | HInsertHint h x v => as_pos (het_insert_hint (pos h) x v)
     | HAssign x k m => as_pair (het_assign x k m)
     | HAssignHint h x k m => as_pos (het_assign_hint (pos h) x k m)
     | HAt x => m <- het_at x;; ret (TheMapped m)
     | HIndex x k => m <- het_index x k;; ret (TheMapped m)
     end)%prog.
End model.

Section call.
  Context `{KD : Keyed}.
  Variable fl : flavour.
  Variable kd : fkind.

  (** A call of member function [o] of a container whose comparator compares the
      argument as the probe says. *)
  Definition het_call (o : hop) : M sobj frv :=
    match fl with
    | StaticF N => member (fun _ => run_het kd (static_exact N (multi kd)) (static_room N) o)
    | SmallF N => member (fun ib => run_het kd (small_exact (small_storage N ib) (multi kd)) (ret tt) o)
    end.
  (** Its preconditions. *)
  Definition het_allowed (o : hop) (l : list V) : bool :=
    het_pre kd (can_hold fl (S (length l))) o (length l).
End call.
