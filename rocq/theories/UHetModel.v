(** * Model of the functions of the unordered flat containers that take an argument
      of a type other than the key type

    The overloads with a template parameter K, for a transparent KeyEqual, of
    include/sfl/static_unordered_flat_{set,map,multiset,multimap}.hpp and
    include/sfl/small_unordered_flat_{set,map,multiset,multimap}.hpp (abbreviated
    tus, ..., summ as in UnordModel.v).  The argument enters only through the function
    that maps an element [v] to the value of [data_.ref_to_equal()(v, x)]. *)

From Verif Require Export UHetSpec UnordClient FlatMem.
Open Scope Z_scope.

Section model.
  Context `{KD : Keyed}.
  Notation probe := (V -> bool).
  Variable kd : fkind.
  Variable back : arg -> M vdata loc.
  Variable room : M vdata unit.

  (** The loop of [find(x)]: tus 637-667, tum 819-849, tums 635-665, tumm 723-753, sus
      1089-1119, sum 1260-1290, sums 1089-1119, summ 1175-1205; [n] elements from [it]
      are left. *)
  Fixpoint yfind_loop (x : probe) (n : nat) (it : loc) : M vdata loc :=
    match n with
    | O => ret it
    | S n' =>
        b <- test_ x it;;
        if b then ret it else yfind_loop x n' (it +ₗ 1)
    end%prog.
  Definition yfind (x : probe) : M vdata loc :=
    (o <- getS;; n <- range_len (v_first o) (v_last o);; yfind_loop x n (v_first o))%prog.

  (** The loop of [count(x)]: tums 683-699, tumm 771-787, sums 1137-1153, summ
      1223-1239. *)
  Fixpoint ycount_loop (x : probe) (n : nat) (it : loc) : M vdata Z :=
    match n with
    | O => ret 0
    | S n' =>
        b <- test_ x it;;
        c <- ycount_loop x n' (it +ₗ 1);;
        ret (if b then c + 1 else c)
    end%prog.
  (** And by find: tus 675-681, tum 857-863, sus 1127-1133, sum 1298-1304. *)
  Definition ycount (x : probe) : M vdata Z :=
    if multi kd then
      (o <- getS;; n <- range_len (v_first o) (v_last o);; ycount_loop x n (v_first o))%prog
    else (it <- yfind x;; o <- getS;; ret (if loc_eqb it (v_last o) then 0 else 1))%prog.
  (** tus 689-695, tum 871-877, tums 707-713, tumm 795-801, sus 1141-1147, sum
      1312-1318, sums 1161-1167, summ 1247-1253 [contains(x)]. *)
  Definition ycontains (x : probe) : M vdata bool :=
    (it <- yfind x;; o <- getS;; ret (negb (loc_eqb it (v_last o))))%prog.
  (** [erase(x)]: tums 518-538, tumm 606-626, sums 873-893, summ 959-979 ([uerase_each]
      is the loop, UnordModel.v); tus 527-540, tum 709-722, sus 880-893, sum
      1051-1064. *)
  Definition yerase (x : probe) : M vdata Z :=
    if multi kd then uerase_each (test_ x)
    else
      (it <- yfind x;;
       o <- getS;;
       if loc_eqb it (v_last o) then ret 0 else uerase it;; ret 1)%prog.

  (** Appending the new element: tus 812, sus 1535: [emplace_back(value_type(x))]; tum
      1071-1081, 1100-1110, sum 1783-1793, 1812-1822: constructed in place. *)
  Definition yappend (v : V) : M vdata (loc * bool) :=
    if is_map kd then (p <- back (AVal v);; ret (p, true))%prog
    else (tmp <- make (AVal v);; p <- back (AVal tmp);; ret (p, true))%prog.
  (** tus 403-409, 805-816, sus 760-765, 1528-1539 [insert(x)]; tum 582-596, 1093-1113,
      sum 928-941, 1805-1825 [try_emplace(x, args...)]. *)
  Definition yinsert (x : probe) (v : V) : M vdata (loc * bool) :=
    (room;;
     it <- yfind x;;
     o <- getS;;
     if loc_eqb it (v_last o) then yappend v else ret (it, false))%prog.
  (** tum 531-538, 1063-1084, sum 883-889, 1775-1796 [insert_or_assign(x, obj)]. *)
  Definition yassign (x : probe) (k : Key) (m : Mapped) : M vdata (loc * bool) :=
    (room;;
     it <- yfind x;;
     o <- getS;;
     if loc_eqb it (v_last o) then yappend (entry k m)
     else assign_second it m;; ret (it, false))%prog.
  (** With a hint, which is ignored: tus 425-434, 818-823, sus 779-787, 1541-1546; tum
      558-566, 614-627, 1086-1091, 1115-1120, sum 907-914, 957-969, 1798-1803,
      1827-1832. *)
  Definition y_hint (h : loc) (f : M vdata (loc * bool)) : M vdata loc :=
    (room;; assert_pos h;; r <- f;; ret r.1)%prog.
  (** tum 909-937, sum 1350-1378 [at(x)]. *)
  Definition y_at (x : probe) : M vdata Mapped :=
    (it <- yfind x;;
     o <- getS;;
     if loc_eqb it (v_last o) then throw EOutOfRange
     else v <- read it;; ret (mapped v))%prog.
  (** tum 951-957, sum 1392-1398 [operator[](x)]. *)
  Definition y_index (x : probe) (k : Key) : M vdata Mapped :=
    (r <- yinsert x (entry k mdef);; v <- read r.1;; ret (mapped v))%prog.

  (** Calls of the member functions; returned iterators are measured from begin(). *)
  Definition run_uhet (op : yop) : M vdata frv :=
    (o <- getS;;
     let pos (i : nat) := v_first o +ₗ Z.of_nat i in
     match op with
     | YFind x => as_pos (yfind x)
     | YCount x => as_one (as_num (ycount x))
     | YContains x => b <- ycontains x;; ret (One (RBool b))
     | YErase x => as_one (as_num (yerase x))
     | YInsert x v => as_pair (yinsert x v)
     | YInsertHint h x v => as_pos (y_hint (pos h) (yinsert x v))
     | YAssign x k m => as_pair (yassign x k m)
     | YAssignHint h x k m => as_pos (y_hint (pos h) (yassign x k m))
     | YAt x => m <- y_at x;; ret (TheMapped m)
     | YIndex x k => m <- y_index x k;; ret (TheMapped m)
     end)%prog.
End model.

Section call.
  Context `{KD : Keyed}.
  Variable fl : flavour.
  Variable kd : fkind.

  (** A call of member function [o] of a container whose key equality compares the
      argument as [o] says. *)
  Definition uhet_call (o : yop) : M sobj frv :=
    match fl with
    | StaticF N => member (fun _ => run_uhet kd (static_emplace_back N) (static_room N) o)
    | SmallF N => member (fun ib => run_uhet kd (emplace_back_ (small_storage N ib)) (ret tt) o)
    end.
  (** Its preconditions. *)
  Definition uhet_allowed (o : yop) (l : list V) : bool :=
    uhet_pre kd (can_hold fl (S (length l))) o (length l).
End call.
