(** * Model of the unordered flat containers

    include/sfl/static_unordered_flat_{set,map,multiset,multimap}.hpp and
    include/sfl/small_unordered_flat_{set,map,multiset,multimap}.hpp: the functions
    that work on one object, and operator==.  Abbreviations: tus =
    static_unordered_flat_set, tum, tums, tumm the same for map, multiset, multimap;
    sus, sum, sums, summ the same for small_unordered_flat_...; clear is that of
    Contig.v.

    The key equality object is not part of the state here: it only enters through
    the function [eqk] it computes.  The heterogeneous overloads (templates on a
    transparent KeyEqual) are in UHetModel.v. *)

From Verif Require Export StaticVector FlatModel UnordSpec.
Open Scope Z_scope.

Section model.
  Context `{KD : Keyed}.
  Variable eqk : Key -> Key -> bool.     (* data_.ref_to_equal() *)
  Variable kd : fkind.
  Variable eager : bool.
  (** [emplace_back] and [SFL_ASSERT(!full())], different for the static and the
      small containers (see below). *)
  Variable back : arg -> M vdata loc.
  Variable room : M vdata unit.

  (** [data_.ref_to_equal()( *it, k)]. *)
  Definition key_is (k : Key) (v : V) : bool := eqk (key v) k.

  (** The loop of tus 609-664, tum 791-846, tums 607-662, tumm 695-750, sus
      1061-1116, sum 1232-1287, sums 1061-1116, summ 1147-1202 [find]: [n] elements
      from [it] are left. *)
  Fixpoint ufind_loop (k : Key) (n : nat) (it : loc) : M vdata loc :=
    match n with
    | O => ret it
    | S n' =>
        b <- test_ (key_is k) it;;
        if b then ret it else ufind_loop k n' (it +ₗ 1)
    end%prog.
  Definition ufind (k : Key) : M vdata loc :=
    (o <- getS;; n <- range_len (v_first o) (v_last o);; ufind_loop k n (v_first o))%prog.

  (** The loop of tums 667-698, tumm 755-786, sums 1121-1152, summ 1207-1238
      [count]. *)
  Fixpoint ucount_loop (k : Key) (n : nat) (it : loc) : M vdata Z :=
    match n with
    | O => ret 0
    | S n' =>
        b <- test_ (key_is k) it;;
        c <- ucount_loop k n' (it +ₗ 1);;
        ret (if b then c + 1 else c)
    end%prog.
  (** And by find: tus 669-681, tum 851-863, sus 1121-1133, sum 1292-1304. *)
  Definition ucount (k : Key) : M vdata Z :=
    if multi kd then
      (o <- getS;; n <- range_len (v_first o) (v_last o);; ucount_loop k n (v_first o))%prog
    else (it <- ufind k;; o <- getS;; ret (if loc_eqb it (v_last o) then 0 else 1))%prog.
  (** tus 683-695, tum 865-877, tums 701-713, tumm 789-801, sus 1135-1147, sum
      1306-1318, sums 1155-1167, summ 1241-1253 [contains]. *)
  Definition ucontains (k : Key) : M vdata bool :=
    (it <- ufind k;; o <- getS;; ret (negb (loc_eqb it (v_last o))))%prog.

  (** tus 762-776, tum 1020-1034, sum 1732-1746 [emplace_aux]. *)
  Definition uemplace_aux (a : arg) : M vdata (loc * bool) :=
    (it1 <- back a;;
     v <- read it1;;
     it2 <- ufind (key v);;
     if loc_eqb it1 it2 then ret (it2, true)
     else pop_back_;; ret (it2, false))%prog.
  (** tus 785-796, tum 1043-1054, sus 1508-1519, sum 1755-1766 [insert_aux]. *)
  Definition uinsert_aux (a : arg) : M vdata (loc * bool) :=
    (k <- arg_key a;;
     it <- ufind k;;
     o <- getS;;
     if loc_eqb it (v_last o) then p <- back a;; ret (p, true)
     else ret (it, false))%prog.
  Definition uappend (a : arg) : M vdata (loc * bool) := (p <- back a;; ret (p, true))%prog.

  (** [emplace]: tus 376-381, tum 441-446, sum 803-807 with [emplace_aux]; sus
      737-741 with a temporary and [insert_aux]; tums 376-381, tumm 441-446, sums
      737-741, summ 802-806 with [emplace_back]. *)
  Definition uemplace (a : arg) : M vdata (loc * bool) :=
    (room;;
     if multi kd then uappend a
     else if eager then uemplace_aux a
     else tmp <- make a;; uinsert_aux (AVal tmp))%prog.
  (** [insert(value)]: tus 391-409, tum 456-474, sus 750-765, sum 816-831, tums
      392-402, tumm 457-475, sums 751-759, summ 816-831. *)
  Definition uinsert (a : arg) : M vdata (loc * bool) :=
    (room;; if multi kd then uappend a else uinsert_aux a)%prog.
  (** With a hint, which is ignored: tus 383-389, 411-434, 778-783, 798-803, tum
      448-454, 476-497, 1036-1041, 1056-1061, tums 383-390, 404-418, tumm 448-455,
      477-501, sus 743-748, 767-787, sum 809-814, 833-851, sums 743-749, 761-773, summ
      808-814, 833-854. *)
  Definition uemplace_hint (h : loc) (a : arg) : M vdata loc :=
    (room;; assert_pos h;; r <- uemplace a;; ret r.1)%prog.
  Definition uinsert_hint (h : loc) (a : arg) : M vdata loc :=
    (room;; assert_pos h;; r <- uinsert a;; ret r.1)%prog.
  (** tus 436-450, tum 499-513, tums 420-434, tumm 503-517, sus 789-803, sum 853-867,
      sums 775-789, summ 856-870 [insert(first, last)], [insert(ilist)]; the
      iterators yield values from outside the container. *)
  Fixpoint uinsert_loop (vs : list V) : M vdata unit :=
    match vs with
    | [] => ret tt
    | v :: vs' => uinsert (AVal v);; uinsert_loop vs'
    end%prog.
  (** tus 141-180, tum 196-235, tums 141-180, tumm 196-235: the loop
      [emplace( *first)] of the range constructors. *)
  Fixpoint uemplace_loop (vs : list V) : M vdata unit :=
    match vs with
    | [] => ret tt
    | v :: vs' => uemplace (AVal v);; uemplace_loop vs'
    end%prog.

  (** tus 452-470, tum 634-652, tums 436-454, tumm 524-542, sus 805-823, sum 976-994,
      sums 791-809, summ 877-895 [erase(pos)]. *)
  Definition uerase (pos : loc) : M vdata loc :=
    (o <- getS;;
     k <- offset_of pos;;
     assert_ (negb (loc_eqb pos (v_last o)));;
     let p := v_first o +ₗ k in
     let back := v_last o +ₗ -1 in
     d <- ptr_sub back p;;
     (if 0 <? d then assign p (AMove back) else ret tt);;
     set_last back;;
     destroy_at back;;
     ret p)%prog.

  (** tus 472-512, tum 654-694, tums 456-496, tumm 544-584, sus 825-865, sum
      996-1036, sums 811-851, summ 897-937 [erase(first, last)]. *)
  Definition uerase_range (first last : loc) : M vdata loc :=
    (o <- getS;;
     k1 <- offset_of first;;
     k2 <- offset_of last;;
     assert_ (k1 <=? k2);;
     if loc_eqb first last then ret (v_first o +ₗ k1)
     else
       let count1 := k2 - k1 in
       count2 <- ptr_sub (v_last o) last;;
       let p1 := v_first o +ₗ k1 in
       if count2 <=? count1 then
         new_last <- move (p1 +ₗ count1) (v_last o) p1;;
         destroy_a new_last (v_last o);;
         set_last new_last;;
         ret p1
       else
         let p2 := p1 +ₗ count2 in
         move p2 (v_last o) p1;;
         destroy_a p2 (v_last o);;
         set_last p2;;
         ret p1)%prog.

  (** The loop of [erase(key)] (below) and of [erase_if]: tus 889-909, tum 1186-1206,
      tums 823-843, tumm 923-943, sus 1710-1731, sum 1996-2017, sums 1658-1679, summ
      1744-1765.  [test]: whether the element is to be removed.
      [fuel] bounds the iterations: each of them brings [it] and [end()] closer
      together, so size() of them are enough; stopping earlier is undefined here. *)
  Fixpoint uerase_loop (test : loc -> M vdata bool) (fuel : nat) (it : loc) : M vdata unit :=
    match fuel with
    | O => (o <- getS;; assert_ (loc_eqb it (v_last o)))
    | S fuel' =>
        o <- getS;;
        if loc_eqb it (v_last o) then ret tt
        else
          b <- test it;;
          if b then it' <- uerase it;; uerase_loop test fuel' it'
          else uerase_loop test fuel' (it +ₗ 1)
    end%prog.
  (** The number of removed elements: counted by [erase(key)], the difference of
      the sizes in [erase_if]; here always the latter. *)
  Definition uerase_each (test : loc -> M vdata bool) : M vdata Z :=
    (o <- getS;;
     old_size <- size_;;
     uerase_loop test (Z.to_nat old_size) (v_first o);;
     n <- size_;;
     ret (old_size - n))%prog.
  Definition uerase_if (p : V -> bool) : M vdata Z := uerase_each (test_ p).

  (** tums 498-535, tumm 586-623, sums 853-890, summ 939-976 [erase(key)]. *)
  Definition uerase_multi (k : Key) : M vdata Z := uerase_each (test_ (key_is k)).
  (** The same if the argument refers to the key of the element at [q]: it is read
      anew at each comparison. *)
  Definition uerase_multi_ref (q : loc) : M vdata Z :=
    uerase_each (fun it => test2_ (fun v w => eqk (key v) (key w)) it q).
  (** tus 514-540, tum 696-722, sus 867-893, sum 1038-1064 [erase(key)]. *)
  Definition uerase_unique (k : Key) : M vdata Z :=
    (it <- ufind k;;
     o <- getS;;
     if loc_eqb it (v_last o) then ret 0 else uerase it;; ret 1)%prog.
  Definition uerase_key (k : Key) : M vdata Z :=
    if multi kd then uerase_multi k else uerase_unique k.
  (** The argument refers to the key of the element at [q].  In the unique
      containers nothing is written before the search has ended, so the key is read
      once here; if nothing is found in an empty container it is not read in the
      code. *)
  Definition uerase_key_ref (q : loc) : M vdata Z :=
    if multi kd then uerase_multi_ref q else (v <- read q;; uerase_unique (key v))%prog.

  (** tum 567-627, 1093-1120, sum 916-969, 1805-1832 [try_emplace]. *)
  Definition utry_emplace (k : Key) (m : Mapped) : M vdata (loc * bool) :=
    (room;;
     it <- ufind k;;
     o <- getS;;
     if loc_eqb it (v_last o) then p <- back (AVal (entry k m));; ret (p, true)
     else ret (it, false))%prog.
  (** tum 515-566, 1063-1091, sum 869-914, 1775-1803 [insert_or_assign]. *)
  Definition uinsert_or_assign (k : Key) (m : Mapped) : M vdata (loc * bool) :=
    (room;;
     it <- ufind k;;
     o <- getS;;
     if loc_eqb it (v_last o) then p <- back (AVal (entry k m));; ret (p, true)
     else assign_second it m;; ret (it, false))%prog.
  Definition with_hint (h : loc) (f : M vdata (loc * bool)) : M vdata loc :=
    (room;; assert_pos h;; r <- f;; ret r.1)%prog.
  (** tum 883-936, sum 1324-1377 [at]. *)
  Definition umap_at (k : Key) : M vdata Mapped :=
    (it <- ufind k;;
     o <- getS;;
     if loc_eqb it (v_last o) then throw EOutOfRange
     else v <- read it;; ret (mapped v))%prog.
  (** tum 939-957, sum 1380-1398 [operator[]]. *)
  Definition umap_index (k : Key) : M vdata Mapped :=
    (r <- utry_emplace k mdef;; v <- read r.1;; ret (mapped v))%prog.

  (** sus 395-400, sum 451-456, sums 395-400, summ 450-455 [operator=(ilist)]. *)
  Definition uclear_insert (vs : list V) : M vdata unit := (clear_;; uinsert_loop vs)%prog.

  (** Calls of the member functions; returned iterators are measured from begin().
      [assign_list] is [operator=(initializer_list)]. *)
  Variable assign_list : list V -> M vdata unit.
  Definition run_unord (op : uop) : M vdata frv :=
    (o <- getS;;
     let pos (i : nat) := v_first o +ₗ Z.of_nat i in
     match op with
     | UEmplace x => as_ins kd (uemplace (arg_of o x))
     | UInsert x => as_ins kd (uinsert (arg_of o x))
     | UEmplaceHint h x => as_pos (uemplace_hint (pos h) (arg_of o x))
     | UInsertHint h x => as_pos (uinsert_hint (pos h) (arg_of o x))
     | UInsertRange vs => as_one (as_unit (uinsert_loop vs))
     | UAssignList vs => as_one (as_unit (assign_list vs))
     | UErase i => as_pos (uerase (pos i))
     | UEraseRange i j => as_pos (uerase_range (pos i) (pos j))
     | UEraseKey k => as_one (as_num (uerase_key k))
     | UEraseKeyOf i => as_one (as_num (uerase_key_ref (pos i)))
     | UEraseIf p => as_one (as_num (uerase_if p))
     | UClear => as_one (as_unit clear_)
     | UFind k => as_pos (ufind k)
     | UCount k => as_one (as_num (ucount k))
     | UContains k => b <- ucontains k;; ret (One (RBool b))
     | USize => as_one (as_num size_)
     | UTryEmplace k m => as_pair (utry_emplace k m)
     | UTryEmplaceHint h k m => as_pos (with_hint (pos h) (utry_emplace k m))
     | UInsertOrAssign k m => as_pair (uinsert_or_assign k m)
     | UInsertOrAssignHint h k m => as_pos (with_hint (pos h) (uinsert_or_assign k m))
     | UAt k => m <- umap_at k;; ret (TheMapped m)
     | UIndex k => m <- umap_index k;; ret (TheMapped m)
     | UPut i m => as_one (as_unit (assign_second (pos i) m))
     end)%prog.
End model.

(** ** [operator==] *)
Section perm.
  Context `{Env}.
  Context {St : Type}.
  Variable r : V -> V -> bool.             (* operator== of elements *)

  (** std::is_permutation(first1, last1, first2) as in libstdc++
      (bits/stl_algobase.h).  [pred(scan)]: comparison of an element with
      [*scan]. *)
  Definition as_scan (scan : loc) (x : loc) : M St bool := test2_ r x scan.
  (** std::find_if on [n] elements: the number of elements before the one found. *)
  Fixpoint pfind (scan : loc) (x : loc) (n : nat) : M St nat :=
    match n with
    | O => ret O
    | S n' => b <- as_scan scan x;; if b then ret O else k <- pfind scan (x +ₗ 1) n';; ret (S k)
    end%prog.
  (** std::count_if on [n] elements. *)
  Fixpoint pcount (scan : loc) (x : loc) (n : nat) : M St nat :=
    match n with
    | O => ret O
    | S n' => b <- as_scan scan x;; k <- pcount scan (x +ₗ 1) n';; ret (if b then S k else k)
    end%prog.
  (** The number of leading elements that are equal. *)
  Fixpoint pprefix (x y : loc) (n : nat) : M St nat :=
    match n with
    | O => ret O
    | S n' => b <- test2_ r x y;; if b then k <- pprefix (x +ₗ 1) (y +ₗ 1) n';; ret (S k) else ret O
    end%prog.
  (** The main loop: [x], [y] are the first of the [n] remaining elements, [i] of
      them have been scanned. *)
  Fixpoint pscan (x y : loc) (n i m : nat) : M St bool :=
    match m with
    | O => ret true
    | S m' =>
        let scan := x +ₗ Z.of_nat i in
        k <- pfind scan x i;;
        if Nat.eqb k i then
          matches <- pcount scan y n;;
          if Nat.eqb matches 0 then ret false
          else
            c <- pcount scan scan (n - i);;
            if Nat.eqb c matches then pscan x y n (S i) m' else ret false
        else pscan x y n (S i) m'
    end%prog.
  Definition is_permutation_ (x y : loc) (n : nat) : M St bool :=
    (k <- pprefix x y n;;
     if Nat.eqb k n then ret true
     else pscan (x +ₗ Z.of_nat k) (y +ₗ Z.of_nat k) (n - k) 0 (n - k))%prog.
End perm.
(** tus 857-865, tum 1154-1162, tums 791-799, tumm 891-899, sus 1678-1686, sum
    1964-1972, sums 1626-1634, summ 1712-1720 [operator==]. *)
Definition perm_eq_ `{Env} (r : V -> V -> bool) : M (vdata * vdata) bool :=
  (n1 <- on1 size_;;
   n2 <- on2 size_;;
   oo <- getS;;
   if n1 =? n2 then is_permutation_ r (v_first oo.1) (v_first oo.2) (Z.to_nat n1) else ret false)%prog.

(** ** [emplace_back]

    static: tus 825-841, tum 1122-1138, tums 768-784, tumm 868-884 as in
    static_vector ([static_emplace_back]); small: sus 1548-1662, sum 1834-1948, sums
    1505-1619, summ 1591-1705 as in small_vector ([emplace_back_]).  [pop_back]:
    tus 843-850, tum 1140-1147, sus 1664-1671, sum 1950-1957 ([pop_back_]).
    [operator=(ilist)] of the static containers: tus 249-253, tum 304-308, tums
    249-253, tumm 304-308 with [assign_range] ([static_list] of FlatModel.v). *)
