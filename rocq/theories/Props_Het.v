(** * Properties of the ordered flat containers used with a transparent comparator
      (C59 - C61)

    find(x), insert(x), erase(x), try_emplace(x, ...), c[x], ... of static_flat_* and
    small_flat_* with an argument [x] of a type other than the key type.  HetSpec.v
    describes the functions ([hop]), the argument ([probe]: how it compares with the
    elements), [splits x l m n] (of the elements [l], the first [m] are before [x], the
    next [n - m] equivalent to it, the others behind it) and the results
    ([het_result]).  [fl], [kd], [c], [holds], ... are as in Props_Flat.v.
    [het_call fl kd o x w] runs the call [o]; [het_allowed fl kd o l]: its
    preconditions. *)

From Verif Require Import HetThms.
Open Scope Z_scope.

(** ** C59: lookup *)
Theorem C59_het_lookup : forall (E : Env) (KD : Keyed) fl kd, sane fl ->
  forall o x l w hf,
  holds (is_flat fl) x l w hf -> het_allowed fl kd o l = true -> looks_up o ->
  match het_call fl kd o x w with
  | Ok r x' w' => holds (is_flat fl) x' l w' hf /\
      forall m n, splits (probe_of o) l m n -> het_result kd o m n l r l
  | Exn e x' w' => holds (is_flat fl) x' l w' hf /\ reason e w w' /\
      (e = EUser \/
       e = EOutOfRange /\ exists p, o = HAt p /\ forall m n, splits p l m n -> m = n)
  | UB => False
  end.
Proof. exact @het_lookup. Qed.
Print Assumptions C59_het_lookup.
(** A multiset of two-digit numbers is asked for those that begin with 2. *)
Example C59_case : let E := calm in let KD := calm_set in
  let o := HEqualRange (calm_digit 2) in let l := [11; 21; 21; 24; 30]%nat in
  het_allowed (SmallF 3) multiset_ o l = true /\ looks_up o /\ splits (probe_of o) l 1 4 /\
  exists x w hf x' w', holds (is_flat (SmallF 3)) x l w hf /\
    het_call (SmallF 3) multiset_ o x w = Ok (PosRange 1 4) x' w'.
Proof.
  intros E KD o l. split; [reflexivity|]. split; [exact I|]. split; [by apply splitsb_ok|].
  apply (small_het_demo (KD := KD) 3 multiset_ true (ltac:(vm_compute; discriminate)) [21; 30; 11; 24; 21]%nat []).
  vm_compute. reflexivity.
Qed.
(** at(x) throws. *)
Example C59_case2 : let E := calm_pairs in let KD := calm_map in
  let o := HAt (calm_above 4) in let l := [(2, 7); (5, 8)]%nat in
  het_allowed (StaticF 4) map_ o l = true /\ looks_up o /\ splits (probe_of o) l 1 1 /\
  exists x w hf x' w', holds (is_flat (StaticF 4)) x l w hf /\
    het_call (StaticF 4) map_ o x w = Exn EOutOfRange x' w'.
Proof.
  intros E KD o l. split; [reflexivity|]. split; [exact I|]. split; [by apply splitsb_ok|].
  apply (static_het_demo_exn (KD := KD) 4 map_ true [(5, 8); (2, 7)]%nat []). vm_compute. reflexivity.
Qed.

(** ** C60: insertion, assignment and removal *)
(** What a call does that returns. *)
Theorem C60_het_returns : forall (E : Env) (KD : Keyed) fl kd, sane fl ->
  forall o x l w hf r x' w' m n,
  holds (is_flat fl) x l w hf -> het_allowed fl kd o l = true ->
  het_call fl kd o x w = Ok r x' w' -> splits (probe_of o) l m n ->
  exists l', holds (is_flat fl) x' l' w' hf /\ het_result kd o m n l r l'.
Proof. exact @het_returns. Qed.
Print Assumptions C60_het_returns.
(** insert_or_assign(x, 6) with a wrong hint finds the element. *)
Example C60_returns_case : let E := calm_pairs in let KD := calm_map in
  let o := HAssignHint 0 (calm_above 6) 5%nat 6%nat in let l := [(2, 7); (5, 8)]%nat in
  het_allowed (SmallF 1) map_ o l = true /\ splits (probe_of o) l 1 2 /\
  exists x w hf x' w', holds (is_flat (SmallF 1)) x l w hf /\
    het_call (SmallF 1) map_ o x w = Ok (Pos 1) x' w'.
Proof.
  intros E KD o l. split; [reflexivity|]. split; [by apply splitsb_ok|].
  apply (small_het_demo (KD := KD) 1 map_ true (ltac:(vm_compute; discriminate)) [(5, 8); (2, 7)]%nat []).
  vm_compute. reflexivity.
Qed.

(** If the argument compares with the elements as the key [k] does, and an element
    made from it has the key [k], then the result is the one described in FlatSpec.v
    for the key, and the container stays in order. *)
Theorem C60_het_like_key : forall (E : Env) (KD : Keyed) fl kd, sane fl ->
  forall c k o x l w hf r x' w',
  strict_weak (less c) -> ordered kd c l -> stands_for c (probe_of o) k l ->
  (forall v, new_elem o = Some v -> key v = k) ->
  holds (is_flat fl) x l w hf -> het_allowed fl kd o l = true -> het_call fl kd o x w = Ok r x' w' ->
  exists l', holds (is_flat fl) x' l' w' hf /\ flat_sorted kd c false (as_key o k) l r l' /\ ordered kd c l'.
Proof. exact @het_like_key. Qed.
Print Assumptions C60_het_like_key.
(** try_emplace(x, 9) adds an element with key 3. *)
Example C60_like_key_case : let E := calm_pairs in let KD := calm_map in
  let o := HInsert (calm_above 4) (3, 9)%nat in let l := [(2, 7); (5, 8)]%nat in
  strict_weak (less true) /\ ordered map_ true l /\ stands_for true (probe_of o) 3%nat l /\
  (forall v, new_elem o = Some v -> key v = 3%nat) /\ het_allowed (StaticF 4) map_ o l = true /\
  exists x w hf x' w', holds (is_flat (StaticF 4)) x l w hf /\
    het_call (StaticF 4) map_ o x w = Ok (PosNew 1 true) x' w'.
Proof.
  intros E KD o l. split; [apply nat_less_strict|]. split; [by apply orderedb_ok|]. split.
  { intros v _. split; reflexivity. }
  split; [by intros v [= <-]|]. split; [reflexivity|].
  apply (static_het_demo (KD := KD) 4 map_ true [(5, 8); (2, 7)]%nat []). vm_compute. reflexivity.
Qed.

(** A call that throws: the container is valid; nothing has changed if memory is
    exhausted or if the new element comes last; and calls are never undefined. *)
Theorem C60_het_throws : forall (E : Env) (KD : Keyed) fl kd, sane fl ->
  forall o x l w hf e x' w',
  holds (is_flat fl) x l w hf -> het_allowed fl kd o l = true -> het_call fl kd o x w = Exn e x' w' ->
  exists l', holds (is_flat fl) x' l' w' hf /\ reason e w w' /\
    het_exn (negb (is_static_flat fl)) (unbreakable fl) o l e l'.
Proof. exact @het_throws. Qed.
Print Assumptions C60_het_throws.
(** An exception while the elements move from the full inline buffer to the heap. *)
Example C60_throws_case : let E := throws_at 9 in let KD := throwing_set 9 in
  let o := HInsert (digit _ _ _ _ 7) 71%nat in let l := [11; 30]%nat in
  het_allowed (SmallF 2) set_ o l = true /\ splits (probe_of o) l (length l) (length l) /\
  unbreakable (SmallF 2) = true /\
  exists x w hf x' w', holds (is_flat (SmallF 2)) x l w hf /\
    het_call (SmallF 2) set_ o x w = Exn EUser x' w'.
Proof.
  intros E KD o l. split; [reflexivity|]. split; [by apply splitsb_ok|]. split; [reflexivity|].
  apply (small_het_demo_exn (KD := KD) 2 set_ true (ltac:(vm_compute; discriminate)) [30; 11]%nat []).
  vm_compute. reflexivity.
Qed.
Theorem C60_het_no_ub : forall (E : Env) (KD : Keyed) fl kd, sane fl ->
  forall o x l w hf,
  holds (is_flat fl) x l w hf -> het_allowed fl kd o l = true -> het_call fl kd o x w <> UB.
Proof. exact @het_no_ub. Qed.
Print Assumptions C60_het_no_ub.
(** A probe that makes no sense at all, with a hint in the middle. *)
Example C60_no_ub_case : let E := calm in let KD := calm_set in
  let o := HInsertHint 1 (@Probe calm Nat.even Nat.even) 40%nat in
  let l := [11; 20; 30]%nat in
  het_allowed (StaticF 4) set_ o l = true /\
  exists x w hf x' w', holds (is_flat (StaticF 4)) x l w hf /\
    het_call (StaticF 4) set_ o x w = Ok (Pos 3) x' w'.
Proof.
  intros E KD o l. split; [reflexivity|].
  apply (static_het_demo (KD := KD) 4 set_ true [30; 11; 20]%nat []). vm_compute. reflexivity.
Qed.

(** ** C61: count(x) and erase(x) concern all equivalent elements *)
(** True for the multi containers, and for sets and maps if at most one element is
    equivalent to the argument. *)
Theorem C61_het_count_partial : forall (E : Env) (KD : Keyed) fl kd, sane fl ->
  forall p x l w hf r x' w' m n,
  holds (is_flat fl) x l w hf -> het_call fl kd (HCount p) x w = Ok r x' w' -> splits p l m n ->
  (multi kd = true \/ (n <= S m)%nat) ->
  holds (is_flat fl) x' l w' hf /\ r = Num (length (List.filter (matches p) l)).
Proof. exact @het_count_all. Qed.
Print Assumptions C61_het_count_partial.
Example C61_count_case : let E := calm in let KD := calm_set in
  let p := calm_digit 2 in let l := [11; 21; 21; 24; 30]%nat in
  splits p l 1 4 /\
  exists x w hf x' w', holds (is_flat (StaticF 5)) x l w hf /\
    het_call (StaticF 5) multiset_ (HCount p) x w = Ok (Num 3) x' w'.
Proof.
  intros E KD p l. split; [by apply splitsb_ok|].
  apply (static_het_demo (KD := KD) 5 multiset_ true [21; 30; 11; 24; 21]%nat []). vm_compute. reflexivity.
Qed.
Theorem C61_het_erase_partial : forall (E : Env) (KD : Keyed) fl kd, sane fl ->
  forall p x l w hf r x' w' m n,
  holds (is_flat fl) x l w hf -> het_call fl kd (HErase p) x w = Ok r x' w' -> splits p l m n ->
  (multi kd = true \/ (n <= S m)%nat) ->
  holds (is_flat fl) x' (List.filter (fun v => negb (matches p v)) l) w' hf /\
  r = Num (length (List.filter (matches p) l)).
Proof. exact @het_erase_all. Qed.
Print Assumptions C61_het_erase_partial.
Example C61_erase_case : let E := calm in let KD := calm_set in
  let p := calm_digit 2 in let l := [11; 21; 21; 24; 30]%nat in
  splits p l 1 4 /\
  exists x w hf x' w', holds (is_flat (SmallF 2)) x l w hf /\
    het_call (SmallF 2) multiset_ (HErase p) x w = Ok (Num 3) x' w'.
Proof.
  intros E KD p l. split; [by apply splitsb_ok|].
  apply (small_het_demo (KD := KD) 2 multiset_ true (ltac:(vm_compute; discriminate)) [21; 30; 11; 24; 21]%nat []).
  vm_compute. reflexivity.
Qed.
(** False for sets and maps if several elements are equivalent to the argument: two
    are, count says 1, and after erase contains still says yes. *)
Theorem C61_het_set_refuted : forall fl, fl = StaticF 4 \/ fl = SmallF 4 ->
  exists (E : Env) (KD : Keyed) c p x l w hf m n,
    strict_weak (less c) /\ ordered set_ c l /\ holds (is_flat fl) x l w hf /\ splits p l m n /\
    length (List.filter (matches p) l) = 2%nat /\
    (exists x' w', het_call fl set_ (HCount p) x w = Ok (Num 1) x' w') /\
    (exists r x' w' x2 w2, het_call fl set_ (HErase p) x w = Ok r x' w' /\
       het_call fl set_ (HContains p) x' w' = Ok (One (RBool true)) x2 w2).
Proof. exact partial_key_both. Qed.
Print Assumptions C61_het_set_refuted.
