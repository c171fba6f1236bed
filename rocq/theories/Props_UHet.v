(** * Properties of the unordered flat containers used with a transparent key equality
      (C62 - C64)

    find(x), insert(x), erase(x), try_emplace(x, ...), c[x], ... of
    static_unordered_flat_* and small_unordered_flat_* with an argument [x] of a type
    other than the key type.  UHetSpec.v describes the functions ([yop]), the argument
    (the function telling with which elements it compares equal), [first_hit],
    [no_hit] and the results ([uhet_post], [uhet_exn]).  [fl], [kd], [c], [holds], ...
    are as in Props_Unordered.v.  [uhet_call fl kd o x w] runs the call [o];
    [uhet_allowed fl kd o l]: its preconditions. *)

From Verif Require Import UHetThms.
Open Scope Z_scope.

(** ** C62: lookup *)
Theorem C62_uhet_lookup : forall (E : Env) (KD : Keyed) fl kd, sane fl ->
  forall o x l w hf,
  holds (is_flat fl) x l w hf -> uhet_allowed fl kd o l = true -> y_looks_up o ->
  match uhet_call fl kd o x w with
  | Ok r x' w' => holds (is_flat fl) x' l w' hf /\ uhet_post kd o l r l
  | Exn e x' w' => holds (is_flat fl) x' l w' hf /\ reason e w w' /\
      (e = EUser \/ e = EOutOfRange /\ exists p, o = YAt p /\ no_hit p l)
  | UB => False
  end.
Proof. exact @uhet_lookup. Qed.
Print Assumptions C62_uhet_lookup.
(** The first of the two-digit numbers that begin with 2. *)
Example C62_case : let E := calm in let KD := calm_eset in
  let o := YFind (first_digit 2) in let l := [30; 11; 24; 21]%nat in
  uhet_allowed (SmallF 3) set_ o l = true /\ y_looks_up o /\
  exists x w hf x' w', holds (is_flat (SmallF 3)) x l w hf /\
    uhet_call (SmallF 3) set_ o x w = Ok (Pos 2) x' w'.
Proof.
  intros E KD o l. split; [reflexivity|]. split; [exact I|].
  apply (small_uhet_demo (KD := KD) 3 set_ true (ltac:(vm_compute; discriminate)) l []). vm_compute. reflexivity.
Qed.
(** at(x) throws. *)
Example C62_case2 : let E := calm_pairs in let KD := calm_emap in
  let o := YAt (key_after 4) in let l := [(5, 8); (2, 7)]%nat in
  uhet_allowed (StaticF 4) map_ o l = true /\ y_looks_up o /\
  exists x w hf x' w', holds (is_flat (StaticF 4)) x l w hf /\
    uhet_call (StaticF 4) map_ o x w = Exn EOutOfRange x' w'.
Proof.
  intros E KD o l. split; [reflexivity|]. split; [exact I|].
  apply (static_uhet_demo_exn (KD := KD) 4 map_ true l []). vm_compute. reflexivity.
Qed.

(** ** C63: insertion, assignment and removal *)
(** What a call does that returns. *)
Theorem C63_uhet_returns : forall (E : Env) (KD : Keyed) fl kd, sane fl ->
  forall o x l w hf r x' w',
  holds (is_flat fl) x l w hf -> uhet_allowed fl kd o l = true -> uhet_call fl kd o x w = Ok r x' w' ->
  exists l', holds (is_flat fl) x' l' w' hf /\ uhet_post kd o l r l'.
Proof. exact @uhet_returns. Qed.
Print Assumptions C63_uhet_returns.
(** insert_or_assign(x, 6) with a hint finds the element. *)
Example C63_returns_case : let E := calm_pairs in let KD := calm_emap in
  let o := YAssignHint 2 (key_after 6) 5%nat 6%nat in let l := [(2, 7); (5, 8)]%nat in
  uhet_allowed (SmallF 1) map_ o l = true /\
  exists x w hf x' w', holds (is_flat (SmallF 1)) x l w hf /\
    uhet_call (SmallF 1) map_ o x w = Ok (Pos 1) x' w'.
Proof.
  intros E KD o l. split; [reflexivity|].
  apply (small_uhet_demo (KD := KD) 1 map_ true (ltac:(vm_compute; discriminate)) l []). vm_compute. reflexivity.
Qed.

(** If the argument is equal to exactly the elements with the key [k], and an element
    made from it has the key [k], then the result is the one described in UnordSpec.v
    for the key, and keys stay distinct. *)
Theorem C63_uhet_like_key : forall (E : Env) (KD : Keyed) fl kd, sane fl ->
  forall c k o x l w hf r x' w',
  equals_key c (arg_y o) k l -> (forall v, new_y o = Some v -> key v = k) ->
  holds (is_flat fl) x l w hf -> uhet_allowed fl kd o l = true -> uhet_call fl kd o x w = Ok r x' w' ->
  exists l', holds (is_flat fl) x' l' w' hf /\ unord_post kd false false c (as_ukey o k) l r l' /\
    (multi kd = false -> equality_ok c -> distinct c l -> distinct c l').
Proof. exact @uhet_like_key. Qed.
Print Assumptions C63_uhet_like_key.
(** try_emplace(x, 9) adds an element with key 3. *)
Example C63_like_key_case : let E := calm_pairs in let KD := calm_emap in
  let o := YInsert (key_after 4) (3, 9)%nat in let l := [(5, 8); (2, 7)]%nat in
  equals_key true (arg_y o) 3%nat l /\ (forall v, new_y o = Some v -> key v = 3%nat) /\
  uhet_allowed (StaticF 4) map_ o l = true /\ equality_ok true /\ distinct true l /\
  exists x w hf x' w', holds (is_flat (StaticF 4)) x l w hf /\
    uhet_call (StaticF 4) map_ o x w = Ok (PosNew 2 true) x' w'.
Proof.
  intros E KD o l. split; [intros v _; reflexivity|]. split; [intros v H; injection H as <-; reflexivity|].
  split; [reflexivity|]. split; [apply nat_same_ok|]. split; [apply distinctb_ok; reflexivity|].
  apply (static_uhet_demo (KD := KD) 4 map_ true l []). vm_compute. reflexivity.
Qed.

(** A call that throws: the container is valid, an insertion has changed nothing (if
    moving the elements cannot lose any) unless the assigned mapped value is damaged;
    and calls are never undefined. *)
Theorem C63_uhet_throws : forall (E : Env) (KD : Keyed) fl kd, sane fl ->
  forall o x l w hf e x' w',
  holds (is_flat fl) x l w hf -> uhet_allowed fl kd o l = true -> uhet_call fl kd o x w = Exn e x' w' ->
  exists l', holds (is_flat fl) x' l' w' hf /\ reason e w w' /\
    uhet_exn (negb (is_static_flat fl)) (unbreakable fl) o l e l'.
Proof. exact @uhet_throws. Qed.
Print Assumptions C63_uhet_throws.
(** An exception while the elements move from the full inline buffer to the heap. *)
Example C63_throws_case : let E := throws_at 9 in let KD := throwing_eset 9 in
  let o := YInsert (first_digit_at 9 7) 71%nat in let l := [30; 11]%nat in
  uhet_allowed (SmallF 2) set_ o l = true /\ unbreakable (SmallF 2) = true /\
  exists x w hf x' w', holds (is_flat (SmallF 2)) x l w hf /\
    uhet_call (SmallF 2) set_ o x w = Exn EUser x' w'.
Proof.
  intros E KD o l. split; [reflexivity|]. split; [reflexivity|].
  apply (small_uhet_demo_exn (KD := KD) 2 set_ true (ltac:(vm_compute; discriminate)) l []). vm_compute. reflexivity.
Qed.
Theorem C63_uhet_no_ub : forall (E : Env) (KD : Keyed) fl kd, sane fl ->
  forall o x l w hf,
  holds (is_flat fl) x l w hf -> uhet_allowed fl kd o l = true -> uhet_call fl kd o x w <> UB.
Proof. exact @uhet_no_ub. Qed.
Print Assumptions C63_uhet_no_ub.
Example C63_no_ub_case : let E := calm in let KD := calm_eset in
  let o := YInsertHint 1 (first_digit 4) 40%nat in let l := [30; 11; 20]%nat in
  uhet_allowed (StaticF 4) set_ o l = true /\
  exists x w hf x' w', holds (is_flat (StaticF 4)) x l w hf /\
    uhet_call (StaticF 4) set_ o x w = Ok (Pos 3) x' w'.
Proof.
  intros E KD o l. split; [reflexivity|].
  apply (static_uhet_demo (KD := KD) 4 set_ true l []). vm_compute. reflexivity.
Qed.

(** ** C64: count(x) and erase(x) concern all equal elements *)
(** True for the multi containers, and for sets and maps if at most one element is
    equal to the argument. *)
Theorem C64_uhet_count_partial : forall (E : Env) (KD : Keyed) fl kd, sane fl ->
  forall p x l w hf r x' w',
  holds (is_flat fl) x l w hf -> uhet_call fl kd (YCount p) x w = Ok r x' w' ->
  (multi kd = true \/ (length (List.filter p l) <= 1)%nat) ->
  holds (is_flat fl) x' l w' hf /\ r = Num (length (List.filter p l)).
Proof. exact @uhet_count_all. Qed.
Print Assumptions C64_uhet_count_partial.
Example C64_count_case : let E := calm in let KD := calm_eset in
  let p := first_digit 2 in let l := [21; 30; 11; 24; 21]%nat in
  exists x w hf x' w', holds (is_flat (StaticF 5)) x l w hf /\
    uhet_call (StaticF 5) multiset_ (YCount p) x w = Ok (Num 3) x' w'.
Proof.
  intros E KD p l. apply (static_uhet_demo (KD := KD) 5 multiset_ true l []). vm_compute. reflexivity.
Qed.
Theorem C64_uhet_erase_partial : forall (E : Env) (KD : Keyed) fl kd, sane fl ->
  forall p x l w hf r x' w',
  holds (is_flat fl) x l w hf -> uhet_call fl kd (YErase p) x w = Ok r x' w' ->
  (multi kd = true \/ (length (List.filter p l) <= 1)%nat) ->
  exists l', holds (is_flat fl) x' l' w' hf /\ Permutation (List.filter (fun v => negb (p v)) l) l' /\
    r = Num (length (List.filter p l)).
Proof. exact @uhet_erase_all. Qed.
Print Assumptions C64_uhet_erase_partial.
Example C64_erase_case : let E := calm in let KD := calm_eset in
  let p := first_digit 2 in let l := [21; 30; 11; 24; 21]%nat in
  exists x w hf x' w', holds (is_flat (SmallF 2)) x l w hf /\
    uhet_call (SmallF 2) multiset_ (YErase p) x w = Ok (Num 3) x' w'.
Proof.
  intros E KD p l.
  apply (small_uhet_demo (KD := KD) 2 multiset_ true (ltac:(vm_compute; discriminate)) l []). vm_compute. reflexivity.
Qed.
(** False for sets and maps if several elements are equal to the argument: two are,
    count says 1, and after erase contains still says yes. *)
Theorem C64_uhet_set_refuted : forall fl, fl = StaticF 4 \/ fl = SmallF 4 ->
  exists (E : Env) (KD : Keyed) c p x l w hf,
    equality_ok c /\ distinct c l /\ holds (is_flat fl) x l w hf /\
    length (List.filter p l) = 2%nat /\
    (exists x' w', uhet_call fl set_ (YCount p) x w = Ok (Num 1) x' w') /\
    (exists r x' w' x2 w2, uhet_call fl set_ (YErase p) x w = Ok r x' w' /\
       uhet_call fl set_ (YContains p) x' w' = Ok (One (RBool true)) x2 w2).
Proof. exact partial_ukey_both. Qed.
Print Assumptions C64_uhet_set_refuted.
