(** * Properties of the ordered flat containers (C32 - C39, C46)

    static_flat_set, static_flat_map, static_flat_multiset, static_flat_multimap and
    the four small_flat_* containers.  [fl] is the flavour ([StaticF N] or
    [SmallF N], [sane fl]: for the small ones N <= max_size()), [kd] the kind (multi
    or not, map or not), [c] a comparator object; [strict_weak], [found], [ordered],
    [flat_sorted], ... are defined in FlatSpec.v.  [holds (is_flat fl) x l w hf]: in
    world [w] the object [x] is such a container with elements [l], the rest of
    memory is [hf].  [flat_call fl kd c o x w] runs the member function call [o];
    [allowed_call fl kd o l]: its preconditions. *)

From Verif Require Import FlatDemo.
Open Scope Z_scope.

(** ** C32: the elements stay in order *)
Theorem C32_flat_order_kept : forall (E : Env) (KD : Keyed) fl kd c, sane fl ->
  forall o x l w hf r x' w',
  strict_weak (less c) ->
  holds (is_flat fl) x l w hf -> allowed_call fl kd o l = true ->
  flat_call fl kd c o x w = Ok r x' w' ->
  ordered kd c l -> (replaces_all o -> is_static_flat fl = false) ->
  exists l', holds (is_flat fl) x' l' w' hf /\ ordered kd c l'.
Proof. exact @flat_order_kept. Qed.
Print Assumptions C32_flat_order_kept.
(** Four values, one of them present, are inserted into a small map. *)
Example C32_case : let E := calm_pairs in let KD := calm_map in
  let o := FInsertRange [(3, 1); (2, 2); (9, 3); (3, 4)]%nat in
  let l := [(2, 7); (4, 8)]%nat in
  strict_weak (less true) /\ ordered map_ true l /\ allowed_call (SmallF 3) map_ o l = true /\
  exists x w hf x' w', holds (is_flat (SmallF 3)) x l w hf /\
    flat_call (SmallF 3) map_ true o x w = Ok (One RUnit) x' w'.
Proof.
  intros E KD o l. split; [apply nat_less_strict|]. split; [by apply orderedb_ok|]. split; [reflexivity|].
  apply (small_demo (KD := KD) 3 map_ true (ltac:(vm_compute; discriminate)) [(4, 8); (2, 7)]%nat []). vm_compute. reflexivity.
Qed.

(** Any program that uses static_flat_* objects: whatever throws, memory is used
    correctly; the objects in [static_tidy] (FlatHist.v: since they were last made
    or cleared, every call returned, no elements were moved away one by one and no
    list was assigned) are in order; and if nothing throws, nothing is moved away
    and no list is assigned, then all objects are in order. *)
Theorem C32_static_flat_history : forall (E : Env) (KD : Keyed) N kd cs w,
  (forall c, strict_weak (less c)) -> wf_world w ->
  exists os P w' A h,
    exec_all (static_flat N kd) cs ∅ w = Some (os, P, w') /\
    pool_mem (S := static_flat_spec N kd) (with_cmp (is_static N)) P A h /\
    h ##ₘ heap w /\ heap w' = h ∪ heap w /\
    (forall i, i ∈ static_tidy cs os ->
       exists c ib l, A !! i = Some (c, (ib, l)) /\ ordered kd c l) /\
    (forallb static_plain cs = true -> (forall e, Threw e ∉ os) ->
       forall i c ib l, A !! i = Some (c, (ib, l)) -> ordered kd c l).
Proof. exact @static_flat_sorted_history. Qed.
Print Assumptions C32_static_flat_history.
(** A set, its copy with two more elements, swapped with a set in descending order. *)
Definition C32_program : list (cmd (static_flat (KD := calm_set) 4 set_)) :=
  let C := static_flat (KD := calm_set) 4 set_ in
  [@New calm C 0 (@NewRange _ calm_set true 0 [3; 1; 3]%nat);
   @NewFrom calm C 1 0 TCopy;
   static_do (KD := calm_set) 1 (@FInsert _ calm_set (@XVal calm 2%nat));
   @New calm C 2 (@NewRange _ calm_set false 0 [1; 5]%nat);
   @Do2 calm C 1 2 PSwap;
   static_do (KD := calm_set) 1 (@FInsert _ calm_set (@XVal calm 9%nat))].
Example C32_history_case : let E := calm in let KD := calm_set in
  (forall c, strict_weak (less c)) /\ forallb static_plain C32_program = true /\
  exists os P w', exec_all (static_flat 4 set_) C32_program ∅ w0 = Some (os, P, w') /\
    forallb went_well os && bool_decide (static_tidy C32_program os = {[0; 1; 2]}%nat) = true.
Proof.
  intros E KD. split; [intros c; apply nat_less_strict|]. split; [reflexivity|].
  apply (outcomes_case (static_flat (KD := KD) 4 set_)). vm_compute. reflexivity.
Qed.

Theorem C32_small_flat_history : forall (E : Env) (KD : Keyed) N kd, Z.of_nat N <= max_size ->
  forall cs w, (forall c, strict_weak (less c)) -> wf_world w ->
  exists os P w' A h,
    exec_all (small_flat N kd) cs ∅ w = Some (os, P, w') /\
    pool_mem (S := small_flat_spec N kd) (with_cmp (is_small N)) P A h /\
    h ##ₘ heap w /\ heap w' = h ∪ heap w /\
    (forall i, i ∈ small_tidy cs os ->
       exists c ib q, A !! i = Some (c, (ib, q)) /\ ordered kd c (q_elems q)) /\
    (forallb small_plain cs = true -> (forall e, Threw e ∉ os) ->
       forall i c ib q, A !! i = Some (c, (ib, q)) -> ordered kd c (q_elems q)).
Proof. exact @small_flat_sorted_history. Qed.
Print Assumptions C32_small_flat_history.
(** The list assigned to the first set is sorted; inserting into the second throws,
    so it is given up, and is in order again when it is cleared. *)
Definition C32_program2 : list (cmd (small_flat (KD := string_set 16) 4 set_)) :=
  let C := small_flat (KD := string_set 16) 4 set_ in
  [@New (strings 16) C 0 (@NewEmpty _ (string_set 16) true 0);
   small_do (KD := string_set 16) 0 (@FAssignList _ (string_set 16) [2; 5; 2]%nat);
   @New (strings 16) C 1 (@NewRange _ (string_set 16) false 0 [1; 5]%nat);
   small_do (KD := string_set 16) 1 (@FInsert _ (string_set 16) (@XVal (strings 16) 6%nat));
   small_do (KD := string_set 16) 1 (@FClear _ (string_set 16))].
Example C32_history_case2 : let E := strings 16 in let KD := string_set 16 in
  (forall c, strict_weak (less c)) /\ Z.of_nat 4 <= max_size /\
  exists os P w', exec_all (small_flat 4 set_) C32_program2 ∅ w0 = Some (os, P, w') /\
    existsb user_threw os && bool_decide (small_tidy C32_program2 os = {[0; 1]}%nat) = true.
Proof.
  intros E KD. split; [intros c; apply nat_less_strict|]. split; [vm_compute; discriminate|].
  apply (outcomes_case (small_flat (KD := KD) 4 set_)). vm_compute. reflexivity.
Qed.

(** ** C33: lookup *)
Theorem C33_flat_lookup : forall (E : Env) (KD : Keyed) fl kd c, sane fl ->
  forall o x l w hf r x' w',
  strict_weak (less c) -> ordered kd c l ->
  holds (is_flat fl) x l w hf -> flat_call fl kd c o x w = Ok r x' w' ->
  match o with
  | FFind k => holds (is_flat fl) x' l w' hf /\
      ((exists i, r = Pos i /\ found c l k i /\ forall j, found c l k j -> (i <= j)%nat) \/
       (r = Pos (length l) /\ absent c l k))
  | FLower k => holds (is_flat fl) x' l w' hf /\ exists i, r = Pos i /\ lower_pos c l k i
  | FUpper k => holds (is_flat fl) x' l w' hf /\ exists i, r = Pos i /\ upper_pos c l k i
  | FEqualRange k => holds (is_flat fl) x' l w' hf /\
      exists i j, r = PosRange i j /\ lower_pos c l k i /\ upper_pos c l k j
  | FCount k => holds (is_flat fl) x' l w' hf /\ r = Num (length (List.filter (equivb c k) l))
  | FContains k => holds (is_flat fl) x' l w' hf /\
      exists b, r = One (RBool b) /\ (b = true <-> exists i, found c l k i)
  | FSize => holds (is_flat fl) x' l w' hf /\ r = Num (length l)
  | _ => True
  end.
Proof. exact @flat_lookup_found. Qed.
Print Assumptions C33_flat_lookup.
(** Three entries with equivalent keys in a multimap. *)
Example C33_case : let E := calm_pairs in let KD := calm_map in
  let l := [(2, 7); (4, 1); (4, 2); (4, 3); (5, 1)]%nat in
  strict_weak (less true) /\ ordered multimap_ true l /\
  exists x w hf x' w', holds (is_flat (StaticF 5)) x l w hf /\
    flat_call (StaticF 5) multimap_ true (FEqualRange 4%nat) x w = Ok (PosRange 1 4) x' w'.
Proof.
  intros E KD l. split; [apply nat_less_strict|]. split; [by apply orderedb_ok|].
  apply (static_demo (KD := KD) 5 multimap_ true [(4, 3); (2, 7); (5, 1); (4, 2); (4, 1)]%nat []). vm_compute. reflexivity.
Qed.
(** Lookup never modifies the container, and only fails if the comparator throws
    (at(): or the key is absent). *)
Theorem C33_flat_lookup_pure : forall (E : Env) (KD : Keyed) fl kd c, sane fl ->
  forall o x l w hf,
  holds (is_flat fl) x l w hf -> allowed_call fl kd o l = true -> is_lookup o = true ->
  match flat_call fl kd c o x w with
  | Ok r x' w' => holds (is_flat fl) x' l w' hf /\
      (strict_weak (less c) -> ordered kd c l -> flat_sorted kd c (is_static_flat fl) o l r l)
  | Exn e x' w' => holds (is_flat fl) x' l w' hf /\
      (e = EUser \/ e = EOutOfRange /\ exists k, o = FAt k /\ (strict_weak (less c) -> ordered kd c l -> absent c l k)) /\
      reason e w w'
  | UB => False
  end.
Proof. exact @flat_lookup. Qed.
Print Assumptions C33_flat_lookup_pure.
Example C33_pure_case : let E := throws_at 5 in let KD := throwing_set 5 in
  let l := [2; 4]%nat in
  allowed_call (StaticF 4) multiset_ (FFind 4%nat) l = true /\
  exists x w hf x' w', holds (is_flat (StaticF 4)) x l w hf /\
    flat_call (StaticF 4) multiset_ true (FFind 4%nat) x w = Exn EUser x' w'.
Proof.
  intros E KD l. split; [reflexivity|].
  apply (static_demo_exn (KD := KD) 4 multiset_ true [2; 4]%nat []). vm_compute. reflexivity.
Qed.

(** ** C34: insertion into sets and maps *)
Theorem C34_flat_insert : forall (E : Env) (KD : Keyed) fl kd c, sane fl ->
  forall o x l w hf r x' w' a h,
  multi kd = false -> strict_weak (less c) -> ordered kd c l ->
  holds (is_flat fl) x l w hf -> allowed_call fl kd o l = true -> one_insert o = Some (a, h) ->
  flat_call fl kd c o x w = Ok r x' w' ->
  exists v i b, arg_value l a = Some v /\ r = (if h then Pos i else PosNew i b) /\
    ((b = false /\ found c l (key v) i /\ holds (is_flat fl) x' l w' hf) \/
     (b = true /\ absent c l (key v) /\ (i <= length l)%nat /\
      holds (is_flat fl) x' (take i l ++ v :: drop i l) w' hf /\ ordered kd c (take i l ++ v :: drop i l))).
Proof. exact @flat_insert_unique. Qed.
Print Assumptions C34_flat_insert.
(** A key that is present: the entry is not overwritten.  A new key that needs a
    larger block. *)
Example C34_case : let E := calm_pairs in let KD := calm_map in
  let l := [(2, 7); (4, 8)]%nat in
  strict_weak (less true) /\ ordered map_ true l /\
  allowed_call (StaticF 3) map_ (FInsert (XVal (4, 1)%nat)) l = true /\
  exists x w hf x' w', holds (is_flat (StaticF 3)) x l w hf /\
    flat_call (StaticF 3) map_ true (FInsert (XVal (4, 1)%nat)) x w = Ok (PosNew 1 false) x' w'.
Proof.
  intros E KD l. split; [apply nat_less_strict|]. split; [by apply orderedb_ok|]. split; [reflexivity|].
  apply (static_demo (KD := KD) 3 map_ true [(4, 8); (2, 7)]%nat []). vm_compute. reflexivity.
Qed.
Example C34_case2 : let E := calm_pairs in let KD := calm_map in
  let l := [(4, 8); (2, 7)]%nat in
  strict_weak (less false) /\ ordered map_ false l /\
  allowed_call (SmallF 2) map_ (FEmplace (XVal (3, 1)%nat)) l = true /\
  exists x w hf x' w', holds (is_flat (SmallF 2)) x l w hf /\
    flat_call (SmallF 2) map_ false (FEmplace (XVal (3, 1)%nat)) x w = Ok (PosNew 1 true) x' w'.
Proof.
  intros E KD l. split; [apply nat_less_strict|]. split; [by apply orderedb_ok|]. split; [reflexivity|].
  apply (small_demo (KD := KD) 2 map_ false (ltac:(vm_compute; discriminate)) [(4, 8); (2, 7)]%nat []). vm_compute. reflexivity.
Qed.
Theorem C34_flat_insert_range : forall (E : Env) (KD : Keyed) fl kd c, sane fl ->
  forall vs x l w hf r x' w',
  strict_weak (less c) -> ordered kd c l ->
  holds (is_flat fl) x l w hf -> allowed_call fl kd (FInsertRange vs) l = true ->
  flat_call fl kd c (FInsertRange vs) x w = Ok r x' w' ->
  exists l', holds (is_flat fl) x' l' w' hf /\ ordered kd c l' /\
    l `sublist_of` l' /\ (forall y, y ∈ l' -> y ∈ l \/ y ∈ vs) /\
    (forall v, v ∈ vs -> exists i, found c l' (key v) i) /\
    (multi kd = true -> l' ≡ₚ vs ++ l).
Proof. exact @flat_insert_range. Qed.
Print Assumptions C34_flat_insert_range.   (* case: C32_case *)
Theorem C34_flat_construct : forall (E : Env) (KD : Keyed) fl kd, sane fl ->
  forall k w hf x u w',
  strict_weak (less (fc_cmp k)) ->
  holds0 w hf -> can_hold fl (length (fc_vals k)) = true ->
  flat_new fl kd k tt w = Ok x u w' ->
  exists l', holds (is_flat fl) x l' w' hf /\ ordered kd (fc_cmp k) l' /\
    (forall y, y ∈ l' -> y ∈ fc_vals k) /\
    (forall v, v ∈ fc_vals k -> exists i, found (fc_cmp k) l' (key v) i) /\
    (multi kd = true -> l' ≡ₚ fc_vals k).
Proof. exact @flat_new_range. Qed.
Print Assumptions C34_flat_construct.
Example C34_construct_case : let E := calm_pairs in let KD := calm_map in
  let k := NewRange true 0 [(4, 1); (2, 7); (4, 2)]%nat in
  strict_weak (less (fc_cmp k)) /\ holds0 w0 ∅ /\ can_hold (StaticF 3) (length (fc_vals k)) = true /\
  exists x u w', flat_new (StaticF 3) map_ k tt w0 = Ok x u w'.
Proof.
  intros E KD k. split; [apply nat_less_strict|]. split; [apply w0_holds|]. split; [reflexivity|].
  destruct (flat_new (StaticF 3) map_ k tt w0) as [x u w'| |] eqn:Hn; [by exists x, u, w'|..];
    exfalso; apply (f_equal returned) in Hn; vm_compute in Hn; discriminate.
Qed.

(** ** C35: hints do not matter *)
Theorem C35_flat_hint : forall (E : Env) (KD : Keyed) fl kd c, sane fl ->
  forall o oh x l w hf r1 x1 w1 r2 x2 w2,
  strict_weak (less c) -> ordered kd c l -> hinted o oh ->
  holds (is_flat fl) x l w hf -> allowed_call fl kd o l = true -> allowed_call fl kd oh l = true ->
  flat_call fl kd c o x w = Ok r1 x1 w1 -> flat_call fl kd c oh x w = Ok r2 x2 w2 ->
  exists l1 l2, holds (is_flat fl) x1 l1 w1 hf /\ holds (is_flat fl) x2 l2 w2 hf /\ same_keys c l1 l2 /\
    (multi kd = false -> l1 = l2 /\ r2 = iterator_of r1).
Proof. exact @flat_hint. Qed.
Print Assumptions C35_flat_hint.
(** A hint far off. *)
Example C35_case : let E := calm_pairs in let KD := calm_map in
  let l := [(2, 7); (4, 8); (6, 9)]%nat in
  let o := FInsert (XVal (5, 1)%nat) in let oh := FInsertHint 0 (XVal (5, 1)%nat) in
  strict_weak (less true) /\ ordered map_ true l /\ hinted o oh /\
  allowed_call (StaticF 4) map_ o l = true /\ allowed_call (StaticF 4) map_ oh l = true /\
  exists x w hf, holds (is_flat (StaticF 4)) x l w hf /\
    (exists x1 w1, flat_call (StaticF 4) map_ true o x w = Ok (PosNew 2 true) x1 w1) /\
    (exists x2 w2, flat_call (StaticF 4) map_ true oh x w = Ok (Pos 2) x2 w2).
Proof.
  intros E KD l o oh. split; [apply nat_less_strict|]. split; [by apply orderedb_ok|].
  split; [reflexivity|]. split; [reflexivity|]. split; [reflexivity|].
  destruct (static_after_ok (KD := KD) 4 map_ true [(4, 8); (2, 7); (6, 9)]%nat []
    (fun x w => match returned (flat_call (KD := KD) (StaticF 4) map_ true o x w),
                      returned (flat_call (KD := KD) (StaticF 4) map_ true oh x w) with
                | Some r1, Some r2 => Some (r1, r2) | _, _ => None end) l (PosNew (H := KD) 2 true, Pos (H := KD) 2))
    as (x & w & hf & Hx & Hr); [vm_compute; reflexivity|].
  exists x, w, hf. split; [done|].
  destruct (returned (flat_call (KD := KD) (StaticF 4) map_ true o x w)) as [r1|] eqn:H1; [|done].
  destruct (returned (flat_call (KD := KD) (StaticF 4) map_ true oh x w)) as [r2|] eqn:H2; [|done].
  injection Hr as -> ->. apply returned_ok in H1, H2. done.
Qed.

(** ** C36: maps *)
Theorem C36_flat_map_at : forall (E : Env) (KD : Keyed) fl kd c, sane fl ->
  forall k x l w hf,
  strict_weak (less c) -> ordered kd c l -> is_map kd = true -> multi kd = false ->
  holds (is_flat fl) x l w hf ->
  match flat_call fl kd c (FAt k) x w with
  | Ok r x' w' => holds (is_flat fl) x' l w' hf /\
      exists i v, l !! i = Some v /\ FlatSpec.equiv c (key v) k /\ r = TheMapped (mapped v)
  | Exn e x' w' => holds (is_flat fl) x' l w' hf /\
      (e = EOutOfRange /\ absent c l k \/ e = EUser /\ reason e w w')
  | UB => False
  end.
Proof. exact @flat_at. Qed.
Print Assumptions C36_flat_map_at.
Example C36_at_case : let E := calm_pairs in let KD := calm_map in
  let l := [(2, 7); (4, 8); (6, 9)]%nat in
  strict_weak (less true) /\ ordered map_ true l /\
  (exists x w hf x' w', holds (is_flat (StaticF 4)) x l w hf /\
    flat_call (StaticF 4) map_ true (FAt 4%nat) x w = Ok (TheMapped 8%nat) x' w') /\
  (exists x w hf x' w', holds (is_flat (StaticF 4)) x l w hf /\
    flat_call (StaticF 4) map_ true (FAt 5%nat) x w = Exn EOutOfRange x' w').
Proof.
  intros E KD l. split; [apply nat_less_strict|]. split; [by apply orderedb_ok|]. split.
  - apply (static_demo (KD := KD) 4 map_ true [(4, 8); (2, 7); (6, 9)]%nat []). vm_compute. reflexivity.
  - apply (static_demo_exn (KD := KD) 4 map_ true [(4, 8); (2, 7); (6, 9)]%nat []). vm_compute. reflexivity.
Qed.
(** try_emplace, insert_or_assign and operator[]. *)
Theorem C36_flat_map_update : forall (E : Env) (KD : Keyed) fl kd c, sane fl ->
  forall o k m x l w hf r x' w',
  strict_weak (less c) -> ordered kd c l -> holds (is_flat fl) x l w hf -> allowed_call fl kd o l = true ->
  flat_call fl kd c o x w = Ok r x' w' ->
  match o with
  | FTryEmplace k' m' | FInsertOrAssign k' m' | FTryEmplaceHint _ k' m' | FInsertOrAssignHint _ k' m' => k' = k /\ m' = m
  | FIndex k' => k' = k /\ m = mdef
  | _ => False
  end ->
  exists i l', holds (is_flat fl) x' l' w' hf /\ ordered kd c l' /\
    ((* the key was there *)
     (exists v, l !! i = Some v /\ FlatSpec.equiv c (key v) k /\
        match o with
        | FInsertOrAssign _ _ | FInsertOrAssignHint _ _ _ => l' = <[i := entry (key v) m]> l
        | _ => l' = l
        end /\
        match o with
        | FTryEmplace _ _ | FInsertOrAssign _ _ => r = PosNew i false
        | FIndex _ => r = TheMapped (mapped v)
        | _ => r = Pos i
        end) \/
     (* it is new *)
     (absent c l k /\ (i <= length l)%nat /\ l' = take i l ++ entry k m :: drop i l /\
        match o with
        | FTryEmplace _ _ | FInsertOrAssign _ _ => r = PosNew i true
        | FIndex _ => r = TheMapped m
        | _ => r = Pos i
        end)).
Proof. exact @flat_map_update. Qed.
Print Assumptions C36_flat_map_update.
Example C36_update_case : let E := calm_pairs in let KD := calm_map in
  let l := [(2, 7); (4, 8); (6, 9)]%nat in
  let o1 := FInsertOrAssign 4%nat 1%nat in let o2 := FIndex 5%nat in
  strict_weak (less true) /\ ordered map_ true l /\
  allowed_call (StaticF 4) map_ o1 l = true /\ allowed_call (StaticF 4) map_ o2 l = true /\
  (exists x w hf x' w', holds (is_flat (StaticF 4)) x l w hf /\
    flat_call (StaticF 4) map_ true o1 x w = Ok (PosNew 1 false) x' w') /\
  (exists x w hf x' w', holds (is_flat (StaticF 4)) x l w hf /\
    flat_call (StaticF 4) map_ true o2 x w = Ok (TheMapped 0%nat) x' w').
Proof.
  intros E KD l o1 o2. split; [apply nat_less_strict|]. split; [by apply orderedb_ok|].
  split; [reflexivity|]. split; [reflexivity|]. split.
  - apply (static_demo (KD := KD) 4 map_ true [(4, 8); (2, 7); (6, 9)]%nat []). vm_compute. reflexivity.
  - apply (static_demo (KD := KD) 4 map_ true [(4, 8); (2, 7); (6, 9)]%nat []). vm_compute. reflexivity.
Qed.
(** Assigning through an iterator. *)
Theorem C36_flat_map_write : forall (E : Env) (KD : Keyed) fl kd c, sane fl ->
  forall i m x l w hf r x' w',
  is_map kd = true -> holds (is_flat fl) x l w hf -> (i < length l)%nat ->
  flat_call fl kd c (FPut i m) x w = Ok r x' w' ->
  exists v, l !! i = Some v /\ holds (is_flat fl) x' (<[i := entry (key v) m]> l) w' hf.
Proof. exact @flat_put. Qed.
Print Assumptions C36_flat_map_write.
Example C36_write_case : let E := calm_pairs in let KD := calm_map in
  let l := [(2, 7); (4, 8); (4, 9)]%nat in
  exists x w hf x' w', holds (is_flat (SmallF 2)) x l w hf /\
    flat_call (SmallF 2) multimap_ true (FPut 1 5%nat) x w = Ok (One RUnit) x' w'.
Proof.
  intros E KD l.
  apply (small_demo (KD := KD) 2 multimap_ true (ltac:(vm_compute; discriminate)) [(4, 9); (2, 7); (4, 8)]%nat []). vm_compute. reflexivity.
Qed.

(** ** C37: multisets and multimaps *)
Theorem C37_flat_multi_insert : forall (E : Env) (KD : Keyed) fl kd c, sane fl ->
  forall o x l w hf r x' w' a h,
  multi kd = true -> strict_weak (less c) -> ordered kd c l ->
  holds (is_flat fl) x l w hf -> allowed_call fl kd o l = true -> one_insert o = Some (a, h) ->
  flat_call fl kd c o x w = Ok r x' w' ->
  exists v i, arg_value l a = Some v /\ r = Pos i /\ (i <= length l)%nat /\
    holds (is_flat fl) x' (take i l ++ v :: drop i l) w' hf /\ ordered kd c (take i l ++ v :: drop i l).
Proof. exact @flat_insert_multi. Qed.
Print Assumptions C37_flat_multi_insert.
Example C37_insert_case : let E := calm_pairs in let KD := calm_map in
  let l := [(2, 7); (4, 8); (4, 9)]%nat in
  strict_weak (less true) /\ ordered multimap_ true l /\
  allowed_call (SmallF 2) multimap_ (FInsert (XVal (4, 1)%nat)) l = true /\
  exists x w hf x' w', holds (is_flat (SmallF 2)) x l w hf /\
    flat_call (SmallF 2) multimap_ true (FInsert (XVal (4, 1)%nat)) x w = Ok (Pos 1) x' w'.
Proof.
  intros E KD l. split; [apply nat_less_strict|]. split; [by apply orderedb_ok|]. split; [reflexivity|].
  apply (small_demo (KD := KD) 2 multimap_ true (ltac:(vm_compute; discriminate)) [(4, 9); (2, 7); (4, 8)]%nat []). vm_compute. reflexivity.
Qed.
(** erase(key), of all four kinds. *)
Theorem C37_flat_erase_key : forall (E : Env) (KD : Keyed) fl kd c, sane fl ->
  forall k x l w hf r x' w',
  strict_weak (less c) -> ordered kd c l ->
  holds (is_flat fl) x l w hf -> flat_call fl kd c (FEraseKey k) x w = Ok r x' w' ->
  holds (is_flat fl) x' (List.filter (fun v => negb (equivb c k v)) l) w' hf /\
  r = Num (length (List.filter (equivb c k) l)).
Proof. exact @flat_erase_key. Qed.
Print Assumptions C37_flat_erase_key.
Example C37_erase_case : let E := calm_pairs in let KD := calm_map in
  let l := [(2, 7); (4, 8); (4, 9); (5, 1)]%nat in
  strict_weak (less true) /\ ordered multimap_ true l /\
  exists x w hf x' w', holds (is_flat (SmallF 2)) x l w hf /\
    flat_call (SmallF 2) multimap_ true (FEraseKey 4%nat) x w = Ok (Num 2) x' w'.
Proof.
  intros E KD l. split; [apply nat_less_strict|]. split; [by apply orderedb_ok|].
  apply (small_demo (KD := KD) 2 multimap_ true (ltac:(vm_compute; discriminate)) [(4, 9); (5, 1); (2, 7); (4, 8)]%nat []). vm_compute. reflexivity.
Qed.
(** erase(first, last) and erase(pos). *)
Theorem C37_flat_erase_range : forall (E : Env) (KD : Keyed) fl kd c, sane fl ->
  forall i j x l w hf r x' w',
  (i <= j <= length l)%nat ->
  holds (is_flat fl) x l w hf -> flat_call fl kd c (FEraseRange i j) x w = Ok r x' w' ->
  holds (is_flat fl) x' (take i l ++ drop j l) w' hf /\ r = Pos i.
Proof. exact @flat_erase_at. Qed.
Print Assumptions C37_flat_erase_range.
Example C37_erase_range_case : let E := calm_pairs in let KD := calm_map in
  let l := [(2, 7); (4, 8); (4, 9); (5, 1)]%nat in
  exists x w hf x' w', holds (is_flat (SmallF 2)) x l w hf /\
    flat_call (SmallF 2) multimap_ true (FEraseRange 1 3) x w = Ok (Pos 1) x' w'.
Proof.
  intros E KD l.
  apply (small_demo (KD := KD) 2 multimap_ true (ltac:(vm_compute; discriminate)) [(4, 9); (5, 1); (2, 7); (4, 8)]%nat []). vm_compute. reflexivity.
Qed.

(** ** C38: assigning a list *)
(** The small containers sort and remove duplicates. *)
Theorem C38_small_flat_assign_list : forall (E : Env) (KD : Keyed) fl kd c, sane fl ->
  forall vs x l w hf r x' w',
  is_static_flat fl = false -> strict_weak (less c) ->
  holds (is_flat fl) x l w hf -> flat_call fl kd c (FAssignList vs) x w = Ok r x' w' ->
  exists l', holds (is_flat fl) x' l' w' hf /\ ordered kd c l' /\
    (forall y, y ∈ l' -> y ∈ vs) /\ (forall v, v ∈ vs -> exists i, found c l' (key v) i) /\
    (multi kd = true -> l' ≡ₚ vs).
Proof. exact @flat_assign_list. Qed.
Print Assumptions C38_small_flat_assign_list.
Example C38_case : let E := calm in let KD := calm_set in
  strict_weak (less true) /\
  exists x w hf x' w', holds (is_flat (SmallF 2)) x [2; 4]%nat w hf /\
    flat_call (SmallF 2) set_ true (FAssignList [3; 1; 3; 2]%nat) x w = Ok (One RUnit) x' w'.
Proof.
  intros E KD. split; [apply nat_less_strict|].
  apply (small_demo (KD := KD) 2 set_ true (ltac:(vm_compute; discriminate)) [4; 2]%nat []). vm_compute. reflexivity.
Qed.
(** The static containers copy the list as it is. *)
Theorem C38_static_flat_assign_list_partial : forall (E : Env) (KD : Keyed) fl kd c, sane fl ->
  forall vs x l w hf r x' w',
  is_static_flat fl = true -> can_hold fl (length vs) = true ->
  holds (is_flat fl) x l w hf -> flat_call fl kd c (FAssignList vs) x w = Ok r x' w' ->
  holds (is_flat fl) x' vs w' hf.
Proof. exact @flat_assign_list_raw. Qed.
Print Assumptions C38_static_flat_assign_list_partial.
(** So the claim is false for them: after the assignment of {3, 1, 3} to a set its
    elements are these three, in this order, and contains(1) is false. *)
Theorem C38_static_flat_assign_list_refuted :
  exists (E : Env) (KD : Keyed) c vs x l w hf r x' w',
    strict_weak (less c) /\ ordered set_ c l /\
    holds (is_flat (StaticF 4)) x l w hf /\ allowed_call (StaticF 4) set_ (FAssignList vs) l = true /\
    flat_call (StaticF 4) set_ c (FAssignList vs) x w = Ok r x' w' /\
    holds (is_flat (StaticF 4)) x' vs w' hf /\ ~ ordered set_ c vs /\
    exists k r2 x2 w2, k ∈ (key <$> vs) /\
      flat_call (StaticF 4) set_ c (FContains k) x' w' = Ok r2 x2 w2 /\ r2 = One (RBool false).
Proof. exact static_list_refuted. Qed.
Print Assumptions C38_static_flat_assign_list_refuted.

(** ** C39: exceptions *)
(** Whatever throws, and even if the comparator is not an order: no undefined
    behaviour, the container is destructible and nothing else has changed. *)
Theorem C39_flat_safe : forall (E : Env) (KD : Keyed) fl kd c, sane fl ->
  forall o x l w hf,
  holds (is_flat fl) x l w hf -> allowed_call fl kd o l = true ->
  match flat_call fl kd c o x w with
  | Ok _ x' w' => (exists l', holds (is_flat fl) x' l' w' hf) /\ quiet w w'
  | Exn e x' w' => (exists l', holds (is_flat fl) x' l' w' hf) /\ reason e w w'
  | UB => False
  end.
Proof. exact @flat_safe. Qed.
Print Assumptions C39_flat_safe.
Example C39_case : let E := throws_at 12 in let KD := throwing_set 12 in
  allowed_call (StaticF 4) set_ (FInsert (XVal 3%nat)) [2; 4; 6]%nat = true /\
  exists x w hf x' w', holds (is_flat (StaticF 4)) x [2; 4; 6]%nat w hf /\
    flat_call (StaticF 4) set_ true (FInsert (XVal 3%nat)) x w = Exn EUser x' w'.
Proof.
  intros E KD. split; [reflexivity|].
  apply (static_demo_exn (KD := KD) 4 set_ true [2; 4; 6]%nat []). vm_compute. reflexivity.
Qed.
(** Insertion behind all other elements has no effect if it throws. *)
Theorem C39_flat_insert_end_strong : forall (E : Env) (KD : Keyed) fl kd c, sane fl ->
  forall o x l w hf e x' w',
  strict_weak (less c) -> ordered kd c l -> unbreakable fl = true -> at_end c o l ->
  holds (is_flat fl) x l w hf -> allowed_call fl kd o l = true ->
  flat_call fl kd c o x w = Exn e x' w' -> holds (is_flat fl) x' l w' hf.
Proof. exact @flat_strong. Qed.
Print Assumptions C39_flat_insert_end_strong.
Example C39_strong_case : let E := throws_at 10 in let KD := throwing_set 10 in
  let o := FInsert (XVal 9%nat) in
  strict_weak (less true) /\ ordered set_ true [2; 4; 6]%nat /\ unbreakable (SmallF 3) = true /\
  at_end true o [2; 4; 6]%nat /\ allowed_call (SmallF 3) set_ o [2; 4; 6]%nat = true /\
  exists x w hf x' w', holds (is_flat (SmallF 3)) x [2; 4; 6]%nat w hf /\
    flat_call (SmallF 3) set_ true o x w = Exn EUser x' w'.
Proof.
  intros E KD o. split; [apply nat_less_strict|]. split; [by apply orderedb_ok|]. split; [reflexivity|].
  split; [exists 9%nat; split; [reflexivity|]; intros [|[|[|j]]] v [= <-]; reflexivity|]. split; [reflexivity|].
  apply (small_demo_exn (KD := KD) 3 set_ true (ltac:(vm_compute; discriminate)) [2; 4; 6]%nat []). vm_compute. reflexivity.
Qed.
(** So has an insertion for which there is no memory. *)
Theorem C39_flat_failed_allocation : forall (E : Env) (KD : Keyed) fl kd c, sane fl ->
  forall o x l w hf e x' w',
  adds o = 1%nat -> (forall vs, o <> FInsertRange vs) -> e = ELength \/ e = EBadAlloc ->
  holds (is_flat fl) x l w hf -> allowed_call fl kd o l = true ->
  flat_call fl kd c o x w = Exn e x' w' -> holds (is_flat fl) x' l w' hf /\ is_static_flat fl = false.
Proof. exact @flat_failed_alloc. Qed.
Print Assumptions C39_flat_failed_allocation.
Example C39_failed_allocation_case : let E := throws_at 8 in let KD := throwing_set 8 in
  let o := FInsert (XVal 3%nat) in
  allowed_call (SmallF 3) set_ o [2; 4; 6]%nat = true /\
  exists x w hf x' w', holds (is_flat (SmallF 3)) x [2; 4; 6]%nat w hf /\
    flat_call (SmallF 3) set_ true o x w = Exn EBadAlloc x' w'.
Proof.
  intros E KD o. split; [reflexivity|].
  apply (small_demo_exn (KD := KD) 3 set_ true (ltac:(vm_compute; discriminate)) [2; 4; 6]%nat []). vm_compute. reflexivity.
Qed.
(** Programs: destroying all objects gives back all memory. *)
Theorem C39_static_flat_no_leak : forall (E : Env) (KD : Keyed) N kd (cs : list (cmd (static_flat N kd))) w,
  wf_world w ->
  exists os w', exec_all (static_flat N kd) (cs ++ (Drop <$> created cs)) ∅ w = Some (os, ∅, w') /\ heap w' = heap w.
Proof. exact @static_flat_no_leak. Qed.
Print Assumptions C39_static_flat_no_leak.
Theorem C39_small_flat_no_leak : forall (E : Env) (KD : Keyed) N kd, Z.of_nat N <= max_size ->
  forall (cs : list (cmd (small_flat N kd))) w,
  wf_world w ->
  exists os w', exec_all (small_flat N kd) (cs ++ (Drop <$> created cs)) ∅ w = Some (os, ∅, w') /\ heap w' = heap w.
Proof. exact @small_flat_no_leak. Qed.
Print Assumptions C39_small_flat_no_leak.
(** The keys need not stay sorted: inserting 3 into {2, 4, 6} leaves {2, 0, 4, 6}
    if copying 3 throws, even though moving cannot throw. *)
Theorem C39_flat_sorted_refuted :
  (exists (E : Env) (KD : Keyed) c o x l w hf e x' w' l',
    nothrow_move = true /\ strict_weak (less c) /\ ordered set_ c l /\
    holds (is_flat (StaticF 4)) x l w hf /\ allowed_call (StaticF 4) set_ o l = true /\
    flat_call (StaticF 4) set_ c o x w = Exn e x' w' /\
    holds (is_flat (StaticF 4)) x' l' w' hf /\ ~ ordered set_ c l') /\
  (exists (E : Env) (KD : Keyed) c o x l w hf e x' w' l',
    nothrow_move = true /\ strict_weak (less c) /\ ordered set_ c l /\
    holds (is_flat (SmallF 4)) x l w hf /\ allowed_call (SmallF 4) set_ o l = true /\
    flat_call (SmallF 4) set_ c o x w = Exn e x' w' /\
    holds (is_flat (SmallF 4)) x' l' w' hf /\ ~ ordered set_ c l').
Proof. exact flat_unsorted_refuted. Qed.
Print Assumptions C39_flat_sorted_refuted.

(** ** C46: erase_if *)
Theorem C46_flat_erase_if : forall (E : Env) (KD : Keyed) fl kd c, sane fl ->
  forall p x l w hf r x' w',
  holds (is_flat fl) x l w hf -> flat_call fl kd c (FEraseIf p) x w = Ok r x' w' ->
  holds (is_flat fl) x' (List.filter (fun v => negb (p v)) l) w' hf /\
  r = Num (length (List.filter p l)).
Proof. exact @flat_erase_if. Qed.
Print Assumptions C46_flat_erase_if.
Example C46_flat_case : let E := calm in let KD := calm_set in
  exists x w hf x' w', holds (is_flat (StaticF 4)) x [1; 2; 4; 5]%nat w hf /\
    flat_call (StaticF 4) set_ true (FEraseIf Nat.even) x w = Ok (Num 2) x' w'.
Proof.
  intros E KD.
  apply (static_demo (KD := KD) 4 set_ true [5; 4; 2; 1]%nat []). vm_compute. reflexivity.
Qed.
