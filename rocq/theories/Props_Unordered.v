(** * Properties of the unordered flat containers (C38, C40 - C43, C47)

    static_unordered_flat_set, ..._map, ..._multiset, ..._multimap and the four
    small_unordered_flat_* containers.  [fl] is the flavour ([StaticF N] or
    [SmallF N], [sane fl]: for the small ones N <= max_size()), [kd] the kind (multi
    or not, map or not), [c] a key equality object; [equality_ok], [distinct],
    [first_at], [missing], ... are defined in UnordSpec.v, the finite maps in
    UnordMap.v.  [holds (is_flat fl) x l w hf]: in world [w] the object [x] is such a
    container with elements [l], the rest of memory is [hf].
    [unord_call fl kd c o x w] runs the member function call [o];
    [uallowed fl kd o size]: its preconditions. *)

From Verif Require Import UnordDemo.
Open Scope Z_scope.

(** ** C40: a finite set or map *)
(** A call that returns keeps the keys distinct and has the effect on the finite map
    that [km_step] describes.  (Assigning a list to the static containers: see C38.) *)
Theorem C40_unord_step : forall (E : Env) (KD : Keyed) fl kd c, sane fl ->
  forall o x l w hf r x' w',
  multi kd = false -> equality_ok c -> lists_ok fl o ->
  holds (is_flat fl) x l w hf -> uallowed fl kd o (length l) = true -> distinct c l ->
  unord_call fl kd c o x w = Ok r x' w' ->
  exists l', holds (is_flat fl) x' l' w' hf /\ distinct c l' /\ km_step c o (as_map c l) (as_map c l').
Proof. exact @unord_distinct_kept. Qed.
Print Assumptions C40_unord_step.
(** Four values, two with the same key and one with a key that is present. *)
Example C40_case : let E := calm_pairs in let KD := calm_emap in
  let o := UInsertRange [(3, 1); (2, 2); (9, 3); (3, 4)]%nat in
  let l := [(4, 8); (2, 7)]%nat in
  equality_ok true /\ lists_ok (SmallF 3) o /\ distinct true l /\ uallowed (SmallF 3) map_ o (length l) = true /\
  exists x w hf x' w', holds (is_flat (SmallF 3)) x l w hf /\
    unord_call (SmallF 3) map_ true o x w = Ok (One RUnit) x' w'.
Proof.
  intros E KD o l. split; [apply nat_same_ok|]. split; [done|]. split; [by apply distinctb_ok|]. split; [reflexivity|].
  apply (small_udemo (KD := KD) 3 map_ true (ltac:(vm_compute; discriminate)) [(4, 8); (2, 7)]%nat []). vm_compute. reflexivity.
Qed.
(** Any number of calls one after another. *)
Theorem C40_unord_calls : forall (E : Env) (KD : Keyed) fl kd c, sane fl ->
  forall os x l w hf x' w',
  multi kd = false -> equality_ok c -> Forall (lists_ok fl) os ->
  holds (is_flat fl) x l w hf -> distinct c l ->
  unord_calls fl kd c os x w = Some (x', w') ->
  exists l', holds (is_flat fl) x' l' w' hf /\ distinct c l' /\ km_steps c os (as_map c l) (as_map c l').
Proof. exact @unord_calls_map. Qed.
Print Assumptions C40_unord_calls.
(** Keys are equal if their last digits are. *)
Example C40_calls_case : let E := calm_pairs in let KD := calm_emap in
  let os := [UIndex 15; UInsertOrAssign 14 3; UEraseKey 32; UErase 0; UEmplace (XCopy 0)]%nat in
  let l := [(4, 8); (2, 7)]%nat in
  equality_ok false /\ Forall (lists_ok (StaticF 4)) os /\ distinct false l /\
  exists x w hf, holds (is_flat (StaticF 4)) x l w hf /\
    exists x' w', unord_calls (StaticF 4) map_ false os x w = Some (x', w').
Proof.
  intros E KD os l. split; [apply nat_same_ok|]. split; [unfold os; do 5 (apply Forall_cons; split; [intros []|]); by apply Forall_nil|]. split; [by apply distinctb_ok|].
  destruct (static_uafter_ok (KD := KD) 4 map_ false [(4, 8); (2, 7)]%nat []
    (fun x w => match unord_calls (KD := KD) (StaticF 4) map_ false os x w with Some _ => Some tt | _ => None end)
    l tt) as (x & w & hf & Hx & Hr); [vm_compute; reflexivity|].
  exists x, w, hf. split; [done|]. destruct (unord_calls _ _ _ _ x w) as [[x' w']|] eqn:Hc; [exists x', w'; exact Hc|done].
Qed.
Theorem C40_unord_construct : forall (E : Env) (KD : Keyed) fl kd, sane fl ->
  forall k w hf x u w',
  multi kd = false -> equality_ok (fc_cmp k) ->
  holds0 w hf -> can_hold fl (length (fc_vals k)) = true ->
  unord_new fl kd k tt w = Ok x u w' ->
  exists l, holds (is_flat fl) x l w' hf /\ distinct (fc_cmp k) l /\
    km_eq (as_map (fc_cmp k) l) (km_insert_all (fc_cmp k) (fc_vals k) km_empty).
Proof. exact @unord_new_map. Qed.
Print Assumptions C40_unord_construct.
Example C40_construct_case : let E := calm_pairs in let KD := calm_emap in
  let k := NewRange true 0 [(4, 1); (2, 7); (4, 2)]%nat in
  equality_ok (fc_cmp k) /\ holds0 w0 ∅ /\ can_hold (StaticF 3) (length (fc_vals k)) = true /\
  exists x u w', unord_new (StaticF 3) map_ k tt w0 = Ok x u w'.
Proof.
  intros E KD k. split; [apply nat_same_ok|]. split; [apply w0_holds|]. split; [reflexivity|].
  destruct (unord_new (StaticF 3) map_ k tt w0) as [x u w'| |] eqn:Hn; [by exists x, u, w'|..];
    exfalso; apply (f_equal returned) in Hn; vm_compute in Hn; discriminate.
Qed.

(** find, contains, count, at and size.  They never modify the container, and only
    fail if the key equality throws (at(): or the key is missing). *)
Theorem C40_unord_lookup : forall (E : Env) (KD : Keyed) fl kd c, sane fl ->
  forall o x l w hf,
  holds (is_flat fl) x l w hf -> uallowed fl kd o (length l) = true -> u_lookup o = true ->
  match unord_call fl kd c o x w with
  | Ok r x' w' => holds (is_flat fl) x' l w' hf /\
      match o with
      | UFind k => (exists i, r = Pos i /\ first_at c l k i) \/ (r = Pos (length l) /\ missing c l k)
      | UContains k => exists b, r = One (RBool b) /\ (b = true <-> exists i, first_at c l k i)
      | UCount k => exists n, r = Num n /\
          (multi kd = true -> n = length (List.filter (has c k) l)) /\
          (equality_ok c -> distinct c l -> n = length (List.filter (has c k) l))
      | UAt k => exists i w, r = TheMapped (mapped w) /\ l !! i = Some w /\ first_at c l k i
      | _ => r = Num (length l)
      end
  | Exn e x' w' => holds (is_flat fl) x' l w' hf /\ reason e w w' /\
      (e = EUser \/ e = EOutOfRange /\ exists k, o = UAt k /\ missing c l k)
  | UB => False
  end.
Proof. exact @unord_lookup. Qed.
Print Assumptions C40_unord_lookup.
Example C40_lookup_case : let E := calm_pairs in let KD := calm_emap in
  let l := [(2, 7); (14, 8); (6, 9)]%nat in
  (exists x w hf x' w', holds (is_flat (StaticF 4)) x l w hf /\
    unord_call (StaticF 4) map_ false (UFind 4%nat) x w = Ok (Pos 1) x' w') /\
  (exists x w hf x' w', holds (is_flat (StaticF 4)) x l w hf /\
    unord_call (StaticF 4) map_ false (UAt 4%nat) x w = Ok (TheMapped 8%nat) x' w') /\
  (exists x w hf x' w', holds (is_flat (StaticF 4)) x l w hf /\
    unord_call (StaticF 4) map_ true (UAt 4%nat) x w = Exn EOutOfRange x' w').
Proof.
  intros E KD l. split_and!.
  - apply (static_udemo (KD := KD) 4 map_ false [(2, 7); (14, 8); (6, 9)]%nat []). vm_compute. reflexivity.
  - apply (static_udemo (KD := KD) 4 map_ false [(2, 7); (14, 8); (6, 9)]%nat []). vm_compute. reflexivity.
  - apply (static_udemo_exn (KD := KD) 4 map_ true [(2, 7); (14, 8); (6, 9)]%nat []). vm_compute. reflexivity.
Qed.

(** Insertion into a set or map and what is returned. *)
Theorem C40_unord_insert : forall (E : Env) (KD : Keyed) fl kd c, sane fl ->
  forall o x l w hf r x' w' a h,
  multi kd = false -> self_equal c ->
  holds (is_flat fl) x l w hf -> uallowed fl kd o (length l) = true -> uone_insert o = Some (a, h) ->
  unord_call fl kd c o x w = Ok r x' w' ->
  exists v i b, arg_value l a = Some v /\ r = (if h then Pos i else PosNew i b) /\
    ((b = false /\ first_at c l (key v) i /\ holds (is_flat fl) x' l w' hf) \/
     (b = true /\ missing c l (key v) /\ i = length l /\ holds (is_flat fl) x' (l ++ [v]) w' hf)).
Proof. exact @unord_insert_unique. Qed.
Print Assumptions C40_unord_insert.
(** A key that is present, and a new key that needs a larger block. *)
Example C40_insert_case : let E := calm_pairs in let KD := calm_emap in
  let l := [(2, 7); (4, 8)]%nat in let o1 := UEmplace (XVal (4, 1)%nat) in let o2 := UInsertHint 0 (XVal (3, 1)%nat) in
  self_equal true /\ uallowed (SmallF 2) map_ o1 (length l) = true /\ uallowed (SmallF 2) map_ o2 (length l) = true /\
  (exists x w hf x' w', holds (is_flat (SmallF 2)) x l w hf /\
    unord_call (SmallF 2) map_ true o1 x w = Ok (PosNew 1 false) x' w') /\
  (exists x w hf x' w', holds (is_flat (SmallF 2)) x l w hf /\
    unord_call (SmallF 2) map_ true o2 x w = Ok (Pos 2) x' w').
Proof.
  intros E KD l o1 o2. split; [exact (proj1 (nat_same_ok true))|]. split; [reflexivity|]. split; [reflexivity|]. split.
  - apply (small_udemo (KD := KD) 2 map_ true (ltac:(vm_compute; discriminate)) [(2, 7); (4, 8)]%nat []). vm_compute. reflexivity.
  - apply (small_udemo (KD := KD) 2 map_ true (ltac:(vm_compute; discriminate)) [(2, 7); (4, 8)]%nat []). vm_compute. reflexivity.
Qed.
(** Into a multiset or multimap. *)
Theorem C40_unord_multi_insert : forall (E : Env) (KD : Keyed) fl kd c, sane fl ->
  forall o x l w hf r x' w' a h,
  multi kd = true ->
  holds (is_flat fl) x l w hf -> uallowed fl kd o (length l) = true -> uone_insert o = Some (a, h) ->
  unord_call fl kd c o x w = Ok r x' w' ->
  exists v, arg_value l a = Some v /\ r = Pos (length l) /\ holds (is_flat fl) x' (l ++ [v]) w' hf.
Proof. exact @unord_insert_multi. Qed.
Print Assumptions C40_unord_multi_insert.
Example C40_multi_case : let E := calm in let KD := calm_eset in
  uallowed (StaticF 4) multiset_ (UInsert (XCopy 1)) 3 = true /\
  exists x w hf x' w', holds (is_flat (StaticF 4)) x [7; 4; 7]%nat w hf /\
    unord_call (StaticF 4) multiset_ true (UInsert (XCopy 1)) x w = Ok (Pos 3) x' w'.
Proof.
  intros E KD. split; [reflexivity|].
  apply (static_udemo (KD := KD) 4 multiset_ true [7; 4; 7]%nat []). vm_compute. reflexivity.
Qed.
Theorem C40_unord_multi_insert_range : forall (E : Env) (KD : Keyed) fl kd c, sane fl ->
  forall vs x l w hf r x' w',
  multi kd = true ->
  holds (is_flat fl) x l w hf -> uallowed fl kd (UInsertRange vs) (length l) = true ->
  unord_call fl kd c (UInsertRange vs) x w = Ok r x' w' -> holds (is_flat fl) x' (l ++ vs) w' hf.
Proof. exact @unord_insert_range_multi. Qed.
Print Assumptions C40_unord_multi_insert_range.
Example C40_multi_range_case : let E := calm in let KD := calm_eset in
  uallowed (SmallF 2) multiset_ (UInsertRange [4; 5; 4]%nat) 2 = true /\
  exists x w hf x' w', holds (is_flat (SmallF 2)) x [7; 4]%nat w hf /\
    unord_call (SmallF 2) multiset_ true (UInsertRange [4; 5; 4]%nat) x w = Ok (One RUnit) x' w'.
Proof.
  intros E KD. split; [reflexivity|].
  apply (small_udemo (KD := KD) 2 multiset_ true (ltac:(vm_compute; discriminate)) [7; 4]%nat []). vm_compute. reflexivity.
Qed.
(** try_emplace, insert_or_assign and operator[]. *)
Theorem C40_unord_map_update : forall (E : Env) (KD : Keyed) fl kd c, sane fl ->
  forall o k m x l w hf r x' w',
  holds (is_flat fl) x l w hf -> uallowed fl kd o (length l) = true ->
  unord_call fl kd c o x w = Ok r x' w' ->
  match o with
  | UTryEmplace k' m' | UInsertOrAssign k' m' | UTryEmplaceHint _ k' m' | UInsertOrAssignHint _ k' m' => k' = k /\ m' = m
  | UIndex k' => k' = k /\ m = mdef
  | _ => False
  end ->
  exists i l', holds (is_flat fl) x' l' w' hf /\
    ((* the key was there *)
     (exists v, l !! i = Some v /\ first_at c l k i /\
        match o with
        | UInsertOrAssign _ _ | UInsertOrAssignHint _ _ _ => l' = <[i := entry (key v) m]> l
        | _ => l' = l
        end /\
        match o with
        | UTryEmplace _ _ | UInsertOrAssign _ _ => r = PosNew i false
        | UIndex _ => r = TheMapped (mapped v)
        | _ => r = Pos i
        end) \/
     (* it is new *)
     (missing c l k /\ i = length l /\ l' = l ++ [entry k m] /\
        match o with
        | UTryEmplace _ _ | UInsertOrAssign _ _ => r = PosNew i true
        | UIndex _ => r = TheMapped m
        | _ => r = Pos i
        end)).
Proof. exact @unord_map_update. Qed.
Print Assumptions C40_unord_map_update.
Example C40_update_case : let E := calm_pairs in let KD := calm_emap in
  let l := [(6, 9); (2, 7); (4, 8)]%nat in
  let o1 := UInsertOrAssign 4%nat 1%nat in let o2 := UIndex 5%nat in
  uallowed (StaticF 4) map_ o1 (length l) = true /\ uallowed (StaticF 4) map_ o2 (length l) = true /\
  (exists x w hf x' w', holds (is_flat (StaticF 4)) x l w hf /\
    unord_call (StaticF 4) map_ true o1 x w = Ok (PosNew 2 false) x' w') /\
  (exists x w hf x' w', holds (is_flat (StaticF 4)) x l w hf /\
    unord_call (StaticF 4) map_ true o2 x w = Ok (TheMapped 0%nat) x' w').
Proof.
  intros E KD l o1 o2. split; [reflexivity|]. split; [reflexivity|]. split.
  - apply (static_udemo (KD := KD) 4 map_ true [(6, 9); (2, 7); (4, 8)]%nat []). vm_compute. reflexivity.
  - apply (static_udemo (KD := KD) 4 map_ true [(6, 9); (2, 7); (4, 8)]%nat []). vm_compute. reflexivity.
Qed.
(** Assigning through an iterator. *)
Theorem C40_unord_map_write : forall (E : Env) (KD : Keyed) fl kd c, sane fl ->
  forall i m x l w hf r x' w',
  is_map kd = true -> holds (is_flat fl) x l w hf -> (i < length l)%nat ->
  unord_call fl kd c (UPut i m) x w = Ok r x' w' ->
  exists v, l !! i = Some v /\ holds (is_flat fl) x' (<[i := entry (key v) m]> l) w' hf.
Proof. exact @unord_put. Qed.
Print Assumptions C40_unord_map_write.
Example C40_write_case : let E := calm_pairs in let KD := calm_emap in
  let l := [(4, 9); (2, 7); (4, 8)]%nat in
  exists x w hf x' w', holds (is_flat (SmallF 2)) x l w hf /\
    unord_call (SmallF 2) multimap_ true (UPut 1 5%nat) x w = Ok (One RUnit) x' w'.
Proof.
  intros E KD l.
  apply (small_udemo (KD := KD) 2 multimap_ true (ltac:(vm_compute; discriminate)) [(4, 9); (2, 7); (4, 8)]%nat []). vm_compute. reflexivity.
Qed.

(** Any program that uses such objects: whatever throws, memory is used correctly;
    the objects in [static_single] (UnordState.v: since they were last made or
    cleared, no call that could spoil them has thrown, no elements were moved away
    one by one and no list was assigned) have distinct keys; and if nothing throws,
    nothing is moved away and no list is assigned, then all objects have. *)
Theorem C40_static_unord_history : forall (E : Env) (KD : Keyed) N kd cs w,
  multi kd = false -> (forall c, equality_ok c) -> wf_world w ->
  exists os P w' A h,
    exec_all (static_unord N kd) cs ∅ w = Some (os, P, w') /\
    pool_mem (S := static_unord_spec N kd) (with_cmp (is_static N)) P A h /\
    h ##ₘ heap w /\ heap w' = h ∪ heap w /\
    (forall i, i ∈ static_single cs os ->
       exists c ib l, A !! i = Some (c, (ib, l)) /\ distinct c l) /\
    (forallb static_plain_u cs = true -> (forall e, Threw e ∉ os) ->
       forall i c ib l, A !! i = Some (c, (ib, l)) -> distinct c l).
Proof. exact @static_unord_single_history. Qed.
Print Assumptions C40_static_unord_history.
(** A set, its copy with two more elements, swapped with a set of last digits. *)
Definition C40_program : list (cmd (static_unord (KD := calm_eset) 4 set_)) :=
  let C := static_unord (KD := calm_eset) 4 set_ in
  [@New calm C 0 (@NewRange _ calm_eset true 0 [3; 13; 3]%nat);
   @NewFrom calm C 1 0 TCopy;
   static_udo (KD := calm_eset) 1 (@UInsert _ calm_eset (@XVal calm 2%nat));
   @New calm C 2 (@NewRange _ calm_eset false 0 [1; 15; 21]%nat);
   @Do2 calm C 1 2 PSwap;
   static_udo (KD := calm_eset) 1 (@UEmplace _ calm_eset (@XVal calm 11%nat))].
Example C40_history_case : let E := calm in let KD := calm_eset in
  (forall c, equality_ok c) /\ forallb static_plain_u C40_program = true /\
  exists os P w', exec_all (static_unord 4 set_) C40_program ∅ w0 = Some (os, P, w') /\
    forallb went_well os && bool_decide (static_single C40_program os = {[0; 1; 2]}%nat) = true.
Proof.
  intros E KD. split; [intros c; apply nat_same_ok|]. split; [reflexivity|].
  apply (outcomes_case (static_unord (KD := KD) 4 set_)). vm_compute. reflexivity.
Qed.
Theorem C40_small_unord_history : forall (E : Env) (KD : Keyed) N kd, Z.of_nat N <= max_size ->
  forall cs w, multi kd = false -> (forall c, equality_ok c) -> wf_world w ->
  exists os P w' A h,
    exec_all (small_unord N kd) cs ∅ w = Some (os, P, w') /\
    pool_mem (S := small_unord_spec N kd) (with_cmp (is_small N)) P A h /\
    h ##ₘ heap w /\ heap w' = h ∪ heap w /\
    (forall i, i ∈ small_single cs os ->
       exists c ib q, A !! i = Some (c, (ib, q)) /\ distinct c (q_elems q)) /\
    (forallb small_plain_u cs = true -> (forall e, Threw e ∉ os) ->
       forall i c ib q, A !! i = Some (c, (ib, q)) -> distinct c (q_elems q)).
Proof. exact @small_unord_single_history. Qed.
Print Assumptions C40_small_unord_history.
(** Emplacing into the second map throws and might leave two elements with the same
    key, so it is given up until it is cleared. *)
Definition C40_program2 : list (cmd (small_unord (KD := throwing_emap 5) 4 map_)) :=
  let C := small_unord (KD := throwing_emap 5) 4 map_ in
  [@New (throwing_pairs 5) C 0 (@NewEmpty _ (throwing_emap 5) true 0);
   small_udo (KD := throwing_emap 5) 0 (@UAssignList _ (throwing_emap 5) [(2, 1)]%nat);
   @New (throwing_pairs 5) C 1 (@NewRange _ (throwing_emap 5) true 0 [(1, 1); (5, 2)]%nat);
   small_udo (KD := throwing_emap 5) 1 (@UEmplace _ (throwing_emap 5) (@XVal (throwing_pairs 5) (1, 3)%nat));
   small_udo (KD := throwing_emap 5) 1 (@UClear _ (throwing_emap 5))].
Example C40_history_case2 : let E := throwing_pairs 5 in let KD := throwing_emap 5 in
  (forall c, equality_ok c) /\ Z.of_nat 4 <= max_size /\
  exists os P w', exec_all (small_unord 4 map_) C40_program2 ∅ w0 = Some (os, P, w') /\
    existsb user_threw os && bool_decide (small_single C40_program2 os = {[0; 1]}%nat) = true.
Proof.
  intros E KD. split; [intros c; apply nat_same_ok|]. split; [vm_compute; discriminate|].
  apply (outcomes_case (small_unord (KD := KD) 4 map_)). vm_compute. reflexivity.
Qed.
(** When all objects have been destroyed, memory is as before. *)
Theorem C40_static_unord_no_leak : forall (E : Env) (KD : Keyed) N kd cs w,
  wf_world w ->
  exists os w', exec_all (static_unord N kd) (cs ++ (Drop <$> created cs)) ∅ w = Some (os, ∅, w') /\
    heap w' = heap w.
Proof. exact @static_unord_no_leak. Qed.
Print Assumptions C40_static_unord_no_leak.   (* case: C40_program *)
Theorem C40_small_unord_no_leak : forall (E : Env) (KD : Keyed) N kd, Z.of_nat N <= max_size ->
  forall cs w, wf_world w ->
  exists os w', exec_all (small_unord N kd) (cs ++ (Drop <$> created cs)) ∅ w = Some (os, ∅, w') /\
    heap w' = heap w.
Proof. exact @small_unord_no_leak. Qed.
Print Assumptions C40_small_unord_no_leak.   (* case: C40_program2 *)

(** ** C41: erasing *)
Theorem C41_unord_erase : forall (E : Env) (KD : Keyed) fl kd c, sane fl ->
  forall i x l w hf r x' w',
  (i < length l)%nat -> holds (is_flat fl) x l w hf -> unord_call fl kd c (UErase i) x w = Ok r x' w' ->
  exists l', holds (is_flat fl) x' l' w' hf /\ r = Pos i /\
    Permutation (take i l ++ drop (S i) l) l' /\ take i l' = take i l.
Proof. exact @unord_erase. Qed.
Print Assumptions C41_unord_erase.
Example C41_erase_case : let E := calm in let KD := calm_eset in
  exists x w hf x' w', holds (is_flat (SmallF 2)) x [7; 4; 5; 6]%nat w hf /\
    unord_call (SmallF 2) set_ true (UErase 1) x w = Ok (Pos 1) x' w'.
Proof.
  intros E KD.
  apply (small_udemo (KD := KD) 2 set_ true (ltac:(vm_compute; discriminate)) [7; 4; 5; 6]%nat []). vm_compute. reflexivity.
Qed.
Theorem C41_unord_erase_range : forall (E : Env) (KD : Keyed) fl kd c, sane fl ->
  forall i j x l w hf r x' w',
  (i <= j <= length l)%nat -> holds (is_flat fl) x l w hf -> unord_call fl kd c (UEraseRange i j) x w = Ok r x' w' ->
  exists l', holds (is_flat fl) x' l' w' hf /\ r = Pos i /\
    Permutation (take i l ++ drop j l) l' /\ take i l' = take i l.
Proof. exact @unord_erase_range. Qed.
Print Assumptions C41_unord_erase_range.
Example C41_erase_range_case : let E := calm in let KD := calm_eset in
  exists x w hf x' w', holds (is_flat (StaticF 6)) x [7; 4; 5; 6; 1; 2]%nat w hf /\
    unord_call (StaticF 6) multiset_ true (UEraseRange 1 3) x w = Ok (Pos 1) x' w'.
Proof.
  intros E KD.
  apply (static_udemo (KD := KD) 6 multiset_ true [7; 4; 5; 6; 1; 2]%nat []). vm_compute. reflexivity.
Qed.
Theorem C41_unord_erase_key : forall (E : Env) (KD : Keyed) fl kd c, sane fl ->
  forall k x l w hf r x' w',
  multi kd = false -> equality_ok c -> distinct c l ->
  holds (is_flat fl) x l w hf -> unord_call fl kd c (UEraseKey k) x w = Ok r x' w' ->
  exists l', holds (is_flat fl) x' l' w' hf /\ Permutation (List.filter (lacks c k) l) l' /\
    r = Num (length (List.filter (has c k) l)).
Proof. exact @unord_erase_key. Qed.
Print Assumptions C41_unord_erase_key.
Example C41_erase_key_case : let E := calm in let KD := calm_eset in
  equality_ok false /\ distinct (H := KD) false [7; 14; 5; 6]%nat /\
  exists x w hf x' w', holds (is_flat (StaticF 6)) x [7; 14; 5; 6]%nat w hf /\
    unord_call (StaticF 6) set_ false (UEraseKey 4%nat) x w = Ok (Num 1) x' w'.
Proof.
  intros E KD. split; [apply nat_same_ok|]. split; [by apply distinctb_ok|].
  apply (static_udemo (KD := KD) 6 set_ false [7; 14; 5; 6]%nat []). vm_compute. reflexivity.
Qed.
Theorem C41_unord_multi_erase_key : forall (E : Env) (KD : Keyed) fl kd c, sane fl ->
  forall k x l w hf r x' w',
  multi kd = true ->
  holds (is_flat fl) x l w hf -> unord_call fl kd c (UEraseKey k) x w = Ok r x' w' ->
  exists l', holds (is_flat fl) x' l' w' hf /\ Permutation (List.filter (lacks c k) l) l' /\
    r = Num (length (List.filter (has c k) l)).
Proof. exact @unord_erase_key_multi. Qed.
Print Assumptions C41_unord_multi_erase_key.
Example C41_multi_case : let E := calm_pairs in let KD := calm_emap in
  exists x w hf x' w', holds (is_flat (SmallF 2)) x [(4, 1); (7, 2); (4, 3); (5, 4); (4, 5)]%nat w hf /\
    unord_call (SmallF 2) multimap_ true (UEraseKey 4%nat) x w = Ok (Num 3) x' w'.
Proof.
  intros E KD.
  apply (small_udemo (KD := KD) 2 multimap_ true (ltac:(vm_compute; discriminate))
           [(4, 1); (7, 2); (4, 3); (5, 4); (4, 5)]%nat []). vm_compute. reflexivity.
Qed.

(** ** C46: erase_if *)
Theorem C46_unord_erase_if : forall (E : Env) (KD : Keyed) fl kd c, sane fl ->
  forall p x l w hf r x' w',
  holds (is_flat fl) x l w hf -> unord_call fl kd c (UEraseIf p) x w = Ok r x' w' ->
  exists l', holds (is_flat fl) x' l' w' hf /\ Permutation (List.filter (fun v => negb (p v)) l) l' /\
    r = Num (length (List.filter p l)).
Proof. exact @unord_erase_if. Qed.
Print Assumptions C46_unord_erase_if.
Example C46_unord_case : let E := calm in let KD := calm_eset in
  exists x w hf x' w', holds (is_flat (StaticF 6)) x [4; 7; 6; 5; 8]%nat w hf /\
    unord_call (StaticF 6) set_ true (UEraseIf Nat.even) x w = Ok (Num 3) x' w'.
Proof.
  intros E KD.
  apply (static_udemo (KD := KD) 6 set_ true [4; 7; 6; 5; 8]%nat []). vm_compute. reflexivity.
Qed.

(** ** C42: erasing by a reference to a key in the container *)
(** For the sets and maps the claim holds. *)
Theorem C42_unord_erase_own_key_partial : forall (E : Env) (KD : Keyed) fl kd c, sane fl ->
  forall i x l w hf r x' w',
  multi kd = false -> equality_ok c -> distinct c l -> (i < length l)%nat ->
  holds (is_flat fl) x l w hf -> unord_call fl kd c (UEraseKeyOf i) x w = Ok r x' w' ->
  exists v l', l !! i = Some v /\ holds (is_flat fl) x' l' w' hf /\ r = Num 1 /\
    Permutation (List.filter (lacks c (key v)) l) l' /\ Permutation (take i l ++ drop (S i) l) l'.
Proof. exact @unord_erase_key_of. Qed.
Print Assumptions C42_unord_erase_own_key_partial.
Example C42_case : let E := calm in let KD := calm_eset in
  equality_ok true /\ distinct (H := KD) true [7; 4; 5; 6]%nat /\
  exists x w hf x' w', holds (is_flat (SmallF 2)) x [7; 4; 5; 6]%nat w hf /\
    unord_call (SmallF 2) set_ true (UEraseKeyOf 1) x w = Ok (Num 1) x' w'.
Proof.
  intros E KD. split; [apply nat_same_ok|]. split; [by apply distinctb_ok|].
  apply (small_udemo (KD := KD) 2 set_ true (ltac:(vm_compute; discriminate)) [7; 4; 5; 6]%nat []). vm_compute. reflexivity.
Qed.
(** For the multi containers it is false: erase(key of the first of three elements
    with different keys) returns 3 and leaves an empty container; with two elements,
    erase(key of the second one) can be undefined behaviour. *)
Theorem C42_unord_multi_erase_own_key_refuted : 
  (exists (E : Env) (KD : Keyed) c x l w hf x' w' x2 w2,
    equality_ok c /\ holds (is_flat (StaticF 4)) x l w hf /\ length l = 3%nat /\ distinct c l /\
    unord_call (StaticF 4) multiset_ c (UEraseKeyOf 0) x w = Ok (Num 3) x' w' /\
    unord_call (StaticF 4) multiset_ c USize x' w' = Ok (Num 0) x2 w2) /\
  (exists (E : Env) (KD : Keyed) c x l w hf,
    equality_ok c /\ holds (is_flat (StaticF 4)) x l w hf /\ length l = 2%nat /\
    unord_call (StaticF 4) multiset_ c (UEraseKeyOf 1) x w = UB).
Proof. exact (proj1 erase_key_refuted). Qed.
Print Assumptions C42_unord_multi_erase_own_key_refuted.
Theorem C42_small_unord_multi_erase_own_key_refuted : 
  (exists (E : Env) (KD : Keyed) c x l w hf x' w' x2 w2,
    equality_ok c /\ holds (is_flat (SmallF 4)) x l w hf /\ length l = 3%nat /\ distinct c l /\
    unord_call (SmallF 4) multiset_ c (UEraseKeyOf 0) x w = Ok (Num 3) x' w' /\
    unord_call (SmallF 4) multiset_ c USize x' w' = Ok (Num 0) x2 w2) /\
  (exists (E : Env) (KD : Keyed) c x l w hf,
    equality_ok c /\ holds (is_flat (SmallF 4)) x l w hf /\ length l = 2%nat /\
    unord_call (SmallF 4) multiset_ c (UEraseKeyOf 1) x w = UB).
Proof. exact (proj2 erase_key_refuted). Qed.
Print Assumptions C42_small_unord_multi_erase_own_key_refuted.

(** ** C43: operator== *)
Theorem C43_unord_equality : forall (E : Env) fl, sane fl ->
  forall e x l y l' w hf,
  equality e -> holds2 (is_flat fl) x l y l' w hf ->
  match unord_equal fl e (x, y) w with
  | Ok r (x', y') w' => holds2 (is_flat fl) x' l y' l' w' hf /\ quiet w w' /\
      exists b, r = RBool b /\ (b = true <-> same_elements e l l')
  | Exn ex (x', y') w' => holds2 (is_flat fl) x' l y' l' w' hf /\ reason ex w w' /\ ex = EUser
  | UB => False
  end.
Proof. exact @unord_equality. Qed.
Print Assumptions C43_unord_equality.
Example C43_case : let E := calm in let KD := calm_eset in
  equality (Nat.eqb : V -> V -> bool) /\
  (exists x y w hf xy w', holds2 (is_flat (StaticF 4)) x [7; 4; 7]%nat y [4; 7; 7]%nat w hf /\
    unord_equal (StaticF 4) Nat.eqb (x, y) w = Ok (RBool true) xy w') /\
  (exists x y w hf xy w', holds2 (is_flat (StaticF 4)) x [7; 4; 7]%nat y [4; 7; 4]%nat w hf /\
    unord_equal (StaticF 4) Nat.eqb (x, y) w = Ok (RBool false) xy w').
Proof.
  intros E KD. split_and!.
  - split_and!; intros *; rewrite ?Nat.eqb_eq; intros; try congruence.
  - apply (static_compare_ok (KD := KD) 4 multiset_ true [7; 4; 7]%nat [4; 7; 7]%nat). vm_compute. reflexivity.
  - apply (static_compare_ok (KD := KD) 4 multiset_ true [7; 4; 7]%nat [4; 7; 4]%nat). vm_compute. reflexivity.
Qed.

(** ** C38: assigning a list *)
(** The small sets and maps remove duplicates. *)
Theorem C38_small_unord_assign_list : forall (E : Env) (KD : Keyed) fl kd c, sane fl ->
  forall vs x l w hf r x' w',
  is_static_flat fl = false -> multi kd = false -> equality_ok c ->
  holds (is_flat fl) x l w hf -> unord_call fl kd c (UAssignList vs) x w = Ok r x' w' ->
  exists l', holds (is_flat fl) x' l' w' hf /\ distinct c l' /\
    km_eq (as_map c l') (km_insert_all c vs km_empty) /\
    (forall y, y ∈ l' -> y ∈ vs) /\ (forall v, v ∈ vs -> exists i, first_at c l' (key v) i).
Proof. exact @unord_assign_list. Qed.
Print Assumptions C38_small_unord_assign_list.
Example C38_unord_case : let E := calm in let KD := calm_eset in
  equality_ok true /\
  exists x w hf x' w', holds (is_flat (SmallF 2)) x [2; 4]%nat w hf /\
    unord_call (SmallF 2) set_ true (UAssignList [3; 1; 3; 2]%nat) x w = Ok (One RUnit) x' w'.
Proof.
  intros E KD. split; [apply nat_same_ok|].
  apply (small_udemo (KD := KD) 2 set_ true (ltac:(vm_compute; discriminate)) [2; 4]%nat []). vm_compute. reflexivity.
Qed.
(** The multi containers hold exactly the elements of the list. *)
Theorem C38_unord_multi_assign_list : forall (E : Env) (KD : Keyed) fl kd c, sane fl ->
  forall vs x l w hf r x' w',
  multi kd = true -> can_hold fl (length vs) = true ->
  holds (is_flat fl) x l w hf -> unord_call fl kd c (UAssignList vs) x w = Ok r x' w' ->
  holds (is_flat fl) x' vs w' hf.
Proof. exact @unord_assign_list_multi. Qed.
Print Assumptions C38_unord_multi_assign_list.
Example C38_unord_multi_case : let E := calm in let KD := calm_eset in
  exists x w hf x' w', holds (is_flat (StaticF 4)) x [2; 4]%nat w hf /\
    unord_call (StaticF 4) multiset_ true (UAssignList [3; 1; 3]%nat) x w = Ok (One RUnit) x' w'.
Proof.
  intros E KD.
  apply (static_udemo (KD := KD) 4 multiset_ true [2; 4]%nat []). vm_compute. reflexivity.
Qed.
(** The static sets and maps copy the list as it is, so the claim holds for lists
    with distinct keys only ... *)
Theorem C38_static_unord_assign_list_partial : forall (E : Env) (KD : Keyed) fl kd c, sane fl ->
  forall vs x l w hf r x' w',
  is_static_flat fl = true -> can_hold fl (length vs) = true ->
  holds (is_flat fl) x l w hf -> unord_call fl kd c (UAssignList vs) x w = Ok r x' w' ->
  holds (is_flat fl) x' vs w' hf.
Proof. exact @unord_assign_list_raw. Qed.
Print Assumptions C38_static_unord_assign_list_partial.   (* case: in the next theorem *)
(** ... and is false in general: after {3, 1, 3} is assigned to a set and 3 is
    erased, contains(3) is true. *)
Theorem C38_static_unord_assign_list_refuted :
  exists (E : Env) (KD : Keyed) c vs x l w hf x' w' k x2 w2 x3 w3,
    equality_ok c /\ distinct c l /\
    holds (is_flat (StaticF 4)) x l w hf /\ uallowed (StaticF 4) set_ (UAssignList vs) (length l) = true /\
    unord_call (StaticF 4) set_ c (UAssignList vs) x w = Ok (One RUnit) x' w' /\
    holds (is_flat (StaticF 4)) x' vs w' hf /\ ~ distinct c vs /\
    unord_call (StaticF 4) set_ c (UEraseKey k) x' w' = Ok (Num 1) x2 w2 /\
    unord_call (StaticF 4) set_ c (UContains k) x2 w2 = Ok (One (RBool true)) x3 w3.
Proof. exact static_ulist_refuted. Qed.
Print Assumptions C38_static_unord_assign_list_refuted.

(** ** C47: exceptions *)
(** Whatever throws, and even if the key equality is not one: no undefined
    behaviour, the container is destructible and nothing else has changed. *)
Theorem C47_unord_safe : forall (E : Env) (KD : Keyed) fl kd c, sane fl ->
  forall o x l w hf,
  holds (is_flat fl) x l w hf -> uallowed fl kd o (length l) = true ->
  match unord_call fl kd c o x w with
  | Ok _ x' w' => (exists l', holds (is_flat fl) x' l' w' hf) /\ quiet w w'
  | Exn e x' w' => (exists l', holds (is_flat fl) x' l' w' hf) /\ reason e w w'
  | UB => False
  end.
Proof. exact @unord_safe. Qed.
Print Assumptions C47_unord_safe.
Example C47_case : let E := throws_at 6 in let KD := throwing_eset 6 in
  uallowed (StaticF 4) set_ (UEmplace (XVal 1%nat)) 2 = true /\
  exists x w hf x' w', holds (is_flat (StaticF 4)) x [1; 2]%nat w hf /\
    unord_call (StaticF 4) set_ true (UEmplace (XVal 1%nat)) x w = Exn EUser x' w'.
Proof.
  intros E KD. split; [reflexivity|].
  apply (static_udemo_exn (KD := KD) 4 set_ true [1; 2]%nat []). vm_compute. reflexivity.
Qed.
(** insert, try_emplace, operator[] of all kinds, and emplace except where it
    constructs before it searches, have no effect if they throw.  ([unbreakable]:
    elements survive a reallocation, which needs a non-throwing move or a copy
    constructor.) *)
Theorem C47_unord_insert_strong_partial : forall (E : Env) (KD : Keyed) fl kd c, sane fl ->
  forall o x l w hf e x' w',
  unbreakable fl = true -> searches_first fl kd o = true ->
  holds (is_flat fl) x l w hf -> uallowed fl kd o (length l) = true ->
  unord_call fl kd c o x w = Exn e x' w' -> holds (is_flat fl) x' l w' hf.
Proof. exact @unord_strong. Qed.
Print Assumptions C47_unord_insert_strong_partial.
Example C47_strong_case : let E := throws_at 6 in let KD := throwing_eset 6 in
  unbreakable (StaticF 4) = true /\ searches_first (StaticF 4) set_ (UInsert (XVal 3%nat)) = true /\
  uallowed (StaticF 4) set_ (UInsert (XVal 3%nat)) 2 = true /\
  exists x w hf x' w', holds (is_flat (StaticF 4)) x [1; 2]%nat w hf /\
    unord_call (StaticF 4) set_ true (UInsert (XVal 3%nat)) x w = Exn EUser x' w'.
Proof.
  intros E KD. split; [reflexivity|]. split; [reflexivity|]. split; [reflexivity|].
  apply (static_udemo_exn (KD := KD) 4 set_ true [1; 2]%nat []). vm_compute. reflexivity.
Qed.
(** No insertion of one element has an effect if allocating fails. *)
Theorem C47_unord_failed_alloc : forall (E : Env) (KD : Keyed) fl kd c, sane fl ->
  forall o x l w hf e x' w',
  uadds o = 1%nat -> (forall vs, o <> UInsertRange vs) -> e = ELength \/ e = EBadAlloc ->
  holds (is_flat fl) x l w hf -> uallowed fl kd o (length l) = true ->
  unord_call fl kd c o x w = Exn e x' w' -> holds (is_flat fl) x' l w' hf /\ is_static_flat fl = false.
Proof. exact @unord_failed_alloc. Qed.
Print Assumptions C47_unord_failed_alloc.
Example C47_alloc_case : let E := throws_at 2 in let KD := throwing_eset 2 in
  uadds (UInsert (XVal 3%nat)) = 1%nat /\
  exists x w hf x' w', holds (is_flat (SmallF 2)) x [1; 2]%nat w hf /\
    unord_call (SmallF 2) multiset_ true (UInsert (XVal 3%nat)) x w = Exn EBadAlloc x' w'.
Proof.
  intros E KD. split; [reflexivity|].
  apply (small_udemo_exn (KD := KD) 2 multiset_ true (ltac:(vm_compute; discriminate)) [1; 2]%nat []). vm_compute. reflexivity.
Qed.
(** emplace of the static sets and maps and of the small maps constructs the element
    behind the others, then searches for its key.  If comparing throws, the element
    stays, even if its key was present: the keys are no longer distinct. *)
Theorem C47_unord_emplace_refuted :
  (exists (E : Env) (KD : Keyed) c o x l w hf e x' w' l',
    equality_ok c /\ distinct c l /\
    holds (is_flat (StaticF 4)) x l w hf /\ uallowed (StaticF 4) set_ o (length l) = true /\
    unord_call (StaticF 4) set_ c o x w = Exn e x' w' /\
    holds (is_flat (StaticF 4)) x' l' w' hf /\ ~ distinct c l') /\
  (exists (E : Env) (KD : Keyed) c o x l w hf e x' w' l',
    equality_ok c /\ distinct c l /\
    holds (is_flat (SmallF 4)) x l w hf /\ uallowed (SmallF 4) map_ o (length l) = true /\
    unord_call (SmallF 4) map_ c o x w = Exn e x' w' /\
    holds (is_flat (SmallF 4)) x' l' w' hf /\ ~ distinct c l').
Proof. exact eager_emplace_refuted. Qed.
Print Assumptions C47_unord_emplace_refuted.
