(** * Cost of the operations whose complexity is documented (C54 - C57)

    [tick w] counts the operations of the element type, the calls of comparators
    and the allocations performed so far; all the theorems of this file bound its
    increase.  Moving a pointer or reading an element costs nothing. *)

From Verif Require Import DevCycle SmallCost FlatCost FlatDemo UnordDemo.
Open Scope Z_scope.

(** ** C54: push_front, push_back of devector

    [dev_push_all vs] calls push_front(v) for every [(true, v)] and push_back(v)
    for every [(false, v)] in [vs], in this order; [pushed] is the list that
    results.  The cost is linear in the number of calls and the initial size. *)
Theorem C54_devector_push_amortised : forall (E : Env) vs x (A : dabs) w hf x' w',
  holds is_dev x A w hf -> dev_push_all vs x w = Ok tt x' w' ->
  exists A' : dabs, holds is_dev x' A' w' hf /\ e_elems A' = pushed vs (e_elems A) /\
    (tick w <= tick w' <= tick w + 10 * length vs + 2 * length (e_elems A))%nat.
Proof. exact @dev_push_all_amortised. Qed.
Print Assumptions C54_devector_push_amortised.
(** A single call: one operation if there is room at that end, else every element
    is moved once, and there are two or three operations more. *)
Theorem C54_devector_push_worst : forall (E : Env) (at_front : bool) a x (A : dabs) w hf r x' w',
  holds is_dev x A w hf ->
  dev_call (if at_front then DEmplaceFront a else DEmplaceBack a) x w = Ok r x' w' ->
  let s := Z.of_nat (length (e_elems A)) in
  let room := if at_front then g_front (geom_of A) else g_back (geom_of A) in
  if 0 <? room then Z.of_nat (tick w') = Z.of_nat (tick w) + 1
  else s + 2 <= Z.of_nat (tick w') - Z.of_nat (tick w) <= s + 3.
Proof. exact @dev_push_cost. Qed.
Print Assumptions C54_devector_push_worst.
Example C54_worst_case : let E := calm in let A := DAbs 7 (1, 0) 0 [10; 20; 30]%nat 3 in
  exists x w hf x' w', holds is_dev x A w hf /\
    dev_call (DEmplaceFront (XVal 5%nat)) x w = Ok (RIdx 0) x' w'.
Proof.
  intros E A. apply (dev_case_ok (E := E) [@New E (devector false) 0 (@KRange E 7 [10; 20; 30]%nat)] 0); vm_compute; reflexivity.
Qed.
(** Twelve elements, alternately at both ends. *)
Example C54_case : let E := calm in
  exists x w hf x' w', holds is_dev x (DAbs 7 null 0 [] 0) w hf /\
    dev_push_all ((fun n => (Nat.even n, n)) <$> seq 1 12) x w = Ok tt x' w'.
Proof.
  intros E. apply (dev_case_ok (E := E) [@New E (devector false) 0 (@KDefault E 7)] 0); vm_compute; reflexivity.
Qed.
(** With push and pop mixed the cost per call is not constant, not even
    amortised.  For every environment in which nothing throws and every [m]:
    construct a container of [2 * m] elements, call reserve_front(3 * m + 1) and
    reserve_back(2 * m + 1) ([dev_setup]); then the eight calls [dev_cycle v]
    (push_back twice, push_front, pop_back twice, push_front, pop_front twice),
    repeated [k] times, cost at least [4 * m] each time. *)
Theorem C54_devector_push_pop_refuted : forall (E : Env) v m k,
  (forall k t, may_throw k t = false) -> (1 <= m)%nat -> 3 * Z.of_nat m + 2 <= max_size ->
  exists x w x' w', dev_setup v m x w /\ dev_run (dev_cycles v k) x w = Ok tt x' w' /\
    (tick w + k * (4 * m) <= tick w')%nat.
Proof. exact @dev_cycles_cost. Qed.
Print Assumptions C54_devector_push_pop_refuted.
(** Thirty rounds, 240 calls, on a container of 64 elements. *)
Example C54_refuted_case : let E := calm in
  (forall k t, may_throw k t = false) /\ 3 * Z.of_nat 32 + 2 <= max_size /\
  length (@dev_cycles E 5%nat 30) = 240%nat /\ (30 * (4 * 32) = 3840)%nat.
Proof. intros E. split; [by intros [] t|]. split; [vm_compute; discriminate|]. split; reflexivity. Qed.

(** ** C55: push_back of small_vector, as C08 for vector *)
Theorem C55_small_vector_push_back_amortised : forall (E : Env) N, Z.of_nat N <= max_size ->
  forall vs x (A : sabs) w hf x' w',
  holds (is_small N) x A w hf -> small_push_all N vs x w = Ok tt x' w' ->
  exists A' : sabs, holds (is_small N) x' A' w' hf /\ q_elems A'.2 = q_elems A.2 ++ vs /\
    (tick w <= tick w' <= tick w + 2 * length vs + 4 * (length (q_elems A.2) + length vs))%nat.
Proof. exact @small_push_all_amortised. Qed.
Print Assumptions C55_small_vector_push_back_amortised.
(** The elements leave the object at the second push. *)
Example C55_case : let E := calm in let A : sabs := ((-1, 0), VAbs 7 (-1, 0) [10; 20]%nat 3) in
  Z.of_nat 3 <= max_size /\
  exists x w hf x' w', holds (is_small 3) x A w hf /\ small_push_all 3 (seq 1 20) x w = Ok tt x' w'.
Proof.
  intros E A. split; [vm_compute; discriminate|].
  apply (small_case_ok (E := E) 3 (ltac:(vm_compute; discriminate)) [@New E (small_vector 3) 0 (@KRange E 7 [10; 20]%nat)] 0); vm_compute; reflexivity.
Qed.

(** ** C56: lookup in the ordered flat containers makes a logarithmic number of
    comparisons, whether the container is in order or not. *)
Theorem C56_flat_lookup_logarithmic : forall (E : Env) (KD : Keyed) fl kd c, sane fl ->
  forall o x l w hf,
  holds (is_flat fl) x l w hf -> allowed_call fl kd o l = true -> is_lookup o = true ->
  match flat_call fl kd c o x w with
  | Ok _ _ w' | Exn _ _ w' =>
      (tick w <= tick w' <= tick w +
       let lg := Nat.log2 (length l) in
       match o with
       | FLower _ | FUpper _ => lg + 1
       | FFind _ | FContains _ | FAt _ => lg + 2
       | FEqualRange _ => 2 * lg + 2
       | FCount _ => if multi kd then 2 * lg + 2 else lg + 2
       | _ => 0
       end)%nat
  | UB => False
  end.
Proof. exact @flat_lookup_cost. Qed.
Print Assumptions C56_flat_lookup_logarithmic.
Example C56_case : let E := calm_pairs in let KD := calm_map in
  let l := [(2, 7); (4, 1); (4, 2); (4, 3); (5, 1)]%nat in
  sane (StaticF 5) /\ allowed_call (StaticF 5) multimap_ (FEqualRange 4%nat) l = true /\
  exists x w hf x' w', holds (is_flat (StaticF 5)) x l w hf /\
    flat_call (StaticF 5) multimap_ true (FEqualRange 4%nat) x w = Ok (PosRange 1 4) x' w'.
Proof.
  intros E KD l. split; [done|]. split; [reflexivity|].
  apply (static_demo (KD := KD) 5 multimap_ true [(4, 3); (2, 7); (5, 1); (4, 2); (4, 1)]%nat []). vm_compute. reflexivity.
Qed.

(** ** C57: lookup in the unordered flat containers calls key_equal at most once
    per element; erase(pos) moves at most one element. *)
Theorem C57_unord_cost : forall (E : Env) (KD : Keyed) fl kd c, sane fl ->
  forall o x l w hf,
  holds (is_flat fl) x l w hf -> uallowed fl kd o (length l) = true ->
  match o with UFind _ | UCount _ | UContains _ | UAt _ | UErase _ => True | _ => False end ->
  match unord_call fl kd c o x w with
  | Ok _ _ w' | Exn _ _ w' =>
      (tick w <= tick w' <= tick w + match o with UErase _ => 1 | _ => length l end)%nat
  | UB => False
  end.
Proof. exact @unord_cost. Qed.
Print Assumptions C57_unord_cost.
Example C57_case : let E := calm_pairs in let KD := calm_emap in
  let l := [(2, 7); (14, 8); (6, 9)]%nat in
  sane (StaticF 4) /\ uallowed (StaticF 4) map_ (UErase 0) (length l) = true /\
  (exists x w hf x' w', holds (is_flat (StaticF 4)) x l w hf /\
    unord_call (StaticF 4) map_ false (UErase 0) x w = Ok (Pos 0) x' w') /\
  (exists x w hf x' w', holds (is_flat (StaticF 4)) x l w hf /\
    unord_call (StaticF 4) map_ false (UFind 4%nat) x w = Ok (Pos 1) x' w').
Proof.
  intros E KD l. split; [done|]. split; [reflexivity|]. split.
  - apply (static_udemo (KD := KD) 4 map_ false [(2, 7); (14, 8); (6, 9)]%nat []). vm_compute. reflexivity.
  - apply (static_udemo (KD := KD) 4 map_ false [(2, 7); (14, 8); (6, 9)]%nat []). vm_compute. reflexivity.
Qed.
