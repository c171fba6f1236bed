(** * Cost of filling the flat containers (C66, C67)

    [tick w] counts the operations of the element type, the calls of comparators
    and key equalities and the allocations performed so far. *)

From Verif Require Import RangeRefuted.
Open Scope Z_scope.

(** ** C66: construction of the ordered flat containers from a range

    The documentation promises: linear in the length of the range.  If every key of
    the range goes before the previous ones, construction takes at least
    [n * (n - 1) / 2] operations instead, for all eight containers. *)
Theorem C66_range_descending : forall (E : Env) (KD : Keyed) fl kd, sane fl ->
  forall c a vs w hf x u w',
  strict_weak (less c) ->
  (forall i j y z, (i < j)%nat -> vs !! i = Some y -> vs !! j = Some z -> less c (key z) (key y) = true) ->
  holds0 w hf -> can_hold fl (length vs) = true ->
  flat_new fl kd (NewRange c a vs) tt w = Ok x u w' ->
  (2 * tick w + length vs * (length vs - 1) <= 2 * tick w')%nat.
Proof. exact @flat_range_quadratic. Qed.
Print Assumptions C66_range_descending.
Example C66_descending_case : let E := calm_pairs in let KD := calm_map in
  let vs := [(6, 1); (4, 1); (3, 7); (1, 2)]%nat in let k := NewRange true 0 vs in
  sane (SmallF 2) /\ strict_weak (less true) /\
  (forall i j y z, (i < j)%nat -> vs !! i = Some y -> vs !! j = Some z -> less true (key z) (key y) = true) /\
  holds0 w0 ∅ /\ can_hold (SmallF 2) (length vs) = true /\
  exists x u w', flat_new (SmallF 2) multimap_ k tt w0 = Ok x u w'.
Proof.
  intros E KD vs k. split; [done|]. split; [apply nat_less_strict|]. split.
  { intros i j y z Hij Hy Hz. do 4 (destruct i as [|i]; [injection Hy as <-; do 5 (destruct j as [|j]; [first [lia|injection Hz as <-; reflexivity|discriminate]|]); discriminate|]).
    discriminate. }
  split; [apply w0_holds|]. split; [reflexivity|].
  destruct (flat_new (SmallF 2) multimap_ k tt w0) as [x u w'| |] eqn:Hn; [by exists x, u, w'|..];
    exfalso; apply (f_equal returned) in Hn; vm_compute in Hn; discriminate.
Qed.

(** So no constant [K] is enough, here for static_flat_set<int, N> and a range of
    integers. *)
Theorem C66_range_linear_refuted : let E := calm in let KD := calm_set in
  forall K : nat, exists N (vs : list V) x w',
    flat_new (StaticF N) set_ (NewRange true 0 vs) tt w0 = Ok x tt w' /\
    (K * length vs < tick w' - tick w0)%nat.
Proof. exact range_not_linear. Qed.
Print Assumptions C66_range_linear_refuted.

(** What holds for every range ... *)
Theorem C66_range_upper : forall (E : Env) (KD : Keyed) fl kd, sane fl ->
  forall c a vs w hf x u w',
  holds0 w hf -> can_hold fl (length vs) = true ->
  flat_new fl kd (NewRange c a vs) tt w = Ok x u w' ->
  (tick w' <= tick w + length vs * (Nat.log2 (length vs) + length vs + 5))%nat.
Proof. exact @flat_range_upper. Qed.
Print Assumptions C66_range_upper.   (* case: C66_descending_case *)

(** ... and for a range in strictly ascending order, in the static containers. *)
Theorem C66_static_ascending : forall (E : Env) (KD : Keyed) N kd c a vs w hf x u w',
  strict_weak (less c) ->
  (forall i j y z, (i < j)%nat -> vs !! i = Some y -> vs !! j = Some z -> less c (key y) (key z) = true) ->
  holds0 w hf -> (length vs <= N)%nat ->
  flat_new (StaticF N) kd (NewRange c a vs) tt w = Ok x u w' ->
  (tick w' <= tick w + length vs * (Nat.log2 (length vs) + 5))%nat.
Proof. exact @static_range_ascending. Qed.
Print Assumptions C66_static_ascending.
Example C66_ascending_case : let E := calm_pairs in let KD := calm_map in
  let vs := [(1, 1); (4, 1); (5, 7); (8, 2)]%nat in let k := NewRange true 0 vs in
  strict_weak (less true) /\
  (forall i j y z, (i < j)%nat -> vs !! i = Some y -> vs !! j = Some z -> less true (key y) (key z) = true) /\
  holds0 w0 ∅ /\ (length vs <= 5)%nat /\
  exists x u w', flat_new (StaticF 5) map_ k tt w0 = Ok x u w'.
Proof.
  intros E KD vs k. split; [apply nat_less_strict|]. split.
  { intros i j y z Hij Hy Hz. do 4 (destruct i as [|i]; [injection Hy as <-; do 5 (destruct j as [|j]; [first [lia|injection Hz as <-; reflexivity|discriminate]|]); discriminate|]).
    discriminate. }
  split; [apply w0_holds|]. split; [vm_compute; lia|].
  destruct (flat_new (StaticF 5) map_ k tt w0) as [x u w'| |] eqn:Hn; [by exists x, u, w'|..];
    exfalso; apply (f_equal returned) in Hn; vm_compute in Hn; discriminate.
Qed.

(** ** C67: insertion into the unordered flat containers

    The documentation promises O(1).  An insertion into a set or map that inserts
    takes as many calls of the key equality as there are elements. *)
Theorem C67_insert_new_linear : forall (E : Env) (KD : Keyed) fl kd c a x l w hf i x' w',
  multi kd = false -> holds (is_flat fl) x l w hf ->
  unord_call fl kd c (UInsert a) x w = Ok (PosNew i true) x' w' ->
  (tick w + length l <= tick w')%nat.
Proof. exact @unord_insert_cost. Qed.
Print Assumptions C67_insert_new_linear.
Example C67_insert_case : let E := calm_pairs in let KD := calm_emap in
  let l := [(2, 7); (14, 8); (6, 9)]%nat in
  exists x w hf x' w', holds (is_flat (StaticF 4)) x l w hf /\
    unord_call (StaticF 4) map_ true (UInsert (XVal (5, 5)%nat)) x w = Ok (PosNew 3 true) x' w'.
Proof.
  intros E KD l. apply (static_udemo (KD := KD) 4 map_ true [(2, 7); (14, 8); (6, 9)]%nat []). vm_compute. reflexivity.
Qed.

(** It does hold for static_unordered_flat_multiset and _multimap. *)
Theorem C67_multi_insert_constant : forall (E : Env) (KD : Keyed) N kd c a x w r x' w',
  multi kd = true -> unord_call (StaticF N) kd c (UInsert a) x w = Ok r x' w' ->
  (tick w' <= S (tick w))%nat.
Proof. exact @unord_append_cost. Qed.
Print Assumptions C67_multi_insert_constant.
Example C67_multi_case : let E := calm_pairs in let KD := calm_emap in
  let l := [(2, 7); (14, 8); (6, 9)]%nat in
  exists x w hf x' w', holds (is_flat (StaticF 4)) x l w hf /\
    unord_call (StaticF 4) multimap_ true (UInsert (XVal (14, 5)%nat)) x w = Ok (Pos 3) x' w'.
Proof.
  intros E KD l. apply (static_udemo (KD := KD) 4 multimap_ true [(2, 7); (14, 8); (6, 9)]%nat []). vm_compute. reflexivity.
Qed.

(** The constructors of static_unordered_flat_* from a range are documented as
    linear; they are for multiset and multimap. *)
Theorem C67_multi_range_linear : forall (E : Env) (KD : Keyed) N kd c a vs w x u w',
  multi kd = true -> unord_new (StaticF N) kd (NewRange c a vs) tt w = Ok x u w' ->
  (tick w' <= tick w + length vs)%nat.
Proof. exact @unord_range_linear. Qed.
Print Assumptions C67_multi_range_linear.
(** For set and map they take at least [n * (n - 1) / 2] operations if the keys
    differ. *)
Theorem C67_range_distinct : forall (E : Env) (KD : Keyed) N kd c a vs w hf x u w',
  multi kd = false -> equality_ok c ->
  (forall i j y z, i <> j -> vs !! i = Some y -> vs !! j = Some z -> same c (key y) (key z) = false) ->
  holds0 w hf -> (length vs <= N)%nat ->
  unord_new (StaticF N) kd (NewRange c a vs) tt w = Ok x u w' ->
  (2 * tick w + length vs * (length vs - 1) <= 2 * tick w')%nat.
Proof. exact @unord_range_quadratic. Qed.
Print Assumptions C67_range_distinct.
Example C67_range_case : let E := calm_pairs in let KD := calm_emap in
  let vs := [(6, 1); (14, 1); (3, 7); (10, 2)]%nat in let k := NewRange true 0 vs in
  equality_ok true /\
  (forall i j y z, i <> j -> vs !! i = Some y -> vs !! j = Some z -> same true (key y) (key z) = false) /\
  holds0 w0 ∅ /\ (length vs <= 5)%nat /\
  (exists x u w', unord_new (StaticF 5) map_ k tt w0 = Ok x u w') /\
  (exists x u w', unord_new (StaticF 5) multimap_ k tt w0 = Ok x u w').
Proof.
  intros E KD vs k. split; [apply nat_same_ok|]. split; [apply (distinctb_ok (KD := KD) true vs); reflexivity|].
  split; [apply w0_holds|]. split; [vm_compute; lia|]. split.
  - destruct (unord_new (StaticF 5) map_ k tt w0) as [x u w'| |] eqn:Hn; [by exists x, u, w'|..];
      exfalso; apply (f_equal returned) in Hn; vm_compute in Hn; discriminate.
  - destruct (unord_new (StaticF 5) multimap_ k tt w0) as [x u w'| |] eqn:Hn; [by exists x, u, w'|..];
      exfalso; apply (f_equal returned) in Hn; vm_compute in Hn; discriminate.
Qed.
Theorem C67_range_linear_refuted : let E := calm in let KD := calm_eset in
  forall K : nat, exists N (vs : list V) x w',
    unord_new (StaticF N) set_ (NewRange true 0 vs) tt w0 = Ok x tt w' /\
    (K * length vs < tick w' - tick w0)%nat.
Proof. exact unord_range_not_linear. Qed.
Print Assumptions C67_range_linear_refuted.
