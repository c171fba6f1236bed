(** * Relational operators of the flat containers *)

From iris.proofmode Require Import tactics.
From Verif Require Export RelThms FlatDemo UnordDemo.
Open Scope Z_scope.

Section ordered.
  Context `{E : Env}.
  (** [operator==] and [operator<] of the ordered flat containers have the text of those of the
      vectors: small_flat_set.hpp 1801-1810, 1823-1832, small_flat_multiset.hpp 1770-1779,
      1792-1801, small_flat_map.hpp 2105-2114, 2127-2136, small_flat_multimap.hpp 1843-1852,
      1865-1874, static_flat_set.hpp 968-977, 990-999, static_flat_multiset.hpp 935-944, 957-966,
      static_flat_map.hpp 1285-1294, 1307-1316, static_flat_multimap.hpp 1011-1020, 1033-1042.
      They use [==] and [<] of the elements, not the comparator. *)
  Definition flat_rel (fl : flavour) (o : vop2) : M ((loc * vdata) * (loc * vdata)) rval :=
    match fl with StaticF N => static_run2 N o | SmallF N => small_run2 N o end.
  Lemma flat_compare fl : sane fl -> forall o eqv lt x l y l' w hf, consistent eqv lt -> holds2 (is_flat fl) x l y l' w hf ->
    match compare_ (flat_rel fl) o eqv lt (x, y) w with
    | Ok r (x', y') w' => holds2 (is_flat fl) x' l y' l' w' hf /\ exists b, r = RBool b /\ (b = true <-> related o eqv lt l l')
    | Exn e (x', y') w' => e = EUser /\ holds2 (is_flat fl) x' l y' l' w' hf
    | UB => False
    end.
  Proof.
    intros Hs o eqv lt x l y l' w hf Hc (Hwf & m1 & m2 & H1 & H2 & Hd). destruct fl as [N|N]; cbn [is_flat sane] in *.
    - destruct H1 as [ib1 H1], H2 as [ib2 H2].
      pose proof (RelThms.static_compare N o eqv lt x (ib1, l) y (ib2, l') w hf Hc ltac:(split; [done|by exists m1, m2])) as H. unfold compares in H.
      change (flat_rel (StaticF N)) with (static_run2 N).
      assert (forall x' y' w', (exists A' B', holds2 (is_static N) x' A' y' B' w' hf /\ (ib1, l) = A' /\ (ib2, l') = B') -> holds2 (is_flat (StaticF N)) x' l y' l' w' hf) as Hk.
      { clear. intros x' y' w' (A' & B' & (Hw & m1 & m2 & H1 & H2 & Hd) & <- & <-). split; [done|]. exists m1, m2.
        split; [by exists ib1|]. split; [by exists ib2|done]. }
      destruct (compare_ _ _ _ _ _ _) as [r [x' y'] w'|e [x' y'] w'|]; [| |done]; destruct H as [Ha Hb]; (split; [|done || by apply Hk]); by try apply Hk.
    - destruct H1 as (ib1 & a1 & d1 & c1 & H1), H2 as (ib2 & a2 & d2 & c2 & H2).
      pose proof (RelThms.small_compare N Hs o eqv lt x (ib1, VAbs a1 d1 l c1) y (ib2, VAbs a2 d2 l' c2) w hf Hc ltac:(split; [done|by exists m1, m2])) as H. unfold compares in H.
      change (flat_rel (SmallF N)) with (small_run2 N).
      assert (forall x' y' w', (exists A' B', holds2 (is_small N) x' A' y' B' w' hf /\ (ib1, VAbs a1 d1 l c1) = A' /\ (ib2, VAbs a2 d2 l' c2) = B') -> holds2 (is_flat (SmallF N)) x' l y' l' w' hf) as Hk.
      { clear. intros x' y' w' (A' & B' & (Hw & m1 & m2 & H1 & H2 & Hd) & <- & <-). split; [done|]. exists m1, m2.
        split; [by exists ib1, a1, d1, c1|]. split; [by exists ib2, a2, d2, c2|done]. }
      destruct (compare_ _ _ _ _ _ _) as [r [x' y'] w'|e [x' y'] w'|]; [| |done]; destruct H as [Ha Hb]; (split; [|done || by apply Hk]); by try apply Hk.
  Qed.
  (** small_unordered_flat_set.hpp 1691-1698, small_unordered_flat_multiset.hpp 1639-1646,
      small_unordered_flat_map.hpp 1977-1984, small_unordered_flat_multimap.hpp 1725-1732,
      static_unordered_flat_set.hpp 870-877, static_unordered_flat_multiset.hpp 804-811,
      static_unordered_flat_map.hpp 1167-1174, static_unordered_flat_multimap.hpp 904-911:
      [operator!=] is [!(x == y)]. *)
  Definition unord_differ (fl : flavour) (e : V -> V -> bool) : M ((loc * vdata) * (loc * vdata)) rval :=
    negated (unord_equal fl e).
  Lemma unord_differ_ok fl : sane fl -> forall e x l y l' w hf, equality e -> holds2 (is_flat fl) x l y l' w hf ->
    match unord_differ fl e (x, y) w with
    | Ok r (x', y') w' => holds2 (is_flat fl) x' l y' l' w' hf /\ exists b, r = RBool b /\ (b = true <-> ~ same_elements e l l')
    | Exn ex (x', y') w' => ex = EUser /\ holds2 (is_flat fl) x' l y' l' w' hf
    | UB => False
    end.
  Proof.
    intros Hs e x l y l' w hf He Hxy. pose proof (unord_equality fl Hs e x l y l' w hf He Hxy) as H. unfold unord_differ, negated.
    destruct (unord_equal fl e (x, y) w) as [r [x' y'] w'|ex [x' y'] w'|]; [| |done].
    - destruct H as (H1 & _ & b & -> & Hb). split; [done|]. exists (negb b). split; [done|]. rewrite -Hb. by destruct b.
    - destruct H as (H1 & _ & ->). done.
  Qed.
End ordered.

(** Two ordered containers made from ranges, and a program run on them. *)
Section demos.
  Context `{KD : Keyed}.
  Variable N : nat.
  Variable kd : fkind.
  Variable c : Cmp.
  Definition static_pair {T} vs vs' (m : M ((loc * vdata) * (loc * vdata)) T) : option (list V * list V * T) :=
    match look2 (S := static_flat_spec N kd) (static_flat_view N kd)
            [New (C := static_flat N kd) 0 (NewRange c 0 vs); New (C := static_flat N kd) 1 (NewRange c 0 vs')] 0 1
            (fun x y w => returned (m (x.2, y.2) w)) with
    | Some ((_, (_, l)), (_, (_, l')), b) => Some (l, l', b)
    | None => None
    end.
  Lemma static_pair_ok {T} vs vs' (m : M _ T) l l' b :
    static_pair vs vs' m = Some (l, l', b) ->
    exists x y w hf xy w', holds2 (is_flat (StaticF N)) x l y l' w hf /\ m (x, y) w = Ok b xy w'.
  Proof.
    unfold static_pair. destruct (look2 _ _ _ _ _) as [[[[c1 [ib1 l1]] [c2 [ib2 l2]]] t]|] eqn:Hl; [|done].
    intros [= -> -> ->].
    apply (look2_ok (static_flat_ok N kd) (with_cmp (is_static N)) (static_flat_iff N kd)
             (static_flat_view N kd) (static_flat_view_ok N kd)) in Hl
      as (x & y & w & hf & (Hwf & m1 & m2 & [_ H1] & [_ H2] & H3) & Hret); [|done].
    apply returned_ok in Hret as (xy & w' & Hret).
    exists x.2, y.2, w, hf, xy, w'. split; [|done]. split; [done|]. exists m1, m2.
    split; [by exists ib1|]. split; [by exists ib2|done].
  Qed.
  Definition small_pair {T} vs vs' (m : M ((loc * vdata) * (loc * vdata)) T) : option (list V * list V * T) :=
    match look2 (S := small_flat_spec N kd) (small_flat_view N kd)
            [New (C := small_flat N kd) 0 (NewRange c 0 vs); New (C := small_flat N kd) 1 (NewRange c 0 vs')] 0 1
            (fun x y w => returned (m (x.2, y.2) w)) with
    | Some ((_, (_, q)), (_, (_, q')), b) => Some (q_elems q, q_elems q', b)
    | None => None
    end.
  Lemma small_pair_ok (HN : Z.of_nat N <= max_size) {T} vs vs' (m : M _ T) l l' b :
    small_pair vs vs' m = Some (l, l', b) ->
    exists x y w hf xy w', holds2 (is_flat (SmallF N)) x l y l' w hf /\ m (x, y) w = Ok b xy w'.
  Proof.
    unfold small_pair. destruct (look2 _ _ _ _ _) as [[[[c1 [ib1 [a1 d1 l1 k1]]] [c2 [ib2 [a2 d2 l2 k2]]]] t]|] eqn:Hl; [|done].
    intros [= -> -> ->].
    apply (look2_ok (small_flat_ok N kd HN) (with_cmp (is_small N)) (small_flat_iff N kd HN)
             (small_flat_view N kd) (small_flat_view_ok N kd)) in Hl
      as (x & y & w & hf & (Hwf & m1 & m2 & [_ H1] & [_ H2] & H3) & Hret); [|done].
    apply returned_ok in Hret as (xy & w' & Hret).
    exists x.2, y.2, w, hf, xy, w'. split; [|done]. split; [done|]. exists m1, m2.
    split; [by exists ib1, a1, d1, k1|]. split; [by exists ib2, a2, d2, k2|done].
  Qed.
End demos.
