(** * Concrete unordered sets and maps

    Used by the examples beside the properties of the unordered flat containers. *)

From iris.proofmode Require Import tactics.
From Verif Require Export UnordState FlatDemo.
Open Scope Z_scope.

(** Keys are natural numbers; they are equal ([c = true]), or have the same last
    digit. *)
Definition nat_same (c : bool) (x y : nat) : bool := if c then Nat.eqb x y else Nat.eqb (x mod 10) (y mod 10).
Definition eq_set (th : opk -> nat -> bool) (nothrow copy propagate : bool)
    : @Keyed (demo th nothrow copy propagate) := {|
  Key := nat;
  key := fun v : @V (demo th nothrow copy propagate) => v : nat;
  Cmp := bool;
  less := nat_same;
  Mapped := unit;
  mapped := fun _ => tt;
  entry := fun k _ => k : @V (demo th nothrow copy propagate);
  mdef := tt;
  mjunk := fun _ => tt;
  key_entry := fun k m => eq_refl;
  mapped_entry := fun k m => match m with tt => eq_refl end;
|}.
Definition eq_map (th : opk -> nat -> bool) (nothrow copy propagate : bool)
    : @Keyed (pairs th nothrow copy propagate) := {|
  Key := nat;
  key := fun v : @V (pairs th nothrow copy propagate) => (v : nat * nat).1;
  Cmp := bool;
  less := nat_same;
  Mapped := nat;
  mapped := fun v : @V (pairs th nothrow copy propagate) => (v : nat * nat).2;
  entry := fun k m => (k, m) : @V (pairs th nothrow copy propagate);
  mdef := 0%nat;
  mjunk := fun _ => 99%nat;
  key_entry := fun k m => eq_refl;
  mapped_entry := fun k m => eq_refl;
|}.
Definition calm_eset : @Keyed calm := eq_set _ _ _ _.
Definition calm_emap : @Keyed calm_pairs := eq_map _ _ _ _.
Definition throwing_eset (t : nat) : @Keyed (throws_at t) := eq_set _ _ _ _.
Definition throwing_emap (t : nat) : @Keyed (throwing_pairs t) := eq_map _ _ _ _.

Lemma nat_same_ok c :
  (forall x, nat_same c x x = true) /\
  (forall x y, nat_same c x y = true -> nat_same c y x = true) /\
  (forall x y z, nat_same c x y = true -> nat_same c y z = true -> nat_same c x z = true).
Proof.
  unfold nat_same. destruct c; split_and!; intros *; rewrite ?Nat.eqb_eq; congruence.
Qed.

(** Deciding whether keys are distinct. *)
Section distinctb.
  Context `{KD : Keyed}.
  Variable c : Cmp.
  Fixpoint distinctb (l : list V) : bool :=
    match l with
    | [] => true
    | x :: l' =>
        forallb (fun y => negb (same c (key x) (key y)) && negb (same c (key y) (key x))) l' && distinctb l'
    end.
  Lemma distinctb_ok l : distinctb l = true <-> distinct c l.
  Proof.
    induction l as [|x l IH]; cbn.
    - split; [|done]. intros _. apply distinct_nil.
    - rewrite andb_true_iff IH forallb_forall distinct_cons. f_equiv.
      split; intros Hx y Hy; [apply elem_of_list_In in Hy|apply elem_of_list_In in Hy];
        specialize (Hx y Hy); [apply andb_true_iff in Hx as [H1 H2]|destruct Hx as [-> ->]; done].
      by rewrite !negb_true_iff in H1, H2.
  Qed.
End distinctb.

(** A container made from a range, after some calls. *)
Section demos.
  Context `{KD : Keyed}.
  Variable N : nat.
  Variable kd : fkind.
  Variable c : Cmp.
  Definition static_ucmds (vs : list V) (os : list uop) : list (cmd (static_unord N kd)) :=
    New (C := static_unord N kd) 0 (NewRange c 0 vs) ::
    map (fun o => Do (C := static_unord N kd) 0 (Own o)) os.
  Definition small_ucmds (vs : list V) (os : list uop) : list (cmd (small_unord N kd)) :=
    New (C := small_unord N kd) 0 (NewRange c 0 vs) ::
    map (fun o => Do (C := small_unord N kd) 0 (Own o)) os.

  (** The elements and what [f] makes of the state. *)
  Definition static_uafter {T} vs os (f : sobj -> world -> option T) : option (list V * T) :=
    match look (S := static_unord_spec N kd) (static_unord_view N kd) (static_ucmds vs os) 0
            (fun x w => f x.2 w) with
    | Some ((_, (_, l)), t) => Some (l, t)
    | None => None
    end.
  Definition small_uafter {T} vs os (f : sobj -> world -> option T) : option (list V * T) :=
    match look (S := small_unord_spec N kd) (small_unord_view N kd) (small_ucmds vs os) 0
            (fun x w => f x.2 w) with
    | Some ((_, (_, q)), t) => Some (q_elems q, t)
    | None => None
    end.
  Lemma static_uafter_ok {T} vs os (f : _ -> _ -> option T) l t :
    static_uafter vs os f = Some (l, t) ->
    exists x w hf, holds (is_flat (StaticF N)) x l w hf /\ f x w = Some t.
  Proof.
    unfold static_uafter. destruct (look _ _ _ _) as [[[c' [ib l']] t']|] eqn:Hl; [|done]. intros [= -> ->].
    apply (look_ok (static_unord_ok N kd) (with_cmp (is_static N)) (static_unord_iff N kd)
             (static_unord_view N kd) (static_unord_view_ok N kd)) in Hl as (x & w & hf & (Hwf & m & [_ Hm] & Hx) & Hret).
    exists x.2, w, hf. split; [|done]. split; [done|]. exists m. split; [|done]. by exists ib.
  Qed.
  Lemma small_uafter_ok (HN : Z.of_nat N <= max_size) {T} vs os (f : _ -> _ -> option T) l t :
    small_uafter vs os f = Some (l, t) ->
    exists x w hf, holds (is_flat (SmallF N)) x l w hf /\ f x w = Some t.
  Proof.
    unfold small_uafter. destruct (look _ _ _ _) as [[[c' [ib [a d l' cap]]] t']|] eqn:Hl; [|done]. intros [= -> ->].
    apply (look_ok (small_unord_ok N kd HN) (with_cmp (is_small N)) (small_unord_iff N kd HN)
             (small_unord_view N kd) (small_unord_view_ok N kd)) in Hl as (x & w & hf & (Hwf & m & [_ Hm] & Hx) & Hret).
    exists x.2, w, hf. split; [|done]. split; [done|]. exists m. split; [|done]. by exists ib, a, d, cap.
  Qed.

  Lemma static_udemo vs os o l r :
    static_uafter vs os (fun x w => returned (unord_call (StaticF N) kd c o x w)) = Some (l, r) ->
    exists x w hf x' w', holds (is_flat (StaticF N)) x l w hf /\ unord_call (StaticF N) kd c o x w = Ok r x' w'.
  Proof.
    intros Ha. apply static_uafter_ok in Ha as (x & w & hf & Hx & Hr). apply returned_ok in Hr as (x' & w' & Hr).
    by exists x, w, hf, x', w'.
  Qed.
  Lemma static_udemo_exn vs os o l e :
    static_uafter vs os (fun x w => thrown (unord_call (StaticF N) kd c o x w)) = Some (l, e) ->
    exists x w hf x' w', holds (is_flat (StaticF N)) x l w hf /\ unord_call (StaticF N) kd c o x w = Exn e x' w'.
  Proof.
    intros Ha. apply static_uafter_ok in Ha as (x & w & hf & Hx & Hr). apply thrown_exn in Hr as (x' & w' & Hr).
    by exists x, w, hf, x', w'.
  Qed.
  Lemma small_udemo (HN : Z.of_nat N <= max_size) vs os o l r :
    small_uafter vs os (fun x w => returned (unord_call (SmallF N) kd c o x w)) = Some (l, r) ->
    exists x w hf x' w', holds (is_flat (SmallF N)) x l w hf /\ unord_call (SmallF N) kd c o x w = Ok r x' w'.
  Proof.
    intros Ha. apply (small_uafter_ok HN) in Ha as (x & w & hf & Hx & Hr). apply returned_ok in Hr as (x' & w' & Hr).
    by exists x, w, hf, x', w'.
  Qed.
  Lemma small_udemo_exn (HN : Z.of_nat N <= max_size) vs os o l e :
    small_uafter vs os (fun x w => thrown (unord_call (SmallF N) kd c o x w)) = Some (l, e) ->
    exists x w hf x' w', holds (is_flat (SmallF N)) x l w hf /\ unord_call (SmallF N) kd c o x w = Exn e x' w'.
  Proof.
    intros Ha. apply (small_uafter_ok HN) in Ha as (x & w & hf & Hx & Hr). apply thrown_exn in Hr as (x' & w' & Hr).
    by exists x, w, hf, x', w'.
  Qed.

  (** Two containers compared. *)
  Definition static_two (vs vs' : list V) : list (cmd (static_unord N kd)) :=
    [New (C := static_unord N kd) 0 (NewRange c 0 vs); New (C := static_unord N kd) 1 (NewRange c 0 vs')].
  Definition static_compare vs vs' r : option (list V * list V * rval) :=
    match look2 (S := static_unord_spec N kd) (static_unord_view N kd) (static_two vs vs') 0 1
            (fun x y w => returned (unord_equal (StaticF N) r (x.2, y.2) w)) with
    | Some ((_, (_, l)), (_, (_, l')), b) => Some (l, l', b)
    | None => None
    end.
  Lemma static_compare_ok vs vs' r l l' b :
    static_compare vs vs' r = Some (l, l', b) ->
    exists x y w hf xy w', holds2 (is_flat (StaticF N)) x l y l' w hf /\
      unord_equal (StaticF N) r (x, y) w = Ok b xy w'.
  Proof.
    unfold static_compare. destruct (look2 _ _ _ _ _) as [[[[c1 [ib1 l1]] [c2 [ib2 l2]]] t]|] eqn:Hl; [|done].
    intros [= -> -> ->].
    apply (look2_ok (static_unord_ok N kd) (with_cmp (is_static N)) (static_unord_iff N kd)
             (static_unord_view N kd) (static_unord_view_ok N kd)) in Hl
      as (x & y & w & hf & (Hwf & m1 & m2 & [_ H1] & [_ H2] & H3) & Hret); [|done].
    apply returned_ok in Hret as (xy & w' & Hret).
    exists x.2, y.2, w, hf, xy, w'. split; [|done]. split; [done|]. exists m1, m2.
    split; [by exists ib1|]. split; [by exists ib2|done].
  Qed.
End demos.

(** How a call ends that throws or returns, and what is left. *)
Definition uleft_over `{KD : Keyed} fl kd c o (x : sobj) (w : world) : option (exn * list V) :=
  match unord_call fl kd c o x w with
  | Exn e x' w' => match flat_view fl x' w' with Some l => Some (e, l) | None => None end
  | _ => None
  end.
Lemma uleft_over_ok `{KD : Keyed} fl kd c o x l w hf e l' :
  sane fl -> holds (is_flat fl) x l w hf -> uallowed fl kd o (length l) = true ->
  uleft_over fl kd c o x w = Some (e, l') ->
  exists x' w', unord_call fl kd c o x w = Exn e x' w' /\ holds (is_flat fl) x' l' w' hf.
Proof.
  intros HN Hx Hp Hl. unfold uleft_over in Hl.
  destruct (unord_call fl kd c o x w) as [|e' x' w'|] eqn:Hc; try done.
  destruct (uthrows fl kd c HN o x l w hf e' x' w' Hx Hp Hc) as (l2 & H1 & _).
  rewrite (flat_view_ok _ _ _ _ _ H1) in Hl. injection Hl as -> ->. by exists x', w'.
Qed.

(** ** Findings *)

(** What two calls in a row return. *)
Definition two_calls `{KD : Keyed} fl kd c o o2 (x : sobj) (w : world) : option (frv * frv) :=
  match unord_call fl kd c o x w with
  | Ok r x' w' => match unord_call fl kd c o2 x' w' with Ok r2 _ _ => Some (r, r2) | _ => None end
  | _ => None
  end.
Lemma two_calls_ok `{KD : Keyed} fl kd c o o2 x w r r2 :
  two_calls fl kd c o o2 x w = Some (r, r2) ->
  exists x' w' x2 w2, unord_call fl kd c o x w = Ok r x' w' /\ unord_call fl kd c o2 x' w' = Ok r2 x2 w2.
Proof.
  unfold two_calls. destruct (unord_call fl kd c o x w) as [r' x' w'| |]; [|done..].
  destruct (unord_call fl kd c o2 x' w') as [r2' x2 w2| |] eqn:Hc; [|done..]. intros [= -> ->].
  by exists x', w', x2, w2.
Qed.
Definition is_ub `{Env} {St A} (r : res St A) : option unit := match r with UB => Some tt | _ => None end.
Lemma is_ub_ok `{Env} {St A} (r : res St A) : is_ub r = Some tt -> r = UB.
Proof. by destruct r. Qed.

(** The multiset [1; 2; 3] is emptied by [c.erase( *c.begin())], for after 1 is erased,
    the reference refers to the 3 that took its place, and so on.  In [1; 1],
    erasing the second 1 by reference reads the key of a destroyed element. *)
Definition erase_key_goes_wrong (fl : flavour) : Prop :=
  (exists (E : Env) (KD : Keyed) c x l w hf x' w' x2 w2,
    equality_ok c /\ holds (is_flat fl) x l w hf /\
    length l = 3%nat /\ distinct c l /\
    unord_call fl multiset_ c (UEraseKeyOf 0) x w = Ok (Num 3) x' w' /\
    unord_call fl multiset_ c USize x' w' = Ok (Num 0) x2 w2) /\
  (exists (E : Env) (KD : Keyed) c x l w hf,
    equality_ok c /\ holds (is_flat fl) x l w hf /\ length l = 2%nat /\
    unord_call fl multiset_ c (UEraseKeyOf 1) x w = UB).
Lemma erase_key_refuted : erase_key_goes_wrong (StaticF 4) /\ erase_key_goes_wrong (SmallF 4).
Proof.
  pose (KD := calm_eset). pose (size := @USize _ KD).
  assert (HN : Z.of_nat 4 <= @max_size calm) by (vm_compute; discriminate).
  split; split.
  - destruct (static_uafter_ok (KD := KD) 4 multiset_ true [1; 2; 3]%nat []
      (two_calls (KD := KD) (StaticF 4) multiset_ true (@UEraseKeyOf _ KD 0) size)
      [1; 2; 3]%nat (@Num _ KD 3, @Num _ KD 0)) as (x & w & hf & Hx & Hl); [vm_compute; reflexivity|].
    apply two_calls_ok in Hl as (x' & w' & x2 & w2 & H1 & H2).
    exists calm, KD, true, x, [1; 2; 3]%nat, w, hf, x', w', x2, w2. split_and!; try done.
    + apply nat_same_ok.
    + by apply distinctb_ok.
  - destruct (static_uafter_ok (KD := KD) 4 multiset_ true [1; 1]%nat []
      (fun x w => is_ub (unord_call (KD := KD) (StaticF 4) multiset_ true (@UEraseKeyOf _ KD 1) x w))
      [1; 1]%nat tt) as (x & w & hf & Hx & Hl); [vm_compute; reflexivity|].
    apply is_ub_ok in Hl. exists calm, KD, true, x, [1; 1]%nat, w, hf. split_and!; try done. apply nat_same_ok.
  - destruct (small_uafter_ok (KD := KD) 4 multiset_ true HN [1; 2; 3]%nat []
      (two_calls (KD := KD) (SmallF 4) multiset_ true (@UEraseKeyOf _ KD 0) size)
      [1; 2; 3]%nat (@Num _ KD 3, @Num _ KD 0)) as (x & w & hf & Hx & Hl); [vm_compute; reflexivity|].
    apply two_calls_ok in Hl as (x' & w' & x2 & w2 & H1 & H2).
    exists calm, KD, true, x, [1; 2; 3]%nat, w, hf, x', w', x2, w2. split_and!; try done.
    + apply nat_same_ok.
    + by apply distinctb_ok.
  - destruct (small_uafter_ok (KD := KD) 4 multiset_ true HN [1; 1]%nat []
      (fun x w => is_ub (unord_call (KD := KD) (SmallF 4) multiset_ true (@UEraseKeyOf _ KD 1) x w))
      [1; 1]%nat tt) as (x & w & hf & Hx & Hl); [vm_compute; reflexivity|].
    apply is_ub_ok in Hl. exists calm, KD, true, x, [1; 1]%nat, w, hf. split_and!; try done. apply nat_same_ok.
Qed.

(** Assigning {3, 1, 3} to a static set copies the list as it is; 3 is still there
    after erase(3). *)
Lemma static_ulist_refuted :
  exists (E : Env) (KD : Keyed) c vs x l w hf x' w' k x2 w2 x3 w3,
    equality_ok c /\ distinct c l /\
    holds (is_flat (StaticF 4)) x l w hf /\ uallowed (StaticF 4) set_ (UAssignList vs) (length l) = true /\
    unord_call (StaticF 4) set_ c (UAssignList vs) x w = Ok (One RUnit) x' w' /\
    holds (is_flat (StaticF 4)) x' vs w' hf /\ ~ distinct c vs /\
    unord_call (StaticF 4) set_ c (UEraseKey k) x' w' = Ok (Num 1) x2 w2 /\
    unord_call (StaticF 4) set_ c (UContains k) x2 w2 = Ok (One (RBool true)) x3 w3.
Proof.
  pose (KD := calm_eset). pose (o := @UAssignList _ KD [3; 1; 3]%nat).
  pose (after := fun x w => match unord_call (KD := KD) (StaticF 4) set_ true o x w with
                            | Ok r x' w' =>
                                match two_calls (KD := KD) (StaticF 4) set_ true (@UEraseKey _ KD 3%nat)
                                        (@UContains _ KD 3%nat) x' w' with
                                | Some (r2, r3) => Some (r, r2, r3) | _ => None
                                end
                            | _ => None end).
  destruct (static_uafter_ok (KD := KD) 4 set_ true [2; 4]%nat [] after
      [2; 4]%nat (@One _ KD RUnit, @Num _ KD 1, @One _ KD (RBool true))) as (x & w & hf & Hx & Hl);
    [vm_compute; reflexivity|].
  unfold after in Hl. destruct (unord_call _ _ _ o x w) as [r x' w'| |] eqn:Hc; [|done..].
  destruct (two_calls _ _ _ _ _ x' w') as [[r2 r3]|] eqn:Hc2; [|done..]. injection Hl as -> -> ->.
  apply two_calls_ok in Hc2 as (x2 & w2 & x3 & w3 & H1 & H2).
  pose proof (unord_assign_list_raw (KD := KD) (StaticF 4) set_ true I [3; 1; 3]%nat x [2; 4]%nat w hf _ x' w'
    eq_refl eq_refl Hx Hc) as Hx'.
  exists calm, KD, true, [3; 1; 3]%nat, x, [2; 4]%nat, w, hf, x', w', 3%nat, x2, w2, x3, w3. split_and!; try done.
  - apply nat_same_ok.
  - by apply distinctb_ok.
  - by rewrite -distinctb_ok.
Qed.

(** Emplacing 1 into {1, 2}: the new element is constructed behind the others, then
    comparing throws.  The container is left with {1, 2, 1}.  Likewise in a small
    map. *)
Lemma eager_emplace_refuted :
  (exists (E : Env) (KD : Keyed) c o x l w hf e x' w' l',
    equality_ok c /\ distinct c l /\
    holds (is_flat (StaticF 4)) x l w hf /\ uallowed (StaticF 4) set_ o (length l) = true /\
    unord_call (StaticF 4) set_ c o x w = Exn e x' w' /\
    holds (is_flat (StaticF 4)) x' l' w' hf /\ ~ distinct c l') /\
  (exists (E : Env) (KD : Keyed) c o x l w hf e x' w' l',
    equality_ok c /\ distinct c l /\
    holds (is_flat (SmallF 4)) x l w hf /\ uallowed (SmallF 4) map_ o (length l) = true /\
    unord_call (SmallF 4) map_ c o x w = Exn e x' w' /\
    holds (is_flat (SmallF 4)) x' l' w' hf /\ ~ distinct c l').
Proof.
  split.
  - pose (KD := throwing_eset 6). pose (o := @UEmplace _ KD (@XVal (throws_at 6) 1%nat)).
    destruct (static_uafter_ok (KD := KD) 4 set_ true [1; 2]%nat [] (uleft_over (KD := KD) (StaticF 4) set_ true o)
      [1; 2]%nat (EUser, [1; 2; 1]%nat)) as (x & w & hf & Hx & Hl); [vm_compute; reflexivity|].
    destruct (uleft_over_ok (KD := KD) (StaticF 4) set_ true o x _ w hf EUser _ I Hx eq_refl Hl) as (x' & w' & Hc & Hx').
    exists (throws_at 6), KD, true, o, x, [1; 2]%nat, w, hf, EUser, x', w', [1; 2; 1]%nat. split_and!; try done.
    + apply nat_same_ok.
    + by apply distinctb_ok.
    + by rewrite -distinctb_ok.
  - pose (KD := throwing_emap 4). pose (o := @UEmplace _ KD (@XVal (throwing_pairs 4) (1, 8)%nat)).
    assert (HN : Z.of_nat 4 <= @max_size (throwing_pairs 4)) by (vm_compute; discriminate).
    destruct (small_uafter_ok (KD := KD) 4 map_ true HN [(1, 5); (2, 6)]%nat []
      (uleft_over (KD := KD) (SmallF 4) map_ true o)
      [(1, 5); (2, 6)]%nat (EUser, [(1, 5); (2, 6); (1, 8)]%nat)) as (x & w & hf & Hx & Hl); [vm_compute; reflexivity|].
    destruct (uleft_over_ok (KD := KD) (SmallF 4) map_ true o x _ w hf EUser _ HN Hx eq_refl Hl) as (x' & w' & Hc & Hx').
    exists (throwing_pairs 4), KD, true, o, x, [(1, 5); (2, 6)]%nat, w, hf, EUser, x', w', [(1, 5); (2, 6); (1, 8)]%nat.
    split_and!; try done.
    + apply nat_same_ok.
    + by apply distinctb_ok.
    + by rewrite -distinctb_ok.
Qed.

(** Commands of programs. *)
Definition static_udo `{KD : Keyed} {N kd} (i : nat) (o : uop) : cmd (static_unord N kd) :=
  Do (C := static_unord N kd) i (Own (W := static_unord_code N kd) o).
Definition small_udo `{KD : Keyed} {N kd} (i : nat) (o : uop) : cmd (small_unord N kd) :=
  Do (C := small_unord N kd) i (Own (W := small_unord_code N kd) o).
