(** * Concrete sets and maps

    Used by the examples beside the properties of the flat containers. *)

From iris.proofmode Require Import tactics.
From Verif Require Export FlatState.
Open Scope Z_scope.

(** Sets of natural numbers, in ascending ([c = true]) or descending order. *)
Definition nat_less (c : bool) (x y : nat) : bool := if c then (x <? y)%nat else (y <? x)%nat.
Definition set_of (th : opk -> nat -> bool) (nothrow copy propagate : bool)
    : @Keyed (demo th nothrow copy propagate) := {|
  Key := nat;
  key := fun v : @V (demo th nothrow copy propagate) => v : nat;
  Cmp := bool;
  less := nat_less;
  Mapped := unit;
  mapped := fun _ => tt;
  entry := fun k _ => k : @V (demo th nothrow copy propagate);
  mdef := tt;
  mjunk := fun _ => tt;
  key_entry := fun k m => eq_refl;
  mapped_entry := fun k m => match m with tt => eq_refl end;
|}.
Definition calm_set : @Keyed calm := set_of _ _ _ _.
Definition throwing_set (t : nat) : @Keyed (throws_at t) := set_of _ _ _ _.

(** Pairs of natural numbers, ordered by the first one. *)
Definition pairs (th : opk -> nat -> bool) (nothrow copy propagate : bool) : Env := {|
  V := nat * nat;
  vdef := (0, 0)%nat;
  vmoved := fun v => v;
  junk1 := fun _ => (99, 99)%nat;
  junk2 := fun _ => (99, 99)%nat;
  throws := th;
  nothrow_move := nothrow;
  copyable := copy;
  max_size := 100;
  max_size_ok := ltac:(lia);
  pocca := propagate;
  pocma := propagate;
  pocs := propagate;
  soccc := fun a => a;
|}.
Definition map_of (th : opk -> nat -> bool) (nothrow copy propagate : bool)
    : @Keyed (pairs th nothrow copy propagate) := {|
  Key := nat;
  key := fun v : @V (pairs th nothrow copy propagate) => (v : nat * nat).1;
  Cmp := bool;
  less := nat_less;
  Mapped := nat;
  mapped := fun v : @V (pairs th nothrow copy propagate) => (v : nat * nat).2;
  entry := fun k m => (k, m) : @V (pairs th nothrow copy propagate);
  mdef := 0%nat;
  mjunk := fun _ => 99%nat;
  key_entry := fun k m => eq_refl;
  mapped_entry := fun k m => eq_refl;
|}.
Definition calm_pairs : Env := pairs (fun _ _ => false) true true false.
Definition calm_map : @Keyed calm_pairs := map_of _ _ _ _.
Definition throwing_pairs (t : nat) : Env := pairs (fun _ t' => Nat.eqb t t') false true false.
Definition throwing_map (t : nat) : @Keyed (throwing_pairs t) := map_of _ _ _ _.

Lemma nat_less_strict c : 
  (forall x, nat_less c x x = false) /\
  (forall x y z, nat_less c x y = true -> nat_less c y z = true -> nat_less c x z = true) /\
  (forall x y z, nat_less c x z = true -> nat_less c x y = true \/ nat_less c y z = true).
Proof.
  unfold nat_less. split_and!; destruct c; intros *; rewrite ?Nat.ltb_lt ?Nat.ltb_ge; lia.
Qed.
Lemma set_strict th a b p c : @strict_weak _ (set_of th a b p) (@less _ (set_of th a b p) c).
Proof. apply nat_less_strict. Qed.
Lemma map_strict th a b p c : @strict_weak _ (map_of th a b p) (@less _ (map_of th a b p) c).
Proof. apply nat_less_strict. Qed.

(** Deciding whether a list is in order. *)
Section orderb.
  Context `{KD : Keyed}.
  Variable kd : fkind.
  Variable c : Cmp.
  Definition in_orderb (x y : Key) : bool := if multi kd then negb (less c y x) else less c x y.
  Fixpoint orderedb (l : list V) : bool :=
    match l with
    | [] => true
    | x :: l' => forallb (fun y => in_orderb (key x) (key y)) l' && orderedb l'
    end.
  Lemma in_orderb_ok x y : in_orderb x y = true <-> in_order kd c x y.
  Proof. unfold in_orderb, in_order. destruct (multi kd); [|done]. by rewrite negb_true_iff. Qed.
  Lemma orderedb_ok l : orderedb l = true <-> ordered kd c l.
  Proof.
    induction l as [|x l IH]; cbn.
    - split; [|done]. intros _ i j x y _ Hx. by rewrite lookup_nil in Hx.
    - rewrite andb_true_iff IH forallb_forall. split.
      + intros [H1 H2] i j y z Hij Hy Hz. destruct j as [|j]; [lia|]. cbn in Hz. destruct i as [|i]; cbn in Hy.
        * simplify_eq. apply in_orderb_ok, H1. apply elem_of_list_In. by eapply elem_of_list_lookup_2.
        * eapply (H2 i j); [lia|done|done].
      + intros Ho. split.
        * intros y Hy. apply elem_of_list_In, elem_of_list_lookup in Hy as [i Hi].
          apply in_orderb_ok. by eapply (Ho 0%nat (S i)); [lia|..].
        * intros i j y z Hij Hy Hz. by eapply (Ho (S i) (S j)); [lia|..].
  Qed.
End orderb.

(** A container made from a range, after some calls. *)
Section demos.
  Context `{KD : Keyed}.
  Variable N : nat.
  Variable kd : fkind.
  Variable c : Cmp.
  Definition static_cmds (vs : list V) (os : list fop) : list (cmd (static_flat N kd)) :=
    New (C := static_flat N kd) 0 (NewRange c 0 vs) ::
    map (fun o => Do (C := static_flat N kd) 0 (Own o)) os.
  Definition small_cmds (vs : list V) (os : list fop) : list (cmd (small_flat N kd)) :=
    New (C := small_flat N kd) 0 (NewRange c 0 vs) ::
    map (fun o => Do (C := small_flat N kd) 0 (Own o)) os.

  (** The elements and what [f] makes of the state. *)
  Definition static_after {T} vs os (f : sobj -> world -> option T) : option (list V * T) :=
    match look (S := static_flat_spec N kd) (static_flat_view N kd) (static_cmds vs os) 0
            (fun x w => f x.2 w) with
    | Some ((_, (_, l)), t) => Some (l, t)
    | None => None
    end.
  Definition small_after {T} vs os (f : sobj -> world -> option T) : option (list V * T) :=
    match look (S := small_flat_spec N kd) (small_flat_view N kd) (small_cmds vs os) 0
            (fun x w => f x.2 w) with
    | Some ((_, (_, q)), t) => Some (q_elems q, t)
    | None => None
    end.
  Lemma static_after_ok {T} vs os (f : _ -> _ -> option T) l t :
    static_after vs os f = Some (l, t) ->
    exists x w hf, holds (is_flat (StaticF N)) x l w hf /\ f x w = Some t.
  Proof.
    unfold static_after. destruct (look _ _ _ _) as [[[c' [ib l']] t']|] eqn:Hl; [|done]. intros [= -> ->].
    apply (look_ok (static_flat_ok N kd) (with_cmp (is_static N)) (static_flat_iff N kd)
             (static_flat_view N kd) (static_flat_view_ok N kd)) in Hl as (x & w & hf & (Hwf & m & [_ Hm] & Hx) & Hret).
    exists x.2, w, hf. split; [|done]. split; [done|]. exists m. split; [|done]. by exists ib.
  Qed.
  Lemma small_after_ok (HN : Z.of_nat N <= max_size) {T} vs os (f : _ -> _ -> option T) l t :
    small_after vs os f = Some (l, t) ->
    exists x w hf, holds (is_flat (SmallF N)) x l w hf /\ f x w = Some t.
  Proof.
    unfold small_after. destruct (look _ _ _ _) as [[[c' [ib [a d l' cap]]] t']|] eqn:Hl; [|done]. intros [= -> ->].
    apply (look_ok (small_flat_ok N kd HN) (with_cmp (is_small N)) (small_flat_iff N kd HN)
             (small_flat_view N kd) (small_flat_view_ok N kd)) in Hl as (x & w & hf & (Hwf & m & [_ Hm] & Hx) & Hret).
    exists x.2, w, hf. split; [|done]. split; [done|]. exists m. split; [|done]. by exists ib, a, d, cap.
  Qed.

  Lemma static_demo vs os o l r :
    static_after vs os (fun x w => returned (flat_call (StaticF N) kd c o x w)) = Some (l, r) ->
    exists x w hf x' w', holds (is_flat (StaticF N)) x l w hf /\ flat_call (StaticF N) kd c o x w = Ok r x' w'.
  Proof.
    intros Ha. apply static_after_ok in Ha as (x & w & hf & Hx & Hr). apply returned_ok in Hr as (x' & w' & Hr).
    by exists x, w, hf, x', w'.
  Qed.
  Lemma static_demo_exn vs os o l e :
    static_after vs os (fun x w => thrown (flat_call (StaticF N) kd c o x w)) = Some (l, e) ->
    exists x w hf x' w', holds (is_flat (StaticF N)) x l w hf /\ flat_call (StaticF N) kd c o x w = Exn e x' w'.
  Proof.
    intros Ha. apply static_after_ok in Ha as (x & w & hf & Hx & Hr). apply thrown_exn in Hr as (x' & w' & Hr).
    by exists x, w, hf, x', w'.
  Qed.
  Lemma small_demo (HN : Z.of_nat N <= max_size) vs os o l r :
    small_after vs os (fun x w => returned (flat_call (SmallF N) kd c o x w)) = Some (l, r) ->
    exists x w hf x' w', holds (is_flat (SmallF N)) x l w hf /\ flat_call (SmallF N) kd c o x w = Ok r x' w'.
  Proof.
    intros Ha. apply (small_after_ok HN) in Ha as (x & w & hf & Hx & Hr). apply returned_ok in Hr as (x' & w' & Hr).
    by exists x, w, hf, x', w'.
  Qed.
  Lemma small_demo_exn (HN : Z.of_nat N <= max_size) vs os o l e :
    small_after vs os (fun x w => thrown (flat_call (SmallF N) kd c o x w)) = Some (l, e) ->
    exists x w hf x' w', holds (is_flat (SmallF N)) x l w hf /\ flat_call (SmallF N) kd c o x w = Exn e x' w'.
  Proof.
    intros Ha. apply (small_after_ok HN) in Ha as (x & w & hf & Hx & Hr). apply thrown_exn in Hr as (x' & w' & Hr).
    by exists x, w, hf, x', w'.
  Qed.
End demos.

(** The four kinds. *)
Definition set_ : fkind := FKind false false.
Definition map_ : fkind := FKind false true.
Definition multiset_ : fkind := FKind true false.
Definition multimap_ : fkind := FKind true true.

(** Strings, as far as it matters: moving cannot throw and leaves 0; copying
    throws at time [t] and leaves the target as it was after moving from it. *)
Definition strings (t : nat) : Env := {|
  V := nat;
  vdef := 0%nat;
  vmoved := fun _ => 0%nat;
  junk1 := fun _ => 0%nat;
  junk2 := fun _ => 0%nat;
  throws := fun k t' => match k with KCopyAssign => Nat.eqb t t' | _ => false end;
  nothrow_move := true;
  copyable := true;
  max_size := 100;
  max_size_ok := ltac:(lia);
  pocca := false;
  pocma := false;
  pocs := false;
  soccc := fun a => a;
|}.
Definition string_set (t : nat) : @Keyed (strings t) := {|
  Key := nat;
  key := fun v : @V (strings t) => v : nat;
  Cmp := bool;
  less := nat_less;
  Mapped := unit;
  mapped := fun _ => tt;
  entry := fun k _ => k : @V (strings t);
  mdef := tt;
  mjunk := fun _ => tt;
  key_entry := fun k m => eq_refl;
  mapped_entry := fun k m => match m with tt => eq_refl end;
|}.

(** Reading the elements. *)
Definition flat_view `{KD : Keyed} (fl : flavour) (x : sobj) (w : world) : option (list V) :=
  match fl with
  | StaticF _ => match static_view x w with Some A => Some A.2 | None => None end
  | SmallF _ => match small_view x w with Some A => Some (q_elems A.2) | None => None end
  end.
Lemma flat_view_ok `{KD : Keyed} fl x l w hf : holds (is_flat fl) x l w hf -> flat_view fl x w = Some l.
Proof.
  intros (Hwf & m & Hm & Hd & Hh).
  assert (m ⊆ heap w) as Hs by (rewrite Hh; apply map_union_subseteq_l).
  unfold is_flat, flat_view in *. destruct fl as [N|N].
  - destruct Hm as [ib Hm]. by rewrite (static_view_ok N _ _ m w Hm Hs).
  - destruct Hm as (ib & a & d & cap & Hm). by rewrite (small_view_ok N _ _ m w Hm Hs).
Qed.
(** How a call ends that throws, and what is left. *)
Definition left_over `{KD : Keyed} fl kd c o (x : sobj) (w : world) : option (exn * list V) :=
  match flat_call fl kd c o x w with
  | Exn e x' w' => match flat_view fl x' w' with Some l => Some (e, l) | None => None end
  | _ => None
  end.
Lemma left_over_ok `{KD : Keyed} fl kd c o x l w hf e l' :
  sane fl -> holds (is_flat fl) x l w hf -> allowed_call fl kd o l = true ->
  left_over fl kd c o x w = Some (e, l') ->
  exists x' w', flat_call fl kd c o x w = Exn e x' w' /\ holds (is_flat fl) x' l' w' hf.
Proof.
  intros HN Hx Hp Hl. unfold left_over in Hl.
  destruct (flat_call fl kd c o x w) as [|e' x' w'|] eqn:Hc; try done.
  destruct (flat_throws fl kd c HN o x l w hf e' x' w' Hx Hp Hc) as (l2 & H1 & _).
  rewrite (flat_view_ok _ _ _ _ _ H1) in Hl. injection Hl as -> ->. by exists x', w'.
Qed.

(** Inserting 3 into {2, 4, 6}: the elements behind are moved, then copying 3
    throws.  The container is left with {2, 0, 4, 6}. *)
Lemma flat_unsorted_refuted :
  (exists (E : Env) (KD : Keyed) c o x l w hf e x' w' l',
    nothrow_move = true /\ strict_weak (less c) /\ ordered set_ c l /\
    holds (is_flat (StaticF 4)) x l w hf /\ allowed_call (StaticF 4) set_ o l = true /\
    flat_call (StaticF 4) set_ c o x w = Exn e x' w' /\
    holds (is_flat (StaticF 4)) x' l' w' hf /\ ~ ordered set_ c l') /\
  (exists (E : Env) (KD : Keyed) c o x l w hf e x' w' l',
    nothrow_move = true /\ strict_weak (less c) /\ ordered set_ c l /\
    holds (is_flat (SmallF 4)) x l w hf /\ allowed_call (SmallF 4) set_ o l = true /\
    flat_call (SmallF 4) set_ c o x w = Exn e x' w' /\
    holds (is_flat (SmallF 4)) x' l' w' hf /\ ~ ordered set_ c l').
Proof.
  split.
  - pose (KD := string_set 13). pose (o := @FInsert _ KD (@XVal (strings 13) 3%nat)).
    destruct (static_after_ok (KD := KD) 4 set_ true [2; 4; 6]%nat [] (left_over (KD := KD) (StaticF 4) set_ true o)
      [2; 4; 6]%nat (EUser, [2; 0; 4; 6]%nat)) as (x & w & hf & Hx & Hl); [vm_compute; reflexivity|].
    destruct (left_over_ok (KD := KD) (StaticF 4) set_ true o x _ w hf EUser _ I Hx eq_refl Hl) as (x' & w' & Hc & Hx').
    exists (strings 13), KD, true, o, x, [2; 4; 6]%nat, w, hf, EUser, x', w', [2; 0; 4; 6]%nat. split_and!; try done.
    + apply nat_less_strict.
    + by apply orderedb_ok.
    + by rewrite -orderedb_ok.
  - pose (KD := string_set 10). pose (o := @FInsert _ KD (@XVal (strings 10) 3%nat)).
    assert (HN : Z.of_nat 4 <= @max_size (strings 10)) by (vm_compute; discriminate).
    destruct (small_after_ok (KD := KD) 4 set_ true HN [2; 4; 6]%nat [] (left_over (KD := KD) (SmallF 4) set_ true o)
      [2; 4; 6]%nat (EUser, [2; 0; 4; 6]%nat)) as (x & w & hf & Hx & Hl); [vm_compute; reflexivity|].
    destruct (left_over_ok (KD := KD) (SmallF 4) set_ true o x _ w hf EUser _ HN Hx eq_refl Hl) as (x' & w' & Hc & Hx').
    exists (strings 10), KD, true, o, x, [2; 4; 6]%nat, w, hf, EUser, x', w', [2; 0; 4; 6]%nat. split_and!; try done.
    + apply nat_less_strict.
    + by apply orderedb_ok.
    + by rewrite -orderedb_ok.
Qed.

(** Assigning {3, 1, 3} to a static set copies the list as it is. *)
Lemma static_list_refuted :
  exists (E : Env) (KD : Keyed) c vs x l w hf r x' w',
    strict_weak (less c) /\ ordered set_ c l /\
    holds (is_flat (StaticF 4)) x l w hf /\ allowed_call (StaticF 4) set_ (FAssignList vs) l = true /\
    flat_call (StaticF 4) set_ c (FAssignList vs) x w = Ok r x' w' /\
    holds (is_flat (StaticF 4)) x' vs w' hf /\ ~ ordered set_ c vs /\
    exists k r2 x2 w2, k ∈ (key <$> vs) /\
      flat_call (StaticF 4) set_ c (FContains k) x' w' = Ok r2 x2 w2 /\ r2 = One (RBool false).
Proof.
  pose (KD := calm_set). pose (o := @FAssignList _ KD [3; 1; 3]%nat).
  pose (after := fun x w => match flat_call (KD := KD) (StaticF 4) set_ true o x w with
                            | Ok r x' w' =>
                                match flat_call (KD := KD) (StaticF 4) set_ true (@FContains _ KD 1%nat) x' w' with
                                | Ok r2 _ _ => Some (r, r2) | _ => None
                                end
                            | _ => None end).
  destruct (static_after_ok (KD := KD) 4 set_ true [2; 4]%nat [] after
      [2; 4]%nat (@One _ KD RUnit, @One _ KD (RBool false))) as (x & w & hf & Hx & Hl); [vm_compute; reflexivity|].
  unfold after in Hl. destruct (flat_call _ _ _ o x w) as [r x' w'| |] eqn:Hc; [|done..].
  destruct (flat_call _ _ _ _ x' w') as [r2 x2 w2| |] eqn:Hc2; [|done..]. injection Hl as -> ->.
  pose proof (flat_assign_list_raw (KD := KD) (StaticF 4) set_ true I [3; 1; 3]%nat x [2; 4]%nat w hf _ x' w'
    eq_refl eq_refl Hx Hc) as Hx'.
  exists calm, KD, true, [3; 1; 3]%nat, x, [2; 4]%nat, w, hf, (@One _ KD RUnit), x', w'. split_and!; try done.
  - apply nat_less_strict.
  - by apply orderedb_ok.
  - by rewrite -orderedb_ok.
  - exists 1%nat, (@One _ KD (RBool false)), x2, w2. split; [|done]. cbn. right. left.
Qed.

(** Commands of programs. *)
Definition static_do `{KD : Keyed} {N kd} (i : nat) (o : fop) : cmd (static_flat N kd) :=
  Do (C := static_flat N kd) i (Own (W := static_flat_code N kd) o).
Definition small_do `{KD : Keyed} {N kd} (i : nat) (o : fop) : cmd (small_flat N kd) :=
  Do (C := small_flat N kd) i (Own (W := small_flat_code N kd) o).

(** Commands that are neither skipped nor throw. *)
Definition went_well {T} (o : outcome T) : bool :=
  match o with Skipped | Threw _ => false | _ => true end.
Definition user_threw {T} (o : outcome T) : bool :=
  match o with Threw EUser => true | _ => false end.
Lemma outcomes_case `{Env} (C : container) cs (f : list (outcome (rv C)) -> bool) :
  match outcomes C cs with Some os => f os | None => false end = true ->
  exists os P w', exec_all C cs ∅ w0 = Some (os, P, w') /\ f os = true.
Proof.
  intros Hf. destruct (outcomes C cs) as [os|] eqn:Ho; [|done].
  apply outcomes_ok in Ho as (P & w' & Ho). by exists os, P, w'.
Qed.
