(** * Concrete environments and states

    Used by the examples that show the hypotheses of the property theorems can
    be met: the state is reached by running commands, and what it looks like is
    computed. *)

From iris.proofmode Require Import tactics.
From Verif Require Export State.
Open Scope Z_scope.

(** Elements are natural numbers, a moved-from element is 0, a throwing
    assignment leaves 99; at most 100 elements per container. *)
Definition demo (th : opk -> nat -> bool) (nothrow copy propagate : bool) : Env := {|
  V := nat;
  vdef := 0%nat;
  vmoved := fun _ => 0%nat;
  junk1 := fun _ => 99%nat;
  junk2 := fun _ => 99%nat;
  throws := th;
  nothrow_move := nothrow;
  copyable := copy;
  max_size := 100;
  max_size_ok := ltac:(lia);
  pocca := propagate;
  pocma := propagate;
  pocs := propagate;
  soccc := fun a => a;
|}.

(** Nothing ever throws. *)
Definition calm : Env := demo (fun _ _ => false) true true false.
(** As before, and allocators propagate. *)
Definition calm_prop : Env := demo (fun _ _ => false) true true true.
(** Everything that may throw throws at time [t]; moving may throw too. *)
Definition throws_at (t : nat) : Env := demo (fun _ t' => Nat.eqb t t') false true false.

(** The empty world. *)
Definition w0 `{Env} : world := World ∅ 0 1 0.
Lemma w0_wf `{Env} : wf_world w0.
Proof. split; simpl; [lia|]. intros p [c Hc]. by rewrite lookup_empty in Hc. Qed.
Lemma w0_holds `{Env} : holds0 w0 ∅.
Proof. split; [apply w0_wf|done]. Qed.

(** How a run ended. *)
Definition returned `{Env} {St A} (r : res St A) : option A :=
  match r with Ok a _ _ => Some a | _ => None end.
Definition thrown `{Env} {St A} (r : res St A) : option exn :=
  match r with Exn e _ _ => Some e | _ => None end.
Lemma returned_ok `{Env} {St A} (r : res St A) a : returned r = Some a -> exists s w, r = Ok a s w.
Proof. destruct r; intros [= ->]. eauto. Qed.
Lemma thrown_exn `{Env} {St A} (r : res St A) e : thrown r = Some e -> exists s w, r = Exn e s w.
Proof. destruct r; intros [= ->]. eauto. Qed.

Section reach.
  Context `{E : Env} {C : container} {S : cspec C} (OK : container_ok S).
  Context (R : obj C -> abs S -> heapm -> Prop).
  Context (HR : forall x a h, R x a h <-> inv OK x a h).
  (** Reading the abstract value off memory. *)
  Context (view : obj C -> world -> option (abs S)).
  Context (Hview : forall x a m w, R x a m -> m ⊆ heap w -> view x w = Some a).

  (** Run commands from the empty world, look at object [i], then apply [f]. *)
  Definition look {T} (cs : list (cmd C)) (i : nat) (f : obj C -> world -> option T) : option (abs S * T) :=
    match exec_all C cs ∅ w0 with
    | Some (_, P, w) =>
        match P !! i with
        | Some x =>
            match view x w, f x w with
            | Some A, Some t => Some (A, t)
            | _, _ => None
            end
        | None => None
        end
    | None => None
    end.
  Lemma look_ok {T} cs i (f : _ -> _ -> option T) A t :
    look cs i f = Some (A, t) -> exists x w hf, holds R x A w hf /\ f x w = Some t.
  Proof.
    unfold look. intros Hl.
    destruct (history_ok OK cs ∅ ∅ w0 ∅ ∅) as (os & P & w & A' & h & He & _ & Hh & _ & Hwf & _ & Hinv);
      [apply pool_inv_empty|apply w0_wf|apply map_disjoint_empty_l|by rewrite left_id_L|].
    rewrite He in Hl. destruct (P !! i) as [x|] eqn:Hi; [|done].
    destruct (pool_both OK P A' i x h Hinv Hi) as [a Ha].
    rewrite (pool_at OK P A' i x a Hi Ha) in Hinv.
    destruct Hinv as (h1 & h2 & -> & Hd & Hx & _). apply HR in Hx.
    rewrite right_id_L in Hh.
    rewrite (Hview x a h1 w Hx) in Hl; [|rewrite Hh; apply map_union_subseteq_l].
    destruct (f x w) as [t'|] eqn:Hf; [|done]. injection Hl as -> ->.
    exists x, w, h2. split; [|done]. split; [done|]. exists h1. done.
  Qed.

  (** The same for two objects. *)
  Definition look2 {T} (cs : list (cmd C)) (i j : nat) (f : obj C -> obj C -> world -> option T)
      : option (abs S * abs S * T) :=
    match exec_all C cs ∅ w0 with
    | Some (_, P, w) =>
        match P !! i, P !! j with
        | Some x, Some y =>
            match view x w, view y w, f x y w with
            | Some A, Some B, Some t => Some (A, B, t)
            | _, _, _ => None
            end
        | _, _ => None
        end
    | None => None
    end.
  Lemma look2_ok {T} cs i j (f : _ -> _ -> _ -> option T) A B t :
    i <> j -> look2 cs i j f = Some (A, B, t) ->
    exists x y w hf, holds2 R x A y B w hf /\ f x y w = Some t.
  Proof.
    unfold look2. intros Hij Hl.
    destruct (history_ok OK cs ∅ ∅ w0 ∅ ∅) as (os & P & w & A' & h & He & _ & Hh & _ & Hwf & _ & Hinv);
      [apply pool_inv_empty|apply w0_wf|apply map_disjoint_empty_l|by rewrite left_id_L|].
    rewrite He in Hl. destruct (P !! i) as [x|] eqn:Hi; [|done]. destruct (P !! j) as [y|] eqn:Hj; [|done].
    destruct (pool_both OK P A' i x h Hinv Hi) as [a Ha].
    destruct (pool_both OK P A' j y h Hinv Hj) as [b Hb].
    rewrite (pool_at OK P A' i x a Hi Ha) in Hinv.
    rewrite (pool_at OK _ _ j y b) in Hinv; [|by rewrite lookup_delete_ne..].
    destruct Hinv as (h1 & h2 & -> & Hd & Hx & h3 & h4 & -> & Hd2 & Hy & _). apply HR in Hx, Hy.
    rewrite right_id_L in Hh. apply map_disjoint_union_r in Hd as [Hd1 Hd3].
    rewrite (Hview x a h1 w Hx) in Hl; [|rewrite Hh; apply map_union_subseteq_l].
    rewrite (Hview y b h3 w Hy) in Hl; last first.
    { rewrite Hh. etrans; [|apply map_union_subseteq_r; by apply map_disjoint_union_r].
      apply map_union_subseteq_l. }
    destruct (f x y w) as [t'|] eqn:Hf; [|done]. injection Hl as -> -> ->.
    exists x, y, w, h4. split; [|done]. split; [done|]. exists h1, h3. split_and!; try done.
    by rewrite Hh assoc_L.
  Qed.

  (** A call that returns / throws in the state reached by [cs]. *)
  Lemma case_ok (cs : list (cmd C)) i {T} (m : M (obj C) T) A r :
    look cs i (fun x w => returned (m x w)) = Some (A, r) ->
    exists x w hf x' w', holds R x A w hf /\ m x w = Ok r x' w'.
  Proof.
    intros Hl. apply look_ok in Hl as (x & w & hf & Hx & Hr).
    apply returned_ok in Hr as (x' & w' & Hr). by exists x, w, hf, x', w'.
  Qed.
  Lemma case_exn (cs : list (cmd C)) i {T} (m : M (obj C) T) A e :
    look cs i (fun x w => thrown (m x w)) = Some (A, e) ->
    exists x w hf x' w', holds R x A w hf /\ m x w = Exn e x' w'.
  Proof.
    intros Hl. apply look_ok in Hl as (x & w & hf & Hx & Hr).
    apply thrown_exn in Hr as (x' & w' & Hr). by exists x, w, hf, x', w'.
  Qed.
  Lemma case_at (cs : list (cmd C)) i A :
    look cs i (fun x w => Some tt) = Some (A, tt) -> exists x w hf, holds R x A w hf.
  Proof.
    intros Hl. apply look_ok in Hl as (x & w & hf & Hx & Hr). by exists x, w, hf.
  Qed.
  Lemma case2_ok (cs : list (cmd C)) i j {T} (m : M (obj C * obj C) T) A B r :
    i <> j ->
    look2 cs i j (fun x y w => returned (m (x, y) w)) = Some (A, B, r) ->
    exists x y w hf x' y' w', holds2 R x A y B w hf /\ m (x, y) w = Ok r (x', y') w'.
  Proof.
    intros Hij Hl. apply look2_ok in Hl as (x & y & w & hf & Hx & Hr); [|done].
    apply returned_ok in Hr as ([x' y'] & w' & Hr). by exists x, y, w, hf, x', y', w'.
  Qed.
  Lemma case2_exn (cs : list (cmd C)) i j {T} (m : M (obj C * obj C) T) A B e :
    i <> j ->
    look2 cs i j (fun x y w => thrown (m (x, y) w)) = Some (A, B, e) ->
    exists x y w hf x' y' w', holds2 R x A y B w hf /\ m (x, y) w = Exn e (x', y') w'.
  Proof.
    intros Hij Hl. apply look2_ok in Hl as (x & y & w & hf & Hx & Hr); [|done].
    apply thrown_exn in Hr as ([x' y'] & w' & Hr). by exists x, y, w, hf, x', y', w'.
  Qed.
End reach.

(** What the client sees of a history. *)
Definition outcomes `{Env} (C : container) (cs : list (cmd C)) : option (list (outcome (rv C))) :=
  match exec_all C cs ∅ w0 with Some (os, _, _) => Some os | None => None end.
Lemma outcomes_ok `{Env} (C : container) cs os : outcomes C cs = Some os ->
  exists P w', exec_all C cs ∅ w0 = Some (os, P, w').
Proof. unfold outcomes. destruct (exec_all C cs ∅ w0) as [[[os' P] w']|]; intros [= ->]. eauto. Qed.

(** The elements in [n] consecutive cells. *)
Fixpoint read_cells `{Env} (p : loc) (n : nat) (h : heapm) : option (list V) :=
  match n with
  | O => Some []
  | S n' =>
      match h !! p, read_cells (p +ₗ 1) n' h with
      | Some (Live v), Some l => Some (v :: l)
      | _, _ => None
      end
  end.
Lemma read_cells_ok `{Env} p l h :
  (forall i v, l !! i = Some v -> h !! (p +ₗ Z.of_nat i) = Some (Live v)) ->
  read_cells p (length l) h = Some l.
Proof.
  revert p. induction l as [|v l IH]; intros p Hl; simpl; [done|].
  pose proof (Hl 0%nat v eq_refl) as H0. unfold loc_add in H0 at 1. simpl in H0. rewrite Z.add_0_r in H0.
  destruct p as [b o]. simpl in H0. rewrite H0. rewrite IH; [done|].
  intros i v' Hv. rewrite -(Hl (S i) v' Hv). f_equal. unfold loc_add. simpl. f_equal. lia.
Qed.
