(** * Running a program in a given state *)

From iris.proofmode Require Import tactics.
From Verif Require Export Demo.
Open Scope Z_scope.

Section run.
  Context `{E : Env} {O A T : Type} (R : O -> A -> heapm -> Prop) (inv : O -> A -> hProp).
  Context (HR : forall x a h, R x a h <-> inv x a h).

  Lemma state_run (m : M O T) x a w hf (φ : T -> A -> Prop) (ψ : exn -> A -> Prop) :
    holds R x a w hf ->
    (inv x a ⊢ wp m x (fun r x' => ∃ a', ⟦φ r a'⟧ ∗ inv x' a') (fun e x' => ∃ a', ⟦ψ e a'⟧ ∗ inv x' a')) ->
    match m x w with
    | Ok r x' w' => exists a', φ r a' /\ holds R x' a' w' hf /\ quiet w w'
    | Exn e x' w' => exists a', ψ e a' /\ holds R x' a' w' hf /\ reason e w w'
    | UB => False
    end.
  Proof.
    intros (Hwf & h & Hm & Hd & Hh) Hwp. apply HR in Hm.
    pose proof (wp_run _ _ _ _ h hf w (wp_entails _ _ _ _ _ h Hwp Hm) Hwf Hd Hh) as Hrun.
    destruct (m x w) as [r x' w'|e x' w'|]; [| |done];
      destruct Hrun as (h' & Hh' & Hd' & Haf & HQ); apply pure_ex in HQ as (a' & Ha & HQ);
      exists a'; split; try done; (split; [split; [apply Haf|exists h'; by rewrite HR]|apply Haf]).
  Qed.
End run.

(** A call with undefined behaviour in the state reached by [cs]. *)
Lemma case_ub `{E : Env} {C : container} {S : cspec C} (OK : container_ok S) (R : obj C -> abs S -> heapm -> Prop)
    (HR : forall x a h, R x a h <-> inv OK x a h) (view : obj C -> world -> option (abs S))
    (Hview : forall x a m w, R x a m -> m ⊆ heap w -> view x w = Some a) (cs : list (cmd C)) i {T} (m : M (obj C) T) A :
  look view cs i (fun x w => match m x w with UB => Some tt | _ => None end) = Some (A, tt) ->
  exists x w hf, holds R x A w hf /\ m x w = UB.
Proof.
  intros Hl. eapply look_ok in Hl as (x & w & hf & Hx & Hr); [|done..].
  exists x, w, hf. split; [done|]. by destruct (m x w).
Qed.

