(** * Cost of [swap] *)

From iris.proofmode Require Import tactics.
From Verif Require Export AssignMore.
From Coq Require Import Lia ZifyBool.
Open Scope Z_scope.

(** Element operations needed to swap [a] elements with [b] elements; [inA], [inB]: they are
    stored inside the objects.  Swapping two elements takes three operations. *)
Definition swap_steps (inA inB : bool) (a b : nat) : nat :=
  if inA && inB then (3 * Nat.min a b + (Nat.max a b - Nat.min a b))%nat
  else if inA then a else if inB then b else 0%nat.

Section swap.
  Context `{E : Env}.
  Lemma run_second {S1 S2 T} (m : M S2 T) (x : S1) (y : S2) w r xy w' : on2 m (x, y) w = Ok r xy w' ->
    exists y', xy = (x, y') /\ m y w = Ok r y' w'.
  Proof. unfold on2. cbn [fst snd]. destruct (m y w); try done. intros [= <- <- <-]. eauto. Qed.
  Lemma takes_iter_swap {St} p q : takes (iter_swap p q : M St unit) 3 3.
  Proof.
    intros s w r s' w' Hr. apply run_bind in Hr as (t & s1 & w1 & H1 & Hr). apply takes_make in H1.
    apply run_bind in Hr as ([] & s2 & w2 & H2 & Hr). apply takes_assign in H2. apply takes_assign in Hr. lia.
  Qed.
  Lemma takes_swap_ranges {St} n : forall p q, takes (swap_ranges p q n : M St unit) (3 * Z.of_nat n) (3 * Z.of_nat n).
  Proof.
    induction n as [|n IH]; intros p q s w r s' w' Hr; cbn [swap_ranges] in Hr.
    - injection Hr as _ _ <-. lia.
    - apply run_bind in Hr as ([] & s1 & w1 & H1 & Hr). apply takes_iter_swap in H1. apply IH in Hr. lia.
  Qed.
  Lemma vec_swap_cost x y w r xy w' : vec_run2 PSwap (x, y) w = Ok r xy w' -> w' = w.
  Proof.
    intros Hr. change (unit_result vec_swap (x, y) w = Ok r xy w') in Hr. apply run_unit in Hr as [Hr _]. revert Hr.
    unfold vec_swap, bind, getS, putS, assert_, ret. cbn. destruct (pocs || _), pocs; cbn; congruence.
  Qed.
  Lemma compact_swap_cost x y w r xy w' : compact_run2 code_undo PSwap (x, y) w = Ok r xy w' -> w' = w.
  Proof. exact (vec_swap_cost x y w r xy w'). Qed.
  Lemma dev_swap_cost x y w r xy w' : dv_run2 false PSwap (x, y) w = Ok r xy w' -> w' = w.
  Proof.
    intros Hr. change (unit_result dv_swap (x, y) w = Ok r xy w') in Hr. apply run_unit in Hr as [Hr _]. revert Hr.
    unfold dv_swap, bind, getS, putS, assert_, ret. cbn. destruct (pocs || _), pocs; cbn; congruence.
  Qed.
  Lemma internal_cost x y w xy w' a b :
    (v_last x).2 - (v_first x).2 = Z.of_nat a -> (v_last y).2 - (v_first y).2 = Z.of_nat b ->
    small_swap_internal (x, y) w = Ok tt xy w' -> tick w' = (tick w + swap_steps true true a b)%nat.
  Proof.
    intros Ha Hb Hr. unfold swap_steps. cbn [andb].
    apply run_bind in Hr as (n1 & s1 & w1 & H1 & Hr). apply run_on1 in H1 as (x1 & -> & H1). apply run_size in H1 as (-> & -> & ->).
    apply run_bind in Hr as (n2 & s1 & w1 & H1 & Hr). apply run_second in H1 as (y1 & -> & H1). apply run_size in H1 as (-> & -> & ->).
    apply run_bind in Hr as (oo & s1 & w1 & H1 & Hr). injection H1 as <- <- <-. cbn [fst snd] in Hr.
    apply run_bind in Hr as ([] & s1 & w1 & H1 & Hr). injection Hr as _ <-. rewrite Ha Hb in H1.
    destruct (Z.of_nat a <=? Z.of_nat b) eqn:Hc;
      apply run_bind in H1 as ([] & s2 & w2 & H2 & H1); apply takes_swap_ranges in H2;
      apply run_bind in H1 as (l & s3 & w3 & H3 & H1); apply takes_uninit_move in H3; apply takes_destroy in H1;
      cbn [snd loc_add] in H3; lia.
  Qed.
  Lemma static_swap_cost N x (A : tabs) y (B : tabs) w hf r xy w' : holds2 (is_static N) x A y B w hf ->
    static_run2 N PSwap (x, y) w = Ok r xy w' -> tick w' = (tick w + swap_steps true true (length A.2) (length B.2))%nat.
  Proof.
    intros (_ & m1 & m2 & [J1 J2 _ _ _] & [I1 I2 _ _ _] & _) Hr.
    change (unit_result (member2 (fun _ _ => static_swap)) (x, y) w = Ok r xy w') in Hr. apply run_unit in Hr as [Hr _].
    apply run_member2 in Hr as (oo & Hr). eapply internal_cost; [| |exact Hr]; [rewrite J2|rewrite I2]; cbn; lia.
  Qed.
  Lemma small_swap_cost N x (A : SmallSpec.sabs) y (B : SmallSpec.sabs) w hf r xy w' : holds2 (is_small N) x A y B w hf ->
    small_run2 N PSwap (x, y) w = Ok r xy w' ->
    tick w' = (tick w + swap_steps (loc_eqb (q_data A.2) A.1) (loc_eqb (q_data B.2) B.1) (length (q_elems A.2)) (length (q_elems B.2)))%nat.
  Proof.
    intros (_ & m1 & m2 & JI & HI & _) Hr.
    pose proof (is_buf _ _ _ _ JI) as J0. pose proof (is_first _ _ _ _ JI) as J2. pose proof (is_last _ _ _ _ JI) as J3.
    pose proof (is_buf _ _ _ _ HI) as I0. pose proof (is_first _ _ _ _ HI) as I2. pose proof (is_last _ _ _ _ HI) as I3.
    assert ((v_last x.2).2 - (v_first x.2).2 = Z.of_nat (length (q_elems A.2))) as Ha by (rewrite J3 J2; cbn; lia).
    assert ((v_last y.2).2 - (v_first y.2).2 = Z.of_nat (length (q_elems B.2))) as Hb by (rewrite I3 I2; cbn; lia).
    rewrite -J2 -J0 -I2 -I0.
    change (unit_result (member2 (small_swap N)) (x, y) w = Ok r xy w') in Hr. apply run_unit in Hr as [Hr _].
    apply run_member2 in Hr as (oxy & Hr).
    apply run_bind in Hr as (oo & s1 & w1 & H1 & Hr). injection H1 as <- <- <-. cbn [fst snd] in Hr.
    apply run_bind in Hr as ([] & s1 & w1 & H1 & Hr). unfold assert_ in H1. destruct (pocs || _); [|done]. injection H1 as <- <-.
    apply run_bind in Hr as ([] & s1 & w1 & H1 & Hr).
    assert (w1 = w /\ exists a b, s1 = (with_alloc a x.2, with_alloc b y.2)) as (-> & a & b & ->).
    { destruct pocs; injection H1 as <- <-; split; try done; [by do 2 eexists|]. exists (v_alloc x.2), (v_alloc y.2). by destruct x as [? []], y as [? []]. }
    apply run_bind in Hr as (oo & s1 & w1 & H2 & Hr). injection H2 as <- <- <-. cbn [fst snd v_first v_last v_eos with_alloc] in Hr.
    unfold swap_steps. destruct (loc_eqb (v_first x.2) x.1), (loc_eqb (v_first y.2) y.1); cbn [andb] in *.
    - eapply (internal_cost _ _ _ _ _ (length (q_elems A.2)) (length (q_elems B.2))) in Hr; [|done..]. exact Hr.
    - apply run_bind in Hr as (l & s3 & w3 & H3 & Hr). apply takes_uninit_move in H3.
      apply run_bind in Hr as ([] & s4 & w4 & H4 & Hr). apply takes_destroy in H4. injection Hr as _ <-. lia.
    - apply run_bind in Hr as (l & s3 & w3 & H3 & Hr). apply takes_uninit_move in H3.
      apply run_bind in Hr as ([] & s4 & w4 & H4 & Hr). apply takes_destroy in H4. injection Hr as _ <-. lia.
    - injection Hr as _ <-. lia.
  Qed.
End swap.
