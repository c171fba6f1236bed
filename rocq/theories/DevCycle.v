(** * Pushing and popping at both ends of sfl::devector

    A sequence of eight calls that push and pop at the ends, after which the
    container looks as before, and during which every element is moved twice. *)

From iris.proofmode Require Import tactics.
From Verif Require Export DevCost.
From Coq Require Import ZifyBool.
Open Scope Z_scope.

Section cycle.
  Context `{E : Env}.

  Definition dev_cycle (v : V) : list dop :=
    [DEmplaceBack (XVal v); DEmplaceBack (XVal v); DEmplaceFront (XVal v); DPopBack; DPopBack;
     DEmplaceFront (XVal v); DPopFront; DPopFront].
  Fixpoint dev_run (os : list dop) : M ddata unit :=
    match os with
    | [] => ret tt
    | o :: os' => (dev_call o;; dev_run os')%prog
    end.
  Fixpoint dev_cycles (v : V) (k : nat) : list dop :=
    match k with O => [] | S k' => dev_cycle v ++ dev_cycles v k' end.

  (** What a push or a pop does to the geometry, and what it costs at least. *)
  Definition end_op (o : dop) : Prop :=
    match o with
    | DEmplaceFront (XVal _) | DEmplaceBack (XVal _) | DPopFront | DPopBack => True
    | _ => False
    end.
  Definition end_geom (o : dop) (g : geom) : geom :=
    match o with
    | DEmplaceFront _ => (make_room true 1 g).2
    | DEmplaceBack _ => (make_room false 1 g).2
    | DPopFront => Geom (g_front g + 1) (g_size g - 1) (g_cap g)
    | DPopBack => Geom (g_front g) (g_size g - 1) (g_cap g)
    | _ => g
    end.
  Definition end_cost (o : dop) (g : geom) : Z :=
    match o with
    | DEmplaceFront _ => if 0 <? g_front g then 1 else g_size g + 2
    | DEmplaceBack _ => if 0 <? g_back g then 1 else g_size g + 2
    | _ => 0
    end.
  Definition end_pre (o : dop) (g : geom) : Prop :=
    match o with
    | DPopFront | DPopBack => 0 < g_size g
    | DEmplaceFront _ => g_cap (make_room true 1 g).2 <= max_size
    | DEmplaceBack _ => g_cap (make_room false 1 g).2 <= max_size
    | _ => True
    end.
  Fixpoint run_geom (os : list dop) (g : geom) : geom :=
    match os with [] => g | o :: os' => run_geom os' (end_geom o g) end.
  Fixpoint run_cost (os : list dop) (g : geom) : Z :=
    match os with [] => 0 | o :: os' => end_cost o g + run_cost os' (end_geom o g) end.
  Fixpoint run_pre (os : list dop) (g : geom) : Prop :=
    match os with [] => True | o :: os' => end_op o /\ end_pre o g /\ run_pre os' (end_geom o g) end.

  Lemma end_cases o :
    end_op o -> (exists v, o = DEmplaceFront (XVal v)) \/ (exists v, o = DEmplaceBack (XVal v)) \/ o = DPopFront \/ o = DPopBack.
  Proof. destruct o as [|y|y| | | | | | | | | | | | | | | | | | | | | | | | | | | |]; try done; try destruct y; naive_solver. Qed.
  Lemma end_doc o (A : dabs) : end_op o -> end_pre o (geom_of A) -> dev_doc o (geom_of A) = true.
  Proof. intros Ho. apply end_cases in Ho as [[v ->]|[[v ->]|[-> | ->]]]; simpl; lia. Qed.

  Lemma takes_pop_front : takes dv_pop_front 0 0.
  Proof.
    apply takes_bind0; [apply takes_get|]. intros o. apply takes_bind0; [apply takes_assert; lia|]. intros _.
    apply takes_bind0; [apply takes_bounded, bounded_destroy_at|intros; apply takes_mod].
  Qed.
  Lemma takes_pop_back : takes dv_pop_back 0 0.
  Proof.
    apply takes_bind0; [apply takes_get|]. intros o. apply takes_bind0; [apply takes_assert; lia|]. intros _.
    apply takes_bind0; [apply takes_mod|intros; apply takes_bounded, bounded_destroy_at].
  Qed.

  Lemma end_step o x (A : dabs) w hf r x' w' :
    holds is_dev x A w hf -> end_op o -> end_pre o (geom_of A) -> dev_call o x w = Ok r x' w' ->
    exists A' : dabs, holds is_dev x' A' w' hf /\ geom_of A' = end_geom o (geom_of A) /\
      Z.of_nat (tick w) + end_cost o (geom_of A) <= Z.of_nat (tick w').
  Proof.
    intros Hx Ho Hp Hr. pose proof (end_doc o A Ho Hp) as Hd.
    destruct (dev_returns o x A w hf r x' w' Hx Hd Hr) as (A' & Hx' & _ & Hpost & Hs & _).
    apply end_cases in Ho as [[v ->]|[[v ->]|[-> | ->]]].
    - pose proof (dev_push_cost true _ _ _ _ _ _ _ _ Hx Hr) as Hc.
      destruct (dev_push_state true v x A w hf r x' w' Hx Hr) as (A1 & Hx1 & _ & Hg).
      exists A1. split_and!; [done..|]. cbn [end_cost]. cbv zeta in Hc. destruct (0 <? _); cbn in *; lia.
    - pose proof (dev_push_cost false _ _ _ _ _ _ _ _ Hx Hr) as Hc.
      destruct (dev_push_state false v x A w hf r x' w' Hx Hr) as (A1 & Hx1 & _ & Hg).
      exists A1. split_and!; [done..|]. cbn [end_cost]. cbv zeta in Hc. destruct (0 <? _); cbn in *; lia.
    - exists A'. split; [done|]. destruct Hpost as (_ & u & Hu). destruct Hs as (_ & Hs1 & Hs2).
      unfold geom_of, end_geom. cbn [g_front g_size g_cap]. rewrite Hs1 Hs2 Hu. cbn [app length]. split.
      { f_equal. lia. }
      unfold dev_call, run_dop, d_unit, bind, getS in Hr.
      destruct (dv_pop_front x w) as [u1 x1 w1| |] eqn:H1; try done. injection Hr as <- <- <-.
      pose proof (takes_pop_front _ _ _ _ _ H1). cbn. lia.
    - exists A'. split; [done|]. destruct Hpost as (_ & u & Hu). destruct Hs as (_ & Hs1 & Hs2).
      unfold geom_of, end_geom. cbn [g_front g_size g_cap]. rewrite Hs1 Hs2 Hu app_length. cbn [length]. split.
      { f_equal. lia. }
      unfold dev_call, run_dop, d_unit, bind, getS in Hr.
      destruct (dv_pop_back x w) as [u1 x1 w1| |] eqn:H1; try done. injection Hr as <- <- <-.
      pose proof (takes_pop_back _ _ _ _ _ H1). cbn. lia.
  Qed.
  Lemma end_run os x (A : dabs) w hf x' w' :
    holds is_dev x A w hf -> run_pre os (geom_of A) -> dev_run os x w = Ok tt x' w' ->
    exists A' : dabs, holds is_dev x' A' w' hf /\ geom_of A' = run_geom os (geom_of A) /\
      Z.of_nat (tick w) + run_cost os (geom_of A) <= Z.of_nat (tick w').
  Proof.
    revert x A w. induction os as [|o os IH]; intros x A w Hx Hp Hr; simpl in Hr.
    { injection Hr as -> ->. exists A. split; [done|]. split; [done|]. simpl. lia. }
    destruct Hp as (Ho & Hp1 & Hp2). unfold bind in Hr.
    destruct (dev_call o x w) as [r x1 w1| |] eqn:Hr1; try done.
    destruct (end_step o x A w hf r x1 w1 Hx Ho Hp1 Hr1) as (A1 & Hx1 & Hg1 & Ht1).
    rewrite -Hg1 in Hp2. destruct (IH x1 A1 w1 Hx1 Hp2 Hr) as (A' & Hx' & Hg' & Ht').
    exists A'. split; [done|]. rewrite Hg' Hg1. split; [done|]. simpl. rewrite -Hg1. lia.
  Qed.
  (** If nothing throws, the calls return. *)
  Lemma end_returns os x (A : dabs) w hf :
    (forall k t, may_throw k t = false) ->
    holds is_dev x A w hf -> run_pre os (geom_of A) -> exists x' w', dev_run os x w = Ok tt x' w'.
  Proof.
    intros Hq. revert x A w. induction os as [|o os IH]; intros x A w Hx Hp; simpl; [by do 2 eexists|].
    destruct Hp as (Ho & Hp1 & Hp2).
    assert (exists r x1 w1, dev_call o x w = Ok r x1 w1) as (r & x1 & w1 & Hr1).
    { pose proof (dev_calm o x A w hf Hq Hx (end_doc o A Ho Hp1)) as Hc.
      specialize (Hc ltac:(by intros ->) ltac:(by destruct o)).
      destruct (dev_call o x w) as [r x1 w1|e x1 w1|]; [by do 3 eexists| |done]. exfalso.
      destruct Hc as ([He|[_ [i Hi]]] & A1 & _ & _ & _ & Hx1); [|by rewrite Hi in Ho]. subst e.
      apply end_cases in Ho as [[v ->]|[[v ->]|[-> | ->]]]; simpl in *; naive_solver lia. }
    destruct (end_step o x A w hf r x1 w1 Hx Ho Hp1 Hr1) as (A1 & Hx1 & Hg1 & _).
    rewrite -Hg1 in Hp2. destruct (IH x1 A1 w1 Hx1 Hp2) as (x' & w' & Hr).
    exists x', w'. unfold bind. by rewrite Hr1.
  Qed.

  Definition ready (m : Z) : geom := Geom (m + 1) (2 * m) (3 * m + 2).
  Lemma cycle_geom v m :
    1 <= m -> 3 * m + 2 <= max_size ->
    run_pre (dev_cycle v) (ready m) /\ run_geom (dev_cycle v) (ready m) = ready m /\
    run_cost (dev_cycle v) (ready m) = 4 * m + 8.
  Proof.
    intros Hm Hmax.
    assert (2 * (m * 2 / 2) = 2 * m) as Hd. { rewrite Z.div_mul; lia. }
    set (g0 := ready m).
    assert (end_geom (DEmplaceBack (XVal v)) g0 = Geom (m + 1) (2 * m + 1) (3 * m + 2)) as E1.
    { unfold end_geom, make_room, g_back, g0, ready. cbn [g_front g_size g_cap].
      replace (1 <=? _) with true by lia. done. }
    assert ((2 * m + 1) / 2 = m) as Hdiv.
    { replace (2 * m + 1) with (1 + m * 2) by lia. rewrite Z.div_add; [|lia]. reflexivity. }
    set (g1 := Geom (m + 1) (2 * m + 1) (3 * m + 2)) in *.
    assert (end_geom (DEmplaceBack (XVal v)) g1 = Geom 1 (2 * m + 2) (3 * m + 2)) as E2.
    { unfold end_geom, make_room, extra_back, g_back, g1. cbn [g_front g_size g_cap].
      replace (3 * m + 2 - (m + 1) - (2 * m + 1)) with 0 by lia. cbn [Z.leb Z.compare].
      replace (2 * m + 1 + 0) with (2 * m + 1) by lia. rewrite Hdiv.
      replace (Z.max (1 - 0) m) with m by lia. replace (m <? m + 1) with true by lia. cbn [snd]. f_equal; lia. }
    set (g2 := Geom 1 (2 * m + 2) (3 * m + 2)) in *.
    assert (end_geom (DEmplaceFront (XVal v)) g2 = Geom 0 (2 * m + 3) (3 * m + 2)) as E3.
    { unfold end_geom, make_room, g2. cbn [g_front g_size g_cap Z.leb Z.compare Pos.compare Pos.compare_cont snd]. f_equal; lia. }
    set (g3 := Geom 0 (2 * m + 3) (3 * m + 2)) in *.
    assert (end_geom DPopBack g3 = Geom 0 (2 * m + 2) (3 * m + 2)) as E4.
    { unfold end_geom, g3. cbn [g_front g_size g_cap]. f_equal; lia. }
    set (g4 := Geom 0 (2 * m + 2) (3 * m + 2)) in *.
    assert (end_geom DPopBack g4 = Geom 0 (2 * m + 1) (3 * m + 2)) as E5.
    { unfold end_geom, g4. cbn [g_front g_size g_cap]. f_equal; lia. }
    set (g5 := Geom 0 (2 * m + 1) (3 * m + 2)) in *.
    assert (end_geom (DEmplaceFront (XVal v)) g5 = Geom (m - 1) (2 * m + 2) (3 * m + 2)) as E6.
    { unfold end_geom, make_room, extra_front, g_back, g5. cbn [g_front g_size g_cap]. cbn [Z.leb Z.compare].
      replace (0 + (2 * m + 1)) with (2 * m + 1) by lia. rewrite Hdiv.
      replace (Z.max (1 - 0) m) with m by lia. replace (m <? _) with true by lia. cbn [snd]. f_equal; lia. }
    set (g6 := Geom (m - 1) (2 * m + 2) (3 * m + 2)) in *.
    assert (end_geom DPopFront g6 = Geom m (2 * m + 1) (3 * m + 2)) as E7.
    { unfold end_geom, g6. cbn [g_front g_size g_cap]. f_equal; lia. }
    set (g7 := Geom m (2 * m + 1) (3 * m + 2)) in *.
    assert (end_geom DPopFront g7 = g0) as E8.
    { unfold end_geom, g7, g0, ready. cbn [g_front g_size g_cap]. f_equal; lia. }
    split; [|split].
    - unfold dev_cycle, run_pre. rewrite E1 E2 E3 E4 E5 E6 E7.
      cbn [end_op end_pre end_geom] in *. rewrite E1 E2 E3 E6.
      unfold g0, g1, g2, g3, g4, g5, g6, g7. cbn [g_cap g_size]. repeat split; lia.
    - unfold dev_cycle, run_geom. by rewrite E1 E2 E3 E4 E5 E6 E7 E8.
    - unfold dev_cycle, run_cost. rewrite E1 E2 E3 E4 E5 E6 E7.
      unfold end_cost, g_back, g0, ready, g1, g2, g3, g4, g5, g6, g7. cbn [g_front g_size g_cap].
      repeat match goal with |- context [if ?a <? ?b then _ else _] => destruct (a <? b) eqn:? end; lia.
  Qed.

  Lemma run_pre_app os1 os2 g : run_pre (os1 ++ os2) g <-> run_pre os1 g /\ run_pre os2 (run_geom os1 g).
  Proof. revert g. induction os1 as [|o os1 IH]; intros g; simpl; [naive_solver|]. rewrite IH. naive_solver. Qed.
  Lemma run_cost_app os1 os2 g : run_cost (os1 ++ os2) g = run_cost os1 g + run_cost os2 (run_geom os1 g).
  Proof. revert g. induction os1 as [|o os1 IH]; intros g; simpl; [done|]. rewrite IH. lia. Qed.
  Lemma run_geom_app os1 os2 g : run_geom (os1 ++ os2) g = run_geom os2 (run_geom os1 g).
  Proof. revert g. induction os1 as [|o os1 IH]; intros g; simpl; [done|]. apply IH. Qed.
  Lemma cycles_geom v m k :
    1 <= m -> 3 * m + 2 <= max_size ->
    run_pre (dev_cycles v k) (ready m) /\ run_geom (dev_cycles v k) (ready m) = ready m /\
    run_cost (dev_cycles v k) (ready m) = Z.of_nat k * (4 * m + 8).
  Proof.
    intros Hm Hmax. destruct (cycle_geom v m Hm Hmax) as (H1 & H2 & H3).
    induction k as [|k (IH1 & IH2 & IH3)]; [done|]. change (dev_cycles v (S k)) with (dev_cycle v ++ dev_cycles v k).
    rewrite run_pre_app run_geom_app run_cost_app H2 H3 IH3. split_and!; try done. lia.
  Qed.
  Lemma cycles_length v k : length (dev_cycles v k) = (8 * k)%nat.
  Proof. induction k as [|k IH]; [done|]. cbn [dev_cycles]. rewrite app_length IH. simpl. lia. Qed.

  (** [std::vector]-like construction of [2 * m] elements, then
      [reserve_front(3 * m + 1)] and [reserve_back(2 * m + 1)]. *)
  Definition dev_setup (v : V) (m : nat) (x : ddata) (w : world) : Prop :=
    exists x0 w1 x1 w2,
      build (devector false) (KRange 0 (replicate (2 * m) v)) tt w0 = Ok x0 tt w1 /\
      dev_call (DReserveFront (3 * m + 1)) x0 w1 = Ok RUnit x1 w2 /\
      dev_call (DReserveBack (2 * m + 1)) x1 w2 = Ok RUnit x w.
  Lemma setup_reached v m :
    (forall k t, may_throw k t = false) -> (1 <= m)%nat -> 3 * Z.of_nat m + 2 <= max_size ->
    exists x w (A : dabs), dev_setup v m x w /\ holds is_dev x A w ∅ /\
      e_elems A = replicate (2 * m) v /\ geom_of A = ready (Z.of_nat m).
  Proof.
    intros Hq Hm Hmax.
    pose proof (dev_ctor_safe (KRange 0 (replicate (2 * m) v)) w0 ∅ w0_holds) as H0.
    destruct (build (devector false) _ tt w0) as [x0 [] w1|e [] w1|] eqn:Hb; [| |done].
    2:{ destruct H0 as (_ & Hk & Hre). destruct e; simpl in *; try done.
        - destruct Hk as [Hk|(a & vs & Hk)]; [|done]. rewrite replicate_length in Hk. lia.
        - destruct Hre as (t & Ht & _). pose proof (Hq KAlloc t) as Hq'. simpl in Hq'. congruence.
        - destruct Hre as (k & t & _ & Ht & _). pose proof (Hq k t) as Hq'. simpl in Hq'. congruence. }
    destruct H0 as (A0 & Hx0 & (_ & Hl0 & Hf0 & Hc0) & _). simpl in Hl0, Hc0. rewrite replicate_length in Hc0.
    assert (forall o x (A : dabs) w, (exists n, o = DReserveFront n /\ Z.of_nat n + g_back (geom_of A) <= max_size) \/
       (exists n, o = DReserveBack n /\ e_front A + Z.of_nat n <= max_size) ->
       holds is_dev x A w ∅ ->
       exists x' w' (A' : dabs), dev_call o x w = Ok RUnit x' w' /\ holds is_dev x' A' w' ∅ /\
         e_elems A' = e_elems A /\ dev_storage_post o A A') as Hstep.
    { intros o x A w Ho Hx.
      assert (dev_doc o (geom_of A) = true) as Hd by (destruct Ho as [(n & -> & _)|(n & -> & _)]; done).
      pose proof (dev_calm o x A w ∅ Hq Hx Hd) as Hc.
      assert (o = DSelfMove -> e_front A = 0) as Hs by (destruct Ho as [(n & -> & _)|(n & -> & _)]; done).
      assert (d_input o = true -> dev_hazard o (geom_of A) = false) as Hi by (destruct Ho as [(n & -> & _)|(n & -> & _)]; done).
      specialize (Hc Hs Hi). destruct (dev_call o x w) as [r x' w'|e x' w'|]; [| |done].
      - destruct Hc as (A' & Hx' & _ & Hp & Hst). exists x', w', A'.
        destruct Ho as [(n & -> & _)|(n & -> & _)]; destruct Hp as (-> & ->); done.
      - exfalso. destruct Hc as ([-> | (-> & i & Hdi)] & A' & _ & _ & _ & He).
        + destruct Ho as [(n & -> & Hn)|(n & -> & Hn)]; simpl in He; destruct He as (_ & _ & _ & He); lia.
        + destruct Ho as [(n & -> & Hn)|(n & -> & Hn)]; done. }
    assert (length (e_elems A0) = (2 * m)%nat) as Hn0 by by rewrite Hl0 replicate_length.
    destruct (Hstep (DReserveFront (3 * m + 1)) x0 A0 w1) as (x1 & w2 & A1 & Hr1 & Hx1 & Hl1 & Hs1); [|done|].
    { left. eexists. split; [done|]. unfold g_back. cbn. lia. }
    cbn in Hs1. rewrite Hf0 Hn0 in Hs1. destruct (_ <=? _) eqn:? in Hs1; [lia|]. destruct Hs1 as [Hf1 Hc1].
    unfold g_back in Hc1. cbn in Hc1. rewrite Hf0 Hn0 Hc0 in Hc1.
    destruct (Hstep (DReserveBack (2 * m + 1)) x1 A1 w2) as (x2 & w3 & A2 & Hr2 & Hx2 & Hl2 & Hs2); [|done|].
    { right. eexists. split; [done|]. lia. }
    cbn in Hs2. unfold g_back in Hs2. cbn in Hs2. rewrite Hl1 Hn0 Hf1 Hc1 in Hs2.
    destruct (_ <=? _) eqn:? in Hs2; [lia|]. destruct Hs2 as [Hf2 Hc2].
    exists x2, w3, A2. split; [|split; [done|]].
    { by exists x0, w1, x1, w2. }
    rewrite Hl2 Hl1 Hl0. split; [done|]. unfold geom_of, ready. rewrite Hf2 Hc2 Hl2 Hl1 Hn0. f_equal; lia.
  Qed.

  (** Eight calls at the ends of a container of [2 * m] elements cost at least
      [4 * m] operations, for ever. *)
  Lemma dev_cycles_cost v m k :
    (forall k t, may_throw k t = false) -> (1 <= m)%nat -> 3 * Z.of_nat m + 2 <= max_size ->
    exists x w x' w', dev_setup v m x w /\ dev_run (dev_cycles v k) x w = Ok tt x' w' /\
      (tick w + k * (4 * m) <= tick w')%nat.
  Proof.
    intros Hq Hm Hmax. destruct (setup_reached v m Hq Hm Hmax) as (x & w & A & Hset & Hx & _ & Hg).
    destruct (cycles_geom v (Z.of_nat m) k) as (H1 & _ & H3); [lia..|]. rewrite -Hg in H1, H3.
    destruct (end_returns (dev_cycles v k) x A w ∅ Hq Hx H1) as (x' & w' & Hr).
    destruct (end_run (dev_cycles v k) x A w ∅ x' w' Hx H1 Hr) as (_ & _ & _ & Ht).
    exists x, w, x', w'. split_and!; try done. rewrite H3 in Ht. nia.
  Qed.
End cycle.
