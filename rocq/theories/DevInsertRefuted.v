(** * Insertion into a full devector *)

From iris.proofmode Require Import tactics.
From Verif Require Export DevInsertCost.
From Coq Require Import Lia ZifyBool.
Open Scope Z_scope.

Section refuted.
  Context `{E : Env}.
  (** [m] elements from a range, then [o]. *)
  Lemma full_then o v m i n :
    (forall k t, may_throw k t = false) -> Z.of_nat m <= max_size ->
    dev_inserts o m = Some (i, n) -> (i <= m)%nat -> (0 < n)%nat ->
    dev_doc o (Geom 0 (Z.of_nat m) (Z.of_nat m)) = true ->
    (forall at_front, g_cap (make_room at_front (Z.of_nat n) (Geom 0 (Z.of_nat m) (Z.of_nat m))).2 <= max_size) ->
    exists x w r x' w',
      build (devector false) (KRange 0 (replicate m v)) tt w0 = Ok x tt w /\
      dev_call o x w = Ok r x' w' /\ (tick w + m + n + 1 <= tick w')%nat.
  Proof.
    intros Hq Hmax Ho Hi Hn Hd Hg.
    pose proof (dev_ctor_safe (KRange 0 (replicate m v)) w0 ∅ w0_holds) as H0.
    destruct (build (devector false) _ tt w0) as [x [] w|e [] w|] eqn:Hb; [| |done].
    2:{ destruct H0 as (_ & Hk & Hre). destruct e; simpl in *; try done.
        - destruct Hk as [Hk|(a & vs & Hk)]; [|done]. rewrite replicate_length in Hk. lia.
        - destruct Hre as (t & Ht & _). pose proof (Hq KAlloc t) as Hq'. simpl in Hq'. congruence.
        - destruct Hre as (k & t & _ & Ht & _). pose proof (Hq k t) as Hq'. simpl in Hq'. congruence. }
    destruct H0 as (A & Hx & (_ & Hl & Hf & Hc) & _). simpl in Hl, Hc. rewrite replicate_length in Hc.
    assert (length (e_elems A) = m) as Hlen by by rewrite Hl replicate_length.
    assert (geom_of A = Geom 0 (Z.of_nat m) (Z.of_nat m)) as HG by (unfold geom_of; by rewrite Hf Hc Hlen).
    assert (exists r x' w', dev_call o x w = Ok r x' w') as (r & x' & w' & Hr).
    { pose proof (dev_calm o x A w ∅ Hq Hx) as H. rewrite HG in H. specialize (H Hd).
      assert (o = DSelfMove -> e_front A = 0) as Hs by done. specialize (H Hs).
      assert (d_input o = true -> dev_hazard o (Geom 0 (Z.of_nat m) (Z.of_nat m)) = false) as Hin
        by (intros H1; destruct o; try discriminate H1; discriminate Ho). specialize (H Hin).
      destruct (dev_call o x w) as [r x' w'|e x' w'|]; [by do 3 eexists| |done]. exfalso.
      destruct H as ([-> | (-> & j & Hdi)] & A' & _ & _ & _ & He); [|subst o; discriminate Ho].
      rewrite HG in He. destruct o; try discriminate Ho; injection Ho as <- <-; destruct He as (_ & _ & _ & _ & He);
        (eapply Z.lt_irrefl, Z.lt_le_trans; [exact He|apply Hg]). }
    exists x, w, r, x', w'. split; [done|]. split; [done|].
    rewrite -Hlen. apply (dev_insert_full o x A w ∅ r x' w' i n); [by rewrite Hlen|by rewrite Hlen|done|done|by rewrite Hc Hlen|done].
  Qed.

  (** Before the second element, of any number. *)
  Lemma insert_second v m :
    (forall k t, may_throw k t = false) -> (1 <= m)%nat -> 2 * Z.of_nat m <= max_size ->
    exists x w r x' w',
      build (devector false) (KRange 0 (replicate m v)) tt w0 = Ok x tt w /\
      dev_call (DEmplace 1 (XVal v)) x w = Ok r x' w' /\ (tick w + m + 2 <= tick w')%nat.
  Proof.
    intros Hq Hm Hmax. destruct (full_then (DEmplace 1 (XVal v)) v m 1 1) as (x & w & r & x' & w' & Hb & Hr & Ht); try done.
    - lia.
    - lia.
    - unfold dev_doc. cbn [g_size x_ok]. rewrite andb_true_r. apply Nat.leb_le. lia.
    - intros []; unfold make_room, extra_front, extra_back, g_back; cbn [g_front g_size g_cap];
        (destruct (Z.of_nat 1 <=? _) eqn:?; cbn [snd g_cap]; [lia|]); destruct (_ <? _) eqn:?; cbn [snd g_cap];
        Z.div_mod_to_equations; lia.
    - exists x, w, r, x', w'. split; [done|]. split; [done|]. lia.
  Qed.
  (** [n] copies into an empty container. *)
  Lemma insert_copies v n :
    (forall k t, may_throw k t = false) -> (1 <= n)%nat -> Z.of_nat n <= max_size ->
    exists x w r x' w',
      build (devector false) (KRange 0 []) tt w0 = Ok x tt w /\
      dev_call (DInsertN 0 n (XVal v)) x w = Ok r x' w' /\ (tick w + n + 1 <= tick w')%nat.
  Proof.
    intros Hq Hm Hmax. destruct (full_then (DInsertN 0 n (XVal v)) v 0 0 n) as (x & w & r & x' & w' & Hb & Hr & Ht); try done.
    - simpl. lia.
    - intros []; unfold make_room, extra_front, extra_back, g_back; cbn [g_front g_size g_cap];
        (destruct (Z.of_nat n <=? _) eqn:?; cbn [snd g_cap]; [lia|]); destruct (_ <? _) eqn:?; cbn [snd g_cap];
        Z.div_mod_to_equations; lia.
    - exists x, w, r, x', w'. split; [done|]. split; [done|]. lia.
  Qed.
End refuted.
