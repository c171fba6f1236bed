(** * Consequences of the specification of sfl::devector

    The lemmas behind Props_Devector.v. *)

From iris.proofmode Require Import tactics.
From Verif Require Export DevSim Demo.
From Verif Require Import SeqThms.
From Coq Require Import ZifyBool.
Open Scope Z_scope.

(** A call of a member function of the code as it is, and of the code with the
    corrections marked "fixed" in Devector.v. *)
Definition dev_call `{Env} (o : dop) : M ddata rval := run_dop false o.
Definition corrected_call `{Env} (o : dop) : M ddata rval := run_dop true o.
Definition d_input `{Env} (o : dop) : bool :=
  match o with DInsertInput _ _ | DAssignInput _ => true | _ => false end.

Section dev_thms.
  Context `{E : Env}.
  Notation R := is_dev.
  Notation dhazard o A := (dev_hazard o (geom_of A)).

  Lemma any_call_ok fixed o x A w hf :
    holds R x A w hf -> dev_doc o (geom_of A) = true -> (fixed = false -> dhazard o A = false) ->
    match run_dop fixed o x w with
    | Ok r x' w' => exists A', dpost o A r A' /\ holds R x' A' w' hf /\ quiet w w'
    | Exn e x' w' => exists A', dev_exn o A e A' /\ holds R x' A' w' hf /\ reason e w w'
    | UB => False
    end.
  Proof.
    intros Hx Hp Hh. apply (run1_state (devector_ok fixed) R (dev_iff fixed) o x A w hf Hx). by split.
  Qed.
  Lemma dev_call_ok o x A w hf :
    holds R x A w hf -> dev_doc o (geom_of A) = true -> dhazard o A = false ->
    match dev_call o x w with
    | Ok r x' w' => exists A', dpost o A r A' /\ holds R x' A' w' hf /\ quiet w w'
    | Exn e x' w' => exists A', dev_exn o A e A' /\ holds R x' A' w' hf /\ reason e w w'
    | UB => False
    end.
  Proof. intros Hx Hp Hh. by apply any_call_ok. Qed.
  Lemma corrected_ok o x A w hf :
    holds R x A w hf -> dev_doc o (geom_of A) = true ->
    match corrected_call o x w with
    | Ok r x' w' => exists A', holds R x' A' w' hf /\ dpost o A r A' /\ quiet w w'
    | Exn e x' w' => exists A', holds R x' A' w' hf /\ dev_exn o A e A' /\ reason e w w'
    | UB => False
    end.
  Proof.
    intros Hx Hp. pose proof (any_call_ok true o x A w hf Hx Hp ltac:(done)) as H. unfold corrected_call.
    destruct (run_dop true o x w); [| |done]; destruct H as (A' & ? & ? & ?); by exists A'.
  Qed.

  Lemma dev_bounds x A w hf :
    holds R x A w hf ->
    0 <= e_front A /\ e_front A + Z.of_nat (length (e_elems A)) <= e_cap A <= max_size.
  Proof. intros (_ & m & H & _). split; [apply (id_front _ _ _ H)|apply (id_size _ _ _ H)]. Qed.

  Lemma self_move_dec (o : dop) : o = DSelfMove \/ o <> DSelfMove.
  Proof. destruct o; first [left; reflexivity|right; discriminate]. Qed.
  Lemma dev_returns o x A w hf r x' w' :
    holds R x A w hf -> dev_doc o (geom_of A) = true -> dev_call o x w = Ok r x' w' ->
    exists A', holds R x' A' w' hf /\ e_alloc A' = e_alloc A /\
      dev_post o (geom_of A) (e_elems A) r (e_elems A') /\ dev_storage_post o A A' /\ fired w' = fired w.
  Proof.
    intros Hx Hp Hr.
    assert (run_dop true o x w = Ok r x' w' \/ dhazard o A = false) as Hc.
    { destruct (self_move_dec o) as [->|Ho]; [|left; exact (proj1 (same_run o Ho x w r x' w') Hr)].
      right. pose proof (dev_bounds _ _ _ _ Hx) as [Hf _]. cbn.
      destruct (Z.eqb_spec (e_front A) 0) as [|Hne]; [done|].
      unfold dev_call in Hr. rewrite (self_move_ub x A w hf Hx) in Hr; [done|lia]. }
    destruct Hc as [Hc|Hc].
    - pose proof (corrected_ok o x A w hf Hx Hp) as H. unfold corrected_call in H. rewrite Hc in H.
      destruct H as (A' & ? & (? & ? & ?) & ?). exists A'. by split_and!.
    - pose proof (dev_call_ok o x A w hf Hx Hp Hc) as H. rewrite Hr in H.
      destruct H as (A' & (? & ? & ?) & ? & ?). exists A'. by split_and!.
  Qed.

  (** Nothing throws: the call returns, or the size is too big. *)
  Lemma hazard_no_growth at_front i n g :
    hazard i n g = true -> at_front = near_front i g -> (make_room at_front n g).1 = false.
  Proof.
    unfold hazard, leaks, double_destroys, make_room. cbv zeta. intros Hh ->.
    destruct (near_front i g); simpl in *.
    - replace (n <=? g_front g) with false by lia.
      by replace (extra_front n g <? g_back g) with true by lia.
    - replace (n <=? g_back g) with false by lia.
      by replace (extra_back n g <? g_front g) with true by lia.
  Qed.
  Lemma emplace_hazard_side i g :
    emplace_hazard i g = true -> hazard i 1 g = true /\ emplace_front_side i g = near_front i g.
  Proof.
    unfold emplace_hazard, emplace_front_side. intros Hh.
    destruct (i =? 0)%nat eqn:H0; [done|]. destruct (Z.of_nat i =? g_size g) eqn:H1; [done|].
    simpl in *. done.
  Qed.
  Lemma dev_calm o x A w hf :
    (forall k t, may_throw k t = false) ->
    holds R x A w hf -> dev_doc o (geom_of A) = true ->
    (o = DSelfMove -> e_front A = 0) -> (d_input o = true -> dhazard o A = false) ->
    match dev_call o x w with
    | Ok r x' w' => exists A', holds R x' A' w' hf /\ e_alloc A' = e_alloc A /\
        dev_post o (geom_of A) (e_elems A) r (e_elems A') /\ dev_storage_post o A A'
    | Exn e x' w' => (e = ELength \/ e = EOutOfRange /\ exists i, o = DAt i) /\
        exists A', holds R x' A' w' hf /\ dev_exn o A e A'
    | UB => False
    end.
  Proof.
    intros Hq Hx Hp Hs Hin. destruct (dhazard o A) eqn:Hh.
    - pose proof (corrected_ok o x A w hf Hx Hp) as H. unfold corrected_call in H.
      assert (Ho : o <> DSelfMove).
      { intros ->. cbn in Hh. rewrite Hs in Hh; done. }
      destruct (run_dop true o x w) as [r x' w'|e x' w'|] eqn:Hrun; [| |done].
      + pose proof (proj2 (same_run o Ho x w r x' w') Hrun) as Hr. unfold dev_call. rewrite Hr.
        destruct H as (A' & ? & (? & ? & ?) & ?). exists A'. by split_and!.
      + exfalso. destruct H as (A' & _ & (_ & _ & He) & Hre). destruct e; simpl in Hre.
        * destruct o; try done; simpl in He, Hh, Hin; try (by specialize (Hin eq_refl)); destruct He as (_ & _ & _ & He & _).
          -- apply emplace_hazard_side in Hh as [Hh Hside]. by rewrite (hazard_no_growth _ _ _ _ Hh Hside) in He.
          -- by rewrite (hazard_no_growth _ _ _ _ Hh eq_refl) in He.
          -- by rewrite (hazard_no_growth _ _ _ _ Hh eq_refl) in He.
        * destruct o; try done; simpl in He; naive_solver.
        * destruct Hre as (t & Ht & _). pose proof (Hq KAlloc t) as Hq'. simpl in Hq'. congruence.
        * destruct Hre as (k & t & _ & Ht & _). pose proof (Hq k t) as Hq'. simpl in Hq'. congruence.
    - pose proof (dev_call_ok o x A w hf Hx Hp Hh) as H.
      destruct (dev_call o x w) as [r x' w'|e x' w'|]; [| |done].
      + destruct H as (A' & (? & ? & ?) & ? & ?). exists A'. by split_and!.
      + destruct H as (A' & He & Hx' & Hre). split; [|by exists A'].
        destruct e; simpl in Hre; [by left|right| |].
        * split; [done|]. destruct He as (_ & _ & He). destruct o; simpl in He; try naive_solver.
        * destruct Hre as (t & Ht & _). pose proof (Hq KAlloc t) as Hq'. simpl in Hq'. congruence.
        * destruct Hre as (k & t & _ & Ht & _). pose proof (Hq k t) as Hq'. simpl in Hq'. congruence.
  Qed.

  Lemma dev_safe o x A w hf :
    holds R x A w hf -> dev_doc o (geom_of A) = true -> dhazard o A = false ->
    match dev_call o x w with
    | Ok _ x' w' => exists A', holds R x' A' w' hf
    | Exn e x' w' => exists A', holds R x' A' w' hf /\ dev_exn o A e A' /\ reason e w w'
    | UB => False
    end.
  Proof.
    intros Hx Hp Hh. pose proof (dev_call_ok o x A w hf Hx Hp Hh) as H.
    destruct (dev_call o x w); [| |done]; destruct H as (A' & ? & ? & ?); eauto.
  Qed.

  Lemma is_dev_det x x' A m m' : R x A m -> R x' A m' -> x' = x /\ m' = m.
  Proof.
    intros H G. split.
    - destruct x as [a b f l e], x' as [a' b' f' l' e'].
      pose proof (id_alloc _ _ _ H). pose proof (id_bos _ _ _ H). pose proof (id_first _ _ _ H).
      pose proof (id_last _ _ _ H). pose proof (id_eos _ _ _ H).
      pose proof (id_alloc _ _ _ G). pose proof (id_bos _ _ _ G). pose proof (id_first _ _ _ G).
      pose proof (id_last _ _ _ G). pose proof (id_eos _ _ _ G).
      cbn [d_alloc d_bos d_first d_last d_eos] in *. congruence.
    - apply map_eq. intros p. by rewrite (id_mem _ _ _ H) (id_mem _ _ _ G).
  Qed.
  Lemma dev_holds_det x x' A w w' hf :
    holds R x A w hf -> holds R x' A w' hf -> x' = x /\ heap w' = heap w.
  Proof.
    intros (_ & m & H1 & _ & H3) (_ & m' & H4 & _ & H6).
    destruct (is_dev_det _ _ _ _ _ H1 H4) as [-> ->]. by rewrite H3 H6.
  Qed.
  Lemma strong_no_hazard o A : dev_strong o A -> dev_doc o (geom_of A) = true -> dhazard o A = false.
  Proof.
    destruct o; simpl; try done. intros [_ Hs] _. destruct (emplace_hazard i (geom_of A)) eqn:Hh; [|done].
    destruct (emplace_hazard_side _ _ Hh) as [Hh' Hside]. exfalso.
    unfold emplace_hazard in Hh. destruct Hs as [[-> _]|[(_ & -> & _)|[Hr _]]].
    - done.
    - unfold geom_of in Hh. simpl in Hh. rewrite Z.eqb_refl in Hh. by rewrite andb_false_r in Hh.
    - by rewrite (hazard_no_growth _ _ _ _ Hh' Hside) in Hr.
  Qed.
  Lemma dev_strong_ok o x A w hf e x' w' :
    holds R x A w hf -> dev_doc o (geom_of A) = true -> dev_strong o A ->
    dev_call o x w = Exn e x' w' -> x' = x /\ heap w' = heap w.
  Proof.
    intros Hx Hp Hs Hr. pose proof (dev_call_ok o x A w hf Hx Hp (strong_no_hazard _ _ Hs Hp)) as H. rewrite Hr in H.
    destruct H as (A' & (_ & H & _) & Hx' & _). rewrite (H Hs) in Hx'. by eapply dev_holds_det.
  Qed.

  Lemma dev_ctor_safe c w hf :
    holds0 w hf ->
    match build (devector false) c tt w with
    | Ok x _ w' => exists A, holds R x A w' hf /\ dev_k_post c A /\ quiet w w'
    | Exn e _ w' => holds0 w' hf /\ dev_k_exn c e /\ reason e w w'
    | UB => False
    end.
  Proof.
    intros Hw. pose proof (build_state (devector_ok false) R (dev_iff false) c w hf Hw I) as H. unfold build_ok in H.
    destruct (build (devector false) c tt w) as [x [] w'|e [] w'|]; [| |done].
    - destruct H as (A & H1 & H2 & H3). by exists A.
    - destruct H as (H1 & H2 & H3). done.
  Qed.
  Lemma dev_ctor2_safe c y B w hf :
    holds R y B w hf ->
    match build2 (devector false) c y w with
    | Ok x y' w' => exists A B', holds2 R x A y' B' w' hf /\ dev_k2_post c B A B' /\ quiet w w'
    | Exn e y' w' => exists B', holds R y' B' w' hf /\ dev_k2_exn c B e B' /\ reason e w w'
    | UB => False
    end.
  Proof.
    intros Hw. pose proof (build2_state (devector_ok false) R (dev_iff false) c y B w hf Hw I) as H. unfold build2_ok in H.
    destruct (build2 (devector false) c y w) as [x y' w'|e y' w'|]; [| |done].
    - destruct H as (A & B' & H1 & H2 & H3). by exists A, B'.
    - destruct H as (B' & H1 & H2 & H3). by exists B'.
  Qed.
  Lemma dev_two_safe o x A y B w hf :
    holds2 R x A y B w hf -> dev_pre2 o A B -> ~ dev_hazard2 o A B ->
    match dv_run2 false o (x, y) w with
    | Ok r (x', y') w' =>
        exists A' B', holds2 R x' A' y' B' w' hf /\ dev_post2 o A B r A' B' /\ quiet w w'
    | Exn e (x', y') w' =>
        exists A' B', holds2 R x' A' y' B' w' hf /\ dev_exn2 o A B e A' B' /\ reason e w w'
    | UB => False
    end.
  Proof.
    intros Hw Hp Hh.
    pose proof (run2_state (devector_ok false) R (dev_iff false) o x A y B w hf Hw (conj Hp (fun _ => Hh))) as H.
    unfold two_ok in H.
    change (@pair (obj (devector false)) (obj (devector false)) x y) with (@pair ddata ddata x y) in H.
    change (run2 (devector false) o) with (dv_run2 false o) in H.
    destruct (dv_run2 false o (x, y) w) as [r [x' y'] w'|e [x' y'] w'|]; [| |done];
      destruct H as (A' & B' & H1 & H2 & H3); exists A', B'; by split_and!.
  Qed.
  (** What goes wrong in the excluded case does so always. *)
  Lemma holds2_first x A y B w hf : holds2 R x A y B w hf -> exists hf', holds R x A w hf'.
  Proof.
    intros (Hwf & m1 & m2 & H1 & H2 & Hd1 & Hd2 & Hd3 & Hh). exists (m2 ∪ hf). split; [done|]. exists m1.
    split_and!; [done|by apply map_disjoint_union_r|by rewrite Hh assoc_L].
  Qed.
  Lemma on1_ub {S1 S2 T} (m : M S1 T) x (y : S2) w : m x w = UB -> on1 m (x, y) w = UB.
  Proof. intros H. unfold on1. simpl. by rewrite H. Qed.
  Lemma dev_two_ub o x A y B w hf :
    holds2 R x A y B w hf -> dev_hazard2 o A B -> dv_run2 false o (x, y) w = UB.
  Proof.
    intros Hxy Hh. destruct (holds2_first _ _ _ _ _ _ Hxy) as [hf' Hx].
    pose proof (dev_bounds _ _ _ _ Hx) as [Hf _].
    assert (d_alloc x = e_alloc A /\ d_alloc y = e_alloc B) as [Hax Hay].
    { destruct Hxy as (_ & m1 & m2 & H1 & H2 & _). split; [apply (id_alloc _ _ _ H1)|apply (id_alloc _ _ _ H2)]. }
    assert (0 < e_front A -> dv_reset false 0 x w = UB) as Hub by (intros; by eapply reset_ub).
    destruct o; try done; simpl in Hh; unfold dv_run2, unit_result.
    - destruct Hh as (Hp & Hne & Hf0). unfold dv_assign_copy, bind, getS. simpl. rewrite Hp Hax Hay.
      replace (Nat.eqb _ _) with false by (symmetry; by apply Nat.eqb_neq). simpl.
      rewrite (on1_ub (dv_reset false 0)); [done|]. apply Hub. lia.
    - destruct Hh as (Ha & Hf0). unfold dev_move_alloc in Ha. unfold dv_assign_move, bind, getS. simpl.
      rewrite Hax Hay. destruct (Nat.eqb_spec (e_alloc A) (e_alloc B)) as [Hab|Hab]; simpl.
      + assert (dev_alloc (e_alloc B) x = x) as Hsame by (destruct x; simpl in *; unfold dev_alloc; simpl; congruence).
        destruct pocma; simpl.
        * rewrite ?Hsame ?Hax ?Hay ?Hab Nat.eqb_refl. rewrite (on1_ub (dv_reset false 0)); [done|]. apply Hub. lia.
        * rewrite ?Hax ?Hay ?Hab Nat.eqb_refl. rewrite (on1_ub (dv_reset false 0)); [done|]. apply Hub. lia.
      + destruct pocma; [|done]. rewrite (on1_ub (dv_reset false 0)); [done|]. apply Hub. lia.
  Qed.

  Lemma dev_dtor_safe x A w hf :
    holds R x A w hf ->
    match dv_destructor x w with
    | Ok _ _ w' => holds0 w' hf
    | _ => False
    end.
  Proof.
    intros Hw. pose proof (kill_state (devector_ok false) R (dev_iff false) x A w hf Hw) as H. unfold kill_ok in H.
    change (kill (devector false)) with dv_destructor in H.
    destruct (dv_destructor x w); [|done..]. apply H.
  Qed.
  Lemma dev_history (cs : list (cmd (devector false))) w :
    wf_world w ->
    exists os P w' A h,
      exec_all (devector false) cs ∅ w = Some (os, P, w') /\ atrace (devector_spec false) cs ∅ os A /\
      pool_mem (S := devector_spec false) R P A h /\ h ##ₘ heap w /\ heap w' = h ∪ heap w /\
      ((forall e, Threw e ∉ os) -> fired w' = fired w).
  Proof. apply (history_state (devector_ok false) R (dev_iff false)). Qed.
  Lemma dev_no_leak (cs : list (cmd (devector false))) w :
    wf_world w ->
    exists os w', exec_all (devector false) (cs ++ (Drop <$> created cs)) ∅ w = Some (os, ∅, w') /\
                  heap w' = heap w.
  Proof. apply (no_leak (devector_ok false)). Qed.

  (** Aliasing. *)
  Lemma dev_alias o x A w hf (j : nat) (v : V) r x' w' :
    holds R x A w hf -> e_elems A !! j = Some v ->
    dev_doc o (geom_of A) = true -> dev_call o x w = Ok r x' w' ->
    exists A', holds R x' A' w' hf /\
      let l := e_elems A in let l' := e_elems A' in
      match o with
      | DEmplace i (XCopy k) => k = j -> l' = take i l ++ [v] ++ drop i l
      | DEmplaceFront (XCopy k) => k = j -> l' = [v] ++ l
      | DEmplaceBack (XCopy k) => k = j -> l' = l ++ [v]
      | DEmplace i (XMove k) =>
          k = j -> l' = take i (<[j := vmoved v]> l) ++ [v] ++ drop i (<[j := vmoved v]> l)
      | DEmplaceFront (XMove k) => k = j -> l' = [v] ++ <[j := vmoved v]> l
      | DEmplaceBack (XMove k) => k = j -> l' = <[j := vmoved v]> l ++ [v]
      | DResizeFront n (XCopy k) => k = j -> l' = replicate (n - length l) v ++ drop (length l - n) l
      | DResizeBack n (XCopy k) => k = j -> l' = take n l ++ replicate (n - length l) v
      | DResize n (XCopy k) => k = j -> l' = resized (geom_of A) n v l
      | _ => True
      end.
  Proof.
    intros Hx Hj Hp Hr. destruct (dev_returns o x A w hf r x' w' Hx Hp Hr) as (A' & Hx' & _ & Hpost & _).
    exists A'. split; [done|]. cbv zeta.
    destruct o; try done; match goal with x : xarg |- _ => destruct x end; try done;
      intros ->; destruct Hpost as (u & Hu & _ & Hl); simpl in *; rewrite ?Hj in Hl; congruence.
  Qed.

  Lemma dev_at_eval i x A w hf :
    holds R x A w hf ->
    dev_call (DAt i) x w =
      match e_elems A !! i with
      | Some v => Ok (RVal v) x w
      | None => Exn EOutOfRange x w
      end.
  Proof.
    intros Hx. pose proof (dev_call_ok (DAt i) x A w hf Hx eq_refl eq_refl) as H.
    destruct Hx as (Hwf & m & Hi & Hd & Hh).
    pose proof (id_first _ _ _ Hi) as Hf. pose proof (id_last _ _ _ Hi) as Hl.
    unfold dev_call, run_dop, dv_at, dv_size, bind, getS, ptr_sub, ret in *.
    rewrite Hf Hl in H |- *. unfold loc_add in H |- *. cbn [fst snd] in *. rewrite Z.eqb_refl in H |- *. cbn in H |- *.
    destruct (_ <=? _) eqn:Hle.
    - unfold throw. rewrite lookup_ge_None_2; [done|]. lia.
    - unfold read in *. destruct (heap w !! _) as [[]|]; try done. destruct H as (A' & (H & _) & _).
      destruct H as (v' & Hv & [= ->] & _). by rewrite Hv.
  Qed.
  Lemma dev_erase_if p x A w hf r x' w' :
    holds R x A w hf -> dev_call (DEraseIf p) x w = Ok r x' w' ->
    exists A', holds R x' A' w' hf /\
      e_elems A' = List.filter (fun v => negb (p v)) (e_elems A) /\
      r = RNum (Z.of_nat (length (e_elems A) - length (e_elems A'))%nat) /\
      e_bos A' = e_bos A /\ e_cap A' = e_cap A.
  Proof.
    intros Hx Hr. destruct (dev_returns (DEraseIf p) x A w hf r x' w' Hx eq_refl Hr) as (A' & Hx' & _ & [H1 H2] & H3 & _).
    exists A'. split_and!; try done; [|apply H3..]. by rewrite H2 H1 filter_count.
  Qed.

  Lemma dev_resize_back n v x A w hf r x' w' :
    holds R x A w hf ->
    (e_front A = 0 \/ Z.of_nat n <= e_cap A - e_front A) ->
    dev_call (DResize n (XVal v)) x w = Ok r x' w' ->
    exists A', holds R x' A' w' hf /\
      e_elems A' = take n (e_elems A) ++ replicate (n - length (e_elems A)) v.
  Proof.
    intros Hx Hf Hr.
    destruct (dev_returns (DResize n (XVal v)) x A w hf r x' w' Hx eq_refl Hr) as (A' & Hx' & _ & (v' & [= <-] & _ & HA) & _).
    exists A'. split; [done|]. rewrite HA. unfold resized, g_back, geom_of. cbn [g_front g_size g_cap].
    replace (Z.to_nat _) with 0%nat by lia. by rewrite Nat.sub_0_r.
  Qed.
  Lemma dev_length_error at_front a x A w hf :
    holds R x A w hf -> x_ok (length (e_elems A)) a = true ->
    g_cap (make_room at_front 1 (geom_of A)).2 <= max_size ->
    match dev_call (if at_front : bool then DEmplaceFront a else DEmplaceBack a) x w with
    | Ok _ _ _ => Z.of_nat (length (e_elems A)) + 1 <= max_size
    | Exn e _ _ => e = EBadAlloc \/ e = EUser
    | UB => False
    end.
  Proof.
    intros Hx Ha Hm.
    assert (forall o, o = DEmplaceFront a \/ o = DEmplaceBack a -> dev_doc o (geom_of A) = true) as Hdoc.
    { intros o [-> | ->]; simpl; by rewrite Nat2Z.id. }
    set (o := if at_front then DEmplaceFront a else DEmplaceBack a).
    assert (o = DEmplaceFront a \/ o = DEmplaceBack a) as Ho by (subst o; destruct at_front; auto).
    assert (dhazard o A = false) as Hh by (destruct Ho as [-> | ->]; done).
    pose proof (dev_call_ok o x A w hf Hx (Hdoc o Ho) Hh) as H.
    destruct (dev_call o x w) as [r x' w'|e x' w'|]; [| |done].
    - destruct H as (A' & (Hp & _) & Hx' & _).
      pose proof (dev_bounds _ _ _ _ Hx') as [Hf' Hb].
      assert (length (e_elems A') = S (length (e_elems A))) as Hl.
      { assert (length (arg_rest (e_elems A) a) = length (e_elems A)) as Hr.
        { destruct a; try done. simpl. destruct (_ !! _); [apply insert_length|done]. }
        destruct Ho as [Ho|Ho]; rewrite Ho in Hp; destruct Hp as (v & _ & _ & ->); rewrite app_length Hr /=; lia. }
      lia.
    - destruct H as (A' & (_ & _ & He) & _).
      destruct e; [exfalso| |by left|by right]; subst o; destruct at_front; destruct He as (_ & _ & He);
        simpl in He; naive_solver lia.
  Qed.

  (** Reading the abstract value off memory. *)
  Definition dev_view (x : ddata) (w : world) : option dabs :=
    match read_cells (d_first x) (Z.to_nat ((d_last x).2 - (d_first x).2)) (heap w) with
    | Some l => Some (DAbs (d_alloc x) (d_bos x) ((d_first x).2 - (d_bos x).2) l ((d_eos x).2 - (d_bos x).2))
    | None => None
    end.
  Lemma dev_view_ok x A m w : R x A m -> m ⊆ heap w -> dev_view x w = Some A.
  Proof.
    intros Hi Hm. unfold dev_view.
    rewrite (id_first _ _ _ Hi) (id_last _ _ _ Hi) (id_alloc _ _ _ Hi) (id_bos _ _ _ Hi) (id_eos _ _ _ Hi).
    unfold loc_add at 2 3. cbn [snd].
    replace (Z.to_nat _) with (length (e_elems A)) by lia. rewrite read_cells_ok.
    - destruct A as [a b p l cap]. simpl. do 2 f_equal; lia.
    - intros i v Hv. eapply lookup_weaken; [|exact Hm]. rewrite (id_mem _ _ _ Hi).
      pose proof (id_size _ _ _ Hi) as Hs. pose proof (id_front _ _ _ Hi) as Hf.
      pose proof (lookup_lt_Some _ _ _ Hv) as Hlt.
      destruct (id_block _ _ _ Hi) as [_ H0]; [lia|].
      unfold dev_cell. simpl. rewrite H0. rewrite decide_True //.
      rewrite decide_False; [|unfold hdr_off; lia]. rewrite decide_True; [|lia]. rewrite decide_False; [|lia].
      replace (Z.to_nat _) with i by lia. by rewrite Hv.
  Qed.
  Definition dev_case_ok := @case_ok E (devector false) (devector_spec false) (devector_ok false) R (dev_iff false) dev_view dev_view_ok.
  Definition dev_case_exn := @case_exn E (devector false) (devector_spec false) (devector_ok false) R (dev_iff false) dev_view dev_view_ok.
  Definition dev_case := @case_at E (devector false) (devector_spec false) (devector_ok false) R (dev_iff false) dev_view dev_view_ok.
  Definition dev_case2_ok := @case2_ok E (devector false) (devector_spec false) (devector_ok false) R (dev_iff false) dev_view dev_view_ok.
  Definition dev_case2_exn := @case2_exn E (devector false) (devector_spec false) (devector_ok false) R (dev_iff false) dev_view dev_view_ok.
  Definition dev_look := @look_ok E (devector false) (devector_spec false) (devector_ok false) R (dev_iff false) dev_view dev_view_ok.
  Definition dev_look2 := @look2_ok E (devector false) (devector_spec false) (devector_ok false) R (dev_iff false) dev_view dev_view_ok.
End dev_thms.
Arguments dev_case_ok {E} cs i {T}. Arguments dev_case_exn {E} cs i {T}. Arguments dev_case {E} cs i.
Arguments dev_case2_ok {E} cs i j {T}. Arguments dev_case2_exn {E} cs i j {T}.
Arguments dev_look {E} {T} cs i. Arguments dev_look2 {E} {T} cs i j.
