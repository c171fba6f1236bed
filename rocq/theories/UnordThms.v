(** * Consequences of the specification of the unordered flat containers

    The lemmas behind Props_Unordered.v. *)

From iris.proofmode Require Import tactics.
From Verif Require Export UnordOk UnordLists FlatThms.
From Coq Require Import ZifyBool.
Open Scope Z_scope.

(** ** Calls, for all eight containers *)
Section mem.
  Context `{KD : Keyed}.
  Variable fl : flavour.
  Variable kd : fkind.

  (** A call of member function [o] of a container with key equality [c]. *)
  Definition unord_call (c : Cmp) (o : uop) : M sobj frv :=
    match fl with
    | StaticF N => member (fun _ => static_unord_run N kd c o)
    | SmallF N => member (fun ib => small_unord_run N kd ib c o)
    end.
  (** Its preconditions. *)
  Definition uallowed (o : uop) (size : nat) : bool :=
    unord_pre kd (fun n => can_hold fl (size + n)) (can_hold fl) o size.
  (** Construction. *)
  Definition unord_new (k : fctor) : M unit sobj :=
    match fl with
    | StaticF N => construct_small N (static_empty N) (fun _ => static_unord_init N kd k)
    | SmallF N =>
        construct_small N (fun ib => small_empty N ib (fc_alloc k)) (fun ib => small_unord_init N kd ib k)
    end.
  (** [x == y]; [r]: equality of elements. *)
  Definition unord_equal (r : V -> V -> bool) : M (sobj * sobj) rval :=
    match fl with StaticF N => static_bag_run2 N (PEq r) | SmallF N => small_bag_run2 N (PEq r) end.
  (** Does emplace append the element before it looks for the key? *)
  Definition emplaces_first : bool := match fl with StaticF _ => true | SmallF _ => is_map kd end.

  (** Several calls, all of them allowed; they all return. *)
  Fixpoint unord_calls (c : Cmp) (os : list uop) (x : sobj) (w : world) : option (sobj * world) :=
    match os with
    | [] => Some (x, w)
    | o :: os' =>
        if uallowed o (osize x.2) then
          match unord_call c o x w with Ok _ x' w' => unord_calls c os' x' w' | _ => None end
        else None
    end.
End mem.

Section unord_thms.
  Context `{KD : Keyed}.
  Variable fl : flavour.
  Variable kd : fkind.
  Variable c : Cmp.
  Hypothesis HN : sane fl.
  Notation R := (is_flat fl).
  Notation call := (unord_call fl kd c).
  Notation raw := (is_static_flat fl).
  Notation eager := (emplaces_first fl kd).

  Lemma ucall_ok o x l w hf :
    holds R x l w hf -> uallowed fl kd o (length l) = true ->
    match call o x w with
    | Ok r x' w' => exists l', unord_post kd raw eager c o l r l' /\ holds R x' l' w' hf /\ quiet w w'
    | Exn e x' w' => exists l', unord_exn kd raw eager c (negb raw) (unbreakable fl) o l e l' /\
        holds R x' l' w' hf /\ reason e w w'
    | UB => False
    end.
  Proof using HN.
    intros (Hwf & m & Hm & Hd & Hh) Hpre. unfold unord_call, is_flat, uallowed, can_hold, sane, emplaces_first in *.
    destruct fl as [N|N]; cbn [is_static_flat unbreakable negb].
    - destruct Hm as [ib Hm]. apply static_iff in Hm.
      pose proof (wp_state (tinv N) _ _ _ (fun r A' => A'.1 = ib /\ unord_post kd true true c o l r A'.2)
        (fun e A' => A'.1 = ib /\ unord_exn kd true true c false true o l e A'.2) m hf w
        (static_urun_ok N kd c o x (ib, l) Hpre) Hm Hwf Hd Hh) as H.
      destruct (member _ x w) as [r x' w'|e x' w'|]; [| |done];
        destruct H as ([ib' l'] & [_ H1] & (Hwf' & m' & H2 & H3) & H4); exists l'; (split; [done|]);
        (split; [|done]); (split; [done|]); exists m'; (split; [|done]); exists ib'; by apply static_iff.
    - destruct Hm as (ib & a & d & cap & Hm). apply (is_small_iff N HN) in Hm.
      pose proof (wp_state (sinv N HN) _ _ _ _ _ m hf w
        (small_urun_ok N kd HN c o x (ib, VAbs a d l cap) Hpre) Hm Hwf Hd Hh) as H.
      destruct (member _ x w) as [r x' w'|e x' w'|]; [| |done];
        destruct H as ([ib' [a' d' l' cap']] & (_ & H1 & _) & (Hwf' & m' & H2 & H3) & H4); exists l'; (split; [done|]);
        (split; [|done]); (split; [done|]); exists m'; (split; [|done]); exists ib', a', d', cap';
        by apply (is_small_iff N HN).
  Qed.
  Lemma ureturns o x l w hf r x' w' :
    holds R x l w hf -> uallowed fl kd o (length l) = true -> call o x w = Ok r x' w' ->
    exists l', holds R x' l' w' hf /\ unord_post kd raw eager c o l r l'.
  Proof using HN.
    intros Hx Hp Hc. pose proof (ucall_ok o x l w hf Hx Hp) as H. rewrite Hc in H.
    destruct H as (l' & H1 & H2 & _). eauto.
  Qed.
  Lemma uthrows o x l w hf e x' w' :
    holds R x l w hf -> uallowed fl kd o (length l) = true -> call o x w = Exn e x' w' ->
    exists l', holds R x' l' w' hf /\ unord_exn kd raw eager c (negb raw) (unbreakable fl) o l e l' /\ reason e w w'.
  Proof using HN.
    intros Hx Hp Hc. pose proof (ucall_ok o x l w hf Hx Hp) as H. rewrite Hc in H.
    destruct H as (l' & H1 & H2 & H3). eauto.
  Qed.
  Lemma flat_size x l w hf : holds R x l w hf -> osize x.2 = length l.
  Proof using HN.
    intros (_ & m & Hm & _). unfold is_flat, sane in *. destruct fl as [N|N].
    - destruct Hm as [ib Hm]. rewrite (it_data _ _ _ _ Hm). unfold osize. cbn. lia.
    - destruct Hm as (ib & a & d & cap & Hm). apply (is_small_iff N HN) in Hm.
      apply sinv_view in Hm as (ib' & a' & f & l' & cap' & Heq & -> & _). injection Heq as -> -> -> -> ->. cbn. by rewrite osize_vobj.
  Qed.

  (** ** C40: sets and maps *)
  Definition lists_ok (o : uop) : Prop := assigns_list o -> raw = false.
  Lemma unord_distinct_kept o x l w hf r x' w' :
    multi kd = false -> equality_ok c -> lists_ok o ->
    holds R x l w hf -> uallowed fl kd o (length l) = true -> distinct c l ->
    call o x w = Ok r x' w' ->
    exists l', holds R x' l' w' hf /\ distinct c l' /\ km_step c o (as_map c l) (as_map c l').
  Proof using HN.
    intros Hk He Hr Hx Hp Hd Hc. destruct (ureturns o x l w hf r x' w' Hx Hp Hc) as (l' & H1 & H2).
    exists l'. split; [done|]. split; [by eapply post_distinct|by eapply post_map].
  Qed.
  Lemma unord_calls_map os : forall x l w hf x' w',
    multi kd = false -> equality_ok c -> Forall lists_ok os ->
    holds R x l w hf -> distinct c l ->
    unord_calls fl kd c os x w = Some (x', w') ->
    exists l', holds R x' l' w' hf /\ distinct c l' /\ km_steps c os (as_map c l) (as_map c l').
  Proof using HN.
    induction os as [|o os IH]; cbn; intros x l w hf x' w' Hk He Ho Hx Hd Hc.
    - injection Hc as <- <-. by exists l.
    - apply Forall_cons in Ho as [Ho1 Ho2]. destruct (uallowed _ _ _ _) eqn:Hp; [|done].
      rewrite (flat_size x l w hf Hx) in Hp.
      destruct (call o x w) as [r x1 w1| |] eqn:Hc1; [|done..].
      destruct (unord_distinct_kept o x l w hf r x1 w1 Hk He Ho1 Hx Hp Hd Hc1) as (l1 & H1 & H2 & H3).
      destruct (IH x1 l1 w1 hf x' w' Hk He Ho2 H1 H2 Hc) as (l' & H4 & H5 & H6).
      exists l'. split; [done|]. split; [done|]. by exists (as_map c l1).
  Qed.

  Lemma unord_new_ok k w hf :
    holds0 w hf -> can_hold fl (length (fc_vals k)) = true ->
    match unord_new fl kd k tt w with
    | Ok x _ w' => exists l, holds R x l w' hf /\ uctor_post kd raw k l /\ quiet w w'
    | Exn e _ w' => holds0 w' hf /\ e <> EOutOfRange /\ reason e w w'
    | UB => False
    end.
  Proof using HN.
    intros (Hwf & Hh) Hk. unfold unord_new, is_flat, can_hold, sane in *.
    destruct fl as [N|N].
    - pose proof (wp_run _ _ _ _ ∅ hf w (wp_entails emp%I _ _ _ _ ∅ (static_ubuild_ok N kd k ltac:(lia)) eq_refl) Hwf) as Hrun.
      specialize (Hrun (map_disjoint_empty_l _)). rewrite left_id_L in Hrun. specialize (Hrun Hh).
      destruct (construct_small _ _ _ tt w) as [x [] w'|e [] w'|]; [| |done];
        destruct Hrun as (h' & Hh' & Hd' & Haf & HQ).
      + apply pure_ex in HQ as ([ib l] & Ha & HQ). exists l. split; [|split; [done|apply Haf]].
        split; [apply Haf|]. exists h'. split; [|done]. exists ib. by apply static_iff.
      + destruct HQ as [Hemp ->]. change (h' = ∅) in Hemp. subst. rewrite left_id_L in Hh'.
        split; [split; [apply Haf|done]|]. split; [done|apply Haf].
    - pose proof (wp_run _ _ _ _ ∅ hf w (wp_entails emp%I _ _ _ _ ∅ (small_ubuild_ok N kd HN k) eq_refl) Hwf) as Hrun.
      specialize (Hrun (map_disjoint_empty_l _)). rewrite left_id_L in Hrun. specialize (Hrun Hh).
      destruct (construct_small _ _ _ tt w) as [x [] w'|e [] w'|]; [| |done];
        destruct Hrun as (h' & Hh' & Hd' & Haf & HQ).
      + apply pure_ex in HQ as ([ib [a d l cap]] & [Ha _] & HQ). exists l. split; [|split; [done|apply Haf]].
        split; [apply Haf|]. exists h'. split; [|done]. exists ib, a, d, cap. by apply (is_small_iff N HN).
      + destruct HQ as [Hemp He]. change (h' = ∅) in Hemp. subst. rewrite left_id_L in Hh'.
        split; [split; [apply Haf|done]|]. split; [done|apply Haf].
  Qed.
  Lemma unord_new_map k w hf x u w' :
    multi kd = false -> equality_ok (fc_cmp k) ->
    holds0 w hf -> can_hold fl (length (fc_vals k)) = true ->
    unord_new fl kd k tt w = Ok x u w' ->
    exists l, holds R x l w' hf /\ distinct (fc_cmp k) l /\
      km_eq (as_map (fc_cmp k) l) (km_insert_all (fc_cmp k) (fc_vals k) km_empty).
  Proof using HN.
    intros Hk He Hw Hf Hc. pose proof (unord_new_ok k w hf Hw Hf) as H. rewrite Hc in H.
    destruct H as (l & H1 & [_ H2] & _). specialize (H2 (fun _ _ => proj1 He)).
    exists l. split; [done|]. split.
    - eapply uinserted_all_distinct; [done|done|done|apply distinct_nil].
    - by eapply (as_map_inserted_all _ kd He _ []).
  Qed.

  (** Lookup. *)
  Lemma unord_lookup o x l w hf :
    holds R x l w hf -> uallowed fl kd o (length l) = true -> u_lookup o = true ->
    match call o x w with
    | Ok r x' w' => holds R x' l w' hf /\
        match o with
        | UFind k => (exists i, r = Pos i /\ first_at c l k i) \/ (r = Pos (length l) /\ missing c l k)
        | UContains k => exists b, r = One (RBool b) /\ (b = true <-> exists i, first_at c l k i)
        | UCount k => exists n, r = Num n /\
            (multi kd = true -> n = length (List.filter (has c k) l)) /\
            (equality_ok c -> distinct c l -> n = length (List.filter (has c k) l))
        | UAt k => exists i w, r = TheMapped (mapped w) /\ l !! i = Some w /\ first_at c l k i
        | _ => r = Num (length l)
        end
    | Exn e x' w' => holds R x' l w' hf /\ reason e w w' /\
        (e = EUser \/ e = EOutOfRange /\ exists k, o = UAt k /\ missing c l k)
    | UB => False
    end.
  Proof using HN.
    intros Hx Hp Hl. pose proof (ucall_ok o x l w hf Hx Hp) as H.
    destruct (call o x w) as [r x' w'|e x' w'|]; [| |done].
    - destruct H as (l' & H1 & H3 & _).
      assert (l' = l) as -> by (destruct o; cbn in Hl, H1; try done; by destruct H1).
      split; [done|]. destruct o; cbn in Hl, H1; try done; destruct H1 as [_ H1].
      + destruct H1 as [(i & H1 & ->)|[H1 ->]]; [left; by exists i|by right].
      + eexists. split; [exact H1|]. split.
        * by intros ->.
        * intros He Hd. destruct (multi kd); [done|]. clear -He Hd.
          induction l as [|y l IH]; cbn; [done|]. apply distinct_cons in Hd as [Hy Hd].
          destruct (has c k y) eqn:Hhy; cbn; [|by apply IH]. f_equal.
          destruct (List.filter (has c k) l) as [|z l0] eqn:Hfl; [done|]. exfalso.
          assert (In z (List.filter (has c k) l)) as Hz by (rewrite Hfl; by left).
          apply filter_In in Hz as [Hz1 Hz2]. apply elem_of_list_In in Hz1. destruct (Hy z Hz1) as [Hyz _].
          unfold has in *. rewrite -(same_trans c He (key y) k (key z) Hhy) in Hyz.
          rewrite same_sym in Hyz; [|done]. congruence.
      + eexists. split; [exact H1|]. rewrite existsb_exists. split.
        * intros (y & Hy & Hh). apply elem_of_list_In in Hy.
          clear -Hy Hh. induction l as [|z l IH]; [by apply elem_of_nil in Hy|].
          destruct (has c k z) eqn:Hz.
          { exists 0%nat, z. split; [done|]. split; [done|]. intros j w' Hj. lia. }
          apply elem_of_cons in Hy as [-> |Hy]; [congruence|].
          destruct (IH Hy) as (i & v & Hv & Hhv & Hf). exists (Datatypes.S i), v. split; [done|]. split; [done|].
          intros [|j] w' Hj Hw'; cbn in Hw'; [by simplify_eq|]. apply (Hf j); [lia|done].
        * intros (i & v & Hv & Hh & _). exists v. split; [|done]. apply elem_of_list_In. by eapply elem_of_list_lookup_2.
      + done.
      + destruct H1 as (i & v & Hv & Hf & ->). by exists i, v.
    - destruct H as (l' & (H1 & H2) & H3 & H4).
      assert (l' = l) as -> by (by destruct o; cbn in Hl, H1).
      split; [done|]. split; [done|]. destruct e; [| |by destruct H2 as [_ H2]; destruct o; cbn in Hl, H2; try done; destruct H2|by left].
      + destruct H2 as [_ H2]. by destruct o; cbn in Hl, H2; try done; destruct H2.
      + right. split; [done|]. done.
  Qed.

  (** Insertion. *)
  Definition uone_insert (o : uop) : option (xarg * bool) :=
    match o with
    | UEmplace x | UInsert x => Some (x, false)
    | UEmplaceHint _ x | UInsertHint _ x => Some (x, true)
    | _ => None
    end.
  Lemma unord_insert_unique o x l w hf r x' w' a h :
    multi kd = false -> self_equal c ->
    holds R x l w hf -> uallowed fl kd o (length l) = true -> uone_insert o = Some (a, h) ->
    call o x w = Ok r x' w' ->
    exists v i b, arg_value l a = Some v /\ r = (if h then Pos i else PosNew i b) /\
      ((b = false /\ first_at c l (key v) i /\ holds R x' l w' hf) \/
       (b = true /\ missing c l (key v) /\ i = length l /\ holds R x' (l ++ [v]) w' hf)).
  Proof using HN.
    intros Hm Hs Hx Hp Ha Hc.
    destruct (ureturns o x l w hf r x' w' Hx Hp Hc) as (l' & H1 & H2).
    assert (insert_post kd c h a l r l') as (v & i & b & Hv & Hi & ->).
    { destruct o; cbn in Ha, H2; try done; injection Ha as <- <-; try done; destruct H2 as [_ H2]; by apply H2. }
    exists v, i, b. split; [done|]. split.
    { unfold ins_result. by rewrite Hm orb_false_r. }
    destruct Hi as [(_ & -> & H3 & ->)|(H3 & -> & -> & ->)]; [by left|right]. auto.
  Qed.
  Lemma unord_insert_multi o x l w hf r x' w' a h :
    multi kd = true ->
    holds R x l w hf -> uallowed fl kd o (length l) = true -> uone_insert o = Some (a, h) ->
    call o x w = Ok r x' w' ->
    exists v, arg_value l a = Some v /\ r = Pos (length l) /\ holds R x' (l ++ [v]) w' hf.
  Proof using HN.
    intros Hm Hx Hp Ha Hc.
    destruct (ureturns o x l w hf r x' w' Hx Hp Hc) as (l' & H1 & H2).
    assert (insert_post kd c h a l r l') as (v & i & b & Hv & Hi & ->).
    { destruct o; cbn in Ha, H2; try done; injection Ha as <- <-; try done; destruct H2 as [_ H2]; apply H2; by rewrite Hm. }
    exists v. split; [done|].
    destruct Hi as [(? & _)|(H3 & -> & -> & ->)]; [congruence|]. split; [|done].
    unfold ins_result. by rewrite Hm orb_true_r.
  Qed.
  Lemma unord_insert_range_multi vs x l w hf r x' w' :
    multi kd = true ->
    holds R x l w hf -> uallowed fl kd (UInsertRange vs) (length l) = true ->
    call (UInsertRange vs) x w = Ok r x' w' -> holds R x' (l ++ vs) w' hf.
  Proof using HN.
    intros Hm Hx Hp Hc. destruct (ureturns _ x l w hf r x' w' Hx Hp Hc) as (l' & H1 & _ & H2).
    assert (l' = l ++ vs) as <-; [|done]. clear -Hm H2. revert l H2.
    induction vs as [|v vs IH]; cbn; intros l.
    - intros ->. by rewrite app_nil_r.
    - intros (i & b & l1 & [(? & _)|(_ & _ & _ & ->)] & H2); [congruence|].
      rewrite (IH _ H2). by rewrite -app_assoc.
  Qed.

  (** Maps. *)
  Lemma unord_map_update o k m x l w hf r x' w' :
    holds R x l w hf -> uallowed fl kd o (length l) = true ->
    call o x w = Ok r x' w' ->
    match o with
    | UTryEmplace k' m' | UInsertOrAssign k' m' | UTryEmplaceHint _ k' m' | UInsertOrAssignHint _ k' m' => k' = k /\ m' = m
    | UIndex k' => k' = k /\ m = mdef
    | _ => False
    end ->
    exists i l', holds R x' l' w' hf /\
      ((* the key was there *)
       (exists v, l !! i = Some v /\ first_at c l k i /\
          match o with
          | UInsertOrAssign _ _ | UInsertOrAssignHint _ _ _ => l' = <[i := entry (key v) m]> l
          | _ => l' = l
          end /\
          match o with
          | UTryEmplace _ _ | UInsertOrAssign _ _ => r = PosNew i false
          | UIndex _ => r = TheMapped (mapped v)
          | _ => r = Pos i
          end) \/
       (* it is new *)
       (missing c l k /\ i = length l /\ l' = l ++ [entry k m] /\
          match o with
          | UTryEmplace _ _ | UInsertOrAssign _ _ => r = PosNew i true
          | UIndex _ => r = TheMapped m
          | _ => r = Pos i
          end)).
  Proof using HN.
    intros Hx Hp Hc Hkm.
    destruct (ureturns o x l w hf r x' w' Hx Hp Hc) as (l' & H1 & A).
    assert (Hm : multi kd = false).
    { unfold uallowed in Hp. destruct o; try done; cbn in Hp; destruct (multi kd); try done;
        by rewrite ?andb_false_r in Hp. }
    assert (Hold : forall i b, uinserted kd c (entry k m) l i b l' ->
      (b = false /\ l' = l /\ first_at c l k i /\ exists v, l !! i = Some v) \/
      (b = true /\ missing c l k /\ i = length l /\ l' = l ++ [entry k m])).
    { intros i b [(_ & -> & Hf & ->)|(Ha & -> & -> & ->)].
      - rewrite key_entry in Hf. left. split; [done|]. split; [done|]. split; [done|].
        destruct Hf as (v & Hv & _). by exists v.
      - rewrite key_entry in Ha. right. auto. }
    destruct o; try done; destruct Hkm as [-> Hkm].
    - subst. destruct A as (i & b & Hi & ->). exists i, l'. split; [done|].
      destruct (Hold i b Hi) as [(-> & -> & Hf & v & Hv)|(-> & Ha & -> & ->)]; [left; by exists v|by right].
    - subst. destruct A as (i & b & Hi & ->). exists i, l'. split; [done|].
      destruct (Hold i b Hi) as [(-> & -> & Hf & v & Hv)|(-> & Ha & -> & ->)]; [left; by exists v|by right].
    - subst. destruct A as [(i & v & Hv & Hf & -> & ->)|(Ha & -> & ->)].
      + eexists i, _. split; [done|]. left. by exists v.
      + eexists (length l), _. split; [done|]. by right.
    - subst. destruct A as [(i & v & Hv & Hf & -> & ->)|(Ha & -> & ->)].
      + eexists i, _. split; [done|]. left. by exists v.
      + eexists (length l), _. split; [done|]. by right.
    - subst. destruct A as (i & b & v & Hi & Hv & ->). exists i, l'. split; [done|].
      destruct (Hold i b Hi) as [(-> & -> & Hf & v' & Hv')|(-> & Ha & -> & ->)].
      + left. exists v. done.
      + right. split; [done|]. split; [done|]. split; [done|].
        rewrite lookup_app_r in Hv; [|done]. rewrite Nat.sub_diag in Hv. cbn in Hv.
        injection Hv as <-. by rewrite mapped_entry.
  Qed.
  Lemma unord_put i m x l w hf r x' w' :
    is_map kd = true -> holds R x l w hf -> (i < length l)%nat -> call (UPut i m) x w = Ok r x' w' ->
    exists v, l !! i = Some v /\ holds R x' (<[i := entry (key v) m]> l) w' hf.
  Proof using HN.
    intros Hmap Hx Hi Hc.
    assert (uallowed fl kd (UPut i m) (length l) = true) as Hp by (unfold uallowed; cbn; rewrite Hmap; by apply Nat.ltb_lt).
    destruct (ureturns _ x l w hf r x' w' Hx Hp Hc) as (l' & H1 & _ & v & Hv & ->). by exists v.
  Qed.

  (** ** C41: erasure *)
  Lemma unord_erase i x l w hf r x' w' :
    (i < length l)%nat -> holds R x l w hf -> call (UErase i) x w = Ok r x' w' ->
    exists l', holds R x' l' w' hf /\ r = Pos i /\
      Permutation (take i l ++ drop (Datatypes.S i) l) l' /\ take i l' = take i l.
  Proof using HN.
    intros Hi Hx Hc.
    assert (uallowed fl kd (UErase i) (length l) = true) as Hp by (unfold uallowed; cbn [unord_pre]; lia).
    destruct (ureturns _ x l w hf r x' w' Hx Hp Hc) as (l' & H1 & -> & H2). exists l'. split; [done|]. split; [done|].
    apply erased_at_out in H2 as (v & Hv & H2 & H3). split; [|done].
    apply (Permutation_cons_inv (a := v)). rewrite -H2. rewrite Permutation_middle.
    by rewrite take_drop_middle.
  Qed.
  Lemma unord_erase_range i j x l w hf r x' w' :
    (i <= j <= length l)%nat -> holds R x l w hf -> call (UEraseRange i j) x w = Ok r x' w' ->
    exists l', holds R x' l' w' hf /\ r = Pos i /\
      Permutation (take i l ++ drop j l) l' /\ take i l' = take i l.
  Proof using HN.
    intros Hij Hx Hc.
    assert (uallowed fl kd (UEraseRange i j) (length l) = true) as Hp by (unfold uallowed; cbn [unord_pre]; lia).
    destruct (ureturns _ x l w hf r x' w' Hx Hp Hc) as (l' & H1 & -> & H2). exists l'. split; [done|]. split; [done|].
    apply erased_range_perm in H2 as (a & y & b & -> & <- & <- & H2 & H3 & _).
    rewrite take_app H3. split; [|done].
    rewrite app_assoc drop_app_ge app_length; [|lia].
    replace (length a + length y - (length a + length y))%nat with 0%nat by lia. rewrite drop_0.
    apply (Permutation_app_inv_l y). rewrite -H2. by rewrite Permutation_app_swap_app.
  Qed.
  Lemma unord_erase_key k x l w hf r x' w' :
    multi kd = false -> equality_ok c -> distinct c l ->
    holds R x l w hf -> call (UEraseKey k) x w = Ok r x' w' ->
    exists l', holds R x' l' w' hf /\ Permutation (List.filter (lacks c k) l) l' /\
      r = Num (length (List.filter (has c k) l)).
  Proof using HN.
    intros Hk He Hd Hx Hc. destruct (ureturns (UEraseKey k) x l w hf r x' w' Hx eq_refl Hc) as (l' & H1 & H2).
    exists l'. split; [done|]. by eapply erased_key_all.
  Qed.
  Lemma unord_erase_key_multi k x l w hf r x' w' :
    multi kd = true ->
    holds R x l w hf -> call (UEraseKey k) x w = Ok r x' w' ->
    exists l', holds R x' l' w' hf /\ Permutation (List.filter (lacks c k) l) l' /\
      r = Num (length (List.filter (has c k) l)).
  Proof using HN.
    intros Hk Hx Hc. destruct (ureturns (UEraseKey k) x l w hf r x' w' Hx eq_refl Hc) as (l' & H1 & H2).
    exists l'. split; [done|]. cbn in H2. unfold erased_key in H2. by rewrite Hk in H2.
  Qed.
  Lemma unord_erase_if p x l w hf r x' w' :
    holds R x l w hf -> call (UEraseIf p) x w = Ok r x' w' ->
    exists l', holds R x' l' w' hf /\ Permutation (List.filter (fun v => negb (p v)) l) l' /\
      r = Num (length (List.filter p l)).
  Proof using HN.
    intros Hx Hc. destruct (ureturns (UEraseIf p) x l w hf r x' w' Hx eq_refl Hc) as (l' & H1 & H2).
    by exists l'.
  Qed.

  (** ** C42: erase(key) with a key of the container itself *)
  Lemma unord_erase_key_of i x l w hf r x' w' :
    multi kd = false -> equality_ok c -> distinct c l -> (i < length l)%nat ->
    holds R x l w hf -> call (UEraseKeyOf i) x w = Ok r x' w' ->
    exists v l', l !! i = Some v /\ holds R x' l' w' hf /\ r = Num 1 /\
      Permutation (List.filter (lacks c (key v)) l) l' /\ Permutation (take i l ++ drop (Datatypes.S i) l) l'.
  Proof using HN.
    intros Hk He Hd Hi Hx Hc.
    assert (uallowed fl kd (UEraseKeyOf i) (length l) = true) as Hp by (unfold uallowed; cbn [unord_pre]; rewrite Hk; by apply Nat.ltb_lt).
    destruct (ureturns _ x l w hf r x' w' Hx Hp Hc) as (l' & H1 & v & Hv & H2).
    exists v, l'. split; [done|]. split; [done|].
    assert (r = Num 1 /\ Permutation l (v :: l')) as [Hr Hpm].
    { unfold erased_key in H2. rewrite Hk in H2. destruct H2 as [(Hm & _)|(j & Hf & -> & H2)].
      - specialize (Hm i v Hv). unfold has in Hm. rewrite (same_refl c He) in Hm. done.
      - split; [done|]. destruct Hf as (u & Hu & Hh & _).
        assert (i = j) as ->.
        { destruct (decide (i = j)) as [|Hne]; [done|]. unfold has in Hh. rewrite (Hd j i u v) in Hh; done. }
        apply erased_at_out in H2 as (v' & Hv' & H2 & _). rewrite Hv in Hv'. by injection Hv' as <-. }
    split; [done|]. apply erased_key_all in H2 as [H2 _]; [|done..]. split; [done|].
    apply (Permutation_cons_inv (a := v)). rewrite -Hpm. rewrite Permutation_middle. by rewrite take_drop_middle.
  Qed.

  (** ** C38: assigning a list *)
  Lemma unord_assign_list vs x l w hf r x' w' :
    raw = false -> multi kd = false -> equality_ok c ->
    holds R x l w hf -> call (UAssignList vs) x w = Ok r x' w' ->
    exists l', holds R x' l' w' hf /\ distinct c l' /\
      km_eq (as_map c l') (km_insert_all c vs km_empty) /\
      (forall y, y ∈ l' -> y ∈ vs) /\ (forall v, v ∈ vs -> exists i, first_at c l' (key v) i).
  Proof using HN.
    intros Hraw Hk He Hx Hc.
    assert (uallowed fl kd (UAssignList vs) (length l) = true) as Hp by (unfold uallowed, can_hold; by destruct fl).
    destruct (ureturns _ x l w hf r x' w' Hx Hp Hc) as (l' & H1 & _ & A). rewrite Hraw in A.
    exists l'. split; [done|]. split; [eapply uinserted_all_distinct; [done|done|done|apply distinct_nil]|].
    split; [by eapply (as_map_inserted_all _ kd He _ [])|].
    assert (Hgen : forall l0, uinserted_all kd c vs l0 l' ->
      (forall y, y ∈ l' -> y ∈ l0 \/ y ∈ vs) /\
      (forall k i, first_at c l0 k i -> first_at c l' k i) /\
      (forall v, v ∈ vs -> exists i, first_at c l' (key v) i)).
    { clear A Hc Hp. induction vs as [|v vs IH]; cbn; intros l0.
      - intros ->. split_and!; [by left|done|]. intros v Hv. by apply elem_of_nil in Hv.
      - intros (i & b & l1 & Hi & Hv). destruct (IH l1 Hv) as (G1 & G2 & G3).
        assert ((forall y, y ∈ l1 -> y ∈ l0 \/ y = v) /\ (forall k j, first_at c l0 k j -> first_at c l1 k j) /\
                first_at c l1 (key v) i) as (F1 & F2 & F3).
        { destruct Hi as [(_ & -> & Hf & ->)|(Hm & -> & -> & ->)].
          - split_and!; [by left|done|done].
          - split_and!.
            + intros y Hy. apply elem_of_app in Hy as [Hy|Hy]; [by left|]. apply elem_of_list_singleton in Hy. by right.
            + intros k j (u & Hu & Hh & Hlt). exists u. split; [by apply lookup_app_l_Some|]. split; [done|].
              intros j' u' Hj' Hu'. apply (Hlt j'); [done|]. rewrite lookup_app_l in Hu'; [done|].
              apply lookup_lt_Some in Hu. lia.
            + exists v. split; [by apply list_lookup_middle|]. split; [apply (same_refl c He)|].
              intros j' u' Hj' Hu'. rewrite lookup_app_l in Hu'; [|done]. by eapply (Hm Hk). }
        split_and!.
        + intros y Hy. destruct (G1 y Hy) as [Hy'|Hy']; [|right; by right].
          destruct (F1 y Hy') as [| ->]; [by left|right; by left].
        + intros k j Hj. by apply G2, F2.
        + intros u Hu. apply elem_of_cons in Hu as [-> |Hu]; [exists i; by apply G2|by apply G3]. }
    destruct (Hgen [] A) as (G1 & _ & G3). split; [|done].
    intros y Hy. destruct (G1 y Hy) as [Hn|]; [by apply elem_of_nil in Hn|done].
  Qed.
  Lemma unord_assign_list_multi vs x l w hf r x' w' :
    multi kd = true -> can_hold fl (length vs) = true ->
    holds R x l w hf -> call (UAssignList vs) x w = Ok r x' w' -> holds R x' vs w' hf.
  Proof using HN.
    intros Hm Hp Hx Hc.
    destruct (ureturns (UAssignList vs) x l w hf r x' w' Hx Hp Hc) as (l' & H1 & _ & A).
    assert (l' = vs) as <-; [|done]. destruct raw; [done|].
    assert (forall l0, uinserted_all kd c vs l0 l' -> l' = l0 ++ vs) as Hgen.
    { clear -Hm. induction vs as [|v vs IH]; cbn; intros l0.
      - intros ->. by rewrite app_nil_r.
      - intros (i & b & l1 & [(? & _)|(_ & _ & _ & ->)] & H2); [congruence|].
        rewrite (IH _ H2). by rewrite -app_assoc. }
    by apply (Hgen []).
  Qed.
  Lemma unord_assign_list_raw vs x l w hf r x' w' :
    raw = true -> can_hold fl (length vs) = true ->
    holds R x l w hf -> call (UAssignList vs) x w = Ok r x' w' -> holds R x' vs w' hf.
  Proof using HN.
    intros Hraw Hp Hx Hc.
    destruct (ureturns (UAssignList vs) x l w hf r x' w' Hx Hp Hc) as (l' & H1 & _ & H2).
    rewrite Hraw in H2. by rewrite -H2.
  Qed.

  (** ** C43: equality *)
  Lemma unord_equality e x l y l' w hf :
    equality e -> holds2 R x l y l' w hf ->
    match unord_equal fl e (x, y) w with
    | Ok r (x', y') w' => holds2 R x' l y' l' w' hf /\ quiet w w' /\
        exists b, r = RBool b /\ (b = true <-> same_elements e l l')
    | Exn ex (x', y') w' => holds2 R x' l y' l' w' hf /\ reason ex w w' /\ ex = EUser
    | UB => False
    end.
  Proof using HN.
    intros He (Hwf & m1 & m2 & H1 & H2 & Hd). unfold unord_equal, is_flat, sane in *. destruct fl as [N|N].
    - destruct H1 as [ib1 H1], H2 as [ib2 H2].
      pose proof (run2_state (static_bag_ok N) (is_static N) (static_iff N) (PEq e : op2 (static_bag N)) x (ib1, l) y (ib2, l') w hf) as H.
      specialize (H ltac:(split; [done|by exists m1, m2]) eq_refl). unfold two_ok in H.
      change (run2 (static_bag N) (PEq e) (x, y) w) with (static_bag_run2 N (PEq e) (x, y) w) in H.
      destruct (static_bag_run2 N (PEq e) (x, y) w) as [r [x' y'] w'|ex [x' y'] w'|]; [| |done].
      + destruct H as (A & B & (-> & -> & b & -> & Hb) & (Hwf' & n1 & n2 & G1 & G2 & G3) & Hq).
        split; [|split; [done|exists b; auto]]. split; [done|]. exists n1, n2. split; [by exists ib1|]. split; [by exists ib2|done].
      + destruct H as (A & B & Hx & (Hwf' & n1 & n2 & G1 & G2 & G3) & Hq). cbn in Hx.
        destruct A as [ib1' l1'], B as [ib2' l2']. cbn in Hx. destruct Hx as (-> & _ & _ & _ & _ & Ha & Hb). cbn in Ha, Hb. subst.
        split; [|done]. split; [done|]. exists n1, n2. split; [by exists ib1'|]. split; [by exists ib2'|done].
    - destruct H1 as (ib1 & a1 & d1 & cap1 & H1), H2 as (ib2 & a2 & d2 & cap2 & H2).
      pose proof (run2_state (small_bag_ok N HN) (is_small N) (is_small_iff N HN) (PEq e : op2 (small_bag N))
        x (ib1, VAbs a1 d1 l cap1) y (ib2, VAbs a2 d2 l' cap2) w hf) as H.
      specialize (H ltac:(split; [done|by exists m1, m2]) ltac:(by split)). unfold two_ok in H.
      change (run2 (small_bag N) (PEq e) (x, y) w) with (small_bag_run2 N (PEq e) (x, y) w) in H.
      destruct (small_bag_run2 N (PEq e) (x, y) w) as [r [x' y'] w'|ex [x' y'] w'|]; [| |done].
      + destruct H as (A & B & (-> & -> & b & -> & Hb) & (Hwf' & n1 & n2 & G1 & G2 & G3) & Hq).
        split; [|split; [done|exists b; auto]]. split; [done|]. exists n1, n2.
        split; [by exists ib1, a1, d1, cap1|]. split; [by exists ib2, a2, d2, cap2|done].
      + destruct H as (A & B & Hx & (Hwf' & n1 & n2 & G1 & G2 & G3) & Hq). cbn in Hx.
        destruct A as [ib1' q1'], B as [ib2' q2']. cbn in Hx. destruct Hx as (_ & _ & -> & Ha & Hb). cbn in Ha, Hb. subst.
        split; [|done]. split; [done|]. exists n1, n2.
        split; [by exists ib1', a1, d1, cap1|]. split; [by exists ib2', a2, d2, cap2|done].
  Qed.

  (** ** Exceptions *)
  Lemma unord_safe o x l w hf :
    holds R x l w hf -> uallowed fl kd o (length l) = true ->
    match call o x w with
    | Ok _ x' w' => (exists l', holds R x' l' w' hf) /\ quiet w w'
    | Exn e x' w' => (exists l', holds R x' l' w' hf) /\ reason e w w'
    | UB => False
    end.
  Proof using HN.
    intros Hx Hp. pose proof (ucall_ok o x l w hf Hx Hp) as H.
    destruct (call o x w); [| |done]; destruct H as (l' & _ & H1 & H2); eauto.
  Qed.
  (** Functions that add at most one element, and do not search after adding it. *)
  Definition searches_first (o : uop) : bool :=
    match o with
    | UInsert _ | UInsertHint _ _ | UTryEmplace _ _ | UTryEmplaceHint _ _ _ | UIndex _ => true
    | UEmplace _ | UEmplaceHint _ _ => negb eager || multi kd
    | _ => false
    end.
  Lemma unord_strong o x l w hf e x' w' :
    unbreakable fl = true -> searches_first o = true ->
    holds R x l w hf -> uallowed fl kd o (length l) = true ->
    call o x w = Exn e x' w' -> holds R x' l w' hf.
  Proof using HN.
    intros Hu Ho Hx Hp Hc. destruct (uthrows o x l w hf e x' w' Hx Hp Hc) as (l' & H1 & (H2 & _) & _).
    assert (l' = l) as ->; [|done].
    destruct o; cbn in Ho, H2; try done; destruct H2 as [_ H2]; specialize (H2 Hu); try done;
      destruct H2 as [|(He & Hk & _)]; try done; rewrite He Hk in Ho; done.
  Qed.
  Lemma unord_failed_alloc o x l w hf e x' w' :
    uadds o = 1%nat -> (forall vs, o <> UInsertRange vs) -> e = ELength \/ e = EBadAlloc ->
    holds R x l w hf -> uallowed fl kd o (length l) = true ->
    call o x w = Exn e x' w' -> holds R x' l w' hf /\ raw = false.
  Proof using HN.
    intros Had Hnr He Hx Hp Hc. destruct (uthrows o x l w hf e x' w' Hx Hp Hc) as (l' & H1 & (_ & H2) & _).
    assert (raw = false /\ l' = l) as [Hraw ->]; [|done].
    destruct He as [-> | ->]; destruct H2 as [H2 H3]; (split; [by destruct raw|]); by destruct o; cbn in Had; try done; try (by edestruct Hnr); destruct H3.
  Qed.
End unord_thms.
