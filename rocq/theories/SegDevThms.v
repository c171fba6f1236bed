(** * Consequences of the specification of sfl::segmented_devector

    The lemmas behind Props_SegDevector.v. *)

From iris.proofmode Require Import tactics.
From Verif Require Export SegThms SegDevOk SegRuns.
From Verif Require Import SeqThms.
From Coq Require Import ZifyBool.
Open Scope Z_scope.
Notation frame := SegGrow.frame.

(** A call of a member function. *)
Definition segd_call `{Env} `{SegSize} (ra : bool) (o : dop) : M sgdata rval := run_sdop ra o.

Section segd_thms.
  Context `{E : Env} `{SZ : SegSize} (ra : bool).
  Notation R := (is_seg true).
  Notation call := (segd_call ra).
  Notation pre o A := (sd_pre o (sd_geom A) = true).

  Definition segdev_iff : forall x A h, is_seg true x A h <-> inv (segdev_ok ra) x A h.
  Proof.
    intros x A h. rewrite is_seg_iff. simpl. unfold sinv. rewrite !ex_holds.
    split; intros (T & HT); exists T; apply pure_sep_holds in HT as [(H1 & H2 & HI) Hs]; apply pure_sep_holds;
      (split; [split_and!; [done|done|]|done]); done.
  Qed.

  Lemma segd_call_ok o x A w hf :
    holds R x A w hf -> pre o A ->
    match call o x w with
    | Ok r x' w' => exists A', (dev_post o (sd_geom A) (s_elems A) r (s_elems A') /\ s_alloc A' = s_alloc A /\
        sd_storage o A A') /\ holds R x' A' w' hf /\ quiet w w'
    | Exn e x' w' => exists A', sd_exn o A e A' /\ holds R x' A' w' hf /\ reason e w w'
    | UB => False
    end.
  Proof. intros Hx Hp. apply (run1_state (segdev_ok ra) R segdev_iff o x A w hf Hx Hp). Qed.

  Lemma segd_returns o x A w hf r x' w' :
    holds R x A w hf -> pre o A -> call o x w = Ok r x' w' ->
    exists A', holds R x' A' w' hf /\ s_alloc A' = s_alloc A /\
      dev_post o (sd_geom A) (s_elems A) r (s_elems A') /\ sd_storage o A A' /\ fired w' = fired w.
  Proof.
    intros Hx Hp Hr. pose proof (segd_call_ok o x A w hf Hx Hp) as H. rewrite Hr in H.
    destruct H as (A' & (H1 & H2 & H3) & H4 & H5). exists A'. by split_and!.
  Qed.
  Lemma segd_safe o x A w hf :
    holds R x A w hf -> pre o A ->
    match call o x w with
    | Ok _ x' w' => exists A', holds R x' A' w' hf
    | Exn e x' w' => exists A', holds R x' A' w' hf /\ sd_exn o A e A' /\ reason e w w'
    | UB => False
    end.
  Proof.
    intros Hx Hp. pose proof (segd_call_ok o x A w hf Hx Hp) as H.
    destruct (call o x w); [| |done]; destruct H as (A' & ? & ? & ?); eauto.
  Qed.
  (** Nothing throws: the call returns, or the capacity is too big. *)
  Lemma segd_calm o x A w hf :
    (forall k t, may_throw k t = false) -> holds R x A w hf -> pre o A ->
    match call o x w with
    | Ok r x' w' => exists A', holds R x' A' w' hf /\ s_alloc A' = s_alloc A /\
        dev_post o (sd_geom A) (s_elems A) r (s_elems A') /\ sd_storage o A A'
    | Exn e x' w' => (e = ELength \/ e = EOutOfRange /\ exists i, o = DAt i /\ (length (s_elems A) <= i)%nat) /\
        exists A', holds R x' A' w' hf /\ sd_exn o A e A'
    | UB => False
    end.
  Proof.
    intros Hq Hx Hp. pose proof (segd_call_ok o x A w hf Hx Hp) as H.
    destruct (call o x w) as [r x' w'|e x' w'|]; [| |done].
    - destruct H as (A' & (? & ? & ?) & ? & ?). exists A'. by split_and!.
    - destruct H as (A' & He & Hx' & Hre). split; [|by exists A'].
      destruct e; simpl in Hre.
      + by left.
      + right. split; [done|]. destruct He as (_ & _ & He). unfold room_exn in He.
        destruct o; simpl in He; try (by destruct_and? He); try naive_solver.
      + destruct Hre as (t & Ht & _). pose proof (Hq KAlloc t) as Hq'. simpl in Hq'. congruence.
      + destruct Hre as (k & t & _ & Ht & _). pose proof (Hq k t) as Hq'. simpl in Hq'. congruence.
  Qed.

  (** ** Elements stay where they are *)

  (** Element [j] is neither removed, nor assigned to, nor moved from, and becomes
      element [j']. *)
  Definition sd_keeps (o : dop) (A : sabs) (j j' : nat) : Prop :=
    let g := sd_geom A in
    let n := length (s_elems A) in
    let unmoved x := match x with XMove k => j <> k | _ => True end in
    let inserting i k :=
      if near_front i g then (i <= j)%nat /\ j' = (j + k)%nat else (j < i)%nat /\ j' = j in
    match o with
    | DEmplaceFront x => j' = S j /\ unmoved x
    | DEmplaceBack x => j' = j /\ unmoved x
    | DEmplace i x => inserting i 1%nat /\ unmoved x
    | DInsertN i k _ => inserting i k
    | DInsertRange i vs => inserting i (length vs)
    | DPopFront => j = S j'
    | DPopBack => (S j < n)%nat /\ j' = j
    | DErase i => if near_front i g then (i < j)%nat /\ j = S j' else (j < i)%nat /\ j' = j
    | DEraseRange i k =>
        if (i + k <? n)%nat then (k <= j)%nat /\ j = (j' + (k - i))%nat else (j < i)%nat /\ j' = j
    | DResize m _ =>
        (j < m)%nat /\ j' = (j + Z.to_nat (Z.min (s_front A) (Z.of_nat m - (s_size A + g_back g))))%nat
    | DResizeFront m _ => (n <= j + m)%nat /\ (j' + n = j + m)%nat
    | DResizeBack m _ => (j < m)%nat /\ j' = j
    | DSet i _ => j <> i /\ j' = j
    | DReserveFront _ | DReserveBack _ | DShrink | DAt _ | DGet _ | DFront | DBack | DSize | DCapacity
    | DRoomFront | DRoomBack => j' = j
    | DInsertInput _ _ | DAssignN _ _ | DAssignRange _ | DAssignInput _ | DClear | DEraseIf _ | DSelfMove => False
    end.

  Lemma elem_at_moved A A' j j' p a b :
    s_segs A' = a ++ s_segs A ++ b ->
    s_front A' + Z.of_nat j' = s_front A + Z.of_nat j + SS * Z.of_nat (length a) ->
    0 <= s_front A -> elem_at A j = Some p -> elem_at A' j' = Some p.
  Proof.
    intros Hs Hf H0 Hp. unfold elem_at in *. pose proof SS_pos as HSS.
    rewrite Hf Hs (Z.mul_comm SS) Z_mod_plus_full Z_div_plus_full; [|lia].
    assert (0 <= (s_front A + Z.of_nat j) / SS) by (apply Z.div_pos; lia).
    apply fmap_Some in Hp as (q & Hq & ->). rewrite lookup_app_r; [|lia].
    replace (Z.to_nat _ - _)%nat with (Z.to_nat ((s_front A + Z.of_nat j) / SS)) by lia.
    by rewrite (lookup_app_l_Some _ _ _ _ Hq).
  Qed.
  Lemma elem_at_shrunk2 A A' j p :
    0 <= s_front A -> (j < length (s_elems A))%nat ->
    s_front A' = s_front A mod SS ->
    s_segs A' = take (Z.to_nat ((s_front A mod SS + s_size A) / SS + 1)) (drop (Z.to_nat (s_front A / SS)) (s_segs A)) ->
    elem_at A j = Some p -> elem_at A' j = Some p.
  Proof.
    intros H0 Hj Hf Hs Hp. unfold elem_at in *. pose proof SS_pos as HSS. rewrite Hf Hs.
    assert (SS <> 0) as Hne by lia. pose proof (Z.div_mod (s_front A) SS Hne) as Hd.
    pose proof (Z.mod_pos_bound (s_front A) SS HSS) as Hm. unfold s_size.
    assert (s_front A + Z.of_nat j = (s_front A mod SS + Z.of_nat j) + s_front A / SS * SS) as He by lia.
    rewrite He Z_mod_plus_full Z_div_plus_full in Hp; [|done].
    assert (0 <= s_front A / SS) by (apply Z.div_pos; lia).
    assert (0 <= (s_front A mod SS + Z.of_nat j) / SS) by (apply Z.div_pos; lia).
    assert ((s_front A mod SS + Z.of_nat j) / SS <= (s_front A mod SS + zlen (s_elems A)) / SS) by (apply Z.div_le_mono; lia).
    rewrite lookup_take; [|lia]. rewrite lookup_drop.
    by replace (Z.to_nat (s_front A / SS) + _)%nat with (Z.to_nat ((s_front A mod SS + Z.of_nat j) / SS + s_front A / SS)) by lia.
  Qed.

  Lemma sd_keeps_value o A r l' j j' v :
    sd_keeps o A j j' -> pre o A -> dev_post o (sd_geom A) (s_elems A) r l' ->
    s_elems A !! j = Some v -> l' !! j' = Some v.
  Proof.
    intros Hk Hp Hs Hj. pose proof (lookup_lt_Some _ _ _ Hj) as Hlt.
    assert (forall i n (k : list V) new, length new = n -> (i <= length k)%nat -> k !! j = Some v ->
      (i <= j /\ j' = j + n)%nat -> (take i k ++ new ++ drop i k) !! j' = Some v) as Hfront.
    { intros i n k new Hn Hi Hv [H1 ->]. rewrite app_assoc lookup_app_r; rewrite app_length take_length; [|lia].
      rewrite lookup_drop -Hv. f_equal. lia. }
    assert (forall i (k : list V) new, (i <= length k)%nat -> k !! j = Some v ->
      (j < i /\ j' = j)%nat -> (take i k ++ new) !! j' = Some v) as Hback.
    { intros i k new Hi Hv [H1 ->]. rewrite lookup_app_l; [|rewrite take_length; lia]. by rewrite lookup_take. }
    assert (forall i n (k : list V) new, length new = n -> (i <= length k)%nat -> k !! j = Some v ->
      (if near_front i (sd_geom A) then (i <= j)%nat /\ j' = (j + n)%nat else (j < i)%nat /\ j' = j) ->
      (take i k ++ new ++ drop i k) !! j' = Some v) as Hins.
    { intros i n k new Hn Hi Hv Hc. destruct (near_front i _); [by eapply Hfront|by eapply Hback]. }
    unfold sd_pre, dev_doc in Hp. simpl in Hp. unfold s_size in Hp. rewrite ?Nat2Z.id in Hp.
    destruct o; simpl in Hk, Hp, Hs; try done; rewrite ?andb_true_iff in Hp; destruct_and? Hp;
      try (destruct Hs as (v' & _ & _ & Hl')); try (destruct Hs as [_ Hl']).
    - rewrite Hl'. destruct Hk as [Hk1 Hk2]. eapply (Hins i 1%nat _ [v']); [done|rewrite arg_rest_length; lia|by rewrite arg_rest_lookup|done].
    - destruct Hk as [-> Hk]. rewrite Hl' /=. by rewrite arg_rest_lookup.
    - destruct Hk as [-> Hk]. rewrite Hl'. apply lookup_app_l_Some. by rewrite arg_rest_lookup.
    - rewrite Hl'. eapply Hins; [by rewrite replicate_length|lia|done|done].
    - rewrite Hl'. eapply Hins; [done|lia|done|done].
    - destruct Hl' as [v' Hl']. rewrite Hl' Hk in Hj. done.
    - destruct Hl' as [v' Hl']. destruct Hk as [Hk ->]. rewrite Hl' app_length /= in Hk. rewrite Hl' lookup_app_l in Hj; [done|lia].
    - rewrite Hl'. destruct (near_front i (sd_geom A)); [|apply Hback; [lia|done|done]].
      rewrite lookup_app_r; rewrite take_length; [|lia]. rewrite lookup_drop -Hj. f_equal. lia.
    - rewrite Hl'. destruct (Nat.ltb_spec (i + j0) (length (s_elems A))); [|apply Hback; [lia|done|done]].
      rewrite lookup_app_r; rewrite take_length; [|lia]. rewrite lookup_drop -Hj. f_equal. lia.
    - rewrite Hl'. unfold DevSpec.resized. destruct Hk as [Hk ->]. simpl.
      rewrite lookup_app_r; rewrite replicate_length; [|lia].
      rewrite lookup_app_l; [|rewrite take_length; lia].
      rewrite lookup_take; [|lia]. rewrite -Hj. f_equal. lia.
    - rewrite Hl'. destruct (Nat.le_gt_cases (length (s_elems A)) n) as [Hn|Hn].
      + rewrite lookup_app_r; rewrite replicate_length; [|lia]. rewrite lookup_drop -Hj. f_equal. lia.
      + replace (n - length (s_elems A))%nat with 0%nat by lia. simpl. rewrite lookup_drop -Hj. f_equal. lia.
    - rewrite Hl'. destruct Hk as [Hk ->]. apply lookup_app_l_Some. rewrite lookup_take; [done|lia].
    - by rewrite Hl' Hk.
    - by rewrite Hl' Hk.
    - by rewrite Hl' Hk.
    - by rewrite Hl' Hk.
    - by rewrite Hl' Hk.
    - by rewrite Hl' Hk.
    - by rewrite Hl' Hk.
    - rewrite Hl'. destruct Hk as [Hk ->]. by rewrite list_lookup_insert_ne.
    - by rewrite Hl' Hk.
    - by rewrite Hl' Hk.
    - by rewrite Hl' Hk.
    - by rewrite Hl' Hk.
  Qed.

  Lemma sd_keeps_at o A A' j j' p :
    sd_keeps o A j j' -> pre o A -> 0 <= s_front A -> (j < length (s_elems A))%nat -> sd_storage o A A' ->
    elem_at A j = Some p -> elem_at A' j' = Some p.
  Proof.
    intros Hk Hpre H0 Hj Hs Hp.
    assert (forall f, rests f A A' -> f + Z.of_nat j' = s_front A + Z.of_nat j -> elem_at A' j' = Some p) as Hrests.
    { intros f [Hr1 Hr2] Hf. apply (elem_at_moved A A' j j' p [] []); [by rewrite app_nil_r|simpl; lia|done|done]. }
    assert (forall need n, grows_front need n A A' -> Z.of_nat j' = Z.of_nat j + n -> elem_at A' j' = Some p) as Hfront.
    { intros need n [(new & Hn & Hlen & Hf) _] Hj'. apply (elem_at_moved A A' j j' p new []); [by rewrite app_nil_r|lia|done|done]. }
    assert (forall need f, grows_behind need f A A' -> f + Z.of_nat j' = s_front A + Z.of_nat j -> elem_at A' j' = Some p) as Hback.
    { intros need f [(new & Hn & Hlen) [Hf _]] Hj'. apply (elem_at_moved A A' j j' p [] new); [done|simpl; lia|done|done]. }
    assert (forall i n, room_made (near_front i (sd_geom A)) (Z.of_nat n) A A' ->
      (if near_front i (sd_geom A) then (i <= j)%nat /\ j' = (j + n)%nat else (j < i)%nat /\ j' = j) -> elem_at A' j' = Some p) as Hins.
    { intros i n Hr Hc. unfold room_made in Hr. destruct (near_front i _); [eapply Hfront; [done|lia]|eapply Hback; [done|lia]]. }
    destruct o; simpl in Hk, Hs; try done.
    - eapply (Hins _ 1%nat); [done|apply Hk].
    - eapply Hfront; [done|lia].
    - eapply Hback; [done|lia].
    - by eapply Hins.
    - by eapply Hins.
    - eapply Hrests; [done|lia].
    - eapply Hrests; [done|lia].
    - eapply Hrests; [done|]. destruct (near_front i _); lia.
    - eapply Hrests; [done|]. unfold s_size.
      unfold sd_pre, dev_doc in Hpre. simpl in Hpre. unfold s_size in Hpre. rewrite ?Nat2Z.id in Hpre.
      destruct (Nat.ltb_spec (i + j0) (length (s_elems A))); destruct (Z.ltb_spec (Z.of_nat i) (zlen (s_elems A) - Z.of_nat j0)); lia.
    - eapply Hback; [done|]. simpl. lia.
    - eapply Hfront; [done|]. unfold s_size. lia.
    - eapply Hback; [done|]. lia.
    - eapply Hfront; [done|]. lia.
    - eapply Hback; [done|]. lia.
    - rewrite Hk. destruct Hs as [Hs1 Hs2]. by apply (elem_at_shrunk2 A A').
    - eapply Hrests; [done|lia].
    - eapply Hrests; [done|lia].
    - eapply Hrests; [done|lia].
    - eapply Hrests; [done|lia].
    - eapply Hrests; [done|lia].
    - eapply Hrests; [done|lia].
    - eapply Hrests; [done|lia].
    - eapply Hrests; [done|lia].
    - eapply Hrests; [done|lia].
  Qed.

  Lemma segd_references o x A w hf r x' w' j j' v p :
    holds R x A w hf -> pre o A -> call o x w = Ok r x' w' ->
    sd_keeps o A j j' -> s_elems A !! j = Some v -> elem_at A j = Some p ->
    s_ref j x w = Ok p x w /\ s_ref j' x' w' = Ok p x' w' /\ heap w' !! p = Some (Live v).
  Proof.
    intros Hx Hp Hr Hk Hj He. pose proof (lookup_lt_Some _ _ _ Hj) as Hlt.
    destruct (segd_returns o x A w hf r x' w' Hx Hp Hr) as (A' & Hx' & _ & Hs & Hst & _).
    pose proof (sd_keeps_value _ _ _ _ _ _ _ Hk Hp Hs Hj) as Hj'.
    destruct (seg_bounds _ _ _ _ _ Hx) as [H0 _].
    pose proof (sd_keeps_at o A A' j j' p Hk Hp H0 Hlt Hst He) as He'.
    split; [by eapply (seg_ref true)|]. split; [eapply (seg_ref true); [done|by eapply lookup_lt_Some|done]|].
    destruct (seg_elem_mem true _ _ _ _ _ _ Hx' Hj') as (p' & Hp' & Hm). congruence.
  Qed.
  (** The same after an exception. *)
  Lemma segd_strong o x A w hf e x' w' :
    holds R x A w hf -> pre o A -> sd_strong o A -> call o x w = Exn e x' w' ->
    exists A', holds R x' A' w' hf /\ s_alloc A' = s_alloc A /\ s_elems A' = s_elems A /\
      forall j p, (j < length (s_elems A))%nat -> elem_at A j = Some p -> elem_at A' j = Some p.
  Proof.
    intros Hx Hp Hst Hr. pose proof (segd_call_ok o x A w hf Hx Hp) as H. rewrite Hr in H.
    destruct H as (A' & (Ha & Hs & He) & Hx' & _). exists A'. pose proof (Hs Hst) as Hl. split_and!; [done|done|done|].
    intros j p Hj Hjp. destruct (seg_bounds _ _ _ _ _ Hx) as [H0 _].
    assert (A' = A -> elem_at A' j = Some p) as Hsame by by intros ->.
    assert (forall b need, room_exn b need A e A' -> elem_at A' j = Some p) as Hroom.
    { intros b need [(new & _ & Hb) _]. destruct b; destruct Hb as [Hb1 Hb2].
      - apply (elem_at_moved A A' j j p new []); [by rewrite app_nil_r| |done|done].
        unfold s_size in Hb2. rewrite Hl in Hb2. lia.
      - apply (elem_at_moved A A' j j p [] new); [done|simpl; lia|done|done]. }
    destruct o; simpl in He, Hst; try done; destruct_and? He; try (by eapply Hroom); try (by apply Hsame).
    by apply (elem_at_shrunk2 A A').
  Qed.

  (** ** Size and max_size *)
  Definition d_input (o : dop) : bool :=
    match o with DInsertInput _ _ | DAssignInput _ => true | _ => false end.
  Lemma segd_within_max o x A w hf r x' w' :
    holds R x A w hf -> pre o A -> s_cap A <= max_size -> d_input o = false ->
    call o x w = Ok r x' w' ->
    exists A', holds R x' A' w' hf /\ s_size A' <= max_size.
  Proof.
    intros Hx Hp Hc Hin Hr. destruct (segd_returns o x A w hf r x' w' Hx Hp Hr) as (A' & Hx' & _ & Hs & Hst & _).
    exists A'. split; [done|]. pose proof (seg_bounds _ _ _ _ _ Hx) as Hb. pose proof (seg_bounds _ _ _ _ _ Hx') as Hb'.
    assert (forall f, rests f A A' -> s_size A' <= max_size) as Hrests.
    { intros f [Hss _]. unfold s_cap in *. rewrite Hss in Hb'. lia. }
    assert (s_elems A' = s_elems A -> s_size A' <= max_size) as Hsame.
    { intros Hss. unfold s_size in *. rewrite Hss. lia. }
    assert (forall b n, room_made b n A A' -> s_size A + n <= max_size) as Hroom.
    { intros [] n Hm; [destruct Hm as [_ Hm]|destruct Hm as (_ & _ & Hm)]; specialize (Hm Hc);
        unfold g_back in Hm; simpl in Hm; lia. }
    assert (forall n, stretched n A A' -> n <= max_size) as Hstretch.
    { intros n (_ & _ & Hm). specialize (Hm Hc). lia. }
    unfold s_size in *.
    destruct o; try done; simpl in Hs, Hst; try (by eapply Hrests); try (first [apply Hroom in Hst | apply (Hroom true) in Hst | apply (Hroom false) in Hst | apply Hstretch in Hst]);
      try (destruct Hs as (v' & _ & _ & Hl')); try (destruct Hs as [_ Hl']); try (by apply Hsame); rewrite Hl';
      repeat progress (rewrite ?app_length ?take_length ?drop_length ?replicate_length ?arg_rest_length; simpl); try lia;
      unfold s_size in *; lia.
  Qed.

  (** resize() where the new elements fit behind the last one, or nothing fits before
      the first one. *)
  Lemma segd_resize_back n v x A w hf r x' w' :
    holds R x A w hf ->
    (s_front A = 0 \/ Z.of_nat n <= s_cap A - s_front A) ->
    call (DResize n (XVal v)) x w = Ok r x' w' ->
    exists A', holds R x' A' w' hf /\
      s_elems A' = take n (s_elems A) ++ replicate (n - length (s_elems A)) v.
  Proof.
    intros Hx Hc Hr. destruct (segd_returns (DResize n (XVal v)) x A w hf r x' w' Hx eq_refl Hr) as (A' & Hx' & _ & Hs & _).
    exists A'. split; [done|]. destruct Hs as (v' & [= <-] & _ & ->). unfold DevSpec.resized, g_back. simpl.
    replace (Z.to_nat _) with 0%nat by lia. simpl. by rewrite Nat.sub_0_r.
  Qed.

  (** insert(pos, first, last). *)
  Lemma segd_insert_range i vs x A w hf :
    holds R x A w hf -> (i <= length (s_elems A))%nat ->
    (2 * Z.of_nat i < s_size A \/ Z.of_nat (length vs) <= s_front A + s_size A) ->
    match call (DInsertRange i vs) x w with
    | Ok r x' w' => exists A', holds R x' A' w' hf /\ r = RIdx (Z.of_nat i) /\
        s_elems A' = take i (s_elems A) ++ vs ++ drop i (s_elems A)
    | Exn _ x' w' => exists A', holds R x' A' w' hf
    | UB => False
    end.
  Proof.
    intros Hx Hi Hc. assert (pre (DInsertRange i vs) A) as Hp.
    { unfold sd_pre, near_front. simpl. unfold s_size in *. lia. }
    pose proof (segd_call_ok (DInsertRange i vs) x A w hf Hx Hp) as H.
    destruct (call (DInsertRange i vs) x w) as [r x' w'|e x' w'|]; [| |done].
    - destruct H as (A' & ((H1 & H2) & _) & Hx' & _). by exists A'.
    - destruct H as (A' & _ & Hx' & _). by exists A'.
  Qed.

  (** ** Constructors, destructor, functions of two objects, histories *)
  Lemma segd_ctor_safe c w hf :
    holds0 w hf ->
    match build (segdev ra) c tt w with
    | Ok x _ w' => exists A, holds R x A w' hf /\ sv_k_post c A /\ quiet w w'
    | Exn e _ w' => holds0 w' hf /\ k_exn (k_elems c) e /\ reason e w w'
    | UB => False
    end.
  Proof.
    intros Hw. pose proof (build_state (segdev_ok ra) R segdev_iff c w hf Hw I) as H. unfold build_ok in H.
    destruct (build (segdev ra) c tt w) as [x [] w'|e [] w'|]; [| |done].
    - destruct H as (A & H1 & H2 & H3). by exists A.
    - destruct H as (H1 & H2 & H3). done.
  Qed.
  Lemma segd_ctor2_safe c y B w hf :
    holds R y B w hf ->
    match build2 (segdev ra) c y w with
    | Ok x y' w' => exists A B', holds2 R x A y' B' w' hf /\ sv_k2_post c B A B' /\ quiet w w'
    | Exn e y' w' => exists B', holds R y' B' w' hf /\ sv_k2_exn c B e B' /\ reason e w w'
    | UB => False
    end.
  Proof.
    intros Hw. pose proof (build2_state (segdev_ok ra) R segdev_iff c y B w hf Hw I) as H. unfold build2_ok in H.
    destruct (build2 (segdev ra) c y w) as [x y' w'|e y' w'|]; [| |done].
    - destruct H as (A & B' & H1 & H2 & H3). by exists A, B'.
    - destruct H as (B' & H1 & H2 & H3). by exists B'.
  Qed.
  Lemma segd_two_safe o x A y B w hf :
    holds2 R x A y B w hf -> sv_pre2 o A B ->
    match sq_run2 sd_assign_range o (x, y) w with
    | Ok r (x', y') w' =>
        exists A' B', holds2 R x' A' y' B' w' hf /\ sv_post2 false o A B r A' B' /\ quiet w w'
    | Exn e (x', y') w' =>
        exists A' B', holds2 R x' A' y' B' w' hf /\ sv_exn2 o A B e A' B' /\ reason e w w'
    | UB => False
    end.
  Proof.
    intros Hw Hp. pose proof (run2_state (segdev_ok ra) R segdev_iff o x A y B w hf Hw Hp) as H.
    unfold two_ok in H.
    change (@pair (obj (segdev ra)) (obj (segdev ra)) x y) with (@pair sgdata sgdata x y) in H.
    change (run2 (segdev ra) o) with (sq_run2 sd_assign_range o) in H.
    destruct (sq_run2 sd_assign_range o (x, y) w) as [r [x' y'] w'|e [x' y'] w'|]; [| |done];
      destruct H as (A' & B' & H1 & H2 & H3); exists A', B'; by split_and!.
  Qed.
  Lemma segd_swap x A y B w hf :
    holds2 R x A y B w hf -> s_alloc A = s_alloc B ->
    match sq_run2 sd_assign_range PSwap (x, y) w with
    | Ok r (x', y') w' => r = RUnit /\ holds2 R x' B y' A w' hf
    | _ => False
    end.
  Proof.
    intros Hw Ha. pose proof (segd_two_safe PSwap x A y B w hf Hw Ha) as H.
    destruct (sq_run2 sd_assign_range PSwap (x, y) w) as [r [x' y'] w'|e [x' y'] w'|]; [| |done].
    - by destruct H as (A' & B' & Hxy & (-> & -> & ->) & _).
    - by destruct H as (A' & B' & _ & He & _).
  Qed.
  Lemma segd_dtor_safe x A w hf :
    holds R x A w hf ->
    match sq_destructor x w with
    | Ok _ _ w' => holds0 w' hf
    | _ => False
    end.
  Proof.
    intros Hw. pose proof (kill_state (segdev_ok ra) R segdev_iff x A w hf Hw) as H. unfold kill_ok in H.
    change (kill (segdev ra)) with sq_destructor in H.
    destruct (sq_destructor x w); [|done..]. apply H.
  Qed.
  Lemma segd_history (cs : list (cmd (segdev ra))) w :
    wf_world w ->
    exists os P w' A h,
      exec_all (segdev ra) cs ∅ w = Some (os, P, w') /\ atrace (segdev_spec ra) cs ∅ os A /\
      pool_mem (S := segdev_spec ra) R P A h /\ h ##ₘ heap w /\ heap w' = h ∪ heap w /\
      ((forall e, Threw e ∉ os) -> fired w' = fired w).
  Proof. apply (history_state (segdev_ok ra) R segdev_iff). Qed.
  Lemma segd_no_leak (cs : list (cmd (segdev ra))) w :
    wf_world w ->
    exists os w', exec_all (segdev ra) (cs ++ (Drop <$> created cs)) ∅ w = Some (os, ∅, w') /\
                  heap w' = heap w.
  Proof. apply (no_leak (segdev_ok ra)). Qed.

  Lemma segd_at_eval i x A w hf :
    holds R x A w hf ->
    match call (DAt i) x w with
    | Ok r _ _ => exists v, s_elems A !! i = Some v /\ r = RVal v
    | Exn e x' w' => s_elems A !! i = None /\ e = EOutOfRange /\ holds R x' A w' hf
    | UB => False
    end.
  Proof.
    intros Hx. pose proof (segd_call_ok (DAt i) x A w hf Hx eq_refl) as H.
    destruct (call (DAt i) x w) as [r x' w'|e x' w'|]; [| |done].
    - destruct H as (A' & ((v & Hv & -> & _) & _) & _). by exists v.
    - destruct H as (A' & (_ & _ & -> & Hi & ->) & Hx' & _). split_and!; [by apply lookup_ge_None|done|done].
  Qed.

  Definition segd_case_ok := @case_ok E (segdev ra) (segdev_spec ra) (segdev_ok ra) R segdev_iff seg_view (seg_view_ok true).
  Definition segd_case_exn := @case_exn E (segdev ra) (segdev_spec ra) (segdev_ok ra) R segdev_iff seg_view (seg_view_ok true).
  Definition segd_case2_ok := @case2_ok E (segdev ra) (segdev_spec ra) (segdev_ok ra) R segdev_iff seg_view (seg_view_ok true).
End segd_thms.
Arguments segd_case_ok {E SZ ra} cs i {T}. Arguments segd_case_exn {E SZ ra} cs i {T}.
Arguments segd_case2_ok {E SZ ra} cs i j {T}.

(** resize(n, value) puts new elements before the old ones. *)
Lemma segd_resize_refuted :
  exists (E : Env) (SZ : SegSize) ra n v x (A : sabs) w hf r x' w' (A' : sabs),
    holds (is_seg true) x A w hf /\ segd_call ra (DResize n (XVal v)) x w = Ok r x' w' /\
    holds (is_seg true) x' A' w' hf /\ (length (s_elems A) < n)%nat /\
    s_elems A' <> s_elems A ++ replicate (n - length (s_elems A)) v.
Proof.
  set (E := calm). set (SZ := seg4). exists E, SZ, true, 3%nat, (7%nat : @V E).
  set (A := @SAbs E 7 [(2, 0)] 1 [20; 30]%nat).
  assert (exists x w hf x' w', holds (is_seg true) x A w hf /\
    segd_call true (@DResize E 3 (@XVal E 7%nat)) x w = Ok RUnit x' w') as (x & w & hf & x' & w' & Hx & Hs).
  { apply (segd_case_ok (E := E) (SZ := SZ) (ra := true)
      [@New E (segdev true) 0 (@KRange E 7 [10; 20; 30]%nat); @Do E (segdev true) 0 DPopFront] 0); vm_compute; reflexivity. }
  pose proof (segd_returns true (@DResize E 3 (@XVal E 7%nat)) _ _ _ _ _ _ _ Hx eq_refl Hs) as (A' & Hx' & _ & (v' & [= <-] & _ & HA) & _).
  exists x, A, w, hf, RUnit, x', w', A'.
  split_and!; [exact Hx|exact Hs|exact Hx'|cbn; lia|]. rewrite HA. vm_compute. discriminate.
Qed.
