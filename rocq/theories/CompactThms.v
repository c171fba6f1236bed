(** * Consequences of the specification of sfl::compact_vector

    The lemmas behind Props_CompactVector.v. *)

From iris.proofmode Require Import tactics.
From Verif Require Export CompactOk CompactMem VectorThms VectorDemo.
From Coq Require Import ZifyBool.
Open Scope Z_scope.

(** A call of a member function, as the code is. *)
Notation compact_call := (run_compact code_undo).
(** The same if the catch blocks of assign gave the storage back with the size it was
    allocated with. *)
Notation repaired_call := (run_compact fixed_undo).

(** [m'] returns whatever [m] returns. *)
Definition agrees `{Env} {St A} (m m' : M St A) : Prop :=
  forall s w r s' w', m s w = Ok r s' w' -> m' s w = Ok r s' w'.

Section agree.
  Context `{E : Env}.
  Lemma agrees_refl {St A} (m : M St A) : agrees m m.
  Proof. by intros s w. Qed.
  Lemma agrees_bind {St A B} (m m' : M St A) (k k' : A -> M St B) :
    agrees m m' -> (forall a, agrees (k a) (k' a)) -> agrees (bind m k) (bind m' k').
  Proof.
    intros Hm Hk s w r s' w'. unfold bind. destruct (m s w) as [a s1 w1|e s1 w1|] eqn:He; try done.
    rewrite (Hm _ _ _ _ _ He). apply Hk.
  Qed.
  Lemma agrees_try {St A} (m : M St A) h h' : agrees (try_ m h) (try_ m h').
  Proof.
    intros s w r s' w'. unfold try_. destruct (m s w) as [a s1 w1|e s1 w1|]; try done.
    by destruct (h s1 w1).
  Qed.
  Lemma agrees_on1 {St1 St2 A} (m m' : M St1 A) : agrees m m' -> agrees (on1 (S2 := St2) m) (on1 m').
  Proof.
    intros Hm [s1 s2] w r s' w'. unfold on1. simpl.
    destruct (m s1 w) as [a t v|e t v|] eqn:He; try done. by rewrite (Hm _ _ _ _ _ He).
  Qed.
  Lemma agrees_fill u u' n v : agrees (compact_assign_fill u n v) (compact_assign_fill u' n v).
  Proof.
    unfold compact_assign_fill. repeat (apply agrees_bind; [apply agrees_refl|intros ?]).
    destruct (_ =? _); [apply agrees_refl|]. repeat (apply agrees_bind; [apply agrees_refl|intros ?]).
    apply agrees_try.
  Qed.
  Lemma agrees_range u u' srcs : agrees (compact_assign_range u srcs) (compact_assign_range u' srcs).
  Proof.
    unfold compact_assign_range. cbv zeta. repeat (apply agrees_bind; [apply agrees_refl|intros ?]).
    destruct (_ =? _); [apply agrees_refl|]. repeat (apply agrees_bind; [apply agrees_refl|intros ?]).
    apply agrees_try.
  Qed.
  Lemma agrees_call u u' o : agrees (run_compact u o) (run_compact u' o).
  Proof.
    unfold run_compact. apply agrees_bind; [apply agrees_refl|intros x].
    destruct o; try apply agrees_refl; (apply agrees_bind; [|intros; apply agrees_refl]).
    - apply agrees_fill.
    - apply agrees_range.
  Qed.
  Lemma agrees_run2 u u' o : agrees (compact_run2 u o) (compact_run2 u' o).
  Proof.
    destruct o; simpl; try apply agrees_refl; (apply agrees_bind; [|intros; apply agrees_refl]).
    - unfold compact_assign_copy. repeat (apply agrees_bind; [apply agrees_refl|intros ?]).
      apply agrees_on1, agrees_range.
    - unfold compact_assign_move. repeat (apply agrees_bind; [apply agrees_refl|intros ?]).
      destruct (_ =? _)%nat; [apply agrees_refl|].
      repeat (apply agrees_bind; [apply agrees_refl|intros ?]).
      apply agrees_on1, agrees_range.
  Qed.
End agree.

Section compact_thms.
  Context `{E : Env}.
  Notation R := is_compact.

  Lemma compact_iff x (A : vabs) h : R x A h <-> cinv x A h.
  Proof. unfold cinv, is_compact. rewrite pure_sep_holds (is_vec_iff x A h). tauto. Qed.

  (** The code with the restricted client, the code with elements that do not throw, and
      the repaired code. *)
  Definition ok_code : container_ok (compact_spec code_undo false).
  Proof.
    apply compact_vector_ok. intros n [Hn| ->]; [done|]. right. apply code_undo_0.
  Defined.
  Definition ok_calm (Hn : no_throw) : container_ok (compact_spec code_undo true).
  Proof. apply compact_vector_ok. intros n _. by left. Defined.
  Definition ok_fixed : container_ok (compact_spec fixed_undo true).
  Proof. apply compact_vector_ok. intros n _. right. apply fixed_undo_ok. Defined.

  Definition iff_code : forall x A h, R x A h <-> inv ok_code x A h := compact_iff.
  Definition iff_calm Hn : forall x A h, R x A h <-> inv (ok_calm Hn) x A h := compact_iff.
  Definition iff_fixed : forall x A h, R x A h <-> inv ok_fixed x A h := compact_iff.

  Section any.
    Context (undo : Z -> M vdata unit) (b : bool) (OK : container_ok (compact_spec undo b)).
    Context (iff : forall x A h, R x A h <-> inv OK x A h).

    Lemma any_call o x (A : vabs) w hf :
      holds R x A w hf -> compact_pre b o (length (q_elems A)) = true ->
      match run_compact undo o x w with
      | Ok r x' w' => exists A', holds R x' A' w' hf /\ q_alloc A' = q_alloc A /\
          compact_post o (q_elems A) r (q_elems A') /\
          (in_place o (q_elems A) -> q_data A' = q_data A) /\ quiet w w'
      | Exn e x' w' => exists A', holds R x' A' w' hf /\ compact_exn o A e A' /\ reason e w w'
      | UB => False
      end.
    Proof.
      intros Hx Hpre. pose proof (run1_state OK R iff o x A w hf Hx Hpre) as H. unfold member_ok in H.
      change (run1 (compact_vector undo b) o) with (run_compact undo o) in H.
      destruct (run_compact undo o x w) as [r x' w'|e x' w'|]; [| |done].
      - destruct H as (A' & (H1 & H2 & H3) & H4 & H5). exists A'. exact (conj H4 (conj H1 (conj H2 (conj H3 H5)))).
      - destruct H as (A' & H1 & H2 & H3). exists A'. exact (conj H2 (conj H1 H3)).
    Qed.
    Lemma any_two o x (A : vabs) y (B : vabs) w hf :
      holds2 R x A y B w hf ->
      compact_pre2 b o (q_alloc A) (length (q_elems A)) (q_alloc B) (length (q_elems B)) = true ->
      match compact_run2 undo o (x, y) w with
      | Ok r (x', y') w' =>
          exists A' B', holds2 R x' A' y' B' w' hf /\ compact_post2 o A B r A' B' /\ quiet w w'
      | Exn e (x', y') w' =>
          exists A' B', holds2 R x' A' y' B' w' hf /\ compact_exn2 o A B e A' B' /\ reason e w w'
      | UB => False
      end.
    Proof.
      intros Hw Hp. pose proof (run2_state OK R iff o x A y B w hf Hw Hp) as H. unfold two_ok in H.
      change (@pair (obj (compact_vector undo b)) (obj (compact_vector undo b)) x y) with (@pair vdata vdata x y) in H.
      change (run2 (compact_vector undo b) o) with (compact_run2 undo o) in H.
      destruct (compact_run2 undo o (x, y) w) as [r [x' y'] w'|e [x' y'] w'|]; [| |done];
        destruct H as (A' & B' & H1 & H2 & H3); exists A', B'; exact (conj H2 (conj H1 H3)).
    Qed.
  End any.

  Definition compact_call_ok := any_call code_undo false ok_code iff_code.
  Definition compact_two_ok := any_two code_undo false ok_code iff_code.

  Lemma compact_returns o x (A : vabs) w hf r x' w' :
    holds R x A w hf -> compact_pre true o (length (q_elems A)) = true ->
    compact_call o x w = Ok r x' w' ->
    exists A', holds R x' A' w' hf /\ q_alloc A' = q_alloc A /\
      compact_post o (q_elems A) r (q_elems A') /\ (in_place o (q_elems A) -> q_data A' = q_data A) /\
      fired w' = fired w.
  Proof.
    intros Hx Hp Hr. apply (agrees_call _ fixed_undo) in Hr.
    pose proof (any_call fixed_undo true ok_fixed iff_fixed o x A w hf Hx Hp) as H. rewrite Hr in H. done.
  Qed.
  Lemma compact_two_returns o x (A : vabs) y (B : vabs) w hf r x' y' w' :
    holds2 R x A y B w hf ->
    compact_pre2 true o (q_alloc A) (length (q_elems A)) (q_alloc B) (length (q_elems B)) = true ->
    compact_run2 code_undo o (x, y) w = Ok r (x', y') w' ->
    exists A' B', holds2 R x' A' y' B' w' hf /\ compact_post2 o A B r A' B' /\ fired w' = fired w.
  Proof.
    intros Hx Hp Hr. apply (agrees_run2 _ fixed_undo) in Hr.
    pose proof (any_two fixed_undo true ok_fixed iff_fixed o x A y B w hf Hx Hp) as H. rewrite Hr in H. done.
  Qed.
  (** The block has exactly size() cells. *)
  Lemma compact_block x (A : vabs) w hf :
    holds R x A w hf ->
    q_cap A = Z.of_nat (length (q_elems A)) /\
    (q_elems A = [] -> q_data A = null) /\
    (q_elems A <> [] -> heap w !! (q_data A +ₗ hdr_off) = Some (Hdr (q_alloc A) (Z.of_nat (length (q_elems A))))).
  Proof.
    intros (_ & m & [Hi Hc] & Hd & Hh). unfold compact in Hc. split; [done|].
    split.
    - intros He. rewrite He in Hc. apply (iv_null _ _ _ Hi). simpl in Hc. lia.
    - intros Hne. assert (0 < q_cap A) as Hpos. { destruct (q_elems A); simpl in *; [done|lia]. }
      rewrite Hh. apply lookup_union_Some_l. rewrite (iv_mem _ _ _ Hi).
      destruct (iv_block _ _ _ Hi) as [_ H0]; [lia|].
      unfold vec_cell, buffer_cell. simpl. rewrite H0. rewrite decide_True //.
      rewrite decide_True; [|unfold hdr_off; lia]. by rewrite Hc.
  Qed.

  Lemma compact_throws o x (A : vabs) w hf e x' w' :
    holds R x A w hf -> compact_pre false o (length (q_elems A)) = true ->
    compact_call o x w = Exn e x' w' ->
    exists A', holds R x' A' w' hf /\ compact_exn o A e A' /\ reason e w w'.
  Proof.
    intros Hx Hp Hr. pose proof (compact_call_ok o x A w hf Hx Hp) as H. rewrite Hr in H. done.
  Qed.
  Lemma compact_det x x' A w w' hf :
    holds R x A w hf -> holds R x' A w' hf -> x' = x /\ heap w' = heap w.
  Proof.
    intros (W & m & [H1 _] & H2 & H3) (W' & m' & [H4 _] & H5 & H6).
    apply (holds_det x x' A w w' hf); (split; [done|]); eauto.
  Qed.
  Lemma compact_strong_ok o x (A : vabs) w hf e x' w' :
    holds R x A w hf -> compact_pre false o (length (q_elems A)) = true ->
    compact_strong o (q_elems A) -> compact_call o x w = Exn e x' w' ->
    x' = x /\ heap w' = heap w.
  Proof.
    intros Hx Hp Hs Hr. destruct (compact_throws o x A w hf e x' w' Hx Hp Hr) as (A' & H1 & H2 & _).
    destruct H2 as (_ & _ & H2 & _). specialize (H2 Hs). subst. by eapply compact_det.
  Qed.

  Lemma compact_ctor_safe c w hf :
    holds0 w hf ->
    match build (compact_vector code_undo false) c tt w with
    | Ok x _ w' => exists A, holds R x A w' hf /\ q_alloc A = k_alloc c /\ q_elems A = k_elems c /\ quiet w w'
    | Exn e _ w' => holds0 w' hf /\ k_exn (k_elems c) e /\ reason e w w'
    | UB => False
    end.
  Proof.
    intros Hw. pose proof (build_state ok_code R iff_code c w hf Hw I) as H. unfold build_ok in H.
    destruct (build (compact_vector code_undo false) c tt w) as [x [] w'|e [] w'|]; [| |done].
    - destruct H as (A & (H1 & H1') & H2 & H3). exists A. done.
    - destruct H as (H1 & H2 & H3). done.
  Qed.
  Lemma compact_ctor2_safe c y (B : vabs) w hf :
    holds R y B w hf ->
    match build2 (compact_vector code_undo false) c y w with
    | Ok x y' w' => exists A B', holds2 R x A y' B' w' hf /\ vec_k2_post c B A B' /\ quiet w w'
    | Exn e y' w' => exists B', holds R y' B' w' hf /\ vec_k2_exn c B e B' /\ reason e w w'
    | UB => False
    end.
  Proof.
    intros Hw. pose proof (build2_state ok_code R iff_code c y B w hf Hw I) as H. unfold build2_ok in H.
    destruct (build2 (compact_vector code_undo false) c y w) as [x y' w'|e y' w'|]; [| |done].
    - destruct H as (A & B' & H1 & H2 & H3). exists A, B'. done.
    - destruct H as (B' & H1 & H2 & H3). exists B'. done.
  Qed.
  Lemma compact_dtor_safe x (A : vabs) w hf :
    holds R x A w hf ->
    match compact_destructor x w with
    | Ok _ _ w' => holds0 w' hf
    | _ => False
    end.
  Proof.
    intros Hw. pose proof (kill_state ok_code R iff_code x A w hf Hw) as H. unfold kill_ok in H.
    simpl in H. destruct (compact_destructor x w); [|done..]. apply H.
  Qed.
  Notation cv := (compact_vector code_undo false).
  Notation cs_ := (compact_spec code_undo false).
  Lemma compact_history (cs : list (cmd cv)) w :
    wf_world w ->
    exists os P w' A h,
      exec_all cv cs ∅ w = Some (os, P, w') /\ atrace cs_ cs ∅ os A /\
      pool_mem (S := cs_) R P A h /\ h ##ₘ heap w /\ heap w' = h ∪ heap w /\
      ((forall e, Threw e ∉ os) -> fired w' = fired w).
  Proof. apply (history_state ok_code R iff_code). Qed.
  Lemma compact_no_leak (cs : list (cmd cv)) w :
    wf_world w ->
    exists os w', exec_all cv (cs ++ (Drop <$> created cs)) ∅ w = Some (os, ∅, w') /\ heap w' = heap w.
  Proof. apply (no_leak ok_code). Qed.

  (** assign *)
  Lemma compact_assign_calm o x (A : vabs) w hf :
    no_throw -> holds R x A w hf -> compact_pre true o (length (q_elems A)) = true ->
    match compact_call o x w with
    | Ok r x' w' => exists A', holds R x' A' w' hf /\ q_alloc A' = q_alloc A /\
        compact_post o (q_elems A) r (q_elems A') /\
        (in_place o (q_elems A) -> q_data A' = q_data A) /\ quiet w w'
    | Exn e x' w' => exists A', holds R x' A' w' hf /\ compact_exn o A e A' /\ reason e w w'
    | UB => False
    end.
  Proof. intros Hn. apply (any_call _ _ (ok_calm Hn) (iff_calm Hn)). Qed.
  Lemma compact_two_calm o x (A : vabs) y (B : vabs) w hf :
    no_throw -> holds2 R x A y B w hf ->
    compact_pre2 true o (q_alloc A) (length (q_elems A)) (q_alloc B) (length (q_elems B)) = true ->
    match compact_run2 code_undo o (x, y) w with
    | Ok r (x', y') w' =>
        exists A' B', holds2 R x' A' y' B' w' hf /\ compact_post2 o A B r A' B' /\ quiet w w'
    | Exn e (x', y') w' =>
        exists A' B', holds2 R x' A' y' B' w' hf /\ compact_exn2 o A B e A' B' /\ reason e w w'
    | UB => False
    end.
  Proof. intros Hn. apply (any_two _ _ (ok_calm Hn) (iff_calm Hn)). Qed.
  Definition compact_assign_fixed := any_call fixed_undo true ok_fixed iff_fixed.
  Definition compact_two_fixed := any_two fixed_undo true ok_fixed iff_fixed.

  (** resize *)
  Lemma compact_resize_value n j v x (A : vabs) w hf r x' w' :
    holds R x A w hf -> q_elems A !! j = Some v -> compact_call (OResize n (XCopy j)) x w = Ok r x' w' ->
    exists A', holds R x' A' w' hf /\
      q_elems A' = take n (q_elems A) ++ replicate (n - length (q_elems A))
                     (if nothrow_move || negb copyable then vmoved v else v).
  Proof.
    intros Hx Hj Hr. pose proof (lookup_lt_Some _ _ _ Hj) as Hlt.
    destruct (compact_returns (OResize n (XCopy j)) x A w hf r x' w') as (A' & H1 & _ & H2 & _); [done| |done|].
    { unfold compact_pre. simpl. lia. }
    exists A'. split; [done|]. destruct H2 as (u & Hu & _ & ->). f_equal.
    destruct (decide (length (q_elems A) < n)%nat) as [Hd|Hd].
    - f_equal. unfold relocated in Hu. simpl in Hu. destruct (_ || _).
      + rewrite list_lookup_fmap Hj in Hu. by injection Hu.
      + rewrite Hj in Hu. by injection Hu.
    - by replace (n - length (q_elems A))%nat with 0%nat by lia.
  Qed.
  Lemma compact_resize_outside n a x (A : vabs) w hf r x' w' :
    match a with XDef => True | XVal _ => True | _ => False end ->
    holds R x A w hf -> compact_call (OResize n a) x w = Ok r x' w' ->
    exists A', holds R x' A' w' hf /\
      q_elems A' = take n (q_elems A) ++ replicate (n - length (q_elems A))
                     match a with XVal v => v | _ => vdef end.
  Proof.
    intros Ha Hx Hr.
    destruct (compact_returns (OResize n a) x A w hf r x' w') as (A' & H1 & _ & H2 & _); [done| |done|].
    { unfold compact_pre. by destruct a. }
    exists A'. split; [done|]. destruct H2 as (u & Hu & _ & ->). f_equal. f_equal.
    destruct a; try done; simpl in Hu; congruence.
  Qed.

  Lemma compact_at_ok i x (A : vabs) w hf :
    holds R x A w hf ->
    compact_call (OAt i) x w =
      match q_elems A !! i with
      | Some v => Ok (RVal v) x w
      | None => Exn EOutOfRange x w
      end.
  Proof.
    intros (W & m & [H1 _] & H2). rewrite -(vec_at_ok i x A w hf); [done|]. split; [done|]. eauto.
  Qed.
  Lemma compact_erase_if_ok p x (A : vabs) w hf r x' w' :
    holds R x A w hf -> compact_call (OEraseIf p) x w = Ok r x' w' ->
    exists A', holds R x' A' w' hf /\
      q_elems A' = List.filter (fun v => negb (p v)) (q_elems A) /\
      r = RNum (Z.of_nat (length (q_elems A) - length (q_elems A'))%nat).
  Proof.
    intros Hx Hr. destruct (compact_returns (OEraseIf p) x A w hf r x' w') as (A' & H1 & _ & H2 & _); [done..|].
    exists A'. split; [done|]. destruct H2 as [H2 H3]. split; [done|].
    rewrite H3 H2. do 2 f_equal. apply filter_count.
  Qed.

  Lemma compact_view_ok x A m w : R x A m -> m ⊆ heap w -> vec_view x w = Some A.
  Proof. intros [Hi _]. by apply vec_view_ok. Qed.
  Definition compact_look_ok := @look_ok E cv cs_ ok_code R iff_code vec_view compact_view_ok.
  Definition compact_case_ok := @case_ok E cv cs_ ok_code R iff_code vec_view compact_view_ok.
  Definition compact_case_exn := @case_exn E cv cs_ ok_code R iff_code vec_view compact_view_ok.
  Definition compact_case := @case_at E cv cs_ ok_code R iff_code vec_view compact_view_ok.
  Definition compact_case2_ok := @case2_ok E cv cs_ ok_code R iff_code vec_view compact_view_ok.
  Definition compact_case2_exn := @case2_exn E cv cs_ ok_code R iff_code vec_view compact_view_ok.
  (** A call with undefined behaviour. *)
  Lemma compact_case_ub cs i {T} (m : M vdata T) (A : vabs) :
    look (C := cv) (S := cs_) vec_view cs i (fun x w => match m x w with UB => Some tt | _ => None end) = Some (A, tt) ->
    exists x w hf, holds R x A w hf /\ m x w = UB.
  Proof.
    intros Hl. apply compact_look_ok in Hl as (x & w & hf & Hx & Hr). exists x, w, hf. split; [done|].
    by destruct (m x w).
  Qed.
  (** What a call leaves behind. *)
  Lemma compact_case_view cs i {T} (m : M vdata T) (A A' : vabs) :
    look (C := cv) (S := cs_) vec_view cs i (fun x w => match m x w with Ok _ x' w' => vec_view x' w' | _ => None end) = Some (A, A') ->
    exists x w hf r x' w', holds R x A w hf /\ m x w = Ok r x' w' /\ vec_view x' w' = Some A'.
  Proof.
    intros Hl. apply compact_look_ok in Hl as (x & w & hf & Hx & Hr).
    destruct (m x w) as [r x' w'| |] eqn:Hm; [|done..]. exists x, w, hf, r, x', w'. done.
  Qed.
  Lemma compact_seen x (A A' : vabs) w hf : holds R x A w hf -> vec_view x w = Some A' -> A' = A.
  Proof.
    intros (_ & m & Hi & _ & Hh) Hv. rewrite (compact_view_ok _ _ _ _ Hi) in Hv; [|rewrite Hh; apply map_union_subseteq_l].
    by injection Hv.
  Qed.
  Lemma compact_case_wrong cs i {T} (m : M vdata T) (A A' : vabs) :
    look (C := cv) (S := cs_) vec_view cs i (fun x w => match m x w with Ok _ x' w' => vec_view x' w' | _ => None end) = Some (A, A') ->
    (forall x w r x' w' hf, holds R x A w hf -> m x w = Ok r x' w' -> exists A1, holds R x' A1 w' hf) ->
    exists x w hf r x' w', holds R x A w hf /\ m x w = Ok r x' w' /\ holds R x' A' w' hf.
  Proof.
    intros Hl Hsafe. apply compact_case_view in Hl as (x & w & hf & r & x' & w' & Hx & Hm & Hv).
    exists x, w, hf, r, x', w'. split; [done|]. split; [done|].
    destruct (Hsafe _ _ _ _ _ _ Hx Hm) as [A1 H1]. by rewrite (compact_seen _ _ _ _ _ H1 Hv).
  Qed.
End compact_thms.
Arguments compact_case_ok {E} cs i {T}. Arguments compact_case_exn {E} cs i {T}. Arguments compact_case {E}.
Arguments compact_case2_ok {E} cs i j {T}. Arguments compact_case2_exn {E} cs i j {T}.
Arguments compact_case_ub {E} cs i {T}. Arguments compact_case_wrong {E} cs i {T}.
