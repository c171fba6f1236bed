(** * Consequences of the specification of sfl::static_vector

    The lemmas behind Props_StaticVector.v. *)

From iris.proofmode Require Import tactics.
From Verif Require Export StaticOk StaticNoAlloc State MemProofs StaticMem SmallState SeqThms Demo.
From Coq Require Import ZifyBool.
Open Scope Z_scope.

(** A call of a member function. *)
Definition static_call `{Env} (N : nat) (o : vop) : M sobj rval :=
  member (fun _ => run_static N o).

Section static_thms.
  Context `{E : Env}.
  Variable N : nat.
  Notation NZ := (Z.of_nat N).
  Notation R := (is_static N).
  Notation OK := (static_vector_ok N).

  Lemma static_iff x (A : tabs) h : R x A h <-> tinv N x A h.
  Proof.
    unfold tinv. rewrite pure_sep_holds body_heap. destruct A as [ib l], x as [ib' x]. cbn [fst snd]. split.
    - intros [H1 H2 H3 H4 H5]. cbn [fst snd] in *. subst. split; [done|]. split; [lia|].
      intros q. rewrite H5. by rewrite (ib_ok_2 N ib H4) Z.sub_0_r.
    - intros ([H1 [= -> ->]] & H2 & H3). split; cbn [fst snd]; try done; [lia|].
      intros q. rewrite H3. by rewrite (ib_ok_2 N ib H1) Z.sub_0_r.
  Qed.
  Definition static_iff' : forall x A h, R x A h <-> inv OK x A h := static_iff.
  Notation iff := static_iff'.

  Lemma static_call_ok o x (A : tabs) w hf :
    holds R x A w hf -> static_pre N o (length A.2) = true ->
    match static_call N o x w with
    | Ok r x' w' => exists A' : tabs, (A'.1 = A.1 /\ static_post N o A.2 r A'.2) /\ holds R x' A' w' hf /\ quiet w w'
    | Exn e x' w' => exists A' : tabs, (A'.1 = A.1 /\ static_exn o A.2 e A'.2) /\ holds R x' A' w' hf /\ reason e w w'
    | UB => False
    end.
  Proof. intros Hx Hpre. apply (run1_state OK R iff o x A w hf Hx Hpre). Qed.

  Lemma static_returns o x (A : tabs) w hf r x' w' :
    holds R x A w hf -> static_pre N o (length A.2) = true ->
    static_call N o x w = Ok r x' w' ->
    exists A' : tabs, holds R x' A' w' hf /\ A'.1 = A.1 /\ static_post N o A.2 r A'.2.
  Proof.
    intros Hx Hp Hr. pose proof (static_call_ok o x A w hf Hx Hp) as H. rewrite Hr in H.
    destruct H as (A' & (H1 & H3) & H2 & _). eauto.
  Qed.
  Lemma static_safe o x (A : tabs) w hf :
    holds R x A w hf -> static_pre N o (length A.2) = true ->
    match static_call N o x w with
    | Ok _ x' w' | Exn _ x' w' => exists A' : tabs, holds R x' A' w' hf /\ A'.1 = A.1 /\ (length A'.2 <= N)%nat
    | UB => False
    end.
  Proof.
    intros Hx Hp. pose proof (static_call_ok o x A w hf Hx Hp) as H.
    destruct (static_call N o x w); [| |done]; destruct H as (A' & (H1 & _) & H & _); exists A'; (split_and!; [done|done|]);
      destruct H as (_ & m & H & _); apply H.
  Qed.
  Lemma static_bounded o x (A : tabs) w hf :
    holds R x A w hf -> static_pre N o (length A.2) = true ->
    match static_call N o x w with
    | Ok _ x' w' | Exn _ x' w' => next w' = next w /\ exists A' : tabs, holds R x' A' w' hf /\ A'.1 = A.1 /\ (length A'.2 <= N)%nat
    | UB => False
    end.
  Proof.
    intros Hx Hp. pose proof (static_safe o x A w hf Hx Hp) as H.
    assert (Hq : quiet_next (static_call N o)).
    { intros [ib s] w1. unfold static_call, member. simpl. pose proof (qn_run_static N o s w1) as Hq.
      by destruct (run_static N o s w1). }
    specialize (Hq x w). by destruct (static_call N o x w).
  Qed.
  Lemma static_throws o x (A : tabs) w hf e x' w' :
    holds R x A w hf -> static_pre N o (length A.2) = true ->
    static_call N o x w = Exn e x' w' ->
    exists A' : tabs, holds R x' A' w' hf /\ A'.1 = A.1 /\ static_exn o A.2 e A'.2 /\ reason e w w'.
  Proof.
    intros Hx Hp Hr. pose proof (static_call_ok o x A w hf Hx Hp) as H. rewrite Hr in H.
    destruct H as (A' & (H1 & H2) & H3 & H4). eauto.
  Qed.
  Lemma static_no_swallow o x (A : tabs) w hf r x' w' :
    holds R x A w hf -> static_pre N o (length A.2) = true ->
    static_call N o x w = Ok r x' w' -> fired w' = fired w.
  Proof.
    intros Hx Hp Hr. pose proof (static_call_ok o x A w hf Hx Hp) as H. rewrite Hr in H.
    destruct H as (A' & _ & _ & H). done.
  Qed.

  Lemma is_static_det x x' (A : tabs) m m' : R x A m -> R x' A m' -> x' = x /\ m' = m.
  Proof.
    intros [H0 H1 _ _ H5] [G0 G1 _ _ G5]. split.
    - destruct x, x'. simpl in *. congruence.
    - apply map_eq. intros p. by rewrite H5 G5.
  Qed.
  Lemma static_holds_det x x' (A : tabs) w w' hf :
    holds R x A w hf -> holds R x' A w' hf -> x' = x /\ heap w' = heap w.
  Proof.
    intros (_ & m & H1 & _ & H3) (_ & m' & H4 & _ & H6).
    destruct (is_static_det _ _ _ _ _ H1 H4) as [-> ->]. by rewrite H3 H6.
  Qed.
  Lemma static_strong_ok o x (A : tabs) w hf e x' w' :
    holds R x A w hf -> static_pre N o (length A.2) = true -> static_strong o A.2 ->
    static_call N o x w = Exn e x' w' ->
    x' = x /\ heap w' = heap w.
  Proof.
    intros Hx Hp Hs Hr. pose proof (static_call_ok o x A w hf Hx Hp) as H. rewrite Hr in H.
    destruct H as (A' & (H1 & H3 & _) & H4 & _). specialize (H3 Hs).
    destruct A as [ib A], A' as [ib' A']. simpl in *. subst. by eapply static_holds_det.
  Qed.

  Lemma static_ctor_safe c w hf :
    holds0 w hf -> t_pre N c = true ->
    match build (static_vector N) c tt w with
    | Ok x _ w' => exists A : tabs, holds R x A w' hf /\ A.2 = t_elems c /\ quiet w w'
    | Exn e _ w' => holds0 w' hf /\ e = EUser /\ reason e w w'
    | UB => False
    end.
  Proof.
    intros Hw Hc. pose proof (build_state OK R iff c w hf Hw Hc) as H. unfold build_ok in H.
    destruct (build (static_vector N) c tt w) as [x [] w'|e [] w'|]; [| |done].
    - destruct H as (A & H1 & H2 & H3). exists A. done.
    - destruct H as (H1 & H2 & H3). done.
  Qed.
  Lemma static_ctor2_safe c y (B : tabs) w hf :
    holds R y B w hf ->
    match build2 (static_vector N) c y w with
    | Ok x y' w' => exists A B' : tabs, holds2 R x A y' B' w' hf /\ static_k2_post c B A B' /\ quiet w w'
    | Exn e y' w' => exists B' : tabs, holds R y' B' w' hf /\ static_k2_exn c B e B' /\ reason e w w'
    | UB => False
    end.
  Proof.
    intros Hw. pose proof (build2_state OK R iff c y B w hf Hw I) as H. unfold build2_ok in H.
    destruct (build2 (static_vector N) c y w) as [x y' w'|e y' w'|]; [| |done].
    - destruct H as (A & B' & H1 & H2 & H3). exists A, B'. done.
    - destruct H as (B' & H1 & H2 & H3). exists B'. done.
  Qed.
  Lemma static_two_safe o x (A : tabs) y (B : tabs) w hf :
    holds2 R x A y B w hf ->
    match static_run2 N o (x, y) w with
    | Ok r (x', y') w' =>
        exists A' B' : tabs, holds2 R x' A' y' B' w' hf /\ static_post2 o A B r A' B' /\ quiet w w'
    | Exn e (x', y') w' =>
        exists A' B' : tabs, holds2 R x' A' y' B' w' hf /\ static_exn2 o A B e A' B' /\ reason e w w'
    | UB => False
    end.
  Proof.
    intros Hw. pose proof (run2_state OK R iff o x A y B w hf Hw I) as H. unfold two_ok in H.
    change (@pair (obj (static_vector N)) (obj (static_vector N)) x y) with (@pair sobj sobj x y) in H.
    change (run2 (static_vector N) o) with (static_run2 N o) in H.
    destruct (static_run2 N o (x, y) w) as [r [x' y'] w'|e [x' y'] w'|]; [| |done];
      destruct H as (A' & B' & H1 & H2 & H3); exists A', B'; done.
  Qed.
  Lemma static_dtor_safe x (A : tabs) w hf :
    holds R x A w hf ->
    match kill (static_vector N) x w with
    | Ok _ _ w' => holds0 w' hf
    | _ => False
    end.
  Proof.
    intros Hw. pose proof (kill_state OK R iff x A w hf Hw) as H. unfold kill_ok in H.
    destruct (kill (static_vector N) x w); [|done..]. apply H.
  Qed.

  Lemma static_alias (o : vop) x (A : tabs) (w : world) hf (j : nat) (v : V) r x' w' :
    holds R x A w hf -> A.2 !! j = Some v ->
    static_pre N o (length A.2) = true -> static_call N o x w = Ok r x' w' ->
    exists A' : tabs, holds R x' A' w' hf /\
      let l := A.2 in let l' := A'.2 in
      match o with
      | OEmplace i (XCopy k) => k = j -> l' = take i l ++ [v] ++ drop i l
      | OEmplaceBack (XCopy k) => k = j -> l' = l ++ [v]
      | OInsertN i n (XCopy k) => k = j -> l' = take i l ++ replicate n v ++ drop i l
      | OResize n (XCopy k) => k = j -> l' = take n l ++ replicate (n - length l)%nat v
      | OEmplace i (XMove k) =>
          k = j -> l' = take i (<[j := vmoved v]> l) ++ [v] ++ drop i (<[j := vmoved v]> l)
      | OEmplaceBack (XMove k) => k = j -> l' = <[j := vmoved v]> l ++ [v]
      | _ => True
      end.
  Proof.
    intros Hx Hj Hp Hr. destruct (static_returns o x A w hf r x' w' Hx Hp Hr) as (A' & Hx' & _ & Hpost & _).
    apply andb_true_iff in Hp as [Hp _].
    exists A'. split; [done|]. by apply (alias_post NZ o _ j v r).
  Qed.
  Lemma static_prefix o x (A : tabs) w hf r x' w' :
    holds R x A w hf -> static_pre N o (length A.2) = true -> moving_arg o = false ->
    static_call N o x w = Ok r x' w' ->
    exists A' : tabs, holds R x' A' w' hf /\
      forall i v, (i < touched_from o A.2)%nat -> A.2 !! i = Some v -> A'.2 !! i = Some v.
  Proof.
    intros Hx Hp Hm Hr. destruct (static_returns o x A w hf r x' w' Hx Hp Hr) as (A' & Hx' & _ & Hpost & _).
    apply andb_true_iff in Hp as [Hp _].
    exists A'. split; [done|]. intros i v Hi Hv. by eapply prefix_post.
  Qed.

  Lemma static_history (cs : list (cmd (static_vector N))) w :
    wf_world w ->
    exists os P w' A h,
      exec_all (static_vector N) cs ∅ w = Some (os, P, w') /\ atrace (static_spec N) cs ∅ os A /\
      pool_mem (S := static_spec N) R P A h /\ h ##ₘ heap w /\ heap w' = h ∪ heap w /\
      ((forall e, Threw e ∉ os) -> fired w' = fired w).
  Proof. apply (history_state OK R iff). Qed.
  Lemma static_no_leak (cs : list (cmd (static_vector N))) w :
    wf_world w ->
    exists os w', exec_all (static_vector N) (cs ++ (Drop <$> created cs)) ∅ w = Some (os, ∅, w') /\
                  heap w' = heap w.
  Proof. apply (no_leak OK). Qed.

  Lemma static_view_vobj x (A : tabs) m : R x A m -> x = (A.1, vobj 0 A.1 (length A.2) NZ).
  Proof. intros [H0 H1 _ _ _]. destruct x as [ib []]. simpl in *. unfold vobj. congruence. Qed.

  Lemma static_at_ok i x (A : tabs) w hf :
    holds R x A w hf ->
    static_call N (OAt i) x w =
      match A.2 !! i with
      | Some v => Ok (RVal v) x w
      | None => Exn EOutOfRange x w
      end.
  Proof.
    intros Hx. pose proof (static_call_ok (OAt i) x A w hf Hx eq_refl) as H. destruct Hx as (Hwf & m & Hi & Hx).
    pose proof (static_view_vobj _ _ _ Hi) as ->. unfold static_call, member in *. cbn [fst snd] in *.
    assert (Heval : run_static N (OAt i) (vobj 0 A.1 (length A.2) NZ) w =
      if Z.of_nat (length A.2) <=? Z.of_nat i then Exn EOutOfRange (vobj 0 A.1 (length A.2) NZ) w
      else match heap w !! (A.1 +ₗ Z.of_nat i) with
           | Some (Live v) => Ok (RVal v) (vobj 0 A.1 (length A.2) NZ) w
           | _ => UB
           end).
    { unfold run_static, at_, bind, getS. rewrite size_eval. unfold throw, read.
      change (v_first (vobj 0 A.1 (length A.2) NZ)) with A.1.
      destruct (_ <=? _); [done|]. by destruct (heap w !! _) as [[]|]. }
    rewrite Heval in H |- *. destruct (_ <=? _) eqn:Hle.
    - rewrite lookup_ge_None_2; [done|lia].
    - destruct (heap w !! _) as [[]|]; try done. destruct H as (A' & (_ & H & _) & _).
      destruct H as (v' & Hl & [= ->] & _). by rewrite Hl.
  Qed.
  Lemma static_erase_if p x (A : tabs) w hf r x' w' :
    holds R x A w hf -> static_call N (OEraseIf p) x w = Ok r x' w' ->
    exists A' : tabs, holds R x' A' w' hf /\
      A'.2 = List.filter (fun v => negb (p v)) A.2 /\
      r = RNum (Z.of_nat (length A.2 - length A'.2)%nat).
  Proof.
    intros Hx Hr. pose proof (static_call_ok (OEraseIf p) x A w hf Hx eq_refl) as H. rewrite Hr in H.
    destruct H as (A' & (_ & (H1 & H2) & _) & H4 & _). exists A'. split; [done|]. split; [done|].
    by rewrite H2 H1 filter_count.
  Qed.

  (** swap *)
  Lemma static_swap_ok x (A : tabs) y (B : tabs) w hf :
    holds2 R x A y B w hf ->
    match static_run2 N PSwap (x, y) w with
    | Ok _ (x', y') w' => holds2 R x' (A.1, B.2) y' (B.1, A.2) w' hf
    | Exn e (x', y') w' => exists l1 l2, holds2 R x' (A.1, l1) y' (B.1, l2) w' hf /\
        length l1 = length A.2 /\ length l2 = length B.2 /\ e = EUser /\ reason e w w'
    | UB => False
    end.
  Proof.
    intros Hw. pose proof (static_two_safe PSwap x A y B w hf Hw) as H.
    destruct (static_run2 N PSwap (x, y) w) as [r [x' y'] w'|e [x' y'] w'|]; [| |done].
    - destruct H as (A' & B' & H & (H1 & H2 & _ & H3 & H4) & _).
      destruct A', B'. simpl in *. by subst.
    - destruct H as ([ib1 l1] & [ib2 l2] & H & (H1 & H2 & H3 & H4 & H5 & _) & H6).
      simpl in *. subst. exists l1, l2. done.
  Qed.
  Lemma static_swap_kill x (A : tabs) y (B : tabs) w hf :
    holds2 R x A y B w hf ->
    match static_run2 N PSwap (x, y) w with
    | Ok _ (x', y') w' | Exn _ (x', y') w' =>
        match kill (static_vector N) x' w' with
        | Ok _ _ w1 =>
            match kill (static_vector N) y' w1 with
            | Ok _ _ w2 => heap w2 = hf
            | _ => False
            end
        | _ => False
        end
    | UB => False
    end.
  Proof.
    intros Hw. pose proof (static_two_safe PSwap x A y B w hf Hw) as H.
    assert (forall x' y' w' (A' B' : tabs), holds2 R x' A' y' B' w' hf ->
      match kill (static_vector N) x' w' with
      | Ok _ _ w1 =>
          match kill (static_vector N) y' w1 with
          | Ok _ _ w2 => heap w2 = hf
          | _ => False
          end
      | _ => False
      end) as HK.
    { clear. intros x y w A B (Hwf & mx & my & Hx & Hy & Hd1 & Hd2 & Hd3 & Hh).
      pose proof (static_dtor_safe x A w (my ∪ hf)) as HD.
      destruct (kill (static_vector N) x w) as [? ? w1|? ? w1|];
        [|exfalso; apply HD; (split; [done|]; exists mx; split_and!; [done|by apply map_disjoint_union_r|by rewrite Hh assoc_L])..].
      destruct HD as [Hwf1 Hh1].
      { split; [done|]. exists mx. split_and!; [done|by apply map_disjoint_union_r|by rewrite Hh assoc_L]. }
      pose proof (static_dtor_safe y B w1 hf) as HD2.
      destruct (kill (static_vector N) y w1) as [? ? w2|? ? w2|];
        [|exfalso; apply HD2; (split; [done|]; by exists my)..].
      apply HD2. split; [done|]. by exists my. }
    destruct (static_run2 N PSwap (x, y) w) as [r [x' y'] w'|e [x' y'] w'|]; [| |done];
      destruct H as (A' & B' & H & _); by eapply HK.
  Qed.

  (** Reading the elements off memory. *)
  Definition static_view (x : sobj) (w : world) : option tabs :=
    match read_cells (v_first x.2) (osize x.2) (heap w) with
    | Some l => Some (x.1, l)
    | None => None
    end.
  Lemma static_view_ok x (A : tabs) m w : R x A m -> m ⊆ heap w -> static_view x w = Some A.
  Proof.
    intros Hi Hm. pose proof (static_view_vobj _ _ _ Hi) as Hx. unfold static_view. rewrite Hx. cbn [fst snd].
    rewrite osize_vobj. change (v_first (vobj 0 A.1 (length A.2) NZ)) with A.1.
    rewrite read_cells_ok; [by destruct A|].
    intros i v Hv. eapply lookup_weaken; [|exact Hm]. rewrite (it_mem _ _ _ _ Hi). simpl. rewrite decide_True //.
    pose proof (it_size _ _ _ _ Hi) as Hs. pose proof (lookup_lt_Some _ _ _ Hv) as Hlt.
    assert (Hib : ib_ok N A.1) by apply (it_ib _ _ _ _ Hi).
    unfold buffer_cell. rewrite (ib_ok_2 N _ Hib). rewrite decide_True; [|lia].
    replace (Z.to_nat _) with i by lia. by rewrite Hv.
  Qed.
  Definition static_case_ok := @case_ok E (static_vector N) (static_spec N) OK R iff static_view static_view_ok.
  Definition static_case_exn := @case_exn E (static_vector N) (static_spec N) OK R iff static_view static_view_ok.
  Definition static_case := @case_at E (static_vector N) (static_spec N) OK R iff static_view static_view_ok.
  Definition static_case2_ok := @case2_ok E (static_vector N) (static_spec N) OK R iff static_view static_view_ok.
  Definition static_case2_exn := @case2_exn E (static_vector N) (static_spec N) OK R iff static_view static_view_ok.
End static_thms.
Arguments static_case_ok {E} N cs i {T}.
Arguments static_case_exn {E} N cs i {T}.
Arguments static_case2_ok {E} N cs i j {T}.
Arguments static_case2_exn {E} N cs i j {T}.
Arguments static_case {E} N cs i.
