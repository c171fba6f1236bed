(** * Consequences of the specification of sfl::small_vector

    The lemmas behind Props_SmallVector.v. *)

From iris.proofmode Require Import tactics.
From Verif Require Export SmallState SeqThms Demo.
From Coq Require Import ZifyBool.
Open Scope Z_scope.

(** A call of a member function. *)
Definition small_call `{Env} (N : nat) (o : vop) : M sobj rval :=
  member (fun ib => run_vop (small_storage N ib) (small_special N ib) o).

Section small_thms.
  Context `{E : Env}.
  Variable N : nat.
  Context (HN : Z.of_nat N <= max_size).
  Notation NZ := (Z.of_nat N).
  Notation R := (is_small N).
  Notation OK := (small_vector_ok N HN).
  Notation iff := (small_iff N HN).

  Lemma small_call_ok o x (A : sabs) w hf :
    holds R x A w hf -> seq_pre o (length (q_elems A.2)) = true ->
    match small_call N o x w with
    | Ok r x' w' => exists A' : sabs,
        (A'.1 = A.1 /\ seq_post NZ o (q_elems A.2) r (q_elems A'.2) /\ q_alloc A'.2 = q_alloc A.2 /\
         seq_storage NZ o A.2 A'.2 /\ (o = OCapacity -> r = RNum (q_cap A.2))) /\
        holds R x' A' w' hf /\ quiet w w'
    | Exn e x' w' => exists A' : sabs, (A'.1 = A.1 /\ seq_exn NZ o A.2 e A'.2) /\ holds R x' A' w' hf /\ reason e w w'
    | UB => False
    end.
  Proof. intros Hx Hpre. apply (run1_state OK R iff o x A w hf Hx Hpre). Qed.

  Lemma small_returns o x (A : sabs) w hf r x' w' :
    holds R x A w hf -> seq_pre o (length (q_elems A.2)) = true ->
    small_call N o x w = Ok r x' w' ->
    exists A' : sabs, holds R x' A' w' hf /\ A'.1 = A.1 /\ seq_post NZ o (q_elems A.2) r (q_elems A'.2).
  Proof.
    intros Hx Hp Hr. pose proof (small_call_ok o x A w hf Hx Hp) as H. rewrite Hr in H.
    destruct H as (A' & (H1 & H3 & _) & H2 & _). eauto.
  Qed.
  Lemma small_safe o x (A : sabs) w hf :
    holds R x A w hf -> seq_pre o (length (q_elems A.2)) = true ->
    match small_call N o x w with
    | Ok _ x' w' | Exn _ x' w' => exists A', holds R x' A' w' hf
    | UB => False
    end.
  Proof.
    intros Hx Hp. pose proof (small_call_ok o x A w hf Hx Hp) as H.
    destruct (small_call N o x w); [| |done]; destruct H as (A' & _ & H & _); eauto.
  Qed.
  Lemma small_throws o x (A : sabs) w hf e x' w' :
    holds R x A w hf -> seq_pre o (length (q_elems A.2)) = true ->
    small_call N o x w = Exn e x' w' ->
    exists A' : sabs, holds R x' A' w' hf /\ q_alloc A'.2 = q_alloc A.2 /\
               exn_size o (q_elems A.2) (q_elems A'.2) /\ reason e w w'.
  Proof.
    intros Hx Hp Hr. pose proof (small_call_ok o x A w hf Hx Hp) as H. rewrite Hr in H.
    destruct H as (A' & (_ & H1 & H2 & _) & H3 & H4). eauto.
  Qed.
  Lemma small_no_swallow o x (A : sabs) w hf r x' w' :
    holds R x A w hf -> seq_pre o (length (q_elems A.2)) = true ->
    small_call N o x w = Ok r x' w' -> fired w' = fired w.
  Proof.
    intros Hx Hp Hr. pose proof (small_call_ok o x A w hf Hx Hp) as H. rewrite Hr in H.
    destruct H as (A' & _ & _ & H). done.
  Qed.

  Lemma is_small_det x x' (A : sabs) m m' : R x A m -> R x' A m' -> x' = x /\ m' = m.
  Proof.
    intros [H0 H1 H2 H3 H4 _ _ _ H5] [G0 G1 G2 G3 G4 _ _ _ G5]. split.
    - destruct x as [ib [a f l e]], x' as [ib' [a' f' l' e']]. simpl in *. congruence.
    - apply map_eq. intros p. by rewrite H5 G5.
  Qed.
  Lemma small_holds_det x x' (A : sabs) w w' hf :
    holds R x A w hf -> holds R x' A w' hf -> x' = x /\ heap w' = heap w.
  Proof.
    intros (_ & m & H1 & _ & H3) (_ & m' & H4 & _ & H6).
    destruct (is_small_det _ _ _ _ _ H1 H4) as [-> ->]. by rewrite H3 H6.
  Qed.

  Lemma small_strong o x (A : sabs) w hf e x' w' :
    holds R x A w hf -> seq_pre o (length (q_elems A.2)) = true -> strong o A.2 ->
    small_call N o x w = Exn e x' w' ->
    x' = x /\ heap w' = heap w.
  Proof.
    intros Hx Hp Hs Hr. pose proof (small_call_ok o x A w hf Hx Hp) as H. rewrite Hr in H.
    destruct H as (A' & (H1 & _ & _ & H3 & _) & H4 & _). specialize (H3 Hs).
    destruct A as [ib A], A' as [ib' A']. simpl in *. subst. by eapply small_holds_det.
  Qed.

  Lemma small_ctor_safe c w hf :
    holds0 w hf ->
    match build (small_vector N) c tt w with
    | Ok x _ w' => exists A : sabs, holds R x A w' hf /\ k_post NZ c A.2 /\ quiet w w'
    | Exn e _ w' => holds0 w' hf /\ k_exn (k_elems c) e /\ reason e w w'
    | UB => False
    end.
  Proof.
    intros Hw. pose proof (build_state OK R iff c w hf Hw I) as H. unfold build_ok in H.
    destruct (build (small_vector N) c tt w) as [x [] w'|e [] w'|]; [| |done].
    - destruct H as (A & H1 & H2 & H3). exists A. done.
    - destruct H as (H1 & H2 & H3). done.
  Qed.
  Lemma small_ctor2_safe c y (B : sabs) w hf :
    holds R y B w hf ->
    match build2 (small_vector N) c y w with
    | Ok x y' w' => exists A B' : sabs, holds2 R x A y' B' w' hf /\ B'.1 = B.1 /\
                      small_k2_post N c B.2 A.2 B'.2 /\ quiet w w'
    | Exn e y' w' => exists B' : sabs, holds R y' B' w' hf /\ B'.1 = B.1 /\ small_k2_exn N c B.2 e B'.2 /\ reason e w w'
    | UB => False
    end.
  Proof.
    intros Hw. pose proof (build2_state OK R iff c y B w hf Hw I) as H. unfold build2_ok in H.
    destruct (build2 (small_vector N) c y w) as [x y' w'|e y' w'|]; [| |done].
    - destruct H as (A & B' & [H0 H1] & H2 & H3). exists A, B'. done.
    - destruct H as (B' & [H0 H1] & H2 & H3). exists B'. done.
  Qed.
  Lemma small_two_safe o x (A : sabs) y (B : sabs) w hf :
    holds2 R x A y B w hf -> small_pre2 N o A.2 B.2 ->
    match small_run2 N o (x, y) w with
    | Ok r (x', y') w' =>
        exists A' B' : sabs, holds2 R x' A' y' B' w' hf /\ A'.1 = A.1 /\ B'.1 = B.1 /\
          small_post2 N o A.2 B.2 r A'.2 B'.2 /\ quiet w w'
    | Exn e (x', y') w' =>
        exists A' B' : sabs, holds2 R x' A' y' B' w' hf /\ A'.1 = A.1 /\ B'.1 = B.1 /\
          small_exn2 N o A.2 B.2 e A'.2 B'.2 /\ reason e w w'
    | UB => False
    end.
  Proof.
    intros Hw Hp. pose proof (run2_state OK R iff o x A y B w hf Hw Hp) as H. unfold two_ok in H.
    change (@pair (obj (small_vector N)) (obj (small_vector N)) x y) with (@pair sobj sobj x y) in H.
    change (run2 (small_vector N) o) with (small_run2 N o) in H.
    destruct (small_run2 N o (x, y) w) as [r [x' y'] w'|e [x' y'] w'|]; [| |done];
      destruct H as (A' & B' & (H0 & H0' & H1) & H2 & H3); exists A', B'; by split_and!.
  Qed.
  Lemma small_dtor_safe x (A : sabs) w hf :
    holds R x A w hf ->
    match kill (small_vector N) x w with
    | Ok _ _ w' => holds0 w' hf
    | _ => False
    end.
  Proof.
    intros Hw. pose proof (kill_state OK R iff x A w hf Hw) as H. unfold kill_ok in H.
    destruct (kill (small_vector N) x w); [|done..]. apply H.
  Qed.

  Lemma small_bounds x (A : sabs) w hf :
    holds R x A w hf ->
    Z.of_nat (length (q_elems A.2)) <= q_cap A.2 <= max_size /\
    (NZ <= q_cap A.2 \/ q_cap A.2 = 0 /\ q_elems A.2 = []).
  Proof.
    intros (_ & m & H & _). split; [apply H|]. pose proof (is_size _ _ _ _ H).
    destruct (is_state _ _ _ _ H) as [[? _]|[[? _]|(? & _)]]; [left; lia| |left; lia].
    right. split; [done|]. apply nil_length_inv. lia.
  Qed.

  Lemma small_cap_law o (l l' : list V) (A A' : vabs) :
    q_elems A = l -> q_elems A' = l' -> seq_storage NZ o A A' ->
    match o with
    | OEmplace _ _ | OEmplaceBack _ | OInsertN _ _ _ | OInsertRange _ _ | OInsertInput _ _
    | OAssignN _ _ | OAssignRange _ | OAssignInput _ | OResize _ _ => length l' = needed o l
    | _ => True
    end ->
    Z.of_nat (length l) <= q_cap A ->
    let cap := q_cap A in let cap' := q_cap A' in
    let size' := Z.of_nat (length l') in
    match o with
    | OReserve n => cap' = if Z.of_nat n <=? cap then cap else Z.max NZ (Z.of_nat n)
    | OShrink => cap' = Z.min cap (Z.max NZ (Z.of_nat (length l)))
    | OClear | OPopBack | OErase _ | OEraseRange _ _ | OEraseIf _ | OSet _ _ => cap' = cap
    | OResize _ _ | OAssignN _ _ | OAssignRange _ => cap' = if size' <=? cap then cap else Z.max NZ size'
    | OEmplace _ _ | OEmplaceBack _ | OInsertN _ _ _ | OInsertRange _ _ =>
        cap' = if size' <=? cap then cap
               else Z.max NZ (Z.max size' (Z.min max_size (cap + cap / 2)))
    | OCapacity => cap' = cap
    | _ => True
    end /\
    (o <> OSelfMove -> is_input o = false -> NZ <= cap -> NZ <= cap').
  Proof.
    intros <- <- H2 Hl Hb. cbn zeta. unfold seq_storage, same_storage, growth in H2.

    destruct o; try rewrite -> Hl in *; cbn [needed] in *;
      try match type of H2 with context [decide ?P] => destruct (decide P) as [Hd|Hd] end;
      try match goal with |- context [?n <=? ?c] =>
        first [rewrite -> (proj2 (Z.leb_le n c)) by lia | rewrite -> (proj2 (Z.leb_gt n c)) by lia] end;
      try (destruct H2 as [_ H2]; rewrite H2; split; [done|done]);
      try (rewrite H2; split; [lia|lia]); try (split; [done|]; intros; done).
    destruct H2 as [-> _]. split; [done|lia].
  Qed.

  Lemma small_capacity o x (A : sabs) w hf r x' w' :
    holds R x A w hf -> seq_pre o (length (q_elems A.2)) = true ->
    small_call N o x w = Ok r x' w' ->
    exists A' : sabs, holds R x' A' w' hf /\
      let cap := q_cap A.2 in let cap' := q_cap A'.2 in
      let size' := Z.of_nat (length (q_elems A'.2)) in
      match o with
      | OReserve n => cap' = if Z.of_nat n <=? cap then cap else Z.max NZ (Z.of_nat n)
      | OShrink => cap' = Z.min cap (Z.max NZ size')
      | OClear | OPopBack | OErase _ | OEraseRange _ _ | OEraseIf _ | OSet _ _ => cap' = cap
      | OResize _ _ | OAssignN _ _ | OAssignRange _ => cap' = if size' <=? cap then cap else Z.max NZ size'
      | OEmplace _ _ | OEmplaceBack _ | OInsertN _ _ _ | OInsertRange _ _ =>
          cap' = if size' <=? cap then cap
                 else Z.max NZ (Z.max size' (Z.min max_size (cap + cap / 2)))
      | OCapacity => r = RNum cap /\ cap' = cap
      | _ => True
      end /\
      (* the objects whose capacity is below N are the moved-from ones *)
      (o <> OSelfMove -> is_input o = false -> NZ <= cap -> NZ <= cap').
  Proof.
    intros Hx Hp Hr. pose proof (small_bounds _ _ _ _ Hx) as [Hb _].
    pose proof (small_call_ok o x A w hf Hx Hp) as H. rewrite Hr in H.
    destruct H as (A' & (_ & H1 & _ & H2 & H3) & H4 & _). exists A'. split; [done|].
    pose proof (grow_length _ _ _ _ _ Hp H1) as Hl. cbn zeta.
    destruct (small_cap_law o (q_elems A.2) (q_elems A'.2) A.2 A'.2 eq_refl eq_refl H2 Hl (proj1 Hb)) as [Hc Hn].
    split; [|exact Hn].
    destruct o; try exact Hc.
    - destruct H1 as [_ H1]. rewrite H1. exact Hc.
    - split; [by apply H3|exact Hc].
  Qed.

  Lemma small_view_vobj x (A : sabs) m :
    R x A m -> x = (A.1, vobj (q_alloc A.2) (q_data A.2) (length (q_elems A.2)) (q_cap A.2)).
  Proof. intros [H0 H1 H2 H3 H4 _ _ _ _]. destruct x as [ib []]. simpl in *. unfold vobj. congruence. Qed.

  Lemma small_calc_none len cap n :
    0 <= len <= cap -> cap <= max_size -> 0 <= n -> max_size < len + n -> small_calc_cap N len cap n = None.
  Proof. intros. rewrite (small_calc_cap_spec N (HN := HN)); [|lia..]. by rewrite decide_True. Qed.
  Lemma small_length_error o x (A : sabs) w hf :
    holds R x A w hf -> seq_pre o (length (q_elems A.2)) = true ->
    is_input o = false -> max_size < Z.of_nat (needed o (q_elems A.2)) ->
    small_call N o x w = Exn ELength x w.
  Proof.
    intros (_ & m & Hi & _) Hp Hin Hm. pose proof (is_size _ _ _ _ Hi) as Hb.
    pose proof (small_view_vobj _ _ _ Hi) as ->. unfold small_call, member. simpl.
    rewrite length_error_eval; [done| | |done..].
    - intros len cap n. apply small_calc_none.
    - intros n x w' Hn. simpl. unfold small_reserve, bind, check_size. destruct (_ <? _) eqn:Hlt; [done|lia].
  Qed.

  Lemma small_alias (o : vop) x (A : sabs) (w : world) hf (j : nat) (v : V) r x' w' :
    holds R x A w hf -> q_elems A.2 !! j = Some v ->
    seq_pre o (length (q_elems A.2)) = true -> small_call N o x w = Ok r x' w' ->
    exists A' : sabs, holds R x' A' w' hf /\
      let l := q_elems A.2 in let l' := q_elems A'.2 in
      match o with
      | OEmplace i (XCopy k) => k = j -> l' = take i l ++ [v] ++ drop i l
      | OEmplaceBack (XCopy k) => k = j -> l' = l ++ [v]
      | OInsertN i n (XCopy k) => k = j -> l' = take i l ++ replicate n v ++ drop i l
      | OResize n (XCopy k) => k = j -> l' = take n l ++ replicate (n - length l)%nat v
      | OEmplace i (XMove k) =>
          k = j -> l' = take i (<[j := vmoved v]> l) ++ [v] ++ drop i (<[j := vmoved v]> l)
      | OEmplaceBack (XMove k) => k = j -> l' = <[j := vmoved v]> l ++ [v]
      | _ => True
      end.
  Proof.
    intros Hx Hj Hp Hr. destruct (small_returns o x A w hf r x' w' Hx Hp Hr) as (A' & Hx' & _ & Hpost).
    exists A'. split; [done|]. by apply (alias_post NZ o _ j v r).
  Qed.

  Lemma small_stable o x (A : sabs) w hf :
    holds R x A w hf -> seq_pre o (length (q_elems A.2)) = true ->
    Z.of_nat (needed o (q_elems A.2)) <= q_cap A.2 ->
    o <> OShrink -> o <> OSelfMove ->
    match small_call N o x w with
    | Ok _ x' w' | Exn _ x' w' =>
        exists A' : sabs, holds R x' A' w' hf /\ q_data A'.2 = q_data A.2 /\ q_cap A'.2 = q_cap A.2
    | UB => False
    end.
  Proof.
    intros Hx Hp Hn Hs Hm. pose proof (small_call_ok o x A w hf Hx Hp) as H.
    destruct (small_call N o x w) as [r x' w'|e x' w'|] eqn:Hr; [| |done].
    - destruct H as (A' & (_ & H1 & _ & H2 & _) & H4 & _). exists A'. split; [done|].
      destruct o; simpl in H2, Hn; try done; try (by apply H2); try (destruct (decide _) in H2; [apply H2|lia]).
    - destruct H as (A' & (_ & _ & _ & _ & _ & H1 & _) & H4 & _). exists A'. split; [done|]. by apply H1.
  Qed.
  Lemma small_prefix o x (A : sabs) w hf r x' w' :
    holds R x A w hf -> seq_pre o (length (q_elems A.2)) = true -> moving_arg o = false ->
    small_call N o x w = Ok r x' w' ->
    exists A' : sabs, holds R x' A' w' hf /\
      forall i v, (i < touched_from o (q_elems A.2))%nat -> q_elems A.2 !! i = Some v -> q_elems A'.2 !! i = Some v.
  Proof.
    intros Hx Hp Hm Hr. destruct (small_returns o x A w hf r x' w' Hx Hp Hr) as (A' & Hx' & _ & Hpost).
    exists A'. split; [done|]. intros i v Hi Hv. by eapply prefix_post.
  Qed.

  Lemma small_history (cs : list (cmd (small_vector N))) w :
    wf_world w ->
    exists os P w' A h,
      exec_all (small_vector N) cs ∅ w = Some (os, P, w') /\ atrace (small_spec N) cs ∅ os A /\
      pool_mem (S := small_spec N) R P A h /\ h ##ₘ heap w /\ heap w' = h ∪ heap w /\
      ((forall e, Threw e ∉ os) -> fired w' = fired w).
  Proof. apply (history_state OK R iff). Qed.
  Lemma small_no_leak (cs : list (cmd (small_vector N))) w :
    wf_world w ->
    exists os w', exec_all (small_vector N) (cs ++ (Drop <$> created cs)) ∅ w = Some (os, ∅, w') /\
                  heap w' = heap w.
  Proof. apply (no_leak OK). Qed.

  Lemma small_at_ok i x (A : sabs) w hf :
    holds R x A w hf ->
    small_call N (OAt i) x w =
      match q_elems A.2 !! i with
      | Some v => Ok (RVal v) x w
      | None => Exn EOutOfRange x w
      end.
  Proof.
    intros Hx. pose proof (small_call_ok (OAt i) x A w hf Hx eq_refl) as H. destruct Hx as (Hwf & m & Hi & Hx).
    pose proof (small_view_vobj _ _ _ Hi) as ->. unfold small_call, member in *. cbn [fst snd] in *.
    rewrite at_eval in H |- *. destruct (_ <=? _) eqn:Hle.
    - rewrite lookup_ge_None_2; [done|lia].
    - destruct (heap w !! _) as [[]|]; try done. destruct H as (A' & (_ & H & _) & _).
      destruct H as (v' & Hl & [= ->] & _). by rewrite Hl.
  Qed.
  Lemma small_erase_if p x (A : sabs) w hf r x' w' :
    holds R x A w hf -> small_call N (OEraseIf p) x w = Ok r x' w' ->
    exists A' : sabs, holds R x' A' w' hf /\
      q_elems A'.2 = List.filter (fun v => negb (p v)) (q_elems A.2) /\
      r = RNum (Z.of_nat (length (q_elems A.2) - length (q_elems A'.2))%nat) /\
      q_data A'.2 = q_data A.2 /\ q_cap A'.2 = q_cap A.2.
  Proof.
    intros Hx Hr. pose proof (small_call_ok (OEraseIf p) x A w hf Hx eq_refl) as H. rewrite Hr in H.
    destruct H as (A' & (_ & (H1 & H2) & _ & H3 & _) & H4 & _). exists A'. split; [done|]. split; [done|].
    split; [|apply H3]. by rewrite H2 H1 filter_count.
  Qed.

  Lemma small_swap_kill x (A : sabs) y (B : sabs) w hf :
    holds2 R x A y B w hf ->
    (q_alloc A.2 = q_alloc B.2 \/
     pocs = true /\ (nothrow_move = true \/ (inside N A.2 <-> inside N B.2))) ->
    match small_run2 N PSwap (x, y) w with
    | Ok _ (x', y') w' | Exn _ (x', y') w' =>
        match kill (small_vector N) x' w' with
        | Ok _ _ w1 =>
            match kill (small_vector N) y' w1 with
            | Ok _ _ w2 => heap w2 = hf
            | _ => False
            end
        | _ => False
        end
    | UB => False
    end.
  Proof.
    intros Hw Hp. pose proof (small_two_safe PSwap x A y B w hf Hw Hp) as H.
    assert (forall x' y' w' (A' B' : sabs), holds2 R x' A' y' B' w' hf ->
      match kill (small_vector N) x' w' with
      | Ok _ _ w1 =>
          match kill (small_vector N) y' w1 with
          | Ok _ _ w2 => heap w2 = hf
          | _ => False
          end
      | _ => False
      end) as HK.
    { clear -HN. intros x y w A B (Hwf & mx & my & Hx & Hy & Hd1 & Hd2 & Hd3 & Hh).
      pose proof (small_dtor_safe x A w (my ∪ hf)) as HD. 
      destruct (kill (small_vector N) x w) as [? ? w1|? ? w1|];
        [|exfalso; apply HD; (split; [done|]; exists mx; split_and!; [done|by apply map_disjoint_union_r|by rewrite Hh assoc_L])..].
      destruct HD as [Hwf1 Hh1].
      { split; [done|]. exists mx. split_and!; [done|by apply map_disjoint_union_r|by rewrite Hh assoc_L]. }
      pose proof (small_dtor_safe y B w1 hf) as HD2.
      destruct (kill (small_vector N) y w1) as [? ? w2|? ? w2|];
        [|exfalso; apply HD2; (split; [done|]; by exists my)..].
      apply HD2. split; [done|]. by exists my. }
    destruct (small_run2 N PSwap (x, y) w) as [r [x' y'] w'|e [x' y'] w'|]; [| |done];
      destruct H as (A' & B' & H & _); by eapply HK.
  Qed.

  (** Reading the abstract value off memory. *)
  Definition small_view (x : sobj) (w : world) : option sabs :=
    match read_cells (v_first x.2) (osize x.2) (heap w) with
    | Some l => Some (x.1, VAbs (v_alloc x.2) (v_first x.2) l ((v_eos x.2).2 - (v_first x.2).2))
    | None => None
    end.
  Lemma small_view_ok x (A : sabs) m w : R x A m -> m ⊆ heap w -> small_view x w = Some A.
  Proof.
    intros Hi Hm. pose proof (small_view_vobj _ _ _ Hi) as Hx. unfold small_view. rewrite Hx. cbn [fst snd].
    rewrite osize_vobj. change (v_first (vobj (q_alloc A.2) (q_data A.2) (length (q_elems A.2)) (q_cap A.2))) with (q_data A.2).
    rewrite read_cells_ok.
    - destruct A as [ib [a f l cap]]. simpl. do 3 f_equal. lia.
    - intros i v Hv. eapply lookup_weaken; [|exact Hm]. rewrite (is_mem _ _ _ _ Hi).
      pose proof (is_size _ _ _ _ Hi) as Hs. pose proof (lookup_lt_Some _ _ _ Hv) as Hlt.
      assert (Hib : ib_ok N A.1) by apply (is_ib _ _ _ _ Hi).
      unfold small_cell. destruct (is_state _ _ _ _ Hi) as [[H1 H2]|[[H1 H2]|(H1 & H2 & H3)]].
      + rewrite H2. simpl. rewrite decide_True //. destruct (decide (inside N A.2)) as [_|[]]; [|done].
        unfold buffer_cell. rewrite (ib_ok_2 N _ Hib). rewrite decide_True; [|lia].
        replace (Z.to_nat _) with i by lia. by rewrite Hv.
      + lia.
      + rewrite decide_False; [|by apply (ib_ok_ne N)]. destruct (decide (inside N A.2)) as [Hin|_]; [unfold inside in *; lia|].
        unfold vec_cell, buffer_cell. simpl. rewrite H3. rewrite decide_True //.
        rewrite decide_False; [|unfold hdr_off; lia]. rewrite decide_True; [|lia].
        replace (Z.to_nat _) with i by lia. by rewrite Hv.
  Qed.
  Definition small_case_ok := @case_ok E (small_vector N) (small_spec N) OK R iff small_view small_view_ok.
  Definition small_case_exn := @case_exn E (small_vector N) (small_spec N) OK R iff small_view small_view_ok.
  Definition small_case := @case_at E (small_vector N) (small_spec N) OK R iff small_view small_view_ok.
  Definition small_case2_ok := @case2_ok E (small_vector N) (small_spec N) OK R iff small_view small_view_ok.
  Definition small_case2_exn := @case2_exn E (small_vector N) (small_spec N) OK R iff small_view small_view_ok.
  Definition small_look2 := @look2_ok E (small_vector N) (small_spec N) OK R iff small_view small_view_ok.
End small_thms.
Arguments small_case_ok {E} N HN cs i {T}.
Arguments small_case_exn {E} N HN cs i {T}.
Arguments small_case2_ok {E} N HN cs i j {T}.
Arguments small_case2_exn {E} N HN cs i j {T}.
Arguments small_look2 {E} N HN {T} cs i j.
Arguments small_case {E} N HN cs i.

(** A moved-from object. *)
Lemma small_capacity_N_refuted :
  exists (E : Env) N x (A : sabs) w hf x' w',
    Z.of_nat N <= max_size /\ holds (is_small N) x A w hf /\
    small_call N OCapacity x w = Ok (RNum 0) x' w' /\ 0 < Z.of_nat N.
Proof.
  set (E := calm). exists E, 3%nat.
  edestruct (small_case_ok (E := E) 3 (ltac:(vm_compute; discriminate))
    [@New E (small_vector 3) 1 (@KRange E 7 [10; 20; 30; 40]%nat); @NewFrom E (small_vector 3) 0 1 FromMove] 1
    (@small_call E 3 OCapacity)) as (x & w & hf & x' & w' & Hx & Hr); [vm_compute; reflexivity|].
  exists x. eexists. exists w, hf, x', w'. split; [vm_compute; discriminate|]. by split_and!.
Qed.

(** swap with one object inside, one outside, unequal propagating allocators, when
    moving an element throws. *)
Lemma small_swap_refuted :
  exists (E : Env) N x (A : sabs) y (B : sabs) w hf e x' y' w',
    Z.of_nat N <= max_size /\ pocs = true /\ holds2 (is_small N) x A y B w hf /\
    small_run2 N PSwap (x, y) w = Exn e (x', y') w' /\
    kill (small_vector N) y' w' = UB.
Proof.
  set (E := demo (fun _ t => Nat.eqb 6 t) false true true). exists E, 3%nat.
  edestruct (small_look2 (E := E) 3 (ltac:(vm_compute; discriminate))
    [@New E (small_vector 3) 0 (@KRange E 8 [5]%nat); @New E (small_vector 3) 1 (@KRange E 7 [10; 20; 30; 40]%nat)] 0 1
    (fun x y w => match @small_run2 E 3 PSwap (x, y) w with
                  | Exn e (x', y') w' => match kill (@small_vector E 3) y' w' with UB => Some e | _ => None end
                  | _ => None
                  end)) as (x & y & w & hf & Hx & Hr); [done|vm_compute; reflexivity|].
  destruct (@small_run2 E 3 PSwap (x, y) w) as [|e [x' y'] w'|] eqn:Hs; [done| |done].
  destruct (kill (@small_vector E 3) y' w') eqn:Hk; [done|done|].
  exists x. eexists. exists y. eexists. exists w, hf, e, x', y', w'. split; [vm_compute; discriminate|]. by split_and!.
Qed.
