(** * [assign(n, value)] with an element of the container: contiguous containers *)

From Coq Require Import ZifyBool.
From Verif Require Export OwnFill OwnRun VectorDemo CompactThms SmallThms StaticThms.
From iris.proofmode Require Import environments tactics.
Open Scope Z_scope.
Notation fits := SmallProofs.fits.

(** ** The calls: [c.assign(n, c[i])] *)
Section calls.
  Context `{E : Env}.

  (** vector.hpp 1426-1484 [assign_fill_n], [value] a reference to element [i]. *)
  Definition vec_assign_own (n i : nat) : M vdata rval :=
    (o <- getS;; as_unit (assign_fill_ vec_storage (Z.of_nat n) (arg_of o (XCopy i))))%prog.
  (** small_vector.hpp 1832-1890 [assign_fill_n]. *)
  Definition small_assign_own (N n i : nat) : M sobj rval :=
    member (fun ib => o <- getS;; as_unit (assign_fill_ (small_storage N ib) (Z.of_nat n) (arg_of o (XCopy i))))%prog.
  (** static_vector.hpp 191-232 [assign]. *)
  Definition static_assign_own (N n i : nat) : M sobj rval :=
    member (fun _ => o <- getS;; as_unit (static_assign_fill N (Z.of_nat n) (arg_of o (XCopy i))))%prog.
  (** compact_vector.hpp 1170-1211 [assign_fill_n]. *)
  Definition compact_assign_own (n i : nat) : M vdata rval :=
    (o <- getS;; as_unit (compact_assign_fill code_undo (Z.of_nat n) (arg_of o (XCopy i))))%prog.
End calls.

Section contig.
  Context `{E : Env}.

  Lemma wp_assign_fill_own (st : storage) (so : storage_ok st) a f l cap n (i : nat) v Q X :
    l !! i = Some v -> Z.of_nat n <= cap ->
    Grow.vec_at st so a f l cap ⊢
    ((Grow.vec_at st so a f (replicate n v) cap -∗ Q RUnit (vobj a f n cap)) ∧
     (∀ l', ⟦length l' = length l⟧ -∗ Grow.vec_at st so a f l' cap -∗ X EUser (vobj a f (length l) cap))) -∗
    wp (o <- getS;; as_unit (assign_fill_ st (Z.of_nat n) (arg_of o (XCopy i))))%prog (vobj a f (length l) cap) Q X.
  Proof.
    iIntros (Hi Hn) "Hv HK". iDestruct (vec_at_len with "Hv") as "[%Hlen Hv]". destruct Hlen as [Hok Hlen].
    pose proof (so_cap_nonneg so cap Hok) as Hcm.
    wbind. iApply wp_get. wbeta. cbn [arg_of v_first vobj]. unfold as_unit. wbind.
    unfold assign_fill_. wbind. iApply wp_check_size. iSplit; [|iIntros "%"; lia].
    iIntros "_". wbind. iApply wp_capacity. wbeta. destruct (Z.leb_spec (Z.of_nat n) cap); [|lia].
    iDestruct "Hv" as "(_ & Hown & Hb)".
    iApply (wp_assign_fill_inplace_own a f l cap n i v with "Hb"); [done|done|]. iSplit.
    - iIntros "Hb". wbeta. iApply wp_ret. iDestruct "HK" as "[HK _]". iApply "HK".
      unfold Grow.vec_at. iFrame "Hown Hb". done.
    - iIntros (l') "%Hx Hb". iDestruct "HK" as "[_ HK]". iApply ("HK" with "[%//]").
      unfold Grow.vec_at. iFrame "Hown Hb". done.
  Qed.

  Lemma vec_assign_own_ok n i v x A w hf :
    holds is_vec x A w hf -> q_elems A !! i = Some v -> Z.of_nat n <= q_cap A ->
    match vec_assign_own n i x w with
    | Ok r x' w' => exists A',
        (r = RUnit /\ A' = VAbs (q_alloc A) (q_data A) (replicate n v) (q_cap A)) /\
        holds is_vec x' A' w' hf /\ quiet w w'
    | Exn e x' w' => exists A',
        (e = EUser /\ exists l', length l' = length (q_elems A) /\ A' = VAbs (q_alloc A) (q_data A) l' (q_cap A)) /\
        holds is_vec x' A' w' hf /\ reason e w w'
    | UB => False
    end.
  Proof.
    intros Hx Hi Hn. apply (state_run is_vec (vinv vec_storage vec_ok) is_vec_iff (vec_assign_own n i) x A w hf _ _ Hx).
    iIntros "[%Hxx Hv]". subst x. iApply (wp_assign_fill_own with "Hv"); [done|done|]. iSplit.
    - iIntros "Hv". iExists _. iSplit; [done|]. iApply (vinv_intro with "Hv"). by rewrite replicate_length.
    - iIntros (l') "%Hl' Hv". iExists _. iSplit; [iPureIntro; split; [done|]; by exists l'|]. by iApply (vinv_intro with "Hv").
  Qed.

  Lemma small_assign_own_ok N n i v x (A : sabs) w hf :
    fits N -> holds (is_small N) x A w hf -> q_elems A.2 !! i = Some v -> Z.of_nat n <= q_cap A.2 ->
    match small_assign_own N n i x w with
    | Ok r x' w' => exists A' : sabs,
        (r = RUnit /\ A' = (A.1, VAbs (q_alloc A.2) (q_data A.2) (replicate n v) (q_cap A.2))) /\
        holds (is_small N) x' A' w' hf /\ quiet w w'
    | Exn e x' w' => exists A' : sabs,
        (e = EUser /\ exists l', length l' = length (q_elems A.2) /\
           A' = (A.1, VAbs (q_alloc A.2) (q_data A.2) l' (q_cap A.2))) /\
        holds (is_small N) x' A' w' hf /\ reason e w w'
    | UB => False
    end.
  Proof.
    intros HN Hx Hi Hn.
    apply (state_run (is_small N) (SmallOk.sinv N HN) (is_small_iff N HN) (small_assign_own N n i) x A w hf _ _ Hx).
    destruct A as [ib A]. cbn [fst snd] in *.
    iIntros "[%Hib [%Hxx Hv]]". destruct x as [ib' x]. cbn [fst snd] in *. subst ib' x.
    unfold small_assign_own. iApply wp_member. cbn [fst snd].
    iApply (wp_assign_fill_own with "Hv"); [done|done|]. iSplit.
    - iIntros "Hv". iExists _. iSplit; [done|]. iSplit; [done|]. iApply (vinv_intro with "Hv"). by rewrite replicate_length.
    - iIntros (l') "%Hl' Hv". iExists _. iSplit; [iPureIntro; split; [done|]; by exists l'|]. iSplit; [done|]. by iApply (vinv_intro with "Hv").
  Qed.

  Lemma static_assign_own_ok N n i v x (A : tabs) w hf :
    holds (is_static N) x A w hf -> A.2 !! i = Some v -> (n <= N)%nat ->
    match static_assign_own N n i x w with
    | Ok r x' w' => exists A' : tabs,
        (r = RUnit /\ A' = (A.1, replicate n v)) /\ holds (is_static N) x' A' w' hf /\ quiet w w'
    | Exn e x' w' => exists A' : tabs,
        (e = EUser /\ exists l', length l' = length A.2 /\ A' = (A.1, l')) /\
        holds (is_static N) x' A' w' hf /\ reason e w w'
    | UB => False
    end.
  Proof.
    intros Hx Hi Hn.
    apply (state_run (is_static N) (tinv N) (static_iff N) (static_assign_own N n i) x A w hf _ _ Hx).
    destruct A as [ib l]. cbn [fst snd] in *. iIntros "[%Hib Hb]". destruct Hib as [Hib ->]. cbn [fst snd] in *.
    unfold static_assign_own. iApply wp_member. cbn [fst snd].
    wbind. iApply wp_get. wbeta. cbn [arg_of v_first vobj]. unfold as_unit. wbind.
    unfold static_assign_fill, assert_. destruct (Z.leb_spec (Z.of_nat n) (Z.of_nat N)); [|lia].
    wbind. iApply wp_ret. wbeta.
    iApply (wp_assign_fill_inplace_own 0 ib l (Z.of_nat N) n i v with "Hb"); [done|lia|]. iSplit.
    - iIntros "Hb". wbeta. iApply wp_ret. iExists _. iSplit; [done|]. iApply (tinv_intro with "Hb"); [done|]. by rewrite replicate_length.
    - iIntros (l') "%Hl' Hb". iExists _. iSplit; [iPureIntro; split; [done|]; by exists l'|]. by iApply (tinv_intro with "Hb").
  Qed.

  Lemma compact_assign_own_ok i v x A w hf :
    holds is_compact x A w hf -> q_elems A !! i = Some v ->
    match compact_assign_own (length (q_elems A)) i x w with
    | Ok r x' w' => exists A',
        (r = RUnit /\ A' = VAbs (q_alloc A) (q_data A) (replicate (length (q_elems A)) v) (q_cap A)) /\
        holds is_compact x' A' w' hf /\ quiet w w'
    | Exn e x' w' => exists A',
        (e = EUser /\ exists l', length l' = length (q_elems A) /\ A' = VAbs (q_alloc A) (q_data A) l' (q_cap A)) /\
        holds is_compact x' A' w' hf /\ reason e w w'
    | UB => False
    end.
  Proof.
    intros Hx Hi.
    apply (state_run is_compact cinv compact_iff (compact_assign_own (length (q_elems A)) i) x A w hf _ _ Hx).
    iIntros "Hv". iDestruct (cinv_open with "Hv") as (a f l) "[%HA Hv]". destruct HA as [-> ->]. cbn [q_alloc q_data q_elems q_cap] in *.
    unfold compact_assign_own. wbind. iApply wp_get. wbeta. cbn [arg_of v_first vobj cobj]. unfold as_unit. wbind.
    iDestruct (cat_open with "Hv") as "(%Hlen & Hown & Hl)".
    unfold compact_assign_fill. wbind. iApply wp_check_size. iSplit; [|iIntros "%"; lia]. iIntros "_".
    wbind. iApply wp_size. wbeta. wbind. iApply wp_get. wbeta. rewrite Z.eqb_refl. cbn [v_first v_last vobj cobj].
    iApply (wp_fill_own f l i (length l) v with "Hl"); [done|lia|done|]. rewrite drop_all app_nil_r. iSplit.
    - iIntros "Hl". wbeta. iApply wp_ret. iExists _. iSplit; [done|].
      replace (VAbs a f (replicate (length l) v) (Z.of_nat (length l))) with
        (VAbs a f (replicate (length l) v) (Z.of_nat (length (replicate (length l) v)))) by (by rewrite replicate_length).
      iApply cinv_intro; [by rewrite replicate_length|]. iApply (cat_intro with "Hown Hl"); by rewrite ?replicate_length.
    - iIntros (l') "%Hl' Hl". iExists _. iSplit; [iPureIntro; split; [done|]; by exists l'|].
      rewrite -Hl'. iApply cinv_intro; [done|]. rewrite -Hl' in Hlen. iApply (cat_intro with "Hown Hl"); done.
  Qed.
End contig.

Section cases.
  Context `{E : Env}.
  Definition vec_case_ub := @case_ub E vector vector_spec vector_ok is_vec vec_iff vec_view vec_view_ok.
  Definition small_case_ub N (HN : fits N) :=
    @case_ub E (small_vector N) (small_spec N) (small_vector_ok N HN) (is_small N) (small_iff N HN) small_view (small_view_ok N).
End cases.
