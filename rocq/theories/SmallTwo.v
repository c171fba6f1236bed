(** * sfl::small_vector: functions of two objects *)

From Verif Require Export SmallProofs.
From iris.proofmode Require Import tactics.
Open Scope Z_scope.

Section swaps.
  Context `{E : Env} {St : Type}.
  Implicit Types s : St.

  Lemma wp_iter_swap p q v w s Q X :
    p ↦ Live v ⊢ q ↦ Live w -∗
    ((p ↦ Live w -∗ q ↦ Live v -∗ Q tt s) ∧
     (∀ v' w', p ↦ Live v' -∗ q ↦ Live w' -∗ X EUser s)) -∗
    wp (iter_swap p q) s Q X.
  Proof.
    iIntros "Hp Hq HK". unfold iter_swap. wbind. iApply (mk_ok_move1 with "Hp"). iSplit; last first.
    { iIntros "Hp". iDestruct "Hp" as (v') "[_ Hp]". iDestruct "HK" as "[_ HK]". iApply ("HK" with "Hp Hq"). }
    iIntros "Hp". wbeta. wbind. iApply (as_ok_move1 with "Hq Hp"). iSplit; last first.
    { iIntros (c') "Hq Hp". iDestruct "Hq" as (w') "Hq". iDestruct "HK" as "[_ HK]".
      iApply ("HK" with "Hp Hq"). }
    iIntros "Hq Hp". iApply (as_ok_val emp%I with "[//] Hq"). iSplit.
    - iIntros "_ Hq". iDestruct "HK" as "[HK _]". iApply ("HK" with "Hp Hq").
    - iIntros (c') "_ Hq". iDestruct "HK" as "[_ HK]". iApply ("HK" with "Hp Hq").
  Qed.

  Lemma wp_swap_ranges p q l1 l2 n s Q X :
    length l1 = n -> length l2 = n ->
    elems p l1 ⊢ elems q l2 -∗
    ((elems p l2 -∗ elems q l1 -∗ Q tt s) ∧
     (∀ l1' l2', ⟦length l1' = n /\ length l2' = n⟧ -∗ elems p l1' -∗ elems q l2' -∗ X EUser s)) -∗
    wp (swap_ranges p q n) s Q X.
  Proof.
    revert p q l1 l2 Q X. induction n as [|n IH]; iIntros (p q l1 l2 Q X H1 H2) "Hp Hq HK"; simpl.
    - iApply wp_ret. iDestruct "HK" as "[HK _]". destruct l1, l2; try done. iApply ("HK" with "Hp Hq").
    - destruct l1 as [|v l1], l2 as [|w l2]; try done. simpl in *. rewrite !elems_cons.
      iDestruct "Hp" as "[Hp Hl1]". iDestruct "Hq" as "[Hq Hl2]". wbind.
      iApply (wp_iter_swap with "Hp Hq"). iSplit.
      + iIntros "Hp Hq". iApply (IH _ _ l1 l2 with "Hl1 Hl2"); [lia|lia|]. iSplit.
        * iIntros "Hl2 Hl1". iDestruct "HK" as "[HK _]". iApply ("HK" with "[Hp Hl2] [Hq Hl1]"); iFrame.
        * iIntros (l1' l2') "%Hl Hl1 Hl2". iDestruct "HK" as "[_ HK]".
          iApply ("HK" $! (w :: l1') (v :: l2') with "[%] [Hp Hl1] [Hq Hl2]");
            [simpl; lia|rewrite elems_cons; iFrame|rewrite elems_cons; iFrame].
      + iIntros (v' w') "Hp Hq". iDestruct "HK" as "[_ HK]".
        iApply ("HK" $! (v' :: l1) (w' :: l2) with "[%] [Hp Hl1] [Hq Hl2]");
          [simpl; lia|rewrite elems_cons; iFrame|rewrite elems_cons; iFrame].
  Qed.
End swaps.

(** Swapping the contents of two objects that keep their elements inside. *)
Section inside.
  Context `{E : Env} (N : nat).
  Notation NZ := (Z.of_nat N).

  Lemma wp_swap_inside ib1 ib2 a1 l1 a2 l2 Q X :
    body ib1 l1 NZ ⊢ body ib2 l2 NZ -∗
    ((body ib1 l2 NZ -∗ body ib2 l1 NZ -∗
        Q tt (vobj a1 ib1 (length l2) NZ, vobj a2 ib2 (length l1) NZ)) ∧
     (∀ l1' l2', ⟦length l1' = length l1 /\ length l2' = length l2⟧ -∗
        body ib1 l1' NZ -∗ body ib2 l2' NZ -∗
        X EUser (vobj a1 ib1 (length l1) NZ, vobj a2 ib2 (length l2) NZ))) -∗
    wp small_swap_internal (vobj a1 ib1 (length l1) NZ, vobj a2 ib2 (length l2) NZ) Q X.
  Proof.
    iIntros "H1 H2 HK". unfold small_swap_internal. wbind. iApply wp_on1. iApply wp_size. wbeta.
    wbind. iApply wp_on2. iApply wp_size. wbeta. wbind. iApply wp_get. cbn [fst snd].
    change (v_first (vobj a1 ib1 (length l1) NZ)) with ib1.
    change (v_first (vobj a2 ib2 (length l2) NZ)) with ib2.
    iDestruct "H1" as "(%Hlc1 & Hl1 & Hr1)".
    iDestruct "H2" as "(%Hlc2 & Hl2 & Hr2)". wbind.
    destruct (Z.leb_spec (Z.of_nat (length l1)) (Z.of_nat (length l2))) as [Hle|Hlt].
    - rewrite !Nat2Z.id. wbind.
      iDestruct (elems_split _ l2 (take (length l1) l2) (drop (length l1) l2) (ib2 +ₗ Z.of_nat (length l1))
        with "Hl2") as "[Hl2 Hl3]"; [by rewrite take_drop|loc_solve|].
      iApply (wp_swap_ranges with "Hl1 Hl2"); [done|rewrite take_length; lia|]. iSplit; last first.
      { iIntros (l1' l2') "%Hl Hl1 Hl2". destruct Hl as [Hl1' Hl2'].
        iDestruct (elems_join with "Hl2 Hl3") as "Hl2"; [by rewrite Hl2'|done|].
        iDestruct "HK" as "[_ HK]". iApply ("HK" $! l1' (l2' ++ drop (length l1) l2) with "[%] [Hl1 Hr1] [Hl2 Hr2]").
        - rewrite app_length drop_length. lia.
        - iApply (body_intro with "Hl1 Hr1"); rewrite Hl1'; [done|lia|lia].
        - assert (length (l2' ++ drop (length l1) l2) = length l2) as Hll by (rewrite app_length drop_length; lia).
          iApply (body_intro with "Hl2 Hr2"); rewrite Hll; [done|lia|lia]. }
      iIntros "Hl1 Hl2". wbind.
      assert (length (drop (length l1) l2) = (length l2 - length l1)%nat) as Hdl by apply drop_length.
      iDestruct (raws_split _ _ (length (drop (length l1) l2)) (N - length l2) with "Hr1") as "[Hr1 Hr1']";
        [lia|done|].
      iApply (wp_umove with "Hl3 Hr1"); [rewrite Hdl; loc_solve|]. iSplit; last first.
      { iIntros (l') "%Hx Hl3 Hr1". destruct Hx as [[Hx _] _].
        iDestruct (raws_join _ (N - length l1) with "Hr1 Hr1'") as "Hr1"; [done|lia|].
        iDestruct (elems_join with "Hl2 Hl3") as "Hl2"; [done|done|].
        iDestruct "HK" as "[_ HK]". iApply ("HK" $! (take (length l1) l2) (l1 ++ l') with "[%] [Hl1 Hr1] [Hl2 Hr2]").
        - rewrite app_length take_length. lia.
        - iApply (body_intro with "Hl1 Hr1"); rewrite take_length Nat.min_l; [done|lia|lia|lia..].
        - assert (length (l1 ++ l') = length l2) as Hll by (rewrite app_length; lia).
          iApply (body_intro with "Hl2 Hr2"); rewrite Hll; [done|lia|lia]. }
      iIntros "Hl3 Hn". iApply (wp_destroy_a with "Hl3"); [rewrite fmap_length Hdl; loc_solve|].
      iIntros "Hl3". rewrite fmap_length. iApply wp_put. cbn [fst snd].
      rewrite (with_last_vobj _ _ _ _ (length l2)) // (with_last_vobj _ _ _ _ (length l1)) //.
      iDestruct "HK" as "[HK _]". iApply ("HK" with "[Hl1 Hn Hr1'] [Hl2 Hl3 Hr2]").
      + iDestruct (elems_join _ l2 with "Hl1 Hn") as "Hl"; [rewrite take_length; loc_solve|by rewrite take_drop|].
        iApply (body_intro with "Hl Hr1'"); [rewrite Hdl; loc_solve|lia|lia].
      + iDestruct (raws_join _ (N - length l1) with "Hl3 Hr2") as "Hr"; [rewrite Hdl; loc_solve|lia|].
        iApply (body_intro with "Hl2 Hr"); [done|lia|lia].
    - rewrite !Nat2Z.id. wbind.
      iDestruct (elems_split _ l1 (take (length l2) l1) (drop (length l2) l1) (ib1 +ₗ Z.of_nat (length l2))
        with "Hl1") as "[Hl1 Hl3]"; [by rewrite take_drop|loc_solve|].
      iApply (wp_swap_ranges with "Hl2 Hl1"); [done|rewrite take_length; lia|]. iSplit; last first.
      { iIntros (l2' l1') "%Hl Hl2 Hl1". destruct Hl as [Hl2' Hl1'].
        iDestruct (elems_join with "Hl1 Hl3") as "Hl1"; [by rewrite Hl1'|done|].
        iDestruct "HK" as "[_ HK]". iApply ("HK" $! (l1' ++ drop (length l2) l1) l2' with "[%] [Hl1 Hr1] [Hl2 Hr2]").
        - rewrite app_length drop_length. lia.
        - assert (length (l1' ++ drop (length l2) l1) = length l1) as Hll by (rewrite app_length drop_length; lia).
          iApply (body_intro with "Hl1 Hr1"); rewrite Hll; [done|lia|lia].
        - iApply (body_intro with "Hl2 Hr2"); rewrite Hl2'; [done|lia|lia]. }
      iIntros "Hl2 Hl1". wbind.
      assert (length (drop (length l2) l1) = (length l1 - length l2)%nat) as Hdl by apply drop_length.
      iDestruct (raws_split _ _ (length (drop (length l2) l1)) (N - length l1) with "Hr2") as "[Hr2 Hr2']";
        [lia|done|].
      iApply (wp_umove with "Hl3 Hr2"); [rewrite Hdl; loc_solve|]. iSplit; last first.
      { iIntros (l') "%Hx Hl3 Hr2". destruct Hx as [[Hx _] _].
        iDestruct (raws_join _ (N - length l2) with "Hr2 Hr2'") as "Hr2"; [done|lia|].
        iDestruct (elems_join with "Hl1 Hl3") as "Hl1"; [done|done|].
        iDestruct "HK" as "[_ HK]". iApply ("HK" $! (l2 ++ l') (take (length l2) l1) with "[%] [Hl1 Hr1] [Hl2 Hr2]").
        - rewrite app_length take_length. lia.
        - assert (length (l2 ++ l') = length l1) as Hll by (rewrite app_length; lia).
          iApply (body_intro with "Hl1 Hr1"); rewrite Hll; [done|lia|lia].
        - iApply (body_intro with "Hl2 Hr2"); rewrite take_length Nat.min_l; [done|lia|lia|lia..]. }
      iIntros "Hl3 Hn". iApply (wp_destroy_a with "Hl3"); [rewrite fmap_length Hdl; loc_solve|].
      iIntros "Hl3". rewrite fmap_length. iApply wp_put. cbn [fst snd].
      rewrite (with_last_vobj _ _ _ _ (length l2)) // (with_last_vobj _ _ _ _ (length l1)) //.
      iDestruct "HK" as "[HK _]". iApply ("HK" with "[Hl1 Hl3 Hr1] [Hl2 Hn Hr2']").
      + iDestruct (raws_join _ (N - length l2) with "Hl3 Hr1") as "Hr"; [rewrite Hdl; loc_solve|lia|].
        iApply (body_intro with "Hl1 Hr"); [done|lia|lia].
      + iDestruct (elems_join _ l1 with "Hl2 Hn") as "Hl"; [rewrite take_length; loc_solve|by rewrite take_drop|].
        iApply (body_intro with "Hl Hr2'"); [rewrite Hdl; loc_solve|lia|lia].
  Qed.
End inside.

Section two.
  Context `{E : Env} (N : nat) `{HN : !fits N}.
  Notation NZ := (Z.of_nat N).
  Notation sat ib := (Grow.vec_at (small_storage N ib) (small_ok N ib)).

  Lemma small_empty_vobj ib a : small_empty N ib a = vobj a ib 0 NZ.
  Proof. unfold small_empty, vobj. simpl. by rewrite loc_add_0. Qed.

  Lemma small_empty_capfor ib a :
    small_empty N ib a = vobj a ib 0 (so_capfor (small_ok N ib) 0).
  Proof. rewrite small_empty_vobj. simpl. rewrite Z.max_l; [done|lia]. Qed.

  Lemma sat_open ib a f l cap :
    sat ib a f l cap ⊢ elems f l ∗ (∀ l', ⟦length l' = length l⟧ -∗ elems f l' -∗ sat ib a f l' cap).
  Proof.
    iIntros "(%Hok & Hown & %Hlc & $ & Hr)". iIntros (l') "%Hl' Hl". unfold Grow.vec_at.
    iFrame "Hown". iSplit; [done|]. iApply (body_intro with "Hl Hr"); [by rewrite Hl'|lia|lia].
  Qed.
  Lemma sat_base ib a f l cap :
    sat ib a f l cap ⊢ ⟦ib_ok N ib /\ (f = ib <-> cap = NZ)⟧ ∗ sat ib a f l cap.
  Proof.
    iIntros "(%Hok & Hown & Hb)". simpl in *.
    iAssert (⟦ib_ok N ib⟧ ∗ small_own N ib a f cap)%I with "[Hown]" as "[%Hib Hown]".
    { iDestruct "Hown" as "[%H1 H]". iSplit; [done|]. unfold small_own. iFrame. done. }
    destruct (decide (f = ib)) as [->|Hne].
    - rewrite small_own_ib. iDestruct "Hown" as "[_ ->]". iSplit; [done|]. unfold Grow.vec_at. simpl.
      rewrite small_own_ib. iFrame "Hb". done.
    - destruct (decide (cap = NZ)) as [->|Hc].
      + by iDestruct (small_own_base with "Hown") as "[-> _]".
      + iSplit; [done|]. unfold Grow.vec_at. by iFrame.
  Qed.

  (** An object that uses its internal storage. *)
  Lemma sat_inside ib a l : sat ib a ib l NZ ⊣⊢ ⟦ib_ok N ib⟧ ∗ body ib l NZ.
  Proof.
    unfold Grow.vec_at. simpl. rewrite small_own_ib. iSplit.
    - iIntros "(_ & [% _] & $)". done.
    - iIntros "[% $]". pose proof HN. iSplit; [iPureIntro; unfold small_cap, fits in *; lia|]. done.
  Qed.
  (** An object that does not. *)
  Lemma sat_outside ib a f l cap :
    f <> ib ->
    sat ib a f l cap ⊣⊢ ⟦small_cap N cap /\ ib_ok N ib /\ ext_cap N cap⟧ ∗ ablock a f cap ∗ body f l cap ∗ raws ib N.
  Proof.
    intros Hne. unfold Grow.vec_at. simpl. rewrite small_own_ext; [|done]. iSplit.
    - iIntros "(% & (% & % & $ & $) & $)". done.
    - iIntros "(%H1 & $ & $ & $)". destruct H1 as (? & ? & ?). done.
  Qed.
  (** Storage from the allocator is not the internal storage of another object. *)
  Lemma outside_ne ib ib' a f l cap :
    f <> ib -> ib_ok N ib' -> sat ib a f l cap ⊢ ⟦f <> ib'⟧ ∗ sat ib a f l cap.
  Proof.
    iIntros (Hne Hib') "H". rewrite sat_outside; [|done].
    iDestruct "H" as "(%H & Hb & Hrest)". destruct H as (H1 & H2 & H3).
    destruct (decide (cap = 0)) as [->|Hc].
    - rewrite ablock_0. iDestruct "Hb" as %->. iFrame "Hrest". iSplit; [|by iFrame "%"]. iPureIntro.
      unfold ib_ok in *. case_decide; [done|]. intros <-. simpl in Hib'. lia.
    - iDestruct (ablock_not_ib N ib' with "Hb") as "[%Hp Hb]"; [unfold ext_cap in *; lia|done|].
      iFrame. by iPureIntro; naive_solver.
  Qed.
  (** The moved-from state. *)
  Lemma sat_moved ib a : ib_ok N ib -> raws ib N ⊢ sat ib a null [] 0.
  Proof.
    iIntros (Hib) "Hi". destruct (decide (N = 0%nat)) as [HN0|HN0].
    - iDestruct (small_at_base N ib a with "Hi") as "Hv"; [done|].
      unfold ib_ok in Hib. rewrite decide_True in Hib; [|done].
      assert (NZ = 0) as -> by lia. by rewrite -{1}Hib.
    - iApply (small_at_null N ib with "Hi"); [lia|done].
  Qed.
  Lemma sat_fresh ib a : ib_ok N ib -> raws ib N ⊢ sat ib a ib [] (so_capfor (small_ok N ib) 0).
  Proof. intros Hib. simpl. rewrite Z.max_l; [|lia]. by apply small_at_base. Qed.

  (** Handing storage from the allocator over to another object. *)
  Lemma sat_steal ib ib' a f l cap :
    f <> ib -> ib_ok N ib' ->
    sat ib a f l cap ⊢ raws ib' N -∗ sat ib' a f l cap ∗ raws ib N.
  Proof.
    iIntros (Hne Hib') "H Hi'". iDestruct (outside_ne _ ib' with "H") as "[%Hne' H]"; [done|done|].
    rewrite !sat_outside //. iDestruct "H" as "(%H & $ & $ & $)". iFrame. by iPureIntro; naive_solver.
  Qed.

  (** *** Construction *)

  Lemma wp_small_init_copy ib1 ib2 a1 a2 f2 l2 c2 Q X :
    ib_ok N ib1 ->
    raws ib1 N ⊢ sat ib2 a2 f2 l2 c2 -∗
    ((∀ f', sat ib1 a1 f' l2 (Z.max NZ (Z.of_nat (length l2))) -∗ sat ib2 a2 f2 l2 c2 -∗
        Q tt (vobj a1 f' (length l2) (Z.max NZ (Z.of_nat (length l2))), vobj a2 f2 (length l2) c2)) ∧
     (∀ e s1, ⟦ctor_fail (length l2) e⟧ -∗ raws ib1 N -∗ sat ib2 a2 f2 l2 c2 -∗
        X e (s1, vobj a2 f2 (length l2) c2))) -∗
    wp (small_initialize_copy N ib1) (small_empty N ib1 a1, vobj a2 f2 (length l2) c2) Q X.
  Proof.
    iIntros (Hib) "Hi Hv HK". unfold small_initialize_copy. wbind. iApply wp_get. wbind. cbn [fst snd].
    iApply wp_range; [done|]. iApply wp_on1. rewrite small_empty_capfor.
    iDestruct (sat_open with "Hv") as "[Hl Hv]".
    iDestruct (sat_fresh ib1 a1 with "Hi") as "H0"; [done|].
    iApply (wp_init_range _ (small_ok N ib1) _ _ _ a1 ib1 _ _ with "Hl H0"); [apply mks_refs_copy|].
    iSplit.
    - iIntros (f') "Hl H1". iDestruct "HK" as "[HK _]".
      iApply ("HK" with "H1"). by iApply "Hv".
    - iIntros (e s) "%Hf Hl [_ Hi]". iDestruct "HK" as "[_ HK]".
      iApply ("HK" with "[//] Hi"). iApply "Hv"; [done|]. by destruct e.
  Qed.

  (** [how]: what happens to the storage when a source with storage ([f2], [c2])
      is moved from; [same]: allocators equal. *)
  Definition taken (ib1 ib2 : loc) (same : bool) (f2 : loc) (c2 : Z) (l2 : list V)
      (f' : loc) (c' : Z) (f2' : loc) (l2' : list V) (c2' : Z) : Prop :=
    if decide (c2 = NZ) then f2' = f2 /\ c2' = c2 /\ l2' = vmoved <$> l2
    else if same then f' = f2 /\ c' = c2 /\ f2' = null /\ l2' = [] /\ c2' = 0
    else f2' = f2 /\ c2' = c2 /\ l2' = vmoved <$> l2.

  Lemma wp_small_init_move ib1 ib2 a1 a2 f2 l2 c2 Q X :
    ib_ok N ib1 ->
    raws ib1 N ⊢ sat ib2 a2 f2 l2 c2 -∗
    ((∀ f' c' f2' l2' c2',
        ⟦taken ib1 ib2 (bool_decide (a1 = a2)) f2 c2 l2 f' c' f2' l2' c2' /\
         (c2 = NZ \/ a1 <> a2 -> c' = Z.max NZ (Z.of_nat (length l2)))⟧ -∗
        sat ib1 a1 f' l2 c' -∗ sat ib2 a2 f2' l2' c2' -∗
        Q tt (vobj a1 f' (length l2) c', vobj a2 f2' (length l2') c2')) ∧
     (∀ e s1 l2', ⟦ctor_fail (length l2) e /\ (c2 = NZ /\ e = EUser /\ nothrow_move = false \/ c2 <> NZ /\ a1 <> a2) /\
                   length l2' = length l2 /\ (e <> EUser -> l2' = l2)⟧ -∗
        raws ib1 N -∗ sat ib2 a2 f2 l2' c2 -∗ X e (s1, vobj a2 f2 (length l2') c2))) -∗
    wp (small_initialize_move N ib1 ib2) (small_empty N ib1 a1, vobj a2 f2 (length l2) c2) Q X.
  Proof.
    iIntros (Hib1) "Hi Hv HK". unfold small_initialize_move. wbind. iApply wp_get. cbn [fst snd].
    iDestruct (sat_base with "Hv") as "[%Hb Hv]". destruct Hb as [Hib2 Hbase].
    change (v_alloc (small_empty N ib1 a1)) with a1.
    change (v_alloc (vobj a2 f2 (length l2) c2)) with a2.
    change (v_first (vobj a2 f2 (length l2) c2)) with f2.
    destruct (decide (f2 = ib2)) as [->|Hne].
    - rewrite loc_eqb_refl. assert (c2 = NZ) as -> by tauto. wbind.
      change (v_first (small_empty N ib1 a1)) with ib1.
      change (v_last (vobj a2 ib2 (length l2) NZ)) with (ib2 +ₗ Z.of_nat (length l2)).
      rewrite sat_inside. iDestruct "Hv" as "(_ & %Hlc & Hl & Hr)".
      iDestruct (raws_split _ _ (length l2) (N - length l2) with "Hi") as "[Hi1 Hi2]"; [lia|done|].
      iApply (wp_umove with "Hl Hi1"); [done|]. iSplit.
      + iIntros "Hl Hn". iApply wp_on1. rewrite small_empty_vobj.
        iApply (wp_set_last _ _ _ (length l2)); [done|]. iDestruct "HK" as "[HK _]".
        iSpecialize ("HK" $! ib1 NZ ib2 (vmoved <$> l2) NZ with "[%] [Hn Hi2] [Hl Hr]").
        * split; [|lia]. unfold taken. by rewrite decide_True.
        * rewrite sat_inside. iSplit; [done|]. iApply (body_intro with "Hn Hi2"); [done|lia|lia].
        * rewrite sat_inside. iSplit; [done|].
          iApply (body_intro with "Hl Hr"); rewrite fmap_length; [done|lia|lia].
        * by rewrite fmap_length.
      + iIntros (l') "%Hx Hl Hi1". destruct Hx as [[Hx1 Hx2] Hx3].
        iDestruct (raws_join _ N with "Hi1 Hi2") as "Hi"; [done|lia|]. iDestruct "HK" as "[_ HK]".
        iSpecialize ("HK" $! EUser (small_empty N ib1 a1) l' with "[%] Hi [Hl Hr]"); [| |by rewrite Hx1].
        * split; [done|]. split; [by left|]. split; [done|done].
        * rewrite sat_inside. iSplit; [done|].
          iApply (body_intro with "Hl Hr"); rewrite Hx1; [done|lia|lia].
    - rewrite (proj2 (loc_eqb_false f2 ib2)) //. assert (c2 <> NZ) as Hc2 by tauto.
      destruct (Nat.eqb_spec a1 a2) as [<-|Ha].
      + rewrite bool_decide_eq_true_2; [|done]. iApply wp_put. iDestruct "HK" as "[HK _]".
        iDestruct (sat_steal _ ib1 with "Hv Hi") as "[Hv Hi]"; [done|done|].
        iSpecialize ("HK" $! f2 c2 null [] 0 with "[%] Hv [Hi]").
        * split; [|naive_solver]. unfold taken. by rewrite decide_False.
        * by iApply sat_moved.
        * rewrite vec_nil_storage. done.
      + rewrite bool_decide_eq_false_2; [|done]. wbind. iApply wp_range; [done|].
        iApply wp_on1. rewrite small_empty_capfor.
        iDestruct (sat_open with "Hv") as "[Hl Hv]".
        iDestruct (sat_fresh ib1 a1 with "Hi") as "H0"; [done|].
        iApply (wp_init_range _ (small_ok N ib1) _ _ _ a1 ib1 _ _ with "Hl H0"); [apply mks_refs_move|].
        iSplit.
        * iIntros (f') "Hl H1". iDestruct "HK" as "[HK _]".
          iSpecialize ("HK" $! f' (Z.max NZ (Z.of_nat (length l2))) f2 (vmoved <$> l2) c2 with "[%] H1 [Hv Hl]").
          -- split; [|done]. unfold taken. by rewrite decide_False.
          -- iApply ("Hv" with "[%] Hl"). by rewrite fmap_length.
          -- by rewrite fmap_length.
        * iIntros (e s) "%Hf Hl [_ Hi]". iDestruct "HK" as "[_ HK]".
          destruct (decide (e = EUser)) as [->|He].
          -- iDestruct "Hl" as (l') "[%Hl' Hl]". destruct Hl' as [Hl' _]. rewrite -Hl'.
             iApply ("HK" $! EUser s l' with "[%] Hi"); [|by iApply "Hv"].
             split; [done|]. split; [by right|]. by split.
          -- iApply ("HK" $! e s l2 with "[%] Hi").
             { split; [done|]. split; [by right|done]. }
             iApply "Hv"; [done|]. by destruct e.
  Qed.

  (** *** Assignment *)

  Lemma sat_realloc ib a a' : sat ib a ib [] NZ ⊢ sat ib a' ib [] NZ.
  Proof. by rewrite !sat_inside. Qed.

  Lemma wp_small_propagate (flag : bool) ib1 a1 f1 l1 c1 o2 Q X :
    sat ib1 a1 f1 l1 c1 ⊢
    (∀ f' l' c', ⟦if flag && negb (a1 =? v_alloc o2)%nat then f' = ib1 /\ l' = [] /\ c' = NZ
                  else f' = f1 /\ l' = l1 /\ c' = c1⟧ -∗
        sat ib1 (if flag then v_alloc o2 else a1) f' l' c' -∗
        Q tt (vobj (if flag then v_alloc o2 else a1) f' (length l') c', o2)) -∗
    wp (if flag then
          (if negb (a1 =? v_alloc o2)%nat then on1 (reset_ (small_storage N ib1) NZ) else ret tt);;
          on1 (modS (with_alloc (v_alloc o2)))
        else ret tt)%prog (vobj a1 f1 (length l1) c1, o2) Q X.
  Proof.
    iIntros "Hv HK". destruct flag; simpl; last first.
    { iApply wp_ret. by iApply ("HK" with "[] Hv"). }
    wbind. destruct (Nat.eqb_spec a1 (v_alloc o2)) as [->|Hne]; simpl.
    - iApply wp_ret. iApply wp_on1. iApply wp_modify. by iApply ("HK" with "[] Hv").
    - iApply wp_on1. iApply (wp_small_reset with "Hv").
      iIntros "Hv". iApply wp_on1. iApply wp_modify.
      iApply ("HK" $! ib1 [] NZ); [done|]. by iApply sat_realloc.
  Qed.

  (** The storage of a target with capacity [c1], allocator [a1], after [n]
      elements were assigned to it one by one; [flag]: the allocator propagates. *)
  Definition assigned (flag : bool) (a1 a2 : nat) (f1 : loc) (c1 : Z) (n : nat) (f' : loc) (c' : Z) : Prop :=
    if decide (Z.of_nat n <= c1 /\ (flag = false \/ a1 = a2)) then f' = f1 /\ c' = c1
    else c' = Z.max NZ (Z.of_nat n).

  Lemma assigned_intro ib1 (flag : bool) a1 a2 f1 c1 (l1 : list V) n f0 l0 c0 f' c' :
    small_cap N c1 ->
    (if flag && negb (a1 =? a2)%nat then f0 = ib1 /\ l0 = [] /\ c0 = NZ else f0 = f1 /\ l0 = l1 /\ c0 = c1) ->
    (if decide (c0 < Z.of_nat n) then c' = Z.max NZ (Z.of_nat n) else f' = f0 /\ c' = c0) ->
    assigned flag a1 a2 f1 c1 n f' c'.
  Proof.
    unfold assigned. intros Hsc Hp Hs.
    destruct flag; [destruct (Nat.eqb_spec a1 a2) as [Ha|Ha]|]; simpl in Hp; destruct Hp as (-> & -> & ->);
      repeat case_decide; try lia; try done; try naive_solver lia.
  Qed.

  Lemma wp_small_assign_copy ib1 ib2 a1 f1 l1 c1 a2 f2 l2 c2 Q X :
    sat ib1 a1 f1 l1 c1 ⊢ sat ib2 a2 f2 l2 c2 -∗
    ((∀ f1' c1', ⟦assigned pocca a1 a2 f1 c1 (length l2) f1' c1'⟧ -∗
        sat ib1 (if pocca then a2 else a1) f1' l2 c1' -∗ sat ib2 a2 f2 l2 c2 -∗
        Q tt (vobj (if pocca then a2 else a1) f1' (length l2) c1', vobj a2 f2 (length l2) c2)) ∧
     (∀ e f1' l1' c1', ⟦ctor_fail (length l2) e⟧ -∗
        sat ib1 (if pocca then a2 else a1) f1' l1' c1' -∗ sat ib2 a2 f2 l2 c2 -∗
        X e (vobj (if pocca then a2 else a1) f1' (length l1') c1', vobj a2 f2 (length l2) c2))) -∗
    wp (small_assign_copy N ib1 ib2) (vobj a1 f1 (length l1) c1, vobj a2 f2 (length l2) c2) Q X.
  Proof.
    iIntros "H1 H2 HK". unfold small_assign_copy. wbind. iApply wp_get. cbn [fst snd]. wbind.
    iDestruct (vec_at_len with "H1") as "[%Hlen H1]". destruct Hlen as [Hsc _]. simpl in Hsc.
    change (v_alloc (vobj a1 f1 (length l1) c1)) with a1.
    iApply (wp_small_propagate with "H1"). iIntros (f' l' c') "%Hp H1".
    change (v_alloc (vobj a2 f2 (length l2) c2)) with a2 in *.
    set (a := if pocca then a2 else a1). wbind. iApply wp_range; [done|].
    iDestruct (sat_open with "H2") as "[Hl H2]". iApply wp_on1.
    iApply (wp_assign_range _ (small_ok N ib1) with "Hl H1"); [apply src_copy|]. iSplit.
    - iIntros (f'' c'') "%Hs Hl H1". iDestruct "HK" as "[HK _]". iApply ("HK" with "[%] H1").
      { by eapply assigned_intro. }
      by iApply "H2".
    - iIntros (e f'' l'' n'' c'') "%Hf Hl H1". iDestruct "HK" as "[_ HK]". destruct Hf as [-> Hf].
      iApply ("HK" with "[] H1"); [iPureIntro; destruct e; naive_solver|].
      iApply ("H2" with "[//]"). by destruct e.
  Qed.


  (** Element by element. *)
  Lemma wp_small_assign_move_each ib1 ib2 a a2 f1 l1 c1 f2 l2 c2 Q X :
    sat ib1 a f1 l1 c1 ⊢ sat ib2 a2 f2 l2 c2 -∗
    ((∀ f1' c1', ⟦if decide (c1 < Z.of_nat (length l2)) then c1' = Z.max NZ (Z.of_nat (length l2))
                  else f1' = f1 /\ c1' = c1⟧ -∗
        sat ib1 a f1' l2 c1' -∗ sat ib2 a2 f2 (vmoved <$> l2) c2 -∗
        Q tt (vobj a f1' (length l2) c1', vobj a2 f2 (length l2) c2)) ∧
     (∀ e f1' l1' c1' l2', ⟦ctor_fail (length l2) e /\ length l2' = length l2⟧ -∗
        sat ib1 a f1' l1' c1' -∗ sat ib2 a2 f2 l2' c2 -∗
        X e (vobj a f1' (length l1') c1', vobj a2 f2 (length l2') c2))) -∗
    wp (srcs <- range AMove f2 (f2 +ₗ Z.of_nat (length l2));;
        on1 (assign_range_ (small_storage N ib1) srcs))%prog
       (vobj a f1 (length l1) c1, vobj a2 f2 (length l2) c2) Q X.
  Proof.
    iIntros "H1 H2 HK". wbind. iApply wp_range; [done|].
    iDestruct (sat_open with "H2") as "[Hl H2]". iApply wp_on1.
    iApply (wp_assign_range _ (small_ok N ib1) with "Hl H1"); [apply src_move|]. iSplit.
    - iIntros (f'' c'') "%Hs Hl H1". iDestruct "HK" as "[HK _]".
      iApply ("HK" with "[//] H1"). iApply ("H2" with "[%] Hl"). by rewrite fmap_length.
    - iIntros (e f'' l'' n'' c'') "%Hf Hl H1". iDestruct "HK" as "[_ HK]". destruct Hf as [-> Hf].
      assert (ctor_fail (length l2) e) as Hcf by (destruct e; naive_solver).
      iAssert (any_elems f2 (length l2)) with "[Hl]" as "Hl".
      { destruct e; try done; iExists l2; by iFrame. }
      iDestruct "Hl" as (l2') "[%Hl2 Hl]". 
      iSpecialize ("HK" $! e f'' l'' c'' l2' with "[%] H1 [H2 Hl]"); [done|by iApply ("H2" with "[] Hl")|].
      by rewrite Hl2.
  Qed.

  Lemma wp_small_assign_move ib1 ib2 a1 f1 l1 c1 a2 f2 l2 c2 Q X :
    sat ib1 a1 f1 l1 c1 ⊢ sat ib2 a2 f2 l2 c2 -∗
    ((∀ f1' c1' f2' l2' c2',
        ⟦taken ib1 ib2 (bool_decide (ma_alloc a1 a2 = a2)) f2 c2 l2 f1' c1' f2' l2' c2' /\
         (c2 = NZ \/ ma_alloc a1 a2 <> a2 -> assigned pocma a1 a2 f1 c1 (length l2) f1' c1')⟧ -∗
        sat ib1 (ma_alloc a1 a2) f1' l2 c1' -∗ sat ib2 a2 f2' l2' c2' -∗
        Q tt (vobj (ma_alloc a1 a2) f1' (length l2) c1', vobj a2 f2' (length l2') c2')) ∧
     (∀ e f1' l1' c1' l2',
        ⟦ctor_fail (length l2) e /\ (c2 = NZ \/ ma_alloc a1 a2 <> a2) /\ length l2' = length l2⟧ -∗
        sat ib1 (ma_alloc a1 a2) f1' l1' c1' -∗ sat ib2 a2 f2 l2' c2 -∗
        X e (vobj (ma_alloc a1 a2) f1' (length l1') c1', vobj a2 f2 (length l2') c2))) -∗
    wp (small_assign_move N ib1 ib2) (vobj a1 f1 (length l1) c1, vobj a2 f2 (length l2) c2) Q X.
  Proof.
    iIntros "H1 H2 HK". unfold small_assign_move. wbind. iApply wp_get. cbn [fst snd]. wbind.
    iDestruct (vec_at_len with "H1") as "[%Hlen H1]". destruct Hlen as [Hsc _]. simpl in Hsc.
    change (v_alloc (vobj a1 f1 (length l1) c1)) with a1.
    iApply (wp_small_propagate with "H1"). iIntros (f' l' c') "%Hp H1".
    change (v_alloc (vobj a2 f2 (length l2) c2)) with a2 in *.
    change (if pocma then a2 else a1) with (ma_alloc a1 a2).
    iDestruct (sat_base with "H2") as "[%Hb H2]". destruct Hb as [Hib2 Hbase].
    set (a := ma_alloc a1 a2). wbind. iApply wp_get. cbn [fst snd].
    change (v_alloc (vobj a f' (length l') c')) with a.
    change (v_alloc (vobj a2 f2 (length l2) c2)) with a2.
    change (v_first (vobj a2 f2 (length l2) c2)) with f2.
    change (v_last (vobj a2 f2 (length l2) c2)) with (f2 +ₗ Z.of_nat (length l2)).
    destruct (decide (c2 = NZ \/ a <> a2)) as [Hslow|Hfast].
    - iAssert (wp (srcs <- range AMove f2 (f2 +ₗ Z.of_nat (length l2));;
          on1 (assign_range_ (small_storage N ib1) srcs))%prog
         (vobj a f' (length l') c', vobj a2 f2 (length l2) c2) Q X)%I with "[H1 H2 HK]" as "Hwp".
      { iApply (wp_small_assign_move_each with "H1 H2"). iSplit.
        - iIntros (f'' c'') "%Hs H1 H2". iDestruct "HK" as "[HK _]".
          iSpecialize ("HK" $! f'' c'' f2 (vmoved <$> l2) c2 with "[%] H1 H2").
          + split; [|intros _; by eapply assigned_intro]. unfold taken. destruct (decide (c2 = NZ)); [done|].
            rewrite bool_decide_eq_false_2; [done|]. by destruct Hslow.
          + by rewrite fmap_length.
        - iIntros (e f1' l1' c1' l2') "%Hx H1 H2". iDestruct "HK" as "[_ HK]".
          iApply ("HK" with "[%] H1 H2"). naive_solver. }
      destruct (decide (f2 = ib2)) as [Hf2|Hne].
      + by rewrite (proj2 (loc_eqb_true f2 ib2)) //.
      + rewrite (proj2 (loc_eqb_false f2 ib2)) //. destruct Hslow as [?|Hslow]; [tauto|].
        by rewrite (proj2 (Nat.eqb_neq a a2)) //.
    - assert (f2 <> ib2) as Hne by tauto. assert (a = a2) as Heq by lia.
      rewrite (proj2 (loc_eqb_false f2 ib2)) // (proj2 (Nat.eqb_eq a a2)) //. wbind. iApply wp_on1.
      iApply (wp_small_reset with "H1"). iIntros "H1". wbind. iApply wp_get. wbeta. iApply wp_put.
      cbn [fst snd]. rewrite vec_nil_storage. iDestruct "HK" as "[HK _]".
      iDestruct (small_at_base_inv with "H1") as "[%Hib1 Hi]".
      iDestruct (sat_steal _ ib1 with "H2 Hi") as "[H1 Hi]"; [done|done|].
      iSpecialize ("HK" $! f2 c2 null [] 0 with "[%] [H1] [Hi]").
      * split; [|tauto]. unfold taken. rewrite decide_False; [|tauto]. by rewrite bool_decide_eq_true_2.
      * fold a. by rewrite Heq.
      * by iApply sat_moved.
      * fold a. done.
  Qed.

  (** *** swap *)

  (** Elements of the internal storages are exchanged one by one. *)
  Lemma wp_small_swap_internal ib1 ib2 a1 l1 a2 l2 Q X :
    sat ib1 a1 ib1 l1 NZ ⊢ sat ib2 a2 ib2 l2 NZ -∗
    ((sat ib1 a1 ib1 l2 NZ -∗ sat ib2 a2 ib2 l1 NZ -∗
        Q tt (vobj a1 ib1 (length l2) NZ, vobj a2 ib2 (length l1) NZ)) ∧
     (∀ l1' l2', ⟦length l1' = length l1 /\ length l2' = length l2⟧ -∗
        sat ib1 a1 ib1 l1' NZ -∗ sat ib2 a2 ib2 l2' NZ -∗
        X EUser (vobj a1 ib1 (length l1) NZ, vobj a2 ib2 (length l2) NZ))) -∗
    wp small_swap_internal (vobj a1 ib1 (length l1) NZ, vobj a2 ib2 (length l2) NZ) Q X.
  Proof.
    iIntros "H1 H2 HK". rewrite !sat_inside. iDestruct "H1" as "[%Hib1 H1]". iDestruct "H2" as "[%Hib2 H2]".
    iApply (wp_swap_inside with "H1 H2"). iSplit.
    - iIntros "H1 H2". iDestruct "HK" as "[HK _]". iApply ("HK" with "[H1] [H2]"); by iSplit.
    - iIntros (l1' l2') "%Hl H1 H2". iDestruct "HK" as "[_ HK]".
      iApply ("HK" $! l1' l2' with "[//] [H1] [H2]"); rewrite sat_inside; by iSplit.
  Qed.

  Lemma sat_any_alloc ib a a' l : sat ib a ib l NZ ⊢ sat ib a' ib l NZ.
  Proof. by rewrite !sat_inside. Qed.

  Lemma wp_small_swap ib1 ib2 a1 f1 l1 c1 a2 f2 l2 c2 Q X :
    a1 = a2 \/ pocs = true /\ (nothrow_move = true \/ (c1 = NZ <-> c2 = NZ)) ->
    sat ib1 a1 f1 l1 c1 ⊢ sat ib2 a2 f2 l2 c2 -∗
    ((∀ f1' f2', ⟦(c2 <> NZ -> f1' = f2) /\ (c1 <> NZ -> f2' = f1)⟧ -∗
        sat ib1 a2 f1' l2 c2 -∗ sat ib2 a1 f2' l1 c1 -∗
        Q tt (vobj a2 f1' (length l2) c2, vobj a1 f2' (length l1) c1)) ∧
     (∀ l1' l2', ⟦length l1' = length l1 /\ length l2' = length l2 /\ (c1 = NZ \/ c2 = NZ)⟧ -∗
        sat ib1 a2 f1 l1' c1 -∗ sat ib2 a1 f2 l2' c2 -∗
        X EUser (vobj a2 f1 (length l1') c1, vobj a1 f2 (length l2') c2))) -∗
    wp (small_swap N ib1 ib2) (vobj a1 f1 (length l1) c1, vobj a2 f2 (length l2) c2) Q X.
  Proof.
    iIntros (Hp) "H1 H2 HK". unfold small_swap. wbind. iApply wp_get. cbn [fst snd]. wbind.
    change (v_alloc (vobj a1 f1 (length l1) c1)) with a1.
    change (v_alloc (vobj a2 f2 (length l2) c2)) with a2.
    iApply wp_assert.
    { apply orb_true_iff. rewrite Nat.eqb_eq. tauto. }
    wbind.
    iAssert (wp (if pocs then putS (with_alloc a2 (vobj a1 f1 (length l1) c1), with_alloc a1 (vobj a2 f2 (length l2) c2))
                 else ret tt) (vobj a1 f1 (length l1) c1, vobj a2 f2 (length l2) c2)
               (fun _ s => ⟦s = (vobj a2 f1 (length l1) c1, vobj a1 f2 (length l2) c2)⟧) (fun _ _ => False))%I
      with "[]" as "Ha".
    { destruct pocs; [by iApply wp_put|]. iApply wp_ret. destruct Hp as [->|[? _]]; done. }
    iApply (wp_wand with "Ha"). iSplit; [|by iIntros (??) "%"]. iIntros (_ s) "->".
    iDestruct (sat_base with "H1") as "[%Hb1 H1]". destruct Hb1 as [Hib1 Hbase1].
    iDestruct (sat_base with "H2") as "[%Hb2 H2]". destruct Hb2 as [Hib2 Hbase2].
    wbind. iApply wp_get. cbn [fst snd].
    change (v_first (vobj a2 f1 (length l1) c1)) with f1.
    change (v_first (vobj a1 f2 (length l2) c2)) with f2.
    change (v_last (vobj a2 f1 (length l1) c1)) with (f1 +ₗ Z.of_nat (length l1)).
    change (v_last (vobj a1 f2 (length l2) c2)) with (f2 +ₗ Z.of_nat (length l2)).
    destruct (decide (f1 = ib1)) as [->|Hne1]; destruct (decide (f2 = ib2)) as [->|Hne2].
    - rewrite !loc_eqb_refl. cbn [andb]. assert (c1 = NZ) as -> by tauto. assert (c2 = NZ) as -> by tauto.
      iDestruct (sat_any_alloc _ _ a2 with "H1") as "H1". iDestruct (sat_any_alloc _ _ a1 with "H2") as "H2".
      iApply (wp_small_swap_internal with "H1 H2"). iSplit.
      + iIntros "H1 H2". iDestruct "HK" as "[HK _]". iApply ("HK" with "[%] H1 H2"). done.
      + iIntros (l1' l2') "%Hl H1 H2". destruct Hl as [Hl1 Hl2]. iDestruct "HK" as "[_ HK]".
        rewrite -Hl1 -Hl2. iApply ("HK" with "[%] H1 H2"). split_and!; [done|done|by left].
    - rewrite loc_eqb_refl (proj2 (loc_eqb_false f2 ib2)) //. cbn [andb].
      assert (c1 = NZ) as -> by tauto. assert (c2 <> NZ) as Hc2 by tauto. wbind.
      rewrite sat_inside. iDestruct "H1" as "(_ & %Hlc & Hl & Hr)".
      rewrite sat_outside; [|done]. iDestruct "H2" as "(%H2 & Hb2 & Hbody2 & Hi2)". destruct H2 as (H2a & _ & H2b).
      iDestruct (raws_split _ _ (length l1) (N - length l1) with "Hi2") as "[Hi1 Hi2]"; [lia|done|].
      iApply (wp_umove with "Hl Hi1"); [done|]. iSplit.
      + iIntros "Hl Hn". wbind. iApply (wp_destroy_a with "Hl"); [by rewrite fmap_length|]. iIntros "Hl".
        rewrite fmap_length. iApply wp_put. iDestruct "HK" as "[HK _]".
        iDestruct (raws_join _ N with "Hl Hr") as "Hi"; [done|lia|].
        iAssert (sat ib2 a1 ib2 l1 NZ) with "[Hn Hi2]" as "H2".
        { rewrite sat_inside. iSplit; [done|]. iApply (body_intro with "Hn Hi2"); [done|lia|lia]. }
        iAssert (⟦f2 <> ib1⟧ ∗ ablock a2 f2 c2)%I with "[Hb2]" as "[%Hne Hb2]".
        { destruct (decide (c2 = 0)) as [->|Hc0].
          - rewrite ablock_0. iDestruct "Hb2" as %->. iSplit; [|done]. iPureIntro.
            unfold ib_ok in Hib1, Hib2. case_decide; [done|]. intros <-. simpl in *. lia.
          - iDestruct (ablock_not_ib N ib1 with "Hb2") as "[%Hp2 $]"; [unfold ext_cap in *; lia|done|].
            iPureIntro. tauto. }
        iSpecialize ("HK" $! f2 ib2 with "[%] [Hb2 Hbody2 Hi] H2").
        * split; [done|]. tauto.
        * rewrite sat_outside; [|done]. iFrame. by iPureIntro.
        * done.
      + iIntros (l') "%Hx Hl Hi1". destruct Hx as [[Hx Hnt] Hpos].
        iDestruct (raws_join _ N with "Hi1 Hi2") as "Hi"; [done|lia|].
        assert (a1 = a2) as ->.
        { destruct Hp as [?|[_ [Hp|Hp]]]; [done|congruence|tauto]. }
        iDestruct "HK" as "[_ HK]". iSpecialize ("HK" $! l' l2 with "[%] [Hl Hr] [Hb2 Hbody2 Hi]").
        * split_and!; [done|done|by left].
        * rewrite sat_inside. iSplit; [done|]. iApply (body_intro with "Hl Hr"); rewrite Hx; [done|lia|lia].
        * rewrite sat_outside; [|done]. iFrame. by iPureIntro.
        * by rewrite Hx.
    - rewrite loc_eqb_refl (proj2 (loc_eqb_false f1 ib1)) //. cbn [andb].
      assert (c2 = NZ) as -> by tauto. assert (c1 <> NZ) as Hc1 by tauto. wbind.
      rewrite (sat_inside ib2). iDestruct "H2" as "(_ & %Hlc & Hl & Hr)".
      rewrite sat_outside; [|done]. iDestruct "H1" as "(%H1 & Hb1 & Hbody1 & Hi1)". destruct H1 as (H1a & _ & H1b).
      iDestruct (raws_split _ _ (length l2) (N - length l2) with "Hi1") as "[Hi2 Hi1]"; [lia|done|].
      iApply (wp_umove with "Hl Hi2"); [done|]. iSplit.
      + iIntros "Hl Hn". wbind. iApply (wp_destroy_a with "Hl"); [by rewrite fmap_length|]. iIntros "Hl".
        rewrite fmap_length. iApply wp_put. iDestruct "HK" as "[HK _]".
        iDestruct (raws_join _ N with "Hl Hr") as "Hi"; [done|lia|].
        iAssert (sat ib1 a2 ib1 l2 NZ) with "[Hn Hi1]" as "H1".
        { rewrite sat_inside. iSplit; [done|]. iApply (body_intro with "Hn Hi1"); [done|lia|lia]. }
        iAssert (⟦f1 <> ib2⟧ ∗ ablock a1 f1 c1)%I with "[Hb1]" as "[%Hne Hb1]".
        { destruct (decide (c1 = 0)) as [->|Hc0].
          - rewrite ablock_0. iDestruct "Hb1" as %->. iSplit; [|done]. iPureIntro.
            unfold ib_ok in Hib1, Hib2. case_decide; [done|]. intros <-. simpl in *. lia.
          - iDestruct (ablock_not_ib N ib2 with "Hb1") as "[%Hp2 $]"; [unfold ext_cap in *; lia|done|].
            iPureIntro. tauto. }
        iSpecialize ("HK" $! ib1 f1 with "[%] H1 [Hb1 Hbody1 Hi]").
        * split; [|done]. tauto.
        * rewrite sat_outside; [|done]. iFrame. by iPureIntro.
        * done.
      + iIntros (l') "%Hx Hl Hi2". destruct Hx as [[Hx Hnt] Hpos].
        iDestruct (raws_join _ N with "Hi2 Hi1") as "Hi"; [done|lia|].
        assert (a1 = a2) as ->.
        { destruct Hp as [?|[_ [Hp|Hp]]]; [done|congruence|tauto]. }
        iDestruct "HK" as "[_ HK]". iSpecialize ("HK" $! l1 l' with "[%] [Hb1 Hbody1 Hi] [Hl Hr]").
        * split_and!; [done|done|by right].
        * rewrite sat_outside; [|done]. iFrame. by iPureIntro.
        * rewrite sat_inside. iSplit; [done|]. iApply (body_intro with "Hl Hr"); rewrite Hx; [done|lia|lia].
        * by rewrite Hx.
    - rewrite (proj2 (loc_eqb_false f1 ib1)) // (proj2 (loc_eqb_false f2 ib2)) //. cbn [andb].
      iApply wp_put. iDestruct "HK" as "[HK _]".
      iDestruct (outside_ne _ ib2 with "H1") as "[%Hne1' H1]"; [done|done|].
      iDestruct (outside_ne _ ib1 with "H2") as "[%Hne2' H2]"; [done|done|].
      rewrite (sat_outside ib1) // (sat_outside ib2) //.
      iDestruct "H1" as "(%H1 & Hb1 & Hbody1 & Hi1)". iDestruct "H2" as "(%H2 & Hb2 & Hbody2 & Hi2)".
      iApply ("HK" $! f2 f1 with "[%] [Hb2 Hbody2 Hi1] [Hb1 Hbody1 Hi2]"); [done| |].
      + rewrite sat_outside; [|done]. iFrame. by iPureIntro; naive_solver.
      + rewrite sat_outside; [|done]. iFrame. by iPureIntro; naive_solver.
  Qed.
End two.
