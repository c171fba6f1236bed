(** * sfl::small_vector: storage policy and members specific to small_vector *)

From Verif Require Export SmallVector VectorOk.
From iris.proofmode Require Import tactics.
Open Scope Z_scope.

Lemma loc_eqb_true p q : loc_eqb p q = true <-> p = q.
Proof.
  unfold loc_eqb. rewrite andb_true_iff !Z.eqb_eq. split; [|by intros ->].
  intros [H1 H2]. by apply loc_eq.
Qed.
Lemma loc_eqb_false p q : loc_eqb p q = false <-> p <> q.
Proof. rewrite -not_true_iff_false loc_eqb_true. done. Qed.
Lemma loc_eqbP p q : reflect (p = q) (loc_eqb p q).
Proof. apply iff_reflect. by rewrite loc_eqb_true. Qed.

(** The address of an internal storage for [N] elements. *)
Definition ib_ok (N : nat) (ib : loc) : Prop :=
  if decide (N = 0%nat) then ib = null else ib.1 < 0 /\ ib.2 = 0.

Section policy.
  Context `{E : Env} (N : nat).
  Notation NZ := (Z.of_nat N).

  (** The only assumption on [N]. *)
  Class fits := N_fits : NZ <= max_size.
  Context `{HN : fits} (ib : loc).

  Lemma small_calc_cap_spec size cap n :
    0 <= size <= cap -> cap <= max_size -> 0 <= n ->
    small_calc_cap N size cap n =
      if decide (max_size < size + n) then None
      else Some (Z.max NZ (Z.max (size + n) (Z.min max_size (cap + cap / 2)))).
  Proof.
    intros H1 H2 H3. pose proof max_size_ok as Hms. unfold small_calc_cap. unfold fits in HN.
    rewrite (wrap_small (max_size - size)); [|lia].
    rewrite (wrap_small (max_size - cap)); [|lia].
    assert (0 <= cap / 2 <= cap) as Hhalf.
    { split; [apply Z.div_pos; lia|]. apply Z.div_le_upper_bound; lia. }
    destruct (Z.ltb_spec (max_size - size) n).
    { case_decide; [done|lia]. }
    case_decide; [lia|].
    destruct (Z.ltb_spec (max_size - cap) (cap / 2)).
    { f_equal. lia. }
    rewrite (wrap_small (size + n)); [|lia]. rewrite (wrap_small (cap + cap / 2)); [|lia].
    destruct (Z.ltb_spec (size + n) (cap + cap / 2)); f_equal; lia.
  Qed.

  (** Capacity of a block that is not the internal storage. *)
  Definition ext_cap (c : Z) : Prop := c = 0 \/ NZ < c.

  Definition small_own (a : nat) (f : loc) (cap : Z) : hProp :=
    (⟦ib_ok N ib⟧ ∗
     if decide (f = ib) then ⟦cap = NZ⟧
     else ⟦ext_cap cap⟧ ∗ ablock a f cap ∗ raws ib N)%I.
  Definition small_two (a : nat) (f : loc) (cap : Z) (p : loc) (c : Z) : hProp :=
    (⟦ib_ok N ib⟧ ∗
     if decide (p = ib) then ⟦f <> ib /\ c = NZ /\ ext_cap cap⟧ ∗ ablock a f cap
     else ⟦NZ < c⟧ ∗ small_own a f cap ∗ ablock a p c)%I.
  Definition small_gone : hProp := (⟦ib_ok N ib⟧ ∗ raws ib N)%I.
  Definition small_cap (c : Z) : Prop := c = 0 \/ NZ <= c <= max_size.

  Lemma small_own_base a f : small_own a f NZ ⊢ ⟦f = ib⟧ ∗ ⟦ib_ok N ib⟧.
  Proof.
    iIntros "[%Hib H]". destruct (decide (f = ib)) as [->|Hne]; [by iSplit|].
    iDestruct "H" as "(%Hc & H & Hr)". destruct Hc as [Hc|Hc]; [|lia]. rewrite Hc ablock_0.
    iDestruct "H" as %->. exfalso. apply Hne. unfold ib_ok in Hib. rewrite decide_True in Hib; [done|lia].
  Qed.
  Lemma small_own_ib a cap : small_own a ib cap ⊣⊢ ⟦ib_ok N ib⟧ ∗ ⟦cap = NZ⟧.
  Proof. unfold small_own. by rewrite decide_True. Qed.
  Lemma small_own_ext a f cap :
    f <> ib -> small_own a f cap ⊣⊢ ⟦ib_ok N ib⟧ ∗ ⟦ext_cap cap⟧ ∗ ablock a f cap ∗ raws ib N.
  Proof. intros. unfold small_own. by rewrite decide_False. Qed.
  Lemma ablock_not_ib a p c : 0 < c -> ib_ok N ib -> ablock a p c ⊢ ⟦p <> ib /\ p.1 <> 0⟧ ∗ ablock a p c.
  Proof.
    iIntros (Hc Hib) "H". iDestruct (ablock_fresh with "H") as "[%Hp $]"; [done|].
    destruct Hp as [Hp1 Hp2]. iPureIntro. unfold ib_ok in Hib.
    split; [|lia]. intros ->. case_decide; [subst; simpl in *; lia|lia].
  Qed.

  Program Definition small_ok : storage_ok (small_storage N ib) := {|
    so_own := small_own;
    so_two := small_two;
    so_gone := small_gone;
    so_cap := small_cap;
    so_capfor := fun n => Z.max NZ n;
  |}.
  Next Obligation. unfold small_cap, fits in *. intros c [->|]; pose proof max_size_ok; lia. Qed.
  Next Obligation. unfold small_cap, fits in *. intros n Hn. simpl. lia. Qed.
  Next Obligation.
    simpl. intros len cap n Hl Hc Hn. unfold small_cap, fits in *. pose proof max_size_ok.
    rewrite small_calc_cap_spec; [|lia..]. case_decide; lia.
  Qed.
  Next Obligation.
    simpl. iIntros (a f n cap c Q X Hcap Hc) "Hown HK". wbind. iApply wp_get. wbeta.
    cbn [vobj v_first v_alloc].
    iAssert (⟦ib_ok N ib /\ (f = ib -> cap = NZ) /\ (f <> ib -> ext_cap cap)⟧ ∗ small_own a f cap)%I
      with "[Hown]" as "[%Hf Hown]".
    { unfold small_own. iDestruct "Hown" as "[%H1 H]". case_decide; [iDestruct "H" as %->|iDestruct "H" as "[%H2 H]"];
        iFrame "%"; [|iFrame "H"]; iPureIntro; split_and!; done. }
    destruct Hf as (Hib & Hf1 & Hf2). simpl in Hcap.
    destruct (Z.leb_spec c NZ) as [Hcn|Hcn]; simpl.
    - assert (f <> ib) as Hne by (intros ->; specialize (Hf1 eq_refl); lia).
      rewrite (proj2 (loc_eqb_false _ _) Hne). simpl. iApply wp_ret.
      rewrite small_own_ext; [|done]. iDestruct "Hown" as "(_ & _ & Hb & Hr)".
      rewrite Z.max_l; [|lia]. rewrite Nat2Z.id. iDestruct "HK" as "[HK _]".
      iApply ("HK" with "[%] [Hb] Hr").
      + unfold ib_ok in Hib. rewrite decide_False in Hib; [lia|]. destruct (Hf2 Hne); unfold small_cap in *; lia.
      + unfold small_two. iSplit; [done|]. rewrite decide_True; [|done]. iFrame "Hb". iPureIntro.
        split_and!; [done|done|by apply Hf2].
    - rewrite (Z.max_r NZ c); [|lia]. wbind. iApply wp_allocate; [lia|]. iSplit.
      + iIntros (p) "Hb Hr". iApply wp_ret. iDestruct "HK" as "[HK _]".
        iDestruct (ablock_not_ib with "Hb") as "[%Hp Hb]"; [lia|done|]. destruct Hp.
        iApply ("HK" with "[//] [Hown Hb] Hr"). unfold small_two. iSplit; [done|].
        rewrite decide_False; [|done]. iFrame. done.
      + iDestruct "HK" as "[_ HK]". by iApply "HK".
  Qed.
  Next Obligation.
    simpl. iIntros (s f cap p c Q X Hcap Hc) "[%Hib Htwo] Hr HQ".
    destruct (loc_eqbP p ib) as [->|Hne].
    - rewrite decide_True; [|done]. iDestruct "Htwo" as "[%H1 Hb]". destruct H1 as (H1 & H2 & H3).
      iApply wp_ret. iApply "HQ". rewrite small_own_ext; [|done]. rewrite H2 Nat2Z.id. iFrame. done.
    - rewrite decide_False; [|done]. iDestruct "Htwo" as "(%H1 & Hown & Hb)".
      wbind. iApply wp_get. wbeta. rewrite (Z.max_r NZ c); [|lia].
      iApply (wp_deallocate with "Hb Hr"). by iApply "HQ".
  Qed.
  Next Obligation.
    simpl. iIntros (s f cap p c Q X Hcap) "[%Hib Htwo] Hr HQ".
    destruct (decide (p = ib)) as [->|Hp].
    - iDestruct "Htwo" as "[%H1 Hb]". destruct H1 as (H1 & H2 & H3).
      rewrite (proj2 (loc_eqb_false _ _) H1). wbind. iApply wp_get. wbeta.
      iApply (wp_deallocate with "Hb Hr"). iApply "HQ". rewrite small_own_ib. by iSplit.
    - iDestruct "Htwo" as "(%H1 & Hown & Hb)".
      destruct (loc_eqbP f ib) as [->|Hne].
      + rewrite small_own_ib. iDestruct "Hown" as "[_ ->]". rewrite Nat2Z.id.
        iApply wp_ret. iApply "HQ". rewrite small_own_ext; [|done]. iFrame. iSplit; [done|].
        iPureIntro. by right.
      + rewrite small_own_ext; [|done]. iDestruct "Hown" as "(_ & _ & Hf & Hi)".
        wbind. iApply wp_get. wbeta. iApply (wp_deallocate with "Hf Hr"). iApply "HQ".
        rewrite small_own_ext; [|done]. iFrame. iSplit; [done|]. iPureIntro. by right.
  Qed.
  Next Obligation.
    simpl. iIntros (s f cap Q X Hcap) "Hown Hr HQ".
    destruct (loc_eqbP f ib) as [->|Hne].
    - rewrite small_own_ib. iDestruct "Hown" as "[%Hib ->]". rewrite Nat2Z.id. iApply wp_ret.
      iApply "HQ". unfold small_gone. by iFrame.
    - rewrite small_own_ext; [|done]. iDestruct "Hown" as "(%Hib & _ & Hf & Hi)".
      wbind. iApply wp_get. wbeta. iApply (wp_deallocate with "Hf Hr"). iApply "HQ".
      unfold small_gone. by iFrame.
  Qed.
  Next Obligation.
    simpl. iIntros (s n Q X Hn) "[%Hib Hi] HK". wbind. iApply wp_modify.
    destruct (Z.ltb_spec NZ n) as [Hn0|Hn0].
    - wbind. iApply wp_get. wbeta. wbind. rewrite (Z.max_r NZ n); [|lia].
      iApply wp_allocate; [lia|]. iSplit.
      + iIntros (p) "Hb Hr". iApply wp_modify. iDestruct "HK" as "[HK _]".
        iDestruct (ablock_not_ib with "Hb") as "[%Hp Hb]"; [lia|done|]. destruct Hp.
        iSpecialize ("HK" $! p with "[Hb Hi] Hr").
        { rewrite small_own_ext; [|done]. iFrame. iSplit; [done|]. iPureIntro. by right. }
        unfold vobj, with_storage. simpl. by rewrite loc_add_0.
      + iDestruct "HK" as "[_ HK]". rewrite (Z.max_l NZ 0); [|lia].
        iSpecialize ("HK" $! ib with "[] [Hi]").
        * rewrite small_own_ib. by iSplit.
        * by rewrite Nat2Z.id.
        * unfold vobj, with_storage. simpl. by rewrite !loc_add_0.
    - rewrite (Z.max_l NZ n); [|lia]. iApply wp_ret. iDestruct "HK" as "[HK _]".
      iSpecialize ("HK" $! ib with "[] [Hi]").
      + rewrite small_own_ib. by iSplit.
      + by rewrite Nat2Z.id.
      + unfold vobj, with_storage. simpl. by rewrite !loc_add_0.
  Qed.
  Next Obligation.
    simpl. iIntros (a f n Q X Hn) "Hown Hr HK". rewrite (Z.max_l NZ 0); [|lia].
    iDestruct (small_own_base with "Hown") as "[-> %Hib]". rewrite Nat2Z.id.
    destruct (Z.ltb_spec NZ n) as [Hn0|Hn0].
    - wbind. iApply wp_get. wbeta. wbind. rewrite (Z.max_r NZ n); [|lia].
      iApply wp_allocate; [lia|]. iSplit.
      + iIntros (p) "Hb Hr'". iApply wp_modify. iDestruct "HK" as "[HK _]".
        iDestruct (ablock_not_ib with "Hb") as "[%Hp Hb]"; [lia|done|]. destruct Hp.
        iSpecialize ("HK" $! p with "[Hb Hr] Hr'").
        { rewrite small_own_ext; [|done]. iFrame. iSplit; [done|]. iPureIntro. by right. }
        unfold vobj, with_storage. simpl. by rewrite loc_add_0.
      + iDestruct "HK" as "[_ HK]". iApply "HK". unfold small_gone. by iFrame.
    - rewrite (Z.max_l NZ n); [|lia]. iApply wp_ret. iDestruct "HK" as "[HK _]".
      iApply ("HK" with "[]"); [rewrite small_own_ib; by iSplit|by rewrite Nat2Z.id].
  Qed.
  Next Obligation.
    simpl. iIntros (a f n Q X Hn) "Hown Hr HK".
    destruct (Z.ltb_spec NZ n) as [Hn0|Hn0].
    - rewrite (Z.max_r NZ n); [|lia]. wbind. iApply wp_get. wbeta. cbn [vobj v_first v_alloc].
      destruct (decide (f = ib)) as [->|Hne].
      { rewrite small_own_ib. iDestruct "Hown" as "[_ %]". lia. }
      rewrite small_own_ext; [|done]. iDestruct "Hown" as "(%Hib & _ & Hf & Hi)".
      iApply (wp_deallocate with "Hf Hr"). iApply "HK". unfold small_gone. by iFrame.
    - rewrite (Z.max_l NZ n); [|lia]. iDestruct (small_own_base with "Hown") as "[-> %Hib]".
      iApply wp_ret. iApply "HK". unfold small_gone. rewrite Nat2Z.id. by iFrame.
  Qed.
  Next Obligation.
    simpl. iIntros (a f) "Hown Hr". rewrite (Z.max_l NZ 0); [|lia].
    iDestruct (small_own_base with "Hown") as "[-> %Hib]". unfold small_gone.
    rewrite Nat2Z.id. by iFrame.
  Qed.
End policy.

Section special.
  Context `{E : Env} (N : nat) `{HN : !fits N} (ib : loc).
  Notation NZ := (Z.of_nat N).
  Notation st := (small_storage N ib).
  Notation so := (small_ok N ib).
  Notation vec_at := (Grow.vec_at st so).

  Lemma wp_small_relocate a f l cap c Q X :
    Z.of_nat (length l) <= c <= max_size -> (NZ < c -> c <> cap) ->
    vec_at a f l cap ⊢
    ((∀ f', ⟦c <= NZ -> cap = NZ -> f' = f⟧ -∗ vec_at a f' l (Z.max NZ c) -∗
        Q tt (vobj a f' (length l) (Z.max NZ c))) ∧
     (∀ e l', ⟦length l' = length l /\ (e = EBadAlloc /\ l' = l /\ NZ < c \/ e = EUser) /\
               (nothrow_move || copyable = true -> l' = l)⟧ -∗
        vec_at a f l' cap -∗ X e (vobj a f (length l) cap))) -∗
    wp (small_relocate N ib c) (vobj a f (length l) cap) Q X.
  Proof.
    iIntros (Hc Hcc) "(%Hok & Hown & %Hlc & Hl & Hr) HK". simpl in Hok. unfold small_relocate.
    unfold fits in HN. wbind. iApply wp_get. wbeta. cbn [vobj v_first v_last v_eos v_alloc].
    destruct (Z.leb_spec c NZ) as [Hcn|Hcn].
    - rewrite (Z.max_l NZ c); [|lia].
      iAssert (⟦cap = NZ -> f = ib⟧ ∗ small_own N ib a f cap)%I with "[Hown]" as "[%Hbase Hown]".
      { destruct (decide (cap = NZ)) as [->|]; [|by iFrame].
        iDestruct (small_own_base with "Hown") as "[-> %Hib]". iSplit; [done|]. rewrite small_own_ib. done. }
      simpl. destruct (decide (f = ib)) as [->|Hne].
      + rewrite loc_eqb_refl small_own_ib. iDestruct "Hown" as "[%Hib ->]". iApply wp_ret.
        iDestruct "HK" as "[HK _]". iApply "HK"; [done|].
        unfold Grow.vec_at. simpl. rewrite small_own_ib. do 3 (iSplit; [done|]).
        iFrame. 
      + rewrite (proj2 (loc_eqb_false f ib)) // small_own_ext; [|done]. iDestruct "Hown" as "(%Hib & %Hec & Hb & Hi)".
        wbind. iDestruct (raws_split _ _ (length l) (N - length l) with "Hi") as "[Hi1 Hi2]"; [lia|done|].
        iApply (wp_umine with "Hl Hi1"); [done|]. iSplit; last first.
        { iIntros (l') "%Hx Hl Hi1". destruct Hx as [[Hx _] _]. destruct Hx as [Hx1 Hx2].
          iDestruct (raws_join _ N with "Hi1 Hi2") as "Hi"; [done|lia|].
          iDestruct "HK" as "[_ HK]". iApply ("HK" $! EUser l'); [iPureIntro; split; [done|]; split; [by right|done]|].
          unfold Grow.vec_at. simpl. rewrite small_own_ext; [|done]. iFrame "Hb Hi". repeat (iSplit; [done|]).
          iApply (body_intro with "Hl Hr"); [by rewrite Hx1|lia|lia]. }
        iIntros "Hl Hl2". wbind.
        iApply (wp_destroy_a with "Hl"); [by rewrite mine_after_length|]. iIntros "Hl".
        rewrite mine_after_length.
        wbind. iApply (wp_psub _ _ cap); [done|]. wbeta. wbind.
        iDestruct (raws_join _ (Z.to_nat cap) with "Hl Hr") as "Hr"; [done|lia|].
        iApply (wp_deallocate with "Hb Hr"). iApply wp_modify. iDestruct "HK" as "[HK _]".
        iSpecialize ("HK" $! ib with "[%] [Hl2 Hi2]").
        { intros _ Hcap. by destruct Hne; apply Hbase. }
        { unfold Grow.vec_at. simpl. rewrite small_own_ib. iSplit; [iPureIntro; unfold small_cap; lia|].
          iSplit; [done|]. iApply (body_intro with "Hl2 Hi2"); [done|lia|lia]. }
        done.
    - rewrite (Z.max_r NZ c); [|lia]. wbind. iApply wp_allocate; [lia|]. iSplit; last first.
      { iDestruct "HK" as "[_ HK]". iApply ("HK" $! EBadAlloc l).
        { iPureIntro. split; [done|]. split; [by left|done]. }
        unfold Grow.vec_at. iFrame "Hown". iSplit; [done|]. by iApply (body_intro with "Hl Hr"). }
      iIntros (p) "Hb Hnew". wbind. iApply wp_try. cbn [vobj v_first v_last v_alloc].
      iDestruct (raws_split _ _ (length l) (Z.to_nat c - length l) with "Hnew") as "[Hn1 Hn2]";
        [lia|done|].
      iApply (wp_umine with "Hl Hn1"); [done|]. iSplit; last first.
      { iIntros (l') "%Hx Hl Hn1". destruct Hx as [[Hx _] _]. destruct Hx as [Hx1 Hx2].
        iDestruct (raws_join _ (Z.to_nat c) with "Hn1 Hn2") as "Hn"; [done|lia|].
        iApply (wp_deallocate with "Hb Hn"). iDestruct "HK" as "[_ HK]".
        iApply ("HK" $! EUser l'); [iPureIntro; split; [done|]; split; [by right|done]|].
        unfold Grow.vec_at. iFrame "Hown". iSplit; [done|].
        iApply (body_intro with "Hl Hr"); [by rewrite Hx1|lia|lia]. }
      iIntros "Hl Hl2".
      iDestruct (body_intro p l c with "Hl2 Hn2") as "Hnew"; [done|lia|done|].
      replace (length l) with (length (mine_after l)) by (by rewrite mine_after_length).
      iAssert (⟦ib_ok N ib⟧ ∗ small_own N ib a f cap)%I with "[Hown]" as "[%Hib Hown]".
      { iDestruct "Hown" as "[%Hib H]". iSplit; [done|]. by iSplit. }
      iDestruct (ablock_not_ib N with "Hb") as "[%Hp Hb]"; [lia|done|]. destruct Hp.
      iApply (wp_replace_storage _ so _ _ (mine_after l) _ p l c with "[Hown Hb] Hl Hr [] Hnew");
        [done|simpl; unfold small_cap; lia|lia| |done| | |].
      { by rewrite mine_after_length. }
      { simpl. unfold small_two. iSplit; [done|]. rewrite decide_False; [|done]. by iFrame. }
      { iPureIntro. by rewrite mine_after_length. }
      iIntros "Hv". iDestruct "HK" as "[HK _]". rewrite mine_after_length. iApply ("HK" with "[%] Hv"). lia.
  Qed.

  (** Self-move of elements in place. *)
  Lemma wp_self_loop (q : loc) (l : list V) (s : vdata) Q X :
    elems q l ⊢
    ((elems q (vmoved <$> l) -∗ Q (q +ₗ Z.of_nat (length l)) s) ∧
     (∀ l', ⟦length l' = length l /\ (0 < length l)%nat⟧ -∗ elems q l' -∗ X EUser s)) -∗
    wp (assign_loop q (refs AMove q (length l))) s Q X.
  Proof.
    revert q Q X. induction l as [|v l IH]; intros q Q X; iIntros "Hl HK"; simpl.
    - iApply wp_ret. rewrite loc_add_0. iDestruct "HK" as "[HK _]". by iApply "HK".
    - rewrite elems_cons. iDestruct "Hl" as "[Hq Hl]". wbind. simpl.
      iApply wp_bind. iApply (wp_read with "Hq"). iIntros "Hq".
      iApply wp_bind. iApply (wp_read with "Hq"). iIntros "Hq".
      iApply wp_oracle_case; [done|]. iSplit.
      + iIntros (t Ho). iApply wp_bind. iApply (wp_write with "Hq"). iIntros "Hq".
        iApply (wp_write with "Hq"). iIntros "Hq". iDestruct "HK" as "[_ HK]".
        iApply ("HK" $! (junk2 t :: l)); [iPureIntro; simpl; lia|]. rewrite elems_cons. iFrame.
      + iApply wp_bind. iApply (wp_write with "Hq"). iIntros "Hq".
        iApply (wp_write with "Hq"). iIntros "Hq".
        iApply (IH with "Hl"). iSplit.
        * iIntros "Hl". iDestruct "HK" as "[HK _]".
          replace (q +ₗ 1 +ₗ Z.of_nat (length l)) with (q +ₗ Z.of_nat (S (length l))) by loc_solve.
          iApply "HK". rewrite elems_cons. iFrame.
        * iIntros (l') "%Hl' Hl". iDestruct "HK" as "[_ HK]".
          iApply ("HK" $! (vmoved v :: l')); [iPureIntro; simpl in *; lia|]. rewrite elems_cons. iFrame.
  Qed.

  Lemma small_at_null a : 0 < NZ -> ib_ok N ib -> raws ib N ⊢ vec_at a null [] 0.
  Proof.
    iIntros (Hn Hib) "Hi". unfold Grow.vec_at. simpl. pose proof max_size_ok.
    rewrite small_own_ext; last first.
    { intros He. unfold ib_ok in Hib. rewrite decide_False in Hib; [|lia]. rewrite -He /= in Hib. lia. }
    rewrite ablock_0. iSplit; [iPureIntro; by left|]. iSplitL "Hi".
    { iSplit; [done|]. iSplit; [iPureIntro; by left|]. by iSplit. }
    iApply (body_intro _ [] 0 null 0 with "[] []"); try done.
  Qed.
  Lemma small_at_base a : ib_ok N ib -> raws ib N ⊢ vec_at a ib [] NZ.
  Proof.
    iIntros (Hib) "Hi". unfold Grow.vec_at. simpl. unfold fits in HN.
    rewrite small_own_ib. iSplit; [iPureIntro; right; lia|]. iSplit; [done|].
    iApply (body_intro _ [] with "[] Hi"); [by rewrite loc_add_0|simpl; lia|simpl; lia|done].
  Qed.
  Lemma small_at_base_inv a : vec_at a ib [] NZ ⊢ ⟦ib_ok N ib⟧ ∗ raws ib N.
  Proof.
    iIntros "(_ & Hown & _ & _ & Hi)". simpl. rewrite small_own_ib loc_add_0.
    iDestruct "Hown" as "[$ _]". iApply (raws_eq with "Hi"); [done|lia].
  Qed.
  (** [reset()]: back to the empty internal storage. *)
  Lemma wp_small_reset a f l cap Q X :
    vec_at a f l cap ⊢ (vec_at a ib [] NZ -∗ Q tt (vobj a ib 0 NZ)) -∗
    wp (reset_ st NZ) (vobj a f (length l) cap) Q X.
  Proof.
    iIntros "(%Hok & Hown & %Hlc & Hl & Hr) HK". unfold reset_. wbind. iApply wp_get. wbeta. wbind.
    iApply (wp_destroy_a with "Hl"); [done|]. iIntros "Hl". wbind.
    iApply (wp_psub _ _ cap); [done|]. wbeta. wbind.
    iDestruct (raws_join _ (Z.to_nat cap) with "Hl Hr") as "Hr"; [done|lia|].
    iApply (so_release_all so (vobj a f (length l) cap) with "Hown Hr"); [done|].
    iIntros "[%Hib Hi]". simpl. wbind. iApply wp_modify. rewrite Z.ltb_irrefl. iApply wp_ret.
    iDestruct (small_at_base a with "Hi") as "Hv"; [done|].
    iSpecialize ("HK" with "Hv"). unfold with_storage, vobj. simpl. by rewrite loc_add_0.
  Qed.

  Lemma wp_small_self a f l cap Q X :
    vec_at a f l cap ⊢
    ((∀ f', vec_at a f' [] 0 -∗ Q tt (vobj a f' 0 0)) ∧
     (⟦0 < NZ⟧ -∗ vec_at a f (vmoved <$> l) cap -∗ Q tt (vobj a f (length l) cap)) ∧
     (∀ l', ⟦0 < NZ /\ length l' = length l⟧ -∗ vec_at a f l' cap -∗ X EUser (vobj a f (length l) cap))) -∗
    wp (small_assign_move_self N ib) (vobj a f (length l) cap) Q X.
  Proof.
    iIntros "Hv HK". unfold small_assign_move_self. wbind. iApply wp_get. wbeta.
    cbn [vobj v_first v_last]. destruct (decide (f = ib)) as [->|Hne].
    - rewrite loc_eqb_refl. wbind. iApply wp_range; [done|].
      iDestruct "Hv" as "(%Hok & Hown & %Hlc & Hl & Hr)". simpl in Hok.
      iAssert (⟦cap = NZ⟧ ∗ small_own N ib a ib cap)%I with "[Hown]" as "[-> Hown]".
      { simpl. rewrite small_own_ib. iDestruct "Hown" as "[% %]". iFrame "%". }
      unfold fits in HN. unfold assign_range_. rewrite refs_length. wbind. iApply wp_check_size.
      iSplit; [|iIntros "%"; lia]. iIntros "_". wbind. iApply wp_capacity. wbeta.
      rewrite (proj2 (Z.leb_le _ _)) //. unfold assign_range_inplace. wbind. iApply wp_get. wbeta.
      wbind. iApply wp_size. wbeta. rewrite refs_length Z.leb_refl. wbind. cbn [vobj v_first v_last].
      iApply (wp_self_loop with "Hl"). iSplit; last first.
      + iIntros (l') "%Hl' Hl". iDestruct "HK" as "[_ [_ HK]]". destruct Hl' as [Hl' Hpos]. iApply ("HK" $! l' with "[%]").
        * split; [lia|done].
        * unfold Grow.vec_at. iFrame "Hown". iSplit; [done|].
          iApply (body_intro with "Hl Hr"); [by rewrite Hl'|lia|lia].
      + iIntros "Hl". wbind. iApply (wp_destroy_a _ _ [] with "[]"); [by rewrite loc_add_0|done|].
        iIntros "_". iApply (wp_set_last _ _ _ (length l)); [done|].
        destruct (decide (N = 0%nat)) as [HN0|HN0].
        * iDestruct "HK" as "[HK _]".
          destruct l; simpl in *; [|lia]. assert (NZ = 0) as HNZ by lia.
          iAssert (vec_at a ib [] NZ) with "[Hown Hl Hr]" as "Hv".
          { unfold Grow.vec_at. iFrame "Hown". iSplit; [done|]. iSplit; [done|]. iFrame. }
          rewrite HNZ. by iApply "HK".
        * iDestruct "HK" as "[_ [HK _]]". iApply "HK"; [iPureIntro; lia|].
          unfold Grow.vec_at. iFrame "Hown". iSplit; [done|].
          iApply (body_intro with "Hl Hr"); rewrite fmap_length; [done|lia|lia].
    - rewrite (proj2 (loc_eqb_false f ib)) //. wbind. iApply (wp_small_reset with "Hv").
      iIntros "Hv". wbind. iApply wp_get. wbeta. wbind. iApply wp_modify. iApply wp_modify.
      rewrite vec_nil_storage. iDestruct "HK" as "[HK _]". iApply "HK".
      iDestruct (small_at_base_inv with "Hv") as "[%Hib Hi]".
      destruct (decide (N = 0%nat)) as [HN0|HN0].
      + unfold ib_ok in Hib. rewrite decide_True in Hib; [|done]. 
        iDestruct (small_at_base a with "Hi") as "Hv"; [unfold ib_ok; by rewrite decide_True|].
        assert (NZ = 0) as -> by lia. by rewrite -{1}Hib.
      + iApply (small_at_null with "Hi"); [lia|done].
  Qed.

  Lemma small_special_ok :
    special_ok st so (Special (small_reserve N ib) (small_shrink_to_fit N ib) (small_assign_move_self N ib)) NZ.
  Proof.
    pose proof (HN : NZ <= max_size) as HN'. split.
    - intros n Hn. simpl. lia.
    - simpl. unfold small_cap. lia.
    - simpl. intros len cap n c Hl Hc Hn He. unfold small_cap in Hc. pose proof max_size_ok.
      rewrite small_calc_cap_spec in He; [|lia..].
      case_decide; [done|]. injection He as <-. unfold growth. lia.
    - iIntros (a f l cap n Q X) "Hv HK". iDestruct (vec_at_len with "Hv") as "[%Hlen Hv]".
      destruct Hlen as [Hok Hlen]. simpl in Hok. simpl.
      unfold small_reserve. wbind. iApply wp_check_size. iSplit; last first.
      { iIntros "%Hms". iDestruct "HK" as "[_ HK]". iApply ("HK" $! ELength l with "[] Hv"). done. }
      iIntros "%Hms". wbind. iApply wp_capacity. wbeta.
      destruct (Z.ltb_spec cap (Z.of_nat n)).
      + iApply (wp_small_relocate with "Hv"); [lia|lia|]. iSplit.
        * iIntros (f') "%Hf Hv". iDestruct "HK" as "[HK _]". iApply ("HK" with "[] Hv").
          iPureIntro. rewrite decide_False; [done|lia].
        * iIntros (e l') "%Hx Hv". iDestruct "HK" as "[_ HK]". iApply ("HK" with "[] Hv").
          iPureIntro. destruct Hx as (Hx1 & Hx2 & Hx3). split_and!; [done|done|].
          destruct Hx2 as [(-> & -> & ?)| ->]; done.
      + iApply wp_ret. iDestruct "HK" as "[HK _]". iApply ("HK" with "[] Hv").
        iPureIntro. by rewrite decide_True.
    - iIntros (a f l cap Q X) "Hv HK". iDestruct (vec_at_len with "Hv") as "[%Hlen Hv]".
      destruct Hlen as [Hok Hlen]. simpl in Hok. simpl. unfold small_cap in Hok.
      unfold small_shrink_to_fit. wbind. iApply wp_size. wbeta. wbind. iApply wp_capacity. wbeta.
      destruct (Z.ltb_spec (Z.of_nat (length l)) cap).
      + pose proof max_size_ok. iApply (wp_small_relocate with "Hv"); [lia|lia|]. iSplit.
        * iIntros (f') "%Hf Hv". iDestruct "HK" as "[HK _]". iApply ("HK" with "[%] Hv").
          split; [lia|]. intros Hcap. apply Hf; lia.
        * iIntros (e l') "%Hx Hv". iDestruct "HK" as "[_ HK]". iApply ("HK" with "[] Hv").
          iPureIntro. tauto.
      + iApply wp_ret. iDestruct "HK" as "[HK _]". iApply ("HK" with "[%] Hv"). split; [lia|done].
    - iIntros (a f l cap Q X) "Hv HK". by iApply (wp_small_self with "Hv").
  Qed.
End special.
