(** * The algorithms of private.hpp for segmented containers as statements about
    memory *)

From iris.proofmode Require Import tactics.
From Verif Require Export AlgoThms SegMoves SegShift SegTwo CopyBackProofs.
From Coq Require Import ZifyBool.
Open Scope Z_scope.

(** ** What is stated *)
Section spec.
  Context `{Env} `{SegSize}.

  (** Segments of [SS] places each, at [segs], and a table of pointers to them at
      [t].  Place number [i]; the iterator that refers to it. *)
  Definition place_addr (segs : list loc) (i : Z) : loc := segs !!! Z.to_nat (i / SS) +ₗ i mod SS.
  Definition iter_to (t : loc) (segs : list loc) (i : nat) : sit :=
    It (t +ₗ Z.of_nat i / SS) (place_addr segs (Z.of_nat i)).

  (** The addresses with their contents: [cs] says for each place which element is
      there, [None] if there is none. *)
  Definition seg_entries (o : loc * list loc) (cs : list (option V)) : list (loc * cell) :=
    imap (fun k q => (o.1 +ₗ Z.of_nat k, Ptr q)) o.2 ++
    imap (fun i c => (place_addr o.2 (Z.of_nat i), match c with Some v => Live v | None => Raw end)) cs.
  (** [m] consists of these and nothing else. *)
  Definition seg_array (o : loc * list loc) (cs : list (option V)) (m : gmap loc cell) : Prop :=
    Z.of_nat (length cs) = SS * Z.of_nat (length o.2) /\
    NoDup (seg_entries o cs).*1 /\ m = list_to_map (seg_entries o cs).

  (** Elements, and places without an element. *)
  Definition somes (l : list V) : list (option V) := Some <$> l.
  Definition nones (n : nat) : list (option V) := replicate n None.
  (** In the same places there are elements. *)
  Definition same_places (cs cs' : list (option V)) : Prop :=
    Forall2 (fun c c' => is_Some c <-> is_Some c') cs cs'.
End spec.

Section does.
  Context `{E : Env} `{SZ : SegSize} {St : Type}.
  (** What a program does to one segmented array, ... *)
  Definition sdoes1 {T} (m : M St T) (s : St) o (cs : list (option V)) w hf
      (φ : T -> list (option V) -> Prop) (ψ : list (option V) -> Prop) : Prop :=
    match m s w with
    | Ok r s' w' => s' = s /\ exists cs', φ r cs' /\ holds seg_array o cs' w' hf /\ quiet w w'
    | Exn e s' w' => s' = s /\ e = EUser /\ exists cs', ψ cs' /\ holds seg_array o cs' w' hf /\ reason e w w'
    | UB => False
    end.
  (** ... and to two separate ones. *)
  Definition sdoes2 {T} (m : M St T) (s : St) o (cs : list (option V)) o2 (ds : list (option V)) w hf
      (φ : T -> list (option V) -> list (option V) -> Prop) (ψ : list (option V) -> list (option V) -> Prop) : Prop :=
    match m s w with
    | Ok r s' w' => s' = s /\ exists cs' ds', φ r cs' ds' /\ holds2 seg_array o cs' o2 ds' w' hf /\ quiet w w'
    | Exn e s' w' => s' = s /\ e = EUser /\
        exists cs' ds', ψ cs' ds' /\ holds2 seg_array o cs' o2 ds' w' hf /\ reason e w w'
    | UB => False
    end.
End does.

(** ** Memory as a list of addresses with contents *)
Section entries.
  Context `{E : Env} `{SZ : SegSize}.
  Implicit Types segs : list loc.
  Implicit Types f : Z -> option V.

  Lemma entries_heap (es : list (loc * cell)) h :
    ([∗ list] e ∈ es, e.1 ↦ e.2)%I h <-> NoDup es.*1 /\ h = list_to_map es.
  Proof.
    revert h. induction es as [|[p c] es IH]; intros h.
    - cbn [big_opL fmap list_fmap list_to_map]. change (h = ∅ <-> @NoDup loc [] /\ h = ∅).
      split; [intros ->; split; [constructor|done]|by intros [_ ?]].
    - cbn [big_opL fmap list_fmap fst snd list_to_map foldr]. split.
      + intros (h1 & h2 & -> & Hd & H1 & H2). change (h1 = {[p := c]}) in H1. subst h1.
        apply IH in H2 as [Hn ->]. apply map_disjoint_singleton_l in Hd.
        split; [|by rewrite insert_union_singleton_l].
        apply NoDup_cons. split; [|done]. intros Hin. by apply not_elem_of_list_to_map_2 in Hd.
      + intros [Hn ->]. apply NoDup_cons in Hn as [Hp Hn].
        exists {[p := c]}, (list_to_map es). split_and!.
        * by rewrite insert_union_singleton_l.
        * apply map_disjoint_singleton_l. by apply not_elem_of_list_to_map_1.
        * done.
        * by apply IH.
  Qed.
  Lemma arr_entries p (qs : list loc) :
    table p qs ⊣⊢ [∗ list] e ∈ imap (fun k q => (p +ₗ Z.of_nat k, Ptr q)) qs, e.1 ↦ e.2.
  Proof.
    unfold table. revert p. induction qs as [|q qs IH]; intros p; [done|].
    cbn [fmap list_fmap imap big_opL fst snd]. rewrite arr_cons loc_add_0. rewrite (IH (p +ₗ 1)).
    apply bi.sep_proper; [done|].
    replace (imap (fun k q0 => (p +ₗ 1 +ₗ Z.of_nat k, Ptr q0)) qs)
      with (imap ((fun k q0 => (p +ₗ Z.of_nat k, Ptr q0)) ∘ S) qs); [done|].
    apply imap_ext. intros k q0 _. unfold compose. rewrite loc_add_assoc. do 2 f_equal. lia.
  Qed.

  (** Contents by position, and as a list. *)
  Definition by_pos (cs : list (option V)) : Z -> option V := fun i => mjoin (cs !! Z.to_nat i).
  Definition by_list segs f : list (option V) := f <$> seqZ 0 (slots segs).
  Lemma win_entries segs cs :
    win (saddr segs) 0 (Z.of_nat (length cs)) (by_pos cs) ⊣⊢
    [∗ list] e ∈ imap (fun i c => (place_addr segs (Z.of_nat i), match c with Some v => Live v | None => Raw end)) cs,
      e.1 ↦ e.2.
  Proof.
    unfold win. rewrite Z.sub_0_r.
    replace (imap (fun i c => (place_addr segs (Z.of_nat i), match c with Some v => Live v | None => Raw end)) cs)
      with ((fun i => (saddr segs i, cell_of (by_pos cs i))) <$> seqZ 0 (Z.of_nat (length cs))).
    { by rewrite big_sepL_fmap. }
    apply list_eq. intros i. rewrite list_lookup_fmap list_lookup_imap.
    destruct (cs !! i) as [c|] eqn:Hc.
    - pose proof (lookup_lt_Some _ _ _ Hc). rewrite (lookup_seqZ_lt 0); [|lia]. cbn [fmap option_fmap option_map].
      unfold by_pos. rewrite Z.add_0_l Nat2Z.id Hc. done.
    - apply lookup_ge_None in Hc. rewrite lookup_seqZ_ge; [done|lia].
  Qed.
  Lemma seg_array_swin t segs cs h :
    Z.of_nat (length cs) = slots segs -> seg_array (t, segs) cs h <-> swin t segs (by_pos cs) h.
  Proof.
    intros Hl. unfold seg_array, swin. cbn [fst snd]. rewrite -Hl.
    assert ((table t segs ∗ win (saddr segs) 0 (Z.of_nat (length cs)) (by_pos cs))%I ⊣⊢
      [∗ list] e ∈ seg_entries (t, segs) cs, e.1 ↦ e.2) as He.
    { unfold seg_entries. by rewrite big_sepL_app -arr_entries win_entries. }
    rewrite -entries_heap. unfold slots in Hl.
    apply bi.equiv_entails in He as [He1 He2]. split.
    - intros [_ Hx]. by apply He2.
    - intros Hx. split; [done|]. by apply He1.
  Qed.
  Lemma by_list_length segs f : Z.of_nat (length (by_list segs f)) = slots segs.
  Proof. unfold by_list, slots. rewrite fmap_length seqZ_length. pose proof SS_pos. nia. Qed.
  Lemma by_list_lookup segs f i : (by_list segs f) !! i = if decide (Z.of_nat i < slots segs) then Some (f (Z.of_nat i)) else None.
  Proof.
    unfold by_list. rewrite list_lookup_fmap. case_decide.
    - rewrite lookup_seqZ_lt; [|lia]. done.
    - rewrite lookup_seqZ_ge; [done|lia].
  Qed.
  Lemma swin_by_list t segs f : swin t segs f ⊢ swin t segs (by_pos (by_list segs f)).
  Proof.
    iIntros "[$ Hw]". iApply (win_eq with "Hw"). intros i Hi. unfold by_pos. rewrite by_list_lookup.
    rewrite Z2Nat.id; [|lia]. rewrite decide_True; [|lia]. done.
  Qed.
  Lemma swin_seg_array t segs f h : swin t segs f h -> seg_array (t, segs) (by_list segs f) h.
  Proof. intros Hh. apply seg_array_swin; [apply by_list_length|]. by apply swin_by_list. Qed.
End entries.

Section run.
  Context `{E : Env} `{SZ : SegSize} {St : Type}.
  Implicit Types s : St.
  Implicit Types segs : list loc.

  Lemma srun1 {T} (m : M St T) s t segs cs w hf φ ψ :
    (Z.of_nat (length cs) = slots segs ->
     swin t segs (by_pos cs) ⊢
       wp m s (fun r s' => ∃ f, ⟦s' = s /\ φ r (by_list segs f)⟧ ∗ swin t segs f)%I
              (fun e s' => ∃ f, ⟦s' = s /\ e = EUser /\ ψ (by_list segs f)⟧ ∗ swin t segs f)%I) ->
    holds seg_array (t, segs) cs w hf -> sdoes1 m s (t, segs) cs w hf φ ψ.
  Proof.
    intros Hwp (Hwf & mh & Hm & Hd & Hh). assert (Z.of_nat (length cs) = slots segs) as Hl by apply Hm.
    apply seg_array_swin in Hm; [|done]. specialize (Hwp Hl).
    pose proof (wp_run _ _ _ _ mh hf w (wp_entails _ _ _ _ _ mh Hwp Hm) Hwf Hd Hh) as Hrun.
    unfold sdoes1. destruct (m s w) as [r s' w'|e s' w'|]; [| |done];
      destruct Hrun as (h' & Hh' & Hd' & Haf & HQ); apply pure_ex in HQ as (f & Ha & HQ); apply swin_seg_array in HQ.
    - destruct Ha as [-> Ha]. split; [done|]. eexists. split; [done|].
      split; [|apply Haf]. split; [apply Haf|]. by exists h'.
    - destruct Ha as (-> & -> & Ha). split; [done|]. split; [done|]. eexists. split; [done|].
      split; [|apply Haf]. split; [apply Haf|]. by exists h'.
  Qed.
  Lemma srun2 {T} (m : M St T) s t segs cs t2 segs2 ds w hf φ ψ :
    (Z.of_nat (length cs) = slots segs -> Z.of_nat (length ds) = slots segs2 ->
     swin t segs (by_pos cs) ∗ swin t2 segs2 (by_pos ds) ⊢
       wp m s (fun r s' => ∃ z : (Z -> option V) * (Z -> option V),
                 ⟦s' = s /\ φ r (by_list segs z.1) (by_list segs2 z.2)⟧ ∗ (swin t segs z.1 ∗ swin t2 segs2 z.2))%I
              (fun e s' => ∃ z : (Z -> option V) * (Z -> option V),
                 ⟦s' = s /\ e = EUser /\ ψ (by_list segs z.1) (by_list segs2 z.2)⟧ ∗
                 (swin t segs z.1 ∗ swin t2 segs2 z.2))%I) ->
    holds2 seg_array (t, segs) cs (t2, segs2) ds w hf -> sdoes2 m s (t, segs) cs (t2, segs2) ds w hf φ ψ.
  Proof.
    intros Hwp (Hwf & m1 & m2 & Hm1 & Hm2 & Hd12 & Hd1 & Hd2 & Hh).
    assert (Z.of_nat (length cs) = slots segs) as Hl1 by apply Hm1.
    assert (Z.of_nat (length ds) = slots segs2) as Hl2 by apply Hm2.
    apply seg_array_swin in Hm1, Hm2; [|done..]. specialize (Hwp Hl1 Hl2).
    assert (Hm : (swin t segs (by_pos cs) ∗ swin t2 segs2 (by_pos ds))%I (m1 ∪ m2)) by (by exists m1, m2).
    assert (Hd : m1 ∪ m2 ##ₘ hf) by (by apply map_disjoint_union_l).
    pose proof (wp_run _ _ _ _ _ hf w (wp_entails _ _ _ _ _ _ Hwp Hm) Hwf Hd Hh) as Hrun.
    unfold sdoes2. destruct (m s w) as [r s' w'|e s' w'|]; [| |done];
      destruct Hrun as (h' & Hh' & Hd' & Haf & HQ); apply pure_ex in HQ as ([f g] & Ha & HQ);
      destruct HQ as (h1 & h2 & -> & Hd12' & H1 & H2); cbn in Ha; apply swin_seg_array in H1, H2;
      apply map_disjoint_union_l in Hd' as [? ?].
    - destruct Ha as [-> Ha]. split; [done|]. do 2 eexists. split; [done|].
      split; [|apply Haf]. split; [apply Haf|]. by exists h1, h2.
    - destruct Ha as (-> & -> & Ha). split; [done|]. split; [done|]. do 2 eexists. split; [done|].
      split; [|apply Haf]. split; [apply Haf|]. by exists h1, h2.
  Qed.

End run.

(** ** Effects in terms of lists *)
Section lists.
  Context `{E : Env} `{SZ : SegSize}.
  Implicit Types segs : list loc.
  Implicit Types f : Z -> option V.
  Implicit Types cs : list (option V).

  Lemma by_list_eq segs f cs :
    Z.of_nat (length cs) = slots segs -> (forall i, 0 <= i < slots segs -> f i = by_pos cs i) -> by_list segs f = cs.
  Proof.
    intros Hl Hf. apply list_eq. intros i. rewrite by_list_lookup. case_decide as Hi.
    - rewrite Hf; [|lia]. unfold by_pos. rewrite Nat2Z.id.
      destruct (lookup_lt_is_Some_2 cs i) as [c Hc]; [lia|]. by rewrite Hc.
    - symmetry. apply lookup_ge_None. lia.
  Qed.
  Lemma by_pos_app cs1 cs2 i :
    0 <= i -> by_pos (cs1 ++ cs2) i = if decide (i < Z.of_nat (length cs1)) then by_pos cs1 i else by_pos cs2 (i - Z.of_nat (length cs1)).
  Proof.
    intros Hi. unfold by_pos. case_decide.
    - rewrite lookup_app_l; [done|lia].
    - rewrite lookup_app_r; [|lia]. do 2 f_equal. lia.
  Qed.
  Lemma by_pos_somes l i : by_pos (somes l) i = l !! Z.to_nat i.
  Proof. unfold by_pos, somes. rewrite list_lookup_fmap. by destruct (l !! _). Qed.
  Lemma by_pos_nones n i : by_pos (nones n) i = None.
  Proof.
    unfold by_pos, nones. destruct (replicate n None !! Z.to_nat i) as [c|] eqn:Hc; [|done].
    by apply lookup_replicate in Hc as [-> _].
  Qed.
  Lemma somes_length l : length (somes l) = length l.
  Proof. apply fmap_length. Qed.
  Lemma nones_length n : length (nones n) = n.
  Proof. apply replicate_length. Qed.
  Lemma somes_app l l' : somes (l ++ l') = somes l ++ somes l'.
  Proof. apply fmap_app. Qed.

  (** The part of the places in the middle. *)
  Lemma by_pos_mid l1 x l2 i :
    Z.of_nat (length l1) <= i < Z.of_nat (length l1 + length x) ->
    by_pos (l1 ++ x ++ l2) i = by_pos x (i - Z.of_nat (length l1)).
  Proof. intros Hi. rewrite by_pos_app; [|lia]. rewrite decide_False; [|lia]. rewrite by_pos_app; [|lia]. by rewrite decide_True; [|lia]. Qed.
  Lemma by_pos_out l1 x y l2 i :
    length x = length y -> 0 <= i -> ~ Z.of_nat (length l1) <= i < Z.of_nat (length l1 + length x) ->
    by_pos (l1 ++ x ++ l2) i = by_pos (l1 ++ y ++ l2) i.
  Proof.
    intros Hxy Hi Hout. rewrite !(by_pos_app l1); [|lia..]. case_decide; [done|].
    rewrite !by_pos_app; [|lia..]. rewrite !decide_False; [|lia..]. by rewrite Hxy.
  Qed.
  Lemma live_mid l1 l l2 i :
    Z.of_nat (length l1) <= i < Z.of_nat (length l1 + length l) -> live (by_pos (l1 ++ somes l ++ l2)) i = true.
  Proof.
    intros Hi. unfold live. rewrite by_pos_mid; [|rewrite somes_length; lia]. rewrite by_pos_somes.
    destruct (lookup_lt_is_Some_2 l (Z.to_nat (i - Z.of_nat (length l1)))) as [c ->]; [lia|done].
  Qed.
  Lemma raw_mid l1 n l2 i :
    Z.of_nat (length l1) <= i < Z.of_nat (length l1 + n) -> live (by_pos (l1 ++ nones n ++ l2)) i = false.
  Proof.
    intros Hi. unfold live. rewrite by_pos_mid; [|rewrite nones_length; lia]. by rewrite by_pos_nones.
  Qed.
  Lemma stored_list segs l1 x l2 vs f :
    length x = length vs -> Z.of_nat (length (l1 ++ x ++ l2)) = slots segs ->
    stored (Z.of_nat (length l1)) vs (by_pos (l1 ++ x ++ l2)) f -> by_list segs f = l1 ++ somes vs ++ l2.
  Proof.
    intros Hx Hl [H1 H2 _]. apply by_list_eq; [rewrite -Hl !app_length somes_length; lia|]. intros i Hi.
    destruct (decide (Z.of_nat (length l1) <= i < Z.of_nat (length l1) + Z.of_nat (length vs))) as [Hin|Hout].
    - rewrite H1; [|lia]. rewrite by_pos_mid; [|rewrite somes_length; lia]. by rewrite by_pos_somes.
    - rewrite H2; [|done]. apply by_pos_out; [by rewrite somes_length|lia|lia].
  Qed.
  Lemma cleared_list segs l1 x l2 b f :
    b = Z.of_nat (length l1 + length x) -> Z.of_nat (length (l1 ++ x ++ l2)) = slots segs ->
    cleared (Z.of_nat (length l1)) b (by_pos (l1 ++ x ++ l2)) f -> by_list segs f = l1 ++ nones (length x) ++ l2.
  Proof.
    intros -> Hl [H1 H2]. apply by_list_eq; [rewrite -Hl !app_length nones_length; lia|]. intros i Hi.
    destruct (decide (Z.of_nat (length l1) <= i < Z.of_nat (length l1 + length x))) as [Hin|Hout].
    - rewrite by_pos_mid; [|rewrite nones_length; lia]. rewrite by_pos_nones. apply live_false. rewrite H2.
      unfold within. lia.
    - rewrite H1; [|done]. apply by_pos_out; [by rewrite nones_length|lia|lia].
  Qed.
  Lemma shaken_list segs cs f :
    Z.of_nat (length cs) = slots segs -> shaken (by_pos cs) f -> same_places cs (by_list segs f).
  Proof.
    intros Hl Hs. apply Forall2_same_length_lookup. split; [pose proof (by_list_length segs f); lia|].
    intros i c c' Hc Hc'. rewrite by_list_lookup in Hc'. case_decide; [|done]. injection Hc' as <-.
    specialize (Hs (Z.of_nat i)). unfold live, by_pos in Hs. rewrite Nat2Z.id Hc in Hs. cbn in Hs.
    rewrite !is_Some_alt. destruct c, (f (Z.of_nat i)); done.
  Qed.
  Lemma list_self segs cs : Z.of_nat (length cs) = slots segs -> by_list segs (by_pos cs) = cs.
  Proof. intros Hl. by apply by_list_eq. Qed.
  (** A window of live places. *)
  Lemma live_window f a (n : nat) :
    (forall i, a <= i < a + Z.of_nat n -> live f i = true) ->
    exists l, length l = n /\ forall i, a <= i < a + Z.of_nat n -> f i = l !! Z.to_nat (i - a).
  Proof.
    intros Hl. destruct (live_list f a (a + Z.of_nat n)) as (l & Hn & Hf); [lia|done|].
    exists l. split; [lia|done].
  Qed.
  (** Only the window changes. *)
  Lemma window_list segs l1 x l2 y f :
    length y = length x -> Z.of_nat (length (l1 ++ x ++ l2)) = slots segs ->
    (forall i, 0 <= i -> ~ Z.of_nat (length l1) <= i < Z.of_nat (length l1 + length x) ->
       f i = by_pos (l1 ++ x ++ l2) i) ->
    (forall i, 0 <= i < Z.of_nat (length x) -> f (Z.of_nat (length l1) + i) = by_pos y i) ->
    by_list segs f = l1 ++ y ++ l2.
  Proof.
    intros Hy Hl Hout Hin. apply by_list_eq; [rewrite -Hl !app_length; lia|]. intros i Hi.
    destruct (decide (Z.of_nat (length l1) <= i < Z.of_nat (length l1 + length x))) as [H1|H1].
    - rewrite by_pos_mid; [|lia]. rewrite -Hin; [f_equal; lia|lia].
    - rewrite Hout; [|lia|done]. apply by_pos_out; [done|lia|lia].
  Qed.
End lists.

(** ** The algorithms *)
Section algos.
  Context `{E : Env} `{SZ : SegSize} {St : Type}.
  Implicit Types s : St.
  Implicit Types segs : list loc.
  Notation zlen l := (Z.of_nat (length l)).

  Lemma iter_sitr t segs (n : nat) i : i = Z.of_nat n -> iter_to t segs n = sitr t segs i.
  Proof. by intros ->. Qed.
  Ltac sizes := rewrite ?app_length ?somes_length ?nones_length ?app_length; try lia.
  Ltac beyond l2 Hl2 Hl := destruct l2 as [|c0 l2']; [done|]; rewrite !app_length /= ?somes_length ?nones_length in Hl; try lia.

  (** *** Constructing elements in raw memory *)
  Lemma s_ucopy_ra_values s t segs vs (l1 l2 : list (option V)) w hf :
    l2 <> [] -> holds seg_array (t, segs) (l1 ++ nones (length vs) ++ l2) w hf ->
    sdoes1 (s_ucopy_ra (AVal <$> vs) (iter_to t segs (length l1))) s (t, segs) (l1 ++ nones (length vs) ++ l2) w hf
      (fun r cs => r = iter_to t segs (length l1 + length vs) /\ cs = l1 ++ somes vs ++ l2)
      (fun cs => cs = l1 ++ nones (length vs) ++ l2).
  Proof.
    intros Hl2. apply srun1. intros Hl. iIntros "Hw".
    assert (zlen l1 + zlen vs < slots segs) as Hb by (beyond l2 Hl2 Hl).
    iApply (wp_s_ucopy_ra emp%I emp%I (AVal <$> vs) vs emp%I t segs (zlen l1) with "[] Hw");
      [apply mks_vals|lia|done|intros i Hi; apply raw_mid; lia|done|]. iSplit.
    - iIntros (f) "%Hf _ Hw". iExists f. iFrame "Hw". iPureIntro. split_and!; [done| |].
      + symmetry. apply iter_sitr. lia.
      + eapply stored_list; [|done|done]. by rewrite nones_length.
    - iIntros "_ Hw". iExists _. iFrame "Hw". iPureIntro. split_and!; [done|done|]. by apply list_self.
  Qed.
  Lemma s_ucopy_fwd_values s t segs vs (l1 l2 : list (option V)) w hf :
    l2 <> [] -> holds seg_array (t, segs) (l1 ++ nones (length vs) ++ l2) w hf ->
    sdoes1 (s_ucopy_fwd (AVal <$> vs) (iter_to t segs (length l1))) s (t, segs) (l1 ++ nones (length vs) ++ l2) w hf
      (fun r cs => r = iter_to t segs (length l1 + length vs) /\ cs = l1 ++ somes vs ++ l2)
      (fun cs => cs = l1 ++ nones (length vs) ++ l2).
  Proof.
    intros Hl2. apply srun1. intros Hl. iIntros "Hw".
    assert (zlen l1 + zlen vs < slots segs) as Hb by (beyond l2 Hl2 Hl).
    iApply (wp_s_ucopy_fwd emp%I emp%I (AVal <$> vs) vs emp%I t segs (zlen l1) with "[] Hw");
      [apply mks_vals|lia|done|intros i Hi; apply raw_mid; lia|done|]. iSplit.
    - iIntros (f) "%Hf _ Hw". iExists f. iFrame "Hw". iPureIntro. split_and!; [done| |].
      + symmetry. apply iter_sitr. lia.
      + eapply stored_list; [|done|done]. by rewrite nones_length.
    - iIntros "_ Hw". iExists _. iFrame "Hw". iPureIntro. split_and!; [done|done|]. by apply list_self.
  Qed.
  Lemma s_ufill_values s t segs v n (l1 l2 : list (option V)) w hf :
    l2 <> [] -> holds seg_array (t, segs) (l1 ++ nones n ++ l2) w hf ->
    sdoes1 (s_uninitialized_fill_n_a (iter_to t segs (length l1)) n (AVal v)) s (t, segs) (l1 ++ nones n ++ l2) w hf
      (fun r cs => r = iter_to t segs (length l1 + n) /\ cs = l1 ++ somes (replicate n v) ++ l2)
      (fun cs => cs = l1 ++ nones n ++ l2) /\
    sdoes1 (s_uninitialized_fill_a (iter_to t segs (length l1)) (iter_to t segs (length l1 + n)) (AVal v)) s
      (t, segs) (l1 ++ nones n ++ l2) w hf
      (fun r cs => cs = l1 ++ somes (replicate n v) ++ l2) (fun cs => cs = l1 ++ nones n ++ l2).
  Proof.
    intros Hl2 Hx. split; revert Hx; apply srun1; intros Hl; iIntros "Hw";
      assert (zlen l1 + Z.of_nat n < slots segs) as Hb by (beyond l2 Hl2 Hl).
    - iApply (wp_s_ufill_n_a t segs (zlen l1) n _ emp%I with "[] Hw");
        [apply mk_ok_val|lia|done|intros i Hi; apply raw_mid; lia|done|]. iSplit.
      + iIntros (f) "%Hf _ Hw". iExists f. iFrame "Hw". iPureIntro. split_and!; [done| |].
        * symmetry. apply iter_sitr. lia.
        * eapply stored_list; [|done|done]. by rewrite nones_length replicate_length.
      + iIntros "_ Hw". iExists _. iFrame "Hw". iPureIntro. split_and!; [done|done|]. by apply list_self.
    - rewrite (iter_sitr _ _ (length l1 + n) (zlen l1 + Z.of_nat n)); [|lia].
      iApply (wp_s_ufill_a t segs (zlen l1) (zlen l1 + Z.of_nat n) _ emp%I with "[] Hw");
        [apply mk_ok_val|lia|lia|done|intros i Hi; apply raw_mid; lia|done|]. iSplit.
      + iIntros (f) "%Hf _ Hw". iExists f. iFrame "Hw". iPureIntro. split_and!; [done|].
        replace (Z.to_nat (zlen l1 + Z.of_nat n - zlen l1)) with n in Hf by lia.
        eapply stored_list; [|done|done]. by rewrite nones_length replicate_length.
      + iIntros "_ Hw". iExists _. iFrame "Hw". iPureIntro. split_and!; [done|done|]. by apply list_self.
  Qed.
  Lemma s_udefault_values s t segs n (l1 l2 : list (option V)) w hf :
    l2 <> [] -> holds seg_array (t, segs) (l1 ++ nones n ++ l2) w hf ->
    sdoes1 (s_default_construct_n_a (iter_to t segs (length l1)) n) s (t, segs) (l1 ++ nones n ++ l2) w hf
      (fun r cs => r = iter_to t segs (length l1 + n) /\ cs = l1 ++ somes (replicate n vdef) ++ l2)
      (fun cs => cs = l1 ++ nones n ++ l2) /\
    sdoes1 (s_default_construct_a (iter_to t segs (length l1)) (iter_to t segs (length l1 + n))) s
      (t, segs) (l1 ++ nones n ++ l2) w hf
      (fun r cs => cs = l1 ++ somes (replicate n vdef) ++ l2) (fun cs => cs = l1 ++ nones n ++ l2).
  Proof.
    intros Hl2 Hx. split; revert Hx; apply srun1; intros Hl; iIntros "Hw";
      assert (zlen l1 + Z.of_nat n < slots segs) as Hb by (beyond l2 Hl2 Hl).
    - iApply (wp_s_default_construct_n_a t segs (zlen l1) n with "Hw");
        [lia|done|intros i Hi; apply raw_mid; lia|]. iSplit.
      + iIntros (f) "%Hf Hw". iExists f. iFrame "Hw". iPureIntro. split_and!; [done| |].
        * symmetry. apply iter_sitr. lia.
        * eapply stored_list; [|done|done]. by rewrite nones_length replicate_length.
      + iIntros "Hw". iExists _. iFrame "Hw". iPureIntro. split_and!; [done|done|]. by apply list_self.
    - rewrite (iter_sitr _ _ (length l1 + n) (zlen l1 + Z.of_nat n)); [|lia].
      iApply (wp_s_default_construct_a t segs (zlen l1) (zlen l1 + Z.of_nat n) with "Hw");
        [lia|lia|done|intros i Hi; apply raw_mid; lia|]. iSplit.
      + iIntros (f) "%Hf Hw". iExists f. iFrame "Hw". iPureIntro. split_and!; [done|].
        replace (Z.to_nat (zlen l1 + Z.of_nat n - zlen l1)) with n in Hf by lia.
        eapply stored_list; [|done|done]. by rewrite nones_length replicate_length.
      + iIntros "Hw". iExists _. iFrame "Hw". iPureIntro. split_and!; [done|done|]. by apply list_self.
  Qed.
  Lemma s_destroy_values s t segs l (l1 l2 : list (option V)) w hf :
    l2 <> [] -> holds seg_array (t, segs) (l1 ++ somes l ++ l2) w hf ->
    sdoes1 (s_destroy_a (iter_to t segs (length l1)) (iter_to t segs (length l1 + length l))) s
      (t, segs) (l1 ++ somes l ++ l2) w hf
      (fun r cs => cs = l1 ++ nones (length l) ++ l2) (fun _ => False) /\
    sdoes1 (s_destroy_n_a (iter_to t segs (length l1)) (length l)) s (t, segs) (l1 ++ somes l ++ l2) w hf
      (fun r cs => r = iter_to t segs (length l1 + length l) /\ cs = l1 ++ nones (length l) ++ l2) (fun _ => False).
  Proof.
    intros Hl2 Hx. split; revert Hx; apply srun1; intros Hl; iIntros "Hw";
      assert (zlen l1 + zlen l < slots segs) as Hb by (beyond l2 Hl2 Hl).
    - rewrite (iter_sitr _ _ (length l1 + length l) (zlen l1 + zlen l)); [|lia].
      iApply (wp_s_destroy_a t segs (zlen l1) (zlen l1 + zlen l) with "Hw");
        [lia|lia|done|intros i Hi; apply live_mid; lia|].
      iIntros (f) "%Hf Hw". iExists f. iFrame "Hw". iPureIntro. split; [done|].
      eapply cleared_list in Hf; [|rewrite somes_length; lia|done]. by rewrite somes_length in Hf.
    - rewrite (iter_sitr _ _ (length l1 + length l) (zlen l1 + zlen l)); [|lia].
      iApply (wp_use _ _ _ (fun r => ⟦r = sitr t segs (zlen l1 + zlen l)⟧ ∗
         ∃ f', ⟦cleared (zlen l1) (zlen l1 + zlen l) (by_pos (l1 ++ somes l ++ l2)) f'⟧ ∗ swin t segs f')%I False%I with "Hw").
      { etrans; [apply (s_destroy_n_a_tr (St := St) t segs (zlen l1) (length l) _ s); [lia|done|intros i Hi; apply live_mid; lia]|].
        apply wp_mono; [done|]. intros e s'. iIntros "[]". }
      iSplit; [|iIntros "[]"].
      iIntros (r) "[-> H]". iDestruct "H" as (f) "[%Hf Hw]". iExists f. iFrame "Hw". iPureIntro. split_and!; [done|done|].
      eapply cleared_list in Hf; [|rewrite somes_length; lia|done]. by rewrite somes_length in Hf.
  Qed.

  (** *** Assigning to elements *)
  Lemma s_copy_ra_values s t segs vs l (l1 l2 : list (option V)) w hf :
    l2 <> [] -> length l = length vs -> holds seg_array (t, segs) (l1 ++ somes l ++ l2) w hf ->
    sdoes1 (s_copy_ra (AVal <$> vs) (iter_to t segs (length l1))) s (t, segs) (l1 ++ somes l ++ l2) w hf
      (fun r cs => r = iter_to t segs (length l1 + length vs) /\ cs = l1 ++ somes vs ++ l2)
      (fun cs => same_places (l1 ++ somes l ++ l2) cs) /\
    sdoes1 (s_copy_fwd (AVal <$> vs) (iter_to t segs (length l1))) s (t, segs) (l1 ++ somes l ++ l2) w hf
      (fun r cs => r = iter_to t segs (length l1 + length vs) /\ cs = l1 ++ somes vs ++ l2)
      (fun cs => same_places (l1 ++ somes l ++ l2) cs).
  Proof.
    intros Hl2 Hlv Hx. split; revert Hx; apply srun1; intros Hl; iIntros "Hw";
      assert (zlen l1 + zlen vs < slots segs) as Hb by (beyond l2 Hl2 Hl).
    - iApply (wp_s_copy_ra emp%I emp%I (AVal <$> vs) vs emp%I t segs (zlen l1) with "[] Hw");
        [apply ass_vals|lia|done|intros i Hi; apply live_mid; lia|done|]. iSplit.
      + iIntros (f) "%Hf _ Hw". iExists f. iFrame "Hw". iPureIntro. split_and!; [done| |].
        * symmetry. apply iter_sitr. lia.
        * eapply stored_list; [|done|done]. by rewrite somes_length.
      + iIntros (f) "%Hf _ Hw". iExists _. iFrame "Hw". iPureIntro. split_and!; [done|done|]. apply shaken_list; [done|apply Hf].
    - iApply (wp_s_copy_fwd emp%I emp%I (AVal <$> vs) vs emp%I t segs (zlen l1) with "[] Hw");
        [apply ass_vals|lia|done|intros i Hi; apply live_mid; lia|done|]. iSplit.
      + iIntros (f) "%Hf _ Hw". iExists f. iFrame "Hw". iPureIntro. split_and!; [done| |].
        * symmetry. apply iter_sitr. lia.
        * eapply stored_list; [|done|done]. by rewrite somes_length.
      + iIntros (f) "%Hf _ Hw". iExists _. iFrame "Hw". iPureIntro. split_and!; [done|done|]. apply shaken_list; [done|apply Hf].
  Qed.
  Lemma s_fill_values s t segs v l (l1 l2 : list (option V)) w hf :
    l2 <> [] -> holds seg_array (t, segs) (l1 ++ somes l ++ l2) w hf ->
    sdoes1 (s_fill (iter_to t segs (length l1)) (iter_to t segs (length l1 + length l)) (AVal v)) s
      (t, segs) (l1 ++ somes l ++ l2) w hf
      (fun r cs => cs = l1 ++ somes (replicate (length l) v) ++ l2)
      (fun cs => same_places (l1 ++ somes l ++ l2) cs).
  Proof.
    intros Hl2. apply srun1; intros Hl; iIntros "Hw".
    assert (zlen l1 + zlen l < slots segs) as Hb by (beyond l2 Hl2 Hl).
    rewrite (iter_sitr _ _ (length l1 + length l) (zlen l1 + zlen l)); [|lia].
    iApply (wp_s_fill t segs (zlen l1) (zlen l1 + zlen l) _ emp%I with "[] Hw");
      [apply as_ok_val|lia|lia|done|intros i Hi; apply live_mid; lia|done|]. iSplit.
    + iIntros (f) "%Hf _ Hw". iExists f. iFrame "Hw". iPureIntro. split_and!; [done|].
      replace (Z.to_nat (zlen l1 + zlen l - zlen l1)) with (length l) in Hf by lia.
      eapply stored_list; [|done|done]. by rewrite somes_length replicate_length.
    + iIntros (f) "%Hf _ Hw". iExists _. iFrame "Hw". iPureIntro. split_and!; [done|done|]. apply shaken_list; [done|apply Hf].
  Qed.

  (** *** Within one container, overlapping *)
  Lemma s_move_down s t segs x l (l1 l2 : list (option V)) w hf :
    l2 <> [] -> x <> [] -> holds seg_array (t, segs) (l1 ++ somes (x ++ l) ++ l2) w hf ->
    sdoes1 (s_move (iter_to t segs (length l1 + length x)) (iter_to t segs (length l1 + length x + length l))
              (iter_to t segs (length l1))) s (t, segs) (l1 ++ somes (x ++ l) ++ l2) w hf
      (fun r cs => r = iter_to t segs (length l1 + length l) /\
                   exists x', length x' = length x /\ cs = l1 ++ somes (l ++ x') ++ l2)
      (fun cs => same_places (l1 ++ somes (x ++ l) ++ l2) cs).
  Proof.
    intros Hl2 Hx. apply srun1; intros Hl; iIntros "Hw". assert (0 < zlen x) as Hx0 by (destruct x; [done|simpl; lia]).
    assert (zlen l1 + zlen x + zlen l < slots segs) as Hb by (beyond l2 Hl2 Hl; rewrite app_length in Hl; lia).
    rewrite (iter_sitr _ _ (length l1 + length x) (zlen l1 + zlen x)); [|lia].
    rewrite (iter_sitr _ _ (length l1 + length x + length l) (zlen l1 + zlen x + zlen l)); [|lia].
    iApply (wp_s_move t segs (zlen l1 + zlen x) (zlen l1 + zlen x + zlen l) (zlen l1) with "Hw");
      [lia|lia|done|lia|lia|lia|intros i Hi; apply live_mid; sizes|intros i Hi; apply live_mid; sizes|]. iSplit.
    - iIntros (f) "%Hf Hw". destruct Hf as [H1 H2 H3]. iExists f. iFrame "Hw". iPureIntro. split_and!; [done| |].
      { symmetry. apply iter_sitr. lia. }
      destruct (live_window f (zlen l1 + zlen l) (length x)) as (x' & Hx' & Hfx).
      { intros i Hi. rewrite H3. rewrite live_mid; [done|sizes]. }
      exists x'. split; [done|]. apply (window_list segs l1 (somes (x ++ l)) l2 (somes (l ++ x'))); [sizes|done| |].
      + intros i Hi Hout. rewrite somes_length app_length in Hout. apply H2; lia.
      + intros i Hi. rewrite somes_length app_length in Hi. rewrite by_pos_somes.
        destruct (decide (i < zlen l)) as [Hlt|Hge].
        * rewrite H1; [|lia]. rewrite by_pos_mid; [|sizes]. rewrite by_pos_somes.
          rewrite (lookup_app_r x); [|lia]. rewrite (lookup_app_l l); [|lia]. f_equal. lia.
        * rewrite Hfx; [|lia]. rewrite lookup_app_r; [|lia]. f_equal. lia.
    - iIntros (f) "%Hf Hw". iExists _. iFrame "Hw". iPureIntro. split_and!; [done|done|]. apply shaken_list; [done|apply Hf].
  Qed.
  Lemma s_move_up s t segs x l (l1 l2 : list (option V)) w hf :
    l2 <> [] -> x <> [] -> holds seg_array (t, segs) (l1 ++ somes (l ++ x) ++ l2) w hf ->
    sdoes1 (s_move_backward (iter_to t segs (length l1)) (iter_to t segs (length l1 + length l))
              (iter_to t segs (length l1 + length l + length x))) s (t, segs) (l1 ++ somes (l ++ x) ++ l2) w hf
      (fun r cs => r = iter_to t segs (length l1 + length x) /\
                   exists x', length x' = length x /\ cs = l1 ++ somes (x' ++ l) ++ l2)
      (fun cs => same_places (l1 ++ somes (l ++ x) ++ l2) cs).
  Proof.
    intros Hl2 Hx. apply srun1; intros Hl; iIntros "Hw". assert (0 < zlen x) as Hx0 by (destruct x; [done|simpl; lia]).
    assert (zlen l1 + zlen x + zlen l < slots segs) as Hb by (beyond l2 Hl2 Hl; rewrite app_length in Hl; lia).
    rewrite (iter_sitr _ _ (length l1 + length l) (zlen l1 + zlen l)); [|lia].
    rewrite (iter_sitr _ _ (length l1 + length l + length x) (zlen l1 + zlen x + (zlen l1 + zlen l - zlen l1))); [|lia].
    iApply (wp_s_move_backward t segs (zlen l1) (zlen l1 + zlen l) (zlen l1 + zlen x) with "Hw");
      [lia|lia|lia|lia|lia|lia|intros i Hi; apply live_mid; sizes|intros i Hi; apply live_mid; sizes|]. iSplit.
    - iIntros (f) "%Hf Hw". destruct Hf as [H1 H2 H3]. iExists f. iFrame "Hw". iPureIntro. split_and!; [done| |].
      { symmetry. apply iter_sitr. lia. }
      destruct (live_window f (zlen l1) (length x)) as (x' & Hx' & Hfx).
      { intros i Hi. rewrite H3. rewrite live_mid; [done|sizes]. }
      exists x'. split; [done|]. apply (window_list segs l1 (somes (l ++ x)) l2 (somes (x' ++ l))); [sizes|done| |].
      + intros i Hi Hout. rewrite somes_length app_length in Hout. apply H2; lia.
      + intros i Hi. rewrite somes_length app_length in Hi. rewrite by_pos_somes.
        destruct (decide (i < zlen x)) as [Hlt|Hge].
        * rewrite Hfx; [|lia]. rewrite lookup_app_l; [|lia]. f_equal. lia.
        * rewrite H1; [|lia]. rewrite by_pos_mid; [|sizes]. rewrite by_pos_somes.
          rewrite lookup_app_l; [|lia]. rewrite lookup_app_r; [|lia]. f_equal. lia.
    - iIntros (f) "%Hf Hw". iExists _. iFrame "Hw". iPureIntro. split_and!; [done|done|]. apply shaken_list; [done|apply Hf].
  Qed.
  Lemma s_copy_up s t segs x l (l1 l2 : list (option V)) w hf :
    l2 <> [] -> x <> [] -> holds seg_array (t, segs) (l1 ++ somes (l ++ x) ++ l2) w hf ->
    sdoes1 (s_copy_backward (iter_to t segs (length l1)) (iter_to t segs (length l1 + length l))
              (iter_to t segs (length l1 + length l + length x))) s (t, segs) (l1 ++ somes (l ++ x) ++ l2) w hf
      (fun r cs => r = iter_to t segs (length l1 + length x) /\
                   cs = l1 ++ somes (take (length x) (l ++ x) ++ l) ++ l2)
      (fun cs => same_places (l1 ++ somes (l ++ x) ++ l2) cs).
  Proof.
    intros Hl2 Hx. apply srun1; intros Hl; iIntros "Hw". assert (0 < zlen x) as Hx0 by (destruct x; [done|simpl; lia]).
    assert (zlen l1 + zlen x + zlen l < slots segs) as Hb by (beyond l2 Hl2 Hl; rewrite app_length in Hl; lia).
    rewrite (iter_sitr _ _ (length l1 + length l) (zlen l1 + zlen l)); [|lia].
    rewrite (iter_sitr _ _ (length l1 + length l + length x) (zlen l1 + zlen x + (zlen l1 + zlen l - zlen l1))); [|lia].
    iApply (wp_s_copy_backward t segs (zlen l1) (zlen l1 + zlen l) (zlen l1 + zlen x) with "Hw");
      [lia|lia|lia|lia|lia|lia|intros i Hi; apply live_mid; sizes|intros i Hi; apply live_mid; sizes|]. iSplit.
    - iIntros (f) "%Hf Hw". destruct Hf as [H1 H2]. iExists f. iFrame "Hw". iPureIntro. split_and!; [done| |].
      { symmetry. apply iter_sitr. lia. }
      assert (length (take (length x) (l ++ x)) = length x) as Htl by (rewrite take_length app_length; lia).
      apply (window_list segs l1 (somes (l ++ x)) l2); [rewrite !somes_length !app_length; lia|done| |].
      + intros i Hi Hout. rewrite somes_length app_length in Hout. apply H2; lia.
      + intros i Hi. rewrite somes_length app_length in Hi. rewrite by_pos_somes.
        destruct (decide (i < zlen x)) as [Hlt|Hge].
        * rewrite H2; [|lia]. rewrite by_pos_mid; [|sizes]. rewrite by_pos_somes.
          rewrite (lookup_app_l (take _ _)); [|lia]. rewrite lookup_take; [|lia]. f_equal. lia.
        * rewrite H1; [|lia]. rewrite by_pos_mid; [|sizes]. rewrite by_pos_somes.
          rewrite lookup_app_l; [|lia]. rewrite lookup_app_r; [|lia]. f_equal. lia.
    - iIntros (f) "%Hf Hw". iExists _. iFrame "Hw". iPureIntro. split_and!; [done|done|]. apply shaken_list; [done|apply Hf].
  Qed.
  (** Into raw memory of the same container, behind or in front of the source. *)
  Lemma s_umove_behind s t segs l (l1 l2 l3 : list (option V)) w hf :
    l3 <> [] -> let cs := l1 ++ somes l ++ l2 ++ nones (length l) ++ l3 in
    holds seg_array (t, segs) cs w hf ->
    sdoes1 (s_umove (iter_to t segs (length l1)) (iter_to t segs (length l1 + length l))
              (iter_to t segs (length l1 + length l + length l2))) s (t, segs) cs w hf
      (fun r cs' => r = iter_to t segs (length l1 + length l + length l2 + length l) /\
                   exists x, length x = length l /\ cs' = l1 ++ somes x ++ l2 ++ somes l ++ l3)
      (fun cs' => nothrow_move = false /\ same_places cs cs').
  Proof.
    intros Hl3 cs. apply srun1; intros Hl; iIntros "Hw".
    assert (zlen l1 + zlen l + zlen l2 + zlen l < slots segs) as Hb.
    { unfold cs in Hl. destruct l3 as [|c0 l3']; [done|]. rewrite !app_length /= somes_length nones_length in Hl. lia. }
    assert (cs = (l1 ++ somes l ++ l2) ++ nones (length l) ++ l3) as Hcs by (unfold cs; by rewrite -!assoc_L).
    rewrite (iter_sitr _ _ (length l1 + length l) (zlen l1 + zlen l)); [|lia].
    rewrite (iter_sitr _ _ (length l1 + length l + length l2) (zlen l1 + zlen l + zlen l2)); [|lia].
    iApply (wp_s_umove t segs (zlen l1) (zlen l1 + zlen l) (zlen l1 + zlen l + zlen l2) with "Hw");
      [lia|lia|lia|lia|lia|intros i Hi; apply live_mid; sizes| |].
    { intros i Hi. rewrite Hcs. apply raw_mid; rewrite !app_length somes_length; lia. } iSplit.
    - iIntros (f) "%Hf Hw". destruct Hf as [H1 H2 H3]. iExists f. iFrame "Hw". iPureIntro. split_and!; [done| |].
      { symmetry. apply iter_sitr. lia. }
      destruct (live_window f (zlen l1) (length l)) as (x & Hx & Hfx).
      { intros i Hi. rewrite H3. unfold cs. rewrite live_mid; [done|sizes]. }
      exists x. split; [done|].
      assert (f = by_pos cs \/ True) as _ by auto.
      apply by_list_eq; [unfold cs in Hl; rewrite -Hl; rewrite !app_length !somes_length nones_length; lia|]. intros i Hi.
      destruct (decide (zlen l1 + zlen l + zlen l2 <= i < zlen l1 + zlen l + zlen l2 + zlen l)) as [Hin|Hout].
      + rewrite H1; [|lia]. unfold cs. rewrite by_pos_mid; [|sizes]. rewrite by_pos_somes.
        replace (l1 ++ somes x ++ l2 ++ somes l ++ l3) with ((l1 ++ somes x ++ l2) ++ somes l ++ l3) by (by rewrite -!assoc_L).
        rewrite by_pos_mid; [|rewrite !app_length !somes_length; lia]. rewrite by_pos_somes. f_equal.
        rewrite !app_length somes_length. lia.
      + destruct (decide (zlen l1 <= i < zlen l1 + zlen l)) as [Hin2|Hout2].
        * rewrite Hfx; [|lia]. rewrite by_pos_mid; [|sizes]. by rewrite by_pos_somes.
        * rewrite H2; [|lia|lia]. rewrite Hcs.
          replace (l1 ++ somes x ++ l2 ++ somes l ++ l3) with ((l1 ++ somes x ++ l2) ++ somes l ++ l3) by (by rewrite -!assoc_L).
          rewrite (by_pos_out (l1 ++ somes l ++ l2) _ (somes l)); [|by rewrite nones_length somes_length|lia|rewrite !app_length somes_length nones_length; lia].
          rewrite -!assoc_L. apply by_pos_out; [by rewrite !somes_length|lia|sizes].
    - iIntros (f) "%Hf Hw". destruct Hf as (Hs & Hn & _). iExists _. iFrame "Hw". iPureIntro. split_and!; [done|done|done|]. by apply shaken_list.
  Qed.
  Lemma s_umove_front s t segs l (l1 l2 l3 : list (option V)) w hf :
    l3 <> [] -> let cs := l1 ++ nones (length l) ++ l2 ++ somes l ++ l3 in
    holds seg_array (t, segs) cs w hf ->
    sdoes1 (s_umove (iter_to t segs (length l1 + length l + length l2))
              (iter_to t segs (length l1 + length l + length l2 + length l)) (iter_to t segs (length l1))) s (t, segs) cs w hf
      (fun r cs' => r = iter_to t segs (length l1 + length l) /\
                   exists x, length x = length l /\ cs' = l1 ++ somes l ++ l2 ++ somes x ++ l3)
      (fun cs' => nothrow_move = false /\ same_places cs cs').
  Proof.
    intros Hl3 cs. apply srun1; intros Hl; iIntros "Hw".
    assert (zlen l1 + zlen l + zlen l2 + zlen l < slots segs) as Hb.
    { unfold cs in Hl. destruct l3 as [|c0 l3']; [done|]. rewrite !app_length /= somes_length nones_length in Hl. lia. }
    assert (cs = (l1 ++ nones (length l) ++ l2) ++ somes l ++ l3) as Hcs by (unfold cs; by rewrite -!assoc_L).
    rewrite (iter_sitr _ _ (length l1 + length l + length l2 + length l) (zlen l1 + zlen l + zlen l2 + zlen l)); [|lia].
    rewrite (iter_sitr _ _ (length l1 + length l + length l2) (zlen l1 + zlen l + zlen l2)); [|lia].
    iApply (wp_s_umove t segs (zlen l1 + zlen l + zlen l2) (zlen l1 + zlen l + zlen l2 + zlen l) (zlen l1) with "Hw");
      [lia|lia|lia|lia|lia| |intros i Hi; apply raw_mid; lia|].
    { intros i Hi. rewrite Hcs. apply live_mid; rewrite !app_length nones_length; lia. } iSplit.
    - iIntros (f) "%Hf Hw". destruct Hf as [H1 H2 H3]. iExists f. iFrame "Hw". iPureIntro. split_and!; [done| |].
      { symmetry. apply iter_sitr. lia. }
      destruct (live_window f (zlen l1 + zlen l + zlen l2) (length l)) as (x & Hx & Hfx).
      { intros i Hi. rewrite H3. rewrite Hcs. rewrite live_mid; [done|rewrite !app_length nones_length; lia]. }
      exists x. split; [done|].
      apply by_list_eq; [unfold cs in Hl; rewrite -Hl; rewrite !app_length !somes_length nones_length; lia|]. intros i Hi.
      destruct (decide (zlen l1 <= i < zlen l1 + zlen l)) as [Hin|Hout].
      + rewrite H1; [|lia]. rewrite Hcs. rewrite by_pos_mid; [|rewrite !app_length nones_length somes_length; lia].
        rewrite by_pos_mid; [|sizes]. rewrite !by_pos_somes. f_equal. rewrite !app_length nones_length. lia.
      + destruct (decide (zlen l1 + zlen l + zlen l2 <= i < zlen l1 + zlen l + zlen l2 + zlen l)) as [Hin2|Hout2].
        * rewrite Hfx; [|lia].
          replace (l1 ++ somes l ++ l2 ++ somes x ++ l3) with ((l1 ++ somes l ++ l2) ++ somes x ++ l3) by (by rewrite -!assoc_L).
          rewrite by_pos_mid; [|rewrite !app_length !somes_length; lia]. rewrite by_pos_somes. f_equal. rewrite !app_length somes_length. lia.
        * rewrite H2; [|lia|lia]. rewrite Hcs.
          rewrite (by_pos_out (l1 ++ nones (length l) ++ l2) _ (somes x)); [|by rewrite !somes_length|lia|rewrite !app_length somes_length nones_length; lia].
          rewrite -!assoc_L. apply by_pos_out; [by rewrite nones_length !somes_length|lia|sizes].
    - iIntros (f) "%Hf Hw". destruct Hf as (Hs & Hn & _). iExists _. iFrame "Hw". iPureIntro. split_and!; [done|done|done|]. by apply shaken_list.
  Qed.

  (** *** From one container into another *)
  Lemma s_ucopy_between s t segs l (k1 k2 : list (option V)) t2 segs2 (l1 l2 : list (option V)) w hf :
    k2 <> [] -> l2 <> [] ->
    holds2 seg_array (t, segs) (k1 ++ somes l ++ k2) (t2, segs2) (l1 ++ nones (length l) ++ l2) w hf ->
    sdoes2 (s_ucopy (iter_to t segs (length k1)) (iter_to t segs (length k1 + length l)) (iter_to t2 segs2 (length l1))) s
      (t, segs) (k1 ++ somes l ++ k2) (t2, segs2) (l1 ++ nones (length l) ++ l2) w hf
      (fun r cs ds => r = iter_to t2 segs2 (length l1 + length l) /\ cs = k1 ++ somes l ++ k2 /\ ds = l1 ++ somes l ++ l2)
      (fun cs ds => cs = k1 ++ somes l ++ k2 /\ ds = l1 ++ nones (length l) ++ l2).
  Proof.
    intros Hk2 Hl2. apply srun2; intros Hk Hl; iIntros "[Hg Hw]".
    assert (zlen k1 + zlen l < slots segs) as Hbk by (beyond k2 Hk2 Hk).
    assert (zlen l1 + zlen l < slots segs2) as Hb by (beyond l2 Hl2 Hl).
    rewrite (iter_sitr _ _ (length k1 + length l) (zlen k1 + zlen l)); [|lia].
    iApply (wp_s_ucopy t segs (zlen k1) (zlen k1 + zlen l) _ l t2 segs2 (zlen l1) with "Hg Hw");
      [lia|lia|lia|lia| |lia|lia|intros i Hi; apply raw_mid; lia|].
    { intros i Hi. rewrite by_pos_mid; [|sizes]. by rewrite by_pos_somes. } iSplit.
    - iIntros (f) "%Hf Hg Hw". iExists (_, f). iFrame "Hg Hw". iPureIntro. split_and!; [done| | |].
      + symmetry. apply iter_sitr. lia.
      + by apply list_self.
      + eapply stored_list; [|done|done]. by rewrite nones_length.
    - iIntros "Hg Hw". iExists (_, _). iFrame "Hg Hw". iPureIntro. split_and!; try done; by apply list_self.
  Qed.
  Lemma s_copy_between s t segs l (k1 k2 : list (option V)) t2 segs2 x (l1 l2 : list (option V)) w hf :
    k2 <> [] -> l2 <> [] -> length x = length l ->
    holds2 seg_array (t, segs) (k1 ++ somes l ++ k2) (t2, segs2) (l1 ++ somes x ++ l2) w hf ->
    sdoes2 (s_copy (iter_to t segs (length k1)) (iter_to t segs (length k1 + length l)) (iter_to t2 segs2 (length l1))) s
      (t, segs) (k1 ++ somes l ++ k2) (t2, segs2) (l1 ++ somes x ++ l2) w hf
      (fun r cs ds => r = iter_to t2 segs2 (length l1 + length l) /\ cs = k1 ++ somes l ++ k2 /\ ds = l1 ++ somes l ++ l2)
      (fun cs ds => cs = k1 ++ somes l ++ k2 /\ same_places (l1 ++ somes x ++ l2) ds).
  Proof.
    intros Hk2 Hl2 Hxl. apply srun2; intros Hk Hl; iIntros "[Hg Hw]".
    assert (zlen k1 + zlen l < slots segs) as Hbk by (beyond k2 Hk2 Hk).
    assert (zlen l1 + zlen l < slots segs2) as Hb by (beyond l2 Hl2 Hl).
    rewrite (iter_sitr _ _ (length k1 + length l) (zlen k1 + zlen l)); [|lia].
    iApply (wp_s_copy t segs (zlen k1) (zlen k1 + zlen l) _ l t2 segs2 (zlen l1) with "Hg Hw");
      [lia|lia|lia|lia| |lia|lia|intros i Hi; apply live_mid; lia|].
    { intros i Hi. rewrite by_pos_mid; [|sizes]. by rewrite by_pos_somes. } iSplit.
    - iIntros (f) "%Hf Hg Hw". iExists (_, f). iFrame "Hg Hw". iPureIntro. split_and!; [done| | |].
      + symmetry. apply iter_sitr. lia.
      + by apply list_self.
      + eapply stored_list; [|done|done]. by rewrite somes_length.
    - iIntros (f) "%Hf Hg Hw". iExists (_, f). iFrame "Hg Hw". iPureIntro. split_and!; try done; [by apply list_self|]. apply shaken_list; [done|apply Hf].
  Qed.
  Lemma s_umove_between s t segs l n1 n2 t2 segs2 (l1 l2 : list (option V)) w hf :
    (0 < n2)%nat -> l2 <> [] ->
    holds2 seg_array (t, segs) (nones n1 ++ somes l ++ nones n2) (t2, segs2) (l1 ++ nones (length l) ++ l2) w hf ->
    sdoes2 (s_umove (iter_to t segs n1) (iter_to t segs (n1 + length l)) (iter_to t2 segs2 (length l1))) s
      (t, segs) (nones n1 ++ somes l ++ nones n2) (t2, segs2) (l1 ++ nones (length l) ++ l2) w hf
      (fun r cs ds => r = iter_to t2 segs2 (length l1 + length l) /\
                      cs = nones n1 ++ somes (vmoved <$> l) ++ nones n2 /\ ds = l1 ++ somes l ++ l2)
      (fun cs ds => nothrow_move = false /\ same_places (nones n1 ++ somes l ++ nones n2) cs /\
                    ds = l1 ++ nones (length l) ++ l2).
  Proof.
    intros Hn2 Hl2. apply srun2; intros Hk Hl; iIntros "[Hg Hw]".
    assert (Z.of_nat n1 + zlen l < slots segs) as Hbk by (rewrite !app_length !nones_length somes_length in Hk; lia).
    assert (zlen l1 + zlen l < slots segs2) as Hb by (beyond l2 Hl2 Hl).
    rewrite (iter_sitr _ _ (n1 + length l) (Z.of_nat n1 + zlen l)); [|lia].
    assert (forall l' i, length l' = length l -> 0 <= i -> at_pos (Z.of_nat n1) l' i = by_pos (nones n1 ++ somes l' ++ nones n2) i) as Hat.
    { intros l' i Hl' Hi. destruct (decide (Z.of_nat n1 <= i < Z.of_nat n1 + zlen l)) as [Hin|Hout].
      - rewrite at_pos_in; [|lia]. rewrite by_pos_mid; [|rewrite nones_length somes_length; lia].
        by rewrite by_pos_somes nones_length.
      - rewrite at_pos_out; [|lia]. rewrite by_pos_app; [|lia]. case_decide as Hd; [by rewrite by_pos_nones|].
        rewrite nones_length in Hd |- *. rewrite by_pos_app; [|lia]. rewrite somes_length.
        rewrite decide_False; [|lia]. by rewrite by_pos_nones. }
    assert (forall l', length l' = length l -> by_list segs (at_pos (Z.of_nat n1) l') = nones n1 ++ somes l' ++ nones n2) as Hbl.
    { intros l' Hl'. apply by_list_eq; [rewrite -Hk !app_length !nones_length !somes_length; lia|]. intros i Hi. apply Hat; [done|lia]. }
    iApply (wp_s_umove_from t segs (Z.of_nat n1) l t2 segs2 (zlen l1) with "[Hg] Hw");
      [lia|lia|lia|lia|intros i Hi; apply raw_mid; lia| |].
    { iDestruct "Hg" as "[$ Hg]". iApply (win_eq with "Hg"). intros i Hi. symmetry. apply Hat; [done|lia]. } iSplit.
    - iIntros (f) "%Hf Hg Hw". iExists (_, f). iFrame "Hg Hw". iPureIntro. split_and!; [done| | |].
      + symmetry. apply iter_sitr. lia.
      + apply Hbl. by rewrite fmap_length.
      + eapply stored_list; [|done|done]. by rewrite nones_length.
    - iIntros (vs) "%Hvs Hg Hw". iExists (_, _). iFrame "Hg Hw". iPureIntro. destruct Hvs as [Hvs Hn]. split_and!; try done.
      + cbn [fst]. rewrite Hbl; [|done]. apply Forall2_app; [|apply Forall2_app].
        * by apply Forall_Forall2_diag, Forall_true.
        * apply Forall2_fmap, Forall2_same_length_lookup. split; [done|]. intros i a b _ _. split; by eexists.
        * by apply Forall_Forall2_diag, Forall_true.
      + by apply list_self.
  Qed.
  Lemma s_umine_between s t segs l n1 n2 t2 segs2 (l1 l2 : list (option V)) w hf :
    (0 < n2)%nat -> l2 <> [] ->
    holds2 seg_array (t, segs) (nones n1 ++ somes l ++ nones n2) (t2, segs2) (l1 ++ nones (length l) ++ l2) w hf ->
    sdoes2 (s_umove_if_noexcept (iter_to t segs n1) (iter_to t segs (n1 + length l)) (iter_to t2 segs2 (length l1))) s
      (t, segs) (nones n1 ++ somes l ++ nones n2) (t2, segs2) (l1 ++ nones (length l) ++ l2) w hf
      (fun r cs ds => r = iter_to t2 segs2 (length l1 + length l) /\
                      cs = nones n1 ++ somes (if nothrow_move || negb copyable then vmoved <$> l else l) ++ nones n2 /\
                      ds = l1 ++ somes l ++ l2)
      (fun cs ds => nothrow_move = false /\ same_places (nones n1 ++ somes l ++ nones n2) cs /\
                    (copyable = true -> cs = nones n1 ++ somes l ++ nones n2) /\ ds = l1 ++ nones (length l) ++ l2).
  Proof.
    intros Hn2 Hl2 Hh. unfold s_umove_if_noexcept, mine, moves_if_noexcept.
    destruct (nothrow_move || negb copyable) eqn:Hm.
    - pose proof (s_umove_between s t segs l n1 n2 t2 segs2 l1 l2 w hf Hn2 Hl2 Hh) as Hr.
      unfold sdoes2, s_umove in *. destruct (seg_in _ _ _ _ _ s w) as [r s' w'|e s' w'|]; [done| |done].
      destruct Hr as (Hs & He & cs & ds & (Hn & Hp & Hd) & Hr). split; [done|]. split; [done|]. exists cs, ds. split; [|done]. do 2 (split; [done|]). split; [|done].
      intros Hc. by rewrite Hn Hc in Hm.
    - assert (nones n2 <> []) as Hk2 by (by destruct n2; [lia|]).
      pose proof (s_ucopy_between s t segs l (nones n1) (nones n2) t2 segs2 l1 l2 w hf Hk2 Hl2 Hh) as Hr.
      rewrite nones_length in Hr. apply orb_false_iff in Hm as [Hm _].
      unfold sdoes2, s_ucopy in *. destruct (seg_in _ _ _ _ _ s w) as [r s' w'|e s' w'|]; [done| |done].
      destruct Hr as (Hs & He & cs & ds & (Hn & Hp) & Hr). split; [done|]. split; [done|]. exists cs, ds. subst cs. split; [|done]. split; [done|]. split; [|done].
      by apply Forall_Forall2_diag, Forall_true.
  Qed.
End algos.

(** ** copy_backward for ordinary iterators *)
Section plain.
  Context `{E : Env} {St : Type}.
  Implicit Types s : St.
  Notation zlen l := (Z.of_nat (length l)).

  Lemma copy_up s p l x w hf :
    x <> [] -> holds cells p (lives (l ++ x)) w hf ->
    does1 (copy_backward p (p +ₗ zlen l) (p +ₗ zlen (l ++ x))) s p (lives (l ++ x)) w hf
      (fun r cs => r = p +ₗ zlen x /\ cs = lives (take (length x) (l ++ x) ++ l))
      (fun cs => exists l', length l' = length (l ++ x) /\ cs = lives l').
  Proof.
    intros Hx. apply run1. iIntros "Hl". assert (0 < zlen x) as Hx0 by (destruct x; [done|simpl; lia]).
    assert (contig (loc_add p) 0 (zlen (l ++ x)) p) as Hc.
    { intros i Hi. f_equal. lia. }
    assert (forall l', length l' = length (l ++ x) -> forall f, (forall i, 0 <= i < zlen (l ++ x) -> f i = l' !! Z.to_nat i) ->
      win (loc_add p) 0 (zlen (l ++ x)) f ⊣⊢ elems p l') as Hw.
    { intros l' Hl' f Hf. apply win_elems; [done|lia|]. intros i Hi. rewrite Z.sub_0_r. by apply Hf. }
    change (arr p (lives (l ++ x))) with (elems p (l ++ x)).
    rewrite -(Hw (l ++ x) eq_refl (fun i => (l ++ x) !! Z.to_nat i) ltac:(done)).
    assert (forall i, 0 <= i < zlen (l ++ x) -> live (fun i => (l ++ x) !! Z.to_nat i) i = true) as Hlive.
    { intros i Hi. unfold live. destruct (lookup_lt_is_Some_2 (l ++ x) (Z.to_nat i)) as [c ->]; [lia|done]. }
    rewrite app_length in Hlive.
    iApply (wp_win_copy_backward (loc_add p) 0 (zlen (l ++ x)) 0 (zlen l) (zlen x) p _ _ (p +ₗ zlen x) with "Hl").
    { intros i Hi. f_equal. lia. }
    { intros i Hi. rewrite loc_add_assoc. f_equal. lia. }
    { f_equal. lia. }
    { rewrite loc_add_assoc app_length. f_equal. lia. }
    { lia. } { lia. } { rewrite app_length; lia. } { lia. } { rewrite app_length; lia. } { lia. }
    { intros i Hi. apply Hlive. lia. } { intros i Hi. apply Hlive. lia. }
    assert (length (take (length x) (l ++ x)) = length x) as Htl by (rewrite take_length app_length; lia).
    iSplit.
    - iIntros (f) "%Hf Hl". destruct Hf as [H1 H2]. rewrite (Hw (take (length x) (l ++ x) ++ l)).
      + iExists _. iFrame "Hl". done.
      + rewrite !app_length Htl. lia.
      + intros i Hi. rewrite app_length in Hi. destruct (decide (i < zlen x)) as [Hlt|Hge].
        * rewrite H2; [|lia]. rewrite (lookup_app_l (take _ _)); [|lia]. by rewrite lookup_take; [|lia].
        * rewrite H1; [|lia]. rewrite (lookup_app_r (take _ _)); [|lia]. rewrite Htl.
          rewrite (lookup_app_l l); [|lia]. f_equal. lia.
    - iIntros (f) "%Hf Hl". destruct Hf as [Hf _].
      destruct (live_list f 0 (zlen (l ++ x))) as (l' & Hl' & Hfl); [lia| |].
      { intros i Hi. rewrite Hf. apply Hlive. rewrite app_length in Hi. lia. }
      rewrite (Hw l'); [|lia|].
      + iExists (lives l'). iFrame "Hl". iPureIntro. split_and!; [done|done|]. exists l'. split; [lia|done].
      + intros i Hi. rewrite Hfl; [|done]. by rewrite Z.sub_0_r.
  Qed.
End plain.

(** ** Concrete memory, for the examples *)
Section concrete.
  Context `{E : Env} `{SZ : SegSize}.
  Definition seg_world (es : list (loc * cell)) : world := World (list_to_map es) 0 10 0.
  Definition blocks_below (es : list (loc * cell)) : bool := forallb (fun e => (-10 <? e.1.1) && (e.1.1 <? 0)) es.
  Definition distinct (es : list (loc * cell)) : bool := bool_decide (NoDup es.*1).
  Lemma seg_world_holds o cs :
    (Z.of_nat (length cs) =? SS * Z.of_nat (length o.2)) && blocks_below (seg_entries o cs) &&
      distinct (seg_entries o cs) = true ->
    holds seg_array o cs (seg_world (seg_entries o cs)) ∅.
  Proof.
    intros [[Hl Hb]%andb_true_iff Hn]%andb_true_iff. unfold distinct in Hn. apply bool_decide_eq_true_1 in Hn.
    split.
    - split; cbn; [lia|]. intros p [c Hc]. apply elem_of_list_to_map_2 in Hc.
      unfold blocks_below in Hb. rewrite forallb_forall in Hb. apply elem_of_list_In, Hb, andb_true_iff in Hc as [H1%Z.ltb_lt H2%Z.ltb_lt]. simpl in H1, H2. lia.
    - exists (list_to_map (seg_entries o cs)). split; [|split; [apply map_disjoint_empty_r|by rewrite right_id_L]].
      split_and!; [lia|done|done].
  Qed.
  Lemma seg_worlds_hold o cs o2 ds :
    (Z.of_nat (length cs) =? SS * Z.of_nat (length o.2)) && (Z.of_nat (length ds) =? SS * Z.of_nat (length o2.2)) &&
      blocks_below (seg_entries o cs ++ seg_entries o2 ds) &&
      distinct (seg_entries o cs ++ seg_entries o2 ds) = true ->
    holds2 seg_array o cs o2 ds (seg_world (seg_entries o cs ++ seg_entries o2 ds)) ∅.
  Proof.
    intros [[[Hl1 Hl2]%andb_true_iff Hb]%andb_true_iff Hn]%andb_true_iff. unfold distinct in Hn. apply bool_decide_eq_true_1 in Hn.
    rewrite fmap_app in Hn. apply NoDup_app in Hn as (Hn1 & Hn12 & Hn2).
    split.
    - split; cbn; [lia|]. intros p [c Hc]. apply elem_of_list_to_map_2 in Hc.
      unfold blocks_below in Hb. rewrite forallb_forall in Hb. apply elem_of_list_In, Hb, andb_true_iff in Hc as [H1%Z.ltb_lt H2%Z.ltb_lt]. simpl in H1, H2. lia.
    - exists (list_to_map (seg_entries o cs)), (list_to_map (seg_entries o2 ds)).
      split; [split_and!; [lia|done|done]|]. split; [split_and!; [lia|done|done]|].
      split; [|split; [apply map_disjoint_empty_r|split; [apply map_disjoint_empty_r|by rewrite right_id_L; cbn; rewrite list_to_map_app]]].
      apply map_disjoint_spec. intros q c1 c2 H1 H2.
      apply elem_of_list_to_map_2 in H1, H2. apply (Hn12 q).
      + apply elem_of_list_fmap. by exists (q, c1).
      + apply elem_of_list_fmap. by exists (q, c2).
  Qed.
End concrete.
(** Places in segments of three. *)
Definition seg3 : SegSize := {| SS := 3; SS_pos := eq_refl |}.
Definition o3 : loc * list loc := ((-1, 5), [(-2, 0); (-3, 0); (-4, 7)]).
Definition o3' : loc * list loc := ((-5, 0), [(-6, 0); (-7, 0); (-8, 0)]).
