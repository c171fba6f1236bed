(** * The member functions of the ordered flat containers meet their specification *)

From Coq Require Import ZifyBool.
From Verif Require Export FlatProofs SeqThms.
From iris.proofmode Require Import tactics.
Open Scope Z_scope.

Section ops.
  Context `{KD : Keyed}.
  Variable c : Cmp.
  Variable kd : fkind.
  Notation lt := (less c).
  Context (exact : loc -> arg -> M vdata loc) (room : M vdata unit)
    (fv : nat -> loc -> list V -> Z -> hProp) (alloc robust : bool) (fits : nat -> bool)
    (EX : exact_ok exact room fv (multi kd) alloc robust fits).
  Notation ins_ok := (ins_ok c kd).
  Notation ins_bad := (ins_bad c kd alloc robust).
  Notation vo a f l cap := (vobj a f (length l) cap).

  (** The two continuations of an insertion. *)
  Definition ins_cont {T} (res : loc -> nat -> bool -> T) a f l cap v
      (Q : T -> vdata -> hProp) (X : exn -> vdata -> hProp) : hProp :=
    ((∀ f' cap' l' i b, ⟦ins_ok f cap v l f' cap' l' i b⟧ -∗ fv a f' l' cap' -∗
        Q (res f' i b) (vo a f' l' cap')) ∧
     (∀ e l', ⟦ins_bad v l e l'⟧ -∗ fv a f l' cap -∗ X e (vo a f l' cap)))%I.
  Definition pair_at (f : loc) (i : nat) (b : bool) : loc * bool := (f +ₗ Z.of_nat i, b).
  Definition only_at (f : loc) (i : nat) (b : bool) : loc := f +ₗ Z.of_nat i.

  Lemma ins_cont_bad {T} (res : loc -> nat -> bool -> T) a f l cap v Q X :
    ins_cont res a f l cap v Q X ⊢ ∀ e l', ⟦ins_bad v l e l'⟧ -∗ fv a f l' cap -∗ X e (vo a f l' cap).
  Proof. iIntros "[_ H]". iExact "H". Qed.
  Lemma ins_cont_same {T} (res : loc -> nat -> bool -> T) a f l cap v Q X :
    ins_cont res a f l cap v Q X ⊢ fv a f l cap -∗ X EUser (vo a f l cap).
  Proof. iIntros "[_ H] Hv". iApply ("H" with "[] Hv"). iPureIntro. apply ins_bad_same. Qed.

  Lemma wp_make_arg {St} a f l cap ar v (s : St) Q X :
    arg_rel f l ar v l -> ~ is_move ar ->
    fv a f l cap ⊢ ((fv a f l cap -∗ Q v s) ∧ (fv a f l cap -∗ X EUser s)) -∗ wp (make ar) s Q X.
  Proof.
    iIntros (Har Hm) "Hv HK". iDestruct (fv_elems kd _ _ _ _ _ _ EX with "Hv") as "[Hl Hcl]".
    iApply (arg_rel_mk _ _ _ _ _ Har with "Hl"). iSplit.
    - iIntros "Hl". iDestruct "HK" as "[HK _]". iApply "HK". by iApply "Hcl".
    - iIntros "H". iDestruct "H" as (l') "[%Hx Hl]". iDestruct "HK" as "[_ HK]". iApply "HK".
      assert (l' = l) as -> by (destruct Hx; by destruct ar). by iApply "Hcl".
  Qed.

  Lemma wp_insert_value a f l cap ar v Q X :
    fits (S (length l)) = true -> arg_rel f l ar v l -> ~ is_move ar ->
    fv a f l cap ⊢ ins_cont pair_at a f l cap v Q X -∗
    wp (insert_value lt kd exact room ar) (vo a f l cap) Q X.
  Proof.
    iIntros (Hf Har Hm) "Hv HK". unfold insert_value. wbind.
    iApply (ex_room _ _ _ _ _ _ _ EX with "Hv"); [done|]. iIntros "Hv".
    iApply (wp_insert_aux c kd _ _ _ _ _ _ EX with "Hv"); [done|done|done|]. iExact "HK".
  Qed.
  Lemma wp_emplace_key a f l cap ar v Q X :
    fits (S (length l)) = true -> arg_rel f l ar v l -> ~ is_move ar ->
    fv a f l cap ⊢ ins_cont pair_at a f l cap v Q X -∗
    wp (emplace_key lt kd exact room ar) (vo a f l cap) Q X.
  Proof.
    iIntros (Hf Har Hm) "Hv HK". unfold emplace_key. wbind.
    iApply (ex_room _ _ _ _ _ _ _ EX with "Hv"); [done|]. iIntros "Hv". wbind.
    iApply (wp_make_arg with "Hv"); [done|done|]. iSplit; last first.
    { by iApply ins_cont_same. }
    iIntros "Hv". wbeta.
    iApply (wp_insert_aux c kd _ _ _ _ _ _ EX with "Hv"); [done|apply ar_val|by intros []|]. iExact "HK".
  Qed.
  Lemma wp_assert_pos a f (l : list V) cap h Q X :
    (h <= length l)%nat -> Q tt (vo a f l cap) ⊢ wp (assert_pos (f +ₗ Z.of_nat h)) (vo a f l cap) Q X.
  Proof.
    iIntros (Hh) "HQ". unfold assert_pos. wbind. iApply wp_offset_of; [done|]. wbeta. by iApply wp_ret.
  Qed.
  Lemma wp_insert_value_hint a f l cap h ar v Q X :
    (h <= length l)%nat -> fits (S (length l)) = true -> arg_rel f l ar v l -> ~ is_move ar ->
    fv a f l cap ⊢ ins_cont only_at a f l cap v Q X -∗
    wp (insert_value_hint lt kd exact room (f +ₗ Z.of_nat h) ar) (vo a f l cap) Q X.
  Proof.
    iIntros (Hh Hf Har Hm) "Hv HK". unfold insert_value_hint. wbind.
    iApply (ex_room _ _ _ _ _ _ _ EX with "Hv"); [done|]. iIntros "Hv". wbind.
    iApply wp_assert_pos; [done|].
    iApply (wp_insert_hint c kd _ _ _ _ _ _ EX with "Hv"); [done|done|done|done|]. iExact "HK".
  Qed.
  Lemma wp_emplace_hint a f l cap h ar v Q X :
    (h <= length l)%nat -> fits (S (length l)) = true -> arg_rel f l ar v l -> ~ is_move ar ->
    fv a f l cap ⊢ ins_cont only_at a f l cap v Q X -∗
    wp (emplace_hint_ lt kd exact room (f +ₗ Z.of_nat h) ar) (vo a f l cap) Q X.
  Proof.
    iIntros (Hh Hf Har Hm) "Hv HK". unfold emplace_hint_. wbind.
    iApply (ex_room _ _ _ _ _ _ _ EX with "Hv"); [done|]. iIntros "Hv". wbind.
    iApply wp_assert_pos; [done|]. wbind.
    iApply (wp_make_arg with "Hv"); [done|done|]. iSplit; last first.
    { by iApply ins_cont_same. }
    iIntros "Hv". wbeta.
    iApply (wp_insert_hint c kd _ _ _ _ _ _ EX with "Hv"); [done|done|apply ar_val|by intros []|]. iExact "HK".
  Qed.

  (** ** Ranges *)
  Definition all_ok (f : loc) (cap : Z) (vs l : list V) (f' : loc) (cap' : Z) (l' : list V) : Prop :=
    (length l <= length l' <= length l + length vs)%nat /\
    stays (length l + length vs) f cap f' cap' /\
    (strict_weak lt -> ordered kd c l -> inserted_all kd c vs l l').
  Definition all_bad (f : loc) (cap : Z) (vs l : list V) (e : exn) (f' : loc) (cap' : Z) (l' : list V) : Prop :=
    (length l <= length l' <= length l + length vs)%nat /\
    stays (length l + length vs) f cap f' cap' /\
    (e = EUser \/ ((e = ELength \/ e = EBadAlloc) /\ alloc = true)).

  (** [each v] inserts one value. *)
  Lemma wp_each (each : V -> M vdata (loc * bool)) (loop : list V -> M vdata unit) :
    (loop [] = ret tt) ->
    (forall v vs, loop (v :: vs) = (each v;; loop vs)%prog) ->
    (forall a f l cap v Q X, fits (S (length l)) = true ->
       fv a f l cap ⊢ ins_cont pair_at a f l cap v Q X -∗ wp (each v) (vo a f l cap) Q X) ->
    forall vs a f l cap Q X, fits (length l + length vs) = true ->
    fv a f l cap ⊢
    ((∀ f' cap' l', ⟦all_ok f cap vs l f' cap' l'⟧ -∗ fv a f' l' cap' -∗ Q tt (vo a f' l' cap')) ∧
     (∀ e f' cap' l', ⟦all_bad f cap vs l e f' cap' l'⟧ -∗ fv a f' l' cap' -∗ X e (vo a f' l' cap'))) -∗
    wp (loop vs) (vo a f l cap) Q X.
  Proof.
    intros Hnil Hcons Heach vs. induction vs as [|v vs IH]; iIntros (a f l cap Q X Hf) "Hv HK".
    - rewrite Hnil. iApply wp_ret. iDestruct "HK" as "[HK _]". iApply ("HK" with "[] Hv"). iPureIntro.
      split; [cbn; lia|]. split; [apply stays_refl|done].
    - rewrite Hcons. cbn [length] in *. wbind. iApply (Heach with "Hv").
      { eapply (ex_fits _ _ _ _ _ _ _ EX); [|exact Hf]. lia. }
      iSplit; last first.
      { iIntros (e l') "%Hx Hv". iDestruct "HK" as "[_ HK]". iApply ("HK" with "[] Hv"). iPureIntro.
        destruct Hx as (H1 & H2 & H3). split; [cbn; lia|]. split; [apply stays_refl|].
        destruct H3 as [|(H3 & H4 & _)]; [by left|by right]. }
      iIntros (f1 cap1 l1 i b) "%Hx Hv". destruct Hx as (H1 & H2 & H3 & H4). wbeta.
      assert (Hst : stays (length l + S (length vs)) f cap f1 cap1).
      { eapply stays_le; [|exact H3]. lia. }
      iApply (IH with "Hv").
      { eapply (ex_fits _ _ _ _ _ _ _ EX); [|exact Hf]. lia. }
      iSplit.
      + iIntros (f' cap' l') "%Hx Hv". destruct Hx as (H5 & H6 & H7). iDestruct "HK" as "[HK _]".
        iApply ("HK" with "[] Hv"). iPureIntro. split; [cbn; lia|]. split.
        * cbn. eapply stays_trans; [|exact Hst|]; [lia|]. eapply stays_le; [|exact H6]. lia.
        * intros Hr Ho. exists i, b, l1. specialize (H4 Hr Ho). split; [done|]. apply H7; [done|].
          by eapply inserted_ordered.
      + iIntros (e f' cap' l') "%Hx Hv". destruct Hx as (H5 & H6 & H7). iDestruct "HK" as "[_ HK]".
        iApply ("HK" with "[] Hv"). iPureIntro. split; [cbn; lia|]. split; [|done].
        cbn. eapply stays_trans; [|exact Hst|]; [lia|]. eapply stays_le; [|exact H6]. lia.
  Qed.
  Lemma wp_insert_loop vs a f l cap Q X :
    fits (length l + length vs) = true ->
    fv a f l cap ⊢
    ((∀ f' cap' l', ⟦all_ok f cap vs l f' cap' l'⟧ -∗ fv a f' l' cap' -∗ Q tt (vo a f' l' cap')) ∧
     (∀ e f' cap' l', ⟦all_bad f cap vs l e f' cap' l'⟧ -∗ fv a f' l' cap' -∗ X e (vo a f' l' cap'))) -∗
    wp (insert_loop lt kd exact room vs) (vo a f l cap) Q X.
  Proof.
    apply (wp_each (fun v => insert_value lt kd exact room (AVal v))); [done|done|].
    intros. apply wp_insert_value; [done|apply ar_val|by intros []].
  Qed.
  Lemma wp_emplace_loop vs a f l cap Q X :
    fits (length l + length vs) = true ->
    fv a f l cap ⊢
    ((∀ f' cap' l', ⟦all_ok f cap vs l f' cap' l'⟧ -∗ fv a f' l' cap' -∗ Q tt (vo a f' l' cap')) ∧
     (∀ e f' cap' l', ⟦all_bad f cap vs l e f' cap' l'⟧ -∗ fv a f' l' cap' -∗ X e (vo a f' l' cap'))) -∗
    wp (emplace_loop lt kd exact room vs) (vo a f l cap) Q X.
  Proof.
    apply (wp_each (fun v => emplace_key lt kd exact room (AVal v))); [done|done|].
    intros. apply wp_emplace_key; [done|apply ar_val|by intros []].
  Qed.

  (** ** Erasing *)
  Lemma wp_fv_clear a f l cap Q X :
    fv a f l cap ⊢ (fv a f [] cap -∗ Q tt (vobj a f 0 cap)) -∗ wp clear_ (vo a f l cap) Q X.
  Proof.
    iIntros "Hv HK". iDestruct (ex_body _ _ _ _ _ _ _ EX with "Hv") as "[Hb Hcl]".
    iApply (wp_clear with "Hb"). iIntros "Hb". iApply "HK". by iApply "Hcl".
  Qed.
  Lemma wp_fv_erase a f l cap i Q X :
    (i < length l)%nat ->
    fv a f l cap ⊢
    ((fv a f (take i l ++ drop (S i) l) cap -∗
        Q (f +ₗ Z.of_nat i) (vo a f (take i l ++ drop (S i) l) cap)) ∧
     (∀ l', ⟦length l' = length l /\ take i l' = take i l⟧ -∗ fv a f l' cap -∗ X EUser (vo a f l' cap))) -∗
    wp (erase_ (f +ₗ Z.of_nat i)) (vo a f l cap) Q X.
  Proof.
    iIntros (Hi) "Hv HK". iDestruct (ex_body _ _ _ _ _ _ _ EX with "Hv") as "[Hb Hcl]".
    iApply (wp_erase with "Hb"); [done|]. iSplit.
    - iIntros "Hb". iDestruct "HK" as "[HK _]". iSpecialize ("Hcl" with "Hb"). unfold remove_range.
      iSpecialize ("HK" with "Hcl").
      replace (length (take i l ++ drop (S i) l)) with (length l - 1)%nat by nlia. iExact "HK".
    - iIntros (l') "%Hx Hb". iDestruct "HK" as "[_ HK]". iSpecialize ("Hcl" with "Hb").
      destruct Hx as (H1 & H2 & _). iSpecialize ("HK" $! l' with "[//] Hcl"). rewrite H1. iExact "HK".
  Qed.
  Lemma wp_fv_erase_range a f l cap i j Q X :
    (i <= j <= length l)%nat ->
    fv a f l cap ⊢
    ((fv a f (take i l ++ drop j l) cap -∗
        Q (f +ₗ Z.of_nat i) (vo a f (take i l ++ drop j l) cap)) ∧
     (∀ l', ⟦length l' = length l /\ take i l' = take i l⟧ -∗ fv a f l' cap -∗ X EUser (vo a f l' cap))) -∗
    wp (erase_range_ (f +ₗ Z.of_nat i) (f +ₗ Z.of_nat j)) (vo a f l cap) Q X.
  Proof.
    iIntros (Hi) "Hv HK". iDestruct (ex_body _ _ _ _ _ _ _ EX with "Hv") as "[Hb Hcl]".
    iApply (wp_erase_range with "Hb"); [done|]. iSplit.
    - iIntros "Hb". iDestruct "HK" as "[HK _]". iSpecialize ("Hcl" with "Hb"). unfold remove_range.
      iSpecialize ("HK" with "Hcl").
      replace (length (take i l ++ drop j l)) with (length l - (j - i))%nat by nlia. iExact "HK".
    - iIntros (l') "%Hx Hb". iDestruct "HK" as "[_ HK]". iSpecialize ("Hcl" with "Hb").
      destruct Hx as (H1 & H2 & _). iSpecialize ("HK" $! l' with "[//] Hcl"). rewrite H1. iExact "HK".
  Qed.

  Lemma wp_erase_if_loop p a f cap Q X fuel : forall l i,
    (i + fuel = length l)%nat ->
    fv a f l cap ⊢
    ((∀ l', ⟦l' = take i l ++ List.filter (fun v => negb (p v)) (drop i l)⟧ -∗
        fv a f l' cap -∗ Q tt (vo a f l' cap)) ∧
     (∀ l', ⟦(length l' <= length l)%nat⟧ -∗ fv a f l' cap -∗ X EUser (vo a f l' cap))) -∗
    wp (erase_if_loop p fuel (f +ₗ Z.of_nat i)) (vo a f l cap) Q X.
  Proof.
    induction fuel as [|fuel IH]; iIntros (l i Hi) "Hv HK"; cbn [erase_if_loop]; wbind;
      iApply wp_get; wbeta; cbn [vobj v_last]; rewrite loc_eqb_add.
    - iApply wp_assert; [lia|]. iDestruct "HK" as "[HK _]". iApply ("HK" with "[] Hv"). iPureIntro.
      rewrite firstn_all2; [|lia]. rewrite drop_ge; [|lia]. cbn. by rewrite app_nil_r.
    - destruct (Z.eqb_spec (Z.of_nat i) (Z.of_nat (length l))) as [|Hne]; [lia|].
      destruct (lookup_lt_is_Some_2 l i) as [v Hv]; [lia|]. wbind.
      iDestruct (fv_elems kd _ _ _ _ _ _ EX with "Hv") as "[Hl Hcl]".
      iApply (wp_test_at with "Hl"); [done|]. iSplit; last first.
      { iIntros "Hl". iDestruct "HK" as "[_ HK]". iApply ("HK" with "[] [Hl Hcl]").
        - iPureIntro. done.
        - by iApply "Hcl". }
      iIntros "Hl". iSpecialize ("Hcl" with "Hl"). wbeta.
      assert (Hdrop : drop i l = v :: drop (S i) l) by (by apply drop_S).
      destruct (p v) eqn:Hp.
      + wbind. iApply (wp_fv_erase with "Hcl"); [lia|]. iSplit; last first.
        { iIntros (l') "%Hx Hv". iDestruct "HK" as "[_ HK]". iApply ("HK" with "[] Hv"). iPureIntro. lia. }
        iIntros "Hv". wbeta. iApply (IH with "Hv"); [nlia|]. iSplit.
        * iIntros (l') "%Hl' Hv". iDestruct "HK" as "[HK _]". iApply ("HK" with "[] Hv"). iPureIntro.
          rewrite Hl' Hdrop. cbn [List.filter negb]. rewrite Hp. cbn [negb].
          rewrite take_app_alt; [|nlia]. rewrite drop_app_alt; [done|nlia].
        * iIntros (l') "%Hl' Hv". iDestruct "HK" as "[_ HK]". iApply ("HK" with "[] Hv"). iPureIntro.
          revert Hl'. len. lia.
      + replace (f +ₗ Z.of_nat i +ₗ 1) with (f +ₗ Z.of_nat (S i)) by loc_solve.
        iApply (IH with "Hcl"); [lia|]. iSplit; [|iDestruct "HK" as "[_ HK]"; iExact "HK"].
        iIntros (l') "%Hl' Hv". iDestruct "HK" as "[HK _]". iApply ("HK" with "[] Hv"). iPureIntro.
        rewrite Hl' Hdrop. cbn [List.filter]. rewrite Hp. cbn [negb].
        rewrite (take_S_r _ _ v); [|done]. by rewrite -app_assoc.
  Qed.
  Lemma wp_erase_if_each p a f l cap Q X :
    fv a f l cap ⊢
    ((∀ l', ⟦l' = List.filter (fun v => negb (p v)) l⟧ -∗ fv a f l' cap -∗
        Q (Z.of_nat (length (List.filter p l))) (vo a f l' cap)) ∧
     (∀ l', ⟦(length l' <= length l)%nat⟧ -∗ fv a f l' cap -∗ X EUser (vo a f l' cap))) -∗
    wp (erase_if_each p) (vo a f l cap) Q X.
  Proof.
    iIntros "Hv HK". unfold erase_if_each. wbind. iApply wp_get. wbeta. wbind. iApply wp_size. wbeta.
    wbind. cbn [vobj v_first]. rewrite Nat2Z.id.
    iPoseProof (wp_erase_if_loop p a f cap (λ _ s, wp (n <- size_;; ret (Z.of_nat (length l) - n))%prog s Q X)
      X (length l) l 0 with "Hv") as "H"; [lia|].
    rewrite loc_add_0. iApply "H". iSplit; [|iDestruct "HK" as "[_ HK]"; iExact "HK"].
    iIntros (l') "%Hl' Hv". rewrite drop_0 app_nil_l in Hl'. wbind. iApply wp_size. wbeta. iApply wp_ret.
    iDestruct "HK" as "[HK _]". iSpecialize ("HK" with "[] Hv"); [done|].
    replace (Z.of_nat (length l) - Z.of_nat (length l')) with (Z.of_nat (length (List.filter p l)));
      [iExact "HK"|].
    rewrite (filter_count p l) -Hl'.
    assert (length l' <= length l)%nat; [|lia]. rewrite Hl'. clear.
    induction l as [|v l IH]; [done|]. cbn. destruct (p v); cbn; lia.
  Qed.

  (** [erase(key)] *)
  Lemma wp_erase_key k a f l cap Q X :
    fv a f l cap ⊢
    ((∀ n l', ⟦(length l' <= length l)%nat /\
               (strict_weak lt -> ordered kd c l ->
                l' = List.filter (fun v => negb (equivb c k v)) l /\
                n = length (List.filter (equivb c k) l))⟧ -∗ fv a f l' cap -∗
        Q (Z.of_nat n) (vo a f l' cap)) ∧
     (∀ l', ⟦length l' = length l⟧ -∗ fv a f l' cap -∗ X EUser (vo a f l' cap))) -∗
    wp (erase_key lt kd k) (vo a f l cap) Q X.
  Proof.
    iIntros "Hv HK". unfold erase_key. iDestruct (fv_elems kd _ _ _ _ _ _ EX with "Hv") as "[Hl Hcl]".
    destruct (multi_or kd) as [Hmu|Hmu]; rewrite Hmu.
    - wbind. iApply (wp_equal_range with "Hl"). iSplit; last first.
      { iIntros "Hl". iDestruct "HK" as "[_ HK]". iApply ("HK" with "[//] [Hl Hcl]"). by iApply "Hcl". }
      iIntros (i j) "%Hij Hl". destruct Hij as [Hij Hpos]. iSpecialize ("Hcl" with "Hl"). wbeta.
      cbn [fst snd]. wbind. iApply (wp_psub _ _ (Z.of_nat (j - i))); [loc_solve|]. wbeta. wbind.
      iApply (wp_fv_erase_range with "Hcl"); [done|]. iSplit; last first.
      { iIntros (l') "%Hx Hv". iDestruct "HK" as "[_ HK]". iApply ("HK" with "[] Hv").
        iPureIntro. by destruct Hx. }
      iIntros "Hv". iApply wp_ret. iDestruct "HK" as "[HK _]". iApply ("HK" with "[] Hv"). iPureIntro.
      split; [nlia|]. intros Hr Ho.
      destruct (lower_exists kd c k l Hr Ho) as [m Hm]. destruct (upper_exists kd c k l Hr Ho) as [n Hn].
      destruct (Hpos m n Hr Hm Hn) as [-> ->].
      destruct (filter_range (equivb c k) l m n) as [H1 H2]; [lia|lia|by apply equal_between|].
      by rewrite H1 H2.
    - wbind. iApply (wp_find with "Hl"). iSplit; last first.
      { iIntros "Hl". iDestruct "HK" as "[_ HK]". iApply ("HK" with "[//] [Hl Hcl]"). by iApply "Hcl". }
      iIntros (i) "%Hi Hl". iSpecialize ("Hcl" with "Hl"). wbeta. wbind. iApply wp_get. wbeta.
      cbn [vobj v_last]. rewrite loc_eqb_add. pose proof (proj1 Hi) as Hle.
      destruct (Z.eqb_spec (Z.of_nat i) (Z.of_nat (length l))) as [Heq|Hne].
      + assert (i = length l) as -> by lia. iApply wp_ret. iDestruct "HK" as "[HK _]".
        iApply ("HK" $! 0%nat with "[] Hcl"). iPureIntro. split; [lia|]. intros Hr Ho.
        pose proof (find_post_end c kd l k Hr Ho Hi) as Ha. destruct (absent_filter c l k Ha) as [H1 H2].
        by rewrite H1 H2.
      + wbind. iApply (wp_fv_erase with "Hcl"); [lia|]. iSplit; last first.
        { iIntros (l') "%Hx Hv". iDestruct "HK" as "[_ HK]". iApply ("HK" with "[] Hv").
          iPureIntro. by destruct Hx. }
        iIntros "Hv". iApply wp_ret. iDestruct "HK" as "[HK _]".
        iApply ("HK" $! 1%nat with "[] Hv"). iPureIntro. split; [nlia|]. intros Hr Ho.
        destruct (find_post_in c kd l k i Hr Ho Hi ltac:(lia)) as [Hfd _].
        destruct (unique_filter kd c l k i Hr Hmu Ho Hfd) as [H1 H2]. by rewrite H1 H2.
  Qed.

  (** ** Counting *)
  Lemma wp_count k a f l cap Q X :
    elems f l ⊢
    ((∀ n, ⟦strict_weak lt -> ordered kd c l -> n = length (List.filter (equivb c k) l)⟧ -∗
        elems f l -∗ Q (Z.of_nat n) (vo a f l cap)) ∧ (elems f l -∗ X EUser (vo a f l cap))) -∗
    wp (count_ lt kd k) (vo a f l cap) Q X.
  Proof.
    iIntros "Hl HK". unfold count_. destruct (multi_or kd) as [Hmu|Hmu]; rewrite Hmu.
    - wbind. iApply (wp_equal_range with "Hl"). iSplit; [|iDestruct "HK" as "[_ HK]"; iExact "HK"].
      iIntros (i j) "%Hij Hl". destruct Hij as [Hij Hpos]. wbeta. cbn [fst snd].
      iApply (wp_psub _ _ (Z.of_nat (j - i))); [loc_solve|]. iDestruct "HK" as "[HK _]".
      iApply ("HK" with "[] Hl"). iPureIntro. intros Hr Ho.
      destruct (lower_exists kd c k l Hr Ho) as [m Hm]. destruct (upper_exists kd c k l Hr Ho) as [n Hn].
      destruct (Hpos m n Hr Hm Hn) as [-> ->].
      destruct (filter_range (equivb c k) l m n) as [H1 H2]; [lia|lia|by apply equal_between|]. done.
    - wbind. iApply (wp_find with "Hl"). iSplit; [|iDestruct "HK" as "[_ HK]"; iExact "HK"].
      iIntros (i) "%Hi Hl". wbeta. wbind. iApply wp_get. wbeta.
      cbn [vobj v_last]. rewrite loc_eqb_add. pose proof (proj1 Hi) as Hle. iApply wp_ret.
      iDestruct "HK" as "[HK _]".
      destruct (Z.eqb_spec (Z.of_nat i) (Z.of_nat (length l))) as [Heq|Hne].
      + assert (i = length l) as -> by lia. iApply ("HK" $! 0%nat with "[] Hl"). iPureIntro.
        intros Hr Ho. pose proof (find_post_end c kd l k Hr Ho Hi) as Ha. by destruct (absent_filter c l k Ha).
      + iApply ("HK" $! 1%nat with "[] Hl"). iPureIntro. intros Hr Ho.
        destruct (find_post_in c kd l k i Hr Ho Hi ltac:(lia)) as [Hfd _].
        by destruct (unique_filter kd c l k i Hr Hmu Ho Hfd).
  Qed.
  Lemma wp_contains k a f l cap Q X :
    elems f l ⊢
    ((∀ b, ⟦strict_weak lt -> ordered kd c l -> (b = true <-> exists i, found c l k i)⟧ -∗
        elems f l -∗ Q b (vo a f l cap)) ∧ (elems f l -∗ X EUser (vo a f l cap))) -∗
    wp (contains_ lt k) (vo a f l cap) Q X.
  Proof.
    iIntros "Hl HK". unfold contains_. wbind. iApply (wp_find with "Hl").
    iSplit; [|iDestruct "HK" as "[_ HK]"; iExact "HK"].
    iIntros (i) "%Hi Hl". wbeta. wbind. iApply wp_get. wbeta.
    cbn [vobj v_last]. rewrite loc_eqb_add. pose proof (proj1 Hi) as Hle. iApply wp_ret.
    iDestruct "HK" as "[HK _]". iApply ("HK" with "[] Hl"). iPureIntro. intros Hr Ho.
    destruct (Z.eqb_spec (Z.of_nat i) (Z.of_nat (length l))) as [Heq|Hne]; cbn [negb].
    - assert (i = length l) as -> by lia. split; [done|]. intros [j Hj].
      by destruct (find_post_end c kd l k Hr Ho Hi j).
    - split; [|done]. intros _. exists i. by apply (find_post_in c kd l k i Hr Ho Hi ltac:(lia)).
  Qed.

  (** ** Maps *)
  Lemma wp_assign_second a f l cap i v m Q X :
    l !! i = Some v ->
    fv a f l cap ⊢
    ((fv a f (<[i := entry (key v) m]> l) cap -∗ Q tt (vo a f l cap)) ∧
     (∀ t, fv a f (<[i := entry (key v) (mjunk t)]> l) cap -∗ X EUser (vo a f l cap))) -∗
    wp (assign_second (f +ₗ Z.of_nat i) m) (vo a f l cap) Q X.
  Proof.
    iIntros (Hi) "Hv HK". iDestruct (fv_put kd _ _ _ _ _ _ EX with "Hv") as "[Hl Hcl]".
    iDestruct (elems_acc _ _ i with "Hl") as "[Hd Hl]"; [done|]. unfold assign_second. wbind.
    iApply (wp_read with "Hd"). iIntros "Hd". wbeta. iApply wp_oracle_case; [done|]. iSplit.
    - iIntros (t) "_". iApply (wp_write with "Hd"). iIntros "Hd". iDestruct "HK" as "[_ HK]".
      iApply "HK". iApply "Hcl"; [by rewrite insert_length|]. by iApply "Hl".
    - iApply (wp_write with "Hd"). iIntros "Hd". iDestruct "HK" as "[HK _]".
      iApply "HK". iApply "Hcl"; [by rewrite insert_length|]. by iApply "Hl".
  Qed.

  (** The new-key branch of try_emplace and insert_or_assign. *)
  Lemma wp_new_entry a f l cap i v Q X :
    fits (S (length l)) = true -> (i <= length l)%nat ->
    (strict_weak lt -> ordered kd c l -> gap kd c l (key v) i) ->
    fv a f l cap ⊢
    ((∀ f' cap' l', ⟦ins_ok f cap v l f' cap' l' i true⟧ -∗ fv a f' l' cap' -∗
        Q (f' +ₗ Z.of_nat i) (vo a f' l' cap')) ∧
     (∀ e l', ⟦ins_bad v l e l'⟧ -∗ fv a f l' cap -∗ X e (vo a f l' cap))) -∗
    wp (tmp <- make (AVal v);; exact (f +ₗ Z.of_nat i) (AVal tmp))%prog (vo a f l cap) Q X.
  Proof.
    iIntros (Hf Hi Hg) "Hv HK". wbind. iApply (wp_make_arg with "Hv"); [apply ar_val|by intros []|].
    iSplit; last first.
    { iIntros "Hv". iDestruct "HK" as "[_ HK]". iApply ("HK" with "[] Hv"). iPureIntro. apply ins_bad_same. }
    iIntros "Hv". wbeta.
    iApply (wp_exact_gap c kd _ _ _ _ _ _ EX with "Hv"); [done|done|apply ar_val|by intros []|done|].
    iExact "HK".
  Qed.
  Lemma wp_new_pair a f l cap i v Q X :
    fits (S (length l)) = true -> (i <= length l)%nat ->
    (strict_weak lt -> ordered kd c l -> gap kd c l (key v) i) ->
    fv a f l cap ⊢
    ((∀ f' cap' l', ⟦ins_ok f cap v l f' cap' l' i true⟧ -∗ fv a f' l' cap' -∗
        Q (f' +ₗ Z.of_nat i, true) (vo a f' l' cap')) ∧
     (∀ e l', ⟦ins_bad v l e l'⟧ -∗ fv a f l' cap -∗ X e (vo a f l' cap))) -∗
    wp (tmp <- make (AVal v);; p <- exact (f +ₗ Z.of_nat i) (AVal tmp);; ret (p, true))%prog (vo a f l cap) Q X.
  Proof.
    iIntros (Hf Hi Hg) "Hv HK". wbind. iApply (wp_make_arg with "Hv"); [apply ar_val|by intros []|].
    iSplit; last first.
    { iIntros "Hv". iDestruct "HK" as "[_ HK]". iApply ("HK" with "[] Hv"). iPureIntro. apply ins_bad_same. }
    iIntros "Hv". wbeta. wbind.
    iApply (wp_exact_gap c kd _ _ _ _ _ _ EX with "Hv"); [done|done|apply ar_val|by intros []|done|].
    iSplit; [|iDestruct "HK" as "[_ HK]"; iExact "HK"].
    iIntros (f' cap' l') "%Hx Hv". iApply wp_ret. iDestruct "HK" as "[HK _]".
    iApply ("HK" with "[//] Hv").
  Qed.

  Lemma wp_try_emplace a f l cap k m Q X :
    multi kd = false -> fits (S (length l)) = true ->
    fv a f l cap ⊢ ins_cont pair_at a f l cap (entry k m) Q X -∗
    wp (try_emplace_ lt exact room k m) (vo a f l cap) Q X.
  Proof.
    iIntros (Hmu Hf) "Hv HK". unfold try_emplace_. wbind.
    iApply (ex_room _ _ _ _ _ _ _ EX with "Hv"); [done|]. iIntros "Hv".
    iDestruct (fv_elems kd _ _ _ _ _ _ EX with "Hv") as "[Hl Hcl]".
    iApply (wp_where c kd k a f l cap (fun it b => if b then
       tmp <- make (AVal (entry k m));; p <- exact it (AVal tmp);; ret (p, true)
       else ret (it, false))%prog with "Hl"); [done|]. iSplit; last first.
    { iIntros "Hl". iApply (ins_cont_same with "HK"). by iApply "Hcl". }
    iIntros (i b) "%Hi Hl". iSpecialize ("Hcl" with "Hl"). destruct b.
    - destruct Hi as [Hi1 Hi2]. iApply (wp_new_pair with "Hcl"); [done|done|by rewrite key_entry|].
      iSplit; [|by iApply ins_cont_bad]. iIntros (f' cap' l') "%Hx Hv". iDestruct "HK" as "[HK _]".
      by iApply ("HK" with "[] Hv").
    - iApply wp_ret. iDestruct "HK" as "[HK _]". iApply ("HK" $! f cap l i false with "[] Hcl").
      iPureIntro. apply (ins_ok_old c kd _ _ _ _ _ _ EX). by rewrite key_entry.
  Qed.
  Lemma wp_try_emplace_hint a f l cap h k m Q X :
    multi kd = false -> (h <= length l)%nat -> fits (S (length l)) = true ->
    fv a f l cap ⊢ ins_cont only_at a f l cap (entry k m) Q X -∗
    wp (try_emplace_hint lt kd exact room (f +ₗ Z.of_nat h) k m) (vo a f l cap) Q X.
  Proof.
    iIntros (Hmu Hh Hf) "Hv HK". unfold try_emplace_hint. wbind.
    iApply (ex_room _ _ _ _ _ _ _ EX with "Hv"); [done|]. iIntros "Hv". wbind.
    iApply wp_assert_pos; [done|]. wbind.
    iDestruct (fv_elems kd _ _ _ _ _ _ EX with "Hv") as "[Hl Hcl]".
    iApply (wp_hint_good c kd _ _ _ _ _ _ EX with "Hl"); [done|]. iSplit; last first.
    { iIntros "Hl". iApply (ins_cont_same with "HK"). by iApply "Hcl". }
    iIntros (b) "%Hb Hl". iSpecialize ("Hcl" with "Hl"). wbeta. destruct b.
    - iApply (wp_new_entry with "Hcl"); [done|done|rewrite key_entry; by apply Hb|].
      iSplit; [|by iApply ins_cont_bad]. iIntros (f' cap' l') "%Hx Hv". iDestruct "HK" as "[HK _]".
      by iApply ("HK" with "[] Hv").
    - wbind. iApply (wp_try_emplace with "Hcl"); [done|done|]. iSplit; [|by iApply ins_cont_bad].
      iIntros (f' cap' l' i b) "%Hx Hv". iApply wp_ret. iDestruct "HK" as "[HK _]".
      by iApply ("HK" with "[] Hv").
  Qed.

  (** insert_or_assign *)
  Definition ioa_ok (f : loc) (cap : Z) k m (l : list V) (f' : loc) (cap' : Z) (l' : list V)
      (i : nat) (b : bool) : Prop :=
    (length l <= length l' <= S (length l))%nat /\ (i < length l')%nat /\
    stays (S (length l)) f cap f' cap' /\
    (strict_weak lt -> ordered kd c l ->
     if b then inserted kd c (entry k m) l i true l'
     else exists w, l !! i = Some w /\ FlatSpec.equiv c (key w) k /\ l' = <[i := entry (key w) m]> l).
  Definition ioa_cont {T} (res : loc -> nat -> bool -> T) a f l cap k m
      (Q : T -> vdata -> hProp) (X : exn -> vdata -> hProp) : hProp :=
    ((∀ f' cap' l' i b, ⟦ioa_ok f cap k m l f' cap' l' i b⟧ -∗ fv a f' l' cap' -∗
        Q (res f' i b) (vo a f' l' cap')) ∧
     (∀ e l', ⟦ins_bad (entry k m) l e l'⟧ -∗ fv a f l' cap -∗ X e (vo a f l' cap)))%I.
  Lemma ioa_cont_bad {T} (res : loc -> nat -> bool -> T) a f l cap k m Q X :
    ioa_cont res a f l cap k m Q X ⊢
    ∀ e l', ⟦ins_bad (entry k m) l e l'⟧ -∗ fv a f l' cap -∗ X e (vo a f l' cap).
  Proof. iIntros "[_ H]". iExact "H". Qed.
  Lemma ioa_cont_same {T} (res : loc -> nat -> bool -> T) a f l cap k m Q X :
    ioa_cont res a f l cap k m Q X ⊢ fv a f l cap -∗ X EUser (vo a f l cap).
  Proof. iIntros "[_ H] Hv". iApply ("H" with "[] Hv"). iPureIntro. apply ins_bad_same. Qed.
  Lemma ioa_new f cap k m l f' cap' l' i :
    ins_ok f cap (entry k m) l f' cap' l' i true -> ioa_ok f cap k m l f' cap' l' i true.
  Proof. done. Qed.

  Lemma wp_insert_or_assign a f l cap k m Q X :
    multi kd = false -> fits (S (length l)) = true ->
    fv a f l cap ⊢ ioa_cont pair_at a f l cap k m Q X -∗
    wp (insert_or_assign_ lt exact room k m) (vo a f l cap) Q X.
  Proof.
    iIntros (Hmu Hf) "Hv HK". unfold insert_or_assign_. wbind.
    iApply (ex_room _ _ _ _ _ _ _ EX with "Hv"); [done|]. iIntros "Hv".
    iDestruct (fv_elems kd _ _ _ _ _ _ EX with "Hv") as "[Hl Hcl]".
    iApply (wp_where c kd k a f l cap (fun it b => if b then
       tmp <- make (AVal (entry k m));; p <- exact it (AVal tmp);; ret (p, true)
       else assign_second it m;; ret (it, false))%prog with "Hl"); [done|]. iSplit; last first.
    { iIntros "Hl". iApply (ioa_cont_same with "HK"). by iApply "Hcl". }
    iIntros (i b) "%Hi Hl". iSpecialize ("Hcl" with "Hl"). destruct b.
    - destruct Hi as [Hi1 Hi2]. iApply (wp_new_pair with "Hcl"); [done|done|by rewrite key_entry|].
      iSplit; [|by iApply ioa_cont_bad]. iIntros (f' cap' l') "%Hx Hv". iDestruct "HK" as "[HK _]".
      iApply ("HK" with "[] Hv"). iPureIntro. by apply ioa_new.
    - destruct Hi as (_ & Hi & _ & Hfd).
      destruct (lookup_lt_is_Some_2 l i) as [v Hv]; [lia|]. wbind.
      iApply (wp_assign_second with "Hcl"); [done|]. iSplit.
      + iIntros "Hv". iApply wp_ret. iDestruct "HK" as "[HK _]".
        iSpecialize ("HK" $! f cap _ i false with "[] Hv"); last first.
        { rewrite insert_length. iExact "HK". }
        iPureIntro. split; [len; lia|]. split; [len; lia|]. split; [apply stays_refl|].
        intros Hr Ho. destruct (Hfd Hr Ho) as (w & Hw & Heq). exists w.
        assert (v = w) as -> by congruence. done.
      + iIntros (t) "Hv". iDestruct "HK" as "[_ HK]". iSpecialize ("HK" with "[] Hv"); last first.
        { rewrite insert_length. iExact "HK". }
        iPureIntro. split; [len; lia|]. split; [|by left]. intros Hr Ho _ He.
        destruct (Hfd Hr Ho) as (w & Hw & Heq). specialize (He _ _ Hw). rewrite key_entry in He.
        destruct Heq; congruence.
  Qed.
  Lemma wp_insert_or_assign_hint a f l cap h k m Q X :
    multi kd = false -> (h <= length l)%nat -> fits (S (length l)) = true ->
    fv a f l cap ⊢ ioa_cont only_at a f l cap k m Q X -∗
    wp (insert_or_assign_hint lt kd exact room (f +ₗ Z.of_nat h) k m) (vo a f l cap) Q X.
  Proof.
    iIntros (Hmu Hh Hf) "Hv HK". unfold insert_or_assign_hint. wbind.
    iApply (ex_room _ _ _ _ _ _ _ EX with "Hv"); [done|]. iIntros "Hv". wbind.
    iApply wp_assert_pos; [done|]. wbind.
    iDestruct (fv_elems kd _ _ _ _ _ _ EX with "Hv") as "[Hl Hcl]".
    iApply (wp_hint_good c kd _ _ _ _ _ _ EX with "Hl"); [done|]. iSplit; last first.
    { iIntros "Hl". iApply (ioa_cont_same with "HK"). by iApply "Hcl". }
    iIntros (b) "%Hb Hl". iSpecialize ("Hcl" with "Hl"). wbeta. destruct b.
    - iApply (wp_new_entry with "Hcl"); [done|done|rewrite key_entry; by apply Hb|].
      iSplit; [|by iApply ioa_cont_bad]. iIntros (f' cap' l') "%Hx Hv". iDestruct "HK" as "[HK _]".
      iApply ("HK" $! f' cap' l' h true with "[] Hv"). iPureIntro. by apply ioa_new.
    - wbind. iApply (wp_insert_or_assign with "Hcl"); [done|done|]. iSplit; [|by iApply ioa_cont_bad].
      iIntros (f' cap' l' i b) "%Hx Hv". iApply wp_ret. iDestruct "HK" as "[HK _]".
      by iApply ("HK" with "[] Hv").
  Qed.

  Lemma wp_map_at k a f l cap Q X :
    elems f l ⊢
    ((∀ m, ⟦strict_weak lt -> ordered kd c l -> exists i w, l !! i = Some w /\ FlatSpec.equiv c (key w) k /\ m = mapped w⟧ -∗
        elems f l -∗ Q m (vo a f l cap)) ∧
     (∀ e, ⟦e = EUser \/ (e = EOutOfRange /\ (strict_weak lt -> ordered kd c l -> absent c l k))⟧ -∗
        elems f l -∗ X e (vo a f l cap))) -∗
    wp (map_at lt k) (vo a f l cap) Q X.
  Proof.
    iIntros "Hl HK". unfold map_at. wbind. iApply (wp_find with "Hl"). iSplit; last first.
    { iIntros "Hl". iDestruct "HK" as "[_ HK]". iApply ("HK" with "[] Hl"). iPureIntro. by left. }
    iIntros (i) "%Hi Hl". wbeta. wbind. iApply wp_get. wbeta.
    cbn [vobj v_last]. rewrite loc_eqb_add. pose proof (proj1 Hi) as Hle.
    destruct (Z.eqb_spec (Z.of_nat i) (Z.of_nat (length l))) as [Heq|Hne].
    - assert (i = length l) as -> by lia. iApply wp_throw; [by right|]. iDestruct "HK" as "[_ HK]".
      iApply ("HK" with "[] Hl"). iPureIntro. right. split; [done|]. intros Hr Ho.
      by eapply find_post_end.
    - destruct (lookup_lt_is_Some_2 l i) as [v Hv]; [lia|]. wbind.
      iDestruct (elems_acc _ _ i with "Hl") as "[Hd Hl]"; [done|].
      iApply (wp_read with "Hd"). iIntros "Hd". iSpecialize ("Hl" $! v with "Hd").
      rewrite (list_insert_id l i v Hv). wbeta. iApply wp_ret. iDestruct "HK" as "[HK _]".
      iApply ("HK" with "[] Hl"). iPureIntro. intros Hr Ho. exists i, v. split; [done|].
      destruct (find_post_in c kd l k i Hr Ho Hi ltac:(lia)) as [(w & Hw & Hq) _].
      assert (v = w) as -> by congruence. done.
  Qed.
  Lemma wp_map_index a f l cap k Q X :
    multi kd = false -> fits (S (length l)) = true ->
    fv a f l cap ⊢
    ((∀ f' cap' l' i b w, ⟦ins_ok f cap (entry k mdef) l f' cap' l' i b /\ l' !! i = Some w⟧ -∗
        fv a f' l' cap' -∗ Q (mapped w) (vo a f' l' cap')) ∧
     (∀ e l', ⟦ins_bad (entry k mdef) l e l'⟧ -∗ fv a f l' cap -∗ X e (vo a f l' cap))) -∗
    wp (map_index lt exact room k) (vo a f l cap) Q X.
  Proof.
    iIntros (Hmu Hf) "Hv HK". unfold map_index. wbind. iApply (wp_try_emplace with "Hv"); [done|done|].
    iSplit; [|iDestruct "HK" as "[_ HK]"; iExact "HK"].
    iIntros (f' cap' l' i b) "%Hx Hv". wbeta. wbind. cbn [pair_at fst].
    destruct (lookup_lt_is_Some_2 l' i) as [v Hv]; [apply Hx|].
    iDestruct (fv_elems kd _ _ _ _ _ _ EX with "Hv") as "[Hl Hcl]".
    iDestruct (elems_acc _ _ i with "Hl") as "[Hd Hl]"; [done|].
    iApply (wp_read with "Hd"). iIntros "Hd". iSpecialize ("Hl" $! v with "Hd").
    rewrite (list_insert_id l' i v Hv). wbeta. iApply wp_ret. iDestruct "HK" as "[HK _]".
    iApply ("HK" with "[] [Hl Hcl]"); [done|]. by iApply "Hcl".
  Qed.
End ops.
