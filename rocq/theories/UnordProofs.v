(** * Specifications of the functions of the unordered flat containers *)

From Coq Require Import ZifyBool.
From Verif Require Export UnordModel FlatRun.
From iris.proofmode Require Import tactics.
Open Scope Z_scope.

(** ** Lists *)
Section lists.
  Context `{KD : Keyed}.

  Lemma perm_filter {A} (p : A -> bool) l l' :
    Permutation l l' -> Permutation (List.filter p l) (List.filter p l').
  Proof.
    induction 1 as [|x l l' _ IH|x y l|l1 l2 l3 _ IH1 _ IH2]; cbn; [done| | |].
    - destruct (p x); [by constructor|done].
    - destruct (p x), (p y); try done. constructor.
    - by etransitivity.
  Qed.
  Lemma filter_split {A} (p : A -> bool) (l : list A) :
    length l = (length (List.filter p l) + length (List.filter (fun v => negb (p v)) l))%nat.
  Proof. induction l as [|v l IH]; [done|]. cbn. destruct (p v); cbn; lia. Qed.

  Lemma erased_at_perm i l l' :
    erased_at i l l' -> exists a x b b', l = a ++ x :: b /\ l' = a ++ b' /\ length a = i /\ Permutation b b'.
  Proof.
    intros (a & x & b & -> & Hi & [[-> ->]|(b' & y & -> & ->)]).
    - exists a, x, [], []. rewrite app_nil_r. done.
    - exists a, x, (b' ++ [y]), (y :: b'). split; [done|]. split; [done|]. split; [done|].
      by rewrite -Permutation_cons_append.
  Qed.
  Lemma erased_at_length i l l' : erased_at i l l' -> length l = S (length l').
  Proof.
    intros H. apply erased_at_perm in H as (a & x & b & b' & -> & -> & _ & Hp).
    apply Permutation_length in Hp. rewrite !app_length /=. lia.
  Qed.
End lists.

(** ** Appending *)
Section back.
  Context `{E : Env}.

  (** What is left by a throwing [emplace_back]. *)
  Definition back_exn (alloc robust : bool) (l : list V) (e : exn) (l' : list V) : Prop :=
    length l' = length l /\ (robust = true -> l' = l) /\
    (e = EUser \/ ((e = ELength \/ e = EBadAlloc) /\ alloc = true /\ l' = l)).
  Definition back_ok (back : arg -> M vdata loc) (fv : nat -> loc -> list V -> Z -> hProp)
      (alloc robust : bool) (fits : nat -> bool) : Prop :=
    forall a f l cap ar v Q X,
      fits (S (length l)) = true -> arg_rel f l ar v l -> ~ is_move ar ->
      fv a f l cap ⊢
      ((∀ f' cap', ⟦stays (S (length l)) f cap f' cap'⟧ -∗
          fv a f' (l ++ [v]) cap' -∗ Q (f' +ₗ Z.of_nat (length l)) (vobj a f' (S (length l)) cap')) ∧
       (∀ e l', ⟦back_exn alloc robust l e l'⟧ -∗ fv a f l' cap -∗ X e (vobj a f (length l') cap))) -∗
      wp (back ar) (vobj a f (length l) cap) Q X.

  Lemma static_back_ok N :
    back_ok (static_emplace_back N) (static_fv N) false true (fun n => (n <=? N)%nat).
  Proof.
    iIntros (a f l cap ar v Q X Hf Har Hm) "[%Hv Hb] HK". destruct Hv as (Hib & -> & ->).
    iApply (wp_static_emplace_back with "Hb"); [lia|done|]. iSplit.
    - iIntros "Hb". iDestruct "HK" as "[HK _]". iApply ("HK" $! f with "[] [Hb]").
      + iPureIntro. apply stays_refl.
      + unfold static_fv. by iFrame.
    - iIntros (l') "%Hx Hb". iDestruct "HK" as "[_ HK]".
      assert (l' = l) as -> by (destruct Hx as [_ Hx]; by destruct ar).
      iApply ("HK" with "[] [Hb]").
      + iPureIntro. split; [done|]. split; [done|by left].
      + unfold static_fv. by iFrame.
  Qed.
  Lemma small_back_ok (st : storage) (so : storage_ok st) :
    back_ok (emplace_back_ st) (vec_at st so) true (nothrow_move || copyable) (fun _ => true).
  Proof.
    iIntros (a f l cap ar v Q X _ Har Hm) "Hv HK".
    iDestruct (vec_at_len with "Hv") as "[%Hlen Hv]". destruct Hlen as [Hok Hlen].
    iApply (wp_emplace_back st so with "Hv"); [done|]. iSplit.
    - iIntros (f' cap') "%Hg Hv". iDestruct "HK" as "[HK _]". iApply ("HK" with "[] Hv").
      iPureIntro. unfold grown in Hg. unfold stays. case_decide.
      + pose proof (so_calc so (Z.of_nat (length l)) cap (Z.of_nat 1) ltac:(lia) Hok ltac:(lia)) as Hc.
        rewrite Hg in Hc. split; [lia|lia].
      + destruct Hg as [-> ->]. split; [done|lia].
    - iIntros (e l' n') "%Hx Hv". destruct Hx as (-> & H1 & H2). iDestruct "HK" as "[_ HK]".
      iApply ("HK" with "[] Hv"). iPureIntro. split; [done|]. destruct e.
      + destruct H2 as [-> _]. split; [done|]. right. split; [by left|done].
      + done.
      + destruct H2 as [-> _]. split; [done|]. right. split; [by right|done].
      + split; [|by left]. intros Hr. apply H2; [done|by left].
  Qed.
End back.

(** ** Lookup *)
Section lookup.
  Context `{KD : Keyed}.
  Variable c : Cmp.
  Notation eqk := (same c).
  Notation vo a f l cap := (vobj a f (length l) cap).

  Definition ufind_post (l : list V) (k : Key) (i : nat) : Prop :=
    ((i < length l)%nat /\ first_at c l k i) \/ (i = length l /\ missing c l k).

  Lemma wp_ufind_loop k a f l cap Q X n : forall i,
    (i + n = length l)%nat -> (forall j w, (j < i)%nat -> l !! j = Some w -> has c k w = false) ->
    elems f l ⊢
    ((∀ i, ⟦ufind_post l k i⟧ -∗ elems f l -∗ Q (f +ₗ Z.of_nat i) (vo a f l cap)) ∧
     (elems f l -∗ X EUser (vo a f l cap))) -∗
    wp (ufind_loop eqk k n (f +ₗ Z.of_nat i)) (vo a f l cap) Q X.
  Proof.
    induction n as [|n IH]; iIntros (i Hi Hno) "Hl HK"; cbn [ufind_loop].
    - iApply wp_ret. iDestruct "HK" as "[HK _]". iApply ("HK" with "[] Hl"). iPureIntro. right.
      split; [lia|]. intros j w Hj. eapply Hno; [|done]. apply lookup_lt_Some in Hj. lia.
    - destruct (lookup_lt_is_Some_2 l i) as [v Hv]; [lia|]. wbind.
      iApply (wp_test_at with "Hl"); [done|]. iSplit; [|iDestruct "HK" as "[_ HK]"; iExact "HK"].
      iIntros "Hl". wbeta. destruct (key_is eqk k v) eqn:Hk.
      + iApply wp_ret. iDestruct "HK" as "[HK _]". iApply ("HK" with "[] Hl"). iPureIntro. left.
        split; [lia|]. exists v. done.
      + replace (f +ₗ Z.of_nat i +ₗ 1) with (f +ₗ Z.of_nat (S i)) by loc_solve.
        iApply (IH with "Hl HK"); [lia|]. intros j w Hj Hw. destruct (decide (j = i)) as [->|].
        * by simplify_eq.
        * eapply Hno; [|done]. lia.
  Qed.
  Lemma wp_ufind k a f l cap Q X :
    elems f l ⊢
    ((∀ i, ⟦ufind_post l k i⟧ -∗ elems f l -∗ Q (f +ₗ Z.of_nat i) (vo a f l cap)) ∧
     (elems f l -∗ X EUser (vo a f l cap))) -∗
    wp (ufind eqk k) (vo a f l cap) Q X.
  Proof.
    iIntros "Hl HK". unfold ufind. wbind. iApply wp_get. wbeta. wbind. iApply wp_full_range. wbeta.
    cbn [vobj v_first].
    iPoseProof (wp_ufind_loop k a f l cap Q X (length l) 0 with "Hl HK") as "H"; [done|lia|].
    by rewrite loc_add_0.
  Qed.

  Lemma missing_filter l k :
    missing c l k -> List.filter (has c k) l = [] /\ existsb (has c k) l = false.
  Proof.
    intros Hm. assert (forall w, In w l -> has c k w = false) as H.
    { intros w Hw. apply elem_of_list_In, elem_of_list_lookup in Hw as [i Hi]. by eapply Hm. }
    clear Hm. induction l as [|w l IH]; [done|]. cbn. rewrite H; [|by left]. apply IH.
    intros. apply H. by right.
  Qed.
  Lemma first_exists l k i : first_at c l k i -> existsb (has c k) l = true.
  Proof.
    intros (w & Hw & Hk & _). apply existsb_exists. exists w. split; [|done].
    apply elem_of_list_In, elem_of_list_lookup. eauto.
  Qed.

  Lemma wp_ucount_loop k a f l cap Q X n : forall i,
    (i + n = length l)%nat ->
    elems f l ⊢
    ((elems f l -∗ Q (Z.of_nat (length (List.filter (has c k) (drop i l)))) (vo a f l cap)) ∧
     (elems f l -∗ X EUser (vo a f l cap))) -∗
    wp (ucount_loop eqk k n (f +ₗ Z.of_nat i)) (vo a f l cap) Q X.
  Proof.
    induction n as [|n IH] in Q, X |- *; iIntros (i Hi) "Hl HK"; cbn [ucount_loop].
    - iApply wp_ret. iDestruct "HK" as "[HK _]". rewrite drop_ge; [|lia]. by iApply "HK".
    - destruct (lookup_lt_is_Some_2 l i) as [v Hv]; [lia|]. wbind.
      iApply (wp_test_at with "Hl"); [done|]. iSplit; [|iDestruct "HK" as "[_ HK]"; iExact "HK"].
      iIntros "Hl". wbeta. wbind. replace (f +ₗ Z.of_nat i +ₗ 1) with (f +ₗ Z.of_nat (S i)) by loc_solve.
      iApply (IH with "Hl"); [lia|]. iSplit; [|iDestruct "HK" as "[_ HK]"; iExact "HK"].
      iIntros "Hl". wbeta. iApply wp_ret. iDestruct "HK" as "[HK _]". iSpecialize ("HK" with "Hl").
      rewrite (drop_S l v i Hv). cbn [List.filter]. fold (key_is eqk k v). change (has c k v) with (key_is eqk k v).
      destruct (key_is eqk k v); [|iExact "HK"]. cbn [length]. rewrite Nat2Z.inj_succ -Z.add_1_r. iExact "HK".
  Qed.
  Lemma wp_ucount kd k a f l cap Q X :
    elems f l ⊢
    ((elems f l -∗ Q (Z.of_nat ((if multi kd then length (List.filter (has c k) l)
        else if existsb (has c k) l then 1 else 0)%nat)) (vo a f l cap)) ∧
     (elems f l -∗ X EUser (vo a f l cap))) -∗
    wp (ucount eqk kd k) (vo a f l cap) Q X.
  Proof.
    iIntros "Hl HK". unfold ucount. destruct (multi kd).
    - wbind. iApply wp_get. wbeta. wbind. iApply wp_full_range. wbeta. cbn [vobj v_first].
      iPoseProof (wp_ucount_loop k a f l cap Q X (length l) 0 with "Hl HK") as "H"; [done|].
      by rewrite loc_add_0.
    - wbind. iApply (wp_ufind with "Hl"). iSplit; [|iDestruct "HK" as "[_ HK]"; iExact "HK"].
      iIntros (i) "%Hi Hl". wbeta. wbind. iApply wp_get. wbeta. cbn [vobj v_last]. rewrite loc_eqb_add.
      iApply wp_ret. iDestruct "HK" as "[HK _]". iSpecialize ("HK" with "Hl").
      destruct Hi as [[Hi Hk]|[-> Hk]].
      + rewrite (first_exists _ _ _ Hk). destruct (Z.eqb_spec (Z.of_nat i) (Z.of_nat (length l))); [lia|].
        iExact "HK".
      + rewrite (proj2 (missing_filter _ _ Hk)) Z.eqb_refl. iExact "HK".
  Qed.
  Lemma wp_ucontains k a f l cap Q X :
    elems f l ⊢
    ((elems f l -∗ Q (existsb (has c k) l) (vo a f l cap)) ∧
     (elems f l -∗ X EUser (vo a f l cap))) -∗
    wp (ucontains eqk k) (vo a f l cap) Q X.
  Proof.
    iIntros "Hl HK". unfold ucontains.
    wbind. iApply (wp_ufind with "Hl"). iSplit; [|iDestruct "HK" as "[_ HK]"; iExact "HK"].
    iIntros (i) "%Hi Hl". wbeta. wbind. iApply wp_get. wbeta. cbn [vobj v_last]. rewrite loc_eqb_add.
    iApply wp_ret. iDestruct "HK" as "[HK _]". iSpecialize ("HK" with "Hl").
    destruct Hi as [[Hi Hk]|[-> Hk]].
    - rewrite (first_exists _ _ _ Hk). destruct (Z.eqb_spec (Z.of_nat i) (Z.of_nat (length l))); [lia|].
      iExact "HK".
    - rewrite (proj2 (missing_filter _ _ Hk)) Z.eqb_refl. iExact "HK".
  Qed.
  Lemma wp_umap_at k a f l cap Q X :
    elems f l ⊢
    ((∀ i w, ⟦l !! i = Some w /\ first_at c l k i⟧ -∗ elems f l -∗ Q (mapped w) (vo a f l cap)) ∧
     (∀ e, ⟦e = EUser \/ (e = EOutOfRange /\ missing c l k)⟧ -∗ elems f l -∗ X e (vo a f l cap))) -∗
    wp (umap_at eqk k) (vo a f l cap) Q X.
  Proof.
    iIntros "Hl HK". unfold umap_at. wbind. iApply (wp_ufind with "Hl"). iSplit; last first.
    { iIntros "Hl". iDestruct "HK" as "[_ HK]". iApply ("HK" with "[] Hl"). iPureIntro. by left. }
    iIntros (i) "%Hi Hl". wbeta. wbind. iApply wp_get. wbeta.
    cbn [vobj v_last]. rewrite loc_eqb_add. destruct Hi as [[Hi Hk]|[-> Hk]].
    - destruct (Z.eqb_spec (Z.of_nat i) (Z.of_nat (length l))) as [Heq|Hne]; [lia|].
      destruct (lookup_lt_is_Some_2 l i) as [v Hv]; [lia|]. wbind.
      iDestruct (elems_acc _ _ i with "Hl") as "[Hd Hl]"; [done|].
      iApply (wp_read with "Hd"). iIntros "Hd". iSpecialize ("Hl" $! v with "Hd").
      rewrite (list_insert_id l i v Hv). wbeta. iApply wp_ret. iDestruct "HK" as "[HK _]".
      by iApply ("HK" with "[] Hl").
    - rewrite Z.eqb_refl. iApply wp_throw; [by right|]. iDestruct "HK" as "[_ HK]".
      iApply ("HK" with "[] Hl"). iPureIntro. by right.
  Qed.
End lookup.

(** ** Functions that change the container *)
Section ops.
  Context `{KD : Keyed}.
  Variable c : Cmp.
  Variable kd : fkind.
  Notation eqk := (same c).
  Context (exact : loc -> arg -> M vdata loc) (room : M vdata unit) (back : arg -> M vdata loc)
    (fv : nat -> loc -> list V -> Z -> hProp) (alloc robust eager : bool) (fits : nat -> bool)
    (EX : exact_ok exact room fv (multi kd) alloc robust fits)
    (BK : back_ok back fv alloc robust fits).
  Notation vo a f l cap := (vobj a f (length l) cap).

  (** Results of an insertion that returns, and of one that throws. *)
  Definition ins_cont2 {T} (OK : loc -> Z -> list V -> nat -> bool -> Prop)
      (BAD : exn -> loc -> Z -> list V -> Prop) (res : loc -> nat -> bool -> T) (a : nat)
      (Q : T -> vdata -> hProp) (X : exn -> vdata -> hProp) : hProp :=
    ((∀ f' cap' l' i b, ⟦OK f' cap' l' i b⟧ -∗ fv a f' l' cap' -∗ Q (res f' i b) (vo a f' l' cap')) ∧
     (∀ e f' cap' l', ⟦BAD e f' cap' l'⟧ -∗ fv a f' l' cap' -∗ X e (vo a f' l' cap')))%I.
  Definition uins_ok (f : loc) (cap : Z) (v : V) (l : list V) f' cap' l' i b : Prop :=
    uinserted kd c v l i b l' /\ stays (S (length l)) f cap f' cap'.
  Definition uins_bad (f : loc) (cap : Z) (l : list V) e f' cap' l' : Prop :=
    back_exn alloc robust l e l' /\ f' = f /\ cap' = cap.
  Definition uem_ok (f : loc) (cap : Z) (v : V) (l : list V) f' cap' l' i b : Prop :=
    (length l <= length l' <= S (length l))%nat /\
    ((eager = true -> multi kd = false -> self_equal c) -> uinserted kd c v l i b l') /\
    stays (S (length l)) f cap f' cap'.
  Definition uem_bad (f : loc) (cap : Z) (v : V) (l : list V) e f' cap' l' : Prop :=
    (length l <= length l' <= S (length l))%nat /\ stays (S (length l)) f cap f' cap' /\
    (robust = true -> l' = l \/ (eager = true /\ multi kd = false /\ l' = l ++ [v])) /\
    (e = EUser \/ ((e = ELength \/ e = EBadAlloc) /\ alloc = true /\ l' = l)).

  Lemma uinserted_length v l i b l' :
    uinserted kd c v l i b l' -> (length l <= length l' <= S (length l))%nat /\ (i < length l')%nat.
  Proof.
    intros [(_ & _ & (w & Hw & _) & ->)|(_ & _ & -> & ->)].
    - apply lookup_lt_Some in Hw. lia.
    - rewrite app_length /=. lia.
  Qed.
  Lemma uins_em_ok f cap v l f' cap' l' i b :
    uins_ok f cap v l f' cap' l' i b -> uem_ok f cap v l f' cap' l' i b.
  Proof. intros [H1 H2]. destruct (uinserted_length _ _ _ _ _ H1). done. Qed.
  Lemma uins_em_bad f cap v l e f' cap' l' :
    uins_bad f cap l e f' cap' l' -> uem_bad f cap v l e f' cap' l'.
  Proof.
    intros [(H1 & H2 & H3) [-> ->]]. split; [lia|]. split; [apply stays_refl|].
    split; [|done]. intros Hr. left. by apply H2.
  Qed.
  Lemma uins_bad_same f cap l : uins_bad f cap l EUser f cap l.
  Proof. split; [|done]. split; [done|]. split; [done|]. by left. Qed.

  (** Appending a value with a new key. *)
  Lemma wp_append a f l cap ar v Q X :
    fits (S (length l)) = true -> arg_rel f l ar v l -> ~ is_move ar ->
    (multi kd = false -> missing c l (key v)) ->
    fv a f l cap ⊢ ins_cont2 (uins_ok f cap v l) (uins_bad f cap l) pair_at a Q X -∗
    wp (uappend back ar) (vo a f l cap) Q X.
  Proof.
    iIntros (Hf Har Hm Hmiss) "Hv HK". unfold uappend. wbind. iApply (BK with "Hv"); [done|done|done|]. iSplit.
    - iIntros (f' cap') "%Hs Hv". wbeta. iApply wp_ret. iDestruct "HK" as "[HK _]".
      iSpecialize ("HK" $! f' cap' (l ++ [v]) (length l) true with "[] Hv").
      + iPureIntro. split; [|done]. right. done.
      + rewrite app_length /= Nat.add_1_r. iExact "HK".
    - iIntros (e l') "%Hx Hv". iDestruct "HK" as "[_ HK]". by iApply ("HK" with "[] Hv").
  Qed.

  Lemma wp_uinsert_aux a f l cap ar v Q X :
    multi kd = false -> fits (S (length l)) = true -> arg_rel f l ar v l -> ~ is_move ar ->
    fv a f l cap ⊢ ins_cont2 (uins_ok f cap v l) (uins_bad f cap l) pair_at a Q X -∗
    wp (uinsert_aux eqk back ar) (vo a f l cap) Q X.
  Proof.
    iIntros (Hmu Hf Har Hm) "Hv HK". unfold uinsert_aux.
    iDestruct (fv_elems kd _ _ _ _ _ _ EX with "Hv") as "[Hl Hcl]".
    wbind. iApply (wp_arg_key with "Hl"); [done|done|]. iIntros "Hl". wbeta. wbind.
    iApply (wp_ufind c with "Hl"). iSplit; last first.
    { iIntros "Hl". iSpecialize ("Hcl" with "Hl"). iDestruct "HK" as "[_ HK]".
      iApply ("HK" with "[] Hcl"). iPureIntro. apply uins_bad_same. }
    iIntros (i) "%Hi Hl". iSpecialize ("Hcl" with "Hl"). wbeta. wbind. iApply wp_get. wbeta.
    cbn [vobj v_last]. rewrite loc_eqb_add. destruct Hi as [[Hi Hk]|[-> Hk]].
    - destruct (Z.eqb_spec (Z.of_nat i) (Z.of_nat (length l))) as [Heq|Hne]; [lia|].
      iApply wp_ret. iDestruct "HK" as "[HK _]". iApply ("HK" $! f cap l i false with "[] Hcl").
      iPureIntro. split; [|apply stays_refl]. left. done.
    - rewrite Z.eqb_refl. by iApply (wp_append with "Hcl HK").
  Qed.

  Lemma wp_uinsert a f l cap ar v Q X :
    fits (S (length l)) = true -> arg_rel f l ar v l -> ~ is_move ar ->
    fv a f l cap ⊢ ins_cont2 (uins_ok f cap v l) (uins_bad f cap l) pair_at a Q X -∗
    wp (uinsert eqk kd back room ar) (vo a f l cap) Q X.
  Proof.
    iIntros (Hf Har Hm) "Hv HK". unfold uinsert. wbind.
    iApply (ex_room _ _ _ _ _ _ _ EX with "Hv"); [done|]. iIntros "Hv".
    destruct (multi_or kd) as [Hmu|Hmu]; rewrite Hmu.
    - iApply (wp_append with "Hv HK"); [done|done|done|congruence].
    - by iApply (wp_uinsert_aux with "Hv HK").
  Qed.

  Lemma first_at_app l v k i :
    first_at c (l ++ [v]) k i -> (i < length l)%nat -> first_at c l k i.
  Proof.
    intros (w & Hw & Hk & Hno) Hi. rewrite lookup_app_l in Hw; [|done]. exists w. split; [done|]. split; [done|].
    intros j w' Hj Hw'. eapply Hno; [exact Hj|]. rewrite lookup_app_l; [done|]. lia.
  Qed.
  Lemma first_at_last l v k : first_at c (l ++ [v]) k (length l) -> missing c l k.
  Proof.
    intros (w & Hw & Hk & Hno) i w' Hw'. pose proof (lookup_lt_Some _ _ _ Hw'). eapply Hno; [done|].
    by rewrite lookup_app_l.
  Qed.

  Lemma wp_fv_pop a f l v cap Q X :
    fv a f (l ++ [v]) cap ⊢ (fv a f l cap -∗ Q tt (vo a f l cap)) -∗
    wp pop_back_ (vobj a f (S (length l)) cap) Q X.
  Proof.
    iIntros "Hv HK". iDestruct (ex_body _ _ _ _ _ _ _ EX with "Hv") as "[Hb Hcl]".
    replace (S (length l)) with (length (l ++ [v])) by nlia.
    iApply (wp_pop_back with "Hb"). iIntros "Hb". iApply "HK". by iApply "Hcl".
  Qed.

  Lemma wp_uemplace_aux a f l cap ar v Q X :
    eager = true -> multi kd = false -> fits (S (length l)) = true -> arg_rel f l ar v l -> ~ is_move ar ->
    fv a f l cap ⊢ ins_cont2 (uem_ok f cap v l) (uem_bad f cap v l) pair_at a Q X -∗
    wp (uemplace_aux eqk back ar) (vo a f l cap) Q X.
  Proof.
    iIntros (Hea Hmu Hf Har Hm) "Hv HK". unfold uemplace_aux. wbind.
    iApply (BK with "Hv"); [done|done|done|]. iSplit; last first.
    { iIntros (e l') "%Hx Hv". iDestruct "HK" as "[_ HK]". iApply ("HK" $! e f cap l' with "[] Hv").
      iPureIntro. by apply uins_em_bad. }
    iIntros (f' cap') "%Hs Hv". wbeta.
    iDestruct (fv_elems kd _ _ _ _ _ _ EX with "Hv") as "[Hl Hcl]". wbind.
    iDestruct (elems_acc _ _ (length l) v with "Hl") as "[Hd Hl]"; [by apply list_lookup_middle|].
    iApply (wp_read with "Hd"). iIntros "Hd". iSpecialize ("Hl" with "Hd").
    rewrite (list_insert_id (l ++ [v]) (length l) v); [|by apply list_lookup_middle]. wbeta.
    replace (S (length l)) with (length (l ++ [v])) by nlia. wbind.
    iApply (wp_ufind c with "Hl"). iSplit; last first.
    { iIntros "Hl". iSpecialize ("Hcl" with "Hl"). iDestruct "HK" as "[_ HK]".
      iApply ("HK" with "[] Hcl"). iPureIntro. split; [nlia|]. split; [done|].
      split; [|by left]. intros _. by right. }
    iIntros (i) "%Hi Hl". iSpecialize ("Hcl" with "Hl"). wbeta. rewrite loc_eqb_add.
    destruct (Z.eqb_spec (Z.of_nat (length l)) (Z.of_nat i)) as [Heq|Hne].
    - iApply wp_ret. assert (i = length l) as -> by lia. iDestruct "HK" as "[HK _]".
      iApply ("HK" $! f' cap' (l ++ [v]) (length l) true with "[] Hcl"). iPureIntro.
      split; [nlia|]. split; [|done]. intros _. right. split; [|done]. intros _.
      destruct Hi as [[_ Hi]|[Hi _]]; [|revert Hi; len; lia]. by eapply first_at_last.
    - wbind. replace (length (l ++ [v])) with (S (length l)) by nlia.
      iApply (wp_fv_pop with "Hcl"). iIntros "Hv". iApply wp_ret. iDestruct "HK" as "[HK _]".
      iApply ("HK" $! f' cap' l i false with "[] Hv"). iPureIntro. split; [lia|]. split; [|done].
      intros Hr. specialize (Hr Hea Hmu). left. split; [done|]. split; [done|]. split; [|done].
      destruct Hi as [[Hi1 Hi2]|[_ Hi]].
      + eapply first_at_app; [exact Hi2|]. revert Hi1. len. lia.
      + exfalso. specialize (Hi (length l) v ltac:(by apply list_lookup_middle)).
        unfold has in Hi. rewrite Hr in Hi. done.
  Qed.

  Lemma ins_em {T} (res : loc -> nat -> bool -> T) f cap v l a Q X :
    ins_cont2 (uem_ok f cap v l) (uem_bad f cap v l) res a Q X ⊢
    ins_cont2 (uins_ok f cap v l) (uins_bad f cap l) res a Q X.
  Proof.
    iIntros "HK". iSplit.
    - iIntros (f' cap' l' i b) "%Hx Hv". iDestruct "HK" as "[HK _]". iApply ("HK" with "[] Hv").
      iPureIntro. by apply uins_em_ok.
    - iIntros (e f' cap' l') "%Hx Hv". iDestruct "HK" as "[_ HK]". iApply ("HK" with "[] Hv").
      iPureIntro. by apply uins_em_bad.
  Qed.

  Lemma wp_uemplace a f l cap ar v Q X :
    fits (S (length l)) = true -> arg_rel f l ar v l -> ~ is_move ar ->
    fv a f l cap ⊢ ins_cont2 (uem_ok f cap v l) (uem_bad f cap v l) pair_at a Q X -∗
    wp (uemplace eqk kd eager back room ar) (vo a f l cap) Q X.
  Proof.
    iIntros (Hf Har Hm) "Hv HK". unfold uemplace. wbind.
    iApply (ex_room _ _ _ _ _ _ _ EX with "Hv"); [done|]. iIntros "Hv".
    destruct (multi_or kd) as [Hmu|Hmu]; rewrite Hmu.
    { iApply (wp_append with "Hv"); [done|done|done|congruence|]. by iApply ins_em. }
    destruct eager eqn:Hea.
    - iApply (wp_uemplace_aux with "Hv"); [done|done|done|done|done|]. rewrite /uem_ok /uem_bad Hea. iExact "HK".
    - wbind. iApply (wp_make_arg kd _ _ _ _ _ _ EX with "Hv"); [done|done|]. iSplit; last first.
      { iIntros "Hv". iDestruct "HK" as "[_ HK]". iApply ("HK" with "[] Hv"). iPureIntro.
        apply uins_em_bad, uins_bad_same. }
      iIntros "Hv". wbeta. iApply (wp_uinsert_aux with "Hv"); [done|done|apply ar_val|by intros []|].
      iApply ins_em. rewrite /uem_ok /uem_bad Hea. iExact "HK".
  Qed.

End ops.
