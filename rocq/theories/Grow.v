(** * Specifications of the operations that may reallocate *)

From Verif Require Export InPlace.
From iris.proofmode Require Import tactics.
Open Scope Z_scope.

(** What the proofs need to know about a storage policy. *)
Record storage_ok `{Env} (st : storage) := {
  so_own : nat -> loc -> Z -> hProp;   (* ownership of storage [f], capacity [cap] *)
  so_two : nat -> loc -> Z -> loc -> Z -> hProp;  (* old storage [f], [cap] and new storage [p], [c] *)
  so_gone : hProp;                     (* what is left after giving the storage back *)
  so_cap : Z -> Prop;                  (* possible capacities *)
  so_capfor : Z -> Z;                  (* capacity obtained for [n] elements *)
  so_cap_nonneg : forall c, so_cap c -> 0 <= c <= max_size;
  so_capfor_ok : forall n, 0 <= n <= max_size -> so_cap (so_capfor n) /\ n <= so_capfor n;
  so_calc : forall len cap n, 0 <= len <= cap -> so_cap cap -> 0 <= n ->
    match calc_cap st len cap n with
    | Some c => len + n <= c /\ c <= max_size /\ len + n <= max_size /\ so_capfor c = c
    | None => max_size < len + n
    end;
  so_acquire : forall a f n cap c Q X,
    so_cap cap -> cap < c <= max_size ->
    so_own a f cap ⊢
    ((∀ p, ⟦p.1 <> 0⟧ -∗ so_two a f cap p (so_capfor c) -∗ raws p (Z.to_nat (so_capfor c)) -∗
        Q (p, p +ₗ so_capfor c) (vobj a f n cap)) ∧
     (so_own a f cap -∗ X EBadAlloc (vobj a f n cap))) -∗
    wp (acquire st c) (vobj a f n cap) Q X;
  so_release_new : forall s f cap p c Q X,
    so_cap cap -> cap < c <= max_size ->
    so_two (v_alloc s) f cap p (so_capfor c) ⊢ raws p (Z.to_nat (so_capfor c)) -∗
    (so_own (v_alloc s) f cap -∗ Q tt s) -∗ wp (release st p c) s Q X;
  so_release_old : forall s f cap p c Q X,
    so_cap cap ->
    so_two (v_alloc s) f cap p c ⊢ raws f (Z.to_nat cap) -∗
    (so_own (v_alloc s) p c -∗ Q tt s) -∗ wp (release st f cap) s Q X;
  so_release_all : forall s f cap Q X,
    so_cap cap ->
    so_own (v_alloc s) f cap ⊢ raws f (Z.to_nat cap) -∗ (so_gone -∗ Q tt s) -∗
    wp (release st f cap) s Q X;
  so_fresh : forall s n Q X,
    0 <= n <= max_size ->
    so_gone ⊢
    ((∀ f, so_own (v_alloc s) f (so_capfor n) -∗ raws f (Z.to_nat (so_capfor n)) -∗
        Q tt (vobj (v_alloc s) f 0 (so_capfor n))) ∧
     (∀ f, so_own (v_alloc s) f (so_capfor 0) -∗ raws f (Z.to_nat (so_capfor 0)) -∗
        X EBadAlloc (vobj (v_alloc s) f 0 (so_capfor 0)))) -∗
    wp (restock st n) s Q X;
  so_init : forall a f n Q X,
    0 <= n <= max_size ->
    so_own a f (so_capfor 0) ⊢ raws f (Z.to_nat (so_capfor 0)) -∗
    ((∀ f', so_own a f' (so_capfor n) -∗ raws f' (Z.to_nat (so_capfor n)) -∗
        Q tt (vobj a f' 0 (so_capfor n))) ∧
     (∀ s, so_gone -∗ X EBadAlloc s)) -∗
    wp (init_acquire st n) (vobj a f 0 (so_capfor 0)) Q X;
  so_init_release : forall a f n Q X,
    0 <= n <= max_size ->
    so_own a f (so_capfor n) ⊢ raws f (Z.to_nat (so_capfor n)) -∗
    (∀ s, so_gone -∗ Q tt s) -∗
    wp (init_release st n) (vobj a f 0 (so_capfor n)) Q X;
  so_empty_gone : forall a f,
    so_own a f (so_capfor 0) ⊢ raws f (Z.to_nat (so_capfor 0)) -∗ so_gone;
}.
Arguments so_own {_ _}.
Arguments so_two {_ _}.
Arguments so_gone {_ _}.
Arguments so_cap {_ _}.
Arguments so_capfor {_ _}.
Arguments so_cap_nonneg {_ _}.
Arguments so_capfor_ok {_ _}.
Arguments so_calc {_ _}.
Arguments so_acquire {_ _}.
Arguments so_release_new {_ _}.
Arguments so_release_old {_ _}.
Arguments so_release_all {_ _}.
Arguments so_fresh {_ _}.
Arguments so_init {_ _}.
Arguments so_init_release {_ _}.
Arguments so_empty_gone {_ _}.

Lemma ablock_fresh `{Env} a p n : 0 < n -> ablock a p n ⊢ ⟦0 < p.1 /\ p.2 = 0⟧ ∗ ablock a p n.
Proof.
  intros. unfold ablock. rewrite decide_False; [|lia]. iIntros "[%H1 H2]". iFrame.
  iSplit; iPureIntro; naive_solver.
Qed.

Section grow.
  Context `{E : Env}.
  Context (st : storage) (so : storage_ok st).

  (** A container object whose storage is at [f] with capacity [cap] and whose
      elements are [l]. *)
  Definition vec_at (a : nat) (f : loc) (l : list V) (cap : Z) : hProp :=
    (⟦so_cap so cap⟧ ∗ so_own so a f cap ∗ body f l cap)%I.

  Definition ins_fail (cap : Z) (l : list V) (i n : nat) (ar : arg) (e : exn) (l' : list V) : Prop :=
    match e with
    | ELength => l' = l /\ max_size < Z.of_nat (length l + n)
    | EBadAlloc => l' = l /\ cap < Z.of_nat (length l + n)
    | EUser =>
        if decide (cap < Z.of_nat (length l + n))
        then length l' = length l /\
             (~ is_move ar -> nothrow_move || copyable = true -> l' = l)
        else ins_exn l i n ar l'
    | EOutOfRange => False
    end.

  (** Where the storage is after an insertion of [n] elements. *)
  Definition grown (f : loc) (l : list V) (cap : Z) (n : nat) (f' : loc) (cap' : Z) : Prop :=
    if decide (cap < Z.of_nat (length l + n))
    then calc_cap st (Z.of_nat (length l)) cap (Z.of_nat n) = Some cap'
    else f' = f /\ cap' = cap.

  Lemma wp_new_capacity a f n cap k Q X :
    0 <= k -> Z.of_nat n <= cap -> so_cap so cap ->
    ((∀ c, ⟦calc_cap st (Z.of_nat n) cap k = Some c /\ Z.of_nat n + k <= c /\ c <= max_size /\
            so_capfor so c = c⟧ -∗
        Q c (vobj a f n cap)) ∧
     (⟦max_size < Z.of_nat n + k⟧ -∗ X ELength (vobj a f n cap))) ⊢
    wp (new_capacity st k) (vobj a f n cap) Q X.
  Proof.
    iIntros (Hk Hn Hc) "HK". unfold new_capacity. wbind. iApply wp_size. wbeta. wbind.
    iApply wp_capacity. wbeta.
    pose proof (so_calc so (Z.of_nat n) cap k ltac:(lia) Hc Hk) as Hcalc.
    destruct (calc_cap st (Z.of_nat n) cap k) as [c|] eqn:Heq.
    - iApply wp_ret. iDestruct "HK" as "[HK _]". iApply "HK". iPureIntro. naive_solver lia.
    - iApply wp_throw; [by (left + right)|]. iDestruct "HK" as "[_ HK]". by iApply "HK".
  Qed.

  Lemma wp_replace_storage a f l cap p l' c q e Q X :
    so_cap so cap -> so_cap so c -> Z.of_nat (length l') <= c ->
    q = p +ₗ Z.of_nat (length l') -> e = p +ₗ c ->
    so_two so a f cap p c ⊢ elems f l -∗ raws (f +ₗ Z.of_nat (length l)) (Z.to_nat cap - length l) -∗
    ⟦Z.of_nat (length l) <= cap⟧ -∗ body p l' c -∗
    (vec_at a p l' c -∗ Q tt (vobj a p (length l') c)) -∗
    wp (replace_storage st p q e) (vobj a f (length l) cap) Q X.
  Proof.
    iIntros (Hcap Hc Hl' -> ->) "Hown Hl Hr %Hl Hbody HK". unfold replace_storage.
    wbind. iApply wp_get. wbeta. wbind. iApply (wp_destroy_a with "Hl"); [done|]. iIntros "Hl".
    wbind. iApply (wp_psub _ _ cap); [done|]. wbeta. wbind.
    iDestruct (raws_join _ (Z.to_nat cap) with "Hl Hr") as "Hr"; [done|lia|].
    iApply (so_release_old so (vobj a f (length l) cap) _ _ p c with "Hown Hr"); [done|].
    iIntros "Hown". iApply wp_modify. iApply "HK". unfold vec_at. iFrame. done.
  Qed.

  (** The end of a catch block: all of the new storage is raw again. *)
  Lemma wp_abort {L} a f l' n cap p c (lc : L) e X :
    so_cap so cap -> cap < c <= max_size -> length l' = n -> Z.of_nat n <= cap ->
    so_two so a f cap p (so_capfor so c) ⊢ elems f l' -∗
    raws (f +ₗ Z.of_nat n) (Z.to_nat cap - n) -∗ raws p (Z.to_nat (so_capfor so c)) -∗
    (vec_at a f l' cap -∗ X e (vobj a f n cap)) -∗
    wp (lift_ (release st p c)) (vobj a f n cap, lc)
       (fun _ s => X e s.1) (fun e s => X e s.1).
  Proof.
    iIntros (Hok Hc <- Hn) "Hown Hl Hr Hnew HK". iApply wp_lift. simpl.
    iApply (so_release_new so (vobj a f (length l') cap) with "Hown Hnew"); [done|done|].
    iIntros "Hown". simpl. iApply "HK". unfold vec_at. iFrame. by iPureIntro.
  Qed.

  Lemma wp_realloc_insert a f l l1 cap i n c ar vs mk undo Q X :
    (forall p (s : vdata * loc) Q X,
       elems f l ⊢ raws p n -∗
       ((elems f l1 -∗ elems p vs -∗ Q tt s) ∧
        (∀ l', ⟦arg_exn ar l l'⟧ -∗ elems f l' -∗ raws p n -∗ X EUser s)) -∗
       wp (mk p) s Q X) ->
    (forall p (s : vdata * loc) Q X, elems p vs ⊢ (raws p n -∗ Q tt s) -∗ wp (undo p) s Q X) ->
    length l1 = length l -> (~ is_move ar -> l1 = l) ->
    length vs = n -> (0 < n)%nat -> (i <= length l)%nat ->
    Z.of_nat (length l + n) <= c -> cap < c <= max_size ->
    vec_at a f l cap ⊢
    ((∀ p, vec_at a p (insert_at i vs l1) (so_capfor so c) -∗
        Q (p +ₗ Z.of_nat i) (vobj a p (n + length l) (so_capfor so c))) ∧
     (∀ e l', ⟦length l' = length l /\
               (~ is_move ar -> nothrow_move || copyable = true -> l' = l) /\
               (e = EBadAlloc /\ l' = l \/ e = EUser)⟧ -∗
        vec_at a f l' cap -∗ X e (vobj a f (length l) cap))) -∗
    wp (realloc_insert st (Z.of_nat i) (Z.of_nat n) c mk undo) (vobj a f (length l) cap) Q X.
  Proof.
    iIntros (Hmk Hundo Hl1 Hl1' Hvs Hn Hi Hc Hcap) "(%Hok & Hown & %Hlc & Hl & Hr) HK".
    unfold realloc_insert. wbind. iApply wp_get. wbeta. wbind.
    iApply (so_acquire so with "Hown"); [done|lia|]. iSplit; last first.
    { iIntros "Hown". iDestruct "HK" as "[_ HK]". iApply ("HK" $! EBadAlloc l).
      { iPureIntro. naive_solver. }
      unfold vec_at. iFrame "Hown". iSplit; [done|]. by iApply (body_intro with "Hl Hr"). }
    iIntros (p) "%Hp Hb Hnew". cbn [fst snd].
    pose proof (so_cap_nonneg so _ Hok) as Hok0.
    destruct (so_capfor_ok so c) as [Hk1 Hk2]; [lia|]. pose proof (so_cap_nonneg so _ Hk1) as Hk3.
    set (k := so_capfor so c) in *.
    wbind. iApply wp_local. wbind. iApply wp_try. simpl.
    iDestruct (raws_split _ _ i (Z.to_nat k - i) (p +ₗ Z.of_nat i) with "Hnew") as "[Hn1 Hn2]";
      [lia|done|].
    iDestruct (raws_split _ _ n (Z.to_nat k - i - n) with "Hn2") as "[Hn2 Hn3]"; [lia|done|].
    iApply wp_bind. iApply (Hmk with "Hl Hn2"). iSplit; last first.
    { iIntros (l') "%Hx Hl Hn2". wbind. iApply wp_getl. wbeta.
      replace (loc_eqb p null) with false; last first.
      { symmetry. apply not_true_iff_false. rewrite loc_eqb_spec. intros ->. simpl in Hp. lia. }
      wbind. iApply (wp_destroy_a p p [] with "[]"); [by rewrite loc_add_0|by rewrite elems_nil|].
      iIntros "_". destruct Hx as [Hx1 Hx2].
      iDestruct (raws_join with "Hn2 Hn3") as "Hn2"; [done|done|].
      iDestruct (raws_join with "Hn1 Hn2") as "Hn"; [done|done|].
      iDestruct "HK" as "[_ HK]".
      iDestruct (raws_eq _ p _ (Z.to_nat k) with "Hn") as "Hn"; [done|lia|].
      iApply (wp_abort with "Hb Hl Hr Hn"); [done|lia|done|lia|].
      iApply "HK". iPureIntro. split; [done|]. split; [|by right]. by destruct ar. }
    iIntros "Hl Hvs". wbind. iApply wp_setl. wbind.
    set (A := take i l1). set (B := drop i l1).
    assert (HlAB : l1 = A ++ B) by (unfold A, B; by rewrite take_drop).
    assert (HA : length A = i) by (unfold A; nlia).
    assert (HB : length B = (length l - i)%nat) by (unfold B; nlia).
    clearbody A B. rewrite HlAB.
    iDestruct (elems_split _ _ A B (f +ₗ Z.of_nat i) with "Hl") as "[HA HB]"; [done|by rewrite HA|].
    iDestruct (raws_eq _ p _ (length A) with "Hn1") as "Hn1"; [done|done|].
    iApply (wp_umine with "HA Hn1"); [by rewrite HA|]. iSplit; last first.
    { iIntros (A') "%Hx HA Hn1". wbind. iApply wp_getl. wbeta. rewrite loc_eqb_refl.
      wbind. iApply (Hundo with "Hvs"). iIntros "Hn2". destruct Hx as [[Hx _] _].
      destruct Hx as [Hx1 Hx2].
      iDestruct (raws_join with "Hn2 Hn3") as "Hn2"; [done|done|].
      iDestruct (raws_join with "Hn1 Hn2") as "Hn"; [by rewrite HA|done|].
      iDestruct (elems_join with "HA HB") as "Hl"; [loc_solve|done|].
      iDestruct "HK" as "[_ HK]".
      iDestruct (raws_eq _ p _ (Z.to_nat k) with "Hn") as "Hn"; [done|lia|].
      iApply (wp_abort with "Hb Hl Hr Hn"); [done|lia|nlia|lia|].
      iApply "HK". iPureIntro. split; [nlia|]. split; [|by right].
      intros Hm Hnc. rewrite Hx2; [|done]. by rewrite -HlAB Hl1'. }
    iIntros "HA HA2". wbind. iApply wp_setl. wbind. iApply wp_setl. wbind.
    iDestruct (raws_split _ _ (length B) (Z.to_nat k - n - length l) with "Hn3") as "[Hn3 Hn4]";
      [lia|done|].
    replace (p +ₗ Z.of_nat (length A) +ₗ Z.of_nat n) with (p +ₗ Z.of_nat i +ₗ Z.of_nat n)
      by (by rewrite HA).
    iApply (wp_umine with "HB Hn3"); [loc_solve|]. iSplit; last first.
    { iIntros (B') "%Hx HB Hn3". wbind. iApply wp_getl. wbeta.
      replace (loc_eqb _ null) with false; last first.
      { symmetry. apply not_true_iff_false. rewrite loc_eqb_spec. intros [= ? _]. lia. }
      iDestruct (elems_join with "HA2 Hvs") as "Hnew"; [by rewrite HA|done|].
      wbind. iApply (wp_destroy_a with "Hnew"); [loc_solve|]. iIntros "Hn1".
      destruct Hx as [[Hx Hnm] _]. destruct Hx as [Hx1 Hx2].
      iDestruct (raws_join with "Hn3 Hn4") as "Hn3"; [done|done|].
      iDestruct (raws_join _ (Z.to_nat k) with "Hn1 Hn3") as "Hn"; [loc_solve|nlia|].
      iDestruct (elems_join with "HA HB") as "Hl";
        [rewrite mine_after_length; loc_solve|done|].
      iDestruct "HK" as "[_ HK]".
      iApply (wp_abort with "Hb Hl Hr Hn"); [done|lia|rewrite app_length mine_after_length; lia|lia|].
      iApply "HK". iPureIntro. split; [rewrite app_length mine_after_length; lia|]. split; [|by right].
      intros Hm Hnc. rewrite Hx2; [|done]. unfold mine_after, moves_if_noexcept.
      rewrite Hnm. rewrite Hnm in Hnc. simpl in *. rewrite Hnc. simpl. by rewrite -HlAB Hl1'. }
    iIntros "HB HB2". iApply wp_setl. iApply wp_getl. simpl. wbind.
    iDestruct (elems_join with "HA2 Hvs") as "Hnew"; [by rewrite HA|done|].
    iDestruct (elems_join _ (insert_at i vs l1) with "Hnew HB2") as "Hnew"; [loc_solve| |].
    { unfold insert_at. rewrite HlAB take_app_alt; [|done]. rewrite drop_app_alt; [|done].
      by rewrite assoc_L. }
    iDestruct (elems_join with "HA HB") as "Hl";
      [rewrite mine_after_length; loc_solve|done|].
    iDestruct (body_intro p (insert_at i vs l1) k with "Hnew Hn4") as "Hnew"; [loc_solve|nlia|nlia|].
    replace (length l) with (length (mine_after A ++ mine_after B))
      by (rewrite app_length !mine_after_length; lia).
    iApply (wp_replace_storage with "Hb Hl Hr [] Hnew"); [done|done|nlia| |done| |].
    { loc_solve. }
    { iPureIntro. rewrite app_length !mine_after_length. lia. }
    iIntros "Hv". iApply wp_ret. iDestruct "HK" as "[HK _]".
    rewrite -HlAB. 
    replace (n + length (mine_after A ++ mine_after B))%nat with (length (insert_at i vs l1))
      by (rewrite app_length !mine_after_length insert_at_length; lia).
    by iApply "HK".
  Qed.

  Lemma wp_realloc_append a f l l1 cap n c ar vs mk undo Q X :
    (forall p (s : vdata * loc) Q X,
       elems f l ⊢ raws p n -∗
       ((elems f l1 -∗ elems p vs -∗ Q tt s) ∧
        (∀ l', ⟦arg_exn ar l l'⟧ -∗ elems f l' -∗ raws p n -∗ X EUser s)) -∗
       wp (mk p) s Q X) ->
    (forall p (s : vdata * loc) Q X, elems p vs ⊢ (raws p n -∗ Q tt s) -∗ wp (undo p) s Q X) ->
    length l1 = length l -> (~ is_move ar -> l1 = l) ->
    length vs = n -> (0 < n)%nat ->
    Z.of_nat (length l + n) <= c -> cap < c <= max_size ->
    vec_at a f l cap ⊢
    ((∀ p, vec_at a p (l1 ++ vs) (so_capfor so c) -∗
        Q (p +ₗ Z.of_nat (length l)) (vobj a p (n + length l) (so_capfor so c))) ∧
     (∀ e l', ⟦length l' = length l /\
               (~ is_move ar -> nothrow_move || copyable = true -> l' = l) /\
               (e = EBadAlloc /\ l' = l \/ e = EUser)⟧ -∗
        vec_at a f l' cap -∗ X e (vobj a f (length l) cap))) -∗
    wp (realloc_append st (Z.of_nat n) c mk undo) (vobj a f (length l) cap) Q X.
  Proof.
    iIntros (Hmk Hundo Hl1 Hl1' Hvs Hn Hc Hcap) "(%Hok & Hown & %Hlc & Hl & Hr) HK".
    unfold realloc_append. wbind. iApply wp_get. wbeta. wbind. iApply wp_size. wbeta. wbind.
    iApply (so_acquire so with "Hown"); [done|lia|]. iSplit; last first.
    { iIntros "Hown". iDestruct "HK" as "[_ HK]". iApply ("HK" $! EBadAlloc l).
      { iPureIntro. naive_solver. }
      unfold vec_at. iFrame "Hown". iSplit; [done|]. by iApply (body_intro with "Hl Hr"). }
    iIntros (p) "%Hp Hb Hnew". cbn [fst snd].
    pose proof (so_cap_nonneg so _ Hok) as Hok0.
    destruct (so_capfor_ok so c) as [Hk1 Hk2]; [lia|]. pose proof (so_cap_nonneg so _ Hk1) as Hk3.
    set (k := so_capfor so c) in *.
    wbind. iApply wp_local. wbind. iApply wp_try. simpl.
    iDestruct (raws_split _ _ (length l) (Z.to_nat k - length l) with "Hnew") as "[Hn1 Hn2]";
      [lia|done|].
    iDestruct (raws_split _ _ n (Z.to_nat k - length l - n) with "Hn2") as "[Hn2 Hn3]"; [lia|done|].
    iApply wp_bind. iApply (Hmk with "Hl Hn2"). iSplit; last first.
    { iIntros (l') "%Hx Hl Hn2". wbind. iApply wp_getl. wbeta.
      replace (loc_eqb p null) with false; last first.
      { symmetry. apply not_true_iff_false. rewrite loc_eqb_spec. intros ->. simpl in Hp. lia. }
      wbind. iApply (wp_destroy_a p p [] with "[]"); [by rewrite loc_add_0|by rewrite elems_nil|].
      iIntros "_". destruct Hx as [Hx1 Hx2].
      iDestruct (raws_join with "Hn2 Hn3") as "Hn2"; [done|done|].
      iDestruct (raws_join with "Hn1 Hn2") as "Hn"; [done|done|].
      iDestruct "HK" as "[_ HK]".
      iDestruct (raws_eq _ p _ (Z.to_nat k) with "Hn") as "Hn"; [done|lia|].
      iApply (wp_abort with "Hb Hl Hr Hn"); [done|lia|done|lia|].
      iApply "HK". iPureIntro. split; [done|]. split; [|by right]. by destruct ar. }
    iIntros "Hl Hvs". wbind. iApply wp_setl. wbind.
    iDestruct (raws_eq _ p _ (length l1) with "Hn1") as "Hn1"; [done|done|].
    iApply (wp_umine with "Hl Hn1"); [by rewrite Hl1|]. iSplit; last first.
    { iIntros (l') "%Hx Hl Hn1". wbind. iApply wp_getl. wbeta. rewrite loc_eqb_refl.
      wbind. iApply (Hundo with "Hvs"). iIntros "Hn2". destruct Hx as [[Hx _] _].
      destruct Hx as [Hx1 Hx2].
      iDestruct (raws_join with "Hn2 Hn3") as "Hn2"; [done|done|].
      iDestruct (raws_join with "Hn1 Hn2") as "Hn"; [by rewrite Hl1|done|].
      iDestruct "HK" as "[_ HK]".
      iDestruct (raws_eq _ p _ (Z.to_nat k) with "Hn") as "Hn"; [done|lia|].
      iApply (wp_abort with "Hb Hl Hr Hn"); [done|lia|lia|lia|].
      iApply "HK". iPureIntro. split; [lia|]. split; [|by right].
      intros Hm Hnc. rewrite Hx2; [|done]. by rewrite Hl1'. }
    iIntros "Hl Hl2". wbind. iApply wp_setl. iApply wp_setl. iApply wp_getl. simpl. wbind.
    iDestruct (elems_join with "Hl2 Hvs") as "Hnew"; [by rewrite Hl1|done|].
    iDestruct (body_intro p (l1 ++ vs) k with "Hnew Hn3") as "Hnew"; [loc_solve|nlia|nlia|].
    replace (length l) with (length (mine_after l1)) by (rewrite mine_after_length; lia).
    iApply (wp_replace_storage with "Hb Hl Hr [] Hnew"); [done|done|nlia| |done| |].
    { rewrite ?mine_after_length. loc_solve. }
    { iPureIntro. rewrite !mine_after_length. lia. }
    iIntros "Hv". iApply wp_ret. iDestruct "HK" as "[HK _]".
    replace (n + length (mine_after l1))%nat with (length (l1 ++ vs))
      by (rewrite app_length !mine_after_length; lia).
    by iApply "HK".
  Qed.

End grow.
