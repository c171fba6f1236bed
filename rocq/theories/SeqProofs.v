(** * The member functions of the sequence containers meet [SeqSpec] *)

From Verif Require Export SeqClient VectorProofs FreeFuns.
From iris.proofmode Require Import tactics.
Open Scope Z_scope.

Section seq.
  Context `{E : Env}.
  Context (st : storage) (so : storage_ok st) (sp : special) (base : Z).
  Notation vec_at := (vec_at st so).

  (** The object [x] holds the abstract value [A]. *)
  Definition vinv (x : vdata) (A : vabs) : hProp :=
    (⟦x = vobj (q_alloc A) (q_data A) (length (q_elems A)) (q_cap A)⟧ ∗
     vec_at (q_alloc A) (q_data A) (q_elems A) (q_cap A))%I.

  Lemma vinv_intro a f l cap n :
    n = length l -> vec_at a f l cap ⊢ vinv (vobj a f n cap) (VAbs a f l cap).
  Proof. intros ->. iIntros "H". by iFrame. Qed.
  Lemma vinv_vec a f l cap :
    vec_at a f l cap ⊢ vinv (vobj a f (length l) cap) (VAbs a f l cap).
  Proof. by apply vinv_intro. Qed.

  Lemma vec_at_body a f l cap :
    vec_at a f l cap ⊢ body f l cap ∗ (∀ l', body f l' cap -∗ vec_at a f l' cap).
  Proof.
    iIntros "(%Hok & Hown & Hb)". iFrame "Hb". iIntros (l') "Hb". unfold Grow.vec_at. by iFrame.
  Qed.

  (** What the specific members have to satisfy. *)
  Record special_ok := SpecialOk {
    spo_capfor : forall n, 0 <= n -> so_capfor so n = Z.max base n;
    spo_base : forall c, so_cap so c -> c = 0 \/ base <= c;
    spo_calc : forall len cap n c, 0 <= len <= cap -> so_cap so cap -> 0 <= n ->
      calc_cap st len cap n = Some c -> c = Z.max base (growth len cap n);
    spo_reserve : forall a f l cap n Q X,
      vec_at a f l cap ⊢
      ((∀ f' cap', ⟦if decide (Z.of_nat n <= cap) then f' = f /\ cap' = cap else cap' = Z.max base (Z.of_nat n)⟧ -∗
          vec_at a f' l cap' -∗ Q tt (vobj a f' (length l) cap')) ∧
       (∀ e l', ⟦length l' = length l /\
                 (nothrow_move || copyable = true -> l' = l) /\
                 match e with
                 | ELength => l' = l /\ max_size < Z.of_nat n
                 | EBadAlloc => l' = l /\ cap < Z.of_nat n
                 | EUser => cap < Z.of_nat n
                 | EOutOfRange => False
                 end⟧ -∗
          vec_at a f l' cap -∗ X e (vobj a f (length l) cap))) -∗
      wp (sp_reserve sp (Z.of_nat n)) (vobj a f (length l) cap) Q X;
    spo_shrink : forall a f l cap Q X,
      vec_at a f l cap ⊢
      ((∀ f' cap', ⟦cap' = Z.min cap (Z.max base (Z.of_nat (length l))) /\ (cap = cap' -> f' = f)⟧ -∗
          vec_at a f' l cap' -∗ Q tt (vobj a f' (length l) cap')) ∧
       (∀ e l', ⟦length l' = length l /\
                 (nothrow_move || copyable = true -> l' = l) /\
                 (e = EBadAlloc /\ l' = l \/ e = EUser)⟧ -∗
          vec_at a f l' cap -∗ X e (vobj a f (length l) cap))) -∗
      wp (sp_shrink sp) (vobj a f (length l) cap) Q X;
    spo_self : forall a f l cap Q X,
      vec_at a f l cap ⊢
      ((∀ f', vec_at a f' [] 0 -∗ Q tt (vobj a f' 0 0)) ∧
       (⟦0 < base⟧ -∗ vec_at a f (vmoved <$> l) cap -∗ Q tt (vobj a f (length l) cap)) ∧
       (∀ l', ⟦0 < base /\ length l' = length l⟧ -∗ vec_at a f l' cap -∗ X EUser (vobj a f (length l) cap))) -∗
      wp (sp_self_move sp) (vobj a f (length l) cap) Q X;
  }.
  Context (sok : special_ok).

  Definition post_ok (o : vop) (A : vabs) (r : rval) (A' : vabs) : Prop :=
    seq_post base o (q_elems A) r (q_elems A') /\ q_alloc A' = q_alloc A /\ seq_storage base o A A' /\
    (o = OCapacity -> r = RNum (q_cap A)).
  Definition op_ok (o : vop) : Prop := forall a f l cap,
    seq_pre o (length l) = true ->
    vec_at a f l cap ⊢
    wp (run_vop st sp o) (vobj a f (length l) cap)
      (fun r x' => ∃ A', ⟦post_ok o (VAbs a f l cap) r A'⟧ ∗ vinv x' A')%I
      (fun e x' => ∃ A', ⟦seq_exn base o (VAbs a f l cap) e A'⟧ ∗ vinv x' A')%I.

  Lemma arg_of_rel a f (l : list V) cap x :
    x_ok (length l) x = true ->
    exists v, arg_value l x = Some v /\
      arg_rel f l (arg_of (vobj a f (length l) cap) x) v (arg_rest l x).
  Proof.
    destruct x as [|v|j|j]; simpl; intros Hx.
    - eexists. split; [done|constructor].
    - eexists. split; [done|constructor].
    - apply Nat.ltb_lt in Hx. destruct (lookup_lt_is_Some_2 l j Hx) as [v Hv].
      exists v. split; [done|]. by constructor.
    - apply Nat.ltb_lt in Hx. destruct (lookup_lt_is_Some_2 l j Hx) as [v Hv].
      exists v. split; [done|]. rewrite Hv. by constructor.
  Qed.
  Lemma arg_of_move a f (l : list V) cap x :
    x_moves x = false -> ~ is_move (arg_of (vobj a f (length l) cap) x).
  Proof. intros Hx. destruct x; simpl in *; try tauto; done. Qed.
  Lemma arg_rest_same (l : list V) x : x_moves x = false -> arg_rest l x = l.
  Proof. by destruct x. Qed.
  Lemma arg_rest_length (l : list V) x : length (arg_rest l x) = length l.
  Proof. destruct x; simpl; try done. destruct (l !! j); by rewrite ?insert_length. Qed.

  Lemma ret_idx f (k : nat) x p Q X :
    v_first x = f -> p = f +ₗ Z.of_nat k ->
    Q (RIdx (Z.of_nat k)) x ⊢
    wp (o <- getS;; z <- ptr_sub p (v_first o);; ret (RIdx z))%prog x Q X.
  Proof.
    iIntros (Hf ->) "HQ". wbind. iApply wp_get. wbeta. wbind.
    iApply (wp_psub _ _ (Z.of_nat k)); [by rewrite Hf|]. by iApply wp_ret.
  Qed.

  Lemma grown_storage f l cap n f' cap' o (A A' : vabs) :
    grown st f l cap n f' cap' ->
    so_cap so cap -> Z.of_nat (length l) <= cap ->
    A = VAbs (q_alloc A) f l cap -> q_data A' = f' -> q_cap A' = cap' ->
    needed o l = (length l + n)%nat ->
    if decide (Z.of_nat (needed o (q_elems A)) <= q_cap A) then same_storage A A'
    else q_cap A' = Z.max base (growth (Z.of_nat (length (q_elems A))) (q_cap A)
           (Z.of_nat (needed o (q_elems A)) - Z.of_nat (length (q_elems A)))).
  Proof.
    intros Hg Hc Hl HA <- <- Hn. rewrite HA. cbn [q_elems q_cap]. rewrite Hn. unfold grown in Hg.
    repeat case_decide; try lia.
    - eapply (spo_calc sok) in Hg; [|lia|done|lia]. rewrite Hg. do 2 f_equal. lia.
    - done.
  Qed.

  (** Start of every proof. *)
  Ltac start Hlen :=
    iIntros "Hv";
    iDestruct (vec_at_len with "Hv") as "[%Hlen Hv]"; destruct Hlen as [Hsc Hlen];
    unfold run_vop; wbind; iApply wp_get; cbn [vobj v_first].
  Ltac finish A := iExists A; iSplit; [iPureIntro|iApply (vinv_intro with "Hv"); try done].

  Lemma moves_false (b : bool) x : x_moves x = b -> b = false -> x_moves x = false.
  Proof. by intros ->. Qed.

  Lemma ok_emplace i x : op_ok (OEmplace i x).
  Proof.
    intros a f l cap Hpre. simpl in Hpre. apply andb_true_iff in Hpre as [Hi Hx].
    apply Nat.leb_le in Hi.
    destruct (arg_of_rel a f l cap x Hx) as (v & Hv & Har).
    start Hlen. unfold as_idx. wbind. iApply (wp_emplace with "Hv"); [done|done|]. iSplit.
    - iIntros (f' cap') "%Hg Hv". iApply (ret_idx f' i); [done|done|].
      finish (VAbs a f' (insert_at i [v] (arg_rest l x)) cap').
      + split_and!; try done.
        * simpl. exists v. by split_and!.
        * apply (grown_storage f l cap 1 f' cap' (OEmplace i x) (VAbs a f l cap)); try done.
          simpl. lia.
      + unfold insert_at. len. rewrite arg_rest_length. nlia.
    - iIntros (e l' n') "%Hx' Hv". destruct Hx' as [-> Hf].
      finish (VAbs a f l' cap).
      assert (length l <= length l' <= S (length l))%nat as Hb.
      { destruct e; simpl in Hf; try (destruct Hf as [-> ?]; lia); [done|].
        case_decide; [lia|]. destruct Hf as [[-> _]|Hf]; [lia|]. lia. }
      unfold seq_exn. cbn [q_alloc q_elems q_cap]. split_and!; try done.
      + intros [Hm Hs]. apply (arg_of_move a f l cap) in Hm as Hm'. f_equal.
        destruct e; simpl in Hf; try (by destruct Hf as [-> ?]); [done|].
        destruct Hs as [[Hs1 Hs2]|[Hs1 ->]]; cbn [q_elems q_cap needed] in Hs1.
        * rewrite decide_True in Hf; [|lia]. by apply Hf.
        * rewrite decide_False in Hf; [|lia]. destruct Hf as [Hf|Hf]; [|simpl in *; lia].
          destruct Hf as [_ Hf]. by destruct x.
      + destruct e; simpl in *; try done.
        * destruct Hf as [-> Hf]. split; [lia|done].
        * destruct Hf as [-> Hf]. split; [left; lia|done].
  Qed.

  Lemma ok_emplace_back x : op_ok (OEmplaceBack x).
  Proof.
    intros a f l cap Hx. simpl in Hx.
    destruct (arg_of_rel a f l cap x Hx) as (v & Hv & Har).
    start Hlen. unfold as_idx. wbind. iApply (wp_emplace_back with "Hv"); [done|]. iSplit.
    - iIntros (f' cap') "%Hg Hv". iApply (ret_idx f' (length l)); [done|done|].
      finish (VAbs a f' (arg_rest l x ++ [v]) cap').
      + split_and!; try done.
        * simpl. exists v. by split_and!.
        * apply (grown_storage f l cap 1 f' cap' (OEmplaceBack x) (VAbs a f l cap)); try done.
          simpl. lia.
      + rewrite app_length arg_rest_length. simpl. lia.
    - iIntros (e l' n') "%Hx' Hv". destruct Hx' as [-> [Hlen' Hf]].
      finish (VAbs a f l' cap).
      unfold seq_exn. cbn [q_alloc q_elems q_cap]. split_and!; try done.
      + intros [Hm Hs]. apply (arg_of_move a f l cap) in Hm as Hm'. f_equal. simpl in Hs.
        destruct e; simpl in Hf; try (by destruct Hf as [-> ?]); [done|].
        apply Hf; [done|]. destruct Hs; [by left|right; lia].
      + destruct e; simpl in *; try done.
        * destruct Hf as [-> Hf]. split; [lia|done].
        * destruct Hf as [-> Hf]. split; [left; lia|done].
  Qed.

  Lemma ok_insert_n i n x : op_ok (OInsertN i n x).
  Proof.
    intros a f l cap Hpre. simpl in Hpre. apply andb_true_iff in Hpre as [Hpre Hm].
    apply andb_true_iff in Hpre as [Hi Hx]. apply Nat.leb_le in Hi. apply negb_true_iff in Hm.
    destruct (arg_of_rel a f l cap x Hx) as (v & Hv & Har). rewrite arg_rest_same in Har; [|done].
    apply (arg_of_move a f l cap) in Hm as Hm'.
    start Hlen. unfold as_idx. wbind. iApply (wp_insert_fill with "Hv"); [done|done|done|]. iSplit.
    - iIntros (f' cap') "%Hg Hv". iApply (ret_idx f' i); [done|done|].
      finish (VAbs a f' (insert_at i (replicate n v) l) cap').
      + split_and!; try done.
        * simpl. exists v. by split_and!.
        * by apply (grown_storage f l cap n f' cap' (OInsertN i n x) (VAbs a f l cap)).
      + rewrite insert_at_length replicate_length. lia.
    - iIntros (e l' n') "%Hx' Hv". destruct Hx' as (-> & Hf & Hn).
      finish (VAbs a f l' cap).
      assert (length l <= length l' <= length l + n)%nat as Hb.
      { destruct e; simpl in Hf; try (destruct Hf as [-> ?]; lia); [done|].
        case_decide; [lia|]. destruct Hf as [[-> _]|Hf]; [lia|]. lia. }
      unfold seq_exn. cbn [q_alloc q_elems q_cap]. split_and!; try done.
      + intros Hs. f_equal. simpl in Hs.
        destruct e; simpl in Hf; try (by destruct Hf as [-> ?]); [done|].
        destruct Hs as [[Hs1 Hs2]|[Hs1 ->]].
        * rewrite decide_True in Hf; [|lia]. by apply Hf.
        * rewrite decide_False in Hf; [|lia]. destruct Hf as [Hf|Hf]; [|simpl in *; lia].
          destruct Hf as [_ Hf]. by destruct x.
      + destruct e; simpl in *; try done.
        * destruct Hf as [-> Hf]. split; [lia|done].
        * destruct Hf as [-> Hf]. split; [left; lia|done].
  Qed.

  Lemma ok_insert_range i vs : op_ok (OInsertRange i vs).
  Proof.
    intros a f l cap Hi. simpl in Hi. apply Nat.leb_le in Hi.
    start Hlen. unfold as_idx. wbind. iApply (wp_insert_range with "Hv"); [done|]. iSplit.
    - iIntros (f' cap') "%Hg Hv". iApply (ret_idx f' i); [done|done|].
      finish (VAbs a f' (insert_at i vs l) cap').
      + split_and!; try done.
        by apply (grown_storage f l cap (length vs) f' cap' (OInsertRange i vs) (VAbs a f l cap)).
      + rewrite insert_at_length. lia.
    - iIntros (e l' n') "%Hx' Hv". destruct Hx' as (-> & Hf & Hn).
      finish (VAbs a f l' cap).
      assert (length l <= length l' <= length l + length vs)%nat as Hb.
      { destruct e; simpl in Hf; try (destruct Hf as [-> ?]; lia); [done|].
        case_decide; [lia|]. destruct Hf as [[-> _]|Hf]; [lia|]. lia. }
      unfold seq_exn. cbn [q_alloc q_elems q_cap]. split_and!; try done.
      + intros Hs. f_equal. simpl in Hs.
        destruct e; simpl in Hf; try (by destruct Hf as [-> ?]); [done|].
        destruct Hs as [(Hs1 & Hs2 & Hs3)|[Hs1 ->]].
        * rewrite decide_True in Hf; [|lia]. apply Hf. unfold moves_if_noexcept. by rewrite Hs2 Hs3.
        * rewrite decide_False in Hf; [|lia]. destruct Hf as [Hf|Hf]; [|simpl in *; lia].
          by destruct Hf as [_ Hf].
      + destruct e; simpl in *; try done.
        * destruct Hf as [-> Hf]. split; [lia|done].
        * destruct Hf as [-> Hf]. split; [left; lia|done].
  Qed.

  Lemma ok_insert_input i vs : op_ok (OInsertInput i vs).
  Proof.
    intros a f l cap Hi. simpl in Hi. apply Nat.leb_le in Hi.
    start Hlen. unfold as_idx. wbind. iApply (wp_insert_input with "Hv"); [done|]. iSplit.
    - iIntros (f' cap') "%Hk Hv". iApply (ret_idx f' i); [done|done|].
      finish (VAbs a f' (insert_at i vs l) cap').
      + split_and!; done.
      + rewrite insert_at_length. lia.
    - iIntros (e f' l' cap') "%Hx' Hv". destruct Hx' as (Hb & Ho & Hl & Hk).
      finish (VAbs a f' l' cap').
      unfold seq_exn. cbn [q_alloc q_elems q_cap]. split_and!; try done.
      destruct e; simpl; try done.
      + split; [by apply Hl|done].
      + split; [by right; right|done].
  Qed.

  Lemma ok_pop_back : op_ok OPopBack.
  Proof.
    intros a f l cap Hn. simpl in Hn. apply Nat.ltb_lt in Hn.
    assert (exists l' v, l = l' ++ [v]) as (l' & v & ->).
    { destruct l as [|v l _] using rev_ind; [simpl in Hn; lia|]. by eexists _, _. }
    start Hlen. unfold as_unit. wbind.
    iDestruct (vec_at_body with "Hv") as "[Hb Hc]".
    iApply (wp_pop_back with "Hb"). iIntros "Hb". iDestruct ("Hc" with "Hb") as "Hv".
    iApply wp_ret. finish (VAbs a f l' cap). split_and!; try done. simpl. split; [done|]. by eexists.
  Qed.

  Lemma ok_erase i : op_ok (OErase i).
  Proof.
    intros a f l cap Hi. simpl in Hi. apply Nat.ltb_lt in Hi.
    start Hlen. unfold as_idx. wbind.
    iDestruct (vec_at_body with "Hv") as "[Hb Hc]".
    iApply (wp_erase with "Hb"); [done|]. iSplit.
    - iIntros "Hb". iDestruct ("Hc" with "Hb") as "Hv". iApply (ret_idx f i); [done|done|].
      finish (VAbs a f (remove_range i (S i) l) cap); [by split_and!|].
      unfold remove_range. rewrite app_length take_length drop_length. lia.
    - iIntros (l') "%Hx Hb". destruct Hx as (Hl' & Ht & Hx).
      iDestruct ("Hc" with "Hb") as "Hv". rewrite -Hl'.
      finish (VAbs a f l' cap). unfold seq_exn. cbn [q_alloc q_elems q_cap]. by split_and!.
  Qed.

  Lemma ok_erase_range i j : op_ok (OEraseRange i j).
  Proof.
    intros a f l cap Hi. simpl in Hi. apply andb_true_iff in Hi as [Hi Hj].
    apply Nat.leb_le in Hi. apply Nat.leb_le in Hj.
    start Hlen. unfold as_idx. wbind.
    iDestruct (vec_at_body with "Hv") as "[Hb Hc]".
    iApply (wp_erase_range with "Hb"); [done|]. iSplit.
    - iIntros "Hb". iDestruct ("Hc" with "Hb") as "Hv". iApply (ret_idx f i); [done|done|].
      finish (VAbs a f (remove_range i j l) cap); [by split_and!|].
      unfold remove_range. rewrite app_length take_length drop_length. lia.
    - iIntros (l') "%Hx Hb". destruct Hx as (Hl' & Ht & Hx).
      iDestruct ("Hc" with "Hb") as "Hv". rewrite -Hl'.
      finish (VAbs a f l' cap). unfold seq_exn. cbn [q_alloc q_elems q_cap]. by split_and!.
  Qed.

  Lemma ok_resize n x : op_ok (OResize n x).
  Proof.
    intros a f l cap Hpre. simpl in Hpre. apply andb_true_iff in Hpre as [Hx Hm].
    apply negb_true_iff in Hm.
    destruct (arg_of_rel a f l cap x Hx) as (v & Hv & Har). rewrite arg_rest_same in Har; [|done].
    apply (arg_of_move a f l cap) in Hm as Hm'.
    start Hlen. unfold as_unit. wbind. iApply (wp_resize with "Hv"); [done|done|]. iSplit.
    - iIntros (f' cap') "%Hg Hv". iApply wp_ret.
      finish (VAbs a f' (resized l n v) cap').
      + split_and!; try done.
        * simpl. exists v. by split_and!.
        * simpl. repeat case_decide; try lia; try done. rewrite -(spo_capfor sok); [done|lia].
      + by rewrite resized_length.
    - iIntros (e l') "%Hx' Hv". destruct Hx' as (Hl' & Hf). rewrite -Hl'.
      finish (VAbs a f l' cap).
      unfold seq_exn. cbn [q_alloc q_elems q_cap]. split_and!; try done.
      + intros Hs. f_equal. simpl in Hs.
        destruct e; simpl in Hf; try (by destruct Hf as [-> ?]); [done|]. by apply Hf.
      + destruct e; simpl in *; try done.
        * by destruct Hf as [-> Hf].
        * destruct Hf as [-> Hf]. split; [by left|done].
        * by destruct Hf.
  Qed.

  Lemma asg_exn o a f l cap n e f' l' cap' :
    (exists v, o = OAssignN n v) \/ (exists vs, o = OAssignRange vs /\ n = length vs) ->
    asg_fail f cap l n e f' l' cap' -> so_cap so cap ->
    seq_exn base o (VAbs a f l cap) e (VAbs a f' l' cap').
  Proof.
    intros Ho Hf Hsc. pose proof (so_cap_nonneg so _ Hsc).
    assert (needed o l = n) as Hn by (destruct Ho as [[v ->]|[vs [-> ->]]]; done).
    assert (exn_size o l l' <-> length l' = length l \/ l' = []) as Hs
      by (destruct Ho as [[v ->]|[vs [-> ->]]]; done).
    assert (is_assign o = true /\ ~ strong o (VAbs a f l cap) /\ is_input o = false) as (Ha & Hst & Hin).
    { destruct Ho as [[v ->]|[vs [-> ->]]]; simpl; split_and!; tauto. }
    unfold seq_exn. cbn [q_alloc q_elems q_cap]. rewrite Ha Hin Hn Hs.
    split_and!; try done.
    - destruct e; simpl in Hf; try done.
      + destruct Hf as (-> & -> & ?). by left.
      + destruct Hf as (-> & ?). by right.
      + destruct Hf as [Hf|Hf]; [left|right]; apply Hf.
    - intros Hfit. destruct e; simpl in Hf; try done.
      + destruct Hf as (-> & -> & -> & ?). done.
      + lia.
      + destruct Hf as [(-> & ? & -> & ?)|Hf]; [done|lia].
    - destruct Ho as [[v ->]|[vs [-> ->]]]; done.
    - destruct e; simpl in Hf; try done.
      + destruct Hf as (-> & -> & -> & ?). done.
      + split; [left; lia|done].
      + destruct Ho as [[v ->]|[vs [-> ->]]]; done.
  Qed.

  Lemma ok_assign_n n v : op_ok (OAssignN n v).
  Proof.
    intros a f l cap _. start Hlen. unfold as_unit. wbind.
    iApply (wp_assign_fill with "Hv"). iSplit.
    - iIntros (f' cap') "%Hg Hv". iApply wp_ret.
      finish (VAbs a f' (replicate n v) cap').
      + split_and!; try done. simpl. repeat case_decide; try lia; try done.
        rewrite -(spo_capfor sok); [done|lia].
      + by rewrite replicate_length.
    - iIntros (e f' l' n' cap') "%Hx Hv". destruct Hx as [-> Hf].
      finish (VAbs a f' l' cap'). eapply asg_exn; [left; by eexists|done|done].
  Qed.

  Lemma ok_assign_range vs : op_ok (OAssignRange vs).
  Proof.
    intros a f l cap _. start Hlen. unfold as_unit. wbind.
    iApply (wp_assign_range st so emp%I emp%I emp%I with "[//] Hv"); [apply src_vals|]. iSplit.
    - iIntros (f' cap') "%Hg _ Hv". iApply wp_ret.
      finish (VAbs a f' vs cap').
      split_and!; try done. simpl. repeat case_decide; try lia; try done.
      rewrite -(spo_capfor sok); [done|lia].
    - iIntros (e f' l' n' cap') "%Hx HP Hv". destruct Hx as [-> Hf].
      iAssert emp%I with "[HP]" as "_"; [by destruct e|].
      finish (VAbs a f' l' cap'). eapply asg_exn; [right; by eexists|done|done].
  Qed.

  Lemma ok_assign_input vs : op_ok (OAssignInput vs).
  Proof.
    intros a f l cap _. start Hlen. unfold as_unit. wbind.
    iApply (wp_assign_input with "Hv"). iSplit.
    - iIntros (f' cap') "%Hg Hv". iApply wp_ret. finish (VAbs a f' vs cap'). by split_and!.
    - iIntros (e f' l' cap') "%Hx Hv". destruct Hx as (Hb & Ho & Hl & Hk).
      finish (VAbs a f' l' cap').
      unfold seq_exn. cbn [q_alloc q_elems q_cap]. split_and!; try done.
      destruct e; simpl; try done.
      + split; [by apply Hl|done].
      + split; [by right; right|done].
  Qed.

  Lemma ok_clear : op_ok OClear.
  Proof.
    intros a f l cap _. start Hlen. unfold as_unit. wbind.
    iDestruct (vec_at_body with "Hv") as "[Hb Hc]".
    iApply (wp_clear with "Hb"). iIntros "Hb". iDestruct ("Hc" with "Hb") as "Hv".
    iApply wp_ret. finish (VAbs a f [] cap). by split_and!.
  Qed.

  Lemma ok_reserve n : op_ok (OReserve n).
  Proof.
    intros a f l cap _. start Hlen. unfold as_unit. wbind.
    iApply (spo_reserve sok with "Hv"). iSplit.
    - iIntros (f' cap') "%Hg Hv". iApply wp_ret. finish (VAbs a f' l cap'). by split_and!.
    - iIntros (e l') "%Hx Hv". destruct Hx as (Hl' & Hs & Hf). rewrite -Hl'.
      finish (VAbs a f l' cap). unfold seq_exn. cbn [q_alloc q_elems q_cap]. split_and!; try done.
      + intros H. by rewrite Hs.
      + destruct e; simpl in *; try done.
        * by destruct Hf as [-> ?].
        * destruct Hf as [-> ?]. split; [by left|done].
  Qed.

  Lemma ok_shrink : op_ok OShrink.
  Proof.
    intros a f l cap _. start Hlen. unfold as_unit. wbind.
    iApply (spo_shrink sok with "Hv"). iSplit.
    - iIntros (f' cap') "%Hg Hv". destruct Hg as [-> Hg]. iApply wp_ret.
      finish (VAbs a f' l (Z.min cap (Z.max base (Z.of_nat (length l))))). split_and!; try done.
      simpl. split; [done|]. intros Hc. split; simpl; [apply Hg; lia|lia].
    - iIntros (e l') "%Hx Hv". destruct Hx as (Hl' & Hs & Hf). rewrite -Hl'.
      finish (VAbs a f l' cap). unfold seq_exn. cbn [q_alloc q_elems q_cap]. split_and!; try done.
      + intros H. by rewrite Hs.
      + destruct Hf as [[-> ->]| ->]; simpl; [|done]. split; [by right; left|done].
  Qed.

  Lemma ok_at i : op_ok (OAt i).
  Proof.
    intros a f l cap _. start Hlen. wbind.
    iDestruct (vec_at_body with "Hv") as "[Hb Hc]".
    iApply (wp_at with "Hb"); [lia|]. iSplit.
    - iIntros (v) "%Hi Hb". iDestruct ("Hc" with "Hb") as "Hv". iApply wp_ret.
      rewrite Nat2Z.id in Hi. finish (VAbs a f l cap). split_and!; try done. by eexists.
    - iIntros "%Hi Hb". iDestruct ("Hc" with "Hb") as "Hv". finish (VAbs a f l cap).
      unfold seq_exn. cbn [q_alloc q_elems q_cap]. split_and!; try done.
      eexists. split; [done|lia].
  Qed.

  Lemma wp_index a f (l : list V) cap i Q X :
    (i < length l)%nat ->
    Q (f +ₗ Z.of_nat i) (vobj a f (length l) cap) ⊢
    wp (index_ (Z.of_nat i)) (vobj a f (length l) cap) Q X.
  Proof.
    iIntros (Hi) "HQ". unfold index_. wbind. iApply wp_get. wbeta. wbind. iApply wp_size. wbeta. wbind.
    iApply wp_assert; [apply Z.ltb_lt; lia|]. by iApply wp_ret.
  Qed.
  Lemma wp_read_at f (l : list V) i v (s : vdata) Q X :
    l !! i = Some v ->
    elems f l ⊢ (elems f l -∗ Q v s) -∗ wp (read (f +ₗ Z.of_nat i)) s Q X.
  Proof.
    iIntros (Hi) "Hl HQ".
    iDestruct (elems_split _ _ (take i l) (v :: drop (S i) l) (f +ₗ Z.of_nat i) with "Hl") as "[H1 H2]".
    { symmetry. by apply take_drop_middle. }
    { rewrite take_length_le; [done|]. apply lookup_lt_Some in Hi. lia. }
    iDestruct (elems_cons with "H2") as "[Hx H2]".
    iApply (wp_read with "Hx"). iIntros "Hx". iApply "HQ".
    iApply (elems_join with "H1 [Hx H2]").
    { rewrite take_length_le; [done|]. apply lookup_lt_Some in Hi. lia. }
    { symmetry. by apply take_drop_middle. }
    rewrite elems_cons. iFrame.
  Qed.

  Lemma ok_get i : op_ok (OGet i).
  Proof.
    intros a f l cap Hi. simpl in Hi. apply Nat.ltb_lt in Hi. start Hlen. unfold as_val. wbind.
    iApply wp_index; [done|]. wbind.
    iDestruct (vec_at_body with "Hv") as "[(%Hc' & Hl & Hr) Hc]".
    destruct (lookup_lt_is_Some_2 l i Hi) as [v Hv].
    iApply (wp_read_at with "Hl"); [done|]. iIntros "Hl". iApply wp_ret.
    iDestruct ("Hc" with "[Hl Hr]") as "Hv"; [iFrame; done|].
    finish (VAbs a f l cap). split_and!; try done. by eexists.
  Qed.
  Lemma ok_front : op_ok OFront.
  Proof.
    intros a f l cap Hi. simpl in Hi. apply Nat.ltb_lt in Hi. start Hlen. unfold as_val. wbind.
    unfold front_. wbind. iApply wp_get. wbeta. wbind. iApply wp_assert.
    { cbn [vobj v_first v_last]. rewrite -{1}(loc_add_0 f) loc_eqb_add. apply negb_true_iff, Z.eqb_neq. lia. }
    iApply wp_ret. wbind. cbn [vobj v_first].
    iDestruct (vec_at_body with "Hv") as "[(%Hc' & Hl & Hr) Hc]".
    destruct l as [|v l]; [simpl in Hi; lia|].
    iDestruct (elems_cons with "Hl") as "[Hx Hl]". iApply (wp_read with "Hx"). iIntros "Hx".
    iAssert (elems f (v :: l)) with "[Hx Hl]" as "Hl"; [rewrite elems_cons; iFrame|].
    iApply wp_ret.
    iDestruct ("Hc" with "[Hl Hr]") as "Hv"; [iFrame; done|].
    finish (VAbs a f (v :: l) cap). split_and!; try done. by eexists.
  Qed.
  Lemma ok_back : op_ok OBack.
  Proof.
    intros a f l cap Hi. simpl in Hi. apply Nat.ltb_lt in Hi. start Hlen. unfold as_val. wbind.
    unfold back_. wbind. iApply wp_get. wbeta. wbind. iApply wp_assert.
    { cbn [vobj v_first v_last]. rewrite -{1}(loc_add_0 f) loc_eqb_add. apply negb_true_iff, Z.eqb_neq. lia. }
    iApply wp_ret. wbind. cbn [vobj v_first v_last].
    iDestruct (vec_at_body with "Hv") as "[(%Hc' & Hl & Hr) Hc]".
    destruct (lookup_lt_is_Some_2 l (length l - 1)) as [v Hv]; [lia|].
    assert (v_last (vobj a f (length l) cap) +ₗ -1 = f +ₗ Z.of_nat (length l - 1)) as -> by (unfold vobj; cbn [v_last]; loc_solve).
    iApply (wp_read_at f l (length l - 1) v with "Hl"); [done|]. iIntros "Hl". iApply wp_ret.
    iDestruct ("Hc" with "[Hl Hr]") as "Hv"; [iFrame; done|].
    finish (VAbs a f l cap). split_and!; try done. simpl. exists v. split_and!; try done.
    rewrite last_lookup. by replace (pred (length l)) with (length l - 1)%nat by lia.
  Qed.
  Lemma ok_set i v : op_ok (OSet i v).
  Proof.
    intros a f l cap Hi. simpl in Hi. apply Nat.ltb_lt in Hi. start Hlen. unfold as_unit. wbind. wbind.
    iApply wp_index; [done|].
    iDestruct (vec_at_body with "Hv") as "[(%Hc' & Hl & Hr) Hc]".
    destruct (lookup_lt_is_Some_2 l i Hi) as [u Hu].
    iDestruct (elems_split _ _ (take i l) (u :: drop (S i) l) (f +ₗ Z.of_nat i) with "Hl") as "[H1 H2]".
    { symmetry. by apply take_drop_middle. }
    { rewrite take_length_le; [done|lia]. }
    iDestruct (elems_cons with "H2") as "[Hx H2]".
    assert (forall u', length (<[i := u']> l) = length l) as Hins by (intros; apply insert_length).
    iAssert (∀ u', (f +ₗ Z.of_nat i) ↦ Live u' -∗ vec_at a f (<[i := u']> l) cap)%I
      with "[H1 H2 Hc Hr]" as "Hcl".
    { iIntros (u') "Hx". iApply "Hc". iApply (body_intro with "[H1 Hx H2] Hr"); [by rewrite Hins|by rewrite Hins|by rewrite Hins|].
      iApply (elems_join with "H1 [Hx H2]").
      { rewrite take_length_le; [done|lia]. }
      { by apply (insert_take_drop l i u'). }
      rewrite elems_cons. iFrame. }
    iApply (as_ok_val emp%I v with "[//] Hx"). iSplit.
    - iIntros "_ Hx". iDestruct ("Hcl" with "Hx") as "Hv". iApply wp_ret.
      finish (VAbs a f (<[i := v]> l) cap). by split_and!.
    - iIntros (c) "_ Hx". iDestruct ("Hcl" with "Hx") as "Hv".
      finish (VAbs a f (<[i := c]> l) cap).
      unfold seq_exn. cbn [q_alloc q_elems q_cap]. split_and!; try done. simpl. by rewrite Hins.
  Qed.
  Lemma ok_size : op_ok OSize.
  Proof.
    intros a f l cap _. start Hlen. unfold as_num. wbind. iApply wp_size. iApply wp_ret.
    finish (VAbs a f l cap). by split_and!.
  Qed.
  Lemma ok_capacity : op_ok OCapacity.
  Proof.
    intros a f l cap _. start Hlen. unfold as_num. wbind. iApply wp_capacity. iApply wp_ret.
    finish (VAbs a f l cap). split_and!; try done. simpl. split; [by eexists|done].
  Qed.

  Lemma filter_split_length (p : V -> bool) (l : list V) :
    (length (List.filter p l) = length l - length (keep p l))%nat.
  Proof.
    unfold keep. assert (length (List.filter p l) + length (List.filter (fun v => negb (p v)) l) = length l)%nat; [|lia].
    induction l as [|v l IH]; simpl; [done|]. destruct (p v); simpl; lia.
  Qed.
  Lemma ok_erase_if p : op_ok (OEraseIf p).
  Proof.
    intros a f l cap _. start Hlen. unfold as_num. wbind.
    iDestruct (vec_at_body with "Hv") as "[Hb Hc]".
    iApply (wp_erase_if with "Hb"). iSplit.
    - iIntros "Hb". iDestruct ("Hc" with "Hb") as "Hv". iApply wp_ret.
      finish (VAbs a f (keep p l) cap). split_and!; try done. simpl. split; [done|].
      by rewrite filter_split_length.
    - iIntros (l') "%Hl' Hb". iDestruct ("Hc" with "Hb") as "Hv". rewrite -Hl'.
      finish (VAbs a f l' cap). unfold seq_exn. cbn [q_alloc q_elems q_cap]. by split_and!.
  Qed.
  Lemma ok_self_move : op_ok OSelfMove.
  Proof.
    intros a f l cap _. start Hlen. unfold as_unit. wbind.
    iApply (spo_self sok with "Hv"). iSplit; [|iSplit].
    - iIntros (f') "Hv". iApply wp_ret. finish (VAbs a f' [] 0). split; [split; [done|by left]|]. split; [done|]. split; [by left|done].
    - iIntros "%Hb Hv". iApply wp_ret. finish (VAbs a f (vmoved <$> l) cap).
      + split; [split; [done|by right]|]. split; [done|]. split; [by right|done].
      + by rewrite fmap_length.
    - iIntros (l') "%Hx Hv". destruct Hx as [Hb Hl']. rewrite -Hl'. finish (VAbs a f l' cap).
      unfold seq_exn. cbn [q_alloc q_elems q_cap]. by split_and!.
  Qed.

  Lemma wp_vop o : op_ok o.
  Proof.
    destruct o.
    - apply ok_emplace. - apply ok_emplace_back. - apply ok_insert_n. - apply ok_insert_range.
    - apply ok_insert_input. - apply ok_pop_back. - apply ok_erase. - apply ok_erase_range.
    - apply ok_resize. - apply ok_assign_n. - apply ok_assign_range. - apply ok_assign_input.
    - apply ok_clear. - apply ok_reserve. - apply ok_shrink. - apply ok_at. - apply ok_get.
    - apply ok_front. - apply ok_back. - apply ok_set. - apply ok_size. - apply ok_capacity.
    - apply ok_erase_if. - apply ok_self_move.
  Qed.

  (** Constructors, from an empty container. *)
  Lemma wp_ctor c f :
    vec_at (k_alloc c) f [] base ⊢
    wp (run_ctor st c) (vobj (k_alloc c) f 0 base)
      (fun _ x => ∃ A, ⟦k_post base c A⟧ ∗ vinv x A)%I
      (fun e _ => ⟦k_exn (k_elems c) e⟧ ∗ so_gone so)%I.
  Proof.
    assert (so_capfor so 0 = Z.max base 0) as H0 by (by apply (spo_capfor sok)).
    iIntros "Hv". iDestruct (vec_at_len with "Hv") as "[%Hlen Hv]". destruct Hlen as [Hsc Hlen]. simpl in Hlen.
    rewrite Z.max_l in H0; [|done]. rewrite -H0.
    destruct c as [a|a n x|a vs|a vs]; cbn [k_alloc].
    - iApply wp_ret. finish (VAbs a f [] (so_capfor so 0)). split_and!; try done. simpl. lia.
    - assert (Hx : exists v ar, run_ctor st (KFill a n x) = init_fill_ st (Z.of_nat n) ar /\
                   mk_ok emp emp ar v emp /\ k_elems (KFill a n x) = replicate n v).
      { destruct x as [v|]; eexists _, _; (split; [done|split; [|done]]); [apply mk_ok_val|apply mk_ok_def]. }
      destruct Hx as (v & ar & Hr & Hmk & Hk). rewrite Hr.
      iApply (wp_init_fill with "Hv"); [done|]. iSplit.
      + iIntros (f') "Hv". finish (VAbs a f' (replicate n v) (so_capfor so (Z.of_nat n))).
        * split_and!; try done. rewrite Hk replicate_length. cbn [q_cap]. rewrite H0. apply (spo_capfor sok). lia.
        * by rewrite replicate_length.
      + iIntros (e s) "%He $". iPureIntro. rewrite Hk.
        destruct e; simpl in *; rewrite ?replicate_length; done.
    - iApply (wp_init_range st so emp%I emp%I emp%I with "[//] Hv"); [apply mks_vals|]. iSplit.
      + iIntros (f') "_ Hv". finish (VAbs a f' vs (so_capfor so (Z.of_nat (length vs)))).
        split_and!; try done. cbn [q_cap k_elems]. rewrite H0. apply (spo_capfor sok). lia.
      + iIntros (e s) "%He HP $". iAssert emp%I with "[HP]" as "_"; [by destruct e|].
        iPureIntro. destruct e; simpl in *; done.
    - iApply (wp_init_input with "Hv"). iSplit.
      + iIntros (f' cap') "%Hk Hv". iDestruct (vec_at_len with "Hv") as "[%Hlen' Hv]".
        destruct Hlen' as [Hsc' Hlen'].
        finish (VAbs a f' vs cap'). split_and!; try done. cbn [q_cap].
        destruct (spo_base sok _ Hsc') as [->|]; [|lia].
        assert (length vs = 0%nat) as Hn by lia. rewrite Hn in Hk. destruct Hk; lia.
      + iIntros (e s) "%He $". iPureIntro. destruct e; simpl in *; done.
  Qed.
End seq.
