(** * Storage of the segmented containers: the table, the segments, growing and
    shrinking *)

From Verif Require Export Segmented SegShift.
From Coq Require Import ZifyBool.
From iris.proofmode Require Import tactics.
Open Scope Z_scope.

Notation zlen l := (Z.of_nat (length l)).

(** ** Geometry *)
Section geometry.
  Context `{E : Env} `{SZ : SegSize}.
  Implicit Types segs : list loc.

  Lemma slots_app segs new : slots (segs ++ new) = slots segs + slots new.
  Proof. unfold slots. rewrite app_length. lia. Qed.
  Lemma slots_nonneg segs : 0 <= slots segs.
  Proof. pose proof SS_pos. unfold slots. nia. Qed.
  Lemma saddr_app_l segs new i : 0 <= i < slots segs -> saddr (segs ++ new) i = saddr segs i.
  Proof.
    intros Hi. destruct (pos_split i) as (k & r & Hk & Hr). pose proof (seg_bound i k r _ Hk Hr Hi).
    rewrite !(saddr_at _ i k r) //. rewrite lookup_total_app_l; [done|lia].
  Qed.
  Lemma saddr_app_r new segs i : 0 <= i < slots segs -> saddr (new ++ segs) (slots new + i) = saddr segs i.
  Proof.
    intros Hi. destruct (pos_split i) as (k & r & Hk & Hr). pose proof (seg_bound i k r _ Hk Hr Hi).
    rewrite (saddr_at _ i k r) // (saddr_at _ _ (k + zlen new) r); [|unfold slots; lia|done].
    rewrite lookup_total_app_r; [|lia]. do 2 f_equal. lia.
  Qed.
  Lemma sitr_app_l t segs new i : 0 <= i < slots segs -> sitr t (segs ++ new) i = sitr t segs i.
  Proof. intros Hi. unfold sitr. by rewrite saddr_app_l. Qed.
  Lemma sitr_app_r t new segs i :
    0 <= i < slots segs -> sitr t (new ++ segs) (slots new + i) = sitr (t +ₗ zlen new) segs i.
  Proof.
    intros Hi. unfold sitr. rewrite saddr_app_r // loc_add_assoc. do 2 f_equal.
    unfold slots. pose proof SS_pos. rewrite (Z.mul_comm SS) Z.div_add_l; lia.
  Qed.
End geometry.

Section windows.
  Context `{E : Env} `{SZ : SegSize}.
  Implicit Types segs : list loc.
  Implicit Types f : Z -> option V.

  Lemma win_shift addr lo hi k f :
    win addr (k + lo) (k + hi) f ⊣⊢ win (fun i => addr (k + i)) lo hi (fun i => f (k + i)).
  Proof.
    unfold win. replace (k + hi - (k + lo)) with (hi - lo) by lia.
    by rewrite -(fmap_add_seqZ k lo) big_sepL_fmap.
  Qed.
  Lemma win_app_segs segs new f :
    win (saddr (segs ++ new)) 0 (slots (segs ++ new)) f ⊣⊢
    win (saddr segs) 0 (slots segs) f ∗ win (saddr new) 0 (slots new) (fun i => f (slots segs + i)).
  Proof.
    pose proof (slots_nonneg segs). pose proof (slots_nonneg new). rewrite slots_app.
    rewrite (win_split _ 0 (slots segs)); [|lia].
    pose proof (win_shift (saddr (segs ++ new)) 0 (slots new) (slots segs) f) as Hs.
    rewrite Z.add_0_r in Hs. rewrite Hs.
    apply bi.sep_proper.
    - apply bi.equiv_entails; split; apply win_ext; intros i Hi; split; auto; rewrite saddr_app_l; auto.
    - apply bi.equiv_entails; split; apply win_ext; intros i Hi; split; auto; rewrite saddr_app_r; auto.
  Qed.

  Definition rawsegs segs : hProp := ([∗ list] q ∈ segs, raws q (Z.to_nat SS))%I.
  Lemma win_rawsegs segs f :
    (forall i, 0 <= i < slots segs -> live f i = false) ->
    win (saddr segs) 0 (slots segs) f ⊣⊢ rawsegs segs.
  Proof.
    induction segs as [|q segs IH] in f |- *; intros Hf.
    - rewrite win_nil; [done|]. unfold slots. simpl. lia.
    - pose proof (slots_nonneg segs). pose proof SS_pos.
      assert (slots [q] = SS) as HS by (unfold slots; simpl; lia).
      change (q :: segs) with ([q] ++ segs) in Hf |- *. rewrite slots_app HS in Hf.
      rewrite win_app_segs HS. rewrite IH; [|intros i Hi; unfold live in *; apply Hf; lia].
      rewrite (win_raws _ 0 SS q (Z.to_nat SS)); [done| |lia|intros; apply Hf; lia].
      intros i Hi. rewrite (saddr_at _ i 0 i); [|lia..]. simpl. f_equal. lia.
  Qed.
  Lemma rawsegs_app segs new : rawsegs (segs ++ new) ⊣⊢ rawsegs segs ∗ rawsegs new.
  Proof. apply big_sepL_app. Qed.

  (** Different positions have different addresses. *)
  Lemma win_addr_eqb addr lo hi f i j :
    lo <= i < hi -> lo <= j < hi -> win addr lo hi f ⊢ ⌜loc_eqb (addr i) (addr j) = (i =? j)⌝.
  Proof.
    intros Hi Hj. destruct (Z.eqb_spec i j) as [->|Hne].
    { iIntros "_". iPureIntro. apply loc_eqb_refl. }
    iIntros "Hw". iDestruct (win_acc2 _ _ _ i j with "Hw") as "(H1 & H2 & _)"; [done..|].
    iDestruct (mapsto_ne with "[$H1 $H2]") as %Hne2. iPureIntro.
    destruct (loc_eqb (addr i) (addr j)) eqn:He; [|done]. by apply loc_eqb_spec in He.
  Qed.
  Lemma swin_eqb t segs f i j :
    0 <= i < slots segs -> 0 <= j < slots segs ->
    swin t segs f ⊢ ⌜it_eqb (sitr t segs i) (sitr t segs j) = (i =? j)⌝.
  Proof. iIntros (Hi Hj) "[_ Hw]". by iApply (win_addr_eqb with "Hw"). Qed.
End windows.

(** ** Tables *)
Section tables.
  Context `{E : Env} `{SZ : SegSize}.
  Implicit Types segs : list loc.
  Implicit Types o : sgdata.

  (** Table entries in no particular state. *)
  Definition junk (p : loc) (n : Z) : hProp :=
    (∃ cs, ⟦zlen cs = n /\ Forall dead cs⟧ ∗ p ↦∗ cs)%I.
  Lemma junk_raws p n : 0 <= n -> raws p (Z.to_nat n) ⊢ junk p n.
  Proof.
    iIntros (Hn) "H". iExists _. iFrame. iPureIntro. rewrite replicate_length. split; [lia|].
    by apply Forall_replicate.
  Qed.
  Lemma junk_table p segs : table p segs ⊢ junk p (zlen segs).
  Proof.
    iIntros "H". iExists _. iFrame. iPureIntro. rewrite fmap_length. split; [done|].
    apply Forall_fmap. by apply Forall_true.
  Qed.
  Lemma junk_app p a b : 0 <= a -> 0 <= b -> junk p (a + b) ⊣⊢ junk p a ∗ junk (p +ₗ a) b.
  Proof.
    intros Ha Hb. apply bi.equiv_entails; split.
    - iIntros "H". iDestruct "H" as (cs) "[%Hcs H]". destruct Hcs as [Hl Hd].
      rewrite -{1}(take_drop (Z.to_nat a) cs) arr_app. iDestruct "H" as "[H1 H2]".
      rewrite take_length. replace (Z.of_nat (Z.to_nat a `min` length cs)) with a by lia.
      iSplitL "H1".
      + iExists _. iFrame. iPureIntro. rewrite take_length. split; [lia|]. by apply Forall_take.
      + iExists _. iFrame. iPureIntro. rewrite drop_length. split; [lia|]. by apply Forall_drop.
    - iIntros "[H1 H2]". iDestruct "H1" as (cs1) "[%H1 H1']". iDestruct "H2" as (cs2) "[%H2 H2']".
      destruct H1 as [Hl1 Hd1]. destruct H2 as [Hl2 Hd2]. iExists (cs1 ++ cs2). rewrite arr_app Hl1. iFrame.
      iPureIntro. rewrite app_length. split; [lia|]. by apply Forall_app.
  Qed.
  Lemma junk_0 p : junk p 0 ⊣⊢ emp.
  Proof.
    apply bi.equiv_entails; split.
    - iIntros "H". iDestruct "H" as (cs) "[%Hcs H]". destruct Hcs as [Hl Hd]. destruct cs; [done|simpl in Hl; lia].
    - iIntros "_". iExists []. by rewrite arr_nil.
  Qed.
  Lemma junk_cons p n : 0 <= n -> junk p (1 + n) ⊢ ∃ c, ⟦dead c⟧ ∗ p ↦ c ∗ junk (p +ₗ 1) n.
  Proof.
    intros Hn. iIntros "H". iDestruct "H" as (cs) "[%Hcs H]". destruct Hcs as [Hl Hd].
    destruct cs as [|c cs]; [simpl in Hl; lia|]. simpl in Hl. rewrite arr_cons. apply Forall_cons in Hd as [Hc Hd].
    iDestruct "H" as "[H1 H2]". iExists c. iFrame "H1". iSplit; [done|]. iExists cs. iFrame. iPureIntro. split; [lia|done].
  Qed.
  Lemma table_app p segs new : table p (segs ++ new) ⊣⊢ table p segs ∗ table (p +ₗ zlen segs) new.
  Proof. unfold table. by rewrite fmap_app arr_app fmap_length. Qed.
  Lemma table_one p q : table p [q] ⊣⊢ p ↦ Ptr q.
  Proof. apply arr_singleton. Qed.

  Definition blocks (a : nat) segs : hProp := ([∗ list] q ∈ segs, ablock a q SS)%I.
  Lemma blocks_app a segs new : blocks a (segs ++ new) ⊣⊢ blocks a segs ∗ blocks a new.
  Proof. apply big_sepL_app. Qed.

  Lemma wp_dealloc_junk {St} a p n (s : St) Q X :
    ablock a p n ⊢ junk p n -∗ Q tt s -∗ wp (deallocate a p n) s Q X.
  Proof.
    iIntros "Hb Hj HQ". iDestruct "Hj" as (cs) "[%Hcs H]". destruct Hcs as [Hl Hd].
    by iApply (wp_deallocate_gen with "Hb H HQ").
  Qed.

  Lemma wp_free_loop o p segs Q X :
    table p segs ⊢ blocks (sg_alloc o) segs -∗ rawsegs segs -∗ (table p segs -∗ Q tt o) -∗
    wp (sq_free_loop p (length segs)) o Q X.
  Proof.
    induction segs as [|q segs IH] in p, Q |- *; simpl.
    - iIntros "Ht _ _ HQ". iApply wp_ret. by iApply "HQ".
    - iIntros "Ht [Hb Hbs] [Hr Hrs] HQ". unfold table. simpl. iDestruct "Ht" as "[Hp Ht]".
      wbind. iApply wp_get. wbeta. wbind. iApply (wp_read_ptr with "Hp"). iIntros "Hp". wbeta. wbind.
      iApply (wp_deallocate with "Hb Hr"). wbeta. iApply (IH with "Ht Hbs Hrs").
      iIntros "Ht". iApply "HQ". by iFrame.
  Qed.
  Lemma wp_deallocate_segments o p q segs Q X :
    q = p +ₗ zlen segs ->
    table p segs ⊢ blocks (sg_alloc o) segs -∗ rawsegs segs -∗ (table p segs -∗ Q tt o) -∗
    wp (sq_deallocate_segments p q) o Q X.
  Proof.
    iIntros (->) "Ht Hb Hr HQ". unfold sq_deallocate_segments. wbind.
    iApply wp_range_len; [done|simpl; lia|]. simpl. wbeta.
    replace (Z.to_nat (p.2 + zlen segs - p.2)) with (length segs) by lia.
    iApply (wp_free_loop with "Ht Hb Hr HQ").
  Qed.
  Lemma wp_alloc_loop o first segs n Q X :
    table first segs ⊢ blocks (sg_alloc o) segs -∗ rawsegs segs -∗ junk (first +ₗ zlen segs) (Z.of_nat n) -∗
    ((∀ new, ⟦length new = n⟧ -∗ table first (segs ++ new) -∗ blocks (sg_alloc o) (segs ++ new) -∗
        rawsegs (segs ++ new) -∗ Q tt o) ∧
     (junk first (zlen segs + Z.of_nat n) -∗ X EBadAlloc o)) -∗
    wp (sq_alloc_loop first (first +ₗ zlen segs) n) o Q X.
  Proof.
    induction n as [|n IH] in segs |- *; simpl.
    - iIntros "Ht Hb Hr Hj HQ". iApply wp_ret. iDestruct "HQ" as "[HQ _]".
      rewrite junk_0. iApply ("HQ" $! [] with "[//] [Ht] [Hb] [Hr]"); by rewrite app_nil_r.
    - iIntros "Ht Hb Hr Hj HQ". wbind. iApply wp_get. wbeta. wbind. iApply wp_try.
      pose proof SS_pos. iApply wp_allocate; [lia|]. iSplit.
      + iIntros (q) "Hq Hqr". wbeta. wbind.
        replace (Z.of_nat (S n)) with (1 + Z.of_nat n) at 1 by lia.
        iDestruct (junk_cons with "Hj") as (c) "(%Hc & Hp & Hj)"; [lia|].
        iApply (wp_write_ptr with "Hp"); [done|]. iIntros "Hp". wbeta.
        iPoseProof (IH (segs ++ [q])) as "IH". rewrite app_length /= loc_add_assoc.
        replace (Z.of_nat (length segs + 1)) with (zlen segs + 1) by lia.
        iApply ("IH" with "[Ht Hp] [Hb Hq] [Hr Hqr] Hj").
        * rewrite table_app table_one. iFrame.
        * rewrite blocks_app. iFrame "Hb". rewrite /blocks big_sepL_singleton. iFrame.
        * rewrite rawsegs_app. iFrame "Hr". rewrite /rawsegs big_sepL_singleton. iFrame.
        * iSplit.
          -- iIntros (new) "%Hn". rewrite -app_assoc. simpl. iDestruct "HQ" as "[HQ _]".
             iApply ("HQ" $! (q :: new)). iPureIntro. simpl. lia.
          -- iDestruct "HQ" as "[_ HQ]".
             by replace (zlen segs + 1 + Z.of_nat n) with (zlen segs + Z.of_nat (S n)) by lia.
      + wbeta. iApply (wp_deallocate_segments with "Ht Hb Hr"); [done|]. iIntros "Ht".
        iDestruct "HQ" as "[_ HQ]". iApply "HQ". rewrite junk_app; [|lia..]. iFrame. by iApply junk_table.
  Qed.
  Lemma wp_allocate_segments o p q n Q X :
    0 <= n -> q = p +ₗ n ->
    junk p n ⊢
    ((∀ new, ⟦zlen new = n⟧ -∗ table p new -∗ blocks (sg_alloc o) new -∗ rawsegs new -∗ Q tt o) ∧
     (junk p n -∗ X EBadAlloc o)) -∗
    wp (sq_allocate_segments p q) o Q X.
  Proof.
    iIntros (Hn ->) "Hj HQ". unfold sq_allocate_segments. wbind.
    iApply wp_range_len; [done|simpl; lia|]. simpl. wbeta.
    replace (Z.to_nat (p.2 + n - p.2)) with (Z.to_nat n) by lia.
    iPoseProof (wp_alloc_loop o p [] (Z.to_nat n) Q X) as "H". simpl. rewrite loc_add_0 Z2Nat.id //.
    iApply ("H" with "[] [] [] Hj"); [done|by rewrite /blocks big_sepL_nil|by rewrite /rawsegs big_sepL_nil|]. iSplit.
    - iIntros (new) "%Hl". iDestruct "HQ" as "[HQ _]". iApply "HQ". iPureIntro. lia.
    - iDestruct "HQ" as "[_ HQ]". by replace (0 + n) with n by lia.
  Qed.

  Lemma wp_copy_ptrs o first segs d Q X :
    table first segs ⊢ junk d (zlen segs) -∗ (table first segs -∗ table d segs -∗ Q tt o) -∗
    wp (copy_ptrs first (length segs) d) o Q X.
  Proof.
    induction segs as [|q segs IH] in first, d, Q |- *; simpl.
    - iIntros "Ht Hj HQ". iApply wp_ret. rewrite junk_0. by iApply ("HQ" with "Ht").
    - iIntros "Ht Hj HQ". unfold table. simpl. iDestruct "Ht" as "[Hp Ht]".
      replace (Z.of_nat (S (length segs))) with (1 + zlen segs) by lia.
      iDestruct (junk_cons with "Hj") as (c) "(%Hc & Hd & Hj)"; [lia|].
      wbind. iApply (wp_read_ptr with "Hp"). iIntros "Hp". wbeta. wbind.
      iApply (wp_write_ptr with "Hd"); [done|]. iIntros "Hd". wbeta.
      iApply (IH with "Ht Hj"). iIntros "Ht Htd". iApply ("HQ" with "[Hp Ht] [Hd Htd]"); iFrame.
  Qed.
  Lemma wp_copy_table o first last segs d Q X :
    last = first +ₗ zlen segs ->
    table first segs ⊢ junk d (zlen segs) -∗ (table first segs -∗ table d segs -∗ Q (d +ₗ zlen segs) o) -∗
    wp (copy_table first last d) o Q X.
  Proof.
    iIntros (->) "Ht Hj HQ". unfold copy_table. wbind.
    iApply wp_range_len; [done|simpl; lia|]. simpl. wbeta.
    replace (Z.to_nat (first.2 + zlen segs - first.2)) with (length segs) by lia. wbind.
    iApply (wp_copy_ptrs with "Ht Hj"). iIntros "Ht Hd". wbeta. iApply wp_ret. by iApply ("HQ" with "Ht").
  Qed.
  Lemma wp_copy_ptrs_backward o first segs d Q X :
    table first segs ⊢ junk d (zlen segs) -∗ (table first segs -∗ table d segs -∗ Q tt o) -∗
    wp (copy_ptrs_backward (first +ₗ zlen segs) (length segs) (d +ₗ zlen segs)) o Q X.
  Proof.
    induction segs as [|q segs IH] using rev_ind; simpl.
    - iIntros "Ht Hj HQ". iApply wp_ret. rewrite junk_0. by iApply ("HQ" with "Ht").
    - rewrite app_length /= Nat.add_1_r. iIntros "Ht Hj HQ". rewrite table_app table_one.
      iDestruct "Ht" as "[Ht Hp]". simpl.
      replace (Z.of_nat (S (length segs))) with (zlen segs + 1) at 1 by lia.
      rewrite junk_app; [|lia..]. iDestruct "Hj" as "[Hj Hd]".
      change (junk (d +ₗ zlen segs) 1) with (junk (d +ₗ zlen segs) (1 + 0)).
      iDestruct (junk_cons with "Hd") as (c) "(%Hc & Hd & Hz)"; [lia|]. rewrite junk_0.
      rewrite !loc_add_assoc. replace (Z.of_nat (S (length segs)) + -1) with (zlen segs) by lia.
      wbind. iApply (wp_read_ptr with "Hp"). iIntros "Hp". wbeta. wbind.
      iApply (wp_write_ptr with "Hd"); [done|]. iIntros "Hd". wbeta.
      iApply (IH with "Ht Hj"). iIntros "Ht Htd". rewrite table_app table_one.
      iApply ("HQ" with "[Hp Ht] [Hd Htd]"); iFrame.
  Qed.
  Lemma wp_copy_table_backward o first last segs d d_last Q X :
    last = first +ₗ zlen segs -> d_last = d +ₗ zlen segs ->
    table first segs ⊢ junk d (zlen segs) -∗ (table first segs -∗ table d segs -∗ Q d o) -∗
    wp (copy_table_backward first last d_last) o Q X.
  Proof.
    iIntros (-> ->) "Ht Hj HQ". unfold copy_table_backward. wbind.
    iApply wp_range_len; [done|simpl; lia|]. simpl. wbeta.
    replace (Z.to_nat (first.2 + zlen segs - first.2)) with (length segs) by lia. wbind.
    iApply (wp_copy_ptrs_backward with "Ht Hj"). iIntros "Ht Hd". wbeta. iApply wp_ret.
    rewrite loc_add_assoc. replace (zlen segs + - zlen segs) with 0 by lia. rewrite loc_add_0.
    by iApply ("HQ" with "Ht").
  Qed.
End tables.
