(** * Proof rules for segment tables and segmented iterators *)

From Verif Require Export SegAlgo Window.
From Coq Require Import ZifyBool.
From iris.proofmode Require Import tactics.
Open Scope Z_scope.

Section geometry.
  Context `{E : Env} `{SZ : SegSize}.
  Implicit Types segs : list loc.

  (** The address of position [i]; the iterator denoting position [i] (positions are
      counted from the first slot of the first segment of the table at [t]). *)
  Definition saddr segs (i : Z) : loc := (segs !!! Z.to_nat (i / SS)) +ₗ (i mod SS).
  Definition sitr (t : loc) segs (i : Z) : sit := It (t +ₗ (i / SS)) (saddr segs i).
  (** The number of slots. *)
  Definition slots segs : Z := SS * Z.of_nat (length segs).

  Definition table (t : loc) segs : hProp := (t ↦∗ (Ptr <$> segs))%I.

  Lemma pos_split i : exists k r, i = k * SS + r /\ 0 <= r < SS.
  Proof.
    pose proof SS_pos. exists (i / SS), (i mod SS). split.
    - rewrite Z.mul_comm. apply Z.div_mod. lia.
    - apply Z.mod_pos_bound. lia.
  Qed.
  Lemma pos_div i k r : i = k * SS + r -> 0 <= r < SS -> i / SS = k.
  Proof. intros -> Hr. symmetry. apply (Z.div_unique _ _ _ r); lia. Qed.
  Lemma pos_mod i k r : i = k * SS + r -> 0 <= r < SS -> i mod SS = r.
  Proof. intros -> Hr. symmetry. apply (Z.mod_unique _ _ k); lia. Qed.
  Lemma saddr_at segs i k r :
    i = k * SS + r -> 0 <= r < SS -> saddr segs i = (segs !!! Z.to_nat k) +ₗ r.
  Proof. intros Hi Hr. unfold saddr. by rewrite (pos_div i k r) // (pos_mod i k r). Qed.
  Lemma sitr_at t segs i k r :
    i = k * SS + r -> 0 <= r < SS -> sitr t segs i = It (t +ₗ k) ((segs !!! Z.to_nat k) +ₗ r).
  Proof. intros Hi Hr. unfold sitr. by rewrite (saddr_at _ i k r) // (pos_div i k r). Qed.
  Lemma seg_bound i k r n :
    i = k * SS + r -> 0 <= r < SS -> 0 <= i < SS * n -> 0 <= k < n.
  Proof. pose proof SS_pos. intros -> Hr Hi. split; nia. Qed.
  Lemma saddr_contig segs k a b :
    k * SS <= a -> b <= (k + 1) * SS ->
    contig (saddr segs) a b ((segs !!! Z.to_nat k) +ₗ (a - k * SS)).
  Proof.
    intros Ha Hb i Hi. rewrite (saddr_at segs i k (i - k * SS)); [|lia..].
    rewrite loc_add_assoc. f_equal. lia.
  Qed.
  Lemma sitr_seg t segs i : it_seg (sitr t segs i) = t +ₗ (i / SS).
  Proof. done. Qed.
  Lemma sitr_loc t segs i : it_loc (sitr t segs i) = saddr segs i.
  Proof. done. Qed.

  Lemma ptrs_lookup segs k :
    (k < length segs)%nat -> (Ptr <$> segs : list cell) !! k = Some (Ptr (segs !!! k)).
  Proof.
    intros Hk. rewrite list_lookup_fmap. destruct (lookup_lt_is_Some_2 _ _ Hk) as [p Hp].
    by rewrite Hp (list_lookup_total_correct _ _ _ Hp).
  Qed.
End geometry.
Arguments sitr : simpl never.
Arguments saddr : simpl never.

Section rules.
  Context `{E : Env} `{SZ : SegSize}.
  Context {St : Type}.
  Implicit Types s : St.
  Implicit Types segs : list loc.

  Lemma wp_read_ptr p q s Q X :
    p ↦ Ptr q ⊢ (p ↦ Ptr q -∗ Q q s) -∗ wp (read_ptr p) s Q X.
  Proof.
    apply wp_exact. rewrite wp_unseal. split. intros h -> hf w Hwf Hd Hh.
    unfold read_ptr. rewrite (single_lookup _ _ _ _ Hh). exists {[p := Ptr q]}.
    split_and!; [done|done|by apply after_refl|by apply hold_pure_sep].
  Qed.
  Lemma wp_write_ptr p q c s Q X :
    dead c -> p ↦ c ⊢ (p ↦ Ptr q -∗ Q tt s) -∗ wp (write_ptr p q) s Q X.
  Proof.
    intros Hc. apply wp_exact. rewrite wp_unseal. split. intros h -> hf w Hwf Hd Hh.
    unfold write_ptr. rewrite (single_lookup _ _ _ _ Hh).
    assert (match c with Raw | Ptr _ => Ok tt s (set_heap w (<[p := Ptr q]> (heap w))) | _ => UB end =
            (Ok tt s (set_heap w (<[p := Ptr q]> (heap w))) : res St unit)) as ->
      by (destruct c; done).
    exists {[p := Ptr q]}. unfold set_heap; simpl. rewrite Hh single_update. split_and!; [done|by eapply single_disj| |by apply hold_pure_sep].
    apply after_self; [by eapply wf_update|simpl; lia].
  Qed.

  Lemma wp_read_tbl t segs k p s Q X :
    p = t +ₗ k -> 0 <= k < Z.of_nat (length segs) ->
    table t segs ⊢ (table t segs -∗ Q (segs !!! Z.to_nat k) s) -∗ wp (read_ptr p) s Q X.
  Proof.
    iIntros (-> Hk) "Ht HQ". unfold table.
    iDestruct (arr_acc _ _ (Z.to_nat k) with "Ht") as "[Hp Ht]"; [apply ptrs_lookup; lia|].
    replace (Z.of_nat (Z.to_nat k)) with k by lia.
    iApply (wp_read_ptr with "Hp"). iIntros "Hp". iApply "HQ". iSpecialize ("Ht" with "Hp").
    rewrite list_insert_id; [done|]. apply ptrs_lookup. lia.
  Qed.

  (** ** Iterators *)
  Lemma wp_it_succ t segs i s Q X :
    0 <= i -> i + 1 < slots segs ->
    table t segs ⊢ (table t segs -∗ Q (sitr t segs (i + 1)) s) -∗ wp (it_succ (sitr t segs i)) s Q X.
  Proof.
    iIntros (Hi Hb) "Ht HQ". unfold slots in Hb. pose proof SS_pos. destruct (pos_split i) as (k & r & Hk & Hr).
    pose proof (seg_bound i k r (Z.of_nat (length segs)) Hk Hr ltac:(lia)) as Hkb.
    rewrite (sitr_at _ _ i k r) //. unfold it_succ. simpl. wbind.
    iApply (wp_read_tbl with "Ht"); [done|lia|]. iIntros "Ht". wbeta.
    rewrite loc_add_assoc loc_eqb_add. destruct (Z.eqb_spec (r + 1) SS) as [He|He].
    - wbind. iApply (wp_read_tbl _ _ (k + 1) with "Ht"); [by rewrite loc_add_assoc| |].
      { pose proof (seg_bound (SZ:=SZ) (i + 1) (k + 1) 0 (Z.of_nat (length segs)) ltac:(nia) ltac:(lia) ltac:(lia)). lia. }
      iIntros "Ht". wbeta. iApply wp_ret.
      rewrite (sitr_at _ _ (i + 1) (k + 1) 0); [|lia..]. rewrite loc_add_0 loc_add_assoc. by iApply "HQ".
    - iApply wp_ret. rewrite (sitr_at _ _ (i + 1) k (r + 1)); [|lia..]. by iApply "HQ".
  Qed.
  Lemma wp_it_pred t segs i s Q X :
    0 < i -> i < slots segs ->
    table t segs ⊢ (table t segs -∗ Q (sitr t segs (i - 1)) s) -∗ wp (it_pred (sitr t segs i)) s Q X.
  Proof.
    iIntros (Hi Hb) "Ht HQ". unfold slots in Hb. pose proof SS_pos. destruct (pos_split i) as (k & r & Hk & Hr).
    pose proof (seg_bound i k r (Z.of_nat (length segs)) Hk Hr ltac:(lia)) as Hkb.
    rewrite (sitr_at _ _ i k r) //. unfold it_pred. simpl. wbind.
    iApply (wp_read_tbl with "Ht"); [done|lia|]. iIntros "Ht". wbeta.
    replace (loc_eqb ((segs !!! Z.to_nat k) +ₗ r) (segs !!! Z.to_nat k)) with (r =? 0).
    2:{ rewrite -{2}(loc_add_0 (segs !!! Z.to_nat k)). by rewrite loc_eqb_add. }
    destruct (Z.eqb_spec r 0) as [He|He].
    - pose proof (seg_bound (SZ:=SZ) (i - 1) (k - 1) (@SS SZ - 1) (Z.of_nat (length segs)) ltac:(nia) ltac:(lia) ltac:(lia)).
      wbind. iApply (wp_read_tbl _ _ (k - 1) with "Ht"); [by rewrite loc_add_assoc|lia|].
      iIntros "Ht". wbeta. iApply wp_ret.
      rewrite (sitr_at _ _ (i - 1) (k - 1) (SS - 1)); [|lia..]. rewrite !loc_add_assoc. by iApply "HQ".
    - iApply wp_ret. rewrite (sitr_at _ _ (i - 1) k (r - 1)); [|lia..]. rewrite loc_add_assoc. by iApply "HQ".
  Qed.
  Lemma wp_it_add t segs i n s Q X :
    0 <= i < slots segs -> 0 <= i + n < slots segs ->
    table t segs ⊢ (table t segs -∗ Q (sitr t segs (i + n)) s) -∗ wp (it_add (sitr t segs i) n) s Q X.
  Proof.
    iIntros (Hi Hb) "Ht HQ". unfold slots in Hb, Hi. destruct (pos_split i) as (k & r & Hk & Hr).
    pose proof (seg_bound i k r (Z.of_nat (length segs)) Hk Hr ltac:(lia)) as Hkb.
    rewrite (sitr_at _ _ i k r) //. unfold it_add. simpl. wbind.
    iApply (wp_read_tbl with "Ht"); [done|lia|]. iIntros "Ht". wbeta. wbind.
    iApply wp_psub; [done|]. wbeta.
    destruct ((0 <=? r + n) && (r + n <? SS)) eqn:Hin.
    - iApply wp_ret. rewrite (sitr_at _ _ (i + n) k (r + n)); [|lia..]. rewrite loc_add_assoc. by iApply "HQ".
    - assert (exists m, (if 0 <? r + n then Z.quot (r + n) SS else - Z.quot (- (r + n) - 1) SS - 1) = m /\
        0 <= r + n - m * SS < SS) as (m & -> & Hm).
      { pose proof SS_pos. eexists. split; [done|]. destruct (Z.ltb_spec 0 (r + n)).
        - rewrite Z.quot_div_nonneg; [|lia..].
          pose proof (Z.div_mod (r + n) (@SS SZ) ltac:(lia)). pose proof (Z.mod_pos_bound (r + n) (@SS SZ) ltac:(lia)). lia.
        - rewrite Z.quot_div_nonneg; [|lia..].
          pose proof (Z.div_mod (- (r + n) - 1) (@SS SZ) ltac:(lia)).
          pose proof (Z.mod_pos_bound (- (r + n) - 1) (@SS SZ) ltac:(lia)). lia. }
      pose proof (seg_bound (SZ:=SZ) (i + n) (k + m) (r + n - m * @SS SZ) (Z.of_nat (length segs)) ltac:(nia) ltac:(lia) ltac:(lia)).
      wbind. iApply (wp_read_tbl _ _ (k + m) with "Ht"); [by rewrite loc_add_assoc|lia|].
      iIntros "Ht". wbeta. iApply wp_ret.
      rewrite (sitr_at _ _ (i + n) (k + m) (r + n - m * SS)); [|lia..]. rewrite !loc_add_assoc. by iApply "HQ".
  Qed.
  Lemma wp_it_minus t segs i n s Q X :
    0 <= i < slots segs -> 0 <= i - n < slots segs ->
    table t segs ⊢ (table t segs -∗ Q (sitr t segs (i - n)) s) -∗ wp (it_minus (sitr t segs i) n) s Q X.
  Proof. intros H1 H2. unfold it_minus. by apply wp_it_add. Qed.
  Lemma wp_it_index t segs i n s Q X :
    0 <= i < slots segs -> 0 <= i + n < slots segs ->
    table t segs ⊢ (table t segs -∗ Q (saddr segs (i + n)) s) -∗ wp (it_index (sitr t segs i) n) s Q X.
  Proof.
    iIntros (H1 H2) "Ht HQ". unfold it_index. wbind. iApply (wp_it_add with "Ht"); [done..|].
    iIntros "Ht". wbeta. iApply wp_ret. by iApply "HQ".
  Qed.
  Lemma wp_it_diff t segs i j s Q X :
    0 <= i < slots segs -> 0 <= j < slots segs ->
    table t segs ⊢ (table t segs -∗ Q (i - j) s) -∗ wp (it_diff (sitr t segs i) (sitr t segs j)) s Q X.
  Proof.
    iIntros (Hi Hj) "Ht HQ". unfold slots in Hi, Hj.
    destruct (pos_split i) as (k & r & Hk & Hr). destruct (pos_split j) as (k2 & r2 & Hk2 & Hr2).
    pose proof (seg_bound i k r (Z.of_nat (length segs)) Hk Hr ltac:(lia)) as Hkb.
    pose proof (seg_bound j k2 r2 (Z.of_nat (length segs)) Hk2 Hr2 ltac:(lia)) as Hkb2.
    rewrite (sitr_at _ _ i k r) // (sitr_at _ _ j k2 r2) //. unfold it_diff. simpl.
    wbind. iApply (wp_psub _ _ (k - k2)); [rewrite loc_add_assoc; f_equal; lia|]. wbeta.
    wbind. iApply (wp_read_tbl with "Ht"); [done|lia|]. iIntros "Ht". wbeta.
    wbind. iApply wp_psub; [done|]. wbeta.
    wbind. iApply (wp_read_tbl with "Ht"); [done|lia|]. iIntros "Ht". wbeta.
    wbind. iApply wp_psub; [done|]. wbeta.
    iApply wp_ret. replace ((k - k2) * SS + r - r2) with (i - j) by lia. by iApply "HQ".
  Qed.
  Lemma wp_it_ltb t segs i j s Q X :
    Q (i <? j) s ⊢ wp (it_ltb (sitr t segs i) (sitr t segs j)) s Q X.
  Proof.
    iIntros "HQ". destruct (pos_split i) as (k & r & Hk & Hr). destruct (pos_split j) as (k2 & r2 & Hk2 & Hr2).
    rewrite (sitr_at _ _ i k r) // (sitr_at _ _ j k2 r2) //. unfold it_ltb. simpl.
    rewrite loc_eqb_add. pose proof SS_pos. destruct (Z.eqb_spec k k2) as [->|Hne].
    - wbind. iApply (wp_psub _ _ (r2 - r)); [rewrite loc_add_assoc; f_equal; lia|]. wbeta. iApply wp_ret.
      by replace (0 <? r2 - r) with (i <? j) by lia.
    - wbind. iApply (wp_psub _ _ (k2 - k)); [rewrite loc_add_assoc; f_equal; lia|]. wbeta. iApply wp_ret.
      replace (0 <? k2 - k) with (i <? j); [done|].
      destruct (Z.ltb_spec 0 (k2 - k)); [apply Z.ltb_lt|apply Z.ltb_ge]; nia.
  Qed.
  Lemma wp_compose t segs k l i s Q X :
    0 <= k -> k * SS <= i <= (k + 1) * SS -> 0 <= i < slots segs ->
    l = (segs !!! Z.to_nat k) +ₗ (i - k * SS) ->
    table t segs ⊢ (table t segs -∗ Q (sitr t segs i) s) -∗ wp (seg_compose (t +ₗ k) l) s Q X.
  Proof.
    iIntros (Hk Hi Hb ->) "Ht HQ". unfold slots in Hb. pose proof SS_pos. unfold seg_compose. wbind.
    assert (0 <= k < Z.of_nat (length segs)) as Hkb by nia.
    iApply (wp_read_tbl with "Ht"); [done|lia|]. iIntros "Ht". wbeta.
    wbind. iApply wp_psub; [done|]. wbeta. wbind. iApply wp_assert; [lia|]. wbeta.
    rewrite loc_eqb_add. destruct (Z.eqb_spec (i - k * SS) SS) as [He|He].
    - wbind. iApply (wp_read_tbl _ _ (k + 1) with "Ht"); [by rewrite loc_add_assoc|nia|].
      iIntros "Ht". wbeta. iApply wp_ret.
      rewrite (sitr_at _ _ i (k + 1) 0); [|lia..]. rewrite loc_add_0 loc_add_assoc. by iApply "HQ".
    - iApply wp_ret. rewrite (sitr_at _ _ i k (i - k * SS)); [|lia..]. by iApply "HQ".
  Qed.
End rules.
