(** * Proof rules for the loops over segments

    Each rule reduces a loop to what is done for one contiguous piece of
    storage.  [I x] is the state when everything before position [x] has been
    dealt with, [XI x] the state in which the piece starting at [x] may fail,
    [J] the state after the catch block. *)

From Verif Require Export SegIter.
From Coq Require Import ZifyBool.
From iris.proofmode Require Import tactics.
Open Scope Z_scope.

Definition keeps `{Env} {St A} (s : St) (P : A -> hProp) : A -> St -> hProp :=
  fun a s' => (⟦s' = s⟧ ∗ P a)%I.
Definition fails `{Env} {St} (s : St) (P : hProp) : exn -> St -> hProp :=
  fun e s' => (⟦e = EUser /\ s' = s⟧ ∗ P)%I.

Section loops.
  Context `{E : Env} `{SZ : SegSize}.
  Context {St : Type}.
  Implicit Types s : St.
  Implicit Types segs : list loc.

  Lemma wp_use {A} (P : hProp) (m : M St A) s R XJ Q X :
    (P ⊢ wp m s (keeps s R) (fails s XJ)) ->
    P ⊢ ((∀ a, R a -∗ Q a s) ∧ (XJ -∗ X EUser s)) -∗ wp m s Q X.
  Proof.
    intros HP. iIntros "HP HK". iApply (wp_wand with "[HP]"); [by iApply HP|]. iSplit.
    - iIntros (a s') "[%Hs H]". subst s'. iDestruct "HK" as "[HK _]". by iApply "HK".
    - iIntros (e s') "[%Hs H]". destruct Hs as [-> ->]. iDestruct "HK" as "[_ HK]". by iApply "HK".
  Qed.
  (** A handler that does not throw. *)
  Lemma wp_undo (P : hProp) (m : M St unit) s (J : hProp) Q X :
    (P ⊢ wp m s (keeps s (fun _ => J)) (fun _ _ => False)%I) ->
    P ⊢ (J -∗ Q tt s) -∗ wp m s Q X.
  Proof.
    intros HP. iIntros "HP HK". iApply (wp_wand with "[HP]"); [by iApply HP|]. iSplit.
    - iIntros ([] s') "[%Hs H]". subst s'. by iApply "HK".
    - by iIntros (e s') "[]".
  Qed.

  Section each.
    Context (inner : loc -> loc -> M St unit) (h : loc -> M St unit) (t : loc) segs (a b : Z).
    Context (I XI : Z -> hProp) (J : hProp) (s : St).

    Definition each_piece : Prop := forall x y p,
      a <= x -> x <= y -> y <= b -> contig (saddr segs) x y p ->
      table t segs ∗ I x ⊢
      wp (inner p (p +ₗ (y - x))) s (keeps s (fun _ => table t segs ∗ I y)%I) (fails s (table t segs ∗ XI x)).
    Definition each_undo : Prop := forall k,
      0 <= k -> a <= k * SS -> k * SS <= b -> k * SS < slots segs ->
      table t segs ∗ XI (k * SS) ⊢
      wp (h (t +ₗ k)) s (keeps s (fun _ => table t segs ∗ J)%I) (fun _ _ => False)%I.

    Lemma wp_each_loop n k :
      each_piece -> each_undo -> 0 <= k -> a <= k * SS -> (k + Z.of_nat n) * SS <= b -> b < slots segs ->
      table t segs ∗ I (k * SS) ⊢
      wp (each_loop inner h n (t +ₗ k)) s (keeps s (fun _ => table t segs ∗ I ((k + Z.of_nat n) * SS))%I)
        (fails s (table t segs ∗ J)).
    Proof.
      intros Hp Hu. pose proof SS_pos. induction n as [|n IH] in k |- *; intros Hk Ha Hb Hs; simpl.
      { iIntros "H". iApply wp_ret. replace (k + Z.of_nat 0) with k by lia. iFrame. done. }
      unfold slots in *.
      assert (k < Z.of_nat (length segs)) as Hkb by nia.
      assert ((k + 1) * SS <= b) as Hk1 by nia.
      iIntros "[Ht HI]". wbind. iApply (wp_read_tbl with "Ht"); [done|lia|]. iIntros "Ht". wbeta.
      wbind. iApply wp_try. iCombine "Ht HI" as "H".
      replace ((segs !!! Z.to_nat k) +ₗ SS) with ((segs !!! Z.to_nat k) +ₗ ((k + 1) * SS - k * SS)) by (f_equal; lia).
      iApply (wp_use with "H").
      { apply Hp; [lia|lia|lia|]. pose proof (saddr_contig segs k (k * SS) ((k + 1) * SS)) as Hc.
        rewrite Z.sub_diag loc_add_0 in Hc. apply Hc; lia. }
      iSplit.
      - iIntros (?) "H". wbeta. rewrite loc_add_assoc.
        replace (k + Z.of_nat (S n)) with (k + 1 + Z.of_nat n) by lia. iApply IH; [lia|lia| |done|done].
        nia.
      - iIntros "H". iApply (wp_undo with "H"); [apply Hu; unfold slots; lia|].
        iIntros "H". iFrame. done.
    Qed.

    Lemma wp_seg_each :
      each_piece -> each_undo -> (XI a ⊢ J) -> 0 <= a -> a <= b -> b < slots segs ->
      table t segs ∗ I a ⊢
      wp (seg_each inner h (sitr t segs a) (sitr t segs b)) s
        (keeps s (fun _ => table t segs ∗ I b)%I) (fails s (table t segs ∗ J)).
    Proof.
      intros Hp Hu HJ Ha Hab Hb. pose proof SS_pos.
      destruct (pos_split a) as (k & r & Hk & Hr). destruct (pos_split b) as (k2 & r2 & Hk2 & Hr2).
      pose proof (seg_bound a k r (Z.of_nat (length segs)) Hk Hr ltac:(unfold slots in *; lia)) as Hkb.
      pose proof (seg_bound b k2 r2 (Z.of_nat (length segs)) Hk2 Hr2 ltac:(unfold slots in *; lia)) as Hkb2.
      assert (k <= k2) as Hkk by nia.
      rewrite (sitr_at _ _ a k r) // (sitr_at _ _ b k2 r2) //. unfold seg_each. simpl.
      rewrite loc_eqb_add. destruct (Z.eqb_spec k k2) as [He|Hne].
      - iIntros "H".
        replace ((segs !!! Z.to_nat k2) +ₗ r2) with ((segs !!! Z.to_nat k) +ₗ r +ₗ (b - a)).
        2:{ rewrite loc_add_assoc He. f_equal. subst k2. lia. }
        iApply (wp_use with "H").
        { apply Hp; [lia|lia|lia|]. replace r with (a - k * SS) by lia. apply saddr_contig; [lia|]. subst k2. lia. }
        iSplit; [iIntros (?) "H"; iFrame; done|]. iIntros "[$ H]". rewrite HJ. iFrame. done.
      - assert ((k + 1) * SS <= b) as Hb1 by nia.
        iIntros "[Ht HI]". wbind. iApply (wp_read_tbl with "Ht"); [done|lia|]. iIntros "Ht". wbeta.
        wbind. iCombine "Ht HI" as "H".
        replace ((segs !!! Z.to_nat k) +ₗ SS) with ((segs !!! Z.to_nat k) +ₗ r +ₗ ((k + 1) * SS - a)).
        2:{ rewrite loc_add_assoc. f_equal. lia. }
        iApply (wp_use with "H").
        { apply Hp; [lia|lia|lia|]. replace r with (a - k * SS) by lia. apply saddr_contig; lia. }
        iSplit; [|iIntros "[$ H]"; rewrite HJ; iFrame; done].
        iIntros (?) "H". wbeta. wbind. iApply wp_range_len; [done|simpl; lia|]. simpl. wbeta.
        replace (t.2 + k2 - (t.2 + k + 1)) with (k2 - (k + 1)) by lia. rewrite loc_add_assoc.
        wbind. iApply (wp_use with "H"); [apply wp_each_loop; [done|done|lia|lia| |done]|].
        { replace (k + 1 + Z.of_nat (Z.to_nat (k2 - (k + 1)))) with k2 by lia. lia. }
        replace (k + 1 + Z.of_nat (Z.to_nat (k2 - (k + 1)))) with k2 by lia.
        iSplit; [|iIntros "H"; iFrame; done].
        iIntros (?) "[Ht HI]". wbeta. wbind. iApply (wp_read_tbl with "Ht"); [done|lia|]. iIntros "Ht". wbeta.
        iApply wp_try. iCombine "Ht HI" as "H".
        replace r2 with (b - k2 * SS) by lia.
        iApply (wp_use with "H").
        { apply Hp; [nia|lia|lia|]. pose proof (saddr_contig segs k2 (k2 * SS) b) as Hc.
          rewrite Z.sub_diag loc_add_0 in Hc. apply Hc; lia. }
        iSplit; [iIntros (?) "H"; iFrame; done|]. iIntros "H".
        iApply (wp_undo with "H"); [apply Hu; [lia|nia|lia|lia]|].
        iIntros "H". iFrame. done.
    Qed.
  End each.

  Section each_n.
    Context (inner : loc -> nat -> M St loc) (h : Z -> M St unit) (t : loc) segs (a e : Z).
    Context (I XI : Z -> hProp) (J : hProp) (s : St).

    Definition each_n_piece : Prop := forall x (n : nat) p,
      a <= x -> x + Z.of_nat n <= e -> contig (saddr segs) x (x + Z.of_nat n) p ->
      table t segs ∗ I x ⊢
      wp (inner p n) s (keeps s (fun r => ⟦r = p +ₗ Z.of_nat n⟧ ∗ table t segs ∗ I (x + Z.of_nat n))%I)
        (fails s (table t segs ∗ XI x)).
    Definition each_n_undo : Prop := forall x,
      a <= x -> x <= e ->
      table t segs ∗ XI x ⊢
      wp (h (e - x)) s (keeps s (fun _ => table t segs ∗ J)%I) (fun _ _ => False)%I.

    Lemma wp_each_n_loop fuel k x l :
      each_n_piece -> each_n_undo -> 0 <= k -> k * SS <= x -> x < (k + 1) * SS ->
      a <= x -> x <= e -> e < slots segs -> e - x < Z.of_nat fuel -> l = (segs !!! Z.to_nat k) +ₗ (x - k * SS) ->
      table t segs ∗ I x ⊢
      wp (each_n_loop inner h fuel (t +ₗ k) l (e - x)) s
        (keeps s (fun r => ⟦r = sitr t segs e⟧ ∗ table t segs ∗ I e)%I) (fails s (table t segs ∗ J)).
    Proof.
      intros Hp Hu. pose proof SS_pos. unfold slots.
      induction fuel as [|fuel IH] in k, x, l |- *; intros Hk Hx1 Hx2 Hax Hxe He Hf ->; simpl; [lia|].
      assert (k < Z.of_nat (length segs)) as Hkb by nia.
      iIntros "[Ht HI]". wbind. iApply (wp_read_tbl with "Ht"); [done|lia|]. iIntros "Ht". wbeta.
      wbind. iApply (wp_psub _ _ ((k + 1) * SS - x)); [rewrite loc_add_assoc; f_equal; lia|]. wbeta.
      set (c := Z.to_nat (Z.min (e - x) ((k + 1) * SS - x))).
      replace (Z.min (e - x) ((k + 1) * SS - x)) with (Z.of_nat c) by lia.
      assert (x + Z.of_nat c <= e) as Hc1 by lia. assert (x + Z.of_nat c <= (k + 1) * SS) as Hc2 by lia.
      assert (x + Z.of_nat c = e \/ x + Z.of_nat c = (k + 1) * SS) as Hc3 by lia. clearbody c.
      wbind. iApply wp_try. iCombine "Ht HI" as "H".
      iApply (wp_use with "H"); [apply Hp; [lia|lia|]; apply saddr_contig; lia|]. iSplit.
      - iIntros (l') "(%Hl' & H)". subst l'. wbeta. wbind. iApply wp_assert; [lia|]. wbeta.
        destruct (Z.eqb_spec (e - x - Z.of_nat c) 0) as [Hz|Hz].
        + iDestruct "H" as "[Ht HI]". replace (x + Z.of_nat c) with e by lia.
          iApply (wp_compose _ _ _ _ e with "Ht"); [lia|lia|unfold slots; lia|rewrite loc_add_assoc; f_equal; lia|].
          iIntros "Ht". iFrame. done.
        + destruct Hc3 as [Hc3|Hc3]; [lia|].
          iDestruct "H" as "[Ht HI]". wbind.
          iApply (wp_read_tbl _ _ (k + 1) with "Ht"); [by rewrite loc_add_assoc|nia|]. iIntros "Ht". wbeta.
          rewrite loc_add_assoc. replace (e - x - Z.of_nat c) with (e - (x + Z.of_nat c)) by lia.
          iApply IH; [lia|lia|lia|lia|lia|lia|lia| |iFrame].
          rewrite -{1}(loc_add_0 (segs !!! Z.to_nat (k + 1))). f_equal. lia.
      - iIntros "H". iApply (wp_undo with "H"); [apply Hu; lia|]. iIntros "H". iFrame. done.
    Qed.
    Lemma wp_seg_each_n n :
      each_n_piece -> each_n_undo -> 0 <= a -> a + Z.of_nat n = e -> e < slots segs ->
      table t segs ∗ I a ⊢
      wp (seg_each_n inner h (sitr t segs a) n) s
        (keeps s (fun r => ⟦r = sitr t segs e⟧ ∗ table t segs ∗ I e)%I) (fails s (table t segs ∗ J)).
    Proof.
      intros Hp Hu Ha He Hs. destruct (pos_split a) as (k & r & Hk & Hr). pose proof SS_pos.
      pose proof (seg_bound a k r (Z.of_nat (length segs)) Hk Hr ltac:(unfold slots in *; lia)) as Hkb.
      rewrite (sitr_at _ _ a k r) //. unfold seg_each_n. cbn [it_seg it_loc].
      replace (Z.of_nat n) with (e - a) by lia.
      apply wp_each_n_loop; [done|done|lia|lia|lia|lia|lia|done|lia|f_equal; lia].
    Qed.
  End each_n.

  Section out.
    Context (inner : list arg -> loc -> M St loc) (h : loc -> loc -> M St unit) (t : loc) segs (d : Z).
    Context (srcs : list arg) (I XI : nat -> hProp) (J : hProp) (s : St).

    Definition out_piece : Prop := forall (j c : nat) p,
      (j + c <= length srcs)%nat -> contig (saddr segs) (d + Z.of_nat j) (d + Z.of_nat j + Z.of_nat c) p ->
      table t segs ∗ I j ⊢
      wp (inner (take c (drop j srcs)) p) s
        (keeps s (fun r => ⟦r = p +ₗ Z.of_nat c⟧ ∗ table t segs ∗ I (j + c)%nat)%I)
        (fails s (table t segs ∗ XI j)).
    Definition out_undo : Prop := forall (j : nat) k,
      (j <= length srcs)%nat -> 0 <= k -> k * SS <= d + Z.of_nat j -> d + Z.of_nat j < (k + 1) * SS ->
      table t segs ∗ XI j ⊢
      wp (h (t +ₗ k) ((segs !!! Z.to_nat k) +ₗ (d + Z.of_nat j - k * SS))) s
        (keeps s (fun _ => table t segs ∗ J)%I) (fun _ _ => False)%I.

    Lemma wp_out_loop fuel k (j : nat) l :
      out_piece -> out_undo -> 0 <= k -> k * SS <= d + Z.of_nat j -> d + Z.of_nat j < (k + 1) * SS ->
      (j < length srcs)%nat -> d + Z.of_nat (length srcs) < slots segs ->
      (length srcs - j <= fuel)%nat -> l = (segs !!! Z.to_nat k) +ₗ (d + Z.of_nat j - k * SS) ->
      table t segs ∗ I j ⊢
      wp (out_loop inner h fuel (drop j srcs) (t +ₗ k) l) s
        (keeps s (fun r => ⟦r = sitr t segs (d + Z.of_nat (length srcs))⟧ ∗ table t segs ∗ I (length srcs))%I)
        (fails s (table t segs ∗ J)).
    Proof.
      intros Hp Hu. pose proof SS_pos. unfold slots.
      induction fuel as [|fuel IH] in k, j, l |- *; intros Hk Hx1 Hx2 Hj He Hf ->; simpl; [lia|].
      assert (k < Z.of_nat (length segs)) as Hkb by nia.
      iIntros "[Ht HI]". wbind. iApply (wp_read_tbl with "Ht"); [done|lia|]. iIntros "Ht". wbeta.
      wbind. iApply (wp_psub _ _ ((k + 1) * SS - (d + Z.of_nat j))); [rewrite loc_add_assoc; f_equal; lia|]. wbeta.
      rewrite drop_length.
      set (c := Z.to_nat (Z.min (Z.of_nat (length srcs - j)) ((k + 1) * SS - (d + Z.of_nat j)))).
      assert ((j + c <= length srcs)%nat) as Hc1 by lia.
      assert (d + Z.of_nat j + Z.of_nat c <= (k + 1) * SS) as Hc2 by lia.
      assert ((j + c = length srcs)%nat \/ d + Z.of_nat j + Z.of_nat c = (k + 1) * SS) as Hc3 by lia.
      assert (0 < c)%nat as Hc4 by lia. clearbody c.
      wbind. iApply wp_try. iCombine "Ht HI" as "H".
      iApply (wp_use with "H"); [apply Hp; [done|]; apply saddr_contig; lia|]. iSplit.
      - iIntros (l') "(%Hl' & H)". subst l'. wbeta. rewrite drop_drop.
        destruct (drop (j + c) srcs) as [|x rest] eqn:Hd.
        + assert (length (drop (j + c) srcs) = 0)%nat as Hd0 by by rewrite Hd.
          rewrite drop_length in Hd0. assert (j + c = length srcs)%nat as <- by lia.
          iDestruct "H" as "[Ht HI]".
          iApply (wp_compose _ _ _ _ (d + Z.of_nat (j + c)) with "Ht");
            [lia|lia|unfold slots; nia|rewrite loc_add_assoc; f_equal; lia|].
          iIntros "Ht". iFrame. done.
        + assert (length (drop (j + c) srcs) <> 0)%nat as Hd0 by by rewrite Hd.
          rewrite drop_length in Hd0. rewrite -Hd. destruct Hc3 as [Hc3|Hc3]; [lia|].
          iDestruct "H" as "[Ht HI]". wbind.
          iApply (wp_read_tbl _ _ (k + 1) with "Ht"); [by rewrite loc_add_assoc|nia|]. iIntros "Ht". wbeta.
          rewrite loc_add_assoc.
          iApply IH; [lia|lia|lia|lia|lia|lia| |iFrame].
          rewrite -{1}(loc_add_0 (segs !!! Z.to_nat (k + 1))). f_equal. lia.
      - iIntros "H". iApply (wp_undo with "H"); [apply Hu; lia|]. iIntros "H". iFrame. done.
    Qed.
    Lemma wp_seg_out :
      out_piece -> out_undo -> 0 <= d -> d + Z.of_nat (length srcs) < slots segs ->
      table t segs ∗ I 0%nat ⊢
      wp (seg_out inner h srcs (sitr t segs d)) s
        (keeps s (fun r => ⟦r = sitr t segs (d + Z.of_nat (length srcs))⟧ ∗ table t segs ∗ I (length srcs))%I)
        (fails s (table t segs ∗ J)).
    Proof.
      intros Hp Hu Hd Hs. unfold seg_out. destruct srcs as [|x0 srcs'] eqn:Hsr.
      { simpl. iIntros "H". iApply wp_ret. rewrite Z.add_0_r. iFrame. iSplit; done. }
      rewrite -Hsr. rewrite -Hsr in Hs. destruct (pos_split d) as (k & r & Hk & Hr). pose proof SS_pos.
      pose proof (seg_bound d k r (Z.of_nat (length segs)) Hk Hr ltac:(unfold slots in *; lia)) as Hkb.
      rewrite {1}(sitr_at _ _ d k r) //. cbn [it_seg it_loc].
      assert (0 < length srcs)%nat as Hpos by (rewrite Hsr; simpl; lia). clear Hsr x0 srcs'.
      change (out_loop inner h (length srcs) srcs) with (out_loop inner h (length srcs) (drop 0 srcs)).
      apply wp_out_loop; [done|done|lia|lia|lia|done|done|lia|idtac]. rewrite sitr_loc (saddr_at _ d k r) //. f_equal. lia.
    Qed.
  End out.

  Section in_.
    Context (inner : loc -> loc -> sit -> M St sit) (h : sit -> M St unit) (t : loc) segs (a b : Z).
    Context (dit : Z -> sit) (I XI : Z -> hProp) (J : hProp) (s : St).

    Definition in_piece : Prop := forall x y p,
      a <= x -> x <= y -> y <= b -> contig (saddr segs) x y p ->
      table t segs ∗ I x ⊢
      wp (inner p (p +ₗ (y - x)) (dit x)) s (keeps s (fun r => ⟦r = dit y⟧ ∗ table t segs ∗ I y)%I)
        (fails s (table t segs ∗ XI x)).
    Definition in_undo : Prop := forall x,
      a <= x -> x <= b ->
      table t segs ∗ XI x ⊢
      wp (h (dit x)) s (keeps s (fun _ => table t segs ∗ J)%I) (fun _ _ => False)%I.

    Lemma wp_in_loop n k :
      in_piece -> in_undo -> 0 <= k -> a <= k * SS -> (k + Z.of_nat n) * SS <= b -> b < slots segs ->
      table t segs ∗ I (k * SS) ⊢
      wp (in_loop inner h n (t +ₗ k) (dit (k * SS))) s
        (keeps s (fun r => ⟦r = dit ((k + Z.of_nat n) * SS)⟧ ∗ table t segs ∗ I ((k + Z.of_nat n) * SS))%I)
        (fails s (table t segs ∗ J)).
    Proof.
      intros Hp Hu. pose proof SS_pos. induction n as [|n IH] in k |- *; intros Hk Ha Hb Hs; simpl.
      { iIntros "H". iApply wp_ret. replace (k + Z.of_nat 0) with k by lia. iFrame. iSplit; done. }
      unfold slots in *.
      assert (k < Z.of_nat (length segs)) as Hkb by nia.
      assert ((k + 1) * SS <= b) as Hk1 by nia.
      iIntros "[Ht HI]". wbind. iApply (wp_read_tbl with "Ht"); [done|lia|]. iIntros "Ht". wbeta.
      wbind. iApply wp_try. iCombine "Ht HI" as "H".
      replace ((segs !!! Z.to_nat k) +ₗ SS) with ((segs !!! Z.to_nat k) +ₗ ((k + 1) * SS - k * SS)) by (f_equal; lia).
      iApply (wp_use with "H").
      { apply Hp; [lia|lia|lia|]. pose proof (saddr_contig segs k (k * SS) ((k + 1) * SS)) as Hc.
        rewrite Z.sub_diag loc_add_0 in Hc. apply Hc; lia. }
      iSplit.
      - iIntros (r) "[%Hr H]". subst r. wbeta. rewrite loc_add_assoc.
        replace (k + Z.of_nat (S n)) with (k + 1 + Z.of_nat n) by lia. iApply IH; [lia|lia| |done|done].
        nia.
      - iIntros "H". iApply (wp_undo with "H"); [apply Hu; lia|].
        iIntros "H". iFrame. done.
    Qed.

    Lemma wp_seg_in :
      in_piece -> in_undo -> (XI a ⊢ J) -> 0 <= a -> a <= b -> b < slots segs ->
      table t segs ∗ I a ⊢
      wp (seg_in inner h (sitr t segs a) (sitr t segs b) (dit a)) s
        (keeps s (fun r => ⟦r = dit b⟧ ∗ table t segs ∗ I b)%I) (fails s (table t segs ∗ J)).
    Proof.
      intros Hp Hu HJ Ha Hab Hb. pose proof SS_pos.
      destruct (pos_split a) as (k & r & Hk & Hr). destruct (pos_split b) as (k2 & r2 & Hk2 & Hr2).
      pose proof (seg_bound a k r (Z.of_nat (length segs)) Hk Hr ltac:(unfold slots in *; lia)) as Hkb.
      pose proof (seg_bound b k2 r2 (Z.of_nat (length segs)) Hk2 Hr2 ltac:(unfold slots in *; lia)) as Hkb2.
      assert (k <= k2) as Hkk by nia.
      rewrite (sitr_at _ _ a k r) // (sitr_at _ _ b k2 r2) //. unfold seg_in. simpl.
      rewrite loc_eqb_add. destruct (Z.eqb_spec k k2) as [He|Hne].
      - iIntros "H".
        replace ((segs !!! Z.to_nat k2) +ₗ r2) with ((segs !!! Z.to_nat k) +ₗ r +ₗ (b - a)).
        2:{ rewrite loc_add_assoc He. f_equal. subst k2. lia. }
        iApply (wp_use with "H").
        { apply Hp; [lia|lia|lia|]. replace r with (a - k * SS) by lia. apply saddr_contig; [lia|]. subst k2. lia. }
        iSplit; [iIntros (r') "H"; iFrame; done|]. iIntros "[$ H]". rewrite HJ. iFrame. done.
      - assert ((k + 1) * SS <= b) as Hb1 by nia.
        iIntros "[Ht HI]". wbind. iApply (wp_read_tbl with "Ht"); [done|lia|]. iIntros "Ht". wbeta.
        wbind. iCombine "Ht HI" as "H".
        replace ((segs !!! Z.to_nat k) +ₗ SS) with ((segs !!! Z.to_nat k) +ₗ r +ₗ ((k + 1) * SS - a)).
        2:{ rewrite loc_add_assoc. f_equal. lia. }
        iApply (wp_use with "H").
        { apply Hp; [lia|lia|lia|]. replace r with (a - k * SS) by lia. apply saddr_contig; lia. }
        iSplit; [|iIntros "[$ H]"; rewrite HJ; iFrame; done].
        iIntros (d) "[%Hd H]". subst d. wbeta. wbind. iApply wp_range_len; [done|simpl; lia|]. simpl. wbeta.
        replace (t.2 + k2 - (t.2 + k + 1)) with (k2 - (k + 1)) by lia. rewrite loc_add_assoc.
        wbind. iApply (wp_use with "H"); [apply wp_in_loop; [done|done|lia|lia| |done]|].
        { replace (k + 1 + Z.of_nat (Z.to_nat (k2 - (k + 1)))) with k2 by lia. lia. }
        replace (k + 1 + Z.of_nat (Z.to_nat (k2 - (k + 1)))) with k2 by lia.
        iSplit; [|iIntros "H"; iFrame; done].
        iIntros (d) "(%Hd & Ht & HI)". subst d. wbeta. wbind.
        iApply (wp_read_tbl with "Ht"); [done|lia|]. iIntros "Ht". wbeta.
        iApply wp_try. iCombine "Ht HI" as "H".
        replace r2 with (b - k2 * SS) by lia.
        iApply (wp_use with "H").
        { apply Hp; [nia|lia|lia|]. pose proof (saddr_contig segs k2 (k2 * SS) b) as Hc.
          rewrite Z.sub_diag loc_add_0 in Hc. apply Hc; lia. }
        iSplit; [iIntros (r') "H"; iFrame; done|]. iIntros "H".
        iApply (wp_undo with "H"); [apply Hu; [nia|lia]|].
        iIntros "H". iFrame. done.
    Qed.
  End in_.
End loops.
