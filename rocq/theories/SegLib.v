(** * Segmented containers: rules for the pieces the member functions are made of *)

From Verif Require Export SegGrow SegShift ContigLib.
From Verif Require DevShift DevProofs.
From Coq Require Import ZifyBool.
From iris.proofmode Require Import environments tactics.
Open Scope Z_scope.

Notation spread := DevShift.spread.
Notation Spread := DevShift.Spread.

(** ** Contents given by position, and lists *)
Section lists.
  Context `{E : Env}.
  Implicit Types f g : Z -> option V.

  Lemma at_pos_app p l1 l2 i :
    at_pos p (l1 ++ l2) i = if i <? p + zlen l1 then at_pos p l1 i else at_pos (p + zlen l1) l2 i.
  Proof.
    destruct (Z.ltb_spec i (p + zlen l1)) as [Hi|Hi].
    - destruct (decide (p <= i)) as [Hp|Hp].
      + rewrite !at_pos_in; [|len; lia..]. rewrite lookup_app_l; [done|lia].
      + rewrite !at_pos_out; [done|len; lia..].
    - destruct (decide (i < p + zlen l1 + zlen l2)) as [Hp|Hp].
      + rewrite !at_pos_in; [|len; lia..]. rewrite lookup_app_r; [|lia]. f_equal. lia.
      + rewrite !at_pos_out; [done|len; lia..].
  Qed.
  Lemma at_pos_take p l k i : 0 <= k -> i < p + k -> at_pos p (take (Z.to_nat k) l) i = at_pos p l i.
  Proof.
    intros Hk Hi. destruct (decide (p <= i < p + zlen l)) as [Hp|Hp].
    - rewrite !at_pos_in; [|len; lia..]. rewrite lookup_take; [done|lia].
    - rewrite !at_pos_out; [done|len; lia..].
  Qed.
  Lemma at_pos_drop p l k i q : 0 <= k -> q <= i -> at_pos q (drop (Z.to_nat k) l) i = at_pos p l (i - q + p + k).
  Proof.
    intros Hk Hq. destruct (decide (i - q + k < zlen l)) as [Hi|Hi].
    - rewrite !at_pos_in; [|len; lia..]. rewrite lookup_drop. f_equal. lia.
    - rewrite !at_pos_out; [done|len; lia..].
  Qed.
  Lemma alive_list p m f :
    0 <= m -> (forall i, live f i = within p (p + m) i) ->
    exists l, zlen l = m /\ forall i, f i = at_pos p l i.
  Proof.
    intros Hm Hl. destruct (live_list f p (p + m)) as (l & Hlen & Hf).
    { lia. }
    { intros i Hi. rewrite Hl. unfold within. lia. }
    exists l. split; [lia|]. intros i. destruct (decide (p <= i < p + m)) as [Hi|Hi].
    - rewrite at_pos_in; [|lia]. by apply Hf.
    - rewrite at_pos_out; [|lia]. apply live_false. rewrite Hl. unfold within. lia.
  Qed.

  (** Elements stored right behind or right before the others. *)
  Lemma stored_back p l vs f :
    stored (p + zlen l) vs (at_pos p l) f -> forall i, f i = at_pos p (l ++ vs) i.
  Proof.
    intros [Hd Hr Hl] i. rewrite at_pos_app. destruct (Z.ltb_spec i (p + zlen l)).
    - rewrite Hr; [done|lia].
    - destruct (decide (i < p + zlen l + zlen vs)).
      + rewrite Hd; [|lia]. rewrite at_pos_in; [done|lia].
      + rewrite Hr; [|lia]. rewrite !at_pos_out; [done|lia..].
  Qed.
  Lemma stored_front p l vs f q :
    q = p - zlen vs -> stored q vs (at_pos p l) f -> forall i, f i = at_pos q (vs ++ l) i.
  Proof.
    intros Hq [Hd Hr Hl] i. rewrite at_pos_app. destruct (Z.ltb_spec i (q + zlen vs)).
    - destruct (decide (q <= i)).
      + rewrite Hd; [|lia]. rewrite at_pos_in; [done|lia].
      + rewrite Hr; [|lia]. rewrite !at_pos_out; [done|lia..].
    - rewrite Hr; [|lia]. f_equal. lia.
  Qed.
  (** Elements overwritten. *)
  Lemma stored_in p l vs f k :
    0 <= k -> k + zlen vs <= zlen l -> stored (p + k) vs (at_pos p l) f ->
    forall i, f i = at_pos p (take (Z.to_nat k) l ++ vs ++ drop (Z.to_nat (k + zlen vs)) l) i.
  Proof.
    intros Hk Hb [Hd Hr Hl] i. rewrite !at_pos_app. len.
    replace (p + Z.of_nat (Z.to_nat k `min` length l)) with (p + k) by lia.
    destruct (Z.ltb_spec i (p + k)).
    - rewrite Hr; [|lia]. rewrite at_pos_take //.
    - destruct (Z.ltb_spec i (p + k + zlen vs)).
      + rewrite Hd; [|lia]. rewrite at_pos_in; [done|lia].
      + rewrite Hr; [|lia]. rewrite (at_pos_drop p); [|lia..]. f_equal. lia.
  Qed.
  (** Elements destroyed at either end. *)
  Lemma cleared_back p l k f e :
    0 <= k <= zlen l -> p + zlen l <= e -> cleared (p + k) e (at_pos p l) f ->
    forall i, f i = at_pos p (take (Z.to_nat k) l) i.
  Proof.
    intros Hk He [Hr Hl] i. destruct (decide (i < p + k)).
    - rewrite Hr; [|lia]. by rewrite at_pos_take //; lia.
    - rewrite (at_pos_out p (take _ _)); [|len; lia]. apply live_false. rewrite Hl live_at_pos. unfold within. lia.
  Qed.
  Lemma cleared_front p l k f :
    0 <= k <= zlen l -> cleared p (p + k) (at_pos p l) f ->
    forall i, f i = at_pos (p + k) (drop (Z.to_nat k) l) i.
  Proof.
    intros Hk [Hr Hl] i. destruct (decide (p + k <= i)).
    - rewrite Hr; [|lia]. rewrite (at_pos_drop p); [|lia..]. f_equal. lia.
    - rewrite (at_pos_out (p + k)); [|lia]. apply live_false. rewrite Hl live_at_pos. unfold within. lia.
  Qed.
  (** Elements erased, the ones behind moved forward. *)
  Lemma erased_back p l i j f1 f2 :
    0 <= i <= j -> j <= zlen l ->
    moved (p + j) (p + zlen l) (p + i) (at_pos p l) f1 ->
    cleared (p + i + (zlen l - j)) (p + zlen l) f1 f2 ->
    forall x, f2 x = at_pos p (take (Z.to_nat i) l ++ drop (Z.to_nat j) l) x.
  Proof.
    intros Hi Hj [Hd Hr Hl] [Hr2 Hl2] x. rewrite at_pos_app. len.
    replace (p + Z.of_nat (Z.to_nat i `min` length l)) with (p + i) by lia.
    destruct (decide (p + i + (zlen l - j) <= x < p + zlen l)) as [Hc|Hc].
    { transitivity (@None V).
      - apply live_false. rewrite Hl2. unfold within. lia.
      - destruct (Z.ltb_spec x (p + i)); [lia|]. rewrite at_pos_out; [done|len; lia]. }
    rewrite Hr2; [|lia]. destruct (Z.ltb_spec x (p + i)).
    - rewrite Hr; [|lia..]. rewrite at_pos_take //; lia.
    - destruct (decide (x < p + i + (zlen l - j))).
      + rewrite Hd; [|lia]. rewrite (at_pos_drop p); [|lia..]. f_equal. lia.
      + rewrite Hr; [|lia..]. rewrite !at_pos_out; [done|len; lia..].
  Qed.
  (** The same, the ones before moved backward. *)
  Lemma erased_front p l i j f1 f2 :
    0 <= i <= j -> j <= zlen l ->
    moved p (p + i) (p + (j - i)) (at_pos p l) f1 ->
    cleared p (p + (j - i)) f1 f2 ->
    forall x, f2 x = at_pos (p + (j - i)) (take (Z.to_nat i) l ++ drop (Z.to_nat j) l) x.
  Proof.
    intros Hi Hj [Hd Hr Hl] [Hr2 Hl2] x. rewrite at_pos_app. len.
    replace (p + (j - i) + Z.of_nat (Z.to_nat i `min` length l)) with (p + j) by lia.
    destruct (decide (p <= x < p + (j - i))) as [Hc|Hc].
    { transitivity (@None V).
      - apply live_false. rewrite Hl2. unfold within. lia.
      - destruct (Z.ltb_spec x (p + j)); [|lia]. rewrite at_pos_out; [done|len; lia]. }
    rewrite Hr2; [|lia]. destruct (Z.ltb_spec x (p + j)).
    - destruct (decide (x < p)).
      + rewrite Hr; [|lia..]. rewrite !at_pos_out; [done|len; lia..].
      + rewrite Hd; [|lia]. replace (at_pos (p + (j - i)) (take (Z.to_nat i) l) x)
          with (at_pos p (take (Z.to_nat i) l) (x - (p + (j - i)) + p)).
        2:{ rewrite -(at_pos_shift p _ (j - i)). rewrite (Z.add_comm (j - i) p). f_equal. lia. }
        rewrite at_pos_take; [done|lia..].
    - rewrite Hr; [|lia..]. rewrite (at_pos_drop p); [|lia..]. f_equal. lia.
  Qed.
End lists.

(** ** Arguments that may refer to elements of the container *)
Section args.
  Context `{E : Env} `{SZ : SegSize}.
  Implicit Types segs : list loc.

  (** Evaluating [a], while the container holds [l] from position [p], gives [v]
      and leaves [l1]. *)
  Inductive sarg segs (p : Z) (l : list V) : arg -> V -> list V -> Prop :=
    | sa_def : sarg segs p l ADef vdef l
    | sa_val v : sarg segs p l (AVal v) v l
    | sa_copy j v : l !! j = Some v -> sarg segs p l (ACopy (saddr segs (p + Z.of_nat j))) v l
    | sa_move j v : l !! j = Some v ->
        sarg segs p l (AMove (saddr segs (p + Z.of_nat j))) v (<[j := vmoved v]> l).

  Lemma sarg_length segs p l a v l1 : sarg segs p l a v l1 -> length l1 = length l.
  Proof. destruct 1; [done..|]. by rewrite insert_length. Qed.
  Lemma sarg_grow_back segs new p l a v l1 :
    0 <= p -> p + zlen l < slots segs -> sarg segs p l a v l1 -> sarg (segs ++ new) p l a v l1.
  Proof.
    intros Hp Hb. destruct 1 as [|v|j v Hj|j v Hj]; try constructor.
    - apply lookup_lt_Some in Hj as Hlt. rewrite -(saddr_app_l segs new); [by constructor|lia].
    - apply lookup_lt_Some in Hj as Hlt. rewrite -(saddr_app_l segs new); [by constructor|lia].
  Qed.
  Lemma sarg_grow_front segs new p l a v l1 :
    0 <= p -> p + zlen l < slots segs -> sarg segs p l a v l1 -> sarg (new ++ segs) (slots new + p) l a v l1.
  Proof.
    intros Hp Hb. destruct 1 as [|v|j v Hj|j v Hj]; try constructor.
    - apply lookup_lt_Some in Hj as Hlt. rewrite -(saddr_app_r new segs); [|lia]. rewrite Z.add_assoc. by constructor.
    - apply lookup_lt_Some in Hj as Hlt. rewrite -(saddr_app_r new segs); [|lia]. rewrite Z.add_assoc. by constructor.
  Qed.

  Lemma at_pos_insert p l j v i :
    (j < length l)%nat -> at_pos p (<[j := v]> l) i = upd (at_pos p l) (p + Z.of_nat j) (Some v) i.
  Proof.
    intros Hj. unfold upd. destruct (Z.eqb_spec i (p + Z.of_nat j)) as [->|Hne].
    - rewrite at_pos_in; [|len; lia]. replace (Z.to_nat (p + Z.of_nat j - p)) with j by lia. by rewrite list_lookup_insert.
    - destruct (decide (p <= i < p + zlen l)).
      + rewrite !at_pos_in; [|len; lia..]. rewrite list_lookup_insert_ne; [done|lia].
      + rewrite !at_pos_out; [done|len; lia..].
  Qed.
  Lemma at_pos_elem p l j : at_pos p l (p + Z.of_nat j) = l !! j.
  Proof.
    destruct (decide (j < length l)%nat).
    - rewrite at_pos_in; [|lia]. f_equal. lia.
    - rewrite at_pos_out; [|lia]. by rewrite lookup_ge_None_2; [|lia].
  Qed.

  Lemma sarg_mk t segs p l a v l1 :
    0 <= p -> p + zlen l < slots segs -> sarg segs p l a v l1 ->
    mk_ok (∃ l', ⟦arg_exn a l l'⟧ ∗ swin t segs (at_pos p l')) (swin t segs (at_pos p l)) a v
          (swin t segs (at_pos p l1)).
  Proof.
    intros Hp Hb. destruct 1 as [|v|j v Hj|j v Hj].
    - eapply mk_ok_conseq; [apply mk_ok_def|done|done|]. iIntros "H". iExists l. iFrame. done.
    - eapply mk_ok_conseq; [apply mk_ok_val|done|done|]. iIntros "H". iExists l. iFrame. done.
    - apply lookup_lt_Some in Hj as Hlt.
      eapply mk_ok_conseq; [eapply (mk_ok_frame _ _ _ _ _ (table t segs)); apply (win_mk_copy _ 0 (slots segs) (at_pos p l)); [|by rewrite at_pos_elem]; lia
        |iIntros "[$ $]"|iIntros "[$ $]"|]. iIntros "[H1 H2]". iExists l. by iFrame.
    - apply lookup_lt_Some in Hj as Hlt.
      eapply mk_ok_conseq; [eapply (mk_ok_frame _ _ _ _ _ (table t segs)); apply (win_mk_move _ 0 (slots segs) (at_pos p l)); [|by rewrite at_pos_elem]; lia
        |iIntros "[$ $]"| |].
      + iIntros "[H1 $]". iApply (win_eq with "H1"). intros i Hi. by rewrite at_pos_insert.
      + iIntros "[H1 H2]". iDestruct "H1" as (g') "[%Hg Hw]". destruct Hg as [Hs Hn].
        destruct (DevProofs.shaken_list _ _ _ Hs) as (l' & Hl' & Hf). iExists l'. iFrame "H2".
        iSplit; [by iPureIntro|]. iApply (win_eq with "Hw"). intros i Hi. by rewrite Hf.
  Qed.
  Lemma sarg_val segs p l a v l1 :
    sarg segs p l a v l1 -> ~ is_move a -> l1 = l.
  Proof. destruct 1; simpl; intros Hm; try done. Qed.

  (** Arguments that are only read. *)
  Definition sconst segs (p : Z) (l : list V) (a : arg) (v : V) : Prop := sarg segs p l a v l /\ ~ is_move a.
  Lemma sconst_val segs p l v : sconst segs p l (AVal v) v.
  Proof. split; [constructor|simpl; tauto]. Qed.
  Lemma sconst_grow_back segs new p l a v :
    0 <= p -> p + zlen l < slots segs -> sconst segs p l a v -> sconst (segs ++ new) p l a v.
  Proof. intros Hp Hb [H1 H2]. split; [by apply sarg_grow_back|done]. Qed.
  Lemma sconst_grow_front segs new p l a v :
    0 <= p -> p + zlen l < slots segs -> sconst segs p l a v -> sconst (new ++ segs) (slots new + p) l a v.
  Proof. intros Hp Hb [H1 H2]. split; [by apply sarg_grow_front|done]. Qed.
  Lemma sconst_app segs p l l2 a v : sconst segs p l a v -> sconst segs p (l ++ l2) a v.
  Proof.
    intros [H1 H2]. split; [|done]. destruct H1 as [|v|j v Hj|j v Hj]; [constructor..| |by destruct H2].
    constructor. by apply lookup_app_l_Some.
  Qed.
  Lemma sconst_warg segs p l a v :
    0 <= p -> p + zlen l < slots segs -> sconst segs p l a v -> warg segs (at_pos p l) a v.
  Proof.
    intros Hp Hb [H1 H2]. destruct H1 as [|v|j v Hj|j v Hj]; [left; apply mk_ok_def|left; apply mk_ok_val| |by destruct H2].
    apply lookup_lt_Some in Hj as Hlt. right. exists (p + Z.of_nat j).
    split_and!; [lia|lia|by rewrite at_pos_elem|done].
  Qed.

  Context {St : Type}.
  Implicit Types s : St.

  (** Constructing in a raw slot; the argument is evaluated first. *)
  Lemma wp_sw_construct t segs p l a v l1 d s Q X :
    sarg segs p l a v l1 -> 0 <= p -> p + zlen l < slots segs -> 0 <= d < slots segs -> ~ (p <= d < p + zlen l) ->
    swin t segs (at_pos p l) ⊢
    ((∀ f', ⟦stored d [v] (at_pos p l1) f'⟧ -∗ swin t segs f' -∗ Q tt s) ∧
     (∀ l', ⟦arg_exn a l l'⟧ -∗ swin t segs (at_pos p l') -∗ X EUser s)) -∗
    wp (construct (saddr segs d) a) s Q X.
  Proof.
    intros Ha Hp Hb Hd Hout. iIntros "[Ht Hw] HK".
    assert (live (at_pos p l) d = false) as Hld by (apply live_out; lia).
    assert (forall l', length l' = length l -> at_pos p l' d = None) as Hnone.
    { intros l' Hl'. rewrite at_pos_out; [done|lia]. }
    rewrite (win_take _ _ _ d); [|lia]. iDestruct "Hw" as "(Hw1 & Hd & Hw2)".
    assert (forall l' l'' : list V, length l' = length l -> length l'' = length l ->
      (forall i, i <> d -> at_pos p l' i = at_pos p l'' i) -> forall i, at_pos p l' i = at_pos p l'' i) as Hext.
    { intros l' l'' H1 H2 H3 i. destruct (decide (i = d)) as [->|]; [|by apply H3]. by rewrite !Hnone. }
    set (R := (fun l' : list V => table t segs ∗ win (saddr segs) 0 d (at_pos p l') ∗
                 win (saddr segs) (d + 1) (slots segs) (at_pos p l'))%I).
    assert (mk_ok (∃ l', ⟦arg_exn a l l'⟧ ∗ R l') (R l) a v (R l1)) as Hmk.
    { clear Hext. destruct Ha as [|v|j v Hj|j v Hj].
      - eapply mk_ok_conseq; [apply mk_ok_def|done|done|]. iIntros "H". iExists l. iFrame. done.
      - eapply mk_ok_conseq; [apply mk_ok_val|done|done|]. iIntros "H". iExists l. iFrame. done.
      - apply lookup_lt_Some in Hj as Hlt. unfold R.
        destruct (decide (p + Z.of_nat j < d)).
        + eapply mk_ok_conseq; [eapply (mk_ok_frame _ _ _ _ _ (table t segs ∗ win (saddr segs) (d + 1) (slots segs) (at_pos p l))); apply (win_mk_copy _ 0 d (at_pos p l)); [|by rewrite at_pos_elem]; lia
            |iIntros "(H1 & H2 & H3)"; iFrame
            |iIntros "(H1 & H2 & H3)"; iFrame|].
          iIntros "(H1 & H2 & H3)". iExists l. by iFrame.
        + eapply mk_ok_conseq; [eapply (mk_ok_frame _ _ _ _ _ (table t segs ∗ win (saddr segs) 0 d (at_pos p l))); apply (win_mk_copy _ (d + 1) (slots segs) (at_pos p l)); [|by rewrite at_pos_elem]; lia
            |iIntros "(H1 & H2 & H3)"; iFrame
            |iIntros "(H1 & H2 & H3)"; iFrame|].
          iIntros "(H1 & H2 & H3)". iExists l. by iFrame.
      - apply lookup_lt_Some in Hj as Hlt. unfold R.
        destruct (decide (p + Z.of_nat j < d)).
        + eapply mk_ok_conseq; [eapply (mk_ok_frame _ _ _ _ _ (table t segs ∗ win (saddr segs) (d + 1) (slots segs) (at_pos p l))); apply (win_mk_move _ 0 d (at_pos p l)); [|by rewrite at_pos_elem]; lia
            |iIntros "(H1 & H2 & H3)"; iFrame| |].
          * iIntros "(H1 & H2 & H3)". iFrame "H2". iSplitL "H1".
            -- iApply (win_eq with "H1"). intros i Hi. by rewrite at_pos_insert.
            -- iApply (win_eq with "H3"). intros i Hi. rewrite at_pos_insert //. unfold upd.
               destruct (Z.eqb_spec i (p + Z.of_nat j)); [lia|done].
          * iIntros "(H1 & H2 & H3)". iDestruct "H1" as (g') "[%Hg Hw]". destruct Hg as [Hs Hn].
            destruct (DevProofs.shaken_list p l (patch (at_pos p l) 0 d g')) as (l' & Hl' & Hf).
            { intros i. unfold live, patch. destruct (within 0 d i); [|done]. apply (Hs i). }
            iExists l'. iFrame "H2". iSplit; [by iPureIntro|]. iSplitL "Hw".
            -- iApply (win_eq with "Hw"). intros i Hi. rewrite -Hf. unfold patch, within.
               by rewrite (proj2 (andb_true_iff _ _)); [|lia].
            -- iApply (win_eq with "H3"). intros i Hi. rewrite -Hf. unfold patch, within.
               destruct ((0 <=? i) && (i <? d)) eqn:Hc; [lia|done].
        + eapply mk_ok_conseq; [eapply (mk_ok_frame _ _ _ _ _ (table t segs ∗ win (saddr segs) 0 d (at_pos p l))); apply (win_mk_move _ (d + 1) (slots segs) (at_pos p l)); [|by rewrite at_pos_elem]; lia
            |iIntros "(H1 & H2 & H3)"; iFrame| |].
          * iIntros "(H1 & H2 & H3)". iFrame "H2". iSplitL "H3".
            -- iApply (win_eq with "H3"). intros i Hi. rewrite at_pos_insert //. unfold upd.
               destruct (Z.eqb_spec i (p + Z.of_nat j)); [lia|done].
            -- iApply (win_eq with "H1"). intros i Hi. by rewrite at_pos_insert.
          * iIntros "(H1 & H2 & H3)". iDestruct "H1" as (g') "[%Hg Hw]". destruct Hg as [Hs Hn].
            destruct (DevProofs.shaken_list p l (patch (at_pos p l) (d + 1) (slots segs) g')) as (l' & Hl' & Hf).
            { intros i. unfold live, patch. destruct (within (d + 1) (slots segs) i); [|done]. apply (Hs i). }
            iExists l'. iFrame "H2". iSplit; [by iPureIntro|]. iSplitL "H3".
            -- iApply (win_eq with "H3"). intros i Hi. rewrite -Hf. unfold patch, within.
               destruct ((d + 1 <=? i) && (i <? slots segs)) eqn:Hc; [lia|done].
            -- iApply (win_eq with "Hw"). intros i Hi. rewrite -Hf. unfold patch, within.
               by rewrite (proj2 (andb_true_iff _ _)); [|lia]. }
    rewrite Hnone //. simpl. pose proof (sarg_length _ _ _ _ _ _ Ha) as Hlen.
    iApply (wp_construct with "[Ht Hw1 Hw2] Hd"); [exact Hmk|by iFrame|]. iSplit.
    - iIntros "(Ht & Hw1 & Hw2) Hd". iDestruct "HK" as "[HK _]".
      iApply ("HK" $! (upd (at_pos p l1) d (Some v)) with "[%]").
      + split; simpl.
        * intros i Hi. assert (i = d) as -> by lia. unfold upd. by rewrite Z.eqb_refl Z.sub_diag.
        * intros i Hi. unfold upd. destruct (Z.eqb_spec i d); [lia|done].
        * intros i. unfold upd, within. unfold live at 1. destruct (Z.eqb_spec i d) as [->|].
          -- rewrite (Z.leb_refl d). rewrite (proj2 (Z.ltb_lt d (d + 1))); [|lia]. by rewrite orb_true_r.
          -- unfold live. destruct (at_pos p l1 i); [done|]. simpl. lia.
      + iFrame "Ht". rewrite (win_take _ 0 (slots segs) d); [|lia]. iSplitL "Hw1"; [|iSplitL "Hd"].
        * iApply (win_eq with "Hw1"). intros i Hi. unfold upd. destruct (Z.eqb_spec i d); [lia|done].
        * unfold upd. by rewrite Z.eqb_refl.
        * iApply (win_eq with "Hw2"). intros i Hi. unfold upd. destruct (Z.eqb_spec i d); [lia|done].
    - iIntros "HR Hd". iDestruct "HR" as (l') "[%He (Ht & Hw1 & Hw2)]". iDestruct "HK" as "[_ HK]".
      iApply ("HK" $! l' with "[//]"). iFrame "Ht". rewrite (win_take _ 0 (slots segs) d); [|lia].
      iFrame. destruct He as [He _]. by rewrite Hnone.
  Qed.

  (** One slot. *)
  Lemma wp_sw_destroy_at t segs d f s Q X :
    0 <= d < slots segs -> live f d = true ->
    swin t segs f ⊢ (∀ f', ⟦cleared d (d + 1) f f'⟧ -∗ swin t segs f' -∗ Q tt s) -∗
    wp (destroy_at (saddr segs d)) s Q X.
  Proof.
    iIntros (Hd Hl) "[Ht Hw] HK". iDestruct (win_acc1 _ _ _ d with "Hw") as "[Hd Hw]"; [done|].
    destruct (live_some _ _ Hl) as [v Hv]. rewrite {1}Hv. simpl. iApply (wp_destroy_at with "Hd").
    iIntros "Hd". iSpecialize ("Hw" $! None with "Hd"). iApply ("HK" with "[%] [$Ht $Hw]"). split.
    - intros i Hi. unfold upd. destruct (Z.eqb_spec i d); [lia|done].
    - intros i. unfold upd, within. unfold live at 1. destruct (Z.eqb_spec i d) as [->|].
      + symmetry. rewrite andb_false_iff. right. lia.
      + unfold live. destruct (f i); [|done]. simpl. lia.
  Qed.
  Lemma wp_sw_assign_val t segs d v f s Q X :
    0 <= d < slots segs -> live f d = true ->
    swin t segs f ⊢
    ((∀ f', ⟦stored d [v] f f'⟧ -∗ swin t segs f' -∗ Q tt s) ∧
     (∀ f', ⟦shaken f f'⟧ -∗ swin t segs f' -∗ X EUser s)) -∗
    wp (assign (saddr segs d) (AVal v)) s Q X.
  Proof.
    iIntros (Hd Hl) "[Ht Hw] HK". iDestruct (win_acc1 _ _ _ d with "Hw") as "[Hd Hw]"; [done|].
    destruct (live_some _ _ Hl) as [u Hu]. rewrite {1}Hu. simpl cell_of.
    iApply (as_ok_val emp%I with "[//] Hd"). iSplit.
    - iIntros "_ Hd". iSpecialize ("Hw" $! (Some v) with "Hd"). iDestruct "HK" as "[HK _]".
      iApply ("HK" with "[%] [$Ht $Hw]"). split; simpl.
      + intros i Hi. assert (i = d) as -> by lia. unfold upd. by rewrite Z.eqb_refl Z.sub_diag.
      + intros i Hi. unfold upd. destruct (Z.eqb_spec i d); [lia|done].
      + intros i. unfold upd, within. unfold live at 1. destruct (Z.eqb_spec i d) as [->|].
        * rewrite Hl. done.
        * unfold live. destruct (f i); [done|]. simpl. lia.
    - iIntros (c') "_ Hd". iSpecialize ("Hw" $! (Some c') with "Hd"). iDestruct "HK" as "[_ HK]".
      iApply ("HK" with "[%] [$Ht $Hw]"). intros i. unfold live, upd. destruct (Z.eqb_spec i d) as [->|]; [by rewrite Hu|done].
  Qed.
  Lemma wp_sw_move_construct t segs a d f s Q X :
    0 <= a < slots segs -> 0 <= d < slots segs -> live f a = true -> live f d = false ->
    swin t segs f ⊢
    ((∀ f', ⟦moved a (a + 1) d f f'⟧ -∗ swin t segs f' -∗ Q tt s) ∧
     (∀ f', ⟦shaken f f' /\ nothrow_move = false⟧ -∗ swin t segs f' -∗ X EUser s)) -∗
    wp (construct (saddr segs d) (AMove (saddr segs a))) s Q X.
  Proof.
    iIntros (H1 H2 H3 H4) "[Ht Hw] HK". iApply (wp_win_move_construct with "Hw"); [done..|]. iSplit.
    - iIntros (f') "%Hf Hw". iDestruct "HK" as "[HK _]". iApply ("HK" with "[//] [$Ht $Hw]").
    - iIntros (f') "%Hf Hw". iDestruct "HK" as "[_ HK]". iApply ("HK" with "[//] [$Ht $Hw]").
  Qed.
  Lemma wp_sw_read t segs d v f s Q X :
    0 <= d < slots segs -> f d = Some v ->
    swin t segs f ⊢ (swin t segs f -∗ Q v s) -∗ wp (read (saddr segs d)) s Q X.
  Proof.
    iIntros (Hd Hv) "[Ht Hw] HK". iDestruct (win_acc1 _ _ _ d with "Hw") as "[Hd Hw]"; [done|].
    rewrite {1}Hv. simpl. iApply (wp_read with "Hd"). iIntros "Hd". iApply "HK". iFrame "Ht".
    iSpecialize ("Hw" $! (Some v) with "Hd"). iApply (win_eq with "Hw"). intros i Hi. unfold upd.
    destruct (Z.eqb_spec i d) as [->|]; done.
  Qed.
End args.
