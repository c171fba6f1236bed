(** * Windows: a stretch of storage as a function from positions to contents

    Used for the double-ended and the segmented containers, whose code shifts
    elements around in many different geometries.  [win addr lo hi f]: position
    [i] of [lo, hi) lives at address [addr i] and holds [f i]: [Some v] a live
    element, [None] raw storage.  The rules below describe the algorithms of
    private.hpp by their effect on [f]. *)

From Verif Require Export ContigLib.
From Coq Require Import ZifyBool.
From iris.proofmode Require Import tactics.
Open Scope Z_scope.

Definition within (a b i : Z) : bool := (a <=? i) && (i <? b).

Section window.
  Context `{E : Env}.
  Implicit Types f g : Z -> option V.
  Implicit Types addr : Z -> loc.

  Definition cell_of (o : option V) : cell := match o with Some v => Live v | None => Raw end.
  Definition win addr (lo hi : Z) f : hProp :=
    ([∗ list] i ∈ seqZ lo (hi - lo), addr i ↦ cell_of (f i))%I.

  Definition live f (i : Z) : bool := match f i with Some _ => true | None => false end.
  Definition upd f (i : Z) (o : option V) : Z -> option V := fun j => if j =? i then o else f j.
  Definition patch f (a b : Z) g : Z -> option V := fun i => if within a b i then g i else f i.

  (** The addresses of [a, b) are consecutive from [p]. *)
  Definition contig addr (a b : Z) (p : loc) : Prop := forall i, a <= i < b -> addr i = p +ₗ (i - a).

  Lemma contig_base b a e : contig (loc_add b) a e (b +ₗ a).
  Proof. intros i Hi. rewrite loc_add_assoc. f_equal. lia. Qed.
  Lemma contig_sub addr a b p a' b' :
    contig addr a b p -> a <= a' -> b' <= b -> contig addr a' b' (p +ₗ (a' - a)).
  Proof. intros Hc Ha Hb i Hi. rewrite Hc; [|lia]. rewrite loc_add_assoc. f_equal. lia. Qed.

  (** ** Structure *)
  Lemma win_ext addr addr' lo hi f f' :
    (forall i, lo <= i < hi -> addr i = addr' i /\ f i = f' i) ->
    win addr lo hi f ⊢ win addr' lo hi f'.
  Proof.
    intros Heq. unfold win. apply big_sepL_mono. intros k i Hk.
    apply lookup_seqZ in Hk as [-> Hk]. destruct (Heq (lo + Z.of_nat k)) as [-> ->]; [lia|done].
  Qed.
  Lemma win_eq addr lo hi f f' :
    (forall i, lo <= i < hi -> f i = f' i) -> win addr lo hi f ⊢ win addr lo hi f'.
  Proof. intros Heq. apply win_ext. intros i Hi. split; [done|]. by apply Heq. Qed.
  Lemma win_nil addr lo hi f : hi <= lo -> win addr lo hi f ⊣⊢ emp.
  Proof. intros Hle. unfold win. rewrite seqZ_nil; [|lia]. done. Qed.
  Lemma win_split addr lo m hi f :
    lo <= m <= hi -> win addr lo hi f ⊣⊢ win addr lo m f ∗ win addr m hi f.
  Proof.
    intros Hm. unfold win. replace (hi - lo) with ((m - lo) + (hi - m)) by lia.
    rewrite seqZ_app; [|lia..]. rewrite big_sepL_app. by replace (lo + (m - lo)) with m by lia.
  Qed.
  Lemma win_one addr i f : win addr i (i + 1) f ⊣⊢ addr i ↦ cell_of (f i).
  Proof.
    unfold win. replace (i + 1 - i) with 1 by lia. rewrite seqZ_cons; [|lia]. simpl. by rewrite right_id.
  Qed.
  Lemma win_take addr lo hi i f :
    lo <= i < hi -> win addr lo hi f ⊣⊢ win addr lo i f ∗ addr i ↦ cell_of (f i) ∗ win addr (i + 1) hi f.
  Proof.
    intros Hi. rewrite (win_split _ lo i hi); [|lia]. rewrite (win_split _ i (i + 1) hi); [|lia].
    by rewrite win_one.
  Qed.

  Lemma win_acc addr lo hi a b f :
    lo <= a -> a <= b -> b <= hi ->
    win addr lo hi f ⊢ win addr a b f ∗ (∀ g, win addr a b g -∗ win addr lo hi (patch f a b g)).
  Proof.
    intros H1 H2 H3. rewrite {1}(win_split _ lo a hi); [|lia]. rewrite {1}(win_split _ a b hi); [|lia].
    iIntros "(Hl & $ & Hr)". iIntros (g) "Hg".
    rewrite (win_split _ lo a hi); [|lia]. rewrite (win_split _ a b hi); [|lia].
    iSplitL "Hl"; [|iSplitL "Hg"].
    - iApply (win_eq with "Hl"). intros i Hi. unfold patch, within.
      destruct (Z.leb_spec a i); [lia|done].
    - iApply (win_eq with "Hg"). intros i Hi. unfold patch, within.
      destruct (Z.leb_spec a i); [|lia]. destruct (Z.ltb_spec i b); [done|lia].
    - iApply (win_eq with "Hr"). intros i Hi. unfold patch, within.
      destruct (Z.ltb_spec i b); [lia|]. by rewrite andb_false_r.
  Qed.

  Lemma win_acc1 addr lo hi i f :
    lo <= i < hi ->
    win addr lo hi f ⊢ addr i ↦ cell_of (f i) ∗ (∀ o, addr i ↦ cell_of o -∗ win addr lo hi (upd f i o)).
  Proof.
    intros Hi. rewrite {1}(win_take _ _ _ i); [|lia]. iIntros "(Hl & $ & Hr)". iIntros (o) "Ho".
    rewrite (win_take _ lo hi i); [|lia]. iSplitL "Hl"; [|iSplitL "Ho"].
    - iApply (win_eq with "Hl"). intros j Hj. unfold upd. destruct (Z.eqb_spec j i); [lia|done].
    - unfold upd. by rewrite Z.eqb_refl.
    - iApply (win_eq with "Hr"). intros j Hj. unfold upd. destruct (Z.eqb_spec j i); [lia|done].
  Qed.

  Lemma win_acc2 addr lo hi i j f :
    lo <= i < hi -> lo <= j < hi -> i <> j ->
    win addr lo hi f ⊢ addr i ↦ cell_of (f i) ∗ addr j ↦ cell_of (f j) ∗
      (∀ o o', addr i ↦ cell_of o -∗ addr j ↦ cell_of o' -∗ win addr lo hi (upd (upd f i o) j o')).
  Proof.
    intros Hi Hj Hne. destruct (decide (i < j)) as [Hlt|Hlt].
    - rewrite {1}(win_split _ lo j hi); [|lia]. iIntros "[Hl Hr]".
      iDestruct (win_acc1 _ _ _ i with "Hl") as "[$ Hl]"; [lia|].
      iDestruct (win_acc1 _ _ _ j with "Hr") as "[$ Hr]"; [lia|].
      iIntros (o o') "Ho Ho'". iSpecialize ("Hl" with "Ho"). iSpecialize ("Hr" with "Ho'").
      rewrite (win_split _ lo j hi); [|lia]. iSplitL "Hl".
      + iApply (win_eq with "Hl"). intros k Hk. unfold upd. destruct (Z.eqb_spec k j); [lia|done].
      + iApply (win_eq with "Hr"). intros k Hk. unfold upd.
        destruct (Z.eqb_spec k j); [done|]. destruct (Z.eqb_spec k i); [lia|done].
    - rewrite {1}(win_split _ lo i hi); [|lia]. iIntros "[Hl Hr]".
      iDestruct (win_acc1 _ _ _ j with "Hl") as "[$ Hl]"; [lia|].
      iDestruct (win_acc1 _ _ _ i with "Hr") as "[$ Hr]"; [lia|].
      iIntros (o o') "Ho Ho'". iSpecialize ("Hl" with "Ho'"). iSpecialize ("Hr" with "Ho").
      rewrite (win_split _ lo i hi); [|lia]. iSplitL "Hl".
      + iApply (win_eq with "Hl"). intros k Hk. unfold upd.
        destruct (Z.eqb_spec k j); [done|]. destruct (Z.eqb_spec k i); [lia|done].
      + iApply (win_eq with "Hr"). intros k Hk. unfold upd. destruct (Z.eqb_spec k j); [lia|done].
  Qed.

  (** ** Windows and lists *)
  Lemma win_elems addr a b p l f :
    contig addr a b p -> b = a + Z.of_nat (length l) ->
    (forall i, a <= i < b -> f i = l !! Z.to_nat (i - a)) ->
    win addr a b f ⊣⊢ elems p l.
  Proof.
    intros Hc -> Hf. induction l as [|v l IH] in a, p, Hc, Hf |- *.
    - rewrite win_nil; [|simpl; lia]. by rewrite elems_nil.
    - rewrite (win_take _ a _ a); [|simpl; lia]. rewrite win_nil; [|lia]. rewrite left_id elems_cons.
      rewrite (Hc a); [|simpl; lia]. rewrite Z.sub_diag loc_add_0.
      rewrite (Hf a); [|simpl; lia]. rewrite Z.sub_diag. simpl.
      replace (a + Z.of_nat (S (length l))) with (a + 1 + Z.of_nat (length l)) by lia.
      rewrite (IH (a + 1) (p +ₗ 1)); [done| |].
      + intros i Hi. rewrite Hc; [|simpl; lia]. rewrite loc_add_assoc. f_equal. lia.
      + intros i Hi. rewrite Hf; [|simpl; lia].
        replace (Z.to_nat (i - a)) with (S (Z.to_nat (i - (a + 1)))) by lia. done.
  Qed.
  Lemma win_raws addr a b p n f :
    contig addr a b p -> b = a + Z.of_nat n ->
    (forall i, a <= i < b -> live f i = false) ->
    win addr a b f ⊣⊢ raws p n.
  Proof.
    intros Hc -> Hf. induction n as [|n IH] in a, p, Hc, Hf |- *.
    - rewrite win_nil; [|simpl; lia]. by rewrite raws_0.
    - rewrite (win_take _ a _ a); [|lia]. rewrite win_nil; [|lia]. rewrite left_id raws_S.
      rewrite (Hc a); [|lia]. rewrite Z.sub_diag loc_add_0.
      pose proof (Hf a ltac:(lia)) as Ha. unfold live in Ha. destruct (f a); [done|]. simpl.
      replace (a + Z.of_nat (S n)) with (a + 1 + Z.of_nat n) by lia.
      rewrite (IH (a + 1) (p +ₗ 1)); [done| |].
      + intros i Hi. rewrite Hc; [|lia]. rewrite loc_add_assoc. f_equal. lia.
      + intros i Hi. apply Hf. lia.
  Qed.
  Lemma live_list f a b :
    a <= b -> (forall i, a <= i < b -> live f i = true) ->
    exists l, Z.of_nat (length l) = b - a /\ forall i, a <= i < b -> f i = l !! Z.to_nat (i - a).
  Proof.
    intros Hab Hl. remember (Z.to_nat (b - a)) as n eqn:Hn.
    induction n as [|n IH] in a, Hab, Hl, Hn |- *.
    - exists []. split; [simpl; lia|]. intros i Hi. lia.
    - destruct (IH (a + 1)) as (l & Hl1 & Hl2); [lia|intros i Hi; apply Hl; lia|lia|].
      pose proof (Hl a ltac:(lia)) as Ha. unfold live in Ha. destruct (f a) as [v|] eqn:Hfa; [|done].
      exists (v :: l). split; [simpl; lia|]. intros i Hi. destruct (decide (i = a)) as [->|Hia].
      + by rewrite Z.sub_diag Hfa.
      + rewrite Hl2; [|lia]. replace (Z.to_nat (i - a)) with (S (Z.to_nat (i - (a + 1)))) by lia. done.
  Qed.

  (** The contents of a window holding the list [l] from position [a]. *)
  Definition at_pos (a : Z) (l : list V) : Z -> option V :=
    fun i => if within a (a + Z.of_nat (length l)) i then l !! Z.to_nat (i - a) else None.
  Lemma live_at_pos a l i : live (at_pos a l) i = within a (a + Z.of_nat (length l)) i.
  Proof.
    unfold live, at_pos. destruct (within _ _ i) eqn:Hw; [|done]. unfold within in Hw.
    destruct (lookup_lt_is_Some_2 l (Z.to_nat (i - a))) as [v ->]; [lia|done].
  Qed.
  Lemma at_pos_in a l i :
    a <= i < a + Z.of_nat (length l) -> at_pos a l i = l !! Z.to_nat (i - a).
  Proof. intros Hi. unfold at_pos, within. rewrite (proj2 (andb_true_iff _ _)); [done|lia]. Qed.
  Lemma at_pos_out a l i :
    ~ (a <= i < a + Z.of_nat (length l)) -> at_pos a l i = None.
  Proof.
    intros Hi. unfold at_pos, within. destruct ((_ <=? _) && _) eqn:Hb; [lia|done].
  Qed.
  Lemma live_false f i : live f i = false -> f i = None.
  Proof. unfold live. by destruct (f i). Qed.

  Lemma win_body addr lo hi p a l f :
    contig addr lo hi p -> lo <= a -> a + Z.of_nat (length l) <= hi ->
    (forall i, lo <= i < hi -> f i = at_pos a l i) ->
    win addr lo hi f ⊣⊢
      raws p (Z.to_nat (a - lo)) ∗ elems (p +ₗ (a - lo)) l ∗
      raws (p +ₗ (a + Z.of_nat (length l) - lo)) (Z.to_nat (hi - (a + Z.of_nat (length l)))).
  Proof.
    intros Hc H1 H2 Hf. rewrite (win_split _ lo a hi); [|lia].
    rewrite (win_split _ a (a + Z.of_nat (length l)) hi); [|lia].
    rewrite (win_raws _ lo a p (Z.to_nat (a - lo))); [|intros i Hi; apply Hc; lia|lia|].
    2:{ intros i Hi. unfold live. rewrite Hf; [|lia]. rewrite at_pos_out; [done|lia]. }
    rewrite (win_elems _ a _ (p +ₗ (a - lo)) l); [|by apply (contig_sub _ lo hi); [|lia..]|done|].
    2:{ intros i Hi. rewrite Hf; [|lia]. by apply at_pos_in. }
    rewrite (win_raws _ _ hi (p +ₗ (a + Z.of_nat (length l) - lo))
      (Z.to_nat (hi - (a + Z.of_nat (length l))))); [done| |lia|].
    - apply (contig_sub _ lo hi); [done|lia..].
    - intros i Hi. unfold live. rewrite Hf; [|lia]. rewrite at_pos_out; [done|lia].
  Qed.
End window.

(** ** Effects of the algorithms *)
Section effects.
  Context `{E : Env}.
  Implicit Types f g : Z -> option V.

  (** The elements of [a, b) have been moved to [d, d + (b - a)). *)
  Record moved (a b d : Z) f f' : Prop := Moved {
    mv_dst : forall i, d <= i < d + (b - a) -> f' i = f (i - d + a);
    mv_rest : forall i, ~ d <= i < d + (b - a) -> ~ a <= i < b -> f' i = f i;
    mv_live : forall i, live f' i = live f i || within d (d + (b - a)) i;
  }.
  (** The values [vs] have been stored from [d]. *)
  Record stored (d : Z) (vs : list V) f f' : Prop := Stored {
    st_dst : forall i, d <= i < d + Z.of_nat (length vs) -> f' i = vs !! Z.to_nat (i - d);
    st_rest : forall i, ~ d <= i < d + Z.of_nat (length vs) -> f' i = f i;
    st_live : forall i, live f' i = live f i || within d (d + Z.of_nat (length vs)) i;
  }.
  (** The elements of [a, b) have been destroyed. *)
  Record cleared (a b : Z) f f' : Prop := Cleared {
    cl_rest : forall i, ~ a <= i < b -> f' i = f i;
    cl_live : forall i, live f' i = live f i && negb (within a b i);
  }.
  (** After an exception: the same objects are alive. *)
  Definition shaken f f' : Prop := forall i, live f' i = live f i.

  Lemma moved_nil a b d f : b <= a -> moved a b d f f.
  Proof.
    intros Hab. split; [intros; lia|done|]. intros i. unfold within. destruct (live f i); [done|].
    simpl. lia.
  Qed.
  Lemma moved_self a b f :
    (forall i, a <= i < b -> live f i = true) -> moved a b a f f.
  Proof.
    intros Hl. split; [intros; f_equal; lia|done|]. intros i. unfold within.
    destruct (live f i) eqn:Hi; [done|]. simpl. destruct (decide (a <= i < b)) as [Hin|Hin]; [|lia].
    rewrite Hl in Hi; done.
  Qed.
  Lemma stored_nil d f : stored d [] f f.
  Proof.
    split; [simpl; intros; lia|done|]. intros i. unfold within. simpl. destruct (live f i); [done|]. simpl. lia.
  Qed.
  Lemma cleared_nil a b f : b <= a -> cleared a b f f.
  Proof.
    intros Hab. split; [done|]. intros i. unfold within.
    assert (negb ((a <=? i) && (i <? b)) = true) as -> by lia. by rewrite andb_true_r.
  Qed.
End effects.

(** ** Rules *)
Section rules.
  Context `{E : Env}.
  Context {St : Type}.
  Implicit Types s : St.
  Implicit Types f g : Z -> option V.
  Implicit Types addr : Z -> loc.

  Lemma live_some f i : live f i = true -> exists v, f i = Some v.
  Proof. unfold live. destruct (f i); [by eexists|done]. Qed.

  (** *** Destruction *)
  Lemma wp_win_destroy_n addr lo hi a n p f s Q X :
    contig addr a (a + Z.of_nat n) p -> lo <= a -> a + Z.of_nat n <= hi ->
    (forall i, a <= i < a + Z.of_nat n -> live f i = true) ->
    win addr lo hi f ⊢
    (∀ f', ⟦cleared a (a + Z.of_nat n) f f'⟧ -∗ win addr lo hi f' -∗ Q tt s) -∗
    wp (destroy_n_a p n) s Q X.
  Proof.
    intros Hc H1 H2 Hl. iIntros "Hw HK".
    iDestruct (win_acc _ _ _ a (a + Z.of_nat n) with "Hw") as "[Ha Hw]"; [lia..|].
    destruct (live_list f a (a + Z.of_nat n)) as (l & Hl1 & Hl2); [lia|done|].
    assert (n = length l) as -> by lia.
    rewrite (win_elems _ a (a + Z.of_nat (length l)) p l); [|done..].
    iApply (wp_destroy_n_a with "Ha"). iIntros "Hr".
    iSpecialize ("Hw" $! (fun _ => None) with "[Hr]").
    { by rewrite (win_raws _ _ _ p (length l)). }
    iApply ("HK" with "[%] Hw"). split.
    - intros i Hi. unfold patch. unfold within. destruct ((_ <=? _) && _) eqn:Hb; [lia|done].
    - intros i. unfold live, patch. destruct (within _ _ i); [by rewrite andb_false_r|by rewrite andb_true_r].
  Qed.
  Lemma wp_win_destroy addr lo hi a b p q f s Q X :
    contig addr a b p -> q = p +ₗ (b - a) -> lo <= a -> a <= b -> b <= hi ->
    (forall i, a <= i < b -> live f i = true) ->
    win addr lo hi f ⊢
    (∀ f', ⟦cleared a b f f'⟧ -∗ win addr lo hi f' -∗ Q tt s) -∗
    wp (destroy_a p q) s Q X.
  Proof.
    intros Hc -> H1 H2 H3 Hl. iIntros "Hw HK". unfold destroy_a. wbind.
    iApply wp_range_len; [done|simpl; lia|]. simpl. wbeta.
    replace (p.2 + (b - a) - p.2) with (b - a) by lia.
    replace b with (a + Z.of_nat (Z.to_nat (b - a))) at 2 by lia.
    iApply (wp_win_destroy_n _ _ _ a with "Hw").
    - by replace (a + Z.of_nat (Z.to_nat (b - a))) with b by lia.
    - done.
    - lia.
    - intros i Hi. apply Hl. lia.
    - replace (a + Z.of_nat (Z.to_nat (b - a))) with b by lia. done.
  Qed.

  (** *** Elements from outside the window *)
  Lemma wp_win_construct PX P x v P' addr lo hi d p f s Q X :
    mk_ok PX P x v P' -> p = addr d -> lo <= d < hi -> live f d = false ->
    P ⊢ win addr lo hi f -∗
    ((∀ f', ⟦stored d [v] f f'⟧ -∗ P' -∗ win addr lo hi f' -∗ Q tt s) ∧
     (PX -∗ win addr lo hi f -∗ X EUser s)) -∗
    wp (construct p x) s Q X.
  Proof.
    iIntros (Hok -> Hd Hl) "HP Hw HK".
    iDestruct (win_acc1 _ _ _ d with "Hw") as "[Hd Hw]"; [done|].
    pose proof (live_false _ _ Hl) as Hn. rewrite {1}Hn. simpl.
    iApply (wp_construct with "HP Hd"); [done|]. iSplit.
    - iIntros "HP Hd". iSpecialize ("Hw" $! (Some v) with "Hd"). iDestruct "HK" as "[HK _]".
      iApply ("HK" with "[%] HP Hw"). split; simpl.
      + intros i Hi. assert (i = d) as -> by lia. unfold upd. by rewrite Z.eqb_refl Z.sub_diag.
      + intros i Hi. unfold upd. destruct (Z.eqb_spec i d); [lia|done].
      + intros i. unfold live, upd, within. destruct (Z.eqb_spec i d) as [->|]; [|destruct (f i); [done|simpl; lia]].
        rewrite Hn. simpl. lia.
    - iIntros "HP Hd". iSpecialize ("Hw" $! None with "Hd"). iDestruct "HK" as "[_ HK]".
      iApply ("HK" with "HP"). iApply (win_eq with "Hw"). intros i Hi. unfold upd.
      destruct (Z.eqb_spec i d) as [->|]; done.
  Qed.

  Lemma wp_win_ucopy PX P srcs vs P' addr lo hi d p f s Q X :
    mks_ok PX P srcs vs P' ->
    contig addr d (d + Z.of_nat (length vs)) p -> lo <= d -> d + Z.of_nat (length vs) <= hi ->
    (forall i, d <= i < d + Z.of_nat (length vs) -> live f i = false) ->
    P ⊢ win addr lo hi f -∗
    ((∀ f', ⟦stored d vs f f'⟧ -∗ P' -∗ win addr lo hi f' -∗ Q (p +ₗ Z.of_nat (length vs)) s) ∧
     (PX -∗ win addr lo hi f -∗ X EUser s)) -∗
    wp (uninit_loop p p srcs) s Q X.
  Proof.
    iIntros (Hok Hc H1 H2 Hl) "HP Hw HK".
    iDestruct (win_acc _ _ _ d (d + Z.of_nat (length vs)) with "Hw") as "[Hd Hw]"; [lia..|].
    rewrite (win_raws _ d (d + Z.of_nat (length vs)) p (length vs)); [|done..].
    iApply (wp_ucopy with "HP Hd"); [done|]. iSplit.
    - iIntros "HP Hd". iSpecialize ("Hw" $! (at_pos d vs) with "[Hd]").
      { rewrite (win_elems _ _ _ p vs); [done|done|done|]. apply at_pos_in. }
      iDestruct "HK" as "[HK _]". iApply ("HK" with "[%] HP Hw"). split.
      + intros i Hi. unfold patch. rewrite (_ : within _ _ _ = true); [|unfold within; lia]. by apply at_pos_in.
      + intros i Hi. unfold patch. rewrite (_ : within _ _ _ = false); [done|unfold within; lia].
      + intros i. unfold live at 1. unfold patch. destruct (within _ _ i) eqn:Hw.
        * pose proof (live_at_pos d vs i) as Hlp. rewrite Hw in Hlp. unfold live in Hlp. rewrite Hlp.
          by rewrite orb_true_r.
        * by rewrite orb_false_r.
    - iIntros "HP Hd". iSpecialize ("Hw" $! (fun _ => None) with "[Hd]").
      { by rewrite (win_raws _ _ _ p (length vs)). }
      iDestruct "HK" as "[_ HK]". iApply ("HK" with "HP"). iApply (win_eq with "Hw").
      intros i Hi. unfold patch. destruct (within _ _ i) eqn:Hwi; [|done]. unfold within in Hwi.
      symmetry. apply live_false, Hl. lia.
  Qed.

  Lemma wp_win_assigns PX P srcs vs P' addr lo hi d p f s Q X :
    ass_ok PX P srcs vs P' ->
    contig addr d (d + Z.of_nat (length vs)) p -> lo <= d -> d + Z.of_nat (length vs) <= hi ->
    (forall i, d <= i < d + Z.of_nat (length vs) -> live f i = true) ->
    P ⊢ win addr lo hi f -∗
    ((∀ f', ⟦stored d vs f f'⟧ -∗ P' -∗ win addr lo hi f' -∗ Q (p +ₗ Z.of_nat (length vs)) s) ∧
     (∀ f', ⟦shaken f f' /\ vs <> []⟧ -∗ PX -∗ win addr lo hi f' -∗ X EUser s)) -∗
    wp (assign_loop p srcs) s Q X.
  Proof.
    iIntros (Hok Hc H1 H2 Hl) "HP Hw HK".
    iDestruct (win_acc _ _ _ d (d + Z.of_nat (length vs)) with "Hw") as "[Hd Hw]"; [lia..|].
    destruct (live_list f d (d + Z.of_nat (length vs))) as (l & Hl1 & Hl2); [lia|done|].
    assert (length l = length vs) as Hlen by lia.
    rewrite (win_elems _ d (d + Z.of_nat (length vs)) p l); [|done|lia|done].
    iApply (wp_assign_loop with "HP Hd"); [done|done|]. iSplit.
    - iIntros "HP Hd". iSpecialize ("Hw" $! (at_pos d vs) with "[Hd]").
      { rewrite (win_elems _ _ _ p vs); [done|done|done|]. apply at_pos_in. }
      iDestruct "HK" as "[HK _]". iApply ("HK" with "[%] HP Hw"). split.
      + intros i Hi. unfold patch. rewrite (_ : within _ _ _ = true); [|unfold within; lia]. by apply at_pos_in.
      + intros i Hi. unfold patch. rewrite (_ : within _ _ _ = false); [done|unfold within; lia].
      + intros i. unfold live at 1. unfold patch. destruct (within _ _ i) eqn:Hw.
        * pose proof (live_at_pos d vs i) as Hlp. rewrite Hw in Hlp. unfold live in Hlp. rewrite Hlp.
          by rewrite orb_true_r.
        * by rewrite orb_false_r.
    - iIntros (l') "%Hl' HP Hd". destruct Hl' as [Hl' Hpos].
      iSpecialize ("Hw" $! (at_pos d l') with "[Hd]").
      { rewrite (win_elems _ _ _ p l'); [done|done|lia|]. intros i Hi. apply at_pos_in. lia. }
      iDestruct "HK" as "[_ HK]". iApply ("HK" with "[%] HP Hw"). split; [|intros ->; simpl in *; lia].
      intros i. unfold live, patch. destruct (within _ _ i) eqn:Hw; [|done].
      pose proof (live_at_pos d l' i) as Hlp. unfold live in Hlp. rewrite Hlp.
      unfold within in *. fold (live f i). rewrite (Hl i); lia.
  Qed.

  (** *** Moving inside the window *)

  (** [construct(dst, std::move(src))]. *)
  Lemma wp_win_move_construct addr lo hi a d f s Q X :
    lo <= a < hi -> lo <= d < hi -> live f a = true -> live f d = false ->
    win addr lo hi f ⊢
    ((∀ f', ⟦moved a (a + 1) d f f'⟧ -∗ win addr lo hi f' -∗ Q tt s) ∧
     (∀ f', ⟦shaken f f' /\ nothrow_move = false⟧ -∗ win addr lo hi f' -∗ X EUser s)) -∗
    wp (construct (addr d) (AMove (addr a))) s Q X.
  Proof.
    intros Ha Hd Hla Hld. iIntros "Hw HK".
    assert (a <> d) as Hne by (intros ->; congruence).
    iDestruct (win_acc2 _ _ _ a d with "Hw") as "(Ha & Hd & Hw)"; [lia..|].
    destruct (live_some _ _ Hla) as [v Hv]. rewrite {1}Hv. pose proof (live_false _ _ Hld) as Hn. rewrite {1}Hn.
    simpl. iApply (wp_construct with "Ha Hd"); [apply mk_ok_move1|]. iSplit.
    - iIntros "Ha Hd". iSpecialize ("Hw" $! (Some (vmoved v)) (Some v) with "Ha Hd").
      iDestruct "HK" as "[HK _]". iApply ("HK" with "[%] Hw"). split.
      + intros i Hi. assert (i = d) as -> by lia. unfold upd. rewrite Z.eqb_refl.
        by replace (d - d + a) with a by lia.
      + intros i Hi Hi'. unfold upd. destruct (Z.eqb_spec i d); [lia|]. destruct (Z.eqb_spec i a); [lia|done].
      + intros i. unfold live, upd, within. destruct (Z.eqb_spec i d) as [->|].
        { rewrite Hn. simpl. lia. }
        destruct (Z.eqb_spec i a) as [->|]; [by rewrite Hv|]. destruct (f i); [done|simpl; lia].
    - iIntros "Ha Hd". iDestruct "Ha" as (v') "[%Hnt Ha]".
      iSpecialize ("Hw" $! (Some v') None with "Ha Hd").
      iDestruct "HK" as "[_ HK]". iApply ("HK" with "[%] Hw"). split; [|done].
      intros i. unfold live, upd. destruct (Z.eqb_spec i d) as [->|]; [by rewrite Hn|].
      destruct (Z.eqb_spec i a) as [->|]; [by rewrite Hv|done].
  Qed.

  (** [*dst = std::move( *src)]. *)
  Lemma wp_win_move_assign addr lo hi a d f s Q X :
    lo <= a < hi -> lo <= d < hi -> live f a = true -> live f d = true -> a <> d ->
    win addr lo hi f ⊢
    ((∀ f', ⟦moved a (a + 1) d f f'⟧ -∗ win addr lo hi f' -∗ Q tt s) ∧
     (∀ f', ⟦shaken f f'⟧ -∗ win addr lo hi f' -∗ X EUser s)) -∗
    wp (assign (addr d) (AMove (addr a))) s Q X.
  Proof.
    intros Ha Hd Hla Hld Hne. iIntros "Hw HK".
    iDestruct (win_acc2 _ _ _ a d with "Hw") as "(Ha & Hd & Hw)"; [lia..|].
    destruct (live_some _ _ Hla) as [v Hv]. rewrite {1}Hv. destruct (live_some _ _ Hld) as [u Hu]. rewrite {1}Hu.
    simpl cell_of. iApply (as_ok_move1 with "Ha Hd"). iSplit.
    - iIntros "Ha Hd". iSpecialize ("Hw" $! (Some (vmoved v)) (Some v) with "Ha Hd").
      iDestruct "HK" as "[HK _]". iApply ("HK" with "[%] Hw"). split.
      + intros i Hi. assert (i = d) as -> by lia. unfold upd. rewrite Z.eqb_refl.
        by replace (d - d + a) with a by lia.
      + intros i Hi Hi'. unfold upd. destruct (Z.eqb_spec i d); [lia|]. destruct (Z.eqb_spec i a); [lia|done].
      + intros i. unfold live, upd, within. destruct (Z.eqb_spec i d) as [->|]; [by rewrite Hu|].
        destruct (Z.eqb_spec i a) as [->|]; [by rewrite Hv|]. destruct (f i); [done|simpl; lia].
    - iIntros (c') "Ha Hd". iDestruct "Ha" as (v') "Ha".
      iSpecialize ("Hw" $! (Some v') (Some c') with "Ha Hd").
      iDestruct "HK" as "[_ HK]". iApply ("HK" with "[%] Hw").
      intros i. unfold live, upd. destruct (Z.eqb_spec i d) as [->|]; [by rewrite Hu|].
      destruct (Z.eqb_spec i a) as [->|]; [by rewrite Hv|done].
  Qed.

  (** One more element moved: the effects compose. *)
  Lemma moved_snoc a k d f f1 f2 :
    a <= k -> (d <= a \/ k + 1 <= d) ->
    moved a k d f f1 -> moved k (k + 1) (d + (k - a)) f1 f2 -> moved a (k + 1) d f f2.
  Proof.
    intros Hak Hd [H1 H2 H3] [G1 G2 G3]. split.
    - intros i Hi. destruct (decide (i = d + (k - a))) as [->|Hne].
      + rewrite G1; [|lia]. replace (d + (k - a) - (d + (k - a)) + k) with k by lia.
        rewrite H2; [f_equal; lia|lia|lia].
      + rewrite G2; [|lia|lia]. apply H1. lia.
    - intros i Hi Hi'. rewrite G2; [|lia|lia]. apply H2; lia.
    - intros i. rewrite G3 H3. unfold within. destruct (live f i); [done|]. simpl. lia.
  Qed.
  Lemma moved_snoc_back a k e d f f1 f2 :
    a <= k -> k < e -> (a <= d \/ d + (e - a) <= a) ->
    moved (k + 1) e (d + (k + 1 - a)) f f1 -> moved k (k + 1) (d + (k - a)) f1 f2 ->
    moved k e (d + (k - a)) f f2.
  Proof.
    intros H0 Hke Had [H1 H2 H3] [G1 G2 G3]. split.
    - intros i Hi. destruct (decide (i = d + (k - a))) as [->|Hne].
      + rewrite G1; [|lia]. replace (d + (k - a) - (d + (k - a)) + k) with k by lia.
        rewrite H2; [done|lia|lia].
      + rewrite G2; [|lia|lia]. rewrite H1; [f_equal; lia|lia].
    - intros i Hi Hi'. rewrite G2; [|lia|lia]. apply H2; lia.
    - intros i. rewrite G3 H3. unfold within. destruct (live f i); [done|]. simpl. lia.
  Qed.

  (** private.hpp 1882-1907 [uninitialized_move_a] within a window. *)
  Lemma wp_win_umove_loop addr lo hi a d p q n k f fk s Q X :
    contig addr a (a + k + Z.of_nat n) p -> contig addr d (d + k + Z.of_nat n) q ->
    0 <= k -> lo <= a -> a + k + Z.of_nat n <= hi -> lo <= d -> d + k + Z.of_nat n <= hi ->
    (a + k + Z.of_nat n <= d \/ d + k + Z.of_nat n <= a) ->
    (forall i, a <= i < a + k + Z.of_nat n -> live f i = true) ->
    (forall i, d <= i < d + k + Z.of_nat n -> live f i = false) ->
    moved a (a + k) d f fk ->
    win addr lo hi fk ⊢
    ((∀ f', ⟦moved a (a + k + Z.of_nat n) d f f'⟧ -∗ win addr lo hi f' -∗ Q (q +ₗ (k + Z.of_nat n)) s) ∧
     (∀ f', ⟦shaken f f' /\ nothrow_move = false⟧ -∗ win addr lo hi f' -∗ X EUser s)) -∗
    wp (uninit_loop q (q +ₗ k) (refs AMove (p +ₗ k) n)) s Q X.
  Proof.
    induction n as [|n IH] in k, fk |- *; intros Hp Hq Hk H1 H2 H3 H4 Hdis Hla Hld Hmv; simpl.
    - iIntros "Hw HK". iApply wp_ret. iDestruct "HK" as "[HK _]".
      replace (k + Z.of_nat 0) with k by lia. replace (a + k + Z.of_nat 0) with (a + k) by lia. by iApply ("HK" with "[%] Hw").
    - iIntros "Hw HK". wbind. iApply wp_try.
      rewrite (_ : q +ₗ k = addr (d + k)); [|rewrite Hq; [f_equal; lia|lia]].
      rewrite (_ : p +ₗ k = addr (a + k)); [|rewrite Hp; [f_equal; lia|lia]].
      iApply (wp_win_move_construct _ _ _ (a + k) (d + k) with "Hw"); [lia|lia| | |].
      { rewrite (mv_live _ _ _ _ _ Hmv) Hla; [done|lia]. }
      { rewrite (mv_live _ _ _ _ _ Hmv) Hld; [|lia]. unfold within. simpl. lia. }
      iSplit.
      + iIntros (f') "%Hf Hw".
        rewrite (_ : addr (d + k) +ₗ 1 = q +ₗ (k + 1)); [|rewrite Hq; [rewrite loc_add_assoc; f_equal; lia|lia]].
        rewrite (_ : addr (a + k) +ₗ 1 = p +ₗ (k + 1)); [|rewrite Hp; [rewrite loc_add_assoc; f_equal; lia|lia]].
        iApply (IH (k + 1) f' with "Hw").
        * by replace (a + (k + 1) + Z.of_nat n) with (a + k + Z.of_nat (S n)) by lia.
        * by replace (d + (k + 1) + Z.of_nat n) with (d + k + Z.of_nat (S n)) by lia.
        * lia.
        * lia.
        * lia.
        * lia.
        * lia.
        * lia.
        * intros i Hi. apply Hla. lia.
        * intros i Hi. apply Hld. lia.
        * replace (a + (k + 1)) with (a + k + 1) by lia. eapply moved_snoc; [lia|lia|done|].
          by replace (d + (a + k - a)) with (d + k) by lia.
        * replace (a + (k + 1) + Z.of_nat n) with (a + k + Z.of_nat (S n)) by lia.
          replace (k + 1 + Z.of_nat n) with (k + Z.of_nat (S n)) by lia. done.
      + iIntros (f') "%Hf Hw". destruct Hf as [Hf Hnt].
        iApply (wp_win_destroy _ _ _ d (d + k) with "Hw").
        * intros i Hi. apply Hq. lia.
        * rewrite Hq; [f_equal; lia|lia].
        * lia.
        * lia.
        * lia.
        * intros i Hi. rewrite Hf (mv_live _ _ _ _ _ Hmv). unfold within.
          destruct (live f i); [done|]. simpl. lia.
        * iIntros (f2) "%Hc Hw". iDestruct "HK" as "[_ HK]". iApply ("HK" with "[%] Hw").
          split; [|done]. intros i. rewrite (cl_live _ _ _ _ Hc) Hf (mv_live _ _ _ _ _ Hmv).
          destruct (decide (d <= i < d + k)) as [Hi|Hi].
          { rewrite Hld; [|lia]. unfold within. lia. }
          unfold within. destruct (live f i); simpl; lia.
  Qed.
  Lemma wp_win_umove addr lo hi a e d p p' q f s Q X :
    contig addr a e p -> contig addr d (d + (e - a)) q -> p' = p +ₗ (e - a) ->
    lo <= a -> a <= e -> e <= hi -> lo <= d -> d + (e - a) <= hi ->
    (forall i, a <= i < e -> live f i = true) ->
    (forall i, d <= i < d + (e - a) -> live f i = false) ->
    win addr lo hi f ⊢
    ((∀ f', ⟦moved a e d f f'⟧ -∗ win addr lo hi f' -∗ Q (q +ₗ (e - a)) s) ∧
     (∀ f', ⟦shaken f f' /\ nothrow_move = false⟧ -∗ win addr lo hi f' -∗ X EUser s)) -∗
    wp (uninitialized_move_a p p' q) s Q X.
  Proof.
    intros Hp Hq -> H1 H2 H3 H4 H5 Hla Hld. iIntros "Hw HK". unfold uninitialized_move_a. wbind.
    iApply (wp_range _ _ _ (Z.to_nat (e - a))); [f_equal; lia|]. wbeta.
    destruct (decide (a = e)) as [->|Hne].
    { rewrite Z.sub_diag /=. iApply wp_ret. iDestruct "HK" as "[HK _]". rewrite loc_add_0.
      iApply ("HK" with "[%] Hw"). apply moved_nil. lia. }
    assert (e <= d \/ d + (e - a) <= a) as Hdis.
    { destruct (decide (e <= d)) as [|Hn1]; [by left|]. right.
      destruct (decide (d + (e - a) <= a)) as [|Hn2]; [done|].
      pose proof (Hla (Z.max a d) ltac:(lia)). pose proof (Hld (Z.max a d) ltac:(lia)). congruence. }
    assert (a + 0 + Z.of_nat (Z.to_nat (e - a)) = e) as He by lia.
    assert (d + 0 + Z.of_nat (Z.to_nat (e - a)) = d + (e - a)) as Hde by lia.
    iPoseProof (wp_win_umove_loop addr lo hi a d p q (Z.to_nat (e - a)) 0 f f s Q X) as "H".
    { by rewrite He. }
    { by rewrite Hde. }
    { lia. } { lia. } { lia. } { lia. } { lia. } { lia. }
    { intros i Hi. apply Hla. lia. }
    { intros i Hi. apply Hld. lia. }
    { apply moved_nil. lia. }
    rewrite !loc_add_0 He. replace (0 + Z.of_nat (Z.to_nat (e - a))) with (e - a) by lia.
    iApply ("H" with "Hw HK").
  Qed.

  (** [std::move] (private.hpp 938-947) within a window. *)
  Lemma wp_win_move_loop addr lo hi a d p q n k f fk s Q X :
    contig addr a (a + k + Z.of_nat n) p -> contig addr d (d + k + Z.of_nat n) q ->
    0 <= k -> lo <= a -> a + k + Z.of_nat n <= hi -> lo <= d -> d + k + Z.of_nat n <= hi ->
    (d < a \/ a + k + Z.of_nat n <= d) ->
    (forall i, a <= i < a + k + Z.of_nat n -> live f i = true) ->
    (forall i, d <= i < d + k + Z.of_nat n -> live f i = true) ->
    moved a (a + k) d f fk ->
    win addr lo hi fk ⊢
    ((∀ f', ⟦moved a (a + k + Z.of_nat n) d f f'⟧ -∗ win addr lo hi f' -∗ Q (q +ₗ (k + Z.of_nat n)) s) ∧
     (∀ f', ⟦shaken f f'⟧ -∗ win addr lo hi f' -∗ X EUser s)) -∗
    wp (assign_loop (q +ₗ k) (refs AMove (p +ₗ k) n)) s Q X.
  Proof.
    induction n as [|n IH] in k, fk |- *; intros Hp Hq Hk H1 H2 H3 H4 Hdis Hla Hld Hmv; simpl.
    - iIntros "Hw HK". iApply wp_ret. iDestruct "HK" as "[HK _]".
      replace (k + Z.of_nat 0) with k by lia. replace (a + k + Z.of_nat 0) with (a + k) by lia. by iApply ("HK" with "[%] Hw").
    - iIntros "Hw HK". wbind.
      rewrite (_ : q +ₗ k = addr (d + k)); [|rewrite Hq; [f_equal; lia|lia]].
      rewrite (_ : p +ₗ k = addr (a + k)); [|rewrite Hp; [f_equal; lia|lia]].
      iApply (wp_win_move_assign _ _ _ (a + k) (d + k) with "Hw"); [lia|lia| | |lia|].
      { rewrite (mv_live _ _ _ _ _ Hmv) Hla; [done|lia]. }
      { rewrite (mv_live _ _ _ _ _ Hmv) Hld; [done|lia]. }
      iSplit.
      + iIntros (f') "%Hf Hw".
        rewrite (_ : addr (d + k) +ₗ 1 = q +ₗ (k + 1)); [|rewrite Hq; [rewrite loc_add_assoc; f_equal; lia|lia]].
        rewrite (_ : addr (a + k) +ₗ 1 = p +ₗ (k + 1)); [|rewrite Hp; [rewrite loc_add_assoc; f_equal; lia|lia]].
        iApply (IH (k + 1) f' with "Hw").
        * by replace (a + (k + 1) + Z.of_nat n) with (a + k + Z.of_nat (S n)) by lia.
        * by replace (d + (k + 1) + Z.of_nat n) with (d + k + Z.of_nat (S n)) by lia.
        * lia.
        * lia.
        * lia.
        * lia.
        * lia.
        * lia.
        * intros i Hi. apply Hla. lia.
        * intros i Hi. apply Hld. lia.
        * replace (a + (k + 1)) with (a + k + 1) by lia. eapply moved_snoc; [lia|lia|done|].
          by replace (d + (a + k - a)) with (d + k) by lia.
        * replace (a + (k + 1) + Z.of_nat n) with (a + k + Z.of_nat (S n)) by lia.
          replace (k + 1 + Z.of_nat n) with (k + Z.of_nat (S n)) by lia. done.
      + iIntros (f') "%Hf Hw". iDestruct "HK" as "[_ HK]". iApply ("HK" with "[%] Hw").
        intros i. rewrite Hf (mv_live _ _ _ _ _ Hmv).
        destruct (decide (d <= i < d + k)) as [Hi|Hi].
        { rewrite Hld; [done|lia]. }
        unfold within. destruct (live f i); simpl; lia.
  Qed.
  Lemma wp_win_move addr lo hi a e d p p' q f s Q X :
    contig addr a e p -> contig addr d (d + (e - a)) q -> p' = p +ₗ (e - a) ->
    lo <= a -> a <= e -> e <= hi -> lo <= d -> d + (e - a) <= hi ->
    (d < a \/ e <= d \/ e <= a) ->
    (forall i, a <= i < e -> live f i = true) ->
    (forall i, d <= i < d + (e - a) -> live f i = true) ->
    win addr lo hi f ⊢
    ((∀ f', ⟦moved a e d f f'⟧ -∗ win addr lo hi f' -∗ Q (q +ₗ (e - a)) s) ∧
     (∀ f', ⟦shaken f f'⟧ -∗ win addr lo hi f' -∗ X EUser s)) -∗
    wp (move p p' q) s Q X.
  Proof.
    intros Hp Hq -> H1 H2 H3 H4 H5 Hdis Hla Hld. iIntros "Hw HK". unfold move. wbind.
    iApply (wp_range _ _ _ (Z.to_nat (e - a))); [f_equal; lia|]. wbeta.
    destruct (decide (a = e)) as [->|Hne].
    { rewrite Z.sub_diag /=. iApply wp_ret. iDestruct "HK" as "[HK _]". rewrite loc_add_0.
      iApply ("HK" with "[%] Hw"). apply moved_nil. lia. }
    assert (a + 0 + Z.of_nat (Z.to_nat (e - a)) = e) as He by lia.
    assert (d + 0 + Z.of_nat (Z.to_nat (e - a)) = d + (e - a)) as Hde by lia.
    iPoseProof (wp_win_move_loop addr lo hi a d p q (Z.to_nat (e - a)) 0 f f s Q X) as "H".
    { by rewrite He. }
    { by rewrite Hde. }
    { lia. } { lia. } { lia. } { lia. } { lia. } { lia. }
    { intros i Hi. apply Hla. lia. }
    { intros i Hi. apply Hld. lia. }
    { apply moved_nil. lia. }
    rewrite !loc_add_0 He. replace (0 + Z.of_nat (Z.to_nat (e - a))) with (e - a) by lia.
    iApply ("H" with "Hw HK").
  Qed.

  (** [std::move_backward] (private.hpp 1054-1063) within a window. *)
  Lemma wp_win_move_backward_loop addr lo hi a e d p q n f fk s Q X :
    contig addr a e p -> contig addr d (d + (e - a)) q ->
    a + Z.of_nat n <= e -> lo <= a -> e <= hi -> lo <= d -> d + (e - a) <= hi ->
    (a < d \/ d + (e - a) <= a) ->
    (forall i, a <= i < e -> live f i = true) ->
    (forall i, d <= i < d + (e - a) -> live f i = true) ->
    moved (a + Z.of_nat n) e (d + Z.of_nat n) f fk ->
    win addr lo hi fk ⊢
    ((∀ f', ⟦moved a e d f f'⟧ -∗ win addr lo hi f' -∗ Q q s) ∧
     (∀ f', ⟦shaken f f'⟧ -∗ win addr lo hi f' -∗ X EUser s)) -∗
    wp (move_backward_loop n p (q +ₗ Z.of_nat n)) s Q X.
  Proof.
    intros Hp Hq Hn H1 H2 H3 H4 Hdis Hla Hld Hmv.
    induction n as [|n IH] in Hn, fk, Hmv |- *; simpl.
    - iIntros "Hw HK". iApply wp_ret. iDestruct "HK" as "[HK _]". rewrite loc_add_0.
      replace (a + Z.of_nat 0) with a in Hmv by lia. replace (d + Z.of_nat 0) with d in Hmv by lia.
      by iApply ("HK" with "[%] Hw").
    - iIntros "Hw HK". wbind. rewrite loc_add_assoc. replace (Z.of_nat (S n) + -1) with (Z.of_nat n) by lia.
      assert (q +ₗ Z.of_nat n = addr (d + Z.of_nat n)) as Eq by (rewrite Hq; [f_equal; lia|lia]).
      assert (p +ₗ Z.of_nat n = addr (a + Z.of_nat n)) as Ep by (rewrite Hp; [f_equal; lia|lia]).
      rewrite Ep Eq.
      iApply (wp_win_move_assign _ _ _ (a + Z.of_nat n) (d + Z.of_nat n) with "Hw"); [lia|lia| | |lia|].
      { rewrite (mv_live _ _ _ _ _ Hmv) Hla; [done|lia]. }
      { rewrite (mv_live _ _ _ _ _ Hmv) Hld; [done|lia]. }
      iSplit.
      + iIntros (f') "%Hf Hw". rewrite -Eq. iApply (IH f' with "Hw HK"); [lia|].
        replace (d + Z.of_nat n) with (d + (a + Z.of_nat n - a)) by lia.
        eapply moved_snoc_back; [lia|lia|lia| |].
        * replace (a + Z.of_nat n + 1) with (a + Z.of_nat (S n)) by lia.
          replace (d + (a + Z.of_nat (S n) - a)) with (d + Z.of_nat (S n)) by lia. done.
        * by replace (d + (a + Z.of_nat n - a)) with (d + Z.of_nat n) by lia.
      + iIntros (f') "%Hf Hw". iDestruct "HK" as "[_ HK]". iApply ("HK" with "[%] Hw").
        intros i. rewrite Hf (mv_live _ _ _ _ _ Hmv).
        destruct (decide (d <= i < d + (e - a))) as [Hi|Hi].
        { rewrite Hld; [done|lia]. }
        unfold within. destruct (live f i); simpl; lia.
  Qed.
  Lemma wp_win_move_backward addr lo hi a e d p p' q' q f s Q X :
    contig addr a e p -> contig addr d (d + (e - a)) q -> p' = p +ₗ (e - a) -> q' = q +ₗ (e - a) ->
    lo <= a -> a <= e -> e <= hi -> lo <= d -> d + (e - a) <= hi ->
    (a < d \/ d + (e - a) <= a \/ e <= a) ->
    (forall i, a <= i < e -> live f i = true) ->
    (forall i, d <= i < d + (e - a) -> live f i = true) ->
    win addr lo hi f ⊢
    ((∀ f', ⟦moved a e d f f'⟧ -∗ win addr lo hi f' -∗ Q q s) ∧
     (∀ f', ⟦shaken f f'⟧ -∗ win addr lo hi f' -∗ X EUser s)) -∗
    wp (move_backward p p' q') s Q X.
  Proof.
    intros Hp Hq -> -> H1 H2 H3 H4 H5 Hdis Hla Hld. iIntros "Hw HK". unfold move_backward. wbind.
    iApply wp_range_len; [done|simpl; lia|]. simpl. wbeta.
    replace (p.2 + (e - a) - p.2) with (e - a) by lia.
    destruct (decide (a = e)) as [->|Hne].
    { rewrite Z.sub_diag /=. iApply wp_ret. iDestruct "HK" as "[HK _]". rewrite loc_add_0.
      iApply ("HK" with "[%] Hw"). apply moved_nil. lia. }
    iPoseProof (wp_win_move_backward_loop addr lo hi a e d p q (Z.to_nat (e - a)) f f s Q X) as "H".
    { done. } { done. } { lia. } { lia. } { lia. } { lia. } { lia. } { lia. } { done. } { done. }
    { apply moved_nil. lia. }
    replace (Z.of_nat (Z.to_nat (e - a))) with (e - a) by lia.
    iApply ("H" with "Hw HK").
  Qed.
End rules.
