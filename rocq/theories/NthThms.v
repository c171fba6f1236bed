(** * [nth] and [index_of] *)

From iris.proofmode Require Import tactics.
From Verif Require Export NthModel ResizeCost RelThms SegSwapCost.
From Coq Require Import Lia ZifyBool.
Open Scope Z_scope.

Section contiguous.
  Context `{E : Env}.
  (** [nth i] succeeds exactly if [i] is at most the number of elements. [index_of] takes the
      position back to [i], and the element there is element [i]. Nothing changes. *)
  Definition nth_right {S P} (nth : Z -> M S P) (index : P -> M S Z) (at_ : P -> loc) (l : list V) (x : S) (w : world) (i : Z) : Prop :=
    match nth i x w with
    | Ok p x' w' => x' = x /\ w' = w /\ i <= Z.of_nat (length l) /\ index p x w = Ok i x w /\
        forall v, l !! Z.to_nat i = Some v -> read (at_ p) x w = Ok v x w
    | Exn _ _ _ => False
    | UB => Z.of_nat (length l) < i
    end.
  Lemma vd_nth_right (x : vdata) l w i : 0 <= i -> v_last x = v_first x +ₗ Z.of_nat (length l) ->
    (forall k v, l !! k = Some v -> heap w !! (v_first x +ₗ Z.of_nat k) = Some (Live v)) ->
    nth_right nth_ index_of_ (fun p => p) l x w i.
  Proof.
    intros Hi Hl Hr. unfold nth_right, nth_, index_of_, size_, bind, getS, ptr_sub. rewrite Hl. cbn [loc_add fst snd].
    rewrite Z.eqb_refl. unfold ret, assert_. replace (_ <=? _) with (i <=? Z.of_nat (length l)) by lia.
    destruct (Z.leb_spec i (Z.of_nat (length l))); [|done]. cbn [ret loc_add fst snd]. rewrite !Z.eqb_refl.
    split_and!; [done|done|done| |].
    - replace (_ && _) with true by lia. unfold ret. f_equal. lia.
    - intros v Hv. apply Hr in Hv. unfold read. rewrite Z2Nat.id in Hv; [|done]. by rewrite Hv.
  Qed.
  Lemma dd_nth_right (x : ddata) l w i : 0 <= i -> d_last x = d_first x +ₗ Z.of_nat (length l) ->
    (forall k v, l !! k = Some v -> heap w !! (d_first x +ₗ Z.of_nat k) = Some (Live v)) ->
    nth_right dv_nth dv_index_of (fun p => p) l x w i.
  Proof.
    intros Hi Hl Hr. unfold nth_right, dv_nth, dv_index_of, dv_size, bind, getS, ptr_sub. rewrite Hl. cbn [loc_add fst snd].
    rewrite Z.eqb_refl. unfold ret, assert_. replace (_ <=? _) with (i <=? Z.of_nat (length l)) by lia.
    destruct (Z.leb_spec i (Z.of_nat (length l))); [|done]. cbn [ret loc_add fst snd]. rewrite !Z.eqb_refl.
    split_and!; [done|done|done| |].
    - replace (_ && _) with true by lia. unfold ret. f_equal. lia.
    - intros v Hv. apply Hr in Hv. unfold read. rewrite Z2Nat.id in Hv; [|done]. by rewrite Hv.
  Qed.
  Lemma holds_cell {O A} (R : O -> A -> heapm -> Prop) x a w hf p c :
    holds R x a w hf -> (forall m, R x a m -> m !! p = Some c) -> heap w !! p = Some c.
  Proof. intros (_ & m & Hm & _ & ->) Hp. apply lookup_union_Some_l, Hp, Hm. Qed.
  Lemma buffer_live l c k v : l !! k = Some v -> Z.of_nat (length l) <= c -> buffer_cell l c (Z.of_nat k) = Some (Live v).
  Proof.
    intros Hk Hc. apply lookup_lt_Some in Hk as Hlt. unfold buffer_cell. rewrite decide_True; [|lia]. by rewrite Nat2Z.id Hk.
  Qed.
  Lemma vec_nth_right x (A : vabs) w hf i : holds is_vec x A w hf -> 0 <= i ->
    nth_right nth_ index_of_ (fun p => p) (q_elems A) x w i.
  Proof.
    intros Hx Hi. pose proof Hx as (_ & m & Hm & _). apply vd_nth_right; [done|by rewrite (iv_first _ _ _ Hm) (iv_last _ _ _ Hm)|].
    intros k v Hk. eapply holds_cell; [exact Hx|]. clear m Hm. intros m Hm. rewrite (iv_mem _ _ _ Hm) (iv_first _ _ _ Hm).
    pose proof (iv_size _ _ _ Hm). apply lookup_lt_Some in Hk as Hlt. destruct (iv_block _ _ _ Hm) as [_ H0]; [lia|].
    unfold vec_cell. cbn [loc_add fst snd]. rewrite decide_True //. rewrite decide_False; [|unfold hdr_off; lia].
    rewrite H0. apply buffer_live; [done|lia].
  Qed.
  Lemma compact_nth_right x (A : vabs) w hf i : holds is_compact x A w hf -> 0 <= i ->
    nth_right nth_ index_of_ (fun p => p) (q_elems A) x w i.
  Proof. intros (Hw & m & [Hm _] & Hr). apply vec_nth_right with hf. split; [done|]. by exists m. Qed.
  Lemma static_nth_right N x (A : tabs) w hf i : holds (is_static N) x A w hf -> 0 <= i ->
    nth_right nth_ index_of_ (fun p => p) A.2 x.2 w i.
  Proof.
    intros Hx Hi. pose proof Hx as (_ & m & Hm & _). apply vd_nth_right; [done|by rewrite (it_data _ _ _ _ Hm)|].
    intros k v Hk. eapply holds_cell; [exact Hx|]. clear m Hm. intros m Hm. rewrite (it_mem _ _ _ _ Hm) (it_data _ _ _ _ Hm).
    pose proof (it_size _ _ _ _ Hm). apply lookup_lt_Some in Hk as Hlt. pose proof (it_ib _ _ _ _ Hm) as Hb.
    rewrite decide_False in Hb; [|lia]. cbn [v_first loc_add fst snd]. rewrite decide_True //. destruct Hb as [_ ->].
    apply buffer_live; [done|lia].
  Qed.
  Lemma small_nth_right N x (A : SmallSpec.sabs) w hf i : holds (is_small N) x A w hf -> 0 <= i ->
    nth_right nth_ index_of_ (fun p => p) (q_elems A.2) x.2 w i.
  Proof.
    intros Hx Hi. pose proof Hx as (_ & m & Hm & _). apply vd_nth_right; [done|by rewrite (is_first _ _ _ _ Hm) (is_last _ _ _ _ Hm)|].
    intros k v Hk. eapply holds_cell; [exact Hx|]. clear m Hm. intros m Hm. rewrite (is_mem _ _ _ _ Hm) (is_first _ _ _ _ Hm).
    pose proof (is_size _ _ _ _ Hm). apply lookup_lt_Some in Hk as Hlt. pose proof (is_ib _ _ _ _ Hm) as Hb.
    unfold small_cell. cbn [loc_add fst snd].
    destruct (is_state _ _ _ _ Hm) as [[Hc Hp]|[[Hc _]|(Hc & Hp & H0)]]; [|lia|].
    - rewrite Hp. rewrite decide_True //. rewrite decide_True; [|unfold inside; lia].
      rewrite decide_False in Hb; [|lia]. destruct Hb as [_ ->]. apply buffer_live; [done|lia].
    - rewrite decide_False; [|destruct (decide (N = 0%nat)); [rewrite Hb; cbn; lia|lia]].
      rewrite decide_False; [|unfold inside; lia]. unfold vec_cell. cbn [loc_add fst snd]. rewrite decide_True //.
      rewrite decide_False; [|unfold hdr_off; lia]. rewrite H0. apply buffer_live; [done|lia].
  Qed.
  Lemma dev_nth_right x (A : dabs) w hf i : holds is_dev x A w hf -> 0 <= i ->
    nth_right dv_nth dv_index_of (fun p => p) (e_elems A) x w i.
  Proof.
    intros Hx Hi. pose proof Hx as (_ & m & Hm & _). apply dd_nth_right; [done|rewrite (id_first _ _ _ Hm) (id_last _ _ _ Hm)|].
    { unfold loc_add. cbn [fst snd]. f_equal. lia. }
    intros k v Hk. eapply holds_cell; [exact Hx|]. clear m Hm. intros m Hm. rewrite (id_mem _ _ _ Hm) (id_first _ _ _ Hm).
    pose proof (id_size _ _ _ Hm). pose proof (id_front _ _ _ Hm). apply lookup_lt_Some in Hk as Hlt. destruct (id_block _ _ _ Hm) as [_ Hz]; [lia|].
    unfold dev_cell. cbn [loc_add fst snd]. rewrite decide_True //. rewrite Hz. rewrite decide_False; [|unfold hdr_off; lia].
    rewrite decide_True; [|lia]. rewrite decide_False; [|lia]. replace (Z.to_nat _) with k by lia. by rewrite Hk.
  Qed.
End contiguous.

Section segmented.
  Context `{E : Env} {SZ : SegSize}.
  Lemma seg_run_pure {B} dev x A w hf (m : M sgdata B) (P : B -> Prop) :
    holds (is_seg dev) x A w hf ->
    (forall T, sg_at T (s_segs A) (s_front A) (s_elems A) ⊢
       wp m (sobj T (s_segs A) (s_front A) (zlen (s_elems A))) (fun r _ => ⟦P r⟧ ∗ True) (fun _ _ => False)) ->
    match m x w with Ok r _ _ => P r | _ => False end.
  Proof.
    intros (Hwf & h & Hm & Hd & Hh) Hwp. apply is_seg_iff in Hm. destruct A as [a segs f l].
    apply ex_holds in Hm as (T & HT). apply pure_sep_holds in HT as [(-> & Ha & HI) Hs].
    cbn [s_alloc s_segs s_front s_elems] in *. subst a.
    pose proof (wp_run _ _ _ _ h hf w (wp_entails _ _ _ _ _ h (Hwp T) Hs) Hwf Hd Hh) as Hrun.
    destruct (m _ w) as [r x' w'|e x' w'|]; [|by destruct Hrun as (? & _ & _ & _ & [])|done].
    destruct Hrun as (h' & _ & _ & _ & HQ). by apply pure_sep_holds in HQ as [HP _].
  Qed.
  Lemma seg_size_run dev x A w hf : holds (is_seg dev) x A w hf -> sq_size x w = Ok (s_size A) x w.
  Proof.
    intros Hx. destruct (seg_dims dev _ _ _ _ Hx) as (tb & lo & hi & Hd & _).
    assert (match sq_size x w with Ok r _ _ => True | _ => False end) as H1.
    { eapply (seg_run_pure dev _ _ _ _ _ (fun _ => True)); [exact Hx|]. intros T. iIntros "Hs". iDestruct (sg_at_open with "Hs") as "(%Hb & Hf & Hw)". destruct Hb as [Hp Hb].
      iApply (wp_sq_size with "Hw"); [lia..|]. iIntros "_". iSplit; done. }
    destruct (sq_size x w) as [z x' w'|e x' w'|] eqn:Hr; [|done..].
    by destruct (look_size _ _ _ _ _ _ _ Hd w _ _ _ (fun p => eq_refl) Hr) as (-> & -> & ->).
  Qed.
  Lemma seg_nth_gen dev nth x A w hf i :
    (forall tb lo hi, dims (ptrs w) tb lo hi x (s_front A) (s_size A) ->
       look_in (ptrs w) x (nth i) (fun p => posn (ptrs w) tb p (lo * SS + s_front A + i))) ->
    (s_size A < i -> nth i x w = UB) ->
    (forall T Q X, i <= zlen (s_elems A) ->
       s_front A + zlen (s_elems A) < slots (s_segs A) -> 0 <= s_front A ->
       swin (t_at T) (s_segs A) (at_pos (s_front A) (s_elems A)) ⊢
       (swin (t_at T) (s_segs A) (at_pos (s_front A) (s_elems A)) -∗
        Q (sitr (t_at T) (s_segs A) (s_front A + i)) (sobj T (s_segs A) (s_front A) (zlen (s_elems A)))) -∗
       wp (nth i) (sobj T (s_segs A) (s_front A) (zlen (s_elems A))) Q X) ->
    holds (is_seg dev) x A w hf -> 0 <= i ->
    nth_right nth sq_offset it_deref (s_elems A) x w i.
  Proof.
    intros Hlook Hin Hwp Hx Hi. destruct (seg_dims dev _ _ _ _ Hx) as (tb & lo & hi & Hd & _).
    specialize (Hlook _ _ _ Hd). unfold nth_right. destruct (Z.le_gt_cases i (zlen (s_elems A))) as [Hle|Hgt].
    2:{ rewrite Hin //. }
    assert (match (p <- nth i;; sq_offset p)%prog x w with Ok r _ _ => r = i | _ => False end) as H1.
    { eapply (seg_run_pure dev); [exact Hx|]. intros T. iIntros "Hs". iDestruct (sg_at_open with "Hs") as "(%Hb & Hf & Hw)". destruct Hb as [Hp Hb].
      wbind. iApply (Hwp with "Hw"); [done..|]. iIntros "Hw". wbeta.
      iApply (wp_sq_offset _ _ _ _ (Z.to_nat i) with "Hw"); [done|lia|done|f_equal; lia|]. iIntros "_". iSplit; [|done]. iPureIntro. lia. }
    assert (forall v, s_elems A !! Z.to_nat i = Some v -> match (p <- nth i;; read (it_deref p))%prog x w with Ok r _ _ => r = v | _ => False end) as H2.
    { intros v Hv. eapply (seg_run_pure dev); [exact Hx|]. intros T. iIntros "Hs". iDestruct (sg_at_open with "Hs") as "(%Hb & Hf & Hw)". destruct Hb as [Hp Hb].
      wbind. iApply (Hwp with "Hw"); [done..|]. iIntros "Hw". wbeta.
      iApply (wp_sg_read _ _ _ _ (Z.to_nat i) v with "[Hf Hw]"); [done|unfold it_deref, sitr; cbn [it_loc]; f_equal; lia|by iFrame|].
      iIntros "_". iSplit; done. }
    unfold bind in H1, H2. destruct (nth i x w) as [p x' w'|e x' w'|] eqn:Hr; [|done..].
    destruct (Hlook _ _ _ _ (fun p => eq_refl) Hr) as (-> & -> & Hp). split_and!; [done|done|done| |].
    - destruct (sq_offset p x w) as [k x' w'|e x' w'|] eqn:Ho; [|done..].
      by destruct (look_offset _ _ _ _ _ _ _ Hd _ _ Hp _ _ _ _ (fun p => eq_refl) Ho) as (-> & -> & ->).
    - intros v Hv. specialize (H2 v Hv). unfold read in *. destruct (heap w !! it_deref p) as [[]|]; naive_solver.
  Qed.
  Lemma seg_nth_right x A w hf i : holds (is_seg false) x A w hf -> 0 <= i ->
    nth_right sv_nth sq_offset it_deref (s_elems A) x w i.
  Proof.
    intros Hx Hi. destruct (seg_dims false _ _ _ _ Hx) as (_ & _ & _ & _ & _ & Hf). specialize (Hf eq_refl).
    eapply seg_nth_gen; [| | |exact Hx|done].
    - intros tb lo hi Hd. by eapply look_sv_nth.
    - intros Hlt. unfold sv_nth, bind at 1. rewrite (seg_size_run _ _ _ _ _ Hx). unfold bind at 1. unfold assert_.
      by replace (_ <=? _) with false by lia.
    - intros T Q X Hle Hb Hp. rewrite Hf in Hb |- *. rewrite Z.add_0_l. apply wp_sv_nth; lia.
  Qed.
  Lemma segd_nth_right x A w hf i : holds (is_seg true) x A w hf -> 0 <= i ->
    nth_right sd_nth sq_offset it_deref (s_elems A) x w i.
  Proof.
    intros Hx Hi. eapply seg_nth_gen; [| | |exact Hx|done].
    - intros tb lo hi Hd. by eapply look_sd_nth.
    - intros Hlt. unfold sd_nth, bind at 1. rewrite (seg_size_run _ _ _ _ _ Hx). unfold bind at 1. unfold assert_.
      by replace (_ <=? _) with false by lia.
    - intros T Q X Hle Hb Hp. apply wp_sd_nth; lia.
  Qed.
End segmented.
