(** * Cost of the constructors of the segmented containers *)

From iris.proofmode Require Import tactics.
From Verif Require Import CtorCost.
From Verif Require Export SegInsertCost CtorSpec.
From Coq Require Import Lia ZifyBool.
Open Scope Z_scope.

Section keeps.
  Context `{E : Env} `{SZ : SegSize}.
  Context {St : Type}.
  Lemma keeps_ptr p : keeps (read_ptr p : M St loc).
  Proof. intros s w r s' w'. unfold read_ptr. destruct (heap w !! p) as [[]|]; try done. by intros [= <- <- <-]. Qed.
  Lemma keeps_sub p q : keeps (ptr_sub p q : M St Z).
  Proof. intros s w r s' w'. unfold ptr_sub. case_match; try done. by intros [= <- <- <-]. Qed.
  Lemma keeps_assert b : keeps (assert_ b : M St unit).
  Proof. intros s w r s' w'. unfold assert_. case_match; try done. by intros [= <- <- <-]. Qed.
  Lemma keeps_ub {A} : keeps (ub : M St A).
  Proof. intros s w r s' w'. done. Qed.
  Lemma keeps_compose sg l : keeps (seg_compose sg l : M St sit).
  Proof.
    unfold seg_compose. apply keeps_bind; [apply keeps_ptr|]. intros b. apply keeps_bind; [apply keeps_sub|]. intros d.
    apply keeps_bind; [apply keeps_assert|]. intros _. case_match; [|apply keeps_ret].
    apply keeps_bind; [apply keeps_ptr|]. intros. apply keeps_ret.
  Qed.
  Lemma keeps_ucopy_ra srcs d : keeps (s_ucopy_ra srcs d : M St sit).
  Proof.
    unfold s_ucopy_ra, seg_out. destruct srcs as [|a srcs]; [apply keeps_ret|].
    generalize (length (a :: srcs)). generalize (a :: srcs). generalize (it_seg d) (it_loc d).
    intros sg p l fuel. revert sg p l. induction fuel as [|fuel IH]; intros sg p l; [apply keeps_ub|].
    cbn [out_loop]. apply keeps_bind; [apply keeps_ptr|]. intros b. apply keeps_bind; [apply keeps_sub|]. intros z. cbv zeta.
    apply keeps_bind; [apply keeps_try, keeps_uninit|]. intros p'. case_match; [apply keeps_compose|].
    apply keeps_bind; [apply keeps_ptr|]. intros b'. apply IH.
  Qed.
  Lemma keeps_in mk h first last d :
    keeps (seg_in (fun p q d => srcs <- range mk p q;; s_ucopy_ra srcs d)%prog h first last d : M St sit).
  Proof.
    assert (forall p q d, keeps (srcs <- range mk p q;; s_ucopy_ra srcs d : M St sit)%prog) as Hi.
    { intros p q d'. apply keeps_bind; [|intros; apply keeps_ucopy_ra].
      apply keeps_bind; [apply keeps_range_len|intros; apply keeps_ret]. }
    unfold seg_in. case_match; [apply Hi|].
    apply keeps_bind; [apply keeps_ptr|]. intros b. apply keeps_bind; [apply Hi|]. intros d1.
    apply keeps_bind; [apply keeps_range_len|]. intros n. apply keeps_bind; [|intros d2].
    - generalize (it_seg first +ₗ 1). revert d1. induction n as [|n IH]; intros d1 sg; [apply keeps_ret|].
      cbn [in_loop]. apply keeps_bind; [apply keeps_ptr|]. intros b'. apply keeps_bind; [apply keeps_try, Hi|]. intros d'. apply IH.
    - apply keeps_bind; [apply keeps_ptr|]. intros b'. apply keeps_try, Hi.
  Qed.

  Context (D : loc -> option loc).
  Lemma tri_ufill_n (s : St) first n a : tri D s (s_uninitialized_fill_n_a first n a) any (Z.of_nat n).
  Proof.
    unfold s_uninitialized_fill_n_a, seg_each_n. generalize (it_seg first) (it_loc first). intros sg l.
    assert (0 <= Z.of_nat n) as Hn by lia. revert Hn. generalize (undo_n first n : Z -> M St unit). generalize (Z.of_nat n). intros z h Hz.
    generalize (S n). intros fuel. revert s sg l z Hz. induction fuel as [|fuel IH]; intros s sg l z Hz; [apply tri_ub|].
    cbn [each_n_loop]. eapply tri_look; [apply looks_ptr|]. intros b _. eapply tri_look; [apply looks_sub|]. intros d _. cbv zeta.
    set (k := Z.min z d). eapply tri_weak; [|done|].
    - eapply (tri_bind D _ _ _ _ any (Z.of_nat (Z.to_nat k)) (z - Z.of_nat (Z.to_nat k))).
      + apply tri_try, tri_keeps; [apply keeps_uninit|apply takes_fill_n].
      + intros l' s' _. eapply tri_look; [apply looks_assert|]. intros ? Hk. cbv beta in Hk.
        destruct (z - k =? 0) eqn:Hzk.
        * eapply tri_weak; [apply tri_compose|done|lia].
        * eapply tri_look; [apply looks_ptr|]. intros b' _. eapply tri_weak; [apply IH; lia|done|lia].
    - lia.
  Qed.
End keeps.

Section storage.
  Context `{E : Env} `{SZ : SegSize}.
  (** The table and the segments for [n] elements. *)
  Definition tables (n : Z) : Z := n / SS + 2.
  Lemma takes_ptr {St} p : takes (read_ptr p : M St loc) 0 0.
  Proof. intros s w r s' w'. unfold read_ptr. destruct (heap w !! p) as [[]|]; try done. intros [= <- <- <-]. lia. Qed.
  Lemma takes_wptr {St} p q : takes (write_ptr p q : M St unit) 0 0.
  Proof. intros s w r s' w'. unfold write_ptr. repeat case_match; try done; intros [= <- <- <-]; simpl; lia. Qed.
  Lemma takes_alloc_loop first curr n : takes (sq_alloc_loop first curr n) (Z.of_nat n) (Z.of_nat n).
  Proof.
    revert curr. induction n as [|n IH]; intros curr; [apply takes_ret|]. cbn [sq_alloc_loop].
    apply takes_bind0; [apply takes_get|]. intros o. eapply takes_mono; [apply (takes_bind _ _ 1 1 (Z.of_nat n) (Z.of_nat n))|lia..].
    - apply takes_try. pose proof SS_pos. eapply takes_mono; [apply takes_allocate|..]; unfold block1; destruct (SS =? 0) eqn:?; lia.
    - intros q. apply takes_bind0; [apply takes_wptr|]. intros _. apply IH.
  Qed.
  Lemma takes_storage n : 0 <= n -> takes (sq_allocate_storage n) (tables n) (tables n).
  Proof.
    intros Hn. unfold sq_allocate_storage, tables. destruct (_ <? _); [apply takes_throw|]. cbv zeta.
    pose proof SS_pos. assert (0 <= n / SS) by (apply Z.div_pos; lia).
    apply takes_bind0; [apply takes_get|]. intros o.
    eapply takes_mono; [apply (takes_bind _ _ 1 1 (n / SS + 1) (n / SS + 1))|lia..].
    - eapply takes_mono; [apply takes_allocate|..]; unfold block1; destruct (_ =? 0) eqn:?; lia.
    - intros t. apply takes_bind0; [apply takes_mod|]. intros _. apply takes_try.
      eapply takes_mono; [apply (takes_bind _ _ (n / SS + 1) (n / SS + 1) 0 0)|lia..].
      + unfold sq_allocate_segments. intros s w r s' w' Hr. apply run_bind in Hr as (k & s1 & w1 & H1 & Hr).
        unfold range_len in H1. repeat case_match; try done. injection H1 as <- <- <-. apply takes_alloc_loop in Hr.
        unfold loc_add in Hr. cbn [fst snd] in Hr. lia.
      + intros _. apply takes_bind0; [apply takes_ptr|]. intros b. apply takes_bind0; [apply takes_ptr|]. intros e. apply takes_mod.
  Qed.
  (** Storage first, then a program that leaves the tables alone. *)
  Lemma storage_then n s (m : sgdata -> M sgdata sit) c h w u s' w' : 0 <= n ->
    (forall D o s, tri D s (m o) any c) ->
    (sq_allocate_storage n;; try_ (o <- getS;; nl <- m o;; sq_set_last nl) h)%prog s w = Ok u s' w' ->
    Z.of_nat (tick w') = Z.of_nat (tick w) + tables n + c.
  Proof.
    intros Hn Hm Hr. apply run_bind in Hr as ([] & s1 & w1 & H1 & Hr). apply (takes_storage n Hn) in H1.
    apply run_try, run_bind in Hr as (o & s2 & w2 & H2 & Hr). injection H2 as <- <- <-.
    apply run_bind in Hr as (nl & s2 & w2 & H2 & Hr).
    destruct (Hm (ptrs w1) s1 s1 w1 _ _ _ (fun p => eq_refl) H2) as (_ & _ & Ht). unfold sq_set_last, modS in Hr.
    injection Hr as _ _ <-. lia.
  Qed.
End storage.

Section ctor.
  Context `{E : Env} `{SZ : SegSize}.
  Lemma tables_0 : tables 0 = 2.
  Proof. unfold tables. pose proof SS_pos. rewrite Z.div_small; lia. Qed.
  Lemma new_segs_le : (new_segs <= 2)%nat.
  Proof. unfold new_segs. destruct (_ =? _); lia. Qed.
  Lemma append_loop_cost l s w u s' w' : sq_append_loop l s w = Ok u s' w' -> (tick w' <= tick w + 4 * length l)%nat.
  Proof.
    revert s w. induction l as [|a l IH]; intros s w Hr; cbn [sq_append_loop] in Hr.
    - injection Hr as _ _ <-. simpl. lia.
    - apply run_bind in Hr as (p & s1 & w1 & H1 & Hr). apply IH in Hr.
      pose proof (bounded_emplace_back a s w) as Hb. rewrite H1 in Hb. pose proof new_segs_le. simpl. lia.
  Qed.
  Lemma sq_ctor_cost ra c s w u s' w' : sq_ctor ra c s w = Ok u s' w' ->
    let n := length (k_elems c) in
    if k_input c then (tick w' <= tick w + 2 + 4 * n)%nat
    else Z.of_nat (tick w') = Z.of_nat (tick w) + Z.of_nat n + tables (Z.of_nat n).
  Proof.
    intros Hr n. subst n.
    assert (forall m a, sq_init_fill (Z.of_nat m) a s w = Ok u s' w' ->
      Z.of_nat (tick w') = Z.of_nat (tick w) + Z.of_nat m + tables (Z.of_nat m)) as Hfill.
    { intros m a H. apply (storage_then (Z.of_nat m) s _ (Z.of_nat m)) in H; [lia|lia|].
      intros D o s0. rewrite Nat2Z.id. apply tri_ufill_n. }
    destruct c as [a|a m [v|]|a vs|a vs]; cbn [sq_ctor k_input k_elems] in *.
    - apply takes_storage in Hr; [|lia]. change (length []) with 0%nat. change (Z.of_nat 0) with 0. lia.
    - apply Hfill in Hr. by rewrite replicate_length.
    - apply Hfill in Hr. by rewrite replicate_length.
    - apply (storage_then _ s _ (Z.of_nat (length vs))) in Hr; [lia|lia|].
      intros D o s0.
      eapply tri_weak; [apply tri_src_ucopy|done|by rewrite fmap_length].
    - apply run_bind in Hr as ([] & s1 & w1 & H1 & Hr). apply takes_storage in H1; [|lia]. rewrite tables_0 in H1.
      apply run_try, append_loop_cost in Hr. rewrite fmap_length in Hr. lia.
  Qed.

  Lemma run_on2 {S1 S2 T} (m : M S2 T) (x : S1) (y : S2) w r xy w' : on2 m (x, y) w = Ok r xy w' ->
    exists y', xy = (x, y') /\ m y w = Ok r y' w'.
  Proof. unfold on2. cbn. destruct (m y w); try done. intros [= <- <- <-]. eauto. Qed.
  (** The same with the source range in another object, as it is at the end. *)
  Lemma copied_cost mk (y : sgdata) dev B B' n x w hf hf' xy w' h hh : holds (is_seg dev) y B w hf -> holds (is_seg dev) xy.2 B' w' hf' ->
    length (s_elems B') = length (s_elems B) -> n = length (s_elems B) ->
    (n <- on2 sq_size;;
     on1 (sq_allocate_storage n;;
          try_ (o <- getS;;
                nl <- seg_in (fun p q d => srcs <- range mk p q;; s_ucopy_ra srcs d) (h o) (sg_first y) (sg_last y) (sg_first o);;
                sq_set_last nl) hh))%prog (x, y) w = Ok tt xy w' ->
    Z.of_nat (tick w') = Z.of_nat (tick w) + Z.of_nat n + tables (Z.of_nat n).
  Proof.
    intros Hy Hy' HB -> Hr. apply run_bind in Hr as (z & xy1 & w1 & H1 & Hr). apply run_on2 in H1 as (y1 & -> & H1).
    destruct (seg_dims dev _ _ _ _ Hy) as (tb & lo & hi & Hd & _).
    destruct (look_size _ _ _ _ _ _ _ Hd w _ _ _ (fun p => eq_refl) H1) as (-> & -> & ->).
    apply run_on1 in Hr as (x1 & -> & Hr). cbn [snd] in Hy'.
    destruct (seg_dims dev _ _ _ _ Hy') as (tb' & lo' & hi' & Hd' & _).
    apply run_bind in Hr as ([] & s1 & w1 & H2 & Hr). apply takes_storage in H2; [|apply Nat2Z.is_nonneg].
    apply run_try, run_bind in Hr as (o & s2 & w2 & H3 & Hr). injection H3 as <- <- <-.
    apply run_bind in Hr as (nl & s2 & w2 & H3 & Hr). unfold sq_set_last, modS in Hr. injection Hr as _ <-.
    assert (tab_in (ptrs w2) w1) as Ht by (intros p; by rewrite (keeps_in _ _ _ _ _ _ _ _ _ _ H3)).
    assert (tri (ptrs w2) s1 (seg_in (fun p q d => srcs <- range mk p q;; s_ucopy_ra srcs d)%prog (h s1) (sg_first y) (sg_last y) (sg_first s1)) any
      (lo' * SS + s_front B' + s_size B' - (lo' * SS + s_front B'))) as Htri.
    { eapply tri_in; [|apply (dm_first _ _ _ _ _ _ _ Hd')|apply (dm_last _ _ _ _ _ _ _ Hd')].
      intros s' p q d'. eapply tri_look; [apply looks_range|]. intros l <-. apply tri_ucopy_ra. }
    destruct (Htri w1 _ _ _ Ht H3) as (_ & _ & Hc). change (s_size B') with (Z.of_nat (length (s_elems B'))) in Hc.
    change (s_size B) with (Z.of_nat (length (s_elems B))) in H2. rewrite HB in Hc. lia.
  Qed.

  Lemma sq_ctor2_cost dev c y B B' w hf hf' x y' w' : holds (is_seg dev) y B w hf ->
    (k2_same c (s_alloc B) = false -> holds (is_seg dev) y' B' w' hf' /\ length (s_elems B') = length (s_elems B)) ->
    build2 (segvec true) c y w = Ok x y' w' ->
    let n := length (s_elems B) in
    if k2_same c (s_alloc B) then tick w' = (tick w + 2)%nat
    else Z.of_nat (tick w') = Z.of_nat (tick w) + Z.of_nat n + tables (Z.of_nat n).
  Proof.
    intros Hy Hy' Hr n. apply constructed_from in Hr.
    assert (sg_alloc y = s_alloc B) as Ha.
    { destruct Hy as (_ & m & (tb & cs1 & cs2 & HI & _) & _). apply HI. }
    assert (forall a xy w', sq_initialize_move (sg_fresh a, y) w = Ok tt xy w' ->
      (a <> s_alloc B -> holds (is_seg dev) xy.2 B' w' hf' /\ length (s_elems B') = length (s_elems B)) ->
      if Nat.eqb a (s_alloc B) then tick w' = (tick w + 2)%nat
      else Z.of_nat (tick w') = Z.of_nat (tick w) + Z.of_nat n + tables (Z.of_nat n)) as Hmove.
    { clear Hr Hy' w' y' x. intros a xy w' Hr Hy'. apply run_bind in Hr as (oo & xy1 & w1 & H1 & Hr). injection H1 as <- <- <-.
      cbn [fst snd sg_alloc sg_fresh] in Hr. rewrite Ha in Hr. destruct (Nat.eqb a (s_alloc B)) eqn:He.
      - apply run_bind in Hr as ([] & xy1 & w1 & H1 & Hr). apply run_on1 in H1 as (x1 & -> & H1).
        apply takes_storage in H1; [|lia]. rewrite tables_0 in H1. injection Hr as _ <-. lia.
      - destruct Hy' as [Hy' HB]; [by apply Nat.eqb_neq|]. by apply (copied_cost _ _ _ _ _ _ _ _ _ _ _ _ _ _ Hy Hy' HB eq_refl Hr). }
    assert (forall a xy w', sq_initialize_copy (sg_fresh a, y) w = Ok tt xy w' ->
      holds (is_seg dev) xy.2 B' w' hf' -> length (s_elems B') = length (s_elems B) ->
      Z.of_nat (tick w') = Z.of_nat (tick w) + Z.of_nat n + tables (Z.of_nat n)) as Hcopy.
    { clear Hr Hy' w' y' x. intros a xy w' Hr Hy' HB. apply run_bind in Hr as (oo & xy1 & w1 & H1 & Hr). injection H1 as <- <- <-.
      cbn [fst snd] in Hr.
      by apply (copied_cost _ _ _ _ _ _ _ _ _ _ _ _ (fun o d => s_destroy_a (sg_first o) d) _ Hy Hy' HB eq_refl Hr). }
    destruct c as [|a| |a]; cbn [sq_ctor2 k2_same] in *;
      apply run_bind in Hr as (oo & xy1 & w1 & H1 & Hr); injection H1 as <- <- <-;
      apply run_bind in Hr as ([] & xy1 & w1 & H1 & Hr); injection H1 as <- <-; cbn [snd] in Hr.
    - destruct (Hy' eq_refl) as [H1 H2]. by eapply Hcopy.
    - destruct (Hy' eq_refl) as [H1 H2]. by eapply Hcopy.
    - apply Hmove in Hr; rewrite Ha in Hr; [by rewrite Nat.eqb_refl in Hr|done].
    - apply Hmove in Hr; [done|]. intros Hne. apply Hy'. by apply Nat.eqb_neq.
  Qed.
End ctor.

Section final.
  Context `{E : Env} `{SZ : SegSize}.
  Lemma holds2_second dev x A y B w hf : holds2 (is_seg dev) x A y B w hf -> exists hf', holds (is_seg dev) y B w hf'.
  Proof.
    intros (Hwf & m1 & m2 & H1 & H2 & Hd1 & Hd2 & Hd3 & Hh). exists (m1 ∪ hf). split; [done|]. exists m2.
    split_and!; [done|by apply map_disjoint_union_r|]. by rewrite Hh assoc_L (map_union_comm m1 m2).
  Qed.
  (** What is left of the source of a copy or of an element-wise move. *)
  Lemma k2_left c B A B' : sv_k2_post c B A B' -> k2_same c (s_alloc B) = false -> length (s_elems B') = length (s_elems B).
  Proof.
    intros [_ H] Hk. destruct c as [|a| |a]; cbn in *; [by destruct H as [_ ->]|by destruct H as [_ ->]|done|].
    destruct (decide _) as [->|]; [by rewrite Nat.eqb_refl in Hk|]. destruct H as (_ & _ & _ & _ & ->). by rewrite fmap_length.
  Qed.
  Lemma seg_ctor_cost ra c w x u w' : build (segvec ra) c tt w = Ok x u w' ->
    let n := length (k_elems c) in
    if k_input c then (tick w' <= tick w + 2 + 4 * n)%nat
    else Z.of_nat (tick w') = Z.of_nat (tick w) + Z.of_nat n + tables (Z.of_nat n).
  Proof. intros Hr. apply constructed in Hr. by eapply sq_ctor_cost. Qed.
  Lemma segd_ctor_cost ra c w x u w' : build (segdev ra) c tt w = Ok x u w' ->
    let n := length (k_elems c) in
    if k_input c then (tick w' <= tick w + 2 + 4 * n)%nat
    else Z.of_nat (tick w') = Z.of_nat (tick w) + Z.of_nat n + tables (Z.of_nat n).
  Proof. intros Hr. apply constructed in Hr. by eapply sq_ctor_cost. Qed.
  Lemma seg_ctor2_cost ra c y B w hf x y' w' : holds (is_seg false) y B w hf -> build2 (segvec ra) c y w = Ok x y' w' ->
    let n := length (s_elems B) in
    if k2_same c (s_alloc B) then tick w' = (tick w + 2)%nat
    else Z.of_nat (tick w') = Z.of_nat (tick w) + Z.of_nat n + tables (Z.of_nat n).
  Proof.
    intros Hy Hr. pose proof (seg_ctor2_safe ra c y B w hf Hy) as H. rewrite Hr in H. destruct H as (A & B' & H1 & H2 & _).
    apply holds2_second in H1 as [hf' H1]. eapply (sq_ctor2_cost false); [done| |exact Hr]. intros Hk. split; [exact H1|by eapply k2_left].
  Qed.
  Lemma segd_ctor2_cost ra c y B w hf x y' w' : holds (is_seg true) y B w hf -> build2 (segdev ra) c y w = Ok x y' w' ->
    let n := length (s_elems B) in
    if k2_same c (s_alloc B) then tick w' = (tick w + 2)%nat
    else Z.of_nat (tick w') = Z.of_nat (tick w) + Z.of_nat n + tables (Z.of_nat n).
  Proof.
    intros Hy Hr. pose proof (segd_ctor2_safe ra c y B w hf Hy) as H. rewrite Hr in H. destruct H as (A & B' & H1 & H2 & _).
    apply holds2_second in H1 as [hf' H1]. eapply (sq_ctor2_cost true); [done| |exact Hr]. intros Hk. split; [exact H1|by eapply k2_left].
  Qed.
End final.
