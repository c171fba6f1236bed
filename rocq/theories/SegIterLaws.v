(** * The laws of segmented iterators

    In a world whose memory holds the segment table, every operation of
    [segmented_iterator] (private.hpp 433-660) is computed by arithmetic on
    positions. *)

From Verif Require Export SegIter.
From Coq Require Import ZifyBool.
Open Scope Z_scope.

Section laws.
  Context `{E : Env} `{SZ : SegSize}.
  Context {St : Type}.
  Implicit Types segs : list loc.

  (** The memory of [w] holds a table at [t] with the segments [segs]. *)
  Definition has_table (w : world) (t : loc) segs : Prop :=
    forall k, 0 <= k < Z.of_nat (length segs) -> heap w !! (t +ₗ k) = Some (Ptr (segs !!! Z.to_nat k)).
  (** Different segments are different blocks of memory. *)
  Definition separate segs : Prop := NoDup (fst <$> segs).
  (** [x] denotes slot number [i], counted over all segments. *)
  Definition denotes (t : loc) segs (x : sit) (i : Z) : Prop :=
    0 <= i < SS * Z.of_nat (length segs) /\
    it_seg x = t +ₗ (i / SS) /\ it_loc x = (segs !!! Z.to_nat (i / SS)) +ₗ (i mod SS).

  Lemma denotes_at t segs x i :
    denotes t segs x i -> exists k r, i = k * SS + r /\ 0 <= r < SS /\ 0 <= k < Z.of_nat (length segs) /\
      x = It (t +ₗ k) ((segs !!! Z.to_nat k) +ₗ r).
  Proof.
    intros (Hb & Hs & Hl). destruct (pos_split i) as (k & r & Hk & Hr). exists k, r.
    rewrite (pos_div i k r) // in Hs Hl. rewrite (pos_mod i k r) // in Hl.
    pose proof (seg_bound i k r (Z.of_nat (length segs)) Hk Hr ltac:(lia)).
    split_and!; [done|lia|lia|lia|lia|]. destruct x; simpl in *. by subst.
  Qed.
  Lemma at_denotes t segs i k r :
    i = k * SS + r -> 0 <= r < SS -> 0 <= k < Z.of_nat (length segs) ->
    denotes t segs (It (t +ₗ k) ((segs !!! Z.to_nat k) +ₗ r)) i.
  Proof.
    intros Hi Hr Hk. pose proof SS_pos. split; [nia|]. simpl. rewrite (pos_div i k r) // (pos_mod i k r) //.
  Qed.
  Lemma denotes_fun t segs x y i : denotes t segs x i -> denotes t segs y i -> x = y.
  Proof. intros (_ & H1 & H2) (_ & H3 & H4). destruct x, y; simpl in *. congruence. Qed.

  Lemma run_read w t segs k p (s : St) :
    has_table w t segs -> p = t +ₗ k -> 0 <= k < Z.of_nat (length segs) ->
    read_ptr p s w = Ok (segs !!! Z.to_nat k) s w.
  Proof. intros Ht -> Hk. unfold read_ptr. by rewrite Ht. Qed.
  Lemma run_sub p z (s : St) w : ptr_sub (p +ₗ z) p s w = Ok z s w.
  Proof. unfold ptr_sub. simpl. rewrite Z.eqb_refl. unfold ret. f_equal. lia. Qed.
  Lemma run_sub2 p y z (s : St) w : ptr_sub (p +ₗ y) (p +ₗ z) s w = Ok (y - z) s w.
  Proof. unfold ptr_sub. simpl. rewrite Z.eqb_refl. unfold ret. f_equal. lia. Qed.

  Context (w : world) (t : loc) (segs : list loc) (Ht : has_table w t segs).

  Lemma run_add x i n (s : St) :
    denotes t segs x i -> 0 <= i + n < SS * Z.of_nat (length segs) ->
    exists y, it_add x n s w = Ok y s w /\ denotes t segs y (i + n).
  Proof.
    intros Hx Hb. destruct (denotes_at _ _ _ _ Hx) as (k & r & Hi & Hr & Hk & ->). unfold it_add, bind. simpl.
    rewrite (run_read w t segs k) // run_sub.
    destruct ((0 <=? r + n) && (r + n <? SS)) eqn:Hin.
    - eexists. split; [done|]. rewrite loc_add_assoc. apply at_denotes; lia.
    - assert (exists m, (if 0 <? r + n then Z.quot (r + n) SS else - Z.quot (- (r + n) - 1) SS - 1) = m /\
        0 <= r + n - m * SS < SS) as (m & -> & Hm).
      { pose proof SS_pos. eexists. split; [done|]. destruct (Z.ltb_spec 0 (r + n)).
        - rewrite Z.quot_div_nonneg; [|lia..].
          pose proof (Z.div_mod (r + n) (@SS SZ) ltac:(lia)). pose proof (Z.mod_pos_bound (r + n) (@SS SZ) ltac:(lia)). lia.
        - rewrite Z.quot_div_nonneg; [|lia..].
          pose proof (Z.div_mod (- (r + n) - 1) (@SS SZ) ltac:(lia)).
          pose proof (Z.mod_pos_bound (- (r + n) - 1) (@SS SZ) ltac:(lia)). lia. }
      pose proof (seg_bound (SZ:=SZ) (i + n) (k + m) (r + n - m * @SS SZ) (Z.of_nat (length segs)) ltac:(nia) ltac:(lia) ltac:(lia)).
      rewrite (run_read w t segs (k + m)); [|done|by rewrite loc_add_assoc|lia].
      eexists. split; [done|]. rewrite loc_add_assoc. apply at_denotes; lia.
  Qed.
  Lemma run_minus x i n (s : St) :
    denotes t segs x i -> 0 <= i - n < SS * Z.of_nat (length segs) ->
    exists y, it_minus x n s w = Ok y s w /\ denotes t segs y (i - n).
  Proof. intros Hx Hb. by apply run_add. Qed.
  Lemma run_index x i n (s : St) :
    denotes t segs x i -> 0 <= i + n < SS * Z.of_nat (length segs) ->
    exists y, it_add x n s w = Ok y s w /\ it_index x n s w = Ok (it_deref y) s w.
  Proof.
    intros Hx Hb. destruct (run_add x i n s Hx Hb) as (y & Hy & _). exists y. split; [done|].
    unfold it_index, bind. by rewrite Hy.
  Qed.
  Lemma run_succ x i (s : St) :
    denotes t segs x i -> i + 1 < SS * Z.of_nat (length segs) ->
    exists y, it_succ x s w = Ok y s w /\ denotes t segs y (i + 1).
  Proof.
    intros Hx Hb. destruct (denotes_at _ _ _ _ Hx) as (k & r & Hi & Hr & Hk & ->). unfold it_succ, bind. simpl.
    pose proof SS_pos. rewrite (run_read w t segs k) //. rewrite loc_add_assoc loc_eqb_add.
    destruct (Z.eqb_spec (r + 1) SS) as [He|He].
    - pose proof (seg_bound (SZ:=SZ) (i + 1) (k + 1) 0 (Z.of_nat (length segs)) ltac:(nia) ltac:(lia) ltac:(lia)).
      rewrite (run_read w t segs (k + 1)); [|done|by rewrite loc_add_assoc|lia].
      eexists. split; [done|]. rewrite loc_add_assoc -(loc_add_0 (segs !!! _)). apply at_denotes; lia.
    - eexists. split; [done|]. apply at_denotes; lia.
  Qed.
  Lemma run_pred x i (s : St) :
    denotes t segs x i -> 0 < i ->
    exists y, it_pred x s w = Ok y s w /\ denotes t segs y (i - 1).
  Proof.
    intros Hx Hb. destruct (denotes_at _ _ _ _ Hx) as (k & r & Hi & Hr & Hk & ->). unfold it_pred, bind. simpl.
    pose proof SS_pos. rewrite (run_read w t segs k) //.
    replace (loc_eqb ((segs !!! Z.to_nat k) +ₗ r) (segs !!! Z.to_nat k)) with (r =? 0).
    2:{ rewrite -{2}(loc_add_0 (segs !!! Z.to_nat k)). by rewrite loc_eqb_add. }
    destruct (Z.eqb_spec r 0) as [He|He].
    - assert (0 <= k - 1) by nia.
      rewrite (run_read w t segs (k - 1)); [|done|by rewrite loc_add_assoc|lia].
      eexists. split; [done|]. rewrite !loc_add_assoc. apply (at_denotes _ _ _ (k - 1)); lia.
    - eexists. split; [done|]. rewrite loc_add_assoc. apply at_denotes; lia.
  Qed.
  Lemma run_diff x y i j (s : St) :
    denotes t segs x i -> denotes t segs y j -> it_diff x y s w = Ok (i - j) s w.
  Proof.
    intros Hx Hy. destruct (denotes_at _ _ _ _ Hx) as (k & r & Hi & Hr & Hk & ->).
    destruct (denotes_at _ _ _ _ Hy) as (k2 & r2 & Hi2 & Hr2 & Hk2 & ->). unfold it_diff, bind. simpl.
    rewrite run_sub2 (run_read w t segs k) // run_sub (run_read w t segs k2) // run_sub. unfold ret. f_equal. lia.
  Qed.
  Lemma run_ltb x y i j (s : St) :
    denotes t segs x i -> denotes t segs y j -> it_ltb x y s w = Ok (i <? j) s w.
  Proof.
    intros Hx Hy. destruct (denotes_at _ _ _ _ Hx) as (k & r & Hi & Hr & Hk & ->).
    destruct (denotes_at _ _ _ _ Hy) as (k2 & r2 & Hi2 & Hr2 & Hk2 & ->). unfold it_ltb, bind. simpl.
    pose proof SS_pos. rewrite loc_eqb_add. destruct (Z.eqb_spec k k2) as [->|Hne].
    - rewrite run_sub2. unfold ret. f_equal. lia.
    - rewrite run_sub2. unfold ret. f_equal.
      destruct (Z.ltb_spec 0 (k2 - k)); symmetry; [apply Z.ltb_lt|apply Z.ltb_ge]; nia.
  Qed.
  Lemma eqb_pos x y i j :
    separate segs -> denotes t segs x i -> denotes t segs y j -> it_eqb x y = (i =? j).
  Proof.
    intros Hsep Hx Hy. destruct (denotes_at _ _ _ _ Hx) as (k & r & Hi & Hr & Hk & ->).
    destruct (denotes_at _ _ _ _ Hy) as (k2 & r2 & Hi2 & Hr2 & Hk2 & ->). unfold it_eqb. simpl.
    destruct (decide (k = k2)) as [->|Hne].
    - rewrite loc_eqb_add. destruct (Z.eqb_spec r r2), (Z.eqb_spec i j); try done; nia.
    - replace (i =? j) with false.
      2:{ symmetry. apply Z.eqb_neq. pose proof SS_pos. nia. }
      apply Bool.not_true_is_false. unfold loc_eqb. simpl. rewrite andb_true_iff. intros [Hc _].
      apply Z.eqb_eq in Hc. unfold separate in Hsep. apply Hne.
      assert (forall m, 0 <= m < Z.of_nat (length segs) -> (fst <$> segs) !! Z.to_nat m = Some (segs !!! Z.to_nat m).1) as Hlk.
      { intros m Hm. rewrite list_lookup_fmap list_lookup_lookup_total_lt; [done|lia]. }
      pose proof (NoDup_lookup _ (Z.to_nat k) (Z.to_nat k2) _ Hsep (Hlk k Hk) ltac:(by rewrite Hc Hlk)). lia.
  Qed.

  (** ** Every operation is arithmetic on positions *)
  Lemma arithmetic x y i j n (s : St) :
    denotes t segs x i -> denotes t segs y j ->
    (0 <= i + n < SS * Z.of_nat (length segs) ->
       exists z, it_add x n s w = Ok z s w /\ denotes t segs z (i + n)) /\
    (0 <= i - n < SS * Z.of_nat (length segs) ->
       exists z, it_minus x n s w = Ok z s w /\ denotes t segs z (i - n)) /\
    (i + 1 < SS * Z.of_nat (length segs) ->
       exists z, it_succ x s w = Ok z s w /\ denotes t segs z (i + 1)) /\
    (0 < i -> exists z, it_pred x s w = Ok z s w /\ denotes t segs z (i - 1)) /\
    it_diff x y s w = Ok (i - j) s w /\
    it_ltb x y s w = Ok (i <? j) s w /\
    (separate segs -> it_eqb x y = (i =? j)).
  Proof.
    intros Hx Hy. split_and!.
    - by apply run_add.
    - by apply run_minus.
    - by apply run_succ.
    - by apply run_pred.
    - by apply run_diff.
    - by apply run_ltb.
    - intros Hs. by apply eqb_pos.
  Qed.

  (** ** The laws, without positions *)

  (** [x] is an iterator of the container. *)
  Definition valid_it (x : sit) : Prop := exists i, denotes t segs x i.

  (** [(x + n) - x == n], and [(x + n) + m == x + (n + m)]: whenever [x + n] and
      [x + (n + m)] stay within the segments. *)
  Lemma add_laws x i n m (s : St) :
    denotes t segs x i -> 0 <= i + n < SS * Z.of_nat (length segs) ->
    0 <= i + (n + m) < SS * Z.of_nat (length segs) ->
    exists y z, it_add x n s w = Ok y s w /\ it_diff y x s w = Ok n s w /\
      it_add y m s w = Ok z s w /\ it_add x (n + m) s w = Ok z s w /\
      it_index x n s w = Ok (it_deref y) s w /\ it_minus y n s w = Ok x s w.
  Proof.
    intros Hx Hn Hm. destruct (run_add x i n s Hx Hn) as (y & Hy & Hyd).
    destruct (run_add y (i + n) m s Hyd ltac:(lia)) as (z & Hz & Hzd).
    destruct (run_add x i (n + m) s Hx Hm) as (z' & Hz' & Hzd').
    destruct (run_minus y (i + n) n s Hyd) as (x' & Hx' & Hxd').
    { destruct Hx as [Hx _]. lia. }
    destruct (run_index x i n s Hx Hn) as (y' & Hy' & Hidx).
    exists y, z. split_and!; [done| |done| | |].
    - rewrite (run_diff _ _ _ _ s Hyd Hx). f_equal. lia.
    - rewrite Hz'. f_equal. apply (denotes_fun t segs _ _ (i + (n + m))); [done|].
      by replace (i + (n + m)) with (i + n + m) by lia.
    - rewrite Hidx. congruence.
    - rewrite Hx'. f_equal. apply (denotes_fun t segs _ _ i); [|done]. by replace (i + n - n) with i in Hxd' by lia.
  Qed.
  (** [--(++x) == x], and [++x == x + 1]. *)
  Lemma succ_pred x i (s : St) :
    denotes t segs x i -> i + 1 < SS * Z.of_nat (length segs) ->
    exists y, it_succ x s w = Ok y s w /\ it_pred y s w = Ok x s w /\ it_add x 1 s w = Ok y s w.
  Proof.
    intros Hx Hb. destruct (run_succ x i s Hx Hb) as (y & Hy & Hyd).
    destruct (run_pred y (i + 1) s Hyd) as (z & Hz & Hzd); [destruct Hx as [Hx _]; lia|].
    destruct (run_add x i 1 s Hx) as (y' & Hy' & Hyd'); [destruct Hx as [Hx _]; lia|].
    exists y. split_and!; [done| |].
    - rewrite Hz. f_equal. apply (denotes_fun t segs _ _ i); [|done]. by replace (i + 1 - 1) with i in Hzd by lia.
    - rewrite Hy'. f_equal. by apply (denotes_fun t segs _ _ (i + 1)).
  Qed.
  (** [++(--x) == x], and [--x == x - 1]. *)
  Lemma pred_succ x i (s : St) :
    denotes t segs x i -> 0 < i ->
    exists y, it_pred x s w = Ok y s w /\ it_succ y s w = Ok x s w /\ it_minus x 1 s w = Ok y s w.
  Proof.
    intros Hx Hb. destruct (run_pred x i s Hx Hb) as (y & Hy & Hyd).
    destruct (run_succ y (i - 1) s Hyd) as (z & Hz & Hzd); [destruct Hx as [Hx _]; lia|].
    destruct (run_minus x i 1 s Hx) as (y' & Hy' & Hyd'); [destruct Hx as [Hx _]; lia|].
    exists y. split_and!; [done| |].
    - rewrite Hz. f_equal. apply (denotes_fun t segs _ _ i); [|done]. by replace (i - 1 + 1) with i in Hzd by lia.
    - rewrite Hy'. f_equal. by apply (denotes_fun t segs _ _ (i - 1)).
  Qed.
  (** Comparison agrees with difference; it is a total order. *)
  Lemma compare_laws x y (s : St) :
    separate segs -> valid_it x -> valid_it y ->
    exists d, it_diff y x s w = Ok d s w /\ it_diff x y s w = Ok (- d) s w /\
      it_ltb x y s w = Ok (0 <? d) s w /\ it_ltb y x s w = Ok (d <? 0) s w /\
      it_eqb x y = (d =? 0) /\ it_add x d s w = Ok y s w.
  Proof.
    intros Hsep [i Hx] [j Hy]. exists (j - i).
    rewrite (run_diff _ _ _ _ s Hy Hx) (run_diff _ _ _ _ s Hx Hy) (run_ltb _ _ _ _ s Hx Hy) (run_ltb _ _ _ _ s Hy Hx)
      (eqb_pos _ _ _ _ Hsep Hx Hy).
    destruct (run_add x i (j - i) s Hx) as (z & Hz & Hzd); [destruct Hy as [Hy _]; lia|].
    split_and!; try (f_equal; lia); [lia|]. rewrite Hz. f_equal.
    apply (denotes_fun t segs _ _ j); [|done]. by replace (i + (j - i)) with j in Hzd by lia.
  Qed.
End laws.
