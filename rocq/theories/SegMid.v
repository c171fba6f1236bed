(** * Cost of the algorithms over segmented ranges

    [tri D s m P c]: if [m], run in state [s] with the pointers in memory as told by
    [D], returns, the pointers in memory are the same afterwards, the result and the
    state satisfy [P], and exactly [c] operations were performed.
    [posn D tb x z]: iterator [x] is [z] places after the beginning of the table, which
    is block [tb]. *)

From iris.proofmode Require Import tactics.
From Verif Require Export InsertCost SegCost.
From Coq Require Import Lia ZifyBool.
Open Scope Z_scope.

Section tri.
  Context `{E : Env} `{SZ : SegSize}.
  Definition ptrs (w : world) (p : loc) : option loc :=
    match heap w !! p with Some (Ptr q) => Some q | _ => None end.
  Definition tab_in (D : loc -> option loc) (w : world) : Prop := forall p, ptrs w p = D p.
  Definition tri (D : loc -> option loc) {St A} (s : St) (m : M St A) (P : A -> St -> Prop) (c : Z) : Prop :=
    forall w r s' w', tab_in D w -> m s w = Ok r s' w' ->
      tab_in D w' /\ P r s' /\ Z.of_nat (tick w') = Z.of_nat (tick w) + c.
  Definition posn (D : loc -> option loc) (tb : Z) (x : sit) (z : Z) : Prop :=
    exists b r, D (it_seg x) = Some b /\ it_loc x = b +ₗ r /\ 0 <= r < SS /\ (it_seg x).1 = tb /\ z = (it_seg x).2 * SS + r.
  (** Entries [lo] to [hi - 1] of the table point into different blocks. *)
  Definition sepd (D : loc -> option loc) (tb lo hi : Z) : Prop :=
    forall i j b b', lo <= i < hi -> lo <= j < hi -> D (tb, i) = Some b -> D (tb, j) = Some b' -> b.1 = b'.1 -> i = j.
  Definition any {St A} : A -> St -> Prop := fun _ _ => True.
  Definition keeps {St A} (m : M St A) : Prop := forall s w r s' w', m s w = Ok r s' w' -> forall p, ptrs w' p = ptrs w p.

  Context (D : loc -> option loc) (tb : Z).
  Lemma posn_eqb lo hi x y z z' : sepd D tb lo hi -> posn D tb x z -> posn D tb y z' ->
    lo * SS <= z < hi * SS -> lo * SS <= z' < hi * SS -> it_eqb x y = (z =? z').
  Proof.
    intros Hs (b & r & Hb & Hl & Hr & Ht & ->) (b' & r' & Hb' & Hl' & Hr' & Ht' & ->) Hz Hz'.
    pose proof SS_pos as HSS. destruct x as [[t1 i] l], y as [[t2 j] l']. cbn [it_seg it_loc fst snd] in *. subst t1 t2 l l'.
    unfold it_eqb. cbn [it_loc].
    assert (lo <= i < hi) as Hi by nia. assert (lo <= j < hi) as Hj by nia.
    destruct (loc_eqb _ _) eqn:He.
    - apply loc_eqb_spec in He. assert (i = j) as <- by (eapply Hs; [done..|by injection He]).
      rewrite Hb in Hb'. injection Hb' as <-. unfold loc_add in He. injection He as He. lia.
    - destruct (Z.eqb_spec (i * SS + r) (j * SS + r')) as [Heq|]; [|done].
      assert (i = j) as <- by nia. rewrite Hb in Hb'. injection Hb' as <-. replace r' with r in He by lia.
      by rewrite loc_eqb_refl in He.
  Qed.
  Lemma posn_fun x z z' : posn D tb x z -> posn D tb x z' -> z = z'.
  Proof.
    intros (b & r & Hb & Hl & Hr & Ht & ->) (b' & r' & Hb' & Hl' & Hr' & Ht' & ->). rewrite Hb in Hb'. injection Hb' as <-.
    rewrite Hl in Hl'. unfold loc_add in Hl'. injection Hl' as Hl'. lia.
  Qed.
  Lemma tri_bind {St A B} s (m : M St A) (k : A -> M St B) P Q c1 c2 :
    tri D s m P c1 -> (forall a s', P a s' -> tri D s' (k a) Q c2) -> tri D s (bind m k) Q (c1 + c2).
  Proof.
    intros Hm Hk w r s' w' Hw Hr. apply run_bind in Hr as (a & s1 & w1 & H1 & Hr).
    destruct (Hm _ _ _ _ Hw H1) as (Hw1 & HP & Ht1). destruct (Hk _ _ HP _ _ _ _ Hw1 Hr) as (Hw2 & HQ & Ht2).
    split_and!; [done..|lia].
  Qed.
  Lemma tri_bind0 {St A B} s (m : M St A) (k : A -> M St B) P Q c :
    tri D s m P 0 -> (forall a s', P a s' -> tri D s' (k a) Q c) -> tri D s (bind m k) Q c.
  Proof. apply (tri_bind s m k P Q 0). Qed.
  Lemma tri_weak {St A} s (m : M St A) (P Q : A -> St -> Prop) c c' :
    tri D s m P c -> (forall a s', P a s' -> Q a s') -> c = c' -> tri D s m Q c'.
  Proof. intros Hm HPQ -> w r s' w' Hw Hr. destruct (Hm _ _ _ _ Hw Hr) as (? & ? & ?). split_and!; [done|by apply HPQ|done]. Qed.
  Lemma tri_ret {St A} (s : St) (a : A) (P : A -> St -> Prop) : P a s -> tri D s (ret a) P 0.
  Proof. intros HP w r s' w' Hw [= <- <- <-]. split_and!; [done..|lia]. Qed.
  Lemma tri_get {St} (s : St) : tri D s getS (fun o s' => o = s /\ s' = s) 0.
  Proof. intros w r s' w' Hw [= <- <- <-]. split_and!; [done..|lia]. Qed.
  Lemma tri_mod {St} (s : St) f : tri D s (modS f) (fun _ s' => s' = f s) 0.
  Proof. intros w r s' w' Hw [= <- <- <-]. split_and!; [done..|lia]. Qed.
  Lemma tri_assert {St} (s : St) b : tri D s (assert_ b) (fun _ s' => s' = s /\ b = true) 0.
  Proof. intros w r s' w' Hw. destruct b; [|done]. intros [= <- <- <-]. split_and!; [done..|lia]. Qed.
  Lemma tri_try {St A} s (m : M St A) h P c : tri D s m P c -> tri D s (try_ m h) P c.
  Proof.
    intros Hm w r s' w' Hw. unfold try_. destruct (m s w) as [a s1 w1|e s1 w1|] eqn:Hr; [|destruct (h s1 w1); done|done].
    intros [= <- <- <-]. by eapply Hm.
  Qed.
  Lemma tri_keeps {St A} s (m : M St A) c : keeps m -> takes m c c -> tri D s m any c.
  Proof.
    intros Hk Ht w r s' w' Hw Hr. split_and!; [|done|].
    - intros p. rewrite (Hk _ _ _ _ _ Hr). apply Hw.
    - specialize (Ht _ _ _ _ _ Hr). lia.
  Qed.
  Lemma tri_throw {St A} (s : St) e (P : A -> St -> Prop) c : tri D s (throw e) P c.
  Proof. by intros w r s' w' Hw Hr. Qed.
  Lemma tri_ub {St A} (s : St) (P : A -> St -> Prop) c : tri D s ub P c.
  Proof. by intros w r s' w' Hw Hr. Qed.

  (** ** Programs that only look *)
  Definition looks {St A} (m : M St A) (P : A -> Prop) : Prop :=
    forall s w r s' w', tab_in D w -> m s w = Ok r s' w' -> s' = s /\ w' = w /\ P r.
  Lemma tri_looks {St A} (s : St) (m : M St A) P : looks m P -> tri D s m (fun a s' => s' = s /\ P a) 0.
  Proof. intros Hm w r s' w' Hw Hr. destruct (Hm _ _ _ _ _ Hw Hr) as (-> & -> & HP). split_and!; [done..|lia]. Qed.
  Lemma looks_bind {St A B} (m : M St A) (k : A -> M St B) P Q :
    looks m P -> (forall a, P a -> looks (k a) Q) -> looks (bind m k) Q.
  Proof.
    intros Hm Hk s w r s' w' Hw Hr. apply run_bind in Hr as (a & s1 & w1 & H1 & Hr).
    destruct (Hm _ _ _ _ _ Hw H1) as (-> & -> & HP). by apply (Hk _ HP s w).
  Qed.
  Lemma looks_weak {St A} (m : M St A) (P Q : A -> Prop) : looks m P -> (forall a, P a -> Q a) -> looks m Q.
  Proof. intros Hm HPQ s w r s' w' Hw Hr. destruct (Hm _ _ _ _ _ Hw Hr) as (-> & -> & HP). split_and!; [done..|by apply HPQ]. Qed.
  Lemma looks_ret {St A} (a : A) (P : A -> Prop) : P a -> looks (ret a : M St A) P.
  Proof. intros HP s w r s' w' Hw [= <- <- <-]. done. Qed.
  Lemma looks_assert {St} b : looks (assert_ b : M St unit) (fun _ => b = true).
  Proof. intros s w r s' w' Hw. destruct b; [|done]. by intros [= <- <- <-]. Qed.
  Lemma looks_ptr {St} p : looks (read_ptr p : M St loc) (fun q => D p = Some q).
  Proof.
    intros s w r s' w' Hw Hr. unfold read_ptr in Hr. pose proof (Hw p) as Hp. unfold ptrs in Hp.
    destruct (heap w !! p) as [[]|]; try discriminate Hr. by injection Hr as <- <- <-.
  Qed.
  Lemma looks_sub {St} p q : looks (ptr_sub p q : M St Z) (fun d => d = p.2 - q.2 /\ p.1 = q.1).
  Proof. intros s w r s' w' Hw Hr. unfold ptr_sub in Hr. destruct (_ =? _) eqn:He; [|done]. injection Hr as <- <- <-. split_and!; try done. lia. Qed.
  Lemma looks_range_len {St} p q : looks (range_len p q : M St nat) (fun n => Z.of_nat n = q.2 - p.2).
  Proof.
    intros s w r s' w' Hw Hr. unfold range_len in Hr. destruct (_ =? _); [|done]. destruct (_ <=? _) eqn:?; [|done].
    injection Hr as <- <- <-. split_and!; try done. lia.
  Qed.

  (** ** Iterators *)
  Lemma looks_succ {St} x z : posn D tb x z -> looks (it_succ x : M St sit) (fun y => posn D tb y (z + 1)).
  Proof.
    intros (b & r & Hb & Hl & Hr & Ht & ->). unfold it_succ. eapply looks_bind; [apply looks_ptr|]. intros b' Hb'.
    rewrite Hb in Hb'. injection Hb' as <-. rewrite Hl. pose proof SS_pos. destruct (loc_eqb _ _) eqn:He.
    - eapply looks_bind; [apply looks_ptr|]. intros b2 Hb2. apply looks_ret.
      apply loc_eqb_spec in He. unfold loc_add in He. injection He as He.
      exists b2, 0. cbn [it_seg it_loc]. split_and!; [done| |lia|lia|done|simpl; lia].
      destruct b2. unfold loc_add. simpl. f_equal. lia.
    - apply looks_ret. exists b, (r + 1). cbn [it_seg it_loc]. split_and!; [done| |lia| |done|lia].
      + unfold loc_add. simpl. f_equal. lia.
      + destruct (decide (r + 1 = SS)) as [Heq|]; [|lia].
        exfalso. rewrite (proj2 (loc_eqb_spec _ _)) in He; [done|]. unfold loc_add. simpl. f_equal. lia.
  Qed.
  Lemma looks_pred {St} x z : posn D tb x z -> looks (it_pred x : M St sit) (fun y => posn D tb y (z - 1)).
  Proof.
    intros (b & r & Hb & Hl & Hr & Ht & ->). unfold it_pred. eapply looks_bind; [apply looks_ptr|]. intros b' Hb'.
    rewrite Hb in Hb'. injection Hb' as <-. rewrite Hl. pose proof SS_pos. destruct (loc_eqb _ _) eqn:He.
    - eapply looks_bind; [apply looks_ptr|]. intros b2 Hb2. apply looks_ret.
      apply loc_eqb_spec in He. destruct b as [b1 bo]. unfold loc_add in He. simpl in He. injection He as He.
      exists b2, (SS - 1). cbn [it_seg it_loc]. split_and!; [done| |lia|lia|done|simpl; lia].
      unfold loc_add. simpl. f_equal. lia.
    - apply looks_ret. exists b, (r - 1). cbn [it_seg it_loc]. split_and!; [done| | |lia|done|lia].
      + unfold loc_add. simpl. f_equal. lia.
      + destruct (decide (r = 0)) as [Heq|]; [|lia].
        exfalso. rewrite (proj2 (loc_eqb_spec _ _)) in He; [done|]. destruct b. unfold loc_add. simpl. f_equal. lia.
  Qed.
  Lemma quot_seg off : (0 <= off /\ SS <= off) \/ off < 0 ->
    let k := if 0 <? off then Z.quot off SS else - Z.quot (- off - 1) SS - 1 in 0 <= off - k * SS < SS.
  Proof.
    pose proof SS_pos. intros Ho. destruct (Z.ltb_spec 0 off) as [Hp|Hp]; cbv zeta.
    - rewrite Z.quot_div_nonneg; [|lia..]. Z.div_mod_to_equations. nia.
    - destruct Ho as [Ho|Ho]; [lia|]. rewrite Z.quot_div_nonneg; [|lia..]. Z.div_mod_to_equations. nia.
  Qed.
  Lemma looks_add {St} x z n : posn D tb x z -> looks (it_add x n : M St sit) (fun y => posn D tb y (z + n)).
  Proof.
    intros (b & r & Hb & Hl & Hr & Ht & ->). unfold it_add. eapply looks_bind; [apply looks_ptr|]. intros b' Hb'.
    rewrite Hb in Hb'. injection Hb' as <-. eapply looks_bind; [apply looks_sub|]. intros d [-> _]. rewrite Hl.
    replace ((b +ₗ r).2 - b.2) with r by (unfold loc_add; simpl; lia). cbv zeta.
    destruct (_ && _) eqn:Ho.
    - apply looks_ret. exists b, (r + n). cbn [it_seg it_loc]. split_and!; [done| |lia|lia|done|lia].
      unfold loc_add. simpl. f_equal. lia.
    - eapply looks_bind; [apply looks_ptr|]. intros b2 Hb2. apply looks_ret.
      pose proof (quot_seg (r + n) ltac:(lia)) as Hk. cbv zeta in Hk.
      eexists b2, _. cbn [it_seg it_loc]. split_and!; [done|done|lia|lia|done|]. unfold loc_add. cbn [fst snd]. lia.
  Qed.
  Lemma looks_minus {St} x z n : posn D tb x z -> looks (it_minus x n : M St sit) (fun y => posn D tb y (z - n)).
  Proof. apply (looks_add x z (- n)). Qed.
  Lemma looks_diff {St} x y z1 z2 : posn D tb x z1 -> posn D tb y z2 -> looks (it_diff x y : M St Z) (fun d => d = z1 - z2).
  Proof.
    intros (b1 & r1 & H1 & L1 & _ & _ & ->) (b2 & r2 & H2 & L2 & _ & _ & ->). unfold it_diff.
    eapply looks_bind; [apply looks_sub|]. intros k [-> _].
    eapply looks_bind; [apply looks_ptr|]. intros q Hq. rewrite H1 in Hq. injection Hq as <-.
    eapply looks_bind; [apply looks_sub|]. intros dx [-> _].
    eapply looks_bind; [apply looks_ptr|]. intros q Hq. rewrite H2 in Hq. injection Hq as <-.
    eapply looks_bind; [apply looks_sub|]. intros dy [-> _]. apply looks_ret.
    rewrite L1 L2. unfold loc_add. cbn [fst snd]. lia.
  Qed.
  Lemma looks_ltb {St} x y z1 z2 : posn D tb x z1 -> posn D tb y z2 -> looks (it_ltb x y : M St bool) (fun c => c = (z1 <? z2)).
  Proof.
    intros (b1 & r1 & H1 & L1 & Hr1 & T1 & ->) (b2 & r2 & H2 & L2 & Hr2 & T2 & ->). unfold it_ltb.
    destruct (loc_eqb _ _) eqn:He; (eapply looks_bind; [apply looks_sub|]); intros d [-> Hs]; apply looks_ret.
    - apply loc_eqb_spec in He. rewrite He in H1 |- *. rewrite H2 in H1. injection H1 as ->. rewrite L1 L2.
      unfold loc_add. cbn [fst snd]. lia.
    - assert ((it_seg x).2 <> (it_seg y).2) as Hne.
      { intros Heq. rewrite (proj2 (loc_eqb_spec _ _)) in He; [done|]. destruct (it_seg x), (it_seg y); simpl in *. by subst. }
      destruct (Z.ltb_spec 0 ((it_seg y).2 - (it_seg x).2)); symmetry; [apply Z.ltb_lt|apply Z.ltb_ge]; nia.
  Qed.
  Lemma looks_compose {St} sg l : looks (seg_compose sg l : M St sit) (fun _ => True).
  Proof.
    unfold seg_compose. eapply looks_bind; [apply looks_ptr|]. intros b _.
    eapply looks_bind; [apply looks_sub|]. intros d _. eapply looks_bind; [apply looks_assert|]. intros _ _.
    destruct (loc_eqb _ _); [|by apply looks_ret]. eapply looks_bind; [apply looks_ptr|]. intros ? _. by apply looks_ret.
  Qed.
  Lemma tri_compose {St} (s : St) sg l : tri D s (seg_compose sg l) any 0.
  Proof. eapply tri_weak; [apply tri_looks, looks_compose|done|done]. Qed.
  (** A look before a program. *)
  Lemma tri_look {St A B} s (m : M St A) (k : A -> M St B) P Q c :
    looks m P -> (forall a, P a -> tri D s (k a) Q c) -> tri D s (bind m k) Q c.
  Proof. intros Hm Hk. eapply tri_bind0; [by apply tri_looks|]. intros a s' [-> HP]. by apply Hk. Qed.
End tri.

Section element.
  Context `{E : Env} `{SZ : SegSize}.
  Context {St : Type}.
  Implicit Types p q : loc.
  Lemma keeps_bind {A B} (m : M St A) (k : A -> M St B) : keeps m -> (forall a, keeps (k a)) -> keeps (bind m k).
  Proof.
    intros Hm Hk s w r s' w' Hr p. apply run_bind in Hr as (a & s1 & w1 & H1 & Hr).
    by rewrite (Hk _ _ _ _ _ _ Hr) (Hm _ _ _ _ _ H1).
  Qed.
  Lemma keeps_ret {A} (a : A) : keeps (ret a : M St A).
  Proof. by intros s w r s' w' [= <- <- <-]. Qed.
  Lemma keeps_throw {A} e : keeps (throw e : M St A).
  Proof. by intros s w r s' w' Hr. Qed.
  Lemma keeps_try {A} (m : M St A) h : keeps m -> keeps (try_ m h).
  Proof.
    intros Hm s w r s' w'. unfold try_. destruct (m s w) as [a s1 w1|e s1 w1|] eqn:Hr; [|destruct (h s1 w1); done|done].
    intros [= <- <- <-]. by eapply Hm.
  Qed.
  Lemma ptrs_insert w p c : (forall q, c <> Ptr q) -> ptrs w p = None -> forall p', ptrs (set_heap w (<[p := c]> (heap w))) p' = ptrs w p'.
  Proof.
    intros Hc Hp p'. unfold ptrs in *. simpl. destruct (decide (p = p')) as [<-|Hne].
    - rewrite lookup_insert. rewrite Hp. destruct c as [| |q|]; try done. by destruct (Hc q).
    - by rewrite lookup_insert_ne.
  Qed.
  Lemma keeps_oracle k : keeps (oracle k : M St _).
  Proof. by intros s w r s' w' [= <- <- <-]. Qed.
  Lemma keeps_read p : keeps (read p : M St V).
  Proof. intros s w r s' w'. unfold read. destruct (heap w !! p) as [[]|]; try done. by intros [= <- <- <-]. Qed.
  Lemma keeps_write p v : keeps (write p v : M St unit).
  Proof.
    intros s w r s' w'. unfold write. destruct (heap w !! p) as [[]|] eqn:Hp; try done. intros [= <- <- <-].
    apply ptrs_insert; [done|]. unfold ptrs. by rewrite Hp.
  Qed.
  Lemma keeps_set_live p v : keeps (set_live p v : M St unit).
  Proof.
    intros s w r s' w'. unfold set_live. destruct (heap w !! p) as [[]|] eqn:Hp; try done. intros [= <- <- <-].
    apply ptrs_insert; [done|]. unfold ptrs. by rewrite Hp.
  Qed.
  Lemma keeps_destroy_at p : keeps (destroy_at p : M St unit).
  Proof.
    intros s w r s' w'. unfold destroy_at. destruct (heap w !! p) as [[]|] eqn:Hp; try done. intros [= <- <- <-].
    apply ptrs_insert; [done|]. unfold ptrs. by rewrite Hp.
  Qed.
  Lemma keeps_expect p : keeps (expect_raw p : M St unit).
  Proof. intros s w r s' w'. unfold expect_raw. destruct (heap w !! p) as [[]|]; try done. by intros [= <- <- <-]. Qed.
  Lemma keeps_step k e : keeps (step_ k e : M St unit).
  Proof. apply keeps_bind; [apply keeps_oracle|]. intros [t|]; [apply keeps_throw|apply keeps_ret]. Qed.
  Ltac ks := repeat first [apply keeps_bind; [|intros]|apply keeps_step|apply keeps_ret|apply keeps_read|apply keeps_oracle
    |apply keeps_write|apply keeps_throw|apply keeps_set_live|apply keeps_expect|case_match].
  Lemma keeps_make a : keeps (make a : M St V).
  Proof. destruct a; simpl; ks. Qed.
  Lemma keeps_construct p a : keeps (construct p a : M St unit).
  Proof. apply keeps_bind; [apply keeps_expect|]. intros _. apply keeps_bind; [apply keeps_make|]. intros; apply keeps_set_live. Qed.
  Lemma keeps_assign p a : keeps (assign p a : M St unit).
  Proof. destruct a; simpl; ks. Qed.
  Lemma keeps_range_len p q : keeps (range_len p q : M St nat).
  Proof. intros s w r s' w'. unfold range_len. repeat case_match; try done. by intros [= <- <- <-]. Qed.
  Lemma keeps_destroy_n p n : keeps (destroy_n_a p n : M St unit).
  Proof. revert p. induction n as [|n IH]; intros p; simpl; [apply keeps_ret|]. apply keeps_bind; [apply keeps_destroy_at|]. intros; apply IH. Qed.
  Lemma keeps_destroy_a p q : keeps (destroy_a p q : M St unit).
  Proof. apply keeps_bind; [apply keeps_range_len|]. intros; apply keeps_destroy_n. Qed.
  Lemma keeps_uninit p q l : keeps (uninit_loop p q l : M St loc).
  Proof. revert q. induction l as [|a l IH]; intros q; simpl; [apply keeps_ret|]. apply keeps_bind; [apply keeps_try, keeps_construct|]. intros; apply IH. Qed.
  Lemma keeps_assign_loop q l : keeps (assign_loop q l : M St loc).
  Proof. revert q. induction l as [|a l IH]; intros q; simpl; [apply keeps_ret|]. apply keeps_bind; [apply keeps_assign|]. intros; apply IH. Qed.
  Lemma keeps_back_loop n p d : keeps (move_backward_loop n p d : M St loc).
  Proof. revert d. induction n as [|n IH]; intros d; [apply keeps_ret|]. cbn [move_backward_loop]. apply keeps_bind; [apply keeps_assign|]. intros; apply IH. Qed.
  Lemma keeps_move_backward p q d : keeps (move_backward p q d : M St loc).
  Proof. apply keeps_bind; [apply keeps_range_len|]. intros; apply keeps_back_loop. Qed.
  Lemma keeps_fill p q a : keeps (Algo.fill p q a : M St unit).
  Proof. apply keeps_bind; [apply keeps_range_len|]. intros. apply keeps_bind; [apply keeps_assign_loop|intros; apply keeps_ret]. Qed.
  Lemma keeps_uninit_fill p q a : keeps (uninitialized_fill_a p q a : M St unit).
  Proof. apply keeps_bind; [apply keeps_range_len|]. intros. apply keeps_bind; [apply keeps_uninit|intros; apply keeps_ret]. Qed.
End element.

Section algorithms.
  Context `{E : Env} `{SZ : SegSize}.
  Context {St : Type} (D : loc -> option loc) (tb : Z).
  Notation posn := (posn D tb).

  Lemma tri_any_ret {A} (s : St) (a : A) : tri D s (ret a) any 0.
  Proof. by apply tri_ret. Qed.
  Lemma tri_try_at {A} (s : St) (m : M St A) h c : tri D s m any c -> tri D s (try_ m h) any c.
  Proof. apply tri_try. Qed.
  (** [c] operations for every place of a range. *)
  Lemma tri_each_loop inner h (c : Z) : (forall s p q, tri D s (inner p q) any (c * (q.2 - p.2))) ->
    forall n s sg, tri D (s : St) (each_loop inner h n sg) any (c * (Z.of_nat n * SS)).
  Proof.
    intros Hi n. induction n as [|n IH]; intros s sg.
    - eapply tri_weak; [apply tri_any_ret|done|lia].
    - simpl. eapply tri_look; [apply looks_ptr|]. intros b _. eapply tri_weak; [|done|].
      + eapply tri_bind; [apply tri_try, Hi|]. intros _ s' _. apply IH.
      + unfold loc_add. cbn [fst snd]. lia.
  Qed.
  Lemma tri_each inner h (c : Z) s first last z1 z2 : (forall s p q, tri D s (inner p q) any (c * (q.2 - p.2))) ->
    posn first z1 -> posn last z2 -> tri D (s : St) (seg_each inner h first last) any (c * (z2 - z1)).
  Proof.
    intros Hi (b1 & r1 & H1 & L1 & Hr1 & T1 & ->) (b2 & r2 & H2 & L2 & Hr2 & T2 & ->). unfold seg_each.
    destruct (loc_eqb _ _) eqn:He.
    - apply loc_eqb_spec in He. rewrite He in H1 |- *. rewrite H2 in H1. injection H1 as ->.
      eapply tri_weak; [apply Hi|done|]. rewrite L1 L2. unfold loc_add. cbn [fst snd]. lia.
    - eapply tri_look; [apply looks_ptr|]. intros b Hb. rewrite H1 in Hb. injection Hb as <-. eapply tri_weak; [|done|].
      + eapply tri_bind; [apply Hi|]. intros _ s1 _.
        eapply (tri_look D _ _ _ _ _ (c * ((it_seg last).2 - (it_seg first).2 - 1) * SS + c * r2)); [apply looks_range_len|]. intros n Hn.
        eapply tri_weak; [|done|].
        * eapply tri_bind; [by apply tri_each_loop|]. intros _ s2 _.
          eapply (tri_look D _ _ _ _ _ (c * r2)); [apply looks_ptr|]. intros b Hb. rewrite H2 in Hb. injection Hb as <-.
          apply tri_try. eapply tri_weak; [apply Hi|done|]. rewrite L2. unfold loc_add. cbn [fst snd]. lia.
        * unfold loc_add in Hn. cbn [fst snd] in Hn. rewrite Hn. lia.
      + rewrite L1. unfold loc_add. cbn [fst snd]. lia.
  Qed.
  Lemma tri_fill (s : St) first last z1 z2 a : posn first z1 -> posn last z2 -> tri D s (s_fill first last a) any (z2 - z1).
  Proof.
    intros H1 H2. eapply tri_weak; [eapply (tri_each _ _ 1); [|done..]|done|lia].
    intros s' p q. eapply tri_weak; [apply tri_keeps; [apply keeps_fill|apply takes_fill]|done|lia].
  Qed.
  Lemma tri_ufill (s : St) first last z1 z2 a : posn first z1 -> posn last z2 -> tri D s (s_uninitialized_fill_a first last a) any (z2 - z1).
  Proof.
    intros H1 H2. eapply tri_weak; [eapply (tri_each _ _ 1); [|done..]|done|lia].
    intros s' p q. eapply tri_weak; [apply tri_keeps; [apply keeps_uninit_fill|apply takes_uninit_fill]|done|lia].
  Qed.
  Lemma tri_each_free inner h : (forall s p q, tri D (s : St) (inner p q) any 0) ->
    forall s first last, tri D s (seg_each inner h first last) any 0.
  Proof.
    intros Hi s first last.
    assert (forall n s sg, tri D s (each_loop inner h n sg) any 0) as Hl.
    { intros n. induction n as [|n IH]; intros s' sg; simpl; [apply tri_any_ret|].
      eapply tri_look; [apply looks_ptr|]. intros b _. eapply tri_bind0; [apply tri_try, Hi|]. intros; apply IH. }
    unfold seg_each. destruct (loc_eqb _ _); [apply Hi|].
    eapply tri_look; [apply looks_ptr|]. intros b _. eapply tri_bind0; [apply Hi|]. intros _ s1 _.
    eapply tri_look; [apply looks_range_len|]. intros n _. eapply tri_bind0; [apply Hl|]. intros _ s2 _.
    eapply tri_look; [apply looks_ptr|]. intros b' _. apply tri_try, Hi.
  Qed.
  Lemma tri_destroy (s : St) first last : tri D s (s_destroy_a first last) any 0.
  Proof. apply tri_each_free. intros s' p q. apply tri_keeps; [apply keeps_destroy_a|apply takes_destroy]. Qed.

  Lemma tri_out inner h : (forall s srcs d, tri D (s : St) (inner srcs d) any (Z.of_nat (length srcs))) ->
    forall s srcs d, tri D s (seg_out inner h srcs d) any (Z.of_nat (length srcs)).
  Proof.
    intros Hi s srcs d. unfold seg_out. destruct srcs as [|a srcs]; [apply tri_any_ret|].
    generalize (length (a :: srcs)) at 1. generalize (a :: srcs) as l. generalize (it_seg d) (it_loc d).
    intros sg p l fuel. revert s sg p l. induction fuel as [|fuel IH]; intros s sg p l; [apply tri_ub|].
    cbn [out_loop]. eapply tri_look; [apply looks_ptr|]. intros b _. eapply tri_look; [apply looks_sub|]. intros z _. cbv zeta.
    set (n := Z.to_nat _). eapply tri_weak; [|done|].
    - eapply (tri_bind D _ _ _ _ any (Z.of_nat (length (take n l))) (Z.of_nat (length (drop n l)))); [apply tri_try, Hi|]. intros p' s' _.
      destruct (drop n l) as [|a' l'] eqn:Hd; [apply tri_compose|].
      eapply tri_look; [apply looks_ptr|]. intros b' _. apply IH.
    - rewrite take_length drop_length. lia.
  Qed.
  Lemma tri_copy_ra (s : St) srcs d : tri D s (s_copy_ra srcs d) any (Z.of_nat (length srcs)).
  Proof. apply tri_out. intros s' l p. apply tri_keeps; [apply keeps_assign_loop|apply takes_assign_loop]. Qed.
  Lemma tri_ucopy_ra (s : St) srcs d : tri D s (s_ucopy_ra srcs d) any (Z.of_nat (length srcs)).
  Proof. apply tri_out. intros s' l p. apply tri_keeps; [apply keeps_uninit|apply takes_uninit_loop]. Qed.
  Lemma tri_succ_any (s : St) d : tri D s (it_succ d) any 0.
  Proof.
    unfold it_succ. eapply tri_look; [apply looks_ptr|]. intros b _. destruct (loc_eqb _ _); [|apply tri_any_ret].
    eapply tri_look; [apply looks_ptr|]. intros b' _. apply tri_any_ret.
  Qed.
  Lemma tri_copy_fwd (s : St) srcs d : tri D s (s_copy_fwd srcs d) any (Z.of_nat (length srcs)).
  Proof.
    revert s d. induction srcs as [|a srcs IH]; intros s d; [apply tri_any_ret|]. cbn [s_copy_fwd]. eapply tri_weak; [|done|].
    - eapply tri_bind; [apply tri_keeps; [apply keeps_assign|apply takes_assign]|]. intros _ s1 _.
      eapply tri_bind0; [apply tri_succ_any|]. intros d' s2 _. apply IH.
    - simpl. lia.
  Qed.
  Lemma tri_ucopy_fwd (s : St) srcs d : tri D s (s_ucopy_fwd srcs d) any (Z.of_nat (length srcs)).
  Proof.
    unfold s_ucopy_fwd. generalize d at 1. intros d0. revert s d. induction srcs as [|a srcs IH]; intros s d; [apply tri_any_ret|].
    cbn [s_ucopy_loop]. eapply tri_weak; [|done|].
    - eapply tri_bind; [apply tri_try, tri_keeps; [apply keeps_construct|apply takes_construct]|]. intros _ s1 _.
      eapply tri_bind0; [apply tri_succ_any|]. intros d' s2 _. apply IH.
    - simpl. lia.
  Qed.

  Lemma tri_in_loop inner h : (forall s p q d, tri D (s : St) (inner p q d) any (q.2 - p.2)) ->
    forall n s sg d, tri D s (in_loop inner h n sg d) any (Z.of_nat n * SS).
  Proof.
    intros Hi n. induction n as [|n IH]; intros s sg d.
    - apply tri_any_ret.
    - cbn [in_loop]. eapply tri_look; [apply looks_ptr|]. intros b _. eapply tri_weak; [|done|].
      + eapply tri_bind; [apply tri_try, Hi|]. intros d' s' _. apply IH.
      + unfold loc_add. cbn [fst snd]. lia.
  Qed.
  Lemma tri_in inner h s first last d z1 z2 : (forall s p q d, tri D (s : St) (inner p q d) any (q.2 - p.2)) ->
    posn first z1 -> posn last z2 -> tri D s (seg_in inner h first last d) any (z2 - z1).
  Proof.
    intros Hi (b1 & r1 & H1 & L1 & Hr1 & T1 & ->) (b2 & r2 & H2 & L2 & Hr2 & T2 & ->). unfold seg_in.
    destruct (loc_eqb _ _) eqn:He.
    - apply loc_eqb_spec in He. rewrite He in H1 |- *. rewrite H2 in H1. injection H1 as ->.
      eapply tri_weak; [apply Hi|done|]. rewrite L1 L2. unfold loc_add. cbn [fst snd]. lia.
    - eapply tri_look; [apply looks_ptr|]. intros b Hb. rewrite H1 in Hb. injection Hb as <-. eapply tri_weak; [|done|].
      + eapply tri_bind; [apply Hi|]. intros d1 s1 _.
        eapply (tri_look D _ _ _ _ _ (((it_seg last).2 - (it_seg first).2 - 1) * SS + r2)); [apply looks_range_len|]. intros n Hn.
        eapply tri_weak; [|done|].
        * eapply tri_bind; [by apply tri_in_loop|]. intros d2 s2 _.
          eapply (tri_look D _ _ _ _ _ r2); [apply looks_ptr|]. intros b Hb. rewrite H2 in Hb. injection Hb as <-.
          apply tri_try. eapply tri_weak; [apply Hi|done|]. rewrite L2. unfold loc_add. cbn [fst snd]. lia.
        * unfold loc_add in Hn. cbn [fst snd] in Hn. rewrite Hn. lia.
      + rewrite L1. unfold loc_add. cbn [fst snd]. lia.
  Qed.
  Lemma looks_range mk p q : looks D (range mk p q : M St _) (fun l => Z.of_nat (length l) = q.2 - p.2).
  Proof.
    unfold range. eapply looks_bind; [apply looks_range_len|]. intros n Hn. apply looks_ret.
    by rewrite refs_length.
  Qed.
  Lemma tri_move (s : St) first last d z1 z2 : posn first z1 -> posn last z2 -> tri D s (s_move first last d) any (z2 - z1).
  Proof.
    apply tri_in. intros s' p q d'. eapply tri_look; [apply looks_range|]. intros l <-. apply tri_copy_ra.
  Qed.
  Lemma tri_umove (s : St) first last d z1 z2 : posn first z1 -> posn last z2 -> tri D s (s_umove first last d) any (z2 - z1).
  Proof.
    apply tri_in. intros s' p q d'. eapply tri_look; [apply looks_range|]. intros l <-. apply tri_ucopy_ra.
  Qed.

  Lemma tri_back_out_loop fuel (s : St) first n sg l : tri D s (back_out_loop fuel first n sg l) any n.
  Proof.
    revert s n sg l. induction fuel as [|fuel IH]; intros s n sg l; [apply tri_ub|]. cbn [back_out_loop].
    eapply tri_look; [apply looks_ptr|]. intros b _. eapply tri_look; [apply looks_sub|]. intros d _. cbv zeta.
    eapply tri_weak; [|done|].
    - eapply (tri_bind D _ _ _ _ any _ (n - Z.min n d)); [apply tri_keeps; [apply keeps_move_backward|apply takes_move_backward]|].
      intros l' s' _. destruct (Z.eqb_spec (n - Z.min n d) 0) as [->|_]; [apply tri_compose|].
      eapply tri_look; [apply looks_ptr|]. intros b' _. apply IH.
    - unfold loc_add. cbn [fst snd]. lia.
  Qed.
  Lemma tri_back_out (s : St) first last d : tri D s (move_backward_out first last d) any (last.2 - first.2).
  Proof.
    unfold move_backward_out. eapply tri_look; [apply looks_range_len|]. intros n <-.
    destruct n; [apply tri_any_ret|]. apply tri_back_out_loop.
  Qed.
  Lemma tri_back_in n (s : St) sg d : tri D s (back_in_loop n sg d) any (Z.of_nat n * SS).
  Proof.
    revert s sg d. induction n as [|n IH]; intros s sg d; [apply tri_any_ret|].
    cbn [back_in_loop]. eapply tri_look; [apply looks_ptr|]. intros b _. eapply tri_weak; [|done|].
    - eapply tri_bind; [apply tri_back_out|]. intros d' s' _. apply IH.
    - unfold loc_add. cbn [fst snd]. lia.
  Qed.
  Lemma tri_move_backward (s : St) first last d z1 z2 : posn first z1 -> posn last z2 -> tri D s (s_move_backward first last d) any (z2 - z1).
  Proof.
    intros (b1 & r1 & H1 & L1 & Hr1 & T1 & ->) (b2 & r2 & H2 & L2 & Hr2 & T2 & ->). unfold s_move_backward.
    destruct (loc_eqb _ _) eqn:He.
    - apply loc_eqb_spec in He. rewrite He in H1 |- *. rewrite H2 in H1. injection H1 as ->.
      eapply tri_weak; [apply tri_back_out|done|]. rewrite L1 L2. unfold loc_add. cbn [fst snd]. lia.
    - eapply tri_look; [apply looks_ptr|]. intros b Hb. rewrite H2 in Hb. injection Hb as <-. eapply tri_weak; [|done|].
      + eapply tri_bind; [apply tri_back_out|]. intros d1 s1 _.
        eapply (tri_look D _ _ _ _ _ (((it_seg last).2 - (it_seg first).2 - 1) * SS + (SS - r1))); [apply looks_range_len|]. intros n Hn.
        eapply tri_weak; [|done|].
        * eapply tri_bind; [apply tri_back_in|]. intros d2 s2 _.
          eapply (tri_look D _ _ _ _ _ (SS - r1)); [apply looks_ptr|]. intros b Hb. rewrite H1 in Hb. injection Hb as <-.
          eapply tri_weak; [apply tri_back_out|done|]. rewrite L1. unfold loc_add. cbn [fst snd]. lia.
        * unfold loc_add in Hn. cbn [fst snd] in Hn. rewrite Hn. lia.
      + rewrite L2. unfold loc_add. cbn [fst snd]. lia.
  Qed.

  (** ** Sources that are not containers *)
  Lemma tri_src_copy (s : St) ra l d : tri D s (src_copy (SList ra l) d) any (Z.of_nat (length l)).
  Proof. destruct ra; [apply tri_copy_ra|apply tri_copy_fwd]. Qed.
  Lemma tri_src_ucopy (s : St) ra l d : tri D s (src_ucopy (SList ra l) d) any (Z.of_nat (length l)).
  Proof. destruct ra; [apply tri_ucopy_ra|apply tri_ucopy_fwd]. Qed.
  Lemma tri_make (s : St) a : tri D s (make a) any 1.
  Proof. apply tri_keeps; [apply keeps_make|apply takes_make]. Qed.
  Lemma tri_construct (s : St) p a : tri D s (construct p a) any 1.
  Proof. apply tri_keeps; [apply keeps_construct|apply takes_construct]. Qed.
  Lemma tri_assign (s : St) p a : tri D s (assign p a) any 1.
  Proof. apply tri_keeps; [apply keeps_assign|apply takes_assign]. Qed.
  Lemma tri_destroy_at (s : St) p : tri D s (destroy_at p) any 0.
  Proof. apply tri_keeps; [apply keeps_destroy_at|]. apply takes_bounded, bounded_destroy_at. Qed.
End algorithms.
