(** * The relational operators compute what they should *)

From iris.proofmode Require Import tactics.
From Verif Require Export RelLists RelModel VectorThms SmallThms StaticThms CompactThms DevThms.
From Verif Require Export SegThms SegDevThms Demo.
Open Scope Z_scope.

Section generic.
  Context `{E : Env} {O A : Type} (R : O -> A -> heapm -> Prop) (els : A -> list V) (same : A -> A -> Prop).
  Context (run2 : vop2 -> M (O * O) rval).
  (** What a comparison of two objects does: the objects stay as they are. *)
  Definition compares (x : O) (a : A) (y : O) (b : A) (w : world) (hf : heapm) (m : M (O * O) rval) (P : Prop) : Prop :=
    match m (x, y) w with
    | Ok r (x', y') w' => (exists a' b', holds2 R x' a' y' b' w' hf /\ same a a' /\ same b b') /\ exists c, r = RBool c /\ (c = true <-> P)
    | Exn e (x', y') w' => e = EUser /\ exists a' b', holds2 R x' a' y' b' w' hf /\ same a a' /\ same b b'
    | UB => False
    end.
  Context (Heq : forall eqv x a y b w hf, holds2 R x a y b w hf -> compares x a y b w hf (run2 (PEq eqv)) (same_elems eqv (els a) (els b))).
  Context (Hlt : forall lt x a y b w hf, holds2 R x a y b w hf -> compares x a y b w hf (run2 (PLt lt)) (lexicographic lt (els a) (els b))).
  Lemma holds2_sym x a y b w hf : holds2 R x a y b w hf -> holds2 R y b x a w hf.
  Proof.
    intros (Hwf & m1 & m2 & H1 & H2 & Hd1 & Hd2 & Hd3 & Hh). split; [done|]. exists m2, m1.
    split_and!; try done. by rewrite Hh (map_union_comm m1 m2).
  Qed.
  Lemma compares_iff x a y b w hf m P Q : (P <-> Q) -> compares x a y b w hf m P -> compares x a y b w hf m Q.
  Proof.
    intros HPQ. unfold compares. destruct (m (x, y) w) as [r [] w'|e [] w'|]; try done.
    intros (H & c & -> & Hc). split; [done|]. exists c. split; [done|]. by rewrite Hc.
  Qed.
  Lemma compares_neg x a y b w hf m P : compares x a y b w hf m P -> compares x a y b w hf (negated m) (~ P).
  Proof.
    unfold compares, negated. destruct (m (x, y) w) as [r [] w'|e [] w'|]; try done.
    intros (H & c & -> & Hc). split; [done|]. exists (negb c). split; [done|]. rewrite -Hc. by destruct c.
  Qed.
  Lemma compares_flip x a y b w hf m P : compares y b x a w hf m P -> compares x a y b w hf (flipped m) P.
  Proof.
    unfold compares, flipped. cbn [fst snd]. destruct (m (y, x) w) as [r [] w'|e [] w'|]; try done; cbn [fst snd].
    - intros ((b' & a' & H & H1 & H2) & Hc). split; [|done]. exists a', b'. split; [by apply holds2_sym|done].
    - intros (-> & b' & a' & H & H1 & H2). split; [done|]. exists a', b'. split; [by apply holds2_sym|done].
  Qed.
  Lemma compare_ok o eqv lt x a y b w hf : consistent eqv lt -> holds2 R x a y b w hf ->
    compares x a y b w hf (compare_ run2 o eqv lt) (related o eqv lt (els a) (els b)).
  Proof.
    intros Hc Hxy. pose proof (holds2_sym _ _ _ _ _ _ Hxy) as Hyx.
    pose proof (one_relation eqv lt (els a) (els b) Hc) as H1. cbn in H1.
    destruct o; cbn [compare_ related].
    - by apply Heq.
    - by apply compares_neg, Heq.
    - by apply Hlt.
    - by apply compares_flip, Hlt.
    - eapply compares_iff; [|by apply compares_neg, compares_flip, Hlt]. tauto.
    - eapply compares_iff; [|by apply compares_neg, Hlt]. tauto.
  Qed.
End generic.

Section each.
  Context `{E : Env}.
  Lemma vec_compare o eqv lt x (A : vabs) y B w hf : consistent eqv lt -> holds2 is_vec x A y B w hf ->
    compares is_vec eq x A y B w hf (compare_ vec_run2 o eqv lt) (related o eqv lt (q_elems A) (q_elems B)).
  Proof.
    apply (compare_ok is_vec q_elems eq vec_run2); clear; intros r x A y B w hf H.
    - pose proof (vec_two_safe (PEq r) x A y B w hf H I) as Hs. unfold compares.
      destruct (vec_run2 _ _ _) as [? [] ?|? [] ?|]; [| |done]; destruct Hs as (A' & B' & H1 & Hp & _); cbn in Hp.
      + destruct Hp as (-> & -> & Hp). split; [by exists A, B|exact Hp].
      + destruct Hp as (-> & -> & ->). split; [done|]. by exists A, B.
    - pose proof (vec_two_safe (PLt r) x A y B w hf H I) as Hs. unfold compares.
      destruct (vec_run2 _ _ _) as [? [] ?|? [] ?|]; [| |done]; destruct Hs as (A' & B' & H1 & Hp & _); cbn in Hp.
      + destruct Hp as (-> & -> & Hp). split; [by exists A, B|exact Hp].
      + destruct Hp as (-> & -> & ->). split; [done|]. by exists A, B.
  Qed.
  Lemma small_compare N (HN : Z.of_nat N <= max_size) o eqv lt x (A : SmallSpec.sabs) y B w hf : consistent eqv lt -> holds2 (is_small N) x A y B w hf ->
    compares (is_small N) eq x A y B w hf (compare_ (small_run2 N) o eqv lt) (related o eqv lt (q_elems A.2) (q_elems B.2)).
  Proof.
    apply (compare_ok (is_small N) (fun A => q_elems A.2) eq (small_run2 N)); clear -HN; intros r x A y B w hf H.
    - pose proof (small_two_safe N HN (PEq r) x A y B w hf H I) as Hs. unfold compares.
      destruct (small_run2 _ _ _ _) as [? [] ?|? [] ?|]; [| |done]; destruct Hs as ([A1 A2] & [B1 B2] & H1 & Ha & Hb & Hp & _); cbn in *.
      + destruct Hp as (-> & -> & Hp). subst. destruct A, B. split; [by do 2 eexists|exact Hp].
      + destruct Hp as (-> & -> & ->). subst. split; [done|]. destruct A, B. by do 2 eexists.
    - pose proof (small_two_safe N HN (PLt r) x A y B w hf H I) as Hs. unfold compares.
      destruct (small_run2 _ _ _ _) as [? [] ?|? [] ?|]; [| |done]; destruct Hs as ([A1 A2] & [B1 B2] & H1 & Ha & Hb & Hp & _); cbn in *.
      + destruct Hp as (-> & -> & Hp). subst. destruct A, B. split; [by do 2 eexists|exact Hp].
      + destruct Hp as (-> & -> & ->). subst. split; [done|]. destruct A, B. by do 2 eexists.
  Qed.
  Lemma static_compare N o eqv lt x (A : tabs) y B w hf : consistent eqv lt -> holds2 (is_static N) x A y B w hf ->
    compares (is_static N) eq x A y B w hf (compare_ (static_run2 N) o eqv lt) (related o eqv lt A.2 B.2).
  Proof.
    apply (compare_ok (is_static N) snd eq (static_run2 N)); clear; intros r x A y B w hf H.
    - pose proof (static_two_safe N (PEq r) x A y B w hf H) as Hs. unfold compares.
      destruct (static_run2 _ _ _ _) as [? [] ?|? [] ?|]; [| |done]; destruct Hs as ([A1 A2] & [B1 B2] & H1 & Hp & _); unfold static_post2, static_exn2 in Hp; cbn [fst snd] in Hp.
      + destruct Hp as (-> & -> & -> & -> & Hp). destruct A, B. split; [by do 2 eexists|exact Hp].
      + destruct Hp as (-> & -> & -> & _ & _ & -> & ->). split; [done|]. destruct A, B. by do 2 eexists.
    - pose proof (static_two_safe N (PLt r) x A y B w hf H) as Hs. unfold compares.
      destruct (static_run2 _ _ _ _) as [? [] ?|? [] ?|]; [| |done]; destruct Hs as ([A1 A2] & [B1 B2] & H1 & Hp & _); unfold static_post2, static_exn2 in Hp; cbn [fst snd] in Hp.
      + destruct Hp as (-> & -> & -> & -> & Hp). destruct A, B. split; [by do 2 eexists|exact Hp].
      + destruct Hp as (-> & -> & -> & _ & _ & -> & ->). split; [done|]. destruct A, B. by do 2 eexists.
  Qed.
  Lemma compact_compare o eqv lt x (A : vabs) y B w hf : consistent eqv lt -> holds2 is_compact x A y B w hf ->
    compares is_compact eq x A y B w hf (compare_ (compact_run2 code_undo) o eqv lt) (related o eqv lt (q_elems A) (q_elems B)).
  Proof.
    apply (compare_ok is_compact q_elems eq (compact_run2 code_undo)); clear; intros r x A y B w hf H.
    - pose proof (compact_two_ok (PEq r) x A y B w hf H eq_refl) as Hs. unfold compares.
      destruct (compact_run2 _ _ _ _) as [? [] ?|? [] ?|]; [| |done]; destruct Hs as (A' & B' & H1 & Hp & _); cbn in Hp.
      + destruct Hp as (-> & -> & Hp). split; [by exists A, B|exact Hp].
      + destruct Hp as (-> & -> & ->). split; [done|]. by exists A, B.
    - pose proof (compact_two_ok (PLt r) x A y B w hf H eq_refl) as Hs. unfold compares.
      destruct (compact_run2 _ _ _ _) as [? [] ?|? [] ?|]; [| |done]; destruct Hs as (A' & B' & H1 & Hp & _); cbn in Hp.
      + destruct Hp as (-> & -> & Hp). split; [by exists A, B|exact Hp].
      + destruct Hp as (-> & -> & ->). split; [done|]. by exists A, B.
  Qed.
  Lemma dev_compare o eqv lt x A y B w hf : consistent eqv lt -> holds2 is_dev x A y B w hf ->
    compares is_dev eq x A y B w hf (compare_ (dv_run2 false) o eqv lt) (related o eqv lt (e_elems A) (e_elems B)).
  Proof.
    apply (compare_ok is_dev e_elems eq (dv_run2 false)); clear; intros r x A y B w hf H.
    - pose proof (dev_two_safe (PEq r) x A y B w hf H I ltac:(by intros [])) as Hs. unfold compares.
      destruct (dv_run2 _ _ _ _) as [? [] ?|? [] ?|]; [| |done]; destruct Hs as (A' & B' & H1 & Hp & _); cbn in Hp.
      + destruct Hp as (-> & -> & Hp). split; [by exists A, B|exact Hp].
      + destruct Hp as (-> & -> & ->). split; [done|]. by exists A, B.
    - pose proof (dev_two_safe (PLt r) x A y B w hf H I ltac:(by intros [])) as Hs. unfold compares.
      destruct (dv_run2 _ _ _ _) as [? [] ?|? [] ?|]; [| |done]; destruct Hs as (A' & B' & H1 & Hp & _); cbn in Hp.
      + destruct Hp as (-> & -> & Hp). split; [by exists A, B|exact Hp].
      + destruct Hp as (-> & -> & ->). split; [done|]. by exists A, B.
  Qed.
  Context `{SZ : SegSize}.
  Lemma seg_compare o eqv lt x (A : SegSpec.sabs) y B w hf : consistent eqv lt -> holds2 (is_seg false) x A y B w hf ->
    compares (is_seg false) eq x A y B w hf (compare_ (sq_run2 sv_assign_range) o eqv lt) (related o eqv lt (s_elems A) (s_elems B)).
  Proof.
    apply (compare_ok (is_seg false) s_elems eq (sq_run2 sv_assign_range)); clear; intros r x A y B w hf H.
    - pose proof (seg_two_safe true (PEq r) x A y B w hf H I) as Hs. unfold compares.
      destruct (sq_run2 _ _ _ _) as [? [] ?|? [] ?|]; [| |done]; destruct Hs as (A' & B' & H1 & Hp & _); cbn in Hp.
      + destruct Hp as (-> & -> & Hp). split; [by exists A, B|exact Hp].
      + destruct Hp as (-> & -> & ->). split; [done|]. by exists A, B.
    - pose proof (seg_two_safe true (PLt r) x A y B w hf H I) as Hs. unfold compares.
      destruct (sq_run2 _ _ _ _) as [? [] ?|? [] ?|]; [| |done]; destruct Hs as (A' & B' & H1 & Hp & _); cbn in Hp.
      + destruct Hp as (-> & -> & Hp). split; [by exists A, B|exact Hp].
      + destruct Hp as (-> & -> & ->). split; [done|]. by exists A, B.
  Qed.
  Lemma segd_compare o eqv lt x (A : SegSpec.sabs) y B w hf : consistent eqv lt -> holds2 (is_seg true) x A y B w hf ->
    compares (is_seg true) eq x A y B w hf (compare_ (sq_run2 sd_assign_range) o eqv lt) (related o eqv lt (s_elems A) (s_elems B)).
  Proof.
    apply (compare_ok (is_seg true) s_elems eq (sq_run2 sd_assign_range)); clear; intros r x A y B w hf H.
    - pose proof (segd_two_safe true (PEq r) x A y B w hf H I) as Hs. unfold compares.
      destruct (sq_run2 _ _ _ _) as [? [] ?|? [] ?|]; [| |done]; destruct Hs as (A' & B' & H1 & Hp & _); cbn in Hp.
      + destruct Hp as (-> & -> & Hp). split; [by exists A, B|exact Hp].
      + destruct Hp as (-> & -> & ->). split; [done|]. by exists A, B.
    - pose proof (segd_two_safe true (PLt r) x A y B w hf H I) as Hs. unfold compares.
      destruct (sq_run2 _ _ _ _) as [? [] ?|? [] ?|]; [| |done]; destruct Hs as (A' & B' & H1 & Hp & _); cbn in Hp.
      + destruct Hp as (-> & -> & Hp). split; [by exists A, B|exact Hp].
      + destruct Hp as (-> & -> & ->). split; [done|]. by exists A, B.
  Qed.
End each.

(** Numbers. *)
Lemma nat_consistent : consistent (H := calm) Nat.eqb Nat.ltb.
Proof.
  split; cbn.
  - intros x y. rewrite Nat.ltb_lt Nat.ltb_ge. lia.
  - intros x y. rewrite Nat.eqb_eq !Nat.ltb_ge. lia.
Qed.
Lemma nat_order_case : let E := calm in
  consistent (H := E) Nat.eqb Nat.ltb /\ transitive_lt (H := E) Nat.ltb /\
  lexicographic (Nat.ltb : @V E -> @V E -> bool) [1; 2]%nat [1; 2; 0]%nat /\
  lexicographic (Nat.ltb : @V E -> @V E -> bool) [1; 2; 0]%nat [1; 3]%nat.
Proof.
  intros E. split; [exact nat_consistent|]. split.
  { split; cbn; intros x y z; rewrite ?Nat.ltb_lt ?Nat.ltb_ge; lia. }
  split.
  - do 2 (apply lex_cons; right; split_and!; [done..|]). apply lex_nil_l.
  - apply lex_cons; right; split_and!; [done..|]. apply lex_cons. by left.
Qed.
