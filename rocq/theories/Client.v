(** * Client programs: arbitrary histories over a pool of container objects

    A container is given by its object representation, its constructors, its
    member functions and its destructor (all of them programs of the model).  A
    client is a finite list of commands working on any number of objects, each
    known by a number.  A client observes the documented preconditions: a
    command whose precondition does not hold is skipped ([guard]; it can be
    computed from the object, e.g. from size()).  Exceptions are caught by the
    client, which then goes on with the next command.

    Since the theorems hold for every list of commands and every environment,
    they also cover clients that choose their commands depending on earlier
    results. *)

From stdpp Require Import fin_maps.
From Verif Require Export Sep.
Open Scope Z_scope.

(** The code of a container. *)
Record container `{Env} := Container {
  obj : Type;                              (* data members *)
  rv : Type;                               (* results of member functions *)
  ctor : Type;                             (* constructors and their arguments *)
  cguard : ctor -> bool;
  build : ctor -> M unit obj;
  ctor2 : Type;                            (* constructors taking another object *)
  cguard2 : ctor2 -> obj -> bool;
  build2 : ctor2 -> M obj obj;
  op1 : Type;                              (* member functions *)
  guard1 : op1 -> obj -> bool;
  run1 : op1 -> M obj rv;
  op2 : Type;                              (* functions of two different objects *)
  guard2 : op2 -> obj -> obj -> bool;
  run2 : op2 -> M (obj * obj) rv;
  kill : M obj unit;                       (* destructor *)
}.
Arguments obj {_}. Arguments rv {_}. Arguments ctor {_}. Arguments cguard {_}.
Arguments build {_}. Arguments ctor2 {_}. Arguments cguard2 {_}. Arguments build2 {_}.
Arguments op1 {_}. Arguments guard1 {_}. Arguments run1 {_}.
Arguments op2 {_}. Arguments guard2 {_}. Arguments run2 {_}. Arguments kill {_}.

(** A specification: the abstract value of an object and what each function
    does to it, on return and on an exception. *)
Record cspec `{Env} (C : container) := CSpec {
  abs : Type;
  cpre : ctor C -> Prop;
  cpost : ctor C -> abs -> Prop;
  cexn : ctor C -> exn -> Prop;
  cpre2 : ctor2 C -> abs -> Prop;
  cpost2 : ctor2 C -> abs -> abs -> abs -> Prop;   (* source, new object, source afterwards *)
  cexn2 : ctor2 C -> abs -> exn -> abs -> Prop;
  pre1 : op1 C -> abs -> Prop;
  post1 : op1 C -> abs -> rv C -> abs -> Prop;
  exn1 : op1 C -> abs -> exn -> abs -> Prop;
  pre2 : op2 C -> abs -> abs -> Prop;
  post2 : op2 C -> abs -> abs -> rv C -> abs -> abs -> Prop;
  exn2 : op2 C -> abs -> abs -> exn -> abs -> abs -> Prop;
}.
Arguments abs {_ _}. Arguments cpre {_ _}. Arguments cpost {_ _}. Arguments cexn {_ _}.
Arguments cpre2 {_ _}. Arguments cpost2 {_ _}. Arguments cexn2 {_ _}.
Arguments pre1 {_ _}. Arguments post1 {_ _}. Arguments exn1 {_ _}.
Arguments pre2 {_ _}. Arguments post2 {_ _}. Arguments exn2 {_ _}.

(** ** Commands *)
Inductive cmd `{Env} (C : container) :=
  | New (i : nat) (c : ctor C)                 (* object i is created *)
  | NewFrom (i j : nat) (c : ctor2 C)          (* object i is created from object j *)
  | Do (i : nat) (o : op1 C)
  | Do2 (i j : nat) (o : op2 C)
  | Drop (i : nat).                            (* object i is destroyed *)
Arguments New {_ _}. Arguments NewFrom {_ _}. Arguments Do {_ _}.
Arguments Do2 {_ _}. Arguments Drop {_ _}.

(** What the client observes. *)
Inductive outcome (A : Type) :=
  | Skipped
  | Returned (r : A)
  | Created
  | Dropped
  | Threw (e : exn).
Arguments Skipped {_}. Arguments Returned {_}. Arguments Created {_}.
Arguments Dropped {_}. Arguments Threw {_}.

Section exec.
  Context `{Env} (C : container).

  Definition pool := gmap nat (obj C).

  (** One command.  [None]: undefined behaviour. *)
  Definition exec (c : cmd C) (P : pool) (w : world) : option (outcome (rv C) * pool * world) :=
    match c with
    | New i c =>
        match P !! i with
        | Some _ => Some (Skipped, P, w)
        | None =>
            if cguard C c then
              match build C c tt w with
              | Ok x _ w' => Some (Created, <[i := x]> P, w')
              | Exn e _ w' => Some (Threw e, P, w')
              | UB => None
              end
            else Some (Skipped, P, w)
        end
    | NewFrom i j c =>
        match P !! i, P !! j with
        | None, Some y =>
            if cguard2 C c y then
              match build2 C c y w with
              | Ok x y' w' => Some (Created, <[i := x]> (<[j := y']> P), w')
              | Exn e y' w' => Some (Threw e, <[j := y']> P, w')
              | UB => None
              end
            else Some (Skipped, P, w)
        | _, _ => Some (Skipped, P, w)
        end
    | Do i o =>
        match P !! i with
        | Some x =>
            if guard1 C o x then
              match run1 C o x w with
              | Ok r x' w' => Some (Returned r, <[i := x']> P, w')
              | Exn e x' w' => Some (Threw e, <[i := x']> P, w')
              | UB => None
              end
            else Some (Skipped, P, w)
        | None => Some (Skipped, P, w)
        end
    | Do2 i j o =>
        match P !! i, P !! j with
        | Some x, Some y =>
            if negb (Nat.eqb i j) && guard2 C o x y then
              match run2 C o (x, y) w with
              | Ok r (x', y') w' => Some (Returned r, <[i := x']> (<[j := y']> P), w')
              | Exn e (x', y') w' => Some (Threw e, <[i := x']> (<[j := y']> P), w')
              | UB => None
              end
            else Some (Skipped, P, w)
        | _, _ => Some (Skipped, P, w)
        end
    | Drop i =>
        match P !! i with
        | Some x =>
            match kill C x w with
            | Ok _ _ w' => Some (Dropped, delete i P, w')
            | Exn e _ w' => None                (* a destructor must not throw *)
            | UB => None
            end
        | None => Some (Skipped, P, w)
        end
    end.

  Fixpoint exec_all (cs : list (cmd C)) (P : pool) (w : world)
      : option (list (outcome (rv C)) * pool * world) :=
    match cs with
    | [] => Some ([], P, w)
    | c :: cs' =>
        match exec c P w with
        | Some (o, P', w') =>
            match exec_all cs' P' w' with
            | Some (os, P'', w'') => Some (o :: os, P'', w'')
            | None => None
            end
        | None => None
        end
    end.
End exec.

(** ** The specification of a history *)
Section spec.
  Context `{Env} {C : container} (S : cspec C).

  Definition apool := gmap nat (abs S).

  (** Allowed behaviours of one command on the abstract values. *)
  Inductive astep : cmd C -> apool -> outcome (rv C) -> apool -> Prop :=
    | a_new i c A a :
        A !! i = None -> cpre S c -> cpost S c a -> astep (New i c) A Created (<[i := a]> A)
    | a_new_exn i c A e :
        A !! i = None -> cpre S c -> cexn S c e -> astep (New i c) A (Threw e) A
    | a_new_skip i c A :
        (is_Some (A !! i) \/ ~ cpre S c) -> astep (New i c) A Skipped A
    | a_from i j c A b a b' :
        A !! i = None -> A !! j = Some b -> cpre2 S c b -> cpost2 S c b a b' ->
        astep (NewFrom i j c) A Created (<[i := a]> (<[j := b']> A))
    | a_from_exn i j c A b e b' :
        A !! i = None -> A !! j = Some b -> cpre2 S c b -> cexn2 S c b e b' ->
        astep (NewFrom i j c) A (Threw e) (<[j := b']> A)
    | a_from_skip i j c A :
        (is_Some (A !! i) \/ A !! j = None \/ exists b, A !! j = Some b /\ ~ cpre2 S c b) ->
        astep (NewFrom i j c) A Skipped A
    | a_do i o A a r a' :
        A !! i = Some a -> pre1 S o a -> post1 S o a r a' ->
        astep (Do i o) A (Returned r) (<[i := a']> A)
    | a_do_exn i o A a e a' :
        A !! i = Some a -> pre1 S o a -> exn1 S o a e a' ->
        astep (Do i o) A (Threw e) (<[i := a']> A)
    | a_do_skip i o A :
        (A !! i = None \/ exists a, A !! i = Some a /\ ~ pre1 S o a) -> astep (Do i o) A Skipped A
    | a_do2 i j o A a b r a' b' :
        A !! i = Some a -> A !! j = Some b -> i <> j -> pre2 S o a b -> post2 S o a b r a' b' ->
        astep (Do2 i j o) A (Returned r) (<[i := a']> (<[j := b']> A))
    | a_do2_exn i j o A a b e a' b' :
        A !! i = Some a -> A !! j = Some b -> i <> j -> pre2 S o a b -> exn2 S o a b e a' b' ->
        astep (Do2 i j o) A (Threw e) (<[i := a']> (<[j := b']> A))
    | a_do2_skip i j o A :
        (A !! i = None \/ A !! j = None \/ i = j \/
         exists a b, A !! i = Some a /\ A !! j = Some b /\ ~ pre2 S o a b) ->
        astep (Do2 i j o) A Skipped A
    | a_drop i A a : A !! i = Some a -> astep (Drop i) A Dropped (delete i A)
    | a_drop_skip i A : A !! i = None -> astep (Drop i) A Skipped A.

  Inductive atrace : list (cmd C) -> apool -> list (outcome (rv C)) -> apool -> Prop :=
    | at_nil A : atrace [] A [] A
    | at_cons c cs A o A' os A'' :
        astep c A o A' -> atrace cs A' os A'' -> atrace (c :: cs) A (o :: os) A''.
End spec.

(** ** What has to be proved about a container *)
Record container_ok `{Env} {C : container} (S : cspec C) := ContainerOk {
  inv : obj C -> abs S -> hProp;           (* the memory of an object with this abstract value *)
  cguard_ok : forall c, cguard C c = true <-> cpre S c;
  cguard2_ok : forall c x a h, inv x a h -> cguard2 C c x = true <-> cpre2 S c a;
  guard1_ok : forall o x a h, inv x a h -> guard1 C o x = true <-> pre1 S o a;
  guard2_ok : forall o x a y b h h', inv x a h -> inv y b h' ->
    guard2 C o x y = true <-> pre2 S o a b;
  ok_build : forall c, cpre S c ->
    ⊢ wp (build C c) tt (fun x _ => ∃ a, ⟦cpost S c a⟧ ∗ inv x a)%I (fun e _ => ⟦cexn S c e⟧)%I;
  ok_build2 : forall c x a, cpre2 S c a ->
    inv x a ⊢ wp (build2 C c) x
      (fun y x' => ∃ b a', ⟦cpost2 S c a b a'⟧ ∗ inv y b ∗ inv x' a')%I
      (fun e x' => ∃ a', ⟦cexn2 S c a e a'⟧ ∗ inv x' a')%I;
  ok_run1 : forall o x a, pre1 S o a ->
    inv x a ⊢ wp (run1 C o) x
      (fun r x' => ∃ a', ⟦post1 S o a r a'⟧ ∗ inv x' a')%I
      (fun e x' => ∃ a', ⟦exn1 S o a e a'⟧ ∗ inv x' a')%I;
  ok_run2 : forall o x a y b, pre2 S o a b ->
    inv x a ∗ inv y b ⊢ wp (run2 C o) (x, y)
      (fun r xy => ∃ a' b', ⟦post2 S o a b r a' b'⟧ ∗ inv xy.1 a' ∗ inv xy.2 b')%I
      (fun e xy => ∃ a' b', ⟦exn2 S o a b e a' b'⟧ ∗ inv xy.1 a' ∗ inv xy.2 b')%I;
  ok_kill : forall x a, inv x a ⊢ wp (kill C) x (fun _ _ => emp)%I (fun _ _ => False)%I;
}.
Arguments inv {_ _ _}.

Section history.
  Context `{E : Env} {C : container} {S : cspec C} (OK : container_ok S).

  (** The memory of all objects of a pool. *)
  Definition pool_inv (P : pool C) (A : apool S) : hProp :=
    ([∗ map] x;a ∈ P;A, inv OK x a)%I.

  Lemma pool_lookup P A i h :
    pool_inv P A h -> (is_Some (P !! i) <-> is_Some (A !! i)).
  Proof.
    intros Hh.
    assert (pool_inv P A ⊢ ⌜forall k, is_Some (P !! k) <-> is_Some (A !! k)⌝) as Hl.
    { unfold pool_inv. apply big_sepM2_lookup_iff. }
    destruct Hl as [Hl]. specialize (Hl h Hh). apply Hl.
  Qed.
  Lemma pool_none P A i h : pool_inv P A h -> (P !! i = None <-> A !! i = None).
  Proof.
    intros Hh. pose proof (pool_lookup P A i h Hh). rewrite !eq_None_not_Some. tauto.
  Qed.
  Lemma pool_both P A i x h :
    pool_inv P A h -> P !! i = Some x -> exists a, A !! i = Some a.
  Proof. intros Hh Hx. apply (pool_lookup P A i h Hh). by eexists. Qed.

  Global Instance hprop_holds_proper : Proper ((≡) ==> (=) ==> iff) (@hprop_holds E).
  Proof. intros P Q HPQ h h' ->. destruct HPQ as [HPQ]. apply HPQ. Qed.

  (** Splitting heaps by hand (the guards are about heaps, not assertions). *)
  Lemma sep_split (P Q : hProp) h :
    (P ∗ Q)%I h -> exists h1 h2, h = h1 ∪ h2 /\ h1 ##ₘ h2 /\ P h1 /\ Q h2.
  Proof. done. Qed.

  Lemma pool_at P A i x a :
    P !! i = Some x -> A !! i = Some a ->
    pool_inv P A ⊣⊢ inv OK x a ∗ pool_inv (delete i P) (delete i A).
  Proof. intros Hx Ha. unfold pool_inv. by apply (big_sepM2_delete (fun _ x a => inv OK x a)). Qed.
  Lemma pool_put P A i x a :
    pool_inv (delete i P) (delete i A) ∗ inv OK x a ⊢ pool_inv (<[i := x]> P) (<[i := a]> A).
  Proof.
    unfold pool_inv. rewrite -insert_delete_insert -(insert_delete_insert A).
    rewrite big_sepM2_insert; [|apply lookup_delete..]. by rewrite comm.
  Qed.
  Lemma pool_new P A i x a :
    P !! i = None -> A !! i = None ->
    pool_inv P A ∗ inv OK x a ⊢ pool_inv (<[i := x]> P) (<[i := a]> A).
  Proof.
    intros HP HA. unfold pool_inv. rewrite big_sepM2_insert; [|done..]. by rewrite comm.
  Qed.

  (** Exceptions are reported to the client, and thrown for a reason. *)
  Inductive reported (w : world) (o : outcome (rv C)) (w' : world) : Prop :=
    | Reported :
        wf_world w' -> (tick w <= tick w')%nat ->
        match o with
        | Threw e => cause e (tick w) (tick w')
        | _ => fired w' = fired w
        end -> reported w o w'.
  Lemma after_reported w o w' : after w w' -> (forall e, o <> Threw e) -> reported w o w'.
  Proof. intros (H1 & H2 & H3) Ho. split; [done..|]. destruct o; try done. by destruct (Ho e). Qed.
  Lemma after_exn_reported w e w' : after_exn e w w' -> reported w (Threw e) w'.
  Proof. intros ((H1 & H2) & H3). by split. Qed.

  Definition behaves (c : cmd C) (P : pool C) (A : apool S) (w : world) (hf : gmap loc cell) : Prop :=
    exists o P' w' A' h',
      exec C c P w = Some (o, P', w') /\ astep S c A o A' /\
      heap w' = h' ∪ hf /\ h' ##ₘ hf /\ reported w o w' /\ pool_inv P' A' h'.

  (** Run a program on part of the heap. *)
  Lemma wp_run {St T} (m : M St T) s Q X h hf w :
    wp m s Q X h -> wf_world w -> h ##ₘ hf -> heap w = h ∪ hf ->
    match m s w with
    | Ok a s' w' => exists h', heap w' = h' ∪ hf /\ h' ##ₘ hf /\ after w w' /\ Q a s' h'
    | Exn e s' w' => exists h', heap w' = h' ∪ hf /\ h' ##ₘ hf /\ after_exn e w w' /\ X e s' h'
    | UB => False
    end.
  Proof. intros Hwp. rewrite wp_unseal in Hwp. by apply Hwp. Qed.

  Lemma wp_entails (P : hProp) {St T} (m : M St T) s Q X h :
    (P ⊢ wp m s Q X) -> P h -> wp m s Q X h.
  Proof. intros [HP]. apply HP. Qed.

  Lemma pure_ex {T} (φ : T -> Prop) (P : T -> hProp) h :
    (∃ a, ⟦φ a⟧ ∗ P a)%I h -> exists a, φ a /\ P a h.
  Proof.
    intros [a Ha]. exists a. destruct Ha as (h1 & h2 & -> & Hd & [Hemp Hφ] & HP).
    change (h1 = ∅) in Hemp. subst. rewrite left_id_L. by split.
  Qed.

  Lemma exec_ok c P A w h hf :
    pool_inv P A h -> wf_world w -> h ##ₘ hf -> heap w = h ∪ hf -> behaves c P A w hf.
  Proof.
    intros Hinv Hwf Hd Hh.
    assert (Hskip : forall c, astep S c A Skipped A -> exec C c P w = Some (Skipped, P, w) ->
                              behaves c P A w hf).
    { intros c' Hs He. exists Skipped, P, w, A, h. by split_and!. }
    destruct c as [i c|i j c|i o|i j o|i].
    - (* New *)
      destruct (P !! i) as [x|] eqn:Hi.
      { apply Hskip; [|simpl; by rewrite Hi]. constructor. left.
        apply (pool_lookup P A i h Hinv). by eexists. }
      assert (A !! i = None) as HAi by (by apply (pool_none P A i h Hinv)).
      destruct (cguard C c) eqn:Hg; last first.
      { apply Hskip; [|simpl; by rewrite Hi Hg]. constructor. right.
        rewrite -(cguard_ok _ OK) Hg. done. }
      apply (cguard_ok _ OK) in Hg as Hpre.
      assert (Hwp : (emp ∗ pool_inv P A ⊢
                wp (build C c) tt (fun x _ => ∃ a, ⟦cpost S c a⟧ ∗ (inv OK x a ∗ pool_inv P A))
                                  (fun e _ => ∃ _ : unit, ⟦cexn S c e⟧ ∗ pool_inv P A))%I).
      { iIntros "[_ Hp]". iApply (wp_wand with "[]"); [by iApply (ok_build _ OK)|]. iSplit.
        - iIntros (x s) "Hx". iDestruct "Hx" as (a) "[%Ha Hx]". iExists a. by iFrame.
        - iIntros (e s) "%He". iExists tt. by iFrame. }
      rewrite left_id in Hwp.
      pose proof (wp_run _ _ _ _ h hf w (wp_entails _ _ _ _ _ h Hwp Hinv) Hwf Hd Hh) as Hrun.
      unfold behaves. simpl. rewrite Hi Hg. destruct (build C c tt w) as [x [] w'|e [] w'|]; [| |done].
      + destruct Hrun as (h' & Hh' & Hd' & Haf & HQ). apply pure_ex in HQ as (a & Ha & HQ).
        eexists _, _, _, (<[i := a]> A), h'. split_and!; try done; [by constructor|by apply after_reported|].
        rewrite comm in HQ. by apply (pool_new P A i x a Hi HAi).
      + destruct Hrun as (h' & Hh' & Hd' & Haf & HQ). apply pure_ex in HQ as (a & Ha & HQ).
        eexists _, _, _, A, h'. split_and!; try done; [by constructor|by apply after_exn_reported].
    - (* NewFrom *)
      destruct (P !! i) as [x|] eqn:Hi.
      { apply Hskip; [|simpl; by rewrite Hi]. constructor. left.
        apply (pool_lookup P A i h Hinv). by eexists. }
      assert (A !! i = None) as HAi by (by apply (pool_none P A i h Hinv)).
      destruct (P !! j) as [y|] eqn:Hj; last first.
      { apply Hskip; [|simpl; by rewrite Hi Hj]. constructor. right; left.
        by apply (pool_none P A j h Hinv). }
      destruct (pool_both P A j y h Hinv Hj) as [b HAj].
      assert (i <> j) as Hij by congruence.
      rewrite (pool_at P A j y b Hj HAj) in Hinv.
      destruct Hinv as (h1 & h2 & Heq12 & Hd12 & Hy & Hrest).
      destruct (cguard2 C c y) eqn:Hg; last first.
      { apply Hskip; [|simpl; by rewrite Hi Hj Hg]. constructor. right; right. exists b.
        split; [done|]. rewrite -(cguard2_ok _ OK _ _ _ _ Hy) Hg. done. }
      apply (cguard2_ok _ OK _ _ _ _ Hy) in Hg as Hpre.
      assert (Hwp : (inv OK y b ∗ pool_inv (delete j P) (delete j A) ⊢
                wp (build2 C c) y
                  (fun x y' => ∃ ab : abs S * abs S, ⟦cpost2 S c b ab.1 ab.2⟧ ∗
                     (inv OK x ab.1 ∗ inv OK y' ab.2 ∗ pool_inv (delete j P) (delete j A)))
                  (fun e y' => ∃ b', ⟦cexn2 S c b e b'⟧ ∗
                     (inv OK y' b' ∗ pool_inv (delete j P) (delete j A))))%I).
      { iIntros "[Hy Hp]". iApply (wp_wand with "[Hy]"); [by iApply (ok_build2 _ OK)|]. iSplit.
        - iIntros (x s) "Hx". iDestruct "Hx" as (a b') "(%Ha & Hx & Hy)". iExists (a, b'). by iFrame.
        - iIntros (e s) "Hy". iDestruct "Hy" as (b') "[%Ha Hy]". iExists b'. by iFrame. }
      assert (Hpre2 : (inv OK y b ∗ pool_inv (delete j P) (delete j A))%I h).
      { exists h1, h2. by split_and!. }
      pose proof (wp_run _ _ _ _ h hf w (wp_entails _ _ _ _ _ h Hwp Hpre2) Hwf Hd Hh) as Hrun.
      unfold behaves. simpl. rewrite Hi Hj Hg.
      destruct (build2 C c y w) as [x y' w'|e y' w'|]; [| |done].
      + destruct Hrun as (h' & Hh' & Hd' & Haf & HQ). apply pure_ex in HQ as ([a b'] & Ha & HQ).
        simpl in *.
        eexists _, _, _, (<[i := a]> (<[j := b']> A)), h'.
        split_and!; try done; [by econstructor|by apply after_reported|].
        assert (inv OK x a ∗ inv OK y' b' ∗ pool_inv (delete j P) (delete j A) ⊢
                pool_inv (<[i := x]> (<[j := y']> P)) (<[i := a]> (<[j := b']> A))) as [Hent].
        { iIntros "(Hx & Hy & Hp)". iApply pool_new; [by rewrite lookup_insert_ne..|].
          iFrame. iApply pool_put. iFrame. }
        by apply Hent.
      + destruct Hrun as (h' & Hh' & Hd' & Haf & HQ). apply pure_ex in HQ as (b' & Ha & HQ).
        eexists _, _, _, (<[j := b']> A), h'. split_and!; try done; [by econstructor|by apply after_exn_reported|].
        rewrite comm in HQ. by apply (pool_put P A j y' b').
    - (* Do *)
      destruct (P !! i) as [x|] eqn:Hi; last first.
      { apply Hskip; [|simpl; by rewrite Hi]. constructor. left. by apply (pool_none P A i h Hinv). }
      destruct (pool_both P A i x h Hinv Hi) as [a HAi].
      rewrite (pool_at P A i x a Hi HAi) in Hinv.
      destruct Hinv as (h1 & h2 & Heq12 & Hd12 & Hx & Hrest).
      destruct (guard1 C o x) eqn:Hg; last first.
      { apply Hskip; [|simpl; by rewrite Hi Hg]. constructor. right. exists a.
        split; [done|]. rewrite -(guard1_ok _ OK _ _ _ _ Hx) Hg. done. }
      apply (guard1_ok _ OK _ _ _ _ Hx) in Hg as Hpre.
      assert (Hwp : (inv OK x a ∗ pool_inv (delete i P) (delete i A) ⊢
                wp (run1 C o) x
                  (fun r x' => ∃ a', ⟦post1 S o a r a'⟧ ∗
                     (inv OK x' a' ∗ pool_inv (delete i P) (delete i A)))
                  (fun e x' => ∃ a', ⟦exn1 S o a e a'⟧ ∗
                     (inv OK x' a' ∗ pool_inv (delete i P) (delete i A))))%I).
      { iIntros "[Hy Hp]". iApply (wp_wand with "[Hy]"); [by iApply (ok_run1 _ OK)|]. iSplit.
        - iIntros (r s) "Hx". iDestruct "Hx" as (a') "[%Ha Hx]". iExists a'. by iFrame.
        - iIntros (e s) "Hx". iDestruct "Hx" as (a') "[%Ha Hx]". iExists a'. by iFrame. }
      assert (Hpre2 : (inv OK x a ∗ pool_inv (delete i P) (delete i A))%I h).
      { exists h1, h2. by split_and!. }
      pose proof (wp_run _ _ _ _ h hf w (wp_entails _ _ _ _ _ h Hwp Hpre2) Hwf Hd Hh) as Hrun.
      unfold behaves. simpl. rewrite Hi Hg.
      destruct (run1 C o x w) as [r x' w'|e x' w'|]; [| |done];
        destruct Hrun as (h' & Hh' & Hd' & Haf & HQ); apply pure_ex in HQ as (a' & Ha & HQ);
        eexists _, _, _, (<[i := a']> A), h'; split_and!; try done; try (by econstructor);
        try (by apply after_reported); try (by apply after_exn_reported); rewrite comm in HQ; by apply (pool_put P A i x' a').
    - (* Do2 *)
      destruct (P !! i) as [x|] eqn:Hi; last first.
      { apply Hskip; [|simpl; by rewrite Hi]. constructor. left. by apply (pool_none P A i h Hinv). }
      destruct (P !! j) as [y|] eqn:Hj; last first.
      { apply Hskip; [|simpl; by rewrite Hi Hj]. constructor. right; left.
        by apply (pool_none P A j h Hinv). }
      destruct (decide (i = j)) as [->|Hij].
      { apply Hskip; [constructor; tauto|]. simpl. by rewrite Hi Nat.eqb_refl. }
      assert ((i =? j)%nat = false) as Hijb by (by apply Nat.eqb_neq).
      destruct (pool_both P A i x h Hinv Hi) as [a HAi].
      destruct (pool_both P A j y h Hinv Hj) as [b HAj].
      rewrite (pool_at P A j y b Hj HAj) in Hinv.
      rewrite (pool_at _ _ i x a) in Hinv; [|by rewrite lookup_delete_ne..].
      set (R := pool_inv (delete i (delete j P)) (delete i (delete j A))) in *.
      destruct Hinv as (h1 & h2 & Heq12 & Hd12 & Hy & Hrest).
      destruct Hrest as (h3 & h4 & Heq34 & Hd34 & Hx & Hrest).
      destruct (guard2 C o x y) eqn:Hg; last first.
      { apply Hskip; [|simpl; by rewrite Hi Hj Hijb Hg]. constructor. right; right; right.
        exists a, b. split_and!; [done|done|]. rewrite -(guard2_ok _ OK _ _ _ _ _ _ _ Hx Hy) Hg. done. }
      apply (guard2_ok _ OK _ _ _ _ _ _ _ Hx Hy) in Hg as Hpre.
      assert (Hwp : (inv OK y b ∗ (inv OK x a ∗ R) ⊢
                wp (run2 C o) (x, y)
                  (fun r xy => ∃ ab : abs S * abs S, ⟦post2 S o a b r ab.1 ab.2⟧ ∗
                     (inv OK xy.1 ab.1 ∗ inv OK xy.2 ab.2 ∗ R))
                  (fun e xy => ∃ ab : abs S * abs S, ⟦exn2 S o a b e ab.1 ab.2⟧ ∗
                     (inv OK xy.1 ab.1 ∗ inv OK xy.2 ab.2 ∗ R)))%I).
      { iIntros "[Hy [Hx Hp]]".
        iApply (wp_wand with "[Hx Hy]"); [iApply (ok_run2 _ OK); [done|iFrame]|]. iSplit.
        - iIntros (r s) "Hx". iDestruct "Hx" as (a' b') "(%Ha & Hx & Hy)". iExists (a', b'). by iFrame.
        - iIntros (e s) "Hx". iDestruct "Hx" as (a' b') "(%Ha & Hx & Hy)". iExists (a', b'). by iFrame. }
      assert (Hpre2 : (inv OK y b ∗ (inv OK x a ∗ R))%I h).
      { exists h1, h2. split_and!; try done. exists h3, h4. by split_and!. }
      assert (Hfin : forall x' y' a' b',
        inv OK x' a' ∗ inv OK y' b' ∗ R ⊢
        pool_inv (<[i := x']> (<[j := y']> P)) (<[i := a']> (<[j := b']> A))).
      { intros x' y' a' b'. iIntros "(Hx & Hy & HR)". iApply pool_put.
        rewrite !delete_insert_ne; [|done..]. unfold R. rewrite !(delete_commute _ i j).
        iSplitR "Hx"; [|done]. iApply pool_put. iFrame. }
      pose proof (wp_run _ _ _ _ h hf w (wp_entails _ _ _ _ _ h Hwp Hpre2) Hwf Hd Hh) as Hrun.
      unfold behaves. simpl. rewrite Hi Hj Hijb Hg. simpl.
      destruct (run2 C o (x, y) w) as [r [x' y'] w'|e [x' y'] w'|]; [| |done];
        destruct Hrun as (h' & Hh' & Hd' & Haf & HQ); apply pure_ex in HQ as ([a' b'] & Ha & HQ);
        simpl in *;
        eexists _, _, _, (<[i := a']> (<[j := b']> A)), h';
        split_and!; try done; try (by econstructor); try (by apply after_reported); try (by apply after_exn_reported);
        by apply (Hfin x' y' a' b').
    - (* Drop *)
      destruct (P !! i) as [x|] eqn:Hi; last first.
      { apply Hskip; [|simpl; by rewrite Hi]. constructor. by apply (pool_none P A i h Hinv). }
      destruct (pool_both P A i x h Hinv Hi) as [a HAi].
      rewrite (pool_at P A i x a Hi HAi) in Hinv.
      assert (Hwp : (inv OK x a ∗ pool_inv (delete i P) (delete i A) ⊢
                wp (kill C) x (fun _ _ => pool_inv (delete i P) (delete i A)) (fun _ _ => False))%I).
      { iIntros "[Hy Hp]". iApply (wp_wand with "[Hy]"); [by iApply (ok_kill _ OK)|]. iSplit.
        - iIntros (r s) "_". by iFrame.
        - by iIntros (e s) "[]". }
      pose proof (wp_run _ _ _ _ h hf w (wp_entails _ _ _ _ _ h Hwp Hinv) Hwf Hd Hh) as Hrun.
      unfold behaves. simpl. rewrite Hi.
      destruct (kill C x w) as [r x' w'|e x' w'|]; [| |done].
      + destruct Hrun as (h' & Hh' & Hd' & Haf & HQ).
        eexists _, _, _, (delete i A), h'. split_and!; try done; [by econstructor|by apply after_reported].
      + by destruct Hrun as (h' & ? & ? & ? & []).
  Qed.

  Theorem history_ok cs P A w h hf :
    pool_inv P A h -> wf_world w -> h ##ₘ hf -> heap w = h ∪ hf ->
    exists os P' w' A' h',
      exec_all C cs P w = Some (os, P', w') /\ atrace S cs A os A' /\
      heap w' = h' ∪ hf /\ h' ##ₘ hf /\ wf_world w' /\
      ((forall e, Threw e ∉ os) -> fired w' = fired w) /\ pool_inv P' A' h'.
  Proof.
    revert P A w h. induction cs as [|c cs IH]; intros P A w h Hinv Hwf Hd Hh.
    - exists [], P, w, A, h. split_and!; try done. constructor.
    - destruct (exec_ok c P A w h hf Hinv Hwf Hd Hh) as (o & P1 & w1 & A1 & h1 & He & Hs & Hh1 & Hd1 & [Hwf1 _ Hf1] & Hinv1).
      destruct (IH P1 A1 w1 h1 Hinv1 Hwf1 Hd1 Hh1)
        as (os & P2 & w2 & A2 & h2 & He2 & Hs2 & Hh2 & Hd2 & Hwf2 & Hf2 & Hinv2).
      exists (o :: os), P2, w2, A2, h2. simpl. rewrite He He2. split_and!; try done.
      + by econstructor.
      + intros Hno. rewrite Hf2.
        * destruct o; try done. by destruct (Hno e); left.
        * intros e Hin. apply (Hno e). by right.
  Qed.

  Lemma pool_inv_empty : pool_inv ∅ ∅ ∅.
  Proof. unfold pool_inv. rewrite big_sepM2_empty. done. Qed.
  Lemma pool_inv_no_objects A h : pool_inv ∅ A h -> h = ∅.
  Proof.
    intros Hh. assert (A = ∅) as ->.
    { apply (map_eq (M := gmap nat)). intros i. rewrite lookup_empty. by apply (pool_none ∅ A i h Hh). }
    unfold pool_inv in Hh. rewrite big_sepM2_empty in Hh. done.
  Qed.

  (** Dropping every object empties the pool. *)
  Lemma exec_drops ids P w :
    (forall i, is_Some (P !! i) -> i ∈ ids) ->
    forall os P' w', exec_all C (Drop <$> ids) P w = Some (os, P', w') -> P' = ∅.
  Proof.
    revert P w. induction ids as [|i ids IH]; intros P w Hin os P' w' He.
    - simpl in He. simplify_eq. apply (map_eq (M := gmap nat)). intros i. rewrite lookup_empty. apply eq_None_not_Some. intros Hs.
      apply Hin in Hs. by apply elem_of_nil in Hs.
    - rewrite fmap_cons in He. cbn [exec_all exec] in He.
      destruct (P !! i) as [x|] eqn:Hi.
      + destruct (kill C x w) as [r x' w1|e x' w1|] eqn:Hk; try done.
        destruct (exec_all C (Drop <$> ids) (delete i P) w1) as [[[os1 P1] w2]|] eqn:He1; [|done].
        simplify_eq. eapply IH; [|done]. intros k Hs. destruct (decide (k = i)) as [->|Hki].
        { rewrite lookup_delete in Hs. by destruct Hs. }
        rewrite lookup_delete_ne in Hs; [|done]. apply Hin in Hs.
        apply elem_of_cons in Hs as [->|Hs]; done.
      + destruct (exec_all C (Drop <$> ids) P w) as [[[os1 P1] w2]|] eqn:He1; [|done].
        simplify_eq. eapply IH; [|done]. intros k Hs. destruct (decide (k = i)) as [->|Hki].
        { rewrite Hi in Hs. by destruct Hs. }
        apply Hin in Hs. apply elem_of_cons in Hs as [->|Hs]; done.
  Qed.

  Lemma exec_all_app cs1 cs2 P w os1 P1 w1 :
    exec_all C cs1 P w = Some (os1, P1, w1) ->
    exec_all C (cs1 ++ cs2) P w =
      match exec_all C cs2 P1 w1 with
      | Some (os2, P2, w2) => Some (os1 ++ os2, P2, w2)
      | None => None
      end.
  Proof.
    revert P w os1. induction cs1 as [|c cs1 IH]; intros P w os1 He; simpl in *.
    - simplify_eq. by destruct (exec_all C cs2 P1 w1) as [[[? ?] ?]|].
    - destruct (exec C c P w) as [[[o P2] w2]|]; [|done].
      destruct (exec_all C cs1 P2 w2) as [[[os P3] w3]|] eqn:He1; [|done]. simplify_eq.
      rewrite (IH _ _ _ He1). by destruct (exec_all C cs2 P1 w1) as [[[? ?] ?]|].
  Qed.

  (** The memory of a pool, object by object: [h] is the disjoint union of the
      memories of the objects. *)
  Definition pool_mem (R : obj C -> abs S -> gmap loc cell -> Prop)
      (P : pool C) (A : apool S) (h : gmap loc cell) : Prop :=
    exists parts : gmap nat (gmap loc cell),
      (forall i, match P !! i, A !! i, parts !! i with
                 | Some x, Some a, Some m => R x a m
                 | None, None, None => True
                 | _, _, _ => False
                 end) /\
      (forall i j m m', i <> j -> parts !! i = Some m -> parts !! j = Some m' -> m ##ₘ m') /\
      (forall p c, h !! p = Some c <-> exists i m, parts !! i = Some m /\ m !! p = Some c).

  Lemma pool_inv_mem (R : obj C -> abs S -> gmap loc cell -> Prop) P A h :
    (forall x a h, inv OK x a h -> R x a h) -> pool_inv P A h -> pool_mem R P A h.
  Proof.
    intros HR. revert A h. induction P as [|i x P Hi IH] using (map_ind (M := gmap nat)); intros A h Hh.
    - assert (A = ∅) as ->.
      { apply (map_eq (M := gmap nat)). intros i. rewrite lookup_empty. by apply (pool_none ∅ A i h Hh). }
      apply pool_inv_no_objects in Hh as ->. exists ∅. split_and!.
      + intros i. by rewrite !lookup_empty.
      + intros i j m m' _ Hm. by rewrite lookup_empty in Hm.
      + intros p c. rewrite lookup_empty. split; [done|]. intros (i & m & Hm & _). by rewrite lookup_empty in Hm.
    - destruct (pool_both _ A i x h Hh) as [a Ha]; [by rewrite lookup_insert|].
      rewrite (pool_at _ A i x a) in Hh; [|by rewrite lookup_insert|done].
      destruct Hh as (h1 & h2 & -> & Hd & Hx & Hrest). rewrite delete_insert in Hrest; [|done].
      destruct (IH _ _ Hrest) as (parts & Hp1 & Hp2 & Hp3).
      assert (parts !! i = None) as Hpi.
      { specialize (Hp1 i). rewrite Hi lookup_delete in Hp1. by destruct (parts !! i). }
      exists (<[i := h1]> parts). split_and!.
      + intros j. destruct (decide (i = j)) as [<-|Hij].
        * rewrite !lookup_insert Ha. by apply HR.
        * rewrite !lookup_insert_ne; [|done..]. specialize (Hp1 j). by rewrite lookup_delete_ne in Hp1.
      + assert (Hsub : forall j m, parts !! j = Some m -> h1 ##ₘ m).
        { intros j m Hm. apply map_disjoint_spec. intros p c c' Hc Hc'.
          eapply map_disjoint_spec; [exact Hd|exact Hc|]. apply Hp3. by exists j, m. }
        intros j k m m' Hjk Hm Hm'.
        destruct (decide (i = j)) as [<-|Hij].
        * rewrite lookup_insert in Hm. simplify_eq. rewrite lookup_insert_ne in Hm'; [|done]. eauto.
        * rewrite lookup_insert_ne in Hm; [|done].
          destruct (decide (i = k)) as [<-|Hik].
          -- rewrite lookup_insert in Hm'. simplify_eq. symmetry. eauto.
          -- rewrite lookup_insert_ne in Hm'; [|done]. eauto.
      + intros p c. rewrite lookup_union_Some; [|done]. rewrite Hp3. split.
        * intros [Hc|(j & m & Hm & Hc)]; [exists i, h1; by rewrite lookup_insert|].
          exists j, m. rewrite lookup_insert_ne; [done|]. intros <-. by rewrite Hpi in Hm.
        * intros (j & m & Hm & Hc). destruct (decide (i = j)) as [<-|Hij].
          -- rewrite lookup_insert in Hm. simplify_eq. by left.
          -- rewrite lookup_insert_ne in Hm; [|done]. right. by exists j, m.
  Qed.
End history.

(** Objects created by a list of commands. *)
Definition created `{Env} {C : container} (cs : list (cmd C)) : list nat :=
  omap (fun c => match c with New i _ => Some i | NewFrom i _ _ => Some i | _ => None end) cs.

Section leaks.
  Context `{E : Env} {C : container} {S : cspec C} (OK : container_ok S).

  Lemma exec_created c (P : pool C) w o P' w' k :
    exec C c P w = Some (o, P', w') -> is_Some (P' !! k) -> is_Some (P !! k) \/ k ∈ created [c].
  Proof.
    intros He Hk.
    assert (Hins : forall i x (Q : pool C), is_Some (Q !! i) ->
              is_Some (<[i := x]> Q !! k) -> is_Some (Q !! k)).
    { intros i x Q Hi. destruct (decide (i = k)) as [->|Hne]; [done|]. by rewrite lookup_insert_ne. }
    destruct c as [i c|i j c|i o1|i j o1|i]; cbn [exec] in He.
    - destruct (P !! i) eqn:Hi; [simplify_eq; by left|].
      destruct (cguard C c); [|simplify_eq; by left].
      destruct (build C c tt w); simplify_eq; [|by left].
      destruct (decide (i = k)) as [->|Hne]; [right; apply elem_of_list_here|].
      rewrite lookup_insert_ne in Hk; [by left|done].
    - destruct (P !! i) eqn:Hi; [simplify_eq; by left|].
      destruct (P !! j) eqn:Hj; [|simplify_eq; by left].
      destruct (cguard2 C c _); [|simplify_eq; by left].
      destruct (build2 C c _ w); simplify_eq.
      + destruct (decide (i = k)) as [->|Hne]; [right; apply elem_of_list_here|].
        rewrite lookup_insert_ne in Hk; [|done]. left. eapply Hins; [|done]. by rewrite Hj.
      + left. eapply Hins; [|done]. by rewrite Hj.
    - destruct (P !! i) eqn:Hi; [|simplify_eq; by left].
      destruct (guard1 C o1 _); [|simplify_eq; by left].
      destruct (run1 C o1 _ w); simplify_eq; left; (eapply Hins; [|done]); by rewrite Hi.
    - destruct (P !! i) eqn:Hi; [|simplify_eq; by left].
      destruct (P !! j) eqn:Hj; [|simplify_eq; by left].
      destruct (negb _ && _); [|simplify_eq; by left].
      destruct (run2 C o1 _ w) as [? [? ?]|? [? ?]|]; simplify_eq; left;
        (eapply (Hins j _ P); [by rewrite Hj|eapply (Hins i); [|done]]);
        (destruct (decide (i = j)) as [->|]; [rewrite lookup_insert|rewrite lookup_insert_ne; [|done]]);
        (done || by rewrite Hi).
    - destruct (P !! i) eqn:Hi; [|simplify_eq; by left].
      destruct (kill C _ w); simplify_eq. left.
      destruct (decide (i = k)) as [->|Hne]; [by rewrite Hi|]. by rewrite lookup_delete_ne in Hk.
  Qed.
  Lemma exec_all_created cs (P : pool C) w os P' w' k :
    exec_all C cs P w = Some (os, P', w') -> is_Some (P' !! k) ->
    is_Some (P !! k) \/ k ∈ created cs.
  Proof.
    revert P w os. induction cs as [|c cs IH]; intros P w os He Hk; cbn [exec_all] in He.
    - simplify_eq. by left.
    - destruct (exec C c P w) as [[[o P1] w1]|] eqn:He1; [|done].
      destruct (exec_all C cs P1 w1) as [[[os2 P2] w2]|] eqn:He2; [|done]. simplify_eq.
      destruct (IH _ _ _ He2 Hk) as [Hk1|Hk1].
      + destruct (exec_created _ _ _ _ _ _ _ He1 Hk1) as [?|Hc]; [by left|]. right.
        unfold created in *. destruct c; simpl in Hc |- *; try (by apply elem_of_nil in Hc);
          apply elem_of_list_singleton in Hc as ->; apply elem_of_list_here.
      + right. unfold created in *. simpl. destruct c; try done; by apply elem_of_list_further.
  Qed.

  (** A client that finally destroys all its objects leaves the heap as it
      found it. *)
  Theorem no_leak cs w :
    wf_world w ->
    exists os w', exec_all C (cs ++ (Drop <$> created cs)) ∅ w = Some (os, ∅, w') /\
                  heap w' = heap w.
  Proof.
    intros Hwf.
    destruct (history_ok OK cs ∅ ∅ w ∅ (heap w)) as (os & P1 & w1 & A1 & h1 & He1 & Ht & Hh1 & Hd1 & Hwf1 & _ & Hinv1);
      [apply pool_inv_empty|done|apply map_disjoint_empty_l|by rewrite left_id_L|].
    destruct (history_ok OK (Drop <$> created cs) P1 A1 w1 h1 (heap w))
      as (os2 & P2 & w2 & A2 & h2 & He2 & Ht2 & Hh2 & Hd2 & Hwf2 & _ & Hinv2); [done..|].
    assert (P2 = ∅) as ->.
    { eapply exec_drops; [|exact He2]. intros k Hk.
      destruct (exec_all_created _ _ _ _ _ _ _ He1 Hk) as [Hk1|Hk1]; [|done].
      rewrite lookup_empty in Hk1. by destruct Hk1. }
    apply pool_inv_no_objects in Hinv2 as ->.
    exists (os ++ os2), w2. split.
    - rewrite (exec_all_app _ _ _ _ _ _ _ He1) He2. done.
    - by rewrite Hh2 left_id_L.
  Qed.
End leaks.
