(** * Containers made of a sequence container and a function object

    The flat containers store their elements exactly as the vectors do, next to a
    comparator (or key-equality) object.  Their constructors from elements and most
    member functions are their own; copy and move construction, assignment, swap,
    comparison, the destructor and storage control are the text of the
    corresponding vector with the function object handled in addition.

    Simplification: copying, moving and swapping function objects does not throw
    and a moved-from function object keeps its value. *)

From iris.proofmode Require Import tactics.
From Verif Require Export Client.
Open Scope Z_scope.

Record wcode `{Env} (C : container) := WCode {
  Fn : Type;                                 (* function objects *)
  wctor : Type;
  wop : Type;
  wres : Type;
  wctor_fn : wctor -> Fn;
  wcguard : wctor -> bool;
  wbuild : wctor -> M unit (obj C);
  wguard : wop -> obj C -> bool;
  wrun : Fn -> wop -> M (obj C) wres;
  allowed : op1 C -> bool;                   (* member functions shared with [C] *)
  fn2 : op2 C -> Fn -> Fn -> Fn * Fn;        (* effect of assignment and swap on function objects *)
}.
Arguments Fn {_ _}. Arguments wctor {_ _}. Arguments wop {_ _}. Arguments wres {_ _}.
Arguments wctor_fn {_ _}. Arguments wcguard {_ _}. Arguments wbuild {_ _}. Arguments wguard {_ _}.
Arguments wrun {_ _}. Arguments allowed {_ _}. Arguments fn2 {_ _}.

Record wspec `{Env} {C : container} (W : wcode C) (S : cspec C) := WSpec {
  wcpre : wctor W -> Prop;
  wcpost : wctor W -> abs S -> Prop;
  wcexn : wctor W -> exn -> Prop;
  wpre : wop W -> abs S -> Prop;
  wpost : Fn W -> wop W -> abs S -> wres W -> abs S -> Prop;
  wexn : Fn W -> wop W -> abs S -> exn -> abs S -> Prop;
}.
Arguments wcpre {_ _ _ _}. Arguments wcpost {_ _ _ _}. Arguments wcexn {_ _ _ _}.
Arguments wpre {_ _ _ _}. Arguments wpost {_ _ _ _}. Arguments wexn {_ _ _ _}.

(** Calls: of the container's own functions, and of shared ones. *)
Inductive wcall `{Env} {C : container} (W : wcode C) :=
  | Own (o : wop W)
  | Shared (o : op1 C).
Arguments Own {_ _ _}. Arguments Shared {_ _ _}.
Inductive wret `{Env} {C : container} (W : wcode C) :=
  | OwnRes (r : wres W)
  | SharedRes (r : rv C).
Arguments OwnRes {_ _ _}. Arguments SharedRes {_ _ _}.

Section wrap.
  Context `{E : Env} {C : container} (W : wcode C).

  (** The function object stays as it is. *)
  Definition beside {F S T T'} (f : F) (m : M S T) (res : T -> T') : M (F * S) T' := fun x w =>
    match m x.2 w with
    | Ok a s w' => Ok (res a) (f, s) w'
    | Exn e s w' => Exn e (f, s) w'
    | UB => UB
    end.
  Definition wrap_run1 (o : wcall W) : M (Fn W * obj C) (wret W) := fun x w =>
    match o with
    | Own o => beside x.1 (wrun W x.1 o) OwnRes x w
    | Shared o => beside x.1 (run1 C o) SharedRes x w
    end.
  (** The function objects are handled before the elements (if the latter throws,
      the former has been done). *)
  Definition wrap_run2 (o : op2 C) : M ((Fn W * obj C) * (Fn W * obj C)) (wret W) := fun xy w =>
    let fg := fn2 W o xy.1.1 xy.2.1 in
    match run2 C o (xy.1.2, xy.2.2) w with
    | Ok a s w' => Ok (SharedRes a) ((fg.1, s.1), (fg.2, s.2)) w'
    | Exn e s w' => Exn e ((fg.1, s.1), (fg.2, s.2)) w'
    | UB => UB
    end.
  Definition wrap_build (c : wctor W) : M unit (Fn W * obj C) :=
    (x <- wbuild W c;; ret (wctor_fn W c, x))%prog.
  Definition wrap_build2 (c : ctor2 C) : M (Fn W * obj C) (Fn W * obj C) := fun y w =>
    beside y.1 (build2 C c) (fun x => (y.1, x)) y w.
  Definition wrap_kill : M (Fn W * obj C) unit := fun x w => beside x.1 (kill C) (fun _ => tt) x w.

  Definition wrapped : container := {|
    obj := Fn W * obj C;
    rv := wret W;
    ctor := wctor W;
    cguard := wcguard W;
    build := wrap_build;
    ctor2 := ctor2 C;
    cguard2 := fun c y => cguard2 C c y.2;
    build2 := wrap_build2;
    op1 := wcall W;
    guard1 := fun o x =>
      match o with Own o => wguard W o x.2 | Shared o => allowed W o && guard1 C o x.2 end;
    run1 := wrap_run1;
    op2 := op2 C;
    guard2 := fun o x y => guard2 C o x.2 y.2;
    run2 := wrap_run2;
    kill := wrap_kill;
  |}.

  Context {S : cspec C} (WS : wspec W S).

  Definition wrapped_spec : cspec wrapped := {|
    abs := Fn W * abs S;
    cpre := (wcpre WS : ctor wrapped -> Prop);
    cpost := fun (c : ctor wrapped) (a : Fn W * abs S) => a.1 = wctor_fn W c /\ wcpost WS c a.2;
    cexn := (wcexn WS : ctor wrapped -> exn -> Prop);
    cpre2 := fun (c : ctor2 wrapped) (b : Fn W * abs S) => cpre2 S c b.2;
    cpost2 := fun (c : ctor2 wrapped) (b a b' : Fn W * abs S) =>
      a.1 = b.1 /\ b'.1 = b.1 /\ cpost2 S c b.2 a.2 b'.2;
    cexn2 := fun (c : ctor2 wrapped) (b : Fn W * abs S) e (b' : Fn W * abs S) =>
      b'.1 = b.1 /\ cexn2 S c b.2 e b'.2;
    pre1 := fun (o : op1 wrapped) (a : Fn W * abs S) =>
      match o with Own o => wpre WS o a.2 | Shared o => allowed W o = true /\ pre1 S o a.2 end;
    post1 := fun (o : op1 wrapped) (a : Fn W * abs S) (r : rv wrapped) (a' : Fn W * abs S) =>
      a'.1 = a.1 /\
      match o, r with
      | Own o, OwnRes r => wpost WS a.1 o a.2 r a'.2
      | Shared o, SharedRes r => post1 S o a.2 r a'.2
      | _, _ => False
      end;
    exn1 := fun (o : op1 wrapped) (a : Fn W * abs S) e (a' : Fn W * abs S) =>
      a'.1 = a.1 /\
      match o with Own o => wexn WS a.1 o a.2 e a'.2 | Shared o => exn1 S o a.2 e a'.2 end;
    pre2 := fun (o : op2 wrapped) (a b : Fn W * abs S) => pre2 S o a.2 b.2;
    post2 := fun (o : op2 wrapped) (a b : Fn W * abs S) (r : rv wrapped) (a' b' : Fn W * abs S) =>
      (a'.1, b'.1) = fn2 W o a.1 b.1 /\
      match r with SharedRes r => post2 S o a.2 b.2 r a'.2 b'.2 | _ => False end;
    exn2 := fun (o : op2 wrapped) (a b : Fn W * abs S) e (a' b' : Fn W * abs S) =>
      (a'.1, b'.1) = fn2 W o a.1 b.1 /\ exn2 S o a.2 b.2 e a'.2 b'.2;
  |}.

  Context (OK : container_ok S).
  (** What has to be proved about the container's own functions. *)
  Record wrap_ok : Prop := WrapOk {
    wcguard_ok : forall c, wcguard W c = true <-> wcpre WS c;
    wguard_ok : forall o x a h, inv OK x a h -> wguard W o x = true <-> wpre WS o a;
    ok_wbuild : forall c, wcpre WS c ->
      ⊢ wp (wbuild W c) tt (fun x _ => ∃ a, ⟦wcpost WS c a⟧ ∗ inv OK x a)%I (fun e _ => ⟦wcexn WS c e⟧)%I;
    ok_wrun : forall f o x a, wpre WS o a ->
      inv OK x a ⊢ wp (wrun W f o) x
        (fun r x' => ∃ a', ⟦wpost WS f o a r a'⟧ ∗ inv OK x' a')%I
        (fun e x' => ∃ a', ⟦wexn WS f o a e a'⟧ ∗ inv OK x' a')%I;
  }.
  Context (WOK : wrap_ok).

  Lemma wp_beside {F St T T'} (f : F) (m : M St T) (res : T -> T') x Q X :
    wp m x.2 (fun a s => Q (res a) (f, s)) (fun e s => X e (f, s)) ⊢ wp (fun y w => beside f m res y w) x Q X.
  Proof.
    rewrite !wp_unseal. split. intros h Hwp hf w Hwf Hd Hh. specialize (Hwp hf w Hwf Hd Hh).
    unfold beside. by destruct (m x.2 w).
  Qed.

  Definition winv (x : obj wrapped) (a : abs wrapped_spec) : hProp :=
    (⟦x.1 = a.1⟧ ∗ inv OK x.2 a.2)%I.
  Lemma winv_open x a h : winv x a h -> x.1 = a.1 /\ inv OK x.2 a.2 h.
  Proof.
    intros (h1 & h2 & -> & Hd & [Hemp Heq] & Hi). change (h1 = ∅) in Hemp. subst.
    by rewrite left_id_L.
  Qed.

  Lemma wrap_run1_ok o x a : pre1 wrapped_spec o a ->
    winv x a ⊢ wp (run1 wrapped o) x
      (fun r x' => ∃ a', ⟦post1 wrapped_spec o a r a'⟧ ∗ winv x' a')%I
      (fun e x' => ∃ a', ⟦exn1 wrapped_spec o a e a'⟧ ∗ winv x' a')%I.
  Proof.
    destruct x as [f x]. destruct a as [g a]. iIntros (Hpre) "[%Hfg Hx]". cbn in Hfg. subst g.
    destruct o as [o|o]; cbn in Hpre.
      iAssert (wp (fun y w => beside f (wrun W f o) (@OwnRes _ _ W) y w) (f, x)
        (fun r x' => ∃ a', ⟦post1 wrapped_spec (Own o) (f, a) r a'⟧ ∗ winv x' a')
        (fun e x' => ∃ a', ⟦exn1 wrapped_spec (Own o) (f, a) e a'⟧ ∗ winv x' a'))%I with "[Hx]" as "H".
      { iApply wp_beside. iApply (wp_wand with "[Hx]"); [by iApply (ok_wrun WOK)|]. iSplit.
        - iIntros (r s) "H". iDestruct "H" as (a') "[%Ha H]". iExists (f, a'). by iFrame "H".
        - iIntros (e s) "H". iDestruct "H" as (a') "[%Ha H]". iExists (f, a'). by iFrame "H". }
      iStopProof. rewrite !wp_unseal. done.
    - destruct Hpre as [Hal Hpre].
      iAssert (wp (fun y w => beside f (run1 C o) (@SharedRes _ _ W) y w) (f, x)
        (fun r x' => ∃ a', ⟦post1 wrapped_spec (Shared o) (f, a) r a'⟧ ∗ winv x' a')
        (fun e x' => ∃ a', ⟦exn1 wrapped_spec (Shared o) (f, a) e a'⟧ ∗ winv x' a'))%I with "[Hx]" as "H".
      { iApply wp_beside. iApply (wp_wand with "[Hx]"); [by iApply (ok_run1 _ OK)|]. iSplit.
        - iIntros (r s) "H". iDestruct "H" as (a') "[%Ha H]". iExists (f, a'). by iFrame "H".
        - iIntros (e s) "H". iDestruct "H" as (a') "[%Ha H]". iExists (f, a'). by iFrame "H". }
      iStopProof. rewrite !wp_unseal. done.
  Qed.

  Lemma wrap_build_ok c : cpre wrapped_spec c ->
    ⊢ wp (build wrapped c) tt (fun x _ => ∃ a, ⟦cpost wrapped_spec c a⟧ ∗ winv x a)%I
         (fun e _ => ⟦cexn wrapped_spec c e⟧)%I.
  Proof.
    iIntros (Hpre). cbn [build wrapped]. unfold wrap_build. iApply wp_bind.
    iApply (wp_wand with "[]"); [by iApply (ok_wbuild WOK)|]. iSplit.
    - iIntros (x []) "H". iDestruct "H" as (a) "[%Ha H]". iApply wp_ret. iExists (wctor_fn W c, a). by iFrame "H".
    - iIntros (e []) "%He". done.
  Qed.

  Lemma wrap_build2_ok c y b : cpre2 wrapped_spec c b ->
    winv y b ⊢ wp (build2 wrapped c) y
      (fun x y' => ∃ a b', ⟦cpost2 wrapped_spec c b a b'⟧ ∗ winv x a ∗ winv y' b')%I
      (fun e y' => ∃ b', ⟦cexn2 wrapped_spec c b e b'⟧ ∗ winv y' b')%I.
  Proof.
    destruct y as [f y]. destruct b as [g b]. iIntros (Hpre) "[%Hfg Hy]". cbn in Hfg. subst g. cbn in Hpre.
    iAssert (wp (fun y w => beside f (build2 C c) (fun x => (f, x)) y w) (f, y)
      (fun x y' => ∃ a b', ⟦cpost2 wrapped_spec c (f, b) a b'⟧ ∗ winv x a ∗ winv y' b')
      (fun e y' => ∃ b', ⟦cexn2 wrapped_spec c (f, b) e b'⟧ ∗ winv y' b'))%I with "[Hy]" as "H".
    { iApply wp_beside. iApply (wp_wand with "[Hy]"); [by iApply (ok_build2 _ OK)|]. iSplit.
      - iIntros (x s) "H". iDestruct "H" as (a b') "(%Ha & H1 & H2)". iExists (f, a), (f, b').
        by iFrame "H1 H2".
      - iIntros (e s) "H". iDestruct "H" as (a') "[%Ha H]". iExists (f, a'). by iFrame "H". }
    iStopProof. rewrite !wp_unseal. done.
  Qed.

  Lemma wrap_run2_ok o x a y b : pre2 wrapped_spec o a b ->
    winv x a ∗ winv y b ⊢ wp (run2 wrapped o) (x, y)
      (fun r xy => ∃ a' b', ⟦post2 wrapped_spec o a b r a' b'⟧ ∗ winv xy.1 a' ∗ winv xy.2 b')%I
      (fun e xy => ∃ a' b', ⟦exn2 wrapped_spec o a b e a' b'⟧ ∗ winv xy.1 a' ∗ winv xy.2 b')%I.
  Proof.
    destruct x as [f x]. destruct a as [f' a]. destruct y as [g y]. destruct b as [g' b].
    iIntros (Hpre) "[[%Hf Hx] [%Hg Hy]]". cbn in Hf, Hg. subst f' g'. cbn in Hpre.
    iAssert (wp (run2 C o) (x, y)
      (fun r s => ∃ a' b', ⟦post2 S o a b r a' b'⟧ ∗ inv OK s.1 a' ∗ inv OK s.2 b')
      (fun e s => ∃ a' b', ⟦exn2 S o a b e a' b'⟧ ∗ inv OK s.1 a' ∗ inv OK s.2 b'))%I with "[Hx Hy]" as "H".
    { iApply (ok_run2 _ OK o x a y b Hpre). iFrame. }
    iAssert (wp (run2 C o) (x, y)
      (fun r s => ∃ a' b', ⟦post2 wrapped_spec o (f, a) (g, b) (SharedRes r) a' b'⟧ ∗
         winv ((fn2 W o f g).1, s.1) a' ∗ winv ((fn2 W o f g).2, s.2) b')
      (fun e s => ∃ a' b', ⟦exn2 wrapped_spec o (f, a) (g, b) e a' b'⟧ ∗
         winv ((fn2 W o f g).1, s.1) a' ∗ winv ((fn2 W o f g).2, s.2) b'))%I with "[H]" as "H".
    { iApply (wp_wand with "H"). iSplit.
      - iIntros (r s) "H". iDestruct "H" as (a' b') "(%Ha & H1 & H2)".
        iExists ((fn2 W o f g).1, a'), ((fn2 W o f g).2, b'). iFrame "H1 H2". iPureIntro. cbn.
        split_and!; [by destruct (fn2 W o f g)|done|done|done].
      - iIntros (r s) "H". iDestruct "H" as (a' b') "(%Ha & H1 & H2)".
        iExists ((fn2 W o f g).1, a'), ((fn2 W o f g).2, b'). iFrame "H1 H2". iPureIntro. cbn.
        split_and!; [by destruct (fn2 W o f g)|done|done|done]. }
    iStopProof. rewrite !wp_unseal. split. intros h Hwp hf w Hwf Hd Hh. specialize (Hwp hf w Hwf Hd Hh).
    cbn [run2 wrapped]. unfold wrap_run2. cbn [fst snd]. by destruct (run2 C o (x, y) w).
  Qed.

  Lemma wrap_kill_ok x a : winv x a ⊢ wp (kill wrapped) x (fun _ _ => emp)%I (fun _ _ => False)%I.
  Proof.
    destruct x as [f x]. iIntros "[_ Hx]".
    iAssert (wp (fun y w => beside f (kill C) (fun _ => tt) y w) (f, x) (fun _ _ => emp) (fun _ _ => False))%I
      with "[Hx]" as "H".
    { iApply wp_beside. iApply (wp_wand with "[Hx]"); [by iApply (ok_kill _ OK)|]. iSplit.
      - by iIntros (r s) "_".
      - by iIntros (e s) "[]". }
    iStopProof. rewrite !wp_unseal. done.
  Qed.

  Definition wrapped_ok : container_ok wrapped_spec.
  Proof.
    refine {| inv := winv |}.
    - intros c. apply (wcguard_ok WOK).
    - intros c x a h Hi. apply winv_open in Hi as [_ Hi]. by apply (cguard2_ok _ OK _ _ _ _ Hi).
    - intros o x a h Hi. apply winv_open in Hi as [_ Hi]. destruct o as [o|o]; cbn.
      + by apply (wguard_ok WOK _ _ _ _ Hi).
      + rewrite andb_true_iff. by rewrite (guard1_ok _ OK _ _ _ _ Hi).
    - intros o x a y b h h' Hi Hj. apply winv_open in Hi as [_ Hi]. apply winv_open in Hj as [_ Hj].
      by apply (guard2_ok _ OK _ _ _ _ _ _ _ Hi Hj).
    - apply wrap_build_ok.
    - intros. by apply wrap_build2_ok.
    - intros. by apply wrap_run1_ok.
    - intros. by apply wrap_run2_ok.
    - apply wrap_kill_ok.
  Defined.
End wrap.
