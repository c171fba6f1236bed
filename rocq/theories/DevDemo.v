(** * Counterexamples for sfl::devector

    States in which the code does not do what the properties ask for. *)

From iris.proofmode Require Import tactics.
From Verif Require Export DevThms.
Open Scope Z_scope.

(** Elements that are alive outside the range [first_, last_) of the object. *)
Definition stray `{Env} (x : ddata) (w : world) (p : loc) : Prop :=
  exists v, heap w !! p = Some (Live v) /\ p.1 = (d_bos x).1 /\
    (d_bos x).2 <= p.2 < (d_eos x).2 /\ ~ ((d_first x).2 <= p.2 < (d_last x).2).
(** Places inside that range that hold no element. *)
Definition hole `{Env} (x : ddata) (w : world) (p : loc) : Prop :=
  heap w !! p = Some Raw /\ p.1 = (d_first x).1 /\ (d_first x).2 <= p.2 < (d_last x).2.

Definition strayb `{Env} (x : ddata) (w : world) (p : loc) : bool :=
  match heap w !! p with
  | Some (Live _) => (p.1 =? (d_bos x).1) && ((d_bos x).2 <=? p.2) && (p.2 <? (d_eos x).2) &&
      negb (((d_first x).2 <=? p.2) && (p.2 <? (d_last x).2))
  | _ => false
  end.
Definition holeb `{Env} (x : ddata) (w : world) (p : loc) : bool :=
  match heap w !! p with
  | Some Raw => (p.1 =? (d_first x).1) && ((d_first x).2 <=? p.2) && (p.2 <? (d_last x).2)
  | _ => false
  end.
Lemma stray_b `{Env} x w p : strayb x w p = true -> stray x w p.
Proof. unfold strayb, stray. destruct (heap w !! p) as [[]|] eqn:Hp; try done. intros Hb. exists v. split; [done|]. lia. Qed.
Lemma hole_b `{Env} x w p : holeb x w p = true -> hole x w p.
Proof. unfold holeb, hole. destruct (heap w !! p) as [[]|] eqn:Hp; try done. intros Hb. split; [done|]. lia. Qed.

(** Five copies of 7 are inserted before 30; the third copy assignment throws. *)
Lemma dev_leak_refuted :
  exists (E : Env) o x (A : dabs) w hf x' w' p,
    holds is_dev x A w hf /\ dev_doc o (geom_of A) = true /\
    dev_call o x w = Exn EUser x' w' /\ stray x' w' p.
Proof.
  set (E := throws_at 24). exists E, (@DInsertN E 2 5 (@XVal E 7%nat)).
  edestruct (dev_look (E := E)
    [@New E (devector false) 0 (@KRange E 7 [10; 20; 30; 40; 50]%nat);
     @Do E (devector false) 0 (DReserveFront 7); @Do E (devector false) 0 (DReserveBack 9)] 0
    (fun x w => match dev_call (@DInsertN E 2 5 (@XVal E 7%nat)) x w with
                | Exn EUser x' w' => if strayb x' w' (d_bos x' +ₗ 0) then Some tt else None
                | _ => None
                end)) as (x & w & hf & Hx & Hr); [vm_compute; reflexivity|].
  destruct (dev_call (@DInsertN E 2 5 (@XVal E 7%nat)) x w) as [|[] x' w'|] eqn:Hs; try done.
  destruct (strayb x' w' (d_bos x' +ₗ 0)) eqn:Hb; [|done]. apply stray_b in Hb.
  exists x. eexists. exists w, hf, x', w', (d_bos x' +ₗ 0). split_and!; [exact Hx|reflexivity|exact Hs|exact Hb].
Qed.

(** One element is inserted before the seventh of eleven; assigning an element
    throws.  The destructor then destroys an element a second time. *)
Lemma dev_double_destroy_refuted :
  exists (E : Env) o x (A : dabs) w hf x' w' p,
    holds is_dev x A w hf /\ dev_doc o (geom_of A) = true /\
    dev_call o x w = Exn EUser x' w' /\ hole x' w' p /\ dv_destructor x' w' = UB.
Proof.
  set (E := throws_at 33). exists E, (@DEmplace E 6 (@XVal E 77%nat)).
  edestruct (dev_look (E := E)
    [@New E (devector false) 0 (@KRange E 7 [1; 2; 3; 4; 5; 6; 7; 8; 9; 10; 11]%nat);
     @Do E (devector false) 0 (DReserveFront 18)] 0
    (fun x w => match dev_call (@DEmplace E 6 (@XVal E 77%nat)) x w with
                | Exn EUser x' w' =>
                    match dv_destructor x' w' with
                    | UB => List.find (holeb x' w') (map (fun i => d_bos x' +ₗ Z.of_nat i) (seq 0 18))
                    | _ => None
                    end
                | _ => None
                end)) as (x & w & hf & Hx & Hr); [vm_compute; reflexivity|].
  destruct (dev_call (@DEmplace E 6 (@XVal E 77%nat)) x w) as [|[] x' w'|] eqn:Hs; try done.
  destruct (dv_destructor x' w') eqn:Hd; try done.
  apply find_some in Hr as [_ Hb]. apply hole_b in Hb.
  exists x. eexists. exists w, hf, x', w'. eexists. split_and!; [exact Hx|reflexivity|exact Hs|exact Hb|exact Hd].
Qed.

(** resize of a full container to a bigger size with one of its own elements. *)
Definition self_resize `{Env} (o : dop) (n j : nat) : Prop :=
  o = DResize n (XCopy j) \/ o = DResizeFront n (XCopy j) \/ o = DResizeBack n (XCopy j).
Definition ubb {St A} `{Env} (r : res St A) : option unit := match r with UB => Some tt | _ => None end.
Lemma ubb_ok {St A} `{Env} (r : res St A) t : ubb r = Some t -> r = UB.
Proof. by destruct r. Qed.
Lemma dev_self_resize_refuted :
  exists (E : Env) n j, forall o, self_resize o n j ->
  exists x (A : dabs) w hf,
    holds is_dev x A w hf /\ (forall k t, may_throw k t = false) /\
    (j < length (e_elems A))%nat /\ Z.of_nat n <= max_size /\
    dev_call o x w = UB.
Proof.
  set (E := calm). exists E, 5%nat, 0%nat. intros o Ho.
  assert (exists A, @look E (devector false) (devector_spec false) dev_view _
    [@New E (devector false) 0 (@KRange E 7 [10; 20; 30]%nat)] 0 (fun x w => ubb (dev_call o x w)) = Some (A, tt) /\
    (length (e_elems A) = 3)%nat) as (A & HA & HL).
  { destruct Ho as [->|[->| ->]]; eexists; (split; [vm_compute; reflexivity|reflexivity]). }
  apply (dev_look (E := E)) in HA as (x & w & hf & Hx & Hr).
  exists x, A, w, hf. split_and!; [exact Hx|by intros [] t|by rewrite HL; lia|vm_compute; discriminate|by eapply ubb_ok].
Qed.

(** insert(pos, n, value) where value is an element behind pos. *)
Lemma dev_self_insert_refuted :
  exists (E : Env) i n j x (A : dabs) w hf r x' w' (A' : dabs) v,
    holds is_dev x A w hf /\ e_elems A !! j = Some v /\ (i <= length (e_elems A))%nat /\
    dev_call (DInsertN i n (XCopy j)) x w = Ok r x' w' /\ dev_view x' w' = Some A' /\
    e_elems A' <> take i (e_elems A) ++ replicate n v ++ drop i (e_elems A).
Proof.
  set (E := calm). exists E, 2%nat, 1%nat, 3%nat.
  edestruct (dev_look (E := E)
    [@New E (devector false) 0 (@KRange E 7 [10; 20; 30; 40]%nat); @Do E (devector false) 0 (DReserveBack 6)] 0
    (fun x w => match dev_call (@DInsertN E 2 1 (@XCopy E 3)) x w with
                | Ok r x' w' => dev_view x' w'
                | _ => None
                end)) as (x & w & hf & Hx & Hr); [vm_compute; reflexivity|].
  destruct (dev_call (@DInsertN E 2 1 (@XCopy E 3)) x w) as [r x' w'| |] eqn:Hs; try done.
  exists x. eexists. exists w, hf, r, x', w'. eexists. exists (40%nat : @V E).
  split_and!; [exact Hx|reflexivity|cbn; lia|exact Hs|exact Hr|cbn; discriminate].
Qed.

(** resize(n, value) puts new elements before the old ones. *)
Lemma dev_resize_refuted :
  exists (E : Env) n v x (A : dabs) w hf r x' w' (A' : dabs),
    holds is_dev x A w hf /\ dev_call (DResize n (XVal v)) x w = Ok r x' w' /\ holds is_dev x' A' w' hf /\
    (length (e_elems A) < n)%nat /\
    e_elems A' <> e_elems A ++ replicate (n - length (e_elems A)) v.
Proof.
  set (E := calm). exists E, 5%nat, (7%nat : @V E).
  edestruct (dev_look (E := E)
    [@New E (devector false) 0 (@KRange E 7 [10; 20; 30]%nat); @Do E (devector false) 0 (DReserveFront 5)] 0
    (fun x w => match dev_call (@DResize E 5 (@XVal E 7%nat)) x w with
                | Ok r x' w' => Some tt
                | _ => None
                end)) as (x & w & hf & Hx & Hr); [vm_compute; reflexivity|].
  destruct (dev_call (@DResize E 5 (@XVal E 7%nat)) x w) as [r x' w'| |] eqn:Hs; try done.
  pose proof (dev_returns (@DResize E 5 (@XVal E 7%nat)) _ _ _ _ _ _ _ Hx eq_refl Hs) as (A' & Hx' & _ & (v' & [= <-] & _ & HA) & _).
  exists x. eexists. exists w, hf, r, x', w', A'.
  split_and!; [exact Hx|exact Hs|exact Hx'|cbn; lia|]. rewrite HA. vm_compute. discriminate.
Qed.

(** push_back of a full container, 80 of at most 100 elements. *)
Lemma dev_growth_refuted :
  exists (E : Env) v x (A : dabs) w hf x' w',
    holds is_dev x A w hf /\ Z.of_nat (length (e_elems A)) + 1 <= max_size /\
    dev_call (DEmplaceBack (XVal v)) x w = Exn ELength x' w'.
Proof.
  set (E := calm). exists E, (7%nat : @V E).
  edestruct (dev_look (E := E)
    [@New E (devector false) 0 (@KFill E 7 80 (Some (5%nat : @V E)))] 0
    (fun x w => thrown (dev_call (@DEmplaceBack E (@XVal E 7%nat)) x w))) as (x & w & hf & Hx & Hr);
    [vm_compute; reflexivity|].
  apply thrown_exn in Hr as (x' & w' & Hr).
  exists x. eexists. exists w, hf, x', w'.
  split_and!; [exact Hx|vm_compute; discriminate|exact Hr].
Qed.

(** push_back with copyable elements whose move constructor may throw. *)
Lemma dev_push_back_refuted :
  exists (E : Env) v x (A : dabs) w hf e x' w' (A' : dabs),
    copyable = true /\ holds is_dev x A w hf /\ dev_call (DEmplaceBack (XVal v)) x w = Exn e x' w' /\
    holds is_dev x' A' w' hf /\ e_elems A' <> e_elems A.
Proof.
  set (E := throws_at 7). exists E, (7%nat : @V E).
  edestruct (dev_look (E := E)
    [@New E (devector false) 0 (@KRange E 7 [10; 20]%nat)] 0
    (fun x w => match dev_call (@DEmplaceBack E (@XVal E 7%nat)) x w with
                | Exn e x' w' => match dev_view x' w' with
                                 | Some A' => if decide (e_elems A' = [0; 0]%nat) then Some e else None
                                 | None => None
                                 end
                | _ => None
                end)) as (x & w & hf & Hx & Hr); [vm_compute; reflexivity|].
  destruct (dev_call (@DEmplaceBack E (@XVal E 7%nat)) x w) as [|e x' w'|] eqn:Hs; try done.
  pose proof (dev_safe (@DEmplaceBack E (@XVal E 7%nat)) x _ w hf Hx eq_refl eq_refl) as Hd. rewrite Hs in Hd.
  destruct Hd as (A' & Hx' & _).
  assert (dev_view x' w' = Some A') as Hv.
  { destruct Hx' as (_ & m & Hm & _ & Hh). eapply dev_view_ok; [exact Hm|]. rewrite Hh. apply map_union_subseteq_l. }
  rewrite Hv in Hr. case_decide as Hl; [|done].
  exists x. eexists. exists w, hf, e, x', w', A'.
  split_and!; [reflexivity|exact Hx|exact Hs|exact Hx'|]. rewrite Hl. cbn. discriminate.
Qed.

(** After push_front and pop_front ... the container gives the storage back through a
    wrong pointer when a container is moved into it. *)
Lemma dev_reset_case :
  let E := calm in exists x (A : dabs) y (B : dabs) w hf,
    holds2 is_dev x A y B w hf /\ dev_hazard2 (@PMove E) A B /\ e_alloc A = e_alloc B.
Proof.
  intros E.
  edestruct (dev_look2 (E := E)
    [@New E (devector false) 0 (@KRange E 7 [10; 20]%nat); @Do E (devector false) 0 DPopFront;
     @New E (devector false) 1 (@KRange E 7 [30]%nat)] 0 1
    (fun x y w => Some tt)) as (x & y & w & hf & Hx & Hr); [done|vm_compute; reflexivity|].
  exists x. eexists. exists y. eexists. exists w, hf.
  split_and!; [exact Hx|split; [reflexivity|cbn; lia]|reflexivity].
Qed.
