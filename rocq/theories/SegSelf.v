(** * Segmented containers: resizing with a value that is an element *)

From Verif Require Export SegThms SegDevThms.
Open Scope Z_scope.

Section self.
  Context `{E : Env} `{SZ : SegSize}.

  Lemma segv_resize_self ra n i x A v w hf :
    holds (is_seg false) x A w hf -> s_elems A !! i = Some v ->
    match seg_call ra (OResize n (XCopy i)) x w with
    | Ok r x' w' => exists A', holds (is_seg false) x' A' w' hf /\
        s_elems A' = take n (s_elems A) ++ replicate (n - length (s_elems A)) v
    | Exn e x' w' => exists A', holds (is_seg false) x' A' w' hf /\ s_elems A' = s_elems A
    | UB => False
    end.
  Proof.
    intros Hx Hi. pose proof (lookup_lt_Some _ _ _ Hi) as Hlt.
    assert (sv_pre (OResize n (XCopy i)) (length (s_elems A)) = true) as Hp.
    { unfold sv_pre. simpl. rewrite andb_true_r. by apply Nat.ltb_lt. }
    pose proof (seg_call_ok ra _ x A w hf Hx Hp) as H.
    destruct (seg_call ra (OResize n (XCopy i)) x w); [| |done].
    - destruct H as (A' & Hpost & Hx' & _). exists A'. split; [done|].
      destruct Hpost as ((v' & Hv & _ & Hl) & _). simpl in Hv. rewrite Hi in Hv. by injection Hv as <-.
    - destruct H as (A' & Hex & Hx' & _). exists A'. split; [done|]. apply Hex. exact I.
  Qed.

  Lemma segd_room x A w hf :
    holds (is_seg true) x A w hf -> 0 <= s_front A /\ s_front A + s_size A <= s_cap A.
  Proof. intros (_ & m & (tb & cs1 & cs2 & Hat & _) & _). split; [eapply ig_front|eapply ig_size]; done. Qed.

  Lemma segd_resize_self ra n i x A v w hf :
    holds (is_seg true) x A w hf -> s_elems A !! i = Some v ->
    (match segd_call ra (DResizeBack n (XCopy i)) x w with
     | Ok r x' w' => exists A', holds (is_seg true) x' A' w' hf /\
         s_elems A' = take n (s_elems A) ++ replicate (n - length (s_elems A)) v
     | Exn e x' w' => exists A', holds (is_seg true) x' A' w' hf /\ s_elems A' = s_elems A
     | UB => False
     end) /\
    (match segd_call ra (DResizeFront n (XCopy i)) x w with
     | Ok r x' w' => exists A', holds (is_seg true) x' A' w' hf /\
         s_elems A' = replicate (n - length (s_elems A)) v ++ drop (length (s_elems A) - n) (s_elems A)
     | Exn e x' w' => exists A', holds (is_seg true) x' A' w' hf /\ s_elems A' = s_elems A
     | UB => False
     end) /\
    (match segd_call ra (DResize n (XCopy i)) x w with
     | Ok r x' w' => exists A' j k, holds (is_seg true) x' A' w' hf /\
         (j + k)%nat = (n - length (s_elems A))%nat /\
         s_elems A' = replicate j v ++ take n (s_elems A) ++ replicate k v
     | Exn e x' w' => exists A' k, holds (is_seg true) x' A' w' hf /\
         s_elems A' = s_elems A ++ replicate k v
     | UB => False
     end).
  Proof.
    intros Hx Hi. pose proof (lookup_lt_Some _ _ _ Hi) as Hlt.
    assert (forall b : bool, x_ok (Z.to_nat (g_size (sd_geom A))) (XCopy i) && b = b) as Hp.
    { intros b. unfold sd_geom, s_size. simpl. rewrite Nat2Z.id.
      by rewrite (proj2 (Nat.ltb_lt i (length (s_elems A)))). }
    split_and!.
    - assert (sd_pre (DResizeBack n (XCopy i)) (sd_geom A) = true) as Hpre by apply Hp.
      pose proof (segd_call_ok ra _ x A w hf Hx Hpre) as H.
      destruct (segd_call ra _ x w); [| |done]; destruct H as (A' & H & Hx' & _); exists A'; (split; [done|]).
      + destruct H as ((v' & Hv & _ & Hl) & _). simpl in Hv. rewrite Hi in Hv. by injection Hv as <-.
      + apply H. exact I.
    - assert (sd_pre (DResizeFront n (XCopy i)) (sd_geom A) = true) as Hpre by apply Hp.
      pose proof (segd_call_ok ra _ x A w hf Hx Hpre) as H.
      destruct (segd_call ra _ x w); [| |done]; destruct H as (A' & H & Hx' & _); exists A'; (split; [done|]).
      + destruct H as ((v' & Hv & _ & Hl) & _). simpl in Hv. rewrite Hi in Hv. by injection Hv as <-.
      + apply H. exact I.
    - assert (sd_pre (DResize n (XCopy i)) (sd_geom A) = true) as Hpre by apply Hp.
      pose proof (segd_call_ok ra _ x A w hf Hx Hpre) as H.
      destruct (segd_call ra _ x w); [| |done]; destruct H as (A' & H & Hx' & _).
      + destruct H as ((v' & Hv & _ & Hl) & _). simpl in Hv. rewrite Hi in Hv. injection Hv as <-.
        unfold DevSpec.resized in Hl. cbv zeta in Hl.
        match type of Hl with _ = replicate ?j v ++ take n _ ++ replicate ?k v => exists A', j, k end.
        split_and!; [done| |done].
        destruct (segd_room _ _ _ _ Hx) as [Hr1 Hr2]. unfold sd_geom, g_back, s_size in *. simpl. lia.
      + destruct H as (_ & _ & _ & _ & _ & k & v' & Hv & Hl). simpl in Hv. rewrite Hi in Hv. injection Hv as <-.
        by exists A', k.
  Qed.
End self.
