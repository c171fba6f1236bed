(** * [nth] and [index_of] of the flat containers *)

From Verif Require Export NthThms FlatDemo.
Open Scope Z_scope.

Section flat.
  Context `{KD : Keyed}.
  Lemma flat_nth_right fl (x : loc * vdata) l w hf i : holds (is_flat fl) x l w hf -> 0 <= i ->
    nth_right nth_ index_of_ (fun p => p) l x.2 w i.
  Proof.
    intros (Hw & m & Hm & Hd & Hh) Hi. destruct fl as [N|N]; cbn in Hm.
    - destruct Hm as (ib & Hm). apply (static_nth_right N x (ib, l) w hf); [|done]. split; [done|]. by exists m.
    - destruct Hm as (ib & a & d & cap & Hm). apply (small_nth_right N x (ib, VAbs a d l cap) w hf); [|done]. split; [done|]. by exists m.
  Qed.
End flat.

(** Any program run on a flat container that was filled with [vs]. *)
Section demo.
  Context `{KD : Keyed}.
  Lemma static_look N kd c vs {T} (m : M (loc * vdata) T) l r :
    static_after N kd c vs [] (fun x w => returned (m x w)) = Some (l, r) ->
    exists x w hf x' w', holds (is_flat (StaticF N)) x l w hf /\ m x w = Ok r x' w'.
  Proof.
    intros Ha. apply static_after_ok in Ha as (x & w & hf & Hx & Hr). apply returned_ok in Hr as (x' & w' & Hr).
    by exists x, w, hf, x', w'.
  Qed.
  Lemma small_look N kd c (HN : Z.of_nat N <= max_size) vs {T} (m : M (loc * vdata) T) l r :
    small_after N kd c vs [] (fun x w => returned (m x w)) = Some (l, r) ->
    exists x w hf x' w', holds (is_flat (SmallF N)) x l w hf /\ m x w = Ok r x' w'.
  Proof.
    intros Ha. apply (small_after_ok _ _ _ HN) in Ha as (x & w & hf & Hx & Hr). apply returned_ok in Hr as (x' & w' & Hr).
    by exists x, w, hf, x', w'.
  Qed.
End demo.
