(** * Cost of adding elements at the ends of the segmented containers (C58)

    [tick w] counts the operations of the element type and the allocations performed
    so far.  Copying entries of the segment table costs nothing here. *)

From Verif Require Import SegCost SegRuns.
Open Scope Z_scope.

(** ** C58: adding an element at an end of a segmented container

    At most one element is constructed and three blocks are allocated, whatever the
    size of the container; no element is moved.  pop_back() and pop_front() do
    nothing but destroy an element. *)
Theorem C58_segmented_vector_push_worst : forall (E : Env) (SZ : SegSize) ra o x (A : sabs) w hf,
  holds (is_seg false) x A w hf -> sv_pre o (length (s_elems A)) = true ->
  match o with OEmplaceBack _ | OPopBack => True | _ => False end ->
  match seg_call ra o x w with
  | Ok _ _ w' | Exn _ _ w' =>
      (tick w <= tick w' <= tick w +
       match o with OEmplaceBack _ => if (SS =? 1)%Z then 4 else 3 | _ => 0 end)%nat
  | UB => False
  end.
Proof. exact @seg_end_cost. Qed.
Print Assumptions C58_segmented_vector_push_worst.
(** The last segment is full. *)
Example C58_vector_case : let E := calm in let SZ := seg4 in let A := SAbs 7 [(2, 0)] 0 [10; 20; 30]%nat in
  sv_pre (OEmplaceBack (XCopy 1)) (length (s_elems A)) = true /\
  exists x w hf x' w', holds (is_seg false) x A w hf /\ seg_call true (OEmplaceBack (XCopy 1)) x w = Ok (RIdx 3) x' w'.
Proof.
  intros E SZ A. split; [reflexivity|].
  apply (seg_case_ok (E := E) (SZ := SZ) (ra := true)
    [@New E (segvec true) 0 (@KRange E 7 [10; 20; 30]%nat)] 0); vm_compute; reflexivity.
Qed.
Theorem C58_segmented_devector_push_worst : forall (E : Env) (SZ : SegSize) ra o x (A : sabs) w hf,
  holds (is_seg true) x A w hf -> sd_pre o (sd_geom A) = true ->
  match o with DEmplaceFront _ | DEmplaceBack _ | DPopFront | DPopBack => True | _ => False end ->
  match segd_call ra o x w with
  | Ok _ _ w' | Exn _ _ w' =>
      (tick w <= tick w' <= tick w +
       match o with DEmplaceBack _ => if (SS =? 1)%Z then 4 else 3 | DEmplaceFront _ => 3 | _ => 0 end)%nat
  | UB => False
  end.
Proof. exact @segd_end_cost. Qed.
Print Assumptions C58_segmented_devector_push_worst.
(** There is no room at the front, neither in the segment nor in the table. *)
Example C58_devector_case : let E := calm in let SZ := seg4 in
  let A := SAbs 7 [(2, 0); (3, 0)] 0 [10; 20; 30; 40]%nat in
  sd_pre (DEmplaceFront (XCopy 3)) (sd_geom A) = true /\
  exists x w hf x' w', holds (is_seg true) x A w hf /\ segd_call true (DEmplaceFront (XCopy 3)) x w = Ok (RIdx 0) x' w'.
Proof.
  intros E SZ A. split; [reflexivity|].
  apply (segd_case_ok (E := E) (SZ := SZ) (ra := true)
    [@New E (segdev true) 0 (@KRange E 7 [10; 20; 30; 40]%nat)] 0); vm_compute; reflexivity.
Qed.
