(** * Segmented containers: resizing with a value that is an element (C65)

    [holds (is_seg dev) x A w hf]: in world [w] the object [x] is a segmented_vector
    ([dev = false]) or a segmented_devector ([dev = true]) with elements [s_elems A]
    (SegMem.v); the rest of memory is [hf].  [XCopy i]: the argument is a reference to
    element [i] of the container itself. *)

From Verif Require Import SegSelf SegRuns.
Open Scope Z_scope.

(** resize(n, c[i]) of segmented_vector: the elements added are copies of the value [c[i]]
    had; a call that throws has no effect. *)
Theorem C65_segmented_vector_resize_self :
  forall (E : Env) (SZ : SegSize) ra n i x (A : sabs) v w hf,
  holds (is_seg false) x A w hf -> s_elems A !! i = Some v ->
  match seg_call ra (OResize n (XCopy i)) x w with
  | Ok r x' w' => exists A', holds (is_seg false) x' A' w' hf /\
      s_elems A' = take n (s_elems A) ++ replicate (n - length (s_elems A)) v
  | Exn e x' w' => exists A', holds (is_seg false) x' A' w' hf /\ s_elems A' = s_elems A
  | UB => False
  end.
Proof. exact @segv_resize_self. Qed.
Print Assumptions C65_segmented_vector_resize_self.
(** Two segments are added. *)
Example C65_vector_case : let E := calm in let SZ := seg4 in let A := SAbs 7 [(2, 0)] 0 [10; 20; 30]%nat in
  s_elems A !! 1%nat = Some 20%nat /\
  exists x w hf x' w', holds (is_seg false) x A w hf /\
    seg_call true (OResize 10 (XCopy 1)) x w = Ok RUnit x' w'.
Proof.
  intros E SZ A. split; [reflexivity|].
  apply (seg_case_ok (E := E) (SZ := SZ) (ra := true)
    [@New E (segvec true) 0 (@KRange E 7 [10; 20; 30]%nat)] 0); vm_compute; reflexivity.
Qed.

(** The same for resize_back, resize_front and resize of segmented_devector.  resize may
    add elements at both ends (C53); if copying throws, some may have been added. *)
Theorem C65_segmented_devector_resize_self :
  forall (E : Env) (SZ : SegSize) ra n i x (A : sabs) v w hf,
  holds (is_seg true) x A w hf -> s_elems A !! i = Some v ->
  (match segd_call ra (DResizeBack n (XCopy i)) x w with
   | Ok r x' w' => exists A', holds (is_seg true) x' A' w' hf /\
       s_elems A' = take n (s_elems A) ++ replicate (n - length (s_elems A)) v
   | Exn e x' w' => exists A', holds (is_seg true) x' A' w' hf /\ s_elems A' = s_elems A
   | UB => False
   end) /\
  (match segd_call ra (DResizeFront n (XCopy i)) x w with
   | Ok r x' w' => exists A', holds (is_seg true) x' A' w' hf /\
       s_elems A' = replicate (n - length (s_elems A)) v ++ drop (length (s_elems A) - n) (s_elems A)
   | Exn e x' w' => exists A', holds (is_seg true) x' A' w' hf /\ s_elems A' = s_elems A
   | UB => False
   end) /\
  (match segd_call ra (DResize n (XCopy i)) x w with
   | Ok r x' w' => exists A' j k, holds (is_seg true) x' A' w' hf /\
       (j + k)%nat = (n - length (s_elems A))%nat /\
       s_elems A' = replicate j v ++ take n (s_elems A) ++ replicate k v
   | Exn e x' w' => exists A' k, holds (is_seg true) x' A' w' hf /\
       s_elems A' = s_elems A ++ replicate k v
   | UB => False
   end).
Proof. exact @segd_resize_self. Qed.
Print Assumptions C65_segmented_devector_resize_self.
(** Free places at both ends; resize fills both and adds a segment. *)
Example C65_devector_case : let E := calm in let SZ := seg4 in
  let A := SAbs 7 [(4, 0); (2, 0)] 3 [5; 10; 20; 30]%nat in
  s_elems A !! 2%nat = Some 20%nat /\
  exists x w hf x' w', holds (is_seg true) x A w hf /\
    segd_call true (DResize 10 (XCopy 2)) x w = Ok RUnit x' w'.
Proof.
  intros E SZ A. split; [reflexivity|].
  apply (segd_case_ok (E := E) (SZ := SZ) (ra := true)
    [@New E (segdev true) 0 (@KRange E 7 [10; 20; 30]%nat);
     @Do E (segdev true) 0 (DEmplaceFront (@XVal E 5%nat))] 0); vm_compute; reflexivity.
Qed.
