(** * Properties of the relocation algorithms for segmented containers (C44)

    The overloads of private.hpp for iterators of segmented containers.
    [seg_array (t, segs) cs m] (SegAlgoThms.v): the memory [m] consists of segments of
    [SS] places each at [segs] and a table of pointers to them at [t]; [cs] lists
    for each place the element in it, [None] if there is none.  [iter_to t segs i]:
    the iterator that refers to place [i].  [somes l]: the elements [l];
    [nones n]: [n] places without an element.  [sdoes1 m s o cs w hf φ ψ]: run in a
    world with these segments and the rest of memory [hf], the program [m] is never
    undefined; if it returns [r], then the places hold some [cs'] with [φ r cs'], and
    nothing has thrown; if it throws, then because an element operation threw, and
    the places hold some [cs'] with [ψ cs']; table, segments and the rest of memory
    are the same.  [sdoes2] is the same for two containers.  [same_places cs cs']:
    the same places hold elements.  A range never ends at the end of the last
    segment, because no iterator can refer there; hence [l2 <> []]. *)

From Verif Require Import SegAlgoThms Demo.
Open Scope Z_scope.
Notation zlen l := (Z.of_nat (length l)).

(** ** Constructing in raw memory, with rollback *)
Theorem C44_segmented_uninitialized_copy_values : forall (E : Env) (SZ : SegSize) (St : Type) (s : St) t segs vs (l1 l2 : list (option V)) w hf,
  l2 <> [] -> holds seg_array (t, segs) (l1 ++ nones (length vs) ++ l2) w hf ->
  sdoes1 (s_ucopy_ra (AVal <$> vs) (iter_to t segs (length l1))) s (t, segs) (l1 ++ nones (length vs) ++ l2) w hf
    (fun r cs => r = iter_to t segs (length l1 + length vs) /\ cs = l1 ++ somes vs ++ l2)
    (fun cs => cs = l1 ++ nones (length vs) ++ l2).
Proof. exact @s_ucopy_ra_values. Qed.
Print Assumptions C44_segmented_uninitialized_copy_values.
(** Seven values from the second place on; the sixth copy throws, in the third
    segment. *)
Example C44_segmented_ucopy_case : let E := throws_at 5 in let SZ := seg3 in
  let cs := [Some 1; None; None; None; None; None; None; None; Some 2]%nat in
  holds seg_array o3 cs (seg_world (seg_entries o3 cs)) ∅ /\
  thrown (s_ucopy_ra (AVal <$> [3; 4; 5; 6; 7; 8; 9]%nat) (iter_to o3.1 o3.2 1) tt (seg_world (seg_entries o3 cs))) = Some EUser.
Proof. intros E SZ. split; [apply seg_world_holds; vm_compute; reflexivity|vm_compute; reflexivity]. Qed.

Theorem C44_segmented_uninitialized_copy_input : forall (E : Env) (SZ : SegSize) (St : Type) (s : St) t segs vs (l1 l2 : list (option V)) w hf,
  l2 <> [] -> holds seg_array (t, segs) (l1 ++ nones (length vs) ++ l2) w hf ->
  sdoes1 (s_ucopy_fwd (AVal <$> vs) (iter_to t segs (length l1))) s (t, segs) (l1 ++ nones (length vs) ++ l2) w hf
    (fun r cs => r = iter_to t segs (length l1 + length vs) /\ cs = l1 ++ somes vs ++ l2)
    (fun cs => cs = l1 ++ nones (length vs) ++ l2).
Proof. exact @s_ucopy_fwd_values. Qed.
Print Assumptions C44_segmented_uninitialized_copy_input.
Example C44_segmented_ucopy_input_case : let E := throws_at 5 in let SZ := seg3 in
  let cs := [Some 1; None; None; None; None; None; None; None; Some 2]%nat in
  holds seg_array o3 cs (seg_world (seg_entries o3 cs)) ∅ /\
  thrown (s_ucopy_fwd (AVal <$> [3; 4; 5; 6; 7; 8; 9]%nat) (iter_to o3.1 o3.2 1) tt (seg_world (seg_entries o3 cs))) = Some EUser.
Proof. intros E SZ. split; [apply seg_world_holds; vm_compute; reflexivity|vm_compute; reflexivity]. Qed.

Theorem C44_segmented_uninitialized_fill : forall (E : Env) (SZ : SegSize) (St : Type) (s : St) t segs v n (l1 l2 : list (option V)) w hf,
  l2 <> [] -> holds seg_array (t, segs) (l1 ++ nones n ++ l2) w hf ->
  sdoes1 (s_uninitialized_fill_n_a (iter_to t segs (length l1)) n (AVal v)) s (t, segs) (l1 ++ nones n ++ l2) w hf
    (fun r cs => r = iter_to t segs (length l1 + n) /\ cs = l1 ++ somes (replicate n v) ++ l2)
    (fun cs => cs = l1 ++ nones n ++ l2) /\
  sdoes1 (s_uninitialized_fill_a (iter_to t segs (length l1)) (iter_to t segs (length l1 + n)) (AVal v)) s
    (t, segs) (l1 ++ nones n ++ l2) w hf
    (fun r cs => cs = l1 ++ somes (replicate n v) ++ l2) (fun cs => cs = l1 ++ nones n ++ l2).
Proof. exact @s_ufill_values. Qed.
Print Assumptions C44_segmented_uninitialized_fill.
Example C44_segmented_ufill_case : let E := throws_at 5 in let SZ := seg3 in
  let cs := [Some 1; None; None; None; None; None; None; None; Some 2]%nat in
  holds seg_array o3 cs (seg_world (seg_entries o3 cs)) ∅ /\
  thrown (s_uninitialized_fill_n_a (iter_to o3.1 o3.2 1) 7 (AVal 4%nat) tt (seg_world (seg_entries o3 cs))) = Some EUser.
Proof. intros E SZ. split; [apply seg_world_holds; vm_compute; reflexivity|vm_compute; reflexivity]. Qed.

Theorem C44_segmented_uninitialized_default_construct : forall (E : Env) (SZ : SegSize) (St : Type) (s : St) t segs n (l1 l2 : list (option V)) w hf,
  l2 <> [] -> holds seg_array (t, segs) (l1 ++ nones n ++ l2) w hf ->
  sdoes1 (s_default_construct_n_a (iter_to t segs (length l1)) n) s (t, segs) (l1 ++ nones n ++ l2) w hf
    (fun r cs => r = iter_to t segs (length l1 + n) /\ cs = l1 ++ somes (replicate n vdef) ++ l2)
    (fun cs => cs = l1 ++ nones n ++ l2) /\
  sdoes1 (s_default_construct_a (iter_to t segs (length l1)) (iter_to t segs (length l1 + n))) s
    (t, segs) (l1 ++ nones n ++ l2) w hf
    (fun r cs => cs = l1 ++ somes (replicate n vdef) ++ l2) (fun cs => cs = l1 ++ nones n ++ l2).
Proof. exact @s_udefault_values. Qed.
Print Assumptions C44_segmented_uninitialized_default_construct.
Example C44_segmented_udefault_case : let E := throws_at 5 in let SZ := seg3 in
  let cs := [Some 1; None; None; None; None; None; None; None; Some 2]%nat in
  holds seg_array o3 cs (seg_world (seg_entries o3 cs)) ∅ /\
  thrown (s_default_construct_a (iter_to o3.1 o3.2 1) (iter_to o3.1 o3.2 8) tt (seg_world (seg_entries o3 cs))) = Some EUser.
Proof. intros E SZ. split; [apply seg_world_holds; vm_compute; reflexivity|vm_compute; reflexivity]. Qed.

Theorem C44_segmented_destroy : forall (E : Env) (SZ : SegSize) (St : Type) (s : St) t segs l (l1 l2 : list (option V)) w hf,
  l2 <> [] -> holds seg_array (t, segs) (l1 ++ somes l ++ l2) w hf ->
  sdoes1 (s_destroy_a (iter_to t segs (length l1)) (iter_to t segs (length l1 + length l))) s
    (t, segs) (l1 ++ somes l ++ l2) w hf
    (fun r cs => cs = l1 ++ nones (length l) ++ l2) (fun _ => False) /\
  sdoes1 (s_destroy_n_a (iter_to t segs (length l1)) (length l)) s (t, segs) (l1 ++ somes l ++ l2) w hf
    (fun r cs => r = iter_to t segs (length l1 + length l) /\ cs = l1 ++ nones (length l) ++ l2) (fun _ => False).
Proof. exact @s_destroy_values. Qed.
Print Assumptions C44_segmented_destroy.
Example C44_segmented_destroy_case : let E := calm in let SZ := seg3 in
  let cs := [None; Some 1; Some 2; Some 3; Some 4; Some 5; Some 6; None; None]%nat in
  holds seg_array o3 cs (seg_world (seg_entries o3 cs)) ∅ /\
  returned (s_destroy_a (iter_to o3.1 o3.2 1) (iter_to o3.1 o3.2 7) tt (seg_world (seg_entries o3 cs))) = Some tt.
Proof. intros E SZ. split; [apply seg_world_holds; vm_compute; reflexivity|vm_compute; reflexivity]. Qed.

(** Into raw places of the same container behind the source, or in front of it. *)
Theorem C44_segmented_uninitialized_move_behind : forall (E : Env) (SZ : SegSize) (St : Type) (s : St) t segs l (l1 l2 l3 : list (option V)) w hf,
  l3 <> [] -> let cs := l1 ++ somes l ++ l2 ++ nones (length l) ++ l3 in
  holds seg_array (t, segs) cs w hf ->
  sdoes1 (s_umove (iter_to t segs (length l1)) (iter_to t segs (length l1 + length l))
            (iter_to t segs (length l1 + length l + length l2))) s (t, segs) cs w hf
    (fun r cs' => r = iter_to t segs (length l1 + length l + length l2 + length l) /\
                 exists x, length x = length l /\ cs' = l1 ++ somes x ++ l2 ++ somes l ++ l3)
    (fun cs' => nothrow_move = false /\ same_places cs cs').
Proof. exact @s_umove_behind. Qed.
Print Assumptions C44_segmented_uninitialized_move_behind.
Example C44_segmented_umove_behind_case : let E := throws_at 2 in let SZ := seg3 in
  let cs := [Some 1; Some 2; Some 3; Some 4; None; None; None; None; None]%nat in
  holds seg_array o3 cs (seg_world (seg_entries o3 cs)) ∅ /\
  thrown (s_umove (iter_to o3.1 o3.2 1) (iter_to o3.1 o3.2 4) (iter_to o3.1 o3.2 4) tt (seg_world (seg_entries o3 cs))) = Some EUser.
Proof. intros E SZ. split; [apply seg_world_holds; vm_compute; reflexivity|vm_compute; reflexivity]. Qed.

Theorem C44_segmented_uninitialized_move_front : forall (E : Env) (SZ : SegSize) (St : Type) (s : St) t segs l (l1 l2 l3 : list (option V)) w hf,
  l3 <> [] -> let cs := l1 ++ nones (length l) ++ l2 ++ somes l ++ l3 in
  holds seg_array (t, segs) cs w hf ->
  sdoes1 (s_umove (iter_to t segs (length l1 + length l + length l2))
            (iter_to t segs (length l1 + length l + length l2 + length l)) (iter_to t segs (length l1))) s (t, segs) cs w hf
    (fun r cs' => r = iter_to t segs (length l1 + length l) /\
                 exists x, length x = length l /\ cs' = l1 ++ somes l ++ l2 ++ somes x ++ l3)
    (fun cs' => nothrow_move = false /\ same_places cs cs').
Proof. exact @s_umove_front. Qed.
Print Assumptions C44_segmented_uninitialized_move_front.
Example C44_segmented_umove_front_case : let E := throws_at 2 in let SZ := seg3 in
  let cs := [None; None; None; None; Some 1; Some 2; Some 3; None; None]%nat in
  holds seg_array o3 cs (seg_world (seg_entries o3 cs)) ∅ /\
  thrown (s_umove (iter_to o3.1 o3.2 4) (iter_to o3.1 o3.2 7) (iter_to o3.1 o3.2 1) tt (seg_world (seg_entries o3 cs))) = Some EUser.
Proof. intros E SZ. split; [apply seg_world_holds; vm_compute; reflexivity|vm_compute; reflexivity]. Qed.

(** From one container into another. *)
Theorem C44_segmented_uninitialized_copy : forall (E : Env) (SZ : SegSize) (St : Type) (s : St) t segs l (k1 k2 : list (option V)) t2 segs2 (l1 l2 : list (option V)) w hf,
  k2 <> [] -> l2 <> [] ->
  holds2 seg_array (t, segs) (k1 ++ somes l ++ k2) (t2, segs2) (l1 ++ nones (length l) ++ l2) w hf ->
  sdoes2 (s_ucopy (iter_to t segs (length k1)) (iter_to t segs (length k1 + length l)) (iter_to t2 segs2 (length l1))) s
    (t, segs) (k1 ++ somes l ++ k2) (t2, segs2) (l1 ++ nones (length l) ++ l2) w hf
    (fun r cs ds => r = iter_to t2 segs2 (length l1 + length l) /\ cs = k1 ++ somes l ++ k2 /\ ds = l1 ++ somes l ++ l2)
    (fun cs ds => cs = k1 ++ somes l ++ k2 /\ ds = l1 ++ nones (length l) ++ l2).
Proof. exact @s_ucopy_between. Qed.
Print Assumptions C44_segmented_uninitialized_copy.
Example C44_segmented_ucopy_between_case : let E := throws_at 4 in let SZ := seg3 in
  let cs := [None; Some 1; Some 2; Some 3; Some 4; Some 5; None; None; None]%nat in let ds := [None; None; None; None; None; None; None; None; None]%nat in
  let w := seg_world (seg_entries o3 cs ++ seg_entries o3' ds) in
  holds2 seg_array o3 cs o3' ds w ∅ /\
  thrown (s_ucopy (iter_to o3.1 o3.2 1) (iter_to o3.1 o3.2 6) (iter_to o3'.1 o3'.2 2) tt w) = Some EUser.
Proof. intros E SZ. split; [apply seg_worlds_hold; vm_compute; reflexivity|vm_compute; reflexivity]. Qed.

Theorem C44_segmented_uninitialized_move : forall (E : Env) (SZ : SegSize) (St : Type) (s : St) t segs l n1 n2 t2 segs2 (l1 l2 : list (option V)) w hf,
  (0 < n2)%nat -> l2 <> [] ->
  holds2 seg_array (t, segs) (nones n1 ++ somes l ++ nones n2) (t2, segs2) (l1 ++ nones (length l) ++ l2) w hf ->
  sdoes2 (s_umove (iter_to t segs n1) (iter_to t segs (n1 + length l)) (iter_to t2 segs2 (length l1))) s
    (t, segs) (nones n1 ++ somes l ++ nones n2) (t2, segs2) (l1 ++ nones (length l) ++ l2) w hf
    (fun r cs ds => r = iter_to t2 segs2 (length l1 + length l) /\
                    cs = nones n1 ++ somes (vmoved <$> l) ++ nones n2 /\ ds = l1 ++ somes l ++ l2)
    (fun cs ds => nothrow_move = false /\ same_places (nones n1 ++ somes l ++ nones n2) cs /\
                  ds = l1 ++ nones (length l) ++ l2).
Proof. exact @s_umove_between. Qed.
Print Assumptions C44_segmented_uninitialized_move.
Example C44_segmented_umove_between_case : let E := throws_at 4 in let SZ := seg3 in
  let cs := [None; Some 1; Some 2; Some 3; Some 4; Some 5; None; None; None]%nat in let ds := [None; None; None; None; None; None; None; None; None]%nat in
  let w := seg_world (seg_entries o3 cs ++ seg_entries o3' ds) in
  holds2 seg_array o3 cs o3' ds w ∅ /\
  thrown (s_umove (iter_to o3.1 o3.2 1) (iter_to o3.1 o3.2 6) (iter_to o3'.1 o3'.2 2) tt w) = Some EUser.
Proof. intros E SZ. split; [apply seg_worlds_hold; vm_compute; reflexivity|vm_compute; reflexivity]. Qed.

(** The source of move_if_noexcept survives an exception if its elements can be
    copied. *)
Theorem C44_segmented_uninitialized_move_if_noexcept : forall (E : Env) (SZ : SegSize) (St : Type) (s : St) t segs l n1 n2 t2 segs2 (l1 l2 : list (option V)) w hf,
  (0 < n2)%nat -> l2 <> [] ->
  holds2 seg_array (t, segs) (nones n1 ++ somes l ++ nones n2) (t2, segs2) (l1 ++ nones (length l) ++ l2) w hf ->
  sdoes2 (s_umove_if_noexcept (iter_to t segs n1) (iter_to t segs (n1 + length l)) (iter_to t2 segs2 (length l1))) s
    (t, segs) (nones n1 ++ somes l ++ nones n2) (t2, segs2) (l1 ++ nones (length l) ++ l2) w hf
    (fun r cs ds => r = iter_to t2 segs2 (length l1 + length l) /\
                    cs = nones n1 ++ somes (if nothrow_move || negb copyable then vmoved <$> l else l) ++ nones n2 /\
                    ds = l1 ++ somes l ++ l2)
    (fun cs ds => nothrow_move = false /\ same_places (nones n1 ++ somes l ++ nones n2) cs /\
                  (copyable = true -> cs = nones n1 ++ somes l ++ nones n2) /\ ds = l1 ++ nones (length l) ++ l2).
Proof. exact @s_umine_between. Qed.
Print Assumptions C44_segmented_uninitialized_move_if_noexcept.
Example C44_segmented_umove_if_noexcept_case : let E := throws_at 4 in let SZ := seg3 in
  let cs := [None; Some 1; Some 2; Some 3; Some 4; Some 5; None; None; None]%nat in let ds := [None; None; None; None; None; None; None; None; None]%nat in
  let w := seg_world (seg_entries o3 cs ++ seg_entries o3' ds) in
  holds2 seg_array o3 cs o3' ds w ∅ /\
  thrown (s_umove_if_noexcept (iter_to o3.1 o3.2 1) (iter_to o3.1 o3.2 6) (iter_to o3'.1 o3'.2 2) tt w) = Some EUser.
Proof. intros E SZ. split; [apply seg_worlds_hold; vm_compute; reflexivity|vm_compute; reflexivity]. Qed.

(** ** Assigning to elements *)
Theorem C44_segmented_copy_values : forall (E : Env) (SZ : SegSize) (St : Type) (s : St) t segs vs l (l1 l2 : list (option V)) w hf,
  l2 <> [] -> length l = length vs -> holds seg_array (t, segs) (l1 ++ somes l ++ l2) w hf ->
  sdoes1 (s_copy_ra (AVal <$> vs) (iter_to t segs (length l1))) s (t, segs) (l1 ++ somes l ++ l2) w hf
    (fun r cs => r = iter_to t segs (length l1 + length vs) /\ cs = l1 ++ somes vs ++ l2)
    (fun cs => same_places (l1 ++ somes l ++ l2) cs) /\
  sdoes1 (s_copy_fwd (AVal <$> vs) (iter_to t segs (length l1))) s (t, segs) (l1 ++ somes l ++ l2) w hf
    (fun r cs => r = iter_to t segs (length l1 + length vs) /\ cs = l1 ++ somes vs ++ l2)
    (fun cs => same_places (l1 ++ somes l ++ l2) cs).
Proof. exact @s_copy_ra_values. Qed.
Print Assumptions C44_segmented_copy_values.
Example C44_segmented_copy_values_case : let E := calm in let SZ := seg3 in
  let cs := [None; Some 1; Some 2; Some 3; Some 4; Some 5; Some 6; None; None]%nat in
  holds seg_array o3 cs (seg_world (seg_entries o3 cs)) ∅ /\
  returned (s_copy_ra (AVal <$> [7; 8; 9; 10]%nat) (iter_to o3.1 o3.2 1) tt (seg_world (seg_entries o3 cs))) = Some (iter_to o3.1 o3.2 5).
Proof. intros E SZ. split; [apply seg_world_holds; vm_compute; reflexivity|vm_compute; reflexivity]. Qed.

Theorem C44_segmented_copy : forall (E : Env) (SZ : SegSize) (St : Type) (s : St) t segs l (k1 k2 : list (option V)) t2 segs2 x (l1 l2 : list (option V)) w hf,
  k2 <> [] -> l2 <> [] -> length x = length l ->
  holds2 seg_array (t, segs) (k1 ++ somes l ++ k2) (t2, segs2) (l1 ++ somes x ++ l2) w hf ->
  sdoes2 (s_copy (iter_to t segs (length k1)) (iter_to t segs (length k1 + length l)) (iter_to t2 segs2 (length l1))) s
    (t, segs) (k1 ++ somes l ++ k2) (t2, segs2) (l1 ++ somes x ++ l2) w hf
    (fun r cs ds => r = iter_to t2 segs2 (length l1 + length l) /\ cs = k1 ++ somes l ++ k2 /\ ds = l1 ++ somes l ++ l2)
    (fun cs ds => cs = k1 ++ somes l ++ k2 /\ same_places (l1 ++ somes x ++ l2) ds).
Proof. exact @s_copy_between. Qed.
Print Assumptions C44_segmented_copy.
Example C44_segmented_copy_between_case : let E := calm in let SZ := seg3 in
  let cs := [None; Some 1; Some 2; Some 3; Some 4; Some 5; None; None; None]%nat in let ds := [None; None; Some 7; Some 7; Some 7; Some 7; Some 7; Some 7; None]%nat in
  let w := seg_world (seg_entries o3 cs ++ seg_entries o3' ds) in
  holds2 seg_array o3 cs o3' ds w ∅ /\
  returned (s_copy (iter_to o3.1 o3.2 1) (iter_to o3.1 o3.2 6) (iter_to o3'.1 o3'.2 2) tt w) = Some (iter_to o3'.1 o3'.2 7).
Proof. intros E SZ. split; [apply seg_worlds_hold; vm_compute; reflexivity|vm_compute; reflexivity]. Qed.

Theorem C44_segmented_fill : forall (E : Env) (SZ : SegSize) (St : Type) (s : St) t segs v l (l1 l2 : list (option V)) w hf,
  l2 <> [] -> holds seg_array (t, segs) (l1 ++ somes l ++ l2) w hf ->
  sdoes1 (s_fill (iter_to t segs (length l1)) (iter_to t segs (length l1 + length l)) (AVal v)) s
    (t, segs) (l1 ++ somes l ++ l2) w hf
    (fun r cs => cs = l1 ++ somes (replicate (length l) v) ++ l2)
    (fun cs => same_places (l1 ++ somes l ++ l2) cs).
Proof. exact @s_fill_values. Qed.
Print Assumptions C44_segmented_fill.
Example C44_segmented_fill_case : let E := throws_at 4 in let SZ := seg3 in
  let cs := [None; Some 1; Some 2; Some 3; Some 4; Some 5; Some 6; None; None]%nat in
  holds seg_array o3 cs (seg_world (seg_entries o3 cs)) ∅ /\
  thrown (s_fill (iter_to o3.1 o3.2 1) (iter_to o3.1 o3.2 7) (AVal 9%nat) tt (seg_world (seg_entries o3 cs))) = Some EUser.
Proof. intros E SZ. split; [apply seg_world_holds; vm_compute; reflexivity|vm_compute; reflexivity]. Qed.

(** The target begins in front of the source, with which it may overlap. *)
Theorem C44_segmented_move_overlapping : forall (E : Env) (SZ : SegSize) (St : Type) (s : St) t segs x l (l1 l2 : list (option V)) w hf,
  l2 <> [] -> x <> [] -> holds seg_array (t, segs) (l1 ++ somes (x ++ l) ++ l2) w hf ->
  sdoes1 (s_move (iter_to t segs (length l1 + length x)) (iter_to t segs (length l1 + length x + length l))
            (iter_to t segs (length l1))) s (t, segs) (l1 ++ somes (x ++ l) ++ l2) w hf
    (fun r cs => r = iter_to t segs (length l1 + length l) /\
                 exists x', length x' = length x /\ cs = l1 ++ somes (l ++ x') ++ l2)
    (fun cs => same_places (l1 ++ somes (x ++ l) ++ l2) cs).
Proof. exact @s_move_down. Qed.
Print Assumptions C44_segmented_move_overlapping.
Example C44_segmented_move_overlapping_case : let E := calm in let SZ := seg3 in
  let cs := [None; Some 1; Some 2; Some 3; Some 4; Some 5; Some 6; None; None]%nat in
  holds seg_array o3 cs (seg_world (seg_entries o3 cs)) ∅ /\
  returned (s_move (iter_to o3.1 o3.2 3) (iter_to o3.1 o3.2 7) (iter_to o3.1 o3.2 1) tt (seg_world (seg_entries o3 cs))) = Some (iter_to o3.1 o3.2 5).
Proof. intros E SZ. split; [apply seg_world_holds; vm_compute; reflexivity|vm_compute; reflexivity]. Qed.

(** The target ends behind the source. *)
Theorem C44_segmented_move_backward_overlapping : forall (E : Env) (SZ : SegSize) (St : Type) (s : St) t segs x l (l1 l2 : list (option V)) w hf,
  l2 <> [] -> x <> [] -> holds seg_array (t, segs) (l1 ++ somes (l ++ x) ++ l2) w hf ->
  sdoes1 (s_move_backward (iter_to t segs (length l1)) (iter_to t segs (length l1 + length l))
            (iter_to t segs (length l1 + length l + length x))) s (t, segs) (l1 ++ somes (l ++ x) ++ l2) w hf
    (fun r cs => r = iter_to t segs (length l1 + length x) /\
                 exists x', length x' = length x /\ cs = l1 ++ somes (x' ++ l) ++ l2)
    (fun cs => same_places (l1 ++ somes (l ++ x) ++ l2) cs).
Proof. exact @s_move_up. Qed.
Print Assumptions C44_segmented_move_backward_overlapping.
Example C44_segmented_move_backward_case : let E := calm in let SZ := seg3 in
  let cs := [None; Some 1; Some 2; Some 3; Some 4; Some 5; Some 6; None; None]%nat in
  holds seg_array o3 cs (seg_world (seg_entries o3 cs)) ∅ /\
  returned (s_move_backward (iter_to o3.1 o3.2 1) (iter_to o3.1 o3.2 5) (iter_to o3.1 o3.2 7) tt (seg_world (seg_entries o3 cs))) = Some (iter_to o3.1 o3.2 3).
Proof. intros E SZ. split; [apply seg_world_holds; vm_compute; reflexivity|vm_compute; reflexivity]. Qed.

Theorem C44_segmented_copy_backward_overlapping : forall (E : Env) (SZ : SegSize) (St : Type) (s : St) t segs x l (l1 l2 : list (option V)) w hf,
  l2 <> [] -> x <> [] -> holds seg_array (t, segs) (l1 ++ somes (l ++ x) ++ l2) w hf ->
  sdoes1 (s_copy_backward (iter_to t segs (length l1)) (iter_to t segs (length l1 + length l))
            (iter_to t segs (length l1 + length l + length x))) s (t, segs) (l1 ++ somes (l ++ x) ++ l2) w hf
    (fun r cs => r = iter_to t segs (length l1 + length x) /\
                 cs = l1 ++ somes (take (length x) (l ++ x) ++ l) ++ l2)
    (fun cs => same_places (l1 ++ somes (l ++ x) ++ l2) cs).
Proof. exact @s_copy_up. Qed.
Print Assumptions C44_segmented_copy_backward_overlapping.
Example C44_segmented_copy_backward_case : let E := calm in let SZ := seg3 in
  let cs := [None; Some 1; Some 2; Some 3; Some 4; Some 5; Some 6; None; None]%nat in
  holds seg_array o3 cs (seg_world (seg_entries o3 cs)) ∅ /\
  returned (s_copy_backward (iter_to o3.1 o3.2 1) (iter_to o3.1 o3.2 5) (iter_to o3.1 o3.2 7) tt (seg_world (seg_entries o3 cs))) = Some (iter_to o3.1 o3.2 3).
Proof. intros E SZ. split; [apply seg_world_holds; vm_compute; reflexivity|vm_compute; reflexivity]. Qed.

(** Ordinary iterators ([cells], [does1]: AlgoThms.v, see Props_Algo.v). *)
Theorem C44_copy_backward_overlapping : forall (E : Env) (St : Type) (s : St) p l x w hf,
  x <> [] -> holds cells p (lives (l ++ x)) w hf ->
  does1 (copy_backward p (p +ₗ zlen l) (p +ₗ zlen (l ++ x))) s p (lives (l ++ x)) w hf
    (fun r cs => r = p +ₗ zlen x /\ cs = lives (take (length x) (l ++ x) ++ l))
    (fun cs => exists l', length l' = length (l ++ x) /\ cs = lives l').
Proof. exact @copy_up. Qed.
Print Assumptions C44_copy_backward_overlapping.
Example C44_copy_backward_case : let E := calm in let l := [5; 6; 7; 8; 9]%nat in
  holds cells (-1, 0) (lives l) (one_array (lives l)) ∅ /\
  match copy_backward (-1, 0) (-1, 3) (-1, 5) tt (one_array (lives l)) with
  | Ok r _ w => r = (-1, 2) /\ read_cells (-1, 0) 5 (heap w) = Some [5; 6; 5; 6; 7]%nat | _ => False
  end.
Proof. intros E l. split; [apply one_array_holds|vm_compute; split; reflexivity]. Qed.
