(** * Properties of the relocation algorithms (C44)

    The algorithms of private.hpp that construct, assign and destroy ranges of
    elements.  [cells p cs m] (AlgoThms.v): the memory [m] consists of the cells [cs]
    at [p], [p + 1], ...; [lives l]: cells that hold the elements [l]; [raw_cells n]:
    [n] cells without an element.  [does1 m s p cs w hf φ ψ]: run in a world where the
    cells at [p] are [cs] and the rest of memory is [hf], the program [m] is never
    undefined; if it returns [r], then the cells at [p] are some [cs'] with [φ r cs']
    and nothing has thrown; if it throws, then because an element operation threw,
    and the cells are some [cs'] with [ψ cs']; the rest of memory is untouched.
    [does2] is the same for two separate arrays. *)

From Verif Require Import AlgoThms Demo.
Open Scope Z_scope.

(** ** Constructing in raw memory, with rollback *)
Theorem C44_uninitialized_copy_values : forall (E : Env) (St : Type) (s : St) vs d w hf,
  holds cells d (raw_cells (length vs)) w hf ->
  does1 (uninitialized_copy_a (AVal <$> vs) d) s d (raw_cells (length vs)) w hf
    (fun r cs => r = d +ₗ Z.of_nat (length vs) /\ cs = lives vs) (fun cs => cs = raw_cells (length vs)).
Proof. exact @ucopy_values. Qed.
Print Assumptions C44_uninitialized_copy_values.
(** The third copy throws. *)
Example C44_copy_values_case : let E := throws_at 2 in
  holds cells (-1, 0) (raw_cells 4) (one_array (raw_cells 4)) ∅ /\
  thrown (uninitialized_copy_a (AVal <$> [5; 6; 7; 8]%nat) (-1, 0) tt (one_array (raw_cells 4))) = Some EUser.
Proof. intros E. split; [apply one_array_holds|vm_compute; reflexivity]. Qed.

Theorem C44_uninitialized_copy : forall (E : Env) (St : Type) (s : St) p l d w hf,
  holds2 cells p (lives l) d (raw_cells (length l)) w hf ->
  does2 (uninitialized_copy_a (refs ACopy p (length l)) d) s p (lives l) d (raw_cells (length l)) w hf
    (fun r cs ds => r = d +ₗ Z.of_nat (length l) /\ cs = lives l /\ ds = lives l)
    (fun cs ds => cs = lives l /\ ds = raw_cells (length l)).
Proof. exact @ucopy_range. Qed.
Print Assumptions C44_uninitialized_copy.
Example C44_copy_case : let E := throws_at 2 in let w := two_arrays (lives [5; 6; 7; 8]%nat) (raw_cells 4) in
  holds2 cells (-1, 0) (lives [5; 6; 7; 8]%nat) (-2, 0) (raw_cells 4) w ∅ /\
  thrown (uninitialized_copy_a (refs ACopy (-1, 0) 4) (-2, 0) tt w) = Some EUser.
Proof. intros E w. split; [apply two_arrays_holds|vm_compute; reflexivity]. Qed.

Theorem C44_uninitialized_move : forall (E : Env) (St : Type) (s : St) p l d w hf,
  holds2 cells p (lives l) d (raw_cells (length l)) w hf ->
  does2 (uninitialized_move_a p (p +ₗ Z.of_nat (length l)) d) s p (lives l) d (raw_cells (length l)) w hf
    (fun r cs ds => r = d +ₗ Z.of_nat (length l) /\ cs = lives (vmoved <$> l) /\ ds = lives l)
    (fun cs ds => nothrow_move = false /\ (exists l', length l' = length l /\ cs = lives l') /\
                  ds = raw_cells (length l)).
Proof. exact @umove_range. Qed.
Print Assumptions C44_uninitialized_move.
Example C44_move_case : let E := throws_at 2 in let w := two_arrays (lives [5; 6; 7; 8]%nat) (raw_cells 4) in
  holds2 cells (-1, 0) (lives [5; 6; 7; 8]%nat) (-2, 0) (raw_cells 4) w ∅ /\
  thrown (uninitialized_move_a (-1, 0) (-1, 4) (-2, 0) tt w) = Some EUser.
Proof. intros E w. split; [apply two_arrays_holds|vm_compute; reflexivity]. Qed.

(** The source of move_if_noexcept survives an exception if its elements can be
    copied (or moved without throwing). *)
Theorem C44_uninitialized_move_if_noexcept : forall (E : Env) (St : Type) (s : St) p l d w hf,
  holds2 cells p (lives l) d (raw_cells (length l)) w hf ->
  does2 (uninitialized_move_if_noexcept_a p (p +ₗ Z.of_nat (length l)) d) s
    p (lives l) d (raw_cells (length l)) w hf
    (fun r cs ds => r = d +ₗ Z.of_nat (length l) /\
       cs = lives (if nothrow_move || negb copyable then vmoved <$> l else l) /\ ds = lives l)
    (fun cs ds => nothrow_move = false /\ (exists l', length l' = length l /\ cs = lives l') /\
       (copyable = true -> cs = lives l) /\ ds = raw_cells (length l)).
Proof. exact @umine_range. Qed.
Print Assumptions C44_uninitialized_move_if_noexcept.
Example C44_mine_case : let E := throws_at 2 in let w := two_arrays (lives [5; 6; 7; 8]%nat) (raw_cells 4) in
  holds2 cells (-1, 0) (lives [5; 6; 7; 8]%nat) (-2, 0) (raw_cells 4) w ∅ /\
  thrown (uninitialized_move_if_noexcept_a (-1, 0) (-1, 4) (-2, 0) tt w) = Some EUser.
Proof. intros E w. split; [apply two_arrays_holds|vm_compute; reflexivity]. Qed.

Theorem C44_uninitialized_fill : forall (E : Env) (St : Type) (s : St) v d n w hf,
  holds cells d (raw_cells n) w hf ->
  does1 (uninitialized_fill_n_a d n (AVal v)) s d (raw_cells n) w hf
    (fun r cs => r = d +ₗ Z.of_nat n /\ cs = lives (replicate n v)) (fun cs => cs = raw_cells n) /\
  does1 (uninitialized_fill_a d (d +ₗ Z.of_nat n) (AVal v)) s d (raw_cells n) w hf
    (fun r cs => cs = lives (replicate n v)) (fun cs => cs = raw_cells n).
Proof. exact @ufill_values. Qed.
Print Assumptions C44_uninitialized_fill.   (* case: as above *)
Theorem C44_uninitialized_default_construct : forall (E : Env) (St : Type) (s : St) d n w hf,
  holds cells d (raw_cells n) w hf ->
  does1 (uninitialized_default_construct_n_a d n) s d (raw_cells n) w hf
    (fun r cs => r = d +ₗ Z.of_nat n /\ cs = lives (replicate n vdef)) (fun cs => cs = raw_cells n) /\
  does1 (uninitialized_default_construct_a d (d +ₗ Z.of_nat n)) s d (raw_cells n) w hf
    (fun r cs => cs = lives (replicate n vdef)) (fun cs => cs = raw_cells n).
Proof. exact @udefault_values. Qed.
Print Assumptions C44_uninitialized_default_construct.
Example C44_default_case : let E := throws_at 2 in
  holds cells (-1, 0) (raw_cells 4) (one_array (raw_cells 4)) ∅ /\
  thrown (uninitialized_default_construct_n_a (-1, 0) 4 tt (one_array (raw_cells 4))) = Some EUser.
Proof. intros E. split; [apply one_array_holds|vm_compute; reflexivity]. Qed.

Theorem C44_destroy : forall (E : Env) (St : Type) (s : St) p l w hf,
  holds cells p (lives l) w hf ->
  does1 (destroy_a p (p +ₗ Z.of_nat (length l))) s p (lives l) w hf
    (fun r cs => cs = raw_cells (length l)) (fun _ => False).
Proof. exact @destroy_range. Qed.
Print Assumptions C44_destroy.
Example C44_destroy_case : let E := calm in
  holds cells (-1, 0) (lives [5; 6; 7]%nat) (one_array (lives [5; 6; 7]%nat)) ∅ /\
  returned (destroy_a (-1, 0) (-1, 3) tt (one_array (lives [5; 6; 7]%nat))) = Some tt.
Proof. intros E. split; [apply one_array_holds|vm_compute; reflexivity]. Qed.

(** ** Assigning to elements *)
Theorem C44_copy_values : forall (E : Env) (St : Type) (s : St) vs d l w hf,
  length l = length vs -> holds cells d (lives l) w hf ->
  does1 (copy (AVal <$> vs) d) s d (lives l) w hf
    (fun r cs => r = d +ₗ Z.of_nat (length vs) /\ cs = lives vs)
    (fun cs => exists l', length l' = length l /\ cs = lives l').
Proof. exact @copy_values. Qed.
Print Assumptions C44_copy_values.   (* case: as below *)
Theorem C44_copy : forall (E : Env) (St : Type) (s : St) p l d l2 w hf,
  length l2 = length l -> holds2 cells p (lives l) d (lives l2) w hf ->
  does2 (copy (refs ACopy p (length l)) d) s p (lives l) d (lives l2) w hf
    (fun r cs ds => r = d +ₗ Z.of_nat (length l) /\ cs = lives l /\ ds = lives l)
    (fun cs ds => cs = lives l /\ exists l', length l' = length l /\ ds = lives l').
Proof. exact @copy_range. Qed.
Print Assumptions C44_copy.
Example C44_copy_assign_case : let E := calm in let w := two_arrays (lives [5; 6; 7]%nat) (lives [1; 2; 3]%nat) in
  holds2 cells (-1, 0) (lives [5; 6; 7]%nat) (-2, 0) (lives [1; 2; 3]%nat) w ∅ /\
  returned (copy (refs ACopy (-1, 0) 3) (-2, 0) tt w) = Some (-2, 3).
Proof. intros E w. split; [apply two_arrays_holds|vm_compute; reflexivity]. Qed.
Theorem C44_move : forall (E : Env) (St : Type) (s : St) p l d l2 w hf,
  length l2 = length l -> holds2 cells p (lives l) d (lives l2) w hf ->
  does2 (move p (p +ₗ Z.of_nat (length l)) d) s p (lives l) d (lives l2) w hf
    (fun r cs ds => r = d +ₗ Z.of_nat (length l) /\ cs = lives (vmoved <$> l) /\ ds = lives l)
    (fun cs ds => (exists l', length l' = length l /\ cs = lives l') /\
                  (exists l', length l' = length l /\ ds = lives l')).
Proof. exact @move_range. Qed.
Print Assumptions C44_move.
Example C44_move_assign_case : let E := calm in let w := two_arrays (lives [5; 6; 7]%nat) (lives [1; 2; 3]%nat) in
  holds2 cells (-1, 0) (lives [5; 6; 7]%nat) (-2, 0) (lives [1; 2; 3]%nat) w ∅ /\
  returned (move (-1, 0) (-1, 3) (-2, 0) tt w) = Some (-2, 3).
Proof. intros E w. split; [apply two_arrays_holds|vm_compute; reflexivity]. Qed.
(** The target begins in front of the source, with which it may overlap. *)
Theorem C44_move_overlapping : forall (E : Env) (St : Type) (s : St) d l1 l2 w hf,
  l1 <> [] -> holds cells d (lives (l1 ++ l2)) w hf ->
  does1 (move (d +ₗ Z.of_nat (length l1)) (d +ₗ Z.of_nat (length (l1 ++ l2))) d) s d (lives (l1 ++ l2)) w hf
    (fun r cs => r = d +ₗ Z.of_nat (length l2) /\ exists l', length l' = length l1 /\ cs = lives (l2 ++ l'))
    (fun cs => exists l', length l' = length (l1 ++ l2) /\ cs = lives l').
Proof. exact @move_down. Qed.
Print Assumptions C44_move_overlapping.
Example C44_move_overlapping_case : let E := calm in let l := [5; 6; 7; 8; 9]%nat in
  holds cells (-1, 0) (lives l) (one_array (lives l)) ∅ /\
  match move (-1, 2) (-1, 5) (-1, 0) tt (one_array (lives l)) with
  | Ok r _ w => r = (-1, 3) /\ read_cells (-1, 0) 5 (heap w) = Some [7; 8; 9; 0; 0]%nat | _ => False
  end.
Proof. intros E l. split; [apply one_array_holds|vm_compute; split; reflexivity]. Qed.
(** The target ends behind the source. *)
Theorem C44_move_backward_overlapping : forall (E : Env) (St : Type) (s : St) p l1 l2 w hf,
  l2 <> [] -> holds cells p (lives (l1 ++ l2)) w hf ->
  does1 (move_backward p (p +ₗ Z.of_nat (length l1)) (p +ₗ Z.of_nat (length (l1 ++ l2)))) s p (lives (l1 ++ l2)) w hf
    (fun r cs => r = p +ₗ Z.of_nat (length l2) /\ exists l', length l' = length l2 /\ cs = lives (l' ++ l1))
    (fun cs => exists l', length l' = length (l1 ++ l2) /\ cs = lives l').
Proof. exact @move_up. Qed.
Print Assumptions C44_move_backward_overlapping.
Example C44_move_backward_case : let E := calm in let l := [5; 6; 7; 8; 9]%nat in
  holds cells (-1, 0) (lives l) (one_array (lives l)) ∅ /\
  match move_backward (-1, 0) (-1, 3) (-1, 5) tt (one_array (lives l)) with
  | Ok r _ w => r = (-1, 2) /\ read_cells (-1, 0) 5 (heap w) = Some [0; 0; 5; 6; 7]%nat | _ => False
  end.
Proof. intros E l. split; [apply one_array_holds|vm_compute; split; reflexivity]. Qed.
Theorem C44_fill : forall (E : Env) (St : Type) (s : St) v d l w hf,
  holds cells d (lives l) w hf ->
  does1 (fill d (d +ₗ Z.of_nat (length l)) (AVal v)) s d (lives l) w hf
    (fun r cs => cs = lives (replicate (length l) v))
    (fun cs => exists l', length l' = length l /\ cs = lives l').
Proof. exact @fill_values. Qed.
Print Assumptions C44_fill.
Example C44_fill_case : let E := throws_at 1 in let l := [5; 6; 7]%nat in
  holds cells (-1, 0) (lives l) (one_array (lives l)) ∅ /\
  thrown (fill (-1, 0) (-1, 3) (AVal 4%nat) tt (one_array (lives l))) = Some EUser.
Proof. intros E l. split; [apply one_array_holds|vm_compute; reflexivity]. Qed.
