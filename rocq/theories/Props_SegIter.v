(** * Properties of segmented iterators (C26)

    [has_table w t segs] (SegIterLaws.v): the memory of [w] holds a segment table at
    [t] with the segments [segs]; [separate segs]: different segments are different
    blocks; [denotes t segs x i]: the iterator [x] denotes slot [i], counted over all
    segments ([SS] slots each); [valid_it t segs x]: it denotes some slot.  The end
    iterator of a container denotes a slot too (the slot after its last element).

    Every theorem says that the operation returns, in the same world, so it reads the
    table within bounds and changes nothing. *)

From Verif Require Import SegIterLaws Demo.
Open Scope Z_scope.

(** Three segments of four slots. *)
Definition seg4 : SegSize := {| SS := 4; SS_pos := ltac:(lia) |}.
Definition three : list loc := [(2, 0); (3, 0); (4, 0)].
Definition three_world `{Env} : world :=
  World (list_to_map [((1, 0), Ptr (2, 0)); ((1, 1), Ptr (3, 0)); ((1, 2), Ptr (4, 0))]) 0 5 0.
Example three_table : let E := calm in has_table three_world (1, 0) three.
Proof.
  intros E k Hk. simpl in Hk. assert (k = 0 \/ k = 1 \/ k = 2) as [->|[->| ->]] by lia; vm_compute; reflexivity.
Qed.
Example three_separate : separate three.
Proof. unfold separate, three. simpl. repeat constructor; set_solver. Qed.
Example three_denotes : let S := seg4 in
  denotes (1, 0) three (It (1, 1) (3, 2)) 6 /\ denotes (1, 0) three (It (1, 2) (4, 3)) 11 /\
  valid_it (1, 0) three (It (1, 0) (2, 1)).
Proof.
  intros S. split; [|split; [|exists 1]]; (split; [simpl; lia|vm_compute; split; reflexivity]).
Qed.

Theorem C26_arithmetic : forall (E : Env) (SZ : SegSize) (St : Type) w t segs,
  has_table w t segs -> forall x y i j n (s : St),
  denotes t segs x i -> denotes t segs y j ->
  (0 <= i + n < SS * Z.of_nat (length segs) ->
     exists z, it_add x n s w = Ok z s w /\ denotes t segs z (i + n)) /\
  (0 <= i - n < SS * Z.of_nat (length segs) ->
     exists z, it_minus x n s w = Ok z s w /\ denotes t segs z (i - n)) /\
  (i + 1 < SS * Z.of_nat (length segs) ->
     exists z, it_succ x s w = Ok z s w /\ denotes t segs z (i + 1)) /\
  (0 < i -> exists z, it_pred x s w = Ok z s w /\ denotes t segs z (i - 1)) /\
  it_diff x y s w = Ok (i - j) s w /\
  it_ltb x y s w = Ok (i <? j) s w /\
  (separate segs -> it_eqb x y = (i =? j)).
Proof. exact @arithmetic. Qed.
Print Assumptions C26_arithmetic.
(** Six forward from slot 6 would leave the container, three forward and six back
    cross a segment boundary. *)
Example C26_arithmetic_case : let E := calm in let S := seg4 in
  has_table three_world (1, 0) three /\ separate three /\
  denotes (1, 0) three (It (1, 1) (3, 2)) 6 /\ denotes (1, 0) three (It (1, 2) (4, 3)) 11 /\
  0 <= 6 + 3 < SS * Z.of_nat (length three) /\ 0 <= 6 - 6 < SS * Z.of_nat (length three) /\
  returned (it_add (It (1, 1) (3, 2)) 3 tt three_world) = Some (It (1, 2) (4, 1)) /\
  returned (it_minus (It (1, 1) (3, 2)) 6 tt three_world) = Some (It (1, 0) (2, 0)).
Proof.
  intros E S. split; [apply three_table|]. split; [apply three_separate|].
  split; [apply three_denotes|]. split; [apply three_denotes|].
  split; [simpl; lia|]. split; [simpl; lia|]. split; vm_compute; reflexivity.
Qed.

(** [(x + n) - x == n], [(x + n) + m == x + (n + m)], [x[n]] is [*(x + n)],
    [(x + n) - n == x]; [n] and [m] may be negative. *)
Theorem C26_addition : forall (E : Env) (SZ : SegSize) (St : Type) w t segs,
  has_table w t segs -> forall x i n m (s : St),
  denotes t segs x i -> 0 <= i + n < SS * Z.of_nat (length segs) ->
  0 <= i + (n + m) < SS * Z.of_nat (length segs) ->
  exists y z, it_add x n s w = Ok y s w /\ it_diff y x s w = Ok n s w /\
    it_add y m s w = Ok z s w /\ it_add x (n + m) s w = Ok z s w /\
    it_index x n s w = Ok (it_deref y) s w /\ it_minus y n s w = Ok x s w.
Proof. exact @add_laws. Qed.
Print Assumptions C26_addition.
Example C26_addition_case : let S := seg4 in
  denotes (1, 0) three (It (1, 1) (3, 2)) 6 /\
  0 <= 6 + -5 < SS * Z.of_nat (length three) /\ 0 <= 6 + (-5 + 9) < SS * Z.of_nat (length three).
Proof. intros S. split; [apply three_denotes|simpl; lia]. Qed.

(** [++] and [--] are inverse to each other and agree with [+ 1] and [- 1]. *)
Theorem C26_increment : forall (E : Env) (SZ : SegSize) (St : Type) w t segs,
  has_table w t segs -> forall x i (s : St),
  denotes t segs x i -> i + 1 < SS * Z.of_nat (length segs) ->
  exists y, it_succ x s w = Ok y s w /\ it_pred y s w = Ok x s w /\ it_add x 1 s w = Ok y s w.
Proof. exact @succ_pred. Qed.
Print Assumptions C26_increment.
Theorem C26_decrement : forall (E : Env) (SZ : SegSize) (St : Type) w t segs,
  has_table w t segs -> forall x i (s : St),
  denotes t segs x i -> 0 < i ->
  exists y, it_pred x s w = Ok y s w /\ it_succ y s w = Ok x s w /\ it_minus x 1 s w = Ok y s w.
Proof. exact @pred_succ. Qed.
Print Assumptions C26_decrement.
(** From the last slot of a segment to the first slot of the next one. *)
Example C26_increment_case : let E := calm in let S := seg4 in
  denotes (1, 0) three (It (1, 1) (3, 3)) 7 /\ 7 + 1 < SS * Z.of_nat (length three) /\
  returned (it_succ (It (1, 1) (3, 3)) tt three_world) = Some (It (1, 2) (4, 0)).
Proof.
  intros E S. split; [split; [simpl; lia|vm_compute; split; reflexivity]|]. split; [simpl; lia|vm_compute; reflexivity].
Qed.

(** [x < y] iff [y - x > 0], [x == y] iff [y - x == 0], and [x + (y - x) == y]. *)
Theorem C26_comparison : forall (E : Env) (SZ : SegSize) (St : Type) w t segs,
  has_table w t segs -> forall x y (s : St),
  separate segs -> valid_it t segs x -> valid_it t segs y ->
  exists d, it_diff y x s w = Ok d s w /\ it_diff x y s w = Ok (- d) s w /\
    it_ltb x y s w = Ok (0 <? d) s w /\ it_ltb y x s w = Ok (d <? 0) s w /\
    it_eqb x y = (d =? 0) /\ it_add x d s w = Ok y s w.
Proof. exact @compare_laws. Qed.
Print Assumptions C26_comparison.
Example C26_comparison_case : let S := seg4 in
  separate three /\ valid_it (1, 0) three (It (1, 1) (3, 2)) /\ valid_it (1, 0) three (It (1, 0) (2, 1)).
Proof.
  intros S. split; [apply three_separate|]. split; [exists 6; apply three_denotes|apply three_denotes].
Qed.
