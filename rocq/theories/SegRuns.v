(** * Small client programs of the segmented containers

    Used by the counterexamples in Props_Segmented.v. *)

From Verif Require Export Segmented Demo.
Open Scope Z_scope.

(** Segments of four elements. *)
Definition seg4 : SegSize := {| SS := 4; SS_pos := ltac:(lia) |}.
Definition is_ub `{Env} {St A} (r : res St A) : bool := match r with UB => true | _ => false end.

Section programs.
  Context (E : Env) (SZ : SegSize).

  (** Two containers with two and three elements, perhaps swapped, then both
      destroyed. *)
  Definition make_and_destroy (swap : bool) : M (sgdata * sgdata) unit :=
    (on1 (sq_init_fill 2 ADef);;
     on2 (sq_init_fill 3 ADef);;
     (if swap then sq_swap else ret tt);;
     on1 sq_destructor;;
     on2 sq_destructor)%prog.

  (** A segmented_devector with [n] elements; [vs] is inserted at its end. *)
  Definition insert_at_end (n : Z) (vs : list V) : M sgdata sit :=
    (sq_init_fill n ADef;;
     o <- getS;;
     sd_insert_range (sg_last o) (SList true (AVal <$> vs)))%prog.
  (** The same elements, inserted one by one. *)
  Definition push_all (n : Z) (vs : list V) : M sgdata unit :=
    (sq_init_fill n ADef;; sq_append_loop (AVal <$> vs))%prog.

  (** A container with [n] elements; [vs] is appended; the new size. *)
  Definition append_all (n : Z) (vs : list V) : M sgdata Z :=
    (sq_init_fill n ADef;; sq_append_loop (AVal <$> vs);; sq_size)%prog.

  (** A segmented_devector used as a queue: [push_back] and [pop_front] in turn,
      [n] times, starting from one element. *)
  Fixpoint queue_loop (n : nat) (v : V) : M sgdata unit :=
    match n with
    | O => ret tt
    | S n' => sq_emplace_back (AVal v);; sd_pop_front;; queue_loop n' v
    end%prog.
  Definition queue (n : nat) (v : V) : M sgdata Z :=
    (sq_init_fill 1 (AVal v);; queue_loop n v;; sq_size)%prog.
End programs.

(** At most [m] elements per container; nothing throws. *)
Definition limit (m : Z) (Hm : 0 <= m < 2 ^ 63) : Env := {|
  V := nat;
  vdef := 0%nat;
  vmoved := fun _ => 0%nat;
  junk1 := fun _ => 99%nat;
  junk2 := fun _ => 99%nat;
  throws := fun _ _ => false;
  nothrow_move := true;
  copyable := true;
  max_size := m;
  max_size_ok := Hm;
  pocca := false;
  pocma := false;
  pocs := false;
  soccc := fun a => a;
|}.
