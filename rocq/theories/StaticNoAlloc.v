(** * static_vector never asks an allocator for memory

    The counter [next] of a world numbers the blocks handed out so far: every
    successful allocation increases it (Lang.v [allocate]).  [quiet_next m]: [m]
    leaves it alone, whether it returns or throws. *)

From iris.proofmode Require Import tactics.
From Verif Require Export StaticVector.
Open Scope Z_scope.

Section no_alloc.
  Context `{E : Env}.

  Definition quiet_next {St A} (m : M St A) : Prop := forall s w,
    match m s w with
    | Ok _ _ w' | Exn _ _ w' => next w' = next w
    | UB => True
    end.

  Section gen.
    Context {St : Type}.
    Lemma qn_bind {A B} (m : M St A) (k : A -> M St B) :
      quiet_next m -> (forall a, quiet_next (k a)) -> quiet_next (bind m k).
    Proof.
      intros Hm Hk s w. specialize (Hm s w). unfold bind. destruct (m s w) as [a s' w'|e s' w'|]; [|done|done].
      specialize (Hk a s' w'). destruct (k a s' w'); congruence.
    Qed.
    Lemma qn_try {A} (m : M St A) h : quiet_next m -> quiet_next h -> quiet_next (try_ m h).
    Proof.
      intros Hm Hh s w. specialize (Hm s w). unfold try_. destruct (m s w) as [a s' w'|e s' w'|]; [done| |done].
      specialize (Hh s' w'). destruct (h s' w'); congruence.
    Qed.
    Lemma qn_ret {A} (a : A) : quiet_next (ret a : M St A). Proof. done. Qed.
    Lemma qn_throw {A} e : quiet_next (throw e : M St A). Proof. done. Qed.
    Lemma qn_ub {A} : quiet_next (ub : M St A). Proof. done. Qed.
    Lemma qn_get : quiet_next (getS : M St St). Proof. done. Qed.
    Lemma qn_put s : quiet_next (putS s : M St unit). Proof. done. Qed.
    Lemma qn_mod f : quiet_next (modS f : M St unit). Proof. done. Qed.
    Lemma qn_read p : quiet_next (read p : M St V).
    Proof. intros s w. unfold read. by destruct (heap w !! p) as [[]|]. Qed.
    Lemma qn_write p v : quiet_next (write p v : M St unit).
    Proof. intros s w. unfold write. by destruct (heap w !! p) as [[]|]. Qed.
    Lemma qn_raw p : quiet_next (expect_raw p : M St unit).
    Proof. intros s w. unfold expect_raw. by destruct (heap w !! p) as [[]|]. Qed.
    Lemma qn_live p v : quiet_next (set_live p v : M St unit).
    Proof. intros s w. unfold set_live. by destruct (heap w !! p) as [[]|]. Qed.
    Lemma qn_destroy p : quiet_next (destroy_at p : M St unit).
    Proof. intros s w. unfold destroy_at. by destruct (heap w !! p) as [[]|]. Qed.
    Lemma qn_oracle k : quiet_next (oracle k : M St _).
    Proof. done. Qed.
  End gen.
  Lemma qn_on1 {S1 S2 A} (m : M S1 A) : quiet_next m -> quiet_next (on1 m : M (S1 * S2) A).
  Proof. intros Hm [s1 s2] w. unfold on1. specialize (Hm s1 w). simpl. by destruct (m s1 w). Qed.
  Lemma qn_on2 {S1 S2 A} (m : M S2 A) : quiet_next m -> quiet_next (on2 m : M (S1 * S2) A).
  Proof. intros Hm [s1 s2] w. unfold on2. specialize (Hm s2 w). simpl. by destruct (m s2 w). Qed.
  Lemma qn_lift {S1 S2 A} (m : M S1 A) : quiet_next m -> quiet_next (lift_ m : M (S1 * S2) A).
  Proof. intros Hm [s1 s2] w. unfold lift_. specialize (Hm s1 w). simpl. by destruct (m s1 w). Qed.
  Lemma qn_local {S1 L A} (l : L) (m : M (S1 * L) A) : quiet_next m -> quiet_next (local_ l m).
  Proof. intros Hm s w. unfold local_. specialize (Hm (s, l) w). simpl. by destruct (m (s, l) w) as [? []|? []|]. Qed.
  Lemma qn_getl {S1 L} : quiet_next (getl_ : M (S1 * L) L). Proof. done. Qed.
  Lemma qn_setl {S1 L} (l : L) : quiet_next (setl_ l : M (S1 * L) unit). Proof. done. Qed.

  Ltac qn :=
    repeat first
      [ solve [auto with quiet] | apply qn_bind; [|intros ?] | apply qn_try | apply qn_on1 | apply qn_on2
      | apply qn_lift | apply qn_local
      | match goal with |- quiet_next (match ?x with _ => _ end) => destruct x end ].
  #[local] Hint Resolve qn_ret qn_throw qn_ub qn_get qn_put qn_mod qn_read qn_write qn_raw qn_live
    qn_destroy qn_oracle qn_getl qn_setl : quiet.

  Section algos.
    Context {St : Type}.
    Lemma qn_make a : quiet_next (make a : M St V).
    Proof. destruct a; simpl; unfold step_; qn. Qed.
    #[local] Hint Resolve qn_make : quiet.
    Lemma qn_construct p a : quiet_next (construct p a : M St unit).
    Proof. unfold construct. qn. Qed.
    Lemma qn_assign d a : quiet_next (assign d a : M St unit).
    Proof. destruct a; simpl; qn. Qed.
    Lemma qn_psub p q : quiet_next (ptr_sub p q : M St Z).
    Proof. unfold ptr_sub. qn. Qed.
    Lemma qn_rlen p q : quiet_next (range_len p q : M St nat).
    Proof. unfold range_len. qn. Qed.
    Lemma qn_assert b : quiet_next (assert_ b : M St unit).
    Proof. unfold assert_. qn. Qed.
    #[local] Hint Resolve qn_construct qn_assign qn_psub qn_rlen qn_assert : quiet.
    Lemma qn_range mk p q : quiet_next (range mk p q : M St (list arg)).
    Proof. unfold range. qn. Qed.
    Lemma qn_destroy_n p n : quiet_next (destroy_n_a p n : M St unit).
    Proof. revert p. induction n; intros; simpl; qn. Qed.
    #[local] Hint Resolve qn_range qn_destroy_n : quiet.
    Lemma qn_destroy_a p q : quiet_next (destroy_a p q : M St unit).
    Proof. unfold destroy_a. qn. Qed.
    #[local] Hint Resolve qn_destroy_a : quiet.
    Lemma qn_uninit p q l : quiet_next (uninit_loop p q l : M St loc).
    Proof. revert q. induction l; intros; simpl; qn. Qed.
    Lemma qn_aloop p l : quiet_next (assign_loop p l : M St loc).
    Proof. revert p. induction l; intros; simpl; qn. Qed.
    Lemma qn_mback n p q : quiet_next (move_backward_loop n p q : M St loc).
    Proof. revert q. induction n; intros; cbn [move_backward_loop]; qn. Qed.
    #[local] Hint Resolve qn_uninit qn_aloop qn_mback : quiet.
    Lemma qn_ucopy l p : quiet_next (uninitialized_copy_a l p : M St loc).
    Proof. unfold uninitialized_copy_a. qn. Qed.
    Lemma qn_umove p q r : quiet_next (uninitialized_move_a p q r : M St loc).
    Proof. unfold uninitialized_move_a. qn. Qed.
    Lemma qn_ufill p q a : quiet_next (uninitialized_fill_a p q a : M St unit).
    Proof. unfold uninitialized_fill_a. qn. Qed.
    Lemma qn_ufill_n p n a : quiet_next (uninitialized_fill_n_a p n a : M St loc).
    Proof. unfold uninitialized_fill_n_a. qn. Qed.
    Lemma qn_copy l p : quiet_next (copy l p : M St loc).
    Proof. unfold copy. qn. Qed.
    Lemma qn_move p q r : quiet_next (move p q r : M St loc).
    Proof. unfold move. qn. Qed.
    Lemma qn_fill p q a : quiet_next (fill p q a : M St unit).
    Proof. unfold fill. qn. Qed.
    Lemma qn_move_backward p q r : quiet_next (move_backward p q r : M St loc).
    Proof. unfold move_backward. qn. Qed.
  End algos.
  #[local] Hint Resolve qn_make qn_construct qn_assign qn_psub qn_rlen qn_assert qn_range qn_destroy_n
    qn_destroy_a qn_ucopy qn_umove qn_ufill qn_ufill_n qn_copy qn_move qn_fill qn_move_backward : quiet.

  Lemma qn_set_last q : quiet_next (set_last q). Proof. done. Qed.
  Lemma qn_size : quiet_next size_. Proof. unfold size_. qn. Qed.
  #[local] Hint Resolve qn_set_last qn_size : quiet.
  Lemma qn_offset p : quiet_next (offset_of p). Proof. unfold offset_of. qn. Qed.
  Lemma qn_full N : quiet_next (full_ N). Proof. unfold full_. qn. Qed.
  Lemma qn_available N : quiet_next (static_available N). Proof. unfold static_available. qn. Qed.
  #[local] Hint Resolve qn_offset qn_full qn_available : quiet.
  Lemma qn_clear : quiet_next clear_. Proof. unfold clear_. qn. Qed.
  Lemma qn_pop_back : quiet_next pop_back_. Proof. unfold pop_back_. qn. Qed.
  Lemma qn_erase p : quiet_next (erase_ p). Proof. unfold erase_. qn. Qed.
  Lemma qn_erase_range p q : quiet_next (erase_range_ p q). Proof. unfold erase_range_. qn. Qed.
  Lemma qn_emplace p a : quiet_next (emplace_inplace p a). Proof. unfold emplace_inplace. qn. Qed.
  Lemma qn_emplace_back a : quiet_next (emplace_back_inplace a). Proof. unfold emplace_back_inplace. qn. Qed.
  Lemma qn_insert_fill p n a : quiet_next (insert_fill_inplace p n a).
  Proof. unfold insert_fill_inplace. qn. Qed.
  Lemma qn_insert_range p l : quiet_next (insert_range_inplace p l).
  Proof. unfold insert_range_inplace. qn. Qed.
  Lemma qn_assign_fill n a : quiet_next (assign_fill_inplace n a).
  Proof. unfold assign_fill_inplace. qn. Qed.
  Lemma qn_assign_range l : quiet_next (assign_range_inplace l).
  Proof. unfold assign_range_inplace. qn. Qed.
  Lemma qn_truncate n : quiet_next (truncate n). Proof. unfold truncate. qn. Qed.
  Lemma qn_ainput p q l : quiet_next (assign_input_loop p q l).
  Proof. revert p. induction l; intros; simpl; qn. Qed.
  Lemma qn_at i : quiet_next (at_ i). Proof. unfold at_. qn. Qed.
  Lemma qn_index i : quiet_next (index_ i). Proof. unfold index_. qn. Qed.
  Lemma qn_front : quiet_next front_. Proof. unfold front_. qn. Qed.
  Lemma qn_back : quiet_next back_. Proof. unfold back_. qn. Qed.
  #[local] Hint Resolve qn_clear qn_pop_back qn_erase qn_erase_range qn_emplace qn_emplace_back
    qn_insert_fill qn_insert_range qn_assign_fill qn_assign_range qn_truncate qn_ainput qn_at qn_index
    qn_front qn_back : quiet.
  Section std.
    Context {St : Type}.
    Lemma qn_find_if p x n : quiet_next (find_if_ p x n : M St nat).
    Proof. revert x. induction n; intros; simpl; unfold test_, step_; qn. Qed.
    Lemma qn_remove_loop p x n d : quiet_next (remove_loop_ p d x n : M St loc).
    Proof. revert x d. induction n; intros; simpl; unfold test_, step_; qn. Qed.
    #[local] Hint Resolve qn_find_if qn_remove_loop : quiet.
    Lemma qn_remove_if p x y : quiet_next (remove_if_ p x y : M St loc).
    Proof.
      unfold remove_if_. qn.
    Qed.
  End std.
  #[local] Hint Resolve qn_remove_if : quiet.
  Lemma qn_erase_if p : quiet_next (erase_if_ p).
  Proof. unfold erase_if_. qn. Qed.
  #[local] Hint Resolve qn_erase_if : quiet.
  Lemma qn_static_emplace N p a : quiet_next (static_emplace N p a). Proof. unfold static_emplace. qn. Qed.
  Lemma qn_static_emplace_back N a : quiet_next (static_emplace_back N a). Proof. unfold static_emplace_back. qn. Qed.
  #[local] Hint Resolve qn_static_emplace qn_static_emplace_back : quiet.
  Lemma qn_static_append N l : quiet_next (static_append N l).
  Proof. induction l; simpl; qn. Qed.
  Lemma qn_static_insert_loop N p l : quiet_next (static_insert_loop N p l).
  Proof. revert p. induction l; intros; simpl; qn. Qed.
  Lemma qn_static_assign_range N l : quiet_next (static_assign_range N l).
  Proof. unfold static_assign_range. qn. Qed.
  #[local] Hint Resolve qn_static_append qn_static_insert_loop qn_static_assign_range : quiet.

  Lemma qn_run_static N o : quiet_next (run_static N o).
  Proof.
    unfold run_static. apply qn_bind; [qn|intros x]. destruct o;
      unfold as_idx, as_unit, as_val, as_num, static_insert_fill, static_insert_range, static_insert_input,
        static_resize, static_assign_fill, static_assign_input, static_self_move; qn.
  Qed.
End no_alloc.
