(** * Model of the algorithms of private.hpp for ordinary (non-segmented) iterators

    A source range is represented by the list of what dereferencing its
    iterators yields ([arg]): values for ranges outside the modelled storage,
    [ACopy p]/[AMove p] for (move) iterators into modelled storage. *)

From Verif Require Export Lang.

Section algo.
  Context `{Env}.
  Context {St : Type}.

  (** The references obtained from iterators [p], [p+1], ..., [p+n-1]; [mk] is
      [ACopy] for plain iterators, [AMove] for [std::move( *it)] /
      [std::make_move_iterator]. *)
  Fixpoint refs (mk : loc -> arg) (p : loc) (n : nat) : list arg :=
    match n with
    | O => []
    | S n' => mk p :: refs mk (p +ₗ 1) n'
    end.

  (** The range [first, last) of pointers, as references. *)
  Definition range (mk : loc -> arg) (first last : loc) : M St (list arg) :=
    (n <- range_len first last;; ret (refs mk first n))%prog.

  (** [std::move_if_noexcept( *p)], used at private.hpp 2059. *)
  Definition moves_if_noexcept : bool := nothrow_move || negb copyable.
  Definition mine (p : loc) : arg := if moves_if_noexcept then AMove p else ACopy p.

  (** private.hpp 1340-1351 [destroy_n_a]. *)
  Fixpoint destroy_n_a (first : loc) (n : nat) : M St unit :=
    match n with
    | O => ret tt
    | S n' => destroy_at first;; destroy_n_a (first +ₗ 1) n'
    end%prog.

  (** private.hpp 1279-1289 [destroy_a]. *)
  Definition destroy_a (first last : loc) : M St unit :=
    (n <- range_len first last;; destroy_n_a first n)%prog.

  (** Common loop of the uninitialized_* algorithms, e.g. private.hpp 1724-1743:
      construct one element after the other; if a constructor throws, destroy
      those constructed so far, [d_first, d_curr), and rethrow. *)
  Fixpoint uninit_loop (d_first d_curr : loc) (srcs : list arg) : M St loc :=
    match srcs with
    | [] => ret d_curr
    | a :: srcs' =>
        try_ (construct d_curr a) (destroy_a d_first d_curr);;
        uninit_loop d_first (d_curr +ₗ 1) srcs'
    end%prog.

  (** private.hpp 1718-1743 [uninitialized_copy_a]. *)
  Definition uninitialized_copy_a (srcs : list arg) (d_first : loc) : M St loc :=
    uninit_loop d_first d_first srcs.
  (** private.hpp 1882-1907 [uninitialized_move_a]. *)
  Definition uninitialized_move_a (first last d_first : loc) : M St loc :=
    (srcs <- range AMove first last;; uninit_loop d_first d_first srcs)%prog.
  (** private.hpp 2046-2071 [uninitialized_move_if_noexcept_a]. *)
  Definition uninitialized_move_if_noexcept_a (first last d_first : loc) : M St loc :=
    (srcs <- range mine first last;; uninit_loop d_first d_first srcs)%prog.
  (** private.hpp 1555-1573 [uninitialized_fill_a]. *)
  Definition uninitialized_fill_a (first last : loc) (value : arg) : M St unit :=
    (n <- range_len first last;; uninit_loop first first (replicate n value);; ret tt)%prog.
  (** private.hpp 1643-1662 [uninitialized_fill_n_a]. *)
  Definition uninitialized_fill_n_a (first : loc) (n : nat) (value : arg) : M St loc :=
    uninit_loop first first (replicate n value).
  (** private.hpp 1397-1415 [uninitialized_default_construct_a]. *)
  Definition uninitialized_default_construct_a (first last : loc) : M St unit :=
    (n <- range_len first last;; uninit_loop first first (replicate n ADef);; ret tt)%prog.
  (** private.hpp 1481-1500 [uninitialized_default_construct_n_a]. *)
  Definition uninitialized_default_construct_n_a (first : loc) (n : nat) : M St loc :=
    uninit_loop first first (replicate n ADef).

  (** Element-wise assignment, front to back ([std::copy], [std::move],
      [std::fill]). *)
  Fixpoint assign_loop (d : loc) (srcs : list arg) : M St loc :=
    match srcs with
    | [] => ret d
    | a :: srcs' => assign d a;; assign_loop (d +ₗ 1) srcs'
    end%prog.

  (** private.hpp 700-709 [copy]. *)
  Definition copy (srcs : list arg) (d_first : loc) : M St loc := assign_loop d_first srcs.
  (** private.hpp 938-947 [move]. *)
  Definition move (first last d_first : loc) : M St loc :=
    (srcs <- range AMove first last;; assign_loop d_first srcs)%prog.
  (** private.hpp 1170-1175 [fill]. *)
  Definition fill (first last : loc) (value : arg) : M St unit :=
    (n <- range_len first last;; assign_loop first (replicate n value);; ret tt)%prog.

  (** Element-wise assignment, back to front ([std::move_backward]); the first
      argument is one past the next target, [n] elements remain. *)
  Fixpoint move_backward_loop (n : nat) (first d_last : loc) : M St loc :=
    match n with
    | O => ret d_last
    | S n' =>
        assign (d_last +ₗ -1) (AMove (first +ₗ Z.of_nat n'));;
        move_backward_loop n' first (d_last +ₗ -1)
    end%prog.
  (** private.hpp 1054-1063 [move_backward]. *)
  Definition move_backward (first last d_last : loc) : M St loc :=
    (n <- range_len first last;; move_backward_loop n first d_last)%prog.
End algo.
