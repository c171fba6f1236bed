(** * Model of copy_backward

    The overloads of private.hpp.  The containers call it for tables of segments
    only (segmented_devector.hpp 1374, in Segmented.v); here it is modelled for
    elements. *)

From Verif Require Export SegAlgo.
Open Scope Z_scope.

Section copy_back.
  Context `{Env} `{SegSize}.
  Context {St : Type}.

  (** Element-wise assignment, back to front ([std::copy_backward]); the last
      argument is one past the next target, [n] elements remain. *)
  Fixpoint copy_backward_loop (n : nat) (first d_last : loc) : M St loc :=
    match n with
    | O => ret d_last
    | S n' =>
        assign (d_last +ₗ -1) (ACopy (first +ₗ Z.of_nat n'));;
        copy_backward_loop n' first (d_last +ₗ -1)
    end%prog.
  (** private.hpp 822-831 [copy_backward]. *)
  Definition copy_backward (first last d_last : loc) : M St loc :=
    (n <- range_len first last;; copy_backward_loop n first d_last)%prog.

  (** private.hpp 833-884 [copy_backward] into a segmented container ([first],
      [n]: the source range of pointers; the bound on the number of iterations is
      that of [back_out_loop]). *)
  Fixpoint cback_out_loop (fuel : nat) (first : loc) (n : Z) (sg l : loc) : M St sit :=
    match fuel with
    | O => ub
    | S fuel' =>
        b <- read_ptr sg;;
        d <- ptr_sub l b;;
        let count := Z.min n d in
        l' <- copy_backward (first +ₗ (n - count)) (first +ₗ n) l;;
        if n - count =? 0
        then seg_compose sg l'
        else
          b' <- read_ptr (sg +ₗ -1);;
          cback_out_loop fuel' first (n - count) (sg +ₗ -1) (b' +ₗ SS)
    end%prog.
  Definition copy_backward_out (first last : loc) (d_last : sit) : M St sit :=
    (n <- range_len first last;;
     match n with
     | O => ret d_last
     | _ => cback_out_loop (S n) first (Z.of_nat n) (it_seg d_last) (it_loc d_last)
     end)%prog.
  (** private.hpp 886-936 [copy_backward] from a segmented container. *)
  Fixpoint cback_in_loop (n : nat) (sg : loc) (d : sit) : M St sit :=
    match n with
    | O => ret d
    | S n' =>
        b <- read_ptr sg;;
        d' <- copy_backward_out b (b +ₗ SS) d;;
        cback_in_loop n' (sg +ₗ -1) d'
    end%prog.
  Definition s_copy_backward (first last d_last : sit) : M St sit :=
    (if loc_eqb (it_seg first) (it_seg last)
     then copy_backward_out (it_loc first) (it_loc last) d_last
     else
       b <- read_ptr (it_seg last);;
       d <- copy_backward_out b (it_loc last) d_last;;
       n <- range_len (it_seg first) (it_seg last +ₗ -1);;
       d <- cback_in_loop n (it_seg last +ₗ -1) d;;
       b' <- read_ptr (it_seg first);;
       copy_backward_out (it_loc first) (b' +ₗ SS) d)%prog.
End copy_back.
