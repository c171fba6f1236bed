(** * Specification of sfl::segmented_devector

    The sequence effect of a call is that of devector ([dev_post] in DevSpec.v);
    what is said here is where the elements are, and what remains after an
    exception.  Nothing here mentions the code. *)

From Verif Require Export SegSpec DevSpec.
Open Scope Z_scope.

Section segdev.
  Context `{Env} `{SegSize}.

  Definition sd_geom (A : sabs) : geom := Geom (s_front A) (s_size A) (s_cap A).

  (** ** Preconditions

      The documented ones, except: in the second half of the container not more
      elements may be inserted from a range than there are places before end()
      (finding in DESIGN.md). *)
  Definition sd_pre (o : dop) (g : geom) : bool :=
    let size := Z.to_nat (g_size g) in
    match o with
    | DInsertN i _ x => (i <=? size)%nat && x_ok size x && negb (x_moves x)
    | DInsertRange i vs =>
        (i <=? size)%nat && (near_front i g || (Z.of_nat (length vs) <=? g_front g + g_size g))
    | DResize _ x | DResizeFront _ x | DResizeBack _ x => x_ok size x && negb (x_moves x)
    | _ => dev_doc o g
    end.

  (** ** Storage after a call that returns *)

  (** Storage for [need] more places is added at the front (none if [need <= 0]);
      the first element then is [shift] places before where it was. *)
  Definition grows_front (need shift : Z) (A A' : sabs) : Prop :=
    (exists new, s_segs A' = new ++ s_segs A /\ Z.of_nat (length new) = more_front need /\
       s_front A' = s_front A + SS * Z.of_nat (length new) - shift) /\
    (s_cap A <= max_size -> s_cap A + need <= max_size).
  (** The same at the back; the first element then is at [front]. *)
  Definition grows_behind (need front : Z) (A A' : sabs) : Prop :=
    grows_back need A A' /\ s_front A' = front /\ (s_cap A <= max_size -> s_cap A + need <= max_size).
  (** Room for [n] more elements at one end. *)
  Definition room_made (at_front : bool) (n : Z) (A A' : sabs) : Prop :=
    if at_front then grows_front (n - s_front A) n A A'
    else grows_behind (n - g_back (sd_geom A)) (s_front A) A A'.
  (** The same segments, the first element at [front]. *)
  Definition rests (front : Z) (A A' : sabs) : Prop := s_segs A' = s_segs A /\ s_front A' = front.
  (** No segment is given back. *)
  Definition surrounded (A A' : sabs) : Prop := exists a b, s_segs A' = a ++ s_segs A ++ b.
  (** Making the container [n] elements long, by resize() or assign(). *)
  Definition stretched (n : Z) (A A' : sabs) : Prop :=
    let g := sd_geom A in
    grows_behind (n - s_cap A) (s_front A - Z.max 0 (Z.min (s_front A) (n - (g_size g + g_back g)))) A A'.

  Definition sd_storage (o : dop) (A A' : sabs) : Prop :=
    let g := sd_geom A in
    let front := s_front A in
    let size := s_size A in
    match o with
    | DEmplace i _ => room_made (near_front i g) 1 A A'
    | DEmplaceFront _ => room_made true 1 A A'
    | DEmplaceBack _ => room_made false 1 A A'
    | DInsertN i n _ => room_made (near_front i g) (Z.of_nat n) A A'
    | DInsertRange i vs => room_made (near_front i g) (Z.of_nat (length vs)) A A'
    | DInsertInput _ vs =>
        exists a b, s_segs A' = a ++ s_segs A ++ b /\
          (Z.of_nat (length vs) <= front -> a = []) /\ (Z.of_nat (length vs) <= g_back g -> b = [])
    | DPopFront => rests (front + 1) A A'
    | DErase i => rests (if near_front i g then front + 1 else front) A A'
    | DEraseRange i j =>
        rests (if Z.of_nat i <? size - Z.of_nat j then front + (Z.of_nat j - Z.of_nat i) else front) A A'
    | DResize n _ | DAssignN n _ => stretched (Z.of_nat n) A A'
    | DAssignRange vs => stretched (Z.of_nat (length vs)) A A'
    | DResizeFront n _ => room_made true (Z.of_nat n - size) A A'
    | DResizeBack n _ => room_made false (Z.of_nat n - size) A A'
    | DAssignInput vs =>
        s_front A' = front /\ extended A A' /\
        (front + Z.of_nat (length vs) <= s_cap A -> s_segs A' = s_segs A)
    | DReserveFront n => grows_front (Z.of_nat n - (size + front)) 0 A A'
    | DReserveBack n => grows_behind (Z.of_nat n - (size + g_back g)) front A A'
    | DShrink =>
        s_front A' = front mod SS /\
        s_segs A' = take (Z.to_nat ((front mod SS + size) / SS + 1)) (drop (Z.to_nat (front / SS)) (s_segs A))
    | DSelfMove => s_front A' = 0 /\ length (s_segs A') = 1%nat
    | _ => rests front A A'
    end.

  (** ** Exceptions *)

  (** Failure of a function that makes room for [need] more places at one end;
      what is at the other end does not move. *)
  Definition room_exn (at_front : bool) (need : Z) (A : sabs) (e : exn) (A' : sabs) : Prop :=
    (exists new, (need <= 0 -> new = []) /\
       if at_front then
         s_segs A' = new ++ s_segs A /\
         s_front A' + s_size A' = s_front A + s_size A + SS * Z.of_nat (length new)
       else s_segs A' = s_segs A ++ new /\ s_front A' = s_front A) /\
    match e with
    | ELength => max_size < s_cap A + need /\ A' = A
    | EBadAlloc => 0 < need /\ A' = A
    | EUser => True
    | EOutOfRange => False
    end.
  Definition sd_missing (at_front : bool) (n : Z) (A : sabs) : Z :=
    n - if at_front then s_front A else g_back (sd_geom A).

  (** Calls after whose failure the elements are the same as before. *)
  Definition sd_strong (o : dop) (A : sabs) : Prop :=
    match o with
    | DEmplaceFront x | DEmplaceBack x => x_moves x = false
    | DEmplace i x => x_moves x = false /\ (i = 0%nat \/ i = length (s_elems A))
    | DInsertN i _ _ | DInsertRange i _ => i = 0%nat \/ i = length (s_elems A)
    | DResize n _ => Z.of_nat n <= s_size A + g_back (sd_geom A)
    | DResizeFront _ _ | DResizeBack _ _ | DReserveFront _ | DReserveBack _ | DShrink | DAt _ | DSelfMove => True
    | _ => False
    end.

  (** State after a call that throws [e]. *)
  Definition sd_exn (o : dop) (A : sabs) (e : exn) (A' : sabs) : Prop :=
    let g := sd_geom A in
    let l := s_elems A in
    let l' := s_elems A' in
    let inserting at_front (n : nat) :=
      room_exn at_front (sd_missing at_front (Z.of_nat n) A) A e A' /\
      (length l <= length l' <= length l + n)%nat in
    s_alloc A' = s_alloc A /\
    (sd_strong o A -> l' = l) /\
    match o with
    | DEmplace i _ => inserting (near_front i g) 1%nat
    | DEmplaceFront _ => inserting true 1%nat /\ length l' = length l
    | DEmplaceBack _ => inserting false 1%nat /\ length l' = length l
    | DInsertN i n _ => inserting (near_front i g) n
    | DInsertRange i vs => inserting (near_front i g) (length vs)
    | DInsertInput _ vs =>
        (length l <= length l' <= length l + length vs)%nat /\
        surrounded A A' /\ e <> EOutOfRange /\ (e = ELength -> max_size <= s_cap A') /\
        (Z.of_nat (length vs) <= s_front A -> Z.of_nat (length vs) <= g_back g -> e = EUser /\ s_segs A' = s_segs A)
    | DErase _ | DEraseRange _ _ | DEraseIf _ | DSet _ _ =>
        e = EUser /\ rests (s_front A) A A' /\ length l' = length l
    | DResize n x =>
        room_exn false (Z.of_nat n - s_cap A) A e A' /\ (length l < n)%nat /\ (length l' <= n)%nat /\
        (* elements may have been appended *)
        exists k v, arg_value l x = Some v /\ l' = l ++ replicate k v
    | DResizeFront n _ =>
        room_exn true (sd_missing true (Z.of_nat n - s_size A) A) A e A' /\ (length l < n)%nat
    | DResizeBack n _ =>
        room_exn false (sd_missing false (Z.of_nat n - s_size A) A) A e A' /\ (length l < n)%nat
    | DAssignN n _ =>
        room_exn false (Z.of_nat n - s_cap A) A e A' /\ (length l <= length l' <= Nat.max n (length l))%nat
    | DAssignRange vs =>
        room_exn false (Z.of_nat (length vs) - s_cap A) A e A' /\
        (length l <= length l' <= Nat.max (length vs) (length l))%nat
    | DAssignInput vs =>
        s_front A' = s_front A /\ extended A A' /\
        (length l <= length l' <= Nat.max (length vs) (length l))%nat /\
        e <> EOutOfRange /\ (e = ELength -> max_size < s_front A + Z.of_nat (length vs)) /\
        (s_front A + Z.of_nat (length vs) <= s_cap A -> e = EUser /\ s_segs A' = s_segs A)
    | DReserveFront n =>
        room_exn true (Z.of_nat n - (s_size A + s_front A)) A e A' /\ A' = A /\ e <> EUser
    | DReserveBack n =>
        room_exn false (Z.of_nat n - (s_size A + g_back g)) A e A' /\ A' = A /\ e <> EUser
    | DShrink =>
        e = EBadAlloc /\ s_front A' = s_front A mod SS /\
        s_segs A' = take (Z.to_nat ((s_front A mod SS + s_size A) / SS + 1)) (drop (Z.to_nat (s_front A / SS)) (s_segs A))
    | DAt i => e = EOutOfRange /\ (length l <= i)%nat /\ A' = A
    | DSelfMove => e = EBadAlloc /\ A' = A
    | _ => False
    end.
End segdev.
