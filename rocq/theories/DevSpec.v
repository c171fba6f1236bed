(** * Specification of sfl::devector

    What a user of the double-ended vector relies on, in terms of lists.  Nothing
    here mentions the code. *)

From Verif Require Export SeqSpec.
Open Scope Z_scope.

Section dev.
  Context `{Env}.

  (** Calls of member functions; positions are given by their distance from
      begin(). *)
  Inductive dop :=
    | DEmplace (i : nat) (x : xarg)           (* emplace(pos, x), insert(pos, x) *)
    | DEmplaceFront (x : xarg)                (* emplace_front(x), push_front(x) *)
    | DEmplaceBack (x : xarg)                 (* emplace_back(x), push_back(x) *)
    | DInsertN (i n : nat) (x : xarg)         (* insert(pos, n, x) *)
    | DInsertRange (i : nat) (vs : list V)    (* insert(pos, first, last), forward iterators; insert(pos, ilist) *)
    | DInsertInput (i : nat) (vs : list V)    (* the same, input iterators *)
    | DPopFront
    | DPopBack
    | DErase (i : nat)
    | DEraseRange (i j : nat)
    | DResize (n : nat) (x : xarg)            (* resize(n), resize(n, x) *)
    | DResizeFront (n : nat) (x : xarg)       (* resize_front(n), resize_front(n, x) *)
    | DResizeBack (n : nat) (x : xarg)        (* resize_back(n), resize_back(n, x) *)
    | DAssignN (n : nat) (v : V)              (* assign(n, v) *)
    | DAssignRange (vs : list V)              (* assign(first, last), assign(ilist), = ilist *)
    | DAssignInput (vs : list V)
    | DClear
    | DReserveFront (n : nat)
    | DReserveBack (n : nat)
    | DShrink                                 (* shrink_to_fit() *)
    | DAt (i : nat)                           (* at(i) *)
    | DGet (i : nat)                          (* c[i] *)
    | DFront
    | DBack
    | DSet (i : nat) (v : V)                  (* c[i] = v, through any reference or iterator *)
    | DSize
    | DCapacity
    | DRoomFront                              (* available_front() *)
    | DRoomBack                               (* available_back() *)
    | DEraseIf (p : V -> bool)                (* erase_if(c, p), erase(c, value) *)
    | DSelfMove.                              (* c = std::move(c) *)

  (** The state a user can see: the allocator, the storage (its begin, the number
      of free places before the first element, its total capacity) and the
      elements.  data() is [e_bos + e_front]. *)
  Record dabs := DAbs {
    e_alloc : nat;
    e_bos : loc;
    e_front : Z;
    e_elems : list V;
    e_cap : Z;
  }.

  (** ** Where the elements are in the storage *)
  Record geom := Geom { g_front : Z; g_size : Z; g_cap : Z }.
  Definition g_back (g : geom) : Z := g_cap g - g_front g - g_size g.
  Definition geom_of (A : dabs) : geom := Geom (e_front A) (Z.of_nat (length (e_elems A))) (e_cap A).

  (** How far the elements are shifted, or by how much the storage grows, when
      there is no room for [n] more elements at the chosen end. *)
  Definition extra_front (n : Z) (g : geom) : Z :=
    Z.max (n - g_front g) ((g_front g + g_size g) / 2).
  Definition extra_back (n : Z) (g : geom) : Z :=
    Z.max (n - g_back g) ((g_size g + g_back g) / 2).

  (** The geometry after inserting [n] elements, making room at the front or at
      the back; the boolean tells whether new storage is obtained.  If there is
      room at the chosen end, nothing on the other side moves; else the
      elements are shifted inside the storage if the other end has more room to
      spare than [extra]; else the storage grows by [extra]. *)
  Definition make_room (at_front : bool) (n : Z) (g : geom) : bool * geom :=
    if at_front then
      if n <=? g_front g then (false, Geom (g_front g - n) (g_size g + n) (g_cap g))
      else
        let x := extra_front n g in
        if x <? g_back g then (false, Geom (g_front g + x - n) (g_size g + n) (g_cap g))
        else (true, Geom (g_front g + x - n) (g_size g + n) (g_cap g + x))
    else
      if n <=? g_back g then (false, Geom (g_front g) (g_size g + n) (g_cap g))
      else
        let x := extra_back n g in
        if x <? g_front g then (false, Geom (g_front g - x) (g_size g + n) (g_cap g))
        else (true, Geom (g_front g) (g_size g + n) (g_cap g + x)).

  (** The end at which room is made for an insertion before element [i]: the
      nearer one. *)
  Definition near_front (i : nat) (g : geom) : bool := Z.of_nat i <? g_size g - Z.of_nat i.
  (** A single element at begin() goes to the front, at end() to the back. *)
  Definition emplace_front_side (i : nat) (g : geom) : bool := (i =? 0)%nat || near_front i g.

  (** The two geometries in which an exception thrown by an element during an
      insertion is not handled correctly (findings in DESIGN.md). *)
  Definition leaks (i : nat) (n : Z) (g : geom) : bool :=
    let k := Z.of_nat i in
    let x := extra_front n g in
    near_front i g && (g_front g <? n) && (x <? g_back g) &&
    (x <? n) && (n - k <=? x) && (g_size g - k <=? x).
  Definition double_destroys (i : nat) (n : Z) (g : geom) : bool :=
    let k := Z.of_nat i in
    let x := extra_back n g in
    negb (near_front i g) && (g_back g <? n) && (x <? g_front g) &&
    (x <? k) && (n <=? x) && (k + x <? g_size g + n).
  Definition hazard (i : nat) (n : Z) (g : geom) : bool := leaks i n g || double_destroys i n g.
  (** [emplace] before element [i], and repeated [emplace] of [k] elements. *)
  Definition emplace_hazard (i : nat) (g : geom) : bool :=
    negb (i =? 0)%nat && negb (Z.of_nat i =? g_size g) && hazard i 1 g.
  Fixpoint input_hazard (i k : nat) (g : geom) : bool :=
    match k with
    | O => false
    | S k' => emplace_hazard i g || input_hazard (S i) k' (make_room (emplace_front_side i g) 1 g).2
    end.

  (** ** Preconditions

      [dev_doc]: the documented ones, for a container of the given size, except
      that arguments may not refer to elements of the container itself where
      this is known not to work (finding in DESIGN.md). *)
  Definition x_const (size : nat) (x : xarg) (room : bool) : bool :=
    match x with
    | XDef | XVal _ => true
    | XCopy j => (j <? size)%nat && room
    | XMove _ => false
    end.
  Definition dev_doc (o : dop) (g : geom) : bool :=
    let size := Z.to_nat (g_size g) in
    match o with
    | DEmplace i x => (i <=? size)%nat && x_ok size x
    | DEmplaceFront x | DEmplaceBack x => x_ok size x
    | DInsertN i n x => (i <=? size)%nat && match x with XVal _ => true | _ => false end
    | DInsertRange i _ | DInsertInput i _ => (i <=? size)%nat
    | DPopFront | DPopBack | DFront | DBack => (0 <? size)%nat
    | DErase i | DGet i | DSet i _ => (i <? size)%nat
    | DEraseRange i j => (i <=? j)%nat && (j <=? size)%nat
    | DResize n x => x_const size x (Z.of_nat n <=? g_cap g)
    | DResizeFront n x => x_const size x (Z.of_nat n <=? g_front g + g_size g)
    | DResizeBack n x => x_const size x (Z.of_nat n <=? g_size g + g_back g)
    | _ => true
    end.
  (** Calls in whose geometry exceptions are not handled correctly, or which give
      the storage back through a wrong pointer. *)
  Definition dev_hazard (o : dop) (g : geom) : bool :=
    match o with
    | DEmplace i _ => emplace_hazard i g
    | DInsertN i n _ => hazard i (Z.of_nat n) g
    | DInsertRange i vs => hazard i (Z.of_nat (length vs)) g
    | DInsertInput i vs => input_hazard i (length vs) g
    | DSelfMove => negb (g_front g =? 0)
    | _ => false
    end.

  (** ** Effect of a call that returns *)

  (** [resize(n)] of a container with [l] elements: elements that do not fit
      behind the last one are put before the first one (finding in DESIGN.md). *)
  Definition resized (g : geom) (n : nat) (v : V) (l : list V) : list V :=
    let k := Z.to_nat (Z.min (g_front g) (Z.of_nat n - (g_size g + g_back g))) in
    replicate k v ++ take n l ++ replicate (n - length l - k) v.

  Definition dev_post (o : dop) (g : geom) (l : list V) (r : rval) (l' : list V) : Prop :=
    match o with
    | DEmplace i x =>
        exists v, arg_value l x = Some v /\ r = RIdx (Z.of_nat i) /\
          l' = take i (arg_rest l x) ++ [v] ++ drop i (arg_rest l x)
    | DEmplaceFront x =>
        exists v, arg_value l x = Some v /\ r = RIdx 0 /\ l' = [v] ++ arg_rest l x
    | DEmplaceBack x =>
        exists v, arg_value l x = Some v /\ r = RIdx (Z.of_nat (length l)) /\ l' = arg_rest l x ++ [v]
    | DInsertN i n x =>
        exists v, arg_value l x = Some v /\ r = RIdx (Z.of_nat i) /\
          l' = take i l ++ replicate n v ++ drop i l
    | DInsertRange i vs | DInsertInput i vs =>
        r = RIdx (Z.of_nat i) /\ l' = take i l ++ vs ++ drop i l
    | DPopFront => r = RUnit /\ exists v, l = [v] ++ l'
    | DPopBack => r = RUnit /\ exists v, l = l' ++ [v]
    | DErase i => r = RIdx (Z.of_nat i) /\ l' = take i l ++ drop (S i) l
    | DEraseRange i j => r = RIdx (Z.of_nat i) /\ l' = take i l ++ drop j l
    | DResize n x =>
        exists v, arg_value l x = Some v /\ r = RUnit /\ l' = resized g n v l
    | DResizeFront n x =>
        exists v, arg_value l x = Some v /\ r = RUnit /\
          l' = replicate (n - length l) v ++ drop (length l - n) l
    | DResizeBack n x =>
        exists v, arg_value l x = Some v /\ r = RUnit /\ l' = take n l ++ replicate (n - length l) v
    | DAssignN n v => r = RUnit /\ l' = replicate n v
    | DAssignRange vs | DAssignInput vs => r = RUnit /\ l' = vs
    | DClear => r = RUnit /\ l' = []
    | DReserveFront _ | DReserveBack _ | DShrink => r = RUnit /\ l' = l
    | DAt i | DGet i => exists v, l !! i = Some v /\ r = RVal v /\ l' = l
    | DFront => exists v, head l = Some v /\ r = RVal v /\ l' = l
    | DBack => exists v, last l = Some v /\ r = RVal v /\ l' = l
    | DSet i v => r = RUnit /\ l' = <[i := v]> l
    | DSize => r = RNum (g_size g) /\ l' = l
    | DCapacity => r = RNum (g_cap g) /\ l' = l
    | DRoomFront => r = RNum (g_front g) /\ l' = l
    | DRoomBack => r = RNum (g_back g) /\ l' = l
    | DEraseIf p =>
        l' = List.filter (fun v => negb (p v)) l /\
        r = RNum (Z.of_nat (length (List.filter p l)))
    | DSelfMove => r = RUnit /\ l' = []
    end.

  (** ** Storage after a call that returns *)

  (** The same block of storage, the first element at [front]. *)
  Definition stays (A A' : dabs) (front : Z) : Prop :=
    e_bos A' = e_bos A /\ e_cap A' = e_cap A /\ e_front A' = front.
  Definition made_room (at_front : bool) (n : Z) (A A' : dabs) : Prop :=
    let '(realloc, g) := make_room at_front n (geom_of A) in
    e_front A' = g_front g /\ e_cap A' = g_cap g /\ (realloc = false -> e_bos A' = e_bos A).
  Definition renewed (A' : dabs) (front cap : Z) : Prop := e_front A' = front /\ e_cap A' = cap.

  Definition dev_storage_post (o : dop) (A A' : dabs) : Prop :=
    let g := geom_of A in
    let front := e_front A in
    let size := g_size g in
    match o with
    | DEmplace i _ => made_room (emplace_front_side i g) 1 A A'
    | DEmplaceFront _ => made_room true 1 A A'
    | DEmplaceBack _ => made_room false 1 A A'
    | DInsertN i n _ => made_room (near_front i g) (Z.of_nat n) A A'
    | DInsertRange i vs => made_room (near_front i g) (Z.of_nat (length vs)) A A'
    | DInsertInput _ _ => True
    | DPopFront => stays A A' (front + 1)
    | DErase i =>
        stays A A' (if Z.of_nat i <? size - Z.of_nat i then front + 1 else front)
    | DEraseRange i j =>
        stays A A' (if Z.of_nat i <? size - Z.of_nat j then front + (Z.of_nat j - Z.of_nat i) else front)
    | DResize n _ =>
        if Z.of_nat n <=? size + g_back g then stays A A' front
        else if Z.of_nat n <=? e_cap A then stays A A' (e_cap A - Z.of_nat n)
        else renewed A' 0 (Z.of_nat n)
    | DResizeFront n _ =>
        if Z.of_nat n <=? front + size then stays A A' (front + size - Z.of_nat n)
        else renewed A' 0 (Z.of_nat n + g_back g)
    | DResizeBack n _ =>
        if Z.of_nat n <=? size + g_back g then stays A A' front
        else renewed A' front (front + Z.of_nat n)
    | DAssignN n _ =>
        if Z.of_nat n <=? size + g_back g then stays A A' front
        else if Z.of_nat n <=? e_cap A then stays A A' (e_cap A - Z.of_nat n)
        else renewed A' 0 (Z.of_nat n)
    | DAssignRange vs =>
        let n := Z.of_nat (length vs) in
        if n <=? size + g_back g then stays A A' front
        else if n <=? e_cap A then stays A A' (e_cap A - n)
        else renewed A' 0 n
    | DAssignInput vs => Z.of_nat (length vs) <= size + g_back g -> stays A A' front
    | DReserveFront n =>
        if Z.of_nat n <=? front + size then stays A A' front
        else renewed A' (Z.of_nat n - size) (Z.of_nat n + g_back g)
    | DReserveBack n =>
        if Z.of_nat n <=? size + g_back g then stays A A' front
        else renewed A' front (front + Z.of_nat n)
    | DShrink => if e_cap A <=? size then stays A A' front else renewed A' 0 size
    | DSelfMove => renewed A' 0 0
    | _ => stays A A' front
    end.

  (** ** Exceptions *)

  (** Calls after whose failure nothing has changed. *)
  Definition dev_strong (o : dop) (A : dabs) : Prop :=
    let g := geom_of A in
    let realloc at_front := (make_room at_front 1 g).1 = true /\ nothrow_move = true in
    match o with
    | DEmplaceFront x => x_moves x = false /\ (0 < g_front g \/ realloc true)
    | DEmplaceBack x => x_moves x = false /\ (0 < g_back g \/ realloc false)
    | DEmplace i x =>
        x_moves x = false /\
        ((i = 0%nat /\ 0 < g_front g) \/ ((0 < i)%nat /\ i = length (e_elems A) /\ 0 < g_back g) \/
         realloc (emplace_front_side i g))
    | DReserveFront _ | DReserveBack _ | DShrink => nothrow_move || copyable = true
    | DResize n _ => Z.of_nat n <= g_size g + g_back g
    | DResizeFront n _ => Z.of_nat n <= g_front g + g_size g
    | DResizeBack n _ => Z.of_nat n <= g_size g + g_back g
    | _ => False
    end.

  (** State after a call that throws [e]. *)
  Definition dev_exn (o : dop) (A : dabs) (e : exn) (A' : dabs) : Prop :=
    let g := geom_of A in
    let l := e_elems A in
    let l' := e_elems A' in
    let inserting at_front n rest :=
      stays A A' (e_front A) /\ length l' = length l /\
      match e with
      | ELength => l' = rest /\ (make_room at_front n g).1 = true /\ max_size < g_cap (make_room at_front n g).2
      | EBadAlloc => l' = rest /\ (make_room at_front n g).1 = true
      | EUser => True
      | EOutOfRange => False
      end in
    let relocating cap' :=
      stays A A' (e_front A) /\ length l' = length l /\
      match e with
      | ELength => A' = A /\ max_size < cap'
      | EBadAlloc => A' = A
      | EUser => cap' <> e_cap A
      | EOutOfRange => False
      end in
    let resizing n cap' (room : Prop) :=
      (length l < n)%nat /\
      ((stays A A' (e_front A) /\ length l' = length l /\
        (nothrow_move || copyable = true \/ room -> A' = A)) \/
       (~ room /\ e = EUser /\ l' = l /\ e_cap A' = cap')) /\
      match e with
      | ELength => A' = A /\ max_size < cap'
      | EBadAlloc => A' = A /\ ~ room
      | EUser => True
      | EOutOfRange => False
      end in
    let assigning (n : nat) :=
      (length l <= length l')%nat /\
      (Z.of_nat n <= g_size g + g_back g -> stays A A' (e_front A) /\ length l' = length l) /\
      match e with
      | ELength => A' = A /\ max_size < Z.of_nat n
      | EBadAlloc => A' = A /\ e_cap A < Z.of_nat n
      | EUser => True
      | EOutOfRange => False
      end in
    e_alloc A' = e_alloc A /\
    (dev_strong o A -> A' = A) /\
    match o with
    | DEmplace i x => inserting (emplace_front_side i g) 1 (arg_rest l x)
    | DEmplaceFront x => inserting true 1 (arg_rest l x)
    | DEmplaceBack x => inserting false 1 (arg_rest l x)
    | DInsertN i n _ => inserting (near_front i g) (Z.of_nat n) l
    | DInsertRange i vs => inserting (near_front i g) (Z.of_nat (length vs)) l
    | DInsertInput _ vs =>
        e <> EOutOfRange /\ (length l <= length l' < length l + length vs)%nat
    | DErase i =>
        e = EUser /\ stays A A' (e_front A) /\ length l' = length l /\
        (* the elements on the other side are not touched *)
        if near_front i g then drop (S i) l' = drop (S i) l else take i l' = take i l
    | DEraseRange i j =>
        e = EUser /\ stays A A' (e_front A) /\ length l' = length l /\
        if Z.of_nat i <? g_size g - Z.of_nat j then drop j l' = drop j l else take i l' = take i l
    | DEraseIf _ => e = EUser /\ stays A A' (e_front A) /\ length l' = length l
    | DSet i _ => e = EUser /\ stays A A' (e_front A) /\ exists v', l' = <[i := v']> l
    | DReserveFront n => relocating (Z.of_nat n + g_back g)
    | DReserveBack n => relocating (e_front A + Z.of_nat n)
    | DShrink => relocating (g_size g)
    | DResizeFront n _ =>
        resizing n (Z.of_nat n + g_back g) (Z.of_nat n <= g_front g + g_size g)
    | DResizeBack n _ =>
        resizing n (e_front A + Z.of_nat n) (Z.of_nat n <= g_size g + g_back g)
    | DResize n x =>
        (length l < n)%nat /\ (length l <= length l' <= n)%nat /\
        (* elements may have been appended *)
        (nothrow_move || copyable = true \/ Z.of_nat n <= e_cap A ->
           exists k v, arg_value l x = Some v /\ l' = l ++ replicate k v) /\
        match e with
        | ELength => A' = A /\ max_size < Z.of_nat n
        | EBadAlloc => A' = A /\ e_cap A < Z.of_nat n
        | EUser => True
        | EOutOfRange => False
        end
    | DAssignN n _ => assigning n
    | DAssignRange vs => assigning (length vs)
    | DAssignInput vs =>
        e <> EOutOfRange /\ (length l <= length l' <= length l + length vs)%nat
    | DAt i => e = EOutOfRange /\ (length l <= i)%nat /\ A' = A
    | _ => False
    end.

  (** ** Constructors, functions of two objects *)
  Definition dev_k_post (c : vctor) (A : dabs) : Prop :=
    e_alloc A = k_alloc c /\ e_elems A = k_elems c /\
    match c with
    | KInput _ vs => Z.of_nat (length vs) <= e_cap A
    | _ => e_front A = 0 /\ e_cap A = Z.of_nat (length (k_elems c))
    end.
  Definition dev_k_exn (c : vctor) (e : exn) : Prop :=
    match e with
    | ELength => max_size < Z.of_nat (length (k_elems c)) \/ exists a vs, c = KInput a vs
    | EOutOfRange => False
    | _ => True
    end.

  Definition dev_empty_like (A : dabs) : dabs := DAbs (e_alloc A) null 0 [] 0.
  Definition dev_same_storage (A A' : dabs) : Prop := stays A A' (e_front A).

  (** [B]: source, [A]: new object, [B']: source afterwards. *)
  Definition dev_k2_post (c : vctor2) (B A B' : dabs) : Prop :=
    e_elems A = e_elems B /\
    let copied a :=
      e_alloc A = a /\ e_front A = 0 /\ e_cap A = Z.of_nat (length (e_elems B)) in
    match c with
    | FromCopy => copied (soccc (e_alloc B)) /\ B' = B
    | FromCopyAlloc a => copied a /\ B' = B
    | FromMove => A = B /\ B' = dev_empty_like B
    | FromMoveAlloc a =>
        if decide (a = e_alloc B) then A = B /\ B' = dev_empty_like B
        else copied a /\ e_alloc B' = e_alloc B /\ dev_same_storage B B' /\
             e_elems B' = vmoved <$> e_elems B
    end.
  Definition dev_k2_exn (c : vctor2) (B : dabs) (e : exn) (B' : dabs) : Prop :=
    k_exn (e_elems B) e /\
    match c with
    | FromCopy | FromCopyAlloc _ => B' = B
    | FromMove => False
    | FromMoveAlloc a =>
        a <> e_alloc B /\ e_alloc B' = e_alloc B /\ dev_same_storage B B' /\
        length (e_elems B') = length (e_elems B) /\ (e <> EUser -> B' = B)
    end.

  (** Allocators after the operation. *)
  Definition dev_copy_alloc (A B : dabs) : nat := if pocca then e_alloc B else e_alloc A.
  Definition dev_move_alloc (A B : dabs) : nat := if pocma then e_alloc B else e_alloc A.

  Definition dev_pre2 (o : vop2) (A B : dabs) : Prop :=
    match o with
    | PSwap => pocs = true \/ e_alloc A = e_alloc B
    | _ => True
    end.
  (** The target gives its storage back; this goes wrong if there is free storage
      before its first element (finding in DESIGN.md). *)
  Definition dev_hazard2 (o : vop2) (A B : dabs) : Prop :=
    match o with
    | PCopy => pocca = true /\ e_alloc A <> e_alloc B /\ e_front A <> 0
    | PMove => dev_move_alloc A B = e_alloc B /\ e_front A <> 0
    | _ => False
    end.
  Definition dev_post2 (o : vop2) (A B : dabs) (r : rval) (A' B' : dabs) : Prop :=
    match o with
    | PCopy =>
        r = RUnit /\ e_alloc A' = dev_copy_alloc A B /\ e_elems A' = e_elems B /\ B' = B /\
        (* the target keeps its storage if it is big enough and its allocator is kept *)
        ((pocca = false \/ e_alloc A = e_alloc B) -> Z.of_nat (length (e_elems B)) <= e_cap A ->
         e_bos A' = e_bos A /\ e_cap A' = e_cap A)
    | PMove =>
        r = RUnit /\
        if decide (dev_move_alloc A B = e_alloc B) then A' = B /\ B' = dev_empty_like B
        else e_alloc A' = dev_move_alloc A B /\ e_elems A' = e_elems B /\
             e_alloc B' = e_alloc B /\ dev_same_storage B B' /\ e_elems B' = vmoved <$> e_elems B /\
             (Z.of_nat (length (e_elems B)) <= e_cap A -> e_bos A' = e_bos A /\ e_cap A' = e_cap A)
    | PSwap => r = RUnit /\ A' = B /\ B' = A
    | PEq eqv => A' = A /\ B' = B /\ exists b, r = RBool b /\
        (b = true <-> Forall2 (fun x y => eqv x y = true) (e_elems A) (e_elems B))
    | PLt lt => A' = A /\ B' = B /\ exists b, r = RBool b /\
        (b = true <-> lexicographic lt (e_elems A) (e_elems B))
    end.
  Definition dev_exn2 (o : vop2) (A B : dabs) (e : exn) (A' B' : dabs) : Prop :=
    match o with
    | PCopy => k_exn (e_elems B) e /\ e_alloc A' = dev_copy_alloc A B /\ B' = B
    | PMove =>
        k_exn (e_elems B) e /\ dev_move_alloc A B <> e_alloc B /\ e_alloc A' = dev_move_alloc A B /\
        e_alloc B' = e_alloc B /\ dev_same_storage B B' /\ length (e_elems B') = length (e_elems B)
    | PSwap => False
    | PEq _ | PLt _ => e = EUser /\ A' = A /\ B' = B
    end.
End dev.
