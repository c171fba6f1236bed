(** * Finite maps

    An unordered set or map as a mathematical finite map: to each key belongs at
    most one element.  [km_step] says what each member function does to it. *)

From Verif Require Export UnordSpec.
Open Scope Z_scope.

Section kmap.
  Context `{Keyed}.
  Variable c : Cmp.

  Definition kmap : Type := Key -> option V.
  Definition km_empty : kmap := fun _ => None.
  (** [v] is added unless its key is present. *)
  Definition km_insert (v : V) (m : kmap) : kmap := fun k =>
    match m k with Some w => Some w | None => if same c (key v) k then Some v else None end.
  Definition km_insert_all (vs : list V) (m : kmap) : kmap := fold_left (fun m v => km_insert v m) vs m.
  (** [v] becomes the element with its key. *)
  Definition km_put (v : V) (m : kmap) : kmap := fun k => if same c (key v) k then Some v else m k.
  Definition km_erase (k0 : Key) (m : kmap) : kmap := fun k => if same c k0 k then None else m k.
  Definition km_erase_all (ks : list Key) (m : kmap) : kmap := fun k =>
    if existsb (fun k0 => same c k0 k) ks then None else m k.
  Definition km_erase_if (p : V -> bool) (m : kmap) : kmap := fun k =>
    match m k with Some v => if p v then None else Some v | None => None end.
  Definition km_eq (m m' : kmap) : Prop := forall k, m k = m' k.
  (** The element [v] belongs to [m]. *)
  Definition belongs (m : kmap) (v : V) : Prop := m (key v) = Some v.

  (** An argument and its value. *)
  Definition arg_in (x : xarg) (m : kmap) (v : V) : Prop :=
    match x with
    | XDef => v = vdef
    | XVal v' => v = v'
    | XCopy _ | XMove _ => belongs m v
    end.

  Definition km_step (o : uop) (m m' : kmap) : Prop :=
    match o with
    | UEmplace x | UInsert x | UEmplaceHint _ x | UInsertHint _ x =>
        exists v, arg_in x m v /\ km_eq m' (km_insert v m)
    | UTryEmplace k x | UTryEmplaceHint _ k x => km_eq m' (km_insert (entry k x) m)
    | UIndex k => km_eq m' (km_insert (entry k mdef) m)
    | UInsertRange vs => km_eq m' (km_insert_all vs m)
    | UAssignList vs => km_eq m' (km_insert_all vs km_empty)
    | UErase _ | UEraseKeyOf _ => exists v, belongs m v /\ km_eq m' (km_erase (key v) m)
    | UEraseRange _ _ => exists vs, Forall (belongs m) vs /\ km_eq m' (km_erase_all (map key vs) m)
    | UEraseKey k => km_eq m' (km_erase k m)
    | UEraseIf p => km_eq m' (km_erase_if p m)
    | UClear => km_eq m' km_empty
    | UInsertOrAssign k x | UInsertOrAssignHint _ k x =>
        km_eq m' (km_put (match m k with Some w => entry (key w) x | None => entry k x end) m)
    | UPut _ x => exists v, belongs m v /\ km_eq m' (km_put (entry (key v) x) m)
    | UFind _ | UCount _ | UContains _ | USize | UAt _ => km_eq m' m
    end.
  Fixpoint km_steps (os : list uop) (m m' : kmap) : Prop :=
    match os with
    | [] => km_eq m' m
    | o :: os' => exists m1, km_step o m m1 /\ km_steps os' m1 m'
    end.

  (** The finite map held by a container with the elements [l]. *)
  Definition as_map (l : list V) : kmap := fun k => List.find (has c k) l.
End kmap.
