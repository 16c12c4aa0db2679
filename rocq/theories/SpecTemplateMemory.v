(** Specification of qualified template data in memory. *)
From Verif Require Import Base GoPath Types SpecTypes Imports Conv World Template SpecTemplate TemplateMemory.

Section Spec.
Variable unsafe : bool.
(** [stands_for m v t]: what qualification reads of [v] in the memory [m] is the finite tree [t];
    of fields that are not read only the type matters. *)
Inductive stands_for (m : hmem) : hval -> val -> Prop :=
| sf_leaf v : leaf v = true -> stands_for m (HLeaf v) v
| sf_nil t : stands_for m (HIface t None) (VIface t None)
| sf_iface t d d' : stands_for m d d' -> stands_for m (HIface t (Some d)) (VIface t (Some d'))
| sf_struct t fs fs' : stand_for_fields m fs fs' -> stands_for m (HStruct t fs) (VStruct t fs')
| sf_ptr_nil e : stands_for m (HPtr e None) (VPtr e None)
| sf_ptr e p x x' : load m p = Some x -> stands_for m x x' -> stands_for m (HPtr e (Some p)) (VPtr e (Some x'))
| sf_slice t p off len l l' : slice_elems m p off len = Some l -> stand_for_all m l l' ->
    stands_for m (HSlice t p off len) (VSlice t l')
| sf_array t l l' : stand_for_all m l l' -> stands_for m (HArray t l) (VArray t l')
| sf_map_nil t : stands_for m (HMap t None) (VMap t [])
| sf_map t n es es' : nth_error (htables m) n = Some es -> stand_for_entries m es es' -> stands_for m (HMap t (Some n)) (VMap t es')
with stand_for_all (m : hmem) : list hval -> list val -> Prop :=
| sa_nil : stand_for_all m [] []
| sa_cons x x' l l' : stands_for m x x' -> stand_for_all m l l' -> stand_for_all m (x :: l) (x' :: l')
with stand_for_fields (m : hmem) : list (bool * hval) -> list (bool * val) -> Prop :=
| sff_nil : stand_for_fields m [] []
| sff_read e x x' l l' : e = true \/ unsafe = true -> stands_for m x x' -> stand_for_fields m l l' ->
    stand_for_fields m ((e, x) :: l) ((e, x') :: l')
| sff_skip x x' l l' : unsafe = false -> typeof x' = htypeof x -> stand_for_fields m l l' ->
    stand_for_fields m ((false, x) :: l) ((false, x') :: l')
with stand_for_entries (m : hmem) : list (hval * hval) -> list (val * val) -> Prop :=
| se_nil : stand_for_entries m [] []
| se_cons k k' x x' l l' : stands_for m k k' -> stands_for m x x' -> stand_for_entries m l l' ->
    stand_for_entries m ((k, x) :: l) ((k', x') :: l').
(** The data of an interface{}; nil is None. *)
Definition stand_for_data (m : hmem) (d : option hval) (t : option val) : Prop :=
  match d, t with Some d, Some t => stands_for m d t | None, None => True | _, _ => False end.
End Spec.
(** Everything that was allocated is still there, unchanged. *)
Definition untouched (m m' : hmem) : Prop :=
  (forall n v, nth_error (hcells m) n = Some v -> nth_error (hcells m') n = Some v) /\
  (forall n es, nth_error (htables m) n = Some es -> nth_error (htables m') n = Some es).
(** Go's memory safety: what is referred to is there. *)
Fixpoint refers_well (m : hmem) (v : hval) : Prop :=
  match v with
  | HIface _ (Some d) => refers_well m d
  | HStruct _ fs => fold_right (fun f P => refers_well m (snd f) /\ P) True fs
  | HPtr _ (Some p) => exists x, load m p = Some x
  | HSlice _ p off len => exists l, slice_elems m p off len = Some l
  | HArray _ l => fold_right (fun x P => refers_well m x /\ P) True l
  | HMap _ (Some n) => exists es, nth_error (htables m) n = Some es
  | HLeaf v => leaf v = true
  | HZero _ => False
  | _ => True
  end.
Definition memory_safe (m : hmem) : Prop :=
  Forall (refers_well m) (hcells m) /\ Forall (Forall (fun e => refers_well m (fst e) /\ refers_well m (snd e))) (htables m).
(** Map keys that hold no pointers, as Go compares them. *)
Fixpoint pointerless (v : val) : Prop :=
  match v with
  | VIface _ (Some d) => pointerless d
  | VStruct _ fs => fold_right (fun f P => fst f = true /\ pointerless (snd f) /\ P) True fs
  | VArray _ l => fold_right (fun x P => pointerless x /\ P) True l
  | VPtr _ (Some _) | VSlice _ _ | VMap _ _ | VGoObject _ => False
  | _ => True
  end.
(** The keys of every map are such keys, and different. *)
Fixpoint plain_keys (v : val) : Prop :=
  match v with
  | VIface _ (Some d) => plain_keys d
  | VStruct _ fs => fold_right (fun f P => plain_keys (snd f) /\ P) True fs
  | VPtr _ (Some x) => plain_keys x
  | VSlice _ l | VArray _ l => fold_right (fun x P => plain_keys x /\ P) True l
  | VMap _ es =>
      ForallOrdPairs (fun a b => ~ go_equal (fst b) (fst a)) es /\
      fold_right (fun e P => pointerless (fst e) /\ plain_keys (snd e) /\ P) True es
  | _ => True
  end.
(** What an interface holds is not an interface. *)
Definition is_hiface (v : hval) : bool := match v with HIface _ _ => true | _ => false end.
