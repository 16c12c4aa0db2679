(** Specification: what TypeNames in memory stand for. *)
From Verif Require Import Base GoPath Types SpecTypes SpecRender Imports Memory.

(** The type that can be read from memory without looking at the arrays in [F]; none if it is
    nested deeper than [n] or cyclic. *)
Section View.
Variable F : nat -> bool.
Definition open_cells (m : mem) (s : slice) : option (list cell) :=
  match s with
  | SNil => Some []
  | SArr a _ => if F a then None else cells m s
  end.
Fixpoint all_view {B} (f : cell -> option B) (l : list cell) : option (list B) :=
  match l with
  | [] => Some []
  | c :: r => obind (f c) (fun b => option_map (cons b) (all_view f r))
  end.
Section Level.
Variable V : mty -> option TypeName.
Definition arg_view (c : cell) : option ArgType := match c with CArg n t => option_map (mkArg n) (V t) | _ => None end.
Definition field_view (c : cell) : option FieldType :=
  match c with CField n t tag => option_map (fun T => mkField n T tag) (V t) | _ => None end.
Definition sig_view (m : mem) (s : msig) : option Signature :=
  obind (obind (open_cells m (ms_args s)) (all_view arg_view)) (fun a =>
  obind (obind (open_cells m (ms_results s)) (all_view arg_view)) (fun r => Some (mkSig a r (ms_variadic s)))).
Definition method_view (m : mem) (c : cell) : option MethodType :=
  match c with CMethod n s => option_map (mkMethod n) (sig_view m s) | _ => None end.
End Level.
Definition sym_view (c : cell) : option Symbol := match c with CSym s => Some s | _ => None end.
Fixpoint view (n : nat) (m : mem) (t : mty) : option TypeName :=
  match n with
  | O => None
  | S n =>
      let V := view n m in
      match t with
      | MNil => Some TNil
      | MBasic k => Some (TBasic k)
      | MPtr e => option_map TPtr (V e)
      | MSlice e => option_map TSlice (V e)
      | MArray e len => option_map (fun T => TArray T len) (V e)
      | MMap e k => obind (V e) (fun E => option_map (TMap E) (V k))
      | MChan e d => option_map (fun T => TChan T d) (V e)
      | MNamed p => match nth_error (objs m) p with Some (ONamed s) => Some (TNamed s) | _ => None end
      | MFunc p => match nth_error (objs m) p with Some (OSig s) => option_map TFunc (sig_view V m s) | _ => None end
      | MStruct p =>
          match nth_error (objs m) p with
          | Some (OStruct fs) => option_map TStruct (obind (open_cells m fs) (all_view (field_view V)))
          | _ => None
          end
      | MInterface p =>
          match nth_error (objs m) p with
          | Some (OInterface ms es) =>
              obind (obind (open_cells m ms) (all_view (method_view V m))) (fun M =>
              option_map (TInterface M) (obind (open_cells m es) (all_view sym_view)))
          | _ => None
          end
      end
  end.
End View.
Definition everywhere : nat -> bool := fun _ => false.
(** [t] stands for [T] in [m]. *)
Definition denotes (m : mem) (t : mty) (T : TypeName) : Prop := exists n, view everywhere n m t = Some T.
Definition sig_denotes (m : mem) (p : nat) (s : Signature) : Prop :=
  exists n o, nth_error (objs m) p = Some (OSig o) /\ sig_view everywhere (view everywhere n m) m o = Some s.
(** Nothing that was there is changed; there may be more. *)
Definition grown (m m' : mem) : Prop :=
  (forall p o, nth_error (objs m) p = Some o -> nth_error (objs m') p = Some o) /\
  (forall a l, nth_error (arrays m) a = Some l -> nth_error (arrays m') a = Some l).

(** The array of a slice. *)
Definition on_array (s : slice) (a : nat) : Prop := match s with SArr b _ => b = a | SNil => False end.
(** Anything may have been written to array [a], nothing else to what was there. *)
Definition written (a : nat) (m m' : mem) : Prop :=
  (forall p o, nth_error (objs m) p = Some o -> nth_error (objs m') p = Some o) /\
  (forall b l, b <> a -> nth_error (arrays m) b = Some l -> nth_error (arrays m') b = Some l).
(** What a signature lists: names and TypeNames. *)
Definition listing (m : mem) (p : nat) : option (list cell * list cell * bool) :=
  match nth_error (objs m) p with
  | Some (OSig o) => obind (cells m (ms_args o)) (fun a => obind (cells m (ms_results o)) (fun r => Some (a, r, ms_variadic o)))
  | _ => None
  end.
Definition cell_type (c : cell) : option mty := match c with CArg _ t => Some t | _ => None end.
(** Its arguments and results are not in the same array. *)
Definition apart (m : mem) (p : nat) : Prop :=
  forall o a, nth_error (objs m) p = Some (OSig o) -> on_array (ms_args o) a -> ~ on_array (ms_results o) a.
(** Calls of AddArg, AddResult and SetVariadic. *)
Inductive edit := EAddArg (name : string) (t : mty) | EAddResult (name : string) (t : mty) | ESetVariadic (v : bool).
Definition do_edit (extra : nat -> nat) (p : nat) (e : edit) : MEM unit :=
  match e with
  | EAddArg n t => mAddArg extra p n t
  | EAddResult n t => mAddResult extra p n t
  | ESetVariadic v => mSetVariadic p v
  end.
Fixpoint do_edits (extra : nat -> nat) (p : nat) (l : list edit) : MEM unit :=
  match l with
  | [] => sret tt
  | e :: r => do _ <- do_edit extra p e ;; do_edits extra p r
  end.
(** what an edit does to the lists *)
Definition edited (e : edit) (l : list cell * list cell * bool) : list cell * list cell * bool :=
  let '(a, r, v) := l in
  match e with
  | EAddArg n t => (a ++ [CArg n t], r, v)
  | EAddResult n t => (a, r ++ [CArg n t], v)
  | ESetVariadic v' => (a, r, v')
  end.
(** [u] is [t] or somewhere inside it. *)
Inductive direct (m : mem) : mty -> mty -> Prop :=
| d_ptr e : direct m (MPtr e) e
| d_slice e : direct m (MSlice e) e
| d_array e n : direct m (MArray e n) e
| d_elem e k : direct m (MMap e k) e
| d_key e k : direct m (MMap e k) k
| d_chan e d : direct m (MChan e d) e
| d_func p o s l c u : nth_error (objs m) p = Some (OSig o) -> In s [ms_args o; ms_results o] -> cells m s = Some l -> In c l ->
    cell_type c = Some u -> direct m (MFunc p) u
| d_field p fs l n u tag : nth_error (objs m) p = Some (OStruct fs) -> cells m fs = Some l -> In (CField n u tag) l -> direct m (MStruct p) u
| d_method p ms es l n o s l2 c u : nth_error (objs m) p = Some (OInterface ms es) -> cells m ms = Some l -> In (CMethod n o) l ->
    In s [ms_args o; ms_results o] -> cells m s = Some l2 -> In c l2 -> cell_type c = Some u -> direct m (MInterface p) u.
Inductive within (m : mem) : mty -> mty -> Prop :=
| w_here t : within m t t
| w_part t v u : direct m t v -> within m v u -> within m t u.
(** The slices there are. *)
Definition obj_slices (o : obj) : list slice :=
  match o with
  | ONamed _ => []
  | OSig s => [ms_args s; ms_results s]
  | OStruct fs => [fs]
  | OInterface ms es => [ms; es]
  end.
Definition cell_slices (c : cell) : list slice := match c with CMethod _ s => [ms_args s; ms_results s] | _ => [] end.
Definition slice_in (m : mem) (s : slice) : Prop :=
  (exists p o, nth_error (objs m) p = Some o /\ In s (obj_slices o)) \/
  (exists a l c, nth_error (arrays m) a = Some l /\ In c l /\ In s (cell_slices c)).
(** They have an array with as many cells. *)
Definition sound (m : mem) : Prop := forall s, slice_in m s -> cells m s <> None.
(** The lists of signature [p] are in different arrays, and no slice reaches beyond them there. *)
Definition unshared (m : mem) (p : nat) : Prop :=
  apart m p /\
  forall op sp sq a, nth_error (objs m) p = Some (OSig op) -> In sp [ms_args op; ms_results op] -> slice_in m sq ->
    on_array sp a -> on_array sq a -> s_len sq <= s_len sp.

(** What the cells of member lists stand for. *)
Definition is_arg (m : mem) (c : cell) (a : ArgType) : Prop := exists u, c = CArg (ArgName a) u /\ denotes m u (ArgTy a).
Definition is_field (m : mem) (c : cell) (f : FieldType) : Prop := exists u, c = CField (FldName f) u (FldTag f) /\ denotes m u (FldType f).
Definition is_method (m : mem) (c : cell) (M : MethodType) : Prop :=
  exists o A R, c = CMethod (MtdName M) o /\ cells m (ms_args o) = Some A /\ Forall2 (is_arg m) A (Args (MtdSig M)) /\
    cells m (ms_results o) = Some R /\ Forall2 (is_arg m) R (Results (MtdSig M)) /\ ms_variadic o = IsVariadic (MtdSig M).
Definition lists {B} (P : cell -> B -> Prop) (m : mem) (s : slice) (L : list B) : Prop := exists l, cells m s = Some l /\ Forall2 P l L.

(** The type of a method's receiver. *)
Definition receiver (pkg : Package) (type : string) (ptr : bool) : TypeName :=
  let n := TNamed (mkSymbol pkg type) in if ptr then TPtr n else n.
(** What a constructor returns in memory stands for what it returns as a value, or both panic alike; *)
Definition same_value (m : mem) (x : res mty) (X : res TypeName) : Prop :=
  match x, X with
  | Ok t, Ok T => denotes m t T
  | Panic e, Panic e' => e = e'
  | _, _ => False
  end.
(** and nothing else is changed. *)
Definition same_made (m : mem) (r : res mty * mem) (X : res TypeName) : Prop :=
  grown m (snd r) /\ same_value (snd r) (fst r) X.

(** The same parts as values, and their qualification one after the other. *)
Inductive vpart := VType (T : TypeName) | VSig (s : Signature).
Definition vpart_wf (v : vpart) : bool := match v with VType T => wf T | VSig s => wf_sig s end.
Definition means (m : mem) (x : part) (v : vpart) : Prop :=
  match x, v with
  | PType t, VType T => denotes m t T
  | PSig p, VSig s | PPtr p, VSig s => sig_denotes m p s
  | _, _ => False
  end.
Definition vqualify (v : vpart) : IM vpart :=
  match v with
  | VType T => do '(T', _) <- EnsureTypeImported T ;; sret (VType T')
  | VSig s => do '(s', _) <- EnsureAllTypesImported s ;; sret (VSig s')
  end.
Fixpoint vqualify_all (l : list vpart) : IM (list vpart) :=
  match l with
  | [] => sret []
  | v :: r => do v' <- vqualify v ;; do r' <- vqualify_all r ;; sret (v' :: r')
  end.
