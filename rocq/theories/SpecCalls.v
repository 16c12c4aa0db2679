(** Specification: the attributes of builder objects that calls change after the object is made,
    and the calls, each with the attribute it is about. *)
From Verif Require Import Base GoPath Types SpecTypes Imports SpecImports SpecGo SpecRender World.

(** ** Attributes *)
Inductive vattr := VaComment | VaType | VaInit.
Inductive fattr := FaComment | FaTag.
Inductive sattr := SaComment | SaArgs | SaResults | SaVariadic.
Inductive dattr := DaComment | DaMembers.
Inductive fileattr := FiComment | FiPackage | FiCanonical.
Inductive attribute :=
| AtConst (id : nat) (a : vattr) | AtVar (id : nat) (a : vattr)
| AtField (id : nat) (a : fattr) | AtElem (id : nat) (a : sattr) | AtFunc (id : nat) (a : sattr) | AtType (id : nat)
| AtConsts (d : nat) (a : dattr) | AtVars (d : nat) (a : dattr) | AtTypes (d : nat) (a : dattr)
| AtFile (f : nat) (a : fileattr).
Inductive avalue :=
| Text (s : string) | Typ (t : TypeNameOrSpec) | Code (cb : option nat) | Params (l : list ArgType) | Flag (b : bool) | Members (l : list nat).
Definition value_attr (a : vattr) (v : ValueSpec) : avalue :=
  match a with VaComment => Text (VComment v) | VaType => Typ (VSType v) | VaInit => Code (VInit v) end.
Definition field_attr (a : fattr) (f : FieldSpec) : avalue :=
  match a with FaComment => Text (FSComment f) | FaTag => Text (FSTag f) end.
Definition sig_attr (a : sattr) (c : string) (s : Signature) : avalue :=
  match a with
  | SaComment => Text c | SaArgs => Params (Args s) | SaResults => Params (Results s) | SaVariadic => Flag (IsVariadic s)
  end.
(** An embedded interface has no signature. *)
Definition elem_attr (a : sattr) (e : InterfaceElement) : option avalue :=
  match e, a with
  | InterfaceEmbed c _ _, SaComment => Some (Text c)
  | InterfaceEmbed _ _ _, _ => None
  | InterfaceMethod c _ s _, _ => Some (sig_attr a c s)
  end.
Definition values_attr (a : dattr) (d : ValueDecl) : avalue :=
  match a with DaComment => Text (VDComment d) | DaMembers => Members (VDSpecs d) end.
Definition types_attr (a : dattr) (d : TypeDecl) : avalue :=
  match a with DaComment => Text (TDComment d) | DaMembers => Members (TDTypes d) end.
Definition file_attr (a : fileattr) (f : GoFile) : avalue :=
  match a with FiComment => Text (FFileComment f) | FiPackage => Text (FPackageComment f) | FiCanonical => Text (FCanonical f) end.

Section Calls.
Context {TD : Type}.
Notation World := (World TD).
Notation WM := (WM (TD := TD)).
(** What the attribute is; none if there is no such object. *)
Definition attr (w : World) (k : attribute) : option avalue :=
  match k with
  | AtConst id a => option_map (value_attr a) (nth_error (consts w) id)
  | AtVar id a => option_map (value_attr a) (nth_error (vars w) id)
  | AtField id a => option_map (field_attr a) (nth_error (fields w) id)
  | AtElem id a => obind (nth_error (ielems w) id) (elem_attr a)
  | AtFunc id a => option_map (fun f => sig_attr a (FNComment f) (FNSig f)) (nth_error (funcs w) id)
  | AtType id => option_map (fun T => Text (TSComment T)) (nth_error (types w) id)
  | AtConsts d a => option_map (values_attr a) (nth_error (constDecls w) d)
  | AtVars d a => option_map (values_attr a) (nth_error (varDecls w) d)
  | AtTypes d a => option_map (types_attr a) (nth_error (typeDecls w) d)
  | AtFile f a => option_map (file_attr a) (nth_error (files w) f)
  end.
(** All the rest. *)
Definition blank_value (v : ValueSpec) : ValueSpec := mkValue "" (VNames v) NoType None (VParent v).
Definition blank_elem (e : InterfaceElement) : InterfaceElement :=
  match e with InterfaceEmbed _ s p => InterfaceEmbed "" s p | InterfaceMethod _ n _ p => InterfaceMethod "" n (mkSig [] [] false) p end.
Definition rest (w : World) : World :=
  mkWorld (map (fun f => mkFile (FImports f) (FName f) "" "" (FPackageName f) "" (FElements f)) (files w))
    (map (fun _ => mkValueDecl "" []) (constDecls w)) (map (fun _ => mkValueDecl "" []) (varDecls w))
    (map (fun _ => mkTypeDecl "" []) (typeDecls w))
    (map blank_value (consts w)) (map blank_value (vars w))
    (map (fun T => mkTypeSpec "" (TSName T) (TSIsAlias T) (TSUnderlying T) (TSStruct T) (TSInterface T) (TSParent T)) (types w))
    (map (fun f => mkFieldSpec "" (FSName f) "" (FSType f) (FSParent f)) (fields w))
    (map blank_elem (ielems w))
    (map (fun f => mkFunc "" (FNName f) (FNReceiver f) (mkSig [] [] false) (FNBody f) (FNParent f)) (funcs w))
    (blocks w) (argss w) (templs w).

(** ** Calls *)
Inductive setting :=
| CallConst (id : nat) (c : vcall) | CallVar (id : nat) (c : vcall)
| CallField (id : nat) (c : fcall) | CallElem (id : nat) (c : scall) | CallFunc (id : nat) (c : scall)
| CallType (id : nat) (comment : string)
| CallConsts (d : nat) (c : dcall) | CallVars (d : nat) (c : dcall) | CallTypes (d : nat) (c : dcall)
| CallFile (f : nat) (a : fileattr) (text : string)
with vcall := VSetComment (s : string) | VSetType (t : TypeNameOrSpec) | VSetInitializer (cb : option nat)
with fcall := FSetComment (s : string) | FSetTag (s : string)
with scall := SSetComment (s : string) | SAddArg (n : string) (t : TypeName) | SAddResult (n : string) (t : TypeName) | SSetVariadic (b : bool)
with dcall := DSetComment (s : string) | DAdd (id : nat).
Definition perform (s : setting) : WM unit :=
  match s with
  | CallConst id (VSetComment c) => Value_SetComment consts set_consts id c
  | CallConst id (VSetType t) => Value_SetType consts set_consts id t
  | CallConst id (VSetInitializer cb) => Value_SetInitializer consts set_consts id cb
  | CallVar id (VSetComment c) => Value_SetComment vars set_vars id c
  | CallVar id (VSetType t) => Value_SetType vars set_vars id t
  | CallVar id (VSetInitializer cb) => Value_SetInitializer vars set_vars id cb
  | CallField id (FSetComment c) => Field_SetComment id c
  | CallField id (FSetTag t) => Field_SetTag id t
  | CallElem id (SSetComment c) => Elem_SetComment id c
  | CallElem id (SAddArg n t) => Method_AddArg id n t
  | CallElem id (SAddResult n t) => Method_AddResult id n t
  | CallElem id (SSetVariadic b) => Method_SetVariadic id b
  | CallFunc id (SSetComment c) => Func_SetComment id c
  | CallFunc id (SAddArg n t) => Func_AddArg id n t
  | CallFunc id (SAddResult n t) => Func_AddResult id n t
  | CallFunc id (SSetVariadic b) => Func_SetVariadic id b
  | CallType id c => Type_SetComment id c
  | CallConsts d (DSetComment c) => ConstDecl_SetComment d c
  | CallConsts d (DAdd id) => ConstDecl_AddConst d id
  | CallVars d (DSetComment c) => VarDecl_SetComment d c
  | CallVars d (DAdd id) => VarDecl_AddVar d id
  | CallTypes d (DSetComment c) => TypeDecl_SetComment d c
  | CallTypes d (DAdd id) => TypeDecl_AddType d id
  | CallFile f FiComment c => SetFileComment f c
  | CallFile f FiPackage c => SetPackageComment f c
  | CallFile f FiCanonical c => SetCanonical f c
  end.
End Calls.
(** The attribute a call is about ... *)
Definition vabout (c : vcall) : vattr := match c with VSetComment _ => VaComment | VSetType _ => VaType | VSetInitializer _ => VaInit end.
Definition fabout (c : fcall) : fattr := match c with FSetComment _ => FaComment | FSetTag _ => FaTag end.
Definition sabout (c : scall) : sattr :=
  match c with SSetComment _ => SaComment | SAddArg _ _ => SaArgs | SAddResult _ _ => SaResults | SSetVariadic _ => SaVariadic end.
Definition dabout (c : dcall) : dattr := match c with DSetComment _ => DaComment | DAdd _ => DaMembers end.
Definition about (s : setting) : attribute :=
  match s with
  | CallConst id c => AtConst id (vabout c) | CallVar id c => AtVar id (vabout c)
  | CallField id c => AtField id (fabout c) | CallElem id c => AtElem id (sabout c) | CallFunc id c => AtFunc id (sabout c)
  | CallType id _ => AtType id
  | CallConsts d c => AtConsts d (dabout c) | CallVars d c => AtVars d (dabout c) | CallTypes d c => AtTypes d (dabout c)
  | CallFile f a _ => AtFile f a
  end.
(** ... and what it makes of it: most set it, some add to the end. *)
Definition more_params (n : string) (t : TypeName) (old : avalue) : avalue :=
  match old with Params l => Params (l ++ [mkArg n t]) | _ => old end.
Definition more_members (id : nat) (old : avalue) : avalue :=
  match old with Members l => Members (l ++ [id]) | _ => old end.
Definition vnew (c : vcall) : avalue := match c with VSetComment s => Text s | VSetType t => Typ t | VSetInitializer cb => Code cb end.
Definition snew (c : scall) (old : avalue) : avalue :=
  match c with SSetComment s => Text s | SAddArg n t | SAddResult n t => more_params n t old | SSetVariadic b => Flag b end.
Definition dnew (c : dcall) (old : avalue) : avalue := match c with DSetComment s => Text s | DAdd id => more_members id old end.
Definition new_value (s : setting) (old : avalue) : avalue :=
  match s with
  | CallConst _ c | CallVar _ c => vnew c
  | CallField _ (FSetComment t) | CallField _ (FSetTag t) | CallType _ t | CallFile _ _ t => Text t
  | CallElem _ c | CallFunc _ c => snew c old
  | CallConsts _ c | CallVars _ c | CallTypes _ c => dnew c old
  end.
Definition attribute_eq (a b : attribute) : {a = b} + {a <> b}.
Proof. repeat decide equality. Defined.
(** The calls of a list that are about one attribute, in order. *)
Definition calls_about (k : attribute) (l : list setting) : list setting :=
  filter (fun s => if attribute_eq (about s) k then true else false) l.
