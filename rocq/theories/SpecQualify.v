(** Specification: which declarations make up a file, which packages they mention, what a code
    argument refers to, and how such a reference must be written. *)
From Verif Require Import Base GoPath Types SpecTypes Imports SpecImports SpecGo SpecRender Conv World SpecFile SpecDecl SpecWorld.

(** ** What belongs to a file *)
Inductive item :=
| IConst (id : nat) | IVar (id : nat) | IType (id : nat) | IField (id : nat) | IElem (id : nat)
| IFunc (id : nat) | IBlock (cb : nat).
Section World.
Context {TD : Type}.
Variable w : World TD.
Inductive part_of (f : nat) : item -> Prop :=
| po_const F d D i : nth_error (files w) f = Some F -> In (EConst d) (FElements F) ->
    nth_error (constDecls w) d = Some D -> In i (VDSpecs D) -> part_of f (IConst i)
| po_var F d D i : nth_error (files w) f = Some F -> In (EVar d) (FElements F) ->
    nth_error (varDecls w) d = Some D -> In i (VDSpecs D) -> part_of f (IVar i)
| po_type F d D i : nth_error (files w) f = Some F -> In (EType d) (FElements F) ->
    nth_error (typeDecls w) d = Some D -> In i (TDTypes D) -> part_of f (IType i)
| po_func F i : nth_error (files w) f = Some F -> In (EFunc i) (FElements F) -> part_of f (IFunc i)
| po_const_type i v ts : part_of f (IConst i) -> nth_error (consts w) i = Some v ->
    VSType v = IsSpec ts -> part_of f (IType ts)
| po_var_type i v ts : part_of f (IVar i) -> nth_error (vars w) i = Some v ->
    VSType v = IsSpec ts -> part_of f (IType ts)
| po_field i T fid : part_of f (IType i) -> nth_error (types w) i = Some T -> In fid (TSStruct T) ->
    part_of f (IField fid)
| po_field_type i F ts : part_of f (IField i) -> nth_error (fields w) i = Some F ->
    FSType F = IsSpec ts -> part_of f (IType ts)
| po_elem i T e : part_of f (IType i) -> nth_error (types w) i = Some T -> In e (TSInterface T) ->
    part_of f (IElem e)
| po_const_init i v cb : part_of f (IConst i) -> nth_error (consts w) i = Some v ->
    VInit v = Some cb -> part_of f (IBlock cb)
| po_var_init i v cb : part_of f (IVar i) -> nth_error (vars w) i = Some v ->
    VInit v = Some cb -> part_of f (IBlock cb)
| po_body i F : part_of f (IFunc i) -> nth_error (funcs w) i = Some F -> part_of f (IBlock (FNBody F)).

(** The two files have a declaration or the arguments of a line of code in common. *)
Definition uses_args (f a : nat) : Prop :=
  exists cb b fm, part_of f (IBlock cb) /\ nth_error (blocks w) cb = Some b /\ In (Line fm a) b.
Definition shared (f g : nat) : Prop :=
  (exists x, (forall cb, x <> IBlock cb) /\ part_of f x /\ part_of g x) \/
  (exists a, uses_args f a /\ uses_args g a).

(** The template [t] is part of the file's code. *)
Definition template_of (f t : nat) : Prop :=
  exists cb b, part_of f (IBlock cb) /\ nth_error (blocks w) cb = Some b /\ In (Templ t) b.
(** The file uses no text/template code. *)
Definition no_templates (f : nat) : Prop :=
  forall cb b t, part_of f (IBlock cb) -> nth_error (blocks w) cb = Some b -> ~ In (Templ t) b.
(** The [k]-th argument of the [n]-th line of a code block. *)
Definition argument (cb n k : nat) : option Arg :=
  obind (nth_error (blocks w) cb) (fun b => obind (nth_error b n) (fun e =>
  match e with
  | Line _ args => obind (nth_error (argss w) args) (fun l => nth_error l k)
  | Templ _ => None
  end)).

(** ** What a code argument refers to *)
Inductive reference :=
| RPackage (p : Package)
| RName (s : Symbol)                       (* a package-level name *)
| RMethod (s : Symbol) (method : string)   (* a method of a named type *)
| RType (t : TypeName)
| RSignature (s : Signature).
(** A name declared in a file, as a symbol. *)
Definition declared (parent : option nat) (name : string) : option Symbol :=
  obind parent (fun f => obind (nth_error (files w) f) (fun F =>
  Some (mkSymbol (mkPackage (pkgPath (FImports F)) (FPackageName F)) name))).
Definition named_type (T : TypeSpec) : option Symbol :=
  if String.eqb (TSName T) "" then None else declared (TSParent T) (TSName T).
Definition single_name (v : ValueSpec) : option Symbol :=
  match VNames v with [n] => declared (VParent v) n | _ => None end.
Definition som_reference (r : res SymbolOrMethodRef) : option reference :=
  match r with
  | Ok (SomSymbol s) => Some (RName s)
  | Ok (SomMethod m) => Some (RMethod (MRType m) (MRMethod m))
  | Panic _ => None
  end.
Definition type_reference (r : res TypeName) : option reference :=
  match r with Ok t => Some (RType t) | Panic _ => None end.
(** Arguments from go/types and reflect refer to what the conversions of Conv make of them. *)
Definition refers_to (a : Arg) : option reference :=
  match a with
  | APackage p | APackagePtr p => Some (RPackage p)
  | ASymbol s | ASymbolPtr s => Some (RName s)
  | AMethodRef m | AMethodRefPtr m => Some (RMethod (MRType m) (MRMethod m))
  | ASignature s | ASignaturePtr s => Some (RSignature s)
  | ATypeName t => Some (RType t)
  | AConst id => obind (nth_error (consts w) id) (fun v => option_map RName (single_name v))
  | AVar id => obind (nth_error (vars w) id) (fun v => option_map RName (single_name v))
  | ATypeSpec id => obind (nth_error (types w) id) (fun T => option_map RName (named_type T))
  | AIMethod id =>
      obind (nth_error (ielems w) id) (fun e =>
      match e with
      | InterfaceMethod _ n _ (Some t) =>
          obind (nth_error (types w) t) (fun T => option_map (fun s => RMethod s n) (named_type T))
      | _ => None
      end)
  | AFunc id =>
      obind (nth_error (funcs w) id) (fun F =>
      match FNReceiver F with
      | None => option_map RName (declared (FNParent F) (FNName F))
      | Some r => option_map (fun s => RMethod s (FNName F)) (declared (FNParent F) (RcvType r))
      end)
  | AReflectType t => type_reference (TypeNameForReflectType t)
  | AGoType t => type_reference (TypeNameForGoType t)
  | AGoObject o => som_reference (SymbolForGoObject o)
  | AGoPackage (Some p) => Some (RPackage p)
  | AGoPackage None => None
  | AString _ | AInt _ | AField _ | AEmbed _ | AOther _ => None
  end.

(** ** Packages mentioned: import path and package name as given *)
Definition packages_of (r : reference) : list (string * string) :=
  match r with
  | RPackage p => [(ImportPath p, PkgName p)]
  | RName s | RMethod s _ => sym_requests [s]
  | RType t => sym_requests (symbols_of t)
  | RSignature s => sym_requests (sig_symbols s)
  end.
Definition tos_packages (t : TypeNameOrSpec) : list (string * string) :=
  match t with IsName t => sym_requests (symbols_of t) | _ => [] end.
(** by the members of a file *)
Inductive file_mentions (f : nat) (r : string * string) : Prop :=
| fm_const i v : part_of f (IConst i) -> nth_error (consts w) i = Some v -> In r (tos_packages (VSType v)) -> file_mentions f r
| fm_var i v : part_of f (IVar i) -> nth_error (vars w) i = Some v -> In r (tos_packages (VSType v)) -> file_mentions f r
| fm_type i T : part_of f (IType i) -> nth_error (types w) i = Some T ->
    In r (sym_requests (symbols_of (TSUnderlying T))) -> file_mentions f r
| fm_field i F : part_of f (IField i) -> nth_error (fields w) i = Some F -> In r (tos_packages (FSType F)) -> file_mentions f r
| fm_embed i c s p : part_of f (IElem i) -> nth_error (ielems w) i = Some (InterfaceEmbed c s p) ->
    In r (sym_requests [s]) -> file_mentions f r
| fm_method i c n s p : part_of f (IElem i) -> nth_error (ielems w) i = Some (InterfaceMethod c n s p) ->
    In r (sym_requests (sig_symbols s)) -> file_mentions f r
| fm_func i F : part_of f (IFunc i) -> nth_error (funcs w) i = Some F ->
    In r (sym_requests (sig_symbols (FNSig F))) -> file_mentions f r
| fm_arg cb n k a x : part_of f (IBlock cb) -> argument cb n k = Some a -> refers_to a = Some x ->
    In r (packages_of x) -> file_mentions f r.
(** No const, var or field of the file has a declared, named TypeSpec as its type. *)
Definition undeclared (t : TypeNameOrSpec) : Prop :=
  forall id T, t = IsSpec id -> nth_error (types w) id = Some T -> TSName T = "" \/ TSParent T = None.
Definition no_named_specs (f : nat) : Prop :=
  (forall i v, part_of f (IConst i) -> nth_error (consts w) i = Some v -> undeclared (VSType v)) /\
  (forall i v, part_of f (IVar i) -> nth_error (vars w) i = Some v -> undeclared (VSType v)) /\
  (forall i v, part_of f (IField i) -> nth_error (fields w) i = Some v -> undeclared (FSType v)).
End World.

(** A package name supplied for a path is right (or left open), and usable as a qualifier. *)
Definition right_name (real : string -> string) (r : string * string) : Prop :=
  snd r = "" \/ snd r = real (fst r).
Definition usable_name (r : string * string) : Prop :=
  usable_alias (if String.eqb (snd r) "" then path_Base (fst r) else snd r) = true.

(** A file whose imports are as its history of calls left them, with every package named
    rightly and usably, by those calls and by its contents; it uses no templates. *)
Definition prepared {TD} (real : string -> string) (own : string) (h : list call) (w : World TD) (f : nat) (F : GoFile) : Prop :=
  nth_error (files w) f = Some F /\ FImports F = run h (NewImportsFor own) /\
  forallb call_ok h = true /\ (forall c, In c h -> honest real c) /\ (forall c, In c h -> usable_requests c) /\
  no_templates w f /\ (forall r, file_mentions w f r -> right_name real r /\ usable_name r).

(** A method given by value, not as a declaration or a go/types object. *)
Definition method_by_value (a : Arg) : bool := match a with AMethodRef _ | AMethodRefPtr _ => true | _ => false end.
(** The package is referred to by exactly the name given with it. *)
Definition keeps_name (i : Imports) (p : Package) : Prop :=
  fst (PrefixForPackage (ImportPath p) i) = Ok (if String.eqb (PkgName p) "" then "" else PkgName p ++ ".")%string.

(** ** How a reference must be written *)
Section Written.
Variables (real : string -> string) (own : string) (specs : list ImportSpec).
(** [text] is the name of [s], with the prefix that the file's imports give its package. *)
Definition written_symbol (s : Symbol) (text : string) : Prop :=
  if has_package s
  then exists q, refers real own specs q (sym_path s) /\
                 text = (if String.eqb q "" then SymName s else q ++ "." ++ SymName s)%string
  else text = SymName s.
Definition written (r : reference) (text : string) : Prop :=
  match r with
  | RPackage p => refers real own specs text (ImportPath p)
  | RName s => written_symbol s text
  | RMethod s m => exists t, written_symbol s t /\ text = (t ++ "." ++ m)%string
  | RType t => wf t = true -> text_ok t = true ->
      exists g, parse_type text = Some g /\ resolve_type real specs g = Some (denote_with (path_qualifier own) t)
  | RSignature s => wf_sig s = true -> sig_text_ok s = true ->
      exists ps rs, parse_signature text = Some (ps, rs) /\
        resolve_type real specs (GFunc ps rs) =
        Some (GFunc (fst (denote_sig_with (path_qualifier own) s)) (snd (denote_sig_with (path_qualifier own) s)))
  end.
End Written.

(** ** The types of a parsed file, resolved through its own import list *)
Definition import_of (i : option string * string) : ImportSpec :=
  mkImportSpec (match fst i with Some a => a | None => "" end) (snd i).
Section ResolveFile.
Variables (real : string -> string) (specs : list ImportSpec).
Definition resolve_opt (t : option gotype) : option (option gotype) :=
  match t with None => Some None | Some t => option_map Some (resolve_type real specs t) end.
Definition resolve_params (l : list gparam) : option (list gparam) :=
  all_some (map (fun '(n, d, t) => obind (resolve_type real specs t) (fun t => Some (n, d, t))) l).
Definition resolve_value (v : gvalue) : option gvalue :=
  let '(n, t, i) := v in obind (resolve_opt t) (fun t => Some (n, t, i)).
Definition resolve_typespec (t : string * bool * gotype) : option (string * bool * gotype) :=
  let '(n, a, t) := t in obind (resolve_type real specs t) (fun t => Some (n, a, t)).
Definition resolve_decl (d : gdecl) : option gdecl :=
  match d with
  | DConst b l => obind (all_some (map resolve_value l)) (fun l => Some (DConst b l))
  | DVar b l => obind (all_some (map resolve_value l)) (fun l => Some (DVar b l))
  | DType b l => obind (all_some (map resolve_typespec l)) (fun l => Some (DType b l))
  | DFunc rc n (ps, rs) body =>
      obind (resolve_params ps) (fun ps => obind (resolve_params rs) (fun rs => Some (DFunc rc n (ps, rs) body)))
  end.
End ResolveFile.
Definition resolve_file (real : string -> string) (g : gfile) : option gfile :=
  obind (all_some (map (resolve_decl real (map import_of (GImports g))) (GDecls g))) (fun ds =>
  Some (mkGFile (GPackage g) (GImports g) ds)).
