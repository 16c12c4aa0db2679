(** Specification vocabulary for Imports: histories of API calls, requested registrations,
    candidate names, identifiers.  No proofs. *)
From Verif Require Import Base GoPath Types SpecTypes Imports.

(** One call of the public API of Imports (doc comments of imports.go). *)
Inductive call :=
| CRegisterImport (importPath name : string)
| CRegisterImportForPackage (p : Package)
| CPrefixForPackage (importPath : string)
| CEnsureImported (s : Symbol)
| CQualify (s : Symbol)
| CEnsureTypeImported (t : TypeName)
| CQualifyType (t : TypeName)
| CEnsureAllTypesImported (s : Signature)
| CQualifySignature (s : Signature)
| CImportSpecs.

(** The state left behind by a call (also when the call panics and the caller recovers). *)
Definition exec (c : call) (i : Imports) : Imports :=
  match c with
  | CRegisterImport p n => snd (RegisterImport p n i)
  | CRegisterImportForPackage p => snd (RegisterImportForPackage p i)
  | CPrefixForPackage p => snd (PrefixForPackage p i)
  | CEnsureImported s => snd (EnsureImported s i)
  | CQualify s => snd (Qualify s i)
  | CEnsureTypeImported t => snd (EnsureTypeImported t i)
  | CQualifyType t => snd (QualifyType t i)
  | CEnsureAllTypesImported s => snd (EnsureAllTypesImported s i)
  | CQualifySignature s => snd (QualifySignature s i)
  | CImportSpecs => i
  end.
Definition run (h : list call) (i : Imports) : Imports := fold_left (fun i c => exec c i) h i.

(** The (import path, package name) registrations a call requests, in order. *)
Definition sym_requests (l : list Symbol) : list (string * string) :=
  map (fun s => (sym_path s, PkgName (SymPackage s))) (filter has_package l).
Definition requests (c : call) : list (string * string) :=
  match c with
  | CRegisterImport p n => [(p, n)]
  | CRegisterImportForPackage p => [(ImportPath p, PkgName p)]
  | CEnsureImported s => sym_requests [s]
  | CEnsureTypeImported t => sym_requests (symbols_of t)
  | CEnsureAllTypesImported s => sym_requests (sig_symbols s)
  | _ => []
  end.
(** Calls whose type arguments have no nil components. *)
Definition call_ok (c : call) : bool :=
  match c with
  | CEnsureTypeImported t => wf t
  | CEnsureAllTypesImported s => wf_sig s
  | _ => true
  end.

(** The type mentions the package with this import path. *)
Definition mentions (syms : list Symbol) (path : string) : Prop :=
  exists s, In s syms /\ has_package s = true /\ sym_path s = path.

(** The paths listed by ImportSpecs. *)
Definition listed (i : Imports) : list string := map SpecPath (ImportSpecs i).

(** The k-th candidate alias for a base name: base, base1, base2, ... *)
Definition candidate (base : string) (k : N) : string :=
  match k with N0 => base | _ => (base ++ dec k)%string end.
Definition free_name (i : Imports) (name : string) : Prop :=
  forall path, fst (PrefixForPackage path i) <> Ok (name ++ ".")%string.

(** Legal Go identifiers: a letter or '_' followed by letters, digits, '_'.  Bytes above
    0x7f are accepted (they may be part of a non-ASCII letter), so this is an upper bound of
    Go's definition. *)
Definition is_letter_byte (c : ascii) : bool :=
  let n := code c in
  ((65 <=? n) && (n <=? 90) || (97 <=? n) && (n <=? 122) || (n =? 95) || (128 <=? n))%N.
Definition is_digit_byte (c : ascii) : bool := ((48 <=? code c) && (code c <=? 57))%N.
Fixpoint all_ident_bytes (s : string) : bool :=
  match s with
  | EmptyString => true
  | String c r => (is_letter_byte c || is_digit_byte c) && all_ident_bytes r
  end.
Definition legal_ident (s : string) : bool :=
  match s with
  | EmptyString => false
  | String c r => is_letter_byte c && all_ident_bytes r
  end.
Definition keywords : list string :=
  ["break"; "case"; "chan"; "const"; "continue"; "default"; "defer"; "else"; "fallthrough";
   "for"; "func"; "go"; "goto"; "if"; "import"; "interface"; "map"; "package"; "range";
   "return"; "select"; "struct"; "switch"; "type"; "var"].
Definition is_keyword (s : string) : bool := existsb (String.eqb s) keywords.
(** Usable as an import name whose members can be referenced. *)
Definition usable_alias (s : string) : bool :=
  legal_ident s && negb (is_keyword s) && negb (String.eqb s "_").

(** The name first requested for a path. *)
Fixpoint first_request (path : string) (l : list (string * string)) : option string :=
  match l with
  | [] => None
  | (p, n) :: r => if String.eqb p path then Some n else first_request path r
  end.

(** Go's meaning of an import list: [real] gives the name declared by the package at a path
    (its package clause); an import without an alias introduces that name. *)
Definition effective_name (real : string -> string) (s : ImportSpec) : string :=
  if String.eqb (PackageAlias s) "" then real (SpecPath s) else PackageAlias s.
Definition resolves (real : string -> string) (specs : list ImportSpec) (q path : string) : Prop :=
  exists s, In s specs /\ effective_name real s = q /\ SpecPath s = path.

(** A call is honest if every package name it supplies is the real one (or unknown, ""). *)
Definition honest (real : string -> string) (c : call) : Prop :=
  forall p n, In (p, n) (requests c) -> n = "" \/ n = real p.

(** A reference written [q.Name] (or bare if [q] is empty) in a file of package [own] with
    import list [specs] means the package [path] and no other. *)
Definition refers (real : string -> string) (own : string) (specs : list ImportSpec)
           (q path : string) : Prop :=
  if String.eqb q "" then path = own
  else forall p, resolves real specs q p <-> p = path.
