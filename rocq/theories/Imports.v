(** Model of imports.go: the Imports state and the rewriting of symbols and types. *)
From Verif Require Import Base GoPath Utf8 Quote Types.

(** imports.go:23-26 importDef *)
Record importDef := mkImportDef { packageName : string; isAlias : bool }.
(** imports.go:17-21 Imports.  A nil map behaves like an empty one for reads, and the code
    allocates both maps before the first write, so nil and empty are identified. *)
Record Imports := mkImports
  { pkgPath : string;
    importsByPath : list (string * importDef);
    pathsByName : list (string * string) }.

Definition IM (A : Type) := ST Imports A.

(** imports.go:31-33 NewImportsFor *)
Definition NewImportsFor (p : string) : Imports := mkImports p [] [].

(** imports.go:88-103: the search loop of prefixForPackage.  [p] is the current candidate,
    [suffix] the next suffix to try; [fuel] bounds the number of iterations
    (prefixForPackage_terminates proves it is never exhausted). *)
Fixpoint choose_name (fuel : nat) (taken : list (string * string)) (pkgBase p : string)
         (suffix : N) : res string :=
  match fuel with
  | O => Panic out_of_fuel
  | S fuel' =>
      match lookup p taken with
      | None => Ok p
      | Some _ => choose_name fuel' taken pkgBase (pkgBase ++ dec suffix)%string (suffix + 1)%N
      end
  end.

(** imports.go:70-104 prefixForPackage.  Simplification: the message of the panic quotes the path
    as if all of its runes were printable (it is %q of the path). *)
Definition prefixForPackage (importPath pkgname : string) (registerIfNotFound : bool)
  : IM string :=
  fun i =>
    if String.eqb importPath (pkgPath i) then (Ok "", i)
    else match lookup importPath (importsByPath i) with
         | Some ex => (Ok (packageName ex ++ ".")%string, i)
         | None =>
             if negb registerIfNotFound
             then (Panic ("Package " ++ Quote (fun _ => true) importPath ++ " never registered")%string, i)
             else
               let base := if String.eqb pkgname "" then path_Base importPath else pkgname in
               match choose_name (S (List.length (pathsByName i))) (pathsByName i) base base 1 with
               | Panic m => (Panic m, i)
               | Ok p =>
                   (Ok (p ++ ".")%string,
                    mkImports (pkgPath i)
                      (insert importPath (mkImportDef p (negb (String.eqb p pkgname))) (importsByPath i))
                      (insert p importPath (pathsByName i)))
               end
         end.

(** imports.go:60-62 RegisterImport, 38-40 RegisterImportForPackage, 66-68 PrefixForPackage *)
Definition RegisterImport (importPath pkgname : string) : IM string :=
  prefixForPackage importPath pkgname true.
Definition RegisterImportForPackage (pkg : Package) : IM string :=
  RegisterImport (ImportPath pkg) (PkgName pkg).
Definition PrefixForPackage (importPath : string) : IM string :=
  prefixForPackage importPath "" false.

(** imports.go:47-49 and 128-130: strip one trailing dot *)
Definition strip_dot (p : string) : string :=
  match last_byte p with
  | Some c => if Ascii.eqb c "."%char then drop_last p else p
  | None => p
  end.

(** imports.go:45-51 registerPackage *)
Definition registerPackage (pkg : Package) : IM string :=
  do p <- RegisterImportForPackage pkg ;; sret (strip_dot p).

(** imports.go:123-136 qualify *)
Definition qualify (sym : Symbol) (registerIfNotFound : bool) : IM Symbol :=
  let pkg := SymPackage sym in
  if String.eqb (PkgName pkg) "" && String.eqb (ImportPath pkg) "" then sret sym
  else do prefix <- prefixForPackage (ImportPath pkg) (PkgName pkg) registerIfNotFound ;;
       let name := strip_dot prefix in
       if negb (String.eqb name (PkgName pkg))
       then sret (mkSymbol (mkPackage (ImportPath pkg) name) (SymName sym))
       else sret sym.

(** imports.go:112-121 EnsureImported, Qualify *)
Definition EnsureImported (sym : Symbol) : IM Symbol := qualify sym true.
Definition Qualify (sym : Symbol) : IM Symbol := qualify sym false.

(** Rewriting of a list: the copy-on-write loops of imports.go:245-315.  [f] returns the new
    element and whether it differs (Go's [!=]) from the old one; an element that does not
    differ is kept.  The flag of the result tells whether a copy was made. *)
Section MapChanged.
Context {A : Type} (f : A -> IM (A * bool)).
Fixpoint map_changed (l : list A) : IM (list A * bool) :=
  match l with
  | [] => sret ([], false)
  | a :: r =>
      do '(a', c) <- f a ;;
      do '(r', cr) <- map_changed r ;;
      sret ((if c : bool then a' else a) :: r', c || cr)
  end.
End MapChanged.

(** imports.go:245-261 qualifySymbols (comparison of Symbols is by value) *)
Definition qualifySymbols (reg : bool) (syms : list Symbol) : IM (list Symbol * bool) :=
  map_changed (fun s => do nt <- qualify s reg ;; sret (nt, negb (symbol_eqb nt s))) syms.

(** imports.go:263-279 qualifyArgs *)
Definition qualifyArgs_ {T} (rec : T -> IM (T * bool)) (args : list (ArgType_ T))
  : IM (list (ArgType_ T) * bool) :=
  map_changed (fun a => match a with
                        | mkArg name t => do '(nt, c) <- rec t ;; sret (mkArg name nt, c)
                        end) args.
(** imports.go:281-297 qualifyFields *)
Definition qualifyFields_ {T} (rec : T -> IM (T * bool)) (fields : list (FieldType_ T))
  : IM (list (FieldType_ T) * bool) :=
  map_changed (fun a => match a with
                        | mkField name t tag => do '(nt, c) <- rec t ;; sret (mkField name nt tag, c)
                        end) fields.
(** imports.go:230-237 qualifySignature.  [sameSlice] (239-243) compares data pointer and
    length; it fails exactly when a copy was made, except for empty slices, which are never
    copied. *)
Definition qualifySignature_ {T} (rec : T -> IM (T * bool)) (s : Signature_ T)
  : IM (Signature_ T * bool) :=
  match s with
  | mkSig args results variadic =>
      do '(args', ca) <- qualifyArgs_ rec args ;;
      do '(results', cr) <- qualifyArgs_ rec results ;;
      if ca || cr then sret (mkSig args' results' variadic, true) else sret (s, false)
  end.
(** imports.go:299-315 qualifyMethods *)
Definition qualifyMethods_ {T} (rec : T -> IM (T * bool)) (methods : list (MethodType_ T))
  : IM (list (MethodType_ T) * bool) :=
  map_changed (fun m => match m with
                        | mkMethod name sig =>
                            do '(ns, c) <- qualifySignature_ rec sig ;; sret (mkMethod name ns, c)
                        end) methods.

(** imports.go:152-214 qualifyType.  Returns the new TypeName and whether it is [!=] the
    argument in Go: pointer-backed TypeNames compare by identity, so that is the case exactly
    when a new one was allocated. *)
Fixpoint qualifyType (reg : bool) (n : TypeName) : IM (TypeName * bool) :=
  match n with
  | TNil => spanic nil_deref
  | TBasic _ => sret (n, false)
  | TNamed sym =>
      do nsym <- qualify sym reg ;;
      if negb (symbol_eqb nsym sym) then sret (NamedType nsym, true) else sret (n, false)
  | TPtr elem =>
      do '(nelem, c) <- qualifyType reg elem ;;
      if c : bool then do n' <- slift (PointerType nelem) ;; sret (n', true) else sret (n, false)
  | TSlice elem =>
      do '(nelem, c) <- qualifyType reg elem ;;
      if c : bool then do n' <- slift (SliceType nelem) ;; sret (n', true) else sret (n, false)
  | TArray elem len =>
      do '(nelem, c) <- qualifyType reg elem ;;
      if c : bool then do n' <- slift (ArrayType nelem len) ;; sret (n', true) else sret (n, false)
  | TMap elem key =>
      do '(nkey, ck) <- qualifyType reg key ;;
      do '(nelem, ce) <- qualifyType reg elem ;;
      if ce || ck then do n' <- slift (MapType nkey nelem) ;; sret (n', true) else sret (n, false)
  | TChan elem dir =>
      do '(nelem, c) <- qualifyType reg elem ;;
      if c : bool then do n' <- slift (ChannelType nelem dir) ;; sret (n', true) else sret (n, false)
  | TFunc sig =>
      do '(nsig, c) <- qualifySignature_ (qualifyType reg) sig ;;
      if c : bool then do n' <- slift (FuncTypeFromSig nsig) ;; sret (n', true) else sret (n, false)
  | TStruct fields =>
      do '(nfields, c) <- qualifyFields_ (qualifyType reg) fields ;;
      if c : bool then sret (StructType nfields, true) else sret (n, false)
  | TInterface methods embeds =>
      do '(nembeds, ce) <- qualifySymbols reg embeds ;;
      do '(nmethods, cm) <- qualifyMethods_ (qualifyType reg) methods ;;
      if ce || cm then sret (InterfaceType nembeds nmethods, true) else sret (n, false)
  end.

(** imports.go:141-150 EnsureTypeImported, QualifyType (result paired with "is a new TypeName") *)
Definition EnsureTypeImported (n : TypeName) : IM (TypeName * bool) := qualifyType true n.
Definition QualifyType (n : TypeName) : IM (TypeName * bool) := qualifyType false n.

(** imports.go:219-228 EnsureAllTypesImported, QualifySignature *)
Definition qualifySignature (reg : bool) (s : Signature) : IM (Signature * bool) :=
  qualifySignature_ (qualifyType reg) s.
Definition EnsureAllTypesImported (s : Signature) : IM (Signature * bool) := qualifySignature true s.
Definition QualifySignature (s : Signature) : IM (Signature * bool) := qualifySignature false s.

(** imports.go:358-361 ImportSpec *)
Record ImportSpec := mkImportSpec { PackageAlias : string; SpecPath : string }.

(** sort.Slice by import path (the order on unique keys determines the result, whatever the
    sorting algorithm; the model uses insertion sort). *)
Definition spec_ltb (a b : ImportSpec) : bool := String.ltb (SpecPath a) (SpecPath b).
Fixpoint insert_spec (x : ImportSpec) (l : list ImportSpec) : list ImportSpec :=
  match l with
  | [] => [x]
  | y :: r => if spec_ltb y x then y :: insert_spec x r else x :: l
  end.
Fixpoint sort_specs (l : list ImportSpec) : list ImportSpec :=
  match l with
  | [] => []
  | x :: r => insert_spec x (sort_specs r)
  end.

Definition spec_of_entry (e : string * importDef) : ImportSpec :=
  mkImportSpec (if isAlias (snd e) then packageName (snd e) else "") (fst e).

(** imports.go:340-354 ImportSpecs.  [order] is the sequence in which the range loop visits
    the map: the runtime may choose any permutation of [importsByPath]. *)
Definition ImportSpecs_in_order (order : list (string * importDef)) : list ImportSpec :=
  sort_specs (map spec_of_entry order).
Definition ImportSpecs (i : Imports) : list ImportSpec := ImportSpecs_in_order (importsByPath i).

(** imports.go:372-377 ImportSpec.String *)
Definition ImportSpec_String (isPrint : N -> bool) (s : ImportSpec) : string :=
  if String.eqb (PackageAlias s) "" then Quote isPrint (SpecPath s)
  else (PackageAlias s ++ " " ++ Quote isPrint (SpecPath s))%string.
