(** Properties of imports.go.  Only statements, examples and [exact]; the proofs are in
    ImportsProofs.v and ImportsTheorems.v, the vocabulary in SpecImports.v and SpecTypes.v. *)
From Coq Require Import Permutation Sorted.
From Verif Require Import Base BaseFacts GoPath Utf8 Quote Types SpecTypes Imports SpecImports
  ImportsProofs ImportsTheorems ImportsExact.

(** Concrete data used by the examples. *)
Definition exSym (path pkg name : string) : Symbol := mkSymbol (mkPackage path pkg) name.
Definition exType : TypeName :=
  TMap (TFunc (mkSig [mkArg "a" (TNamed (exSym "b/foo" "foo" "X"));
                      mkArg "" (TSlice (TNamed (exSym "c/foo" "foo" "Y")))]
                     [mkArg "" (TNamed (exSym "" "" "error"))] true))
       (TNamed (exSym "own/pkg" "pkg" "K")).
Definition exHistory : list call :=
  [CRegisterImport "a/foo" "foo"; CEnsureTypeImported exType; CRegisterImport "d/bar" "";
   CPrefixForPackage "not/there"; CImportSpecs; CRegisterImport "own/pkg" "zzz"].
Definition exImports : Imports := run exHistory (NewImportsFor "own/pkg").
Example exImports_specs : ImportSpecs exImports =
  [mkImportSpec "" "a/foo"; mkImportSpec "foo1" "b/foo"; mkImportSpec "foo2" "c/foo";
   mkImportSpec "bar" "d/bar"].
Proof. vm_compute. reflexivity. Qed.
Example exType_text : match EnsureTypeImported exType exImports with
  | (Ok (t, _), _) => typeNameToString (fun _ => true) t
  | _ => Panic "" end = Ok "map[K]func(a foo1.X, _ ...foo2.Y) error".
Proof. vm_compute. reflexivity. Qed.

(** C01 *)
Theorem C01_unique_prefix : forall own h a b p,
  let i := run h (NewImportsFor own) in
  fst (PrefixForPackage a i) = Ok p -> fst (PrefixForPackage b i) = Ok p -> a = b.
Proof. exact unique_prefix. Qed.
Print Assumptions C01_unique_prefix.
Example C01_example :
  fst (PrefixForPackage "b/foo" exImports) = Ok "foo1." /\
  fst (PrefixForPackage "c/foo" exImports) = Ok "foo2.".
Proof. split; vm_compute; reflexivity. Qed.

(** C02 *)
Theorem C02_stable_prefix : forall own h path name p i1 h' name',
  let i := run h (NewImportsFor own) in
  RegisterImport path name i = (Ok p, i1) ->
  let j := run h' i1 in
  RegisterImport path name' j = (Ok p, j) /\ PrefixForPackage path j = (Ok p, j).
Proof. exact stable_prefix. Qed.
Print Assumptions C02_stable_prefix.
Example C02_example :
  fst (RegisterImport "e/foo" "foo" exImports) = Ok "foo3." /\
  fst (RegisterImport "e/foo" "other" (run exHistory (snd (RegisterImport "e/foo" "foo" exImports)))) = Ok "foo3.".
Proof. split; vm_compute; reflexivity. Qed.

(** C03 *)
Theorem C03_self_import : forall own h name,
  let i := run h (NewImportsFor own) in
  RegisterImport own name i = (Ok "", i) /\ PrefixForPackage own i = (Ok "", i) /\
  ~ In own (listed i) /\
  forall s, SymPackage s = mkPackage own name -> has_package s = true ->
    EnsureImported s i = (Ok (mkSymbol (mkPackage own "") (SymName s)), i).
Proof. exact self_import. Qed.
Print Assumptions C03_self_import.
Example C03_example : listed exImports = ["a/foo"; "b/foo"; "c/foo"; "d/bar"] /\
  RegisterImport "own/pkg" "zzz" exImports = (Ok "", exImports).
Proof. split; vm_compute; reflexivity. Qed.

(** C04 *)
Theorem C04_lookup_only : forall own h,
  let i := run h (NewImportsFor own) in
  (forall path,
     snd (PrefixForPackage path i) = i /\
     (is_ok (fst (PrefixForPackage path i)) = true <-> path = own \/ In path (listed i)) /\
     (is_ok (fst (PrefixForPackage path i)) = true ->
        forall name, RegisterImport path name i = PrefixForPackage path i)) /\
  (forall s,
     snd (Qualify s i) = i /\
     (is_ok (fst (Qualify s i)) = true <->
        forall path, mentions [s] path -> path = own \/ In path (listed i)) /\
     (is_ok (fst (Qualify s i)) = true -> EnsureImported s i = Qualify s i)) /\
  (forall t, wf t = true ->
     snd (QualifyType t i) = i /\
     (is_ok (fst (QualifyType t i)) = true <->
        forall path, mentions (symbols_of t) path -> path = own \/ In path (listed i)) /\
     (is_ok (fst (QualifyType t i)) = true -> EnsureTypeImported t i = QualifyType t i)) /\
  (forall s, wf_sig s = true ->
     snd (QualifySignature s i) = i /\
     (is_ok (fst (QualifySignature s i)) = true <->
        forall path, mentions (sig_symbols s) path -> path = own \/ In path (listed i)) /\
     (is_ok (fst (QualifySignature s i)) = true ->
        EnsureAllTypesImported s i = QualifySignature s i)).
Proof. exact lookup_only_all. Qed.
Print Assumptions C04_lookup_only.
Example C04_example :
  is_ok (fst (QualifyType exType exImports)) = true /\
  is_ok (fst (QualifyType exType (NewImportsFor "own/pkg"))) = false /\ wf exType = true.
Proof. repeat split; vm_compute; reflexivity. Qed.

(** C05 *)
Theorem C05_import_specs : forall own h,
  let i := run h (NewImportsFor own) in
  (forall order, Permutation order (importsByPath i) -> ImportSpecs_in_order order = ImportSpecs i) /\
  StronglySorted (fun a b => String.ltb (SpecPath a) (SpecPath b) = true) (ImportSpecs i) /\
  NoDup (listed i) /\
  (forall path, In path (listed i) <-> path <> own /\ exists p, PrefixForPackage path i = (Ok p, i)).
Proof. exact import_specs. Qed.
Print Assumptions C05_import_specs.
Example C05_example : ImportSpecs_in_order (rev (importsByPath exImports)) = ImportSpecs exImports
  /\ List.length (ImportSpecs exImports) = 4.
Proof. split; vm_compute; reflexivity. Qed.

(** C06 *)
Theorem C06_alias_iff_needed : forall own h path name,
  forallb call_ok h = true -> path <> own ->
  first_request path (flat_map requests h) = Some name ->
  let i := run h (NewImportsFor own) in
  exists n, n <> "" /\ PrefixForPackage path i = (Ok (n ++ ".")%string, i) /\
    In (mkImportSpec (if String.eqb n name then "" else n) path) (ImportSpecs i).
Proof. exact alias_flag. Qed.
Print Assumptions C06_alias_iff_needed.
(** ... and every listed path was requested. *)
Theorem C06_listed_requested : forall own h path,
  forallb call_ok h = true -> In path (listed (run h (NewImportsFor own))) ->
  exists name, first_request path (flat_map requests h) = Some name.
Proof. exact listed_requested. Qed.
Print Assumptions C06_listed_requested.
Example C06_example : forallb call_ok exHistory = true /\
  first_request "b/foo" (flat_map requests exHistory) = Some "foo" /\
  first_request "d/bar" (flat_map requests exHistory) = Some "" /\
  first_request "a/foo" (flat_map requests exHistory) = Some "foo".
Proof. repeat split; vm_compute; reflexivity. Qed.

(** C07 *)
Theorem C07_least_free_name : forall own h path name,
  let i := run h (NewImportsFor own) in
  path <> own -> ~ In path (listed i) ->
  let base := if String.eqb name "" then path_Base path else name in
  exists k i', RegisterImport path name i = (Ok (candidate base k ++ ".")%string, i') /\
    free_name i (candidate base k) /\
    (forall j, (j < k)%N -> ~ free_name i (candidate base j)) /\
    (forall q, In q (listed i') <-> In q (listed i) \/ q = path) /\
    (forall q p, fst (PrefixForPackage q i) = Ok p -> fst (PrefixForPackage q i') = Ok p).
Proof. exact least_free. Qed.
Print Assumptions C07_least_free_name.
Example C07_example : fst (RegisterImport "z/foo" "foo" exImports) = Ok (candidate "foo" 3 ++ ".")%string
  /\ fst (RegisterImport "z/foo" "foo2" exImports) = Ok (candidate "foo2" 1 ++ ".")%string.
Proof. split; vm_compute; reflexivity. Qed.

(** C08 *)
Theorem C08_ensure_imported : forall own h s,
  let i := run h (NewImportsFor own) in
  exists s' i', EnsureImported s i = (Ok s', i') /\
    SymName s' = SymName s /\ sym_path s' = sym_path s /\
    if has_package s
    then exists p, PrefixForPackage (sym_path s) i' = (Ok p, i') /\
                   (sym_path s = own <-> p = "") /\
                   Symbol_String s' = (p ++ SymName s)%string
    else s' = s /\ i' = i.
Proof. exact ensure_imported. Qed.
Print Assumptions C08_ensure_imported.
Example C08_example :
  match EnsureImported (exSym "z/foo" "foo" "T") exImports with
  | (Ok s, _) => Symbol_String s | _ => "" end = "foo3.T" /\
  match EnsureImported (exSym "own/pkg" "pkg" "T") exImports with
  | (Ok s, _) => Symbol_String s | _ => "" end = "T".
Proof. split; vm_compute; reflexivity. Qed.

(** C09: the result is the argument with its symbols (and nothing else) replaced, each by one
    with the same name and import path that prints with the registered prefix. *)
Theorem C09_type_preserved : forall own h t, wf t = true ->
  let i := run h (NewImportsFor own) in
  exists g c i', EnsureTypeImported t i = (Ok (map_symbols g t, c), i') /\
    forall s, In s (symbols_of t) ->
      SymName (g s) = SymName s /\ sym_path (g s) = sym_path s /\
      if has_package s
      then exists p, PrefixForPackage (sym_path s) i' = (Ok p, i') /\
                     Symbol_String (g s) = (p ++ SymName s)%string
      else g s = s.
Proof. exact type_preserved. Qed.
Print Assumptions C09_type_preserved.
Theorem C09_signature_preserved : forall own h t, wf_sig t = true ->
  let i := run h (NewImportsFor own) in
  exists g c i', EnsureAllTypesImported t i = (Ok (map_sig (map_symbols g) t, c), i') /\
    forall s, In s (sig_symbols t) ->
      SymName (g s) = SymName s /\ sym_path (g s) = sym_path s /\
      if has_package s
      then exists p, PrefixForPackage (sym_path s) i' = (Ok p, i') /\
                     Symbol_String (g s) = (p ++ SymName s)%string
      else g s = s.
Proof. exact signature_preserved. Qed.
Print Assumptions C09_signature_preserved.
Example C09_example : wf exType = true /\ List.length (symbols_of exType) = 4 /\
  match EnsureTypeImported exType (NewImportsFor "own/pkg") with
  | (Ok (t, c), _) => (typeNameToString (fun _ => true) t, c)
  | _ => (Panic "", false) end = (Ok "map[K]func(a foo.X, _ ...foo1.Y) error", true).
Proof. repeat split; vm_compute; reflexivity. Qed.

(** C10 *)
Theorem C10_registers_exactly : forall own h t, wf t = true ->
  let i := run h (NewImportsFor own) in
  exists r i', EnsureTypeImported t i = (Ok r, i') /\
    (forall path, In path (listed i') <->
       In path (listed i) \/ (path <> own /\ mentions (symbols_of t) path)) /\
    (forall path p, fst (PrefixForPackage path i) = Ok p -> fst (PrefixForPackage path i') = Ok p).
Proof. exact type_registers. Qed.
Print Assumptions C10_registers_exactly.
(** Stronger: the calls of a history do exactly the registrations they request, in order. *)
Theorem C10_history_is_requests : forall own h, forallb call_ok h = true ->
  run h (NewImportsFor own) =
  run (map (fun r => CRegisterImport (fst r) (snd r)) (flat_map requests h)) (NewImportsFor own).
Proof. exact history_is_requests. Qed.
Print Assumptions C10_history_is_requests.
Example C10_example : listed (snd (EnsureTypeImported exType (NewImportsFor "own/pkg"))) = ["b/foo"; "c/foo"].
Proof. vm_compute. reflexivity. Qed.

(** C11 *)
Theorem C11_idempotent : forall own h t t' c i' h', wf t = true ->
  EnsureTypeImported t (run h (NewImportsFor own)) = (Ok (t', c), i') ->
  let j := run h' i' in
  EnsureTypeImported t' j = (Ok (t', false), j) /\ QualifyType t' j = (Ok (t', false), j).
Proof. exact type_idempotent. Qed.
Print Assumptions C11_idempotent.
(** The flag [c] (a new TypeName was allocated) is set exactly when the result differs. *)
Theorem C11_new_iff_different : forall own h t t' c i', wf t = true ->
  EnsureTypeImported t (run h (NewImportsFor own)) = (Ok (t', c), i') ->
  (c = false <-> t' = t).
Proof. exact type_new_iff. Qed.
Print Assumptions C11_new_iff_different.
Example C11_example : exists t' i', EnsureTypeImported exType (NewImportsFor "own/pkg") = (Ok (t', true), i')
  /\ t' <> exType.
Proof. do 2 eexists. split; [vm_compute; reflexivity|]. intros H; discriminate H. Qed.

(** C13 is false: an import path whose base is not an identifier yields an illegal alias. *)
Theorem C13_alias_legal_refuted :
  ~ (forall own h path,
       let i := run h (NewImportsFor own) in
       path <> own -> ~ In path (listed i) ->
       exists n i', RegisterImport path "" i = (Ok (n ++ ".")%string, i') /\ usable_alias n = true).
Proof. exact alias_legal_refuted. Qed.
Print Assumptions C13_alias_legal_refuted.
Example C13_witness : fst (RegisterImport "gopkg.in/yaml.v2" "" (NewImportsFor "x")) = Ok "yaml.v2."
  /\ usable_alias "yaml.v2" = false.
Proof. split; vm_compute; reflexivity. Qed.
(** What holds: a usable base name always leads to a usable alias. *)
Theorem C13_alias_legal_partial : forall own h path name,
  let i := run h (NewImportsFor own) in
  path <> own -> ~ In path (listed i) ->
  usable_alias (if String.eqb name "" then path_Base path else name) = true ->
  exists n i', RegisterImport path name i = (Ok (n ++ ".")%string, i') /\ usable_alias n = true.
Proof. exact alias_usable. Qed.
Print Assumptions C13_alias_legal_partial.
(** Exactly: the base name must be usable, or a legal identifier that is taken (as of a keyword). *)
Theorem C13_alias_exact : forall own h path name,
  let i := run h (NewImportsFor own) in
  path <> own -> ~ In path (listed i) ->
  let base := if String.eqb name "" then path_Base path else name in
  exists n i', RegisterImport path name i = (Ok (n ++ ".")%string, i') /\
    (usable_alias n = true <-> usable_alias base = true \/ legal_ident base = true /\ ~ free_name i base).
Proof. exact alias_exact. Qed.
Print Assumptions C13_alias_exact.
Example C13_exact_example : let i := run [CRegisterImport "a/type" ""] (NewImportsFor "x") in
  fst (RegisterImport "a/type" "" (NewImportsFor "x")) = Ok "type." /\ usable_alias "type" = false /\
  fst (RegisterImport "b/type" "" i) = Ok "type1." /\ usable_alias "type1" = true /\ ~ free_name i "type".
Proof. repeat split; try (vm_compute; reflexivity). intros F. apply (F "a/type"). vm_compute. reflexivity. Qed.
Example C13_example : usable_alias (path_Base "d/foo") = true /\
  fst (RegisterImport "d/foo" "" exImports) = Ok "foo3.".
Proof. split; vm_compute; reflexivity. Qed.

(** C12, symbol level (the textual, end-to-end statement is in PropText.v): with honest package
    names every symbol of a qualified type refers, through the import list of the file as it
    is after any further honest calls, to exactly the original package. *)
Theorem C12_qualified_symbols_refer : forall real own h t,
  forallb call_ok h = true -> (forall c, In c h -> honest real c) ->
  wf t = true -> honest real (CEnsureTypeImported t) ->
  exists g c i', EnsureTypeImported t (run h (NewImportsFor own)) = (Ok (map_symbols g t, c), i') /\
    forall h', forallb call_ok h' = true -> (forall c, In c h' -> honest real c) ->
    forall s, In s (symbols_of t) ->
      SymName (g s) = SymName s /\
      (has_package s = true ->
         refers real own (ImportSpecs (run h' i')) (PkgName (SymPackage (g s))) (sym_path s)) /\
      (has_package s = false -> g s = s).
Proof. exact type_refers. Qed.
Print Assumptions C12_qualified_symbols_refer.
Example C12_symbols_example : honest path_Base (CEnsureTypeImported exType).
Proof. intros p n H. repeat (destruct H as [H|H]; [injection H as <- <-; right; reflexivity|]). destruct H. Qed.

(** C14 is false: the alias chosen for the first file is taken for the package's own name in
    the second one, which therefore imports the package without that alias. *)
Theorem C14_requalify_refuted :
  ~ (forall real ownA hA ownB hB t tA c A',
       forallb call_ok hA = true -> (forall c, In c hA -> honest real c) ->
       forallb call_ok hB = true -> (forall c, In c hB -> honest real c) ->
       wf t = true -> honest real (CEnsureTypeImported t) ->
       EnsureTypeImported t (run hA (NewImportsFor ownA)) = (Ok (tA, c), A') ->
       exists g c' B',
         EnsureTypeImported tA (run hB (NewImportsFor ownB)) = (Ok (map_symbols g t, c'), B') /\
         forall s, In s (symbols_of t) -> SymName (g s) = SymName s /\
           (has_package s = true ->
              refers real ownB (ImportSpecs B') (PkgName (SymPackage (g s))) (sym_path s))).
Proof. exact requalify_refuted. Qed.
Print Assumptions C14_requalify_refuted.
(** What holds: it works if the first file needed no alias for the packages of the type. *)
Theorem C14_requalify_partial : forall real ownA hA ownB hB t tA c A',
  forallb call_ok hB = true -> (forall c, In c hB -> honest real c) ->
  wf t = true ->
  EnsureTypeImported t (run hA (NewImportsFor ownA)) = (Ok (tA, c), A') ->
  (forall path, mentions (symbols_of t) path -> path <> ownA /\
     fst (PrefixForPackage path A') = Ok (real path ++ ".")%string) ->
  exists g c' B', EnsureTypeImported tA (run hB (NewImportsFor ownB)) = (Ok (map_symbols g t, c'), B') /\
    forall s, In s (symbols_of t) -> SymName (g s) = SymName s /\
      (has_package s = true ->
         refers real ownB (ImportSpecs B') (PkgName (SymPackage (g s))) (sym_path s)).
Proof. exact requalify_partial. Qed.
Print Assumptions C14_requalify_partial.
(** Exactly: each package of the type is that of the second file; or is already imported there, or was the first
    file's own, or had its real name in the first file, or gets a different name in the second than in the first.
    (A package whose path is empty and is the first file's own is dropped from the type altogether.) *)
Theorem C14_requalify_exact : forall real ownA hA ownB hB t tA c A',
  forallb call_ok hB = true -> (forall c, In c hB -> honest real c) -> wf t = true ->
  EnsureTypeImported t (run hA (NewImportsFor ownA)) = (Ok (tA, c), A') ->
  let B := run hB (NewImportsFor ownB) in
  exists g c' B', EnsureTypeImported tA B = (Ok (map_symbols g t, c'), B') /\
    ((forall s, In s (symbols_of t) -> SymName (g s) = SymName s /\
       (has_package s = true -> refers real ownB (ImportSpecs B') (PkgName (SymPackage (g s))) (sym_path s))) <->
     forall path, mentions (symbols_of t) path -> path = ownB \/
       (path = "" -> ownA <> "") /\
       (path = ownA \/ In path (listed B) \/ fst (PrefixForPackage path A') = Ok (real path ++ ".")%string \/
        fst (PrefixForPackage path A') <> fst (PrefixForPackage path B'))).
Proof. exact requalify_exact. Qed.
Print Assumptions C14_requalify_exact.
(** renamed in the first file, and right in the second only if that name is taken there *)
Example C14_exact_example :
  let t := TPtr (TNamed (exSym "b/foo" "foo" "X")) in
  let '(r, A') := EnsureTypeImported t (run [CRegisterImport "a/foo" "foo"] (NewImportsFor "m")) in
  r = Ok (TPtr (TNamed (exSym "b/foo" "foo1" "X")), true) /\ fst (PrefixForPackage "b/foo" A') = Ok "foo1." /\
  let tA := TPtr (TNamed (exSym "b/foo" "foo1" "X")) in
  ImportSpecs (snd (EnsureTypeImported tA (NewImportsFor "n"))) = [mkImportSpec "" "b/foo"] /\
  ImportSpecs (snd (EnsureTypeImported tA (run [CRegisterImport "z/foo1" "foo1"] (NewImportsFor "n")))) =
    [mkImportSpec "foo11" "b/foo"; mkImportSpec "" "z/foo1"].
Proof. vm_compute. repeat split; reflexivity. Qed.
Example C14_example :
  let t := TPtr (TNamed (exSym "b/foo" "foo" "X")) in
  wf t = true /\
  fst (PrefixForPackage "b/foo" (snd (EnsureTypeImported t (NewImportsFor "m")))) = Ok (path_Base "b/foo" ++ ".")%string.
Proof. split; vm_compute; reflexivity. Qed.
