(** Specification: what becomes of a slice of arguments when a file with a line that was given it
    is written. *)
From Verif Require Import Base GoPath Types SpecTypes Imports SpecImports Conv World SpecQualify.

Section Imports.
Variable i : Imports.
(** The package is called [n] in the file (the file's own package has the empty name). *)
Definition called_in (path n : string) : Prop :=
  fst (PrefixForPackage path i) = Ok (if String.eqb n "" then "" else n ++ ".")%string.
(** [s1] is [s] with the name that its package has in the file. *)
Definition renamed_sym (s s1 : Symbol) : Prop :=
  if has_package s then exists n, called_in (sym_path s) n /\ s1 = mkSymbol (mkPackage (sym_path s) n) (SymName s) else s1 = s.
Definition renamed_type (t t1 : TypeName) : Prop :=
  exists g, (forall s, In s (symbols_of t) -> renamed_sym s (g s)) /\ t1 = map_symbols g t.
Definition renamed_sig (t t1 : Signature) : Prop :=
  exists g, (forall s, In s (sig_symbols t) -> renamed_sym s (g s)) /\ t1 = map_sig (map_symbols g) t.
End Imports.

Section World.
Context {TD : Type}.
Variable w : World TD.
Variable i : Imports.
(** [a1] is in the slice where [a] was. *)
Definition turned (a a1 : Arg) : Prop :=
  match refers_to w a with
  | None => a1 = a
  | Some (RPackage p) =>
      exists n, called_in i (ImportPath p) n /\
        match a with
        | AGoPackage _ => a1 = AString n
        | _ => if String.eqb n (PkgName p) then a1 = a else a1 = APackage (mkPackage (ImportPath p) n)
        end
  | Some (RName s) => exists s1, renamed_sym i s s1 /\ a1 = ASymbol s1
  | Some (RMethod s m) => exists s1, renamed_sym i s s1 /\ (s1 = s /\ a1 = a \/ s1 <> s /\ a1 = AMethodRefPtr (mkMethodRef s1 m))
  | Some (RType t) => exists t1, a1 = ATypeName t1 /\ (wf t = true -> renamed_type i t t1)
  | Some (RSignature s) => exists s1, a1 = ASignaturePtr s1 /\ (wf_sig s = true -> renamed_sig i s s1)
  end.
(** The argument is left as it is: it refers to nothing; or to packages by the names that they
    have in the file, and as the value that the code makes of such a reference. *)
Definition left_alone (a : Arg) : Prop :=
  forall r, refers_to w a = Some r ->
    (forall path n, In (path, n) (packages_of r) -> called_in i path n) /\
    match r with
    | RPackage _ => forall p, a <> AGoPackage p
    | RName s => a = ASymbol s
    | RMethod _ _ => True
    | RType t => a = ATypeName t
    | RSignature s => a = ASignaturePtr s
    end.
(** The types and signatures that the argument refers to are well-formed. *)
Definition whole_reference (a : Arg) : Prop :=
  match refers_to w a with Some (RType t) => wf t = true | Some (RSignature s) => wf_sig s = true | _ => True end.
End World.
