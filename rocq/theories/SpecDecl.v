(** Specification: what the declarations of a file stand for in Go's syntax (SpecGo, SpecFile),
    read off the builder objects without reference to how they are rendered. *)
From Verif Require Import Base GoPath Types SpecTypes Imports SpecImports SpecGo SpecRender World SpecFile.

(** Types that gopoet writes over several lines when they are declared or used as a field. *)
Definition multi_line (t : TypeName) : bool :=
  match t with TStruct _ | TInterface _ _ => true | _ => false end.
(** A type that can be written as the body of a declaration: as [text_ok], but an interface may
    have both embeds and methods, and a field whose type is itself written over several lines
    has no tag. *)
Fixpoint decl_ok (t : TypeName) : bool :=
  match t with
  | TStruct fs =>
      forallb (fun f => (if String.eqb (FldName f) "" then embeddable (FldType f) else ident (FldName f))
                        && decl_ok (FldType f)
                        && (negb (multi_line (FldType f)) || String.eqb (FldTag f) "")) fs
  | TInterface ms es =>
      forallb sym_ok es && forallb (fun m => ident (MtdName m) && sig_text_ok (MtdSig m)) ms
  | _ => text_ok t
  end.

Definition names_type (g : gotype) : bool :=
  match g with GName _ _ | GPtr (GName _ _) => true | _ => false end.

Section Meaning.
Context {TD : Type}.
(** [q] says how the package of a symbol is written. *)
Variable q : Symbol -> option string.
Variable w : World TD.
(** A named type spec used as a type: its name in the package of its file. *)
Definition named_spec_with (T : TypeSpec) : option gotype :=
  obind (TSParent T) (fun f => obind (nth_error (files w) f) (fun F =>
  let s := mkSymbol (mkPackage (pkgPath (FImports F)) (FPackageName F)) (TSName T) in
  if sym_ok s then Some (GName (q s) (TSName T)) else None)).
Definition elem_meaning_with (e : InterfaceElement) : option gelem :=
  match e with
  | InterfaceEmbed _ s _ => if sym_ok s then Some (inr (q s, SymName s)) else None
  | InterfaceMethod _ n s _ =>
      if ident n && wf_sig s && sig_text_ok s
      then Some (inl (n, fst (denote_sig_with q s), snd (denote_sig_with q s))) else None
  end.
(** The type a type spec declares; [None] if it has no representation in Go's syntax (an
    illegal name, a tag after a type that spans several lines, ...) or is not finite. *)
Fixpoint spec_meaning_with (fuel : nat) (T : TypeSpec) : option gotype :=
  match fuel with
  | O => None
  | S fuel' =>
      match TSUnderlying T with
      | TStruct _ =>
          option_map GStruct (all_some (map (fun id =>
            obind (nth_error (fields w) id) (fun F =>
            obind match FSType F with
                  | NoType => None
                  | IsName t => if wf t && decl_ok t then Some (denote_with q t, multi_line t) else None
                  | IsSpec ts =>
                      obind (nth_error (types w) ts) (fun T' =>
                      if String.eqb (TSName T') ""
                      then option_map (fun g => (g, true)) (spec_meaning_with fuel' T')
                      else option_map (fun g => (g, false)) (named_spec_with T'))
                  end
              (fun '(g, multi) =>
               if (if String.eqb (FSName F) "" then names_type g else ident (FSName F))
                  && (negb multi || String.eqb (FSTag F) "")
               then Some (opt_name (FSName F), g, FSTag F) else None))) (TSStruct T)))
      | TInterface _ _ =>
          option_map GInterface (all_some (map (fun id =>
            obind (nth_error (ielems w) id) elem_meaning_with) (TSInterface T)))
      | t => if wf t && text_ok t then Some (denote_with q t) else None
      end
  end.
(** A type declaration: name, alias or not, type. *)
Definition typespec_meaning_with (fuel : nat) (T : TypeSpec) : option (string * bool * gotype) :=
  if ident (TSName T)
  then option_map (fun g => (TSName T, TSIsAlias T, g)) (spec_meaning_with fuel T) else None.

(** The type of a const, var: written on one line. *)
Definition value_type_with (t : TypeNameOrSpec) : option (option gotype) :=
  match t with
  | NoType => Some None
  | IsName t => if wf t && text_ok t then Some (Some (denote_with q t)) else None
  | IsSpec id =>
      obind (nth_error (types w) id) (fun T =>
      if String.eqb (TSName T) ""
      then if wf (TSUnderlying T) && text_ok (TSUnderlying T)
           then Some (Some (denote_with q (TSUnderlying T))) else None
      else match TSParent T with
           | None => if ident (TSName T) then Some (Some (GName None (TSName T))) else None
           | Some _ => option_map Some (named_spec_with T)
           end)
  end.
(** A const or var spec, initial value apart: its names and type. *)
Definition value_meaning_with (v : ValueSpec) : option (list string * option gotype) :=
  if negb (match VNames v with [] => true | _ => false end) && forallb ident (VNames v)
  then option_map (fun t => (VNames v, t)) (value_type_with (VSType v)) else None.
End Meaning.

(** A function or method without its body. *)
Definition func_meaning_with (q : Symbol -> option string) (f : FuncSpec)
  : option (option (option string * bool * string) * string * (list gparam * list gparam)) :=
  if ident (FNName f) && wf_sig (FNSig f) && sig_text_ok (FNSig f) then
    match FNReceiver f with
    | None => Some (None, FNName f, denote_sig_with q (FNSig f))
    | Some r =>
        if (String.eqb (RcvName r) "" || ident (RcvName r)) && ident (RcvType r)
        then Some (Some (opt_name (RcvName r), RcvIsPointer r, RcvType r), FNName f, denote_sig_with q (FNSig f))
        else None
    end
  else None.

(** ** Whole files *)
(** [code]: the text of each code block. *)
Section File.
Context {TD : Type}.
Variables (q : Symbol -> option string) (w : World TD) (code : nat -> option string).
(** The tokens of an initial value: delimited by the end of its last line. *)
Definition init_meaning (cb : nat) : option (list token) :=
  obind (code cb) (fun s => obind (tokens (s ++ newline)) (fun ts =>
  match until_semi 0 ts with
  | Some (i, [_]) => Some i
  | _ => None
  end)).
(** The tokens of a body: complete lines with balanced brackets. *)
Definition whole_lines (s : string) : bool :=
  match last_byte s with None => true | Some c => Ascii.eqb c (ch 10) end.
Definition body_meaning (cb : nat) : option (list token) :=
  obind (code cb) (fun s =>
  if whole_lines s then
    obind (tokens s) (fun ts =>
    match until_brace 0 (ts ++ [TOp "}"]) with
    | Some (b, []) => Some b
    | _ => None
    end)
  else None).
Definition gvalue_meaning_with (const : bool) (v : ValueSpec) : option gvalue :=
  obind (value_meaning_with q w v) (fun '(n, t) =>
  obind match VInit v with None => Some None | Some cb => option_map Some (init_meaning cb) end (fun i =>
  if value_form const t i then Some (n, t, i) else None)).
Definition lookup_all {A} (tab : list A) (ids : list nat) : option (list A) :=
  all_some (map (nth_error tab) ids).
(** One declaration without a comment of its own is not parenthesised. *)
Definition grouped {A} (comment : string) (specs : list A) : bool :=
  negb (Nat.eqb (List.length specs) 1) || negb (String.eqb comment "").
Definition element_meaning_with (fuel : nat) (e : FileElement) : option gdecl :=
  match e with
  | EConst d =>
      obind (nth_error (constDecls w) d) (fun D => obind (lookup_all (consts w) (VDSpecs D)) (fun l =>
      obind (all_some (map (gvalue_meaning_with true) l)) (fun ms => Some (DConst (grouped (VDComment D) l) ms))))
  | EVar d =>
      obind (nth_error (varDecls w) d) (fun D => obind (lookup_all (vars w) (VDSpecs D)) (fun l =>
      obind (all_some (map (gvalue_meaning_with false) l)) (fun ms => Some (DVar (grouped (VDComment D) l) ms))))
  | EType d =>
      obind (nth_error (typeDecls w) d) (fun D => obind (lookup_all (types w) (TDTypes D)) (fun l =>
      obind (all_some (map (typespec_meaning_with q w fuel) l)) (fun ms => Some (DType (grouped (TDComment D) l) ms))))
  | EFunc fn =>
      obind (nth_error (funcs w) fn) (fun f => obind (func_meaning_with q f) (fun '(rc, n, s) =>
      obind (body_meaning (FNBody f)) (fun b => Some (DFunc rc n s b))))
  end.
(** A declaration group with a comment or several members can be written; so can one member;
    an empty one without a comment cannot. *)
Definition has_content (e : FileElement) : bool :=
  match e with
  | EConst d => match nth_error (constDecls w) d with
                | Some D => negb (Nat.eqb (List.length (VDSpecs D)) 0) || negb (String.eqb (VDComment D) "") | None => false end
  | EVar d => match nth_error (varDecls w) d with
              | Some D => negb (Nat.eqb (List.length (VDSpecs D)) 0) || negb (String.eqb (VDComment D) "") | None => false end
  | EType d => match nth_error (typeDecls w) d with
               | Some D => negb (Nat.eqb (List.length (TDTypes D)) 0) || negb (String.eqb (TDComment D) "") | None => false end
  | EFunc _ => true
  end.
Definition import_meaning (s : ImportSpec) : option (option string * string) :=
  if String.eqb (PackageAlias s) "" then Some (None, SpecPath s)
  else if ident (PackageAlias s) then Some (Some (PackageAlias s), SpecPath s) else None.
Definition file_meaning_with (fuel : nat) (F : GoFile) : option gfile :=
  if ident (FPackageName F) && forallb has_content (FElements F) then
    obind (all_some (map import_meaning (ImportSpecs (FImports F)))) (fun is =>
    obind (all_some (map (element_meaning_with fuel) (FElements F))) (fun ds =>
    Some (mkGFile (FPackageName F) is ds)))
  else None.
End File.

(** As written: the package name of the symbol, if it has one. *)
Notation named_spec := (named_spec_with qualifier).
Notation elem_meaning := (elem_meaning_with qualifier).
Notation spec_meaning := (spec_meaning_with qualifier).
Notation typespec_meaning := (typespec_meaning_with qualifier).
Notation value_type := (value_type_with qualifier).
Notation value_meaning := (value_meaning_with qualifier).
Notation func_meaning := (func_meaning_with qualifier).
Notation gvalue_meaning := (gvalue_meaning_with qualifier).
Notation element_meaning := (element_meaning_with qualifier).
Notation file_meaning := (file_meaning_with qualifier).
