(** Specification: the Go type a [TypeName] stands for, in the abstract syntax of [SpecGo],
    and which [TypeName]s can be written in Go syntax at all. *)
From Verif Require Import Base GoPath Types SpecTypes Imports SpecImports SpecGo.

(** Predeclared names of the basic kinds (byte and rune are uint8 and int32). *)
Definition basic_name (k : Kind) : string :=
  match k with
  | KBool => "bool" | KString => "string" | KInt => "int" | KInt8 => "int8" | KInt16 => "int16"
  | KInt32 => "rune" | KInt64 => "int64" | KUint => "uint" | KUint8 => "byte"
  | KUint16 => "uint16" | KUint32 => "uint32" | KUint64 => "uint64" | KUintptr => "uintptr"
  | KFloat32 => "float32" | KFloat64 => "float64" | KComplex64 => "complex64"
  | KComplex128 => "complex128"
  | _ => ""
  end.

Definition qualifier (s : Symbol) : option string :=
  if String.eqb (PkgName (SymPackage s)) "" then None else Some (PkgName (SymPackage s)).
Definition opt_name (s : string) : option string := if String.eqb s "" then None else Some s.
Definition unslice (t : gotype) : gotype := match t with GSlice e => e | _ => t end.

(** Parameters: if any is named, the others are blank.  The last one of a variadic list is
    written with its element type after "...". *)
Section Params.
Context {T : Type} (rec : T -> gotype) (named v : bool).
Fixpoint dparams (l : list (ArgType_ T)) : list gparam :=
  match l with
  | [] => []
  | mkArg n t :: r =>
      let name := if named then Some (if String.eqb n "" then "_" else n) else None in
      let last := match r with [] => v | _ => false end in
      (name, last, if last then unslice (rec t) else rec t) :: dparams r
  end.
End Params.
Definition has_names {T} (l : list (ArgType_ T)) : bool :=
  existsb (fun a => negb (String.eqb (ArgName a) "")) l.
Definition denote_dir (d : Z) : dir :=
  if (d =? 1)%Z then DRecv else if (d =? 2)%Z then DSend else DBoth.

(** [qual] says how a symbol's package is written. *)
Section Denote.
Variable qual : Symbol -> option string.
Fixpoint denote_with (t : TypeName) : gotype :=
  match t with
  | TNil => GName None ""
  | TBasic k => GName None (basic_name k)
  | TNamed s => GName (qual s) (SymName s)
  | TPtr e => GPtr (denote_with e)
  | TSlice e => GSlice (denote_with e)
  | TArray e n => GArray (decZ n) (denote_with e)
  | TMap e k => GMap (denote_with k) (denote_with e)
  | TChan e d => GChan (denote_dir d) (denote_with e)
  | TFunc (mkSig a r v) =>
      GFunc (dparams denote_with (has_names a) v a) (dparams denote_with (has_names r) false r)
  | TStruct fs =>
      GStruct (map (fun f => match f with mkField n t tag => (opt_name n, denote_with t, tag) end) fs)
  | TInterface ms es =>
      GInterface
        (map (fun s => inr (qual s, SymName s)) es ++
         map (fun m => match m with
                       | mkMethod n (mkSig a r v) =>
                           inl (n, dparams denote_with (has_names a) v a,
                                   dparams denote_with (has_names r) false r)
                       end) ms)
  end.
End Denote.
Notation denote := (denote_with qualifier).
Definition denote_sig_with (qual : Symbol -> option string) (s : Signature) : list gparam * list gparam :=
  (dparams (denote_with qual) (has_names (Args s)) (IsVariadic s) (Args s),
   dparams (denote_with qual) (has_names (Results s)) false (Results s)).
Notation denote_sig := (denote_sig_with qualifier).

(** Types that Go syntax can express the way gopoet writes them: all names are identifiers;
    an unnamed field is a (pointer to a) type name; a bidirectional channel has no
    receive-only channel as its element; an interface has embeds or methods, not both. *)
Definition ident (s : string) : bool := legal_ident s && negb (is_keyword s).
Definition sym_ok (s : Symbol) : bool :=
  ident (SymName s) &&
  (String.eqb (PkgName (SymPackage s)) "" || ident (PkgName (SymPackage s))).
Definition names_ok {T} (l : list (ArgType_ T)) : bool :=
  forallb (fun a => String.eqb (ArgName a) "" || ident (ArgName a)) l.
Definition type_name (t : TypeName) : bool :=
  match t with TBasic _ | TNamed _ => true | _ => false end.
Definition embeddable (t : TypeName) : bool :=
  match t with TPtr e => type_name e | _ => type_name t end.
Definition recv_chan (t : TypeName) : bool := match t with TChan _ d => (d =? 1)%Z | _ => false end.

Fixpoint text_ok (t : TypeName) : bool :=
  match t with
  | TNil | TBasic _ => true
  | TNamed s => sym_ok s
  | TPtr e | TSlice e | TArray e _ => text_ok e
  | TMap e k => text_ok e && text_ok k
  | TChan e d => negb ((d =? 3)%Z && recv_chan e) && text_ok e
  | TFunc s =>
      match s with
      | mkSig a r _ =>
          names_ok a && names_ok r &&
          forallb (fun x => text_ok (ArgTy x)) a && forallb (fun x => text_ok (ArgTy x)) r
      end
  | TStruct fs =>
      forallb (fun f => (if String.eqb (FldName f) "" then embeddable (FldType f)
                         else ident (FldName f)) && text_ok (FldType f)) fs
  | TInterface ms es =>
      match ms, es with _ :: _, _ :: _ => false | _, _ => true end &&
      forallb sym_ok es &&
      forallb (fun m => match m with
        | mkMethod n s =>
            ident n &&
            match s with
            | mkSig a r _ =>
                names_ok a && names_ok r &&
                forallb (fun x => text_ok (ArgTy x)) a && forallb (fun x => text_ok (ArgTy x)) r
            end
        end) ms
  end.
Definition sig_text_ok (s : Signature) : bool :=
  names_ok (Args s) && names_ok (Results s) &&
  forallb (fun x => text_ok (ArgTy x)) (Args s) && forallb (fun x => text_ok (ArgTy x)) (Results s).

(** What the text of a type determines: import paths are not in the text, and missing names
    in a partly named parameter list read as blanks. *)
Definition erase_symbol (s : Symbol) : Symbol :=
  mkSymbol (mkPackage "" (PkgName (SymPackage s))) (SymName s).
Definition erase_args {T} (g : T -> T) (l : list (ArgType_ T)) : list (ArgType_ T) :=
  map (fun a => match a with
                | mkArg n t => mkArg (if has_names l && String.eqb n "" then "_" else n) (g t)
                end) l.
Definition erase_sig {T} (g : T -> T) (s : Signature_ T) : Signature_ T :=
  match s with mkSig a r v => mkSig (erase_args g a) (erase_args g r) v end.
Fixpoint erase (t : TypeName) : TypeName :=
  match t with
  | TNil => TNil
  | TBasic k => TBasic k
  | TNamed s => TNamed (erase_symbol s)
  | TPtr e => TPtr (erase e)
  | TSlice e => TSlice (erase e)
  | TArray e n => TArray (erase e) n
  | TMap e k => TMap (erase e) (erase k)
  | TChan e d => TChan (erase e) d
  | TFunc s => TFunc (erase_sig erase s)
  | TStruct fs => TStruct (map (fun f => match f with mkField n t tag => mkField n (erase t) tag end) fs)
  | TInterface ms es =>
      TInterface (map (fun m => match m with mkMethod n s => mkMethod n (erase_sig erase s) end) ms)
                 (map erase_symbol es)
  end.
(** No unqualified symbol of the type is the name of a basic type. *)
Definition basic_names : list string :=
  ["bool"; "string"; "int"; "int8"; "int16"; "rune"; "int64"; "uint"; "byte"; "uint16"; "uint32";
   "uint64"; "uintptr"; "float32"; "float64"; "complex64"; "complex128"].
Definition no_shadow (t : TypeName) : bool :=
  forallb (fun s => negb (String.eqb (PkgName (SymPackage s)) "" &&
                          existsb (String.eqb (SymName s)) basic_names)) (symbols_of t).

(** Resolving the qualifiers of a parsed type through a file's import list: each must be
    introduced by exactly one import; the result names packages by import path. *)
Section Resolve.
Variable real : string -> string.
Variable specs : list ImportSpec.
Definition resolve_qual (q : option string) : option (option string) :=
  match q with
  | None => Some None
  | Some q =>
      match filter (fun s => String.eqb (effective_name real s) q) specs with
      | [s] => Some (Some (SpecPath s))
      | _ => None
      end
  end.
Definition obind {A B} (o : option A) (f : A -> option B) : option B :=
  match o with Some a => f a | None => None end.
Fixpoint all_some {A} (l : list (option A)) : option (list A) :=
  match l with
  | [] => Some []
  | x :: r => obind x (fun a => obind (all_some r) (fun s => Some (a :: s)))
  end.
Fixpoint resolve_type (g : gotype) : option gotype :=
  match g with
  | GName q n => obind (resolve_qual q) (fun p => Some (GName p n))
  | GPtr e => obind (resolve_type e) (fun e => Some (GPtr e))
  | GSlice e => obind (resolve_type e) (fun e => Some (GSlice e))
  | GArray n e => obind (resolve_type e) (fun e => Some (GArray n e))
  | GMap k e => obind (resolve_type k) (fun k => obind (resolve_type e) (fun e => Some (GMap k e)))
  | GChan d e => obind (resolve_type e) (fun e => Some (GChan d e))
  | GFunc ps rs =>
      obind (all_some (map (fun '(n, d, t) => obind (resolve_type t) (fun t => Some (n, d, t))) ps))
        (fun ps =>
      obind (all_some (map (fun '(n, d, t) => obind (resolve_type t) (fun t => Some (n, d, t))) rs))
        (fun rs => Some (GFunc ps rs)))
  | GStruct fs =>
      obind (all_some (map (fun '(n, t, tag) => obind (resolve_type t) (fun t => Some (n, t, tag))) fs))
        (fun fs => Some (GStruct fs))
  | GInterface es =>
      obind (all_some (map (fun e =>
          match e with
          | inl (n, ps, rs) =>
              obind (all_some (map (fun '(n, d, t) => obind (resolve_type t) (fun t => Some (n, d, t))) ps))
                (fun ps =>
              obind (all_some (map (fun '(n, d, t) => obind (resolve_type t) (fun t => Some (n, d, t))) rs))
                (fun rs => Some (inl (n, ps, rs))))
          | inr (q, n) => obind (resolve_qual q) (fun p => Some (inr (p, n)))
          end) es))
        (fun es => Some (GInterface es))
  end.
End Resolve.
(** The package of a symbol as seen from package [own]: its import path, or none for a name
    of [own] itself or a predeclared name. *)
Definition path_qualifier (own : string) (s : Symbol) : option string :=
  if has_package s && negb (String.eqb (sym_path s) own) then Some (sym_path s) else None.
(** Every name requested for an import is usable as a qualifier. *)
Definition usable_requests (c : call) : Prop :=
  forall p n, In (p, n) (requests c) ->
    usable_alias (if String.eqb n "" then path_Base p else n) = true.
