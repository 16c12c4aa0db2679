(** Specification vocabulary for types: well-formedness, the symbols a type mentions, and
    the structural renaming of those symbols.  Independent of the code under study. *)
From Verif Require Import Base Types.

(** A type as the constructors accept it, with no nil component anywhere:
    basic kinds are basic, lengths non-negative, directions valid, and the last argument of
    a variadic signature is a slice. *)
Definition is_slice (t : TypeName) : bool := match t with TSlice _ => true | _ => false end.
Definition variadic_ok (s : Signature) : bool :=
  negb (IsVariadic s) ||
  match rev (Args s) with [] => false | a :: _ => is_slice (ArgTy a) end.

Fixpoint wf (t : TypeName) : bool :=
  match t with
  | TNil => false
  | TBasic k => is_basic k
  | TNamed _ => true
  | TPtr e | TSlice e => wf e
  | TArray e n => (0 <=? n)%Z && wf e
  | TMap e k => wf e && wf k
  | TChan e d => ((1 <=? d) && (d <=? 3))%Z && wf e
  | TFunc s =>
      variadic_ok s &&
      match s with
      | mkSig args results _ =>
          forallb (fun a => wf (ArgTy a)) args && forallb (fun a => wf (ArgTy a)) results
      end
  | TStruct fs => forallb (fun f => wf (FldType f)) fs
  | TInterface ms _ =>
      forallb (fun m =>
        match m with
        | mkMethod _ s =>
            variadic_ok s &&
            match s with
            | mkSig args results _ =>
                forallb (fun a => wf (ArgTy a)) args && forallb (fun a => wf (ArgTy a)) results
            end
        end) ms
  end.
Definition wf_sig (s : Signature) : bool :=
  variadic_ok s &&
  forallb (fun a => wf (ArgTy a)) (Args s) && forallb (fun a => wf (ArgTy a)) (Results s).

(** Apply [f] to every symbol mentioned by a type; everything else is kept. *)
Definition map_args {T} (g : T -> T) (l : list (ArgType_ T)) : list (ArgType_ T) :=
  map (fun a => match a with mkArg n t => mkArg n (g t) end) l.
Definition map_sig {T} (g : T -> T) (s : Signature_ T) : Signature_ T :=
  match s with mkSig a r v => mkSig (map_args g a) (map_args g r) v end.
Fixpoint map_symbols (f : Symbol -> Symbol) (t : TypeName) : TypeName :=
  match t with
  | TNil => TNil
  | TBasic k => TBasic k
  | TNamed s => TNamed (f s)
  | TPtr e => TPtr (map_symbols f e)
  | TSlice e => TSlice (map_symbols f e)
  | TArray e n => TArray (map_symbols f e) n
  | TMap e k => TMap (map_symbols f e) (map_symbols f k)
  | TChan e d => TChan (map_symbols f e) d
  | TFunc s => TFunc (map_sig (map_symbols f) s)
  | TStruct fs =>
      TStruct (map (fun x => match x with mkField n t tag => mkField n (map_symbols f t) tag end) fs)
  | TInterface ms es =>
      TInterface
        (map (fun m => match m with mkMethod n s => mkMethod n (map_sig (map_symbols f) s) end) ms)
        (map f es)
  end.

(** All symbols mentioned by a type. *)
Definition args_symbols {T} (g : T -> list Symbol) (l : list (ArgType_ T)) : list Symbol :=
  flat_map (fun a => match a with mkArg _ t => g t end) l.
Definition sig_symbols_ {T} (g : T -> list Symbol) (s : Signature_ T) : list Symbol :=
  match s with mkSig a r _ => args_symbols g a ++ args_symbols g r end.
Fixpoint symbols_of (t : TypeName) : list Symbol :=
  match t with
  | TNil | TBasic _ => []
  | TNamed s => [s]
  | TPtr e | TSlice e | TArray e _ | TChan e _ => symbols_of e
  | TMap e k => symbols_of k ++ symbols_of e
  | TFunc s => sig_symbols_ symbols_of s
  | TStruct fs => flat_map (fun x => match x with mkField _ t _ => symbols_of t end) fs
  | TInterface ms es =>
      es ++ flat_map (fun m => match m with mkMethod _ s => sig_symbols_ symbols_of s end) ms
  end.
Definition sig_symbols (s : Signature) : list Symbol := sig_symbols_ symbols_of s.

(** A symbol that refers to some package (as opposed to a predeclared or local name). *)
Definition has_package (s : Symbol) : bool :=
  negb (String.eqb (PkgName (SymPackage s)) "" && String.eqb (ImportPath (SymPackage s)) "").
(** Its import path. *)
Definition sym_path (s : Symbol) : string := ImportPath (SymPackage s).
