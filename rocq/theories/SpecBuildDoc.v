(** Specification: the comments a description of a file asks for, read off the description
    alone, each with the lines it is to have and the token it is to stand above. *)
From Verif Require Import Base GoPath Types SpecTypes Imports SpecImports SpecGo SpecRender World SpecWorld SpecFile SpecDecl SpecDoc SpecBuild.

(** The name a list of imports gives to the package of a symbol; none for the package [own]. *)
Definition import_prefix (real : string -> string) (specs : list ImportSpec) (own : string) (s : Symbol) : option string :=
  obind (path_qualifier own s) (fun p =>
  option_map (effective_name real) (find (fun i => String.eqb (SpecPath i) p) specs)).

Section Notes.
Variables (q : Symbol -> option string) (code : nat -> option string).
Definition idesc_notes (e : idesc) : list note :=
  match e with
  | IEmbed c s => doc c (name_head (q s) (SymName s))
  | IMethod c n _ _ _ => doc c (TIdent n)
  end.
(** Above a field; then, for a field whose type is described, the comments in it. *)
Fixpoint tdesc_notes (t : tdesc) : list note :=
  match t with
  | DName _ => []
  | DStruct fs =>
      flat_map (fun '(c, n, _, t) =>
        doc c (if String.eqb n "" then type_head (denote_with q (type_of t)) else TIdent n) ++ tdesc_notes t) fs
  | DInterface es => flat_map idesc_notes es
  | DSpec t => tdesc_notes t
  end.
Definition vdesc_head (v : vdesc nat) : token := TIdent match vNames v with n :: _ => n | [] => "" end.
(** The type of a const or var is written in one line, without comments. *)
Definition vdesc_notes (v : vdesc nat) : option (list note) :=
  match vInit v with None => Some [] | Some c => init_notes code c end.
Definition group_values (kw c : string) (l : list (vdesc nat)) : option (list note) :=
  decl_notes kw c l vComment vdesc_head vdesc_notes.
Definition group_types (c : string) (l : list tsdesc) : option (list note) :=
  decl_notes "type" c l tsComment (fun t => TIdent (tsName t)) (fun t => Some (tdesc_notes (body_type (tsBody t)))).
Definition edesc_notes (e : edesc nat) : option (list note) :=
  match e with
  | DConsts c l m => group_values "const" c (l ++ m)
  | DOneConst v => group_values "const" "" [v]
  | DVars c l m => group_values "var" c (l ++ m)
  | DOneVar v => group_values "var" "" [v]
  | DTypes c l m => group_types c (l ++ m)
  | DOneType t => group_types "" [t]
  | DFunction f => option_map (app (doc (fnComment f) (TKw "func"))) (body_notes code (fnCode f))
  end.
Definition filedesc_notes (d : filedesc nat) (canon : string) : option (list note) :=
  option_map (fun l =>
      flush (comment_lines (fdFileComment d)) ++ doc (fdPackageComment d) (TKw "package") ++
      (if String.eqb (fdCanonical d) "" then [] else [NLine canon]) ++ List.concat l)
    (all_some (map edesc_notes (fdElements d))).
End Notes.
