(** Specification: the comments of Go source and what they are attached to (Go spec: Comments;
    go/ast: comment groups, Doc and Comment of declarations, specs and fields; go doc: "a comment
    directly preceding a declaration, with no intervening blank line").  Only line comments are
    attached; general comments are skipped, as gopoet never writes any. *)
From Verif Require Import Base GoPath Types SpecTypes Imports SpecImports SpecGo SpecRender World SpecFile SpecDecl.

(** ** Source as tokens, comments and line ends: the lexer of [SpecFile] with the comments kept.
    [acc] is the comment read so far, without the slashes. *)
Inductive event :=
| ETok (t : token)
| ECom (text : string)
| ELine.
(** A line break that is not inside a literal or a general comment. *)
Definition line_end (s : fstate) (c : ascii) : bool :=
  is_newline c && match s with
                  | FCode st _ => negb (in_literal st)
                  | FSlash _ | FComment _ => true
                  | FBlock _ _ | FStar _ _ => false
                  end.
Definition in_comment (s : fstate) : bool := match s with FComment _ => true | _ => false end.
Definition estep (s : fstate) (acc : string) (c : ascii) : option (list event * fstate * string) :=
  match fstep s c with
  | None => None
  | Some (ts, s') =>
      Some ((if in_comment s && is_newline c then [ECom acc] else []) ++ map ETok ts
              ++ (if line_end s c then [ELine] else []),
            s', if in_comment s && negb (is_newline c) then snoc acc c else "")
  end.
Fixpoint elexer (s : fstate) (acc : string) (text : string) : option (list event) :=
  match text with
  | EmptyString => option_map (fun ts => (if in_comment s then [ECom acc] else []) ++ map ETok ts) (fend s)
  | String c r =>
      match estep s acc c with
      | Some (es, s', acc') => option_map (app es) (elexer s' acc' r)
      | None => None
      end
  end.
Definition events (text : string) : option (list event) := elexer (FCode LStart false) "" text.
(** Without comments and line ends these are the tokens. *)
Definition event_tokens (es : list event) : list token :=
  flat_map (fun e => match e with ETok t => [t] | _ => [] end) es.

(** ** What the comments belong to *)
Inductive note :=
| NDoc (lines : list string) (t : token)  (* lines directly above the line that starts with [t] *)
| NLoose (lines : list string)            (* lines followed by a blank line or nothing *)
| NLine (text : string).                  (* at the end of a line with code *)
(** What the current line contains so far. *)
Inductive line := LEmpty | LComment | LTokens.
(** [p]: the comment lines directly above. *)
Definition flush (p : list string) : list note := match p with [] => [] | _ => [NLoose p] end.
Definition above (p : list string) (t : token) : list note := match p with [] => [] | _ => [NDoc p t] end.
Fixpoint scan (p : list string) (l : line) (es : list event) : list note * (list string * line) :=
  match es with
  | [] => ([], (p, l))
  | ETok t :: r => let '(ns, q) := scan [] LTokens r in (above p t ++ ns, q)
  | ECom s :: r =>
      match l with
      | LTokens => let '(ns, q) := scan p LTokens r in (NLine s :: ns, q)
      | _ => scan (p ++ [s]) LComment r
      end
  | ELine :: r =>
      match l with
      | LEmpty => let '(ns, q) := scan [] LEmpty r in (flush p ++ ns, q)
      | _ => scan p LEmpty r
      end
  end.
Definition notes (es : list event) : list note :=
  let '(ns, (p, _)) := scan [] LEmpty es in ns ++ flush p.
(** The comments of a source text, in order. *)
Definition comments (text : string) : option (list note) := option_map notes (events text).

Example comments_ex : comments (
  "// Copyright" ++ nl ++ "// me" ++ nl ++ nl ++ "// Doc" ++ nl ++ "package p // import ""x""" ++ nl ++ nl ++
  "// one" ++ nl ++ "type T struct { // open" ++ nl ++ "  // two" ++ nl ++ "  // three" ++ nl ++ "  A int // four" ++ nl ++
  "  // five" ++ nl ++ nl ++ "  B string `//`" ++ nl ++ "  // six" ++ nl ++ "}" ++ nl ++ "// seven" ++ nl)%string =
  Some [NLoose [" Copyright"; " me"]; NDoc [" Doc"] (TKw "package"); NLine " import ""x"""; NDoc [" one"] (TKw "type");
        NLine " open"; NDoc [" two"; " three"] (TIdent "A"); NLine " four"; NLoose [" five"]; NDoc [" six"] (TOp "}");
        NLoose [" seven"]].
Proof. vm_compute. reflexivity. Qed.

(** ** The comments of a file of builder objects *)
(** A comment is written a line at a time, each after two slashes and a space. *)
Definition comment_lines (c : string) : list string :=
  if String.eqb c "" then [] else map (fun l => (" " ++ l)%string) (split_on (ch 10) c).
Definition doc (c : string) (t : token) : list note := above (comment_lines c) t.

Section Notes.
Context {TD : Type}.
Variables (w : World TD) (code : nat -> option string).
(** the first token of a name of another package, of an embedded field *)
Definition name_head (q : option string) (n : string) : token := TIdent match q with Some p => p | None => n end.
Definition type_head (g : gotype) : token :=
  match g with
  | GName q n => name_head q n
  | _ => TOp "*"
  end.
Definition field_head (F : FieldSpec) : token :=
  if String.eqb (FSName F) "" then
    match FSType F with
    | NoType => TOp ""                                         (* not a field: no meaning *)
    | IsName t => type_head (denote t)
    | IsSpec id => match obind (nth_error (types w) id) (fun T =>
                           if String.eqb (TSName T) "" then Some (denote (TSUnderlying T)) else named_spec w T) with
                   | Some g => type_head g
                   | None => TOp ""                            (* not a field: no meaning *)
                   end
    end
  else TIdent (FSName F).
Definition element_notes (e : InterfaceElement) : list note :=
  match e with
  | InterfaceEmbed c s _ => doc c (name_head (qualifier s) (SymName s))
  | InterfaceMethod c n _ _ => doc c (TIdent n)
  end.
(** The members of a type spec, in order; a field whose type is an unnamed spec is followed by
    the members of that spec.  Types given as type names carry no comments. *)
Fixpoint spec_notes (fuel : nat) (T : TypeSpec) : list note :=
  match fuel with
  | O => []
  | S fuel' =>
      match TSUnderlying T with
      | TStruct _ =>
          flat_map (fun id =>
            match nth_error (fields w) id with
            | None => []
            | Some F =>
                doc (FSComment F) (field_head F) ++
                match FSType F with
                | IsSpec ts =>
                    match nth_error (types w) ts with
                    | Some T' => if String.eqb (TSName T') "" then spec_notes fuel' T' else []
                    | None => []
                    end
                | _ => []
                end
            end) (TSStruct T)
      | TInterface _ _ =>
          flat_map (fun id => match nth_error (ielems w) id with Some e => element_notes e | None => [] end)
                   (TSInterface T)
      | _ => []
      end
  end.
(** Comments inside code.  Comment lines after an initial value would stand above whatever is
    written next. *)
Definition init_notes (cb : nat) : option (list note) :=
  obind (code cb) (fun s => obind (events (s ++ newline)) (fun es =>
  match scan [] LTokens es with
  | (ns, ([], _)) => Some ns
  | _ => None
  end)).
Definition body_notes (cb : nat) : option (list note) :=
  obind (code cb) (fun s => option_map (fun es => fst (scan [] LEmpty (es ++ [ETok (TOp "}")]))) (events s)).
Definition value_notes (v : ValueSpec) : option (list note) :=
  match VInit v with None => Some [] | Some cb => init_notes cb end.

(** A parenthesised group has its own comment above the keyword and those of its members above
    them; a single declaration has the comment of its only member above the keyword. *)
Definition decl_notes {A} (kw comment : string) (specs : list A) (c : A -> string) (head : A -> token)
           (inner : A -> option (list note)) : option (list note) :=
  option_map (fun l =>
      if grouped comment specs
      then doc comment (TKw kw) ++ List.concat (map (fun '(a, ns) => doc (c a) (head a) ++ ns) (combine specs l))
      else flat_map (fun a => doc (c a) (TKw kw)) specs ++ List.concat l)
    (all_some (map inner specs)).
Definition value_head (v : ValueSpec) : token := TIdent match VNames v with n :: _ => n | [] => "" end.
Definition fileelement_notes (fuel : nat) (e : FileElement) : option (list note) :=
  match e with
  | EConst d =>
      obind (nth_error (constDecls w) d) (fun D => obind (lookup_all (consts w) (VDSpecs D)) (fun l =>
      decl_notes "const" (VDComment D) l VComment value_head value_notes))
  | EVar d =>
      obind (nth_error (varDecls w) d) (fun D => obind (lookup_all (vars w) (VDSpecs D)) (fun l =>
      decl_notes "var" (VDComment D) l VComment value_head value_notes))
  | EType d =>
      obind (nth_error (typeDecls w) d) (fun D => obind (lookup_all (types w) (TDTypes D)) (fun l =>
      decl_notes "type" (TDComment D) l TSComment (fun T => TIdent (TSName T)) (fun T => Some (spec_notes fuel T))))
  | EFunc fn =>
      obind (nth_error (funcs w) fn) (fun f => option_map (app (doc (FNComment f) (TKw "func"))) (body_notes (FNBody f)))
  end.
(** The file comment stands alone, the package comment above the package clause; the canonical
    import path is in a comment behind it, here [canon]. *)
Definition file_notes (fuel : nat) (F : GoFile) (canon : string) : option (list note) :=
  option_map (fun l =>
      flush (comment_lines (FFileComment F)) ++ doc (FPackageComment F) (TKw "package") ++
      (if String.eqb (FCanonical F) "" then [] else [NLine canon]) ++ List.concat l)
    (all_some (map (fileelement_notes fuel) (FElements F))).
End Notes.
