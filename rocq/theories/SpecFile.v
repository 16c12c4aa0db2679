(** Specification: Go source with line breaks and comments (Go spec: Comments, Semicolons,
    Source file organization, Import / Type / Constant / Variable / Function declarations),
    independent of gopoet.  Statements and expressions are only delimited, not parsed. *)
From Verif Require Import Base SpecLit SpecImports SpecGo.

(** ** Lexing: the token grammar of [SpecGo] with line breaks, comments, the division
    operators and automatic semicolons.  [ends]: a line break now would insert a semicolon. *)
Inductive fstate :=
| FCode (st : lstate) (ends : bool)
| FSlash (ends : bool)
| FComment (ends : bool)
| FBlock (broken ends : bool)  (* general comment; [broken]: it contains a line break *)
| FStar (broken ends : bool).

(** "after a line's final token if that token is an identifier, a literal, one of the keywords
    break, continue, fallthrough, return, or one of ++ -- ) ] }" *)
Definition ends_line (t : token) : bool :=
  match t with
  | TIdent _ | TInt _ | TNum _ | TChar _ | TStr _ => true
  | TKw k => existsb (String.eqb k) ["break"; "continue"; "fallthrough"; "return"]
  | TOp o => existsb (String.eqb o) ["++"; "--"; ")"; "]"; "}"]
  end.
Definition ends_after (e : bool) (ts : list token) : bool :=
  fold_left (fun _ t => ends_line t) ts e.
Definition semi (e : bool) : list token := if e then [TOp ";"] else [].
Definition is_newline (c : ascii) : bool := Ascii.eqb c (ch 10).
Definition is_slash (c : ascii) : bool := Ascii.eqb c "/".
(** Inside a string literal line breaks and slashes are not special. *)
Definition in_literal (st : lstate) : bool :=
  match st with LRaw _ | LStr _ | LEsc _ | LChar _ | LCharEsc _ => true | _ => false end.

Definition fstep (s : fstate) (c : ascii) : option (list token * fstate) :=
  match s with
  | FCode st e =>
      if negb (in_literal st) && (is_newline c || is_slash c) then
        match lex_end st with
        | Some ts =>
            if is_newline c then Some (ts ++ semi (ends_after e ts), FCode LStart false)
            else Some (ts, FSlash (ends_after e ts))
        | None => None
        end
      else match lex_step st c with
           | Some (ts, st') => Some (ts, FCode st' (ends_after e ts))
           | None => None
           end
  | FSlash e =>
      if is_slash c then Some ([], FComment e)
      else if Ascii.eqb c "*" then Some ([], FBlock false e)
      else if Ascii.eqb c "=" then Some ([TOp "/="], FCode LStart false)
      else if is_newline c then Some ([TOp "/"], FCode LStart false)
      else match lex_flush (TOp "/") c with
           | Some (ts, st) => Some (ts, FCode st (ends_after e ts))
           | None => None
           end
  | FComment e => if is_newline c then Some (semi e, FCode LStart false) else Some ([], FComment e)
  | FBlock b e => if Ascii.eqb c "*" then Some ([], FStar b e) else Some ([], FBlock (b || is_newline c) e)
  | FStar b e =>
      if is_slash c then if b then Some (semi e, FCode LStart false) else Some ([], FCode LStart e)
      else if Ascii.eqb c "*" then Some ([], FStar b e) else Some ([], FBlock (b || is_newline c) e)
  end.
Definition fend (s : fstate) : option (list token) :=
  match s with
  | FCode st e => match lex_end st with Some ts => Some (ts ++ semi (ends_after e ts)) | None => None end
  | FSlash _ => Some [TOp "/"]
  | FComment e => Some (semi e)
  | FBlock _ _ | FStar _ _ => None
  end.
Fixpoint flexer (s : fstate) (text : string) : option (list token) :=
  match text with
  | EmptyString => fend s
  | String c r =>
      match fstep s c with
      | Some (ts, s') => omap (app ts) (flexer s' r)
      | None => None
      end
  end.
(** The tokens of a piece of source that starts at the beginning of a line. *)
Definition tokens (text : string) : option (list token) := flexer (FCode LStart false) text.

(** ** Parsing *)
(** PackageClause ";" { ImportDecl ";" } with ungrouped imports.  An import is its explicit
    name, if any, and its path. *)
Definition ppackage (ts : list token) : option (string * list token) :=
  match ts with
  | TKw k :: TIdent n :: r =>
      if String.eqb k "package" then bind (expect ";" r) (fun r => Some (n, r)) else None
  | _ => None
  end.
Fixpoint pimports (fuel : nat) (ts : list token) : list (option string * string) * list token :=
  match fuel with
  | O => ([], ts)
  | S f =>
      match ts with
      | TKw k :: TStr p :: TOp o :: r =>
          if String.eqb k "import" && String.eqb o ";"
          then let '(l, r') := pimports f r in ((None, p) :: l, r') else ([], ts)
      | TKw k :: TIdent a :: TStr p :: TOp o :: r =>
          if String.eqb k "import" && String.eqb o ";"
          then let '(l, r') := pimports f r in ((Some a, p) :: l, r') else ([], ts)
      | _ => ([], ts)
      end
  end.
(** The package name, the imports and the remaining tokens of a source file. *)
Definition pheader (ts : list token)
  : option (string * list (option string * string) * list token) :=
  bind (ppackage ts) (fun '(n, r) =>
  let '(l, r') := pimports (List.length r) r in Some (n, l, r')).

(** TypeSpec = identifier [ "=" ] Type *)
Definition ptypespec (ts : list token) : option (string * bool * gotype * list token) :=
  match ts with
  | TIdent n :: r =>
      let '(alias, r1) := match expect "=" r with Some r1 => (true, r1) | None => (false, r) end in
      bind (ptype (fuel_for r1) r1) (fun '(t, r2) => Some (n, alias, t, r2))
  | _ => None
  end.
Section Group.
Context {A : Type} (p : list token -> option (A * list token)).
(** { Spec ";" } ")" *)
Fixpoint pgroup (fuel : nat) (ts : list token) : option (list A * list token) :=
  match fuel with
  | O => None
  | S f =>
      match expect ")" ts with
      | Some r => Some ([], r)
      | None =>
          bind (p ts) (fun '(a, r) =>
          bind (expect ";" r) (fun r1 =>
          bind (pgroup f r1) (fun '(l, r2) => Some (a :: l, r2))))
      end
  end.
(** keyword Spec ";" or keyword "(" { Spec ";" } ")" ";"; the flag tells which *)
Definition pdecl (kw : string) (ts : list token) : option (bool * list A * list token) :=
  match ts with
  | TKw k :: r =>
      if String.eqb k kw then
        match expect "(" r with
        | Some r1 =>
            bind (pgroup (List.length ts) r1) (fun '(l, r2) =>
            bind (expect ";" r2) (fun r3 => Some (true, l, r3)))
        | None =>
            bind (p r) (fun '(a, r1) => bind (expect ";" r1) (fun r2 => Some (false, [a], r2)))
        end
      else None
  | _ => None
  end.
End Group.
(** TypeDecl *)
Definition ptypedecl := pdecl ptypespec "type".

(** IdentifierList [ Type ] of a constant or variable declaration, up to "=" or ";" *)
Fixpoint pnames (fuel : nat) (ts : list token) : option (list string * list token) :=
  match fuel with
  | O => None
  | S f =>
      match ts with
      | TIdent n :: r =>
          match expect "," r with
          | Some r1 => bind (pnames f r1) (fun '(l, r2) => Some (n :: l, r2))
          | None => Some ([n], r)
          end
      | _ => None
      end
  end.
Definition pvaluespec (ts : list token) : option ((list string * option gotype) * list token) :=
  bind (pnames (List.length ts) ts) (fun '(l, r) =>
  match r with
  | TOp o :: _ =>
      if String.eqb o "=" || String.eqb o ";" then Some (l, None, r)
      else bind (ptype (fuel_for r) r) (fun '(t, r1) => Some (l, Some t, r1))
  | _ => bind (ptype (fuel_for r) r) (fun '(t, r1) => Some (l, Some t, r1))
  end).

(** "func" [ Receiver ] identifier Signature: the receiver's name, whether it is a pointer, its
    type name; the function's name and signature; what follows (the body) *)
Definition preceiver (ts : list token) : option (option string * bool * string * list token) :=
  bind (expect "(" ts) (fun r =>
  let '(n, r1) :=
    match r with
    | TIdent n :: ((TIdent _ :: _) as r1) => (Some n, r1)
    | TIdent n :: ((TOp o :: _) as r1) => if String.eqb o "*" then (Some n, r1) else (None, r)
    | _ => (None, r)
    end in
  let '(p, r2) := match expect "*" r1 with Some r2 => (true, r2) | None => (false, r1) end in
  match r2 with
  | TIdent t :: r3 => bind (expect ")" r3) (fun r4 => Some (n, p, t, r4))
  | _ => None
  end).
Definition pfunc (ts : list token)
  : option (option (option string * bool * string) * string * (list gparam * list gparam) * list token) :=
  match ts with
  | TKw k :: r =>
      if String.eqb k "func" then
        bind match preceiver r with
             | Some (rc, r1) => Some (Some rc, r1)
             | None => Some (None, r)
             end (fun '(rc, r1) =>
        match r1 with
        | TIdent n :: r2 =>
            bind (psig (fuel_for r2) r2) (fun '(ps, rs, r3) => Some (rc, n, (ps, rs), r3))
        | _ => None
        end)
      else None
  | _ => None
  end.

(** Expressions and statements are only delimited: an initial value extends to the next
    semicolon outside brackets, a body to the brace that closes it. *)
Definition is_op (o : string) (t : token) : bool := match t with TOp p => String.eqb p o | _ => false end.
Definition depth_after (d : nat) (t : token) : option nat :=
  if existsb (fun o => is_op o t) ["("; "["; "{"] then Some (S d)
  else if existsb (fun o => is_op o t) [")"; "]"; "}"]
       then match d with O => None | S k => Some k end
       else Some d.
Fixpoint until_semi (d : nat) (ts : list token) : option (list token * list token) :=
  match ts with
  | [] => None
  | t :: r =>
      if Nat.eqb d 0 && is_op ";" t then Some ([], ts)
      else bind (depth_after d t) (fun d' =>
           bind (until_semi d' r) (fun '(l, r') => Some (t :: l, r')))
  end.
Fixpoint until_brace (d : nat) (ts : list token) : option (list token * list token) :=
  match ts with
  | [] => None
  | t :: r =>
      if Nat.eqb d 0 && is_op "}" t then Some ([], r)
      else bind (depth_after d t) (fun d' =>
           bind (until_brace d' r) (fun '(l, r') => Some (t :: l, r')))
  end.

(** ConstSpec = IdentifierList [ [ Type ] "=" ExpressionList ]
    VarSpec = IdentifierList ( Type [ "=" ExpressionList ] | "=" ExpressionList ) *)
Definition gvalue : Type := list string * option gotype * option (list token).
Definition value_form (const : bool) (t : option gotype) (i : option (list token)) : bool :=
  match t, i with
  | None, None => const
  | Some _, None => negb const
  | _, Some [] => false
  | _, Some (_ :: _) => true
  end.
Definition pvalue (const : bool) (ts : list token) : option (gvalue * list token) :=
  bind (pvaluespec ts) (fun '(n, t, r) =>
  bind match expect "=" r with
       | Some r1 => bind (until_semi 0 r1) (fun '(i, r2) => Some (Some i, r2))
       | None => Some (None, r)
       end (fun '(i, r2) => if value_form const t i then Some ((n, t, i), r2) else None)).

(** Top-level declarations; the boolean tells a parenthesised group. *)
Inductive gdecl :=
| DConst (grouped : bool) (l : list gvalue)
| DVar (grouped : bool) (l : list gvalue)
| DType (grouped : bool) (l : list (string * bool * gotype))
| DFunc (receiver : option (option string * bool * string)) (name : string)
        (sig : list gparam * list gparam) (body : list token).
Definition pfuncdecl (ts : list token) : option (gdecl * list token) :=
  bind (pfunc ts) (fun '(rc, n, s, r) =>
  bind (expect "{" r) (fun r1 =>
  bind (until_brace 0 r1) (fun '(b, r2) =>
  bind (expect ";" r2) (fun r3 => Some (DFunc rc n s b, r3))))).
Definition ptop (ts : list token) : option (gdecl * list token) :=
  match ts with
  | TKw k :: _ =>
      if String.eqb k "const"
      then bind (pdecl (pvalue true) "const" ts) (fun '(g, l, r) => Some (DConst g l, r))
      else if String.eqb k "var"
      then bind (pdecl (pvalue false) "var" ts) (fun '(g, l, r) => Some (DVar g l, r))
      else if String.eqb k "type"
      then bind (ptypedecl ts) (fun '(g, l, r) => Some (DType g l, r))
      else pfuncdecl ts
  | _ => None
  end.
Fixpoint ptops (fuel : nat) (ts : list token) : option (list gdecl) :=
  match ts with
  | [] => Some []
  | _ =>
      match fuel with
      | O => None
      | S f => bind (ptop ts) (fun '(d, r) => bind (ptops f r) (fun l => Some (d :: l)))
      end
  end.
(** A source file: package name, imports, declarations. *)
Record gfile := mkGFile
  { GPackage : string; GImports : list (option string * string); GDecls : list gdecl }.
Definition parse_file (text : string) : option gfile :=
  bind (tokens text) (fun ts =>
  bind (pheader ts) (fun '(n, l, r) =>
  bind (ptops (List.length r) r) (fun ds => Some (mkGFile n l ds)))).

Definition nl : string := newline.
Example file_ex1 : option_map pheader (tokens (
  "// Copyright" ++ nl ++ nl ++ "// Package foo" ++ nl ++ "package foo // import ""a.b/foo""" ++ nl ++ nl ++
  "import ""fmt""" ++ nl ++ "import x ""a/y""" ++ nl ++ nl ++ "type T = int" ++ nl)%string) =
  Some (Some ("foo", [(None, "fmt"); (Some "x", "a/y")],
              [TKw "type"; TIdent "T"; TOp "="; TIdent "int"; TOp ";"])).
Proof. vm_compute. reflexivity. Qed.
Example file_ex2 : option_map ptypedecl (tokens (
  "type (" ++ nl ++ "// one" ++ nl ++ "T  struct {" ++ nl ++ "A int `x`" ++ nl ++ "*p.B" ++ nl ++ "}" ++ nl ++
  "U = []int" ++ nl ++ ")" ++ nl)%string) =
  Some (Some (true, [("T", false, GStruct [(Some "A", GName None "int", "x"); (None, GPtr (GName (Some "p") "B"), "")]);
                     ("U", true, GSlice (GName None "int"))], [])).
Proof. vm_compute. reflexivity. Qed.
(** a tag after a struct type on the next line is a syntax error *)
Example file_ex3 : option_map ptypedecl (tokens (
  "type T struct {" ++ nl ++ "A struct {" ++ nl ++ "}" ++ nl ++ " `x`" ++ nl ++ "}" ++ nl)%string) = Some None.
Proof. vm_compute. reflexivity. Qed.
Example file_ex4 : option_map pfunc (tokens ("func (x *T) F(a int) error {" ++ nl)%string) =
  Some (Some (Some (Some "x", true, "T"), "F", ([(Some "a", false, GName None "int")], [(None, false, GName None "error")]),
              [TOp "{"])).
Proof. vm_compute. reflexivity. Qed.
Example file_ex5 : option_map (pdecl pvaluespec "var") (tokens ("var a, b map[string]int" ++ nl)%string) =
  Some (Some (false, [(["a"; "b"], Some (GMap (GName None "string") (GName None "int")))], [])).
Proof. vm_compute. reflexivity. Qed.
Example file_ex6 : parse_file (
  "package p" ++ nl ++ "import ""fmt""" ++ nl ++
  "const (" ++ nl ++ "A = iota" ++ nl ++ "B" ++ nl ++ ")" ++ nl ++
  "var x = f(func() {" ++ nl ++ "g()" ++ nl ++ "})" ++ nl ++
  "func (T) M(a int) {" ++ nl ++ "if a {" ++ nl ++ "h()" ++ nl ++ "}" ++ nl ++ "}" ++ nl)%string =
  Some (mkGFile "p" [(None, "fmt")]
   [DConst true [(["A"], None, Some [TIdent "iota"]); (["B"], None, None)];
    DVar false [(["x"], None, Some [TIdent "f"; TOp "("; TKw "func"; TOp "("; TOp ")"; TOp "{"; TIdent "g"; TOp "("; TOp ")";
                                    TOp ";"; TOp "}"; TOp ")"])];
    DFunc (Some (None, false, "T")) "M" ([(Some "a", false, GName None "int")], [])
      [TKw "if"; TIdent "a"; TOp "{"; TIdent "h"; TOp "("; TOp ")"; TOp ";"; TOp "}"; TOp ";"]]).
Proof. vm_compute. reflexivity. Qed.
(** a variable without type and value, a constant with a type but no value *)
Example file_ex7 : parse_file ("package p" ++ nl ++ "var x" ++ nl)%string = None.
Proof. vm_compute. reflexivity. Qed.
Example file_ex8 : parse_file ("package p" ++ nl ++ "const x int" ++ nl)%string = None.
Proof. vm_compute. reflexivity. Qed.
