(** Specification: how code made of text and arguments is read.  The code is scanned with its
    references left open; [fills] says which tokens stand in the file for them. *)
From Verif Require Import Base GoPath Types SpecTypes Imports SpecImports SpecLit Conv World SpecGo SpecRender SpecFile SpecDecl SpecWorld SpecQualify SpecBuild SpecFormat.

(** What code is read as: tokens, numbers and references. *)
Inductive item :=
| Tok (t : token)
| Num (z : Z)
| Ref (r : reference).

(** The tokens completed in a text and the state of the lexer after it. *)
Fixpoint scan (s : fstate) (text : string) : option (list token * fstate) :=
  match text with
  | EmptyString => Some ([], s)
  | String c r =>
      obind (fstep s c) (fun '(ts, s') => obind (scan s' r) (fun '(us, s2) => Some (ts ++ us, s2)))
  end.
(** Between two tokens, or after an operator that a word, a literal cannot continue. *)
Definition pending (s : fstate) : option (list token) :=
  match s with
  | FCode LStart _ => Some []
  | FCode (LOp o) _ => Some [TOp o]
  | FSlash _ => Some [TOp "/"]
  | _ => None
  end.
Definition at_start (s : fstate) : bool := match s with FCode LStart _ => true | _ => false end.
Definition ends_word (c : ascii) : bool := negb (is_ident_byte c).
Definition ends_number (c : ascii) : bool := negb (is_ident_byte c || Ascii.eqb c ".").
Definition by_text (v : ascii) : bool := Ascii.eqb v "s" || Ascii.eqb v "v".
Definition in_decimal (v : ascii) : bool := Ascii.eqb v "d" || Ascii.eqb v "v".
(** The next byte, if any, is of the text, of a string put into it or the quote of one, and satisfies [p]. *)
Fixpoint next (p : ascii -> bool) (l : list piece) : bool :=
  match l with
  | [] => true
  | Plain "" :: r => next p r
  | Plain (String c _) :: _ => p c
  | Put v (AString x) :: r =>
      if by_text v then match x with EmptyString => next p r | String c _ => p c end
      else Ascii.eqb v "q" && p (ch 34)
  | Put _ _ :: _ => false
  end.

(** The references considered: names that are identifiers, packages other than the file's own, methods given by value, types that
    have a text.  (Signatures are not written as such: C39.) *)
Definition readable (own : string) (a : Arg) (r : reference) : bool :=
  match r with
  | RPackage p => negb (String.eqb (ImportPath p) own)
  | RName s => ident (SymName s)
  | RMethod s m => ident (SymName s) && ident m && method_by_value a
  | RType t => wf t && text_ok t
  | RSignature _ => false
  end.
(** The text of the reference starts with a letter. *)
Definition starts_word (r : reference) : bool :=
  match r with
  | RType (TPtr _) | RType (TSlice _) | RType (TArray _ _) => false
  | RType (TChan _ d) => negb (d =? 1)%Z
  | _ => true
  end.

Section Items.
Context {TD : Type}.
Variables (own : string) (w : World TD).
Definition text_items (s : fstate) (x : string) (k : fstate -> option (list item)) : option (list item) :=
  obind (scan s x) (fun '(ts, s') => option_map (app (map Tok ts)) (k s')).
Fixpoint items (s : fstate) (l : list piece) : option (list item) :=
  match l with
  | [] => option_map (map Tok) (fend s)
  | Plain x :: r => text_items s x (fun s' => items s' r)
  | Put v (AString x) :: r =>
      if by_text v then text_items s x (fun s' => items s' r)
      else if Ascii.eqb v "q"
           then obind (pending s) (fun ts => option_map (app (map Tok (ts ++ [TStr x]))) (items (FCode LStart true) r))
           else None
  | Put v (AInt z) :: r =>
      if in_decimal v && next ends_number r then
        if (0 <=? z)%Z
        then obind (pending s) (fun ts => option_map (app (map Tok ts ++ [Num z])) (items (FCode LStart true) r))
        else obind (scan s "-") (fun '(ts, s') =>
             obind (pending s') (fun us => option_map (app (map Tok ts ++ map Tok us ++ [Num (- z)])) (items (FCode LStart true) r)))
      else None
  | Put v a :: r =>
      obind (refers_to w a) (fun x =>
      if by_text v && readable own a x && (at_start s || starts_word x) && next ends_word r
      then obind (pending s) (fun ts => option_map (app (map Tok ts ++ [Ref x])) (items (FCode LStart true) r))
      else None)
  end.
End Items.

(** ** The tokens of a reference *)
Section Tokens.
Variables (real : string -> string) (own : string) (specs : list ImportSpec).
Definition name_tokens (s : Symbol) (ts : list token) : Prop :=
  if has_package s
  then exists q, refers real own specs q (sym_path s) /\
       ts = if String.eqb q "" then [TIdent (SymName s)] else [TIdent q; TOp "."; TIdent (SymName s)]
  else ts = [TIdent (SymName s)].
Definition ref_tokens (r : reference) (ts : list token) : Prop :=
  match r with
  | RPackage p => exists q, refers real own specs q (ImportPath p) /\ q <> "" /\ ts = [TIdent q]
  | RName s => name_tokens s ts
  | RMethod s m => exists us, name_tokens s us /\ ts = us ++ [TOp "."; TIdent m]
  | RType t => exists g, ptype (fuel_for ts) ts = Some (g, []) /\
      resolve_type real specs g = Some (denote_with (path_qualifier own) t)
  | RSignature _ => False
  end.
End Tokens.
(** The tokens that the items stand for, if [T] gives those of the references. *)
Inductive fills (T : reference -> list token -> Prop) : list item -> list token -> Prop :=
| f_nil : fills T [] []
| f_tok t l ts : fills T l ts -> fills T (Tok t :: l) (t :: ts)
| f_num d z l ts : digits 0 d = Some z -> fills T l ts -> fills T (Num z :: l) (TInt d :: ts)
| f_ref r us l ts : T r us -> fills T l ts -> fills T (Ref r :: l) (us ++ ts).

(** A block of lines that are formatted from pieces. *)
Definition formatted {TD} (w : World TD) (cb : nat) (ls : list (list piece)) : Prop :=
  exists b, nth_error (blocks w) cb = Some b /\
    Forall2 (fun e l => exists args, e = Line (format_of l) args /\ nth_error (argss w) args = Some (args_of l) /\ verbs_ok l) b ls.

(** ** Use.  No reference stands after a dot, and packages stand before one. *)
Fixpoint selects (after_dot : bool) (l : list item) : bool :=
  match l with
  | [] => true
  | Tok t :: r => selects (is_op "." t) r
  | Num _ :: r => selects false r
  | Ref x :: r =>
      negb after_dot &&
      match x, r with
      | RPackage _, Tok t :: _ => is_op "." t
      | RPackage _, _ => false
      | _, _ => true
      end && selects false r
  end.
(** The calls of [c] print lines made of these pieces. *)
Definition prints {TD} (c : list (chunk TD)) (ls : list (list piece)) : Prop :=
  flat_map chunk_parts c = map (fun l => PFormat (format_of l) (args_of l)) ls /\ Forall verbs_ok ls.

(** ** Descriptions.  The pieces of code of a description, each with the text after it that ends its last token: a body consists of
    whole lines, an initial value stands at the end of a line. *)
Definition vended {C} (v : vdesc C) : list (C * string) := match vInit v with Some c => [(c, newline)] | None => [] end.
Definition eended {C} (e : edesc C) : list (C * string) :=
  match e with
  | DConsts _ l m | DVars _ l m => flat_map vended (l ++ m)
  | DOneConst v | DOneVar v => vended v
  | DTypes _ _ _ | DOneType _ => []
  | DFunction f => [(fnCode f, "")]
  end.
Definition ended {C} (d : filedesc C) : list (C * string) := flat_map eended (fdElements d).
(** The pieces of code of a parsed declaration; a newline after an initial value is a semicolon. *)
Definition gended (d : gdecl) : list (list token * list token) :=
  match d with
  | DConst _ l | DVar _ l => flat_map (fun v : gvalue => match snd v with Some i => [(i, [TOp ";"])] | None => [] end) l
  | DType _ _ => []
  | DFunc _ _ _ b => [(b, [])]
  end.
(** The tokens [ts], which [e] follows, are the planned code [c], which [z] follows, with the references as [T] says. *)
Definition reads_as {TD} own (w : World TD) T (c : list (chunk TD) * string) (t : list token * list token) : Prop :=
  forall ls its, prints (fst c) ls -> items own w (FCode LStart false) (concat ls ++ [Plain (snd c)]) = Some its ->
  fills T its (fst t ++ snd t).
(** Every reference in the planned code leads to a use of its package. *)
Definition all_selected {TD} own (w : World TD) (d : filedesc (list (chunk TD))) : Prop :=
  forall c z, In (c, z) (ended d) -> exists ls its, prints c ls /\
    items own w (FCode LStart false) (concat ls ++ [Plain z]) = Some its /\ selects false its = true.
