(** Specification: the syntax of Go types (The Go Programming Language Specification,
    sections Lexical elements and Types; the pre-generics grammar).  A lexer and a
    deterministic parser, written from the language specification and independent of gopoet. *)
From Verif Require Import Base Utf8 SpecLit SpecImports.

(** ** Tokens *)
Inductive token :=
| TIdent (s : string)
| TKw (s : string)
| TInt (digits : string)  (* decimal, no leading zeros or underscores *)
| TNum (text : string)    (* any other numeric literal *)
| TChar (body : string)   (* rune literal, as written *)
| TStr (value : string)
| TOp (s : string).

(** ** Lexer: a state machine over the bytes of the text.  Line breaks and slashes are not
    accepted here (outside literals), so no automatic semicolons and no comments arise: see
    [SpecFile].  Numeric and rune literals are delimited, not checked; the operator *= counts as
    two tokens. *)
Inductive lstate :=
| LStart
| LIdent (acc : string)
| LNum (acc : string)
| LOp (acc : string)
| LDot
| LDotDot
| LRaw (acc : string)
| LStr (acc : string)
| LEsc (acc : string)
| LChar (acc : string)
| LCharEsc (acc : string).

Definition snoc (s : string) (c : ascii) : string := (s ++ String c "")%string.
Definition is_ident_byte (c : ascii) : bool := is_letter_byte c || is_digit_byte c.
Definition ident_token (s : string) : token := if is_keyword s then TKw s else TIdent s.
Fixpoint all_digits (s : string) : bool :=
  match s with EmptyString => true | String c r => is_digit_byte c && all_digits r end.
(** A decimal number without leading zeros. *)
Definition number (s : string) : bool :=
  match s with
  | EmptyString => false
  | String c r => is_digit_byte c && all_digits r && (String.eqb s "0" || negb (Ascii.eqb c "0"))
  end.
Definition number_token (s : string) : token := if number s then TInt s else TNum s.
(** [s] ends where an exponent may have a sign. *)
Fixpoint ends_in (l : list ascii) (s : string) : bool :=
  match s with
  | EmptyString => false
  | String c "" => existsb (Ascii.eqb c) l
  | String _ r => ends_in l r
  end.
Definition exponent (s : string) : bool :=
  match s with
  | String "0" (String x _) => if Ascii.eqb x "x" || Ascii.eqb x "X" then ends_in ["p"; "P"]%char s else ends_in ["e"; "E"]%char s
  | _ => ends_in ["e"; "E"]%char s
  end.
(** Operators that may be continued to longer ones, and those that may not. *)
Definition open_operators : list string :=
  ["+"; "-"; "%"; "&"; "|"; "^"; "<"; ">"; "="; "!"; ":"; "&^"; "<<"; ">>"].
Definition closed_operators : list string :=
  ["++"; "--"; "+="; "-="; "%="; "&="; "|="; "^="; "&^="; "<<="; ">>="; "&&"; "||"; "<-"; "=="; "!="; "<="; ">="; ":="].
Definition is_blank (c : ascii) : bool := Ascii.eqb c " " || Ascii.eqb c (ch 9) || Ascii.eqb c (ch 13).

Definition lex_start (c : ascii) : option (list token * lstate) :=
  if is_blank c then Some ([], LStart)
  else if is_letter_byte c then Some ([], LIdent (String c ""))
  else if is_digit_byte c then Some ([], LNum (String c ""))
  else if Ascii.eqb c (ch 34) then Some ([], LStr "")
  else if Ascii.eqb c (ch 96) then Some ([], LRaw "")
  else if Ascii.eqb c (ch 39) then Some ([], LChar "")
  else if Ascii.eqb c "."%char then Some ([], LDot)
  else if existsb (Ascii.eqb c)
            ["("; ")"; "["; "]"; "{"; "}"; ","; ";"; "*"; "~"]%char
  then Some ([TOp (String c "")], LStart)
  else if existsb (String.eqb (String c "")) open_operators then Some ([], LOp (String c ""))
  else None.
(** emit [t], then treat [c] as at the start of a token *)
Definition lex_flush (t : token) (c : ascii) : option (list token * lstate) :=
  match lex_start c with Some (ts, st) => Some (t :: ts, st) | None => None end.

Definition lex_step (st : lstate) (c : ascii) : option (list token * lstate) :=
  match st with
  | LStart => lex_start c
  | LIdent acc =>
      if is_ident_byte c then Some ([], LIdent (snoc acc c)) else lex_flush (ident_token acc) c
  | LNum acc =>
      if is_ident_byte c || Ascii.eqb c "."%char || (exponent acc && (Ascii.eqb c "+"%char || Ascii.eqb c "-"%char))
      then Some ([], LNum (snoc acc c)) else lex_flush (number_token acc) c
  | LOp acc =>
      if existsb (String.eqb (snoc acc c)) closed_operators then Some ([TOp (snoc acc c)], LStart)
      else if existsb (String.eqb (snoc acc c)) open_operators then Some ([], LOp (snoc acc c))
      else lex_flush (TOp acc) c
  | LDot => if Ascii.eqb c "."%char then Some ([], LDotDot)
            else if is_digit_byte c then Some ([], LNum (String "." (String c "")))
            else lex_flush (TOp ".") c
  | LDotDot => if Ascii.eqb c "."%char then Some ([TOp "..."], LStart) else None
  | LRaw acc =>
      if Ascii.eqb c (ch 96) then
        match raw_body acc with Some v => Some ([TStr v], LStart) | None => None end
      else Some ([], LRaw (snoc acc c))
  | LStr acc =>
      if Ascii.eqb c (ch 34) then
        match interp_body acc with Some v => Some ([TStr v], LStart) | None => None end
      else if Ascii.eqb c (ch 92) then Some ([], LEsc (snoc acc c))
      else if Ascii.eqb c (ch 10) then None
      else Some ([], LStr (snoc acc c))
  | LEsc acc => if Ascii.eqb c (ch 10) then None else Some ([], LStr (snoc acc c))
  | LChar acc =>
      if Ascii.eqb c (ch 39) then if String.eqb acc "" then None else Some ([TChar acc], LStart)
      else if Ascii.eqb c (ch 92) then Some ([], LCharEsc (snoc acc c))
      else if Ascii.eqb c (ch 10) then None
      else Some ([], LChar (snoc acc c))
  | LCharEsc acc => if Ascii.eqb c (ch 10) then None else Some ([], LChar (snoc acc c))
  end.

Definition lex_end (st : lstate) : option (list token) :=
  match st with
  | LStart => Some []
  | LIdent acc => Some [ident_token acc]
  | LNum acc => Some [number_token acc]
  | LOp acc => Some [TOp acc]
  | LDot => Some [TOp "."]
  | _ => None
  end.

Fixpoint lexer (st : lstate) (s : string) : option (list token) :=
  match s with
  | EmptyString => lex_end st
  | String c r =>
      match lex_step st c with
      | Some (ts, st') => omap (app ts) (lexer st' r)
      | None => None
      end
  end.
Definition lex (s : string) : option (list token) := lexer LStart s.

(** ** Abstract syntax of types *)
Inductive dir := DBoth | DSend | DRecv.
Inductive gotype :=
| GName (pkg : option string) (name : string)
| GPtr (e : gotype)
| GSlice (e : gotype)
| GArray (len : string) (e : gotype)                    (* decimal literal *)
| GMap (k e : gotype)
| GChan (d : dir) (e : gotype)
| GFunc (params results : list (option string * bool * gotype))
                                 (* name, preceded by ... , type *)
| GStruct (fields : list (option string * gotype * string))
                                 (* name (None: embedded), type, tag *)
| GInterface (elems : list (string * list (option string * bool * gotype)
                                   * list (option string * bool * gotype)
                            + option string * string)).
                                 (* method (name, params, results) or embedded type name *)
Definition gparam : Type := option string * bool * gotype.
Definition gfield : Type := option string * gotype * string.
Definition gelem : Type := (string * list gparam * list gparam) + (option string * string).

(** ** Parameter lists: entries as parsed, before identifier grouping *)
Inductive entry :=
| ELone (x : string)                            (* an identifier: a type or a parameter name *)
| ENamed (x : string) (dots : bool) (t : gotype)
| ETyped (dots : bool) (t : gotype).

Definition is_named (e : entry) : bool := match e with ENamed _ _ _ => true | _ => false end.

(** names present: a lone identifier is a name that shares the type of the next entry *)
Fixpoint group_named (l : list entry) : option (list gparam) :=
  match l with
  | [] => Some []
  | ENamed x d t :: r => omap (cons (Some x, d, t)) (group_named r)
  | ELone x :: r =>
      match group_named r with
      | Some ((y, d, t) :: ps) =>
          if d : bool then None else Some ((Some x, false, t) :: (y, d, t) :: ps)
      | _ => None
      end
  | ETyped _ _ :: _ => None
  end.
Definition entry_typed (e : entry) : gparam :=
  match e with
  | ELone x => (None, false, GName None x)
  | ETyped d t => (None, d, t)
  | ENamed x d t => (Some x, d, t)
  end.
(** "..." only on the final parameter *)
Fixpoint dots_last (l : list gparam) : bool :=
  match l with
  | [] => true
  | [_] => true
  | (_, d, _) :: r => negb d && dots_last r
  end.
Definition no_dots (l : list gparam) : bool := forallb (fun p => negb (snd (fst p))) l.
Definition resolve_entries (l : list entry) : option (list gparam) :=
  let r := if existsb is_named l then group_named l else Some (map entry_typed l) in
  match r with
  | Some ps => if dots_last ps then Some ps else None
  | None => None
  end.

(** Does a token start a type (other than by a parenthesis)? *)
Definition type_start (t : token) : bool :=
  match t with
  | TIdent _ => true
  | TKw k => existsb (String.eqb k) ["chan"; "func"; "map"; "struct"; "interface"]
  | TOp o => existsb (String.eqb o) ["*"; "["; "<-"]
  | _ => false
  end.

(** ** Parser (recursive descent; [fuel] bounds the recursion depth) *)
Definition expect (o : string) (ts : list token) : option (list token) :=
  match ts with
  | TOp o' :: r => if String.eqb o o' then Some r else None
  | _ => None
  end.
Definition bind {A B} (o : option A) (f : A -> option B) : option B :=
  match o with Some a => f a | None => None end.

Fixpoint ptype (fuel : nat) (ts : list token) {struct fuel} : option (gotype * list token) :=
  match fuel with
  | O => None
  | S f =>
    match ts with
    | TIdent x :: r =>
        match r with
        | TOp o :: r1 =>
            if String.eqb o "." then
              match r1 with
              | TIdent y :: r2 => Some (GName (Some x) y, r2)
              | _ => None
              end
            else Some (GName None x, r)
        | _ => Some (GName None x, r)
        end
    | TOp o :: r =>
        if String.eqb o "*" then
          bind (ptype f r) (fun '(e, r1) => Some (GPtr e, r1))
        else if String.eqb o "(" then
          bind (ptype f r) (fun '(e, r1) => bind (expect ")" r1) (fun r2 => Some (e, r2)))
        else if String.eqb o "<-" then
          match r with
          | TKw k :: r1 =>
              if String.eqb k "chan"
              then bind (ptype f r1) (fun '(e, r2) => Some (GChan DRecv e, r2)) else None
          | _ => None
          end
        else if String.eqb o "[" then
          match r with
          | TInt n :: r1 =>
              bind (expect "]" r1) (fun r2 =>
              bind (ptype f r2) (fun '(e, r3) => Some (GArray n e, r3)))
          | _ =>
              bind (expect "]" r) (fun r1 =>
              bind (ptype f r1) (fun '(e, r2) => Some (GSlice e, r2)))
          end
        else None
    | TKw k :: r =>
        if String.eqb k "map" then
          bind (expect "[" r) (fun r1 =>
          bind (ptype f r1) (fun '(kt, r2) =>
          bind (expect "]" r2) (fun r3 =>
          bind (ptype f r3) (fun '(e, r4) => Some (GMap kt e, r4)))))
        else if String.eqb k "chan" then
          match expect "<-" r with
          | Some r1 => bind (ptype f r1) (fun '(e, r2) => Some (GChan DSend e, r2))
          | None => bind (ptype f r) (fun '(e, r1) => Some (GChan DBoth e, r1))
          end
        else if String.eqb k "func" then
          bind (psig f r) (fun '(ps, rs, r1) => Some (GFunc ps rs, r1))
        else if String.eqb k "struct" then
          bind (expect "{" r) (fun r1 =>
          bind (pfields f r1) (fun '(fs, r2) => Some (GStruct fs, r2)))
        else if String.eqb k "interface" then
          bind (expect "{" r) (fun r1 =>
          bind (pelems f r1) (fun '(es, r2) => Some (GInterface es, r2)))
        else None
    | _ => None
    end
  end

(** Signature = Parameters [ Result ] *)
with psig (fuel : nat) (ts : list token) {struct fuel}
  : option (list gparam * list gparam * list token) :=
  match fuel with
  | O => None
  | S f =>
    bind (expect "(" ts) (fun r =>
    bind (pentries f r) (fun '(es, r1) =>
    bind (resolve_entries es) (fun ps =>
    match expect "(" r1 with
    | Some r2 =>
        bind (pentries f r2) (fun '(es', r3) =>
        bind (resolve_entries es') (fun rs =>
        if no_dots rs then Some (ps, rs, r3) else None))
    | None =>
        match r1 with
        | t :: _ =>
            if type_start t
            then bind (ptype f r1) (fun '(e, r2) => Some (ps, [(None, false, e)], r2))
            else Some (ps, [], r1)
        | [] => Some (ps, [], r1)
        end
    end)))
  end

(** the entries of a parameter list up to and including the closing parenthesis *)
with pentries (fuel : nat) (ts : list token) {struct fuel} : option (list entry * list token) :=
  match fuel with
  | O => None
  | S f =>
    match expect ")" ts with
    | Some r => Some ([], r)
    | None =>
        bind (pentry f ts) (fun '(e, r) =>
        match expect "," r with
        | Some r1 => bind (pentries f r1) (fun '(es, r2) => Some (e :: es, r2))
        | None => bind (expect ")" r) (fun r1 => Some ([e], r1))
        end)
    end
  end

with pentry (fuel : nat) (ts : list token) {struct fuel} : option (entry * list token) :=
  match fuel with
  | O => None
  | S f =>
    match ts with
    | TIdent x :: r =>
        match r with
        | TOp o :: r1 =>
            if String.eqb o "." then bind (ptype f ts) (fun '(t, r2) => Some (ETyped false t, r2))
            else if String.eqb o "," || String.eqb o ")" then Some (ELone x, r)
            else if String.eqb o "..." then
              bind (ptype f r1) (fun '(t, r2) => Some (ENamed x true t, r2))
            else bind (ptype f r) (fun '(t, r2) => Some (ENamed x false t, r2))
        | _ => bind (ptype f r) (fun '(t, r2) => Some (ENamed x false t, r2))
        end
    | _ =>
        match expect "..." ts with
        | Some r => bind (ptype f r) (fun '(t, r2) => Some (ETyped true t, r2))
        | None => bind (ptype f ts) (fun '(t, r2) => Some (ETyped false t, r2))
        end
    end
  end

(** struct fields up to and including the closing brace *)
with pfields (fuel : nat) (ts : list token) {struct fuel} : option (list gfield * list token) :=
  match fuel with
  | O => None
  | S f =>
    match expect "}" ts with
    | Some r => Some ([], r)
    | None =>
        bind (pfield f ts) (fun '(fs, r) =>
        match expect ";" r with
        | Some r1 => bind (pfields f r1) (fun '(fs', r2) => Some (fs ++ fs', r2))
        | None => bind (expect "}" r) (fun r1 => Some (fs, r1))
        end)
    end
  end

(** one FieldDecl (several fields if it has an identifier list) *)
with pfield (fuel : nat) (ts : list token) {struct fuel} : option (list gfield * list token) :=
  match fuel with
  | O => None
  | S f =>
    let embedded :=
      bind (ptype f ts) (fun '(t, r) =>
      match t with
      | GName _ _ | GPtr (GName _ _) =>
          match r with
          | TStr tag :: r1 => Some ([(None, t, tag)], r1)
          | _ => Some ([(None, t, "")], r)
          end
      | _ => None
      end) in
    match ts with
    | TIdent x :: r =>
        match r with
        | TOp o :: r1 =>
            if String.eqb o "." || String.eqb o ";" || String.eqb o "}" then embedded
            else if String.eqb o "," then
              bind (pfield f r1) (fun '(fs, r2) =>
              match fs with
              | (Some _, t, tag) :: _ => Some ((Some x, t, tag) :: fs, r2)
              | _ => None
              end)
            else
              bind (ptype f r) (fun '(t, r2) =>
              match r2 with
              | TStr tag :: r3 => Some ([(Some x, t, tag)], r3)
              | _ => Some ([(Some x, t, "")], r2)
              end)
        | TStr _ :: _ => embedded
        | _ =>
            bind (ptype f r) (fun '(t, r2) =>
            match r2 with
            | TStr tag :: r3 => Some ([(Some x, t, tag)], r3)
            | _ => Some ([(Some x, t, "")], r2)
            end)
        end
    | _ => embedded
    end
  end

(** interface elements up to and including the closing brace *)
with pelems (fuel : nat) (ts : list token) {struct fuel} : option (list gelem * list token) :=
  match fuel with
  | O => None
  | S f =>
    match expect "}" ts with
    | Some r => Some ([], r)
    | None =>
        bind
          match ts with
          | TIdent x :: r =>
              match expect "(" r with
              | Some _ => bind (psig f r) (fun '(ps, rs, r1) => Some (inl (x, ps, rs), r1))
              | None =>
                  bind (ptype f ts) (fun '(t, r1) =>
                  match t with GName q n => Some (inr (q, n), r1) | _ => None end)
              end
          | _ => None
          end
          (fun '(e, r) =>
           match expect ";" r with
           | Some r1 => bind (pelems f r1) (fun '(es, r2) => Some ((e : gelem) :: es, r2))
           | None => bind (expect "}" r) (fun r1 => Some ([e], r1))
           end)
    end
  end.

(** The type denoted by a text: the whole text must be consumed. *)
Definition fuel_for (ts : list token) : nat := S (4 * List.length ts).
Definition parse_type (s : string) : option gotype :=
  match lex s with
  | Some ts => match ptype (fuel_for ts) ts with
               | Some (t, []) => Some t
               | _ => None
               end
  | None => None
  end.
(** The signature denoted by a text. *)
Definition parse_signature (s : string) : option (list gparam * list gparam) :=
  match lex s with
  | Some ts => match psig (fuel_for ts) ts with
               | Some (ps, rs, []) => Some (ps, rs)
               | _ => None
               end
  | None => None
  end.

Example parse_ex1 : parse_type "map[string]func(a, b int, c ...foo.Bar) (x <-chan struct{A, B int; *C})" =
  Some (GMap (GName None "string")
    (GFunc [(Some "a", false, GName None "int"); (Some "b", false, GName None "int");
            (Some "c", true, GName (Some "foo") "Bar")]
           [(Some "x", false, GChan DRecv
              (GStruct [(Some "A", GName None "int", ""); (Some "B", GName None "int", "");
                        (None, GPtr (GName None "C"), "")]))])).
Proof. vm_compute. reflexivity. Qed.
Example parse_ex2 : parse_type "chan <-chan int" = Some (GChan DSend (GChan DBoth (GName None "int"))).
Proof. vm_compute. reflexivity. Qed.
Example parse_ex3 : parse_type "interface{fmt.StringerFoo()}" = None.
Proof. vm_compute. reflexivity. Qed.
Example parse_ex4 : parse_type "interface{StringerFoo()}" = Some (GInterface [inl ("StringerFoo", [], [])]).
Proof. vm_compute. reflexivity. Qed.
Example parse_ex5 : parse_type "func(int, string) [12]byte" =
  Some (GFunc [(None, false, GName None "int"); (None, false, GName None "string")]
              [(None, false, GArray "12" (GName None "byte"))]).
Proof. vm_compute. reflexivity. Qed.
