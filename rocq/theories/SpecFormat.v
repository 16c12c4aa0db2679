(** Specification: lines of code made of text and of arguments put into it (Printf, Printlnf). *)
From Verif Require Import Base GoPath Types SpecTypes Imports SpecImports Utf8 SpecLit Conv World SpecGo SpecRender SpecQualify.

(** Text, and an argument with the letter of the verb it is formatted with. *)
Inductive piece := Plain (text : string) | Put (verb : ascii) (a : Arg).
(** The format and the arguments for it: a percent sign in the text is doubled. *)
Fixpoint doubled (s : string) : string :=
  match s with
  | EmptyString => EmptyString
  | String c r => if Ascii.eqb c "%"%char then String c (String c (doubled r)) else String c (doubled r)
  end.
Fixpoint format_of (l : list piece) : string :=
  match l with
  | [] => ""
  | Plain s :: r => (doubled s ++ format_of r)%string
  | Put v _ :: r => String "%"%char (String v (format_of r))
  end.
Fixpoint args_of (l : list piece) : list Arg :=
  match l with
  | [] => []
  | Plain _ :: r => args_of r
  | Put _ a :: r => a :: args_of r
  end.
(** The verbs are letters. *)
Definition letter (c : ascii) : bool := between 65 90 (code c) || between 97 122 (code c).
Definition verbs_ok (l : list piece) : Prop :=
  forall v a, In (Put v a) l -> letter v = true.

(** How a decimal number is read. *)
Fixpoint digits (acc : Z) (s : string) : option Z :=
  match s with
  | EmptyString => Some acc
  | String c r => if between 48 57 (code c) then digits (acc * 10 + Z.of_N (code c - 48)) r else None
  end.
Definition number (s : string) : option Z :=
  match s with
  | EmptyString => None
  | String "-"%char (String c r) => option_map Z.opp (digits 0 (String c r))
  | _ => digits 0 s
  end.

(** What stands in the file for a piece of the line. *)
Definition put_text {TD} (real : string -> string) (own : string) (i : Imports) (w : World TD)
    (verb : ascii) (a : Arg) (text : string) : Prop :=
  let sv := verb = "s"%char \/ verb = "v"%char in
  match a with
  | AString x => (sv -> text = x) /\ (verb = "q"%char -> literal_value text = Some x)
  | AInt z => verb = "d"%char \/ verb = "v"%char -> number text = Some z
  | _ => forall r, refers_to w a = Some r -> sv -> (forall sg, r <> RSignature sg) ->
      (forall s m, r = RMethod s m -> method_by_value a = true \/
         has_package s = true /\ ~ keeps_name i (SymPackage s)) ->
      written real own (ImportSpecs i) r text
  end.
Definition piece_text {TD} real own i (w : World TD) (p : piece) (text : string) : Prop :=
  match p with
  | Plain s => text = s
  | Put verb a => put_text real own i w verb a text
  end.

(** How fmt prints a value that has no String method, under %v: structs, slices, pointers. *)
Inductive fmt_value := FText (s : string) | FStruct (l : list fmt_value) | FSlice (l : list fmt_value) | FPointer (v : fmt_value).
Fixpoint print_value (v : fmt_value) : string :=
  match v with
  | FText s => s
  | FStruct l => ("{" ++ join " " (map print_value l) ++ "}")%string
  | FSlice l => ("[" ++ join " " (map print_value l) ++ "]")%string
  | FPointer v => ("&" ++ print_value v)%string
  end.
(** A signature: its fields are Args, Results and IsVariadic (types.go:123-127), those of an
    argument Name and Type (types.go:158-161).  [texts] are the types as they are written. *)
Definition arg_value (a : ArgType) (text : string) : fmt_value := FStruct [FText (ArgName a); FText text].
Inductive signature_value (write : TypeName -> string -> Prop) (s : Signature) : fmt_value -> Prop :=
| sv_intro as_ rs : Forall2 (fun a v => exists t, write (ArgTy a) t /\ v = arg_value a t) (Args s) as_ ->
    Forall2 (fun a v => exists t, write (ArgTy a) t /\ v = arg_value a t) (Results s) rs ->
    signature_value write s (FPointer (FStruct [FSlice as_; FSlice rs; FText (if IsVariadic s then "true" else "false")])).
