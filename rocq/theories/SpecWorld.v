(** Specification vocabulary for files and code blocks. *)
From Verif Require Import Base Types Imports Conv World.

(** A comment as Go source: every line of it after the marker. *)
Definition comment_text (lines : list string) : string :=
  fold_right append "" (map (fun l => "// " ++ l ++ newline)%string lines).
Definition one_line (s : string) : Prop := ~ In (ch 10) (list_ascii_of_string s).
(** [lines] are the lines of [c] (separated, not terminated, by line breaks). *)
Definition lines_of (c : string) (lines : list string) : Prop :=
  lines <> [] /\ Forall one_line lines /\ join newline lines = c.

(** [s] is a file name without directory that ends in .go *)
Definition go_name (s : string) : Prop :=
  ~ In "/"%char (list_ascii_of_string s) /\ exists stem, s = (stem ++ ".go")%string.

(** The package that a file belongs to. *)
Definition package_of (F : GoFile) : Package := mkPackage (pkgPath (FImports F)) (FPackageName F).
(** How Go code of the package at [own] refers to a name of package [p]. *)
Definition qualified (p : Package) (name : string) : string :=
  if String.eqb (PkgName p) "" then name else (PkgName p ++ "." ++ name)%string.

(** ** Code blocks *)
(** One call of a building method on a code block. *)
Inductive building {TD : Type} :=
| BPrintf (cb : nat) (format : string) (args : list Arg)
| BPrintlnf (cb : nat) (format : string) (args : list Arg)
| BPrint (cb : nat) (text : string)
| BPrintln (cb : nat) (text : string)
| BRenderCode (cb : nat) (template : nat) (data : TD)
| BAddCode (cb code : nat)
| BNew.
(** What a block contains, as built: formats with their arguments, templates with their data. *)
Inductive part {TD : Type} :=
| PFormat (format : string) (args : list Arg)
| PTemplate (template : nat) (data : TD).
Arguments building : clear implicits.
Arguments part : clear implicits.
(** The contents of all blocks, after one more call. *)
Definition built {TD} (c : building TD) (m : list (list (part TD))) : list (list (part TD)) :=
  let add cb ps := upd cb (nth cb m [] ++ ps) m in
  match c with
  | BPrintf cb f a => add cb [PFormat f a]
  | BPrintlnf cb f a => add cb [PFormat (f ++ newline) a]
  | BPrint cb t => add cb [PFormat "%s" [AString t]]
  | BPrintln cb t => add cb [PFormat ("%s" ++ newline) [AString t]]
  | BRenderCode cb t d => add cb [PTemplate t d]
  | BAddCode cb code => add cb (nth code m [])
  | BNew => m ++ [[]]
  end.
Definition perform {TD} (c : building TD) (w : World TD) : World TD :=
  match c with
  | BPrintf cb f a => snd (CodeBlock_Printf cb f a w)
  | BPrintlnf cb f a => snd (CodeBlock_Printlnf cb f a w)
  | BPrint cb t => snd (CodeBlock_Print cb t w)
  | BPrintln cb t => snd (CodeBlock_Println cb t w)
  | BRenderCode cb t d => snd (CodeBlock_RenderCode cb t d w)
  | BAddCode cb code => snd (CodeBlock_AddCode cb code w)
  | BNew => snd (NewCodeBlock w)
  end.
(** The block the call acts on exists. *)
Definition in_range {TD} (c : building TD) (n : nat) : Prop :=
  match c with
  | BPrintf cb _ _ | BPrintlnf cb _ _ | BPrint cb _ | BPrintln cb _ | BRenderCode cb _ _ => cb < n
  | BAddCode cb code => cb < n /\ code < n
  | BNew => True
  end.
Fixpoint all_in_range {TD} (h : list (building TD)) (m : list (list (part TD))) : Prop :=
  match h with
  | [] => True
  | c :: r => in_range c (List.length m) /\ all_in_range r (built c m)
  end.
(** The text of a part in a world. *)
Definition part_text {TD} (env : Env TD) (w : World TD) (p : part TD) : res string :=
  match p with
  | PFormat f a => Ok (Fprintf env w f a)
  | PTemplate t d => texec env w t d
  end.

(** The state before any builder call. *)
Definition empty_world {TD} : World TD := mkWorld [] [] [] [] [] [] [] [] [] [] [] [] [].
(** A concrete environment for the examples: no templates, other fmt verbs print nothing. *)
Definition exEnv : Env unit :=
  mkEnv (fun _ => true) (fun _ _ _ => "") (fun _ _ _ => "") (fun _ d => sret d) (fun _ _ _ => Ok "").
Definition exec_world {A} (m : WM (TD := unit) A) : World unit := snd (m empty_world).
(** Table [m] of contents describes the code blocks of [w]. *)
Definition element_part {TD} (w : World TD) (e : codeElement) (p : part TD) : Prop :=
  match e, p with
  | Line f a, PFormat f' args => f' = f /\ nth_error (argss w) a = Some args
  | Templ t, PTemplate tm d => nth_error (templs w) t = Some (tm, d)
  | _, _ => False
  end.
Definition represents {TD} (w : World TD) (m : list (list (part TD))) : Prop :=
  Forall2 (fun (b : CodeBlock) ps => Forall2 (element_part w) b ps) (blocks w) m.
