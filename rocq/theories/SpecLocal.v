(** Specification: what a file consists of and what its code refers to, and two worlds that have
    these in common. *)
From Verif Require Import Base Types SpecTypes Imports SpecImports Conv World SpecGo SpecRender SpecFormat SpecCode SpecAppend SpecOrder SpecQualify SpecShare.

(** What can be said about something without saying what it is: its name and where it is declared.
    An embedded interface has no name other than that of the interface. *)
Inductive naming :=
| NValue (names : list string) (file : option nat)
| NType (name : string) (file : option nat)
| NField (name : string)
| NMethod (name : string) (type : option nat)
| NEmbed (s : Symbol)
| NFunc (name : string) (receiver : option ReceiverSpec) (file : option nat).

Section Seen.
Context {TD : Type}.
Variables (w : World TD) (f : nat).
Definition naming_of (x : item) : option naming :=
  match x with
  | IConst i => option_map (fun v => NValue (VNames v) (VParent v)) (nth_error (consts w) i)
  | IVar i => option_map (fun v => NValue (VNames v) (VParent v)) (nth_error (vars w) i)
  | IType i => option_map (fun T => NType (TSName T) (TSParent T)) (nth_error (types w) i)
  | IField i => option_map (fun F => NField (FSName F)) (nth_error (World.fields w) i)
  | IElem i => option_map (fun e => match e with InterfaceEmbed _ s _ => NEmbed s | InterfaceMethod _ n _ p => NMethod n p end) (nth_error (ielems w) i)
  | IFunc i => option_map (fun F => NFunc (FNName F) (FNReceiver F) (FNParent F)) (nth_error (funcs w) i)
  | IBlock _ => None
  end.
(** The file to which it was added. *)
Definition home (x : item) : option nat :=
  match naming_of x with Some (NValue _ p) | Some (NType _ p) | Some (NFunc _ _ p) => p | _ => None end.
(** The part of the program that an argument of code is. *)
Definition named_by (a : Arg) : option item :=
  match a with
  | AConst id => Some (IConst id) | AVar id => Some (IVar id) | ATypeSpec id => Some (IType id)
  | AIMethod id | AEmbed id => Some (IElem id) | AFunc id => Some (IFunc id) | AField id => Some (IField id)
  | _ => None
  end.
(** What is an argument of the file's code, the types of interface methods among these, and what
    the file consists of. *)
Inductive seen : item -> Prop :=
| seen_part x : part_of w f x -> seen x
| seen_arg args l a x : uses_args w f args -> nth_error (argss w) args = Some l -> In a l -> named_by a = Some x -> seen x
| seen_owner e n p : seen (IElem e) -> naming_of (IElem e) = Some (NMethod n (Some p)) -> seen (IType p).
End Seen.

Section Same.
Context {TD : Type}.
Variables w w' : World TD.
Definition same_entry (x : item) : Prop :=
  match x with
  | IConst i => nth_error (consts w') i = nth_error (consts w) i
  | IVar i => nth_error (vars w') i = nth_error (vars w) i
  | IType i => nth_error (types w') i = nth_error (types w) i
  | IField i => nth_error (World.fields w') i = nth_error (World.fields w) i
  | IElem i => nth_error (ielems w') i = nth_error (ielems w) i
  | IFunc i => nth_error (funcs w') i = nth_error (funcs w) i
  | IBlock i => nth_error (blocks w') i = nth_error (blocks w) i
  end.
Definition same_element (e : FileElement) : Prop :=
  match e with
  | EConst d => nth_error (constDecls w') d = nth_error (constDecls w) d
  | EVar d => nth_error (varDecls w') d = nth_error (varDecls w) d
  | EType d => nth_error (typeDecls w') d = nth_error (typeDecls w) d
  | EFunc _ => True
  end.
(** The two worlds may differ in everything else: of what the file does not consist of but its code
    refers to they have the names in common, of other files the packages of those to which such was
    added, and nothing of what the file does not see. *)
Definition same_for (f : nat) (F : GoFile) : Prop :=
  nth_error (files w) f = Some F /\ nth_error (files w') f = Some F /\
  (forall e, In e (FElements F) -> same_element e) /\
  (forall x, part_of w f x -> same_entry x) /\
  (forall x, seen w f x -> naming_of w' x = naming_of w x) /\
  (forall a, uses_args w f a -> nth_error (argss w') a = nth_error (argss w) a) /\
  (forall t, template_of w f t -> nth_error (templs w') t = nth_error (templs w) t) /\
  (forall x i, seen w f x -> home w x = Some i -> file_package i w' = file_package i w).
End Same.

(** fmt sees nothing of the program in arguments that are not specs of it. *)
Definition sees_values {TD} (env : Env TD) : Prop :=
  (forall w w' verb a, named_by a = None -> fmt_verb env w' verb a = fmt_verb env w verb a) /\
  (forall w w' fm l, (forall a, In a l -> named_by a = None) -> fmt_other env w' fm l = fmt_other env w fm l).
(** Not one that is printed as the spec it is. *)
Definition by_value (a : Arg) : Prop :=
  match a with AIMethod _ | AFunc _ | AField _ | AEmbed _ => False | _ => True end.
(** A line of code that is formatted from arguments printed with what their String method says; or
    any line, with any format, if it has no method, function, field or embedded interface as argument
    and fmt sees nothing else. *)
Definition plain_line {TD} (env : Env TD) (w : World TD) (fm : string) (args : nat) : Prop :=
  (exists l, fm = format_of l /\ nth_error (argss w) args = Some (args_of l) /\ verbs_ok l /\
     forall v a, In (Put v a) l -> textual v a) \/
  sees_values env /\ forall l a, nth_error (argss w) args = Some l -> In a l -> by_value a.
Definition plain_code {TD} (env : Env TD) (w : World TD) (f : nat) : Prop :=
  forall cb b fm args, part_of w f (IBlock cb) -> nth_error (blocks w) cb = Some b -> In (Line fm args) b ->
  plain_line env w fm args.

(** Data of templates in which there is nothing of the program's state, neither before nor after the
    references in it are given the names of the file. *)
Definition closed_data {TD} (env : Env TD) (D : TD -> Prop) : Prop :=
  (forall d w w' i, D d -> tq env w' d i = tq env w d i) /\
  (forall d w i d' i', D d -> tq env w d i = (Ok d', i') -> D d') /\
  (forall d w w' tm, D d -> texec env w' tm d = texec env w tm d).
Definition plain_templates {TD} (env : Env TD) (w : World TD) (f : nat) : Prop :=
  exists D, closed_data env D /\ forall t tm d, template_of w f t -> nth_error (templs w) t = Some (tm, d) -> D d.

(** The code prints no embedded interface of the other file. *)
Definition embeds_apart {TD} (w : World TD) (f g : nat) : Prop :=
  forall id s, seen w f (IElem id) -> part_of w g (IElem id) -> naming_of w (IElem id) <> Some (NEmbed s).

(** The other file shares nothing with this one, nor templates. *)
Definition apart_from {TD} (w : World TD) (f g : nat) : Prop :=
  g <> f /\ ~ shared w f g /\ embeds_apart w f g /\ (forall t, template_of w f t -> ~ template_of w g t).
(** The files are written one after the other, whatever comes of it. *)
Inductive tried_in_order {TD} (env : Env TD) (fuel : nat) : list nat -> World TD -> World TD -> Prop :=
| try_nil w : tried_in_order env fuel [] w w
| try_cons g l r w w1 w2 : source env fuel g w = (r, w1) -> tried_in_order env fuel l w1 w2 -> tried_in_order env fuel (g :: l) w w2.
(** The files are written one after the other, each with its text. *)
Inductive texts_in_order {TD} (env : Env TD) (fuel : nat) : list (nat * string) -> World TD -> World TD -> Prop :=
| to_nil w : texts_in_order env fuel [] w w
| to_cons f s l w w1 w2 : source env fuel f w = (Ok s, w1) -> texts_in_order env fuel l w1 w2 -> texts_in_order env fuel ((f, s) :: l) w w2.

(** From the one world to the other nothing changes but the imports of the file, the references in
    what it consists of, and the data of its templates. *)
Definition changes_only {TD} (w : World TD) (f : nat) (w1 : World TD) : Prop :=
  (forall g, g <> f -> nth_error (files w1) g = nth_error (files w) g) /\
  (forall F, nth_error (files w) f = Some F -> exists F1, nth_error (files w1) f = Some F1 /\ FFileComment F1 = FFileComment F /\
     FPackageComment F1 = FPackageComment F /\ FCanonical F1 = FCanonical F /\ FPackageName F1 = FPackageName F /\ FName F1 = FName F /\
     FElements F1 = FElements F /\ pkgPath (FImports F1) = pkgPath (FImports F)) /\
  constDecls w1 = constDecls w /\ varDecls w1 = varDecls w /\ typeDecls w1 = typeDecls w /\ blocks w1 = blocks w /\
  map fst (templs w1) = map fst (templs w) /\
  (forall t, ~ template_of w f t -> nth_error (templs w1) t = nth_error (templs w) t) /\
  (forall x, ~ part_of w f x -> same_entry w w1 x) /\
  (forall a, ~ uses_args w f a -> nth_error (argss w1) a = nth_error (argss w) a) /\
  (forall a, option_map (@List.length Arg) (nth_error (argss w1) a) = option_map (@List.length Arg) (nth_error (argss w) a)) /\
  (forall x, (forall s, naming_of w x <> Some (NEmbed s)) -> naming_of w1 x = naming_of w x).
