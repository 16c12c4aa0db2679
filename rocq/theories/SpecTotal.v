(** Specification: files that are complete, so that there is no reason for writing them to fail. *)
From Verif Require Import Base GoPath Types SpecTypes Imports SpecImports SpecGo SpecRender Conv World SpecFile SpecDecl SpecWorld
  SpecQualify.

Section World.
Context {TD : Type}.
Variable w : World TD.
(** A code argument that is printed as it is. *)
Definition plain (a : Arg) : bool :=
  match a with AString _ | AInt _ | AField _ | AEmbed _ | AOther _ => true | _ => false end.
Definition whole_reference (r : reference) : Prop :=
  match r with RType t => wf t = true | RSignature s => wf_sig s = true | _ => True end.
Definition whole_arg (a : Arg) : Prop :=
  plain a = true \/ exists r, refers_to w a = Some r /\ whole_reference r.
Definition whole_name (t : TypeNameOrSpec) : Prop := match t with IsName t => wf t = true | _ => True end.
(** A declaration with something to write: a member or a comment. *)
Definition element_there (e : FileElement) : Prop :=
  match e with
  | EConst d => exists D, nth_error (constDecls w) d = Some D /\ (VDSpecs D <> [] \/ VDComment D <> "")
  | EVar d => exists D, nth_error (varDecls w) d = Some D /\ (VDSpecs D <> [] \/ VDComment D <> "")
  | EType d => exists D, nth_error (typeDecls w) d = Some D /\ (TDTypes D <> [] \/ TDComment D <> "")
  | EFunc i => True
  end.
(** Everything that is part of the file is there, and its types have no nil components; named
    specs used as types of fields are declared in some file. *)
Record complete (f : nat) : Prop := mkComplete
  { c_elements : forall F e, nth_error (files w) f = Some F -> In e (FElements F) -> element_there e;
    c_const : forall i, part_of w f (IConst i) -> exists v, nth_error (consts w) i = Some v /\ whole_name (VSType v);
    c_var : forall i, part_of w f (IVar i) -> exists v, nth_error (vars w) i = Some v /\ whole_name (VSType v);
    c_type : forall i, part_of w f (IType i) -> exists T, nth_error (types w) i = Some T /\ wf (TSUnderlying T) = true;
    c_field : forall i, part_of w f (IField i) -> exists F, nth_error (fields w) i = Some F /\ whole_name (FSType F) /\
      forall id T, FSType F = IsSpec id -> nth_error (types w) id = Some T -> TSName T <> "" -> named_type w T <> None;
    c_elem : forall i, part_of w f (IElem i) -> exists e, nth_error (ielems w) i = Some e /\
      match e with InterfaceMethod _ _ s _ => wf_sig s = true | InterfaceEmbed _ _ _ => True end;
    c_func : forall i, part_of w f (IFunc i) -> exists F, nth_error (funcs w) i = Some F /\ wf_sig (FNSig F) = true;
    c_block : forall cb, part_of w f (IBlock cb) -> exists b, nth_error (blocks w) cb = Some b /\
      forall fm args, In (Line fm args) b -> exists l, nth_error (argss w) args = Some l /\ Forall whole_arg l }.
(** The type spec [i] of the file has a field whose type is the type spec [j]. *)
Definition holds (f i j : nat) : Prop :=
  part_of w f (IType i) /\ exists T fid F, nth_error (types w) i = Some T /\ In fid (TSStruct T) /\
    nth_error (fields w) fid = Some F /\ FSType F = IsSpec j.
(** No type spec of the file holds itself, directly or through others. *)
Inductive reaches (f : nat) : nat -> nat -> Prop :=
| r_step i j : holds f i j -> reaches f i j
| r_more i j k : holds f i j -> reaches f j k -> reaches f i k.
Definition no_cycle (f : nat) : Prop := forall i, ~ reaches f i i.
End World.

(** ** Descriptions of files that are complete *)
From Verif Require Import SpecBuild.
Definition whole_value {C} (v : vdesc C) : Prop := match vType v with Some t => wf (type_of t) = true | None => True end.
Definition whole_group {A} (comment : string) (l : list A) : Prop := l <> [] \/ comment <> "".
Definition whole_element {C} (e : edesc C) : Prop :=
  match e with
  | DConsts c l m | DVars c l m => whole_group c (l ++ m) /\ Forall whole_value (l ++ m)
  | DOneConst v | DOneVar v => whole_value v
  | DTypes c l m => whole_group c (l ++ m) /\ Forall (fun t => wf (type_of (body_type (tsBody t))) = true) (l ++ m)
  | DOneType t => wf (type_of (body_type (tsBody t))) = true
  | DFunction fn => wf_sig (sig_of (fnArgs fn) (fnResults fn) (fnVariadic fn)) = true
  end.
Definition whole_description {C} (d : filedesc C) : Prop := Forall whole_element (fdElements d).
(** [w]: the state in which the file is written *)
Definition whole_code {TD} (w : World TD) (d : filedesc (list (chunk TD))) : Prop :=
  forall l format args a, In l (codes d) -> In (PFormat format args) (flat_map chunk_parts l) -> In a args -> whole_arg w a.
