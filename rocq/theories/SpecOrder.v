(** Specification: packages that do not compete for names, and the same file with its elements in
    another order. *)
From Verif Require Import Base GoPath Types SpecTypes Imports SpecImports Conv World SpecQualify SpecFormat SpecCode SpecAppend.

(** The name that a package is given in a file where no other package has that name. *)
Definition name_alone (r : string * string) : string := if String.eqb (snd r) "" then path_Base (fst r) else snd r.
(** Of the packages that are requested - the file's own apart - no two compete for a name, and
    none is requested with two names. *)
Definition no_conflict (own : string) (R : string * string -> Prop) : Prop :=
  forall r r', R r -> R r' -> fst r <> own -> fst r' <> own ->
    fst r = fst r' \/ name_alone r = name_alone r' -> r = r'.

(** What the calls request. *)
Definition requested (h : list call) (r : string * string) : Prop := In r (flat_map requests h).
(** The same import lines and the same name for every package. *)
Definition same_names (i j : Imports) : Prop :=
  ImportSpecs i = ImportSpecs j /\ forall path, fst (PrefixForPackage path i) = fst (PrefixForPackage path j).

(** What is requested when the file is written: by the calls before, and by its contents. *)
Definition file_requests {TD} (h : list call) (w : World TD) (f : nat) (r : string * string) : Prop :=
  requested h r \/ file_mentions w f r.
(** The same file with other elements, and the same world but for that. *)
Definition with_elements (es : list FileElement) (F : GoFile) : GoFile :=
  mkFile (FImports F) (FName F) (FFileComment F) (FPackageComment F) (FPackageName F) (FCanonical F) es.
Definition rearranged {TD} (f : nat) (es : list FileElement) (w : World TD) : World TD :=
  match nth_error (files w) f with
  | Some F => set_files (upd f (with_elements es F) (files w)) w
  | None => w
  end.
(** Code formatted from arguments that are printed with what their String method says: also
    embedded interfaces, whose text may change with elements that are added (C106). *)
Definition textual (verb : ascii) (a : Arg) : Prop :=
  steady verb a \/
  (verb = "s"%char \/ verb = "v"%char \/ verb = "q"%char) /\ exists id, a = AEmbed id.
Definition textual_code {TD} (w : World TD) (f : nat) : Prop :=
  forall cb, part_of w f (IBlock cb) ->
  exists ls, formatted w cb ls /\ forall l v a, In l ls -> In (Put v a) l -> textual v a.
(** The two files are written with the same import lines and with the same text of each element;
    only the order of the elements differs. *)
Definition same_but_order {TD} (env : Env TD) (i i' : Imports) (es es' : list FileElement) (s s' : string) : Prop :=
  exists head (text : FileElement -> string),
    s = (head ++ String.concat "" (map (import_line env) (ImportSpecs i)) ++ String.concat "" (map text es))%string /\
    s' = (head ++ String.concat "" (map (import_line env) (ImportSpecs i')) ++ String.concat "" (map text es'))%string /\
    same_names i i'.
