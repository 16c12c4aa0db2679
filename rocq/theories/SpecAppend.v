(** Specification: the file with its first elements only, and code whose text is that of its
    pieces. *)
From Verif Require Import Base Types Imports Conv World SpecQualify SpecFormat SpecCode.

(** The same file, with only the first [k] of its elements. *)
Definition first_elements (k : nat) (F : GoFile) : GoFile :=
  mkFile (FImports F) (FName F) (FFileComment F) (FPackageComment F) (FPackageName F) (FCanonical F) (firstn k (FElements F)).
(** The same world, but for that. *)
Definition cut {TD} (f k : nat) (w : World TD) : World TD :=
  match nth_error (files w) f with
  | Some F => set_files (upd f (first_elements k F) (files w)) w
  | None => w
  end.

(** Arguments that are formatted by one of the verbs s, v, q with what their String method says
    and that are qualified (a *InterfaceEmbed is not, nor is a method object of go/types that
    keeps its name), numbers, and signatures. *)
Definition steady (verb : ascii) (a : Arg) : Prop :=
  let sv := verb = "s"%char \/ verb = "v"%char in
  match a with
  | AInt _ => verb = "d"%char \/ verb = "v"%char
  | ASignature _ | ASignaturePtr _ => sv
  | AEmbed _ | AOther _ => False
  | AGoObject o => (forall m, SymbolForGoObject o <> Ok (SomMethod m)) /\ (sv \/ verb = "q"%char)
  | _ => sv \/ verb = "q"%char
  end.
Definition steady_code {TD} (w : World TD) (f : nat) : Prop :=
  forall cb, part_of w f (IBlock cb) ->
  exists ls, formatted w cb ls /\ forall l v a, In l ls -> In (Put v a) l -> steady v a.

(** What is written of a file is the text of its elements, one after the other, after a part that
    does not depend on them and the imports: without the last elements of the file, the text of
    those before them is the same and some imports may be missing. *)
Definition import_text {TD} (env : Env TD) (F : GoFile) : string :=
  String.concat "" (map (import_line env) (ImportSpecs (FImports F))).
Definition written_by_elements {TD} (env : Env TD) (fuel f : nat) (w w1 : World TD) (F F1 : GoFile) (s : string) : Prop :=
  exists head texts, List.length texts = List.length (FElements F) /\
    s = (head ++ import_text env F1 ++ String.concat "" texts)%string /\
    forall k, exists w0 F0,
      source env fuel f (cut f k w) =
        (Ok (head ++ import_text env F0 ++ String.concat "" (firstn k texts))%string, w0) /\
      nth_error (files w0) f = Some F0 /\ incl (ImportSpecs (FImports F0)) (ImportSpecs (FImports F1)).
