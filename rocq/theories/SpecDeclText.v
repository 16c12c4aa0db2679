(** Specification: how Go reads the declaration of a type whose names are all usable.  A struct or
    interface that is the type of the declaration, or of a field of such a struct, is written
    over several lines: its embeds and methods are apart, but a tag comes after the end of the
    line.  All other types are written on one line, as in SpecText.v. *)
From Verif Require Import Base Types SpecTypes SpecGo SpecRender SpecDecl SpecText.

(** The components that are written on one line, with their own components. *)
Fixpoint line_parts (t : TypeName) : list TypeName :=
  match t with
  | TStruct fs => flat_map (fun f => match f with mkField _ t _ => line_parts t end) fs
  | TInterface ms _ => flat_map (fun m => match m with mkMethod _ s => sig_parts parts s end) ms
  | _ => parts t
  end.
(** A field with a tag whose type is written over several lines. *)
Fixpoint tag_apart (t : TypeName) : bool :=
  match t with
  | TStruct fs =>
      existsb (fun f => match f with mkField _ t tag => multi_line t && negb (String.eqb tag "") || tag_apart t end) fs
  | _ => false
  end.
Definition decl_readable (t : TypeName) : bool := forallb one_word (line_parts t) && negb (tag_apart t).
(** The type that is read. *)
Fixpoint decl_read_as (t : TypeName) : TypeName :=
  match t with
  | TStruct fs => TStruct (map (fun f => match f with mkField n t tag => mkField n (decl_read_as t) tag end) fs)
  | TInterface ms es => TInterface (map (fun m => match m with mkMethod n s => mkMethod n (map_sig read_as s) end) ms) es
  | _ => read_as t
  end.
