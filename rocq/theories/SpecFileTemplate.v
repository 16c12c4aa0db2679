(** Specification: files whose code contains templates. *)
From Verif Require Import Base GoPath Types SpecTypes Imports SpecImports Conv World SpecQualify Template SpecTemplate.

Section Templates.
Context {TD : Type}.
Variable w : World TD.
Variable f : nat.
(** The templates in the file's code, in order: one for each occurrence. *)
Definition block_templates (cb : nat) : list nat :=
  match nth_error (blocks w) cb with
  | Some b => flat_map (fun e => match e with Templ t => [t] | Line _ _ => [] end) b
  | None => []
  end.
Definition value_templates (tab : list ValueSpec) (i : nat) : list nat :=
  match nth_error tab i with
  | Some v => match VInit v with Some cb => block_templates cb | None => [] end
  | None => []
  end.
Definition element_templates (e : FileElement) : list nat :=
  match e with
  | EConst d => match nth_error (constDecls w) d with Some D => flat_map (value_templates (consts w)) (VDSpecs D) | None => [] end
  | EVar d => match nth_error (varDecls w) d with Some D => flat_map (value_templates (vars w)) (VDSpecs D) | None => [] end
  | EType _ => []
  | EFunc i => match nth_error (funcs w) i with Some F => block_templates (FNBody F) | None => [] end
  end.
Definition file_templates : list nat :=
  match nth_error (files w) f with Some F => flat_map element_templates (FElements F) | None => [] end.
End Templates.

Section Spec.
Variable implements : gty -> string -> bool.
Variable unsafe : bool.
Variable w : World (option val).
Variable f : nat.
(** The data of a template of the file. *)
Definition template_data (d : val) : Prop :=
  exists t tm, template_of w f t /\ nth_error (templs w) t = Some (tm, Some d).
(** The data of the file's templates refer to the package [r]: its path and declared name. *)
Definition data_mentions (r : string * string) : Prop :=
  exists d, template_data d /\ In r (data_requests unsafe (world_parent w) (data d)).
(** The data are as Go's type system allows.  If the template is in the file's code more than
    once, the specs in its data are in no file, and there are no pointers to interfaces. *)
Definition good_data : Prop :=
  forall t tm d, template_of w f t -> nth_error (templs w) t = Some (tm, Some d) ->
    typed implements (data d) /\
    (count_occ Nat.eq_dec (file_templates w f) t <= 1 \/ forall nm, simple unsafe (world_parent w) nm (data d)).
(** The templates are there, and reflect can read and rewrite their data. *)
Definition whole_data : Prop :=
  (forall t, template_of w f t -> nth_error (templs w) t <> None) /\
  (forall d, template_data d -> readable unsafe (world_parent w) true (data d) /\ storable unsafe (world_parent w) true (data d)).
(** Executing the file's templates with the data they have now succeeds. *)
Definition templates_execute (texec : World (option val) -> nat -> option val -> res string) : Prop :=
  forall t tm d, template_of w f t -> nth_error (templs w) t = Some (tm, d) -> exists s, texec w tm d = Ok s.
End Spec.

(** ** Templates in the description of a file *)
From Verif Require Import SpecWorld SpecBuild.
Definition described_data (d : filedesc (list (chunk (option val)))) (v : val) : Prop :=
  exists l t, In l (codes d) /\ In (PTemplate t (Some v)) (flat_map chunk_parts l).
