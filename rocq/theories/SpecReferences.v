(** Specification: what the things that a program makes are called, and what a reference to one
    of them denotes. *)
From Verif Require Import Base GoPath Types SpecTypes Imports SpecImports Conv World SpecGo SpecRender SpecCalls SpecWorld SpecQualify
  SpecProgram SpecMembers.

Inductive named_thing := NConst (id : nat) | NVar (id : nat) | NType (id : nat) | NFunc (id : nat) | NField (id : nat) | NElem (id : nat).
(** Names, with the receiver of a method. *)
Inductive called_as :=
| Values (names : list string) | OneType (name : string) | OneFunc (receiver : option ReceiverSpec) (name : string)
| OneField (name : string) | OneMethod (name : string) | Embedded.

Section References.
Context {TD : Type}.
Variable env : Env TD.
Notation World := (World TD).
Definition called (w : World) (k : named_thing) : option called_as :=
  match k with
  | NConst id => option_map (fun v => Values (VNames v)) (nth_error (consts w) id)
  | NVar id => option_map (fun v => Values (VNames v)) (nth_error (vars w) id)
  | NType id => option_map (fun T => OneType (TSName T)) (nth_error (types w) id)
  | NFunc id => option_map (fun f => OneFunc (FNReceiver f) (FNName f)) (nth_error (funcs w) id)
  | NField id => option_map (fun x => OneField (FSName x)) (nth_error (World.fields w) id)
  | NElem id => option_map (fun e => match e with InterfaceEmbed _ _ _ => Embedded | InterfaceMethod _ n _ _ => OneMethod n end)
                  (nth_error (ielems w) id)
  end.

(** The package that the spec is in after the program: that of the file to which it was added last. *)
Definition home (p : list (api_call TD)) (k : thing) : option Package :=
  obind (last_file env k p empty_world None) (fun f =>
  obind (nth_error (made env p empty_world) f) (fun '(_, path, package) => Some (mkPackage path package))).
Definition type_denotes (p : list (api_call TD)) (id : nat) : option Symbol :=
  match called (after env p empty_world) (NType id) with
  | Some (OneType n) => if String.eqb n "" then None else option_map (fun P => mkSymbol P n) (home p (ATypSpec id))
  | _ => None
  end.
(** The name at a place; there is none before the first. *)
Definition nth_name (names : list string) (i : Z) : option string :=
  match i with Zneg _ => None | _ => nth_error names (Z.to_nat i) end.
(** What a call gives, if it does not panic. *)
Definition answer {A} (r : res A) : option A := match r with Ok a => Some a | Panic _ => None end.
End References.
