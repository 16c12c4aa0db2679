(** What can be referred to: the symbols of members of declarations and of methods of interfaces. *)
From Verif Require Import Base GoPath Types Imports Conv World SpecWorld.

Section Symbols.
Context {TD : Type}.
Implicit Types w : World TD.
(** Every name of a const or var is a symbol of the package of file [F]. *)
Definition value_referable w (F : GoFile) (v : ValueSpec) : Prop :=
  forall i n, nth_error (VNames v) i = Some n -> ValueSpec_SymbolAt v (Z.of_nat i) w = Ok (mkSymbol (package_of F) n).
(** All members of a file element can be referred to. *)
Definition referable w (F : GoFile) (e : FileElement) : Prop :=
  match e with
  | EConst d => exists D, nth_error (constDecls w) d = Some D /\
      forall id, In id (VDSpecs D) -> exists v, nth_error (consts w) id = Some v /\ value_referable w F v
  | EVar d => exists D, nth_error (varDecls w) d = Some D /\
      forall id, In id (VDSpecs D) -> exists v, nth_error (vars w) id = Some v /\ value_referable w F v
  | EType d => exists D, nth_error (typeDecls w) d = Some D /\
      forall id, In id (TDTypes D) -> exists T, nth_error (types w) id = Some T /\
        (TSName T <> "" -> TypeSpec_ToSymbol T w = Ok (mkSymbol (package_of F) (TSName T)))
  | EFunc fn => exists f, nth_error (funcs w) fn = Some f /\ FuncSpec_ToSymbol f w = Ok
      match FNReceiver f with
      | None => SomSymbol (mkSymbol (package_of F) (FNName f))
      | Some r => SomMethod (mkMethodRef (mkSymbol (package_of F) (RcvType r)) (FNName f))
      end
  end.
(** A method in an interface type named [name] of package [p] is that method of that type. *)
Definition elem_refers w (p : Package) (name : string) (id : nat) : Prop :=
  match nth_error (ielems w) id with
  | Some (InterfaceMethod _ n _ parent) => InterfaceMethod_ToMethodRef n parent w = Ok (mkMethodRef (mkSymbol p name) n)
  | Some (InterfaceEmbed _ _ _) => True
  | None => False
  end.
End Symbols.

(** [k] slashes *)
Fixpoint slashes (k : nat) : string := match k with O => "" | S k' => String slash (slashes k') end.
