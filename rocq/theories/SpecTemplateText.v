(** Specification of what template data refers to: the references in a value, one by one, and
    the text a template prints for them. *)
From Coq Require Import NArith.
From Verif Require Import Base GoPath Types SpecTypes Imports SpecImports Conv World Template SpecTemplate SpecGo SpecRender SpecQualify.

(** The references of a value, in the order in which it holds them.  Unexported fields are
    not looked at without unsafe. *)
Section Mentioned.
Variable unsafe : bool.
Fixpoint mentioned (v : val) : list val :=
  match v with
  | VIface _ None => []
  | VIface _ (Some d) => mentioned d
  | VStruct _ fs => flat_map (fun f => if fst f || unsafe then mentioned (snd f) else []) fs
  | VPtr _ None => []
  | VPtr _ (Some x) => mentioned x
  | VSlice _ l | VArray _ l => flat_map mentioned l
  | VMap _ es => flat_map (fun e => mentioned (fst e) ++ mentioned (snd e)) es
  | VImports _ | VOther _ _ => []
  | _ => [v]
  end.
End Mentioned.
Definition mentioned_in (unsafe : bool) (r : option val) : list val :=
  match r with None => [] | Some d => mentioned unsafe d end.

(** What a value refers to, if it refers to one thing. *)
Definition meant (v : val) : option SpecQualify.reference :=
  match v with
  | VPackage p => Some (RPackage p)
  | VSymbol s => Some (RName s)
  | VMethodRef m => Some (RMethod (MRType m) (MRMethod m))
  | VTypeName t => Some (RType t)
  | _ => match denotes v with
         | Some (Ok (RefType t)) => Some (RType t)
         | Some (Ok (RefSym s)) => Some (RName s)
         | Some (Ok (RefMeth m)) => Some (RMethod (MRType m) (MRMethod m))
         | Some (Ok (RefPkg p)) => Some (RPackage p)
         | _ => None
         end
  end.
(** The text a template prints for it: its String method. *)
Definition printed (isPrint : N -> bool) (v : val) : option (res string) :=
  match v with
  | VPackage p => Some (Ok (Package_String p))
  | VSymbol s => Some (Ok (Symbol_String s))
  | VMethodRef m => Some (Ok (MethodReference_String m))
  | VTypeName t => Some (typeNameToString isPrint t)
  | _ => None
  end.

Section Says.
Variables (isPrint : N -> bool) (parent_of : spec -> res (option Package)).
(** A package is called [real path] there; the file is in [own] and imports [specs]. *)
Variables (real : string -> string) (own : string) (specs : list ImportSpec).

(** Types whose parts can be read back. *)
Definition legible (r : SpecQualify.reference) : Prop :=
  match r with RType t => wf t = true /\ text_ok t = true | _ => True end.
Definition prints (v' : val) (r : SpecQualify.reference) : Prop :=
  legible r -> exists t, printed isPrint v' = Some (Ok t) /\ written real own specs r t.
(** In the file, [v'] refers to what [v] refers to. *)
Definition says (v v' : val) : Prop :=
  match v with
  | VPackage _ | VSymbol _ | VMethodRef _ | VTypeName _ => forall r, meant v = Some r -> prints v' r
  | VSignature s => exists s', v' = VSignature s' /\ prints (VTypeName (TFunc s')) (RType (TFunc s))
  | VElem (InterfaceEmbed c s p) => exists s', v' = VElem (InterfaceEmbed c s' p) /\ prints (VSymbol s') (RName s)
  | VElem (InterfaceMethod c n s p) =>
      exists s', v' = VElem (InterfaceMethod c n s' p) /\ prints (VTypeName (TFunc s')) (RType (TFunc s))
  | VSpec s renamed =>
      exists n, v' = VSpec s n /\ forall p, spec_parent parent_of s renamed = Ok (Some p) ->
        refers real own specs (match n with Some n => n | None => PkgName p end) (ImportPath p)
  | _ => v' = v \/ exists r, meant v = Some r /\ prints v' r
  end.
End Says.
