(** Specification: the observable view of a TypeName, i.e. the results of all eleven methods
    of the interface (types.go:64-113), and of a parameter list read from text. *)
From Verif Require Import Base Types SpecGo.

Record view := mkView {
  vKind : TypeKind; vSymbol : Symbol; vElem : TypeName; vKey : TypeName; vLen : Z; vDir : Z;
  vBasicKind : Kind; vSignature : option Signature; vFields : option (list FieldType);
  vMethods : option (list MethodType); vEmbeds : option (list Symbol) }.
Definition view_of (t : TypeName) : view :=
  mkView (tKind t) (tSymbol t) (tElem t) (tKey t) (tLen t) (tDir t) (tBasicKind t)
         (tSignature t) (tFields t) (tMethods t) (tEmbeds t).
(** The documented zero results (types.go:66-112). *)
Definition no_view (k : TypeKind) : view :=
  mkView k (mkSymbol (mkPackage "" "") "") TNil TNil (-1) 0 KInvalid None None None None.

(** Channel direction as accepted by ChannelType: 0 stands for both directions. *)
Definition direction (d : Z) : Z := if (d =? 0)%Z then 3%Z else d.

Definition gp_name (p : gparam) : option string := fst (fst p).
Definition gp_dots (p : gparam) : bool := snd (fst p).
Definition gp_type (p : gparam) : gotype := snd p.
(** Names in a parameter list as read from text, given the names in the signature. *)
Definition all_or_nothing (names : list string) (ps : list gparam) : Prop :=
  List.length ps = List.length names /\
  (forall n, In n names -> n = "") /\ (forall p, In p ps -> gp_name p = None)
  \/
  List.length ps = List.length names /\
  (exists n, In n names /\ n <> "") /\
  forall k n p, nth_error names k = Some n -> nth_error ps k = Some p ->
    gp_name p = Some (if String.eqb n "" then "_" else n).
