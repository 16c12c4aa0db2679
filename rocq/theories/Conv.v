(** Model of the conversions from go/types and reflect (types.go:397-632, model.go:66-118). *)
From Verif Require Import Base Types.

(** Sequencing of a loop that may panic: the first panic wins. *)
Fixpoint all_ok {A} (l : list (res A)) : res (list A) :=
  match l with
  | [] => Ok []
  | x :: r => rbind x (fun a => rbind (all_ok r) (fun s => Ok (a :: s)))
  end.

(** * go/types (standard library) *)
(** types.BasicKind *)
Inductive BasicKind :=
| BInvalid | BBool | BInt | BInt8 | BInt16 | BInt32 | BInt64
| BUint | BUint8 | BUint16 | BUint32 | BUint64 | BUintptr
| BFloat32 | BFloat64 | BComplex64 | BComplex128 | BString | BUnsafePointer
| BUntypedBool | BUntypedInt | BUntypedRune | BUntypedFloat | BUntypedComplex | BUntypedString | BUntypedNil.
(** types.Var, types.Signature, struct fields and interface methods.  [IfaceRecv] is a receiver
    whose type has an interface as its underlying type: the code only tests for that, and not
    keeping the type itself avoids cyclic values. *)
Record GoVar_ (T : Type) := mkVar { VName : string; VType : T }.
Inductive GoRecv_ (T : Type) := NoRecv | IfaceRecv | Recv (v : GoVar_ T).
Record GoSig_ (T : Type) := mkGoSig
  { SRecv : GoRecv_ T; SParams : list (GoVar_ T); SResults : list (GoVar_ T); SVariadic : bool }.
Record GoField_ (T : Type) := mkGoField { GFName : string; GFAnonymous : bool; GFType : T; GFTag : string }.
Record GoMethod_ (T : Type) := mkGoMethod { GMName : string; GMSig : GoSig_ T }.
Arguments mkVar {T}. Arguments VName {T}. Arguments VType {T}.
Arguments NoRecv {T}. Arguments IfaceRecv {T}. Arguments Recv {T}.
Arguments mkGoSig {T}. Arguments SRecv {T}. Arguments SParams {T}. Arguments SResults {T}. Arguments SVariadic {T}.
Arguments mkGoField {T}. Arguments GFName {T}. Arguments GFAnonymous {T}. Arguments GFType {T}. Arguments GFTag {T}.
Arguments mkGoMethod {T}. Arguments GMName {T}. Arguments GMSig {T}.

(** types.Type.  A package is (path, name); [None] is a nil *types.Package, as for predeclared
    names like error.  Named types are leaves: the code never looks inside them.
    [GTOther] is any other implementation of types.Type, e.g. a Tuple.  Simplification: what an
    interface embeds is named; for an unnamed one Embedded returns nil (types.go:506) and the
    code panics. *)
Inductive GoType :=
| GTBasic (k : BasicKind)
| GTNamed (pkg : option Package) (name : string)
| GTMap (key elem : GoType)
| GTSlice (elem : GoType)
| GTArray (elem : GoType) (len : Z)
| GTPointer (elem : GoType)
| GTChan (dir : Z) (elem : GoType)                   (* 0 SendRecv, 1 SendOnly, 2 RecvOnly *)
| GTSignature (s : GoSig_ GoType)
| GTStruct (fields : list (GoField_ GoType))
| GTInterface (embeds : list (option Package * string)) (methods : list (GoMethod_ GoType))
| GTOther (desc : string).
Notation GoVar := (GoVar_ GoType).
Notation GoSig := (GoSig_ GoType).
Notation GoField := (GoField_ GoType).
Notation GoMethod := (GoMethod_ GoType).

(** model.go:68-73 PackageForGoType; a nil package is dereferenced *)
Definition PackageForGoType (pkg : option Package) : res Package :=
  match pkg with
  | None => Panic nil_deref
  | Some p => Ok (mkPackage (ImportPath p) (PkgName p))
  end.

(** types.go:407-453 the basic kinds; the message of the default case is simplified *)
Definition typeNameForBasic (k : BasicKind) : res TypeName :=
  match k with
  | BBool => BasicType KBool
  | BInt => BasicType KInt
  | BInt8 => BasicType KInt8
  | BInt16 => BasicType KInt16
  | BInt32 => BasicType KInt32
  | BInt64 => BasicType KInt64
  | BUint => BasicType KUint
  | BUint8 => BasicType KUint8
  | BUint16 => BasicType KUint16
  | BUint32 => BasicType KUint32
  | BUint64 => BasicType KUint64
  | BUintptr => BasicType KUintptr
  | BFloat32 => BasicType KFloat32
  | BFloat64 => BasicType KFloat64
  | BComplex64 => BasicType KComplex64
  | BComplex128 => BasicType KComplex128
  | BString => BasicType KString
  | BUnsafePointer => Ok UnsafePointerType
  | _ => Panic "basic kind cannot be represented as TypeName"
  end.

(** types.go:545-554 argsTypesForGoType *)
Definition argsTypesForGoType_ {T} (rec : T -> res TypeName) (l : list (GoVar_ T)) : res (list ArgType) :=
  all_ok (map (fun v => match v with mkVar n t => rbind (rec t) (fun t => Ok (mkArg n t)) end) l).
(** types.go:526-543 signatureFromGoType *)
Definition signatureFromGoType_ {T} (rec : T -> res TypeName) (s : GoSig_ T) : res Signature :=
  match s with
  | mkGoSig recv params results variadic =>
      rbind (argsTypesForGoType_ rec params) (fun args =>
      rbind (argsTypesForGoType_ rec results) (fun res =>
      match recv with
      | NoRecv => Ok (mkSig args res variadic)
      | IfaceRecv => Ok (mkSig args res variadic)
      | Recv (mkVar n t) =>
          rbind (rec t) (fun t => Ok (mkSig ([mkArg n t] ++ args) res variadic))
      end))
  end.

(** types.go:398-524 TypeNameForGoType *)
Fixpoint TypeNameForGoType (t : GoType) : res TypeName :=
  match t with
  | GTNamed pkg name =>
      rbind (PackageForGoType pkg) (fun p => Ok (NamedType (mkSymbol p name)))
  | GTBasic k => typeNameForBasic k
  | GTMap k e =>
      rbind (TypeNameForGoType k) (fun k => rbind (TypeNameForGoType e) (fun e => MapType k e))
  | GTSlice e => rbind (TypeNameForGoType e) SliceType
  | GTArray e n => rbind (TypeNameForGoType e) (fun e => ArrayType e n)
  | GTPointer e => rbind (TypeNameForGoType e) PointerType
  | GTChan d e =>
      rbind (if (d =? 0)%Z then Ok BothDir else if (d =? 1)%Z then Ok SendDir
             else if (d =? 2)%Z then Ok RecvDir
             else Panic "channel direction is not valid and cannot be represented by a TypeName")
        (fun dir => rbind (TypeNameForGoType e) (fun e => ChannelType e dir))
  | GTSignature s => rbind (signatureFromGoType_ TypeNameForGoType s) FuncTypeFromSig
  | GTStruct fields =>
      rbind (all_ok (map (fun f =>
          match f with
          | mkGoField n anon t tag =>
              rbind (TypeNameForGoType t) (fun t => Ok (mkField (if anon then "" else n) t tag))
          end) fields))
        (fun fs => Ok (StructType fs))
  | GTInterface embeds methods =>
      rbind (all_ok (map (fun e =>
          rbind (PackageForGoType (fst e)) (fun p => Ok (mkSymbol p (snd e)))) embeds))
        (fun es =>
      rbind (all_ok (map (fun m =>
          match m with
          | mkGoMethod n s => rbind (signatureFromGoType_ TypeNameForGoType s) (fun s => Ok (mkMethod n s))
          end) methods))
        (fun ms => Ok (InterfaceType es ms)))
  | GTOther d => Panic (d ++ " cannot be represented as TypeName")%string
  end.
Definition signatureFromGoType : GoSig -> res Signature := signatureFromGoType_ TypeNameForGoType.

(** types.Object: only functions are told apart; [Some r] is the type of the receiver of a method. *)
Inductive GoObject :=
| GOFunc (pkg : option Package) (name : string) (recv : option GoType)
| GOOther (pkg : option Package) (name : string).     (* const, var, type, ... *)
Definition obj_pkg (o : GoObject) : option Package := match o with GOFunc p _ _ | GOOther p _ => p end.
Definition obj_name (o : GoObject) : string := match o with GOFunc _ n _ | GOOther _ n => n end.

(** model.go:84-87 SymbolOrMethodRef *)
Inductive SymbolOrMethodRef := SomSymbol (s : Symbol) | SomMethod (m : MethodReference).
(** model.go:102-118 SymbolForGoObject *)
Definition SymbolForGoObject (obj : GoObject) : res SymbolOrMethodRef :=
  let plain := rbind (PackageForGoType (obj_pkg obj))
                     (fun p => Ok (SomSymbol (Package_Symbol p (obj_name obj)))) in
  match obj with
  | GOFunc _ _ (Some recv) =>
      rbind (TypeNameForGoType recv) (fun recvType =>
      let recvType := if TypeKind_beq (tKind recvType) KindPtr then tElem recvType else recvType in
      Ok (SomMethod (mkMethodRef (tSymbol recvType) (obj_name obj))))
  | _ => plain
  end.

(** * reflect (standard library) *)
(** reflect.Type.  [RNamed] is a type with a name, predeclared types included (package path
    empty): the code looks only at its kind, path and name. *)
Record RField_ (T : Type) := mkRField { RFName : string; RFType : T; RFTag : string; RFAnonymous : bool }.
Record RSig_ (T : Type) := mkRSig { RIn : list T; ROut : list T; RVariadic : bool }.
Record RMethod_ (T : Type) := mkRMethod { RMName : string; RMSig : RSig_ T }.
Arguments mkRField {T}. Arguments RFName {T}. Arguments RFType {T}. Arguments RFTag {T}. Arguments RFAnonymous {T}.
Arguments mkRSig {T}. Arguments RIn {T}. Arguments ROut {T}. Arguments RVariadic {T}.
Arguments mkRMethod {T}. Arguments RMName {T}. Arguments RMSig {T}.
Inductive RType :=
| RNamed (k : Kind) (pkgPath name : string)
| RPtr (elem : RType)
| RSlice (elem : RType)
| RArray (elem : RType) (len : Z)
| RMap (key elem : RType)
| RChan (elem : RType) (dir : Z)
| RFunc (s : RSig_ RType)
| RStruct (fields : list (RField_ RType))
| RInterface (methods : list (RMethod_ RType)).
Notation RSig := (RSig_ RType).
Notation RField := (RField_ RType).
Notation RMethod := (RMethod_ RType).
Definition rKind (t : RType) : Kind :=
  match t with
  | RNamed k _ _ => k
  | RPtr _ => KPtr | RSlice _ => KSlice | RArray _ _ => KArray | RMap _ _ => KMap
  | RChan _ _ => KChan | RFunc _ => KFunc | RStruct _ => KStruct | RInterface _ => KInterface
  end.
Definition rName (t : RType) : string := match t with RNamed _ _ n => n | _ => "" end.
Definition rPkgPath (t : RType) : string := match t with RNamed _ p _ => p | _ => "" end.

(** a[i] = v on a Go slice; [None] is an index out of range *)
Fixpoint set_nth {A} (i : nat) (v : A) (l : list A) : option (list A) :=
  match l, i with
  | [], _ => None
  | _ :: r, O => Some (v :: r)
  | x :: r, S k => match set_nth k v r with Some r' => Some (x :: r') | None => None end
  end.
(** types.go:617-632 signatureFromReflectType.  The second loop (626-630) assigns the results
    to sig.Args; sig.Results keeps its zero elements. *)
Definition signatureFromReflectType_ {T} (rec : T -> res TypeName) (s : RSig_ T) : res Signature :=
  match s with
  | mkRSig ins outs variadic =>
      rbind (all_ok (map (fun t => rbind (rec t) (fun t => Ok (mkArg "" t))) ins)) (fun args =>
      rbind ((fix go (i : nat) (outs : list T) (args : list ArgType) : res (list ArgType) :=
                match outs with
                | [] => Ok args
                | o :: r =>
                    rbind (rec o) (fun t =>
                    match set_nth i (mkArg "" t) args with
                    | None => Panic index_oob
                    | Some args => go (S i) r args
                    end)
                end) 0 outs args) (fun args =>
      Ok (mkSig args (map (fun _ => mkArg "" TNil) outs) variadic)))
  end.

(** types.go:561-615 TypeNameForReflectType *)
Fixpoint TypeNameForReflectType (t : RType) : res TypeName :=
  if is_basic (rKind t) && String.eqb (rPkgPath t) "" then BasicType (rKind t)
  else if negb (String.eqb (rName t) "") then
    Ok (NamedType (mkSymbol (mkPackage (rPkgPath t) "") (rName t)))
  else match t with
  | RPtr e => rbind (TypeNameForReflectType e) PointerType
  | RSlice e => rbind (TypeNameForReflectType e) SliceType
  | RArray e n => rbind (TypeNameForReflectType e) (fun e => ArrayType e n)
  | RChan e d => rbind (TypeNameForReflectType e) (fun e => ChannelType e d)
  | RFunc s => rbind (signatureFromReflectType_ TypeNameForReflectType s) FuncTypeFromSig
  | RStruct fields =>
      rbind (all_ok (map (fun f =>
          match f with
          | mkRField n t tag _ => rbind (TypeNameForReflectType t) (fun t => Ok (mkField n t tag))
          end) fields))
        (fun fs => Ok (StructType fs))
  | RInterface methods =>
      rbind (all_ok (map (fun m =>
          match m with
          | mkRMethod n s =>
              rbind (signatureFromReflectType_ TypeNameForReflectType s) (fun s => Ok (mkMethod n s))
          end) methods))
        (fun ms => Ok (InterfaceType [] ms))
  | RNamed _ _ _ | RMap _ _ => Panic ("unrecognized kind " ++ Kind_String (rKind t))%string
  end.
