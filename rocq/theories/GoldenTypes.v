(** types_test.go:8-169 TestNewType, with checkTypeName (179-262), as a test of the model. *)
From Verif Require Import Base GoPath Types Predeclared.

(** The expected value: the argument [val] of checkTypeName. *)
Inductive val :=
| VSym (s : Symbol) | VBasic (k : Kind) | VElem (e : TypeName) | VLen (n : Z) (e : TypeName) | VKey (k e : TypeName)
| VDir (d : Z) (e : TypeName) | VFields (l : list FieldType) | VMethods (m : list MethodType) (e : list Symbol) | VSig (s : Signature).
(** types_test.go:179-262 checkTypeName *)
Definition checkTypeName (r : res TypeName) (kind : TypeKind) (v : val) : Prop :=
  exists t, r = Ok t /\ tKind t = kind /\
  tSymbol t = match v with VSym s => s | _ => mkSymbol (mkPackage "" "") "" end /\
  tBasicKind t = match v with VBasic k => k | _ => KInvalid end /\
  tElem t = match v with VElem e | VLen _ e | VKey _ e | VDir _ e => e | _ => TNil end /\
  tLen t = match v with VLen n _ => n | _ => (-1)%Z end /\
  tKey t = match v with VKey k _ => k | _ => TNil end /\
  tDir t = match v with VDir d _ => d | _ => 0%Z end /\
  tSignature t = match v with VSig s => Some s | _ => None end /\
  tFields t = match v with VFields l => Some l | _ => None end /\
  tMethods t = match v with VMethods m _ => Some m | _ => None end /\
  tEmbeds t = match v with VMethods _ e => Some e | _ => None end.
Definition variable (name : string) : res TypeName := match lookup name type_variables with Some r => r | None => Panic "none" end.
Ltac all_equal := repeat (apply Forall_cons || apply Forall_nil); eexists; repeat split; reflexivity.

Example TestNewType_KindNamed :
  let baz := mkSymbol (NewPackage "foo/bar") "Baz" in let pointer := mkSymbol (NewPackage "unsafe") "Pointer" in
  checkTypeName (Ok (NamedType baz)) KindNamed (VSym baz) /\
  checkTypeName (variable "UnsafePointerType") KindNamed (VSym pointer) /\ checkTypeName (BasicType KUnsafePointer) KindNamed (VSym pointer) /\
  checkTypeName (variable "ErrorType") KindNamed (VSym (mkSymbol (mkPackage "" "") "error")).
Proof. repeat split; all_equal. Qed.
Definition basicKinds : list (Kind * string) :=
  [(KInt, "IntType"); (KInt8, "Int8Type"); (KInt16, "Int16Type"); (KInt32, "Int32Type"); (KInt64, "Int64Type"); (KUint, "UintType");
   (KUint8, "Uint8Type"); (KUint16, "Uint16Type"); (KUint32, "Uint32Type"); (KUint64, "Uint64Type"); (KFloat32, "Float32Type");
   (KFloat64, "Float64Type"); (KComplex64, "Complex64Type"); (KComplex128, "Complex128Type"); (KBool, "BoolType"); (KString, "StringType");
   (KUintptr, "UintptrType")]%string.
Example TestNewType_KindBasic :
  Forall (fun x => checkTypeName (variable (snd x)) KindBasic (VBasic (fst x))) basicKinds /\
  Forall (fun x => checkTypeName (BasicType (fst x)) KindBasic (VBasic (fst x))) basicKinds.
Proof. split; all_equal. Qed.
Definition elems : list TypeName := [TBasic KInt; ErrorType; UnsafePointerType; TSlice (TBasic KString)].
Example elems_ok : map Ok elems = [BasicType KInt; variable "ErrorType"; variable "UnsafePointerType"; rbind (BasicType KString) SliceType].
Proof. reflexivity. Qed.
Example TestNewType_KindSlice : Forall (fun e => checkTypeName (SliceType e) KindSlice (VElem e)) elems.
Proof. all_equal. Qed.
Example TestNewType_KindPtr : Forall (fun e => checkTypeName (PointerType e) KindPtr (VElem e)) elems.
Proof. all_equal. Qed.
Example TestNewType_KindArray : Forall (fun e => Forall (fun i => checkTypeName (ArrayType e i) KindArray (VLen i e)) [1; 10; 100; 1000; 10000]%Z) elems.
Proof. all_equal. Qed.
Example TestNewType_KindMap : Forall (fun k => Forall (fun e => checkTypeName (MapType k e) KindMap (VKey k e)) elems) elems.
Proof. all_equal. Qed.
(** reflect.SendDir, RecvDir, BothDir *)
Example TestNewType_KindChan : Forall (fun e => Forall (fun d => checkTypeName (ChannelType e d) KindChan (VDir d e)) [2; 1; 3]%Z) elems.
Proof. all_equal. Qed.
Definition tnFields : list FieldType := [mkField "Foo" (TBasic KInt) ""; mkField "bar" (TBasic KString) ""; mkField "baz" (TSlice (TBasic KUint8)) ""].
Example TestNewType_KindStruct : checkTypeName (Ok (StructType [])) KindStruct (VFields []) /\ checkTypeName (Ok (StructType tnFields)) KindStruct (VFields tnFields).
Proof. split; all_equal. Qed.
Definition tnMethods : list MethodType :=
  [mkMethod "Foo" (mkSig [mkArg "a" (TBasic KInt); mkArg "b" (TBasic KString)] [] false); mkMethod "Bar" (mkSig [] [mkArg "" ErrorType] false)].
Definition tnEmbeds : list Symbol := [mkSymbol (NewPackage "fmt") "Stringer"; mkSymbol (NewPackage "io") "Reader"].
Example TestNewType_KindInterface :
  checkTypeName (Ok (InterfaceType [] [])) KindInterface (VMethods [] []) /\
  checkTypeName (Ok (InterfaceType [] tnMethods)) KindInterface (VMethods tnMethods []) /\
  checkTypeName (Ok (InterfaceType tnEmbeds [])) KindInterface (VMethods [] tnEmbeds) /\
  checkTypeName (Ok (InterfaceType tnEmbeds tnMethods)) KindInterface (VMethods tnMethods tnEmbeds).
Proof. repeat split; all_equal. Qed.
Definition tnArgs : list ArgType := [mkArg "a" (TBasic KInt); mkArg "b" (TBasic KString)].
Definition tnRets : list ArgType := [mkArg "" ErrorType].
Example TestNewType_KindFunc :
  checkTypeName (FuncType tnArgs tnRets) KindFunc (VSig (mkSig tnArgs tnRets false)) /\
  checkTypeName (FuncTypeFromSig (mkSig tnArgs tnRets false)) KindFunc (VSig (mkSig tnArgs tnRets false)) /\
  is_ok (FuncTypeVariadic tnArgs tnRets) = false /\
  let args := tnArgs ++ [mkArg "" (TSlice (TBasic KString))] in
  checkTypeName (FuncTypeVariadic args tnRets) KindFunc (VSig (mkSig args tnRets true)).
Proof. repeat split; try all_equal. Qed.
