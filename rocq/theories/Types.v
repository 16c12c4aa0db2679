(** Model of types.go: TypeName values, their constructors, accessors and text. *)
From Verif Require Import Base GoPath Utf8 Quote.

(** model.go:25-27  type Package struct { ImportPath, Name string } *)
Record Package := mkPackage { ImportPath : string; PkgName : string }.
(** model.go:77-80  type Symbol struct { Package Package; Name string } *)
Record Symbol := mkSymbol { SymPackage : Package; SymName : string }.
(** model.go:1719-1722  type MethodReference struct { Type Symbol; Method string } *)
Record MethodReference := mkMethodRef { MRType : Symbol; MRMethod : string }.

(** Go's zero values and == on these comparable structs. *)
Definition zeroPackage := mkPackage "" "".
Definition zeroSymbol := mkSymbol zeroPackage "".
Definition package_eqb (a b : Package) : bool :=
  String.eqb (ImportPath a) (ImportPath b) && String.eqb (PkgName a) (PkgName b).
Definition symbol_eqb (a b : Symbol) : bool :=
  package_eqb (SymPackage a) (SymPackage b) && String.eqb (SymName a) (SymName b).

(** model.go:42-47 NewPackage *)
Definition NewPackage (importPath : string) : Package :=
  mkPackage importPath (path_Base importPath).
(** model.go:50-52 Package.Symbol *)
Definition Package_Symbol (p : Package) (name : string) : Symbol := mkSymbol p name.
(** model.go:62-64 Package.String *)
Definition Package_String (p : Package) : string := PkgName p.
(** model.go:94-96 NewSymbol *)
Definition NewSymbol (importPath symName : string) : Symbol :=
  Package_Symbol (NewPackage importPath) symName.
(** model.go:122-127 Symbol.String *)
Definition Symbol_String (s : Symbol) : string :=
  if negb (String.eqb (PkgName (SymPackage s)) "")
  then (PkgName (SymPackage s) ++ "." ++ SymName s)%string
  else SymName s.
(** model.go:1727-1729 MethodReference.String: Sprintf("%s.%s", r.Type, r.Method) *)
Definition MethodReference_String (r : MethodReference) : string :=
  (Symbol_String (MRType r) ++ "." ++ MRMethod r)%string.

(** reflect.Kind (standard library).  Simplification: only the named kinds exist. *)
Inductive Kind :=
| KInvalid | KBool | KInt | KInt8 | KInt16 | KInt32 | KInt64
| KUint | KUint8 | KUint16 | KUint32 | KUint64 | KUintptr
| KFloat32 | KFloat64 | KComplex64 | KComplex128
| KArray | KChan | KFunc | KInterface | KMap | KPtr | KSlice | KString | KStruct
| KUnsafePointer.
Scheme Equality for Kind.

(** reflect.Kind.String (standard library) *)
Definition Kind_String (k : Kind) : string :=
  match k with
  | KInvalid => "invalid" | KBool => "bool" | KInt => "int" | KInt8 => "int8"
  | KInt16 => "int16" | KInt32 => "int32" | KInt64 => "int64" | KUint => "uint"
  | KUint8 => "uint8" | KUint16 => "uint16" | KUint32 => "uint32" | KUint64 => "uint64"
  | KUintptr => "uintptr" | KFloat32 => "float32" | KFloat64 => "float64"
  | KComplex64 => "complex64" | KComplex128 => "complex128" | KArray => "array"
  | KChan => "chan" | KFunc => "func" | KInterface => "interface" | KMap => "map"
  | KPtr => "ptr" | KSlice => "slice" | KString => "string" | KStruct => "struct"
  | KUnsafePointer => "unsafe.Pointer"
  end.

(** reflect.ChanDir: RecvDir = 1, SendDir = 2, BothDir = 3; an arbitrary int. *)
Definition RecvDir : Z := 1.
Definition SendDir : Z := 2.
Definition BothDir : Z := 3.

(** types.go:15-58 TypeKind *)
Inductive TypeKind :=
| KindInvalid | KindNamed | KindBasic | KindPtr | KindSlice | KindArray | KindMap
| KindChan | KindFunc | KindStruct | KindInterface.
Scheme Equality for TypeKind.

(** types.go:158-161 ArgType, 123-127 Signature, 165-169 FieldType, 173-176 MethodType;
    parametric in the type of types so that [TypeName] can nest them. *)
Record ArgType_ (T : Type) := mkArg { ArgName : string; ArgTy : T }.
Record Signature_ (T : Type) := mkSig
  { Args : list (ArgType_ T); Results : list (ArgType_ T); IsVariadic : bool }.
Record FieldType_ (T : Type) := mkField { FldName : string; FldType : T; FldTag : string }.
Record MethodType_ (T : Type) := mkMethod { MtdName : string; MtdSig : Signature_ T }.
Arguments mkArg {T}. Arguments ArgName {T}. Arguments ArgTy {T}.
Arguments mkSig {T}. Arguments Args {T}. Arguments Results {T}. Arguments IsVariadic {T}.
Arguments mkField {T}. Arguments FldName {T}. Arguments FldType {T}. Arguments FldTag {T}.
Arguments mkMethod {T}. Arguments MtdName {T}. Arguments MtdSig {T}.

(** types.go:64-113 the TypeName interface and its implementations (178-373).
    [TNil] is the nil interface value.  Simplification: TypeNames are immutable values
    here; Go code that keeps a *Signature or a slice it passed to a constructor can
    still mutate the TypeName through it. *)
Inductive TypeName :=
| TNil
| TBasic (k : Kind)                                  (* basicTypeName,     178-194 *)
| TNamed (s : Symbol)                                (* *namedTypeName,    196-212 *)
| TPtr (elem : TypeName)                             (* ptrTypeName,       214-232 *)
| TSlice (elem : TypeName)                           (* sliceTypeName,     234-252 *)
| TArray (elem : TypeName) (length : Z)              (* arrayTypeName,     254-273 *)
| TMap (elem key : TypeName)                         (* mapTypeName,       275-293 *)
| TChan (elem : TypeName) (dir : Z)                  (* chanTypeName,      295-314 *)
| TFunc (sig : Signature_ TypeName)                  (* *funcTypeName,     316-332 *)
| TStruct (fields : list (FieldType_ TypeName))      (* *structTypeName,   334-352 *)
| TInterface (methods : list (MethodType_ TypeName)) (embeds : list Symbol).
                                                     (* *interfaceTypeName 354-373 *)
Notation ArgType := (ArgType_ TypeName).
Notation Signature := (Signature_ TypeName).
Notation FieldType := (FieldType_ TypeName).
Notation MethodType := (MethodType_ TypeName).

(** Accessors (types.go:182-373).  On the nil interface Go panics; the code below only
    calls them on non-nil values (or checks for [TNil] first). *)
Definition tKind (t : TypeName) : TypeKind :=
  match t with
  | TNil => KindInvalid
  | TBasic _ => KindBasic | TNamed _ => KindNamed | TPtr _ => KindPtr | TSlice _ => KindSlice
  | TArray _ _ => KindArray | TMap _ _ => KindMap | TChan _ _ => KindChan
  | TFunc _ => KindFunc | TStruct _ => KindStruct | TInterface _ _ => KindInterface
  end.
Definition tSymbol (t : TypeName) : Symbol := match t with TNamed s => s | _ => zeroSymbol end.
Definition tElem (t : TypeName) : TypeName :=
  match t with
  | TPtr e | TSlice e | TArray e _ | TMap e _ | TChan e _ => e
  | _ => TNil
  end.
Definition tKey (t : TypeName) : TypeName := match t with TMap _ k => k | _ => TNil end.
Definition tLen (t : TypeName) : Z := match t with TArray _ n => n | _ => -1 end.
Definition tDir (t : TypeName) : Z := match t with TChan _ d => d | _ => 0%Z end.
Definition tBasicKind (t : TypeName) : Kind := match t with TBasic k => k | _ => KInvalid end.
Definition tSignature (t : TypeName) : option Signature :=
  match t with TFunc s => Some s | _ => None end.
(** [None] is Go's nil slice; Fields/Methods/Embeds return fresh non-nil copies (348, 370, 371). *)
Definition tFields (t : TypeName) : option (list FieldType) :=
  match t with TStruct fs => Some fs | _ => None end.
Definition tMethods (t : TypeName) : option (list MethodType) :=
  match t with TInterface ms _ => Some ms | _ => None end.
Definition tEmbeds (t : TypeName) : option (list Symbol) :=
  match t with TInterface _ es => Some es | _ => None end.

Definition is_nil (t : TypeName) : bool := match t with TNil => true | _ => false end.

(** types.go:375-395 basicTypes *)
Definition is_basic (k : Kind) : bool :=
  match k with
  | KBool | KString | KInt | KInt8 | KInt16 | KInt32 | KInt64
  | KUint | KUint8 | KUint16 | KUint32 | KUint64 | KUintptr
  | KFloat32 | KFloat64 | KComplex64 | KComplex128 => true
  | _ => false
  end.

(** types.go:685-687 NamedType *)
Definition NamedType (sym : Symbol) : TypeName := TNamed sym.
(** types.go:796 ErrorType, 798 UnsafePointerType *)
Definition ErrorType : TypeName := NamedType (mkSymbol zeroPackage "error").
Definition UnsafePointerType : TypeName := NamedType (NewSymbol "unsafe" "Pointer").
(** types.go:638-646 BasicType *)
Definition BasicType (k : Kind) : res TypeName :=
  if Kind_beq k KUnsafePointer then Ok UnsafePointerType
  else if is_basic k then Ok (TBasic k)
  else Panic ("kind " ++ Kind_String k ++ " is not a basic type")%string.
(** types.go:649-654 PointerType *)
Definition PointerType (t : TypeName) : res TypeName :=
  if is_nil t then Panic "cannot create a pointer with nil element type" else Ok (TPtr t).
(** types.go:658-663 SliceType *)
Definition SliceType (t : TypeName) : res TypeName :=
  if is_nil t then Panic "cannot create a slice with nil element type" else Ok (TSlice t).
(** types.go:667-672 ArrayType *)
Definition ArrayType (t : TypeName) (length : Z) : res TypeName :=
  if is_nil t || (length <? 0)%Z
  then Panic "cannot create an array with nil element type or negative length"
  else Ok (TArray t length).
(** types.go:676-681 MapType *)
Definition MapType (k v : TypeName) : res TypeName :=
  if is_nil k || is_nil v then Panic "cannot create a map with nil key or element type"
  else Ok (TMap v k).
(** types.go:692-700 ChannelType *)
Definition ChannelType (t : TypeName) (dir : Z) : res TypeName :=
  let dir := if (dir =? 0)%Z then BothDir else dir in
  if is_nil t || negb (Z.ldiff dir BothDir =? 0)%Z
  then Panic "cannot create a channel type with nil element type or invalid direction"
  else Ok (TChan t dir).

Definition last_arg {T} (l : list (ArgType_ T)) : option (ArgType_ T) := last (map Some l) None.
(** types.go:724-739 FuncTypeFromSig *)
Definition FuncTypeFromSig (sig : Signature) : res TypeName :=
  if existsb (fun a => is_nil (ArgTy a)) (Args sig)
  then Panic "cannot create a function type with a nil argument type"
  else if existsb (fun a => is_nil (ArgTy a)) (Results sig)
  then Panic "cannot create a function type with a nil result type"
  else if IsVariadic sig &&
          match last_arg (Args sig) with
          | None => true
          | Some a => negb (TypeKind_beq (tKind (ArgTy a)) KindSlice)
          end
  then Panic "cannot create a function type with variadic signature where last arg is not a slice"
  else Ok (TFunc sig).
(** types.go:704-709 FuncType, 714-720 FuncTypeVariadic *)
Definition FuncType (args results : list ArgType) : res TypeName :=
  FuncTypeFromSig (mkSig args results false).
Definition FuncTypeVariadic (args results : list ArgType) : res TypeName :=
  FuncTypeFromSig (mkSig args results true).
(** types.go:743-745 StructType *)
Definition StructType (fields : list FieldType) : TypeName := TStruct fields.
(** types.go:749-754 InterfaceType *)
Definition InterfaceType (embeds : list Symbol) (methods : list MethodType) : TypeName :=
  TInterface methods embeds.

(** types.go:133-154 Signature.AddArg / AddResult / SetVariadic *)
Definition Signature_AddArg (s : Signature) (name : string) (t : TypeName) : Signature :=
  mkSig (Args s ++ [mkArg name t]) (Results s) (IsVariadic s).
Definition Signature_AddResult (s : Signature) (name : string) (t : TypeName) : Signature :=
  mkSig (Args s) (Results s ++ [mkArg name t]) (IsVariadic s).
Definition Signature_SetVariadic (s : Signature) (v : bool) : Signature :=
  mkSig (Args s) (Results s) v.

Section Render.
Variable isPrint : N -> bool.   (* printability of non-ASCII runes, used by strconv.Quote *)

(** types.go:822-829: the text of a basic kind *)
Definition basic_text (k : Kind) : string :=
  if Kind_beq k KUint8 then "byte" else if Kind_beq k KInt32 then "rune" else Kind_String k.

(** types.go:877-887 (and model.go:1246-1253): a struct tag as a literal *)
Definition tag_literal (tag : string) : string :=
  if CanBackquote tag then (bquote ++ tag ++ bquote)%string else Quote isPrint tag.

(** types.go:915-921 / 944-950: does any argument carry a name? *)
Definition any_named {T} (l : list (ArgType_ T)) : bool :=
  existsb (fun a => negb (String.eqb (ArgName a) "")) l.

(** types.go:926-933 / 958-965 *)
Definition arg_name_text {T} (named : bool) (a : ArgType_ T) : string :=
  if named then
    if negb (String.eqb (ArgName a) "") then (ArgName a ++ " ")%string else "_ "
  else "".

(** types.go:913-972 signatureToBuffer.  [rec] renders a type, [rec_elem] renders its Elem(). *)
Definition signatureToBuffer_ {T} (rec rec_elem : T -> res string) (sig : Signature_ T)
  : res string :=
  match sig with
  | mkSig args results variadic =>
    let namedArgs := any_named args in
    let namedResults := any_named results in
    let len := List.length args in
    let parens := Nat.ltb 1 (List.length results) || namedResults in
    W "("
    +++ (fix go (i : nat) (l : list (ArgType_ T)) : res string :=
           match l with
           | [] => W ""
           | a :: r =>
               W (if Nat.ltb 0 i then ", " else "")
               +++ W (arg_name_text namedArgs a)
               +++ (if variadic && Nat.eqb i (len - 1)
                    then W "..." +++ match a with mkArg _ t => rec_elem t end
                    else match a with mkArg _ t => rec t end)
               +++ go (S i) r
           end) 0 args
    +++ W ")"
    +++ (match results with
         | [] => W ""
         | _ =>
             W " "
             +++ W (if parens then "(" else "")
             +++ (fix go (i : nat) (l : list (ArgType_ T)) : res string :=
                    match l with
                    | [] => W ""
                    | a :: r =>
                        W (if Nat.ltb 0 i then ", " else "")
                        +++ W (arg_name_text namedResults a)
                        +++ match a with mkArg _ t => rec t end
                        +++ go (S i) r
                    end) 0 results
             +++ W (if parens then ")" else "")
         end)
  end.

(** types.go:832-836 and 896-900: a possibly qualified name *)
Definition symbol_text (sym : Symbol) : string :=
  ((if negb (String.eqb (PkgName (SymPackage sym)) "")
    then PkgName (SymPackage sym) ++ "." else "") ++ SymName sym)%string.

(** types.go:820-911 typeNameToBuffer.  Writing to the buffer is modelled by returning
    the text; a call on the nil TypeName panics. *)
Fixpoint typeNameToBuffer (tn : TypeName) : res string :=
  match tn with
  | TNil => Panic nil_deref
  | TBasic k => W (basic_text k)
  | TNamed sym => W (symbol_text sym)
  | TMap elem key => W "map[" +++ typeNameToBuffer key +++ W "]" +++ typeNameToBuffer elem
  | TSlice elem => W "[]" +++ typeNameToBuffer elem
  | TArray elem len => W "[" +++ W (decZ len) +++ W "]" +++ typeNameToBuffer elem
  | TPtr elem => W "*" +++ typeNameToBuffer elem
  | TChan elem dir =>
      W (if (dir =? RecvDir)%Z then "<-" else "")
      +++ W "chan"
      +++ W (if (dir =? SendDir)%Z then "<-" else "")
      +++ W " " +++ typeNameToBuffer elem
  | TFunc sig =>
      W "func"
      +++ signatureToBuffer_ typeNameToBuffer
            (fun t => match t with
                      | TPtr e | TSlice e | TArray e _ | TMap e _ | TChan e _ => typeNameToBuffer e
                      | _ => Panic nil_deref
                      end) sig
  | TStruct fields =>
      W "struct{"
      +++ (fix go (i : nat) (l : list FieldType) : res string :=
             match l with
             | [] => W ""
             | mkField name t tag :: r =>
                 W (if Nat.ltb 0 i then "; " else "")
                 +++ W (if negb (String.eqb name "") then (name ++ " ")%string else "")
                 +++ typeNameToBuffer t
                 +++ W (if negb (String.eqb tag "") then (" " ++ tag_literal tag)%string else "")
                 +++ go (S i) r
             end) 0 fields
      +++ W "}"
  | TInterface methods embeds =>
      W "interface{"
      +++ (fix go (i : nat) (l : list Symbol) : res string :=
             match l with
             | [] => W ""
             | emb :: r =>
                 W (if Nat.ltb 0 i then "; " else "") +++ W (symbol_text emb) +++ go (S i) r
             end) 0 embeds
      +++ (fix go (i : nat) (l : list MethodType) : res string :=
             match l with
             | [] => W ""
             | mkMethod name sig :: r =>
                 W (if Nat.ltb 0 i then "; " else "")
                 +++ W name
                 +++ signatureToBuffer_ typeNameToBuffer
                       (fun t => match t with
                                 | TPtr e | TSlice e | TArray e _ | TMap e _ | TChan e _ =>
                                     typeNameToBuffer e
                                 | _ => Panic nil_deref
                                 end) sig
                 +++ go (S i) r
             end) 0 methods
      +++ W "}"
  end.

(** The text of arg.Type.Elem() (types.go:936); Elem() of other kinds is nil. *)
Definition elemToBuffer (t : TypeName) : res string :=
  match t with
  | TPtr e | TSlice e | TArray e _ | TMap e _ | TChan e _ => typeNameToBuffer e
  | _ => Panic nil_deref
  end.

(** types.go:913-972 signatureToBuffer *)
Definition signatureToBuffer (sig : Signature) : res string :=
  signatureToBuffer_ typeNameToBuffer elemToBuffer sig.

(** types.go:801-818 typeNameToString, the String() method of every TypeName *)
Definition typeNameToString (tn : TypeName) : res string :=
  match tn with
  | TNil => Panic nil_deref
  | TBasic k =>
      if Kind_beq k KUint8 then Ok "byte"
      else if Kind_beq k KInt32 then Ok "rune"
      else Ok (Kind_String k)
  | TNamed s => Ok (Symbol_String s)
  | _ => typeNameToBuffer tn
  end.
End Render.
