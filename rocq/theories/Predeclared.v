(** Model of the package variables for types (types.go:756-800). *)
From Verif Require Import Base Types.

(** types.go:757-799: each variable with its initial value *)
Definition type_variables : list (string * res TypeName) :=
  let Int32Type := BasicType KInt32 in
  let Uint8Type := BasicType KUint8 in
  [("IntType", BasicType KInt); ("Int8Type", BasicType KInt8); ("Int16Type", BasicType KInt16);
   ("Int32Type", Int32Type); ("Int64Type", BasicType KInt64); ("RuneType", Int32Type);
   ("UintType", BasicType KUint); ("Uint8Type", Uint8Type); ("Uint16Type", BasicType KUint16);
   ("Uint32Type", BasicType KUint32); ("Uint64Type", BasicType KUint64); ("ByteType", Uint8Type);
   ("UintptrType", BasicType KUintptr); ("BoolType", BasicType KBool); ("StringType", BasicType KString);
   ("Float32Type", BasicType KFloat32); ("Float64Type", BasicType KFloat64);
   ("Complex64Type", BasicType KComplex64); ("Complex128Type", BasicType KComplex128);
   ("ErrorType", Ok ErrorType); ("UnsafePointerType", Ok UnsafePointerType)].
