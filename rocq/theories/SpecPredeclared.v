(** Specification: Go's predeclared types and the variables of the library for them. *)
From Verif Require Import Base.

(** Each variable with the name of the Go type it is documented to stand for. *)
Definition documented : list (string * string) :=
  [("IntType", "int"); ("Int8Type", "int8"); ("Int16Type", "int16"); ("Int32Type", "int32"); ("Int64Type", "int64");
   ("RuneType", "rune"); ("UintType", "uint"); ("Uint8Type", "uint8"); ("Uint16Type", "uint16"); ("Uint32Type", "uint32");
   ("Uint64Type", "uint64"); ("ByteType", "byte"); ("UintptrType", "uintptr"); ("BoolType", "bool"); ("StringType", "string");
   ("Float32Type", "float32"); ("Float64Type", "float64"); ("Complex64Type", "complex64"); ("Complex128Type", "complex128");
   ("ErrorType", "error")].
(** Go declares byte and rune as other names of uint8 and int32. *)
Definition go_type_named (n : string) : string :=
  if String.eqb n "byte" then "uint8" else if String.eqb n "rune" then "int32" else n.
