(** Model of names.go.  The case functions of package unicode are parameters here;
    [unicode15] below instantiates them with the Unicode 15.0 tables. *)
From Verif Require Import Base Utf8 Quote UnicodeTables.
Local Open Scope N_scope.

Section Names.
Variable isPrint : N -> bool.          (* used by %q in the panic message *)
Variable isUpper : N -> bool.          (* unicode.IsUpper *)
Variable toUpper toLower : N -> N.     (* unicode.ToUpper, unicode.ToLower *)

(** names.go:12-22 Unexport *)
Definition Unexport (s : string) : res string :=
  if String.eqb s "" then Ok s
  else let '(r, sz) := DecodeRuneInString s in
  if r =? RuneError then Panic (Quote isPrint s ++ " is not valid UTF8")%string
  else Ok (EncodeRune (toLower r) ++ drop sz s)%string.

(** names.go:30-51 Export *)
Definition Export (s : string) : res string :=
  if String.eqb s "" then Ok s
  else let '(r, sz) := DecodeRuneInString s in
  if r =? RuneError then Panic (Quote isPrint s ++ " is not valid UTF8")%string
  else if isUpper r then Ok s
  else let upperR := toUpper r in
  if upperR =? r then
    if r =? 95 then Ok ("X" ++ drop sz s)%string      (* '_' *)
    else Ok ("X" ++ s)%string
  else Ok (EncodeRune upperR ++ drop sz s)%string.
End Names.

(** unicode.IsUpper / ToUpper / ToLower (standard library) on the Unicode 15.0 tables. *)
Definition table_map (t : list (N * N)) (r : N) : N :=
  match find (fun '(a, _) => a =? r) t with Some (_, b) => b | None => r end.
Definition IsUpper (r : N) : bool := existsb (fun '(a, b) => (a <=? r) && (r <=? b)) lu_ranges.
Definition ToUpper : N -> N := table_map upper_table.
Definition ToLower : N -> N := table_map lower_table.
