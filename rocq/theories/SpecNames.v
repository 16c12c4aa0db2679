(** Specification vocabulary for names.go: a string as its first rune and the rest, exported
    names (Go spec, "Exported identifiers": first character of Unicode class Lu). *)
From Verif Require Import Base Utf8 Names.
Local Open Scope N_scope.

(** Unicode scalar values: code points that have a UTF-8 encoding. *)
Definition scalar (r : N) : Prop := r <= 1114111 /\ ~ (55296 <= r <= 57343).
(** [s] starts with the UTF-8 encoding of the rune [r], followed by [rest]. *)
Definition starts_with (r : N) (rest s : string) : Prop :=
  scalar r /\ s = (EncodeRune r ++ rest)%string.
Definition starts_utf8 (s : string) : Prop := exists r rest, starts_with r rest s.
Definition exported (s : string) : Prop := exists r rest, starts_with r rest s /\ IsUpper r = true.

(** Lower-case runes whose upper-case form is not in class Lu: Greek letters with iota
    subscript (title case, Lt), Roman numerals (Nl) and circled letters (So). *)
Definition odd_upper (r : N) : bool :=
  existsb (fun '(a, b) => (a <=? r) && (r <=? b))
    [(8064, 8071); (8080, 8087); (8096, 8103); (8115, 8115); (8131, 8131); (8179, 8179);
     (8560, 8575); (9424, 9449)].
