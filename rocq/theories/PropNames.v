(** Properties of names.go.  Only statements, examples and [exact]; proofs in NamesProofs.v. *)
From Verif Require Import Base Utf8 Quote UnicodeTables Names SpecNames NamesProofs.
Local Open Scope N_scope.

(** C27: for every case table. *)
Theorem C27_export_first_rune : forall isPrint isUpper toUpper,
  Export isPrint isUpper toUpper "" = Ok "" /\
  forall r rest s, starts_with r rest s -> r <> RuneError ->
    Export isPrint isUpper toUpper s = Ok
      (if isUpper r then s
       else if (toUpper r =? r)%N then (if (r =? 95)%N then "X" ++ rest else "X" ++ s)
       else EncodeRune (toUpper r) ++ rest)%string.
Proof. exact Export_spec. Qed.
Print Assumptions C27_export_first_rune.
Example C27_example :
  Export (fun _ => true) IsUpper ToUpper "fooBar" = Ok "FooBar" /\
  Export (fun _ => true) IsUpper ToUpper "_foo" = Ok "Xfoo" /\
  Export (fun _ => true) IsUpper ToUpper "1foo" = Ok "X1foo" /\
  Export (fun _ => true) IsUpper ToUpper "Foo" = Ok "Foo".
Proof. repeat split; vm_compute; reflexivity. Qed.
Example C27_hypotheses : starts_with 102 "oo" "foo".
Proof. split; [unfold scalar; lia|reflexivity]. Qed.

(** C28 is false for 69 lower-case runes, among them Greek letters such as U+1F80. *)
Theorem C28_export_exported_refuted : forall isPrint,
  ~ (forall r rest s, starts_with r rest s -> r <> RuneError ->
       exists x, Export isPrint IsUpper ToUpper s = Ok x /\ exported x /\
                 Export isPrint IsUpper ToUpper x = Ok x).
Proof. exact export_refuted. Qed.
Print Assumptions C28_export_exported_refuted.
(** It holds exactly for all other first runes. *)
Theorem C28_export_exported_partial : forall isPrint r rest s, starts_with r rest s -> r <> RuneError ->
  exists x, Export isPrint IsUpper ToUpper s = Ok x /\
    (exported x <-> odd_upper r = false) /\
    (Export isPrint IsUpper ToUpper x = Ok x <-> odd_upper r = false).
Proof. exact export_ok_iff. Qed.
Print Assumptions C28_export_exported_partial.
Example C28_example : odd_upper 102 = false /\ odd_upper 8064 = true /\
  Export (fun _ => true) IsUpper ToUpper (EncodeRune 8064) = Ok (EncodeRune 8072) /\ IsUpper 8072 = false.
Proof. repeat split; vm_compute; reflexivity. Qed.

(** C29: lower-cases only the first rune and is idempotent; the result is exported exactly if
    the first rune is upper-case without a lower-case form. *)
Theorem C29_unexport_first_rune : forall isPrint r rest s, starts_with r rest s -> r <> RuneError ->
  exists x, Unexport isPrint ToLower s = Ok x /\ starts_with (ToLower r) rest x /\
    Unexport isPrint ToLower x = Ok x /\
    (exported x <-> IsUpper r = true /\ ToLower r = r).
Proof. exact unexport_spec. Qed.
Print Assumptions C29_unexport_first_rune.
Theorem C29_unexport_empty : forall isPrint toLower, Unexport isPrint toLower "" = Ok "".
Proof. exact unexport_empty. Qed.
Print Assumptions C29_unexport_empty.
Theorem C29_unexport_unexported_refuted : forall isPrint,
  ~ (forall r rest s, starts_with r rest s -> r <> RuneError ->
       exists x, Unexport isPrint ToLower s = Ok x /\ ~ exported x).
Proof. exact unexport_refuted. Qed.
Print Assumptions C29_unexport_unexported_refuted.
Example C29_example : Unexport (fun _ => true) ToLower "FooBar" = Ok "fooBar" /\
  Unexport (fun _ => true) ToLower "" = Ok "" /\ IsUpper 978 = true /\ ToLower 978 = 978.
Proof. repeat split; vm_compute; reflexivity. Qed.

(** C30: the two functions reject strings that do not start with valid UTF-8, but also the
    validly encoded U+FFFD. *)
Theorem C30_reject_exactly_invalid_refuted : forall isPrint,
  ~ (forall s, s <> "" -> is_ok (Export isPrint IsUpper ToUpper s) = false -> ~ starts_utf8 s).
Proof. exact reject_refuted. Qed.
Print Assumptions C30_reject_exactly_invalid_refuted.
Theorem C30_panics_iff_partial : forall isPrint isUpper toUpper toLower s,
  (is_ok (Export isPrint isUpper toUpper s) = false <->
     s <> "" /\ (~ starts_utf8 s \/ exists rest, starts_with RuneError rest s)) /\
  (is_ok (Unexport isPrint toLower s) = false <->
     s <> "" /\ (~ starts_utf8 s \/ exists rest, starts_with RuneError rest s)).
Proof. exact panics_iff. Qed.
Print Assumptions C30_panics_iff_partial.
Example C30_example : is_ok (Export (fun _ => true) IsUpper ToUpper (String (byte_of 200) "z")) = false /\
  is_ok (Export (fun _ => true) IsUpper ToUpper (EncodeRune 233)) = true.
Proof. repeat split; vm_compute; reflexivity. Qed.
