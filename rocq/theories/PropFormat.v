(** Properties of formatted lines of code and of the variables for types: C93, C94.  Only
    statements, examples and [exact]. *)
From Verif Require Import Base GoPath Types SpecTypes Imports SpecImports SpecLit Conv World SpecWorld SpecGo SpecRender SpecFile SpecDecl FileTheorems
  SpecQualify QualifyExamples SpecFormat FormatProofs Predeclared SpecPredeclared PredeclaredProofs.

(** C93 *)
Theorem C93_line : forall TD (env : Env TD) real own h fuel f w F s w1,
  prepared real own h w f F -> source env fuel f w = (Ok s, w1) ->
  exists F1, nth_error (files w1) f = Some F1 /\
  forall cb b n l args, part_of w f (IBlock cb) -> nth_error (blocks w) cb = Some b ->
    nth_error b n = Some (Line (format_of l) args) -> nth_error (argss w) args = Some (args_of l) -> verbs_ok l ->
    exists ts, Forall2 (piece_text real own (FImports F1) w) l ts /\
      codeElement_writeTo env w1 (Line (format_of l) args) = Ok (String.concat "" ts).
Proof. exact @formatted_lines. Qed.
Print Assumptions C93_line.
(** Whatever has a String method is quoted as that string. *)
Theorem C93_quoted : forall TD (env : Env TD) w a x, arg_string env w a = Some (Ok x) ->
  literal_value (fmt_arg env w "q"%char a) = Some x.
Proof. exact @quoted_argument. Qed.
Print Assumptions C93_quoted.
(** A signature has no String method: fmt prints its fields. *)
Theorem C93_signature : forall TD (env : Env TD) w s v,
  signature_value (fun t x => t <> TNil /\ typeNameToString (isPrint env) t = Ok x) s v ->
  fmt_arg env w "v"%char (ASignaturePtr s) = print_value v.
Proof. exact @signature_printed. Qed.
Print Assumptions C93_signature.
Example C93_signature_example :
  let s := mkSig [mkArg "a" (TBasic KInt); mkArg "b" (TSlice (TBasic KString))] [mkArg "" (TBasic KBool)] true in
  exists v, signature_value (fun t x => t <> TNil /\ typeNameToString (isPrint exEnv) t = Ok x) s v /\
    print_value v = "&{[{a int} {b []string}] [{ bool}] true}"%string.
Proof.
  eexists. split.
  - constructor.
    + constructor; [exists "int"%string; repeat split; discriminate|]. constructor; [exists "[]string"%string; repeat split; discriminate|]. constructor.
    + constructor; [exists "bool"%string; repeat split; discriminate|]. constructor.
  - reflexivity.
Qed.
Definition fmTime : Symbol := mkSymbol (mkPackage "q/time" "time") "Now".
Definition fmPieces : list piece :=
  [Plain "x := 100%d, "; Put "d"%char (AInt (-12)); Put "v"%char (AInt 305); Plain "%"; Put "q"%char (AString "a""b");
   Put "s"%char (AString "%s"); Plain " "; Put "v"%char (ASymbol fmTime); Plain "()"].
Definition fmW : World unit := exec_world (
  do f <- NewGoFile "a.go" "x.y/a" "a" ;;
  do fn <- NewFunc "F" ;;
  do _ <- Func_Printf fn (format_of fmPieces) (args_of fmPieces) ;;
  AddElement f (EFunc fn)).
Definition fmW1 : World unit := snd (source exEnv 3 0 fmW).
Example C93_example : prepared path_Base "x.y/a" [] fmW 0 (file0 fmW) /\ verbs_ok fmPieces /\
  part_of fmW 0 (IBlock 0) /\ format_of fmPieces = "x := 100%%d, %d%v%%%q%s %v()"%string /\
  nth_error (blocks fmW) 0 = Some [Line (format_of fmPieces) 0] /\ nth_error (argss fmW) 0 = Some (args_of fmPieces) /\
  codeElement_writeTo exEnv fmW1 (Line (format_of fmPieces) 0) = Ok "x := 100%d, -12305%""a\""b""%s time.Now()"%string /\
  number "-12" = Some (-12)%Z /\ literal_value """a\""b""" = Some "a""b"%string.
Proof.
  split; [by_prepared|]. split.
  { intros v a H. cbn in H. repeat (destruct H as [H|H]; [try discriminate; injection H as <- <-; reflexivity|]). destruct H. }
  split; [by_body|]. repeat split; vm_compute; reflexivity.
Qed.

(** C94 *)
Theorem C94_variables : forall v n, In (v, n) documented ->
  exists t, lookup v type_variables = Some (Ok t) /\ wf t = true /\
    (forall isPrint, exists s, typeNameToString isPrint t = Ok s /\ go_type_named s = go_type_named n) /\
    (forall i, EnsureTypeImported t i = (Ok (t, false), i)) /\ (forall i, QualifyType t i = (Ok (t, false), i)).
Proof. exact variables_ok. Qed.
Print Assumptions C94_variables.
Theorem C94_same : forall v n v' n', In (v, n) documented -> In (v', n') documented ->
  (lookup v type_variables = lookup v' type_variables <-> go_type_named n = go_type_named n').
Proof. exact variables_same. Qed.
Print Assumptions C94_same.
Theorem C94_unsafe_pointer : forall own h, own <> "unsafe"%string ->
  exists t, lookup "UnsafePointerType" type_variables = Some (Ok t) /\
  let i := run h (NewImportsFor own) in
  exists t' c i' p, EnsureTypeImported t i = (Ok (t', c), i') /\
    (forall path, In path (listed i') <-> In path (listed i) \/ path = "unsafe"%string) /\
    fst (PrefixForPackage "unsafe" i') = Ok p /\
    (forall isPrint, typeNameToString isPrint t' = Ok (p ++ "Pointer")%string).
Proof. exact unsafe_pointer. Qed.
Print Assumptions C94_unsafe_pointer.
Example C94_example : In ("RuneType", "rune")%string documented /\ In ("Int32Type", "int32")%string documented /\
  go_type_named "rune" = go_type_named "int32" /\
  (let '(r, _) := EnsureTypeImported UnsafePointerType (run [CRegisterImport "x/unsafe" "unsafe"] (NewImportsFor "a")) in
   match r with Ok (t, _) => typeNameToString (fun _ => true) t | Panic e => Panic e end) = Ok "unsafe1.Pointer"%string.
Proof. repeat split; vm_compute; tauto. Qed.
