(** What nil types leave in the imports: C114.  Only statements, examples and [exact]. *)
From Verif Require Import Base BaseFacts Types SpecTypes Imports SpecImports Conv World SpecWorld SpecNil NilProofs.

(** C114: a type or signature in which there is a nil makes EnsureTypeImported and EnsureAllTypesImported
    panic, and what comes before the nil, and nothing else, has been imported then. *)
Theorem C114_type : forall own h t l, nil_after t l -> let i := run h (NewImportsFor own) in
  EnsureTypeImported t i = (Panic nil_deref, run (map CEnsureImported l) i).
Proof. exact nil_type. Qed.
Print Assumptions C114_type.
Theorem C114_signature : forall own h s l, sig_nil_after s l -> let i := run h (NewImportsFor own) in
  EnsureAllTypesImported s i = (Panic nil_deref, run (map CEnsureImported l) i).
Proof. exact nil_signature. Qed.
Print Assumptions C114_signature.
(** There is no third case for types that are otherwise as they should be. *)
Theorem C114_exact : forall own h t, wf_but_nil t = true -> let i := run h (NewImportsFor own) in
  wf t = true /\ (exists r, EnsureTypeImported t i = (Ok r, run (map CEnsureImported (symbols_of t)) i)) \/
  exists l, nil_after t l /\ EnsureTypeImported t i = (Panic nil_deref, run (map CEnsureImported l) i).
Proof. exact nil_or_fine. Qed.
Print Assumptions C114_exact.
Theorem C114_exact_signature : forall own h s, sig_wf_but_nil s = true -> let i := run h (NewImportsFor own) in
  wf_sig s = true /\ (exists r, EnsureAllTypesImported s i = (Ok r, run (map CEnsureImported (sig_symbols s)) i)) \/
  exists l, sig_nil_after s l /\ EnsureAllTypesImported s i = (Panic nil_deref, run (map CEnsureImported l) i).
Proof. exact nil_or_fine_signature. Qed.
Print Assumptions C114_exact_signature.
Definition pk (p : string) : Symbol := mkSymbol (mkPackage p "") "T".
Definition holed : TypeName := TMap (TStruct [mkField "A" (TNamed (pk "a/x")) ""; mkField "B" (TPtr TNil) ""; mkField "C" (TNamed (pk "c/x")) ""]) (TNamed (pk "k/x")).
Example C114_type_example : nil_after holed ([pk "k/x"] ++ [pk "a/x"] ++ []) /\
  wf_but_nil holed = true /\ listed (snd (EnsureTypeImported holed (NewImportsFor "m"))) = ["a/x"; "k/x"].
Proof.
  split; [|split; reflexivity]. apply (na_elem _ (TNamed (pk "k/x"))); [reflexivity|].
  apply (na_struct [mkField "A" (TNamed (pk "a/x")) ""] "B" (TPtr TNil) ""); [reflexivity|]. apply na_ptr, na_nil.
Qed.
(** So a file whose first element is a function with such a signature is not written, and keeps the
    imports of what comes before the nil. *)
Theorem C114_function : forall TD (env : Env TD) fuel f (w : World TD) F own h fn rest FN l,
  nth_error (files w) f = Some F -> FImports F = run h (NewImportsFor own) ->
  FElements F = EFunc fn :: rest -> nth_error (funcs w) fn = Some FN -> sig_nil_after (FNSig FN) l ->
  exists w1 F1, source env fuel f w = (Panic nil_deref, w1) /\ nth_error (files w1) f = Some F1 /\ FImports F1 = run (map CEnsureImported l) (FImports F).
Proof. exact @nil_function. Qed.
Print Assumptions C114_function.
(** The same for a type that is an argument of code. *)
Theorem C114_argument : forall TD f (w : World TD) F own h t l,
  nth_error (files w) f = Some F -> FImports F = run h (NewImportsFor own) -> nil_after t l ->
  exists w1 F1, Arg_qualify f (ATypeName t) w = (Panic nil_deref, w1) /\ nth_error (files w1) f = Some F1 /\ FImports F1 = run (map CEnsureImported l) (FImports F).
Proof. exact @nil_argument. Qed.
Print Assumptions C114_argument.
Definition holedW : World unit := exec_world (
  do f <- NewGoFile "a.go" "x.y/a" "a" ;;
  do fn <- NewFunc "F" ;;
  do _ <- Func_AddArg fn "p" (TNamed (pk "p/x")) ;;
  do _ <- Func_AddArg fn "q" holed ;;
  do _ <- Func_AddArg fn "r" (TNamed (pk "r/x")) ;;
  AddElement f (EFunc fn)).
Example C114_example : exists F FN w1 F1,
  nth_error (files holedW) 0 = Some F /\ FImports F = run [] (NewImportsFor "x.y/a") /\ FElements F = EFunc 0 :: [] /\
  nth_error (funcs holedW) 0 = Some FN /\ sig_wf_but_nil (FNSig FN) = true /\ sig_nil_after (FNSig FN) ([pk "p/x"] ++ [pk "k/x"] ++ [pk "a/x"] ++ []) /\
  source exEnv 3 0 holedW = (Panic nil_deref, w1) /\ nth_error (files w1) 0 = Some F1 /\ listed (FImports F1) = ["a/x"; "k/x"; "p/x"].
Proof.
  eexists _, _, _, _. split; [vm_compute; reflexivity|]. split; [reflexivity|]. split; [reflexivity|]. split; [vm_compute; reflexivity|].
  split; [vm_compute; reflexivity|].
  split; [apply (sn_arg [mkArg "p" (TNamed (pk "p/x"))] "q" holed); [reflexivity|apply C114_type_example]|].
  split; [vm_compute; reflexivity|]. split; vm_compute; reflexivity.
Qed.
