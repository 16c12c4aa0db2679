(** Properties: the slices of arguments that a program passes to Printf. *)
From Verif Require Import Base BaseFacts GoPath Types SpecTypes Imports SpecImports SpecGo SpecRender Conv World SpecFile SpecDecl SpecWorld SpecQualify
  FileTheorems QualifyExamples SpecArgs ArgsProofs.

(** A slice with what the file does not rename, and one with a symbol of a package that has another
    name in the file, given as [args...] to two lines each. *)
Definition xtime := mkPackage "x.y/time" "time".
Definition a_type := mkSymbol (mkPackage "time" "time") "Duration".
Definition fixed_args : list Arg := [ASymbol a_type; AString "k"; ATypeName (TSlice (TNamed a_type)); AMethodRef (mkMethodRef a_type "String")].
Definition loose_args : list Arg :=
  [ASymbol (mkSymbol xtime "New"); AInt 7; APackage xtime; AMethodRef (mkMethodRef (mkSymbol xtime "Clock") "N"); ASymbolPtr a_type;
   ATypeName (TMap (TNamed a_type) (TNamed (mkSymbol xtime "Clock")))].
Definition slice_build : WM (TD := unit) unit :=
  do f <- NewGoFile "x.go" "a.b/m" "m" ;;
  do fn <- NewFunc "F" ;;
  do F <- get funcs fn ;;
  do a <- make_args fixed_args ;;
  do b <- make_args loose_args ;;
  do _ <- CodeBlock_PrintfSlice (FNBody F) "_ = %s; _ = %q; _ = %s{}; _ = %s" a ;;
  do _ <- CodeBlock_PrintfSlice (FNBody F) "%s(%d); %s.New(); _ = %s; _ = %s; _ = %s{}" b ;;
  do _ <- CodeBlock_PrintfSlice (FNBody F) "%s(%d); %s.New(); _ = %s; _ = %s; _ = %s{}" b ;;
  AddElement f (EFunc fn).
Definition slice_world := exec_world slice_build.
Definition slice_after := snd (source exEnv 3 0 slice_world).

(** C107 *)
Theorem C107_refuted :
  ~ (forall own h fuel f (w : World unit) F s w1,
     nth_error (files w) f = Some F -> FImports F = run h (NewImportsFor own) -> no_templates w f ->
     source exEnv fuel f w = (Ok s, w1) -> forall a, nth_error (argss w1) a = nth_error (argss w) a).
Proof.
  intros H. specialize (H "a.b/m" [] 3 0 slice_world (file0 slice_world) (text_of (source exEnv 3 0 slice_world)) slice_after).
  assert (X : nth_error (argss slice_after) 1 = nth_error (argss slice_world) 1).
  { apply H; [check|check|apply lines_only; check|check]. }
  vm_compute in X. discriminate.
Qed.
Print Assumptions C107_refuted.
Theorem C107_partial : forall TD (env : Env TD) own h fuel f w F s w1,
  nth_error (files w) f = Some F -> FImports F = run h (NewImportsFor own) -> no_templates w f ->
  source env fuel f w = (Ok s, w1) ->
  exists F1, nth_error (files w1) f = Some F1 /\
  forall a l, nth_error (argss w) a = Some l -> uses_args w f a ->
    exists l1, nth_error (argss w1) a = Some l1 /\ Forall2 (turned w (FImports F1)) l l1.
Proof. exact @args_after. Qed.
Print Assumptions C107_partial.
Theorem C107_exact : forall TD (env : Env TD) own h fuel f w F s w1,
  nth_error (files w) f = Some F -> FImports F = run h (NewImportsFor own) -> no_templates w f ->
  source env fuel f w = (Ok s, w1) ->
  exists F1, nth_error (files w1) f = Some F1 /\
  forall a l, nth_error (argss w) a = Some l -> uses_args w f a -> Forall (whole_reference w) l ->
    (nth_error (argss w1) a = nth_error (argss w) a <-> Forall (left_alone w (FImports F1)) l).
Proof. exact @args_kept. Qed.
Print Assumptions C107_exact.
Definition ytime := mkPackage "x.y/time" "time1".
Example C107_example :
  nth_error (files slice_world) 0 = Some (file0 slice_world) /\ FImports (file0 slice_world) = run [] (NewImportsFor "a.b/m") /\
  no_templates slice_world 0 /\ is_ok (fst (source exEnv 3 0 slice_world)) = true /\
  uses_args slice_world 0 0 /\ uses_args slice_world 0 1 /\
  nth_error (argss slice_world) 0 = Some fixed_args /\ nth_error (argss slice_after) 0 = Some fixed_args /\
  nth_error (argss slice_world) 1 = Some loose_args /\
  nth_error (argss slice_after) 1 = Some
    [ASymbol (mkSymbol ytime "New"); AInt 7; APackage ytime; AMethodRefPtr (mkMethodRef (mkSymbol ytime "Clock") "N"); ASymbol a_type;
     ATypeName (TMap (TNamed a_type) (TNamed (mkSymbol ytime "Clock")))] /\
  Forall (whole_reference slice_world) (fixed_args ++ loose_args).
Proof.
  split; [check|]. split; [check|]. split; [apply lines_only; check|]. split; [check|].
  split. { exists 0. eexists. eexists. split; [by_body|]. split; [check|]. left. reflexivity. }
  split. { exists 0. eexists. eexists. split; [by_body|]. split; [check|]. right. left. reflexivity. }
  split; [check|]. split; [check|]. split; [check|]. split; [check|]. repeat constructor.
Qed.
