(** Properties of programs that use the library: C89 - C92.  Only statements, examples and [exact]. *)
From Verif Require Import Base GoPath Types SpecTypes Imports SpecImports ImportsProofs Conv World SpecGo SpecRender SpecFile SpecDecl
  FileTheorems SpecCalls SpecWorld SpecQualify QualifyExamples Template SpecProgram ProgramProofs.

(** An example: two files, an addition that panics, one that moves a spec, additions after writing,
    specs added to a declaration that is in a file already. *)
Definition exTime : TypeName := TNamed (mkSymbol (mkPackage "time" "time") "Time").
Definition exFirst : list (api_call unit) :=
  [PNewFile "a.go" "x.y/a" "a"; PNewFile "b.go" "x.y/b" "b"; PNewFile "b" "x.y/b" "b";
   PNewVar ["v"]; PSet (CallVar 0 (VSetType (IsName exTime))); PAdd 0 (AddedVar 0);
   PImport 0 (CRegisterImport "q/time" "time")].
Definition exRest : list (api_call unit) :=
  [PNewFunc "F"; PFuncPrintln 0 "x()"; PAdd 0 (AddedElement (EFunc 0)); PAdd 0 (AddedElement (EFunc 7));
   PNewTypeSpec "T" (IsName (TBasic KInt)); PNewTypeDecl [0]; PAdd 1 (AddedElement (EType 0));
   PWrite 3 0; PAdd 1 (AddedVar 0); PNewConst ["c"]; PSet (CallVars 0 (DAdd 0)); PAdd 0 (AddedConst 0); PWrite 3 1; PWrite 3 0].
Definition exW0 : World unit := after exEnv exFirst empty_world.
Definition exW1 : World unit := after exEnv exRest exW0.
Definition exF (w : World unit) (f : nat) : GoFile := nth f (files w) (mkFile (NewImportsFor "") "" "" "" "" "" []).

(** C89 *)
Theorem C89_elements : forall TD (env : Env TD) p (w : World TD) f F, nth_error (files w) f = Some F ->
  exists F', nth_error (files (after env p w)) f = Some F' /\
    NumElements F' = NumElements F + List.length (added env f p w) /\
    (forall i e, ElementAt F i = Ok e -> ElementAt F' i = Ok e) /\
    (forall k a, nth_error (added env f p w) k = Some a ->
       exists e, ElementAt F' (Z.of_nat (NumElements F + k)) = Ok e /\ is_added (after env p w) a e) /\
    (forall i, ((i < 0)%Z \/ (Z.of_nat (NumElements F') <= i)%Z) <-> ElementAt F' i = Panic index_oob).
Proof. exact @history_elements. Qed.
Print Assumptions C89_elements.
Example C89_example : added exEnv 0 exRest exW0 = [AddedElement (EFunc 0); AddedConst 0] /\
  added exEnv 1 exRest exW0 = [AddedElement (EType 0); AddedVar 0] /\
  NumElements (exF exW0 0) = 1 /\ NumElements (exF exW1 0) = 3 /\ ElementAt (exF exW1 0) 2 = Ok (EConst 0) /\
  ElementAt (exF exW1 0) 3 = Panic index_oob /\ ElementAt (exF exW1 0) (-1) = Panic index_oob.
Proof. repeat split; vm_compute; reflexivity. Qed.

(** C90 *)
Theorem C90_files : forall TD (env : Env TD) p, imports_by_calls env ->
  map identity (files (after env p empty_world)) = made env p empty_world.
Proof. exact @program_files. Qed.
Print Assumptions C90_files.
Theorem C90_imports : forall TD (env : Env TD) p f F, imports_by_calls env ->
  nth_error (files (after env p empty_world)) f = Some F ->
  exists h, FImports F = run h (NewImportsFor (pkgPath (FImports F))).
Proof. exact @program_imports. Qed.
Print Assumptions C90_imports.
(** it holds of the data of templates *)
Theorem C90_templates : forall implements unsafe isPrint verb other texec,
  imports_by_calls (template_env implements unsafe isPrint verb other texec).
Proof. exact template_by_calls. Qed.
Print Assumptions C90_templates.
(** a consequence *)
Theorem C90_twice : forall TD (env : Env TD) p f fuel s w1, imports_by_calls env ->
  no_templates (after env p empty_world) f ->
  source env fuel f (after env p empty_world) = (Ok s, w1) -> source env fuel f w1 = (Ok s, w1).
Proof. exact @program_twice. Qed.
Print Assumptions C90_twice.
Example C90_example : imports_by_calls exEnv /\
  made exEnv (exFirst ++ exRest) empty_world = [("a.go", "x.y/a", "a"); ("b.go", "x.y/b", "b")] /\
  no_templates exW1 0 /\ listed (FImports (exF exW1 0)) = ["q/time"; "time"] /\
  exists s w1, source exEnv 3 0 exW1 = (Ok s, w1).
Proof.
  split; [intros w d i; exists []; reflexivity|]. split; [check|]. split; [apply lines_only; check|]. split; [check|].
  eexists _, _. check.
Qed.

(** C91 *)
Theorem C91_file_of : forall TD (env : Env TD) p (w : World TD) k, additions_return env p w ->
  file_of (after env p w) k = last_file env k p w (file_of w k).
Proof. exact @history_file. Qed.
Print Assumptions C91_file_of.
Definition exAdds : list (api_call unit) := filter (fun c => match c with PAdd _ (AddedElement (EFunc 7)) => false | _ => true end) exRest.
Example C91_example : additions_return exEnv exAdds exW0 /\
  file_of exW0 (AVarSpec 0) = Some 0 /\ file_of (after exEnv exAdds exW0) (AVarSpec 0) = Some 1 /\
  file_of (after exEnv exAdds exW0) (AFuncSpec 0) = Some 0 /\ file_of exW0 (AFuncSpec 0) = None.
Proof. vm_compute. repeat split. Qed.

(** C92 *)
Theorem C92_imports : forall TD (env : Env TD) p w f F, unwritten f p -> nth_error (files w) f = Some F ->
  exists F', nth_error (files (after env p w)) f = Some F' /\ FImports F' = run (calls_on f p) (FImports F).
Proof. exact @history_imports. Qed.
Print Assumptions C92_imports.
(** so that a file says what its declarations say, whatever was done before it is written *)
Theorem C92_meaning : forall TD (env : Env TD) real own p (w : World TD) f F fuel s w1 g0,
  nth_error (files w) f = Some F -> FImports F = NewImportsFor own -> unwritten f p ->
  Forall (fun c => call_ok c = true /\ honest real c /\ usable_requests c) (calls_on f p) ->
  no_templates (after env p w) f -> no_named_specs (after env p w) f ->
  (forall r, file_mentions (after env p w) f r -> right_name real r /\ usable_name r) ->
  source env fuel f (after env p w) = (Ok s, w1) ->
  forall F', nth_error (files (after env p w)) f = Some F' ->
  file_meaning_with (path_qualifier own) (after env p w) (block_text env w1) fuel F' = Some g0 ->
  exists g, parse_file s = Some g /\ resolve_file real g = Some (mkGFile (GPackage g0) (GImports g) (GDecls g0)).
Proof. exact @history_means. Qed.
Print Assumptions C92_meaning.
Definition exNew : list (api_call unit) := [PNewFile "a.go" "x.y/a" "a"; PNewFile "b.go" "x.y/b" "b"].
Definition exUse : list (api_call unit) :=
  [PNewVar ["v"]; PSet (CallVar 0 (VSetType (IsName exTime))); PAdd 0 (AddedVar 0);
   PImport 0 (CRegisterImport "q/time" "time"); PImport 1 (CRegisterImport "time" "time");
   PNewVar ["u"]; PSet (CallVar 1 (VSetType (IsName exTime))); PAdd 1 (AddedVar 1); PWrite 3 1].
Definition exN : World unit := after exEnv exNew empty_world.
Definition exU : World unit := after exEnv exUse exN.
Definition exS : World unit := snd (source exEnv 3 0 exU).
Example C92_example :
  FImports (exF exN 0) = NewImportsFor "x.y/a" /\ unwritten 0 exUse /\ calls_on 0 exUse = [CRegisterImport "q/time" "time"] /\
  Forall (fun c => call_ok c = true /\ honest path_Base c /\ usable_requests c) (calls_on 0 exUse) /\
  no_templates exU 0 /\ no_named_specs exU 0 /\ (forall r, file_mentions exU 0 r -> right_name path_Base r /\ usable_name r) /\
  fst (source exEnv 3 0 exU) = Ok ("package a" ++ nl ++ nl ++ "import ""q/time""" ++ nl ++ "import time1 ""time""" ++ nl ++ nl ++
                                   "var v time1.Time" ++ nl)%string /\
  file_meaning_with (path_qualifier "x.y/a") exU (block_text exEnv exS) 3 (exF exU 0)
    = Some (mkGFile "a" [(None, "q/time")] [DVar false [(["v"], Some (SpecGo.GName (Some "time") "Time"), None)]]).
Proof.
  split; [check|]. split.
  { intros c H. repeat (destruct H as [<-|H]; [try exact Logic.I; discriminate|]). destruct H. }
  split; [check|]. split.
  { constructor; [|constructor]. split; [check|]. split.
    - intros p n [[= <- <-]|[]]. right. check.
    - intros p n [[= <- <-]|[]]. check. }
  split; [apply lines_only; check|]. split; [apply no_named; check|]. split; [|split; check].
  intros r M. apply well_named_ok. assert (A : forallb (well_named path_Base) (all_mentions exU) = true) by check.
  rewrite forallb_forall in A. apply A. eapply mentions_all; eauto.
Qed.
