(** Writing a file again, whatever came of it the first time: C112.  Only statements, examples and [exact]. *)
From Verif Require Import Base BaseFacts GoPath Types SpecTypes Imports SpecImports Conv World SpecWorld SpecProgram SpecGo SpecFile SpecDecl
  Template SpecTemplate TemplateTheorems PropTemplate SpecFormat SpecCode SpecAppend SpecOrder SpecQualify QualifyExamples SpecFileTemplate FileTemplateExamples LocalExamples AgainTheorems AgainProofs.

(** C112: whatever comes of writing a file - its text or a panic - comes of it again, and then nothing
    changes. *)
Theorem C112_again : forall TD (env : Env TD) own h fuel f w F r w1,
  nth_error (files w) f = Some F -> FImports F = run h (NewImportsFor own) -> no_templates w f ->
  source env fuel f w = (r, w1) -> source env fuel f w1 = (r, w1).
Proof. exact @source_again. Qed.
Print Assumptions C112_again.
(** In every state that a program reaches. *)
Theorem C112_program : forall TD (env : Env TD) p f fuel r w1, imports_by_calls env ->
  no_templates (after env p empty_world) f ->
  source env fuel f (after env p empty_world) = (r, w1) -> source env fuel f w1 = (r, w1).
Proof. exact @program_again. Qed.
Print Assumptions C112_program.
Example C112_program_example : let p := [PNewFile "a.go" "x.y/a" "a"; PNewFunc "F";
    PFuncPrintlnf 0 "_ = %s" [ASymbol (mkSymbol (mkPackage "q/time" "") "Now")]; PFuncPrintlnf 0 "_ = %s" [ATypeName TNil];
    PAdd 0 (AddedElement (EFunc 0)); PWrite 3 0] in
  imports_by_calls exEnv /\ no_templates (after exEnv p empty_world) 0 /\
  files (after exEnv p empty_world) <> files (after exEnv (removelast p) empty_world) /\
  exists w1, source exEnv 3 0 (after exEnv p empty_world) = (Panic nil_deref, w1).
Proof.
  split; [intros w d i; exists []; reflexivity|]. split; [apply lines_only; vm_compute; reflexivity|].
  split; [vm_compute; discriminate|]. eexists. vm_compute. reflexivity.
Qed.
(** With templates: if there are no specs of files in the data (C85_refuted). *)
Theorem C112_templates : forall implements unsafe isPrint verb other texec f w, good_data implements unsafe w f ->
  (forall nm d, template_data w f d -> simple unsafe (world_parent w) nm (data d)) ->
  forall own h fuel F r w1, nth_error (files w) f = Some F -> FImports F = run h (NewImportsFor own) ->
  source (template_env implements unsafe isPrint verb other texec) fuel f w = (r, w1) ->
  source (template_env implements unsafe isPrint verb other texec) fuel f w1 = (r, w1).
Proof. exact data_again. Qed.
Print Assumptions C112_templates.
(** The names that the imports of any file have given to packages remain. *)
Theorem C112_names : forall TD (env : Env TD) fuel f r w w1 own h g G, imports_by_calls env -> source env fuel f w = (r, w1) ->
  nth_error (files w) g = Some G -> FImports G = run h (NewImportsFor own) -> exists G1, nth_error (files w1) g = Some G1 /\
  forall path p, PrefixForPackage path (FImports G) = (Ok p, FImports G) -> PrefixForPackage path (FImports G1) = (Ok p, FImports G1).
Proof. exact @names_kept. Qed.
Print Assumptions C112_names.
(** The second line of code has no type where it should have one; the package of the first line is imported before the panic. *)
Example C112_example : exists F w1 F1,
  nth_error (files panicW) 0 = Some F /\ FImports F = run [] (NewImportsFor "x.y/a") /\ no_templates panicW 0 /\ imports_by_calls exEnv /\
  source exEnv 3 0 panicW = (Panic nil_deref, w1) /\ nth_error (files w1) 0 = Some F1 /\ listed (FImports F) = [] /\ listed (FImports F1) = ["q/time"] /\
  source exEnv 3 0 w1 = (Panic nil_deref, w1).
Proof.
  eexists _, _, _. split; [vm_compute; reflexivity|]. split; [reflexivity|]. split; [apply lines_only; vm_compute; reflexivity|].
  split; [intros w d i; exists []; reflexivity|]. split; [vm_compute; reflexivity|]. split; [vm_compute; reflexivity|].
  split; [vm_compute; reflexivity|]. split; vm_compute; reflexivity.
Qed.
(** The template fails. *)
Definition failingEnv : Env (option val) := template_env imp true (fun _ => true) (fun _ _ _ => "") (fun _ _ _ => "") (fun _ _ _ => Panic "template: no such field").
Example C112_templates_example : exists w1,
  nth_error (files tplWorld) 0 = Some (tplGoFile tplWorld) /\ FImports (tplGoFile tplWorld) = run [] (NewImportsFor "a.b/m") /\
  good_data imp true tplWorld 0 /\ (forall nm d, template_data tplWorld 0 d -> simple true (world_parent tplWorld) nm (data d)) /\
  source failingEnv 2 0 tplWorld = (Panic "template: no such field", w1) /\
  nth_error (templs w1) 0 = Some (0, Some (sample_as (mkPackage "a/x" "x1") bx)) /\ nth_error (templs tplWorld) 0 = Some (0, Some sample).
Proof.
  eexists. split; [apply tpl_file|]. split; [apply tpl_file|]. split; [exact tpl_good|].
  split; [intros nm d T; apply tpl_data in T as ->; apply sample_simple|]. split; [vm_compute; reflexivity|]. split; vm_compute; reflexivity.
Qed.
