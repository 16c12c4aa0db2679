(** Properties of writing as a whole: when it ends, with and without a text: C80-C82. *)
From Verif Require Import Base GoPath Types SpecTypes Imports SpecImports SpecGo SpecRender Conv World SpecFile SpecDecl SpecWorld
  SpecQualify FileTheorems SpecBuild SpecTotal QualifyExamples TotalTheorems BuildTotal TotalExamples.

(** C80 *)
Theorem C80_written_if_acyclic : forall TD (env : Env TD) own h f w F,
  nth_error (files w) f = Some F -> FImports F = run h (NewImportsFor own) -> no_templates w f -> complete w f ->
  ((exists fuel s w1, source env fuel f w = (Ok s, w1)) <-> no_cycle w f).
Proof. exact @source_writable. Qed.
Print Assumptions C80_written_if_acyclic.
Theorem C80_one_text : forall TD (env : Env TD) f k k' w s w1,
  source env k f w = (Ok s, w1) -> k <= k' -> source env k' f w = (Ok s, w1).
Proof. exact @source_more_fuel. Qed.
Print Assumptions C80_one_text.
Example C80_example :
  (exists F, nth_error (files exWorld) 0 = Some F /\ FImports F = run [] (NewImportsFor "a.b/m")) /\
  no_templates exWorld 0 /\ complete exWorld 0 /\ no_cycle exWorld 0 /\
  (forall s, source exEnv 0 0 exWorld <> (Ok s, exWorld)) /\
  exists s w1, source exEnv 2 0 exWorld = (Ok s, w1) /\ source exEnv 7 0 exWorld = (Ok s, w1).
Proof.
  split; [eexists; split; vm_compute; reflexivity|]. split; [exact ex_templates|]. split; [exact ex_complete|].
  split; [exact ex_acyclic|]. split; [intros s; vm_compute; discriminate|].
  eexists _, _. split; vm_compute; reflexivity.
Qed.

(** C81 *)
Theorem C81_no_other_failure : forall TD (env : Env TD) own h f w F fuel,
  nth_error (files w) f = Some F -> FImports F = run h (NewImportsFor own) -> no_templates w f -> complete w f ->
  (exists s w1, source env fuel f w = (Ok s, w1)) \/ (exists w1, source env fuel f w = (Panic out_of_fuel, w1)).
Proof. exact @source_ends. Qed.
Print Assumptions C81_no_other_failure.
Theorem C81_endless : forall TD (env : Env TD) own h f w F,
  nth_error (files w) f = Some F -> FImports F = run h (NewImportsFor own) -> no_templates w f -> complete w f ->
  ~ no_cycle w f -> forall fuel, exists w1, source env fuel f w = (Panic out_of_fuel, w1).
Proof. exact @source_endless. Qed.
Print Assumptions C81_endless.
(** A type whose field has been given the type itself. *)
Example C81_example :
  (exists F, nth_error (files cycWorld) 0 = Some F /\ FImports F = run [] (NewImportsFor "a.b/m")) /\
  no_templates cycWorld 0 /\ complete cycWorld 0 /\ ~ no_cycle cycWorld 0.
Proof.
  split; [eexists; split; vm_compute; reflexivity|]. split; [exact cyc_templates|]. split; [exact cyc_complete|exact cyc_cycle].
Qed.

(** C82 *)
Theorem C82_built_and_written : forall TD (env : Env TD) d w m,
  represents w m -> go_name (fdName d) -> no_template_code d -> whole_description d ->
  exists d' w1, build_file d w = (Ok (List.length (files w), d'), w1) /\ same_but_code d d' /\
    (whole_code w1 d -> exists s w2 enough,
      (forall fuel, enough <= fuel -> source env fuel (List.length (files w)) w1 = (Ok s, w2)) /\
      forall real g0,
      (forall r, In r (sym_requests (filedesc_symbols d)) -> right_name real r /\ usable_name r) ->
      (forall x r, code_mentions w1 d x -> In r (packages_of x) -> right_name real r /\ usable_name r) ->
      filedesc_meaning (path_qualifier (fdPath d)) (block_text env w2) d' = Some g0 ->
      exists g, parse_file s = Some g /\ resolve_file real g = Some (mkGFile (GPackage g0) (GImports g) (GDecls g0))).
Proof. exact @built_written. Qed.
Print Assumptions C82_built_and_written.
Example C82_example : represents (@empty_world unit) [] /\ go_name (fdName exFile) /\ no_template_code exFile /\
  whole_description exFile /\ whole_code exWorld exFile /\ fst (build_file exFile empty_world) <> Panic out_of_fuel.
Proof.
  split; [constructor|]. split; [exact ex_name|]. split; [exact ex_no_templates|]. split; [exact ex_whole|].
  split; [exact ex_code|]. vm_compute. discriminate.
Qed.
