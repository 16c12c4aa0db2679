(** The text of the elements of a file and of those after them: C106.  Only statements, examples
    and [exact]. *)
From Verif Require Import Base BaseFacts GoPath Types SpecTypes Imports SpecImports Conv World SpecWorld SpecGo SpecFile SpecDecl
  SpecQualify QualifyExamples SpecFormat SpecCode SpecAppend AppendTheorems AppendExamples.

(** C106: not for all code.  An embedded interface put into code is printed as it is, and it is
    qualified - here given an alias - when the type that embeds it is, which is later in the file. *)
Theorem C106_refuted :
  ~ forall own h fuel f (w : World unit) F s w1,
    nth_error (files w) f = Some F -> FImports F = run h (NewImportsFor own) -> no_templates w f ->
    source exEnv (S fuel) f w = (Ok s, w1) ->
    exists F1, nth_error (files w1) f = Some F1 /\ written_by_elements exEnv (S fuel) f w w1 F F1 s.
Proof. exact embed_refuted. Qed.
Print Assumptions C106_refuted.
(** What holds: if the code is formatted from what is qualified, then what is written of a file is
    the text of its elements, one after the other.  With its first elements only it can be written
    too, and then their text is the same and the imports are among those of the whole file. *)
Theorem C106_partial : forall TD (env : Env TD) own h fuel f w F s w1,
  nth_error (files w) f = Some F -> FImports F = run h (NewImportsFor own) -> no_templates w f -> steady_code w f ->
  source env (S fuel) f w = (Ok s, w1) ->
  exists F1, nth_error (files w1) f = Some F1 /\ written_by_elements env (S fuel) f w w1 F F1 s.
Proof. exact @append_elements. Qed.
Print Assumptions C106_partial.
Example C106_example : nth_error (files growW) 0 = Some (file0 growW) /\ FImports (file0 growW) = run [] (NewImportsFor "x.y/a") /\
  no_templates growW 0 /\ steady_code growW 0 /\ exists w1 w2,
  source exEnv 3 0 growW = (Ok growText, w1) /\ source exEnv 3 0 (cut 0 1 growW) = (Ok growText1, w2).
Proof.
  split; [reflexivity|]. split; [reflexivity|]. split; [apply grow_ok|]. split; [apply grow_ok|].
  eexists _, _. split; vm_compute; reflexivity.
Qed.
