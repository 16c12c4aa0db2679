(** The order in which packages are requested, and the order of the elements of a file: C108.
    Only statements, examples and [exact]. *)
From Coq Require Import Permutation.
From Verif Require Import Base BaseFacts GoPath Types SpecTypes Imports SpecImports Conv World SpecWorld SpecGo SpecFile SpecDecl
  SpecQualify QualifyExamples SpecFormat SpecCode SpecAppend AppendExamples SpecOrder OrderProofs OrderText OrderTotal OrderExamples.

(** C108: the imports and the names of the packages do not depend on the order of the requests
    exactly if no two packages compete for a name and none is requested with two names. *)
Theorem C108_names : forall own h, forallb call_ok h = true ->
  ((forall h', forallb call_ok h' = true -> (forall r, requested h r <-> requested h' r) ->
     same_names (run h (NewImportsFor own)) (run h' (NewImportsFor own))) <->
   no_conflict own (requested h)).
Proof. exact order_exact. Qed.
Print Assumptions C108_names.
Example C108_names_example : forallb call_ok clear_calls = true /\ forallb call_ok clear_calls2 = true /\
  no_conflict "own" (requested clear_calls) /\ ~ no_conflict "own" (requested clashed) /\
  (forall r, requested clear_calls r <-> requested clear_calls2 r) /\
  ImportSpecs (run clear_calls2 (NewImportsFor "own")) = [mkImportSpec "" "a/x"; mkImportSpec "y" "b/y"] /\
  ImportSpecs (run clashed (NewImportsFor "own")) = [mkImportSpec "" "a/x"; mkImportSpec "x1" "b/x"] /\
  ImportSpecs (run (rev clashed) (NewImportsFor "own")) = [mkImportSpec "x1" "a/x"; mkImportSpec "" "b/x"].
Proof.
  split; [reflexivity|]. split; [reflexivity|]. split.
  { apply (conflictb_ok _ _ (flat_map requests clear_calls)); [auto|reflexivity]. }
  split.
  { intros NC. assert (E : ("a/x", "x") = ("b/x", "x")); [|discriminate].
    apply NC; try discriminate; cbn; auto. }
  split; [|repeat split]. intros r. unfold requested. cbn. split; intros H; repeat destruct H as [<-|H]; auto 6.
Qed.

(** Of files: without that, the text of an element may change with the order of the elements. *)
Theorem C108_refuted :
  ~ forall own h fuel f (w : World unit) F es s s' w1 w1',
    nth_error (files w) f = Some F -> FImports F = run h (NewImportsFor own) -> forallb call_ok h = true ->
    no_templates w f -> steady_code w f -> Permutation (FElements F) es ->
    source exEnv (S fuel) f w = (Ok s, w1) -> source exEnv (S fuel) f (rearranged f es w) = (Ok s', w1') ->
    exists F1 F2, nth_error (files w1) f = Some F1 /\ nth_error (files w1') f = Some F2 /\
      same_but_order exEnv (FImports F1) (FImports F2) (FElements F) es s s'.
Proof. exact order_refuted. Qed.
Print Assumptions C108_refuted.
(** What holds: if no packages compete for a name - those requested by the calls made before, and
    those that the file mentions -, and the file can be written, then so it can with its elements in
    any other order; it has the same import lines then, and each element the same text. *)
Theorem C108_partial : forall TD (env : Env TD) own h fuel f w F es s w1,
  nth_error (files w) f = Some F -> FImports F = run h (NewImportsFor own) -> forallb call_ok h = true ->
  no_templates w f -> textual_code w f -> no_conflict own (file_requests h w f) -> Permutation (FElements F) es ->
  source env (S fuel) f w = (Ok s, w1) ->
  exists s' w1', source env (S fuel) f (rearranged f es w) = (Ok s', w1') /\
  exists F1 F2, nth_error (files w1) f = Some F1 /\ nth_error (files w1') f = Some F2 /\
    same_but_order env (FImports F1) (FImports F2) (FElements F) es s s'.
Proof. exact @order_file. Qed.
Print Assumptions C108_partial.
Example C108_example : nth_error (files ordW) 0 = Some (file0 ordW) /\ FImports (file0 ordW) = run [] (NewImportsFor "x.y/a") /\
  no_templates ordW 0 /\ textual_code ordW 0 /\ no_conflict "x.y/a" (file_requests [] ordW 0) /\
  Permutation (FElements (file0 ordW)) ordOther /\ exists w1 w2,
  source exEnv 3 0 ordW = (Ok ordText, w1) /\ source exEnv 3 0 (rearranged 0 ordOther ordW) = (Ok ordText2, w2).
Proof.
  split; [reflexivity|]. split; [reflexivity|]. split; [apply ord_ok|]. split; [apply ord_ok|]. split; [apply ord_clear|]. split; [apply ord_perm|].
  eexists _, _. split; vm_compute; reflexivity.
Qed.
