(** Writing files again after WriteGoFiles, whatever came of it: C113.  Only statements, examples and [exact]. *)
From Verif Require Import Base BaseFacts GoPath Types SpecTypes Imports SpecImports Conv World SpecProgram SpecWorld SpecGo SpecFile SpecDecl
  Write SpecFormat SpecCode SpecAppend AppendExamples SpecOrder SpecQualify QualifyExamples SpecShare SpecLocal PlaceProofs LocalProofs OwnProofs AloneProofs LocalExamples
  Template SpecTemplate TemplateTheorems PropTemplate SpecFileTemplate FileTemplateExamples SpecLocalData SpecRetry LocalTemplateExamples RetryExamples
  SpecTried TriedProofs PropTried RetryProofs RetryTemplates.

(** C113: after WriteGoFiles - whatever it was to do with the texts, and whether it returned, returned an
    error or panicked - each file gives what it would have given before, also those that were written, and has the same
    imports then. *)
Theorem C113_partial : forall TD (env : Env TD) fuel, imports_by_calls env -> forall X H E (format_Source : string -> string + E)
    (write : H -> string -> X -> done E * X) (close : H -> X -> done E * X) outFn l st o st' f F own h,
  nth_error (files (world st)) f = Some F -> FImports F = run h (NewImportsFor own) -> no_templates (world st) f ->
  plain_code env (world st) f -> (forall g, In g l -> g <> f -> apart_from (world st) f g) ->
  WriteGoFiles env format_Source write close outFn fuel l st = (o, st') ->
  exists r w2 w3, source env fuel f (world st) = (r, w2) /\ source env fuel f (world st') = (r, w3) /\ nth_error (files w3) f = nth_error (files w2) f.
Proof. exact @write_any_again. Qed.
Print Assumptions C113_partial.
(** So if WriteGoFiles is then called again, with other functions perhaps, and returns no error, it has
    written for each of its files the text that the file had at first. *)
Theorem C113_write_partial : forall TD (env : Env TD) fuel, imports_by_calls env -> forall X H E X' H' E' (format_Source : string -> string + E)
    (write : H -> string -> X -> done E * X) (close : H -> X -> done E * X) outFn
    (format_Source' : string -> string + E') (write' : H' -> string -> X' -> done E' * X') (close' : H' -> X' -> done E' * X') outFn'
    l st o st' f F own h l1 l2 st2 st3,
  nth_error (files (world st)) f = Some F -> FImports F = run h (NewImportsFor own) -> no_templates (world st) f ->
  plain_code env (world st) f -> (forall g, In g (l ++ l1) -> g <> f -> apart_from (world st) f g) ->
  WriteGoFiles env format_Source write close outFn fuel l st = (o, st') ->
  world st2 = world st' -> WriteGoFiles env format_Source' write' close' outFn' fuel (l1 ++ f :: l2) st2 = (Ret None, st3) ->
  exists s w2 hd formatted, source env fuel f (world st) = (Ok s, w2) /\ format_Source' s = inl formatted /\ In (EvWrite hd formatted Done) (trace st3).
Proof. exact @write_both. Qed.
Print Assumptions C113_write_partial.
(** After any number of calls of WriteGoFiles, whatever comes of each. *)
Theorem C113_calls_partial : forall TD (env : Env TD) fuel l w w' f F own h, imports_by_calls env ->
  nth_error (files w) f = Some F -> FImports F = run h (NewImportsFor own) -> no_templates w f ->
  plain_code env w f -> (forall g, In g l -> g <> f -> apart_from w f g) -> write_calls env fuel l w w' ->
  exists r w2 w3, source env fuel f w = (r, w2) /\ source env fuel f w' = (r, w3) /\ nth_error (files w3) f = nth_error (files w2) f.
Proof. exact @calls_again. Qed.
Print Assumptions C113_calls_partial.
(** The second file cannot be opened at first; then both are written. *)
Example C113_example : exists F st' st3 w2 w3,
  imports_by_calls exEnv /\ nth_error (files locW) 0 = Some F /\ FImports F = run [] (NewImportsFor "x.y/a") /\ no_templates locW 0 /\
  plain_code exEnv locW 0 /\ (forall g, In g [0; 1] -> g <> 0 -> apart_from locW 0 g) /\
  WriteGoFiles exEnv d_format d_write d_close d_open_one 3 [0; 1] (mkState locW [] []) = (Ret (Some (Outside "no such directory")), st') /\
  files (world st') <> files locW /\
  WriteGoFiles exEnv d_format d_write d_close d_open 3 ([] ++ 0 :: [1]) (mkState (world st') [] []) = (Ret None, st3) /\
  source exEnv 3 0 locW = (Ok locText, w2) /\ source exEnv 3 0 (world st') = (Ok locText, w3).
Proof.
  eexists _, _, _, _, _. split; [intros w d i; exists []; reflexivity|]. split; [vm_compute; reflexivity|]. split; [reflexivity|].
  split; [apply lines_only; vm_compute; reflexivity|]. split; [apply loc_plain; left; reflexivity|].
  split; [intros g [<-|[<-|[]]] N; [destruct N; reflexivity|]; apply loc_apart; [left; reflexivity|right; left; reflexivity|discriminate]|].
  split; [vm_compute; reflexivity|]. split; [vm_compute; discriminate|]. split; [vm_compute; reflexivity|]. split; vm_compute; reflexivity.
Qed.

(** With templates whose data contains no specs, if executing them shows nothing else of the program. *)
Theorem C113_templates_partial : forall implements unsafe isPrint verb other texec, shows_data texec ->
  forall X H E (format_Source : string -> string + E) (write : H -> string -> X -> done E * X) (close : H -> X -> done E * X) outFn fuel l st o st' f F own h,
  let env := template_env implements unsafe isPrint verb other texec in
  nth_error (files (world st)) f = Some F -> FImports F = run h (NewImportsFor own) -> free_data implements (world st) f ->
  plain_code env (world st) f -> (forall g, In g l -> g <> f -> apart_from (world st) f g) ->
  WriteGoFiles env format_Source write close outFn fuel l st = (o, st') ->
  exists r w2 w3, source env fuel f (world st) = (r, w2) /\ source env fuel f (world st') = (r, w3) /\ nth_error (files w3) f = nth_error (files w2) f.
Proof. exact @data_any_again. Qed.
Print Assumptions C113_templates_partial.
Theorem C113_templates_write_partial : forall implements unsafe isPrint verb other texec, shows_data texec ->
  forall X H E X' H' E' (format_Source : string -> string + E) (write : H -> string -> X -> done E * X) (close : H -> X -> done E * X) outFn
    (format_Source' : string -> string + E') (write' : H' -> string -> X' -> done E' * X') (close' : H' -> X' -> done E' * X') outFn'
    fuel l st o st' f F own h l1 l2 st2 st3,
  let env := template_env implements unsafe isPrint verb other texec in
  nth_error (files (world st)) f = Some F -> FImports F = run h (NewImportsFor own) -> free_data implements (world st) f ->
  plain_code env (world st) f -> (forall g, In g (l ++ l1) -> g <> f -> apart_from (world st) f g) ->
  WriteGoFiles env format_Source write close outFn fuel l st = (o, st') ->
  world st2 = world st' -> WriteGoFiles env format_Source' write' close' outFn' fuel (l1 ++ f :: l2) st2 = (Ret None, st3) ->
  exists s w2 hd formatted, source env fuel f (world st) = (Ok s, w2) /\ format_Source' s = inl formatted /\ In (EvWrite hd formatted Done) (trace st3).
Proof. exact @data_both. Qed.
Print Assumptions C113_templates_write_partial.
Theorem C113_templates_calls_partial : forall implements unsafe isPrint verb other texec, shows_data texec ->
  forall fuel l w w' f F own h, let env := template_env implements unsafe isPrint verb other texec in
  nth_error (files w) f = Some F -> FImports F = run h (NewImportsFor own) -> free_data implements w f ->
  plain_code env w f -> (forall g, In g l -> g <> f -> apart_from w f g) -> write_calls env fuel l w w' ->
  exists r w2 w3, source env fuel f w = (r, w2) /\ source env fuel f w' = (r, w3) /\ nth_error (files w3) f = nth_error (files w2) f.
Proof. exact data_calls_again. Qed.
Print Assumptions C113_templates_calls_partial.
(** The file is written, the other one cannot be opened; then the other one is written first, and the
    file twice. *)
Definition d_open_m (path : string) (x : disk) : opened string string * disk :=
  if String.prefix "a.b/m" path then d_open path x else (OpenErr "no such directory", x).
Example C113_templates_example : exists st' st3 w2 w3,
  shows_data exec /\ nth_error (files tplOther) 0 = Some (tplGoFile tplOther) /\ FImports (tplGoFile tplOther) = run [] (NewImportsFor "a.b/m") /\
  free_data imp tplOther 0 /\ template_of tplOther 0 0 /\ plain_code tplEnv tplOther 0 /\
  (forall g, In g ([0; 1] ++ [1; 0]) -> g <> 0 -> apart_from tplOther 0 g) /\
  WriteGoFiles tplEnv d_format d_write d_close d_open_m 2 [0; 1] (mkState tplOther [] []) = (Ret (Some (Outside "no such directory")), st') /\
  templs (world st') <> templs tplOther /\
  WriteGoFiles tplEnv d_format d_write d_close d_open 2 ([1; 0] ++ 0 :: []) (mkState (world st') [] []) = (Ret None, st3) /\
  source tplEnv 2 0 tplOther = (Ok tplText, w2) /\ source tplEnv 2 0 (world st') = (Ok tplText, w3).
Proof.
  eexists _, _, _, _. split; [exact tpl_shows|]. split; [vm_compute; reflexivity|]. split; [vm_compute; reflexivity|].
  split; [exact tpl_other_data|]. split; [exact tpl_other_template|]. split; [exact tpl_other_lines|].
  split; [intros g IN N; assert (g = 1) as -> by (destruct IN as [<-|[<-|[<-|[<-|[]]]]]; [destruct N| | |destruct N]; reflexivity); exact tpl_apart|].
  split; [vm_compute; reflexivity|]. split; [vm_compute; discriminate|]. split; [vm_compute; reflexivity|]. split; vm_compute; reflexivity.
Qed.
(** Two calls. *)
Example C113_calls_example : exists w', write_calls tplEnv 2 ([0; 1] ++ [1; 0] ++ []) tplOther w' /\ templs w' <> templs tplOther /\ files w' <> files tplOther.
Proof.
  eexists. split; [exact (two_calls tplEnv 2 _ _ _ d_format d_write d_close d_open_m d_open [0; 1] [1; 0] tplOther [] _ _ [] _ _ (surjective_pairing _) (surjective_pairing _))|].
  split; vm_compute; discriminate.
Qed.
