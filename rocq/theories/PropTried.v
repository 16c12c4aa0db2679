(** What WriteGoFiles changes in the program, whatever comes of it: C111.  Only statements, examples and [exact]. *)
From Verif Require Import Base BaseFacts GoPath Types SpecTypes Imports SpecImports Conv World SpecProgram SpecWorld SpecGo SpecFile SpecDecl
  Write SpecFormat SpecCode SpecAppend AppendExamples SpecOrder SpecQualify QualifyExamples SpecShare SpecLocal PlaceProofs LocalProofs OwnProofs AloneProofs LocalExamples
  SpecTried TriedProofs.

(** C111: WriteGoFiles - whether it returns, returns an error or panics - has begun to write those files
    that it had opened, one after the other and each once; these come first in the list, and are all of it
    if there is no error. *)
Theorem C111_tried : forall TD (env : Env TD) fuel X H E (format_Source : string -> string + E)
    (write : H -> string -> X -> done E * X) (close : H -> X -> done E * X) outFn l st o st',
  WriteGoFiles env format_Source write close outFn fuel l st = (o, st') ->
  exists t, trace st' = trace st ++ t /\ tried_in_order env fuel (firstn (number_opened t) l) (world st) (world st') /\
    number_opened t <= List.length l /\ (o = Ret None -> number_opened t = List.length l).
Proof. exact @write_tried. Qed.
Print Assumptions C111_tried.
(** Nothing changes outside of these files. *)
Theorem C111_changes : forall TD (env : Env TD) fuel, imports_by_calls env -> forall X H E (format_Source : string -> string + E)
    (write : H -> string -> X -> done E * X) (close : H -> X -> done E * X) outFn l st o st',
  WriteGoFiles env format_Source write close outFn fuel l st = (o, st') ->
  exists t, trace st' = trace st ++ t /\ changes_in (world st) (firstn (number_opened t) l) (world st').
Proof. exact @write_changes. Qed.
Print Assumptions C111_changes.
(** C110: so a file that shares nothing with these is afterwards written as if this had not been tried; the
    condition on its code is that of C109. *)
Theorem C110_retry_partial : forall TD (env : Env TD) fuel, imports_by_calls env -> forall X H E (format_Source : string -> string + E)
    (write : H -> string -> X -> done E * X) (close : H -> X -> done E * X) outFn l st o st' f F,
  nth_error (files (world st)) f = Some F ->
  plain_code env (world st) f -> plain_templates env (world st) f -> (forall g, In g l -> apart_from (world st) f g) ->
  WriteGoFiles env format_Source write close outFn fuel l st = (o, st') ->
  exists r w2 w3, source env fuel f (world st) = (r, w2) /\ source env fuel f (world st') = (r, w3) /\ nth_error (files w3) f = nth_error (files w2) f.
Proof. exact @write_retry. Qed.
Print Assumptions C110_retry_partial.
(** the second file cannot be opened *)
Definition d_open_one (p : string) (x : disk) : opened string string * disk :=
  (if String.eqb p "x.y/b/b.go" then OpenErr "no such directory" else Opened (Some p), x).
Example C111_example : imports_by_calls exEnv /\ plain_code exEnv locW 1 /\ plain_templates exEnv locW 1 /\ apart_from locW 1 0 /\
  exists st' t s w2 w3,
    WriteGoFiles exEnv d_format d_write d_close d_open_one 3 [0; 1] (mkState locW [] []) = (Ret (Some (Outside "no such directory")), st') /\
    trace st' = [] ++ t /\ number_opened t = 1 /\ files (world st') <> files locW /\
    source exEnv 3 1 locW = (Ok s, w2) /\ source exEnv 3 1 (world st') = (Ok s, w3).
Proof.
  split; [intros w d i; exists []; reflexivity|].
  split; [apply loc_plain; right; left; reflexivity|]. split; [apply loc_plain; right; left; reflexivity|].
  split; [apply loc_apart; [right; left; reflexivity|left; reflexivity|discriminate]|].
  eexists _, _, _, _, _. split; [vm_compute; reflexivity|]. split; [vm_compute; reflexivity|]. split; [vm_compute; reflexivity|].
  split; [vm_compute; discriminate|]. split; vm_compute; reflexivity.
Qed.
(** writing the first file panics *)
Example C111_panic_example : exists st' t w3,
    WriteGoFiles exEnv d_format d_write d_close d_open 3 [0; 1] (mkState panicW [] []) = (Panicked nil_deref, st') /\
    trace st' = [] ++ t /\ number_opened t = 1 /\ files (world st') <> files panicW /\
    nth_error (files (world st')) 1 = nth_error (files panicW) 1 /\ source exEnv 3 1 (world st') = (Ok panicText, w3).
Proof.
  eexists _, _, _. split; [vm_compute; reflexivity|]. split; [vm_compute; reflexivity|]. split; [vm_compute; reflexivity|].
  split; [vm_compute; discriminate|]. split; vm_compute; reflexivity.
Qed.
