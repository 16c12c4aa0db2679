(** What a file is written from, and what writing it changes: C60, C109, C110.  Only statements, examples and [exact]. *)
From Coq Require Import Permutation.
From Verif Require Import Base BaseFacts GoPath Types SpecTypes Imports SpecImports Conv World SpecProgram ProgramProofs SpecWorld SpecGo SpecFile SpecDecl
  Write SpecFormat SpecCode SpecAppend AppendExamples SpecOrder SpecQualify QualifyExamples SpecShare SpecLocal PlaceProofs LocalProofs OwnProofs AloneProofs LocalExamples
  Template SpecLocalData LocalTemplates PropTemplate FileTemplateExamples LocalTemplateExamples.

(** C109: what is written of a file - or the panic instead - and its imports afterwards depend on
    nothing but the file, the declarations, specs and code that make it up, the names of the specs that
    its code refers to, and the packages to which these belong.  Two programs that agree in these write the
    same file, whatever else they build.  For templates that see nothing of the program in their data,
    and lines formatted from arguments that are printed with what their String method says, or of any lines without methods,
    functions, fields and embedded interfaces as arguments if fmt sees nothing of the program in other
    values. *)
Theorem C109_partial : forall TD (env : Env TD) f w w' F,
  same_for w w' f F -> plain_code env w f -> plain_templates env w f ->
  forall fuel, exists r w1 w1', source env fuel f w = (r, w1) /\ source env fuel f w' = (r, w1') /\
    nth_error (files w1') f = nth_error (files w1) f.
Proof. exact @local_source. Qed.
Print Assumptions C109_partial.
Example C109_example : same_for locW locW' 0 (file0 locW) /\ plain_code exEnv locW 0 /\ plain_templates exEnv locW 0 /\
  nth_error (files locW') 1 <> nth_error (files locW) 1 /\ nth_error (blocks locW') 1 <> nth_error (blocks locW) 1 /\
  nth_error (funcs locW') 1 <> nth_error (funcs locW) 1 /\ nth_error (ielems locW') 0 <> nth_error (ielems locW) 0 /\
  exists w1 w2 w3, source exEnv 3 0 locW = (Ok locText, w1) /\ source exEnv 3 0 locW' = (Ok locText, w2) /\
    (* the package of a file to which the code refers does matter *)
    source exEnv 3 0 locMoved = (Ok locMovedText, w3).
Proof.
  split; [exact loc_same|]. split; [apply textual_plain, loc_code|]. split; [apply no_templates_plain, loc_code|].
  do 4 (split; [vm_compute; discriminate|]).
  eexists _, _, _. split; [|split]; vm_compute; reflexivity.
Qed.
Example C109_values_example : sees_values exEnv /\ plain_code exEnv valW 0.
Proof. exact val_code. Qed.
(** Templates see nothing of the program in data without specs, if what they execute does not: the
    data is then qualified alike in any program, and has no specs in it afterwards. *)
Theorem C109_template_data : forall implements unsafe isPrint verb other texec, shows_data texec ->
  closed_data (template_env implements unsafe isPrint verb other texec) data_without_specs.
Proof. exact closed_without_specs. Qed.
Print Assumptions C109_template_data.
Example C109_templates_example : shows_data exec /\ closed_data tplEnv data_without_specs /\
  same_for tplWorld tplOther 0 (tplGoFile tplWorld) /\ plain_code tplEnv tplWorld 0 /\ plain_templates tplEnv tplWorld 0 /\
  template_of tplWorld 0 0 /\ nth_error (templs tplWorld) 0 = Some (0, Some sample) /\
  templs tplOther <> templs tplWorld /\ files tplOther <> files tplWorld /\
  exists w1 w2, source tplEnv 2 0 tplWorld = (Ok tplText, w1) /\ source tplEnv 2 0 tplOther = (Ok tplText, w2).
Proof.
  split; [exact tpl_shows|]. split; [exact tpl_closed|]. split; [exact tpl_same|]. split; [exact tpl_lines|]. split; [exact tpl_free|].
  split; [apply tpl_template|]. split; [apply tpl_template|]. do 2 (split; [vm_compute; discriminate|]).
  eexists _, _. split; vm_compute; reflexivity.
Qed.

(** C60: writing a file - also when that panics, whatever its templates and its imports are - changes
    nothing but the imports of the file, the references in what it consists of, and the data of its
    templates. *)
Theorem C60_any : forall TD (env : Env TD) fuel f (w : World TD) r w1, imports_by_calls env ->
  source env fuel f w = (r, w1) -> changes_only w f w1.
Proof. exact @source_changes. Qed.
Print Assumptions C60_any.
Example C60_panic_example : imports_by_calls exEnv /\
  exists w1, source exEnv 3 0 panicW = (Panic nil_deref, w1) /\ nth_error (files w1) 0 <> nth_error (files panicW) 0 /\
    nth_error (files w1) 1 = nth_error (files panicW) 1 /\ nth_error (argss w1) 0 <> nth_error (argss panicW) 0 /\
    nth_error (argss w1) 2 = nth_error (argss panicW) 2.
Proof.
  split; [intros w d i; exists []; reflexivity|]. eexists. split; [vm_compute; reflexivity|].
  split; [vm_compute; discriminate|]. split; [vm_compute; reflexivity|]. split; [vm_compute; discriminate|vm_compute; reflexivity].
Qed.

(** C110: a file is written the same - or panics the same - alone and after other files with which it
    shares no declarations, no arguments of code and no templates, although the code of each may refer
    to what the other declares, and whether or not the other files could be written. *)
Theorem C110_alone_partial : forall TD (env : Env TD) fuel f w F, nth_error (files w) f = Some F -> imports_by_calls env ->
  forall l w1, plain_code env w f -> plain_templates env w f -> (forall g, In g l -> apart_from w f g) -> tried_in_order env fuel l w w1 ->
  exists r w2 w3, source env fuel f w = (r, w2) /\ source env fuel f w1 = (r, w3) /\ nth_error (files w3) f = nth_error (files w2) f.
Proof. exact @written_alone. Qed.
Print Assumptions C110_alone_partial.
(** So the order in which such files are written does not matter: the texts are the same, and so are
    the files afterwards. *)
Theorem C110_any_order_partial : forall TD (env : Env TD) fuel w, imports_by_calls env -> forall l, NoDup (map fst l) ->
  (forall f, In f (map fst l) -> plain_code env w f /\ plain_templates env w f) ->
  (forall f g, In f (map fst l) -> In g (map fst l) -> g <> f -> apart_from w f g) ->
  forall w1 l', texts_in_order env fuel l w w1 -> Permutation l l' ->
  exists w1', texts_in_order env fuel l' w w1' /\ forall f, In f (map fst l) -> nth_error (files w1') f = nth_error (files w1) f.
Proof. exact @any_order. Qed.
Print Assumptions C110_any_order_partial.
(** And what WriteGoFiles writes of one of its files is what would be written of that file first. *)
Theorem C110_write_all_partial : forall TD (env : Env TD) X H E (format_Source : string -> string + E)
    (write : H -> string -> X -> done E * X) (close : H -> X -> done E * X) outFn fuel l g r st st',
  imports_by_calls env -> plain_code env (world st) g -> plain_templates env (world st) g -> (forall f, In f l -> apart_from (world st) g f) ->
  WriteGoFiles env format_Source write close outFn fuel (l ++ g :: r) st = (Ret None, st') ->
  exists s w2 hd formatted, source env fuel g (world st) = (Ok s, w2) /\ format_Source s = inl formatted /\ In (EvWrite hd formatted Done) (trace st').
Proof. exact @write_alone. Qed.
Print Assumptions C110_write_all_partial.
Example C110_example : imports_by_calls exEnv /\ NoDup (map fst locTexts) /\
  (forall f, In f (map fst locTexts) -> plain_code exEnv locW f /\ plain_templates exEnv locW f) /\
  (forall f g, In f (map fst locTexts) -> In g (map fst locTexts) -> g <> f -> apart_from locW f g) /\
  (exists w1, texts_in_order exEnv 3 locTexts locW w1) /\ (exists w1, texts_in_order exEnv 3 (rev locTexts) locW w1) /\
  exists st', WriteGoFiles exEnv d_format d_write d_close d_open 3 ([0] ++ [1]) (mkState locW (outside start) []) = (Ret None, st').
Proof.
  split; [intros w d i; exists []; reflexivity|].
  split; [constructor; [intros [H|[]]; discriminate H|constructor; [intros []|constructor]]|].
  split; [exact (loc_plain exEnv)|]. split; [exact loc_apart|].
  split; [|split; [|eexists; vm_compute; reflexivity]]; eexists; econstructor; [vm_compute; reflexivity|econstructor; [vm_compute; reflexivity|constructor]|vm_compute; reflexivity|econstructor; [vm_compute; reflexivity|constructor]].
Qed.
(** with a template in each of the files *)
Example C110_templates_example : imports_by_calls tplEnv /\ apart_from tplOther 0 1 /\ plain_code tplEnv tplOther 0 /\ plain_templates tplEnv tplOther 0 /\
  exists w1 w2 w3, tried_in_order tplEnv 2 [1] tplOther w1 /\ files w1 <> files tplOther /\
    source tplEnv 2 0 tplOther = (Ok tplText, w2) /\ source tplEnv 2 0 w1 = (Ok tplText, w3).
Proof.
  split; [apply template_by_calls|]. split; [exact tpl_apart|]. split; [exact tpl_other_lines|]. split; [exact tpl_other_free|].
  eexists _, _, _. split; [econstructor; [vm_compute; reflexivity|constructor]|]. split; [vm_compute; discriminate|]. split; vm_compute; reflexivity.
Qed.
(** and after a file that could not be written *)
Example C110_panic_example : exists w1 w2 w3, tried_in_order exEnv 3 [0] panicW w1 /\ fst (source exEnv 3 0 panicW) = Panic nil_deref /\ ~ shared panicW 1 0 /\
  source exEnv 3 1 panicW = (Ok panicText, w2) /\ source exEnv 3 1 w1 = (Ok panicText, w3).
Proof.
  eexists _, _, _. split; [econstructor; [vm_compute; reflexivity|constructor]|]. split; [vm_compute; reflexivity|].
  split; [|split; vm_compute; reflexivity].
  apply labelled_apart with (lab := fun x => match x with IFunc 0 | IBlock 0 => 0 | _ => 1 end) (laba := fun a => match a with 2 => 1 | _ => 0 end); [vm_compute; reflexivity|discriminate].
Qed.
(** In general this is false: code that prints an interface embedded in a type of the other file prints
    the name that the interface has in that file, once that is written. *)
Theorem C110_embedded_refuted : forall env : Env unit, exists s w1 w2 w3, ~ shared embW 0 1 /\
  source env 3 0 embW = (Ok embText, w2) /\ source env 3 1 embW = (Ok s, w1) /\ source env 3 0 w1 = (Ok embTextAfter, w3).
Proof.
  intros env. eexists _, _, _, _. split; [|split; [vm_compute; reflexivity|split; [vm_compute; reflexivity|vm_compute; reflexivity]]].
  apply labelled_apart with (lab := fun x => match x with IFunc 0 | IBlock 0 => 0 | _ => 1 end) (laba := fun a => a); [vm_compute; reflexivity|discriminate].
Qed.
Print Assumptions C110_embedded_refuted.
