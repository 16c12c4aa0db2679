(** Properties of files whose code contains templates: C83-C88. *)
From Verif Require Import Base GoPath Types SpecTypes Imports SpecImports SpecGo SpecRender Conv World SpecFile SpecDecl SpecWorld
  SpecQualify FileTheorems SpecBuild SpecTotal Template SpecTemplate PropTemplate SpecFileTemplate FileTemplates OnceTheorems TwiceTheorems BuildTemplates
  FileTemplateExamples.

(** C83 *)
(** Code that is added to two functions is qualified twice: if its data hold a type of the
    file, the empty path is imported. *)
Theorem C83_refuted : exists s w1 F1,
  (exists d, template_data sharedWorld 0 d /\ typed imp (data d)) /\
  source tplEnv 2 0 sharedWorld = (Ok s, w1) /\ nth_error (files w1) 0 = Some F1 /\
  In "" (listed (FImports F1)) /\
  (forall d, template_data sharedWorld 0 d -> data_requests true (world_parent sharedWorld) (data d) = [("a.b/m", "m")]).
Proof.
  eexists _, _, _. split; [|split; [vm_compute; reflexivity|split; [vm_compute; reflexivity|split]]].
  - exists (spec_ptr None). split; [exact shared_template|cbn; auto].
  - vm_compute. auto.
  - intros d T. apply shared_data in T as ->. vm_compute. reflexivity.
Qed.
Print Assumptions C83_refuted.
(** What holds: if templates with specs of a file are in the code once. *)
Theorem C83_imports_partial : forall implements unsafe isPrint verb other texec f w, good_data implements unsafe w f -> forall own h fuel F s w1,
  nth_error (files w) f = Some F -> FImports F = run h (NewImportsFor own) ->
  source (template_env implements unsafe isPrint verb other texec) fuel f w = (Ok s, w1) ->
  exists F1, nth_error (files w1) f = Some F1 /\
    forall path, In path (listed (FImports F1)) <->
      In path (listed (FImports F)) \/ path <> own /\ exists n, file_mentions w f (path, n) \/ data_mentions unsafe w f (path, n).
Proof. exact once_imports. Qed.
Print Assumptions C83_imports_partial.
Example C83_example :
  nth_error (files tplWorld) 0 = Some (tplGoFile tplWorld) /\ FImports (tplGoFile tplWorld) = run [] (NewImportsFor "a.b/m") /\
  good_data imp true tplWorld 0 /\ source tplEnv 2 0 tplWorld = (Ok tplText, tplAfter) /\
  listed (FImports (tplGoFile tplWorld)) = [] /\ data_mentions true tplWorld 0 ("a/x", "x") /\
  In "a/x" (listed (FImports (tplGoFile tplAfter))).
Proof.
  split; [apply tpl_file|]. split; [apply tpl_file|]. split; [exact tpl_good|]. split; [exact tpl_source|].
  split; [vm_compute; reflexivity|]. split; [|vm_compute; auto].
  exists sample. split; [eexists 0, 0; apply tpl_template|cbn; auto].
Qed.

(** C84 *)
(** The same file: the template gets a type of the package ".". *)
Theorem C84_refuted : exists s w1 F1, template_data sharedWorld 0 (spec_ptr None) /\ typed imp (data (spec_ptr None)) /\
  source tplEnv 2 0 sharedWorld = (Ok s, w1) /\ nth_error (files w1) 0 = Some F1 /\
  template_data w1 0 (spec_ptr (Some ".")) /\ name_in (FImports F1) "a.b/m" = "".
Proof.
  eexists _, _, _. split; [exact shared_template|]. split; [cbn; auto|].
  split; [vm_compute; reflexivity|]. split; [vm_compute; reflexivity|]. split; [|vm_compute; reflexivity].
  exists 0, 1. split; [|vm_compute; reflexivity]. exists 1. eexists. split; [|split; [vm_compute; reflexivity|cbn; auto]].
  eapply (in_body _ _ _ 0); [vm_compute; reflexivity|cbn; auto|vm_compute; reflexivity|reflexivity].
Qed.
Print Assumptions C84_refuted.
(** What holds: if templates with specs of a file are in the code once. *)
Theorem C84_data_partial : forall implements unsafe isPrint verb other texec f w, good_data implements unsafe w f -> forall own h fuel F s w1,
  nth_error (files w) f = Some F -> FImports F = run h (NewImportsFor own) ->
  source (template_env implements unsafe isPrint verb other texec) fuel f w = (Ok s, w1) ->
  exists F1, nth_error (files w1) f = Some F1 /\
  (forall t tm d, template_of w f t -> nth_error (templs w) t = Some (tm, Some d) ->
    exists r c, nth_error (templs w1) t = Some (tm, r) /\
      renamed implements unsafe (world_parent w) (name_in (FImports F1)) c (data d) (VIface any r) /\
      forall p n, In (p, n) (data_requests unsafe (world_parent w) (data d)) -> written_as (FImports F1) p (name_in (FImports F1) p)) /\
  (forall t, ~ template_of w f t -> nth_error (templs w1) t = nth_error (templs w) t).
Proof. exact once_data_after. Qed.
Print Assumptions C84_data_partial.
(** In the file the package b/x keeps its name, and a/x gets the alias x1. *)
Example C84_example :
  nth_error (files tplWorld) 0 = Some (tplGoFile tplWorld) /\ FImports (tplGoFile tplWorld) = run [] (NewImportsFor "a.b/m") /\
  good_data imp true tplWorld 0 /\ source tplEnv 2 0 tplWorld = (Ok tplText, tplAfter) /\
  template_of tplWorld 0 0 /\ nth_error (templs tplWorld) 0 = Some (0, Some sample) /\
  nth_error (templs tplAfter) 0 = Some (0, Some (sample_as (mkPackage "a/x" "x1") bx)).
Proof.
  split; [apply tpl_file|]. split; [apply tpl_file|]. split; [exact tpl_good|]. split; [exact tpl_source|].
  split; [apply tpl_template|]. split; [apply tpl_template|vm_compute; reflexivity].
Qed.
(** A type of the file is given to a template: the template gets it without a package. *)
Example C84_own_example : exists s w1 F1,
  nth_error (files ownWorld) 0 = Some (tplGoFile ownWorld) /\ FImports (tplGoFile ownWorld) = run [] (NewImportsFor "a.b/m") /\
  good_data imp true ownWorld 0 /\ (~ forall nm, simple true (world_parent ownWorld) nm (data (spec_ptr None))) /\
  source tplEnv 2 0 ownWorld = (Ok s, w1) /\ nth_error (files w1) 0 = Some F1 /\
  template_of ownWorld 0 0 /\ nth_error (templs ownWorld) 0 = Some (1, Some (spec_ptr None)) /\
  nth_error (templs w1) 0 = Some (1, Some (spec_ptr (Some ""))) /\ listed (FImports F1) = [].
Proof.
  eexists _, _, _. split; [vm_compute; reflexivity|]. split; [vm_compute; reflexivity|]. split; [exact own_good|].
  split; [exact own_not_simple|]. split; [vm_compute; reflexivity|]. split; [vm_compute; reflexivity|].
  split; [|split; [vm_compute; reflexivity|split; vm_compute; reflexivity]].
  exists 0. eexists. split; [|split; [vm_compute; reflexivity|cbn; auto]].
  eapply (in_body _ _ _ 0); [vm_compute; reflexivity|cbn; auto|vm_compute; reflexivity|reflexivity].
Qed.

(** C85 *)
(** A file that gives a template one of its own types is not the same when written again. *)
Theorem C85_refuted : exists s w1 s' w2, template_data ownWorld 0 (spec_ptr None) /\ typed imp (data (spec_ptr None)) /\
  source tplEnv 2 0 ownWorld = (Ok s, w1) /\ source tplEnv 2 0 w1 = (Ok s', w2) /\ s <> s'.
Proof.
  eexists _, _, _, _. split; [exact own_template|]. split; [cbn; auto|].
  split; [vm_compute; reflexivity|]. split; [vm_compute; reflexivity|]. discriminate.
Qed.
Print Assumptions C85_refuted.
(** What holds: if the packages of the specs in the data keep their names in the file. *)
Theorem C85_twice_partial : forall implements unsafe isPrint verb other texec f w, good_data implements unsafe w f -> forall own h fuel F s w1 F1,
  nth_error (files w) f = Some F -> FImports F = run h (NewImportsFor own) ->
  source (template_env implements unsafe isPrint verb other texec) fuel f w = (Ok s, w1) -> nth_error (files w1) f = Some F1 ->
  (forall d, template_data w f d -> simple unsafe (world_parent w) (name_in (FImports F1)) (data d)) ->
  source (template_env implements unsafe isPrint verb other texec) fuel f w1 = (Ok s, w1).
Proof. exact once_twice. Qed.
Print Assumptions C85_twice_partial.
Example C85_example :
  nth_error (files tplWorld) 0 = Some (tplGoFile tplWorld) /\ FImports (tplGoFile tplWorld) = run [] (NewImportsFor "a.b/m") /\
  good_data imp true tplWorld 0 /\ source tplEnv 2 0 tplWorld = (Ok tplText, tplAfter) /\
  (forall nm d, template_data tplWorld 0 d -> simple true (world_parent tplWorld) nm (data d)) /\ tplAfter <> tplWorld.
Proof.
  split; [apply tpl_file|]. split; [apply tpl_file|]. split; [exact tpl_good|]. split; [exact tpl_source|].
  split; [intros nm d T; apply tpl_data in T as ->; apply sample_simple|].
  intros E. apply (f_equal (fun w => List.length (listed (FImports (tplGoFile w))))) in E. vm_compute in E. discriminate.
Qed.
(** The template is given a type of another file. *)
Example C85_other_example : exists F F1,
  good_data imp true otherWorld 1 /\ template_data otherWorld 1 (spec_ptr None) /\ nth_error (files otherWorld) 1 = Some F /\
  FImports F = run [] (NewImportsFor "a.b/m") /\
  source tplEnv 2 1 otherWorld = (Ok otherText, otherAfter) /\ nth_error (files otherAfter) 1 = Some F1 /\
  (forall d, template_data otherWorld 1 d -> simple true (world_parent otherWorld) (name_in (FImports F1)) (data d)) /\
  listed (FImports F1) = ["c.d/e"; "x/e"] /\ name_in (FImports F1) "x/e" = "e1".
Proof.
  eexists _, _. split; [exact other_good|]. split; [exact other_template|]. split; [vm_compute; reflexivity|]. split; [reflexivity|].
  split; [vm_compute; reflexivity|]. split; [vm_compute; reflexivity|]. split; [|split; vm_compute; reflexivity].
  intros d T. apply other_data in T as ->. cbn. split; [reflexivity|]. intros p E. injection E as <-. left. vm_compute. reflexivity.
Qed.

(** C86 *)
Theorem C86_references : forall implements unsafe isPrint verb other texec f w, good_data implements unsafe w f -> forall real own h fuel F s w1,
  nth_error (files w) f = Some F -> FImports F = run h (NewImportsFor own) ->
  forallb call_ok h = true -> (forall c, In c h -> honest real c) -> (forall c, In c h -> usable_requests c) ->
  (forall r, file_mentions w f r \/ data_mentions unsafe w f r -> right_name real r /\ usable_name r) ->
  source (template_env implements unsafe isPrint verb other texec) fuel f w = (Ok s, w1) ->
  exists F1, nth_error (files w1) f = Some F1 /\
  forall cb n k a r v, part_of w f (IBlock cb) -> argument w cb n k = Some a -> refers_to w a = Some r ->
    v = "s"%char \/ v = "v"%char ->
    (forall sg, r <> RSignature sg) ->
    (forall s m, r = RMethod s m -> method_by_value a = true \/
       has_package s = true /\ ~ keeps_name (FImports F1) (SymPackage s)) ->
    exists a1, argument w1 cb n k = Some a1 /\
      written real own (ImportSpecs (FImports F1)) r (fmt_arg (template_env implements unsafe isPrint verb other texec) w1 v a1).
Proof. exact once_references. Qed.
Print Assumptions C86_references.
Theorem C86_meaning : forall implements unsafe isPrint verb other texec f w, good_data implements unsafe w f -> forall real own h fuel F s w1 g0,
  nth_error (files w) f = Some F -> FImports F = run h (NewImportsFor own) ->
  forallb call_ok h = true -> (forall c, In c h -> honest real c) -> (forall c, In c h -> usable_requests c) ->
  no_named_specs w f ->
  (forall r, file_mentions w f r \/ data_mentions unsafe w f r -> right_name real r /\ usable_name r) ->
  source (template_env implements unsafe isPrint verb other texec) fuel f w = (Ok s, w1) ->
  file_meaning_with (path_qualifier own) w (block_text (template_env implements unsafe isPrint verb other texec) w1) fuel F = Some g0 ->
  exists F1 g, nth_error (files w1) f = Some F1 /\ parse_file s = Some g /\
    map import_of (GImports g) = ImportSpecs (FImports F1) /\
    resolve_file real g = Some (mkGFile (GPackage g0) (GImports g) (GDecls g0)).
Proof. exact once_means. Qed.
Print Assumptions C86_meaning.
Example C86_example :
  nth_error (files tplWorld) 0 = Some (tplGoFile tplWorld) /\ FImports (tplGoFile tplWorld) = run [] (NewImportsFor "a.b/m") /\
  good_data imp true tplWorld 0 /\ no_named_specs tplWorld 0 /\
  (forall r, file_mentions tplWorld 0 r \/ data_mentions true tplWorld 0 r -> right_name path_Base r /\ usable_name r) /\
  source tplEnv 2 0 tplWorld = (Ok tplText, tplAfter) /\
  part_of tplWorld 0 (IBlock 0) /\ argument tplWorld 0 2 0 = Some (ASymbol (mkSymbol (mkPackage "x.y/clock" "clock") "New")) /\
  exists g0, file_meaning_with (path_qualifier "a.b/m") tplWorld (block_text tplEnv tplAfter) 2 (tplGoFile tplWorld) = Some g0.
Proof.
  split; [apply tpl_file|]. split; [apply tpl_file|]. split; [exact tpl_good|]. split; [exact tpl_unnamed|].
  split. { intros r M. apply tpl_mentions in M. cbn in M. destruct M as [<-|[<-|[<-|[]]]]; (split; [right; vm_compute; reflexivity|vm_compute; reflexivity]). }
  split; [exact tpl_source|]. split; [exact tpl_block|]. split; [vm_compute; reflexivity|]. eexists. vm_compute. reflexivity.
Qed.

(** C87 *)
Theorem C87_total : forall implements unsafe isPrint verb other texec f w, good_data implements unsafe w f -> forall own h F fuel,
  nth_error (files w) f = Some F -> FImports F = run h (NewImportsFor own) -> complete w f ->
  whole_data unsafe w f -> no_cycle w f -> List.length (types w) <= fuel ->
  exists w1, qualify_file (template_env implements unsafe isPrint verb other texec) fuel f w = (Ok tt, w1) /\
    (templates_execute w1 f texec -> exists s, source (template_env implements unsafe isPrint verb other texec) fuel f w = (Ok s, w1)).
Proof. exact once_total. Qed.
Print Assumptions C87_total.
Theorem C87_failures : forall implements unsafe isPrint verb other texec f w, good_data implements unsafe w f -> forall own h F fuel m w1,
  nth_error (files w) f = Some F -> FImports F = run h (NewImportsFor own) -> complete w f ->
  whole_data unsafe w f ->
  source (template_env implements unsafe isPrint verb other texec) fuel f w = (Panic m, w1) ->
  m = out_of_fuel \/ ~ templates_execute w1 f texec.
Proof. exact once_failures. Qed.
Print Assumptions C87_failures.
Example C87_example :
  nth_error (files tplWorld) 0 = Some (tplGoFile tplWorld) /\ FImports (tplGoFile tplWorld) = run [] (NewImportsFor "a.b/m") /\
  complete tplWorld 0 /\ good_data imp true tplWorld 0 /\ whole_data true tplWorld 0 /\ no_cycle tplWorld 0 /\
  List.length (types tplWorld) <= 2 /\ templates_execute tplAfter 0 exec /\
  exists w1, source (template_env imp true (fun _ => true) (fun _ _ _ => "") (fun _ _ _ => "") (fun _ _ _ => Panic "no")) 2 0 tplWorld = (Panic "no", w1).
Proof.
  split; [apply tpl_file|]. split; [apply tpl_file|]. split; [exact tpl_complete|]. split; [exact tpl_good|].
  split; [exact tpl_there|]. split; [exact tpl_acyclic|]. split; [vm_compute; auto|]. split; [exact tpl_executes|].
  eexists. vm_compute. reflexivity.
Qed.

(** C88 *)
Theorem C88_built : forall implements unsafe isPrint verb other texec d w m,
  let env := template_env implements unsafe isPrint verb other texec in
  let f := List.length (files w) in
  represents w m -> go_name (fdName d) -> whole_description d ->
  exists d' w1, build_file d w = (Ok (f, d'), w1) /\ same_but_code d d' /\
    (whole_code w1 d ->
     (forall v, described_data d v -> typed implements (data v) /\
        readable unsafe (world_parent w1) true (data v) /\ storable unsafe (world_parent w1) true (data v)) ->
     exists w2 enough, qualify_file env enough f w1 = (Ok tt, w2) /\
      (templates_execute w2 f texec -> exists s,
       (forall fuel, enough <= fuel -> source env fuel f w1 = (Ok s, w2)) /\
       forall real g0,
       (forall r, In r (sym_requests (filedesc_symbols d)) -> right_name real r /\ usable_name r) ->
       (forall x r, code_mentions w1 d x -> In r (packages_of x) -> right_name real r /\ usable_name r) ->
       (forall v r, described_data d v -> In r (data_requests unsafe (world_parent w1) (data v)) -> right_name real r /\ usable_name r) ->
       filedesc_meaning (path_qualifier (fdPath d)) (block_text env w2) d' = Some g0 ->
       exists g, parse_file s = Some g /\ resolve_file real g = Some (mkGFile (GPackage g0) (GImports g) (GDecls g0)))).
Proof. exact template_built. Qed.
Print Assumptions C88_built.
Example C88_example : represents (@empty_world (option val)) [] /\ go_name (fdName tplFile) /\ whole_description tplFile /\
  whole_code tplWorld tplFile /\ described_data tplFile sample /\
  (forall v, described_data tplFile v -> typed imp (data v) /\
     readable true (world_parent tplWorld) true (data v) /\ storable true (world_parent tplWorld) true (data v)) /\
  templates_execute tplAfter 0 exec.
Proof.
  split; [constructor|]. split; [exact tpl_name|]. split; [exact tpl_whole|]. split; [exact tpl_code|].
  split; [eexists _, 0; split; [left; reflexivity|cbn; auto]|]. split; [|exact tpl_executes].
  intros v D. apply tpl_described in D as ->. split; [exact sample_typed|].
  split; [apply sample_readable|apply sample_storable].
Qed.
(** A description with templates that get a type of the file. *)
Example C88_own_example : represents (@empty_world (option val)) [] /\ go_name (fdName ownFile) /\ whole_description ownFile /\
  whole_code ownBuilt ownFile /\ described_data ownFile (spec_ptr None) /\
  (forall v, described_data ownFile v -> typed imp (data v) /\
     readable true (world_parent ownBuilt) true (data v) /\ storable true (world_parent ownBuilt) true (data v)) /\
  templates_execute ownAfter 0 exec /\ file_templates ownBuilt 0 = [0; 1; 2].
Proof.
  split; [constructor|]. split; [split; [cbn; intuition discriminate|exists "o"; reflexivity]|].
  split; [repeat (constructor; [reflexivity|]); constructor|].
  split. { intros l format args a IL IP IA. cbn in IL. destruct IL as [<-|[<-|[<-|[]]]]; cbn in IP;
    (destruct IP as [IP|[IP|[]]]; try discriminate; injection IP as <- <-; cbn in IA; destruct IA as [<-|[]]; left; reflexivity). }
  split; [eexists _, 1; split; [left; reflexivity|cbn; auto]|]. split; [|split; [exact own_executes|vm_compute; reflexivity]].
  intros v D. apply own_described in D as ->. split; [cbn; auto|]. vm_compute. intuition (try discriminate; eauto).
Qed.
