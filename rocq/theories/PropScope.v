(** Properties of the names in a written file under Go's rules of scope, and of the use of its imports: C99, C100.
    Only statements, examples and [exact]. *)
From Verif Require Import Base GoPath Types SpecTypes Imports SpecImports SpecGo SpecRender Conv World SpecWorld SpecFile SpecDecl SpecQualify
  FileTheorems SpecBuild SpecTotal QualifyExamples BuildTotal TotalExamples SpecScope ScopeProofs ScopeBuild UseProofs.

(** C99.  The full statement: every prepared file that is written parses to a file whose names are in order and which, resolved, is
    the file meant.  It is false in four ways. *)
Theorem C99_clash_refuted : forall env : Env unit, let w := exec_world clash_build in exists s g g0,
  prepared path_Base "a.b/m" [] w 0 (file0 w) /\ no_named_specs w 0 /\
  source env 3 0 w = (Ok s, snd (source env 3 0 w)) /\
  file_meaning_with (path_qualifier "a.b/m") w (block_text env (snd (source env 3 0 w))) 3 (file0 w) = Some g0 /\
  parse_file s = Some g /\ ~ in_order path_Base g.
Proof. exact clash_wrong. Qed.
Print Assumptions C99_clash_refuted.
Theorem C99_predeclared_refuted : forall env : Env unit, let w := exec_world shadow_build in exists s g g0,
  prepared path_Base "a.b/m" [] w 0 (file0 w) /\ no_named_specs w 0 /\
  source env 3 0 w = (Ok s, snd (source env 3 0 w)) /\
  file_meaning_with (path_qualifier "a.b/m") w (block_text env (snd (source env 3 0 w))) 3 (file0 w) = Some g0 /\
  parse_file s = Some g /\ ~ in_order path_Base g.
Proof. exact shadow_wrong. Qed.
Print Assumptions C99_predeclared_refuted.
Theorem C99_captured_refuted : forall env : Env unit, let w := exec_world capture_build in exists s g g0,
  prepared path_Base "a.b/m" [] w 0 (file0 w) /\ no_named_specs w 0 /\
  source env 3 0 w = (Ok s, snd (source env 3 0 w)) /\
  file_meaning_with (path_qualifier "a.b/m") w (block_text env (snd (source env 3 0 w))) 3 (file0 w) = Some g0 /\
  parse_file s = Some g /\ ~ in_order path_Base g.
Proof. exact capture_wrong. Qed.
Print Assumptions C99_captured_refuted.
Theorem C99_init_refuted : forall env : Env unit, let w := exec_world init_build in exists s g g0,
  prepared path_Base "a.b/m" [] w 0 (file0 w) /\ no_named_specs w 0 /\
  source env 3 0 w = (Ok s, snd (source env 3 0 w)) /\
  file_meaning_with (path_qualifier "a.b/m") w (block_text env (snd (source env 3 0 w))) 3 (file0 w) = Some g0 /\
  parse_file s = Some g /\ ~ in_order path_Base g.
Proof. exact init_wrong. Qed.
Print Assumptions C99_init_refuted.
(** These are all the ways: the names are in order exactly if no import has a reserved name. *)
Theorem C99_exact : forall TD (env : Env TD) real own h fuel f w F s w1,
  prepared real own h w f F -> source env fuel f w = (Ok s, w1) -> forall g0, no_named_specs w f ->
  file_meaning_with (path_qualifier own) w (block_text env w1) fuel F = Some g0 ->
  exists g, parse_file s = Some g /\ resolve_file real g = Some (mkGFile (GPackage g0) (GImports g) (GDecls g0)) /\
    (in_order real g <-> forall n, In n (import_names real g) -> ~ In n (reserved (GDecls g0))).
Proof. exact @scope_exact. Qed.
Print Assumptions C99_exact.
(** And that can be seen from the requests: no package is asked for under a name that the imports could turn into a reserved one.
    Missing: files where they are. *)
Theorem C99_scope_partial : forall TD (env : Env TD) real own h fuel f w F s w1,
  prepared real own h w f F -> source env fuel f w = (Ok s, w1) -> forall g0, no_named_specs w f ->
  file_meaning_with (path_qualifier own) w (block_text env w1) fuel F = Some g0 ->
  (forall r n, In r (flat_map requests h) \/ file_mentions w f r -> fst r <> own -> may_be_called r n -> ~ In n (reserved (GDecls g0))) ->
  exists g, parse_file s = Some g /\ means real g (mkGFile (GPackage g0) (GImports g) (GDecls g0)).
Proof. exact @scope_apart. Qed.
Print Assumptions C99_scope_partial.
(** From a description to a file that means it, under the rules of scope. *)
Theorem C99_built_partial : forall TD (env : Env TD) d w m,
  represents w m -> go_name (fdName d) -> no_template_code d -> whole_description d ->
  exists d' w1, build_file d w = (Ok (List.length (files w), d'), w1) /\ same_but_code d d' /\
    (whole_code w1 d -> exists s w2 enough,
      (forall fuel, enough <= fuel -> source env fuel (List.length (files w)) w1 = (Ok s, w2)) /\
      forall real g0,
      (forall r, described w1 d r -> right_name real r /\ usable_name r) ->
      filedesc_meaning (path_qualifier (fdPath d)) (block_text env w2) d' = Some g0 ->
      (forall r n, described w1 d r -> fst r <> fdPath d -> may_be_called r n -> ~ In n (reserved (GDecls g0))) ->
      exists g, parse_file s = Some g /\ means real g (mkGFile (GPackage g0) (GImports g) (GDecls g0))).
Proof. exact @built_written_scope. Qed.
Print Assumptions C99_built_partial.
(** A file with a package asked for in types and in code; the receiver is used before a dot. *)
Example C99_example : represents (@empty_world unit) [] /\ go_name (fdName exFile) /\ no_template_code exFile /\
  whole_description exFile /\ whole_code exWorld exFile /\
  (forall r, described exWorld exFile r -> right_name path_Base r /\ usable_name r) /\
  exists d' s w2 g0, build_file exFile empty_world = (Ok (0, d'), exWorld) /\ source exEnv 3 0 exWorld = (Ok s, w2) /\
    filedesc_meaning (path_qualifier "a.b/m") (block_text exEnv w2) d' = Some g0 /\
    reserved (GDecls g0) = ["init"; "k1"; "a"; "b"; "T"; "int"; "int"; "string"; "bool"; "T"; "string"; "r"] /\
    (forall r n, described exWorld exFile r -> fst r <> "a.b/m" -> may_be_called r n -> ~ In n (reserved (GDecls g0))) /\
    exists g, parse_file s = Some g /\ import_names path_Base g = ["clock"].
Proof.
  assert (D : forall r, described exWorld exFile r -> r = ("x.y/clock", "clock")).
  { intros r [IN|(x & (l & fm & args & a & I & J & K & RF) & M)].
    - cbn in IN. repeat (destruct IN as [<-|IN]; [reflexivity|]). destruct IN.
    - cbn in I. assert (A : a = ASymbol (mkSymbol (mkPackage "x.y/clock" "clock") "New")).
      { destruct I as [<-|[<-|[]]]; cbn in J; repeat (destruct J as [J|J]; [try discriminate J; injection J as <- <-; cbn in K; intuition|]); try contradiction; subst a; discriminate RF. }
      subst a. injection RF as <-. vm_compute in M. destruct M as [M|[]]. symmetry. exact M. }
  split; [constructor|]. split; [exact ex_name|]. split; [exact ex_no_templates|]. split; [exact ex_whole|]. split; [exact ex_code|].
  split; [intros r IN; apply D in IN as ->; apply well_named_ok; vm_compute; reflexivity|].
  eexists. exists (text_of (source exEnv 3 0 exWorld)), (snd (source exEnv 3 0 exWorld)). eexists.
  split; [vm_compute; reflexivity|]. split; [vm_compute; reflexivity|]. split; [vm_compute; reflexivity|]. split; [vm_compute; reflexivity|].
  split; [intros r n IN _; apply D in IN as ->; apply apart_prefix; vm_compute; reflexivity|].
  eexists. split; vm_compute; reflexivity.
Qed.

(** C100.  The full statement: every import of a written file is the qualifier of a type in it or stands before a dot in its code.
    It is false: a method as an argument asks for its package but is written without it. *)
Theorem C100_used_refuted : forall env : Env unit, exists s g,
  prepared path_Base "a.b/m" [] meth_world 0 (file0 meth_world) /\ no_named_specs meth_world 0 /\
  source env 3 0 meth_world = (Ok s, snd (source env 3 0 meth_world)) /\
  parse_file s = Some g /\ In "n" (import_names path_Base g) /\ ~ In "n" (used (GDecls g)).
Proof. exact unused_wrong. Qed.
Print Assumptions C100_used_refuted.
(** An import that is not used by a type has been asked for by an argument of the code.  Missing: what such arguments leave in the
    code (C39 says how they are written, C93 where). *)
Theorem C100_types_partial : forall TD (env : Env TD) real fuel (d : filedesc (list (chunk TD))) (w : World TD) m,
  represents w m -> go_name (fdName d) -> no_template_code d ->
  exists d' w1, build_file d w = (Ok (List.length (files w), d'), w1) /\ same_but_code d d' /\
    forall s w2 g0, source env fuel (List.length (files w)) w1 = (Ok s, w2) ->
    (forall r, described w1 d r -> right_name real r /\ usable_name r) ->
    filedesc_depth d <= fuel ->
    filedesc_meaning (path_qualifier (fdPath d)) (block_text env w2) d' = Some g0 ->
    exists g, parse_file s = Some g /\ forall sp, In sp (map import_of (GImports g)) ->
      In (effective_name real sp) (type_qualifiers (GDecls g)) \/
      exists x r, code_mentions w1 d x /\ In r (packages_of x) /\ fst r = SpecPath sp.
Proof. exact @built_used. Qed.
Print Assumptions C100_types_partial.
(** The file of C99_example: its import is used by types. *)
Example C100_example : filedesc_depth exFile <= 3 /\
  exists s g, source exEnv 3 0 exWorld = (Ok s, snd (source exEnv 3 0 exWorld)) /\ parse_file s = Some g /\
    map import_of (GImports g) = [mkImportSpec "" "x.y/clock"] /\ In "clock" (type_qualifiers (GDecls g)).
Proof.
  split; [vm_compute; repeat constructor|]. exists (text_of (source exEnv 3 0 exWorld)). eexists.
  split; [vm_compute; reflexivity|]. split; [vm_compute; reflexivity|]. split; [vm_compute; reflexivity|]. vm_compute. auto.
Qed.
