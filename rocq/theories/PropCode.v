(** Properties of code that refers to packages, names and types: C101; and of the use of imports in it: C100.
    Only statements, examples and [exact]. *)
From Verif Require Import Base GoPath Types SpecTypes Imports SpecImports SpecGo SpecRender Conv World SpecWorld SpecFile SpecDecl SpecQualify
  FileTheorems SpecBuild SpecTotal SpecFormat SpecScope ScopeBuild QualifyExamples SpecCode CodeProofs CodeUse CodeExamples.

(** C101.  Code made of text, strings, numbers and references reads, in a written file, as its text with tokens in the place of the
    references that denote, under the imports of that file, what is referred to.  For every block of a prepared file: *)
Theorem C101_block : forall TD (env : Env TD) real own h fuel f w F s w1,
  prepared real own h w f F -> source env fuel f w = (Ok s, w1) ->
  exists F1, nth_error (files w1) f = Some F1 /\
  forall cb ls z its, part_of w f (IBlock cb) -> formatted w cb ls ->
    items own w (FCode LStart false) (concat ls ++ [Plain z]) = Some its ->
    exists text ts, block_text env w1 cb = Some text /\ tokens (text ++ z) = Some ts /\
      fills (ref_tokens real own (ImportSpecs (FImports F1))) its ts.
Proof. exact @code_read. Qed.
Print Assumptions C101_block.
(** From a description to the parsed file: each body, each initial value. *)
Theorem C101_file : forall TD (env : Env TD) real fuel (d : filedesc (list (chunk TD))) w m,
  represents w m -> go_name (fdName d) -> no_template_code d ->
  exists d' w1, build_file d w = (Ok (List.length (files w), d'), w1) /\ same_but_code d d' /\
    forall s w2 g0, source env fuel (List.length (files w)) w1 = (Ok s, w2) ->
    (forall r, described w1 d r -> right_name real r /\ usable_name r) ->
    filedesc_depth d <= fuel ->
    filedesc_meaning (path_qualifier (fdPath d)) (block_text env w2) d' = Some g0 ->
    exists g, parse_file s = Some g /\
      Forall2 (reads_as (fdPath d) w1 (ref_tokens real (fdPath d) (map import_of (GImports g)))) (ended d) (flat_map gended (GDecls g)).
Proof. exact @built_code_read. Qed.
Print Assumptions C101_file.
Example C101_example : represents (@empty_world unit) [] /\ go_name (fdName useFile) /\ no_template_code useFile /\
  (forall r, described useWorld useFile r -> right_name path_Base r /\ usable_name r) /\ filedesc_depth useFile <= 3 /\
  exists d' s w2 g0, build_file useFile empty_world = (Ok (0, d'), useWorld) /\ source exEnv 3 0 useWorld = (Ok s, w2) /\
    filedesc_meaning (path_qualifier "a.b/m") (block_text exEnv w2) d' = Some g0 /\
    prints (fst (nth 1 (ended useFile) ([], ""))) bodyLines /\
    items "a.b/m" useWorld (FCode LStart false) (concat bodyLines ++ [Plain ""]) =
      Some [Tok (TIdent "m"); Tok (TOp ":="); Tok (TKw "map"); Tok (TOp "["); Tok (TIdent "string"); Tok (TOp "]");
            Ref (RType (TPtr (TNamed (mkSymbol (mkPackage "x.y/clock" "clock") "Clock"))));
            Tok (TOp "{"); Tok (TStr "a%b"); Tok (TOp ":"); Tok (TIdent "nil"); Tok (TOp "}"); Tok (TOp ";");
            Tok (TKw "return"); Ref (RName (mkSymbol (mkPackage "p.q/strs" "strs") "Join")); Tok (TOp "("); Tok (TIdent "x"); Tok (TOp ",");
            Ref (RName (mkSymbol (mkPackage "a.b/m" "m") "v")); Tok (TOp ","); Tok (TInt "100"); Tok (TOp "%"); Tok (TInt "7"); Tok (TOp ",");
            Tok (TOp "-"); Num 5; Tok (TOp ")"); Tok (TOp ";")] /\
    exists g, parse_file s = Some g /\
      map import_of (GImports g) = [mkImportSpec "" "p.q/clock"; mkImportSpec "" "p.q/strs"; mkImportSpec "clock1" "x.y/clock"] /\
      map fst (flat_map gended (GDecls g)) =
        [[TIdent "clock"; TOp "."; TIdent "Now"; TOp "("; TOp ")"; TOp "+"; TInt "30"];
         [TIdent "m"; TOp ":="; TKw "map"; TOp "["; TIdent "string"; TOp "]"; TOp "*"; TIdent "clock1"; TOp "."; TIdent "Clock";
          TOp "{"; TStr "a%b"; TOp ":"; TIdent "nil"; TOp "}"; TOp ";";
          TKw "return"; TIdent "strs"; TOp "."; TIdent "Join"; TOp "("; TIdent "x"; TOp ","; TIdent "v"; TOp ","; TInt "100"; TOp "%"; TInt "7"; TOp ",";
          TOp "-"; TInt "5"; TOp ")"; TOp ";"]].
Proof.
  split; [constructor|]. split; [exact use_name|]. split; [exact use_no_templates|]. split; [exact use_packages|]. split; [vm_compute; repeat constructor|].
  eexists. exists (text_of (source exEnv 3 0 useWorld)), (snd (source exEnv 3 0 useWorld)). eexists.
  split; [vm_compute; reflexivity|]. split; [vm_compute; reflexivity|]. split; [vm_compute; reflexivity|]. split; [exact use_body|].
  split; [vm_compute; reflexivity|]. eexists. split; [vm_compute; reflexivity|]. split; vm_compute; reflexivity.
Qed.

(** C100, the part about code: if every reference in the code is one that C101 reads, none stands after a dot and packages stand
    before one, every import is used.  Missing: other code. *)
Theorem C100_used_partial : forall TD (env : Env TD) real fuel (d : filedesc (list (chunk TD))) w m,
  represents w m -> go_name (fdName d) -> no_template_code d ->
  exists d' w1, build_file d w = (Ok (List.length (files w), d'), w1) /\ same_but_code d d' /\
    forall s w2 g0, source env fuel (List.length (files w)) w1 = (Ok s, w2) ->
    (forall r, described w1 d r -> right_name real r /\ usable_name r) ->
    filedesc_depth d <= fuel ->
    filedesc_meaning (path_qualifier (fdPath d)) (block_text env w2) d' = Some g0 ->
    all_selected (fdPath d) w1 d ->
    exists g, parse_file s = Some g /\ forall n, In n (import_names real g) -> In n (used (GDecls g)).
Proof. exact @built_all_used. Qed.
Print Assumptions C100_used_partial.
(** The file of C101_example: two of its imports are used in code only. *)
Example C100_code_example : all_selected "a.b/m" useWorld useFile /\
  exists s g, source exEnv 3 0 useWorld = (Ok s, snd (source exEnv 3 0 useWorld)) /\ parse_file s = Some g /\
    import_names path_Base g = ["clock"; "strs"; "clock1"] /\ type_qualifiers (GDecls g) = ["clock1"] /\
    used (GDecls g) = ["clock1"; "clock"; "clock1"; "strs"].
Proof.
  split; [exact use_selected|]. exists (text_of (source exEnv 3 0 useWorld)). eexists.
  split; [vm_compute; reflexivity|]. split; [vm_compute; reflexivity|]. split; [vm_compute; reflexivity|]. split; vm_compute; reflexivity.
Qed.
