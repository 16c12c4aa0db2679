(** Properties of comments and of import lines: C65-C66, C71.  Only statements, examples and [exact]. *)
From Verif Require Import Base GoPath Types SpecTypes Imports SpecImports SpecGo SpecRender Conv Fmt World SpecWorld
  SpecFile SpecDecl SpecQualify FileTheorems SpecDoc SpecBuild DocProofs QualifyExamples SpecBuildDoc BuildDocs.

(** C65 *)
Theorem C65_comments_in_place : forall TD (env : Env TD) w fuel F g,
  file_meaning w (block_text env w) fuel F = Some g ->
  exists s canon, GoFile_writeTo env fuel w F = Ok s /\
    tokens canon = Some [TKw "import"; TStr (FCanonical F); TOp ";"] /\
    forall ns, file_notes w (block_text env w) fuel F canon = Some ns -> comments s = Some ns.
Proof. exact @file_comments. Qed.
Print Assumptions C65_comments_in_place.
(** the comments and the tokens come from the same reading of the text *)
Theorem C65_same_tokens : forall text, option_map event_tokens (events text) = tokens text.
Proof. exact events_tokens. Qed.
Print Assumptions C65_same_tokens.
Definition exClock : Symbol := mkSymbol (mkPackage "x.y/clock" "clock") "Clock".
Definition exDocs : filedesc (list (chunk unit)) :=
  mkFD "t.go" "a.b/m" "m" ("(c) me" ++ nl ++ nl ++ "all") "Package m is." "a.b/m" [
    DConsts "group" [mkV "one" ["k1"] None (Some [KPrint "1 // first"])] [mkV "" ["k2"] None None];
    DOneVar (mkV ("v" ++ nl ++ "w") ["a"; "b"] (Some (DName (TBasic KInt))) None);
    DOneType (mkTS "T" "T is." (BodyStruct
      [("first", "A", "//", DName (TPtr (TNamed exClock)));
       ("second", "", "", DName (TNamed exClock));
       ("third", "C", "", DSpec (DInterface [IEmbed "clocks" exClock; IMethod "gets" "Get" [] [] false]))]));
    DFunction (mkFn "F runs." None "F" [] [] false [KPrintln "f() // go"; KPrintln "// end"])].
Definition exDocW : World unit := match build_file exDocs empty_world with
  | (Ok (f, _), w1) => snd (source exEnv 4 f w1) | _ => empty_world end.
Definition exDocF : GoFile := nth 0 (files exDocW) (mkFile (NewImportsFor "") "" "" "" "" "" []).
Definition exNotes : list note :=
  [NLoose [" (c) me"; " "; " all"]; NDoc [" Package m is."] (TKw "package"); NLine " import ""a.b/m""";
   NDoc [" group"] (TKw "const"); NDoc [" one"] (TIdent "k1"); NLine " first";
   NDoc [" v"; " w"] (TKw "var");
   NDoc [" T is."] (TKw "type"); NDoc [" first"] (TIdent "A"); NDoc [" second"] (TIdent "clock"); NDoc [" third"] (TIdent "C");
   NDoc [" clocks"] (TIdent "clock"); NDoc [" gets"] (TIdent "Get");
   NDoc [" F runs."] (TKw "func"); NLine " go"; NDoc [" end"] (TOp "}")].
Example C65_example :
  match file_meaning exDocW (block_text exEnv exDocW) 4 exDocF with Some _ => True | None => False end /\
  file_notes exDocW (block_text exEnv exDocW) 4 exDocF " import ""a.b/m""" = Some exNotes /\
  match GoFile_writeTo exEnv 4 exDocW exDocF with Ok s => comments s = Some exNotes | Panic _ => False end.
Proof. vm_compute. repeat split; reflexivity. Qed.

(** C66 *)
Theorem C66_import_specs : forall isPrint p l ms, ident p = true -> all_some (map import_meaning l) = Some ms ->
  parse_file ("package " ++ p ++ nl ++ fold_right append "" (map (fun s => "import " ++ ImportSpec_String isPrint s ++ nl)%string l)) =
  Some (mkGFile p ms []).
Proof. exact import_specs_text. Qed.
Print Assumptions C66_import_specs.
Example C66_example : let l := [mkImportSpec "" "fmt"; mkImportSpec "b2" "x.y/b"] in
  all_some (map import_meaning l) = Some [(None, "fmt"); (Some "b2", "x.y/b")] /\
  map (ImportSpec_String (fun _ => true)) l = ["""fmt"""; "b2 ""x.y/b"""].
Proof. vm_compute. repeat split; reflexivity. Qed.

(** C71 *)
Theorem C71_comments_as_described : forall TD (env : Env TD) real fuel (d : filedesc (list (chunk TD))) (w : World TD) m,
  represents w m -> go_name (fdName d) -> no_template_code d ->
  exists d' w1, build_file d w = (Ok (List.length (files w), d'), w1) /\ same_but_code d d' /\
    forall s w2 g0, source env fuel (List.length (files w)) w1 = (Ok s, w2) ->
    (forall r, In r (sym_requests (filedesc_symbols d)) -> right_name real r /\ usable_name r) ->
    (forall x r, code_mentions w1 d x -> In r (packages_of x) -> right_name real r /\ usable_name r) ->
    filedesc_depth d <= fuel ->
    filedesc_meaning (path_qualifier (fdPath d)) (block_text env w2) d' = Some g0 ->
    exists g canon, parse_file s = Some g /\
      tokens canon = Some [TKw "import"; TStr (fdCanonical d); TOp ";"] /\
      forall ns, filedesc_notes (import_prefix real (map import_of (GImports g)) (fdPath d)) (block_text env w2) d' canon = Some ns ->
      comments s = Some ns.
Proof. exact @built_file_comments. Qed.
Print Assumptions C71_comments_as_described.
(** two packages of the same name: the embedded field and interface are written with the name
    the second one got *)
Definition exClock2 : Symbol := mkSymbol (mkPackage "x.z/clock" "clock") "Clock".
Definition exDocs2 : filedesc (list (chunk unit)) :=
  mkFD "t.go" "a.b/m" "m" ("(c) me" ++ nl ++ nl ++ "all") "Package m is." "a.b/m" [
    DConsts "group" [mkV "one" ["k1"] None (Some [KPrint "1 // first"])] [mkV "two" ["k2"] None None];
    DOneVar (mkV "" ["x"] (Some (DName (TNamed exClock))) None);
    DOneType (mkTS "T" "T is." (BodyStruct
      [("first", "A", "", DStruct [("inner", "X", "", DName (TBasic KInt)); ("second", "", "", DName (TPtr (TNamed exClock)))]);
       ("third", "", "", DName (TNamed exClock2));
       ("", "C", "", DSpec (DInterface [IEmbed "clocks" exClock2; IMethod "gets" "Get" [] [] false]))]));
    DFunction (mkFn ("F" ++ nl ++ "runs.") None "F" [] [] false [KPrintln "f() // go"; KPrintln "// end"])].
Definition exNotes2 : list note :=
  [NLoose [" (c) me"; " "; " all"]; NDoc [" Package m is."] (TKw "package"); NLine " import ""a.b/m""";
   NDoc [" group"] (TKw "const"); NDoc [" one"] (TIdent "k1"); NLine " first"; NDoc [" two"] (TIdent "k2");
   NDoc [" T is."] (TKw "type"); NDoc [" first"] (TIdent "A"); NDoc [" inner"] (TIdent "X"); NDoc [" second"] (TOp "*");
   NDoc [" third"] (TIdent "clock1"); NDoc [" clocks"] (TIdent "clock1"); NDoc [" gets"] (TIdent "Get");
   NDoc [" F"; " runs."] (TKw "func"); NLine " go"; NDoc [" end"] (TOp "}")].
Example C71_example : no_template_code exDocs2 /\ filedesc_depth exDocs2 <= 3 /\
  (forall r, In r (sym_requests (filedesc_symbols exDocs2)) -> right_name path_Base r /\ usable_name r) /\
  (forall x w1, ~ code_mentions w1 exDocs2 x) /\
  match build_file exDocs2 empty_world with
  | (Ok (f, d'), w1) =>
      match source exEnv 3 f w1 with
      | (Ok s, w2) =>
          filedesc_meaning (path_qualifier "a.b/m") (block_text exEnv w2) d' <> None /\
          option_map GImports (parse_file s) = Some [(None, "x.y/clock"); (Some "clock1", "x.z/clock")] /\
          filedesc_notes (import_prefix path_Base [mkImportSpec "" "x.y/clock"; mkImportSpec "clock1" "x.z/clock"] "a.b/m")
            (block_text exEnv w2) d' " import ""a.b/m""" = Some exNotes2
      | _ => False
      end
  | _ => False
  end.
Proof.
  split.
  { intros l t data I. cbn in I. repeat (destruct I as [<-|I]; [cbn; intuition discriminate|]). destruct I. }
  split; [vm_compute; lia|]. split.
  { intros r I. apply well_named_ok. revert r I. apply forallb_forall. vm_compute. reflexivity. }
  split.
  { intros x w1 (l & fm & args & a & I & J & K & RF). cbn in I.
    repeat (destruct I as [<-|I]; [cbn in J; repeat (destruct J as [J|J]; [injection J as <- <-; cbn in K;
      repeat (destruct K as [<-|K]; [discriminate RF|]); destruct K|]); destruct J|]).
    destruct I. }
  vm_compute. repeat split; try reflexivity. discriminate.
Qed.
