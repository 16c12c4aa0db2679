(** Properties of whole files built by the calls of the package: C63-C64. *)
From Verif Require Import Base GoPath Types SpecTypes Imports SpecImports SpecGo SpecRender Conv World SpecFile SpecDecl SpecWorld
  SpecQualify FileTheorems SpecBuild BuildMeaning QualifyExamples.

(** C63 *)
Theorem C63_as_described : forall TD (d : filedesc (list (chunk TD))) (w : World TD) m,
  represents w m -> go_name (fdName d) ->
  exists d' w' m', build_file d w = (Ok (List.length (files w), d'), w') /\
    file_is w' (List.length (files w)) d' /\ same_but_code d d' /\
    represents w' m' /\ Forall2 (block_is m') (codes d) (codes d') /\
    pre (files w) (files w') /\ grown w w' /\ pre m m'.
Proof. exact @built_as_described. Qed.
Print Assumptions C63_as_described.
Definition clock : Symbol := mkSymbol (mkPackage "x.y/clock" "clock") "Clock".
Definition exType : tsdesc := mkTS "T" "T is." (BodyStruct
  [("first", "A", "json:a", DName (TPtr (TNamed clock)));
   ("", "B", "", DStruct [("", "X", "", DName (TBasic KInt)); ("", "", "", DName (TNamed clock))]);
   ("", "C", "", DSpec (DInterface [IEmbed "" clock; IMethod "gets" "Get" [("k", TSlice (TBasic KString))] [("", TBasic KBool)] true]))]).
Definition exFile : filedesc (list (chunk unit)) :=
  mkFD "t.go" "a.b/m" "m" "file" "package" "" [
    DConsts "group" [mkV "one" ["k1"] (Some (DName (TBasic KInt))) (Some [KPrintf "1" []])]
                    [mkV "" ["k2"] None (Some [KPrint "k1<<2"; KCode [KPrint " + 0x1p-2/1.5"]])];
    DOneVar (mkV "v" ["a"; "b"] (Some (DStruct [("", "Y", "", DName (TNamed clock))])) None);
    DOneType exType;
    DTypes "" [mkTS "S" "" (BodyType (DName (TSlice (TNamed clock))))] [mkTS "U" "" (BodyAlias (DInterface []))];
    DFunction (mkFn "F runs." (Some (mkReceiver "r" "T" true)) "F" [("x", TNamed clock); ("ys", TSlice (TBasic KInt))] [("", TBasic KString)] true
      [KPrintln "  if len(ys) != 'a' { /* none */ r.n++ } // done";
       KPrintlnf "return %s(x)" [ASymbol (mkSymbol (mkPackage "x.y/clock" "clock") "New")]])].
Definition exBuilt := build_file exFile empty_world.
Example C63_example : represents (@empty_world unit) [] /\ go_name (fdName exFile) /\
  match fst exBuilt with Ok (f, d') => f = 0 /\ codes d' = [0; 1; 3] | Panic _ => False end.
Proof.
  split; [constructor|]. split; [split; [cbn; intuition discriminate|exists "t"; reflexivity]|]. vm_compute. split; reflexivity.
Qed.

(** C64 *)
Theorem C64_whole_way : forall TD (env : Env TD) real fuel (d : filedesc (list (chunk TD))) (w : World TD) m,
  represents w m -> go_name (fdName d) -> no_template_code d ->
  exists d' w1, build_file d w = (Ok (List.length (files w), d'), w1) /\ same_but_code d d' /\
    forall s w2 g0, source env fuel (List.length (files w)) w1 = (Ok s, w2) ->
    (forall r, In r (sym_requests (filedesc_symbols d)) -> right_name real r /\ usable_name r) ->
    (forall x r, code_mentions w1 d x -> In r (packages_of x) -> right_name real r /\ usable_name r) ->
    filedesc_depth d <= fuel ->
    filedesc_meaning (path_qualifier (fdPath d)) (block_text env w2) d' = Some g0 ->
    exists g, parse_file s = Some g /\ resolve_file real g = Some (mkGFile (GPackage g0) (GImports g) (GDecls g0)).
Proof. exact @built_file_means. Qed.
Print Assumptions C64_whole_way.
Definition exClock := GName (Some "x.y/clock") "Clock".
Definition exMeaning : gfile := mkGFile "m" [] [
  DConst true [(["k1"], Some (GName None "int"), Some [TInt "1"]);
               (["k2"], None, Some [TIdent "k1"; TOp "<<"; TInt "2"; TOp "+"; TNum "0x1p-2"; TOp "/"; TNum "1.5"])];
  DVar false [(["a"; "b"], Some (GStruct [(Some "Y", exClock, "")]), None)];
  DType false [("T", false, GStruct
    [(Some "A", GPtr exClock, "json:a");
     (Some "B", GStruct [(Some "X", GName None "int", ""); (None, exClock, "")], "");
     (Some "C", GInterface [inr (Some "x.y/clock", "Clock");
       inl ("Get", [(Some "k", true, GName None "string")], [(None, false, GName None "bool")])], "")])];
  DType true [("S", false, GSlice exClock); ("U", true, GInterface [])];
  DFunc (Some (Some "r", true, "T")) "F"
    ([(Some "x", false, exClock); (Some "ys", true, GName None "int")], [(None, false, GName None "string")])
    [TKw "if"; TIdent "len"; TOp "("; TIdent "ys"; TOp ")"; TOp "!="; TChar "a"; TOp "{"; TIdent "r"; TOp "."; TIdent "n"; TOp "++"; TOp "}"; TOp ";";
     TKw "return"; TIdent "clock"; TOp "."; TIdent "New"; TOp "("; TIdent "x"; TOp ")"; TOp ";"]].
Example C64_example : no_template_code exFile /\ filedesc_depth exFile <= 3 /\
  (forall r, In r (sym_requests (filedesc_symbols exFile)) -> right_name path_Base r /\ usable_name r) /\
  (forall x r, code_mentions (snd exBuilt) exFile x -> In r (packages_of x) -> right_name path_Base r /\ usable_name r) /\
  match exBuilt with
  | (Ok (f, d'), w1) =>
      match source exEnv 3 f w1 with
      | (Ok s, w2) => filedesc_meaning (path_qualifier "a.b/m") (block_text exEnv w2) d' = Some exMeaning /\
          option_map GImports (parse_file s) = Some [(None, "x.y/clock")]
      | _ => False
      end
  | _ => False
  end.
Proof.
  split.
  { intros l t data I. cbn in I. repeat (destruct I as [<-|I]; [cbn; intuition discriminate|]). destruct I. }
  split; [vm_compute; lia|]. split.
  { intros r I. apply well_named_ok. revert r I. apply forallb_forall. vm_compute. reflexivity. }
  split.
  { intros x r (l & fm & args & a & I & J & K & RF) M. cbn in I.
    repeat (destruct I as [<-|I]; [cbn in J; repeat (destruct J as [J|J]; [injection J as <- <-; cbn in K;
      repeat (destruct K as [<-|K]; [try discriminate RF; injection RF as <-; apply well_named_ok; revert r M; apply forallb_forall; vm_compute; reflexivity|]); destruct K|]); destruct J|]).
    destruct I. }
  vm_compute. split; reflexivity.
Qed.
