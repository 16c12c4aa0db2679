(** A described file with code that refers to packages, names and types. *)
From Verif Require Import Base GoPath Types SpecTypes Imports SpecImports SpecGo SpecRender Conv World SpecWorld SpecFile SpecDecl SpecQualify
  FileTheorems SpecBuild SpecTotal QualifyExamples BuildTotal TotalExamples SpecFormat SpecScope ScopeProofs ScopeBuild SpecCode.

(** Imports of the same name, one of them only in code; [Put] after an operator, a quoted string, numbers, a string after a number. *)
Definition units : Package := mkPackage "p.q/clock" "clock".
Definition strs : Package := mkPackage "p.q/strs" "strs".
Definition useFile : filedesc (list (chunk unit)) :=
  mkFD "u.go" "a.b/m" "m" "" "" "" [
    DOneVar (mkV "" ["v"] None (Some [KPrintf "%s.Now()+%d" [APackage units; AInt 30]]));
    DFunction (mkFn "" None "F" [("x", TNamed clock)] [("", TBasic KString)] false
      [KPrintln "// starts";
       KPrintlnf "m := map[string]%s{%q: nil}" [ATypeName (TPtr (TNamed clock)); AString "a%b"];
       KPrintlnf "return %s(x, %s, 100%%7, %d%s" [ASymbol (mkSymbol strs "Join"); ASymbol (mkSymbol (mkPackage "a.b/m" "m") "v"); AInt (-5); AString ")"]])].
Definition useWorld : World unit := snd (build_file useFile empty_world).
Definition initLines : list (list piece) := [[Put "s" (APackage units); Plain ".Now()+"; Put "d" (AInt 30)]].
Definition bodyLines : list (list piece) :=
  [[Put "s" (AString "// starts"); Plain newline];
   [Plain "m := map[string]"; Put "s" (ATypeName (TPtr (TNamed clock))); Plain "{"; Put "q" (AString "a%b"); Plain (": nil}" ++ newline)];
   [Plain "return "; Put "s" (ASymbol (mkSymbol strs "Join")); Plain "(x, "; Put "s" (ASymbol (mkSymbol (mkPackage "a.b/m" "m") "v"));
    Plain ", 100%7, "; Put "d" (AInt (-5)); Put "s" (AString ")"); Plain newline]].
Lemma use_name : go_name (fdName useFile).
Proof. split; [cbn; intuition discriminate|exists "u"; reflexivity]. Qed.
Lemma use_no_templates : no_template_code useFile.
Proof. intros l t data IN. cbn in IN. intros I. repeat (destruct IN as [<-|IN]; [cbn in I; intuition discriminate|]). destruct IN. Qed.
Ltac by_letters := repeat (constructor; [intros v a IN; cbn in IN; repeat (destruct IN as [IN|IN]; [try discriminate IN; injection IN as <- <-; reflexivity|]); destruct IN|]); constructor.
Lemma use_init : @prints unit [KPrintf "%s.Now()+%d" [APackage units; AInt 30]] initLines.
Proof. split; [vm_compute; reflexivity|]. by_letters. Qed.
Lemma use_body : prints (fnCode (match fdElements useFile with [_; DFunction f] => f | _ => mkFn "" None "" [] [] false [] end)) bodyLines.
Proof. split; [vm_compute; reflexivity|]. by_letters. Qed.
Lemma use_described r : described useWorld useFile r ->
  In r [("x.y/clock", "clock"); ("p.q/clock", "clock"); ("p.q/strs", "strs"); ("a.b/m", "m")].
Proof.
  intros [IN|(x & (l & fm & args & a & I & J & K & RF) & M)].
  - cbn in IN. destruct IN as [<-|[]]. left. reflexivity.
  - cbn in I. destruct I as [<-|[<-|[]]]; cbn in J; repeat (destruct J as [J|J]; [injection J as <- <-; cbn in K|]); try contradiction;
      repeat (destruct K as [<-|K]; [try discriminate RF; injection RF as <-; vm_compute in M; cbn; intuition|]); contradiction.
Qed.
Lemma use_packages r : described useWorld useFile r -> right_name path_Base r /\ usable_name r.
Proof. intros D. apply use_described in D. cbn in D. repeat (destruct D as [<-|D]; [apply well_named_ok; vm_compute; reflexivity|]). destruct D. Qed.
Lemma use_selected : all_selected "a.b/m" useWorld useFile.
Proof.
  intros c z [[= <- <-]|[[= <- <-]|[]]].
  - exists initLines. eexists. split; [exact use_init|]. split; vm_compute; reflexivity.
  - exists bodyLines. eexists. split; [exact use_body|]. split; vm_compute; reflexivity.
Qed.
