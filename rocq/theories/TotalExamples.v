(** Files for the examples of C80-C82. *)
From Verif Require Import Base GoPath Types SpecTypes Imports SpecImports SpecGo SpecRender Conv World SpecFile SpecDecl SpecWorld
  SpecQualify FileTheorems SpecBuild BuildFiles SpecTotal TotalTheorems BuildMeaning BuildTotal.

Definition clock : Symbol := mkSymbol (mkPackage "x.y/clock" "clock") "Clock".
Definition exFile : filedesc (list (chunk unit)) :=
  mkFD "t.go" "a.b/m" "m" "file" "package" "" [
    DConsts "group" [mkV "one" ["k1"] (Some (DName (TBasic KInt))) (Some [KPrintf "1" []])] [];
    DOneVar (mkV "v" ["a"; "b"] (Some (DStruct [("", "Y", "", DName (TNamed clock))])) None);
    DOneType (mkTS "T" "T is." (BodyStruct
      [("first", "A", "json:a", DName (TPtr (TNamed clock)));
       ("", "B", "", DStruct [("", "X", "", DName (TBasic KInt)); ("", "", "", DName (TNamed clock))]);
       ("", "C", "", DInterface [IEmbed "" clock; IMethod "gets" "Get" [("k", TSlice (TBasic KString))] [("", TBasic KBool)] true])]));
    DFunction (mkFn "F runs." (Some (mkReceiver "r" "T" true)) "F" [("x", TNamed clock)] [("", TBasic KString)] false
      [KPrintln "r.n++";
       KPrintlnf "return %s(x)" [ASymbol (mkSymbol (mkPackage "x.y/clock" "clock") "New")]])].
Definition exWorld : World unit := snd (build_file exFile empty_world).
Lemma ex_name : go_name (fdName exFile).
Proof. split; [cbn; intuition discriminate|exists "t"; reflexivity]. Qed.
Lemma ex_no_templates : no_template_code exFile.
Proof. intros l t data IN. cbn in IN. intros I. repeat (destruct IN as [<-|IN]; [cbn in I; intuition discriminate|]). destruct IN. Qed.
Lemma ex_whole : whole_description exFile.
Proof.
  repeat (constructor; [try reflexivity; try (split; [right; discriminate|repeat constructor])|]). constructor.
Qed.
Lemma ex_code : whole_code exWorld exFile.
Proof.
  intros l format args a IL IP IA. cbn in IL.
  repeat (destruct IL as [<-|IL];
    [cbn in IP; repeat (destruct IP as [IP|IP];
       [injection IP as <- <-; cbn in IA; repeat (destruct IA as [<-|IA]; [first [left; reflexivity|right; eexists; split; [reflexivity|exact I]]|]); destruct IA|]);
     destruct IP|]).
  destruct IL.
Qed.
Lemma ex_built : exists d' m', represents exWorld m' /\ file_is exWorld 0 d' /\ Forall2 (block_is m') (codes exFile) (codes d') /\ same_but_code exFile d'.
Proof.
  destruct (build_file_ok exFile empty_world [] (Forall2_nil _) ex_name) as (d' & w1 & m1 & E & _ & _ & R1 & _ & FI & BI & SB & _).
  assert (W1 : exWorld = w1) by (unfold exWorld; rewrite E; reflexivity). rewrite W1. exists d', m1. auto.
Qed.
Lemma ex_templates : no_templates exWorld 0.
Proof.
  destruct ex_built as (d' & m' & R & FI & BI & SB). eapply (built_no_templates exWorld m' 0 exFile d'); auto. exact ex_no_templates.
Qed.
Lemma ex_complete : complete exWorld 0.
Proof.
  destruct ex_built as (d' & m' & R & FI & BI & SB). eapply (built_complete exWorld m' 0 exFile d'); auto; [exact ex_whole|exact ex_code].
Qed.
Lemma ex_acyclic : no_cycle exWorld 0.
Proof.
  destruct ex_built as (d' & m' & R & FI & BI & SB). eapply (built_no_cycle exWorld 0 exFile d'); auto. exact ex_whole.
Qed.

(** A type whose field has been given the type itself, and which is declared in a file. *)
Definition cycWorld : World unit := snd ((
  do f <- NewGoFile "c.go" "a.b/m" "m" ;;
  do x <- NewField "next" (IsName (TBasic KInt)) ;;
  do t <- NewStructTypeSpec "T" [x] ;;
  do F <- get fields x ;;
  do _ <- put fields set_fields x (mkFieldSpec (FSComment F) (FSName F) (FSTag F) (IsSpec t) (FSParent F)) ;;
  AddType f t) empty_world).
Lemma cyc_parts x : part_of cycWorld 0 x -> x = IType 0 \/ x = IField 0.
Proof.
  induction 1 as [F d D i N I NI II|F d D i N I NI II|F d D i N I NI II|F i N I
    |i v ts P IH N V|i v ts P IH N V|i T fid P IH N I|i F ts P IH N V|i T e P IH N I|i v cb P IH N V|i v cb P IH N V|i F P IH N];
    try (destruct IH as [IH|IH]; try discriminate IH).
  - injection N as <-. destruct I as [I|[]]; discriminate I.
  - injection N as <-. destruct I as [I|[]]; discriminate I.
  - injection N as <-. destruct I as [[= <-]|[]]. injection NI as <-. destruct II as [<-|[]]. auto.
  - injection N as <-. destruct I as [I|[]]; discriminate I.
  - injection IH as ->. injection N as <-. destruct I as [<-|[]]. auto.
  - injection IH as ->. injection N as <-. injection V as <-. auto.
  - injection IH as ->. injection N as <-. destruct I.
Qed.
Lemma cyc_templates : no_templates cycWorld 0.
Proof. intros cb b t P _ _. destruct (cyc_parts _ P); discriminate. Qed.
Lemma cyc_complete : complete cycWorld 0.
Proof.
  split.
  - intros F e N I. injection N as <-. destruct I as [<-|[]]. eexists. split; [reflexivity|]. left. discriminate.
  - intros i P. destruct (cyc_parts _ P); discriminate.
  - intros i P. destruct (cyc_parts _ P); discriminate.
  - intros i P. destruct (cyc_parts _ P) as [[= ->]|]; [|discriminate]. eexists. split; reflexivity.
  - intros i P. destruct (cyc_parts _ P) as [|[= ->]]; [discriminate|]. eexists. split; [reflexivity|]. split; [exact I|].
    intros id T [= <-] [= <-] _. vm_compute. discriminate.
  - intros i P. destruct (cyc_parts _ P); discriminate.
  - intros i P. destruct (cyc_parts _ P); discriminate.
  - intros i P. destruct (cyc_parts _ P); discriminate.
Qed.
Lemma cyc_cycle : ~ no_cycle cycWorld 0.
Proof.
  intros N. apply (N 0). apply r_step. split.
  - eapply po_type; [reflexivity|left; reflexivity|reflexivity|left; reflexivity].
  - eexists _, 0, _. split; [reflexivity|]. split; [left; reflexivity|]. split; reflexivity.
Qed.
