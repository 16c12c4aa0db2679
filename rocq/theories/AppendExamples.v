(** Files for the examples of C106. *)
From Verif Require Import Base BaseFacts GoPath Types SpecTypes Imports SpecImports Conv World SpecWorld SpecGo SpecFile SpecDecl
  SpecQualify QualifyExamples SpecFormat SpecCode SpecAppend AppendTheorems.

(** A function into which an embedded interface is put, before the type that embeds it. *)
Definition embW : World unit := exec_world (
  do f <- NewGoFile "a.go" "x.y/a" "a" ;;
  do e <- NewInterfaceEmbed (mkSymbol (mkPackage "q/io" "io") "Reader") ;;
  do t <- NewInterfaceTypeSpec "T" [e] ;;
  do d <- NewTypeDecl [t] ;;
  do fn <- NewFunc "F" ;;
  do _ <- Func_Printf fn "_ = %s" [ASymbol (mkSymbol (mkPackage "r/io" "io") "EOF")] ;;
  do _ <- Func_Printf fn "_ = %s" [AEmbed e] ;;
  do _ <- AddElement f (EFunc fn) ;;
  AddElement f (EType d)).
Definition embW1 : World unit := snd (source exEnv 3 0 embW).
Definition embText0 : string := "package a

".
Definition embImports2 : string := "import ""r/io""
".
Definition embBody : string := "
func F() {
_ = io.EOF_ = io.Reader}
".
Definition embText2 : string := (embText0 ++ embImports2 ++ embBody)%string.
Definition embImports1 : string := "import io1 ""q/io""
import ""r/io""
".
Definition embRest : string := "
func F() {
_ = io.EOF_ = io1.Reader}

type T  interface {
io1.Reader
}
".
Definition embText1 : string := (embText0 ++ embImports1 ++ embRest)%string.
Lemma pair_ok {A B : Type} (a b : A) (x y : B) : (Ok a, x) = (Ok b, y) -> a = b /\ x = y.
Proof. intros E. injection E. auto. Qed.
Lemma only_file w F : nth_error (files w) 0 = Some F -> F = file0 w.
Proof. unfold file0. intros E. rewrite (nth_error_nth _ _ _ E). auto. Qed.
Lemma emb_templates : no_templates embW 0.
Proof.
  intros cb b t P B IN. assert (X : forallb (fun b => forallb (fun e => match e with Templ _ => false | _ => true end) b) (blocks embW) = true) by check.
  rewrite forallb_forall in X. specialize (X b (nth_error_In _ _ B)). rewrite forallb_forall in X. specialize (X _ IN). discriminate.
Qed.
Lemma embed_refuted :
  ~ forall own h fuel f (w : World unit) F s w1,
    nth_error (files w) f = Some F -> FImports F = run h (NewImportsFor own) -> no_templates w f ->
    source exEnv (S fuel) f w = (Ok s, w1) ->
    exists F1, nth_error (files w1) f = Some F1 /\ written_by_elements exEnv (S fuel) f w w1 F F1 s.
Proof.
  intros H.
  destruct (H "x.y/a" [] 2 0 embW (file0 embW) (text_of (source exEnv 3 0 embW)) embW1) as (F1 & E1 & head & texts & _ & E & K);
    [check|check|exact emb_templates|check|].
  destruct (K 0) as (w0 & F0 & S0 & E0 & _). destruct (K 1) as (w2 & F2 & S2 & E2 & _). clear H K.
  assert (X0 : source exEnv 3 0 (cut 0 0 embW) = (Ok embText0, snd (source exEnv 3 0 (cut 0 0 embW)))) by check.
  assert (X2 : source exEnv 3 0 (cut 0 1 embW) = (Ok embText2, snd (source exEnv 3 0 (cut 0 1 embW)))) by check.
  assert (X1 : text_of (source exEnv 3 0 embW) = embText1) by check.
  rewrite X0 in S0. rewrite X2 in S2. rewrite X1 in E. 
  apply pair_ok in S0 as [S0 <-]. apply pair_ok in S2 as [S2 <-].
  assert (I0 : import_text exEnv F0 = "") by (rewrite (only_file _ _ E0); check).
  assert (I2 : import_text exEnv F2 = embImports2) by (rewrite (only_file _ _ E2); check).
  assert (I1 : import_text exEnv F1 = embImports1) by (rewrite (only_file _ _ E1); check).
  rewrite I0 in S0. rewrite I2 in S2. rewrite I1 in E. cbn [firstn] in S0. cbn [String.concat append] in S0.
  rewrite append_nil_r in S0. subst head.
  change embText2 with (embText0 ++ embImports2 ++ embBody)%string in S2. apply append_inj_l in S2. apply append_inj_l in S2.
  change embText1 with (embText0 ++ embImports1 ++ embRest)%string in E. apply append_inj_l in E. apply append_inj_l in E.
  clear - S2 E. destruct texts as [|t texts]; [discriminate S2|]. cbn [firstn String.concat] in S2. subst t.
  destruct texts as [|t texts]; discriminate E.
Qed.
(** Three elements; the same name of a package from three paths. *)
Definition growPieces1 : list piece := [Plain "_ = "; Put "s"%char (ASymbol (mkSymbol (mkPackage "q/io" "io") "EOF"))].
Definition growPieces2 : list piece := [Plain "_ = "; Put "v"%char (AFunc 0); Plain ", "; Put "v"%char (APackage (mkPackage "a/io" "io")); Plain ".X"].
Definition growW : World unit := exec_world (
  do f <- NewGoFile "a.go" "x.y/a" "a" ;;
  do fn <- NewFunc "F" ;;
  do _ <- Func_Printf fn (format_of growPieces1) (args_of growPieces1) ;;
  do gn <- NewFunc "G" ;;
  do _ <- Func_Printf gn (format_of growPieces2) (args_of growPieces2) ;;
  do e <- NewInterfaceEmbed (mkSymbol (mkPackage "r/io" "io") "Reader") ;;
  do t <- NewInterfaceTypeSpec "T" [e] ;;
  do d <- NewTypeDecl [t] ;;
  do _ <- AddElement f (EFunc fn) ;;
  do _ <- AddElement f (EType d) ;;
  AddElement f (EFunc gn)).
Definition growText1 : string := "package a

import ""q/io""

func F() {
_ = io.EOF}
".
Definition growText : string := "package a

import io2 ""a/io""
import ""q/io""
import io1 ""r/io""

func F() {
_ = io.EOF}

type T  interface {
io1.Reader
}

func G() {
_ = F, io2.X}
".
Lemma grow_ok : steady_code growW 0 /\ no_templates growW 0.
Proof.
  apply (all_steady growW 0 [[growPieces1]; [growPieces2]]); [check|check|].
  vm_compute blocks. constructor; [|constructor; [|constructor]].
  - split.
    + constructor; [|constructor]. exists 0. split; [check|]. split; [check|].
      intros v a H. cbn in H. destruct H as [H|[H|[]]]; [discriminate|]. injection H as <- <-. check.
    + repeat constructor.
  - split.
    + constructor; [|constructor]. exists 1. split; [check|]. split; [check|].
      intros v a H. cbn in H. destruct H as [H|[H|[H|[H|[H|[]]]]]]; try discriminate; injection H as <- <-; check.
    + repeat constructor; left; auto.
Qed.
