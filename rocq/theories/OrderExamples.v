(** Files for the examples of C108. *)
From Coq Require Import Permutation.
From Verif Require Import Base BaseFacts GoPath Types SpecTypes Imports SpecImports Conv World SpecWorld SpecGo SpecFile SpecDecl
  SpecQualify QualifyExamples SpecFormat SpecCode SpecAppend AppendTheorems AppendExamples SpecOrder.

(** Checking that requests do not conflict. *)
Definition conflictb (own : string) (r r' : string * string) : bool :=
  negb (String.eqb (fst r) own) && negb (String.eqb (fst r') own) &&
  (String.eqb (fst r) (fst r') || String.eqb (name_alone r) (name_alone r')) &&
  negb (String.eqb (fst r) (fst r') && String.eqb (snd r) (snd r')).
Lemma conflictb_ok own (R : string * string -> Prop) l : (forall r, R r -> In r l) ->
  forallb (fun r => forallb (fun r' => negb (conflictb own r r')) l) l = true -> no_conflict own R.
Proof.
  intros H C r r' R1 R2 N1 N2 E. rewrite forallb_forall in C. specialize (C r (H r R1)). rewrite forallb_forall in C.
  specialize (C r' (H r' R2)). apply negb_true_iff in C. unfold conflictb in C.
  apply String.eqb_neq in N1, N2. rewrite N1, N2 in C. cbn [negb andb] in C.
  destruct (String.eqb (fst r) (fst r') || String.eqb (name_alone r) (name_alone r')) eqn:O.
  - cbn [andb] in C. apply negb_false_iff, andb_true_iff in C as [A B]. apply String.eqb_eq in A, B.
    destruct r, r'. cbn in *. congruence.
  - apply orb_false_iff in O as [A B]. apply String.eqb_neq in A, B. tauto.
Qed.

(** Three elements and packages that do not compete. *)
Definition ordPieces1 : list piece := [Plain "_ = "; Put "s"%char (ASymbol (mkSymbol (mkPackage "q/io" "io") "EOF"))].
Definition ordPieces2 : list piece := [Plain "_ = "; Put "v"%char (AFunc 0); Plain ", "; Put "v"%char (APackage (mkPackage "a/buf" "")); Plain ".X, "; Put "s"%char (AEmbed 0)].
Definition ordW : World unit := exec_world (
  do f <- NewGoFile "a.go" "x.y/a" "a" ;;
  do fn <- NewFunc "F" ;;
  do _ <- Func_Printf fn (format_of ordPieces1) (args_of ordPieces1) ;;
  do gn <- NewFunc "G" ;;
  do _ <- Func_Printf gn (format_of ordPieces2) (args_of ordPieces2) ;;
  do e <- NewInterfaceEmbed (mkSymbol (mkPackage "r/rd" "rd1") "Reader") ;;
  do t <- NewInterfaceTypeSpec "T" [e] ;;
  do d <- NewTypeDecl [t] ;;
  do _ <- AddElement f (EFunc fn) ;;
  do _ <- AddElement f (EType d) ;;
  AddElement f (EFunc gn)).
Definition ordOther : list FileElement := [EFunc 1; EFunc 0; EType 0].
Definition ordText : string := "package a

import buf ""a/buf""
import ""q/io""
import ""r/rd""

func F() {
_ = io.EOF}

type T  interface {
rd1.Reader
}

func G() {
_ = F, buf.X, rd1.Reader}
".
Definition ordText2 : string := "package a

import buf ""a/buf""
import ""q/io""
import ""r/rd""

func G() {
_ = F, buf.X, rd1.Reader}

func F() {
_ = io.EOF}

type T  interface {
rd1.Reader
}
".
Lemma ord_ok : textual_code ordW 0 /\ no_templates ordW 0.
Proof.
  apply (all_code textual ordW 0 [[ordPieces1]; [ordPieces2]]); [check|check|].
  vm_compute blocks. constructor; [|constructor; [|constructor]].
  - split.
    + constructor; [|constructor]. exists 0. split; [check|]. split; [check|].
      intros v a H. cbn in H. destruct H as [H|[H|[]]]; [discriminate|]. injection H as <- <-. check.
    + repeat constructor.
  - split.
    + constructor; [|constructor]. exists 1. split; [check|]. split; [check|].
      intros v a H. cbn in H. destruct H as [H|[H|[H|[H|[H|[H|[]]]]]]]; try discriminate; injection H as <- <-; check.
    + constructor; [|constructor]. unfold ordPieces2. constructor; [auto|]. constructor; [left; cbn; auto|]. constructor; [auto|].
      constructor; [left; cbn; auto|]. constructor; [auto|]. constructor; [|constructor]. right. split; [auto|]. exists 0. auto.
Qed.
Lemma ord_clear : no_conflict "x.y/a" (file_requests [] ordW 0).
Proof.
  apply (conflictb_ok _ _ (all_mentions ordW)); [|check]. intros r [[]|M]. eapply mentions_all; eauto.
Qed.
Lemma ord_perm : Permutation (FElements (file0 ordW)) ordOther.
Proof.
  assert (E : FElements (file0 ordW) = [EFunc 0; EType 0; EFunc 1]) by check. rewrite E. unfold ordOther.
  apply perm_trans with [EFunc 0; EFunc 1; EType 0]; [apply perm_skip, perm_swap|apply perm_swap].
Qed.
(** The file of C106, whose packages compete for a name, with its elements in another order *)
Definition growOther : list FileElement := [EFunc 1; EFunc 0; EType 0].
Definition growHead : string := "package a

".
Lemma order_refuted :
  ~ forall own h fuel f (w : World unit) F es s s' w1 w1',
    nth_error (files w) f = Some F -> FImports F = run h (NewImportsFor own) -> forallb call_ok h = true ->
    no_templates w f -> steady_code w f -> Permutation (FElements F) es ->
    source exEnv (S fuel) f w = (Ok s, w1) -> source exEnv (S fuel) f (rearranged f es w) = (Ok s', w1') ->
    exists F1 F2, nth_error (files w1) f = Some F1 /\ nth_error (files w1') f = Some F2 /\
      same_but_order exEnv (FImports F1) (FImports F2) (FElements F) es s s'.
Proof.
  intros H.
  destruct (H "x.y/a" [] 2 0 growW (file0 growW) growOther growText (text_of (source exEnv 3 0 (rearranged 0 growOther growW)))
    (snd (source exEnv 3 0 growW)) (snd (source exEnv 3 0 (rearranged 0 growOther growW))))
    as (F1 & F2 & E1 & E2 & head & text & _ & _ & SI & _); [check|check|check|exact (proj2 grow_ok)|exact (proj1 grow_ok)| |check|check|].
  - assert (E : FElements (file0 growW) = [EFunc 0; EType 0; EFunc 1]) by check. rewrite E. unfold growOther.
    apply perm_trans with [EFunc 0; EFunc 1; EType 0]; [apply perm_skip, perm_swap|apply perm_swap].
  - clear H. rewrite (only_file _ _ E1), (only_file _ _ E2) in SI.
    assert (X : forallb (fun s => existsb (fun s' => String.eqb (PackageAlias s) (PackageAlias s') && String.eqb (SpecPath s) (SpecPath s'))
       (ImportSpecs (FImports (file0 (snd (source exEnv 3 0 (rearranged 0 growOther growW)))))))
       (ImportSpecs (FImports (file0 (snd (source exEnv 3 0 growW))))) = false) by check.
    rewrite SI in X. clear - X. revert X. vm_compute. discriminate.
Qed.
Definition clashed : list call := [CRegisterImport "a/x" "x"; CRegisterImport "b/x" "x"].
Definition clear_calls : list call := [CRegisterImport "a/x" "x"; CEnsureImported (mkSymbol (mkPackage "b/y" "") "Z"); CRegisterImport "own" "x"].
Definition clear_calls2 : list call := [CRegisterImport "own" "x"; CRegisterImport "b/y" ""; CRegisterImport "b/y" ""; CRegisterImport "a/x" "x"].
