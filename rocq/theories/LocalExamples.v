(** Files for the examples of C109 and C110. *)
From Verif Require Import Base BaseFacts GoPath Types SpecTypes Imports SpecImports Conv World SpecWorld SpecGo SpecFile SpecDecl
  SpecRender SpecQualify QualifyExamples SpecFormat SpecCode SpecAppend AppendTheorems AppendExamples SpecOrder SpecLocal LocalProofs.

(** A file whose code refers to a function and a method of another file, the code of which refers to a
    function of the first. *)
Definition locPieces : list piece :=
  [Plain "_ = "; Put "s"%char (AFunc 1); Plain ", "; Put "v"%char (AIMethod 0); Plain ", "; Put "v"%char (AInt 7)].
Definition locBack : list piece := [Plain "return "; Put "v"%char (AFunc 0)].
Definition locProg : WM (TD := unit) unit :=
  do f <- NewGoFile "a.go" "x.y/a" "a" ;;
  do g <- NewGoFile "b.go" "x.y/b" "b" ;;
  do fn <- NewFunc "F" ;;
  do _ <- Func_Printf fn (format_of locPieces) (args_of locPieces) ;;
  do gn <- NewFunc "Help" ;;
  do _ <- Func_Printf gn (format_of locBack) (args_of locBack) ;;
  do m <- NewInterfaceMethod "M" ;;
  do t <- NewInterfaceTypeSpec "T" [m] ;;
  do _ <- AddType g t ;;
  do _ <- AddElement g (EFunc gn) ;;
  AddElement f (EFunc fn).
Definition locW : World unit := exec_world locProg.
(** The other file has a comment, an import, more elements and other code, and the function and the
    method have other signatures. *)
Definition locW' : World unit := exec_world (
  do _ <- locProg ;;
  do _ <- Func_Printlnf 1 "%x" [AFunc 0; AOther 3] ;;
  do _ <- SetPackageComment 1 "another" ;;
  do _ <- Func_AddArg 1 "n" (TBasic KInt) ;;
  do _ <- Method_AddResult 0 "" (TBasic KString) ;;
  do _ <- onImports 1 (RegisterImport "x.y/a" "F") ;;
  do h <- NewGoFile "c.go" "x.y/a" "a" ;;
  AddElement 1 (EType 0)).
(** The other file belongs to another package. *)
Definition locMoved : World unit := set_files (map (fun F =>
  mkFile (FImports F) (FName F) (FFileComment F) (FPackageComment F) (if String.eqb (FName F) "b.go" then "c" else FPackageName F) (FCanonical F) (FElements F))
  (files locW)) locW.
Definition locText : string := "package a

import ""x.y/b""

func F() {
_ = b.Help, M, 7}
".
Definition locMovedText : string := "package a

import ""x.y/b""

func F() {
_ = c.Help, M, 7}
".
Lemma loc_block i : part_of locW 0 (IBlock i) -> i = 0.
Proof.
  assert (E : nth_error (files locW) 0 = Some (file0 locW)) by check. assert (EE : FElements (file0 locW) = [EFunc 0]) by check.
  intros P. inversion P; subst.
  1,2: match goal with H : part_of locW 0 _ |- _ => inversion H; subst end; replace F with (file0 locW) in * by congruence;
    match goal with H : In _ (FElements _) |- _ => rewrite EE in H; destruct H as [H|[]]; discriminate H end.
  match goal with H : part_of locW 0 _ |- _ => inversion H; subst end. replace F0 with (file0 locW) in * by congruence.
  match goal with H : In _ (FElements _) |- _ => rewrite EE in H; destruct H as [H|[]]; injection H as <- end.
  assert (X : option_map FNBody (nth_error (funcs locW) 0) = Some 0) by check.
  match goal with H : nth_error (funcs locW) 0 = Some _ |- _ => rewrite H in X; cbn [option_map] in X; congruence end.
Qed.
Lemma loc_args a : uses_args locW 0 a -> a = 0.
Proof.
  intros (cb & b & fm & P & EB & IN). apply loc_block in P. subst cb.
  assert (X : nth_error (blocks locW) 0 = Some [Line (format_of locPieces) 0]) by check.
  rewrite X in EB. injection EB as <-. destruct IN as [IN|[]]. congruence.
Qed.
Lemma loc_code : textual_code locW 0 /\ no_templates locW 0.
Proof.
  assert (X : nth_error (blocks locW) 0 = Some [Line (format_of locPieces) 0]) by check.
  split.
  - intros cb P. apply loc_block in P. subst cb. exists [locPieces]. split.
    + exists [Line (format_of locPieces) 0]. split; auto. constructor; [|constructor]. exists 0. split; auto. split; [check|].
      intros v a H. cbn in H. destruct H as [H|[H|[H|[H|[H|[H|[]]]]]]]; try discriminate H; injection H as <- <-; check.
    + intros l v a [<-|[]] H. cbn in H. destruct H as [H|[H|[H|[H|[H|[H|[]]]]]]]; try discriminate H; injection H as <- <-; left; cbn; auto.
  - intros cb b t P EB IN. apply loc_block in P. subst cb. rewrite X in EB. injection EB as <-. destruct IN as [IN|[]]. discriminate IN.
Qed.
Lemma loc_same : same_for locW locW' 0 (file0 locW).
Proof.
  assert (EC : consts locW' = consts locW) by check. assert (EV : vars locW' = vars locW) by check. assert (ET : types locW' = types locW) by check.
  assert (EF : World.fields locW' = World.fields locW) by check.
  assert (EE : FElements (file0 locW) = [EFunc 0]) by check.
  assert (E0 : nth_error (files locW) 0 = Some (file0 locW)) by check.
  assert (LN : List.length (ielems locW) = 1 /\ List.length (ielems locW') = 1) by (split; check).
  assert (LF : List.length (funcs locW) = 2 /\ List.length (funcs locW') = 2) by (split; check).
  assert (LB : labelled locW (fun x => match x with IFunc 0 | IBlock 0 => 0 | _ => 1 end) (fun a => a) = true) by check.
  assert (LP : forall x, part_of locW 0 x -> x = IFunc 0 \/ x = IBlock 0).
  { intros x P. destruct x as [i|i|i|i|i|i|i].
    7: right; f_equal; apply loc_block; exact P.
    1-6: pose proof (part_label locW (fun x => match x with IFunc 0 | IBlock 0 => 0 | _ => 1 end) (fun a => a) LB _ _ P) as PL;
      cbn in PL; try discriminate PL.
    destruct i; [left; reflexivity|discriminate PL]. }
  split; [check|]. split; [check|]. split.
  { intros e IN. rewrite EE in IN. destruct IN as [<-|[]]. exact I. }
  split; [|split; [|split; [|split]]].
  - intros x P. apply LP in P as [-> | ->]; check.
  - intros x _. destruct x as [i|i|i|i|i|i|i]; cbn [naming_of]; try congruence.
    + destruct i as [|i]; [check|]. rewrite !(proj2 (nth_error_None _ _)); [reflexivity|destruct LN as [-> _]|destruct LN as [_ ->]]; clear; lia.
    + destruct i as [|[|i]]; [check|check|]. rewrite !(proj2 (nth_error_None _ _)); [reflexivity|destruct LF as [-> _]|destruct LF as [_ ->]]; clear; lia.
  - intros a U. apply loc_args in U. subst a. check.
  - intros t _. assert (ET' : templs locW' = templs locW) by check. rewrite ET'. reflexivity.
  - intros x i SX H. assert (L : i < 2).
    { assert (B : forallb (fun o => match o with Some i => Nat.ltb i 2 | None => true end)
          (map VParent (consts locW) ++ map VParent (vars locW) ++ map TSParent (types locW) ++ map FNParent (funcs locW)) = true) by check.
      rewrite !forallb_app, !andb_true_iff, !forallb_forall in B. destruct B as (B1 & B2 & B3 & B4).
      destruct x as [j|j|j|j|j|j|j]; unfold home in H; cbn [naming_of] in H; try discriminate H;
        match type of H with context [nth_error ?t ?k] => destruct (nth_error t k) as [y|] eqn:EN; [|discriminate H] end; cbn [option_map] in H; apply nth_error_In in EN.
      - specialize (B1 _ (in_map VParent _ _ EN)). cbn beta in B1. rewrite H in B1. apply Nat.ltb_lt. exact B1.
      - specialize (B2 _ (in_map VParent _ _ EN)). cbn beta in B2. rewrite H in B2. apply Nat.ltb_lt. exact B2.
      - specialize (B3 _ (in_map TSParent _ _ EN)). cbn beta in B3. rewrite H in B3. apply Nat.ltb_lt. exact B3.
      - discriminate H.
      - destruct y; discriminate H.
      - specialize (B4 _ (in_map FNParent _ _ EN)). cbn beta in B4. rewrite H in B4. apply Nat.ltb_lt. exact B4. }
    destruct i as [|[|i]]; [check|check|exfalso; clear - L; lia].
Qed.

(** The two files and their texts. *)
Definition locBackText : string := "package b

import ""x.y/a""

type T  interface {
M()
}

func Help() {
return a.F}
".
Definition locTexts : list (nat * string) := [(0, locText); (1, locBackText)].
Lemma loc_no_templates f : no_templates locW f.
Proof.
  intros cb b t _ EB IN. apply nth_error_In in EB.
  assert (B : forallb (forallb (fun c => match c with Templ _ => false | _ => true end)) (blocks locW) = true) by check.
  rewrite forallb_forall in B. specialize (B _ EB). rewrite forallb_forall in B. specialize (B _ IN). discriminate B.
Qed.
Lemma loc_block1 i : part_of locW 1 (IBlock i) -> i = 1.
Proof.
  pose (F1 := nth 1 (files locW) (file0 locW)).
  assert (E : nth_error (files locW) 1 = Some F1) by check. assert (EE : FElements F1 = [EType 0; EFunc 1]) by check.
  intros P. inversion P; subst.
  1,2: match goal with H : part_of locW 1 _ |- _ => inversion H; subst end; replace F with F1 in * by congruence;
    match goal with H : In _ (FElements _) |- _ => rewrite EE in H; destruct H as [H|[H|[]]]; discriminate H end.
  match goal with H : part_of locW 1 _ |- _ => inversion H; subst end. replace F0 with F1 in * by congruence.
  match goal with H : In _ (FElements _) |- _ => rewrite EE in H; destruct H as [H|[H|[]]]; [discriminate H|injection H as <-] end.
  assert (X : option_map FNBody (nth_error (funcs locW) 1) = Some 1) by check.
  match goal with H : nth_error (funcs locW) 1 = Some _ |- _ => rewrite H in X; cbn [option_map] in X; congruence end.
Qed.
Lemma loc_code1 : textual_code locW 1.
Proof.
  intros cb P. apply loc_block1 in P. subst cb. exists [locBack].
  assert (X : nth_error (blocks locW) 1 = Some [Line (format_of locBack) 1]) by check. split.
  - exists [Line (format_of locBack) 1]. split; auto. constructor; [|constructor]. exists 1. split; auto. split; [check|].
    intros v a H. cbn in H. destruct H as [H|[H|[]]]; try discriminate H; injection H as <- <-; check.
  - intros l v a [<-|[]] H. cbn in H. destruct H as [H|[H|[]]]; try discriminate H; injection H as <- <-; left; cbn; auto.
Qed.
Lemma loc_plain env f : In f (map fst locTexts) -> plain_code env locW f /\ plain_templates env locW f.
Proof.
  intros [<-|[<-|[]]].
  - split; [apply textual_plain, loc_code|]. apply no_templates_plain, loc_no_templates.
  - split; [apply textual_plain, loc_code1|]. apply no_templates_plain, loc_no_templates.
Qed.
Lemma loc_apart f g : In f (map fst locTexts) -> In g (map fst locTexts) -> g <> f -> apart_from locW f g.
Proof.
  intros IF IG NE. split; [exact NE|]. split.
  { apply labelled_apart with (lab := fun x => match x with IFunc 0 | IBlock 0 => 0 | _ => 1 end) (laba := fun a => a); [check|]. intros E. apply NE. symmetry. exact E. }
  split.
  { intros id s _ _ H. cbn [naming_of] in H. assert (L : List.length (ielems locW) = 1) by check.
    destruct id as [|id]; [vm_compute in H; discriminate H|].
    rewrite (proj2 (nth_error_None _ _)) in H; [discriminate H|rewrite L; clear; lia]. }
  intros t (cb & b & P & B & IN). destruct (loc_no_templates f cb b t P B IN).
Qed.

(** The code of the first file prints an interface embedded in a type of the second. *)
Definition embProg : WM (TD := unit) unit :=
  do f <- NewGoFile "a.go" "x.y/a" "a" ;;
  do g <- NewGoFile "b.go" "x.y/b" "b" ;;
  do fn <- NewFunc "F" ;;
  do e <- NewInterfaceEmbed (mkSymbol (mkPackage "x.y/b" "b") "X") ;;
  do _ <- Func_Printf fn "_ = %s" [AEmbed e] ;;
  do t <- NewInterfaceTypeSpec "T" [e] ;;
  do _ <- AddType g t ;;
  AddElement f (EFunc fn).
Definition embW : World unit := exec_world embProg.
Definition embText : string := "package a


func F() {
_ = b.X}
".
Definition embTextAfter : string := "package a


func F() {
_ = X}
".

(** Formats that are not just verbs. *)
Definition valW : World unit := exec_world (
  do f <- NewGoFile "a.go" "x.y/a" "a" ;;
  do fn <- NewFunc "F" ;;
  do _ <- Func_Printf fn "_ = %+v, %5d, %x" [ASymbol (mkSymbol (mkPackage "x.y/b" "b") "X"); AInt 3; AOther 1; AOther 2] ;;
  AddElement f (EFunc fn)).
Lemma val_code : sees_values exEnv /\ plain_code exEnv valW 0.
Proof.
  assert (SV : sees_values exEnv) by (split; intros; reflexivity). split; [exact SV|].
  intros cb b fm args _ _ _. right. split; [exact SV|]. intros l a E IN. apply nth_error_In in E.
  assert (B : forallb (forallb (fun a => match a with AIMethod _ | AFunc _ | AField _ | AEmbed _ => false | _ => true end)) (argss valW) = true) by check.
  rewrite forallb_forall in B. specialize (B _ E). rewrite forallb_forall in B. specialize (B _ IN). destruct a; try exact I; discriminate B.
Qed.

(** A function whose second line has no type where it should have one: writing its file panics, after
    the import of the first line was added.  The other file has a function of the same kind. *)
Definition panicProg : WM (TD := unit) unit :=
  do f <- NewGoFile "a.go" "x.y/a" "a" ;;
  do g <- NewGoFile "b.go" "x.y/b" "b" ;;
  do fn <- NewFunc "F" ;;
  do gn <- NewFunc "G" ;;
  do _ <- Func_Printlnf fn "_ = %s" [ASymbol (mkSymbol (mkPackage "q/time" "") "Now")] ;;
  do _ <- Func_Printlnf fn "_ = %s" [ATypeName TNil] ;;
  do _ <- Func_Printlnf gn "_ = %s" [ASymbol (mkSymbol (mkPackage "q/time" "") "Now")] ;;
  do _ <- AddElement g (EFunc gn) ;;
  AddElement f (EFunc fn).
Definition panicW : World unit := exec_world panicProg.
Definition panicText : string := "package b

import time ""q/time""

func G() {
_ = time.Now
}
".
