(** Files built from descriptions, under Go's scoping; and the files that show what is false of it. *)
From Verif Require Import Base BaseFacts GoPath Types SpecTypes TypesFacts Imports SpecImports ImportsProofs SpecGo SpecRender Conv World SpecWorld
  SpecFile SpecDecl SpecQualify WorldProofs QualifyProofs QualifyTheorems FileTheorems SourceTheorems QualifyExamples SpecBuild BuildProofs BuildTypes BuildFiles
  BuildMeaning SpecTotal TotalProofs TotalTheorems BuildTotal SpecScope ScopeProofs.
From Coq Require Import Lia.

Section Built.
Context {TD : Type}.
Variable env : Env TD.
Implicit Types w : World TD.
(** The packages that a description and its code ask for. *)
Definition described w (d : filedesc (list (chunk TD))) (r : string * string) : Prop :=
  In r (sym_requests (filedesc_symbols d)) \/ exists x, code_mentions w d x /\ In r (packages_of x).
Lemma built_prepared real (d : filedesc (list (chunk TD))) w m : represents w m -> go_name (fdName d) -> no_template_code d ->
  exists d' w1, build_file d w = (Ok (List.length (files w), d'), w1) /\ same_but_code d d' /\ exists F,
    nth_error (files w1) (List.length (files w)) = Some F /\ file_is w1 (List.length (files w)) d' /\
    (forall r, file_mentions w1 (List.length (files w)) r -> described w1 d r) /\
    ((forall r, described w1 d r -> right_name real r /\ usable_name r) ->
     prepared real (fdPath d) [] w1 (List.length (files w)) F).
Proof.
  intros R GN NT. destruct (build_file_ok d w m R GN) as (d' & w1 & m1 & E & _ & _ & R1 & _ & FI & BI & SB & IM).
  exists d', w1. split; [exact E|]. split; [exact SB|]. assert (FI' := FI). destruct FI' as (F & NF & _).
  assert (BM : forall r, file_mentions w1 (List.length (files w)) r -> described w1 d r).
  { intros r FM. destruct (built_mentions w1 m1 _ d d' R1 FI BI SB r FM) as [I|(x & CM & I)]; [left; exact I|right; eauto]. }
  exists F. split; [exact NF|]. split; [exact FI|]. split; [exact BM|]. intros G.
  split; [exact NF|]. split; [exact (IM F NF)|]. split; [reflexivity|]. split; [intros c []|]. split; [intros c []|].
  split; [eapply built_no_templates; eauto|]. auto.
Qed.
Lemma built_scope real fuel (d : filedesc (list (chunk TD))) w m : represents w m -> go_name (fdName d) -> no_template_code d ->
  exists d' w1, build_file d w = (Ok (List.length (files w), d'), w1) /\ same_but_code d d' /\
    forall s w2 g0, source env fuel (List.length (files w)) w1 = (Ok s, w2) ->
    (forall r, described w1 d r -> right_name real r /\ usable_name r) ->
    filedesc_depth d <= fuel ->
    filedesc_meaning (path_qualifier (fdPath d)) (block_text env w2) d' = Some g0 ->
    (forall r n, described w1 d r -> fst r <> fdPath d -> may_be_called r n -> ~ In n (reserved (GDecls g0))) ->
    exists g, parse_file s = Some g /\ means real g (mkGFile (GPackage g0) (GImports g) (GDecls g0)).
Proof.
  intros R GN NT. destruct (built_prepared real d w m R GN NT) as (d' & w1 & E & SB & F & NF & FI & BM & PR).
  exists d', w1. split; [exact E|]. split; [exact SB|]. intros s w2 g0 SR G D M A.
  rewrite (same_depth _ _ SB) in D.
  apply (scope_apart env real (fdPath d) [] fuel (List.length (files w)) w1 F s w2 (PR G) SR g0 (built_unnamed w1 _ d d' FI SB)
           (file_is_meaning _ _ w1 _ d' fuel g0 F FI NF D M)).
  intros r n [[]|FM]. apply A, BM, FM.
Qed.
Theorem built_written_scope (d : filedesc (list (chunk TD))) w m :
  represents w m -> go_name (fdName d) -> no_template_code d -> whole_description d ->
  exists d' w1, build_file d w = (Ok (List.length (files w), d'), w1) /\ same_but_code d d' /\
    (whole_code w1 d -> exists s w2 enough,
      (forall fuel, enough <= fuel -> source env fuel (List.length (files w)) w1 = (Ok s, w2)) /\
      forall real g0,
      (forall r, described w1 d r -> right_name real r /\ usable_name r) ->
      filedesc_meaning (path_qualifier (fdPath d)) (block_text env w2) d' = Some g0 ->
      (forall r n, described w1 d r -> fst r <> fdPath d -> may_be_called r n -> ~ In n (reserved (GDecls g0))) ->
      exists g, parse_file s = Some g /\ means real g (mkGFile (GPackage g0) (GImports g) (GDecls g0))).
Proof.
  intros R GN NT WD. destruct (built_written env d w m R GN NT WD) as (d' & w1 & E & SB & H).
  exists d', w1. split; [exact E|]. split; [exact SB|]. intros WC. destruct (H WC) as (s & w2 & enough & SF & _).
  exists s, w2, (Nat.max enough (filedesc_depth d)). split; [intros fuel LE; apply SF; lia|].
  intros real g0 G M A. destruct (built_scope real (Nat.max enough (filedesc_depth d)) d w m R GN NT) as (d2 & w12 & E2 & _ & X).
  rewrite E in E2. injection E2 as <- <-. apply (X s w2 g0); auto; [apply SF; lia|lia].
Qed.
End Built.

(** ** Witnesses *)
(** A const with the name of an imported package. *)
Definition clash_build : WM (TD := unit) unit :=
  do f <- NewGoFile "x.go" "a.b/m" "m" ;;
  do v <- NewVar ["d"] ;;
  do _ <- Value_SetType vars set_vars v (IsName (TNamed (mkSymbol (mkPackage "time" "time") "Duration"))) ;;
  do _ <- AddVar f v ;;
  do u <- NewVar ["time"] ;;
  do _ <- Value_SetType vars set_vars u (IsName (TBasic KInt)) ;;
  AddVar f u.
(** A package with the name of a predeclared type. *)
Definition shadow_build : WM (TD := unit) unit :=
  do f <- NewGoFile "x.go" "a.b/m" "m" ;;
  do v <- NewVar ["d"] ;;
  do _ <- Value_SetType vars set_vars v (IsName (TMap (TNamed (mkSymbol (mkPackage "x.y/string" "string") "T")) (TBasic KString))) ;;
  AddVar f v.
(** A parameter with the name of a package used in the body. *)
Definition capture_build : WM (TD := unit) unit :=
  do f <- NewGoFile "x.go" "a.b/m" "m" ;;
  do fn <- NewFunc "F" ;;
  do _ <- Func_AddArg fn "time" (TBasic KInt) ;;
  do _ <- Func_Printlnf fn "%s(time)" [ASymbol (mkSymbol (mkPackage "time" "time") "Sleep")] ;;
  AddElement f (EFunc fn).
(** A package at a path that ends in init. *)
Definition init_build : WM (TD := unit) unit :=
  do f <- NewGoFile "x.go" "a.b/m" "m" ;;
  do v <- NewVar ["d"] ;;
  do _ <- Value_SetType vars set_vars v (IsName (TNamed (mkSymbol (mkPackage "x.y/init" "") "T"))) ;;
  AddVar f v.
Definition out_of_order (build : WM (TD := unit) unit) : Prop :=
  forall env : Env unit, let w := exec_world build in exists s g g0,
    prepared path_Base "a.b/m" [] w 0 (file0 w) /\ no_named_specs w 0 /\
    source env 3 0 w = (Ok s, snd (source env 3 0 w)) /\
    file_meaning_with (path_qualifier "a.b/m") w (block_text env (snd (source env 3 0 w))) 3 (file0 w) = Some g0 /\
    parse_file s = Some g /\ ~ in_order path_Base g.
Ltac wrong name := intros env w; exists (text_of (source env 3 0 w)); do 2 eexists; split; [by_prepared|];
  split; [apply no_named; vm_compute; reflexivity|]; split; [vm_compute; reflexivity|]; split; [vm_compute; reflexivity|];
  split; [vm_compute; reflexivity|]; intros [_ X]; apply (X name); vm_compute; auto 9.
Lemma clash_wrong : out_of_order clash_build.
Proof. wrong "time"%string. Qed.
Lemma shadow_wrong : out_of_order shadow_build.
Proof. wrong "string"%string. Qed.
Lemma capture_wrong : out_of_order capture_build.
Proof. wrong "time"%string. Qed.
Lemma init_wrong : out_of_order init_build.
Proof. wrong "init"%string. Qed.

(** ** Names apart, by computation *)
Lemma prefix_app a b : prefix a (a ++ b) = true.
Proof. induction a as [|c a IH]; [destruct b; reflexivity|]. cbn. destruct (ascii_dec c c); [exact IH|congruence]. Qed.
Lemma apart_prefix r names : forallb (fun n => negb (prefix (if String.eqb (snd r) "" then path_Base (fst r) else snd r) n)) names = true ->
  forall n, may_be_called r n -> ~ In n names.
Proof.
  rewrite forallb_forall. intros A n [k ->] IN. apply A in IN. revert IN. generalize (if String.eqb (snd r) "" then path_Base (fst r) else snd r).
  intros b. unfold candidate. destruct k as [|p].
  - assert (X := prefix_app b ""). rewrite append_nil_r in X. rewrite X. discriminate.
  - rewrite prefix_app. discriminate.
Qed.
