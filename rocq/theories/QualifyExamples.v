(** Checks that decide, on a concrete world, the hypotheses of the theorems about qualified
    files; and the worlds that witness what is false of them. *)
From Verif Require Import Base GoPath Types SpecTypes Imports SpecImports SpecGo SpecRender Conv World SpecFile SpecDecl SpecWorld
  SpecQualify BaseFacts WorldProofs DeclTheorems ImportsProofs ImportsTheorems FileTheorems SourceTheorems MeaningProofs UnsharedProofs.

(** ** Checks *)
Section Check.
Context {TD : Type}.
Variable w : World TD.
Definition elem_packages (e : InterfaceElement) : list (string * string) :=
  match e with
  | InterfaceEmbed _ s _ => sym_requests [s]
  | InterfaceMethod _ _ s _ => sym_requests (sig_symbols s)
  end.
Definition arg_packages (a : Arg) : list (string * string) :=
  match refers_to w a with Some r => packages_of r | None => [] end.
Definition all_mentions : list (string * string) :=
  flat_map (fun v => tos_packages (VSType v)) (consts w) ++
  flat_map (fun v => tos_packages (VSType v)) (vars w) ++
  flat_map (fun T => sym_requests (symbols_of (TSUnderlying T))) (types w) ++
  flat_map (fun v => tos_packages (FSType v)) (fields w) ++
  flat_map elem_packages (ielems w) ++
  flat_map (fun F => sym_requests (sig_symbols (FNSig F))) (funcs w) ++
  flat_map (flat_map arg_packages) (argss w).
Lemma mentions_all f r : file_mentions w f r -> In r all_mentions.
Proof.
  unfold all_mentions. intros [i v _ E M|i v _ E M|i v _ E M|i v _ E M|i c s p _ E M|i c n s p _ E M|i v _ E M|cb n k a x _ A E M].
  - apply in_or_app; left. apply in_flat_map. exists v. split; auto. eapply nth_error_In; eauto.
  - apply in_or_app; right. apply in_or_app; left. apply in_flat_map. exists v. split; auto. eapply nth_error_In; eauto.
  - do 2 (apply in_or_app; right). apply in_or_app; left. apply in_flat_map. exists v. split; auto. eapply nth_error_In; eauto.
  - do 3 (apply in_or_app; right). apply in_or_app; left. apply in_flat_map. exists v. split; auto. eapply nth_error_In; eauto.
  - do 4 (apply in_or_app; right). apply in_or_app; left. apply in_flat_map. eexists. split; [eapply nth_error_In; eauto|]. exact M.
  - do 4 (apply in_or_app; right). apply in_or_app; left. apply in_flat_map. eexists. split; [eapply nth_error_In; eauto|]. exact M.
  - do 5 (apply in_or_app; right). apply in_or_app; left. apply in_flat_map. exists v. split; auto. eapply nth_error_In; eauto.
  - do 6 (apply in_or_app; right). unfold argument in A.
    destruct (nth_error (blocks w) cb) as [b|]; [|discriminate]. cbn [obind] in A.
    destruct (nth_error b n) as [[fm args|t]|]; [|discriminate|discriminate]. cbn [obind] in A.
    destruct (nth_error (argss w) args) as [l|] eqn:L; [|discriminate]. cbn [obind] in A.
    apply in_flat_map. exists l. split; [eapply nth_error_In; eauto|].
    apply in_flat_map. exists a. split; [eapply nth_error_In; eauto|]. unfold arg_packages. rewrite E. exact M.
Qed.

Definition is_line (e : codeElement) : bool := match e with Line _ _ => true | Templ _ => false end.
Lemma lines_only f : forallb (forallb is_line) (blocks w) = true -> no_templates w f.
Proof.
  intros H cb b t _ B I. rewrite forallb_forall in H. apply nth_error_In in B. specialize (H b B).
  rewrite forallb_forall in H. specialize (H _ I). discriminate.
Qed.

Definition undeclaredb (t : TypeNameOrSpec) : bool :=
  match t with
  | IsSpec id => match nth_error (types w) id with
                 | Some T => String.eqb (TSName T) "" || match TSParent T with None => true | Some _ => false end
                 | None => true
                 end
  | _ => true
  end.
Lemma undeclaredb_ok t : undeclaredb t = true -> undeclared w t.
Proof.
  intros H id T -> E. cbn in H. rewrite E in H. apply orb_true_iff in H as [H|H].
  - left. apply String.eqb_eq; auto.
  - right. destruct (TSParent T); [discriminate|auto].
Qed.
Lemma no_named f : forallb (fun v => undeclaredb (VSType v)) (consts w) = true ->
  forallb (fun v => undeclaredb (VSType v)) (vars w) = true ->
  forallb (fun v => undeclaredb (FSType v)) (fields w) = true -> no_named_specs w f.
Proof.
  rewrite !forallb_forall. intros A B C.
  split; [|split]; intros i v _ E; apply undeclaredb_ok; [apply A|apply B|apply C]; eapply nth_error_In; eauto.
Qed.

Definition well_named (real : string -> string) (r : string * string) : bool :=
  (String.eqb (snd r) "" || String.eqb (snd r) (real (fst r))) &&
  usable_alias (if String.eqb (snd r) "" then path_Base (fst r) else snd r).
Lemma well_named_ok real r : well_named real r = true -> right_name real r /\ usable_name r.
Proof.
  intros H. apply andb_true_iff in H as [A B]. split; [|exact B].
  apply orb_true_iff in A as [A|A]; apply String.eqb_eq in A; [left|right]; auto.
Qed.
(** A file on whose imports no call was made yet. *)
Lemma prepared_new real own f F : nth_error (files w) f = Some F -> FImports F = NewImportsFor own ->
  forallb (forallb is_line) (blocks w) = true -> forallb (well_named real) all_mentions = true ->
  prepared real own [] w f F.
Proof.
  intros E I L M. split; [exact E|]. split; [exact I|]. split; [reflexivity|].
  split; [intros c []|]. split; [intros c []|]. split; [apply lines_only; auto|].
  intros r R. apply well_named_ok. rewrite forallb_forall in M. apply M. apply mentions_all with f; auto.
Qed.
End Check.

(** ** No sharing: every item belongs to one file only *)
Definition all_i {A} (tab : list A) (g : nat -> A -> bool) : bool :=
  forallb (fun p => g (fst p) (snd p)) (combine (seq 0 (List.length tab)) tab).
Lemma all_i_at {A} (tab : list A) g : all_i tab g = true -> forall i x, nth_error tab i = Some x -> g i x = true.
Proof.
  unfold all_i. rewrite forallb_forall. intros H i x N.
  assert (X : forall n l j, nth_error l j = Some x -> In (n + j, x) (combine (seq n (List.length l)) l)).
  { clear. intros n l. revert n. induction l as [|y l IH]; intros n [|j] E; cbn in *; try discriminate.
    - left. injection E as ->. f_equal. lia.
    - right. replace (n + S j) with (S n + j) by lia. apply IH; auto. }
  exact (H _ (X 0 tab i N)).
Qed.
Section Labels.
Context {TD : Type}.
Variable w : World TD.
Variables (lab : SpecQualify.item -> nat) (laba : nat -> nat).
Definition label_tos (n : nat) (t : TypeNameOrSpec) : bool :=
  match t with IsSpec ts => Nat.eqb (lab (IType ts)) n | _ => true end.
Definition label_value (n : nat) (v : ValueSpec) : bool :=
  label_tos n (VSType v) && match VInit v with Some cb => Nat.eqb (lab (IBlock cb)) n | None => true end.
Definition label_element (f : nat) (e : FileElement) : bool :=
  match e with
  | EConst d => match nth_error (constDecls w) d with Some D => forallb (fun i => Nat.eqb (lab (IConst i)) f) (VDSpecs D) | None => true end
  | EVar d => match nth_error (varDecls w) d with Some D => forallb (fun i => Nat.eqb (lab (IVar i)) f) (VDSpecs D) | None => true end
  | EType d => match nth_error (typeDecls w) d with Some D => forallb (fun i => Nat.eqb (lab (IType i)) f) (TDTypes D) | None => true end
  | EFunc i => Nat.eqb (lab (IFunc i)) f
  end.
Definition labelled : bool :=
  all_i (files w) (fun f F => forallb (label_element f) (FElements F)) &&
  all_i (consts w) (fun i v => label_value (lab (IConst i)) v) &&
  all_i (vars w) (fun i v => label_value (lab (IVar i)) v) &&
  all_i (types w) (fun i T => forallb (fun k => Nat.eqb (lab (IField k)) (lab (IType i))) (TSStruct T) &&
                              forallb (fun k => Nat.eqb (lab (IElem k)) (lab (IType i))) (TSInterface T)) &&
  all_i (fields w) (fun i F => label_tos (lab (IField i)) (FSType F)) &&
  all_i (funcs w) (fun i F => Nat.eqb (lab (IBlock (FNBody F))) (lab (IFunc i))) &&
  all_i (blocks w) (fun cb b => forallb (fun e => match e with Line _ a => Nat.eqb (laba a) (lab (IBlock cb)) | Templ _ => true end) b).
Hypothesis L : labelled = true.
Lemma part_label f x : part_of w f x -> lab x = f.
Proof.
  unfold labelled in L. repeat (apply andb_true_iff in L as [L ?H]).
  induction 1.
  - pose proof (all_i_at _ _ L _ _ H5) as E. cbn beta in E. rewrite forallb_forall in E. specialize (E _ H6). cbn in E.
    rewrite H7, forallb_forall in E. apply Nat.eqb_eq, E; auto.
  - pose proof (all_i_at _ _ L _ _ H5) as E. cbn beta in E. rewrite forallb_forall in E. specialize (E _ H6). cbn in E.
    rewrite H7, forallb_forall in E. apply Nat.eqb_eq, E; auto.
  - pose proof (all_i_at _ _ L _ _ H5) as E. cbn beta in E. rewrite forallb_forall in E. specialize (E _ H6). cbn in E.
    rewrite H7, forallb_forall in E. apply Nat.eqb_eq, E; auto.
  - pose proof (all_i_at _ _ L _ _ H5) as E. cbn beta in E. rewrite forallb_forall in E. specialize (E _ H6). cbn in E.
    apply Nat.eqb_eq; auto.
  - pose proof (all_i_at _ _ H4 _ _ H6) as E. cbn beta in E. apply andb_true_iff in E as [E _]. rewrite H7 in E.
    apply Nat.eqb_eq in E. congruence.
  - pose proof (all_i_at _ _ H3 _ _ H6) as E. cbn beta in E. apply andb_true_iff in E as [E _]. rewrite H7 in E.
    apply Nat.eqb_eq in E. congruence.
  - pose proof (all_i_at _ _ H2 _ _ H6) as E. cbn beta in E. apply andb_true_iff in E as [E _]. rewrite forallb_forall in E.
    specialize (E _ H7). apply Nat.eqb_eq in E. congruence.
  - pose proof (all_i_at _ _ H1 _ _ H6) as E. cbn beta in E. rewrite H7 in E. apply Nat.eqb_eq in E. congruence.
  - pose proof (all_i_at _ _ H2 _ _ H6) as E. cbn beta in E. apply andb_true_iff in E as [_ E]. rewrite forallb_forall in E.
    specialize (E _ H7). apply Nat.eqb_eq in E. congruence.
  - pose proof (all_i_at _ _ H4 _ _ H6) as E. cbn beta in E. apply andb_true_iff in E as [_ E]. rewrite H7 in E.
    apply Nat.eqb_eq in E. congruence.
  - pose proof (all_i_at _ _ H3 _ _ H6) as E. cbn beta in E. apply andb_true_iff in E as [_ E]. rewrite H7 in E.
    apply Nat.eqb_eq in E. congruence.
  - pose proof (all_i_at _ _ H0 _ _ H6) as E. cbn beta in E. apply Nat.eqb_eq in E. congruence.
Qed.
Lemma args_label f a : uses_args w f a -> laba a = f.
Proof.
  intros (cb & b & fm & P & B & I). apply part_label in P. unfold labelled in L. apply andb_true_iff in L as [_ H].
  pose proof (all_i_at _ _ H _ _ B) as E. cbn beta in E. rewrite forallb_forall in E. specialize (E _ I). cbn in E.
  apply Nat.eqb_eq in E. congruence.
Qed.
Lemma labelled_apart f g : f <> g -> ~ shared w f g.
Proof.
  intros N [(x & _ & A & B)|(a & A & B)].
  - apply part_label in A, B. congruence.
  - apply args_label in A, B. congruence.
Qed.
End Labels.

(** ** The theorems, over prepared files *)
Section Prepared.
Context {TD : Type}.
Variables (env : Env TD) (real : string -> string) (own : string) (h : list call) (fuel f : nat) (w : World TD) (F : GoFile)
  (s : string) (w1 : World TD).
Hypothesis P : prepared real own h w f F.
Hypothesis S : source env fuel f w = (Ok s, w1).
Lemma prepared_references :
  exists F1, nth_error (files w1) f = Some F1 /\
  forall cb n k a r verb, part_of w f (IBlock cb) -> argument w cb n k = Some a -> refers_to w a = Some r ->
    verb = "s"%char \/ verb = "v"%char ->
    (forall sg, r <> RSignature sg) ->
    (forall s m, r = RMethod s m -> method_by_value a = true \/
       has_package s = true /\ ~ keeps_name (FImports F1) (SymPackage s)) ->
    exists a1, argument w1 cb n k = Some a1 /\
      written real own (ImportSpecs (FImports F1)) r (fmt_arg env w1 verb a1).
Proof. destruct P as (A & B & C & D & E & G & H). eapply references_written; eauto. Qed.
Lemma prepared_methods :
  exists F1, nth_error (files w1) f = Some F1 /\
  forall cb n k a t m verb, part_of w f (IBlock cb) -> argument w cb n k = Some a -> refers_to w a = Some (RMethod t m) ->
    verb = "s"%char \/ verb = "v"%char ->
    method_by_value a = true \/ has_package t = true /\ ~ keeps_name (FImports F1) (SymPackage t) ->
    exists a1, argument w1 cb n k = Some a1 /\
      written real own (ImportSpecs (FImports F1)) (RMethod t m) (fmt_arg env w1 verb a1).
Proof.
  destruct prepared_references as (F1 & E1 & H). exists F1. split; auto. intros cb n k a t m verb PO A R V M.
  eapply H; eauto; [discriminate|]. intros t' m' [= <- <-]. exact M.
Qed.
Lemma prepared_means g0 : no_named_specs w f ->
  file_meaning_with (path_qualifier own) w (block_text env w1) fuel F = Some g0 ->
  exists F1 g, nth_error (files w1) f = Some F1 /\ parse_file s = Some g /\
    map import_of (GImports g) = ImportSpecs (FImports F1) /\
    resolve_file real g = Some (mkGFile (GPackage g0) (GImports g) (GDecls g0)).
Proof. destruct P as (A & B & C & D & E & G & H). intros N M. eapply source_means; eauto. Qed.
(** The idiom of model.go:54-60. *)
Lemma prepared_idiom :
  exists F1, nth_error (files w1) f = Some F1 /\
  forall cb n k p name, part_of w f (IBlock cb) -> argument w cb n k = Some (APackage p) -> ImportPath p <> own ->
    exists a1, argument w1 cb n k = Some a1 /\
      written_symbol real own (ImportSpecs (FImports F1)) (mkSymbol p name) (fmt_arg env w1 "s"%char a1 ++ "." ++ name)%string.
Proof.
  destruct prepared_references as (F1 & E1 & H). exists F1. split; auto. intros cb n k p name PO A N.
  destruct (H cb n k _ (RPackage p) "s"%char PO A eq_refl (or_introl eq_refl)) as (a1 & A1 & WR); try discriminate.
  exists a1. split; auto. cbn [written] in WR. unfold written_symbol.
  assert (NE : String.eqb (fmt_arg env w1 "s"%char a1) "" = false).
  { destruct (String.eqb_spec (fmt_arg env w1 "s"%char a1) ""); auto. unfold refers in WR. rewrite e in WR. cbn in WR. congruence. }
  destruct (has_package (mkSymbol p name)) eqn:HP.
  - exists (fmt_arg env w1 "s"%char a1). split; [exact WR|]. rewrite NE. reflexivity.
  - exfalso. unfold has_package in HP. apply negb_false_iff in HP. apply andb_true_iff in HP as [P1 P2].
    cbn in P1, P2. apply String.eqb_eq in P1, P2. destruct p as [pp pn]. cbn in P1, P2. subst.
    destruct P as (_ & _ & _ & _ & _ & _ & HM). destruct (HM ("", "")) as [_ U]; [|vm_compute in U; discriminate].
    eapply fm_arg; [exact PO|exact A|reflexivity|left; reflexivity].
Qed.
End Prepared.
(** A second file, written after another with which it shares nothing, says what it said before. *)
Lemma prepared_apart {TD} (env : Env TD) real own h own' h' fuel f g (w : World TD) F G s w1 s' w2 :
  prepared real own h w f F -> prepared real own' h' w g G -> f <> g -> ~ shared w f g ->
  source env fuel f w = (Ok s, w1) -> source env fuel g w1 = (Ok s', w2) ->
  exists G2, nth_error (files w2) g = Some G2 /\
  (forall path, In path (listed (FImports G2)) <->
     In path (listed (FImports G)) \/ path <> own' /\ exists n, file_mentions w g (path, n)) /\
  (forall cb n k a r verb, part_of w g (IBlock cb) -> argument w cb n k = Some a -> refers_to w a = Some r ->
    verb = "s"%char \/ verb = "v"%char ->
    (forall sg, r <> RSignature sg) ->
    (forall s m, r = RMethod s m -> method_by_value a = true \/
       has_package s = true /\ ~ keeps_name (FImports G2) (SymPackage s)) ->
    exists a2, argument w2 cb n k = Some a2 /\
      written real own' (ImportSpecs (FImports G2)) r (fmt_arg env w2 verb a2)) /\
  (forall g0, no_named_specs w g -> file_meaning_with (path_qualifier own') w (block_text env w2) fuel G = Some g0 ->
    exists p, parse_file s' = Some p /\ map import_of (GImports p) = ImportSpecs (FImports G2) /\
      resolve_file real p = Some (mkGFile (GPackage g0) (GImports p) (GDecls g0))).
Proof.
  intros PF PG N NS S S'. assert (SM : same w w1 g).
  { destruct PF as (A & B & _ & _ & _ & C & _). eapply unshared_same; eauto. }
  pose proof (prepared_same _ _ _ SM _ _ _ _ PG) as PG1.
  destruct (prepared_references env real own' h' fuel g w1 G s' w2 PG1 S') as (G2 & E2 & RF).
  exists G2. split; [exact E2|]. split; [|split].
  - destruct PG1 as (A & B & _ & _ & _ & C & _).
    destruct (imports_exact env own' h' fuel g w1 G s' w2 A B C S') as (G2' & E2' & IM).
    assert (G2' = G2) by congruence. subst G2'. intros path. rewrite IM.
    split; (intros [X|[X (n & Y)]]; [left; exact X|right; split; [exact X|exists n]]).
    + eapply mentions_back; eauto.
    + eapply mentions_fwd; eauto.
  - intros cb n k a r verb P A R. apply RF.
    + eapply part_fwd; eauto.
    + rewrite (argument_same w w1 g SM); auto.
    + rewrite (refers_same w w1 g SM); auto.
  - intros g0 NN M. destruct (prepared_means env real own' h' fuel g w1 G s' w2 PG1 S' g0) as (G2' & p & E2' & X).
    + eapply named_same; eauto.
    + destruct PG as (A & _). rewrite (file_same w w1 g SM) by auto. exact M.
    + assert (G2' = G2) by congruence. subst G2'. exists p. exact X.
Qed.

Lemma spec_written {TD} (env : Env TD) (w : World TD) id T g G real own specs :
  nth_error (types w) id = Some T -> TSName T <> "" -> TSParent T = Some g -> nth_error (files w) g = Some G ->
  FPackageName G <> "" ->
  exists text, TypeNameOrSpec_text env w (IsSpec id) = (" " ++ text)%string /\
  (written_symbol real own specs (mkSymbol (GoFile_Package G) (TSName T)) text <->
   refers real own specs (FPackageName G) (pkgPath (FImports G))).
Proof.
  intros ET NN EP EG NP. destruct (type_symbols w env T) as (_ & _ & H).
  destruct (H g G NN EP EG) as (_ & _ & X). unfold TypeNameOrSpec_text, rd. rewrite ET. cbn [rbind]. rewrite X.
  unfold caught. eexists. split; [reflexivity|]. unfold qualified, GoFile_Package, written_symbol, has_package, sym_path. cbn [PkgName ImportPath SymPackage SymName].
  apply String.eqb_neq in NP. rewrite NP. cbn [andb negb]. split.
  - intros (q & R & E). destruct (String.eqb_spec q "") as [->|NQ].
    + apply (f_equal String.length) in E. rewrite !length_append in E. cbn in E. lia.
    + assert (q = FPackageName G) by (apply (append_inj_r _ _ ("." ++ TSName T)); auto). subst. exact R.
  - intros R. exists (FPackageName G). rewrite NP. auto.
Qed.

(** ** Witnesses *)
(** A Signature as a code argument. *)
Definition sig_build : WM (TD := unit) unit :=
  do f <- NewGoFile "x.go" "a.b/m" "m" ;;
  do fn <- NewFunc "F" ;;
  do _ <- Func_Printlnf fn "var g func%s" [ASignature (mkSig [mkArg "x" (TBasic KInt)] [] false)] ;;
  AddElement f (EFunc fn).
Definition sig_world := exec_world sig_build.
(** A method declared in a file of another package, which keeps its name. *)
Definition meth_build : WM (TD := unit) unit :=
  do f <- NewGoFile "x.go" "a.b/m" "m" ;;
  do g <- NewGoFile "y.go" "x.y/n" "n" ;;
  do t <- NewTypeSpec "T" (IsName (TBasic KInt)) ;;
  do _ <- AddType g t ;;
  do m <- NewMethod (Some (mkReceiver "" "T" false)) "M" ;;
  do _ <- AddElement g (EFunc m) ;;
  do fn <- NewFunc "F" ;;
  do _ <- Func_Printlnf fn "_ = %s" [AFunc m] ;;
  AddElement f (EFunc fn).
Definition meth_world := exec_world meth_build.
(** The same, and the package gets another name. *)
Definition meth2_build : WM (TD := unit) unit :=
  do f <- NewGoFile "x.go" "a.b/m" "m" ;;
  do g <- NewGoFile "y.go" "x.y/n" "n" ;;
  do m <- NewMethod (Some (mkReceiver "" "T" false)) "M" ;;
  do _ <- AddElement g (EFunc m) ;;
  do fn <- NewFunc "F" ;;
  do _ <- Func_Printlnf fn "_ = %s(%s)" [ASymbol (mkSymbol (mkPackage "z/n" "n") "G"); AFunc m] ;;
  AddElement f (EFunc fn).
Definition meth2_world := exec_world meth2_build.
(** A variable whose type is a TypeSpec declared in the same file. *)
Definition spec_build : WM (TD := unit) unit :=
  do f <- NewGoFile "x.go" "a.b/m" "m" ;;
  do t <- NewTypeSpec "T" (IsName (TBasic KInt)) ;;
  do _ <- AddType f t ;;
  do v <- NewVar ["x"] ;;
  do _ <- Value_SetType vars set_vars v (IsSpec t) ;;
  AddVar f v.
Definition spec_world := exec_world spec_build.
(** A variable whose type is a TypeSpec declared in a file of another package. *)
Definition far_build : WM (TD := unit) unit :=
  do f <- NewGoFile "x.go" "a.b/m" "m" ;;
  do g <- NewGoFile "y.go" "x.y/n" "n" ;;
  do t <- NewTypeSpec "T" (IsName (TBasic KInt)) ;;
  do _ <- AddType g t ;;
  do v <- NewVar ["x"] ;;
  do _ <- Value_SetType vars set_vars v (IsSpec t) ;;
  AddVar f v.
Definition far_world := exec_world far_build.
(** Two files that share a code block; in the first the package y needs an alias. *)
Definition share_build : WM (TD := unit) unit :=
  do f <- NewGoFile "x.go" "a.b/m" "m" ;;
  do g <- NewGoFile "y.go" "a.b/k" "k" ;;
  do c <- Printlnf "%s()" [ASymbol (mkSymbol (mkPackage "x/y" "y") "Foo")] ;;
  do fn <- NewFunc "F" ;;
  do _ <- Func_Printlnf fn "%s()" [ASymbol (mkSymbol (mkPackage "other/y" "y") "Bar")] ;;
  do _ <- Func_AddCode fn c ;;
  do _ <- AddElement f (EFunc fn) ;;
  do gn <- NewFunc "G" ;;
  do _ <- Func_AddCode gn c ;;
  AddElement g (EFunc gn).
Definition share_world := exec_world share_build.
(** Two files that share a code block with a *types.Package. *)
Definition gopkg_build : WM (TD := unit) unit :=
  do f <- NewGoFile "x.go" "a.b/m" "m" ;;
  do g <- NewGoFile "y.go" "a.b/k" "k" ;;
  do c <- Printlnf "%s.Foo()" [AGoPackage (Some (mkPackage "x/y" "y"))] ;;
  do fn <- NewFunc "F" ;;
  do _ <- Func_AddCode fn c ;;
  do _ <- AddElement f (EFunc fn) ;;
  do gn <- NewFunc "G" ;;
  do _ <- Func_AddCode gn c ;;
  AddElement g (EFunc gn).
Definition gopkg_world := exec_world gopkg_build.
(** A Package argument for the file's own package. *)
Definition idiom_build : WM (TD := unit) unit :=
  do f <- NewGoFile "x.go" "a.b/m" "m" ;;
  do fn <- NewFunc "F" ;;
  do _ <- Func_Printlnf fn "%s.Foobar()" [APackage (mkPackage "a.b/m" "m")] ;;
  AddElement f (EFunc fn).
Definition idiom_world := exec_world idiom_build.

Definition file0 (w : World unit) : GoFile := nth 0 (files w) (mkFile (NewImportsFor "") "" "" "" "" "" []).
Definition file1 (w : World unit) : GoFile := nth 1 (files w) (mkFile (NewImportsFor "") "" "" "" "" "" []).
Ltac check := vm_compute; reflexivity.
Ltac by_prepared := apply prepared_new; check.

Lemma in_body (w : World unit) f F i G cb : nth_error (files w) f = Some F -> In (EFunc i) (FElements F) ->
  nth_error (funcs w) i = Some G -> FNBody G = cb -> part_of w f (IBlock cb).
Proof. intros A B C <-. eapply po_body; eauto. eapply po_func; eauto. Qed.
Lemma in_var (w : World unit) f F d D i : nth_error (files w) f = Some F -> In (EVar d) (FElements F) ->
  nth_error (varDecls w) d = Some D -> In i (VDSpecs D) -> part_of w f (IVar i).
Proof. intros. eapply po_var; eauto. Qed.
Ltac by_var := eapply in_var; [vm_compute; reflexivity|cbn; auto|vm_compute; reflexivity|cbn; auto].
Ltac by_body := eapply in_body; [vm_compute; reflexivity|cbn; auto|vm_compute; reflexivity|reflexivity].

Section Refuted.
Variable env : Env unit.
Definition text_of (r : res string * World unit) : string := match fst r with Ok s => s | Panic _ => "" end.
Lemma signature_refuted :
  ~ (forall real own h fuel f (w : World unit) F s w1, prepared real own h w f F -> source env fuel f w = (Ok s, w1) ->
     exists F1, nth_error (files w1) f = Some F1 /\
     forall cb n k a sg verb, part_of w f (IBlock cb) -> argument w cb n k = Some a -> refers_to w a = Some (RSignature sg) ->
       verb = "s"%char \/ verb = "v"%char ->
       exists a1, argument w1 cb n k = Some a1 /\
         written real own (ImportSpecs (FImports F1)) (RSignature sg) (fmt_arg env w1 verb a1)).
Proof.
  intros H. destruct (H path_Base "a.b/m" [] 3 0 sig_world (file0 sig_world) (text_of (source env 3 0 sig_world)) (snd (source env 3 0 sig_world)))
    as (F1 & E1 & X); [by_prepared|check|].
  destruct (X 0 0 0 (ASignature (mkSig [mkArg "x" (TBasic KInt)] [] false)) 
    (mkSig [mkArg "x" (TBasic KInt)] [] false) "v"%char) as (a1 & A1 & WR); [by_body|check|check|auto|].
  vm_compute in A1. injection A1 as <-. destruct (WR eq_refl eq_refl) as (ps & rs & PS & _). vm_compute in PS. discriminate.
Qed.
Lemma method_refuted :
  ~ (forall real own h fuel f (w : World unit) F s w1, prepared real own h w f F -> source env fuel f w = (Ok s, w1) ->
     exists F1, nth_error (files w1) f = Some F1 /\
     forall cb n k a t m verb, part_of w f (IBlock cb) -> argument w cb n k = Some a -> refers_to w a = Some (RMethod t m) ->
       verb = "s"%char \/ verb = "v"%char ->
       exists a1, argument w1 cb n k = Some a1 /\
         written real own (ImportSpecs (FImports F1)) (RMethod t m) (fmt_arg env w1 verb a1)).
Proof.
  intros H. destruct (H path_Base "a.b/m" [] 3 0 meth_world (file0 meth_world) (text_of (source env 3 0 meth_world)) (snd (source env 3 0 meth_world)))
    as (F1 & E1 & X); [by_prepared|check|].
  destruct (X 1 0 0 (AFunc 0) (mkSymbol (mkPackage "x.y/n" "n") "T") "M" "s"%char) as (a1 & A1 & WR); [by_body|check|check|auto|].
  vm_compute in A1. injection A1 as <-. destruct WR as (t & _ & E). vm_compute in E.
  destruct t as [|c t]; [discriminate|]. injection E as _ E. destruct t; discriminate.
Qed.
Lemma meaning_refuted :
  ~ (forall real own h fuel f (w : World unit) F s w1 g0, prepared real own h w f F -> source env fuel f w = (Ok s, w1) ->
     file_meaning_with (path_qualifier own) w (block_text env w1) fuel F = Some g0 ->
     exists F1 g, nth_error (files w1) f = Some F1 /\ parse_file s = Some g /\
       map import_of (GImports g) = ImportSpecs (FImports F1) /\
       resolve_file real g = Some (mkGFile (GPackage g0) (GImports g) (GDecls g0))).
Proof.
  intros H. destruct (H path_Base "a.b/m" [] 3 0 spec_world (file0 spec_world) (text_of (source env 3 0 spec_world)) (snd (source env 3 0 spec_world))
    (mkGFile "m" [] [DType false [("T", false, GName None "int")]; DVar false [(["x"], Some (GName None "T"), None)]]))
    as (F1 & g & E1 & PF & _ & X); [by_prepared|check|check|].
  vm_compute in PF. injection PF as <-. vm_compute in X. discriminate.
Qed.
Lemma spec_import_refuted :
  ~ (forall real own h fuel f (w : World unit) F s w1, prepared real own h w f F -> source env fuel f w = (Ok s, w1) ->
     exists F1, nth_error (files w1) f = Some F1 /\
     forall i v id T g G, part_of w f (IVar i) -> nth_error (vars w) i = Some v -> VSType v = IsSpec id ->
       nth_error (types w) id = Some T -> TSName T <> "" -> TSParent T = Some g -> nth_error (files w) g = Some G ->
       pkgPath (FImports G) <> own -> In (pkgPath (FImports G)) (listed (FImports F1))).
Proof.
  intros H. destruct (H path_Base "a.b/m" [] 3 0 far_world (file0 far_world) (text_of (source env 3 0 far_world)) (snd (source env 3 0 far_world)))
    as (F1 & E1 & X); [by_prepared|check|].
  vm_compute in E1. injection E1 as <-.
  specialize (X 0 _ 0 _ 1 (file1 far_world) ltac:(by_var) eq_refl eq_refl eq_refl ltac:(discriminate) eq_refl eq_refl ltac:(discriminate)).
  vm_compute in X. destruct X.
Qed.
Lemma sharing_refuted :
  ~ (forall real own h own' h' fuel f g (w : World unit) F G s w1 s' w2,
     prepared real own h w f F -> prepared real own' h' w g G -> f <> g ->
     source env fuel f w = (Ok s, w1) -> source env fuel g w1 = (Ok s', w2) ->
     exists G2, nth_error (files w2) g = Some G2 /\
     forall cb n k a y, part_of w g (IBlock cb) -> argument w cb n k = Some a -> refers_to w a = Some (RName y) ->
       exists a2, argument w2 cb n k = Some a2 /\
         written real own' (ImportSpecs (FImports G2)) (RName y) (fmt_arg env w2 "s"%char a2)).
Proof.
  intros H.
  let r1 := eval vm_compute in (source env 3 0 share_world) in
  match r1 with
  | (Ok ?s1, ?w1) =>
      let r2 := eval vm_compute in (source env 3 1 w1) in
      match r2 with
      | (Ok ?s2, ?w2) =>
          destruct (H path_Base "a.b/m" [] "a.b/k" [] 3 0 1 share_world (file0 share_world) (file1 share_world) s1 w1 s2 w2)
            as (G2 & E2 & X); [by_prepared|by_prepared|discriminate|check|check|]
      end
  end.
  destruct (X 2 0 0 (ASymbol (mkSymbol (mkPackage "x/y" "y") "Foo")) (mkSymbol (mkPackage "x/y" "y") "Foo")) as (a2 & A2 & WR); [by_body|check|check|].
  vm_compute in A2. injection A2 as <-. vm_compute in E2. injection E2 as <-. destruct WR as (q & R & E).
  vm_compute in E. destruct q as [|c1 [|c2 [|c3 q]]]; try discriminate.
  2:{ do 4 (destruct q as [|? q]; try discriminate). }
  cbn in E. injection E as <- <-. destruct (proj2 (R "x/y") eq_refl) as (sp & I & EN & _).
  vm_compute in I. destruct I as [<-|[]]. vm_compute in EN. discriminate.
Qed.
Lemma go_package_refuted :
  ~ (forall real own h own' h' fuel f g (w : World unit) F G s w1 s' w2,
     prepared real own h w f F -> prepared real own' h' w g G -> f <> g ->
     source env fuel f w = (Ok s, w1) -> source env fuel g w1 = (Ok s', w2) ->
     exists G2, nth_error (files w2) g = Some G2 /\
     forall cb n k a p, part_of w g (IBlock cb) -> argument w cb n k = Some a -> refers_to w a = Some (RPackage p) ->
       exists a2, argument w2 cb n k = Some a2 /\
         written real own' (ImportSpecs (FImports G2)) (RPackage p) (fmt_arg env w2 "s"%char a2)).
Proof.
  intros H.
  let r1 := eval vm_compute in (source env 3 0 gopkg_world) in
  match r1 with
  | (Ok ?s1, ?w1) =>
      let r2 := eval vm_compute in (source env 3 1 w1) in
      match r2 with
      | (Ok ?s2, ?w2) =>
          destruct (H path_Base "a.b/m" [] "a.b/k" [] 3 0 1 gopkg_world (file0 gopkg_world) (file1 gopkg_world) s1 w1 s2 w2)
            as (G2 & E2 & X); [by_prepared|by_prepared|discriminate|check|check|]
      end
  end.
  destruct (X 2 0 0 (AGoPackage (Some (mkPackage "x/y" "y"))) (mkPackage "x/y" "y")) as (a2 & A2 & WR); [by_body|check|check|].
  vm_compute in A2. injection A2 as <-. vm_compute in E2. injection E2 as <-.
  destruct (proj2 (WR "x/y") eq_refl) as (sp & I & _). vm_compute in I. destruct I.
Qed.
Lemma idiom_refuted :
  ~ (forall real own h fuel f (w : World unit) F s w1, prepared real own h w f F -> source env fuel f w = (Ok s, w1) ->
     exists F1, nth_error (files w1) f = Some F1 /\
     forall cb n k p name, part_of w f (IBlock cb) -> argument w cb n k = Some (APackage p) ->
       exists a1, argument w1 cb n k = Some a1 /\
         written_symbol real own (ImportSpecs (FImports F1)) (mkSymbol p name) (fmt_arg env w1 "s"%char a1 ++ "." ++ name)%string).
Proof.
  intros H. destruct (H path_Base "a.b/m" [] 3 0 idiom_world (file0 idiom_world) (text_of (source env 3 0 idiom_world)) (snd (source env 3 0 idiom_world)))
    as (F1 & E1 & X); [by_prepared|check|].
  destruct (X 0 0 0 (mkPackage "a.b/m" "m") "Foobar") as (a1 & A1 & WR); [by_body|check|].
  vm_compute in A1. injection A1 as <-. vm_compute in E1. injection E1 as <-. destruct WR as (q & R & E). vm_compute in E.
  do 8 (destruct q as [|? q]; try discriminate).
Qed.
End Refuted.
