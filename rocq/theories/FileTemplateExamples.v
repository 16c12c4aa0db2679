(** Files for the examples of C83-C88. *)
From Verif Require Import Base GoPath Types SpecTypes Imports SpecImports SpecGo SpecRender Conv World SpecFile SpecDecl SpecWorld
  SpecQualify FileTheorems SpecBuild BuildFiles SpecTotal TotalTheorems BuildMeaning BuildTotal
  Template SpecTemplate TemplateTheorems PropTemplate SpecFileTemplate FileTemplates BuildTemplates.

(** Template 0 writes the first field of its data, template 1 the package of the spec it gets. *)
Definition exec (w : World (option val)) (tm : nat) (d : option val) : res string :=
  match d with
  | Some (VStruct _ ((_, VSymbol s) :: (_, VSlice _ (VIface _ (Some (VTypeName t)) :: _)) :: _)) =>
      rbind (typeNameToBuffer (fun _ => true) t) (fun t => Ok ("var p " ++ t ++ " = " ++ Symbol_String s ++ newline)%string)
  | Some (VPtr _ (Some (VSpec s r))) => match spec_parent (world_parent w) s r with Ok (Some p) => Ok (PkgName p) | _ => Ok "" end
  | _ => Panic "template: unexpected data"
  end.
Definition tplEnv : Env (option val) := template_env imp true (fun _ => true) (fun _ _ _ => "") (fun _ _ _ => "") exec.
Definition tplFile : filedesc (list (chunk (option val))) :=
  mkFD "t.go" "a.b/m" "m" "file" "package" "" [
    DOneType (mkTS "T" "T is." (BodyStruct [("first", "A", "json:a", DName (TPtr (TNamed (mkSymbol bx "T"))))]));
    DFunction (mkFn "F runs." (Some (mkReceiver "r" "T" true)) "F" [("x", TBasic KInt)] [("", TBasic KString)] false
      [KPrintln "r.n++"; KCode [KRender 0 (Some sample)];
       KPrintlnf "return %s(x)" [ASymbol (mkSymbol (mkPackage "x.y/clock" "clock") "New")]])].
Definition tplWorld : World (option val) := snd (build_file tplFile empty_world).
Definition tplText : string := match fst (source tplEnv 2 0 tplWorld) with Ok s => s | Panic m => m end.
Definition tplAfter : World (option val) := snd (source tplEnv 2 0 tplWorld).
Definition tplGoFile (w : World (option val)) : GoFile := nth 0 (files w) (mkFile (NewImportsFor "") "" "" "" "" "" []).
Lemma tpl_source : source tplEnv 2 0 tplWorld = (Ok tplText, tplAfter).
Proof. vm_compute. reflexivity. Qed.
Lemma tpl_file : nth_error (files tplWorld) 0 = Some (tplGoFile tplWorld) /\ FImports (tplGoFile tplWorld) = run [] (NewImportsFor "a.b/m").
Proof. split; vm_compute; reflexivity. Qed.
Lemma tpl_name : go_name (fdName tplFile).
Proof. split; [cbn; intuition discriminate|exists "t"; reflexivity]. Qed.
Lemma tpl_whole : whole_description tplFile.
Proof. repeat (constructor; [reflexivity|]). constructor. Qed.
Lemma tpl_code : whole_code tplWorld tplFile.
Proof.
  intros l format args a IL IP IA. cbn in IL. destruct IL as [<-|[]]. cbn in IP.
  destruct IP as [IP|[IP|[IP|[]]]]; [injection IP as <- <-|discriminate|injection IP as <- <-]; cbn in IA; destruct IA as [<-|[]].
  - left; reflexivity.
  - right; eexists; split; [reflexivity|exact I].
Qed.
Lemma tpl_described v : described_data tplFile v -> v = sample.
Proof.
  intros (l & t & IL & IP). cbn in IL. destruct IL as [<-|[]]. cbn in IP.
  destruct IP as [IP|[IP|[IP|[]]]]; try discriminate. injection IP as _ <-. reflexivity.
Qed.
Lemma sample_simple parent_of nm : simple true parent_of nm (data sample).
Proof. cbn. intuition. Qed.
Lemma sample_readable parent_of : readable true parent_of true (data sample).
Proof. cbn. intuition (try discriminate). Qed.
Lemma sample_storable parent_of : storable true parent_of true (data sample).
Proof. cbn. intuition (auto; try discriminate); right; repeat constructor. Qed.
Lemma tpl_built : exists d' m', represents tplWorld m' /\ file_is tplWorld 0 d' /\
  Forall2 (block_is m') (codes tplFile) (codes d') /\ same_but_code tplFile d'.
Proof.
  destruct (build_file_ok tplFile empty_world [] (Forall2_nil _) tpl_name) as (d' & w1 & m1 & E & _ & _ & R1 & _ & FI & BI & SB & _).
  assert (W1 : tplWorld = w1) by (unfold tplWorld; rewrite E; reflexivity). rewrite W1. exists d', m1. auto.
Qed.
Lemma tpl_data v : template_data tplWorld 0 v -> v = sample.
Proof.
  destruct tpl_built as (d' & m' & R & FI & BI & SB). intros T. apply tpl_described. eapply built_data; eauto.
Qed.
Lemma tpl_block : part_of tplWorld 0 (IBlock 0).
Proof.
  assert (E : nth_error (funcs tplWorld) 0 = Some (nth 0 (funcs tplWorld) (mkFunc "" "" None (mkSig [] [] false) 0 None))) by (vm_compute; reflexivity).
  apply (po_body tplWorld 0 0 _) in E; [exact E|]. eapply po_func; [vm_compute; reflexivity|cbn; auto].
Qed.
Lemma tpl_template : template_of tplWorld 0 0 /\ nth_error (templs tplWorld) 0 = Some (0, Some sample).
Proof.
  split; [|vm_compute; reflexivity]. eexists 0, _. split; [exact tpl_block|]. split; [vm_compute; reflexivity|]. cbn. auto.
Qed.
Lemma tpl_good : good_data imp true tplWorld 0.
Proof.
  intros t tm v T E. assert (v = sample) as -> by (apply tpl_data; exists t, tm; auto).
  split; [exact sample_typed|]. right. intros nm. apply sample_simple.
Qed.
Lemma tpl_there : whole_data true tplWorld 0.
Proof.
  split.
  - intros t T. destruct tpl_built as (d' & m' & R & FI & BI & SB).
    destruct (built_template tplWorld m' 0 tplFile d' R FI BI SB t T) as (l & tm & x & _ & _ & ET). congruence.
  - intros v T. apply tpl_data in T as ->. split; [apply sample_readable|apply sample_storable].
Qed.
Lemma tpl_complete : complete tplWorld 0.
Proof.
  destruct tpl_built as (d' & m' & R & FI & BI & SB). eapply (built_complete tplWorld m' 0 tplFile d'); auto; [exact tpl_whole|exact tpl_code].
Qed.
Lemma tpl_acyclic : no_cycle tplWorld 0.
Proof.
  destruct tpl_built as (d' & m' & R & FI & BI & SB). eapply (built_no_cycle tplWorld 0 tplFile d'); auto. exact tpl_whole.
Qed.
Lemma tpl_mentions r : file_mentions tplWorld 0 r \/ data_mentions true tplWorld 0 r ->
  In r [("a/x", "x"); ("b/x", "x"); ("x.y/clock", "clock")].
Proof.
  intros [M|(v & T & IN)].
  - destruct tpl_built as (d' & m' & R & FI & BI & SB).
    destruct (built_mentions tplWorld m' 0 tplFile d' R FI BI SB r M) as [I|(x & (l & fm & args & a & IL & IP & IA & RF) & IX)].
    + vm_compute in I. cbn. tauto.
    + cbn in IL. destruct IL as [<-|[]]. cbn in IP.
      destruct IP as [IP|[IP|[IP|[]]]]; [injection IP as <- <-|discriminate|injection IP as <- <-]; cbn in IA; destruct IA as [<-|[]]; cbn in RF.
      * discriminate.
      * injection RF as <-. cbn in IX. cbn. tauto.
  - apply tpl_data in T as ->. cbn in IN. cbn. tauto.
Qed.

(** A file that gives a template one of its own types. *)
Definition ownWorld : World (option val) := snd ((
  do f <- NewGoFile "x.go" "a.b/m" "m" ;;
  do t <- NewTypeSpec "T" (IsName (TBasic KInt)) ;;
  do _ <- AddType f t ;;
  do fn <- NewFunc "F" ;;
  do _ <- Func_RenderCode fn 1 (Some (spec_ptr None)) ;;
  AddElement f (EFunc fn)) empty_world).
(** The same code, added to two functions. *)
Definition sharedWorld : World (option val) := snd ((
  do f <- NewGoFile "x.go" "a.b/m" "m" ;;
  do t <- NewTypeSpec "T" (IsName (TBasic KInt)) ;;
  do _ <- AddType f t ;;
  do c <- RenderCode 1 (Some (spec_ptr None)) ;;
  do fn <- NewFunc "F" ;;
  do _ <- Func_AddCode fn c ;;
  do _ <- AddElement f (EFunc fn) ;;
  do gn <- NewFunc "G" ;;
  do _ <- Func_AddCode gn c ;;
  AddElement f (EFunc gn)) empty_world).
Lemma template_in (w : World (option val)) f t : template_of w f t -> In (Templ t) (List.concat (blocks w)).
Proof. intros (cb & b & _ & N & IN). apply in_concat. exists b. split; [eapply nth_error_In; eauto|exact IN]. Qed.
Lemma in_body (w : World (option val)) f F i G cb : nth_error (files w) f = Some F -> In (EFunc i) (FElements F) ->
  nth_error (funcs w) i = Some G -> FNBody G = cb -> part_of w f (IBlock cb).
Proof. intros A B C <-. eapply po_body; eauto. eapply po_func; eauto. Qed.
Lemma shared_data d : template_data sharedWorld 0 d -> d = spec_ptr None.
Proof.
  intros (t & tm & T & E). apply template_in in T. vm_compute in T. destruct T as [T|[T|[T|[]]]]; injection T as <-; vm_compute in E; injection E as _ <-; reflexivity.
Qed.
Lemma shared_template : template_data sharedWorld 0 (spec_ptr None).
Proof.
  exists 0, 1. split; [|vm_compute; reflexivity]. exists 1. eexists. split; [|split; [vm_compute; reflexivity|cbn; auto]].
  eapply (in_body _ _ _ 0); [vm_compute; reflexivity|cbn; auto|vm_compute; reflexivity|reflexivity].
Qed.
Lemma own_data d : template_data ownWorld 0 d -> d = spec_ptr None.
Proof.
  intros (t & tm & T & E). apply template_in in T. vm_compute in T. destruct T as [T|[]]; injection T as <-; vm_compute in E; injection E as _ <-; reflexivity.
Qed.
Lemma own_template : template_data ownWorld 0 (spec_ptr None).
Proof.
  exists 0, 1. split; [|vm_compute; reflexivity]. exists 0. eexists. split; [|split; [vm_compute; reflexivity|cbn; auto]].
  eapply (in_body _ _ _ 0); [vm_compute; reflexivity|cbn; auto|vm_compute; reflexivity|reflexivity].
Qed.
Lemma own_good : good_data imp true ownWorld 0.
Proof.
  intros t tm d T E. rewrite (own_data d) by (exists t, tm; auto). split; [cbn; auto|left].
  apply NoDup_count_occ. vm_compute. repeat constructor; cbn; tauto.
Qed.
Lemma own_not_simple : ~ forall nm, simple true (world_parent ownWorld) nm (data (spec_ptr None)).
Proof. intros H. destruct (H (fun _ => "")) as [_ X]. specialize (X (mkPackage "a.b/m" "m") eq_refl). destruct X; discriminate. Qed.
Lemma tpl_unnamed : no_named_specs tplWorld 0.
Proof. destruct tpl_built as (d' & m' & R & FI & BI & SB). eapply (built_unnamed tplWorld 0 tplFile d'); auto. Qed.
Lemma tpl_executes : templates_execute tplAfter 0 exec.
Proof.
  intros t tm d T E. apply template_in in T. vm_compute in T. repeat (destruct T as [T|T]; [try discriminate|]); [..|destruct T].
  all: injection T as <-; vm_compute in E; injection E as <- <-; eexists; vm_compute; reflexivity.
Qed.

(** A description of a file that gives its own type to templates, and two variables with the
    same initial value. *)
Definition ownFile : filedesc (list (chunk (option val))) :=
  mkFD "o.go" "a.b/m" "m" "" "" "" [
    DOneType (mkTS "T" "" (BodyType (DName (TBasic KInt))));
    DOneVar (mkV "" ["a"] None (Some [KPrint "1"; KRender 1 (Some (spec_ptr None))]));
    DOneVar (mkV "" ["b"] None (Some [KPrint "1"; KCode [KRender 1 (Some (spec_ptr None))]]));
    DFunction (mkFn "" None "F" [] [] false [KCode [KRender 1 (Some (spec_ptr None)); KPrintln ""]])].
Definition ownBuilt : World (option val) := snd (build_file ownFile empty_world).
Definition ownAfter : World (option val) := snd (qualify_file tplEnv 2 0 ownBuilt).
Lemma own_described v : described_data ownFile v -> v = spec_ptr None.
Proof.
  intros (l & t & IL & IP). cbn in IL. destruct IL as [<-|[<-|[<-|[]]]]; cbn in IP;
  (destruct IP as [IP|[IP|[]]]; try discriminate; injection IP as _ <-; reflexivity).
Qed.
Lemma own_executes : templates_execute ownAfter 0 exec.
Proof.
  intros t tm d T E. apply template_in in T. vm_compute in T. repeat (destruct T as [T|T]; [try discriminate|]); [..|destruct T].
  all: injection T as <-; vm_compute in E; injection E as <- <-; eexists; vm_compute; reflexivity.
Qed.

(** A file that gives a template a type of another file. *)
Definition otherWorld : World (option val) := snd ((
  do g <- NewGoFile "y.go" "c.d/e" "e" ;;
  do t <- NewTypeSpec "T" (IsName (TBasic KInt)) ;;
  do _ <- AddType g t ;;
  do f <- NewGoFile "x.go" "a.b/m" "m" ;;
  do fn <- NewFunc "F" ;;
  do _ <- Func_RenderCode fn 1 (Some (spec_ptr None)) ;;
  do _ <- AddElement f (EFunc fn) ;;
  do v <- NewVar ["v"] ;;
  do _ <- Value_SetType vars set_vars v (IsName (TNamed (mkSymbol (mkPackage "x/e" "e") "S"))) ;;
  AddVar f v) empty_world).
Definition otherText : string := match fst (source tplEnv 2 1 otherWorld) with Ok s => s | Panic m => m end.
Definition otherAfter : World (option val) := snd (source tplEnv 2 1 otherWorld).
Lemma other_data d : template_data otherWorld 1 d -> d = spec_ptr None.
Proof.
  intros (t & tm & T & E). apply template_in in T. vm_compute in T. destruct T as [T|[]]; injection T as <-; vm_compute in E; injection E as _ <-; reflexivity.
Qed.
Lemma other_good : good_data imp true otherWorld 1.
Proof.
  intros t tm d T E. rewrite (other_data d) by (exists t, tm; auto). split; [cbn; auto|left].
  apply NoDup_count_occ. vm_compute. repeat constructor; cbn; tauto.
Qed.
Lemma other_template : template_data otherWorld 1 (spec_ptr None).
Proof.
  exists 0, 1. split; [|vm_compute; reflexivity]. exists 0. eexists. split; [|split; [vm_compute; reflexivity|cbn; auto]].
  eapply (in_body _ _ _ 0); [vm_compute; reflexivity|cbn; auto|vm_compute; reflexivity|reflexivity].
Qed.
