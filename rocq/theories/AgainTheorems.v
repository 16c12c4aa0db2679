(** Writing a file again after any program; with template data; what is kept whatever comes of it. *)
From Coq Require Import List String Arith Lia.
From Verif Require Import Base BaseFacts Types SpecTypes TypesFacts Imports SpecImports ImportsProofs ImportsTheorems SettleProofs Conv World WorldProofs
  SpecWorld SpecProgram ProgramFrame ProgramCalls ProgramProofs SpecGo SpecRender Template SpecTemplate TemplateProofs TemplateTheorems SpecFormat SpecCode SpecAppend SpecOrder SpecQualify QualifyProofs QualifyTheorems
  SourceTheorems SpecFileTemplate FileTemplates AgainProofs.

(** ** Template data *)
Lemma again_ensure t : again (EnsureTypeImported t).
Proof. apply again_type. Qed.
Ltac agd := repeat first
  [ progress intros
  | match goal with
    | |- again (sret _) => apply again_ret
    | |- again (spanic _) => apply again_panic
    | |- again (slift _) => apply again_lift
    | |- again (EnsureImported _) => apply again_symbol
    | |- again (EnsureTypeImported _) => apply again_ensure
    | |- again (EnsureAllTypesImported _) => apply again_signature
    | |- again (registerPackage _) => apply again_package
    | |- again (sbind _ _) => apply again_bind
    | |- again (match ?x with _ => _ end) => destruct x
    end ].
Section Data.
Variable implements : gty -> string -> bool.
Variable unsafe : bool.
Variable parent_of : spec -> res (option Package).
Lemma again_elems rec l : Forall (fun x => again (rec x)) l -> forall ok started, again (elems_loop implements rec ok l started).
Proof. induction 1 as [|x l H _ IH]; intros ok started; cbn [elems_loop]; agd; auto. Qed.
Lemma again_fields rec l : Forall (fun x : bool * val => again (rec (snd x))) l ->
  forall addr earlier started, again (fields_loop implements unsafe rec addr earlier l started).
Proof. induction 1 as [|[b x] l H _ IH]; intros addr earlier started; cbn [fields_loop]; unfold getField_qualify; agd; auto. Qed.
Lemma again_map rec l : Forall (fun x : val * val => again (rec (fst x)) /\ again (rec (snd x))) l ->
  forall m started, again (map_loop implements rec l m started).
Proof. induction 1 as [|[k x] l [H1 H2] _ IH]; intros m started; cbn [map_loop]; agd; auto. Qed.
Lemma again_replacement t old d m : replacement implements t old d = Some m -> again m.
Proof. destruct d; cbn [replacement]; intros E; try discriminate; injection E as <-; unfold replace; agd. Qed.
Lemma again_data v : forall addr, again (qualifyTemplateData implements unsafe parent_of addr v).
Proof.
  induction v as [t|t d IH|t fs IH|e|e x IH|t l IH|t l IH|t es IH|p|s|m|s|s r|e|im|n|r|g|o|p|t n] using val_ind';
  intros addr; cbn [qualifyTemplateData];
  match goal with |- again (match replacement _ _ _ _ with _ => _ end) => idtac | _ => agd end.
  - destruct (replacement implements t (VIface t (Some d)) d) as [m|] eqn:E; [eapply again_replacement; eauto|auto].
  - apply again_fields. eapply Forall_impl; [|exact IH]. intros a H. cbn in H. apply H.
  - auto.
  - apply again_elems. eapply Forall_impl; [|exact IH]. intros a H. apply H.
  - apply again_elems. eapply Forall_impl; [|exact IH]. intros a H. apply H.
  - apply again_map. eapply Forall_impl; [|exact IH]. intros a [H H']. split; auto.
Qed.
End Data.
Lemma template_again implements unsafe isPrint verb other texec w d :
  again (tq (template_env implements unsafe isPrint verb other texec) w d).
Proof. cbn [tq template_env]. unfold QualifyTemplateData. destruct d; agd; apply again_data. Qed.
Theorem data_again implements unsafe isPrint verb other texec f w : good_data implements unsafe w f ->
  (forall nm d, template_data w f d -> simple unsafe (world_parent w) nm (data d)) ->
  forall own h fuel F r w1, nth_error (files w) f = Some F -> FImports F = run h (NewImportsFor own) ->
  source (template_env implements unsafe isPrint verb other texec) fuel f w = (r, w1) ->
  source (template_env implements unsafe isPrint verb other texec) fuel f w1 = (r, w1).
Proof.
  intros G SI own h fuel F r w1 EF EI. apply (source_again_with _ own h fuel f w F r w1 EF EI).
  - intros t tm d T E. destruct d as [d|].
    + exists (asked unsafe w (Some d)). split; auto. apply data_asks_for; [apply (G t tm d T E)|].
      intros nm. apply SI. exists t, tm. auto.
    + exists []. split; [apply nil_asks|]. intros x [].
  - intros t _ v d. apply template_again.
Qed.

(** ** In any program *)
Section Program.
Context {TD : Type}.
Variable env : Env TD.
Lemma program_again p f fuel r w1 : imports_by_calls env ->
  no_templates (SpecProgram.after env p empty_world) f -> source env fuel f (SpecProgram.after env p empty_world) = (r, w1) -> source env fuel f w1 = (r, w1).
Proof.
  intros T N E. destruct (nth_error (files (SpecProgram.after env p empty_world)) f) as [F|] eqn:NF.
  - destruct (program_imports env p f F T NF) as [h H]. eapply source_again; eauto.
  - unfold source, qualify_file, sbind, get in *. rewrite NF in E. injection E as <- <-. rewrite NF. auto.
Qed.
(** ** What is kept *)
Lemma source_reached fuel f r w w1 g G : imports_by_calls env -> source env fuel f w = (r, w1) -> nth_error (files w) g = Some G ->
  exists G1 h, nth_error (files w1) g = Some G1 /\ FImports G1 = run h (FImports G).
Proof.
  intros T S E. assert (X : frame by_calls_of w (snd (do_call env (PWrite fuel f) w))).
  { apply framed_call; unfold by_calls_of; eauto using by_calls_refl, by_calls_trans, by_calls_exec. exact Logic.I. }
  assert (Y : snd (do_call env (PWrite fuel f) w) = w1) by (change (snd (source env fuel f w) = w1); rewrite S; reflexivity).
  rewrite Y in X.
  destruct (f_files _ _ _ X) as [_ K]. destruct (K g G E) as (G1 & E1 & _ & _ & _ & (h & H)). exists G1, h. auto.
Qed.
Theorem names_kept fuel f r w w1 own h g G : imports_by_calls env -> source env fuel f w = (r, w1) ->
  nth_error (files w) g = Some G -> FImports G = run h (NewImportsFor own) -> exists G1, nth_error (files w1) g = Some G1 /\
  forall path p, PrefixForPackage path (FImports G) = (Ok p, FImports G) -> PrefixForPackage path (FImports G1) = (Ok p, FImports G1).
Proof.
  intros T S EG EI. destruct (source_reached fuel f r w w1 g G T S EG) as (G1 & h1 & E1 & H1). exists G1. split; auto.
  intros path p P. assert (I : Inv (FImports G)) by (rewrite EI; apply run_new_Inv).
  rewrite H1. destruct (run_keep h1 (FImports G) I) as [I1 X].
  apply (f_equal fst) in P. cbn [fst] in P. apply (PrefixForPackage_iff _ _ _ I) in P as (n & P & ->).
  unfold PrefixForPackage. apply prefix_known; auto. eapply prefix_name_ext; eauto.
Qed.
End Program.
