(** Writing a file twice when its templates are given specs of files that keep their names. *)
From Verif Require Import Base BaseFacts GoPath Types SpecTypes TypesFacts Imports SpecImports ImportsProofs ImportsTheorems Conv World
  SpecGo SpecRender SpecFile SpecDecl FileTheorems TextTheorems SettleProofs SpecQualify QualifyProofs QualifyTheorems SourceTheorems MeaningProofs SpecTotal TotalProofs TotalTheorems
  Template SpecTemplate TemplateProofs TemplateRuns TemplateTheorems SpecFileTemplate FileTemplates TemplateOnce OnceTheorems QuietProofs.

Lemma J_fewer {TD} (env : Env TD) f R (P P' : loc -> Prop) w : (forall l, P' l -> P l) -> J env f R P w -> J env f R P' w.
Proof. intros H [A B C]. split; auto. intros l x PL. apply C. auto. Qed.
Lemma target_mark {TD} (w : World (TD * mark)) a : arg_target (unmark w) a = arg_target w a.
Proof. destruct a; reflexivity. Qed.

Definition strip {TD} (x : content (TD := TD * mark)) : content (TD := TD) :=
  match x with CT t => CT t | CS s => CS s | CY y => CY y | CA a => CA a | CD d => CD (fst d) end.
Lemma cont_mark {TD} (w : World (TD * mark)) l : cont (unmark w) l = option_map strip (cont w l).
Proof.
  destruct l as [i|i|i|i|i|i|args k|t]; cbn [cont unmark consts vars types World.fields ielems funcs argss templs]; unfold obind.
  - destruct (nth_error (consts w) i) as [v|]; auto. destruct (VSType v); auto.
  - destruct (nth_error (vars w) i) as [v|]; auto. destruct (VSType v); auto.
  - destruct (nth_error (types w) i); auto.
  - destruct (nth_error (World.fields w) i) as [v|]; auto. destruct (FSType v); auto.
  - destruct (nth_error (ielems w) i) as [[]|]; auto.
  - destruct (nth_error (funcs w) i); auto.
  - destruct (nth_error (argss w) args) as [v|]; auto. destruct (nth_error v k); auto.
  - rewrite nth_error_map. destruct (nth_error (templs w) t) as [[]|]; auto.
Qed.
(** Only the names of the packages asked for matter. *)
Lemma simple_names unsafe parent_of nm nm' v :
  (forall p n, In (p, n) (data_requests unsafe parent_of v) -> nm' p = nm p) -> simple unsafe parent_of nm v -> simple unsafe parent_of nm' v.
Proof.
  induction v as [t|t d IH|t fs IH|e|e x IH|t l IH|t l IH|t es IH|p|s|m|s|s r|e|im|n|r|g|o|p|t n] using val_ind';
    cbn [simple data_requests]; auto.
  - intros H. destruct (as_type d) as [n|] eqn:A; [destruct d; try discriminate A; auto|].
    destruct (denotes d) as [[r|m]|] eqn:D; [destruct d; try discriminate D; auto|destruct d; try discriminate D; auto|]. apply IH. auto.
  - induction IH as [|f l H _ IH]; cbn [fold_right flat_map]; auto. intros N [A B]. split.
    + intros V. apply H; auto. intros p n IN. apply (N p n), in_or_app. left. apply orb_true_iff in V. rewrite V. auto.
    + apply IH; auto. intros p n IN. apply (N p n), in_or_app. auto.
  - intros H [A B]. auto.
  - induction IH as [|f l H _ IH]; cbn [fold_right flat_map]; auto. intros N [A B].
    split; [apply H|apply IH]; auto; intros p n IN; apply (N p n), in_or_app; auto.
  - induction IH as [|f l H _ IH]; cbn [fold_right flat_map]; auto. intros N [A B].
    split; [apply H|apply IH]; auto; intros p n IN; apply (N p n), in_or_app; auto.
  - induction IH as [|f l [H1 H2] _ IH]; cbn [fold_right flat_map]; auto. intros N (A & B & C).
    split; [apply H1|split; [apply H2|apply IH]]; auto; intros p n IN; apply (N p n), in_or_app; rewrite in_app_iff; auto.
  - intros N H p SP. rewrite SP in N. destruct (H p SP) as [<- | ]; auto. left. apply (N _ (PkgName p)). left. reflexivity.
Qed.

Section Twice.
Variable implements : gty -> string -> bool.
Variable unsafe : bool.
Variables (isPrint : N -> bool) (verb : World (option val) -> ascii -> Arg -> string)
  (other : World (option val) -> string -> list Arg -> string)
  (texec : World (option val) -> nat -> option val -> res string).
Notation env := (template_env implements unsafe isPrint verb other texec).
Notation menv := (mark_env env).
Notation tq_skel := (tq_skel implements unsafe isPrint verb other texec).
Implicit Types w : World (option val).
Notation AnyR := (fun _ : string * string => True).
Theorem once_twice f w : good_data implements unsafe w f -> forall own h fuel F s w1 F1,
  nth_error (files w) f = Some F -> FImports F = run h (NewImportsFor own) ->
  source env fuel f w = (Ok s, w1) -> nth_error (files w1) f = Some F1 ->
  (forall d, template_data w f d -> simple unsafe (world_parent w) (name_in (FImports F1)) (data d)) ->
  source env fuel f w1 = (Ok s, w1).
Proof.
  intros G own h fuel F s w1 F1 EF EI S E1 SI.
  destruct (source_split _ _ _ _ _ _ S) as (Q & F1' & E1' & GW). assert (F1' = F1) as -> by congruence.
  assert (QQ : qualify_file env fuel f w1 = (Ok tt, w1)); [|eapply source_join; eauto].
  clear S GW E1'. destruct (marked_qualify implements unsafe isPrint verb other texec f w fuel _ _ Q) as (W1 & Q1 & ->).
  set (W := mark_world f w) in *.
  assert (IF : Inv (FImports F)) by (rewrite EI; apply run_new_Inv).
  assert (TO : templates_ok menv W f AnyR) by (apply marked_ok; auto).
  assert (HR : forall r, file_mentions W f r -> AnyR r) by auto.
  destruct (QualifyTheorems.after menv fuel f W W1 F AnyR EF IF TO HR Q1) as (L & D & _ & AG).
  pose proof (J_w menv f W F AnyR EF IF TO HR) as JW.
  pose proof (J_le _ _ _ _ _ _ JW L) as JW1.
  set (Pl := fun l => In l (plan_file f fuel (skel W))).
  assert (IE : imp f W1 = FImports F1) by (unfold imp; cbn [unmark files] in E1; rewrite E1; auto).
  assert (SKU : skel (unmark W1) = skel w).
  { rewrite skel_mark, (le_skel _ _ _ _ _ L). unfold W. rewrite <- skel_mark, unmark_world. auto. }
  assert (D2 : forall l, Pl l -> done env f l (unmark W1)).
  { intros l PL x C. pose proof (D l PL) as DL. unfold done in DL. change (imp f (unmark W1)) with (imp f W1).
    assert (SCO : in_scope W f l) by (apply (plan_Pl fuel f W); exact PL).
    destruct x as [t|sg|y|a|d].
    - assert (C' : cont W1 l = Some (CT t)).
      { rewrite cont_mark in C. destruct (cont W1 l) as [[]|]; try discriminate. injection C as ->. auto. }
      destruct (DL _ C') as [A _]. split; auto. intros j Hj X. specialize (A j Hj X). cbn [act] in *.
      unfold sbind, sret in *. destruct (EnsureTypeImported t j) as [[[t' b]|e] i]; congruence.
    - assert (C' : cont W1 l = Some (CS sg)).
      { rewrite cont_mark in C. destruct (cont W1 l) as [[]|]; try discriminate. injection C as ->. auto. }
      destruct (DL _ C') as [A _]. split; auto. intros j Hj X. specialize (A j Hj X). cbn [act] in *.
      unfold sbind, sret in *. destruct (EnsureAllTypesImported sg j) as [[[t' b]|e] i]; congruence.
    - assert (C' : cont W1 l = Some (CY y)).
      { rewrite cont_mark in C. destruct (cont W1 l) as [[]|]; try discriminate. injection C as ->. auto. }
      destruct (DL _ C') as [A _]. split; auto. intros j Hj X. specialize (A j Hj X). cbn [act] in *.
      unfold sbind, sret in *. destruct (EnsureImported y j) as [[t'|e] i]; congruence.
    - assert (C' : cont W1 l = Some (CA a)).
      { rewrite cont_mark in C. destruct (cont W1 l) as [[]|]; try discriminate. injection C as ->. auto. }
      destruct (DL _ C') as [A _]. split; auto. intros j Hj X. specialize (A j Hj X). cbn [act] in *.
      rewrite target_mark. unfold sbind, sret, slift in *. destruct (arg_target W1 a) as [t|e]; [|congruence].
      destruct (target_act a t j) as [[t'|e] i]; congruence.
    - assert (CALM : calm env (unmark W1) (imp f W1) d).
      { destruct (cont_data (unmark W1) l d C) as (t & tm & -> & E). cbn [in_scope] in SCO.
        pose proof (le_tnames _ _ _ _ _ L) as TN. cbn [unmark templs] in E. rewrite nth_error_map in E.
        destruct (nth_error (templs W1) t) as [[tm1 [d1 m1]]|] eqn:EW1; [|discriminate]. injection E as <- <-.
        assert (exists d0 m0, nth_error (templs W) t = Some (tm1, (d0, m0))) as (d0 & m0 & E0).
        { unfold tnames in TN. apply (f_equal (fun l => nth_error l t)) in TN. rewrite !nth_error_map, EW1 in TN.
          destruct (nth_error (templs W) t) as [[tm0 [d0 m0]]|]; [|discriminate]. cbn in TN. injection TN as <-. eauto. }
        destruct (marked_data verb other texec f w t tm1 d0 m0 E0) as [E0' M].
        destruct (template_after menv fuel f W W1 F AnyR EF IF TO HR Q1 t tm1 (d0, m0) SCO E0) as ([r m'] & j & j' & ER & Ij & TQ & Ij' & X).
        rewrite EW1 in ER. injection ER as <- <-.
        assert (TQ' : tq env w d0 j = (Ok d1, j')).
        { cbn [tq mark_env] in TQ. unfold mark_tq in TQ. cbn [fst snd] in TQ. unfold W in TQ.
          rewrite <- skel_mark, unmark_world, <- (tq_skel w w) in TQ by auto.
          destruct (tq env w d0 j) as [[x|e] i1]; destruct M as [[-> _]|[-> _]]; congruence. }
        apply (template_W verb other texec f w) in SCO. cbn [tq template_env] in TQ'.
        destruct d0 as [d0|]; [|injection TQ' as <- <-; intros w' k _ _ _; reflexivity].
        destruct (G t tm1 d0 SCO E0') as [TY _].
        destruct (data_after implements unsafe (world_parent w) d0 j d1 j' Ij TY TQ') as (A & _ & H).
        intros w' k SK Hk XK. rewrite (tq_skel w w') by congruence. rewrite <- (tq_skel w w) by auto. cbn [tq template_env].
        apply H; auto; [eapply ext_trans; eauto|].
        apply (simple_names unsafe (world_parent w) (name_in (FImports F1))); [|apply SI; exists t, tm1; auto].
        intros p n IN. pose proof (after_prefix _ j p n Ij IN) as K. unfold TemplateProofs.after in K. rewrite <- A in K.
        destruct (prefix_name j' p) as [q|] eqn:PN; [|congruence]. rewrite IE in *.
        rewrite (name_in_prefix k p q Hk), (name_in_prefix (FImports F1) p q); auto.
        - rewrite <- IE. apply (j_inv _ _ _ _ _ JW1).
        - eapply prefix_name_ext; eauto.
        - eapply prefix_name_ext; [|exact PN]. eapply ext_trans; eauto. }
      split; [|exact CALM]. intros j Hj X. cbn [act]. unfold sbind. rewrite (CALM (skel (unmark W1)) j); auto. apply skel_skel. }
  assert (J1 : J menv f AnyR Pl W1) by (eapply J_fewer; [|exact JW1]; apply (plan_Pl fuel f W)).
  assert (J2 : J env f AnyR Pl (unmark W1)).
  { split; [cbn [unmark files] in E1 |- *; congruence|exact (j_inv _ _ _ _ _ JW1)|].
    intros l x PL C. right. apply (D2 l PL x C). }
  destruct (rel_file menv env f Pl W1 (templs (unmark W1))) with (fuel := fuel) as (r & A & B); auto.
  - cbn [unmark templs]. rewrite map_map. reflexivity.
  - intros l IN. rewrite (le_skel _ _ _ _ _ L) in IN. exact IN.
  - rewrite A in AG. injection AG as ->. exact B.
Qed.
End Twice.
