(** Files whose templates occur once in their code, or have data that may be qualified again. *)
From Verif Require Import Base BaseFacts GoPath Types SpecTypes TypesFacts Imports SpecImports ImportsProofs ImportsTheorems Conv World
  SpecGo SpecRender SpecFile SpecDecl FileTheorems TextTheorems SettleProofs SpecQualify QualifyProofs QualifyTheorems SourceTheorems MeaningProofs SpecTotal TotalProofs TotalTheorems
  Template SpecTemplate TemplateProofs TemplateRuns TemplateTheorems SpecFileTemplate FileTemplates TemplateOnce.

(** ** The marks do not matter for anything else *)
Section Transfer.
Context {TD : Type}.
Notation MW := (World (TD * mark)).
Implicit Types w : MW.
Lemma part_mark w f x : part_of w f x <-> part_of (unmark w) f x.
Proof.
  split; induction 1.
  - eapply (po_const (unmark w)); eauto.
  - eapply (po_var (unmark w)); eauto.
  - eapply (po_type (unmark w)); eauto.
  - eapply (po_func (unmark w)); eauto.
  - eapply (po_const_type (unmark w)); eauto.
  - eapply (po_var_type (unmark w)); eauto.
  - eapply (po_field (unmark w)); eauto.
  - eapply (po_field_type (unmark w)); eauto.
  - eapply (po_elem (unmark w)); eauto.
  - eapply (po_const_init (unmark w)); eauto.
  - eapply (po_var_init (unmark w)); eauto.
  - eapply (po_body (unmark w)); eauto.
  - eapply (po_const w); eauto.
  - eapply (po_var w); eauto.
  - eapply (po_type w); eauto.
  - eapply (po_func w); eauto.
  - eapply (po_const_type w); eauto.
  - eapply (po_var_type w); eauto.
  - eapply (po_field w); eauto.
  - eapply (po_field_type w); eauto.
  - eapply (po_elem w); eauto.
  - eapply (po_const_init w); eauto.
  - eapply (po_var_init w); eauto.
  - eapply (po_body w); eauto.
Qed.
Lemma template_mark w f t : template_of w f t <-> template_of (unmark w) f t.
Proof. split; intros (cb & b & P & B & IN); exists cb, b; (split; [apply part_mark; auto|auto]). Qed.
Lemma refers_mark w a : refers_to (unmark w) a = refers_to w a.
Proof. destruct a; reflexivity. Qed.
Lemma mentions_mark w f r : file_mentions w f r <-> file_mentions (unmark w) f r.
Proof.
  split; intros M; destruct M as [i v P N I|i v P N I|i v P N I|i v P N I|i c s p P N I|i c n s p P N I|i v P N I|cb n k a x P N X I];
    try apply part_mark in P.
  - eapply (fm_const (unmark w)); eauto.
  - eapply (fm_var (unmark w)); eauto.
  - eapply (fm_type (unmark w)); eauto.
  - eapply (fm_field (unmark w)); eauto.
  - eapply (fm_embed (unmark w)); eauto.
  - eapply (fm_method (unmark w)); eauto.
  - eapply (fm_func (unmark w)); eauto.
  - eapply (fm_arg (unmark w)); eauto.
  - eapply (fm_const w); eauto.
  - eapply (fm_var w); eauto.
  - eapply (fm_type w); eauto.
  - eapply (fm_field w); eauto.
  - eapply (fm_embed w); eauto.
  - eapply (fm_method w); eauto.
  - eapply (fm_func w); eauto.
  - eapply (fm_arg w); eauto.
Qed.
Lemma unnamed_mark w f : no_named_specs (unmark w) f -> no_named_specs w f.
Proof.
  intros (A & B & C). split; [|split]; intros i v P N; apply part_mark in P; [eapply A|eapply B|eapply C]; eauto.
Qed.
Lemma whole_mark w a : whole_arg (unmark w) a -> whole_arg w a.
Proof. intros [P|(r & E & W)]; [left; auto|right]. exists r. rewrite <- refers_mark. auto. Qed.
Lemma complete_mark w f : complete (unmark w) f -> complete w f.
Proof.
  intros [A B C D E G H K]. split.
  - intros F e N I. specialize (A F e N I). destruct e; exact A.
  - intros i P. apply part_mark in P. exact (B i P).
  - intros i P. apply part_mark in P. exact (C i P).
  - intros i P. apply part_mark in P. exact (D i P).
  - intros i P. apply part_mark in P. exact (E i P).
  - intros i P. apply part_mark in P. exact (G i P).
  - intros i P. apply part_mark in P. exact (H i P).
  - intros cb P. apply part_mark in P. destruct (K cb P) as (b & NB & L). exists b. split; [exact NB|].
    intros fm args I. destruct (L fm args I) as (l & NA & FA). exists l. split; [exact NA|].
    eapply Forall_impl; [|exact FA]. apply whole_mark.
Qed.
Lemma reaches_mark w f i j : reaches w f i j <-> reaches (unmark w) f i j.
Proof.
  assert (H : forall i j, holds w f i j <-> holds (unmark w) f i j).
  { intros a b. split; intros (P & R); (split; [apply part_mark; auto|exact R]). }
  split; induction 1; [apply r_step|eapply r_more|apply r_step|eapply r_more]; eauto; apply H; auto.
Qed.
Lemma no_cycle_mark w f : no_cycle w f <-> no_cycle (unmark w) f.
Proof. split; intros N i R; apply (N i), reaches_mark, R. Qed.
End Transfer.
Lemma plan_templates (w : World (option val)) f : file_plan f (bones_of w) = file_templates w f.
Proof.
  unfold file_plan, file_templates. cbn [bones_of bFiles]. rewrite nth_error_map. destruct (nth_error (files w) f) as [F|]; auto.
  cbn [option_map].
  assert (B : forall cb, block_plan cb (bones_of w) = block_templates w cb).
  { intros cb. unfold block_plan, block_templates. cbn [bones_of bBlocks]. destruct (nth_error (blocks w) cb); auto. }
  apply flat_map_ext. intros [d|d|d|i]; cbn [element_plan element_templates bones_of bConstDecls bVarDecls bFuncs]; auto.
  - destruct (nth_error (constDecls w) d) as [D|]; auto. apply flat_map_ext. intros i. unfold value_plan, value_templates.
    cbn [bones_of bConsts]. rewrite nth_error_map. destruct (nth_error (consts w) i) as [v|]; auto.
  - destruct (nth_error (varDecls w) d) as [D|]; auto. apply flat_map_ext. intros i. unfold value_plan, value_templates.
    cbn [bones_of bVars]. rewrite nth_error_map. destruct (nth_error (vars w) i) as [v|]; auto.
  - rewrite nth_error_map. destruct (nth_error (funcs w) i) as [F'|]; auto.
Qed.

(** The meaning of a file depends on the text of its code only. *)
Lemma meaning_ext {TD} q (w : World TD) c1 c2 fuel F : (forall cb, c1 cb = c2 cb) ->
  file_meaning_with q w c1 fuel F = file_meaning_with q w c2 fuel F.
Proof.
  intros E. unfold file_meaning_with. destruct (_ && _); auto.
  assert (EL : forall e, element_meaning_with q w c1 fuel e = element_meaning_with q w c2 fuel e); [|rewrite (map_ext _ _ EL); auto].
  assert (GV : forall b v, gvalue_meaning_with q w c1 b v = gvalue_meaning_with q w c2 b v).
  { intros b v. unfold gvalue_meaning_with. destruct (value_meaning_with q w v) as [[n t]|]; auto. cbn [obind].
    destruct (VInit v) as [cb|]; auto. unfold init_meaning. rewrite E. auto. }
  intros [d|d|d|i]; cbn [element_meaning_with]; auto.
  - destruct (nth_error (constDecls w) d); auto. cbn [obind]. destruct (lookup_all _ _); auto. cbn [obind]. rewrite (map_ext _ _ (GV true)). auto.
  - destruct (nth_error (varDecls w) d); auto. cbn [obind]. destruct (lookup_all _ _); auto. cbn [obind]. rewrite (map_ext _ _ (GV false)). auto.
  - destruct (nth_error (funcs w) i); auto. cbn [obind]. destruct (func_meaning_with q f) as [[[rc n] s]|]; auto. cbn [obind].
    unfold body_meaning. rewrite E. auto.
Qed.

(** ** Data with marks *)
Section Asks.
Context {TD : Type}.
Variable env : Env TD.
Lemma skel_mark (w : World (TD * mark)) : skel (unmark w) = unmark (skel w).
Proof. reflexivity. Qed.
Lemma ask_once (w : World (TD * mark)) d l :
  (forall v i, skel v = skel (unmark w) -> Inv i -> tq env v d i = tq env (skel (unmark w)) d i) ->
  (forall i d' i', Inv i -> tq env (skel (unmark w)) d i = (Ok d', i') -> i' = fold_left reg_pair l i) ->
  data_asks (mark_env env) w (d, First) l.
Proof.
  intros A B. split.
  - intros w' i SK Hi. cbn [tq mark_env]. unfold mark_tq. cbn [fst snd]. rewrite (A (unmark w')); auto.
    rewrite skel_mark, SK. reflexivity.
  - intros i d' i' Hi E. cbn [tq mark_env] in E. unfold mark_tq in E. cbn [fst snd] in E. rewrite <- skel_mark in E.
    destruct (tq env (skel (unmark w)) d i) as [[x|e] i1] eqn:Q; [|discriminate]. injection E as <- <-.
    split; [eapply B; eauto|]. intros w' j _ _ _. reflexivity.
Qed.
Lemma ask_again (w : World (TD * mark)) d l : data_asks env (unmark w) d l -> data_asks (mark_env env) w (d, Again) l.
Proof.
  intros [A B]. split.
  - intros w' i SK Hi. cbn [tq mark_env]. unfold mark_tq. cbn [fst snd]. rewrite (A (unmark w')); auto.
    rewrite skel_mark, SK. reflexivity.
  - intros i d' i' Hi E. cbn [tq mark_env] in E. unfold mark_tq in E. cbn [fst snd] in E. rewrite <- skel_mark in E.
    destruct (tq env (skel (unmark w)) d i) as [[x|e] i1] eqn:Q; [|discriminate]. injection E as <- <-.
    destruct (B i x i1 Hi Q) as [F C]. split; auto. intros w' j SK Hj X. cbn [tq mark_env]. unfold mark_tq. cbn [fst snd].
    rewrite (C (unmark w') j); auto. rewrite !skel_mark, SK. reflexivity.
Qed.
End Asks.

(** ** The file *)
Section File.
Variable implements : gty -> string -> bool.
Variable unsafe : bool.
Variables (isPrint : N -> bool) (verb : World (option val) -> ascii -> Arg -> string)
  (other : World (option val) -> string -> list Arg -> string)
  (texec : World (option val) -> nat -> option val -> res string).
Notation env := (template_env implements unsafe isPrint verb other texec).
Notation menv := (mark_env env).
Notation asked := (asked unsafe).
Notation tq_skel := (tq_skel implements unsafe isPrint verb other texec).
Implicit Types w : World (option val).
Section One.
Variables (f : nat) (w : World (option val)).
Hypothesis G : good_data implements unsafe w f.
Notation W := (mark_world f w).
Definition asked2 (d : option val * mark) := asked w (fst d).
Lemma marked_data t tm d m : nth_error (templs W) t = Some (tm, (d, m)) ->
  nth_error (templs w) t = Some (tm, d) /\
  (m = First /\ count_occ Nat.eq_dec (file_templates w f) t <= 1 \/ m = Again /\ ~ count_occ Nat.eq_dec (file_templates w f) t <= 1).
Proof.
  cbn [mark_world templs]. rewrite nth_marked. cbn [Nat.add]. destruct (nth_error (templs w) t) as [[tm' d']|]; [|discriminate].
  cbn [option_map fst snd]. intros [= <- <- <-]. split; auto. unfold choose. rewrite plan_templates.
  destruct (Nat.leb_spec (count_occ Nat.eq_dec (file_templates w f) t) 1); [left|right]; split; auto; lia.
Qed.
Lemma data_marked t tm d : nth_error (templs w) t = Some (tm, d) ->
  exists m, nth_error (templs W) t = Some (tm, (d, m)) /\ (m = First \/ m = Again).
Proof.
  intros E. cbn [mark_world templs]. rewrite nth_marked, E. cbn. eexists. split; [reflexivity|]. unfold choose. destruct (Nat.leb _ 1); auto.
Qed.
Lemma template_W t : template_of W f t <-> template_of w f t.
Proof. rewrite template_mark, unmark_world. tauto. Qed.
Lemma marked_ask : templates_ask menv asked2 W f.
Proof.
  intros t tm [d m] T E. apply template_W in T. destruct (marked_data t tm d m E) as [E0 M]. unfold asked2. cbn [fst].
  destruct d as [d|].
  2:{ destruct M as [[-> _]|[-> _]]; [apply ask_once|apply ask_again]; cbn [FileTemplates.asked]; rewrite ?unmark_world.
      - intros; reflexivity. - intros i d' i' _ [= <- <-]. reflexivity. - apply nil_asks. }
  destruct (G t tm d T E0) as [TY SI]. destruct M as [[-> C]|[-> C]].
  - apply ask_once; rewrite unmark_world.
    + intros v i SK _. apply tq_skel. auto.
    + intros i d' i' Hi Q. rewrite <- (tq_skel w w) in Q by auto. cbn [tq template_env] in Q.
      apply (data_after implements unsafe (world_parent w) d i d' i' Hi TY Q).
  - apply ask_again. rewrite unmark_world. apply data_asks_for; auto. destruct SI; [contradiction|auto].
Qed.
Lemma marked_mentions r : template_asks asked2 W f r <-> data_mentions unsafe w f r.
Proof.
  split.
  - intros (t & tm & [[d|] m] & T & E & IN); [|destruct IN]. apply template_W in T. destruct (marked_data _ _ _ _ E) as [E0 _].
    exists d. split; auto. exists t, tm. auto.
  - intros (d & (t & tm & T & E) & IN). destruct (data_marked t tm (Some d) E) as (m & E2 & _). exists t, tm, (Some d, m). split; [apply template_W; auto|auto].
Qed.
Lemma marked_ok (R : string * string -> Prop) : (forall r, data_mentions unsafe w f r -> R r) -> templates_ok menv W f R.
Proof. intros H. apply (templates_ask_ok menv asked2); [apply marked_ask|]. intros r A. apply H, marked_mentions, A. Qed.
Lemma mentions_W r : file_mentions W f r <-> file_mentions w f r.
Proof. rewrite mentions_mark, unmark_world. tauto. Qed.
Lemma marked_source fuel r w1 : source env fuel f w = (r, w1) -> exists W1, source menv fuel f W = (r, W1) /\ w1 = unmark W1.
Proof.
  intros S. destruct (source_same env fuel f W (mark_ready f w)) as (r' & W1 & A & B). rewrite unmark_world in B. exists W1. split; congruence.
Qed.
Lemma marked_qualify fuel r w1 : qualify_file env fuel f w = (r, w1) -> exists W1, qualify_file menv fuel f W = (r, W1) /\ w1 = unmark W1.
Proof.
  intros S. destruct (qualify_same env fuel f W (mark_ready f w)) as (r' & W1 & A & B). rewrite unmark_world in B. exists W1. split; congruence.
Qed.
Lemma source_marked fuel r W1 : source menv fuel f W = (r, W1) -> source env fuel f w = (r, unmark W1).
Proof.
  intros S. destruct (source_same env fuel f W (mark_ready f w)) as (r' & W1' & A & B). rewrite unmark_world in B. congruence.
Qed.
Lemma qualify_marked fuel r W1 : qualify_file menv fuel f W = (r, W1) -> qualify_file env fuel f w = (r, unmark W1).
Proof.
  intros S. destruct (qualify_same env fuel f W (mark_ready f w)) as (r' & W1' & A & B). rewrite unmark_world in B. congruence.
Qed.

Theorem once_imports own h fuel F s w1 :
  nth_error (files w) f = Some F -> FImports F = run h (NewImportsFor own) -> source env fuel f w = (Ok s, w1) ->
  exists F1, nth_error (files w1) f = Some F1 /\
    forall path, In path (listed (FImports F1)) <->
      In path (listed (FImports F)) \/ path <> own /\ exists n, file_mentions w f (path, n) \/ data_mentions unsafe w f (path, n).
Proof.
  intros EF EI S. destruct (marked_source fuel _ _ S) as (W1 & S1 & ->).
  destruct (imports_exact_with menv asked2 own h fuel f W F s W1 EF EI marked_ask S1) as (F1 & E1 & H).
  exists F1. split; [exact E1|]. intros path. rewrite H.
  split; intros [L|[N (n & L)]]; auto; right; (split; [exact N|]); exists n; rewrite mentions_W, marked_mentions in *; auto.
Qed.
Theorem once_data_after own h fuel F s w1 :
  nth_error (files w) f = Some F -> FImports F = run h (NewImportsFor own) -> source env fuel f w = (Ok s, w1) ->
  exists F1, nth_error (files w1) f = Some F1 /\
  (forall t tm d, template_of w f t -> nth_error (templs w) t = Some (tm, Some d) ->
    exists r c, nth_error (templs w1) t = Some (tm, r) /\
      renamed implements unsafe (world_parent w) (name_in (FImports F1)) c (data d) (VIface any r) /\
      forall p n, In (p, n) (data_requests unsafe (world_parent w) (data d)) -> written_as (FImports F1) p (name_in (FImports F1) p)) /\
  (forall t, ~ template_of w f t -> nth_error (templs w1) t = nth_error (templs w) t).
Proof.
  intros EF EI S. destruct (marked_source fuel _ _ S) as (W1 & S1 & ->). destruct (source_split _ _ _ _ _ _ S1) as (Q & _).
  assert (IF : Inv (FImports F)) by (rewrite EI; apply run_new_Inv).
  assert (TO : templates_ok menv W f (fun _ => True)) by (apply marked_ok; auto).
  assert (HR : forall r, file_mentions W f r -> (fun _ => True) r) by auto.
  destruct (file_after menv fuel f W W1 F _ EF IF TO HR Q) as (F1 & E1 & EI1 & _ & _ & I1). exists F1. split; [exact E1|]. split.
  - intros t tm d T E. destruct (data_marked t tm (Some d) E) as (m & E2 & M).
    destruct (template_after menv fuel f W W1 F _ EF IF TO HR Q t tm (Some d, m) (proj2 (template_W t) T) E2) as ([r m'] & j & j' & ER & Ij & TQ & Ij' & X).
    assert (TQ' : tq env w (Some d) j = (Ok r, j')).
    { cbn [tq mark_env] in TQ. unfold mark_tq in TQ. cbn [fst snd] in TQ. rewrite <- skel_mark, unmark_world, <- (tq_skel w w) in TQ by auto.
      destruct (tq env w (Some d) j) as [[x|e] i1]; destruct M as [-> | ->]; congruence. }
    cbn [tq template_env] in TQ'. destruct (G t tm d T E) as [TY _].
    destruct (data_after implements unsafe (world_parent w) d j r j' Ij TY TQ') as (A & (c & RN) & _).
    exists r, c. split; [cbn [unmark templs]; rewrite nth_error_map, ER; reflexivity|]. rewrite <- EI1 in X. split; [apply RN; auto|].
    intros p n IN. pose proof (after_prefix _ j p n Ij IN) as K. unfold TemplateProofs.after in K. rewrite <- A in K.
    destruct (prefix_name j' p) as [q|] eqn:PN; [|congruence]. apply (prefix_name_ext j' (FImports F1)) in PN; auto.
    apply written_iff; auto. rewrite PN. f_equal. symmetry. apply name_in_prefix; auto.
  - destruct (others_unchanged_with menv own h fuel f W F s W1 EF EI TO S1) as (_ & _ & _ & _ & _ & _ & (_ & H) & _).
    intros t N. cbn [unmark templs]. rewrite nth_error_map, H by (rewrite template_W; exact N). rewrite <- nth_error_map.
    change (map _ (templs W)) with (templs (unmark W)). rewrite unmark_world. auto.
Qed.
Theorem once_references real own h fuel F s w1 :
  nth_error (files w) f = Some F -> FImports F = run h (NewImportsFor own) ->
  forallb call_ok h = true -> (forall c, In c h -> honest real c) -> (forall c, In c h -> usable_requests c) ->
  (forall r, file_mentions w f r \/ data_mentions unsafe w f r -> right_name real r /\ usable_name r) ->
  source env fuel f w = (Ok s, w1) ->
  exists F1, nth_error (files w1) f = Some F1 /\
  forall cb n k a r verb, part_of w f (IBlock cb) -> argument w cb n k = Some a -> refers_to w a = Some r ->
    verb = "s"%char \/ verb = "v"%char ->
    (forall sg, r <> RSignature sg) ->
    (forall s m, r = RMethod s m -> method_by_value a = true \/
       has_package s = true /\ ~ keeps_name (FImports F1) (SymPackage s)) ->
    exists a1, argument w1 cb n k = Some a1 /\
      written real own (ImportSpecs (FImports F1)) r (fmt_arg env w1 verb a1).
Proof.
  intros EF EI OK HON US HR S. destruct (marked_source fuel _ _ S) as (W1 & S1 & ->).
  destruct (references_written_with menv real own h fuel f W F s W1 EF EI OK HON US) as (F1 & E1 & H); auto.
  - apply marked_ok. auto.
  - intros r M. apply HR. left. apply mentions_W. auto.
  - exists F1. split; [exact E1|]. intros cb n k a r vb P A RF V NS NM.
    destruct (H cb n k a r vb) as (a1 & EA & WR); auto.
    + apply part_mark. rewrite unmark_world. auto.
    + exists a1. split; [exact EA|]. exact WR.
Qed.
Theorem once_means real own h fuel F s w1 g0 :
  nth_error (files w) f = Some F -> FImports F = run h (NewImportsFor own) ->
  forallb call_ok h = true -> (forall c, In c h -> honest real c) -> (forall c, In c h -> usable_requests c) ->
  no_named_specs w f ->
  (forall r, file_mentions w f r \/ data_mentions unsafe w f r -> right_name real r /\ usable_name r) ->
  source env fuel f w = (Ok s, w1) ->
  file_meaning_with (path_qualifier own) w (block_text env w1) fuel F = Some g0 ->
  exists F1 g, nth_error (files w1) f = Some F1 /\ parse_file s = Some g /\
    map import_of (GImports g) = ImportSpecs (FImports F1) /\
    resolve_file real g = Some (mkGFile (GPackage g0) (GImports g) (GDecls g0)).
Proof.
  intros EF EI OK HON US NN HR S M. destruct (marked_source fuel _ _ S) as (W1 & S1 & ->).
  apply (source_means_with menv real own h fuel f W F s W1 g0 EF EI OK HON US); auto.
  - apply marked_ok. auto.
  - apply unnamed_mark. rewrite unmark_world. auto.
  - intros r X. apply HR. left. apply mentions_W. auto.
  - rewrite <- M. rewrite <- (unmark_world f w) at 2.
    transitivity (file_meaning_with (path_qualifier own) W (block_text env (unmark W1)) fuel F); [|reflexivity].
    apply meaning_ext. intros cb. unfold block_text. rewrite block_text_same. auto.
Qed.

(** ** Success *)
Lemma marked_there F : nth_error (files w) f = Some F -> Inv (FImports F) -> whole_data unsafe w f -> templates_there menv W f.
Proof.
  intros EF IF [W1 W2] t T. apply template_W in T. specialize (W1 t T). destruct (nth_error (templs w) t) as [[tm d]|] eqn:E; [|congruence].
  cbn [mark_world templs]. rewrite nth_marked, E. cbn [option_map fst snd Nat.add].
  exists tm, (d, choose (file_plan f (bones_of w)) t). split; auto. unfold choose. rewrite plan_templates.
  destruct d as [d|].
  2:{ intros j Hj X. destruct (Nat.leb _ 1); eexists _, j; (split; [reflexivity|]); (split; [apply ext_refl|]); intros; reflexivity. }
  assert (D : template_data w f d) by (exists t, tm; auto). destruct (G t tm d T E) as [TY SI]. destruct (W2 d D) as [RD ST].
  intros j Hj X. destruct (data_runs implements unsafe (world_parent w) d j Hj TY RD ST) as (r & j' & E').
  destruct (data_after implements unsafe (world_parent w) d j r j' Hj TY E') as (A & _ & H).
  assert (EQ : tq env (unmark (skel W)) (Some d) j = (Ok r, j')).
  { rewrite <- skel_mark, unmark_world, <- (tq_skel w w) by auto. exact E'. }
  assert (X' : ext j j') by (rewrite A; apply fold_reg_keep; auto).
  destruct (Nat.leb_spec (count_occ Nat.eq_dec (file_templates w f) t) 1) as [LE|GT].
  - exists (r, Done), j'. split; [cbn [tq mark_env]; unfold mark_tq; cbn [fst snd]; rewrite EQ; reflexivity|]. split; auto.
  - exists (r, Again), j'. split; [cbn [tq mark_env]; unfold mark_tq; cbn [fst snd]; rewrite EQ; reflexivity|]. split; auto.
    intros k Hk XK. destruct SI as [|SI]; [lia|]. cbn [tq mark_env]. unfold mark_tq. cbn [fst snd].
    rewrite <- skel_mark, unmark_world, <- (tq_skel w w) by auto. cbn [tq template_env]. rewrite H by auto. reflexivity.
Qed.
Lemma execute_marked W1 : templates_execute (unmark W1) f texec -> templates_run menv W1 f.
Proof.
  intros H t tm [d m] T E. apply (H t tm d); [apply template_mark; auto|]. cbn [unmark templs]. rewrite nth_error_map, E. reflexivity.
Qed.
Lemma complete_W : complete w f -> complete W f.
Proof. intros C. apply complete_mark. rewrite unmark_world. auto. Qed.
Lemma no_cycle_W : no_cycle W f <-> no_cycle w f.
Proof. rewrite no_cycle_mark, unmark_world. tauto. Qed.
Theorem once_total own h F fuel :
  nth_error (files w) f = Some F -> FImports F = run h (NewImportsFor own) -> complete w f ->
  whole_data unsafe w f -> no_cycle w f -> List.length (types w) <= fuel ->
  exists w1, qualify_file env fuel f w = (Ok tt, w1) /\
    (templates_execute w1 f texec -> exists s, source env fuel f w = (Ok s, w1)).
Proof.
  intros EF EI C WD NC LE. assert (IF : Inv (FImports F)) by (rewrite EI; apply run_new_Inv).
  destruct (source_total_with menv own h f W F EF EI) with (fuel := fuel) as (W1 & Q & H); auto.
  - apply marked_ok; auto.
  - apply complete_W; auto.
  - eapply marked_there; eauto.
  - apply no_cycle_W; auto.
  - exists (unmark W1). split; [apply qualify_marked; auto|]. intros TX. destruct (H (execute_marked W1 TX)) as (s & E).
    exists s. apply source_marked; auto.
Qed.
Theorem once_endless own h F :
  nth_error (files w) f = Some F -> FImports F = run h (NewImportsFor own) -> complete w f ->
  whole_data unsafe w f -> ~ no_cycle w f ->
  forall fuel, exists w1, source env fuel f w = (Panic out_of_fuel, w1).
Proof.
  intros EF EI C WD NC fuel. assert (IF : Inv (FImports F)) by (rewrite EI; apply run_new_Inv).
  destruct (source_endless_with menv own h f W F EF EI) with (fuel := fuel) as (W1 & H); auto.
  - apply marked_ok; auto.
  - apply complete_W; auto.
  - eapply marked_there; eauto.
  - rewrite no_cycle_W; auto.
  - exists (unmark W1). apply source_marked; auto.
Qed.
Theorem once_failures own h F fuel m w1 :
  nth_error (files w) f = Some F -> FImports F = run h (NewImportsFor own) -> complete w f ->
  whole_data unsafe w f ->
  source env fuel f w = (Panic m, w1) -> m = out_of_fuel \/ ~ templates_execute w1 f texec.
Proof.
  intros EF EI C WD S. assert (IF : Inv (FImports F)) by (rewrite EI; apply run_new_Inv).
  destruct (marked_source fuel _ _ S) as (W1 & S1 & ->).
  destruct (source_ends_with menv own h f W F EF EI) with (fuel := fuel) as [(w2 & Q & H)|(w2 & H)]; auto.
  - apply marked_ok; auto.
  - apply complete_W; auto.
  - eapply marked_there; eauto.
  - right. intros TX. assert (w2 = W1).
    { unfold source, sbind in S1. rewrite Q in S1. cbn in S1. unfold get in S1. destruct (nth_error (files w2) f); cbn in S1; unfold from_res in S1; congruence. }
    subst w2. destruct (H (execute_marked W1 TX)) as (s & E). congruence.
  - left. congruence.
Qed.
End One.
End File.
