(** Files that share nothing: writing one leaves what the other says as it was. *)
From Verif Require Import Base GoPath Types SpecTypes Imports SpecImports ImportsProofs SpecGo SpecRender Conv World
  SpecFile SpecDecl FileTheorems SpecQualify SettleProofs QualifyProofs QualifyTheorems SourceTheorems MeaningProofs.

Section Unshared.
Context {TD : Type}.
Variables (w w1 : World TD) (f : nat).
(** Every table entry that belongs to [f] is the same in both worlds. *)
Record same : Prop :=
  { s_file : nth_error (files w1) f = nth_error (files w) f;
    s_cd : constDecls w1 = constDecls w; s_vd : varDecls w1 = varDecls w; s_td : typeDecls w1 = typeDecls w;
    s_blocks : blocks w1 = blocks w;
    s_const : forall i, part_of w f (IConst i) -> nth_error (consts w1) i = nth_error (consts w) i;
    s_var : forall i, part_of w f (IVar i) -> nth_error (vars w1) i = nth_error (vars w) i;
    s_type : forall i, part_of w f (IType i) -> nth_error (types w1) i = nth_error (types w) i;
    s_field : forall i, part_of w f (IField i) -> nth_error (fields w1) i = nth_error (fields w) i;
    s_elem : forall i, part_of w f (IElem i) -> nth_error (ielems w1) i = nth_error (ielems w) i;
    s_func : forall i, part_of w f (IFunc i) -> nth_error (funcs w1) i = nth_error (funcs w) i;
    s_args : forall a, uses_args w f a -> nth_error (argss w1) a = nth_error (argss w) a;
    s_skel : skel w1 = skel w }.
Hypothesis SM : same.
Lemma part_back x : part_of w1 f x -> part_of w f x.
Proof.
  destruct SM. induction 1.
  - eapply po_const; try eassumption; congruence.
  - eapply po_var; try eassumption; congruence.
  - eapply po_type; try eassumption; congruence.
  - eapply po_func; try eassumption; congruence.
  - eapply po_const_type; eauto. rewrite <- s_const0; eauto.
  - eapply po_var_type; eauto. rewrite <- s_var0; eauto.
  - eapply po_field; eauto. rewrite <- s_type0; eauto.
  - eapply po_field_type; eauto. rewrite <- s_field0; eauto.
  - eapply po_elem; eauto. rewrite <- s_type0; eauto.
  - eapply po_const_init; eauto. rewrite <- s_const0; eauto.
  - eapply po_var_init; eauto. rewrite <- s_var0; eauto.
  - eapply po_body; eauto. rewrite <- s_func0; eauto.
Qed.
Lemma part_fwd x : part_of w f x -> part_of w1 f x.
Proof.
  destruct SM. induction 1.
  - eapply po_const; try eassumption; congruence.
  - eapply po_var; try eassumption; congruence.
  - eapply po_type; try eassumption; congruence.
  - eapply po_func; try eassumption; congruence.
  - eapply po_const_type; eauto. rewrite s_const0; eauto.
  - eapply po_var_type; eauto. rewrite s_var0; eauto.
  - eapply po_field; eauto. rewrite s_type0; eauto.
  - eapply po_field_type; eauto. rewrite s_field0; eauto.
  - eapply po_elem; eauto. rewrite s_type0; eauto.
  - eapply po_const_init; eauto. rewrite s_const0; eauto.
  - eapply po_var_init; eauto. rewrite s_var0; eauto.
  - eapply po_body; eauto. rewrite s_func0; eauto.
Qed.
Lemma argument_same cb n k : part_of w f (IBlock cb) -> argument w1 cb n k = argument w cb n k.
Proof.
  intros P. unfold argument. rewrite (s_blocks SM). destruct (nth_error (blocks w) cb) as [b|] eqn:B; auto. cbn [obind].
  destruct (nth_error b n) as [[fm a|t]|] eqn:N; auto. cbn [obind]. rewrite (s_args SM); auto.
  exists cb, b, fm. split; [exact P|]. split; [exact B|]. eapply nth_error_In; eauto.
Qed.
Lemma refers_same a : refers_to w1 a = refers_to w a.
Proof. rewrite !refers_target. rewrite <- (arg_target_skel w1), (s_skel SM), arg_target_skel. reflexivity. Qed.
Lemma mentions_back r : file_mentions w1 f r -> file_mentions w f r.
Proof.
  intros [i v P E M|i v P E M|i v P E M|i v P E M|i c s p P E M|i c n s p P E M|i v P E M|cb n k a x P A E M];
    apply part_back in P.
  - eapply fm_const; eauto. rewrite <- (s_const SM); auto.
  - eapply fm_var; eauto. rewrite <- (s_var SM); auto.
  - eapply fm_type; eauto. rewrite <- (s_type SM); auto.
  - eapply fm_field; eauto. rewrite <- (s_field SM); auto.
  - eapply fm_embed; eauto. rewrite <- (s_elem SM); eauto.
  - eapply fm_method; eauto. rewrite <- (s_elem SM); eauto.
  - eapply fm_func; eauto. rewrite <- (s_func SM); auto.
  - rewrite argument_same in A by auto. rewrite refers_same in E. eapply fm_arg; eauto.
Qed.
Lemma mentions_fwd r : file_mentions w f r -> file_mentions w1 f r.
Proof.
  intros [i v P E M|i v P E M|i v P E M|i v P E M|i c s p P E M|i c n s p P E M|i v P E M|cb n k a x P A E M];
    pose proof (part_fwd _ P) as P'.
  - eapply fm_const; eauto. rewrite (s_const SM); auto.
  - eapply fm_var; eauto. rewrite (s_var SM); auto.
  - eapply fm_type; eauto. rewrite (s_type SM); auto.
  - eapply fm_field; eauto. rewrite (s_field SM); auto.
  - eapply fm_embed; eauto. rewrite (s_elem SM); eauto.
  - eapply fm_method; eauto. rewrite (s_elem SM); eauto.
  - eapply fm_func; eauto. rewrite (s_func SM); auto.
  - eapply fm_arg; eauto; [rewrite argument_same; eauto|rewrite refers_same; auto].
Qed.
Lemma templates_same : no_templates w f -> no_templates w1 f.
Proof. intros N cb b t P B. rewrite (s_blocks SM) in B. exact (N cb b t (part_back _ P) B). Qed.
Lemma prepared_same real own h F : prepared real own h w f F -> prepared real own h w1 f F.
Proof.
  intros (A & B & C & D & E & G & H). split; [rewrite (s_file SM); auto|]. repeat (split; [assumption|]).
  split; [apply templates_same; auto|]. intros r R. apply H, mentions_back, R.
Qed.
Lemma undeclared_same t : (forall ts, t = IsSpec ts -> part_of w f (IType ts)) -> undeclared w t -> undeclared w1 t.
Proof. intros P U id T E N. rewrite (s_type SM) in N by auto. eauto. Qed.
Lemma named_same : no_named_specs w f -> no_named_specs w1 f.
Proof.
  intros (A & B & C). split; [|split]; intros i v P E; apply part_back in P.
  - rewrite (s_const SM) in E by auto. eapply undeclared_same; eauto. intros ts T. eapply po_const_type; eauto.
  - rewrite (s_var SM) in E by auto. eapply undeclared_same; eauto. intros ts T. eapply po_var_type; eauto.
  - rewrite (s_field SM) in E by auto. eapply undeclared_same; eauto. intros ts T. eapply po_field_type; eauto.
Qed.

(** ** Meanings *)
Variable q : Symbol -> option string.
Lemma named_spec_same T : named_spec_with q w1 T = named_spec_with q w T.
Proof.
  unfold named_spec_with. destruct (TSParent T) as [p|]; auto. cbn [obind].
  assert (E : nth_error (files (skel w1)) p = nth_error (files (skel w)) p) by (rewrite (s_skel SM); auto).
  unfold skel in E. cbn [files] in E. rewrite !nth_error_map in E.
  destruct (nth_error (files w1) p) as [A|], (nth_error (files w) p) as [B|]; cbn in E; try discriminate; auto.
  injection E as E1 E2 E3 E4 E5 E6 E7. cbn [obind]. rewrite E1, E5. reflexivity.
Qed.
Lemma all_some_same {A B} (g g' : A -> option B) l : (forall x, In x l -> g x = g' x) -> all_some (map g l) = all_some (map g' l).
Proof. intros H. rewrite (map_ext_in _ _ _ H). reflexivity. Qed.
Lemma spec_same k : forall i T, part_of w f (IType i) -> nth_error (types w) i = Some T ->
  spec_meaning_with q w1 k T = spec_meaning_with q w k T.
Proof.
  induction k as [|k IH]; intros i T P E; auto. cbn [spec_meaning_with]. destruct (TSUnderlying T) as [| | | | | | | | |fs|ms es]; auto.
  - f_equal. apply all_some_same. intros id I. assert (PF : part_of w f (IField id)) by (eapply po_field; eauto).
    rewrite (s_field SM) by auto. destruct (nth_error (fields w) id) as [G|] eqn:EF; auto. cbn [obind].
    destruct (FSType G) as [|t|ts] eqn:FT; auto. assert (PT : part_of w f (IType ts)) by (eapply po_field_type; eauto).
    rewrite (s_type SM) by auto. destruct (nth_error (types w) ts) as [T'|] eqn:ET; auto. cbn [obind].
    rewrite (IH ts T' PT ET), named_spec_same. reflexivity.
  - f_equal. apply all_some_same. intros id I. assert (PF : part_of w f (IElem id)) by (eapply po_elem; eauto).
    rewrite (s_elem SM) by auto. reflexivity.
Qed.
Lemma value_type_same t : (forall ts, t = IsSpec ts -> part_of w f (IType ts)) -> value_type_with q w1 t = value_type_with q w t.
Proof.
  intros P. destruct t as [|t|ts]; auto. cbn [value_type_with]. rewrite (s_type SM) by auto.
  destruct (nth_error (types w) ts) as [T|]; auto. cbn [obind]. rewrite named_spec_same. reflexivity.
Qed.
Lemma lookup_same {A} (t t1 : list A) ids : (forall i, In i ids -> nth_error t1 i = nth_error t i) -> lookup_all t1 ids = lookup_all t ids.
Proof. apply all_some_same. Qed.
Lemma lookup_In {A} (t : list A) ids l x : lookup_all t ids = Some l -> In x l -> exists i, In i ids /\ nth_error t i = Some x.
Proof.
  unfold lookup_all. revert l. induction ids as [|i ids IH]; cbn; intros l E I.
  - injection E as <-. destruct I.
  - destruct (nth_error t i) as [y|] eqn:N; [|discriminate]. cbn in E. destruct (all_some (map (nth_error t) ids)) as [r|]; [|discriminate].
    injection E as <-. destruct I as [<-|I]; [exists i; auto|]. destruct (IH r eq_refl I) as (j & J & K). exists j. auto.
Qed.
Lemma element_same F code k e : nth_error (files w) f = Some F -> In e (FElements F) ->
  element_meaning_with q w1 code k e = element_meaning_with q w code k e.
Proof.
  intros EF IE. destruct e as [d|d|d|i]; cbn [element_meaning_with].
  - rewrite (s_cd SM). destruct (nth_error (constDecls w) d) as [D|] eqn:ED; auto. cbn [obind].
    assert (P : forall i, In i (VDSpecs D) -> part_of w f (IConst i)) by (intros; eapply po_const; eauto).
    rewrite (lookup_same (consts w)) by (intros; apply (s_const SM); auto).
    destruct (lookup_all (consts w) (VDSpecs D)) as [l|] eqn:L; auto. cbn [obind].
    erewrite all_some_same; [reflexivity|]. intros v I. destruct (lookup_In _ _ _ _ L I) as (i & II & N).
    unfold gvalue_meaning_with, value_meaning_with. rewrite value_type_same; auto. intros ts T. eapply po_const_type; eauto.
  - rewrite (s_vd SM). destruct (nth_error (varDecls w) d) as [D|] eqn:ED; auto. cbn [obind].
    assert (P : forall i, In i (VDSpecs D) -> part_of w f (IVar i)) by (intros; eapply po_var; eauto).
    rewrite (lookup_same (vars w)) by (intros; apply (s_var SM); auto).
    destruct (lookup_all (vars w) (VDSpecs D)) as [l|] eqn:L; auto. cbn [obind].
    erewrite all_some_same; [reflexivity|]. intros v I. destruct (lookup_In _ _ _ _ L I) as (i & II & N).
    unfold gvalue_meaning_with, value_meaning_with. rewrite value_type_same; auto. intros ts T. eapply po_var_type; eauto.
  - rewrite (s_td SM). destruct (nth_error (typeDecls w) d) as [D|] eqn:ED; auto. cbn [obind].
    assert (P : forall i, In i (TDTypes D) -> part_of w f (IType i)) by (intros; eapply po_type; eauto).
    rewrite (lookup_same (types w)) by (intros; apply (s_type SM); auto).
    destruct (lookup_all (types w) (TDTypes D)) as [l|] eqn:L; auto. cbn [obind].
    erewrite all_some_same; [reflexivity|]. intros v I. destruct (lookup_In _ _ _ _ L I) as (i & II & N).
    unfold typespec_meaning_with. erewrite spec_same; eauto.
  - rewrite (s_func SM) by (eapply po_func; eauto). reflexivity.
Qed.
Lemma has_content_same e : has_content w1 e = has_content w e.
Proof. destruct e; cbn [has_content]; rewrite ?(s_cd SM), ?(s_vd SM), ?(s_td SM); reflexivity. Qed.
Lemma file_same F code k : nth_error (files w) f = Some F ->
  file_meaning_with q w1 code k F = file_meaning_with q w code k F.
Proof.
  intros EF. unfold file_meaning_with.
  assert (C : forallb (has_content w1) (FElements F) = forallb (has_content w) (FElements F)).
  { induction (FElements F) as [|e l IH]; cbn; auto. rewrite has_content_same, IH. reflexivity. }
  rewrite C. erewrite (all_some_same (element_meaning_with q w1 code k)); [reflexivity|]. intros e I. eapply element_same; eauto.
Qed.
End Unshared.

Lemma unshared_same {TD} (env : Env TD) own h fuel f g w F s w1 : nth_error (files w) f = Some F ->
  FImports F = run h (NewImportsFor own) -> no_templates w f -> source env fuel f w = (Ok s, w1) ->
  g <> f -> ~ shared w f g -> same w w1 g.
Proof.
  intros EF EI NT S N NS. destruct (others_unchanged env own h fuel f w F s w1 EF EI NT S)
    as (A & _ & B & C & D & E & _ & G1 & G2 & G3 & G4 & G5 & G6 & G7).
  assert (X : forall x, (forall cb, x <> IBlock cb) -> part_of w g x -> ~ part_of w f x).
  { intros x NB PG PF. apply NS. left. exists x. auto. }
  split; auto.
  - intros i P. apply G1. apply X; [discriminate|auto].
  - intros i P. apply G2. apply X; [discriminate|auto].
  - intros i P. apply G3. apply X; [discriminate|auto].
  - intros i P. apply G4. apply X; [discriminate|auto].
  - intros i P. apply G5. apply X; [discriminate|auto].
  - intros i P. apply G6. apply X; [discriminate|auto].
  - intros a P. apply G7. intros P'. apply NS. right. exists a. auto.
  - destruct (source_split _ _ _ _ _ _ S) as (Q & _).
    assert (IF : Inv (FImports F)) by (rewrite EI; apply ImportsTheorems.run_new_Inv).
    destruct (after env fuel f w w1 F (fun _ => True) EF IF (no_templates_ok env w f _ NT) (fun _ _ => I) Q) as (L & _).
    exact (le_skel _ _ _ _ _ L).
Qed.
