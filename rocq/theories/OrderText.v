(** A file is written with the same texts of its elements in whatever order they are, if no
    packages compete for names. *)
From Coq Require Import Permutation.
From Verif Require Import Base BaseFacts GoPath Utf8 Types SpecTypes TypesFacts Imports SpecImports ImportsProofs ImportsTheorems SettleProofs SpecLit Conv Fmt World WorldProofs
  SpecGo SpecRender SpecQualify QualifyProofs QualifyTheorems SourceProofs SourceTheorems SpecFormat FormatProofs SpecCode SpecAppend AppendProofs AppendText AppendTheorems
  SpecOrder OrderProofs.

(** ** The same call later has the same result *)
Definition replays {A} (m : IM A) : Prop := forall i a i', Inv i -> m i = (Ok a, i') ->
  Inv i' /\ ext i i' /\ forall k, Inv k -> ext i' k -> m k = (Ok a, k).
Lemma replays_ret {A} (a : A) : replays (sret a).
Proof. intros i b i' I [= <- <-]. split; auto. split; [apply ext_refl|]. reflexivity. Qed.
Lemma replays_panic {A} e : replays (@spanic _ A e).
Proof. intros i b i' I E. discriminate E. Qed.
Lemma replays_lift {A} (r : res A) : replays (slift r).
Proof. unfold slift. intros i b i' I [= -> <-]. split; auto. split; [apply ext_refl|]. reflexivity. Qed.
Lemma replays_bind {A B} (m : IM A) (k : A -> IM B) : replays m -> (forall a, replays (k a)) -> replays (do a <- m ;; k a).
Proof.
  intros M K i b i' I E. unfold sbind in E. destruct (m i) as [[a|e] i1] eqn:E1; [|discriminate].
  destruct (M i a i1 I E1) as (I1 & X1 & R1). destruct (K a i1 b i' I1 E) as (I2 & X2 & R2).
  split; auto. split; [eapply ext_trans; eauto|]. intros j J X. unfold sbind.
  rewrite (R1 j J) by (eapply ext_trans; eauto). apply R2; auto.
Qed.
Lemma replays_prefix path name : replays (prefixForPackage path name true).
Proof.
  intros i a i' I E. destruct (prefix_reg i path name I) as (n & i1 & E1 & I1 & X1 & P & _). rewrite E in E1. injection E1 as -> ->.
  split; auto. split; auto. intros k K X. apply prefix_known; auto. eapply prefix_name_ext; eauto.
Qed.
Create HintDb rp.
#[local] Hint Resolve replays_ret replays_panic replays_lift replays_prefix : rp.
Ltac rp := repeat (first [ apply replays_ret | apply replays_panic | apply replays_lift | apply replays_prefix | assumption
  | apply replays_bind; [|intros ?] | match goal with |- replays (let (_, _) := ?p in _) => destruct p end
  | match goal with |- replays (if ?b then _ else _) => destruct b end ]).
Lemma replays_qualify s : replays (qualify s true).
Proof. unfold qualify. rp. Qed.
Lemma replays_list {A} (f : A -> IM (A * bool)) l : Forall (fun a => replays (f a)) l -> replays (map_changed f l).
Proof. induction 1; cbn [map_changed]; rp. Qed.
Lemma replays_sig (q : TypeName -> IM (TypeName * bool)) (s : Signature) : PSig (fun t => replays (q t)) s -> replays (qualifySignature_ q s).
Proof.
  intros [HA HR]. destruct s as [a r v]. cbn [Args Results] in *.
  assert (K : forall l, Forall (fun a => replays (q (ArgTy a))) l -> replays (qualifyArgs_ q l)).
  { intros l H. unfold qualifyArgs_. apply replays_list. eapply Forall_impl; [|exact H]. intros [n t] T. cbn in T. rp. }
  apply K in HA, HR. cbn [qualifySignature_]. rp.
Qed.
Lemma replays_type t : replays (qualifyType true t).
Proof.
  induction t as [ |k|s|e IH|e IH|e n IH|e k IHe IHk|e d IH|s IH|fs IH|ms es IH] using TypeName_ind'; cbn [qualifyType].
  1,2,4,5,6,7,8: rp.
  - apply replays_bind; [apply replays_qualify|]. intros. rp.
  - apply replays_sig in IH. rp.
  - apply replays_bind; [|intros; rp]. unfold qualifyFields_. apply replays_list. eapply Forall_impl; [|exact IH].
    intros [n t tag] T. cbn in T. rp.
  - apply replays_bind; [|intros [nembeds ce]; apply replays_bind; [|intros; rp]].
    + unfold qualifySymbols. apply replays_list. apply Forall_forall. intros. apply replays_bind; [apply replays_qualify|]. intros. rp.
    + unfold qualifyMethods_. apply replays_list. eapply Forall_impl; [|exact IH]. intros [n s] T. cbn [MtdSig] in T. apply replays_sig in T. rp.
Qed.
Lemma replays_signature s : replays (EnsureAllTypesImported s).
Proof. apply replays_sig. split; apply Forall_forall; intros; apply replays_type. Qed.
Lemma replays_symbol s : replays (EnsureImported s).
Proof. apply replays_qualify. Qed.
Lemma replays_package p : replays (registerPackage p).
Proof. unfold registerPackage, RegisterImportForPackage, RegisterImport. rp. Qed.
Lemma replays_target a t : replays (target_act a t).
Proof.
  destruct t; cbn [target_act]; try (apply replays_bind; [auto using replays_package, replays_symbol, replays_signature, replays_type|intros; rp]).
  apply replays_ret.
Qed.
Lemma replays_act {TD} (env : Env TD) w x : no_data x -> replays (act env w x).
Proof.
  destruct x; intros N; [..|destruct N]; cbn [act].
  - apply replays_bind; [apply replays_type|intros; rp].
  - apply replays_bind; [apply replays_signature|intros; rp].
  - apply replays_bind; [apply replays_symbol|intros; rp].
  - apply replays_bind; [rp|intros; apply replays_bind; [apply replays_target|intros; rp]].
Qed.

(** ** The same world with the elements of a file in another order *)
Section Rea.
Context {TD : Type}.
Notation World := (World TD).
Variable env : Env TD.
Variables (f : nat) (es : list FileElement).
Definition rea (w : World) : World := set_files (upd_with f (with_elements es) (files w)) w.
Lemma rearranged_rea w : rearranged f es w = rea w.
Proof. unfold rearranged, rea, upd_with. destruct (nth_error (files w) f) eqn:E; auto. destruct w; auto. Qed.
Lemma rea_file w g : nth_error (files (rea w)) g =
  if Nat.eqb f g then option_map (with_elements es) (nth_error (files w) g) else nth_error (files w) g.
Proof. unfold rea. cbn [set_files files]. apply nth_upd_with. Qed.
Lemma rea_package i w : file_package i (rea w) = file_package i w.
Proof.
  unfold file_package, rd. rewrite rea_file. destruct (Nat.eqb f i); auto.
  destruct (nth_error (files w) i); auto.
Qed.
Lemma rea_imp w : imp f (rea w) = imp f w.
Proof. unfold imp. rewrite rea_file, Nat.eqb_refl. destruct (nth_error (files w) f); auto. Qed.
Lemma rea_cont w l : cont (rea w) l = cont w l.
Proof. destruct l; reflexivity. Qed.
Lemma rea_near w : near w (rea w).
Proof. split; auto. intros i. apply rea_package. Qed.
Lemma rea_SymbolAt v n w : ValueSpec_SymbolAt v n (rea w) = ValueSpec_SymbolAt v n w.
Proof. unfold ValueSpec_SymbolAt. destruct (if (n <? 0)%Z then None else nth_error (VNames v) (Z.to_nat n)); auto. destruct (VParent v); auto. rewrite rea_package. auto. Qed.
Lemma rea_TypeSymbol T w : TypeSpec_ToSymbol T (rea w) = TypeSpec_ToSymbol T w.
Proof. unfold TypeSpec_ToSymbol. destruct (String.eqb (TSName T) ""); auto. destruct (TSParent T); auto. rewrite rea_package. auto. Qed.
Lemma rea_target w a : arg_target (rea w) a = arg_target w a.
Proof.
  destruct a; cbn [arg_target]; auto.
  - change (rd consts id (rea w)) with (rd consts id w). destruct (rd consts id w) as [v|]; auto. cbn [rbind].
    unfold ValueSpec_ToSymbol. rewrite rea_SymbolAt. auto.
  - change (rd vars id (rea w)) with (rd vars id w). destruct (rd vars id w) as [v|]; auto. cbn [rbind].
    unfold ValueSpec_ToSymbol. rewrite rea_SymbolAt. auto.
  - change (rd types id (rea w)) with (rd types id w). destruct (rd types id w) as [v|]; auto. cbn [rbind].
    rewrite rea_TypeSymbol. auto.
  - change (rd ielems id (rea w)) with (rd ielems id w). destruct (rd ielems id w) as [[c s p|c n s p]|]; auto. cbn [rbind].
    unfold InterfaceMethod_ToMethodRef. destruct p as [p|]; auto.
    change (rd types p (rea w)) with (rd types p w). destruct (rd types p w) as [T|]; auto. cbn [rbind].
    rewrite rea_TypeSymbol. auto.
  - change (rd funcs id (rea w)) with (rd funcs id w). destruct (rd funcs id w) as [v|]; auto. cbn [rbind].
    unfold FuncSpec_ToSymbol. destruct (FNParent v); auto. rewrite rea_package. auto.
Qed.
Lemma rea_act w x : no_data x -> act env (rea w) x = act env w x.
Proof. destruct x; intros N; [..|destruct N]; auto. cbn [act]. rewrite rea_target. auto. Qed.
Lemma rea_plan_type fuel : forall i w, plan_type fuel i (skel (rea w)) = plan_type fuel i (skel w).
Proof.
  induction fuel as [|fuel IH]; intros i w; cbn [plan_type]; auto.
  change (types (skel (rea w))) with (types (skel w)). destruct (nth_error (types (skel w)) i); auto. f_equal. f_equal.
  apply flat_map_ext. intros x. change (World.fields (skel (rea w))) with (World.fields (skel w)).
  destruct (nth_error (World.fields (skel w)) x) as [F|]; auto. destruct (FSType F); auto.
Qed.
Lemma rea_plan fuel e w : plan_element fuel e (skel (rea w)) = plan_element fuel e (skel w).
Proof.
  destruct e as [d|d|d|i]; cbn [plan_element].
  - change (constDecls (skel (rea w))) with (constDecls (skel w)). destruct (nth_error _ d) as [D|]; auto.
    apply flat_map_ext. intros i. unfold plan_value. change (consts (skel (rea w))) with (consts (skel w)).
    destruct (nth_error _ i) as [v0|]; auto. f_equal. destruct (VSType v0); auto. apply rea_plan_type.
  - change (varDecls (skel (rea w))) with (varDecls (skel w)). destruct (nth_error _ d) as [D|]; auto.
    apply flat_map_ext. intros i. unfold plan_value. change (vars (skel (rea w))) with (vars (skel w)).
    destruct (nth_error _ i) as [v0|]; auto. f_equal. destruct (VSType v0); auto. apply rea_plan_type.
  - change (typeDecls (skel (rea w))) with (typeDecls (skel w)). destruct (nth_error _ d) as [D|]; auto.
    apply flat_map_ext. intros i. apply rea_plan_type.
  - reflexivity.
Qed.

Variables (w : World) (F : GoFile).
Hypothesis EF : nth_error (files w) f = Some F.
Hypothesis PE : forall e, In e es <-> In e (FElements F).
Lemma EF' : nth_error (files (rea w)) f = Some (with_elements es F).
Proof. rewrite rea_file, Nat.eqb_refl, EF. auto. Qed.
Lemma rea_part x : part_of (rea w) f x -> part_of w f x.
Proof.
  induction 1.
  1-4: match goal with H : nth_error (files (rea w)) f = Some ?G, IN : In _ (FElements ?G) |- _ =>
         rewrite EF' in H; injection H as <-; apply PE in IN end.
  - eapply po_const; eauto. - eapply po_var; eauto. - eapply po_type; eauto. - eapply po_func; eauto.
  - eapply po_const_type; eauto. - eapply po_var_type; eauto. - eapply po_field; eauto. - eapply po_field_type; eauto.
  - eapply po_elem; eauto. - eapply po_const_init; eauto. - eapply po_var_init; eauto. - eapply po_body; eauto.
Qed.
Lemma part_rea x : part_of w f x -> part_of (rea w) f x.
Proof.
  pose proof EF' as E'.
  induction 1.
  1-4: match goal with H : nth_error (files w) f = Some ?G, IN : In _ (FElements ?G) |- _ =>
         rewrite EF in H; injection H as <-; apply PE in IN end.
  - eapply po_const; eauto. - eapply po_var; eauto. - eapply po_type; eauto. - eapply po_func; eauto.
  - eapply po_const_type; eauto. - eapply po_var_type; eauto. - eapply po_field; eauto. - eapply po_field_type; eauto.
  - eapply po_elem; eauto. - eapply po_const_init; eauto. - eapply po_var_init; eauto. - eapply po_body; eauto.
Qed.
Lemma refers_rea a : refers_to (rea w) a = refers_to w a.
Proof. rewrite !refers_target, rea_target. auto. Qed.
Lemma mentions_rea r : file_mentions (rea w) f r <-> file_mentions w f r.
Proof.
  split; intros [i v P E IN|i v P E IN|i T P E IN|i v P E IN|i c s p P E IN|i c n s p P E IN|i G P E IN|cb n k a x P A RF IN];
    first [apply rea_part in P | apply part_rea in P].
  - eapply fm_const; eauto. - eapply fm_var; eauto. - eapply fm_type; eauto. - eapply fm_field; eauto.
  - eapply fm_embed; eauto. - eapply fm_method; eauto. - eapply fm_func; eauto. - rewrite refers_rea in RF. eapply fm_arg; eauto.
  - eapply fm_const; eauto. - eapply fm_var; eauto. - eapply fm_type; eauto. - eapply fm_field; eauto.
  - eapply fm_embed; eauto. - eapply fm_method; eauto. - eapply fm_func; eauto. - rewrite <- refers_rea in RF. eapply fm_arg; eauto.
Qed.
Lemma templates_rea : no_templates w f -> no_templates (rea w) f.
Proof. intros N cb b t P. apply N. apply rea_part. auto. Qed.
Lemma rea_plan_file fuel l : In l (plan_file f fuel (skel (rea w))) <-> In l (plan_file f fuel (skel w)).
Proof.
  unfold plan_file. rewrite (nth_skel files er_imports w f F eq_refl EF), (nth_skel files er_imports (rea w) f _ eq_refl EF').
  cbn [er_imports with_imports with_elements FElements].
  rewrite !in_flat_map. split; intros (e & IE & IN); exists e; split; try (apply PE; auto; fail).
  - rewrite rea_plan in IN. auto. - rewrite rea_plan. auto.
Qed.
End Rea.

(** What the imports list after qualifying, as [imports_exact] says after writing. *)
Lemma imports_qualified {TD} (env : Env TD) own h fuel f w F w1 :
  nth_error (files w) f = Some F -> FImports F = run h (NewImportsFor own) -> no_templates w f ->
  qualify_file env fuel f w = (Ok tt, w1) ->
  exists F1, nth_error (files w1) f = Some F1 /\
    forall path, In path (listed (FImports F1)) <->
      In path (listed (FImports F)) \/ path <> own /\ exists n, file_mentions w f (path, n).
Proof.
  intros EF EI NT Q. assert (IF : Inv (FImports F)) by (rewrite EI; apply run_new_Inv).
  pose proof (no_templates_ok env w f (file_mentions w f) NT) as TO.
  destruct (file_after env fuel f w w1 F _ EF IF TO (fun r H => H) Q) as (F1 & E1 & EI1 & _ & (l & Rl & EL) & I1).
  exists F1. split; auto. intros path. assert (OWN : pkgPath (FImports F) = own) by (rewrite EI; apply run_new_own).
  rewrite EL, fold_reg_listed by auto. rewrite OWN. split; intros [L|[N L]]; auto.
  - right. split; auto. apply in_map_iff in L as ([p n] & <- & IN). exists n. apply Rl in IN. auto.
  - destruct L as (n & M).
    pose proof (mention_registered env fuel f w w1 F _ EF IF TO (fun r H => H) Q _ M) as X.
    destruct X as [P|P]; rewrite <- EI1 in P; cbn [fst] in P.
    + destruct (fold_reg_keep l (FImports F) IF) as [_ [Y _]]. rewrite EL, Y in P. congruence.
    + rewrite EL, fold_reg_listed in P by auto. rewrite OWN in P. exact P.
Qed.

Section File.
Context {TD : Type}.
Variables (env : Env TD) (own : string) (h : list call) (fuel' f : nat) (w : World TD) (F : GoFile) (es : list FileElement)
  (w1 w1' : World TD).
Notation fuel := (S fuel').
Hypothesis EF : nth_error (files w) f = Some F.
Hypothesis EI : FImports F = run h (NewImportsFor own).
Hypothesis OK : forallb call_ok h = true.
Hypothesis NT : no_templates w f.
Hypothesis SC : textual_code w f.
Notation R := (file_requests h w f).
Hypothesis NC : no_conflict own R.
Hypothesis PE : Permutation (FElements F) es.
Notation w' := (rea f es w).
Notation F' := (with_elements es F).
Hypothesis Q : qualify_file env fuel f w = (Ok tt, w1).
Hypothesis Q' : qualify_file env fuel f w' = (Ok tt, w1').
Lemma PE' e : In e es <-> In e (FElements F).
Proof. split; intros IN; [eapply Permutation_in; [apply Permutation_sym|]; eauto|eapply Permutation_in; eauto]. Qed.
Lemma I0 : Inv (FImports F).
Proof. rewrite EI. apply run_new_Inv. Qed.
Notation EF1 := (EF' f es w F EF).
Notation NT1 := (templates_rea f es w F EF PE' NT).
Lemma HR : forall r, file_mentions w f r -> R r.
Proof. intros r M. right. auto. Qed.
Lemma HR' : forall r, file_mentions w' f r -> R r.
Proof. intros r M. right. apply (mentions_rea f es w F EF PE'). auto. Qed.
Notation plan := (plan_file f fuel (skel w)).
Lemma tidy_steps i j : Inv i -> tidy own R i -> steps R i j -> tidy own R j.
Proof. intros I T (l & H & ->). apply tidy_fold; auto. Qed.
Lemma tidy0 : tidy own R (FImports F).
Proof.
  rewrite EI, (run_requests h _ OK (Inv_new own)). apply tidy_fold; auto using Inv_new, tidy_new.
  intros r IN. left. exact IN.
Qed.
Lemma both_imports : Inv (imp f w1) /\ Inv (imp f w1') /\ ext (imp f w1) (imp f w1') /\ ext (imp f w1') (imp f w1).
Proof.
  destruct (file_after env fuel f w w1 F R EF I0 (no_templates_ok env w f R NT) HR Q) as (F1 & E1 & EI1 & _ & S1 & V1).
  destruct (file_after env fuel f w' w1' F' R EF1 I0 (no_templates_ok env w' f R NT1) HR' Q') as (F2 & E2 & EI2 & _ & S2 & V2).
  destruct (imports_qualified env own h fuel f w F w1 EF EI NT Q) as (G1 & H1 & L1).
  destruct (imports_qualified env own h fuel f w' F' w1' EF1 EI NT1 Q') as (G2 & H2 & L2).
  rewrite E1 in H1. injection H1 as <-. rewrite E2 in H2. injection H2 as <-.
  pose proof (tidy_steps _ _ I0 tidy0 S1) as T1. pose proof (tidy_steps _ _ I0 tidy0 S2) as T2.
  assert (D : forall p, In p (listed (FImports F1)) <-> In p (listed (FImports F2))).
  { intros p. rewrite L1, L2. cbn [with_elements FImports].
    assert (M : (exists n, file_mentions w f (p, n)) <-> exists n, file_mentions w' f (p, n)).
    { split; intros (n & M); exists n; apply (mentions_rea f es w F EF PE'); auto. }
    rewrite M. tauto. }
  rewrite <- EI1, <- EI2. split; auto. split; auto.
  split; eapply tidy_ext; eauto; intros p; rewrite <- !In_listed; apply D.
Qed.
Lemma all_cont l : cont w1' l = cont w1 l.
Proof.
  destruct both_imports as (I1 & I1' & X & X').
  destruct (after env fuel f w w1 F R EF I0 (no_templates_ok env w f R NT) HR Q) as (L & _ & U & _).
  destruct (after env fuel f w' w1' F' R EF1 I0 (no_templates_ok env w' f R NT1) HR' Q') as (L' & _ & U' & _).
  destruct (in_dec loc_eq_dec l plan) as [IN|NI].
  - destruct (cont w l) as [x|] eqn:C.
    + assert (C' : cont w' l = Some x) by (rewrite rea_cont; auto).
      assert (IN' : In l (plan_file f fuel (skel w'))) by (apply (rea_plan_file f es w F EF PE'); auto).
      destruct (final env fuel f w w1 F R EF I0 (no_templates_ok env w f R NT) HR Q l x IN C) as (y & j & j' & C1 & IJ & A & IJ' & XJ & _).
      destruct (final env fuel f w' w1' F' R EF1 I0 (no_templates_ok env w' f R NT1) HR' Q' l x IN' C') as (y' & k & k' & C2 & IK & A' & IK' & XK & _).
      assert (N : no_data x).
      { destruct x; cbn; auto. destruct (cont_data w l d C) as (t & tm & -> & _).
        assert (SCP := scope_file w f fuel _ IN). cbn in SCP. destruct SCP as (cb & b & P & B & INB). eapply NT; eauto. }
      rewrite rea_act in A' by auto. rewrite C1, C2.
      destruct (replays_act env w x N j y j' IJ A) as (_ & _ & R1). destruct (replays_act env w x N k y' k' IK A') as (_ & _ & R2).
      specialize (R1 (imp f w1') I1' (ext_trans _ _ _ XJ X)). specialize (R2 (imp f w1') I1' XK). congruence.
    + pose proof (le_cont _ _ _ _ _ L l) as M. pose proof (le_cont _ _ _ _ _ L' l) as M'. rewrite rea_cont in M'. rewrite C in M, M'.
      destruct (cont w1 l), (cont w1' l); cbn in *; try contradiction; auto.
  - rewrite U by auto. rewrite U', rea_cont; auto. rewrite (rea_plan_file f es w F EF PE'). auto.
Qed.
Lemma near1 : near w1 w1'.
Proof.
  destruct (after env fuel f w w1 F R EF I0 (no_templates_ok env w f R NT) HR Q) as (L & _).
  destruct (after env fuel f w' w1' F' R EF1 I0 (no_templates_ok env w' f R NT1) HR' Q') as (L' & _).
  eapply near_trans; [apply near_skel; symmetry; apply (le_skel _ _ _ _ _ L)|].
  eapply near_trans; [apply (rea_near f es)|]. apply near_skel. apply (le_skel _ _ _ _ _ L').
Qed.
Lemma skel_1 : skel w1 = skel w.
Proof. destruct (after env fuel f w w1 F R EF I0 (no_templates_ok env w f R NT) HR Q) as (L & _). apply (le_skel _ _ _ _ _ L). Qed.
Lemma order_block e cb : In e (FElements F) -> In cb (blocks_of w e) -> CodeBlock_writeTo env w1' cb = CodeBlock_writeTo env w1 cb.
Proof.
  intros IE IN.
  destruct (after env fuel f w w1 F R EF I0 (no_templates_ok env w f R NT) HR Q) as (L & D & _).
  pose proof both_imports as (I1 & _).
  assert (PB : part_of w f (IBlock cb)) by (eapply blocks_part; eauto).
  destruct (SC cb PB) as (ls & (b & EB & F2) & ST).
  assert (PLN : forall l, In l (plan_block cb (skel w)) -> In l plan).
  { intros l IL. unfold plan_file. rewrite (nth_skel files er_imports w f F eq_refl EF). cbn [er_imports with_imports FElements].
    apply in_flat_map. exists e. split; auto. eapply blocks_plan; eauto. }
  unfold CodeBlock_writeTo, rd. rewrite (n_bl _ _ near1).
  assert (EB1 : blocks w1 = blocks w) by (exact (f_equal (@blocks TD) skel_1)). rewrite EB1, EB. cbn [rbind].
  f_equal. apply map_ext_in. intros x IX.
  assert (X : exists l args, x = Line (format_of l) args /\ nth_error (argss w) args = Some (args_of l) /\ verbs_ok l /\ In l ls).
  { clear - F2 IX. induction F2 as [|y l b ls (args & -> & A & V) F2 IH]; [destruct IX|]. destruct IX as [<-|IX].
    - exists l, args. repeat split; auto. left; auto.
    - destruct (IH IX) as (l' & args' & B & C & E & G). exists l', args'. repeat split; auto. right; auto. }
  destruct X as (l & args & -> & EA & VO & IL).
  assert (PA : forall j, j < List.length (args_of l) -> In (LArg args j) plan).
  { intros j LT. apply PLN. unfold plan_block. change (blocks (skel w)) with (blocks w). rewrite EB. apply in_flat_map.
    exists (Line (format_of l) args). split; auto. cbn [plan_code]. unfold plan_line.
    rewrite (nth_skel argss er_args w args _ eq_refl EA). apply in_map_iff. exists j. split; auto. apply in_seq.
    unfold er_args. rewrite map_length. lia. }
  pose proof (entry er_args _ _ args (n_a _ _ (near_skel w w1 skel_1))) as X. rewrite EA in X.
  destruct (nth_error (argss w1) args) as [l1|] eqn:E1; [|contradiction].
  assert (LN : List.length l1 = List.length (args_of l)).
  { apply (f_equal (@List.length _)) in X. unfold er_args in X. rewrite !map_length in X. auto. }
  cbn [codeElement_writeTo]. rewrite (args_entry w1 w1' near1 args) by (intros; apply all_cont).
  unfold rd. rewrite E1. cbn [rbind]. f_equal. rewrite !Fprintf_pieces by auto. f_equal. apply shown_ext.
  intros j v a0 a P1 P2.
  assert (LT : j < List.length (args_of l)) by (rewrite <- LN; apply nth_error_Some; congruence).
  assert (S0 : textual v a0) by (apply (ST l); auto; apply puts_in; eapply nth_error_In; eauto).
  assert (A0 : nth_error (args_of l) j = Some a0) by (rewrite <- puts_args, nth_error_map, P1; auto).
  assert (C0 : cont w (LArg args j) = Some (CA a0)) by (cbn [cont]; unfold obind; rewrite EA, A0; auto).
  assert (C1 : cont w1 (LArg args j) = Some (CA a)) by (cbn [cont]; unfold obind; rewrite E1, P2; auto).
  assert (S1 : textual v a).
  { pose proof (le_cont _ _ _ _ _ L (LArg args j)) as M. rewrite C0, C1 in M. destruct M as [M|(rs & i & i' & _ & _ & B & _)].
    - injection M as ->. auto.
    - destruct S0 as [S0|[V (id & ->)]].
      + destruct (steady_act env v a0 w i _ i' S0 B) as (a' & E & S1). injection E as ->. left. auto.
      + injection B as <- _. right. eauto. }
  destruct (D _ (PA j LT) _ C1) as [SB _].
  destruct S1 as [S1|[V (id & ->)]].
  2:{ unfold fmt_arg. cbn [arg_string]. unfold rd.
      pose proof (entry er_elem _ _ id (n_e _ _ near1)) as Y. pose proof (all_cont (LElem id)) as C. cbn [cont] in C.
      destruct (nth_error (ielems w1) id) as [e1|], (nth_error (ielems w1') id) as [e2|]; try contradiction;
        [|destruct V as [-> |[-> | ->]]; reflexivity].
      cbn [option_map] in C. destruct e1 as [c t p|c n t p], e2 as [c' t' p'|c' n' t' p']; cbn in C, Y; try discriminate; cbn [rbind].
      - injection C as ->. destruct V as [-> |[-> | ->]]; reflexivity.
      - injection Y as -> -> ->. destruct V as [-> |[-> | ->]]; reflexivity. }
  apply (arg_text env w1 w1' near1 v a (imp f w1) (imp f w1) S1). apply SB; [auto|apply ext_refl].
Qed.
Lemma order_element e : In e (FElements F) -> FileElement_writeTo env fuel w1' e = FileElement_writeTo env fuel w1 e.
Proof.
  intros IE. apply (element_text env w1 w1' near1 fuel' e).
  - intros l _. apply all_cont.
  - intros cb IN. rewrite (blocks_near w w1 e skel_1) in IN. eapply order_block; eauto.
Qed.
Lemma ok_texts {A} (g : A -> res string) l ts : map g l = map Ok ts ->
  ts = map (fun a => match g a with Ok t => t | Panic _ => "" end) l.
Proof.
  revert ts. induction l as [|a l IH]; intros [|t ts] E; try discriminate; auto. cbn in E. injection E as E1 E2. cbn. rewrite E1. f_equal. auto.
Qed.
(** If the one can be written, so can the other. *)
Theorem order_written F1 s : nth_error (files w1) f = Some F1 -> GoFile_writeTo env fuel w1 F1 = Ok s ->
  exists F2 s', nth_error (files w1') f = Some F2 /\ GoFile_writeTo env fuel w1' F2 = Ok s' /\
    same_but_order env (FImports F1) (FImports F2) (FElements F) es s s'.
Proof.
  intros E1 G1.
  destruct (file_after env fuel f w w1 F R EF I0 (no_templates_ok env w f R NT) HR Q) as (F1' & E1' & IM1 & EW1 & _ & V1).
  destruct (file_after env fuel f w' w1' F' R EF1 I0 (no_templates_ok env w' f R NT1) HR' Q') as (F2 & E2 & IM2 & EW2 & _ & V2).
  rewrite E1 in E1'. injection E1' as <-.
  destruct both_imports as (_ & _ & X & X').
  rewrite (writeTo_parts env fuel') in G1.
  assert (EE1 : FElements F1 = FElements F) by (rewrite EW1; reflexivity). assert (EE2 : FElements F2 = es) by (rewrite EW2; reflexivity).
  rewrite EE1 in G1.
  destruct (concat_res (map _ (FElements F))) as [t|m] eqn:C1; [|discriminate].
  cbn [rbind] in G1. injection G1 as G1.
  destruct (concat_res_ok _ _ C1) as (ts & T1 & ->).
  set (g := fun e => match W newline +++ FileElement_writeTo env fuel w1 e with Ok t => t | Panic _ => "" end).
  assert (T2 : map (fun e => W newline +++ FileElement_writeTo env fuel w1' e) es = map Ok (map g es)).
  { rewrite map_map. apply map_ext_in. intros e IE. apply PE' in IE. rewrite order_element by auto. unfold g.
    destruct (W newline +++ FileElement_writeTo env fuel w1 e) as [t|m] eqn:EE; auto. exfalso.
    apply (in_map (fun e => W newline +++ FileElement_writeTo env fuel w1 e)) in IE. cbn beta in IE. rewrite EE, T1 in IE.
    apply in_map_iff in IE as (x & B & _). discriminate B. }
  apply ok_texts in T1. fold g in T1.
  eexists F2, _. split; [auto|]. split; [rewrite (writeTo_parts env fuel'), EE2, T2, concat_ok_res; cbn [rbind]; reflexivity|].
  exists (heading env F), g. split; [|split].
  - rewrite <- T1, <- G1. rewrite EW1. reflexivity.
  - rewrite EW2. reflexivity.
  - apply ext_same_names; auto; rewrite IM1, IM2; auto.
Qed.
End File.
