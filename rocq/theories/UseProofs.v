(** Proofs about the use of imports: C100. *)
From Verif Require Import Base BaseFacts GoPath Types SpecTypes TypesFacts Imports SpecImports ImportsProofs ImportsTheorems ImportsExact SpecGo SpecRender Conv World SpecWorld
  SpecFile SpecDecl SpecQualify WorldProofs QualifyProofs QualifyTheorems FileTheorems SourceTheorems QualifyExamples SpecBuild BuildProofs BuildTypes BuildFiles
  BuildMeaning SpecTotal TotalProofs TotalTheorems BuildTotal SpecScope ScopeProofs ScopeBuild.
From Coq Require Import Lia.

(** ** A described symbol is in the meaning of the description *)
Section Described.
Variable q : Symbol -> option string.
Notation shown s := (q s, SymName s).
Lemma unslice_names g : names_in (unslice g) = names_in g.
Proof. destruct g; reflexivity. Qed.
Lemma dparams_names named v s (l : list ArgType) :
  Forall (fun a => In s (symbols_of (ArgTy a)) -> In (shown s) (names_in (denote_with q (ArgTy a)))) l ->
  In s (args_symbols symbols_of l) -> In (shown s) (params_names (dparams (denote_with q) named v l)).
Proof.
  unfold args_symbols, params_names. induction 1 as [|[n t] l H _ IH]; [intros []|]. cbn [flat_map dparams ArgTy] in *. intros IN.
  apply in_app_or in IN as [IN|IN]; apply in_or_app; [left|right; auto].
  destruct (match l with [] => v | _ => false end); [rewrite unslice_names|]; auto.
Qed.
Lemma denoted_symbol s t : In s (symbols_of t) -> In (shown s) (names_in (denote_with q t)).
Proof.
  induction t using TypeName_ind'; cbn [symbols_of denote_with names_in]; intros IN; auto; try (destruct IN; fail).
  - destruct IN as [->|[]]. left. reflexivity.
  - apply in_app_or in IN as [IN|IN]; apply in_or_app; auto.
  - destruct s0 as [a r v]. destruct H as [A B]. cbn [Args Results] in *. cbn [sig_symbols_ names_in] in *.
    apply in_app_or in IN as [IN|IN]; apply in_or_app; [left|right]; apply dparams_names; auto.
  - induction H as [|[n t tag] fs H _ IH]; [destruct IN|]. cbn [flat_map map FldType] in *.
    apply in_app_or in IN as [IN|IN]; apply in_or_app; auto.
  - rewrite flat_map_app. apply in_app_or in IN as [IN|IN]; apply in_or_app; [left|right].
    + clear H. induction es as [|e es IH]; [destruct IN|]. cbn [map flat_map]. destruct IN as [->|IN]; [left; reflexivity|right; auto].
    + induction H as [|[n [a r v]] ms H _ IH]; [destruct IN|]. cbn [flat_map map MtdSig] in *. destruct H as [A B]. cbn [Args Results] in *.
      apply in_app_or in IN as [IN|IN]; apply in_or_app; [left|right; auto]. cbn [sig_symbols_] in IN.
      apply in_app_or in IN as [IN|IN]; apply in_or_app; [left|right]; apply dparams_names; auto.
Qed.
Lemma denoted_sig s sg : In s (sig_symbols sg) ->
  In (shown s) (params_names (fst (denote_sig_with q sg)) ++ params_names (snd (denote_sig_with q sg))).
Proof.
  destruct sg as [a r v]. unfold sig_symbols. cbn [sig_symbols_]. unfold denote_sig_with. cbn [Args Results IsVariadic fst snd].
  intros IN. apply in_app_or in IN as [IN|IN]; apply in_or_app; [left|right]; apply dparams_names; auto;
    apply Forall_forall; intros x _; apply denoted_symbol.
Qed.
Lemma elements_symbol s es : forall gs, all_some (map (idesc_meaning q) es) = Some gs ->
  In s (embeds_of es ++ flat_map (fun m => match m with mkMethod _ s => sig_symbols_ symbols_of s end) (methods_of es)) ->
  In (shown s) (names_in (GInterface gs)).
Proof.
  unfold embeds_of, methods_of. induction es as [|e es IH]; cbn [map all_some flat_map]; intros gs E IN; [destruct IN|].
  destruct (idesc_meaning q e) as [ge|] eqn:M; [|discriminate]. cbn [obind] in E.
  destruct (all_some (map (idesc_meaning q) es)) as [gr|]; [|discriminate]. injection E as <-. specialize (IH gr eq_refl).
  cbn [names_in flat_map]. cbn [names_in] in IH. apply in_or_app. destruct e as [c s0|c n a r v]; cbn [idesc_meaning] in M.
  - destruct (sym_ok s0); [|discriminate]. injection M as <-. cbn [app] in IN. destruct IN as [->|IN]; [left; left; reflexivity|right; auto].
  - destruct (_ && _ && _) in M; [|discriminate]. injection M as <-. cbn [app flat_map] in IN.
    apply in_app_or in IN as [IN|IN]; [right; apply IH, in_or_app; left; exact IN|].
    apply in_app_or in IN as [IN|IN]; [left|right; apply IH, in_or_app; right; exact IN].
    apply (denoted_sig s (sig_of a r v)) in IN. exact IN.
Qed.
Lemma described_symbol s t : forall g, tdesc_meaning q t = Some g -> In s (symbols_of (type_of t)) -> In (shown s) (names_in g).
Proof.
  induction t as [n|fs FI|es|t IH] using tdesc_induction; intros g M IN; cbn [tdesc_meaning type_of] in *.
  - destruct (wf n && SpecDecl.decl_ok n); [|discriminate]. injection M as <-. apply denoted_symbol, IN.
  - destruct (all_some _) as [gs|] eqn:E in M; [|discriminate]. injection M as <-. cbn [symbols_of names_in] in *.
    revert gs E. induction FI as [|[[[c n] tag] t] fs H _ IH]; cbn [map all_some flat_map]; intros gs E; [destruct IN|].
    cbn [snd] in H. destruct (tdesc_meaning q t) as [g|] eqn:M; [|discriminate]. cbn [obind] in E.
    destruct (_ && _) in E; [|discriminate]. cbn [obind] in E. destruct (all_some _) as [gr|] eqn:R in E; [|discriminate]. injection E as <-.
    cbn [flat_map map] in *. apply in_app_or in IN as [IN|IN]; apply in_or_app; [left|right]; auto. 
  - destruct (all_some _) as [gs|] eqn:E in M; [|discriminate]. injection M as <-. cbn [symbols_of] in IN. eapply elements_symbol; eauto.
  - eauto.
Qed.
Context {C : Type}.
Variable code : C -> option string.
Lemma value_symbol s b v g : vdesc_meaning q code b v = Some g -> In s (vdesc_symbols v) -> In (shown s) (value_names g).
Proof.
  unfold vdesc_meaning, vdesc_symbols. destruct (_ && _); [|discriminate]. destruct (vType v) as [t|]; [|intros _ []].
  destruct (wf (type_of t) && text_ok (type_of t)); [|discriminate]. cbn [obind]. destruct (match vInit v with Some c => _ | None => _ end) as [i|]; [|discriminate]. cbn [obind].
  destruct (value_form _ _ _); [|discriminate]. intros [= <-] IN. cbn [value_names]. apply denoted_symbol, IN.
Qed.
Lemma spec_symbol s t g : tsdesc_meaning q t = Some g -> In s (tsdesc_symbols t) -> In (shown s) (names_in (snd g)).
Proof.
  unfold tsdesc_meaning, tsdesc_symbols. destruct (ident (tsName t)); [|discriminate].
  destruct (tbody_meaning q (tsBody t)) as [[a g']|] eqn:M; [|discriminate]. intros [= <-] IN. cbn [snd].
  destruct (tsBody t) as [fs|es|u|u]; cbn [tbody_meaning body_type] in *;
    destruct (tdesc_meaning q _) as [g1|] eqn:E in M; try discriminate; injection M as <- <-; eapply described_symbol; eauto.
Qed.
Lemma group_symbol {A B} (sy : A -> list Symbol) (nm : B -> list (option string * string)) (m : A -> option B) l s :
  (forall a b, m a = Some b -> In s (sy a) -> In (shown s) (nm b)) ->
  forall r, all_some (map m l) = Some r -> In s (flat_map sy l) -> In (shown s) (flat_map nm r).
Proof.
  intros H. induction l as [|a l IH]; cbn [map all_some flat_map]; intros r E IN; [destruct IN|].
  destruct (m a) as [b|] eqn:M; [|discriminate]. cbn [obind] in E. destruct (all_some (map m l)) as [r'|]; [|discriminate]. injection E as <-.
  cbn [flat_map]. apply in_app_or in IN as [IN|IN]; apply in_or_app; eauto.
Qed.
Lemma element_symbol s e g : edesc_meaning q code e = Some g -> In s (edesc_symbols e) -> In (shown s) (decl_names g).
Proof.
  destruct e as [c l m|v|c l m|v|c l m|t|f]; cbn [edesc_meaning edesc_symbols]; unfold group_meaning.
  - destruct (_ || _); [|discriminate]. destruct (all_some _) as [r|] eqn:E; [|discriminate]. intros [= <-] IN.
    cbn [decl_names]. eapply group_symbol; [|exact E|exact IN]. intros; eapply value_symbol; eauto.
  - destruct (vdesc_meaning _ _ _ v) as [x|] eqn:E; [|discriminate]. intros [= <-] IN. cbn [decl_names flat_map]. rewrite app_nil_r. eapply value_symbol; eauto.
  - destruct (_ || _); [|discriminate]. destruct (all_some _) as [r|] eqn:E; [|discriminate]. intros [= <-] IN.
    cbn [decl_names]. eapply group_symbol; [|exact E|exact IN]. intros; eapply value_symbol; eauto.
  - destruct (vdesc_meaning _ _ _ v) as [x|] eqn:E; [|discriminate]. intros [= <-] IN. cbn [decl_names flat_map]. rewrite app_nil_r. eapply value_symbol; eauto.
  - destruct (_ || _); [|discriminate]. destruct (all_some _) as [r|] eqn:E; [|discriminate]. intros [= <-] IN.
    cbn [decl_names]. eapply group_symbol; [|exact E|exact IN]. intros a [[x y] z] M I. eapply (spec_symbol s a (x, y, z)); eauto.
  - destruct (tsdesc_meaning _ t) as [[[x y] z]|] eqn:E; [|discriminate]. intros [= <-] IN. cbn [decl_names flat_map]. rewrite app_nil_r.
    eapply (spec_symbol s t (x, y, z)); eauto.
  - unfold fndesc_meaning. destruct (_ && _); [|discriminate]. destruct (body_tokens code (fnCode f)) as [b|]; [|discriminate]. cbn [obind]. intros [= <-] IN.
    cbn [decl_names]. apply (denoted_sig s) in IN. unfold decl_names. destruct (denote_sig_with q _) as [ps rs]. apply in_or_app. right. exact IN.
Qed.
Lemma file_symbol s d g : filedesc_meaning q code d = Some g -> In s (filedesc_symbols d) -> In (shown s) (flat_map decl_names (GDecls g)).
Proof.
  unfold filedesc_meaning, filedesc_symbols. destruct (ident (fdPackage d)); [|discriminate].
  destruct (all_some _) as [r|] eqn:E; [|discriminate]. intros [= <-] IN. cbn [GDecls].
  eapply group_symbol; [|exact E|exact IN]. intros; eapply element_symbol; eauto.
Qed.
End Described.

(** ** Written files *)
Lemma resolved_use real specs g g' s : resolve_decl real specs g = Some g' -> In (Some (sym_path s), SymName s) (decl_names g') ->
  exists q, In q (flat_map (fun '(q, _) => match q with Some q => [q] | None => [] end) (decl_names g)) /\
    resolve_qual real specs (Some q) = Some (Some (sym_path s)).
Proof.
  intros R IN. destruct (decl_resolved real specs g g' R) as (F & _). clear R. revert IN.
  induction F as [|[q n] [q' n'] l l' [E R] _ IH]; [intros []|]. cbn [fst snd] in *. intros [IN|IN].
  - injection IN as -> ->. destruct q as [q|]; [|discriminate]. exists q. split; [left; reflexivity|exact R].
  - destruct (IH IN) as (x & A & B). exists x. split; [|exact B]. cbn [flat_map]. apply in_or_app. right. exact A.
Qed.
Section Built.
Context {TD : Type}.
Variable env : Env TD.
Lemma built_used real fuel (d : filedesc (list (chunk TD))) (w : World TD) m : represents w m -> go_name (fdName d) -> no_template_code d ->
  exists d' w1, build_file d w = (Ok (List.length (files w), d'), w1) /\ same_but_code d d' /\
    forall s w2 g0, source env fuel (List.length (files w)) w1 = (Ok s, w2) ->
    (forall r, described w1 d r -> right_name real r /\ usable_name r) ->
    filedesc_depth d <= fuel ->
    filedesc_meaning (path_qualifier (fdPath d)) (block_text env w2) d' = Some g0 ->
    exists g, parse_file s = Some g /\ forall sp, In sp (map import_of (GImports g)) ->
      In (effective_name real sp) (type_qualifiers (GDecls g)) \/
      exists x r, code_mentions w1 d x /\ In r (packages_of x) /\ fst r = SpecPath sp.
Proof.
  intros R GN NT. destruct (built_prepared real d w m R GN NT) as (d' & w1 & E & SB & F & NF & FI & BM & PR).
  exists d', w1. split; [exact E|]. split; [exact SB|]. intros s w2 g0 SR G D M. rewrite (same_depth _ _ SB) in D.
  assert (FM := file_is_meaning _ _ w1 _ d' fuel g0 F FI NF D M).
  destruct (prepared_means env real _ _ fuel _ w1 F s w2 (PR G) SR g0 (built_unnamed w1 _ d d' FI SB) FM) as (F1 & g & E1 & PG & IG & RG).
  exists g. split; [exact PG|]. intros sp IN. rewrite IG in IN.
  destruct (final_imports env real _ _ fuel _ w1 F s w2 (PR G) SR) as (H & F1' & E1' & EI & OK & HON & _). rewrite E1 in E1'. injection E1' as <-.
  destruct (names_of_imports env real _ _ fuel _ w1 F s w2 (PR G) SR F1 E1) as [ND N]. destruct (N sp IN) as (r & [[]|AR] & EP & NO & _).
  destruct (BM r AR) as [IR|(x & CM & IR)]; [left|right; eauto].
  unfold sym_requests in IR. apply in_map_iff in IR as (y & <- & IY). apply filter_In in IY as [IY HP]. cbn [fst] in *.
  rewrite (same_symbols _ _ SB) in IY. apply (file_symbol _ _ _ _ _ M) in IY.
  unfold path_qualifier in IY. rewrite HP in IY. destruct (String.eqb_spec (sym_path y) (fdPath d)) as [|_]; [contradiction|]. cbn [negb andb] in IY.
  unfold resolve_file in RG. destruct (all_some _) as [ds|] eqn:RD; [|discriminate]. injection RG as _ RG; rewrite <- RG in IY; rewrite IG in RD.
  unfold type_qualifiers. clear - IY RD IN EP EI. revert ds RD IY. induction (GDecls g) as [|a l IH]; cbn [map all_some]; intros ds RD IY.
  { injection RD as <-. destruct IY. }
  destruct (resolve_decl real _ a) as [a'|] eqn:RA; [|discriminate]. cbn [obind] in RD. destruct (all_some _) as [l'|] eqn:RL in RD; [|discriminate].
  injection RD as <-. cbn [flat_map] in IY |- *. apply in_app_or in IY as [IY|IY]; apply in_or_app; [left|right; eauto].
  destruct (resolved_use _ _ _ _ _ RA IY) as (q & IQ & RQ). replace (effective_name real sp) with q; [exact IQ|].
  cbn [resolve_qual] in RQ. destruct (filter _ _) as [|s0 [|]] eqn:FU in RQ; try discriminate. injection RQ as RQ.
  assert (I0 : In s0 (filter (fun s => String.eqb (effective_name real s) q) (ImportSpecs (FImports F1)))) by (rewrite FU; left; reflexivity).
  apply filter_In in I0 as [I0 E0]. apply String.eqb_eq in E0. rewrite <- E0. f_equal.
  apply (spec_unique (FImports F1)); auto; [rewrite EI; apply run_new_Inv|congruence].
Qed.
End Built.
(** A method of another package as a code argument: the import is not used. *)
Lemma unused_wrong : forall env : Env unit, exists s g,
  prepared path_Base "a.b/m" [] meth_world 0 (file0 meth_world) /\ no_named_specs meth_world 0 /\
  source env 3 0 meth_world = (Ok s, snd (source env 3 0 meth_world)) /\
  parse_file s = Some g /\ In "n" (import_names path_Base g) /\ ~ In "n" (used (GDecls g)).
Proof.
  intros env. exists (text_of (source env 3 0 meth_world)). eexists. split; [by_prepared|].
  split; [apply no_named; vm_compute; reflexivity|]. split; [vm_compute; reflexivity|]. split; [vm_compute; reflexivity|].
  split; [vm_compute; auto|]. vm_compute. intros []; auto.
Qed.
