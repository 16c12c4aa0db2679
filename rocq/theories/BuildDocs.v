(** From the description of a file to the comments that are written. *)
From Verif Require Import Base BaseFacts GoPath Types SpecTypes TypesFacts Imports SpecImports ImportsProofs ImportsTheorems SettleProofs SpecGo SpecRender
  TextTheorems World SpecWorld SpecFile SpecDecl SpecQualify WorldProofs DeclText DeclTheorems FileTheorems QualifyProofs QualifyTheorems
  SourceProofs SourceTheorems MeaningProofs QualifyExamples SpecDoc DocProofs SpecBuild BuildProofs BuildTypes BuildFiles BuildMeaning SpecBuildDoc.

Lemma find_unique {A} (key : A -> string) (l : list A) a : NoDup (map key l) -> In a l ->
  find (fun x => String.eqb (key x) (key a)) l = Some a.
Proof.
  induction l as [|b l IH]; cbn [map find]; [intros _ []|]. intros ND [<-|I]; [rewrite String.eqb_refl; reflexivity|].
  inversion ND as [|x y NI ND']; subst. destruct (String.eqb_spec (key b) (key a)) as [E|E]; [|auto].
  exfalso. apply NI. rewrite E. apply in_map. exact I.
Qed.

Lemma all_some_in {A B} (g : A -> option B) l : forall ys a, all_some (map g l) = Some ys -> In a l -> exists y, g a = Some y.
Proof.
  induction l as [|b l IH]; intros ys a; cbn [map all_some]; [intros _ []|]. destruct (g b) as [y|] eqn:E; [|discriminate]. cbn [obind].
  destruct (all_some (map g l)) as [r|]; [|discriminate]. intros _ [<-|I]; eauto.
Qed.

Section Docs.
Context {TD : Type}.
Variable env : Env TD.
Variables (fuel f : nat) (w w1 : World TD) (F : GoFile) (R : string * string -> Prop).
Variables (real : string -> string) (own : string) (H : list call).
Hypothesis EF : nth_error (files w) f = Some F.
Hypothesis IF : Inv (FImports F).
Hypothesis NT : templates_ok env w f R.
Hypothesis HR : forall r, file_mentions w f r -> R r.
Hypothesis Q : qualify_file env fuel f w = (Ok tt, w1).
Hypothesis EH : imp f w1 = run H (NewImportsFor own).
Hypothesis OK : forallb call_ok H = true.
Hypothesis HON : forall c, In c H -> honest real c.
Notation j := (run H (NewImportsFor own)).
Notation specs := (ImportSpecs j).
Notation pq := (path_qualifier own).
Notation q := (import_prefix real specs own).

Lemma prefix_known s : known j s -> qualifier (rename j s) = q s.
Proof.
  intros K. destruct (known_good_sym real own H OK HON s K) as [_ RQ]. unfold import_prefix.
  assert (ND : NoDup (map SpecPath specs)).
  { pose proof (import_specs own H) as SP. cbv zeta in SP. destruct SP as (_ & _ & ND & _). exact ND. }
  destruct (qualifier (rename j s)) as [p|] eqn:E; cbn [resolve_qual] in RQ.
  - destruct (filter _ specs) as [|sp [|]] eqn:FU; try discriminate. injection RQ as <-. cbn [obind].
    assert (IN : In sp (filter (fun s => String.eqb (effective_name real s) p) specs)) by (rewrite FU; left; auto).
    apply filter_In in IN as [IN EN]. rewrite (find_unique SpecPath specs sp ND IN). cbn [option_map].
    apply String.eqb_eq in EN. congruence.
  - injection RQ as <-. reflexivity.
Qed.
Lemma head_final t t1 : type_final j t t1 -> wf t = true \/ multi_line t = true -> type_head (denote t1) = type_head (denote_with q t).
Proof.
  intros TF [W|W].
  - destruct (type_final_wf _ _ _ TF W) as [-> K]. destruct t as [| | | | | | | |[]| |]; try reflexivity.
    cbn [map_symbols denote_with type_head name_head]. rewrite (rename_name j s), prefix_known; [reflexivity|]. apply K. left. auto.
  - pose proof (under_head own H t t1 TF) as U. destruct t; try discriminate W.
    + destruct U as (l & ->). reflexivity. + destruct U as (a & b & ->). reflexivity.
Qed.
Lemma named_wf t : forall g, tdesc_meaning pq t = Some g -> wf (type_of t) = true \/ multi_line (type_of t) = true.
Proof.
  induction t as [n|fs _|es|t IH] using tdesc_induction; intros g M; cbn [tdesc_meaning type_of] in *; auto.
  - destruct (wf n && decl_ok n) eqn:B; [|discriminate]. apply andb_true_iff in B as [B _]. auto.
  - eauto.
Qed.
Lemma elem_notes_after id e : part_of w f (IElem id) -> elem_is w id e ->
  exists e1, nth_error (ielems w1) id = Some e1 /\ element_notes e1 = idesc_notes q e.
Proof.
  intros P (p & E). destruct (elem_after env fuel f w w1 F R EF IF NT HR Q id _ P E) as (e1 & E1 & FI). exists e1. split; [exact E1|].
  rewrite EH in FI. destruct e as [c s|c n a r v]; cbn [elem_final] in FI; destruct FI as (s1 & -> & SF); [|reflexivity].
  destruct (sym_final_known _ _ _ SF) as [-> K]. cbn [element_notes idesc_notes]. rewrite (rename_name j s), prefix_known; auto.
Qed.
Lemma flat_all2 {A B C} (P : A -> B -> Prop) (g : A -> list C) (h : B -> list C) m : forall l, all2 P l m ->
  (forall a b, In a l -> In b m -> P a b -> g a = h b) -> flat_map g l = flat_map h m.
Proof.
  induction m as [|b m IH]; intros [|a l]; cbn; try tauto; try discriminate. intros [X Y] G. f_equal; [apply G; auto|].
  apply IH; auto.
Qed.
Lemma flat_nil {A C} (g : A -> list C) l : (forall a, In a l -> g a = []) -> flat_map g l = [].
Proof. induction l as [|a l IH]; cbn; auto. intros G. rewrite G, IH; auto. Qed.
Lemma doc_none t : doc "" t = []. Proof. reflexivity. Qed.
Lemma spec_notes_after t : forall k i T g, part_of w f (IType i) -> nth_error (types w) i = Some T -> contents w T t ->
  tdesc_meaning pq t = Some g -> depth t <= k ->
  exists T1, nth_error (types w1) i = Some T1 /\ spec_notes w1 k T1 = tdesc_notes q t.
Proof.
  induction t as [n|fs FI|es|t IH] using tdesc_induction; intros k i T g P E C M L;
    destruct (type_after env fuel f w w1 F R EF IF NT HR Q i T P E) as (T1 & E1 & ET & TF); rewrite EH in TF; pose proof (under_head own H _ _ TF) as UH;
    assert (ST : TSStruct T1 = TSStruct T) by (rewrite ET; auto); assert (SI : TSInterface T1 = TSInterface T) by (rewrite ET; auto).
  - exists T1. split; [exact E1|]. destruct C as [U C]. cbn [type_of] in U. rewrite U in UH. cbn [depth] in L. destruct k as [|k]; [lia|].
    cbn [tdesc_notes spec_notes]. cbn [tdesc_meaning] in M. destruct (wf n && decl_ok n) eqn:B; [|discriminate]. apply andb_true_iff in B as [B _].
    assert (D : match n with TStruct _ | TInterface _ _ => False | _ => True end ->
      match TSUnderlying T1 with TStruct _ | TInterface _ _ => False | _ => True end).
    { intros N. destruct n; try destruct N; apply UH; exact B. }
    destruct n as [| | | | | | | | |fs|ms es]; try (specialize (D Logic.I); destruct (TSUnderlying T1); try reflexivity; destruct D; fail).
    + destruct UH as (l & ->). rewrite ST. destruct C as [_ C]. apply flat_nil. intros id IN.
      destruct (all2_in _ _ _ _ C IN) as (fd & _ & FS & N & FC & FN & FT & FY).
      assert (PF : part_of w f (IField id)) by (eapply po_field; eauto).
      destruct (field_after env fuel f w w1 F R EF IF NT HR Q id FS PF N) as (F1 & EF1 & EQ & TF1). rewrite EF1.
      assert (FC1 : FSComment F1 = "") by (rewrite EQ; auto). rewrite FC1, doc_none. cbn [app].
      destruct (FldType fd); rewrite FY in TF1; cbn [tos_final] in TF1; try (rewrite TF1; reflexivity); destruct TF1 as (t9 & -> & _); reflexivity.
    + destruct UH as (a & b & ->). rewrite SI. destruct C as [_ C]. apply flat_nil. intros id IN.
      destruct (all2_in _ _ _ _ C IN) as (e & IE & EI).
      assert (PE : part_of w f (IElem id)) by (eapply po_elem; eauto).
      destruct (elem_notes_after id e PE EI) as (e1 & -> & ->).
      apply in_app_or in IE as [IE|IE]; apply in_map_iff in IE as (x & <- & _); reflexivity.
  - exists T1. split; [exact E1|]. apply contents_struct in C as (U & _ & C). rewrite U in UH. cbn [type_of] in UH. destruct UH as (l & U1).
    destruct k as [|k]; [cbn in L; lia|]. cbn [tdesc_notes spec_notes]. rewrite U1, ST.
    cbn [tdesc_meaning] in M. destruct (all_some _) as [gs|] eqn:G in M; [|discriminate].
    eapply flat_all2; [exact C|]. intros id [[[c n] tag] t] IN I (FS & N & FC & FN & FT & FY).
    assert (PF : part_of w f (IField id)) by (eapply po_field; eauto).
    destruct (field_after env fuel f w w1 F R EF IF NT HR Q id FS PF N) as (F1 & EF1 & EQ & TF1). rewrite EF1. rewrite EH in TF1.
    assert (FC1 : FSComment F1 = c) by (rewrite EQ; auto). assert (FN1 : FSName F1 = n) by (rewrite EQ; auto).
    rewrite Forall_forall in FI. specialize (FI _ I). assert (D := depth_in _ _ _ L I). cbn [snd] in FI, D.
    destruct (all_some_in _ _ _ _ G I) as (y & Y). cbv beta iota in Y. destruct (tdesc_meaning pq t) as [gt|] eqn:MT; [|discriminate].
    assert (SP : (exists i T', FSType FS = IsSpec i /\ nth_error (types w) i = Some T' /\ TSName T' = "" /\ contents w T' t) ->
      doc (FSComment F1) (field_head w1 F1) ++ match FSType F1 with
                | IsSpec ts =>
                    match nth_error (types w1) ts with
                    | Some T' => if String.eqb (TSName T') "" then spec_notes w1 k T' else []
                    | None => []
                    end
                | _ => []
                end = doc c (if String.eqb n "" then type_head (denote_with q (type_of t)) else TIdent n) ++ tdesc_notes q t).
    { intros (i' & T' & FY' & NT' & NM & CT). rewrite FY' in TF1. cbn [tos_final] in TF1.
      assert (PT : part_of w f (IType i')) by (eapply po_field_type; eauto).
      destruct (FI k i' T' gt PT NT' CT eq_refl D) as (T1' & E1' & SN).
      destruct (type_after env fuel f w w1 F R EF IF NT HR Q i' T' PT NT') as (T2 & E2 & ET2 & TF2). rewrite E1' in E2. injection E2 as <-. rewrite EH in TF2.
      assert (NM1 : TSName T1' = "") by (rewrite ET2; auto). rewrite TF1, E1', NM1. cbn [String.eqb]. rewrite SN. f_equal.
      rewrite FC1. f_equal. unfold field_head. rewrite FN1, TF1, E1'. cbn [obind]. rewrite NM1. cbn [String.eqb].
      destruct (String.eqb n ""); [|reflexivity]. rewrite (contents_underlying _ _ _ CT) in TF2.
      apply head_final; [exact TF2|]. eapply named_wf; eauto. }
    destruct t as [nm|fs'|es|t]; try (apply SP; exact FY).
    cbn [typed] in FY. rewrite FY in TF1. cbn [tos_final] in TF1. destruct TF1 as (nm1 & FY1 & TF1). rewrite FY1. cbn [tdesc_notes]. f_equal.
    rewrite FC1. f_equal. unfold field_head. rewrite FN1, FY1. destruct (String.eqb n ""); [|reflexivity]. cbn [type_of].
    apply head_final; [exact TF1|]. apply (named_wf (DName nm) gt MT).
  - exists T1. split; [exact E1|]. destruct C as (U & _ & C). rewrite U in UH. cbn [type_of] in UH. destruct UH as (a & b & U1).
    destruct k as [|k]; [cbn in L; lia|]. cbn [tdesc_notes spec_notes]. rewrite U1, SI.
    eapply flat_all2; [exact C|]. intros id e IN _ EI.
    assert (PE : part_of w f (IElem id)) by (eapply po_elem; eauto).
    destruct (elem_notes_after id e PE EI) as (e1 & -> & ->). reflexivity.
  - destruct C as [_ C]. cbn [tdesc_notes]. eapply IH; eauto.
Qed.
Lemma decl_notes_all2 {A B} kw cm (c : A -> string) (c' : B -> string) hd hd' inner inner' l m :
  Forall2 (fun a b => c a = c' b /\ hd a = hd' b /\ inner a = inner' b) l m ->
  decl_notes kw cm l c hd inner = decl_notes kw cm m c' hd' inner'.
Proof.
  intros G. unfold decl_notes. rewrite (grouped_length cm l m (Forall2_len _ _ _ G)).
  assert (X : all_some (map inner l) = all_some (map inner' m)).
  { f_equal. induction G as [|a b l m (_ & _ & E) _ IH]; cbn [map]; congruence. }
  rewrite X. destruct (all_some (map inner' m)) as [r|]; [|reflexivity]. cbn [option_map]. f_equal.
  destruct (grouped cm m).
  - f_equal. f_equal. clear X. revert r. induction G as [|a b l m (E1 & E2 & _) _ IH]; intros [|x r]; cbn [combine map]; try reflexivity.
    rewrite E1, E2, IH. reflexivity.
  - f_equal. clear X. induction G as [|a b l m (E1 & _) _ IH]; cbn [flat_map]; [reflexivity|]. rewrite E1, IH. reflexivity.
Qed.
Lemma lookup_after {A} (P : A -> A -> Prop) tab tab1 ids : forall l, lookup_all tab ids = Some l ->
  (forall i a, In i ids -> nth_error tab i = Some a -> exists a1, nth_error tab1 i = Some a1 /\ P a a1) ->
  exists l1, lookup_all tab1 ids = Some l1 /\ Forall2 P l l1.
Proof.
  unfold lookup_all. induction ids as [|i ids IH]; intros l L G; cbn [map all_some] in *; [injection L as <-; eauto|].
  destruct (nth_error tab i) as [a|] eqn:E; [|discriminate]. cbn [obind] in L.
  destruct (all_some (map (nth_error tab) ids)) as [r|] eqn:L'; [|discriminate]. cbn [obind] in L. injection L as <-.
  destruct (G i a (or_introl eq_refl) E) as (a1 & E1 & PA). destruct (IH r eq_refl) as (r1 & L1 & PR); [intros; apply G; auto; right; auto|].
  rewrite E1, L1. cbn [obind]. eauto.
Qed.
Lemma Forall2_through {A B} (P : A -> A -> Prop) (G : A -> B -> Prop) (K : A -> B -> Prop) l m l1 : Forall2 G l m -> Forall2 P l l1 ->
  (forall a a1 b, In b m -> P a a1 -> G a b -> K a1 b) -> Forall2 K l1 m.
Proof.
  intros X. revert l1. induction X as [|a b l m G0 X IH]; intros l1 Y Z; inversion Y; subst; constructor.
  - eapply Z; eauto. left; auto.
  - apply IH; auto. intros. eapply Z; eauto. right; auto.
Qed.
Variable code : nat -> option string.
Definition same_value (V V1 : ValueSpec) : Prop := VComment V1 = VComment V /\ VNames V1 = VNames V /\ VInit V1 = VInit V.
Lemma values_notes tab tab1 kw D cm vs : values_are f w tab D cm vs ->
  (forall i V, In i (VDSpecs D) -> nth_error tab i = Some V -> exists V1, nth_error tab1 i = Some V1 /\ same_value V V1) ->
  obind (lookup_all tab1 (VDSpecs D)) (fun l => decl_notes kw (VDComment D) l VComment value_head (value_notes code)) = group_values code kw cm vs.
Proof.
  intros (C & Vs & L & A) G. destruct (lookup_after _ tab tab1 _ Vs L G) as (l1 & L1 & S). rewrite L1. cbn [obind]. rewrite C.
  unfold group_values. apply decl_notes_all2. eapply Forall2_through; [exact A|exact S|].
  intros V V1 v _ (E1 & E2 & E3) ((C1 & C2 & C3 & _) & _). unfold value_head, vdesc_head, value_notes, vdesc_notes.
  rewrite E1, E2, E3, C1, C2, C3. auto.
Qed.
Definition same_spec k (T T1 : TypeSpec) : Prop := TSComment T1 = TSComment T /\ TSName T1 = TSName T /\
  forall t g, contents w T t -> tdesc_meaning pq t = Some g -> depth t <= k -> spec_notes w1 k T1 = tdesc_notes q t.
Lemma same_spec_after k i T : part_of w f (IType i) -> nth_error (types w) i = Some T ->
  exists T1, nth_error (types w1) i = Some T1 /\ same_spec k T T1.
Proof.
  intros P E. destruct (type_after env fuel f w w1 F R EF IF NT HR Q i T P E) as (T1 & E1 & ET & _). exists T1. split; [exact E1|].
  split; [rewrite ET; auto|]. split; [rewrite ET; auto|]. intros t g C M L.
  destruct (spec_notes_after t k i T g P E C M L) as (T2 & E2 & X). congruence.
Qed.
Lemma types_notes k D cm ts gs : types_are f w D cm ts -> (forall i, In i (TDTypes D) -> part_of w f (IType i)) ->
  all_some (map (tsdesc_meaning pq) ts) = Some gs -> fold_right Nat.max 0 (map (fun t => tbody_depth (tsBody t)) ts) <= k ->
  obind (lookup_all (types w1) (TDTypes D)) (fun l => decl_notes "type" (TDComment D) l TSComment (fun T => TIdent (TSName T)) (fun T => Some (spec_notes w1 k T)))
  = group_types q cm ts.
Proof.
  intros (C & Ts & L & A) PO M DE.
  destruct (lookup_after (same_spec k) (types w) (types w1) _ Ts L) as (l1 & L1 & S); [intros; apply same_spec_after; auto|].
  rewrite L1. cbn [obind]. rewrite C. unfold group_types. apply decl_notes_all2. eapply Forall2_through; [exact A|exact S|].
  intros T T1 t I (E1 & E2 & E3) ((C1 & C2 & _ & C4) & _). rewrite E1, E2, C1, C2. split; [auto|]. split; [auto|]. f_equal.
  destruct (all_some_in _ _ _ _ M I) as (y & Y). unfold tsdesc_meaning in Y. destruct (ident (tsName t)); [|discriminate].
  assert (X := edepth_group ts t I).
  destruct (tsBody t) as [fs|es|b|b]; cbn [body_type tbody_meaning tbody_depth] in *.
  - destruct (tdesc_meaning pq (DStruct fs)) as [g|] eqn:G; [|discriminate]. eapply E3; eauto. lia.
  - destruct (tdesc_meaning pq (DInterface es)) as [g|] eqn:G; [|discriminate]. eapply E3; eauto. cbn [depth]. lia.
  - destruct (tdesc_meaning pq b) as [g|] eqn:G; [|discriminate]. eapply E3; eauto. lia.
  - destruct (tdesc_meaning pq b) as [g|] eqn:G; [|discriminate]. eapply E3; eauto. lia.
Qed.
Lemma element_notes_after k e d g : In e (FElements F) -> element_is f w e d -> edesc_depth d <= k -> edesc_meaning pq code d = Some g ->
  fileelement_notes w1 code k e = edesc_notes q code d.
Proof.
  intros IE X L M. pose proof (skel_after env fuel f w w1 F R EF IF NT HR Q) as SK.
  assert (CV : forall i D x V, nth_error (constDecls w) i = Some D -> e = EConst i -> In x (VDSpecs D) -> nth_error (consts w) x = Some V ->
     exists V1, nth_error (consts w1) x = Some V1 /\ same_value V V1).
  { intros i D x V N -> IX NV. assert (P : part_of w f (IConst x)) by (eapply po_const; eauto).
    destruct (const_after env fuel f w w1 F R EF IF NT HR Q x V P NV) as (V1 & E1 & EQ & _). exists V1. split; [exact E1|].
    repeat split; rewrite EQ; auto. }
  assert (VV : forall i D x V, nth_error (varDecls w) i = Some D -> e = EVar i -> In x (VDSpecs D) -> nth_error (vars w) x = Some V ->
     exists V1, nth_error (vars w1) x = Some V1 /\ same_value V V1).
  { intros i D x V N -> IX NV. assert (P : part_of w f (IVar x)) by (eapply po_var; eauto).
    destruct (var_after env fuel f w w1 F R EF IF NT HR Q x V P NV) as (V1 & E1 & EQ & _). exists V1. split; [exact E1|].
    repeat split; rewrite EQ; auto. }
  assert (GM : forall ts gr c, group_meaning (tsdesc_meaning pq) DType c ts = Some gr -> exists gs, all_some (map (tsdesc_meaning pq) ts) = Some gs).
  { intros ts gr c GM. unfold group_meaning in GM. destruct (_ || _); [|discriminate]. destruct (all_some _) as [gs|]; [eauto|discriminate]. }
  destruct e as [i|i|i|i]; destruct X as (D & N & X); destruct d; try contradiction; cbn [fileelement_notes edesc_notes edesc_meaning edesc_depth] in *.
  - rewrite (f_equal constDecls SK : constDecls w1 = constDecls w), N. cbn [obind]. eapply values_notes; eauto.
  - rewrite (f_equal constDecls SK : constDecls w1 = constDecls w), N. cbn [obind]. eapply values_notes; eauto.
  - rewrite (f_equal varDecls SK : varDecls w1 = varDecls w), N. cbn [obind]. eapply values_notes; eauto.
  - rewrite (f_equal varDecls SK : varDecls w1 = varDecls w), N. cbn [obind]. eapply values_notes; eauto.
  - rewrite (f_equal typeDecls SK : typeDecls w1 = typeDecls w), N. cbn [obind]. destruct (GM _ _ _ M) as (gs & GS).
    eapply types_notes; eauto. intros x IX. eapply po_type; eauto.
  - rewrite (f_equal typeDecls SK : typeDecls w1 = typeDecls w), N. cbn [obind]. destruct (tsdesc_meaning pq t) as [y|] eqn:Y; [|discriminate].
    apply (types_notes k D "" [t] [y]); auto; [intros x IX; eapply po_type; eauto|cbn [map all_some]; rewrite Y; auto|cbn; lia].
  - destruct X as [(C1 & C2 & C3 & C4 & C5) _]. assert (P : part_of w f (IFunc i)) by (eapply po_func; eauto).
    destruct (func_after env fuel f w w1 F R EF IF NT HR Q i D P N) as (G1 & E1 & EQ & _). rewrite E1. cbn [obind].
    assert (B1 : FNComment G1 = fnComment f0) by (rewrite EQ; auto). assert (B2 : FNBody G1 = fnCode f0) by (rewrite EQ; auto).
    rewrite B1, B2. reflexivity.
Qed.
Lemma file_notes_after k d F1 g canon : file_is w f d -> filedesc_depth d <= k -> filedesc_meaning pq code d = Some g ->
  F1 = with_imports F (FImports F1) -> file_notes w1 code k F1 canon = filedesc_notes q code d canon.
Proof.
  intros (F' & N & _ & _ & _ & _ & C1 & C2 & C3 & A) DE M EQ. assert (F' = F) by congruence; subst F'.
  unfold file_notes, filedesc_notes.
  assert (B1 : FFileComment F1 = fdFileComment d) by (rewrite EQ; auto). assert (B2 : FPackageComment F1 = fdPackageComment d) by (rewrite EQ; auto).
  assert (B3 : FCanonical F1 = fdCanonical d) by (rewrite EQ; auto). assert (B4 : FElements F1 = FElements F) by (rewrite EQ; auto).
  rewrite B1, B2, B3, B4. f_equal. f_equal. unfold filedesc_meaning in M. destruct (ident (fdPackage d)); [|discriminate].
  destruct (all_some (map (edesc_meaning pq code) (fdElements d))) as [gs|] eqn:G; [|discriminate]. unfold filedesc_depth in DE.
  clear - A G DE EF IF NT HR Q EH OK HON. pose proof (incl_refl (FElements F)) as INC. revert A INC.
  generalize (FElements F) at 1 2 4 as es. intros es A. revert gs G DE.
  induction A as [|e d0 es ds X A IH]; intros gs G DE INC; [reflexivity|]. cbn [map all_some fold_right] in *.
  destruct (edesc_meaning pq code d0) as [y|] eqn:Y; [|discriminate]. cbn [obind] in G.
  destruct (all_some (map (edesc_meaning pq code) ds)) as [r|] eqn:GR; [|discriminate].
  rewrite (element_notes_after k e d0 y); auto; [|apply INC; left; auto|lia]. f_equal. apply (IH r); auto; [lia|].
  intros z IZ. apply INC. right. exact IZ.
Qed.
End Docs.

(** ** The whole way *)
Theorem built_file_comments {TD} (env : Env TD) real fuel (d : filedesc (list (chunk TD))) (w : World TD) m :
  represents w m -> go_name (fdName d) -> no_template_code d ->
  exists d' w1, build_file d w = (Ok (List.length (files w), d'), w1) /\ same_but_code d d' /\
    forall s w2 g0, source env fuel (List.length (files w)) w1 = (Ok s, w2) ->
    (forall r, In r (sym_requests (filedesc_symbols d)) -> right_name real r /\ usable_name r) ->
    (forall x r, code_mentions w1 d x -> In r (packages_of x) -> right_name real r /\ usable_name r) ->
    filedesc_depth d <= fuel ->
    filedesc_meaning (path_qualifier (fdPath d)) (block_text env w2) d' = Some g0 ->
    exists g canon, parse_file s = Some g /\
      tokens canon = Some [TKw "import"; TStr (fdCanonical d); TOp ";"] /\
      forall ns, filedesc_notes (import_prefix real (map import_of (GImports g)) (fdPath d)) (block_text env w2) d' canon = Some ns ->
      comments s = Some ns.
Proof.
  intros RP GN NT. destruct (build_file_ok d w m RP GN) as (d' & w1 & m1 & E & _ & _ & R1 & _ & FI & BI & SB & IM).
  exists d', w1. split; [exact E|]. split; [exact SB|]. intros s w2 g0 SR G1 G2 D M.
  assert (FI' := FI). destruct FI' as (F & NF & _ & _ & _ & _ & _ & _ & CN & _).
  assert (NT1 : no_templates w1 (List.length (files w))) by (eapply built_no_templates; eauto).
  assert (HR : forall r, file_mentions w1 (List.length (files w)) r -> right_name real r /\ usable_name r).
  { intros r FM. destruct (built_mentions w1 m1 _ d d' R1 FI BI SB r FM) as [I|(x & CM & I)]; eauto. }
  rewrite (same_depth _ _ SB) in D.
  destruct (source_means_more env real (fdPath d) [] fuel _ w1 F s w2 g0 NF (IM F NF) eq_refl) as
    (H & F1 & g & (Q & EH & EI1 & EQ & OK1 & HON1) & FM & GW & N1 & PG & IO & _); auto; try (intros c []).
  { eapply (built_unnamed w1 _ d d'); eauto. }
  { eapply file_is_meaning; eauto. }
  assert (IF : Inv (FImports F)) by (rewrite (IM F NF); exact (run_new_Inv (fdPath d) [])).
  destruct (file_comments env w2 fuel F1 g FM) as (s' & canon & GW' & TC & X).
  assert (s' = s) by congruence; subst s'. exists g, canon. split; [exact PG|].
  assert (CN1 : FCanonical F1 = fdCanonical d).
  { rewrite EQ. cbn [with_imports FCanonical]. rewrite CN. pose proof (f_equal fdCanonical SB) as Y. symmetry. exact Y. }
  split; [rewrite TC, CN1; reflexivity|]. intros ns NS. apply X. rewrite IO, EI1, EH in NS.
  rewrite (file_notes_after env fuel _ w1 w2 F _ real (fdPath d) H NF IF (no_templates_ok env w1 _ _ NT1) HR Q EH OK1 HON1 (block_text env w2) fuel d' F1 g0 canon); auto.
Qed.
