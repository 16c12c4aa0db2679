(** After a file has been written: its imports, and every type, signature and symbol in it. *)
From Coq Require Import Permutation.
From Verif Require Import Base BaseFacts GoPath Utf8 Quote SpecLit Types SpecTypes TypesFacts Imports SpecImports ImportsProofs
  ImportsTheorems SettleProofs SpecGo SpecRender LexProofs TextProofs ParseProofs TextTheorems Conv World WorldProofs SpecFile SpecDecl SpecQualify QualifyProofs QualifyTheorems.

(** ** The final imports *)
Lemma steps_run R h own l : (forall r, In r l -> R r) ->
  fold_left reg_pair l (run h (NewImportsFor own)) =
  run (h ++ map (fun r => CRegisterImport (fst r) (snd r)) l) (NewImportsFor own).
Proof.
  intros _. rewrite run_app. generalize (run h (NewImportsFor own)). induction l as [|r l IH]; intros i; auto.
  cbn [fold_left map]. rewrite IH. auto.
Qed.
Section Final.
Variables (real : string -> string) (own : string) (H : list call).
Hypothesis OK : forallb call_ok H = true.
Hypothesis HON : forall c, In c H -> honest real c.
Notation j := (run H (NewImportsFor own)).
Lemma prefix_listed i path n : prefix_name i path = Some n -> n <> "" -> In path (listed i).
Proof.
  intros Pn Nn. apply In_listed. unfold prefix_name in Pn.
  destruct (String.eqb path (pkgPath i)); [congruence|].
  destruct (lookup path (importsByPath i)); discriminate.
Qed.
Lemma prefix_refers path n : prefix_name j path = Some n -> refers real own (ImportSpecs j) n path.
Proof.
  intros Pn. pose proof (run_new_Inv own H) as Ij. unfold refers. destruct (String.eqb_spec n "") as [->|Nn].
  - apply prefix_name_nonempty in Pn; auto. rewrite Pn. apply run_new_own.
  - destruct (resolve_prefix real own H path OK HON) as (m & Pm & Nm & RR).
    { eapply prefix_listed; eauto. }
    unfold PrefixForPackage in Pm. rewrite (prefix_known _ _ _ _ _ Ij Pn) in Pm.
    injection Pm as Pm. unfold with_dot in Pm. destruct (String.eqb_spec n ""); [congruence|].
    apply append_inj_r in Pm. subst m. exact RR.
Qed.
Lemma known_good_sym s : known j s -> good_sym real (ImportSpecs j) own (rename j) s.
Proof.
  intros K. split; [apply rename_name|]. unfold path_qualifier, qualifier. destruct (has_package s) eqn:HP; cbn [andb].
  - specialize (K HP). unfold rename. rewrite HP.
    destruct (prefix_name j (sym_path s)) as [n|] eqn:Pn; [|congruence]. cbn [SymPackage PkgName].
    pose proof (prefix_refers _ _ Pn) as RR. unfold refers in RR.
    destruct (String.eqb_spec n "") as [->|Nn].
    + rewrite RR, String.eqb_refl. reflexivity.
    + assert (ND : NoDup (map SpecPath (ImportSpecs j))).
      { pose proof (import_specs own H) as SP. cbv zeta in SP. destruct SP as (_ & _ & ND & _). exact ND. }
      destruct (filter_unique _ _ _ _ ND RR) as (sp & FU & SPE). cbn [resolve_qual]. rewrite FU, SPE.
      destruct (String.eqb_spec (sym_path s) own) as [EO|]; [|reflexivity].
      exfalso. apply Nn. unfold prefix_name in Pn. rewrite EO, run_new_own, String.eqb_refl in Pn. congruence.
  - unfold rename. rewrite HP.
    unfold has_package in HP. apply negb_false_iff, andb_true_iff in HP as [HP _]. rewrite HP. reflexivity.
Qed.
Hypothesis US : forall c, In c H -> usable_requests c.
Lemma rename_ok s : known j s -> sym_ok s = true -> sym_ok (rename j s) = true.
Proof.
  intros K. unfold sym_ok. rewrite rename_name, !andb_true_iff.
  intros [N1 N2]. split; auto. unfold rename. destruct (has_package s) eqn:HP; auto.
  specialize (K HP). destruct (prefix_name j (sym_path s)) as [n|] eqn:Pn; [|congruence].
  cbn [SymPackage PkgName]. unfold prefix_name in Pn.
  destruct (String.eqb (sym_path s) (pkgPath j)); [injection Pn as <-; auto|].
  destruct (lookup (sym_path s) (importsByPath j)) as [d|] eqn:L; [|discriminate].
  injection Pn as <-. rewrite (usable_ident (packageName d)); [apply orb_true_r|].
  eapply (usable_run own H OK US); eauto.
Qed.
Lemma specs_written : exists l, all_some (map import_meaning (ImportSpecs j)) = Some l /\ map import_of l = ImportSpecs j.
Proof.
  assert (A : forall s, In s (ImportSpecs j) -> exists i, import_meaning s = Some i /\ import_of i = s).
  { intros s IN. rewrite In_ImportSpecs, in_map_iff in IN. destruct IN as ([k d] & <- & IN).
    apply In_lookup in IN; [|apply inv_nodup_paths, run_new_Inv].
    pose proof (usable_ident _ (usable_run own H OK US k d IN)) as U.
    unfold import_meaning, spec_of_entry. destruct d as [nm al]. cbn in *. destruct al; cbn [PackageAlias SpecPath].
    - destruct (String.eqb_spec nm ""); [subst; discriminate|]. rewrite U. exists (Some nm, k). auto.
    - exists (None, k). auto. }
  induction (ImportSpecs j) as [|s l IH].
  - exists []. auto.
  - destruct (A s (or_introl eq_refl)) as (i & E1 & E2). destruct IH as (r & R1 & R2); [intros; apply A; right; auto|].
    exists (i :: r). cbn [map all_some]. rewrite E1, R1. cbn [option_map obind]. split; auto. cbn [map]. congruence.
Qed.
End Final.

(** ** Types, signatures and symbols after qualification *)
Definition type_final (i1 : Imports) (t t1 : TypeName) : Prop :=
  exists c j j', Inv j /\ EnsureTypeImported t j = (Ok (t1, c), j') /\ ext j' i1.
Definition sig_final (i1 : Imports) (s s1 : Signature) : Prop :=
  exists c j j', Inv j /\ EnsureAllTypesImported s j = (Ok (s1, c), j') /\ ext j' i1.
Definition sym_final (i1 : Imports) (s s1 : Symbol) : Prop :=
  exists j j', Inv j /\ EnsureImported s j = (Ok s1, j') /\ ext j' i1.
Definition tos_final (i1 : Imports) (a b : TypeNameOrSpec) : Prop :=
  match a with IsName t => exists t1, b = IsName t1 /\ type_final i1 t t1 | _ => b = a end.
Definition elem_final (i1 : Imports) (a b : InterfaceElement) : Prop :=
  match a with
  | InterfaceEmbed c s p => exists s1, b = InterfaceEmbed c s1 p /\ sym_final i1 s s1
  | InterfaceMethod c n s p => exists s1, b = InterfaceMethod c n s1 p /\ sig_final i1 s s1
  end.
Lemma type_final_wf i1 t t1 : type_final i1 t t1 -> wf t = true ->
  t1 = map_symbols (rename i1) t /\ forall s, In s (symbols_of t) -> known i1 s.
Proof.
  intros (c & j & j' & Ij & E & X) W. destruct (g_reg _ _ _ _ _ (ImportsProofs.good_type t) W j Ij) as (c' & i' & E' & _ & K & _).
  unfold EnsureTypeImported in E. rewrite E in E'. injection E' as -> _ <-. split.
  - apply (g_cong _ _ _ _ _ (ImportsProofs.good_type t)). intros s IN. symmetry. apply rename_ext; auto.
  - intros s IN. eapply known_ext; eauto.
Qed.
Lemma sig_final_wf i1 t t1 : sig_final i1 t t1 -> wf_sig t = true ->
  t1 = map_sig (map_symbols (rename i1)) t /\ forall s, In s (sig_symbols t) -> known i1 s.
Proof.
  intros (c & j & j' & Ij & E & X) W. destruct (g_reg _ _ _ _ _ (good_signature t) W j Ij) as (c' & i' & E' & _ & K & _).
  unfold EnsureAllTypesImported in E. rewrite E in E'. injection E' as -> _ <-. split.
  - apply (g_cong _ _ _ _ _ (good_signature t)). intros s IN. symmetry. apply rename_ext; auto.
  - intros s IN. eapply known_ext; eauto.
Qed.
Lemma sym_final_known i1 s s1 : sym_final i1 s s1 -> s1 = rename i1 s /\ known i1 s.
Proof.
  intros (j & j' & Ij & E & X). destruct (g_reg _ _ _ _ _ (good_symbol s) eq_refl j Ij) as (c' & i' & E' & _ & K & _).
  unfold EnsureImported in E. unfold sbind, sret in E'. rewrite E in E'. injection E' as -> _ <-.
  assert (K1 : known j' s) by (apply K; left; auto). split; [symmetry; apply rename_ext; auto|eapply known_ext; eauto].
Qed.

(** ** The world after *)
Section After.
Context {TD : Type}.
Variable env : Env TD.
Variables (fuel f : nat) (w w1 : World TD) (F : GoFile) (R : string * string -> Prop).
Hypothesis EF : nth_error (files w) f = Some F.
Hypothesis IF : Inv (FImports F).
Hypothesis NT : templates_ok env w f R.
Hypothesis HR : forall r, file_mentions w f r -> R r.
Hypothesis Q : qualify_file env fuel f w = (Ok tt, w1).
Notation I1 := (imp f w1).
Lemma skel_after : skel w1 = skel w.
Proof. destruct (after env fuel f w w1 F R EF IF NT HR Q) as (L & _). apply (le_skel _ _ _ _ _ L). Qed.
Lemma nth_after {A} (tab : World TD -> list A) er i a : (forall w : World TD, tab (skel w) = map er (tab w)) ->
  nth_error (tab w) i = Some a -> exists a1, nth_error (tab w1) i = Some a1 /\ er a1 = er a.
Proof.
  intros S E. assert (X : nth_error (map er (tab w1)) i = Some (er a)).
  { rewrite <- S, skel_after, S, nth_error_map, E. auto. }
  rewrite nth_error_map in X. destruct (nth_error (tab w1) i) as [a1|]; [|discriminate]. exists a1. split; auto. injection X; auto.
Qed.
Lemma type_moved l t : In l (plan_file f fuel (skel w)) -> cont w l = Some (CT t) ->
  exists t1, cont w1 l = Some (CT t1) /\ type_final I1 t t1.
Proof.
  intros IN C. destruct (final env fuel f w w1 F R EF IF NT HR Q l _ IN C) as (y & j & j' & C1 & Ij & A & Ij' & X & _).
  cbn [act] in A. unfold sbind, sret in A. destruct (EnsureTypeImported t j) as [[[t1 c]|] i] eqn:E; [|discriminate].
  injection A as <- ->. exists t1. split; auto. exists c, j, j'. auto.
Qed.
Lemma sig_moved l t : In l (plan_file f fuel (skel w)) -> cont w l = Some (CS t) ->
  exists t1, cont w1 l = Some (CS t1) /\ sig_final I1 t t1.
Proof.
  intros IN C. destruct (final env fuel f w w1 F R EF IF NT HR Q l _ IN C) as (y & j & j' & C1 & Ij & A & Ij' & X & _).
  cbn [act] in A. unfold sbind, sret in A. destruct (EnsureAllTypesImported t j) as [[[t1 c]|] i] eqn:E; [|discriminate].
  injection A as <- ->. exists t1. split; auto. exists c, j, j'. auto.
Qed.
Lemma sym_moved l t : In l (plan_file f fuel (skel w)) -> cont w l = Some (CY t) ->
  exists t1, cont w1 l = Some (CY t1) /\ sym_final I1 t t1.
Proof.
  intros IN C. destruct (final env fuel f w w1 F R EF IF NT HR Q l _ IN C) as (y & j & j' & C1 & Ij & A & Ij' & X & _).
  cbn [act] in A. unfold sbind, sret in A. destruct (EnsureImported t j) as [[t1|] i] eqn:E; [|discriminate].
  injection A as <- ->. exists t1. split; auto. exists j, j'. auto.
Qed.
Lemma visited x : part_of w f x -> planned f fuel (skel w) x.
Proof. apply (part_visited env fuel f w w1 F R EF IF NT HR Q). Qed.

Lemma const_after i v : part_of w f (IConst i) -> nth_error (consts w) i = Some v ->
  exists v1, nth_error (consts w1) i = Some v1 /\ v1 = with_vtype v (VSType v1) /\ tos_final I1 (VSType v) (VSType v1).
Proof.
  intros P E. destruct (nth_after consts er_value i v (fun _ => eq_refl) E) as (v1 & E1 & ER). exists v1. split; auto.
  destruct (visited _ P) as [_ IN]. unfold plan_value in IN. rewrite (nth_skel consts er_value w i v eq_refl E) in IN.
  destruct v as [c n t i0 p], v1 as [c1 n1 t1 i1 p1]. unfold er_value, with_vtype in *. cbn [VComment VNames VSType VInit VParent] in *.
  injection ER as -> -> T -> ->. split; auto. destruct t as [|t|ts]; cbn [er_tos tos_final] in *.
  - destruct t1; cbn in T; congruence.
  - destruct (type_moved (LConst i) t) as (t2 & C1 & FI).
    + apply IN. apply in_or_app. left. left. auto.
    + cbn [cont]. rewrite E. auto.
    + cbn [cont obind VSType] in C1. rewrite E1 in C1. cbn in C1. destruct t1; try discriminate. cbn in C1. injection C1 as ->. eauto.
  - destruct t1; cbn in T; congruence.
Qed.
Lemma var_after i v : part_of w f (IVar i) -> nth_error (vars w) i = Some v ->
  exists v1, nth_error (vars w1) i = Some v1 /\ v1 = with_vtype v (VSType v1) /\ tos_final I1 (VSType v) (VSType v1).
Proof.
  intros P E. destruct (nth_after vars er_value i v (fun _ => eq_refl) E) as (v1 & E1 & ER). exists v1. split; auto.
  destruct (visited _ P) as [_ IN]. unfold plan_value in IN. rewrite (nth_skel vars er_value w i v eq_refl E) in IN.
  destruct v as [c n t i0 p], v1 as [c1 n1 t1 i1 p1]. unfold er_value, with_vtype in *. cbn [VComment VNames VSType VInit VParent] in *.
  injection ER as -> -> T -> ->. split; auto. destruct t as [|t|ts]; cbn [er_tos tos_final] in *.
  - destruct t1; cbn in T; congruence.
  - destruct (type_moved (LVar i) t) as (t2 & C1 & FI).
    + apply IN. apply in_or_app. left. left. auto.
    + cbn [cont]. rewrite E. auto.
    + cbn [cont obind VSType] in C1. rewrite E1 in C1. cbn in C1. destruct t1; try discriminate. cbn in C1. injection C1 as ->. eauto.
  - destruct t1; cbn in T; congruence.
Qed.
Lemma type_after i T : part_of w f (IType i) -> nth_error (types w) i = Some T ->
  exists T1, nth_error (types w1) i = Some T1 /\ T1 = with_under T (TSUnderlying T1) /\ type_final I1 (TSUnderlying T) (TSUnderlying T1).
Proof.
  intros P E. destruct (nth_after types er_type i T (fun _ => eq_refl) E) as (T1 & E1 & ER). exists T1. split; auto.
  destruct (visited _ P) as (k & IN & FI). assert (INL : In (LType i) (plan_file f fuel (skel w))).
  { destruct k; [destruct FI|]. apply IN. cbn [plan_type]. rewrite (nth_skel types er_type w i T eq_refl E). left. auto. }
  destruct (type_moved (LType i) (TSUnderlying T) INL) as (t2 & C1 & TF).
  { cbn [cont]. rewrite E. auto. }
  cbn [cont] in C1. rewrite E1 in C1. cbn in C1. injection C1 as <-. split; auto.
  destruct T, T1. unfold er_type, with_under in *. cbn in *. congruence.
Qed.
Lemma field_after i v : part_of w f (IField i) -> nth_error (fields w) i = Some v ->
  exists v1, nth_error (fields w1) i = Some v1 /\ v1 = with_ftype v (FSType v1) /\ tos_final I1 (FSType v) (FSType v1).
Proof.
  intros P E. destruct (nth_after fields er_field i v (fun _ => eq_refl) E) as (v1 & E1 & ER). exists v1. split; auto.
  pose proof (visited _ P) as IN. cbn [planned] in IN. rewrite (nth_skel fields er_field w i v eq_refl E) in IN.
  destruct v as [c n tg t p], v1 as [c1 n1 tg1 t1 p1]. unfold er_field, with_ftype in *. cbn [FSComment FSName FSTag FSType FSParent] in *.
  injection ER as -> -> -> T ->. split; auto. destruct t as [|t|ts]; cbn [er_tos tos_final] in *.
  - destruct t1; cbn in T; congruence.
  - destruct (type_moved (LField i) t) as (t2 & C1 & FI).
    + apply IN.
    + cbn [cont]. rewrite E. auto.
    + cbn [cont obind FSType] in C1. rewrite E1 in C1. cbn in C1. destruct t1; try discriminate. cbn in C1. injection C1 as ->. eauto.
  - destruct t1; cbn in T; congruence.
Qed.
Lemma elem_after i e : part_of w f (IElem i) -> nth_error (ielems w) i = Some e ->
  exists e1, nth_error (ielems w1) i = Some e1 /\ elem_final I1 e e1.
Proof.
  intros P E. destruct (nth_after ielems er_elem i e (fun _ => eq_refl) E) as (e1 & E1 & ER). exists e1. split; auto.
  pose proof (visited _ P) as IN. cbn [planned] in IN. unfold plan_elem in IN.
  rewrite (nth_skel ielems er_elem w i e eq_refl E) in IN. specialize (IN (LElem i) (or_introl eq_refl)).
  destruct e as [c s p|c n s p], e1 as [c1 s1 p1|c1 n1 s1 p1]; try discriminate; cbn [er_elem elem_final] in *.
  - injection ER as -> ->. destruct (sym_moved (LElem i) s IN) as (t2 & C1 & FI); [cbn [cont]; rewrite E; auto|].
    cbn [cont] in C1. rewrite E1 in C1. cbn in C1. injection C1 as ->. eauto.
  - injection ER as -> -> ->. destruct (sig_moved (LElem i) s IN) as (t2 & C1 & FI); [cbn [cont]; rewrite E; auto|].
    cbn [cont] in C1. rewrite E1 in C1. cbn in C1. injection C1 as ->. eauto.
Qed.
Lemma func_after i G : part_of w f (IFunc i) -> nth_error (funcs w) i = Some G ->
  exists G1, nth_error (funcs w1) i = Some G1 /\ G1 = with_sig G (FNSig G1) /\ sig_final I1 (FNSig G) (FNSig G1).
Proof.
  intros P E. destruct (nth_after funcs er_func i G (fun _ => eq_refl) E) as (G1 & E1 & ER). exists G1. split; auto.
  pose proof (visited _ P) as IN. cbn [planned plan_element] in IN.
  rewrite (nth_skel funcs er_func w i G eq_refl E) in IN. specialize (IN (LFunc i)).
  destruct (sig_moved (LFunc i) (FNSig G)) as (t2 & C1 & FI); [apply IN, in_or_app; left; left; auto|cbn [cont]; rewrite E; auto|].
  cbn [cont] in C1. rewrite E1 in C1. cbn in C1. injection C1 as <-. split; auto.
  destruct G, G1. unfold er_func, with_sig in *. cbn in *. congruence.
Qed.
Lemma arg_after cb n k a : part_of w f (IBlock cb) -> argument w cb n k = Some a ->
  exists a1 t j j', argument w1 cb n k = Some a1 /\ arg_target w a = Ok t /\ Inv j /\ target_act a t j = (Ok a1, j') /\ ext j' I1.
Proof.
  intros P A. pose proof (visited _ P) as IN. cbn [planned] in IN. unfold plan_block in IN.
  change (blocks (skel w)) with (blocks w) in IN. unfold argument, obind in A.
  destruct (nth_error (blocks w) cb) as [b|] eqn:EB; [|discriminate].
  destruct (nth_error b n) as [[fm args|t]|] eqn:EN; try discriminate.
  destruct (nth_error (argss w) args) as [l|] eqn:EA; [|discriminate].
  destruct (final env fuel f w w1 F R EF IF NT HR Q (LArg args k) (CA a)) as (y & j & j' & C1 & Ij & AC & Ij' & X & _).
  - apply IN. apply in_flat_map. exists (Line fm args). split; [eapply nth_error_In; eauto|].
    cbn [plan_code]. unfold plan_line. rewrite (nth_skel argss er_args w args l eq_refl EA).
    apply in_map_iff. exists k. split; auto. apply in_seq. unfold er_args. rewrite map_length.
    assert (k < List.length l) by (apply nth_error_Some; congruence). lia.
  - cbn [cont]. rewrite EA. cbn [obind]. rewrite A. auto.
  - cbn [act] in AC. unfold sbind, sret, slift in AC. destruct (arg_target w a) as [t|]; [|discriminate].
    destruct (target_act a t j) as [[a1|] i] eqn:ET; [|discriminate]. injection AC as <- ->.
    exists a1, t, j, j'. split; [|auto]. unfold argument, obind.
    assert (BB : blocks w1 = blocks w) by (change (blocks (skel w1) = blocks (skel w)); rewrite skel_after; auto).
    rewrite BB, EB, EN. cbn [cont] in C1. unfold obind in C1. destruct (nth_error (argss w1) args) as [l1|]; [|discriminate].
    destruct (nth_error l1 k); [|discriminate]. cbn in C1. congruence.
Qed.
End After.
