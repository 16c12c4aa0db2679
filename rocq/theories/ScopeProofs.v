(** Proofs about the names of imports and the other names of a file: C99. *)
From Coq Require Import Permutation.
From Verif Require Import Base BaseFacts GoPath Types SpecTypes TypesFacts Imports SpecImports ImportsProofs ImportsTheorems ImportsExact
  SpecRender Conv World SpecGo SpecFile SpecDecl SpecQualify FileTheorems QualifyProofs QualifyTheorems SourceProofs SourceTheorems MeaningProofs QualifyExamples SpecScope.

(** ** The names of the imports *)
Definition named (l : list (string * string)) (i : Imports) : Prop :=
  forall p d, lookup p (importsByPath i) = Some d ->
  exists r k, In r l /\ fst r = p /\ packageName d = cand (base_name (fst r) (snd r)) k /\
    isAlias d = negb (String.eqb (packageName d) (snd r)).
Lemma named_more l m i : named l i -> named (l ++ m) i.
Proof. intros N p d L. destruct (N p d L) as (r & k & I & X). exists r, k. split; [apply in_or_app; auto|exact X]. Qed.
Lemma named_fold l : forall m i, Inv i -> named m i -> named (m ++ l) (fold_left reg_pair l i).
Proof.
  induction l as [|[p n] l IH]; intros m i I N; [rewrite app_nil_r; exact N|]. cbn [fold_left].
  replace (m ++ (p, n) :: l) with ((m ++ [(p, n)]) ++ l) by (rewrite <- app_assoc; reflexivity).
  assert (K : Inv (reg_pair i (p, n)) /\ named (m ++ [(p, n)]) (reg_pair i (p, n))).
  { unfold reg_pair, RegisterImport. cbn [fst snd]. destruct (prefix_name i p) as [q|] eqn:P.
    - rewrite (prefix_known _ _ _ _ _ I P). split; [exact I|apply named_more, N].
    - destruct (prefix_new i p n I P) as (k & i' & E & _ & _ & -> & I' & _). rewrite E. cbn [snd].
      split; [exact I'|]. intros path d. cbn [importsByPath]. destruct (String.eqb_spec path p) as [->|NE].
      + rewrite lookup_insert_same. intros [= <-]. exists (p, n), k. cbn [fst snd packageName isAlias].
        split; [apply in_or_app; right; left; reflexivity|]. auto.
      + rewrite lookup_insert_other by auto. apply named_more, N. }
  destruct K as [I' N']. apply IH; auto.
Qed.
Lemma named_run own h : forallb call_ok h = true -> named (flat_map requests h) (run h (NewImportsFor own)).
Proof.
  intros OK. rewrite (run_requests h _ OK (Inv_new own)). apply (named_fold _ []); [apply Inv_new|]. intros p d L. discriminate.
Qed.
Section Names.
Variables (real : string -> string) (own : string) (h : list call).
Hypothesis OK : forallb call_ok h = true.
Hypothesis HON : forall c, In c h -> honest real c.
Notation i := (run h (NewImportsFor own)).
Lemma entry_name s : In s (ImportSpecs i) -> exists d r k, lookup (SpecPath s) (importsByPath i) = Some d /\
  effective_name real s = packageName d /\ In r (flat_map requests h) /\ fst r = SpecPath s /\
  packageName d = candidate (if String.eqb (snd r) "" then path_Base (fst r) else snd r) k.
Proof.
  intros IN. rewrite In_ImportSpecs, in_map_iff in IN. destruct IN as ([p d] & <- & IN).
  apply In_lookup in IN; [|apply inv_nodup_paths, run_new_Inv].
  destruct (named_run own h OK p d IN) as (r & k & IR & E & N & A). exists d, r, k.
  unfold spec_of_entry. cbn [fst snd SpecPath PackageAlias]. split; [exact IN|]. pose proof (inv_name _ (run_new_Inv own h) _ _ IN) as NE.
  split; [|split; [exact IR|split; [exact E|rewrite N; apply cand_candidate]]].
  unfold effective_name. cbn [PackageAlias SpecPath]. destruct (isAlias d) eqn:AL.
  - destruct (String.eqb_spec (packageName d) ""); [contradiction|reflexivity].
  - cbn. symmetry in A. apply negb_false_iff, String.eqb_eq in A. apply in_flat_map in IR as (c & C & IR).
    destruct r as [q n]. cbn [fst snd] in *. subst q. destruct (HON c C p n IR) as [-> | ->]; [contradiction|]. auto.
Qed.
Lemma nodup_map_on {A B} (f : A -> B) l : (forall a b, In a l -> In b l -> f a = f b -> a = b) -> NoDup l -> NoDup (map f l).
Proof.
  induction l as [|a l IH]; intros F N; [constructor|]. inversion N; subst. cbn. constructor.
  - rewrite in_map_iff. intros (b & E & IN). apply H1. rewrite (F a b); auto; [left; auto|right; auto].
  - apply IH; auto. intros; apply F; auto; right; auto.
Qed.
Lemma nodup_of_map {A B} (f : A -> B) l : NoDup (map f l) -> NoDup l.
Proof.
  induction l as [|a l IH]; intros N; [constructor|]. inversion N; subst. constructor; [|apply IH; auto].
  intros IN. apply H1, in_map, IN.
Qed.
Lemma effective_nodup : NoDup (map (effective_name real) (ImportSpecs i)).
Proof.
  assert (I : Inv i) by apply run_new_Inv.
  apply nodup_map_on.
  - intros a b IA IB E. apply (spec_unique i); auto.
    destruct (entry_name a IA) as (d & _ & _ & L & N & _), (entry_name b IB) as (d' & _ & _ & L' & N' & _).
    pose proof (inv_fwd _ I _ _ L) as F1. pose proof (inv_fwd _ I _ _ L') as F2. congruence.
  - apply (nodup_of_map SpecPath). change (NoDup (listed i)). unfold listed, ImportSpecs.
    eapply Permutation_NoDup; [apply Permutation_map, sort_specs_perm|].
    rewrite map_map. exact (inv_nodup_paths _ I).
Qed.
End Names.

(** ** Resolving qualifiers keeps the names *)
Section GoTypeInd.
Variable P : gotype -> Prop.
Hypothesis HName : forall q n, P (GName q n).
Hypothesis HPtr : forall e, P e -> P (GPtr e).
Hypothesis HSlice : forall e, P e -> P (GSlice e).
Hypothesis HArray : forall n e, P e -> P (GArray n e).
Hypothesis HMap : forall k e, P k -> P e -> P (GMap k e).
Hypothesis HChan : forall d e, P e -> P (GChan d e).
Hypothesis HFunc : forall ps rs : list gparam, Forall (fun x => P (snd x)) ps -> Forall (fun x => P (snd x)) rs -> P (GFunc ps rs).
Hypothesis HStruct : forall fs : list gfield, Forall (fun x => P (snd (fst x))) fs -> P (GStruct fs).
Hypothesis HInterface : forall es : list gelem,
  Forall (fun x => match x with inl (_, ps, rs) => Forall (fun y => P (snd y)) ps /\ Forall (fun y => P (snd y)) rs | inr _ => True end) es ->
  P (GInterface es).
Lemma gotype_nested : forall g, P g.
Proof.
  fix IH 1. intros g.
  assert (params : forall l : list gparam, (fix all (l : list gparam) : Prop := match l with [] => True | x :: r => P (snd x) /\ all r end) l -> Forall (fun x => P (snd x)) l).
  { clear. induction l as [|x r IHr]; [constructor|]. intros [A B]. constructor; auto. }
  destruct g as [q n|e|e|n e|k e|d e|ps rs|fs|es].
  - apply HName.
  - apply HPtr, IH.
  - apply HSlice, IH.
  - apply HArray, IH.
  - apply HMap; apply IH.
  - apply HChan, IH.
  - apply HFunc; apply params; [induction ps as [|[[n d] t] r IHr]|induction rs as [|[[n d] t] r IHr]]; try exact Logic.I; split; try exact IHr; apply IH.
  - apply HStruct. induction fs as [|[[n t] tag] r IHr]; constructor; [apply IH|exact IHr].
  - apply HInterface. induction es as [|[[[n ps] rs]|[q n]] r IHr]; constructor; try exact IHr; [|exact Logic.I].
    split; apply params; [induction ps as [|[[m d] t] l IHl]|induction rs as [|[[m d] t] l IHl]]; try exact Logic.I; split; try exact IHl; apply IH.
Qed.
End GoTypeInd.

Section Resolved.
Variables (real : string -> string) (specs : list ImportSpec).
(** one name before and after *)
Definition name_resolved (a b : option string * string) : Prop := snd a = snd b /\ resolve_qual real specs (fst a) = Some (fst b).
Notation res_names := (Forall2 name_resolved).
Lemma flat_map_resolved {A} (r : A -> option A) (f : A -> list (option string * string)) l :
  Forall (fun a => forall b, r a = Some b -> res_names (f a) (f b)) l ->
  forall l', all_some (map r l) = Some l' -> res_names (flat_map f l) (flat_map f l').
Proof.
  induction 1 as [|a l H _ IH]; cbn [map all_some]; intros l' E; [injection E as <-; constructor|].
  destruct (r a) as [b|] eqn:R; [|discriminate]. cbn [obind] in E. destruct (all_some (map r l)) as [m|]; [|discriminate].
  injection E as <-. cbn [flat_map]. apply Forall2_app; auto.
Qed.
Lemma params_resolved l : Forall (fun x : gparam => forall g', resolve_type real specs (snd x) = Some g' -> res_names (names_in (snd x)) (names_in g')) l ->
  forall l', resolve_params real specs l = Some l' ->
  res_names (flat_map (fun '(_, _, t) => names_in t) l) (flat_map (fun '(_, _, t) => names_in t) l').
Proof.
  intros F l'. apply flat_map_resolved. eapply Forall_impl; [|exact F]. intros [[n d] t] H b E. cbn [snd] in H.
  destruct (resolve_type real specs t) as [t'|] eqn:R; [|discriminate]. injection E as <-. auto.
Qed.
Lemma names_resolved g : forall g', resolve_type real specs g = Some g' -> res_names (names_in g) (names_in g').
Proof.
  induction g using gotype_nested; cbn [resolve_type]; intros g' E.
  - destruct (resolve_qual real specs q) as [p|] eqn:R; [|discriminate]. injection E as <-. cbn. repeat constructor. exact R.
  - destruct (resolve_type real specs g) as [e'|]; [|discriminate]. injection E as <-. cbn. auto.
  - destruct (resolve_type real specs g) as [e'|]; [|discriminate]. injection E as <-. cbn. auto.
  - destruct (resolve_type real specs g) as [e'|]; [|discriminate]. injection E as <-. cbn. auto.
  - destruct (resolve_type real specs g1) as [k'|]; [|discriminate]. cbn [obind] in E.
    destruct (resolve_type real specs g2) as [e'|]; [|discriminate]. injection E as <-. cbn. apply Forall2_app; auto.
  - destruct (resolve_type real specs g) as [e'|]; [|discriminate]. injection E as <-. cbn. auto.
  - fold (resolve_params real specs ps) in E. fold (resolve_params real specs rs) in E.
    destruct (resolve_params real specs ps) as [ps'|] eqn:R1; [|discriminate]. cbn [obind] in E.
    destruct (resolve_params real specs rs) as [rs'|] eqn:R2; [|discriminate]. injection E as <-. cbn [names_in].
    apply Forall2_app; apply params_resolved; auto.
  - destruct (all_some _) as [fs'|] eqn:R; [|discriminate]. injection E as <-. cbn [names_in].
    eapply flat_map_resolved; [|exact R]. eapply Forall_impl; [|exact H]. intros [[n t] tag] K b E. cbn [fst snd] in K.
    destruct (resolve_type real specs t) as [t'|]; [|discriminate]. injection E as <-. auto.
  - destruct (all_some _) as [es'|] eqn:R; [|discriminate]. injection E as <-. cbn [names_in].
    eapply flat_map_resolved; [|exact R]. eapply Forall_impl; [|exact H]. intros [[[n ps] rs]|[q n]] K b E.
    + fold (resolve_params real specs ps) in E. fold (resolve_params real specs rs) in E. destruct K as [K1 K2].
      destruct (resolve_params real specs ps) as [ps'|] eqn:R1; [|discriminate]. cbn [obind] in E.
      destruct (resolve_params real specs rs) as [rs'|] eqn:R2; [|discriminate]. injection E as <-.
      apply Forall2_app; apply params_resolved; auto.
    + destruct (resolve_qual real specs q) as [p|] eqn:R1; [|discriminate]. injection E as <-. repeat constructor. exact R1.
Qed.
Lemma params_names_resolved l l' : resolve_params real specs l = Some l' ->
  res_names (params_names l) (params_names l') /\ param_names l = param_names l'.
Proof.
  intros E. split.
  - apply params_resolved; auto. apply Forall_forall. intros x _ g' R. apply names_resolved, R.
  - revert l' E. induction l as [|[[n d] t] l IH]; intros l' E; [injection E as <-; reflexivity|].
    unfold resolve_params in E. cbn [map all_some] in E. destruct (resolve_type real specs t) as [t'|]; [|discriminate]. cbn [obind] in E.
    fold (resolve_params real specs l) in E. destruct (resolve_params real specs l) as [m|]; [|discriminate]. injection E as <-.
    specialize (IH m eq_refl). unfold param_names in *. cbn [flat_map]. rewrite IH. reflexivity.
Qed.
Lemma values_resolved l : forall l', all_some (map (resolve_value real specs) l) = Some l' ->
  res_names (flat_map value_names l) (flat_map value_names l') /\
  flat_map (fun v : gvalue => fst (fst v)) l = flat_map (fun v : gvalue => fst (fst v)) l'.
Proof.
  induction l as [|[[n t] i] l IH]; cbn [map all_some]; intros l' E; [injection E as <-; split; constructor|].
  unfold resolve_value in E at 1. destruct (resolve_opt real specs t) as [t'|] eqn:R; [|discriminate]. cbn [obind] in E.
  destruct (all_some (map (resolve_value real specs) l)) as [m|]; [|discriminate]. injection E as <-.
  destruct (IH m eq_refl) as [A B]. cbn [flat_map fst]. rewrite B. split; [|reflexivity]. apply Forall2_app; [|exact A].
  destruct t as [t|]; cbn in *.
  - destruct (resolve_type real specs t) as [t1|] eqn:R1; [|discriminate]. injection R as <-. cbn. apply names_resolved, R1.
  - injection R as <-. constructor.
Qed.
Lemma typespecs_resolved l : forall l', all_some (map (resolve_typespec real specs) l) = Some l' ->
  res_names (flat_map (fun '(_, _, t) => names_in t) l) (flat_map (fun '(_, _, t) => names_in t) l') /\
  map (fun '(n, _, _) => n) l = map (fun '(n, _, _) => n) l'.
Proof.
  induction l as [|[[n a] t] l IH]; cbn [map all_some]; intros l' E; [injection E as <-; split; constructor|].
  unfold resolve_typespec in E at 1. destruct (resolve_type real specs t) as [t'|] eqn:R; [|discriminate]. cbn [obind] in E.
  destruct (all_some (map (resolve_typespec real specs) l)) as [m|]; [|discriminate]. injection E as <-.
  destruct (IH m eq_refl) as [A B]. cbn [flat_map map]. rewrite B. split; [|reflexivity]. apply Forall2_app; [|exact A].
  apply names_resolved, R.
Qed.
Lemma decl_resolved d d' : resolve_decl real specs d = Some d' ->
  res_names (decl_names d) (decl_names d') /\ declares d = declares d' /\ captured d = captured d'.
Proof.
  destruct d as [b l|b l|b l|rc n [ps rs] body]; cbn [resolve_decl]; intros E.
  - destruct (all_some _) as [m|] eqn:R; [|discriminate]. injection E as <-. destruct (values_resolved _ _ R). auto.
  - destruct (all_some _) as [m|] eqn:R; [|discriminate]. injection E as <-. destruct (values_resolved _ _ R). auto.
  - destruct (all_some _) as [m|] eqn:R; [|discriminate]. injection E as <-. destruct (typespecs_resolved _ _ R). auto.
  - destruct (resolve_params real specs ps) as [ps'|] eqn:R1; [|discriminate]. cbn [obind] in E.
    destruct (resolve_params real specs rs) as [rs'|] eqn:R2; [|discriminate]. injection E as <-.
    destruct (params_names_resolved _ _ R1) as [A1 B1], (params_names_resolved _ _ R2) as [A2 B2].
    split; [|split; [reflexivity|]].
    + cbn [decl_names]. apply Forall2_app; [|apply Forall2_app; auto]. destruct rc as [[[x y] t]|]; repeat constructor.
    + unfold captured. cbn [locals body_of]. rewrite B1, B2. reflexivity.
Qed.
Definition bare (l : list (option string * string)) : list string := flat_map (fun '(q, n) => match q with None => [n] | Some _ => [] end) l.
Lemma bare_resolved l l' : res_names l l' -> bare l = bare l'.
Proof.
  induction 1 as [|[q n] [q' n'] l l' [E R] _ IH]; [reflexivity|]. unfold bare in *. cbn [flat_map fst snd] in *. rewrite IH. subst n'. f_equal.
  destruct q as [q|]; cbn in R.
  - destruct (filter _ specs) as [|s [|]]; try discriminate. injection R as <-. reflexivity.
  - injection R as <-. reflexivity.
Qed.
Lemma reserved_resolved l : forall l', all_some (map (resolve_decl real specs) l) = Some l' -> reserved l = reserved l'.
Proof.
  intros l' E. unfold reserved. f_equal.
  assert (X : flat_map declares l = flat_map declares l' /\
    flat_map (fun d => bare (decl_names d)) l = flat_map (fun d => bare (decl_names d)) l' /\
    flat_map captured l = flat_map captured l').
  { revert l' E. induction l as [|d l IH]; cbn [map all_some]; intros l' E; [injection E as <-; auto|].
    destruct (resolve_decl real specs d) as [d'|] eqn:R; [|discriminate]. cbn [obind] in E.
    destruct (all_some (map (resolve_decl real specs) l)) as [m|]; [|discriminate]. injection E as <-.
    destruct (IH m eq_refl) as (A & B & C). destruct (decl_resolved d d' R) as (D1 & D2 & D3).
    cbn [flat_map]. rewrite A, B, C, D2, D3, (bare_resolved _ _ D1). auto. }
  destruct X as (A & B & C). rewrite A, C. unfold bare in B. rewrite B. reflexivity.
Qed.
End Resolved.

(** ** Written files *)
Section Prepared.
Context {TD : Type}.
Variables (env : Env TD) (real : string -> string) (own : string) (h : list call) (fuel f : nat) (w : World TD) (F : GoFile)
  (s : string) (w1 : World TD).
Hypothesis P : prepared real own h w f F.
Hypothesis S : source env fuel f w = (Ok s, w1).
(** The requests that lead to the imports of the written file. *)
Definition asked (r : string * string) : Prop := In r (flat_map requests h) \/ file_mentions w f r.
Lemma final_imports : exists H F1, nth_error (files w1) f = Some F1 /\ FImports F1 = run H (NewImportsFor own) /\
  forallb call_ok H = true /\ (forall c, In c H -> honest real c) /\ forall r, In r (flat_map requests H) -> asked r.
Proof.
  destruct P as (EF & EI & OK & HON & US & NT & HR). destruct (source_split _ _ _ _ _ _ S) as (Q & _).
  assert (IF : Inv (FImports F)) by (rewrite EI; apply run_new_Inv).
  destruct (file_after env fuel f w w1 F (fun r => file_mentions w f r) EF IF (no_templates_ok _ _ _ _ NT) (fun r X => X) Q)
    as (F1 & E1 & EI1 & FF & (l & Rl & EL) & I1).
  exists (h ++ map (fun r => CRegisterImport (fst r) (snd r)) l), F1. split; [exact E1|].
  split. { rewrite EL, EI. apply (steps_run _ _ _ _ Rl). }
  split. { rewrite forallb_app, OK. apply forallb_forall. intros c IN. apply in_map_iff in IN as (r & <- & _). auto. }
  split.
  - intros c IN. apply in_app_or in IN as [IN|IN]; auto. apply in_map_iff in IN as ([p n] & <- & IN). apply Rl, HR in IN as [A _].
    intros p' n' [[= <- <-]|[]]. exact A.
  - intros r IN. rewrite flat_map_app in IN. apply in_app_or in IN as [IN|IN]; [left; exact IN|right].
    apply in_flat_map in IN as (c & IC & IR). apply in_map_iff in IC as ([p n] & <- & IC). destruct IR as [<-|[]]. apply Rl, IC.
Qed.
Lemma names_of_imports F1 : nth_error (files w1) f = Some F1 ->
  NoDup (map (effective_name real) (ImportSpecs (FImports F1))) /\
  forall sp, In sp (ImportSpecs (FImports F1)) ->
    exists r, asked r /\ fst r = SpecPath sp /\ fst r <> own /\ may_be_called r (effective_name real sp).
Proof.
  intros E1. destruct final_imports as (H & F1' & E1' & EI & OK & HON & A). rewrite E1 in E1'. injection E1' as <-. rewrite EI.
  split; [apply effective_nodup; auto|]. intros sp IN. destruct (entry_name real own H OK HON sp IN) as (d & r & k & L & EN & IR & EP & C).
  exists r. split; [apply A, IR|]. split; [exact EP|]. split; [|exists k; congruence].
  intros EO. pose proof (inv_own _ (run_new_Inv own H)) as O. rewrite run_new_own in O. congruence.
Qed.
Lemma scope_exact g0 : no_named_specs w f ->
  file_meaning_with (path_qualifier own) w (block_text env w1) fuel F = Some g0 ->
  exists g, parse_file s = Some g /\ resolve_file real g = Some (mkGFile (GPackage g0) (GImports g) (GDecls g0)) /\
    (in_order real g <-> forall n, In n (import_names real g) -> ~ In n (reserved (GDecls g0))).
Proof.
  intros NN M. destruct (prepared_means env real own h fuel f w F s w1 P S g0 NN M) as (F1 & g & E1 & PG & IG & RG).
  exists g. split; [exact PG|]. split; [exact RG|]. unfold in_order, import_names. rewrite IG.
  unfold resolve_file in RG. destruct (all_some _) as [ds|] eqn:R; [|discriminate]. injection RG as _ RG.
  rewrite (reserved_resolved _ _ _ _ R), RG. destruct (names_of_imports F1 E1) as [ND _]. tauto.
Qed.
Lemma scope_apart g0 : no_named_specs w f ->
  file_meaning_with (path_qualifier own) w (block_text env w1) fuel F = Some g0 ->
  (forall r n, asked r -> fst r <> own -> may_be_called r n -> ~ In n (reserved (GDecls g0))) ->
  exists g, parse_file s = Some g /\ means real g (mkGFile (GPackage g0) (GImports g) (GDecls g0)).
Proof.
  intros NN M A. destruct (prepared_means env real own h fuel f w F s w1 P S g0 NN M) as (F1 & g & E1 & PG & IG & RG).
  destruct (scope_exact g0 NN M) as (g' & PG' & _ & X). rewrite PG in PG'. injection PG' as <-.
  exists g. split; [exact PG|]. split; [|exact RG]. apply X. intros n IN. unfold import_names in IN. rewrite IG in IN.
  apply in_map_iff in IN as (sp & <- & IN). destruct (names_of_imports F1 E1) as [_ N]. destruct (N sp IN) as (r & AR & _ & NO & C).
  eapply A; eauto.
Qed.
End Prepared.
