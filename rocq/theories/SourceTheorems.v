(** What writing a file yields: imports, references, idempotence, meaning of the written text. *)
From Coq Require Import Permutation.
From Verif Require Import Base BaseFacts GoPath Utf8 Quote SpecLit Types SpecTypes TypesFacts Imports SpecImports ImportsProofs
  ImportsTheorems SettleProofs SpecGo SpecRender LexProofs TextProofs ParseProofs TextTheorems Conv World WorldProofs SpecFile SpecDecl FileTheorems SpecQualify
  QualifyProofs QualifyTheorems SourceProofs.

Lemma source_split {TD} (env : Env TD) fuel f w s w1 : source env fuel f w = (Ok s, w1) ->
  qualify_file env fuel f w = (Ok tt, w1) /\
  exists F1, nth_error (files w1) f = Some F1 /\ GoFile_writeTo env fuel w1 F1 = Ok s.
Proof.
  unfold source. unfold sbind at 1. destruct (qualify_file env fuel f w) as [[[]|m] w2]; [|discriminate].
  rewrite bind_get. destruct (nth_error (files w2) f) as [F1|] eqn:E; [|discriminate].
  unfold from_res. intros S. injection S as S <-. split; auto. exists F1. auto.
Qed.
Lemma source_join {TD} (env : Env TD) fuel f w w1 F1 s : qualify_file env fuel f w = (Ok tt, w1) ->
  nth_error (files w1) f = Some F1 -> GoFile_writeTo env fuel w1 F1 = Ok s -> source env fuel f w = (Ok s, w1).
Proof. intros Q E G. unfold source. unfold sbind at 1. rewrite Q, bind_get, E. unfold from_res. rewrite G. auto. Qed.

(** ** Writing twice *)
Theorem source_twice_with {TD} (env : Env TD) own h fuel f w F s w1 :
  nth_error (files w) f = Some F -> FImports F = run h (NewImportsFor own) -> templates_ok env w f (fun _ => True) ->
  source env fuel f w = (Ok s, w1) -> source env fuel f w1 = (Ok s, w1).
Proof.
  intros EF EI NT S. destruct (source_split _ _ _ _ _ _ S) as (Q & F1 & E1 & G1).
  assert (IF : Inv (FImports F)) by (rewrite EI; apply run_new_Inv).
  destruct (after env fuel f w w1 F (fun _ => True) EF IF NT (fun _ _ => I) Q) as (_ & _ & _ & AG).
  eapply source_join; eauto.
Qed.
Theorem source_twice {TD} (env : Env TD) own h fuel f w F s w1 :
  nth_error (files w) f = Some F -> FImports F = run h (NewImportsFor own) -> no_templates w f ->
  source env fuel f w = (Ok s, w1) -> source env fuel f w1 = (Ok s, w1).
Proof. intros EF EI NT. apply (source_twice_with env own h fuel f w F s w1 EF EI). apply no_templates_ok. exact NT. Qed.

(** ** Imports *)
Lemma fold_reg_listed l : forall i path, Inv i ->
  (In path (listed (fold_left reg_pair l i)) <-> In path (listed i) \/ path <> pkgPath i /\ In path (map fst l)).
Proof.
  induction l as [|r l IH]; intros i path Hi; cbn [fold_left map].
  - cbn. tauto.
  - destruct (prefix_reg i (fst r) (snd r) Hi) as (n & i' & E & I' & X & P & L).
    unfold reg_pair at 2, RegisterImport. rewrite E. cbn [snd]. rewrite IH by auto. destruct X as [XP X]. rewrite XP.
    rewrite !In_listed. rewrite L. cbn. destruct (String.eqb_spec path (fst r)); subst; intuition congruence.
Qed.
Section Mentions.
Context {TD : Type}.
Variable env : Env TD.
Variables (fuel f : nat) (w w1 : World TD) (F : GoFile) (R : string * string -> Prop).
Hypothesis EF : nth_error (files w) f = Some F.
Hypothesis IF : Inv (FImports F).
Hypothesis NT : templates_ok env w f R.
Hypothesis HR : forall r, file_mentions w f r -> R r.
Hypothesis Q : qualify_file env fuel f w = (Ok tt, w1).
Notation plan := (plan_file f fuel (skel w)).
Notation visited := (visited env fuel f w w1 F R EF IF NT HR Q).
Lemma mention_place r : file_mentions w f r -> exists l x, In l plan /\ cont w l = Some x /\ In r (creq w x).
Proof.
  intros [i v P E IN|i v P E IN|i T P E IN|i v P E IN|i c s p P E IN|i c n s p P E IN|i G P E IN|cb n k a x P A RF IN].
  - destruct (VSType v) as [|t|] eqn:VT; try destruct IN. pose proof (visited _ P) as [_ V]. unfold plan_value in V.
    rewrite (nth_skel consts er_value w i v eq_refl E) in V. cbn [er_value with_vtype VSType VInit] in V. rewrite VT in V.
    exists (LConst i), (CT t). split; [apply V, in_or_app; left; left; auto|]. split; [cbn [cont]; rewrite E; cbn [obind]; rewrite VT; auto|exact IN].
  - destruct (VSType v) as [|t|] eqn:VT; try destruct IN. pose proof (visited _ P) as [_ V]. unfold plan_value in V.
    rewrite (nth_skel vars er_value w i v eq_refl E) in V. cbn [er_value with_vtype VSType VInit] in V. rewrite VT in V.
    exists (LVar i), (CT t). split; [apply V, in_or_app; left; left; auto|]. split; [cbn [cont]; rewrite E; cbn [obind]; rewrite VT; auto|exact IN].
  - destruct (visited _ P) as (k & V & FI). exists (LType i), (CT (TSUnderlying T)). split; [|split; [cbn [cont]; rewrite E; auto|exact IN]].
    destruct k; [destruct FI|]. apply V. cbn [plan_type]. rewrite (nth_skel types er_type w i T eq_refl E). left. auto.
  - destruct (FSType v) as [|t|] eqn:VT; try destruct IN. pose proof (visited _ P) as V. cbn [planned] in V.
    rewrite (nth_skel fields er_field w i v eq_refl E) in V. cbn [er_field with_ftype FSType] in V. rewrite VT in V.
    exists (LField i), (CT t). split; [exact V|]. split; [cbn [cont]; rewrite E; cbn [obind]; rewrite VT; auto|exact IN].
  - pose proof (visited _ P) as V. cbn [planned] in V. unfold plan_elem in V. rewrite (nth_skel ielems er_elem w i _ eq_refl E) in V.
    exists (LElem i), (CY s). split; [apply V; left; auto|]. split; [cbn [cont]; rewrite E; auto|exact IN].
  - pose proof (visited _ P) as V. cbn [planned] in V. unfold plan_elem in V. rewrite (nth_skel ielems er_elem w i _ eq_refl E) in V.
    exists (LElem i), (CS s). split; [apply V; left; auto|]. split; [cbn [cont]; rewrite E; auto|exact IN].
  - pose proof (visited _ P) as V. cbn [planned plan_element] in V. rewrite (nth_skel funcs er_func w i G eq_refl E) in V.
    exists (LFunc i), (CS (FNSig G)). split; [apply V, in_or_app; left; left; auto|]. split; [cbn [cont]; rewrite E; auto|exact IN].
  - pose proof (visited _ P) as V. cbn [planned] in V. unfold plan_block in V.
    change (blocks (skel w)) with (blocks w) in V. unfold argument, obind in A.
    destruct (nth_error (blocks w) cb) as [b|] eqn:EB; [|discriminate].
    destruct (nth_error b n) as [[fm args|t]|] eqn:EN; try discriminate.
    destruct (nth_error (argss w) args) as [l|] eqn:EA; [|discriminate].
    exists (LArg args k), (CA a). split; [|split].
    + apply V. apply in_flat_map. exists (Line fm args). split; [eapply nth_error_In; eauto|].
      cbn [plan_code]. unfold plan_line. rewrite (nth_skel argss er_args w args l eq_refl EA).
      apply in_map_iff. exists k. split; auto. apply in_seq. unfold er_args. rewrite map_length.
      assert (k < List.length l) by (apply nth_error_Some; congruence). lia.
    + cbn [cont]. rewrite EA. cbn [obind]. rewrite A. auto.
    + cbn [creq]. rewrite refers_target in RF. destruct (arg_target w a) as [t|]; [|discriminate].
      rewrite (target_packages t x RF). exact IN.
Qed.
Lemma asked_registered r l x rs : In l plan -> cont w l = Some x -> asks env w x rs -> In r rs ->
  fst r = pkgPath (imp f w1) \/ In (fst r) (listed (imp f w1)).
Proof.
  intros IN C AK CR.
  destruct (final env fuel f w w1 F R EF IF NT HR Q l x IN C) as (y & j & j' & C1 & Ij & A & Ij' & X & _).
  destruct (act_settles env w x rs j y j' Ij AK A) as (FF & _ & _). destruct X as [XP XL]. rewrite XP.
  destruct (string_dec (fst r) (pkgPath j')) as [|N]; auto. right.
  rewrite In_listed. assert (L : In (fst r) (listed j')).
  { rewrite FF. apply fold_reg_listed; auto. right. split; [|apply in_map; auto].
    rewrite FF in N. destruct (fold_reg_keep rs j Ij) as [_ [Y _]]. rewrite Y in N. exact N. }
  rewrite In_listed in L. destruct (lookup (fst r) (importsByPath j')) as [d|] eqn:LK; [|congruence].
  rewrite (XL _ _ LK). discriminate.
Qed.
Lemma mention_registered r : file_mentions w f r -> fst r = pkgPath (imp f w1) \/ In (fst r) (listed (imp f w1)).
Proof.
  intros M. destruct (mention_place r M) as (l & x & IN & C & CR). apply (asked_registered r l x (creq w x)); auto.
  destruct x; cbn [asks]; auto. destruct CR.
Qed.
Lemma template_planned t : template_of w f t -> In (LTempl t) plan.
Proof.
  intros (cb & b & P & B & IN). pose proof (visited _ P) as V. cbn [planned] in V. unfold plan_block in V.
  change (blocks (skel w)) with (blocks w) in V. rewrite B in V.
  apply V. apply in_flat_map. exists (Templ t). split; auto. left. auto.
Qed.
Lemma template_registered t tm d rs r : template_of w f t -> nth_error (templs w) t = Some (tm, d) -> data_asks env w d rs -> In r rs ->
  fst r = pkgPath (imp f w1) \/ In (fst r) (listed (imp f w1)).
Proof.
  intros T E A IN. apply (asked_registered r (LTempl t) (CD d) rs); auto.
  - apply template_planned. auto.
  - cbn [cont]. rewrite E. auto.
Qed.
Lemma template_after t tm d : template_of w f t -> nth_error (templs w) t = Some (tm, d) ->
  exists d1 j j', nth_error (templs w1) t = Some (tm, d1) /\ Inv j /\ tq env (skel w) d j = (Ok d1, j') /\ Inv j' /\ ext j' (imp f w1).
Proof.
  intros T E. destruct (final env fuel f w w1 F R EF IF NT HR Q (LTempl t) (CD d) (template_planned t T)) as (y & j & j' & C1 & Ij & A & Ij' & X & _).
  { cbn [cont]. rewrite E. auto. }
  cbn [act] in A. unfold sbind, sret in A. destruct (tq env (skel w) d j) as [[d1|] i] eqn:E1; [|discriminate]. injection A as <- <-.
  exists d1, j, i. split; [|auto].
  destruct (after env fuel f w w1 F R EF IF NT HR Q) as (L & _). pose proof (le_tnames _ _ _ _ _ L) as TN.
  assert (X1 : nth_error (tnames w1) t = Some tm) by (rewrite TN; unfold tnames; rewrite nth_error_map, E; auto).
  cbn [cont] in C1. unfold tnames in X1. rewrite nth_error_map in X1. destruct (nth_error (templs w1) t) as [[tm' d']|]; [|discriminate].
  cbn in X1, C1. congruence.
Qed.
End Mentions.

(** What the data of the file's templates ask for. *)
Definition templates_ask {TD} (env : Env TD) (req : TD -> list (string * string)) (w : World TD) (f : nat) : Prop :=
  forall t tm d, template_of w f t -> nth_error (templs w) t = Some (tm, d) -> data_asks env w d (req d).
Definition template_asks {TD} (req : TD -> list (string * string)) (w : World TD) (f : nat) (r : string * string) : Prop :=
  exists t tm d, template_of w f t /\ nth_error (templs w) t = Some (tm, d) /\ In r (req d).
Lemma templates_ask_ok {TD} (env : Env TD) req (w : World TD) f (R : string * string -> Prop) :
  templates_ask env req w f -> (forall r, template_asks req w f r -> R r) -> templates_ok env w f R.
Proof. intros A H t tm d T E. exists (req d). split; [eapply A; eauto|]. intros r IN. apply H. exists t, tm, d. auto. Qed.
Lemma no_templates_ask {TD} (env : Env TD) req (w : World TD) f : no_templates w f -> templates_ask env req w f.
Proof. intros N t tm d (cb & b & P & B & IN). exfalso. eapply N; eauto. Qed.
Theorem imports_exact_with {TD} (env : Env TD) req own h fuel f w F s w1 :
  nth_error (files w) f = Some F -> FImports F = run h (NewImportsFor own) -> templates_ask env req w f ->
  source env fuel f w = (Ok s, w1) ->
  exists F1, nth_error (files w1) f = Some F1 /\
    forall path, In path (listed (FImports F1)) <->
      In path (listed (FImports F)) \/ path <> own /\ exists n, file_mentions w f (path, n) \/ template_asks req w f (path, n).
Proof.
  intros EF EI TA S. destruct (source_split _ _ _ _ _ _ S) as (Q & _).
  assert (IF : Inv (FImports F)) by (rewrite EI; apply run_new_Inv).
  assert (HR : forall r, file_mentions w f r -> file_mentions w f r \/ template_asks req w f r) by auto.
  assert (NT : templates_ok env w f (fun r => file_mentions w f r \/ template_asks req w f r)) by (eapply templates_ask_ok; eauto).
  destruct (file_after env fuel f w w1 F _ EF IF NT HR Q) as (F1 & E1 & EI1 & _ & (l & Rl & EL) & I1).
  exists F1. split; auto. intros path. assert (OWN : pkgPath (FImports F) = own) by (rewrite EI; apply run_new_own).
  rewrite EL, fold_reg_listed by auto. rewrite OWN. split; intros [L|[N L]]; auto.
  - right. split; auto. apply in_map_iff in L as ([p n] & <- & IN). exists n. apply Rl in IN. auto.
  - destruct L as (n & M).
    assert (X : path = pkgPath (imp f w1) \/ In path (listed (imp f w1))).
    { destruct M as [M|(t & tm & d & T & E & IN)].
      - apply (mention_registered env fuel f w w1 F _ EF IF NT HR Q _ M).
      - apply (template_registered env fuel f w w1 F _ EF IF NT HR Q t tm d (req d) _ T E (TA t tm d T E) IN). }
    destruct X as [P|P]; rewrite <- EI1 in P; cbn [fst] in P.
    + destruct (fold_reg_keep l (FImports F) IF) as [_ [Y _]]. rewrite EL, Y in P. congruence.
    + rewrite EL, fold_reg_listed in P by auto. rewrite OWN in P. exact P.
Qed.
Theorem imports_exact {TD} (env : Env TD) own h fuel f w F s w1 :
  nth_error (files w) f = Some F -> FImports F = run h (NewImportsFor own) -> no_templates w f ->
  source env fuel f w = (Ok s, w1) ->
  exists F1, nth_error (files w1) f = Some F1 /\
    forall path, In path (listed (FImports F1)) <->
      In path (listed (FImports F)) \/ path <> own /\ exists n, file_mentions w f (path, n).
Proof.
  intros EF EI NT S. destruct (imports_exact_with env (fun _ => []) own h fuel f w F s w1 EF EI (no_templates_ask _ _ _ _ NT) S) as (F1 & E1 & H).
  exists F1. split; auto. intros path. rewrite H. split; intros [L|[N (n & L)]]; auto; right; (split; [exact N|]); exists n; auto.
  destruct L as [L|(t & tm & d & _ & _ & [])]; auto.
Qed.

(** ** Everything else is left alone *)
Lemma map_nth_same {A B} (er : A -> B) (l l' : list A) i : map er l' = map er l ->
  (forall a a', nth_error l i = Some a -> nth_error l' i = Some a' -> er a' = er a -> a' = a) -> nth_error l' i = nth_error l i.
Proof.
  intros E H. assert (X : nth_error (map er l') i = nth_error (map er l) i) by (rewrite E; auto).
  rewrite !nth_error_map in X. destruct (nth_error l i) as [a|], (nth_error l' i) as [a'|]; cbn in X; try discriminate; auto.
  f_equal. apply H; auto. congruence.
Qed.
Lemma nth_error_same {A} : forall l l' : list A, (forall k, nth_error l' k = nth_error l k) -> l' = l.
Proof.
  induction l as [|z l IH]; intros [|z' l'] C; auto; try (specialize (C 0); discriminate).
  f_equal; [specialize (C 0); cbn in C; congruence|]. apply IH. intros k. exact (C (S k)).
Qed.
Theorem others_unchanged_with {TD} (env : Env TD) own h fuel f w F s w1 :
  nth_error (files w) f = Some F -> FImports F = run h (NewImportsFor own) -> templates_ok env w f (fun _ => True) ->
  source env fuel f w = (Ok s, w1) ->
  (forall g, g <> f -> nth_error (files w1) g = nth_error (files w) g) /\
  (exists F1, nth_error (files w1) f = Some F1 /\ FFileComment F1 = FFileComment F /\ FPackageComment F1 = FPackageComment F /\
     FCanonical F1 = FCanonical F /\ FPackageName F1 = FPackageName F /\ FName F1 = FName F /\
     FElements F1 = FElements F /\ pkgPath (FImports F1) = own) /\
  constDecls w1 = constDecls w /\ varDecls w1 = varDecls w /\ typeDecls w1 = typeDecls w /\
  blocks w1 = blocks w /\
  (map fst (templs w1) = map fst (templs w) /\ forall t, ~ template_of w f t -> nth_error (templs w1) t = nth_error (templs w) t) /\
  (forall i, ~ part_of w f (IConst i) -> nth_error (consts w1) i = nth_error (consts w) i) /\
  (forall i, ~ part_of w f (IVar i) -> nth_error (vars w1) i = nth_error (vars w) i) /\
  (forall i, ~ part_of w f (IType i) -> nth_error (types w1) i = nth_error (types w) i) /\
  (forall i, ~ part_of w f (IField i) -> nth_error (fields w1) i = nth_error (fields w) i) /\
  (forall i, ~ part_of w f (IElem i) -> nth_error (ielems w1) i = nth_error (ielems w) i) /\
  (forall i, ~ part_of w f (IFunc i) -> nth_error (funcs w1) i = nth_error (funcs w) i) /\
  (forall a, ~ uses_args w f a -> nth_error (argss w1) a = nth_error (argss w) a).
Proof.
  intros EF EI NT S. destruct (source_split _ _ _ _ _ _ S) as (Q & _).
  assert (IF : Inv (FImports F)) by (rewrite EI; apply run_new_Inv).
  assert (HR : forall r, file_mentions w f r -> (fun _ => True) r) by auto.
  destruct (file_after env fuel f w w1 F _ EF IF NT HR Q) as (F1 & E1 & EI1 & FF & SR & I1).
  destruct (after env fuel f w w1 F _ EF IF NT HR Q) as (L & _ & U & _).
  pose proof (le_skel _ _ _ _ _ L) as SK.
  assert (SC : forall l, ~ in_scope w f l -> cont w1 l = cont w l).
  { intros l N. apply U. intros IN. apply N. eapply scope_file; eauto. }
  assert (PO : pkgPath (FImports F1) = own).
  { rewrite (proj1 (steps_ext _ _ _ SR IF)), EI. apply run_new_own. }
  split.
  { intros g N. rewrite (le_files _ _ _ _ _ L). unfold reimp. cbn [set_files files]. rewrite nth_upd_with.
    destruct (Nat.eqb_spec f g); [congruence|auto]. }
  split. { exists F1. split; auto. rewrite FF at 1 2 3 4 5 6. cbn [with_imports FFileComment FPackageComment FCanonical FPackageName FName FElements].
    repeat split; auto. }
  split; [exact (f_equal constDecls SK)|]. split; [exact (f_equal varDecls SK)|]. split; [exact (f_equal typeDecls SK)|].
  split; [exact (f_equal blocks SK)|]. split.
  { split; [exact (le_tnames _ _ _ _ _ L)|]. intros t N. specialize (SC (LTempl t) N).
    assert (X : nth_error (tnames w1) t = nth_error (tnames w) t) by (rewrite (le_tnames _ _ _ _ _ L); auto).
    unfold tnames in X. rewrite !nth_error_map in X. cbn [cont] in SC.
    destruct (nth_error (templs w1) t) as [[tm d]|], (nth_error (templs w) t) as [[tm' d']|]; cbn in X, SC; congruence. }
  split; [|split; [|split; [|split; [|split; [|split]]]]]; intros i N.
  - apply (map_nth_same er_value); [exact (f_equal consts SK)|]. intros a a' A A' ER. specialize (SC (LConst i) N). cbn [cont] in SC.
    rewrite A, A' in SC. destruct a as [? ? [| |] ? ?], a' as [? ? [| |] ? ?]; unfold er_value, with_vtype in ER; cbn in *; congruence.
  - apply (map_nth_same er_value); [exact (f_equal vars SK)|]. intros a a' A A' ER. specialize (SC (LVar i) N). cbn [cont] in SC.
    rewrite A, A' in SC. destruct a as [? ? [| |] ? ?], a' as [? ? [| |] ? ?]; unfold er_value, with_vtype in ER; cbn in *; congruence.
  - apply (map_nth_same er_type); [exact (f_equal types SK)|]. intros a a' A A' ER. specialize (SC (LType i) N). cbn [cont] in SC.
    rewrite A, A' in SC. destruct a, a'; unfold er_type, with_under in ER; cbn in *; congruence.
  - apply (map_nth_same er_field); [exact (f_equal fields SK)|]. intros a a' A A' ER. specialize (SC (LField i) N). cbn [cont] in SC.
    rewrite A, A' in SC. destruct a as [? ? ? [| |] ?], a' as [? ? ? [| |] ?]; unfold er_field, with_ftype in ER; cbn in *; congruence.
  - apply (map_nth_same er_elem); [exact (f_equal ielems SK)|]. intros a a' A A' ER. specialize (SC (LElem i) N). cbn [cont] in SC.
    rewrite A, A' in SC. destruct a, a'; cbn in *; congruence.
  - apply (map_nth_same er_func); [exact (f_equal funcs SK)|]. intros a a' A A' ER. specialize (SC (LFunc i) N). cbn [cont] in SC.
    rewrite A, A' in SC. destruct a, a'; unfold er_func, with_sig in ER; cbn in *; congruence.
  - apply (map_nth_same er_args); [exact (f_equal argss SK)|]. intros a a' A A' ER.
    assert (C : forall k, nth_error a' k = nth_error a k).
    { intros k. assert (X : cont w1 (LArg i k) = cont w (LArg i k)).
      { apply SC. exact N. }
      cbn [cont] in X. rewrite A, A' in X. cbn [obind] in X.
      destruct (nth_error a k), (nth_error a' k); cbn in X; congruence. }
    apply nth_error_same; auto.
Qed.
Theorem others_unchanged {TD} (env : Env TD) own h fuel f w F s w1 :
  nth_error (files w) f = Some F -> FImports F = run h (NewImportsFor own) -> no_templates w f ->
  source env fuel f w = (Ok s, w1) ->
  (forall g, g <> f -> nth_error (files w1) g = nth_error (files w) g) /\
  (exists F1, nth_error (files w1) f = Some F1 /\ FFileComment F1 = FFileComment F /\ FPackageComment F1 = FPackageComment F /\
     FCanonical F1 = FCanonical F /\ FPackageName F1 = FPackageName F /\ FName F1 = FName F /\
     FElements F1 = FElements F /\ pkgPath (FImports F1) = own) /\
  constDecls w1 = constDecls w /\ varDecls w1 = varDecls w /\ typeDecls w1 = typeDecls w /\
  blocks w1 = blocks w /\ templs w1 = templs w /\
  (forall i, ~ part_of w f (IConst i) -> nth_error (consts w1) i = nth_error (consts w) i) /\
  (forall i, ~ part_of w f (IVar i) -> nth_error (vars w1) i = nth_error (vars w) i) /\
  (forall i, ~ part_of w f (IType i) -> nth_error (types w1) i = nth_error (types w) i) /\
  (forall i, ~ part_of w f (IField i) -> nth_error (fields w1) i = nth_error (fields w) i) /\
  (forall i, ~ part_of w f (IElem i) -> nth_error (ielems w1) i = nth_error (ielems w) i) /\
  (forall i, ~ part_of w f (IFunc i) -> nth_error (funcs w1) i = nth_error (funcs w) i) /\
  (forall a, ~ uses_args w f a -> nth_error (argss w1) a = nth_error (argss w) a).
Proof.
  intros EF EI NT S.
  destruct (others_unchanged_with env own h fuel f w F s w1 EF EI (no_templates_ok _ _ _ _ NT) S) as (A & B & C1 & C2 & C3 & C4 & (_ & T) & D).
  split; [exact A|]. split; [exact B|]. split; [exact C1|]. split; [exact C2|]. split; [exact C3|]. split; [exact C4|]. split; [|exact D].
  apply nth_error_same. intros t. apply T. intros (cb & b & P & BB & IN). eapply NT; eauto.
Qed.

(** ** References in code *)
Lemma symbol_written real own H s s1 : forallb call_ok H = true -> (forall c, In c H -> honest real c) ->
  sym_final (run H (NewImportsFor own)) s s1 ->
  written_symbol real own (ImportSpecs (run H (NewImportsFor own))) s (Symbol_String s1).
Proof.
  intros OK HON SF. destruct (sym_final_known _ _ _ SF) as [-> K]. unfold written_symbol. destruct (has_package s) eqn:HP.
  - specialize (K HP). destruct (prefix_name (run H (NewImportsFor own)) (sym_path s)) as [n|] eqn:P; [|congruence].
    exists n. split; [apply prefix_refers; auto|]. rewrite (prefixes_right _ _ _ P HP). unfold with_dot.
    destruct (String.eqb n ""); auto. rewrite append_assoc. auto.
  - unfold rename. rewrite HP. unfold Symbol_String. unfold has_package in HP. apply negb_false_iff, andb_true_iff in HP as [HP _].
    rewrite HP. auto.
Qed.
Lemma package_written real own H p n j j' : forallb call_ok H = true -> (forall c, In c H -> honest real c) -> Inv j ->
  registerPackage p j = (Ok n, j') -> ext j' (run H (NewImportsFor own)) ->
  refers real own (ImportSpecs (run H (NewImportsFor own))) n (ImportPath p).
Proof.
  intros OK HON Ij E X. apply prefix_refers; auto. eapply prefix_name_ext; [exact X|].
  unfold registerPackage, RegisterImportForPackage, RegisterImport, sbind, sret in E.
  destruct (prefix_reg j (ImportPath p) (PkgName p) Ij) as (k & i1 & E1 & I1 & X1 & P & _).
  rewrite E1, strip_with_dot in E. injection E as <- <-. exact P.
Qed.
Lemma type_written isPrint real own H t t1 : forallb call_ok H = true -> (forall c, In c H -> honest real c) ->
  (forall c, In c H -> usable_requests c) -> type_final (run H (NewImportsFor own)) t t1 -> wf t = true -> text_ok t = true ->
  exists s g, typeNameToString isPrint t1 = Ok s /\ parse_type s = Some g /\
    resolve_type real (ImportSpecs (run H (NewImportsFor own))) g = Some (denote_with (path_qualifier own) t).
Proof.
  intros OK HON US TF W X. destruct (type_final_wf _ _ _ TF W) as [-> K].
  assert (TX : text_ok (map_symbols (rename (run H (NewImportsFor own))) t) = true).
  { apply text_ok_map; auto. intros s IN. eapply rename_ok; eauto. }
  assert (WM : wf (map_symbols (rename (run H (NewImportsFor own))) t) = true) by (rewrite wf_map; auto).
  destruct (type_text_parses isPrint _ WM TX) as (s & ES & PS). rewrite <- string_is_buffer in ES.
  exists s, (denote (map_symbols (rename (run H (NewImportsFor own))) t)). split; auto. split; auto.
  apply resolve_denote. apply Forall_forall. intros x IN. apply known_good_sym; auto.
Qed.
Lemma history_after {TD} (env : Env TD) real own h fuel f (w w1 : World TD) F :
  nth_error (files w) f = Some F -> FImports F = run h (NewImportsFor own) ->
  forallb call_ok h = true -> (forall c, In c h -> honest real c) -> (forall c, In c h -> usable_requests c) ->
  templates_ok env w f (fun r => right_name real r /\ usable_name r) ->
  (forall r, file_mentions w f r -> right_name real r /\ usable_name r) ->
  qualify_file env fuel f w = (Ok tt, w1) ->
  exists H F1, nth_error (files w1) f = Some F1 /\ FImports F1 = imp f w1 /\ F1 = with_imports F (FImports F1) /\
    imp f w1 = run H (NewImportsFor own) /\
    forallb call_ok H = true /\ (forall c, In c H -> honest real c) /\ (forall c, In c H -> usable_requests c).
Proof.
  intros EF EI OK HON US NT HR Q. assert (IF : Inv (FImports F)) by (rewrite EI; apply run_new_Inv).
  destruct (file_after env fuel f w w1 F _ EF IF NT HR Q) as (F1 & E1 & EI1 & FF & (l & Rl & EL) & I1).
  exists (h ++ map (fun r => CRegisterImport (fst r) (snd r)) l), F1. split; auto. split; auto. split; auto.
  split. { rewrite <- EI1, EL, EI. apply (steps_run _ _ _ _ Rl). }
  split. { rewrite forallb_app, OK. apply forallb_forall. intros c IN. apply in_map_iff in IN as (r & <- & _). auto. }
  split; intros c IN; apply in_app_or in IN as [IN|IN]; auto; apply in_map_iff in IN as ([p n] & <- & IN);
    apply Rl in IN as [[A|A] B]; intros p' n' IR; cbn in IR, A, B; destruct IR as [[= <- <-]|[]]; auto.
Qed.
Lemma target_written {TD} (env : Env TD) real own H (w w1 : World TD) a t r j j' a1 verb :
  forallb call_ok H = true -> (forall c, In c H -> honest real c) -> (forall c, In c H -> usable_requests c) ->
  verb = "s"%char \/ verb = "v"%char ->
  arg_target w a = Ok t -> target_reference t = Some r -> Inv j -> target_act a t j = (Ok a1, j') ->
  ext j' (run H (NewImportsFor own)) ->
  (forall s, r <> RSignature s) ->
  (forall s m, r = RMethod s m -> method_by_value a = true \/
     has_package s = true /\ prefix_name (run H (NewImportsFor own)) (sym_path s) <> Some (PkgName (SymPackage s))) ->
  written real own (ImportSpecs (run H (NewImportsFor own))) r (fmt_arg env w1 verb a1).
Proof.
  intros OK HON US V AT TR Ij TA X NS NM.
  assert (SV : forall x, fmt_arg env w1 verb x = match arg_string env w1 x with Some r => caught verb r | None => fmt_arg env w1 verb x end).
  { intros x. unfold fmt_arg at 1. destruct (arg_string env w1 x) as [y|] eqn:AS; [|unfold fmt_arg; rewrite AS; auto].
    destruct V as [->| ->]; auto. }
  destruct t as [p|s|m|s|t|p|]; cbn [target_act target_reference] in *; unfold sbind, sret in TA; injection TR as <- || discriminate TR.
  - destruct (registerPackage p j) as [[n|] i] eqn:RP; [|discriminate]. injection TA as TA <-.
    cbn [written]. rewrite SV. pose proof (package_written real own H p n j i OK HON Ij RP X) as PW.
    destruct (String.eqb_spec n (PkgName p)) as [E|E]; cbn [negb] in TA; subst a1; [|exact PW].
    assert (AP : a = APackage p \/ a = APackagePtr p).
    { destruct a; cbn [arg_target] in AT; auto; unfold rbind in AT;
      repeat match type of AT with context [match ?x with _ => _ end] => destruct x; try discriminate end;
      try discriminate AT; injection AT as ->; auto. }
    rewrite E in PW. destruct AP as [-> | ->]; exact PW.
  - destruct (EnsureImported s j) as [[s1|] i] eqn:EI; [|discriminate]. injection TA as <- <-.
    cbn [written]. rewrite SV. cbn [arg_string caught]. apply symbol_written; auto. exists j, i. auto.
  - destruct (EnsureImported (MRType m) j) as [[s1|] i] eqn:EI; [|discriminate]. injection TA as TA <-.
    assert (SF : sym_final (run H (NewImportsFor own)) (MRType m) s1) by (exists j, i; auto).
    pose proof (symbol_written real own H _ _ OK HON SF) as SW. cbn [written].
    destruct (symbol_eqb s1 (MRType m)) eqn:EQ; cbn [negb] in TA; subst a1.
    + apply symbol_eqb_eq in EQ. subst s1. destruct (NM _ _ eq_refl) as [BV|[HP PN]].
      * destruct a; cbn in BV; try discriminate; cbn [arg_target] in AT; injection AT as <-; rewrite SV; cbn [arg_string caught];
          eexists; split; try exact SW; auto.
      * exfalso. destruct (sym_final_known _ _ _ SF) as [RN K].
        specialize (K HP). unfold rename in RN. rewrite HP in RN.
        destruct (prefix_name (run H (NewImportsFor own)) (sym_path (MRType m))) as [n|] eqn:P; [|congruence].
        apply PN. f_equal. rewrite RN. auto.
    + rewrite SV. cbn [arg_string caught]. eexists. split; [exact SW|auto].
  - exfalso. eapply NS; eauto.
  - destruct (EnsureTypeImported t j) as [[[t1 c]|] i] eqn:EI; [|discriminate]. injection TA as <- <-.
    cbn [written]. intros W T. destruct (type_written (isPrint env) real own H t t1 OK HON US) as (x & g & E1 & E2 & E3); auto.
    { exists c, j, i. auto. }
    exists g. rewrite SV. cbn [arg_string]. rewrite E1. auto.
  - destruct (registerPackage p j) as [[n|] i] eqn:RP; [|discriminate]. injection TA as <- <-.
    cbn [written]. rewrite SV. cbn [arg_string caught]. eapply package_written; eauto.
Qed.
Theorem references_written_with {TD} (env : Env TD) real own h fuel f w F s w1 :
  nth_error (files w) f = Some F -> FImports F = run h (NewImportsFor own) ->
  forallb call_ok h = true -> (forall c, In c h -> honest real c) -> (forall c, In c h -> usable_requests c) ->
  templates_ok env w f (fun r => right_name real r /\ usable_name r) ->
  (forall r, file_mentions w f r -> right_name real r /\ usable_name r) ->
  source env fuel f w = (Ok s, w1) ->
  exists F1, nth_error (files w1) f = Some F1 /\
  forall cb n k a r verb, part_of w f (IBlock cb) -> argument w cb n k = Some a -> refers_to w a = Some r ->
    verb = "s"%char \/ verb = "v"%char ->
    (forall sg, r <> RSignature sg) ->
    (forall s m, r = RMethod s m -> method_by_value a = true \/
       has_package s = true /\ ~ keeps_name (FImports F1) (SymPackage s)) ->
    exists a1, argument w1 cb n k = Some a1 /\
      written real own (ImportSpecs (FImports F1)) r (fmt_arg env w1 verb a1).
Proof.
  intros EF EI OK HON US NT HR S. destruct (source_split _ _ _ _ _ _ S) as (Q & _).
  destruct (history_after env real own h fuel f w w1 F EF EI OK HON US NT HR Q) as (H & F1 & E1 & EI1 & _ & EH & OK1 & HON1 & US1).
  assert (IF : Inv (FImports F)) by (rewrite EI; apply run_new_Inv).
  exists F1. split; auto. intros cb n k a r verb P A RF V NS NM.
  destruct (arg_after env fuel f w w1 F _ EF IF NT HR Q cb n k a P A) as (a1 & t & j & j' & A1 & AT & Ij & TA & X).
  exists a1. split; auto. rewrite refers_target, AT in RF. rewrite EI1, EH. rewrite EH in X.
  eapply target_written; eauto. intros s0 m E. destruct (NM s0 m E) as [B|[HP K]]; auto. right. split; auto.
  intros PN. apply K. unfold keeps_name. rewrite EI1, EH. apply PrefixForPackage_iff; [apply run_new_Inv|].
  exists (PkgName (SymPackage s0)). split; [exact PN|]. unfold with_dot. destruct (String.eqb (PkgName (SymPackage s0)) ""); auto.
Qed.
Theorem references_written {TD} (env : Env TD) real own h fuel f w F s w1 :
  nth_error (files w) f = Some F -> FImports F = run h (NewImportsFor own) ->
  forallb call_ok h = true -> (forall c, In c h -> honest real c) -> (forall c, In c h -> usable_requests c) ->
  no_templates w f -> (forall r, file_mentions w f r -> right_name real r /\ usable_name r) ->
  source env fuel f w = (Ok s, w1) ->
  exists F1, nth_error (files w1) f = Some F1 /\
  forall cb n k a r verb, part_of w f (IBlock cb) -> argument w cb n k = Some a -> refers_to w a = Some r ->
    verb = "s"%char \/ verb = "v"%char ->
    (forall sg, r <> RSignature sg) ->
    (forall s m, r = RMethod s m -> method_by_value a = true \/
       has_package s = true /\ ~ keeps_name (FImports F1) (SymPackage s)) ->
    exists a1, argument w1 cb n k = Some a1 /\
      written real own (ImportSpecs (FImports F1)) r (fmt_arg env w1 verb a1).
Proof.
  intros EF EI OK HON US NT HR. apply (references_written_with env real own h fuel f w F s w1 EF EI OK HON US); auto. apply no_templates_ok. exact NT.
Qed.
