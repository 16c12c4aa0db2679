(** Proofs: qualified template data says what the data said. *)
From Verif Require Import Base BaseFacts GoPath Types SpecTypes TypesFacts Imports SpecImports ImportsProofs ImportsTheorems Conv World
  Template SpecTemplate TemplateProofs TemplateRuns TemplateOrder TemplateTheorems SpecGo SpecRender ParseProofs TextTheorems
  SpecQualify SourceProofs SourceTheorems SpecTemplateText.

Section Known.
Variables (isPrint : N -> bool) (real : string -> string) (own : string) (H : list call).
Hypothesis OK : forallb call_ok H = true.
Hypothesis HON : forall c, In c H -> honest real c.
Hypothesis US : forall c, In c H -> usable_requests c.
Notation j := (run H (NewImportsFor own)).

Lemma symbol_known s : known j s -> written_symbol real own (ImportSpecs j) s (Symbol_String (rename j s)).
Proof.
  intros K. unfold written_symbol. destruct (has_package s) eqn:HP.
  - specialize (K HP). destruct (prefix_name j (sym_path s)) as [n|] eqn:P; [|congruence].
    exists n. split; [apply prefix_refers; auto|]. rewrite (prefixes_right _ _ _ P HP). unfold with_dot.
    destruct (String.eqb n ""); auto. rewrite append_assoc. auto.
  - unfold rename. rewrite HP. unfold Symbol_String. unfold has_package in HP. apply negb_false_iff, andb_true_iff in HP as [HP _].
    rewrite HP. auto.
Qed.
Lemma type_known t : (forall s, In s (symbols_of t) -> known j s) -> wf t = true -> text_ok t = true ->
  exists s g, typeNameToString isPrint (map_symbols (rename j) t) = Ok s /\ parse_type s = Some g /\
    resolve_type real (ImportSpecs j) g = Some (denote_with (path_qualifier own) t).
Proof.
  intros K W X.
  assert (TX : text_ok (map_symbols (rename j) t) = true).
  { apply text_ok_map; auto. intros s IN. eapply rename_ok; eauto. }
  assert (WM : wf (map_symbols (rename j) t) = true) by (rewrite wf_map; auto).
  destruct (type_text_parses isPrint _ WM TX) as (s & ES & PS). rewrite <- string_is_buffer in ES.
  exists s, (denote (map_symbols (rename j) t)). split; auto. split; auto.
  apply resolve_denote. apply Forall_forall. intros x IN. apply known_good_sym; auto.
Qed.
End Known.

Ltac kids := cbn [SpecTemplateText.mentioned] in *.
Section Text.
Variable implements : gty -> string -> bool.
Variable unsafe : bool.
Variable parent_of : spec -> res (option Package).
Notation typed := (typed implements).
Notation reqs := (data_requests unsafe parent_of).
Notation renamed := (renamed implements unsafe parent_of).
Notation mentioned := (mentioned unsafe).

(** ** One reference *)
Section Leaf.
Variable nm : string -> string.
Definition one (r : SpecTemplate.reference) : val :=
  match r with RefType n => VTypeName n | RefSym s => VSymbol s | RefMeth m => VMethodRef m | RefPkg p => VPackage p end.
Inductive leaf_as : val -> val -> Prop :=
| la_type n : leaf_as (VTypeName n) (VTypeName (type_as nm n))
| la_shown d r : denotes d = Some (Ok r) -> leaf_as d (one (ref_as nm r))
| la_kept d r : denotes d = Some (Ok r) -> leaf_as d d
| la_package p : leaf_as (VPackage p) (VPackage (pkg_as nm p))
| la_symbol s : leaf_as (VSymbol s) (VSymbol (sym_as nm s))
| la_method m : leaf_as (VMethodRef m) (VMethodRef (mkMethodRef (sym_as nm (MRType m)) (MRMethod m)))
| la_signature s : leaf_as (VSignature s) (VSignature (sig_as nm s))
| la_spec_none s r : spec_parent parent_of s r = Ok None -> leaf_as (VSpec s r) (VSpec s r)
| la_spec_same s r p : spec_parent parent_of s r = Ok (Some p) -> nm (ImportPath p) = PkgName p -> leaf_as (VSpec s r) (VSpec s r)
| la_spec s r p : spec_parent parent_of s r = Ok (Some p) -> leaf_as (VSpec s r) (VSpec s (Some (nm (ImportPath p))))
| la_embed cm s p : leaf_as (VElem (InterfaceEmbed cm s p)) (VElem (InterfaceEmbed cm (sym_as nm s) p))
| la_imethod cm n s p : leaf_as (VElem (InterfaceMethod cm n s p)) (VElem (InterfaceMethod cm n (sig_as nm s) p)).

Lemma mentioned_shown r : mentioned (shown r) = [one r].
Proof. destruct r; auto. Qed.
Lemma mentioned_denotes d r : denotes d = Some r -> mentioned d = [d].
Proof. destruct d; cbn; intros; try discriminate; auto. Qed.
Lemma mentioned_held x : mentioned (held x) = mentioned x.
Proof. destruct x as [t [d|]| | | | | | | | | | | | | | | | | |]; auto. Qed.
Lemma entries_apart es : forall m, ForallOrdPairs (fun a b => ~ go_equal (fst b) (fst a)) (m ++ es) ->
  fold_left (fun m e => set_entry (fst e) (snd e) m) es m = m ++ es.
Proof.
  induction es as [|[k x] es IH]; intros m F; cbn [fold_left]; [rewrite app_nil_r; auto|]. cbn [fst snd].
  rewrite set_entry_new by (exact (ordered_app _ _ _ _ (proj1 (keys_differ _) F))). rewrite IH; rewrite <- app_assoc; auto.
Qed.

Lemma renamed_leaves v : forall c v', renamed nm c v v' -> keys_apart implements unsafe parent_of nm v ->
  Forall2 leaf_as (mentioned v) (mentioned v').
Proof.
  assert (ALL : forall l, Forall (fun v => forall c v', renamed nm c v v' -> keys_apart implements unsafe parent_of nm v ->
      Forall2 leaf_as (mentioned v) (mentioned v')) l -> forall c l', renamed_all implements unsafe parent_of nm c l l' ->
      fold_right (fun x P => keys_apart implements unsafe parent_of nm x /\ P) True l ->
      Forall2 leaf_as (flat_map mentioned l) (flat_map mentioned l')).
  { induction 1 as [|x l Hx _ IH]; intros c l' R K; inversion R; subst; cbn [flat_map]; [constructor|].
    destruct K as [K1 K2]. apply Forall2_app; eauto. }
  assert (ENT : forall es, Forall (fun e => (forall c v', renamed nm c (fst e) v' -> keys_apart implements unsafe parent_of nm (fst e) ->
      Forall2 leaf_as (mentioned (fst e)) (mentioned v')) /\ (forall c v', renamed nm c (snd e) v' -> keys_apart implements unsafe parent_of nm (snd e) ->
      Forall2 leaf_as (mentioned (snd e)) (mentioned v'))) es -> forall c es', renamed_entries implements unsafe parent_of nm c es es' ->
      fold_right (fun e P => keys_apart implements unsafe parent_of nm (fst e) /\ keys_apart implements unsafe parent_of nm (snd e) /\ P) True es ->
      Forall2 leaf_as (flat_map (fun e => mentioned (fst e) ++ mentioned (snd e)) es) (flat_map (fun e => mentioned (fst e) ++ mentioned (snd e)) es')).
  { induction 1 as [|[k x] l [Hk Hx] _ IH]; intros c l' R K; inversion R; subst; cbn [flat_map fst snd] in *; [constructor|].
    destruct K as (K1 & K2 & K3). apply Forall2_app; [apply Forall2_app|]; eauto. }
  induction v as [t|t d IH|t fs IH|e|e x IH|t l IH|t l IH|t es IH|p|s|m|s|s r|e|im|n|r|g|o|p|t n] using val_ind';
    intros c v' R K; inversion R; subst; kids; try (repeat (constructor; eauto using leaf_as); fail).
  - match goal with H : denotes d = _ |- _ => rewrite (mentioned_denotes d _ H), mentioned_shown; repeat constructor; exact H end.
  - match goal with H : denotes d = _ |- _ => rewrite (mentioned_denotes d _ H); repeat econstructor; exact H end.
  - eauto.
  - clear R. cbn [keys_apart] in K. match goal with H : renamed_fields _ _ _ _ _ _ _ |- _ => rename H into R end.
    revert c fs' R K. induction IH as [|[ex x] fs Hx _ IH]; intros c fs' R K; inversion R; subst; cbn [flat_map fst snd]; [constructor| |].
    + destruct K as [_ K]. cbn [orb app]. eauto.
    + destruct K as [K1 K2]. apply Forall2_app; eauto.
      assert (Z : forall A (a b : A), (if ex || unsafe then a else b) = a).
      { match goal with H : _ \/ _ |- _ => destruct H as [-> | ->] end; rewrite ?orb_true_r; auto. }
      rewrite !Z. eapply Hx; eauto.
  - eauto.
  - rewrite mentioned_held. eauto.
  - eauto.
  - eauto.
  - destruct K as [_ K]. eauto.
  - destruct K as [A K]. match goal with H : renamed_entries _ _ _ _ _ _ _ |- _ => rewrite (entries_apart _ [] (A _ _ H)) end. cbn [app]. eauto.
Qed.

(** The references of the result are renamed references of the data even if keys coincide. *)
Lemma set_entry_in k x m : incl (flat_map (fun e => mentioned (fst e) ++ mentioned (snd e)) (set_entry k x m))
  (flat_map (fun e => mentioned (fst e) ++ mentioned (snd e)) m ++ mentioned k ++ mentioned x).
Proof.
  induction m as [|[k' x'] m IH]; cbn [set_entry flat_map fst snd app]; [rewrite app_nil_r; apply incl_refl|].
  destruct (same_key k k'); cbn [flat_map fst snd].
  - intros a IN. rewrite !in_app_iff in *. tauto.
  - intros a IN. rewrite !in_app_iff in *. specialize (IH a). rewrite !in_app_iff in IH. tauto.
Qed.
Lemma entries_in_from es : forall m, incl (flat_map (fun e => mentioned (fst e) ++ mentioned (snd e)) (fold_left (fun m e => set_entry (fst e) (snd e) m) es m))
  (flat_map (fun e => mentioned (fst e) ++ mentioned (snd e)) m ++ flat_map (fun e => mentioned (fst e) ++ mentioned (snd e)) es).
Proof.
  induction es as [|[k x] es IH]; intros m; cbn [fold_left flat_map fst snd]; [rewrite app_nil_r; apply incl_refl|].
  intros a IN. apply IH, in_app_or in IN as [IN|IN]; [apply set_entry_in in IN|]; rewrite !in_app_iff in *; tauto.
Qed.
Definition from (l l' : list val) : Prop := forall b, In b l' -> exists a, In a l /\ leaf_as a b.
Lemma from_app l l' m m' : from l l' -> from m m' -> from (l ++ m) (l' ++ m').
Proof.
  intros A B b IN. apply in_app_or in IN as [IN|IN]; [destruct (A b IN) as (a & I1 & L)|destruct (B b IN) as (a & I1 & L)];
    exists a; rewrite in_app_iff; auto.
Qed.
Lemma from_nil l : from l [].
Proof. intros b []. Qed.
Lemma from_one a b : leaf_as a b -> from [a] [b].
Proof. intros L c [<-|[]]. exists a. cbn; auto. Qed.
Lemma renamed_from v : forall c v', renamed nm c v v' -> from (mentioned v) (mentioned v').
Proof.
  assert (ALL : forall l, Forall (fun v => forall c v', renamed nm c v v' -> from (mentioned v) (mentioned v')) l ->
      forall c l', renamed_all implements unsafe parent_of nm c l l' -> from (flat_map mentioned l) (flat_map mentioned l')).
  { induction 1 as [|x l Hx _ IH]; intros c l' R; inversion R; subst; cbn [flat_map]; [apply from_nil|]. apply from_app; eauto. }
  assert (ENT : forall es, Forall (fun e => (forall c v', renamed nm c (fst e) v' -> from (mentioned (fst e)) (mentioned v')) /\
      (forall c v', renamed nm c (snd e) v' -> from (mentioned (snd e)) (mentioned v'))) es ->
      forall c es', renamed_entries implements unsafe parent_of nm c es es' ->
      from (flat_map (fun e => mentioned (fst e) ++ mentioned (snd e)) es) (flat_map (fun e => mentioned (fst e) ++ mentioned (snd e)) es')).
  { induction 1 as [|[k x] l [Hk Hx] _ IH]; intros c l' R; inversion R; subst; cbn [flat_map fst snd] in *; [apply from_nil|].
    apply from_app; [apply from_app|]; eauto. }
  induction v as [t|t d IH|t fs IH|e|e x IH|t l IH|t l IH|t es IH|p|s|m|s|s r|e|im|n|r|g|o|p|t n] using val_ind';
    intros c v' R; inversion R; subst; kids; try (apply from_nil); try (apply from_one; econstructor; eauto; fail); eauto.
  - match goal with H : denotes d = _ |- _ => rewrite (mentioned_denotes d _ H), mentioned_shown; apply from_one; constructor; exact H end.
  - match goal with H : denotes d = _ |- _ => rewrite (mentioned_denotes d _ H); apply from_one; econstructor; exact H end.
  - clear R. match goal with H : renamed_fields _ _ _ _ _ _ _ |- _ => rename H into R end.
    revert c fs' R. induction IH as [|[ex x] fs Hx _ IH]; intros c fs' R; inversion R; subst; cbn [flat_map fst snd]; [apply from_nil| |].
    + cbn [orb app]. eauto.
    + apply from_app; eauto.
      assert (Z : forall A (a b : A), (if ex || unsafe then a else b) = a).
      { match goal with H : _ \/ _ |- _ => destruct H as [-> | ->] end; rewrite ?orb_true_r; auto. }
      rewrite !Z. eapply Hx; eauto.
  - rewrite mentioned_held. eauto.
  - intros b IN. apply entries_in_from in IN. cbn [flat_map app] in IN. eapply ENT; eauto.
Qed.
End Leaf.

Lemma mentioned_requests v : forall a, typed v -> In a (mentioned v) -> incl (reqs (VIface any (Some a))) (reqs v).
Proof.
  assert (ALL : forall l, Forall (fun v => forall a, typed v -> In a (mentioned v) -> incl (reqs (VIface any (Some a))) (reqs v)) l ->
      forall a, fold_right (fun x P => typed x /\ P) True l -> In a (flat_map mentioned l) -> incl (reqs (VIface any (Some a))) (flat_map reqs l)).
  { induction 1 as [|x l Hx _ IH]; intros a T IN; [destruct IN|]. destruct T as [T1 T2]. cbn [flat_map] in *.
    apply in_app_or in IN as [IN|IN]; [apply incl_appl|apply incl_appr]; auto. }
  induction v as [t|t d IH|t fs IH|e|e x IH|t l IH|t l IH|t es IH|p|s|m|s|s r|e|im|n|r|g|o|p|t n] using val_ind'; intros a T IN; kids;
    try (destruct IN as [<-|[]]; apply incl_refl); try (destruct IN; fail); try (destruct T; fail).
  - destruct T as (_ & _ & T). cbn [data_requests] in *. destruct (as_type d) as [n|] eqn:A.
    + destruct d; try discriminate. injection A as ->. destruct IN as [<-|[]]. apply incl_refl.
    + destruct (denotes d) as [[r|m]|] eqn:D.
      1, 2: rewrite (mentioned_denotes d _ D) in IN; destruct IN as [<-|[]]; rewrite A, D; apply incl_refl.
      exact (IH a T IN).
  - cbn [SpecTemplate.typed] in T. change (reqs (VStruct t fs)) with (flat_map (fun f => if fst f || unsafe then reqs (snd f) else []) fs).
    induction IH as [|[ex x] fs Hx _ IH]; [destruct IN|]. destruct T as [T1 T2]. cbn [flat_map fst snd] in *.
    apply in_app_or in IN as [IN|IN]; [apply incl_appl|apply incl_appr]; auto. destruct (ex || unsafe); [auto|destruct IN].
  - destruct T as [_ T]. exact (IH a T IN).
  - exact (ALL l IH a T IN).
  - exact (ALL l IH a T IN).
  - destruct T as [T _]. change (reqs (VMap t es)) with (flat_map (fun e => reqs (fst e) ++ reqs (snd e)) es).
    induction IH as [|[k x] es [Hk Hx] _ IH]; [destruct IN|]. destruct T as (T1 & T2 & T3). cbn [flat_map fst snd] in *.
    rewrite !in_app_iff in IN. destruct IN as [[IN|IN]|IN].
    + apply incl_appl, incl_appl; auto.
    + apply incl_appl, incl_appr; auto.
    + apply incl_appr; auto.
Qed.

(** ** What it says *)
Section Says.
Variables (isPrint : N -> bool) (real : string -> string) (own : string) (H : list call) (i : Imports).
Hypothesis OK : forallb call_ok H = true.
Hypothesis HON : forall c, In c H -> honest real c.
Hypothesis US : forall c, In c H -> usable_requests c.
Notation j := (run H (NewImportsFor own)).
Hypothesis Ii : Inv i.
Hypothesis X : ext i j.
Notation nm := (name_in i).
Notation says := (says isPrint parent_of real own (ImportSpecs j)).
Notation prints := (prints isPrint real own (ImportSpecs j)).

Lemma known_of l : knows i (sym_requests l) -> forall s, In s l -> known i s.
Proof.
  intros K s IN HP E. eapply (K (sym_path s) (PkgName (SymPackage s))); [|exact E].
  unfold sym_requests. apply in_map_iff. exists s. split; auto. apply filter_In. auto.
Qed.
Lemma sym_prints s : knows i (sym_requests [s]) -> prints (VSymbol (sym_as nm s)) (RName s).
Proof.
  intros K _. eexists. split; [reflexivity|]. assert (K1 : known i s) by (eapply known_of; eauto; left; auto).
  cbn [written]. rewrite (sym_as_rename _ _ Ii K1), <- (rename_ext _ _ _ X K1). apply symbol_known; auto. eapply known_ext; eauto.
Qed.
Lemma method_prints m : knows i (sym_requests [MRType m]) ->
  prints (VMethodRef (mkMethodRef (sym_as nm (MRType m)) (MRMethod m))) (RMethod (MRType m) (MRMethod m)).
Proof.
  intros K _. destruct (sym_prints (MRType m) K Logic.I) as (t & E & W). cbn in E, W. injection E as <-.
  eexists. split; [reflexivity|]. eexists. split; [exact W|reflexivity].
Qed.
Lemma package_prints p : knows i [(ImportPath p, PkgName p)] -> refers real own (ImportSpecs j) (nm (ImportPath p)) (ImportPath p).
Proof.
  intros K. destruct (prefix_name i (ImportPath p)) as [n|] eqn:P; [|exfalso; eapply K; [left; reflexivity|exact P]].
  rewrite (name_in_prefix _ _ _ Ii P). apply prefix_refers; auto. eapply prefix_name_ext; eauto.
Qed.
Lemma type_prints t : knows i (sym_requests (symbols_of t)) -> prints (VTypeName (type_as nm t)) (RType t).
Proof.
  intros K [W TX]. assert (K1 : forall s, In s (symbols_of t) -> known i s) by (apply known_of; auto).
  rewrite (type_as_rename _ _ Ii K1).
  replace (map_symbols (rename i) t) with (map_symbols (rename j) t).
  2:{ apply (g_cong _ _ _ _ _ (ImportsProofs.good_type t)). intros s IN. apply rename_ext; auto. }
  destruct (type_known isPrint real own H OK HON US t) as (s & g & E & P & R); auto.
  { intros s IN. eapply known_ext; eauto. }
  exists s. cbn [printed]. rewrite E. split; auto. intros _ _. eauto.
Qed.
Lemma leaf_says a b : leaf_as nm a b -> knows i (reqs (VIface any (Some a))) -> says a b.
Proof.
  intros L K. inversion L; subst; cbn [SpecTemplateText.says].
  - intros r [= <-]. apply type_prints. exact K.
  - assert (G : exists q, meant a = Some q /\ prints (one (ref_as nm r)) q).
    { destruct r as [t|s|m|p]; cbn [one ref_as].
      1: exists (RType t). 2: exists (RName s). 3: exists (RMethod (MRType m) (MRMethod m)). 4: exists (RPackage p).
      all: split; [destruct a; try discriminate; cbn [meant]; match goal with D : denotes _ = _ |- _ => rewrite D end; auto|].
      all: cbn [data_requests] in K; replace (as_type a) with (@None TypeName) in K by (destruct a; try discriminate; auto);
        match goal with D : denotes _ = _ |- _ => rewrite D in K end; cbn [ref_requests] in K.
      - apply type_prints; auto.
      - apply sym_prints; auto.
      - apply method_prints; auto.
      - intros _. eexists. split; [reflexivity|]. apply package_prints; auto. }
    destruct a; try discriminate; cbn [SpecTemplateText.says]; auto.
  - destruct b; try discriminate; cbn [SpecTemplateText.says]; auto.
  - intros r [= <-] _. eexists. split; [reflexivity|]. apply package_prints; auto.
  - intros r [= <-]. apply sym_prints; auto.
  - intros r [= <-]. apply method_prints; auto.
  - eexists. split; [reflexivity|]. change (TFunc (sig_as nm s)) with (type_as nm (TFunc s)). apply type_prints. exact K.
  - eexists. split; [reflexivity|]. intros p E. congruence.
  - eexists. split; [reflexivity|]. intros q E. assert (q = p) by congruence. subst q. clear E.
    cbn [data_requests as_type denotes] in K. match goal with E' : spec_parent _ s r = _ |- _ => rewrite E' in K; pose proof E' as E1 end.
    match goal with E' : _ = PkgName p |- _ => pose proof (package_prints p K) as R; rewrite E' in R end.
    destruct r as [n|]; auto. cbn in E1. injection E1 as <-. exact R.
  - eexists. split; [reflexivity|]. intros q E. assert (q = p) by congruence. subst q. clear E.
    cbn [data_requests as_type denotes] in K. match goal with E' : spec_parent _ s r = _ |- _ => rewrite E' in K end.
    apply package_prints; auto.
  - eexists. split; [reflexivity|]. apply sym_prints; auto.
  - eexists. split; [reflexivity|]. change (TFunc (sig_as nm s)) with (type_as nm (TFunc s)). apply type_prints. exact K.
Qed.
End Says.

(** ** The data *)
Section Data.
Variables (isPrint : N -> bool) (real : string -> string) (own : string) (h h' : list call) (d : val) (r : option val) (i' : Imports).
Hypothesis OK : forallb call_ok (h ++ h') = true.
Hypothesis HON : forall c, In c (h ++ h') -> honest real c.
Hypothesis US : forall c, In c (h ++ h') -> usable_requests c.
Hypothesis RQ : forall q, In q (reqs (data d)) -> right_name real q /\ usable_name q.
Hypothesis T : typed (data d).
Hypothesis E : QualifyTemplateData implements unsafe parent_of (Some d) (run h (NewImportsFor own)) = (Ok r, i').
Notation H := (h ++ registrations (reqs (data d)) ++ h').

Lemma data_history : run h' i' = run H (NewImportsFor own) /\ Inv i' /\ ext i' (run h' i') /\ knows i' (reqs (data d)) /\
  forallb call_ok H = true /\ (forall c, In c H -> honest real c) /\ (forall c, In c H -> usable_requests c).
Proof.
  destruct (renamed_data implements unsafe parent_of own h d r i' T E) as [A _].
  assert (Hi : Inv (run h (NewImportsFor own))) by apply run_new_Inv.
  assert (R : run h' i' = run H (NewImportsFor own)) by (unfold run in *; rewrite !fold_left_app, <- A; auto).
  pose proof A as B. rewrite run_registrations in B. assert (I' : Inv i') by (rewrite B; apply after_Inv; auto).
  split; auto. split; auto. split; [apply run_keep; auto|]. split; [intros p n IN; rewrite B; eapply after_prefix; eauto|].
  rewrite forallb_app in OK. apply andb_true_iff in OK as [O1 O2]. split; [|split].
  - rewrite !forallb_app, O1, O2, andb_true_r. apply forallb_forall. intros c IN. apply in_map_iff in IN as (q & <- & _). auto.
  - intros c IN. apply in_app_or in IN as [IN|IN]; [|apply in_app_or in IN as [IN|IN]]; try (apply HON; rewrite in_app_iff; tauto).
    apply in_map_iff in IN as ([p n] & <- & IN). apply RQ in IN as [A1 _]. intros p' n' IR. cbn in IR. destruct IR as [[= <- <-]|[]]; auto.
  - intros c IN. apply in_app_or in IN as [IN|IN]; [|apply in_app_or in IN as [IN|IN]]; try (apply US; rewrite in_app_iff; tauto).
    apply in_map_iff in IN as ([p n] & <- & IN). apply RQ in IN as [_ A1]. intros p' n' IR. cbn in IR. destruct IR as [[= <- <-]|[]]; auto.
Qed.
Lemma mentioned_option : mentioned (VIface any r) = mentioned_in unsafe r.
Proof. destruct r; auto. Qed.
Lemma data_says : keys_apart implements unsafe parent_of (name_in i') (data d) ->
  Forall2 (says isPrint parent_of real own (ImportSpecs (run h' i'))) (mentioned d) (mentioned_in unsafe r).
Proof.
  intros K. destruct data_history as (R & I' & X & KN & O & HN & UN).
  destruct (renamed_data implements unsafe parent_of own h d r i' T E) as (_ & c & RN).
  pose proof (renamed_leaves _ _ _ _ RN K) as L. rewrite mentioned_option in L. rewrite R in *.
  assert (G : Forall (fun a => knows i' (reqs (VIface any (Some a)))) (mentioned d)).
  { apply Forall_forall. intros a IN p n IR. eapply KN. eapply (mentioned_requests (data d) a T IN); eauto. }
  change (mentioned (data d)) with (mentioned d) in L. revert G. induction L; intros G; constructor; inversion G; subst; auto.
  eapply leaf_says; eauto.
Qed.
Lemma data_says_all : forall b, In b (mentioned_in unsafe r) -> exists a, In a (mentioned d) /\
  says isPrint parent_of real own (ImportSpecs (run h' i')) a b.
Proof.
  intros b IN. destruct data_history as (R & I' & X & KN & O & HN & UN).
  destruct (renamed_data implements unsafe parent_of own h d r i' T E) as (_ & c & RN).
  rewrite <- mentioned_option in IN. destruct (renamed_from _ _ _ _ RN b IN) as (a & IA & L). exists a. split; auto.
  rewrite R in *. eapply leaf_says; eauto. intros p n IR. eapply KN. eapply (mentioned_requests (data d) a T IA); eauto.
Qed.
End Data.
End Text.
