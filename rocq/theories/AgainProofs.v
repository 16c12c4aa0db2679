(** Writing a file a second time gives what the first time gave, also when that is a panic. *)
From Coq Require Import List String Arith Lia.
From Verif Require Import Base BaseFacts Types SpecTypes TypesFacts Imports SpecImports ImportsProofs ImportsTheorems SettleProofs Conv World WorldProofs
  SpecGo SpecRender SpecQualify QualifyProofs QualifyTheorems SourceProofs SourceTheorems SpecFormat FormatProofs SpecCode SpecAppend AppendProofs AppendText AppendTheorems
  SpecOrder OrderProofs OrderText.

(** ** The same call later ends in the same way *)
Definition again {A} (m : IM A) : Prop := forall i r i', Inv i -> m i = (r, i') ->
  (exists l, i' = fold_left reg_pair l i) /\ forall j, Inv j -> ext i' j -> m j = (r, j).
Lemma again_ret {A} (a : A) : again (sret a).
Proof. intros i b i' I [= <- <-]. split; [exists []; auto|]. reflexivity. Qed.
Lemma again_panic {A} e : again (@spanic _ A e).
Proof. intros i b i' I [= <- <-]. split; [exists []; auto|]. reflexivity. Qed.
Lemma again_lift {A} (r : res A) : again (slift r).
Proof. unfold slift. intros i b i' I [= <- <-]. split; [exists []; auto|]. reflexivity. Qed.
Lemma again_bind {A B} (m : IM A) (k : A -> IM B) : again m -> (forall a, again (k a)) -> again (do a <- m ;; k a).
Proof.
  intros M K i b i' I E. unfold sbind in E. destruct (m i) as [[a|e] i1] eqn:E1.
  - destruct (M i (Ok a) i1 I E1) as ((l1 & L1) & R1).
    assert (I1 : Inv i1) by (rewrite L1; apply fold_reg_keep; auto).
    destruct (K a i1 b i' I1 E) as ((l2 & L2) & R2).
    assert (X : ext i1 i') by (rewrite L2; apply fold_reg_keep; auto).
    split; [exists (l1 ++ l2); rewrite fold_left_app, <- L1; auto|]. intros j Ij Xj. unfold sbind.
    rewrite (R1 j Ij) by (eapply ext_trans; eauto). apply R2; auto.
  - injection E as <- <-. destruct (M i (Panic e) i1 I E1) as (L1 & R1). split; auto.
    intros j Ij Xj. unfold sbind. rewrite (R1 j Ij Xj). auto.
Qed.
Lemma again_prefix path name : again (prefixForPackage path name true).
Proof.
  intros i r i' I E. destruct (prefix_reg i path name I) as (n & i1 & E1 & I1 & X1 & P & _).
  assert (EE : i1 = reg_pair i (path, name)) by (unfold reg_pair, RegisterImport; cbn [fst snd]; rewrite E1; auto).
  rewrite E in E1. injection E1 as -> ->.
  split; [exists [(path, name)]; exact EE|]. intros k K X. apply prefix_known; auto. eapply prefix_name_ext; eauto.
Qed.
Ltac ag := repeat (first [ apply again_ret | apply again_panic | apply again_lift | apply again_prefix | assumption
  | apply again_bind; [|intros ?] | match goal with |- again (let (_, _) := ?p in _) => destruct p end
  | match goal with |- again (if ?b then _ else _) => destruct b end ]).
Lemma again_qualify s : again (qualify s true).
Proof. unfold qualify. ag. Qed.
Lemma again_list {A} (f : A -> IM (A * bool)) l : Forall (fun a => again (f a)) l -> again (map_changed f l).
Proof. induction 1; cbn [map_changed]; ag. Qed.
Lemma again_sig (q : TypeName -> IM (TypeName * bool)) (s : Signature) : PSig (fun t => again (q t)) s -> again (qualifySignature_ q s).
Proof.
  intros [HA HR]. destruct s as [a r v]. cbn [Args Results] in *.
  assert (K : forall l, Forall (fun a => again (q (ArgTy a))) l -> again (qualifyArgs_ q l)).
  { intros l H. unfold qualifyArgs_. apply again_list. eapply Forall_impl; [|exact H]. intros [n t] T. cbn in T. ag. }
  apply K in HA, HR. cbn [qualifySignature_]. ag.
Qed.
Lemma again_type t : again (qualifyType true t).
Proof.
  induction t as [ |k|s|e IH|e IH|e n IH|e k IHe IHk|e d IH|s IH|fs IH|ms es IH] using TypeName_ind'; cbn [qualifyType].
  1,2,4,5,6,7,8: ag.
  - apply again_bind; [apply again_qualify|]. intros. ag.
  - apply again_sig in IH. ag.
  - apply again_bind; [|intros; ag]. unfold qualifyFields_. apply again_list. eapply Forall_impl; [|exact IH].
    intros [n t tag] T. cbn in T. ag.
  - apply again_bind; [|intros [nembeds ce]; apply again_bind; [|intros; ag]].
    + unfold qualifySymbols. apply again_list. apply Forall_forall. intros. apply again_bind; [apply again_qualify|]. intros. ag.
    + unfold qualifyMethods_. apply again_list. eapply Forall_impl; [|exact IH]. intros [n s] T. cbn [MtdSig] in T. apply again_sig in T. ag.
Qed.
Lemma again_signature s : again (EnsureAllTypesImported s).
Proof. apply again_sig. split; apply Forall_forall; intros; apply again_type. Qed.
Lemma again_symbol s : again (EnsureImported s).
Proof. apply again_qualify. Qed.
Lemma again_package p : again (registerPackage p).
Proof. unfold registerPackage, RegisterImportForPackage, RegisterImport. ag. Qed.
Lemma again_target a t : again (target_act a t).
Proof.
  destruct t; cbn [target_act]; try (apply again_bind; [auto using again_package, again_symbol, again_signature, again_type|intros; ag]).
  apply again_ret.
Qed.
Lemma again_act {TD} (env : Env TD) w x : (forall d, x = CD d -> forall v, again (tq env v d)) -> again (act env w x).
Proof.
  destruct x; intros N; cbn [act].
  - apply again_bind; [apply again_type|intros; ag].
  - apply again_bind; [apply again_signature|intros; ag].
  - apply again_bind; [apply again_symbol|intros; ag].
  - apply again_bind; [ag|intros; apply again_bind; [apply again_target|intros; ag]].
  - apply again_bind; [eapply N; eauto|intros; ag].
Qed.

(** ** Programs made of visits, that panic *)
Section Bad.
Context {TD : Type}.
Notation World := (World TD).
Variable env : Env TD.
Variable f : nat.
Variable Pl : loc -> Prop.
Hypothesis AT : forall t, Pl (LTempl t) -> forall v d, again (tq env v d).
Let R : string * string -> Prop := fun _ => True.
Notation J := (J env f R Pl).
Notation le := (le env f R).
Notation visit := (visit env f).
Notation good := (good env f R Pl).
Definition bad (m : WM unit) (P : World -> list loc) : Prop := forall w e w1,
  J w -> (forall l, In l (P (skel w)) -> Pl l) -> m w = (Panic e, w1) -> le w w1 /\ m w1 = (Panic e, w1).
Lemma bad_ext m m' P : (forall w, J w -> m w = m' w) -> bad m' P -> bad m P.
Proof.
  intros E G w e w1 Jw PL H. rewrite E in H by auto. destruct (G w e w1 Jw PL H) as (L & S).
  split; auto. rewrite E; auto. eapply J_le; eauto.
Qed.
Lemma bad_weak m P Q : (forall sk l, In l (P sk) -> In l (Q sk)) -> bad m P -> bad m Q.
Proof. intros H G w e w1 Jw PL E. apply (G w e w1 Jw); auto. Qed.
Lemma bad_ret P : bad (sret tt) P.
Proof. intros w e w1 Jw _ E. discriminate E. Qed.
Lemma cont_again (w : World) l x : Pl l -> cont w l = Some x -> forall d, x = CD d -> forall v, again (tq env v d).
Proof.
  intros PL C d -> v. destruct (cont_data w l d C) as (t & tm & -> & _). exact (AT t PL v d).
Qed.
Lemma bad_visit l : bad (visit l) (fun _ => [l]).
Proof.
  intros w e w1 Jw PL E. assert (P : Pl l) by (apply PL; left; auto). unfold QualifyProofs.visit in E.
  destruct (cont w l) as [x|] eqn:C; [|discriminate E].
  destruct (act env w x (imp f w)) as [[y|m] i] eqn:A; [discriminate E|]. injection E as <- <-.
  pose proof (j_inv _ _ _ _ _ Jw) as HI.
  destruct (again_act env w x (cont_again w l x P C) _ _ _ HI A) as ((rs & FF) & AG).
  destruct (fold_reg_keep rs (imp f w) HI) as [KI KX]. rewrite <- FF in KI, KX.
  assert (EI : imp f (reimp f i w) = i).
  { destruct (nth_error (files w) f) as [F|] eqn:EF; [|exfalso; apply (j_file _ _ _ _ _ Jw); auto]. eapply reimp_imp; eauto. }
  assert (SK : skel (reimp f i w) = skel w) by (apply reimp_skel; exact (proj1 KX)).
  split.
  - split; auto.
    + rewrite EI. exists rs. split; auto. intros r _. exact Logic.I.
    + rewrite EI. auto.
    + intros l'. rewrite reimp_cont. destruct (cont w l'); cbn; auto. left; auto.
  - unfold QualifyProofs.visit. rewrite reimp_cont, C, EI. rewrite (act_skel env w) by auto.
    rewrite (AG i KI (ext_refl _)). rewrite reimp_reimp. auto.
Qed.
Lemma bad_seq m k P Q : good m P -> bad m P -> bad k Q -> bad (do _ <- m ;; k) (fun sk => P sk ++ Q sk).
Proof.
  intros Gm Bm Bk w e w2 Jw PL E. unfold sbind in E. destruct (m w) as [[[]|e1] w1] eqn:Em.
  - destruct (Gm w w1 Jw) as (L1 & _ & _ & S1); auto. { intros l IN. apply PL, in_or_app; auto. }
    assert (J1 : J w1) by (eapply J_le; eauto).
    destruct (Bk w1 e w2 J1) as (L2 & S2); auto.
    { intros l IN. rewrite (le_skel _ _ _ _ _ L1) in IN. apply PL, in_or_app; auto. }
    split; [eapply le_trans; eauto|]. unfold sbind. rewrite S1 by auto. exact S2.
  - injection E as <- <-. destruct (Bm w e1 w1 Jw) as (L & S); auto. { intros l IN. apply PL, in_or_app; auto. }
    split; auto. unfold sbind. rewrite S. auto.
Qed.
Lemma bad_for {A} (g : A -> WM unit) (P : A -> World -> list loc) (l : list A) :
  (forall a, good (g a) (P a)) -> (forall a, bad (g a) (P a)) -> bad (for_each g l) (fun sk => flat_map (fun a => P a sk) l).
Proof.
  intros G B. induction l as [|a l IH]; cbn [for_each flat_map]; [apply bad_ret|]. apply bad_seq; auto.
Qed.
Lemma bad_get {A} (tab : World -> list A) i (k : A -> WM unit) (P : A -> World -> list loc) :
  (forall a, bad (k a) (P a)) ->
  bad (do a <- getsk tab i ;; k a) (fun sk => match nth_error (tab sk) i with Some a => P a sk | None => [] end).
Proof.
  intros G w e w1 Jw PL E. unfold sbind, getsk in E. unfold sbind, getsk. destruct (nth_error (tab (skel w)) i) as [a|] eqn:T.
  - destruct (G a w e w1 Jw PL E) as (L & S). split; auto. rewrite (le_skel _ _ _ _ _ L), T. auto.
  - injection E as <- <-. split; [apply le_refl|]. rewrite T. auto.
Qed.
Lemma bad_line_at args i : bad (line_qualify_at f args i)
  (fun sk => match nth_error (argss sk) args with Some _ => [LArg args i] | None => [] end).
Proof.
  eapply bad_ext; [intros w Jw; eapply line_at_eq; eauto|].
  apply (bad_get argss args (fun _ => visit (LArg args i)) (fun _ _ => [LArg args i])). intros; apply bad_visit.
Qed.
Lemma bad_line args : bad (line_qualify f args) (plan_line args).
Proof.
  eapply bad_ext; [intros w Jw; apply line_eq|].
  pose proof (bad_get argss args (fun l => for_each (line_qualify_at f args) (seq 0 (List.length l))) _
    (fun l => bad_for _ _ (seq 0 (List.length l)) (good_line_at env f R Pl args) (bad_line_at args))) as G.
  eapply bad_weak; [|exact G]. clear.
  intros sk l. unfold plan_line. destruct (nth_error (argss sk) args) as [x|] eqn:E; [|tauto].
  rewrite in_map_iff, in_flat_map. intros (k & IN & [<-|[]]). exists k. auto.
Qed.
Lemma bad_code e : bad (codeElement_qualify env f e) (plan_code e).
Proof.
  destruct e as [fm args|t]; [apply bad_line|].
  intros w e w1 Jw PL E. assert (P : Pl (LTempl t)) by (apply PL; left; auto).
  cbn [codeElement_qualify] in *. rewrite (templ_eq env f R Pl) in E by auto.
  assert (K : forall v, le w v -> templ_qualify env f t v = match nth_error (tnames w) t with Some _ => visit (LTempl t) v | None => (Panic nil_deref, v) end).
  { intros v L. rewrite (templ_eq env f R Pl) by (auto; eapply J_le; eauto). rewrite (le_tnames _ _ _ _ _ L). auto. }
  destruct (nth_error (tnames w) t) eqn:T.
  - destruct (bad_visit (LTempl t) w e w1 Jw PL E) as (L & S). split; auto. rewrite K; auto.
  - injection E as <- <-. split; [apply le_refl|]. rewrite K; auto. apply le_refl.
Qed.
Lemma bad_block cb : bad (CodeBlock_qualify env f cb) (plan_block cb).
Proof.
  apply (bad_get blocks cb (fun b => for_each (codeElement_qualify env f) b) (fun b sk => flat_map (fun e => plan_code e sk) b)).
  intros b. apply bad_for; intros e; [apply good_code|apply bad_code].
Qed.
Lemma bad_elem i : bad (InterfaceElement_qualify f i) (plan_elem i).
Proof.
  eapply bad_ext; [intros w Jw; eapply elem_eq; eauto|].
  apply (bad_get ielems i (fun _ => visit (LElem i)) (fun _ _ => [LElem i])). intros; apply bad_visit.
Qed.
Definition plan_field (fuel fid : nat) (sk : World) : list loc :=
  match nth_error (World.fields sk) fid with
  | None => []
  | Some fs => match FSType fs with NoType => [] | IsName _ => [LField fid] | IsSpec ts => plan_type fuel ts sk end
  end.
Lemma good_field fuel fid : good (field_step f fuel fid) (plan_field fuel fid).
Proof.
  eapply good_ext; [intros w Jw; eapply field_eq; eauto|].
  apply (good_get env f R Pl World.fields fid (fun fs => match FSType fs with NoType => sret tt | IsName _ => visit (LField fid) | IsSpec ts => TypeSpec_qualify fuel f ts end)
              (fun fs sk => match FSType fs with NoType => [] | IsName _ => [LField fid] | IsSpec ts => plan_type fuel ts sk end)).
  intros fs. destruct (FSType fs); [apply good_ret|apply good_visit|apply good_type].
Qed.
Lemma bad_type fuel : forall i, bad (TypeSpec_qualify fuel f i) (plan_type fuel i).
Proof.
  induction fuel as [|fuel IH]; intros i.
  { intros w e w1 Jw _ E. cbn [TypeSpec_qualify] in *. injection E as <- <-. split; [apply le_refl|]. auto. }
  cbn [plan_type].
  assert (BF : forall fid, bad (field_step f fuel fid) (plan_field fuel fid)).
  { intros fid. eapply bad_ext; [intros w Jw; eapply field_eq; eauto|].
    apply (bad_get World.fields fid (fun fs => match FSType fs with NoType => sret tt | IsName _ => visit (LField fid) | IsSpec ts => TypeSpec_qualify fuel f ts end)
                (fun fs sk => match FSType fs with NoType => [] | IsName _ => [LField fid] | IsSpec ts => plan_type fuel ts sk end)).
    intros fs. destruct (FSType fs); [apply bad_ret|apply bad_visit|apply IH]. }
  eapply bad_ext; [intros w Jw; eapply type_eq; eauto|].
  apply (bad_get types i (fun T => do _ <- visit (LType i) ;; do _ <- for_each (field_step f fuel) (TSStruct T) ;; for_each (InterfaceElement_qualify f) (TSInterface T))
        (fun T sk => [LType i] ++ flat_map (fun fid => plan_field fuel fid sk) (TSStruct T) ++ flat_map (fun e => plan_elem e sk) (TSInterface T))).
  intros T. apply (bad_seq _ _ (fun _ => [LType i])); [apply good_visit|apply bad_visit|].
  apply bad_seq; [apply good_for; apply good_field|apply bad_for; [apply good_field|auto]|].
  apply bad_for; intros e; [apply good_elem|apply bad_elem].
Qed.
Section Value.
Variables (tab : World -> list ValueSpec) (set : list ValueSpec -> World -> World) (L : nat -> loc).
Hypothesis TS : forall w, tab (skel w) = map er_value (tab w).
Hypothesis CO : forall i w, cont w (L i) = obind (nth_error (tab w) i) (fun v => tos_content (VSType v)).
Hypothesis SC : forall i w t, set_cont (L i) (CT t) w = set (upd_with i (fun v => with_vtype v (IsName t)) (tab w)) w.
Hypothesis RE : forall j w, tab (reimp f j w) = tab w.
Lemma bad_value fuel i : bad (qualify_value env tab set fuel f i) (plan_value tab L fuel i).
Proof.
  eapply bad_ext; [intros w Jw; eapply value_eq; eauto|].
  apply (bad_get tab i (fun v => do _ <- match VSType v with NoType => sret tt | IsName _ => visit (L i) | IsSpec ts => TypeSpec_qualify fuel f ts end ;;
              match VInit v with None => sret tt | Some cb => CodeBlock_qualify env f cb end)
        (fun v sk => match VSType v with NoType => [] | IsName _ => [L i] | IsSpec ts => plan_type fuel ts sk end ++
                     match VInit v with None => [] | Some cb => plan_block cb sk end)).
  intros v.
  apply (bad_seq _ _ (fun sk => match VSType v with NoType => [] | IsName _ => [L i] | IsSpec ts => plan_type fuel ts sk end)
           (fun sk => match VInit v with None => [] | Some cb => plan_block cb sk end)).
  - destruct (VSType v); [apply good_ret|apply good_visit|apply good_type].
  - destruct (VSType v); [apply bad_ret|apply bad_visit|apply bad_type].
  - destruct (VInit v); [apply bad_block|apply bad_ret].
Qed.
End Value.
Lemma bad_element fuel e : bad (FileElement_qualify env fuel f e) (plan_element fuel e).
Proof.
  destruct e as [d|d|d|i]; cbn [FileElement_qualify plan_element].
  - apply (bad_get constDecls d (fun D => for_each (qualify_value env consts set_consts fuel f) (VDSpecs D))
            (fun D sk => flat_map (fun i => plan_value consts LConst fuel i sk) (VDSpecs D))).
    intros D. apply bad_for; intros i; [apply good_value|apply bad_value]; auto.
  - apply (bad_get varDecls d (fun D => for_each (qualify_value env vars set_vars fuel f) (VDSpecs D))
            (fun D sk => flat_map (fun i => plan_value vars LVar fuel i sk) (VDSpecs D))).
    intros D. apply bad_for; intros i; [apply good_value|apply bad_value]; auto.
  - apply (bad_get typeDecls d (fun D => for_each (TypeSpec_qualify fuel f) (TDTypes D))
            (fun D sk => flat_map (fun i => plan_type fuel i sk) (TDTypes D))).
    intros D. apply bad_for; intros i; [apply good_type|apply bad_type].
  - eapply bad_ext; [intros w Jw; eapply (func_eq env f R Pl fuel); eauto|].
    apply (bad_get funcs i (fun F => do _ <- visit (LFunc i) ;; CodeBlock_qualify env f (FNBody F))
             (fun F sk => [LFunc i] ++ plan_block (FNBody F) sk)).
    intros F. apply (bad_seq _ _ (fun _ => [LFunc i])); [apply good_visit|apply bad_visit|apply bad_block].
Qed.
Lemma bad_file fuel : bad (qualify_file env fuel f) (plan_file f fuel).
Proof.
  eapply bad_ext; [intros w Jw; apply file_eq|].
  apply (bad_get files f (fun F => for_each (FileElement_qualify env fuel f) (FElements F))
           (fun F sk => flat_map (fun e => plan_element fuel e sk) (FElements F))).
  intros F. apply bad_for; intros e; [apply good_element|apply bad_element].
Qed.
End Bad.

(** ** Writing a file again *)
Theorem source_again_with {TD} (env : Env TD) own h fuel f w F r w1 :
  nth_error (files w) f = Some F -> FImports F = run h (NewImportsFor own) -> templates_ok env w f (fun _ => True) ->
  (forall t, template_of w f t -> forall v d, again (tq env v d)) ->
  source env fuel f w = (r, w1) -> source env fuel f w1 = (r, w1).
Proof.
  intros EF EI TO AT S.
  assert (IF : Inv (FImports F)) by (rewrite EI; apply run_new_Inv).
  unfold source in S. unfold sbind at 1 in S. destruct (qualify_file env fuel f w) as [[[]|m] w2] eqn:Q.
  - destruct (after env fuel f w w2 F (fun _ => True) EF IF TO (fun _ _ => I) Q) as (_ & _ & _ & AG).
    rewrite bind_get in S. destruct (nth_error (files w2) f) as [F1|] eqn:E1.
    + unfold from_res in S. assert (w2 = w1) as -> by congruence.
      unfold source. unfold sbind at 1. rewrite AG, bind_get, E1. exact S.
    + assert (w2 = w1) as -> by congruence. unfold source. unfold sbind at 1. rewrite AG, bind_get, E1. exact S.
  - injection S as <- <-.
    destruct (bad_file env f (in_scope w f)) with (fuel := fuel) (w := w) (e := m) (w1 := w2) as (_ & AG); auto.
    + apply (J_w env f w F (fun _ => True) EF IF TO (fun _ _ => I)).
    + apply plan_Pl.
    + unfold source. unfold sbind at 1. rewrite AG. auto.
Qed.
Theorem source_again {TD} (env : Env TD) own h fuel f w F r w1 :
  nth_error (files w) f = Some F -> FImports F = run h (NewImportsFor own) -> no_templates w f ->
  source env fuel f w = (r, w1) -> source env fuel f w1 = (r, w1).
Proof.
  intros EF EI N. apply (source_again_with env own h fuel f w F r w1 EF EI); [apply no_templates_ok; exact N|].
  intros t (cb & b & P & B & IN). exfalso. eapply N; eauto.
Qed.
