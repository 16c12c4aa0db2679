(** What writing a file does to the declarations and code of the file. *)
From Verif Require Import Base GoPath Types SpecTypes TypesFacts Imports SpecImports ImportsProofs ImportsTheorems
  SettleProofs SpecGo SpecRender Conv Fmt World SpecFile SpecDecl SpecWorld SpecQualify WorldProofs QualifyProofs.

Section Q.
Context {TD : Type}.
Notation World := (World TD).
Variable env : Env TD.
Variable f : nat.
Variable R : string * string -> Prop.
Variable Pl : loc -> Prop.
Notation J := (J env f R Pl).
Notation le := (le env f R).
Notation imp := (imp f).
Notation done := (done env f).
Notation good := (QualifyProofs.good env f R Pl).

(** ** Everything that belongs to the file is visited *)
Fixpoint fits (fuel i : nat) (sk : World) : Prop :=
  match fuel with
  | O => False
  | S fuel' =>
      match nth_error (types sk) i with
      | None => False
      | Some T =>
          forall fid, In fid (TSStruct T) ->
          match nth_error (fields sk) fid with
          | Some fs => match FSType fs with IsSpec ts => fits fuel' ts sk | _ => True end
          | None => False
          end
      end
  end.
Lemma for_each_each {A} (g : A -> WM unit) P (l : list A) : (forall a, good (g a) (P a)) ->
  forall (w w1 : World), J w -> (forall x, In x (flat_map (fun a => P a (skel w)) l) -> Pl x) ->
  for_each g l w = (Ok tt, w1) ->
  forall a, In a l -> exists w2 w3 : World, J w2 /\ skel w2 = skel w /\ g a w2 = (Ok tt, w3).
Proof.
  intros G. induction l as [|b l IH]; intros w w1 Jw PL E a IN; [destruct IN|].
  cbn [for_each] in E. rewrite bind_eq in E. destruct (g b w) as [[[]|e] w2] eqn:Eb; [|discriminate].
  cbn [flat_map] in PL.
  destruct (G b w w2 Jw) as (L & _); auto. { intros x IX. apply PL, in_or_app; auto. }
  destruct IN as [<-|IN]; [exists w, w2; auto|].
  assert (J2 : J w2) by (eapply J_le; eauto). pose proof (le_skel _ _ _ _ _ L) as S2.
  destruct (IH w2 w1 J2) with (a := a) as (w3 & w4 & J3 & S3 & E3); auto.
  { intros x IX. rewrite S2 in IX. apply PL, in_or_app; auto. }
  exists w3, w4. split; [auto|split; [congruence|auto]].
Qed.
Definition plan_field fuel fid (sk : World) : list loc :=
  match nth_error (fields sk) fid with
  | None => []
  | Some fs => match FSType fs with
               | NoType => []
               | IsName _ => [LField fid]
               | IsSpec ts => plan_type fuel ts sk
               end
  end.
Lemma type_fits fuel : forall i (w w1 : World), J w -> (forall x, In x (plan_type fuel i (skel w)) -> Pl x) ->
  TypeSpec_qualify fuel f i w = (Ok tt, w1) -> fits fuel i (skel w).
Proof.
  induction fuel as [|fuel IH]; intros i w w1 Jw PL E; [discriminate|].
  cbn [TypeSpec_qualify] in E. cbn [fits]. cbn [plan_type] in PL.
  rewrite bind_get in E. destruct (nth_error (types w) i) as [T|] eqn:ET; [|discriminate].
  assert (ETS : nth_error (types (skel w)) i = Some (er_type T)).
  { unfold skel. cbn [types]. rewrite nth_error_map, ET. auto. }
  rewrite ETS in *. cbn [er_type with_under TSStruct TSInterface] in *.
  rewrite bind_eq, onImports_imp with (env := env) (R := R) (Pl := Pl) in E by auto.
  destruct (EnsureTypeImported (TSUnderlying T) (imp w)) as [[[u b]|e] j] eqn:EU; [|discriminate].
  rewrite bind_eq in E. unfold put at 1 in E.
  set (w2 := set_types _ _) in E.
  assert (L2 : le w w2).
  { assert (V : visit env f (LType i) w = (Ok tt, w2)).
    { unfold visit. cbn [cont]. rewrite ET. cbn [option_map act]. rewrite bind_eq, EU. unfold sret.
      cbn [set_cont reimp set_files types]. unfold upd_with. rewrite ET. reflexivity. }
    apply (good_visit env f R Pl (LType i) w w2 Jw); auto. intros l [<-|[]]. apply PL. left; auto. }
  assert (J2 : J w2) by (eapply J_le; eauto).
  assert (S2 : skel w2 = skel w) by apply (le_skel _ _ _ _ _ L2).
  clearbody w2. rewrite bind_eq in E.
  set (fld := fun fid => _) in E.
  destruct (for_each fld (TSStruct T) w2) as [[[]|e] w3] eqn:EF; [|discriminate]. clear E.
  intros fid IN.
  assert (GF : forall k, good (fld k) (plan_field fuel k)).
  { intros k. unfold fld.
    apply good_ext with (m' := do fs <- getsk fields k ;;
       match FSType fs with NoType => sret tt | IsName _ => visit env f (LField k) | IsSpec ts => TypeSpec_qualify fuel f ts end).
    2:{ apply (good_get env f R Pl fields k (fun fs => match FSType fs with NoType => sret tt | IsName _ => visit env f (LField k) | IsSpec ts => TypeSpec_qualify fuel f ts end)
                (fun fs sk => match FSType fs with NoType => [] | IsName _ => [LField k] | IsSpec ts => plan_type fuel ts sk end)).
        intros fs. destruct (FSType fs); [apply good_ret|apply good_visit|apply good_type]. }
    clear -f env. intros w Jw. rewrite bind_get, bind_getsk. unfold skel; cbn [fields]. rewrite nth_error_map.
    destruct (nth_error (fields w) k) as [v|] eqn:E; cbn [option_map]; auto.
    cbn [er_field with_ftype FSType]. destruct (FSType v) eqn:T; cbn [er_tos]; auto.
    unfold visit. cbn [cont]. unfold obind. rewrite E. rewrite T. cbn [tos_content act]. unfold sbind, sret.
    rewrite onImports_imp with (env := env) (R := R) (Pl := Pl) by auto. destruct (EnsureTypeImported t (QualifyProofs.imp f w)) as [[[s' b]|m] j]; auto. unfold put. f_equal.
    cbn [set_cont]. unfold upd_with. cbn [reimp set_files fields]. rewrite E. auto. }
  assert (PF : forall x, In x (flat_map (fun k => plan_field fuel k (skel w)) (TSStruct T)) -> Pl x).
  { intros x IX. apply PL. apply in_or_app. right. apply in_or_app. auto. }
  destruct (for_each_each fld (plan_field fuel) (TSStruct T) GF w2 w3 J2) with (a := fid)
    as (w4 & w5 & J4 & S4 & E4); auto.
  { rewrite S2. auto. }
  unfold fld in E4. rewrite bind_get in E4.
  assert (SK : skel w4 = skel w) by congruence.
  assert (PK : forall x, In x (plan_field fuel fid (skel w4)) -> Pl x).
  { rewrite SK. intros x IX. apply PF, in_flat_map. exists fid; auto. }
  rewrite <- SK. unfold plan_field in PK.
  destruct (nth_error (fields w4) fid) as [fs|] eqn:E5; [|discriminate].
  assert (E5S : nth_error (fields (skel w4)) fid = Some (er_field fs)).
  { unfold skel. cbn [fields]. rewrite nth_error_map, E5. auto. }
  rewrite E5S in *. cbn [er_field with_ftype FSType] in *.
  destruct (FSType fs) as [|t|ts]; cbn [er_tos] in *; auto. eapply IH; eauto.
Qed.

Definition value_fits (tab : World -> list ValueSpec) fuel i (sk : World) : Prop :=
  match nth_error (tab sk) i with
  | None => False
  | Some v => match VSType v with IsSpec ts => fits fuel ts sk | _ => True end
  end.
Definition element_fits fuel e (sk : World) : Prop :=
  match e with
  | EConst d => match nth_error (constDecls sk) d with Some D => forall i, In i (VDSpecs D) -> value_fits consts fuel i sk | None => False end
  | EVar d => match nth_error (varDecls sk) d with Some D => forall i, In i (VDSpecs D) -> value_fits vars fuel i sk | None => False end
  | EType d => match nth_error (typeDecls sk) d with Some D => forall i, In i (TDTypes D) -> fits fuel i sk | None => False end
  | EFunc i => True
  end.
Lemma value_fits_ok tab L set fuel i (w w1 : World) : (forall w : World, tab (skel w) = map er_value (tab w)) -> J w ->
  (forall x, In x (plan_value tab L fuel i (skel w)) -> Pl x) ->
  qualify_value env tab set fuel f i w = (Ok tt, w1) -> value_fits tab fuel i (skel w).
Proof.
  intros TS Jw PL E. unfold qualify_value in E. rewrite bind_get in E. unfold value_fits. unfold plan_value in PL.
  rewrite TS, nth_error_map in *.
  destruct (nth_error (tab w) i) as [v|]; [|discriminate]. cbn [option_map er_value with_vtype VSType VInit] in *.
  destruct (VSType v) as [|t|ts]; cbn [er_tos] in *; auto. rewrite bind_eq in E.
  destruct (TypeSpec_qualify fuel f ts w) as [[[]|e] w2] eqn:E2; [|discriminate]. eapply type_fits; eauto.
  intros x IX. apply PL, in_or_app; auto.
Qed.
Lemma element_fits_ok fuel e (w w1 : World) : J w -> (forall x, In x (plan_element fuel e (skel w)) -> Pl x) ->
  FileElement_qualify env fuel f e w = (Ok tt, w1) -> element_fits fuel e (skel w).
Proof.
  intros Jw PL E. destruct e as [d|d|d|i]; cbn [element_fits plan_element] in *; auto; cbn [FileElement_qualify] in E; rewrite bind_get in E.
  - change (constDecls (skel w)) with (constDecls w) in *. destruct (nth_error (constDecls w) d) as [D|]; [|discriminate].
    intros i IN. destruct (for_each_each _ _ _ (fun i => good_value env f R Pl consts set_consts LConst
       (fun _ => eq_refl) (fun _ _ => eq_refl) (fun _ _ _ => eq_refl) (fun _ _ => eq_refl) fuel i) w w1 Jw PL E i IN) as (w2 & w3 & J2 & S2 & E2).
    rewrite <- S2. eapply (value_fits_ok consts LConst); eauto. rewrite S2. intros x IX. apply PL, in_flat_map. exists i; auto.
  - change (varDecls (skel w)) with (varDecls w) in *. destruct (nth_error (varDecls w) d) as [D|]; [|discriminate].
    intros i IN. destruct (for_each_each _ _ _ (fun i => good_value env f R Pl vars set_vars LVar
       (fun _ => eq_refl) (fun _ _ => eq_refl) (fun _ _ _ => eq_refl) (fun _ _ => eq_refl) fuel i) w w1 Jw PL E i IN) as (w2 & w3 & J2 & S2 & E2).
    rewrite <- S2. eapply (value_fits_ok vars LVar); eauto. rewrite S2. intros x IX. apply PL, in_flat_map. exists i; auto.
  - change (typeDecls (skel w)) with (typeDecls w) in *. destruct (nth_error (typeDecls w) d) as [D|]; [|discriminate].
    intros i IN. destruct (for_each_each _ _ _ (good_type env f R Pl fuel) w w1 Jw PL E i IN) as (w2 & w3 & J2 & S2 & E2).
    rewrite <- S2. eapply type_fits; eauto. rewrite S2. intros x IX. apply PL, in_flat_map. exists i; auto.
Qed.
Lemma file_fits fuel (w w1 : World) F : J w -> (forall x, In x (plan_file f fuel (skel w)) -> Pl x) ->
  qualify_file env fuel f w = (Ok tt, w1) -> nth_error (files w) f = Some F ->
  forall e, In e (FElements F) -> element_fits fuel e (skel w).
Proof.
  intros Jw PL E EF e IN. unfold qualify_file in E. rewrite bind_get, EF in E. unfold plan_file in PL.
  assert (EFS : nth_error (files (skel w)) f = Some (er_imports F)).
  { unfold skel. cbn [files]. rewrite nth_error_map, EF. auto. }
  rewrite EFS in PL. cbn [er_imports with_imports FElements] in PL.
  destruct (for_each_each _ _ _ (good_element env f R Pl fuel) w w1 Jw PL E e IN) as (w2 & w3 & J2 & S2 & E2).
  rewrite <- S2. eapply element_fits_ok; eauto. rewrite S2. intros x IX. apply PL, in_flat_map. exists e; auto.
Qed.

Section Planned.
Variable fuel : nat.
Variable sk : World.
Notation plan := (plan_file f fuel sk).
Definition type_planned (i : nat) : Prop := exists k, incl (plan_type k i sk) plan /\ fits k i sk.
Definition planned (x : item) : Prop :=
  match x with
  | IConst i => value_fits consts fuel i sk /\ incl (plan_value consts LConst fuel i sk) plan
  | IVar i => value_fits vars fuel i sk /\ incl (plan_value vars LVar fuel i sk) plan
  | IType i => type_planned i
  | IField i => match nth_error (fields sk) i with
                | Some fs => match FSType fs with
                             | NoType => True | IsName _ => In (LField i) plan | IsSpec ts => type_planned ts end
                | None => True
                end
  | IElem i => incl (plan_elem i sk) plan
  | IFunc i => incl (plan_element fuel (EFunc i) sk) plan
  | IBlock cb => incl (plan_block cb sk) plan
  end.
End Planned.
Lemma nth_skel {A} (tab : World -> list A) er (w : World) i a :
  tab (skel w) = map er (tab w) -> nth_error (tab w) i = Some a -> nth_error (tab (skel w)) i = Some (er a).
Proof. intros E H. rewrite E, nth_error_map, H. auto. Qed.
Lemma part_planned fuel (w w1 : World) : J w -> (forall l, In l (plan_file f fuel (skel w)) -> Pl l) ->
  qualify_file env fuel f w = (Ok tt, w1) ->
  forall x, part_of w f x -> planned fuel (skel w) x.
Proof.
  intros Jw PLA E x P. pose proof (file_fits fuel w w1) as FIT.
  assert (EL : forall F e, nth_error (files w) f = Some F -> In e (FElements F) ->
            incl (plan_element fuel e (skel w)) (plan_file f fuel (skel w)) /\ element_fits fuel e (skel w)).
  { intros F e EF IN. split; [|eapply FIT; eauto]. intros l IL. unfold plan_file.
    rewrite (nth_skel files er_imports w f F eq_refl EF). apply in_flat_map. exists e; auto. }
  assert (VT : forall tab L i v ts, value_fits tab fuel i (skel w) ->
            incl (plan_value tab L fuel i (skel w)) (plan_file f fuel (skel w)) ->
            nth_error (tab (skel w)) i = Some v -> VSType v = IsSpec ts -> type_planned fuel (skel w) ts).
  { intros tab L i v ts VF INC N T. unfold value_fits in VF. unfold plan_value in INC. rewrite N, T in *.
    exists fuel. split; auto. intros l IL. apply INC, in_or_app. auto. }
  assert (VI : forall tab L i v cb, incl (plan_value tab L fuel i (skel w)) (plan_file f fuel (skel w)) ->
            nth_error (tab (skel w)) i = Some v -> VInit v = Some cb -> incl (plan_block cb (skel w)) (plan_file f fuel (skel w))).
  { intros tab L i v cb INC N T. unfold plan_value in INC. rewrite N, T in *.
    intros l IL. apply INC, in_or_app. auto. }
  induction P as [F d D i EF IN ED ID|F d D i EF IN ED ID|F d D i EF IN ED ID|F i EF IN
    |i v ts P IH N T|i v ts P IH N T|i T fid P IH N IN|i F ts P IH N T|i T e P IH N IN
    |i v cb P IH N T|i v cb P IH N T|i F P IH N]; cbn [planned] in *.
  - destruct (EL _ _ EF IN) as [INC FI]. cbn [plan_element element_fits] in *. unfold skel at 1 in FI. unfold skel at 1 in INC. cbn [constDecls] in *. rewrite ED in *.
    split; auto. intros l IL. apply INC, in_flat_map. exists i; auto.
  - destruct (EL _ _ EF IN) as [INC FI]. cbn [plan_element element_fits] in *. unfold skel at 1 in FI. unfold skel at 1 in INC. cbn [varDecls] in *. rewrite ED in *.
    split; auto. intros l IL. apply INC, in_flat_map. exists i; auto.
  - destruct (EL _ _ EF IN) as [INC FI]. cbn [plan_element element_fits] in *. unfold skel at 1 in FI. unfold skel at 1 in INC. cbn [typeDecls] in *. rewrite ED in *.
    exists fuel. split; auto. intros l IL. apply INC, in_flat_map. exists i; auto.
  - apply (EL _ _ EF IN).
  - destruct IH as [VF INC]. apply (VT consts LConst i (er_value v) ts VF INC (nth_skel consts er_value w i v eq_refl N)). cbn. rewrite T. auto.
  - destruct IH as [VF INC]. apply (VT vars LVar i (er_value v) ts VF INC (nth_skel vars er_value w i v eq_refl N)). cbn. rewrite T. auto.
  - destruct IH as (k & INC & FI). destruct k as [|k]; [destruct FI|]. cbn [fits plan_type] in *.
    rewrite (nth_skel types er_type w i T eq_refl N) in *. cbn [er_type with_under TSStruct TSInterface] in *.
    specialize (FI fid IN). destruct (nth_error (fields (skel w)) fid) as [fs|] eqn:EF; auto.
    destruct (FSType fs) as [|t|ts] eqn:ET; auto.
    + apply INC. apply in_or_app. right. apply in_or_app. left. apply in_flat_map. exists fid. split; auto. rewrite EF, ET. left; auto.
    + exists k. split; auto. intros l IL. apply INC. apply in_or_app. right. apply in_or_app. left. apply in_flat_map. exists fid.
      split; auto. rewrite EF, ET. auto.
  - rewrite (nth_skel fields er_field w i F eq_refl N) in IH. cbn [er_field with_ftype FSType] in IH. rewrite T in IH. auto.
  - destruct IH as (k & INC & FI). destruct k as [|k]; [destruct FI|]. cbn [fits plan_type] in *.
    rewrite (nth_skel types er_type w i T eq_refl N) in *. cbn [er_type with_under TSStruct TSInterface] in *.
    intros l IL. apply INC. apply in_or_app. right. apply in_or_app. right. apply in_flat_map. exists e; auto.
  - destruct IH as [VF INC]. apply (VI consts LConst i (er_value v) cb INC (nth_skel consts er_value w i v eq_refl N)). auto.
  - destruct IH as [VF INC]. apply (VI vars LVar i (er_value v) cb INC (nth_skel vars er_value w i v eq_refl N)). auto.
  - cbn [plan_element] in IH. rewrite (nth_skel funcs er_func w i F eq_refl N) in IH. intros l IL. apply IH.
    right. auto.
Qed.
End Q.

(** ** What is visited belongs to the file *)
Section Scope.
Context {TD : Type}.
Variable w : World TD.
Variable f : nat.
Definition in_scope (l : loc) : Prop :=
  match l with
  | LConst i => part_of w f (IConst i)
  | LVar i => part_of w f (IVar i)
  | LType i => part_of w f (IType i)
  | LField i => part_of w f (IField i)
  | LElem i => part_of w f (IElem i)
  | LFunc i => part_of w f (IFunc i)
  | LArg a _ => exists cb b fm, part_of w f (IBlock cb) /\ nth_error (blocks w) cb = Some b /\ In (Line fm a) b
  | LTempl t => template_of w f t
  end.
Lemma scope_block cb l : part_of w f (IBlock cb) -> In l (plan_block cb (skel w)) -> in_scope l.
Proof.
  intros P IN. unfold plan_block in IN. change (blocks (skel w)) with (blocks w) in IN.
  destruct (nth_error (blocks w) cb) as [b|] eqn:E; [|destruct IN].
  apply in_flat_map in IN as (e & IE & IN). destruct e as [fm args|t]; cbn [plan_code] in IN.
  - unfold plan_line in IN. destruct (nth_error (argss (skel w)) args); [|destruct IN].
    apply in_map_iff in IN as (k & <- & _). cbn. exists cb, b, fm. auto.
  - destruct IN as [<-|[]]. cbn. exists cb, b. auto.
Qed.
Lemma scope_type fuel : forall i l, part_of w f (IType i) -> In l (plan_type fuel i (skel w)) -> in_scope l.
Proof.
  induction fuel as [|fuel IH]; intros i l P IN; [destruct IN|]. cbn [plan_type] in IN.
  unfold skel at 1 in IN. cbn [types] in IN. rewrite nth_error_map in IN.
  destruct (nth_error (types w) i) as [T|] eqn:ET; [|destruct IN]. cbn [option_map er_type with_under TSStruct TSInterface] in IN.
  apply in_app_or in IN as [[<-|[]]|IN]; [exact P|]. apply in_app_or in IN as [IN|IN].
  - apply in_flat_map in IN as (k & IK & IN). unfold skel at 1 in IN. cbn [fields] in IN. rewrite nth_error_map in IN.
    assert (PF : part_of w f (IField k)) by (eapply po_field; eauto).
    destruct (nth_error (fields w) k) as [F|] eqn:EF; [|destruct IN]. cbn [option_map er_field with_ftype FSType] in IN.
    destruct (FSType F) as [|t|ts] eqn:FT; cbn [er_tos] in IN; [destruct IN|destruct IN as [<-|[]]; exact PF|].
    eapply IH; [|exact IN]. eapply po_field_type; eauto.
  - apply in_flat_map in IN as (k & IK & IN). unfold plan_elem in IN.
    destruct (nth_error (ielems (skel w)) k); [|destruct IN]. destruct IN as [<-|[]]. eapply po_elem; eauto.
Qed.
Lemma scope_file fuel l : In l (plan_file f fuel (skel w)) -> in_scope l.
Proof.
  unfold plan_file. unfold skel at 1. cbn [files]. rewrite nth_error_map.
  destruct (nth_error (files w) f) as [F|] eqn:EF; [|intros []]. cbn [option_map er_imports with_imports FElements].
  intros IN. apply in_flat_map in IN as (e & IE & IN). destruct e as [d|d|d|i]; cbn [plan_element] in IN.
  - change (constDecls (skel w)) with (constDecls w) in IN. destruct (nth_error (constDecls w) d) as [D|] eqn:ED; [|destruct IN].
    apply in_flat_map in IN as (i & II & IN). assert (P : part_of w f (IConst i)) by (eapply po_const; eauto).
    unfold plan_value in IN. unfold skel at 1 in IN. cbn [consts] in IN. rewrite nth_error_map in IN.
    destruct (nth_error (consts w) i) as [v|] eqn:EV; [|destruct IN]. cbn [option_map er_value with_vtype VSType VInit] in IN.
    apply in_app_or in IN as [IN|IN].
    + destruct (VSType v) as [|t|ts] eqn:T; cbn [er_tos] in IN; [destruct IN|destruct IN as [<-|[]]; exact P|].
      eapply scope_type; [|exact IN]. eapply po_const_type; eauto.
    + destruct (VInit v) as [cb|] eqn:VI; [|destruct IN]. eapply scope_block; [|exact IN]. eapply po_const_init; eauto.
  - change (varDecls (skel w)) with (varDecls w) in IN. destruct (nth_error (varDecls w) d) as [D|] eqn:ED; [|destruct IN].
    apply in_flat_map in IN as (i & II & IN). assert (P : part_of w f (IVar i)) by (eapply po_var; eauto).
    unfold plan_value in IN. unfold skel at 1 in IN. cbn [vars] in IN. rewrite nth_error_map in IN.
    destruct (nth_error (vars w) i) as [v|] eqn:EV; [|destruct IN]. cbn [option_map er_value with_vtype VSType VInit] in IN.
    apply in_app_or in IN as [IN|IN].
    + destruct (VSType v) as [|t|ts] eqn:T; cbn [er_tos] in IN; [destruct IN|destruct IN as [<-|[]]; exact P|].
      eapply scope_type; [|exact IN]. eapply po_var_type; eauto.
    + destruct (VInit v) as [cb|] eqn:VI; [|destruct IN]. eapply scope_block; [|exact IN]. eapply po_var_init; eauto.
  - change (typeDecls (skel w)) with (typeDecls w) in IN. destruct (nth_error (typeDecls w) d) as [D|] eqn:ED; [|destruct IN].
    apply in_flat_map in IN as (i & II & IN). eapply scope_type; [|exact IN]. eapply po_type; eauto.
  - assert (P : part_of w f (IFunc i)) by (eapply po_func; eauto).
    unfold skel at 1 in IN. cbn [funcs] in IN. rewrite nth_error_map in IN.
    destruct (nth_error (funcs w) i) as [G|] eqn:EG; [|destruct IN]. cbn [option_map er_func with_sig FNBody] in IN.
    apply in_app_or in IN as [[<-|[]]|IN]; [exact P|]. eapply scope_block; [|exact IN]. eapply po_body; eauto.
Qed.
End Scope.

(** ** References *)
Definition target_reference (t : target) : option reference :=
  match t with
  | TgPkg p | TgGoPkg p => Some (RPackage p)
  | TgSym s => Some (RName s)
  | TgMeth m => Some (RMethod (MRType m) (MRMethod m))
  | TgSig s => Some (RSignature s)
  | TgType t => Some (RType t)
  | TgNone => None
  end.
Lemma refers_target {TD} (w : World TD) a :
  refers_to w a = match arg_target w a with Ok t => target_reference t | Panic _ => None end.
Proof.
  assert (D : forall p n, declared w (Some p) n =
    match file_package p w with Ok q => Some (mkSymbol q n) | Panic _ => None end).
  { intros p n. unfold declared, file_package, rd, obind, GoFile_Package. destruct (nth_error (files w) p); auto. }
  assert (V : forall v, option_map RName (single_name w v) =
    match rbind (ValueSpec_ToSymbol v w) (fun s => Ok (TgSym s)) with Ok t => target_reference t | Panic _ => None end).
  { intros v. unfold single_name, ValueSpec_ToSymbol, ValueSpec_SymbolAt. destruct (VNames v) as [|n [|n2 l]]; auto.
    cbn. destruct (VParent v) as [p|]; auto. rewrite D. destruct (file_package p w); auto. }
  assert (T : forall T, named_type w T = match TypeSpec_ToSymbol T w with Ok s => Some s | Panic _ => None end).
  { intros T. unfold named_type, TypeSpec_ToSymbol. destruct (String.eqb (TSName T) ""); auto.
    destruct (TSParent T) as [p|]; auto. rewrite D. destruct (file_package p w); auto. }
  destruct a; cbn [refers_to arg_target target_reference]; auto; unfold rd, obind.
  - destruct (nth_error (consts w) id) as [v|]; auto. cbn [rbind]. apply V.
  - destruct (nth_error (vars w) id) as [v|]; auto. cbn [rbind]. apply V.
  - destruct (nth_error (types w) id) as [v|]; auto. cbn [rbind]. rewrite T. destruct (TypeSpec_ToSymbol v w); auto.
  - destruct (nth_error (ielems w) id) as [[c s p|c n s p]|]; auto. cbn [rbind]. destruct p as [t|]; auto.
    unfold InterfaceMethod_ToMethodRef, rd. destruct (nth_error (types w) t) as [v|]; auto. cbn [rbind]. rewrite T.
    destruct (TypeSpec_ToSymbol v w); auto.
  - destruct (nth_error (funcs w) id) as [v|]; auto. cbn [rbind]. unfold FuncSpec_ToSymbol.
    destruct (FNParent v) as [p|]; [|destruct (FNReceiver v); auto]. destruct (FNReceiver v) as [r|]; rewrite D; destruct (file_package p w); auto.
  - destruct (TypeNameForReflectType t); auto.
  - destruct (TypeNameForGoType t); auto.
  - destruct (SymbolForGoObject o) as [[s|m]|]; auto.
  - destruct p as [q|]; auto. cbn. destruct q; auto.
Qed.
Lemma target_packages t r : target_reference t = Some r -> target_requests t = packages_of r.
Proof. destruct t; cbn; intros [= <-]; auto. Qed.

(** ** The state before and after *)
(** The data of the file's templates ask for registrations in [R] only, once. *)
Definition templates_ok {TD} (env : Env TD) (w : World TD) (f : nat) (R : string * string -> Prop) : Prop :=
  forall t tm d, template_of w f t -> nth_error (templs w) t = Some (tm, d) ->
  exists l, data_asks env w d l /\ forall r, In r l -> R r.
Lemma no_templates_ok {TD} (env : Env TD) (w : World TD) f R : no_templates w f -> templates_ok env w f R.
Proof. intros N t tm d (cb & b & P & B & IN). exfalso. eapply N; eauto. Qed.
Section State.
Context {TD : Type}.
Variable env : Env TD.
Variables (fuel f : nat) (w w1 : World TD) (F : GoFile) (R : string * string -> Prop).
Hypothesis EF : nth_error (files w) f = Some F.
Hypothesis IF : Inv (FImports F).
Hypothesis TO : templates_ok env w f R.
Hypothesis HR : forall r, file_mentions w f r -> R r.
Hypothesis Q : qualify_file env fuel f w = (Ok tt, w1).
Notation Pl := (in_scope w f).
Lemma imp_w : imp f w = FImports F.
Proof. unfold imp. rewrite EF. auto. Qed.
Lemma line_argument cb b n fm args k a : nth_error (blocks w) cb = Some b -> nth_error b n = Some (Line fm args) ->
  (argument w cb n k = Some a <-> cont w (LArg args k) = Some (CA a)).
Proof.
  intros B E. unfold argument, obind. rewrite B, E. cbn [cont]. unfold obind.
  destruct (nth_error (argss w) args) as [l|]; [|split; discriminate].
  destruct (nth_error l k); cbn [option_map]; split; congruence.
Qed.
Lemma cont_data l d : cont w l = Some (CD d) -> exists t tm, l = LTempl t /\ nth_error (templs w) t = Some (tm, d).
Proof.
  destruct l as [i|i|i|i|i|i|args k|t]; cbn [cont]; unfold obind, option_map.
  - destruct (nth_error (consts w) i) as [v|]; [|discriminate]. destruct (VSType v); discriminate.
  - destruct (nth_error (vars w) i) as [v|]; [|discriminate]. destruct (VSType v); discriminate.
  - destruct (nth_error (types w) i) as [v|]; discriminate.
  - destruct (nth_error (fields w) i) as [v|]; [|discriminate]. destruct (FSType v); discriminate.
  - destruct (nth_error (ielems w) i) as [[c s p|c n s p]|]; discriminate.
  - destruct (nth_error (funcs w) i) as [v|]; discriminate.
  - destruct (nth_error (argss w) args) as [v|]; [|discriminate]. destruct (nth_error v k); discriminate.
  - destruct (nth_error (templs w) t) as [[tm d0]|] eqn:E; [|discriminate]. cbn. intros [= <-]. eauto.
Qed.
Lemma J_w : J env f R Pl w.
Proof.
  split.
  - congruence.
  - rewrite imp_w. auto.
  - intros l x SC C. left.
    assert (X : (exists d, x = CD d) \/ asks env w x (creq w x)) by (destruct x; cbn [asks]; eauto).
    destruct X as [(d & ->)|X].
    { destruct (cont_data l d C) as (t & tm & -> & E). destruct (TO t tm d SC E) as (l & A & H). exists l. auto. }
    exists (creq w x). split; auto. clear X. intros r IN. apply HR.
    destruct l as [i|i|i|i|i|i|args k|t]; cbn [in_scope cont] in *.
    + unfold obind in C. destruct (nth_error (consts w) i) as [v|] eqn:E; [|discriminate].
      destruct (VSType v) as [|t|] eqn:T; try discriminate. injection C as <-. eapply fm_const; eauto. rewrite T. auto.
    + unfold obind in C. destruct (nth_error (vars w) i) as [v|] eqn:E; [|discriminate].
      destruct (VSType v) as [|t|] eqn:T; try discriminate. injection C as <-. eapply fm_var; eauto. rewrite T. auto.
    + destruct (nth_error (types w) i) as [v|] eqn:E; [|discriminate]. injection C as <-. eapply fm_type; eauto.
    + unfold obind in C. destruct (nth_error (fields w) i) as [v|] eqn:E; [|discriminate].
      destruct (FSType v) as [|t|] eqn:T; try discriminate. injection C as <-. eapply fm_field; eauto. rewrite T. auto.
    + destruct (nth_error (ielems w) i) as [[c s p|c n s p]|] eqn:E; [| |discriminate]; injection C as <-.
      * eapply fm_embed; eauto. * eapply fm_method; eauto.
    + destruct (nth_error (funcs w) i) as [v|] eqn:E; [|discriminate]. injection C as <-. eapply fm_func; eauto.
    + destruct SC as (cb & b & fm & P & B & IN2). apply In_nth_error in IN2 as (n & EN).
      unfold obind in C. destruct (nth_error (argss w) args) as [l|] eqn:EA; [|discriminate].
      destruct (nth_error l k) as [a|] eqn:EK; [|discriminate]. injection C as <-.
      assert (AR : argument w cb n k = Some a).
      { apply (line_argument cb b n fm args k a B EN). cbn [cont]. unfold obind. rewrite EA, EK. auto. }
      cbn [creq] in IN. destruct (arg_target w a) as [t|m] eqn:AT; [|destruct IN].
      destruct (target_reference t) as [x|] eqn:TR; [|destruct t; try discriminate; destruct IN].
      eapply (fm_arg w f r cb n k a x); eauto.
      * rewrite refers_target, AT. auto. * rewrite <- (target_packages t); auto.
    + destruct (nth_error (templs w) t); [|discriminate]. injection C as <-. destruct IN.
Qed.
Lemma plan_Pl l : In l (plan_file f fuel (skel w)) -> Pl l.
Proof. apply scope_file. Qed.
Lemma after :
  le env f R w w1 /\ (forall l, In l (plan_file f fuel (skel w)) -> done env f l w1) /\
  (forall l, ~ In l (plan_file f fuel (skel w)) -> cont w1 l = cont w l) /\
  qualify_file env fuel f w1 = (Ok tt, w1).
Proof.
  destruct (good_file env f R Pl fuel w w1 J_w plan_Pl Q) as (L & D & U & S).
  split; auto. split; auto. split; auto. apply S, le_refl.
Qed.
(** Where a visited content comes from. *)
Lemma final l x : In l (plan_file f fuel (skel w)) -> cont w l = Some x ->
  exists y j j', cont w1 l = Some y /\ Inv j /\ act env w x j = (Ok y, j') /\ Inv j' /\ ext j' (imp f w1) /\
                 (y = x \/ steps R (FImports F) j).
Proof.
  intros IN C. destruct after as (L & D & _). specialize (D l IN).
  pose proof (le_cont _ _ _ _ _ L l) as M. rewrite C in M. destruct (cont w1 l) as [y|] eqn:C1; [|contradiction].
  pose proof (J_le _ _ _ _ _ _ J_w L) as J1. pose proof (j_inv _ _ _ _ _ J1) as I1.
  destruct M as [->|(rs & j & j' & AK & A & B & G)].
  - exists x, (imp f w1), (imp f w1). split; auto. split; auto. split; [|split; [auto|split; [apply ext_refl|auto]]].
    rewrite <- (act_skel env w w1) by apply (le_skel _ _ _ _ _ L). apply (D x C1); auto. apply ext_refl.
  - assert (IJ : Inv j) by (eapply steps_Inv; [exact A|apply (j_inv _ _ _ _ _ J_w)]).
    destruct (act_settles env w x rs j y j' IJ AK B) as (FF & _ & _).
    assert (IJ' : Inv j') by (rewrite FF; apply fold_reg_keep; auto).
    exists y, j, j'. split; auto. split; auto. split; auto. split; auto. split; [eapply steps_ext; eauto|].
    right. rewrite <- imp_w. auto.
Qed.
Lemma file_after : exists F1, nth_error (files w1) f = Some F1 /\ FImports F1 = imp f w1 /\
  F1 = with_imports F (FImports F1) /\ steps R (FImports F) (FImports F1) /\ Inv (FImports F1).
Proof.
  destruct after as (L & _). pose proof (J_le _ _ _ _ _ _ J_w L) as J1.
  exists (with_imports F (imp f w1)). assert (E : nth_error (files w1) f = Some (with_imports F (imp f w1))).
  { rewrite (le_files _ _ _ _ _ L). unfold reimp. cbn [set_files files]. rewrite nth_upd_with, Nat.eqb_refl, EF. auto. }
  split; auto. split; auto. split; auto. cbn [with_imports FImports]. split; [|apply (j_inv _ _ _ _ _ J1)].
  rewrite <- imp_w. apply (le_imp _ _ _ _ _ L).
Qed.
Lemma part_visited x : part_of w f x -> planned f fuel (skel w) x.
Proof. apply (part_planned env f R Pl fuel w w1 J_w plan_Pl Q). Qed.
End State.

