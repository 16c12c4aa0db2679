(** The text of an element depends on the parts that are visited when it is qualified, and on
    what no qualification changes. *)
From Verif Require Import Base BaseFacts GoPath Utf8 Types SpecTypes Imports SpecImports ImportsProofs ImportsTheorems SpecLit Conv Fmt World WorldProofs
  SpecGo SpecRender SpecQualify QualifyProofs QualifyTheorems SourceProofs SourceTheorems SpecFormat FormatProofs SpecCode SpecAppend AppendProofs.

Section Text.
Context {TD : Type}.
Notation World := (World TD).
Variable env : Env TD.
Record near (w w' : World) : Prop := mkNear
  { n_cd : constDecls w' = constDecls w; n_vd : varDecls w' = varDecls w; n_td : typeDecls w' = typeDecls w;
    n_bl : blocks w' = blocks w;
    n_c : map er_value (consts w') = map er_value (consts w); n_v : map er_value (vars w') = map er_value (vars w);
    n_t : map er_type (types w') = map er_type (types w); n_f : map er_field (World.fields w') = map er_field (World.fields w);
    n_e : map er_elem (ielems w') = map er_elem (ielems w); n_fn : map er_func (funcs w') = map er_func (funcs w);
    n_a : map er_args (argss w') = map er_args (argss w);
    n_p : forall i, file_package i w' = file_package i w }.
Lemma near_refl w : near w w.
Proof. split; auto. Qed.
Lemma near_trans a b c : near a b -> near b c -> near a c.
Proof. intros [] []. split; congruence. Qed.
Lemma near_skel (w w' : World) : skel w' = skel w -> near w w'.
Proof.
  intros E. split.
  - exact (f_equal (@constDecls TD) E). - exact (f_equal (@varDecls TD) E). - exact (f_equal (@typeDecls TD) E).
  - exact (f_equal (@blocks TD) E). - exact (f_equal (@consts TD) E). - exact (f_equal (@vars TD) E).
  - exact (f_equal (@types TD) E). - exact (f_equal (@fields TD) E). - exact (f_equal (@ielems TD) E).
  - exact (f_equal (@funcs TD) E). - exact (f_equal (@argss TD) E).
  - intros i. rewrite <- (file_package_skel i w'), E, file_package_skel. auto.
Qed.
Lemma near_recut f k (w : World) : near w (recut f k w).
Proof. split; auto. intros i. apply recut_package. Qed.
Lemma near_cut f k (w : World) : near (recut f k w) w.
Proof. split; auto. intros i. symmetry. apply recut_package. Qed.

Section Near.
Variables w w' : World.
Hypothesis N : near w w'.
Lemma entry {A} (er : A -> A) (l l' : list A) i : map er l' = map er l ->
  match nth_error l i, nth_error l' i with
  | Some a, Some b => er b = er a
  | None, None => True
  | _, _ => False
  end.
Proof.
  intros E. assert (X : nth_error (map er l') i = nth_error (map er l) i) by (rewrite E; auto).
  rewrite !nth_error_map in X. destruct (nth_error l i), (nth_error l' i); cbn in X; congruence || auto.
Qed.
Lemma value_entry (tab : World -> list ValueSpec) i : map er_value (tab w') = map er_value (tab w) ->
  obind (nth_error (tab w') i) (fun v => @tos_content TD (VSType v)) = obind (nth_error (tab w) i) (fun v => tos_content (VSType v)) ->
  rd tab i w' = rd tab i w.
Proof.
  intros E C. unfold rd. pose proof (entry er_value _ _ i E) as X.
  destruct (nth_error (tab w) i) as [a|], (nth_error (tab w') i) as [b|]; try contradiction; auto.
  f_equal. cbn [obind] in C. destruct a as [c n t v p], b as [c' n' t' v' p']. unfold er_value, with_vtype in X.
  cbn [VComment VNames VSType VInit VParent] in *. injection X as -> -> T -> ->. f_equal.
  destruct t, t'; cbn in *; congruence.
Qed.
Lemma value_entry_other (tab : World -> list ValueSpec) i v : map er_value (tab w') = map er_value (tab w) ->
  nth_error (tab w) i = Some v -> (forall t, VSType v <> IsName t) -> nth_error (tab w') i = Some v.
Proof.
  intros E V T. pose proof (entry er_value _ _ i E) as X. rewrite V in X.
  destruct (nth_error (tab w') i) as [b|]; [|contradiction]. f_equal.
  destruct v as [c n t v p], b as [c' n' t' v' p']. unfold er_value, with_vtype in X.
  cbn [VComment VNames VSType VInit VParent] in *. injection X as -> -> X -> ->. f_equal.
  destruct t, t'; cbn in *; congruence.
Qed.
Lemma type_entry i : cont w' (LType i) = cont w (LType i) -> rd types i w' = rd types i w.
Proof.
  intros C. unfold rd. pose proof (entry er_type _ _ i (n_t _ _ N)) as X. cbn [cont] in C. unfold option_map in C.
  destruct (nth_error (types w) i) as [a|], (nth_error (types w') i) as [b|]; try contradiction; auto.
  f_equal. destruct a, b. unfold er_type, with_under in X. cbn in *. congruence.
Qed.
Lemma type_same i T : nth_error (types w) i = Some T ->
  exists T', nth_error (types w') i = Some T' /\ TSName T' = TSName T /\ TSParent T' = TSParent T.
Proof.
  intros E. pose proof (entry er_type _ _ i (n_t _ _ N)) as X. rewrite E in X.
  destruct (nth_error (types w') i) as [b|]; [|contradiction]. exists b. split; auto.
  destruct T, b. unfold er_type, with_under in X. cbn in *. split; congruence.
Qed.
Lemma field_entry i : cont w' (LField i) = cont w (LField i) -> rd World.fields i w' = rd World.fields i w.
Proof.
  intros C. unfold rd. pose proof (entry er_field _ _ i (n_f _ _ N)) as X. cbn [cont] in C. unfold obind in C.
  destruct (nth_error (World.fields w) i) as [a|], (nth_error (World.fields w') i) as [b|]; try contradiction; auto.
  f_equal. destruct a as [c n t v p], b as [c' n' t' v' p']. unfold er_field, with_ftype in X.
  cbn [FSComment FSName FSTag FSType FSParent] in *. injection X as -> -> -> X ->. f_equal.
  destruct v, v'; cbn in *; congruence.
Qed.
Lemma field_entry_other i v : nth_error (World.fields w) i = Some v -> (forall t, FSType v <> IsName t) -> rd World.fields i w' = rd World.fields i w.
Proof.
  intros E T. unfold rd. rewrite E. pose proof (entry er_field _ _ i (n_f _ _ N)) as X. rewrite E in X.
  destruct (nth_error (World.fields w') i) as [b|]; [|contradiction].
  f_equal. destruct v as [c n t v p], b as [c' n' t' v' p']. unfold er_field, with_ftype in X.
  cbn [FSComment FSName FSTag FSType FSParent] in *. injection X as -> -> -> X ->. f_equal.
  destruct v, v'; cbn in *; congruence.
Qed.
Lemma elem_entry i : cont w' (LElem i) = cont w (LElem i) -> rd ielems i w' = rd ielems i w.
Proof.
  intros C. unfold rd. pose proof (entry er_elem _ _ i (n_e _ _ N)) as X. cbn [cont] in C. unfold option_map in C.
  destruct (nth_error (ielems w) i) as [a|], (nth_error (ielems w') i) as [b|]; try contradiction; auto.
  f_equal. destruct a, b; cbn in *; congruence.
Qed.
Lemma func_entry i : cont w' (LFunc i) = cont w (LFunc i) -> rd funcs i w' = rd funcs i w.
Proof.
  intros C. unfold rd. pose proof (entry er_func _ _ i (n_fn _ _ N)) as X. cbn [cont] in C. unfold option_map in C.
  destruct (nth_error (funcs w) i) as [a|], (nth_error (funcs w') i) as [b|]; try contradiction; auto.
  f_equal. destruct a, b. unfold er_func, with_sig in X. cbn in *. congruence.
Qed.
Lemma args_entry i : (forall k l, nth_error (argss w) i = Some l -> k < List.length l -> cont w' (LArg i k) = cont w (LArg i k)) ->
  rd argss i w' = rd argss i w.
Proof.
  intros C. unfold rd. pose proof (entry er_args _ _ i (n_a _ _ N)) as X. cbn [cont] in C.
  destruct (nth_error (argss w) i) as [a|], (nth_error (argss w') i) as [b|]; try contradiction; auto.
  f_equal. unfold er_args in X. apply (f_equal (@List.length _)) in X. rewrite !map_length in X.
  specialize (fun k => C k a eq_refl). cbn [obind] in C.
  apply (nth_ext b a (AInt 0) (AInt 0) X). intros k L. rewrite X in L. specialize (C k L). unfold option_map in C.
  destruct (nth_error a k) eqn:A, (nth_error b k) eqn:B; try discriminate.
  - injection C as C. rewrite (nth_error_nth _ _ _ A), (nth_error_nth _ _ _ B). auto.
  - apply nth_error_None in A. lia.
Qed.
Lemma same_TypeSymbol T T' : TSName T' = TSName T -> TSParent T' = TSParent T -> TypeSpec_ToSymbol T' w' = TypeSpec_ToSymbol T w.
Proof.
  intros A B. unfold TypeSpec_ToSymbol. rewrite A, B. destruct (String.eqb (TSName T) ""); auto.
  destruct (TSParent T); auto. rewrite (n_p _ _ N). auto.
Qed.

(** ** Types *)
Lemma type_text fuel : forall i T, nth_error (types w) i = Some T ->
  (forall l, In l (plan_type fuel i (skel w)) -> cont w' l = cont w l) ->
  TypeSpec_writeUnderlying env fuel w' T = TypeSpec_writeUnderlying env fuel w T.
Proof.
  induction fuel as [|fuel IH]; intros i T E H; auto. cbn [plan_type] in H.
  rewrite (nth_skel types er_type w i T eq_refl E) in H. cbn [er_type with_under TSStruct TSInterface] in H.
  cbn [TypeSpec_writeUnderlying]. destruct (TSUnderlying T) eqn:U; auto.
  - f_equal. f_equal. f_equal. apply map_ext_in. intros fid IN.
    assert (HF : forall l, In l (match nth_error (World.fields (skel w)) fid with
            | None => []
            | Some fs => match FSType fs with
                         | NoType => []
                         | IsName _ => [LField fid]
                         | IsSpec ts => plan_type fuel ts (skel w)
                         end end) -> cont w' l = cont w l).
    { intros l IL. apply H. apply in_or_app. right. apply in_or_app. left. apply in_flat_map. exists fid. auto. }
    destruct (nth_error (World.fields w) fid) as [v|] eqn:EV.
    2:{ unfold rd. pose proof (entry er_field _ _ fid (n_f _ _ N)) as X. rewrite EV in *.
        destruct (nth_error (World.fields w') fid); auto. contradiction. }
    rewrite (nth_skel World.fields er_field w fid v eq_refl EV) in HF. cbn [er_field with_ftype FSType] in HF.
    assert (RF : rd World.fields fid w' = rd World.fields fid w).
    { destruct (FSType v) as [|t|ts] eqn:T0; [apply (field_entry_other fid v EV); intros; congruence
        |apply field_entry, HF; left; auto|apply (field_entry_other fid v EV); intros; congruence]. }
    rewrite RF. unfold rd at 1 3. rewrite EV. cbn [rbind]. f_equal.
    destruct (FSType v) as [|t|ts] eqn:T0; auto. cbn [er_tos] in HF.
    destruct (nth_error (types w) ts) as [T'|] eqn:ET.
    2:{ unfold rd. pose proof (entry er_type _ _ ts (n_t _ _ N)) as X. rewrite ET in *.
        destruct (nth_error (types w') ts); auto. contradiction. }
    destruct (type_same ts T' ET) as (T2 & E2 & A & B).
    unfold rd. rewrite ET, E2. cbn [rbind]. rewrite A. destruct (String.eqb (TSName T') "") eqn:EN.
    + destruct fuel as [|fuel]; [reflexivity|].
      assert (T2 = T').
      { assert (X : rd types ts w' = rd types ts w).
        { apply type_entry, HF. cbn [plan_type]. rewrite (nth_skel types er_type w ts T' eq_refl ET). left. auto. }
        unfold rd in X. rewrite ET, E2 in X. congruence. }
      subst T2. apply (IH ts T' ET HF).
    + rewrite (same_TypeSymbol T' T2 A B). auto.
  - f_equal. f_equal. f_equal. apply map_ext_in. intros e IN. rewrite elem_entry; auto.
    destruct (nth_error (ielems w) e) as [x|] eqn:EX.
    + apply H. apply in_or_app. right. apply in_or_app. right. apply in_flat_map. exists e. split; auto.
      unfold plan_elem. rewrite (nth_skel ielems er_elem w e x eq_refl EX). left. auto.
    + cbn [cont]. pose proof (entry er_elem _ _ e (n_e _ _ N)) as X. rewrite EX in *. destruct (nth_error (ielems w') e); [contradiction|auto].
Qed.
Lemma tos_text fuel ts : (forall l, In l (plan_type (S fuel) ts (skel w)) -> cont w' l = cont w l) ->
  rbind (rd types ts w') (fun T => TypeSpec_String env T w') = rbind (rd types ts w) (fun T => TypeSpec_String env T w).
Proof.
  intros H. destruct (nth_error (types w) ts) as [T|] eqn:E.
  2:{ unfold rd. pose proof (entry er_type _ _ ts (n_t _ _ N)) as X. rewrite E in *. destruct (nth_error (types w') ts); auto. contradiction. }
  cbn [plan_type] in H. rewrite (nth_skel types er_type w ts T eq_refl E) in H.
  rewrite (type_entry ts) by (apply H; left; auto). unfold rd. rewrite E. cbn [rbind]. unfold TypeSpec_String.
  rewrite (same_TypeSymbol T T eq_refl eq_refl). auto.
Qed.

(** ** Elements *)
Definition blocks_of (e : FileElement) : list nat :=
  let inits tab D := flat_map (fun i => match nth_error (tab w) i with
                       | Some v => match VInit v with Some cb => [cb] | None => [] end | None => [] end) (VDSpecs D) in
  match e with
  | EConst d => match nth_error (constDecls w) d with Some D => inits consts D | None => [] end
  | EVar d => match nth_error (varDecls w) d with Some D => inits vars D | None => [] end
  | EType _ => []
  | EFunc i => match nth_error (funcs w) i with Some G => [FNBody G] | None => [] end
  end.
Lemma values_text (tab : World -> list ValueSpec) (L : nat -> loc) kw c fuel ids :
  map er_value (tab w') = map er_value (tab w) -> tab (skel w) = map er_value (tab w) ->
  (forall w0 i, cont (TD := TD) w0 (L i) = obind (nth_error (tab w0) i) (fun v => tos_content (VSType v))) ->
  (forall l, In l (flat_map (fun i => plan_value tab L (S fuel) i (skel w)) ids) -> cont w' l = cont w l) ->
  (forall i v cb, In i ids -> nth_error (tab w) i = Some v -> VInit v = Some cb -> CodeBlock_writeTo env w' cb = CodeBlock_writeTo env w cb) ->
  rbind (rd_all tab ids w') (fun l => decl_writeTo kw c VComment (ValueSpec_writeTo env w') l) =
  rbind (rd_all tab ids w) (fun l => decl_writeTo kw c VComment (ValueSpec_writeTo env w) l).
Proof.
  intros E TS CO H HB.
  assert (HP : forall i, In i ids -> forall l, In l (plan_value tab L (S fuel) i (skel w)) -> cont w' l = cont w l).
  { intros i IN l IL. apply H, in_flat_map. exists i. auto. }
  assert (RD : forall i, In i ids -> rd tab i w' = rd tab i w).
  { intros i IN. specialize (HP i IN). destruct (nth_error (tab w) i) as [v|] eqn:EV.
    2:{ unfold rd. pose proof (entry er_value _ _ i E) as X. rewrite EV in *. destruct (nth_error (tab w') i); auto. contradiction. }
    unfold plan_value in HP. rewrite TS, nth_error_map, EV in HP. cbn [option_map er_value with_vtype VSType VInit] in HP.
    destruct (VSType v) as [|t|ts] eqn:T.
    - unfold rd. rewrite EV. rewrite (value_entry_other tab i v E EV); auto. intros; congruence.
    - apply value_entry; auto. rewrite <- !CO. apply HP. left. auto.
    - unfold rd. rewrite EV. rewrite (value_entry_other tab i v E EV); auto. intros; congruence. }
  assert (RA : rd_all tab ids w' = rd_all tab ids w).
  { unfold rd_all. f_equal. apply map_ext_in. auto. }
  rewrite RA. destruct (rd_all tab ids w) as [l|m] eqn:RL; auto. cbn [rbind].
  assert (HV : forall v b, In v l -> ValueSpec_writeTo env w' v b = ValueSpec_writeTo env w v b).
  { intros v b IN.
    assert (X : exists i, In i ids /\ nth_error (tab w) i = Some v).
    { clear - RL IN. unfold rd_all in RL. revert l RL v IN. induction ids as [|i ids IH]; intros l RL v IN; cbn in RL.
      - injection RL as <-. destruct IN.
      - unfold rd at 1 in RL. destruct (nth_error (tab w) i) as [a|] eqn:EA; [|discriminate]. cbn [rbind] in RL.
        destruct (all_ok _) as [r|] eqn:ER; [|discriminate]. cbn in RL. injection RL as <-. destruct IN as [<-|IN].
        + exists i. split; [left|]; auto.
        + destruct (IH r eq_refl v IN) as (j & A & B). exists j. split; [right|]; auto. }
    destruct X as (i & II & EV). specialize (HP i II).
    unfold plan_value in HP. rewrite TS, nth_error_map, EV in HP. cbn [option_map er_value with_vtype VSType VInit] in HP.
    unfold ValueSpec_writeTo. f_equal. f_equal. f_equal.
    - unfold TypeNameOrSpec_text. destruct (VSType v) as [|t|ts]; auto. cbn [er_tos] in HP. f_equal. f_equal. f_equal.
      apply (tos_text fuel). intros l0 IL. apply HP, in_or_app. auto.
    - f_equal. destruct (VInit v) as [cb|] eqn:VI; auto. f_equal. eapply HB; eauto. }
  unfold decl_writeTo. destruct (Nat.ltb 1 (List.length l) || negb (String.eqb c "")).
  - f_equal. f_equal. f_equal. f_equal. apply map_ext_in. intros v IN. apply HV; auto.
  - destruct l as [|v r]; auto. f_equal. f_equal. apply HV. left; auto.
Qed.
Lemma element_text fuel e :
  (forall l, In l (plan_element (S fuel) e (skel w)) -> cont w' l = cont w l) ->
  (forall cb, In cb (blocks_of e) -> CodeBlock_writeTo env w' cb = CodeBlock_writeTo env w cb) ->
  FileElement_writeTo env (S fuel) w' e = FileElement_writeTo env (S fuel) w e.
Proof.
  intros H HB. destruct e as [d|d|d|i]; cbn [FileElement_writeTo plan_element blocks_of] in *.
  - unfold rd. rewrite (n_cd _ _ N). change (constDecls (skel w)) with (constDecls w) in H.
    destruct (nth_error (constDecls w) d) as [D|] eqn:ED; auto. cbn [rbind].
    apply (values_text consts LConst _ _ fuel); auto using n_c.
    intros j v cb IN EV EI. apply HB. apply in_flat_map. exists j. split; auto. rewrite EV, EI. left. auto.
  - unfold rd. rewrite (n_vd _ _ N). change (varDecls (skel w)) with (varDecls w) in H.
    destruct (nth_error (varDecls w) d) as [D|] eqn:ED; auto. cbn [rbind].
    apply (values_text vars LVar _ _ fuel); auto using n_v.
    intros j v cb IN EV EI. apply HB. apply in_flat_map. exists j. split; auto. rewrite EV, EI. left. auto.
  - unfold rd at 1 2. rewrite (n_td _ _ N). change (typeDecls (skel w)) with (typeDecls w) in H.
    destruct (nth_error (typeDecls w) d) as [D|] eqn:ED; auto. cbn [rbind].
    assert (HP : forall j, In j (TDTypes D) -> forall l, In l (plan_type (S fuel) j (skel w)) -> cont w' l = cont w l).
    { intros j IN l IL. apply H, in_flat_map. exists j. auto. }
    assert (RA : rd_all types (TDTypes D) w' = rd_all types (TDTypes D) w).
    { unfold rd_all. f_equal. apply map_ext_in. intros j IN. specialize (HP j IN).
      destruct (nth_error (types w) j) as [T|] eqn:ET.
      - apply type_entry, HP. cbn [plan_type]. rewrite (nth_skel types er_type w j T eq_refl ET). left. auto.
      - unfold rd. pose proof (entry er_type _ _ j (n_t _ _ N)) as X. rewrite ET in *. destruct (nth_error (types w') j); auto. contradiction. }
    rewrite RA. destruct (rd_all types (TDTypes D) w) as [l|m] eqn:RL; auto. cbn [rbind].
    assert (HV : forall T b, In T l -> TypeSpec_writeTo env (S fuel) w' T b = TypeSpec_writeTo env (S fuel) w T b).
    { intros T b IN.
      assert (X : exists j, In j (TDTypes D) /\ nth_error (types w) j = Some T).
      { clear - RL IN. unfold rd_all in RL. revert l RL T IN. induction (TDTypes D) as [|i ids IH]; intros l RL T IN; cbn in RL.
        - injection RL as <-. destruct IN.
        - unfold rd at 1 in RL. destruct (nth_error (types w) i) as [a|] eqn:EA; [|discriminate]. cbn [rbind] in RL.
          destruct (all_ok _) as [r|] eqn:ER; [|discriminate]. cbn in RL. injection RL as <-. destruct IN as [<-|IN].
          + exists i. split; [left|]; auto.
          + destruct (IH r eq_refl T IN) as (j & A & B). exists j. split; [right|]; auto. }
      destruct X as (j & IJ & ET). unfold TypeSpec_writeTo. f_equal. f_equal. f_equal. f_equal.
      apply (type_text (S fuel) j T ET (HP j IJ)). }
    unfold decl_writeTo. destruct (Nat.ltb 1 (List.length l) || negb (String.eqb (TDComment D) "")).
    + f_equal. f_equal. f_equal. f_equal. apply map_ext_in. intros v IN. apply HV; auto.
    + destruct l as [|v r]; auto. f_equal. f_equal. apply HV. left; auto.
  - destruct (nth_error (funcs w) i) as [G|] eqn:EG.
    2:{ unfold rd. pose proof (entry er_func _ _ i (n_fn _ _ N)) as X. rewrite EG in *. destruct (nth_error (funcs w') i); auto. contradiction. }
    rewrite (nth_skel funcs er_func w i G eq_refl EG) in H. rewrite (func_entry i) by (apply H; left; auto).
    unfold rd. rewrite EG. cbn [rbind]. unfold FuncSpec_writeTo. rewrite HB; auto. left. auto.
Qed.

(** ** Code *)
(** An argument that qualifying leaves as it is. *)
Lemma arg_text v a i i' : steady v a -> act env w (CA a) i = (Ok (CA a), i') -> fmt_arg env w' v a = fmt_arg env w v a.
Proof.
  intros ST A. cbn [act] in A. unfold sbind, slift, sret in A.
  assert (K : forall (r r' : res string), arg_string env w a = Some r -> arg_string env w' a = Some r' -> r' = r ->
     (v = "s"%char \/ v = "v"%char) \/ v = "q"%char -> fmt_arg env w' v a = fmt_arg env w v a).
  { intros r r' E1 E2 <- V. unfold fmt_arg. rewrite E1, E2. destruct V as [[-> | ->]| ->]; reflexivity. }
  destruct a; cbn [steady] in ST; cbn [arg_target] in A.
  all: try (eapply K; [reflexivity|reflexivity|reflexivity|exact ST]).
  - destruct ST as [-> | ->]; reflexivity.
  - exfalso. cbn [target_act] in A. unfold sbind, sret in A. destruct (EnsureAllTypesImported s i) as [[[x y]|m] j]; discriminate.
  - destruct ST as [-> | ->]; reflexivity.
  - exfalso. destruct (rbind (rd consts id w) _) as [t|m] eqn:E; [|discriminate].
    unfold rbind in E. destruct (rd consts id w) as [x0|]; [|discriminate]. destruct (ValueSpec_ToSymbol x0 w) as [x1|]; [|discriminate]. injection E as <-.
    cbn [target_act] in A. unfold sbind, sret in A. destruct (EnsureImported x1 i) as [[x|m] j]; discriminate.
  - exfalso. destruct (rbind (rd vars id w) _) as [t|m] eqn:E; [|discriminate].
    unfold rbind in E. destruct (rd vars id w) as [x0|]; [|discriminate]. destruct (ValueSpec_ToSymbol x0 w) as [x1|]; [|discriminate]. injection E as <-.
    cbn [target_act] in A. unfold sbind, sret in A. destruct (EnsureImported x1 i) as [[x|m] j]; discriminate.
  - exfalso. destruct (rbind (rd types id w) _) as [t|m] eqn:E; [|discriminate].
    unfold rbind in E. destruct (rd types id w) as [x0|]; [|discriminate]. destruct (TypeSpec_ToSymbol x0 w) as [x1|]; [|discriminate]. injection E as <-.
    cbn [target_act] in A. unfold sbind, sret in A. destruct (EnsureImported x1 i) as [[x|m] j]; discriminate.
  - destruct (nth_error (ielems w) id) as [e|] eqn:E.
    2:{ unfold rd in A. rewrite E in A. discriminate. }
    pose proof (entry er_elem _ _ id (n_e _ _ N)) as X. rewrite E in X. destruct (nth_error (ielems w') id) as [e'|] eqn:E'; [|contradiction].
    unfold rd in A. rewrite E in A. destruct e as [c s p|c n s p]; [discriminate|]. destruct e' as [c' s' p'|c' n' s' p']; [discriminate|].
    eapply K; [reflexivity|reflexivity| |exact ST]. cbn [arg_string]. unfold rd. rewrite E, E'. cbn in *. congruence.
  - destruct (nth_error (funcs w) id) as [e|] eqn:E.
    2:{ unfold rd in A. rewrite E in A. discriminate. }
    pose proof (entry er_func _ _ id (n_fn _ _ N)) as X. rewrite E in X. destruct (nth_error (funcs w') id) as [e'|] eqn:E'; [|contradiction].
    eapply K; [reflexivity|reflexivity| |exact ST]. cbn [arg_string]. unfold rd. rewrite E, E'. cbn [rbind].
    pose proof (f_equal FNName X : FNName e' = FNName e) as XN. pose proof (f_equal FNReceiver X : FNReceiver e' = FNReceiver e) as XR.
    pose proof (f_equal FNParent X : FNParent e' = FNParent e) as XP.
    unfold FuncSpec_String, FuncSpec_ToSymbol. rewrite XN, XR, XP.
    repeat match goal with |- context [match ?x with Some _ => _ | None => _ end] => destruct x end; rewrite ?(n_p _ _ N); auto.
  - pose proof (entry er_field _ _ id (n_f _ _ N)) as X.
    eapply K; [reflexivity|reflexivity| |exact ST]. cbn [arg_string]. unfold rd.
    destruct (nth_error (World.fields w) id) as [e|], (nth_error (World.fields w') id) as [e'|]; try contradiction; auto.
    destruct e, e'. unfold er_field, with_ftype in X. cbn in *. congruence.
  - destruct ST.
  - exfalso. destruct (rbind (TypeNameForReflectType t) _) as [g|m] eqn:E; [|discriminate].
    unfold rbind in E. destruct (TypeNameForReflectType t) as [x0|]; [|discriminate]. injection E as <-.
    cbn [target_act] in A. unfold sbind, sret in A. destruct (EnsureTypeImported x0 i) as [[[x y]|m] j]; discriminate.
  - exfalso. destruct (rbind (TypeNameForGoType t) _) as [g|m] eqn:E; [|discriminate].
    unfold rbind in E. destruct (TypeNameForGoType t) as [x0|]; [|discriminate]. injection E as <-.
    cbn [target_act] in A. unfold sbind, sret in A. destruct (EnsureTypeImported x0 i) as [[[x y]|m] j]; discriminate.
  - exfalso. destruct ST as [ST _]. destruct (SymbolForGoObject o) as [[s|m]|m] eqn:E; [|eapply ST; eauto|discriminate].
    cbn [rbind] in A. cbn [target_act] in A. unfold sbind, sret in A. destruct (EnsureImported s i) as [[x|m] j]; discriminate.
  - exfalso. destruct (rbind (PackageForGoType p) _) as [g|m] eqn:E; [|discriminate].
    unfold rbind in E. destruct (PackageForGoType p) as [x0|]; [|discriminate]. injection E as <-.
    cbn [target_act] in A. unfold sbind, sret in A. destruct (registerPackage x0 i) as [[x|m] j]; discriminate.
  - destruct ST.
Qed.
End Near.
(** and qualifying leaves an argument steady *)
Lemma steady_act v a w i y i' : steady v a -> act env w (CA a) i = (Ok y, i') -> exists a', y = CA a' /\ steady v a'.
Proof.
  intros ST A. cbn [act] in A. unfold sbind, slift, sret in A.
  destruct (arg_target w a) as [t|m] eqn:AT; [|discriminate].
  destruct (target_act a t i) as [[a'|m] j] eqn:TA; [|discriminate]. injection A as <- _. exists a'. split; auto.
  assert (G : forall x, a' = x -> steady v x -> steady v a') by (intros x ->; auto).
  unfold target_act, sbind, sret in TA.
  assert (V : (match t with TgSig _ | TgNone => True | _ => (v = "s"%char \/ v = "v"%char) \/ v = "q"%char end)).
  { unfold arg_target, rbind in AT.
    destruct a; cbn [steady] in ST; auto; repeat match type of AT with
      | match ?x with _ => _ end = _ => destruct x; try discriminate end; try (injection AT as <-); auto; tauto. }
  destruct t; cbn beta iota in *.
  - destruct (registerPackage p i) as [[n|m] j']; [|discriminate]. destruct (negb _); injection TA as <- _; auto.
  - destruct (EnsureImported s i) as [[n|m] j']; [|discriminate]. injection TA as <- _. exact V.
  - destruct (EnsureImported (MRType m) i) as [[n|m'] j']; [|discriminate]. destruct (negb _); injection TA as <- _; auto.
  - destruct (EnsureAllTypesImported s i) as [[[n b]|m] j']; [|discriminate]. injection TA as <- _. cbn.
    unfold arg_target, rbind in AT. destruct a; cbn [steady] in ST; auto; repeat match type of AT with
      | match ?x with _ => _ end = _ => destruct x; try discriminate end; try discriminate.
  - destruct (EnsureTypeImported t i) as [[[n b]|m] j']; [|discriminate]. injection TA as <- _. exact V.
  - destruct (registerPackage p i) as [[n|m] j']; [|discriminate]. injection TA as <- _. exact V.
  - injection TA as <- _. auto.
Qed.
End Text.
