(** Template data: runs without panics, second runs, headers. *)
From Verif Require Import Base BaseFacts GoPath Types SpecTypes TypesFacts Imports SpecImports ImportsProofs ImportsTheorems Conv World
  SettleProofs QualifyProofs HeaderProofs Template SpecTemplate TemplateProofs.

Section Runs.
Variable implements : gty -> string -> bool.
Variable unsafe : bool.
Variable parent_of : spec -> res (option Package).
Notation typed := (typed implements).
Notation reqs := (data_requests unsafe parent_of).
Notation does := (does implements unsafe parent_of).
Notation did := (did implements unsafe parent_of).
Notation readable := (readable unsafe parent_of).
Notation storable := (storable unsafe parent_of).
Notation simple := (simple unsafe parent_of).
Notation walk := (qualifyTemplateData implements unsafe parent_of).
Notation fits := (assignable implements).

(** ** No panics *)
Definition runs (rec : val -> IM (val * bool)) (x : val) : Prop := forall i, Inv i -> exists x' c i',
  rec x i = (Ok (x', c), i') /\ Inv i' /\ fits (typeof x') (typeof x) = true.
Lemma fits_refl t : fits t t = true.
Proof. unfold assignable. now rewrite gty_eqb_refl. Qed.
Lemma fits_other t x : is_iface x = false -> fits t (typeof x) = true -> t = typeof x.
Proof.
  unfold assignable. intros N F. apply orb_true_iff in F as [F|F]; [now apply gty_eqb_eq|].
  destruct (typeof x) eqn:T; try discriminate. apply typeof_iface in T. congruence.
Qed.
Lemma store_fits x x' : fits (typeof x') (typeof x) = true -> exists y, store implements x x' = Ok y.
Proof. unfold store. intros ->. eauto. Qed.

Lemma runs_elems rec l : Forall (runs rec) l -> forall b i, Inv i -> exists l' s i',
  elems_loop implements rec (Ok tt) l b i = (Ok (l', s), i') /\ Inv i'.
Proof.
  induction 1 as [|x l R _ IH]; intros b i Hi; cbn [elems_loop]; [unfold sret; eauto|].
  destruct (R i Hi) as (x' & c & i1 & E & I1 & F). unfold sbind, slift. rewrite E. destruct (b || c).
  - destruct (store_fits _ _ F) as (y & ->). destruct (IH true i1 I1) as (l' & s & i2 & E2 & I2).
    destruct b; rewrite E2; unfold sret; eauto.
  - destruct (IH false i1 I1) as (l' & s & i2 & E2 & I2). rewrite E2. unfold sret; eauto.
Qed.
Lemma runs_fields rec addr l : Forall (fun f => fst f = true /\ runs rec (snd f)) l -> forall b i, Inv i -> exists l' s i',
  fields_loop implements unsafe rec addr true l b i = (Ok (l', s), i') /\ Inv i'.
Proof.
  induction 1 as [|[ex x] l [Ex R] _ IH]; intros b i Hi; cbn [fields_loop]; [unfold sret; eauto|].
  cbn [fst snd] in *. subst ex. unfold getField_qualify. rewrite orb_true_r. cbn [andb].
  destruct (R i Hi) as (x' & c & i1 & E & I1 & F). unfold sbind, slift. rewrite E. destruct (b || c).
  - destruct (store_fits _ _ F) as (y & ->). destruct (IH true i1 I1) as (l' & s & i2 & E2 & I2).
    rewrite E2; unfold sret; eauto.
  - destruct (IH false i1 I1) as (l' & s & i2 & E2 & I2). rewrite E2. unfold sret; eauto.
Qed.
Lemma runs_map rec l : Forall (fun e => runs rec (fst e) /\ runs rec (snd e)) l -> forall m b i, Inv i -> exists l' s i',
  map_loop implements rec l m b i = (Ok (l', s), i') /\ Inv i'.
Proof.
  induction 1 as [|[k x] l [Rk Rx] _ IH]; intros m b i Hi; cbn [map_loop]; [unfold sret; eauto|].
  cbn [fst snd] in *. unfold sbind, slift.
  destruct (Rk i Hi) as (k' & ck & i1 & E & I1 & F). rewrite E.
  destruct (Rx i1 I1) as (x' & cx & i2 & E2 & I2 & F2). rewrite E2. destruct (b || ck || cx); auto.
  destruct (store_fits _ _ F) as (y & ->). destruct (store_fits _ _ F2) as (z & ->). auto.
Qed.

Lemma same_fits addr v i v' i' : typed v -> Inv i -> walk addr v i = (Ok (v', false), i') -> fits (typeof v') (typeof v) = true.
Proof.
  intros T Hi E.
  pose proof (walk_does implements unsafe parent_of v addr T i v' false i' Hi E) as D.
  pose proof (d_same _ _ _ _ _ _ _ _ D eq_refl) as B.
  destruct (is_iface v) eqn:F; [|rewrite box_other in B by auto; subst; apply fits_refl].
  destruct v as [t dyn| | | | | | | | | | | | | | | | | |]; try discriminate.
  destruct dyn as [d|]; [|cbn in E; injection E as <- _; apply fits_refl].
  assert (G : v' = VIface t (Some d) \/ is_iface v' = false).
  { destruct T as (Imp & Nd & T). cbn [qualifyTemplateData] in E.
    destruct (as_type d) as [n|] eqn:At.
    { destruct d; try discriminate At. cbn [replacement] in E. unfold sbind, replace, sret in E.
      destruct (EnsureTypeImported _ i) as [[[n' c]|] i1]; [|discriminate]. destruct (_ && _); [discriminate|]. injection E as <- _. auto. }
    destruct (denotes d) as [[r|m]|] eqn:De.
    - destruct (replacement_ref implements t (VIface t (Some d)) d r i Hi De T) as (m & r' & c' & Em & Er & _).
      rewrite Em, Er in E. destruct (c' && _); [discriminate|]. injection E as <- _. auto.
    - destruct (replacement_panic implements t (VIface t (Some d)) d m i De) as (m' & Em & Ep). rewrite Em, Ep in E. discriminate.
    - rewrite (replacement_none _ _ _ _ De At) in E. right.
      exact (d_iface _ _ _ _ _ _ _ _ (walk_does implements unsafe parent_of d false T i _ _ _ Hi E) Nd). }
  destruct G as [->|G]; [apply fits_refl|]. rewrite box_new in B by auto. injection B as ->. destruct T as [Imp _].
  unfold assignable. cbn [typeof]. rewrite Imp. apply orb_true_r.
Qed.

Lemma stays_runs addr v : typed v -> readable addr v -> reqs v = [] -> runs (walk addr) v.
Proof.
  intros T R N i Hi. destruct (walk_settled implements unsafe parent_of v addr i T R Hi) as (v' & E).
  { rewrite N. intros p n []. }
  exists v', false, i. split; auto. split; auto. eapply same_fits; eauto.
Qed.
Lemma walk_runs v : forall addr, typed v -> readable addr v -> storable addr v -> runs (walk addr) v.
Proof.
  induction v as [t|t d IH|t fs IH|e|e x IH|t l IH|t l IH|t es IH|p|s|m|s|s r|e|im|n|r|g|o|p|t n] using val_ind';
    intros addr T R S; try contradiction;
    try (match goal with |- runs _ (VStruct _ _) => idtac | |- runs _ (VArray _ _) => idtac | |- runs _ (VPtr _ (Some _)) => idtac end;
         destruct S as [[N|S0] S]; [apply stays_runs; auto|]);
    intros i Hi; cbn [qualifyTemplateData].
  - exists (VIface t None), false, i. split; [reflexivity|]. split; [auto|]. apply fits_refl.
  - destruct T as (Imp & Nd & T). cbn [SpecTemplate.readable SpecTemplate.storable] in R, S.
    destruct (as_type d) as [n|] eqn:At.
    { destruct d; try discriminate At. injection At as ->. cbn [replacement]. unfold sbind, replace, sret.
      destruct (leaf_type n i Hi T) as (n' & c & E & _ & _). rewrite E.
      destruct (c && implements (typeof (VTypeName n')) t) eqn:B; eexists _, _, _; (split; [reflexivity|]); (split; [apply after_Inv; auto|]).
      - apply andb_true_iff in B as [_ B]. unfold assignable. cbn [typeof] in *. rewrite B. apply orb_true_r.
      - apply fits_refl. }
    destruct (denotes d) as [r|] eqn:De.
    + destruct R as (x & ->). destruct (replacement_ref implements t (VIface t (Some d)) d x i Hi De T) as (m & r' & c & Em & E & _ & _).
      rewrite Em, E. destruct (c && implements (typeof (shown r')) t) eqn:B; eexists _, _, _; (split; [reflexivity|]); (split; [apply after_Inv; auto|]).
      * apply andb_true_iff in B as [_ B]. unfold assignable. cbn [typeof] in *. rewrite B. apply orb_true_r.
      * apply fits_refl.
    + rewrite (replacement_none _ _ _ _ De At). destruct (IH false T R S i Hi) as (x' & c & i1 & E & I1 & F).
      exists x', c, i1. split; [auto|]. split; [auto|]. apply fits_other in F; auto. unfold assignable. cbn [typeof]. rewrite F, Imp. apply orb_true_r.
  - apply Forall_typed_fields in T. cbn [SpecTemplate.readable] in R. apply all_Forall2 in R. apply all_Forall in S. unfold sbind.
    destruct (runs_fields (walk addr) addr fs) with (b := false) (i := i) as (l' & s & i1 & E & I1); auto.
    { rewrite Forall_forall in *. intros f F. split; auto. apply IH; auto. apply R; auto. }
    rewrite E. destruct s; unfold sret; eexists _, _, _; (split; [reflexivity|]); (split; [auto|]); apply fits_refl.
  - exists (VPtr e None), false, i. split; [reflexivity|]. split; [auto|]. apply fits_refl.
  - destruct T as [Te T]. unfold sbind. destruct (IH true T R S i Hi) as (x' & c & i1 & E & I1 & F). rewrite E.
    destruct c; unfold sret; eexists _, _, _; (split; [reflexivity|]); (split; [auto|]); [|apply fits_refl].
    apply fits_other in F; auto. cbn [typeof]. rewrite F, Te. apply fits_refl.
  - apply Forall_typed in T. cbn [SpecTemplate.readable SpecTemplate.storable] in R, S. apply all_Forall in R, S. unfold sbind.
    destruct (runs_elems (walk true) l) with (b := false) (i := i) as (l' & s & i1 & E & I1); auto.
    { rewrite Forall_forall in *. auto. }
    rewrite E. destruct s; unfold sret; eexists _, _, _; (split; [reflexivity|]); (split; [auto|]); apply fits_refl.
  - subst addr. apply Forall_typed in T. cbn [SpecTemplate.readable] in R. apply all_Forall in R. apply all_Forall in S. unfold sbind.
    destruct (runs_elems (walk true) l) with (b := false) (i := i) as (l' & s & i1 & E & I1); auto.
    { rewrite Forall_forall in *. auto. }
    rewrite E. destruct s; unfold sret; eexists _, _, _; (split; [reflexivity|]); (split; [auto|]); apply fits_refl.
  - destruct T as [T _]. apply Forall_typed_entries in T. cbn [SpecTemplate.readable SpecTemplate.storable] in R, S. apply all_Forall2 in R, S. unfold sbind.
    destruct (runs_map (walk false) es) with (b := false) (i := i) (m := @nil (val * val)) as (l' & s & i1 & E & I1); auto.
    { rewrite Forall_forall in *. intros f F. destruct (IH f F), (T f F), (R f F), (S f F). auto. }
    rewrite E. destruct s; unfold sret; eexists _, _, _; (split; [reflexivity|]); (split; [auto|]); apply fits_refl.
  - destruct (leaf_package p i Hi) as (n & E & _). unfold sbind. rewrite E.
    destruct (negb _); unfold sret; eexists _, _, _; (split; [reflexivity|]); (split; [apply after_Inv; auto|]); apply fits_refl.
  - destruct (leaf_symbol s i Hi) as (n & E & _). unfold sbind. rewrite E.
    destruct (negb _); unfold sret; eexists _, _, _; (split; [reflexivity|]); (split; [apply after_Inv; auto|]); apply fits_refl.
  - destruct (leaf_symbol (MRType m) i Hi) as (n & E & _). unfold sbind. rewrite E.
    destruct (negb _); unfold sret; eexists _, _, _; (split; [reflexivity|]); (split; [apply after_Inv; auto|]); apply fits_refl.
  - destruct (leaf_signature s i Hi T) as (n & c & E & _). unfold sbind. rewrite E.
    destruct c; unfold sret; eexists _, _, _; (split; [reflexivity|]); (split; [apply after_Inv; auto|]); apply fits_refl.
  - destruct R as (p & Sp). rewrite Sp. unfold sbind, slift. destruct p as [p|].
    + destruct (leaf_package p i Hi) as (n & E & _). rewrite E.
      destruct (negb _); unfold sret; eexists _, _, _; (split; [reflexivity|]); (split; [apply after_Inv; auto|]); destruct s; apply fits_refl.
    + unfold sret; eexists _, _, _; (split; [reflexivity|]); (split; [auto|]); apply fits_refl.
  - destruct e as [cm s p|cm n s p]; unfold sbind.
    + destruct (leaf_symbol s i Hi) as (n & E & _). rewrite E.
      destruct (negb _); unfold sret; eexists _, _, _; (split; [reflexivity|]); (split; [apply after_Inv; auto|]); apply fits_refl.
    + destruct (leaf_signature s i Hi T) as (k & c & E & _). rewrite E.
      destruct c; unfold sret; eexists _, _, _; (split; [reflexivity|]); (split; [apply after_Inv; auto|]); apply fits_refl.
  - unfold sret; eexists _, _, _; (split; [reflexivity|]); (split; [auto|]); apply fits_refl.
  - unfold sret; eexists _, _, _; (split; [reflexivity|]); (split; [auto|]); apply fits_refl.
Qed.

(** ** A second run *)
Lemma after_known l : forall j, Inv j -> (forall p n, In (p, n) l -> prefix_name j p <> None) -> after l j = j.
Proof.
  induction l as [|[p n] l IH]; intros j J K; auto. unfold after. cbn [fold_left].
  assert (E : reg_pair j (p, n) = j).
  { unfold reg_pair, RegisterImport. cbn [fst snd]. destruct (prefix_name j p) as [m|] eqn:P.
    - rewrite (prefix_known _ _ _ _ _ J P). auto.
    - exfalso. eapply K; [left; reflexivity|exact P]. }
  rewrite E. apply IH; auto. intros q m H. eapply K. right. exact H.
Qed.
Lemma after_prefix l : forall i p n, Inv i -> In (p, n) l -> prefix_name (after l i) p <> None.
Proof.
  induction l as [|[q m] l IH]; intros i p n Hi H; [contradiction|]. unfold after. cbn [fold_left].
  assert (I1 : Inv (reg_pair i (q, m))) by (apply (fold_reg_keep [(q, m)] i Hi)).
  destruct H as [[= -> ->]|H]; [|eapply IH; eauto].
  destruct (prefix_reg i p n Hi) as (k & i' & E & I' & X & P & _).
  assert (E2 : reg_pair i (p, n) = i') by (unfold reg_pair, RegisterImport; cbn [fst snd]; rewrite E; auto). rewrite E2 in *.
  change (fold_left reg_pair l i') with (after l i'). rewrite (prefix_name_ext _ _ _ _ (after_ext l i' I1) P). discriminate.
Qed.
Lemma after_again l i j : Inv i -> Inv j -> ext (after l i) j -> after l j = j.
Proof.
  intros Hi J X. apply after_known; auto. intros p n H E. pose proof (after_prefix l i p n Hi H) as K.
  destruct (prefix_name (after l i) p) eqn:P; [|congruence]. rewrite (prefix_name_ext _ _ _ _ X P) in E. discriminate.
Qed.

(** [y] is what [rec] made of [x] in a state that [j] extends. *)
Definition made (rec : val -> IM (val * bool)) (j : Imports) (x y : val) : Prop :=
  exists i x' c i', Inv i /\ rec x i = (Ok (x', c), i') /\ ext i' j /\ y = box x x'.
Lemma made_ext rec i j x y : ext i j -> made rec i x y -> made rec j x y.
Proof. intros X (k & x' & c & k' & Hk & E & Xk & ->). exists k, x', c, k'. split; [auto|]. split; [auto|]. split; auto. eapply ext_trans; eauto. Qed.

Lemma made_elems rec ok l : Forall (does rec) l -> forall started i l' s i', Inv i ->
  elems_loop implements rec ok l started i = (Ok (l', s), i') -> Forall2 (made rec i') l l'.
Proof.
  induction 1 as [|x l D F IH]; intros started i l' s i' Hi E.
  - cbn in E. injection E as <- <- <-. constructor.
  - cbn [elems_loop] in E. unfold sbind, slift, sret in E. destruct (rec x i) as [[[x' c]|e] i1] eqn:R; [|discriminate].
    pose proof (D i x' c i1 Hi R) as [A S N _ Q].
    assert (I1 : Inv i1) by (rewrite A; apply after_Inv; auto).
    assert (G : forall b r s, elems_loop implements rec ok l b i1 = (Ok (r, s), i') -> Forall2 (made rec i') (x :: l) (box x x' :: r)).
    { intros b r s0 El. constructor; eauto. exists i, x', c, i1. split; [auto|]. split; [auto|]. split; auto.
      apply does_elems with (unsafe := unsafe) (parent_of := parent_of) in El as [-> _]; auto. apply after_ext; auto. }
    destruct (started || c) eqn:SC.
    + destruct (if started then Ok tt else ok) as [[]|]; [|discriminate].
      destruct (store implements x x') as [y|] eqn:St; [|discriminate]. apply store_Ok in St as [-> T].
      destruct (elems_loop implements rec ok l true i1) as [[[r b]|e] i2] eqn:El; [|discriminate]. injection E as <- <- <-. eauto.
    + apply orb_false_iff in SC as [-> ->].
      destruct (elems_loop implements rec ok l false i1) as [[[r b]|e] i2] eqn:El; [|discriminate]. injection E as <- <- <-.
      specialize (G _ _ _ El). rewrite S in G; auto.
Qed.
Lemma made_fields rec addr l : (forall x, In x l -> does rec (snd x)) -> forall earlier started i l' s i', Inv i ->
  fields_loop implements unsafe rec addr earlier l started i = (Ok (l', s), i') ->
  Forall2 (fun f g => fst g = fst f /\ (fst f = true \/ unsafe = true -> (fst f = false -> addr = true) /\ made rec i' (snd f) (snd g))) l l'.
Proof.
  induction l as [|[ex x] l IH]; intros D earlier started i l' s i' Hi E; cbn [fields_loop] in E.
  - injection E as <- <- <-. constructor.
  - unfold sbind, slift, sret in E. destruct (getField_qualify unsafe rec addr ex x i) as [[[x' c]|e] i1] eqn:R; [|discriminate].
    assert (HD : Inv i1 /\ (c = false -> box x x' = x) /\
      (ex = true \/ unsafe = true -> (ex = false -> addr = true) /\ made rec i1 x (box x x'))).
    { unfold getField_qualify in R. destruct (ex || unsafe) eqn:V.
      - assert (R' : rec x i = (Ok (x', c), i1) /\ (ex = false -> addr = true)).
        { destruct ex; [split; [auto|discriminate]|]. destruct unsafe; [|discriminate]. destruct addr; auto. discriminate. }
        destruct R' as [R' Ad]. destruct (D (ex, x) (or_introl eq_refl) i x' c i1 Hi R') as [A S N _ Q]. split; [rewrite A; apply after_Inv; auto|].
        split; auto. intros _. split; auto. exists i, x', c, i1. split; [auto|]. split; [auto|]. split; auto. apply ext_refl.
      - apply orb_false_iff in V as [-> U]. rewrite U in R. injection R as <- <- <-. split; auto. split; [intros; apply box_self|].
        intros [|]; congruence. }
    destruct HD as (I1 & S & M).
    assert (G : forall e b r s, fields_loop implements unsafe rec addr e l b i1 = (Ok (r, s), i') ->
      Forall2 (fun f g => fst g = fst f /\ (fst f = true \/ unsafe = true -> (fst f = false -> addr = true) /\ made rec i' (snd f) (snd g)))
        ((ex, x) :: l) ((ex, box x x') :: r)).
    { intros e b r s0 El. constructor.
      - split; auto. intros V. destruct (M V) as [M1 M2]. split; auto. cbn [snd]. eapply made_ext; [|exact M2].
        apply does_fields with (parent_of := parent_of) in El as [-> _]; auto. { apply after_ext; auto. } intros f H. apply D. right; auto.
      - eapply IH; eauto. intros f H. apply D. right; auto. }
    destruct (started || c) eqn:SC.
    + destruct (if (started || earlier) && ex then Ok tt else Panic p_readonly) as [[]|]; [|discriminate].
      destruct (store implements x x') as [y|] eqn:St; [|discriminate]. apply store_Ok in St as [-> T].
      destruct (fields_loop implements unsafe rec addr (earlier && ex) l true i1) as [[[r b]|e] i2] eqn:El; [|discriminate].
      injection E as <- <- <-. eauto.
    + apply orb_false_iff in SC as [-> ->].
      destruct (fields_loop implements unsafe rec addr (earlier && ex) l false i1) as [[[r b]|e] i2] eqn:El; [|discriminate].
      injection E as <- <- <-. specialize (G _ _ _ _ El). rewrite S in G; auto.
Qed.
Lemma entries_Forall (P Q : val -> Prop) l : Forall (fun e => P (fst e) /\ Q (snd e)) l -> forall m,
  Forall (fun e => P (fst e) /\ Q (snd e)) m -> Forall (fun e => P (fst e) /\ Q (snd e)) (entries_in l m).
Proof.
  induction 1 as [|[k x] l [Hk Hx] _ IH]; intros m M; auto. apply IH. cbn [fst snd] in *.
  induction M as [|[k' x'] m [Mk Mx] M' IM]; cbn [set_entry]; [constructor; auto|]. destruct (same_key k k'); constructor; auto.
Qed.
Lemma made_map rec l : Forall (fun e => does rec (fst e) /\ does rec (snd e)) l -> forall m started i m' s i', Inv i ->
  map_loop implements rec l m started i = (Ok (m', s), i') ->
  forall P : val -> Prop, (forall e y, In e l -> made rec i' (fst e) y \/ made rec i' (snd e) y -> P y) ->
  Forall (fun e => P (fst e) /\ P (snd e)) m -> Forall (fun e => P (fst e) /\ P (snd e)) m'.
Proof.
  induction 1 as [|[k x] l [Dk Dx] F IH]; intros m started i m' s i' Hi E P HP M; cbn [map_loop] in E.
  - injection E as <- <- <-. auto.
  - cbn [fst snd] in Dk, Dx. unfold sbind, slift in E. destruct (rec k i) as [[[k' ck]|e] i1] eqn:Rk; [|discriminate].
    pose proof (Dk i k' ck i1 Hi Rk) as [Ak Sk _ _ Qk].
    assert (I1 : Inv i1) by (rewrite Ak; apply after_Inv; auto).
    destruct (rec x i1) as [[[x' cx]|e] i2] eqn:Rx; [|discriminate].
    pose proof (Dx i1 x' cx i2 I1 Rx) as [Ax Sx _ _ Qx].
    assert (I2 : Inv i2) by (rewrite Ax; apply after_Inv; auto).
    assert (G : forall b m1, map_loop implements rec l m1 b i2 = (Ok (m', s), i') -> ext i2 i').
    { intros b m1 El. clear - El F I2. revert b m1 i2 I2 El. induction F as [|[k x] l [Dk Dx] F IH]; intros b m1 i2 I2 El; cbn [map_loop] in El.
      - injection El as <- <- <-. apply ext_refl.
      - cbn [fst snd] in Dk, Dx. unfold sbind, slift in El. destruct (rec k i2) as [[[k' ck]|e] i3] eqn:Rk; [|discriminate].
        pose proof (d_after _ _ _ _ _ _ _ _ (Dk i2 k' ck i3 I2 Rk)) as Ak.
        assert (I1 : Inv i3) by (rewrite Ak; apply after_Inv; auto).
        destruct (rec x i3) as [[[x' cx]|e] i4] eqn:Rx; [|discriminate].
        pose proof (d_after _ _ _ _ _ _ _ _ (Dx i3 x' cx i4 I1 Rx)) as Ax.
        assert (I4 : Inv i4) by (rewrite Ax; apply after_Inv; auto).
        assert (X : ext i2 i4). { eapply ext_trans; [|rewrite Ax; apply after_ext; auto]. rewrite Ak; apply after_ext; auto. }
        eapply ext_trans; [exact X|].
        destruct (b || ck || cx); [|eapply IH; eauto].
        destruct (store implements k k'); [|discriminate]. destruct (store implements x x'); [|discriminate]. eapply IH; eauto. }
    assert (Mk : ext i2 i' -> P (box k k')).
    { intros X. apply (HP (k, x)); [left; auto|]. left. exists i, k', ck, i1. split; [auto|]. split; [auto|]. split; auto.
      eapply ext_trans; [|exact X]. rewrite Ax. apply after_ext; auto. }
    assert (Mx : ext i2 i' -> P (box x x')).
    { intros X. apply (HP (k, x)); [left; auto|]. right. exists i1, x', cx, i2. split; [auto|]. split; [auto|]. split; auto. }
    destruct (started || ck || cx) eqn:SC.
    + destruct (store implements k k') as [k''|] eqn:Stk; [|discriminate]. apply store_Ok in Stk as [-> Tk].
      destruct (store implements x x') as [x''|] eqn:Stx; [|discriminate]. apply store_Ok in Stx as [-> Tx].
      pose proof (G _ _ E) as X. eapply IH; [exact I2|exact E| |].
      * intros e y He. apply HP. right; auto.
      * apply (entries_Forall P P [(box k k', box x x')]); auto.
    + pose proof (G _ _ E) as X. apply orb_false_iff in SC as [SC ->]. apply orb_false_iff in SC as [-> ->].
      rewrite Sk in Mk by auto. rewrite Sx in Mx by auto. eapply IH; [exact I2|exact E| |].
      * intros e y He. apply HP. right; auto.
      * apply Forall_app. split; auto.
Qed.

Lemma ref_as_stays r i : Inv i -> ref_wf r -> forall j, Inv j -> ext (after (ref_requests r) i) j -> ref_stays j (ref_as (name_in j) r).
Proof.
  intros Hi V j J X. destruct r as [n|s|m|p]; cbn [ref_as ref_stays ref_requests ref_wf] in *.
  - destruct (leaf_type n i Hi V) as (n' & c & E & _ & Q). destruct (Q j J X) as [<- S]. auto.
  - destruct (leaf_symbol s i Hi) as (n' & E & Q). destruct (Q j J X) as [<- S]. auto.
  - destruct (leaf_symbol (MRType m) i Hi) as (n' & E & Q). destruct (Q j J X) as [<- S]. auto.
  - destruct (leaf_package p i Hi) as (n' & E & Q). unfold pkg_as. destruct (Q j J X) as [<- S]. cbn [PkgName]. auto.
Qed.

Lemma renamed_kind nm c d d' : renamed implements unsafe parent_of nm c d d' -> is_iface d = false -> as_type d' = None /\ denotes d' = None.
Proof. destruct 1; cbn; auto; discriminate. Qed.
Lemma walk_settles v : forall addr i v' c i', typed v -> Inv i -> walk addr v i = (Ok (v', c), i') ->
  forall J, Inv J -> ext i' J -> simple (name_in J) v -> forall addr', (addr = true -> addr' = true) ->
  stays (walk addr') J (box v v').
Proof.
  induction v as [t|t d IH|t fs IH|e|e x IH|t l IH|t l IH|t es IH|p|s|m|s|s r|e|im|n|r|g|o|p|t n] using val_ind';
    intros addr i v' c i' T Hi E J HJ X Sm addr' Ad; cbn [qualifyTemplateData] in E; try contradiction.
  - injection E as <- <- <-. eexists; reflexivity.
  - pose proof (walk_does implements unsafe parent_of (VIface t (Some d)) addr T i v' c i' Hi E) as D.
    destruct T as (Imp & Nd & T).
    destruct (as_type d) as [n|] eqn:At.
    { destruct d; try discriminate At. injection At as ->. cbn [replacement] in E.
      destruct (leaf_type n i Hi T) as (n' & c' & En & Ch & Q). unfold sbind, replace, sret in E. rewrite En in E.
      assert (Ei : i' = after (sym_requests (symbols_of n)) i) by (destruct (c' && _); injection E; auto). subst i'.
      destruct (Q J HJ X) as [_ St].
      assert (B : box (VIface t (Some (VTypeName n))) v' = VIface t (Some (VTypeName n'))).
      { destruct c'; cbn [andb] in E.
        - assert (Tn : typename_gty n' = typename_gty n).
          { destruct (Q J HJ X) as [-> _]. destruct n; auto. }
          cbn [typeof] in E, Imp. rewrite Tn, Imp in E. injection E as <- <-. auto.
        - injection E as <- <-. cbn [tells] in Ch. subst. auto. }
      rewrite B. unfold stays. cbn [qualifyTemplateData replacement]. unfold sbind, replace, sret. rewrite St. cbn [andb]. eauto. }
    destruct (denotes d) as [[r|m]|] eqn:De.
    + destruct (replacement_ref implements t (VIface t (Some d)) d r i Hi De T) as (m & r' & c' & Em & Er & Ch & Q).
      rewrite Em, Er in E.
      assert (Ei : i' = after (ref_requests r) i) by (destruct (c' && _); injection E; auto). subst i'.
      destruct (c' && implements (typeof (shown r')) t) eqn:B.
      * injection E as <- <-. rewrite box_new by apply shown_not_iface. apply shown_stays.
        rewrite (Q J HJ X). apply (ref_as_stays r i); auto.
      * injection E as <- <-. cbn [box]. unfold stays. cbn [qualifyTemplateData].
        destruct (replacement_ref implements t (VIface t (Some d)) d r J HJ De T) as (m2 & r2 & c2 & Em2 & Er2 & Ch2 & Q2).
        rewrite (after_again (ref_requests r) i J Hi HJ X) in *.
        assert (R : r2 = r') by (rewrite (Q2 J HJ (ext_refl J)), (Q J HJ X); auto). subst r2.
        assert (C : c2 = c').
        { destruct c2, c'; cbn [tells] in *; congruence. }
        subst c2. rewrite Em2, Er2, B. eauto.
    + destruct (replacement_panic implements t (VIface t (Some d)) d m i De) as (m' & Em & Ep). rewrite Em, Ep in E. discriminate.
    + rewrite (replacement_none _ _ _ _ De At) in E.
      pose proof (walk_does implements unsafe parent_of d false T i v' c i' Hi E) as Dd.
      pose proof (d_iface _ _ _ _ _ _ _ _ Dd Nd) as F. rewrite box_new by auto.
      specialize (IH false i v' c i' T Hi E J HJ X Sm false ltac:(discriminate)). rewrite box_other in IH by auto.
      unfold stays. cbn [qualifyTemplateData].
      assert (G : as_type v' = None /\ denotes v' = None).
      { pose proof (d_renamed _ _ _ _ _ _ _ _ Dd J HJ X) as Rn. rewrite box_other in Rn by auto. eapply renamed_kind; eauto. }
      destruct G as [G1 G2]. rewrite (replacement_none _ _ _ _ G2 G1). exact IH.
  - unfold sbind, sret in E. destruct (fields_loop _ _ _ _ _ _ _ i) as [[[l' s]|m] i1] eqn:El; [|discriminate].
    apply Forall_typed_fields in T. apply all_Forall in Sm. rewrite Forall_forall in IH, T, Sm.
    assert (DD : forall f, In f fs -> does (walk addr) (snd f)) by (intros f H; apply walk_does; auto).
    pose proof (does_fields _ _ _ _ _ _ DD _ _ _ _ _ _ Hi El) as (_ & cs & Es & Sa & _). cbn [orb] in Es. subst s.
    assert (B : box (VStruct t fs) v' = VStruct t l' /\ i' = i1).
    { destruct cs; injection E as <- <- <-; auto. rewrite Sa; auto. }
    destruct B as [-> ->]. pose proof (made_fields _ _ _ DD _ _ _ _ _ _ Hi El) as M.
    unfold stays. cbn [qualifyTemplateData]. unfold sbind. rewrite stays_fields; [eexists; reflexivity|].
    clear El Sa E. induction M as [|f g fs l' [F1 F2] M IM]; constructor.
    + intros V. rewrite F1 in V |- *. destruct (F2 V) as [A2 (k & x' & c1 & k' & Hk & Ek & Xk & Eg)]. split; [auto|]. rewrite Eg.
      eapply (IH f (or_introl eq_refl) addr k x' c1 k'); auto; [apply T; left; auto|eapply ext_trans; eauto|apply Sm; [left; auto|exact V]].
    + apply IM; intros; [apply (IH x) with (addr := addr0) (i := i0) (c := c0) (i' := i'); auto; right; auto|apply T; right; auto|apply Sm; [right; auto|auto]|apply DD; right; auto].
  - injection E as <- <- <-. eexists; reflexivity.
  - unfold sbind, sret in E. destruct (walk true x i) as [[[x' s]|m] i1] eqn:Ex; [|discriminate]. destruct T as [Te T]. destruct Sm as [Nx Sm].
    pose proof (walk_does implements unsafe parent_of x true T i x' s i1 Hi Ex) as D.
    assert (B : exists e', box (VPtr e (Some x)) v' = VPtr e' (Some (box x x')) /\ i' = i1).
    { destruct s; injection E as <- <- <-; cbn [box]; rewrite ?(d_same _ _ _ _ _ _ _ _ D) by auto; rewrite ?box_other by auto; eauto. }
    destruct B as (e' & -> & ->). destruct (IH true i x' s i1 T Hi Ex J HJ X Sm true) as (y & Ey); auto.
    unfold stays. cbn [qualifyTemplateData]. unfold sbind. rewrite Ey. eexists; reflexivity.
  - unfold sbind, sret in E. destruct (elems_loop _ _ _ _ _ i) as [[[l' s]|m] i1] eqn:El; [|discriminate].
    apply Forall_typed in T. apply all_Forall in Sm.
    assert (DD : Forall (does (walk true)) l) by (eapply Forall_impl; [|exact T]; intros; apply walk_does; auto).
    pose proof (does_elems _ _ _ _ _ _ DD _ _ _ _ _ Hi El) as (_ & cs & Es & Sa & _). cbn [orb] in Es. subst s.
    assert (B : box (VSlice t l) v' = VSlice t l' /\ i' = i1).
    { destruct cs; injection E as <- <- <-; auto. rewrite Sa; auto. }
    destruct B as [-> ->]. pose proof (made_elems _ _ _ DD _ _ _ _ _ Hi El) as M.
    unfold stays. cbn [qualifyTemplateData]. unfold sbind. rewrite stays_elems; [eexists; reflexivity|].
    clear El Sa E DD. induction M as [|x y l l' (k & x' & c1 & k' & Hk & Ek & Xk & Eg) M IM]; constructor;
      inversion IH; subst; inversion T; subst; inversion Sm; subst.
    + eapply (H1 true k x' c1 k'); auto. eapply ext_trans; eauto.
    + apply IM; auto.
  - unfold sbind, sret in E. destruct (elems_loop _ _ _ _ _ i) as [[[l' s]|m] i1] eqn:El; [|discriminate].
    apply Forall_typed in T. apply all_Forall in Sm.
    assert (DD : Forall (does (walk addr)) l) by (eapply Forall_impl; [|exact T]; intros; apply walk_does; auto).
    pose proof (does_elems _ _ _ _ _ _ DD _ _ _ _ _ Hi El) as (_ & cs & Es & Sa & _). cbn [orb] in Es. subst s.
    assert (B : box (VArray t l) v' = VArray t l' /\ i' = i1).
    { destruct cs; injection E as <- <- <-; auto. rewrite Sa; auto. }
    destruct B as [-> ->]. pose proof (made_elems _ _ _ DD _ _ _ _ _ Hi El) as M.
    unfold stays. cbn [qualifyTemplateData]. unfold sbind. rewrite stays_elems; [eexists; reflexivity|].
    clear El Sa E DD. induction M as [|x y l l' (k & x' & c1 & k' & Hk & Ek & Xk & Eg) M IM]; constructor;
      inversion IH; subst; inversion T; subst; inversion Sm; subst.
    + eapply (H1 addr k x' c1 k'); auto. eapply ext_trans; eauto.
    + apply IM; auto.
  - unfold sbind, sret in E. destruct (map_loop _ _ _ _ _ i) as [[[l' s]|m] i1] eqn:El; [|discriminate].
    destruct T as [T O]. apply keys_differ in O. apply Forall_typed_entries in T. apply all_Forall2 in Sm.
    assert (DD : Forall (fun e => does (walk false) (fst e) /\ does (walk false) (snd e)) es).
    { eapply Forall_impl; [|exact T]. intros a [T1 T2]. split; apply walk_does; auto. }
    pose proof (does_map _ _ _ _ _ DD [] false i l' s i1 Hi (fun _ => O) El) as (_ & cs & l2 & Es & Sa & Em & _). cbn [orb] in Es. subst s.
    assert (B : box (VMap t es) v' = VMap t l' /\ i' = i1).
    { destruct cs; injection E as <- <- <-; auto. rewrite Em. auto. }
    destruct B as [-> ->].
    unfold stays. cbn [qualifyTemplateData]. unfold sbind. rewrite stays_map; [eexists; reflexivity|].
    eapply (made_map _ _ DD _ _ _ _ _ _ Hi El (stays (walk false) J)); [|constructor].
    rewrite Forall_forall in IH, T, Sm.
    intros e y He M. destruct (IH e He) as [IHk IHx]. destruct (T e He) as [Tk Tx]. destruct (Sm e He) as [Sk Sx].
    destruct M as [(k & x' & c1 & k' & Hk & Ek & Xk & ->)|(k & x' & c1 & k' & Hk & Ek & Xk & ->)];
      [eapply IHk|eapply IHx]; eauto; eapply ext_trans; eauto.
  - destruct (leaf_package p i Hi) as (n & Er & Q). unfold sbind, sret in E. rewrite Er in E.
    assert (B : v' = VPackage (mkPackage (ImportPath p) n) /\ i' = after [(ImportPath p, PkgName p)] i).
    { destruct (String.eqb_spec n (PkgName p)) as [Hn|]; cbn [negb] in E; injection E as <- <- <-; split; auto. rewrite Hn, package_eta; auto. }
    destruct B as [-> ->]. destruct (Q J HJ X) as [_ St]. unfold stays. cbn [box qualifyTemplateData]. unfold sbind.
    rewrite St. cbn [PkgName]. rewrite String.eqb_refl. eexists; reflexivity.
  - destruct (leaf_symbol s i Hi) as (n & Er & Q). unfold sbind, sret in E. rewrite Er in E.
    assert (B : v' = VSymbol n /\ i' = after (sym_requests [s]) i).
    { pose proof (tells_symbol s n) as Ch. destruct (negb _); injection E as <- <- <-; split; auto. cbn in Ch. congruence. }
    destruct B as [-> ->]. destruct (Q J HJ X) as [_ St]. unfold stays. cbn [box qualifyTemplateData]. unfold sbind.
    rewrite St, symbol_eqb_refl. eexists; reflexivity.
  - destruct (leaf_symbol (MRType m) i Hi) as (n & Er & Q). unfold sbind, sret in E. rewrite Er in E.
    assert (B : v' = VMethodRef (mkMethodRef n (MRMethod m)) /\ i' = after (sym_requests [MRType m]) i).
    { pose proof (tells_symbol (MRType m) n) as Ch. destruct (negb _); injection E as <- <- <-; split; auto. cbn in Ch. subst n. destruct m; auto. }
    destruct B as [-> ->]. destruct (Q J HJ X) as [_ St]. unfold stays. cbn [box qualifyTemplateData MRType MRMethod]. unfold sbind.
    rewrite St, symbol_eqb_refl. eexists; reflexivity.
  - destruct (leaf_signature s i Hi T) as (n & c' & Er & Ch & Q). unfold sbind, sret in E. rewrite Er in E.
    assert (B : v' = VSignature n /\ i' = after (sym_requests (sig_symbols s)) i).
    { destruct c'; injection E as <- <- <-; split; auto. cbn in Ch. congruence. }
    destruct B as [-> ->]. destruct (Q J HJ X) as [_ St]. unfold stays. cbn [box qualifyTemplateData]. unfold sbind.
    rewrite St. eexists; reflexivity.
  - unfold sbind, slift, sret in E. cbn [SpecTemplate.simple] in Sm.
    destruct (spec_parent parent_of s r) as [[p|]|m] eqn:Sp; [| |discriminate].
    + destruct (leaf_package p i Hi) as (n & Er & Q). rewrite Er in E. specialize (Sm p eq_refl).
      assert (X' : ext (after [(ImportPath p, PkgName p)] i) J) by (destruct (negb _); injection E; intros; subst; auto).
      destruct (Q J HJ X') as [Ex St]. rewrite <- Ex in Sm. clear Ex.
      destruct (String.eqb_spec n (PkgName p)) as [En|Nn]; cbn [negb] in E.
      * rewrite En in St. injection E as <- <- <-. unfold stays. cbn [box qualifyTemplateData]. unfold sbind, slift. rewrite Sp.
        specialize (St (PkgName p)). rewrite package_eta in St. rewrite St, String.eqb_refl. eexists; reflexivity.
      * destruct Sm as [Sm|Sm]; [congruence|].
        injection E as <- <- <-. unfold stays. cbn [box qualifyTemplateData]. unfold sbind, slift. cbn [spec_parent].
        specialize (St n). rewrite Sm in St. rewrite St. cbn [PkgName]. rewrite String.eqb_refl. eexists; reflexivity.
    + injection E as <- <- <-. unfold stays. cbn [box qualifyTemplateData]. unfold sbind, slift. rewrite Sp. eexists; reflexivity.
  - destruct e as [cm s p|cm n s p]; unfold sbind, sret in E.
    + destruct (leaf_symbol s i Hi) as (n & Er & Q). rewrite Er in E.
      assert (B : v' = VElem (InterfaceEmbed cm n p) /\ i' = after (sym_requests [s]) i).
      { pose proof (tells_symbol s n) as Ch. rewrite symbol_eqb_sym in E. destruct (negb _); injection E as <- <- <-; split; auto. cbn in Ch. congruence. }
      destruct B as [-> ->]. destruct (Q J HJ X) as [_ St]. unfold stays. cbn [box qualifyTemplateData]. unfold sbind.
      rewrite St, symbol_eqb_refl. eexists; reflexivity.
    + destruct (leaf_signature s i Hi T) as (k & c' & Er & Ch & Q). rewrite Er in E.
      assert (B : v' = VElem (InterfaceMethod cm n k p) /\ i' = after (sym_requests (sig_symbols s)) i).
      { destruct c'; injection E as <- <- <-; split; auto. cbn in Ch. congruence. }
      destruct B as [-> ->]. destruct (Q J HJ X) as [_ St]. unfold stays. cbn [box qualifyTemplateData]. unfold sbind.
      rewrite St. eexists; reflexivity.
  - injection E as <- <- <-. eexists; reflexivity.
  - injection E as <- <- <-. eexists; reflexivity.
Qed.

(** ** Walks never change the import path of the file *)
Lemma k_elems rec ok l : Forall (fun x => keeps pkgPath (rec x)) l -> forall b, keeps pkgPath (elems_loop implements rec ok l b).
Proof.
  induction 1 as [|x l K _ IH]; intros b; cbn [elems_loop]; [apply k_ret|]. apply k_bind; auto. intros [x' c]. destruct (b || c).
  - apply k_bind; [apply k_lift|]. intros _. apply k_bind; [apply k_lift|]. intros y. apply k_bind; auto. intros [r s]. apply k_ret.
  - apply k_bind; auto. intros [r s]. apply k_ret.
Qed.
Lemma k_fields rec addr l : Forall (fun f => keeps pkgPath (rec (snd f))) l -> forall e b, keeps pkgPath (fields_loop implements unsafe rec addr e l b).
Proof.
  induction 1 as [|[ex x] l K _ IH]; intros e b; cbn [fields_loop]; [apply k_ret|]. apply k_bind.
  { unfold getField_qualify. destruct ex; auto. destruct unsafe; [destruct addr; auto; apply k_panic|apply k_ret]. }
  intros [x' c]. destruct (b || c).
  - apply k_bind; [apply k_lift|]. intros _. apply k_bind; [apply k_lift|]. intros y. apply k_bind; auto. intros [r s]. apply k_ret.
  - apply k_bind; auto. intros [r s]. apply k_ret.
Qed.
Lemma k_entries rec l : Forall (fun f => keeps pkgPath (rec (fst f)) /\ keeps pkgPath (rec (snd f))) l -> forall m b,
  keeps pkgPath (map_loop implements rec l m b).
Proof.
  induction 1 as [|[k x] l [Kk Kx] _ IH]; intros m b; cbn [map_loop]; [apply k_ret|]. apply k_bind; auto. intros [k' ck].
  apply k_bind; auto. intros [x' cx]. destruct (b || ck || cx); auto.
  apply k_bind; [apply k_lift|]. intros y. apply k_bind; [apply k_lift|]. auto.
Qed.
Lemma k_replacement t old d m : replacement implements t old d = Some m -> keeps pkgPath m.
Proof.
  destruct d; cbn [replacement]; intros [= <-]; repeat (apply k_bind; [first [apply k_lift|apply k_type|apply k_package]|intros ?]);
    unfold replace; try (destruct a0); try (destruct a); try apply k_ret; apply k_bind; try apply k_qualify; intros ?; apply k_ret.
Qed.
Lemma k_walk v : forall addr, keeps pkgPath (walk addr v).
Proof.
  induction v as [t|t d IH|t fs IH|e|e x IH|t l IH|t l IH|t es IH|p|s|m|s|s r|e|im|n|r|g|o|p|t n] using val_ind';
    intros addr; cbn [qualifyTemplateData]; try apply k_ret;
    try (apply k_bind; [first [apply k_package|apply k_qualify|apply k_signature]|intros a; try destruct a as [a []]; apply k_ret]).
  - destruct (replacement implements t (VIface t (Some d)) d) eqn:R; auto. eapply k_replacement; eauto.
  - apply k_bind; [|intros [a []]; apply k_ret]. apply k_fields. eapply Forall_impl; [|exact IH]. auto.
  - apply k_bind; [auto|intros [a []]; apply k_ret].
  - apply k_bind; [|intros [a []]; apply k_ret]. apply k_elems. eapply Forall_impl; [|exact IH]. auto.
  - apply k_bind; [|intros [a []]; apply k_ret]. apply k_elems. eapply Forall_impl; [|exact IH]. auto.
  - apply k_bind; [|intros [a []]; apply k_ret]. apply k_entries. eapply Forall_impl; [|exact IH]. intros a []. auto.
  - apply k_bind; [apply k_lift|]. intros [p|]; [|apply k_ret]. apply k_bind; [apply k_package|]. intros a. apply k_ret.
  - destruct e; apply k_bind; [apply k_qualify| |apply k_signature|]; intros a; try destruct a as [a []]; apply k_ret.
Qed.
Lemma k_template d : keeps pkgPath (QualifyTemplateData implements unsafe parent_of d).
Proof. destruct d as [d|]; cbn [QualifyTemplateData]; [|apply k_ret]. apply k_bind; [apply k_walk|]. intros [a b]. apply k_ret. Qed.
End Runs.
