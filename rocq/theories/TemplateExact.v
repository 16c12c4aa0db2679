(** Template data: exactly when the walk panics, and exactly when something is renamed. *)
From Verif Require Import Base BaseFacts GoPath Types SpecTypes TypesFacts Imports SpecImports ImportsProofs ImportsTheorems Conv World
  SettleProofs QualifyProofs HeaderProofs Template SpecTemplate TemplateProofs TemplateRuns TemplateTheorems.

Lemma negb_eqb_iff a b : negb (String.eqb a b) = true <-> a <> b.
Proof. destruct (String.eqb_spec a b); cbn; split; congruence. Qed.
Lemma tells_iff {A} c (a b : A) : tells c a b -> c = true <-> b <> a.
Proof. destruct c; cbn; intros H; split; auto; congruence. Qed.

Section Exact.
Variable implements : gty -> string -> bool.
Variable unsafe : bool.
Variable parent_of : spec -> res (option Package).
Notation typed := (typed implements).
Notation reqs := (data_requests unsafe parent_of).
Notation walk := (qualifyTemplateData implements unsafe parent_of).
Notation fits := (assignable implements).
(** the imports after all registrations, or later *)
Variable j : Imports.
Hypothesis Hj : Inv j.
Notation nm := (name_in j).
Notation moved := (moved implements unsafe parent_of nm).
Notation moved_type := (moved_type nm).
Notation replaceable := (replaceable implements unsafe parent_of nm).
Notation walkable := (walkable implements unsafe parent_of nm).

Definition sharp (rec : val -> IM (val * bool)) (W : val -> Prop) (x : val) : Prop :=
  forall i, Inv i -> ext (after (reqs x) i) j ->
  match rec x i with
  | (Ok (x', c), i') => i' = after (reqs x) i /\ W x /\ (c = true <-> moved x) /\
      (c = true -> typeof x' = moved_type x) /\ (c = false -> fits (typeof x') (typeof x) = true)
  | (Panic _, _) => ~ W x
  end.

Lemma store_iff x x' : (exists y, store implements x x' = Ok y) <-> fits (typeof x') (typeof x) = true.
Proof. unfold store. destruct (fits _ _); split; eauto; [intros [y [=]]|discriminate]. Qed.
(** After a walk the new value fits exactly if it is replaceable. *)
Lemma sharp_store (W : val -> Prop) x x' (c : bool) :
  (c = true <-> moved x) -> (c = true -> typeof x' = moved_type x) -> (c = false -> fits (typeof x') (typeof x) = true) ->
  match store implements x x' with Ok _ => replaceable x | Panic _ => ~ replaceable x end.
Proof.
  intros M T F. unfold store. destruct (fits (typeof x') (typeof x)) eqn:B.
  - intros Mx. apply M in Mx. rewrite <- T; auto.
  - intros R. destruct c; [|specialize (F eq_refl); congruence].
    rewrite T in B by auto. rewrite (R (proj1 M eq_refl)) in B. discriminate.
Qed.
Lemma sharp_kept x (c : bool) : (c = true <-> moved x) -> c = false -> replaceable x.
Proof. intros M -> Mx. apply M in Mx. discriminate. Qed.

Lemma sharp_elems rec W ok l : Forall (sharp rec W) l -> forall started i, Inv i -> ext (after (flat_map reqs l) i) j ->
  match elems_loop implements rec ok l started i with
  | (Ok (l', s), i') => i' = after (flat_map reqs l) i /\ Forall (fun x => W x /\ replaceable x) l /\
      (s = true <-> started = true \/ Exists moved l) /\ (started = false -> Exists moved l -> ok = Ok tt)
  | (Panic _, _) => ~ (Forall (fun x => W x /\ replaceable x) l /\ (started = false -> Exists moved l -> ok = Ok tt))
  end.
Proof.
  induction 1 as [|x l D _ IH]; intros started i Hi X; cbn [elems_loop].
  - unfold sret. split; auto. split; auto. split; [|intros _ H; inversion H].
    split; auto. intros [H|H]; auto. inversion H.
  - cbn [flat_map] in *. rewrite after_app in *. unfold sbind, slift, sret.
    assert (I1 : Inv (after (reqs x) i)) by (apply after_Inv; auto).
    specialize (D i Hi (ext_trans _ _ _ (after_ext _ _ I1) X)).
    destruct (rec x i) as [[[x' c]|e] i1].
    2: { intros [F _]. inversion F as [|? ? [Wx _] _]; subst. auto. }
    destruct D as (-> & Wx & M & T & F).
    pose proof (sharp_store W x x' c M T F) as St.
    destruct (started || c) eqn:SC.
    + assert (OK : match (if started then Ok tt else ok) with Ok _ => True | Panic _ => started = false /\ c = true /\ ok <> Ok tt end).
      { destruct started; auto. cbn [orb] in SC. destruct ok as [[]|]; auto. repeat split; auto; discriminate. }
      destruct (if started then Ok tt else ok) as [[]|e] eqn:Eo.
      2: { destruct OK as (-> & Ec & N). intros [_ Q]. apply N, Q; auto. left. apply M. auto. }
      destruct (store implements x x') as [y|e]; [|intros [Fa _]; inversion Fa as [|? ? [_ R] _]; subst; auto].
      specialize (IH true (after (reqs x) i) I1 X).
      destruct (elems_loop implements rec ok l true (after (reqs x) i)) as [[[r s]|e] i2].
      * destruct IH as (-> & Fa & Ms & _). repeat split; auto.
        -- intros _. destruct started; auto. right. left. apply M. auto.
        -- intros -> _. destruct ok as [[]|]; auto; discriminate.
      * intros [Fa _]. inversion Fa; subst. apply IH. split; auto. discriminate.
    + apply orb_false_iff in SC as [-> ->].
      assert (Nx : ~ moved x) by (intros Mx; apply M in Mx; discriminate).
      specialize (IH false (after (reqs x) i) I1 X).
      destruct (elems_loop implements rec ok l false (after (reqs x) i)) as [[[r s]|e] i2].
      * destruct IH as (-> & Fa & Ms & Ok1). repeat split; auto.
        -- constructor; auto. split; auto. apply (sharp_kept x false); auto.
        -- intros S. apply Ms in S as [S|S]; auto.
        -- intros [S|S]; [discriminate|]. inversion S; subst; [contradiction|]. apply Ms; auto.
        -- intros _ S. inversion S; subst; [contradiction|]. auto.
      * intros [Fa Q]. inversion Fa; subst. apply IH. split; auto.
Qed.

Definition seen (f : bool * val) : Prop := (fst f = true \/ unsafe = true) /\ moved (snd f).
Definition field_ok (W : val -> Prop) addr (f : bool * val) : Prop :=
  (fst f = false -> unsafe = true -> addr = true) /\ (fst f = true \/ unsafe = true -> W (snd f) /\ replaceable (snd f)).
Definition fields_ok (started earlier : bool) (l : list (bool * val)) : Prop :=
  (started = true -> Forall (fun f => fst f = true) l) /\
  (started = false -> Exists seen l -> earlier = true /\ Forall (fun f => fst f = true) l).
Lemma sharp_fields rec W addr l : Forall (fun f => sharp rec W (snd f)) l -> forall earlier started i, Inv i ->
  ext (after (flat_map (fun f => if fst f || unsafe then reqs (snd f) else []) l) i) j ->
  match fields_loop implements unsafe rec addr earlier l started i with
  | (Ok (l', s), i') => i' = after (flat_map (fun f => if fst f || unsafe then reqs (snd f) else []) l) i /\
      Forall (field_ok W addr) l /\ (s = true <-> started = true \/ Exists seen l) /\ fields_ok started earlier l
  | (Panic _, _) => ~ (Forall (field_ok W addr) l /\ fields_ok started earlier l)
  end.
Proof.
  induction 1 as [|[ex x] l D _ IH]; intros earlier started i Hi X; cbn [fields_loop].
  - unfold sret. split; auto. split; auto. split.
    + split; auto. intros [H|H]; auto. inversion H.
    + split; auto. intros _ H. inversion H.
  - cbn [flat_map fst snd] in *. rewrite after_app in *.
    set (rq := if ex || unsafe then reqs x else []) in *.
    assert (I1 : Inv (after rq i)) by (apply after_Inv; auto).
    assert (G : match getField_qualify unsafe rec addr ex x i with
      | (Ok (x', c), i') => i' = after rq i /\ field_ok W addr (ex, x) /\ (c = true <-> seen (ex, x)) /\
           match store implements x x' with Ok _ => True | Panic _ => ~ field_ok W addr (ex, x) end
      | (Panic _, _) => ~ field_ok W addr (ex, x)
      end \/
      match getField_qualify unsafe rec addr ex x i with
      | (Ok (x', c), i') => i' = after rq i /\ (c = true <-> seen (ex, x)) /\ c = true /\ (exists e, store implements x x' = Panic e) /\ ~ field_ok W addr (ex, x)
      | _ => False
      end).
    { unfold getField_qualify, field_ok, seen. cbn [fst snd].
      assert (V : ex || unsafe = true -> match rec x i with
        | (Ok (x', c), i') => i' = after rq i /\ W x /\ (c = true <-> moved x) /\
            (c = true -> typeof x' = moved_type x) /\ (c = false -> fits (typeof x') (typeof x) = true)
        | (Panic _, _) => ~ W x
        end).
      { intros V. unfold rq in *. rewrite V in *. apply (D i Hi). eapply ext_trans; [apply after_ext; exact I1|exact X]. }
      assert (VV : (ex = true -> True) -> (ex || unsafe = true) -> (ex = false -> unsafe = true -> addr = true) ->
         match rec x i with
         | (Ok (x', c), i') => i' = after rq i /\ ((ex = false -> unsafe = true -> addr = true) /\ (ex = true \/ unsafe = true -> W x /\ replaceable x)) /\
              (c = true <-> (ex = true \/ unsafe = true) /\ moved x) /\
              match store implements x x' with Ok _ => True | Panic _ => ~ ((ex = false -> unsafe = true -> addr = true) /\ (ex = true \/ unsafe = true -> W x /\ replaceable x)) end
         | (Panic _, _) => ~ ((ex = false -> unsafe = true -> addr = true) /\ (ex = true \/ unsafe = true -> W x /\ replaceable x))
         end \/
         match rec x i with
         | (Ok (x', c), i') => i' = after rq i /\ (c = true <-> (ex = true \/ unsafe = true) /\ moved x) /\ c = true /\ (exists e, store implements x x' = Panic e) /\
             ~ ((ex = false -> unsafe = true -> addr = true) /\ (ex = true \/ unsafe = true -> W x /\ replaceable x))
         | _ => False
         end).
      { intros _ Vx Ad. specialize (V Vx). assert (Vo : ex = true \/ unsafe = true) by (apply orb_true_iff; auto).
        destruct (rec x i) as [[[x' c]|e] i1]; [|left; intros [_ Q]; apply V; apply Q; auto].
        destruct V as (-> & Wx & M & T & F). pose proof (sharp_store W x x' c M T F) as St.
        destruct (store implements x x') eqn:Es.
        - left. repeat split; auto; tauto.
        - right. repeat split; auto; try tauto.
          + destruct c; auto. exfalso. unfold store in Es. rewrite F in Es; auto. discriminate.
          + eauto. }
      destruct ex; cbn [orb] in *; [apply VV; auto; discriminate|].
      destruct unsafe; [|unfold sret; left].
      + destruct addr; [apply VV; auto|]. unfold spanic. left. intros [Q _]. discriminate Q; auto.
      + unfold rq. cbn [after fold_left]. split; auto. split; [split; [discriminate|intros [N|N]; discriminate N]|].
        split; [split; [discriminate|intros [[N|N] _]; discriminate N]|]. unfold store. now rewrite fits_refl. }
    unfold sbind, slift, sret.
    destruct (getField_qualify unsafe rec addr ex x i) as [[[x' c]|e] i1].
    2: { destruct G as [G|[]]. intros [Fa _]. inversion Fa; subst. auto. }
    destruct G as [(-> & Fx & M & St)|(-> & M & -> & (e & St) & N)].
    2: { rewrite orb_true_r. destruct ((started || earlier) && ex); [rewrite St|]; intros [Fa _]; inversion Fa; subst; auto. }
    destruct (started || c) eqn:SC.
    + destruct ((started || earlier) && ex) eqn:B.
      2: { intros [_ [Q1 Q2]]. destruct started; cbn [orb andb] in *.
           - specialize (Q1 eq_refl). inversion Q1 as [|? ? E1 _]; subst. cbn in E1. congruence.
           - subst c. destruct Q2 as [-> Q2]; auto. { left. apply M; auto. } inversion Q2 as [|? ? E1 _]; subst. cbn in E1. cbn in B. congruence. }
      apply andb_true_iff in B as [B ->].
      destruct (store implements x x') as [y|e]; [|contradiction].
      specialize (IH (earlier && true) true (after rq i) I1 X).
      destruct (fields_loop implements unsafe rec addr (earlier && true) l true (after rq i)) as [[[r s]|e] i2].
      * destruct IH as (-> & Fa & Ms & [Q _]). specialize (Q eq_refl). split; auto. split; auto. split.
        -- split; auto. intros _. destruct started; auto. right. left. apply M. auto.
        -- split; [intros _; constructor; auto|]. intros -> _. split; auto. 
      * intros [Fa [Q1 Q2]]. inversion Fa; subst. apply IH. split; auto. split; [|discriminate]. intros _.
        destruct started; [specialize (Q1 eq_refl); inversion Q1; auto|].
        cbn [orb] in SC. subst c. destruct Q2 as [_ Q2]; auto. { left. apply M; auto. } inversion Q2; auto.
    + apply orb_false_iff in SC as [-> ->].
      assert (Nx : ~ seen (ex, x)) by (intros Mx; apply M in Mx; discriminate).
      specialize (IH (earlier && ex) false (after rq i) I1 X).
      destruct (fields_loop implements unsafe rec addr (earlier && ex) l false (after rq i)) as [[[r s]|e] i2].
      * destruct IH as (-> & Fa & Ms & [_ Q]). split; auto. split; auto. split.
        -- split; [intros S; apply Ms in S as [S|S]; auto|]. intros [S|S]; [discriminate|]. inversion S; subst; [contradiction|]. apply Ms; auto.
        -- split; [discriminate|]. intros _ S. inversion S; subst; [contradiction|]. destruct Q as [Q0 Q]; auto.
           apply andb_true_iff in Q0 as [-> ->]. split; auto.
      * intros [Fa [_ Q]]. inversion Fa; subst. apply IH. split; auto. split; [discriminate|]. intros _ S.
        destruct Q as [-> Q]; auto. inversion Q as [|? ? E1 E2]; subst. cbn in E1. subst ex. auto.
Qed.

Definition entry_ok (W : val -> Prop) (e : val * val) : Prop :=
  (W (fst e) /\ replaceable (fst e)) /\ (W (snd e) /\ replaceable (snd e)).
Definition entry_moved (e : val * val) : Prop := moved (fst e) \/ moved (snd e).
Lemma sharp_map rec W l : Forall (fun e => sharp rec W (fst e) /\ sharp rec W (snd e)) l -> forall m started i, Inv i ->
  ext (after (flat_map (fun e => reqs (fst e) ++ reqs (snd e)) l) i) j ->
  match map_loop implements rec l m started i with
  | (Ok (l', s), i') => i' = after (flat_map (fun e => reqs (fst e) ++ reqs (snd e)) l) i /\
      Forall (entry_ok W) l /\ (s = true <-> started = true \/ Exists entry_moved l)
  | (Panic _, _) => ~ Forall (entry_ok W) l
  end.
Proof.
  induction 1 as [|[k x] l [Dk Dx] _ IH]; intros m started i Hi X; cbn [map_loop].
  - unfold sret. split; auto. split; auto. split; auto. intros [H|H]; auto. inversion H.
  - cbn [flat_map fst snd] in *. rewrite !after_app in *. unfold sbind, slift, sret.
    assert (I1 : Inv (after (reqs k) i)) by (apply after_Inv; auto).
    assert (I2 : Inv (after (reqs x) (after (reqs k) i))) by (apply after_Inv; auto).
    assert (X2 : ext (after (reqs x) (after (reqs k) i)) j) by (eapply ext_trans; [apply after_ext; exact I2|exact X]).
    specialize (Dk i Hi (ext_trans _ _ _ (after_ext _ _ I1) X2)).
    destruct (rec k i) as [[[k' ck]|e] i1]. 2: { intros Fa. inversion Fa as [|? ? [[Wk _] _] _]; subst. auto. }
    destruct Dk as (-> & Wk & Mk & Tk & Fk).
    specialize (Dx _ I1 X2).
    destruct (rec x (after (reqs k) i)) as [[[x' cx]|e] i2]. 2: { intros Fa. inversion Fa as [|? ? [_ [Wx _]] _]; subst. auto. }
    destruct Dx as (-> & Wx & Mx & Tx & Fx).
    pose proof (sharp_store W k k' ck Mk Tk Fk) as Sk. pose proof (sharp_store W x x' cx Mx Tx Fx) as Sx.
    assert (M : ck || cx = true <-> entry_moved (k, x)).
    { unfold entry_moved. cbn [fst snd]. rewrite orb_true_iff. tauto. }
    rewrite <- orb_assoc. destruct (started || (ck || cx)) eqn:SC.
    + destruct (store implements k k') as [k2|e]. 2: { intros Fa. inversion Fa as [|? ? [[_ R] _] _]; subst. auto. }
      destruct (store implements x x') as [x2|e]. 2: { intros Fa. inversion Fa as [|? ? [_ [_ R]] _]; subst. auto. }
      specialize (IH (set_entry k2 x2 m) true _ I2 X).
      destruct (map_loop implements rec l (set_entry k2 x2 m) true _) as [[[r s]|e] i3].
      * destruct IH as (-> & Fa & Ms). split; auto. split; [constructor; auto; split; auto|].
        split; [|intros _; apply Ms; auto]. intros _. apply orb_true_iff in SC as [SC|SC]; auto. right. left. apply M. auto.
      * intros Fa. inversion Fa; subst. auto.
    + apply orb_false_iff in SC as [-> SC].
      assert (N : ~ entry_moved (k, x)) by (rewrite <- M, SC; discriminate).
      specialize (IH (m ++ [(k, x)]) false _ I2 X).
      destruct (map_loop implements rec l (m ++ [(k, x)]) false _) as [[[r s]|e] i3].
      * destruct IH as (-> & Fa & Ms). split; auto. split.
        -- constructor; auto. split; split; auto; intros Q; exfalso; apply N; [left|right]; auto.
        -- split; [intros Q; apply Ms in Q as [Q|Q]; auto|]. intros [Q|Q]; [discriminate|]. inversion Q; subst; [contradiction|]. apply Ms; auto.
      * intros Fa. inversion Fa; subst. auto.
Qed.

Lemma some_Exists {A} (Q : A -> Prop) l : fold_right (fun x P => Q x \/ P) False l <-> Exists Q l.
Proof.
  induction l as [|a l IH]; cbn; split.
  - intros [].
  - intros H. inversion H.
  - intros [H|H]; [now left|right; tauto].
  - intros H. inversion H; subst; tauto.
Qed.
Lemma some_Exists2 {A} (Q1 Q2 : A -> Prop) l : fold_right (fun x P => Q1 x \/ Q2 x \/ P) False l <-> Exists (fun x => Q1 x \/ Q2 x) l.
Proof.
  induction l as [|a l IH]; cbn; split.
  - intros [].
  - intros H. inversion H.
  - intros [H|[H|H]]; [left; auto|left; auto|right; tauto].
  - intros H. inversion H; subst; tauto.
Qed.
Lemma all_iff {A} (Q : A -> Prop) l : fold_right (fun x P => Q x /\ P) True l <-> Forall Q l.
Proof. induction l; cbn; split; auto; [constructor; tauto|intros H; inversion H; subst; tauto]. Qed.
Lemma all_iff2 {A} (Q1 Q2 : A -> Prop) l : fold_right (fun x P => Q1 x /\ Q2 x /\ P) True l <-> Forall (fun x => Q1 x /\ Q2 x) l.
Proof. induction l; cbn; split; auto; [constructor; tauto|intros H; inversion H; subst; tauto]. Qed.
Lemma moved_slice t l : moved (VSlice t l) <-> Exists moved l.
Proof. cbn [SpecTemplate.moved]. apply some_Exists. Qed.
Lemma moved_array t l : moved (VArray t l) <-> Exists moved l.
Proof. cbn [SpecTemplate.moved]. apply some_Exists. Qed.
Lemma moved_struct t l : moved (VStruct t l) <-> Exists seen l.
Proof. cbn [SpecTemplate.moved]. apply (some_Exists seen). Qed.
Lemma moved_map t l : moved (VMap t l) <-> Exists entry_moved l.
Proof. cbn [SpecTemplate.moved]. apply (some_Exists2 (fun e => moved (fst e)) (fun e => moved (snd e))). Qed.
Lemma walkable_slice addr t l : walkable addr (VSlice t l) <-> Forall (fun x => walkable true x /\ replaceable x) l.
Proof. cbn [SpecTemplate.walkable]. apply (all_iff (fun x => walkable true x /\ replaceable x)). Qed.
Lemma walkable_array addr t l : walkable addr (VArray t l) <->
  Forall (fun x => walkable addr x /\ replaceable x) l /\ (Exists moved l -> addr = true).
Proof.
  change (walkable addr (VArray t l)) with
    (fold_right (fun x P => (walkable addr x /\ replaceable x) /\ P) True l /\ (moved (VArray t l) -> addr = true)).
  rewrite (all_iff (fun x => walkable addr x /\ replaceable x)), moved_array. tauto.
Qed.
Lemma walkable_struct addr t l : walkable addr (VStruct t l) <->
  Forall (field_ok (walkable addr) addr) l /\ (Exists seen l -> Forall (fun f => fst f = true) l).
Proof.
  change (walkable addr (VStruct t l)) with
    (fold_right (fun f P => (fst f = false -> unsafe = true -> addr = true) /\
                             (fst f = true \/ unsafe = true -> walkable addr (snd f) /\ replaceable (snd f)) /\ P) True l /\
      (moved (VStruct t l) -> Forall (fun f => fst f = true) l)).
  rewrite (all_iff2 (fun f => fst f = false -> unsafe = true -> addr = true)
                    (fun f => fst f = true \/ unsafe = true -> walkable addr (snd f) /\ replaceable (snd f))), moved_struct. tauto.
Qed.
Lemma walkable_map addr t l : walkable addr (VMap t l) <-> Forall (entry_ok (walkable false)) l.
Proof.
  cbn [SpecTemplate.walkable].
  apply (all_iff2 (fun e => walkable false (fst e) /\ replaceable (fst e)) (fun e => walkable false (snd e) /\ replaceable (snd e))).
Qed.

Lemma walk_sharp : forall v addr, typed v -> sharp (walk addr) (walkable addr) v.
Proof.
  assert (Close : forall addr v, typed v ->
    (forall i, Inv i -> ext (after (reqs v) i) j ->
     match walk addr v i with
     | (Ok (v', c), i') => walkable addr v /\ (c = true <-> moved v) /\ (c = true -> typeof v' = moved_type v)
     | (Panic _, _) => ~ walkable addr v
     end) -> sharp (walk addr) (walkable addr) v).
  { intros addr v T H i Hi X. specialize (H i Hi X). destruct (walk addr v i) as [[[v' c]|e] i'] eqn:E; auto.
    destruct H as (H1 & H2 & H3). repeat split; auto; try tauto.
    - exact (d_after _ _ _ _ _ _ _ _ (walk_does implements unsafe parent_of v addr T i v' c i' Hi E)).
    - intros ->. eapply same_fits; eauto. }
  induction v as [t|t d IH|t fs IH|e|e x IH|t l IH|t l IH|t es IH|p|s|m|s|s r|e|im|n|r|g|o|p|t n] using val_ind';
    intros addr T; apply Close; auto; intros i Hi X; cbn [qualifyTemplateData]; try contradiction.
  - unfold sret. cbn. repeat split; auto; try discriminate; tauto.
  - destruct T as (Imp & Nd & T). cbn [data_requests] in X.
    cbn [SpecTemplate.walkable SpecTemplate.moved SpecTemplate.moved_type].
    destruct (as_type d) as [n|] eqn:At.
    { destruct d; try discriminate At. injection At as ->. cbn [replacement denotes].
      destruct (leaf_type n i Hi T) as (n' & c' & En & Ch & Q). unfold sbind, replace, sret. rewrite En.
      destruct (Q j Hj X) as [-> _]. apply tells_iff in Ch.
      assert (Tn : typename_gty (type_as nm n) = typename_gty n) by (destruct n; auto).
      cbn [typeof] in *. rewrite Tn, Imp, andb_true_r. destruct c'; repeat split; auto; try tauto; discriminate. }
    destruct (denotes d) as [[r|m]|] eqn:De.
    + destruct (replacement_ref implements t (VIface t (Some d)) d r i Hi De T) as (m & r' & c' & Em & Er & Ch & Q).
      rewrite Em, Er. rewrite (Q j Hj X) in *. apply tells_iff in Ch.
      destruct (c' && implements (typeof (shown (ref_as nm r))) t) eqn:B.
      * apply andb_true_iff in B as [-> B]. repeat split; eauto. tauto.
      * apply andb_false_iff in B. split; eauto. split; [|discriminate]. split; [discriminate|]. intros [N Im].
        apply Ch in N. destruct B; congruence.
    + destruct (replacement_panic implements t (VIface t (Some d)) d m i De) as (m' & Em & Ep). rewrite Em, Ep. intros [y [=]].
    + rewrite (replacement_none _ _ _ _ De At). specialize (IH false T i Hi X).
      destruct (walk false d i) as [[[v' c]|e] i']; auto. tauto.
  - cbn [data_requests] in X. cbn [typed] in T. apply Forall_typed_fields in T. unfold sbind, sret.
    assert (D : Forall (fun f => sharp (walk addr) (walkable addr) (snd f)) fs).
    { eapply Forall_apply; [|exact IH|exact T]. cbn beta. intros; auto. }
    pose proof (sharp_fields (walk addr) (walkable addr) addr fs D true false i Hi X) as G.
    destruct (fields_loop _ _ _ _ _ _ _ i) as [[[l' [|]]|m] i1]; rewrite walkable_struct.
    1,2: destruct G as (_ & Fa & Ms & [_ Q]); rewrite moved_struct, Ms;
      (split; [split; auto; intros H; apply Q; auto|]); (split; [intuition discriminate|auto; discriminate]).
    + intros [Fa Q]. apply G. split; auto. split; [discriminate|]. auto.
  - unfold sret. cbn. repeat split; auto; try discriminate; tauto.
  - destruct T as [Te T]. cbn [data_requests] in X. specialize (IH true T i Hi X). unfold sbind, sret.
    cbn [SpecTemplate.walkable SpecTemplate.moved SpecTemplate.moved_type].
    destruct (walk true x i) as [[[x' s]|m] i1]; auto. destruct IH as (_ & W & M & Ty & _).
    destruct s; repeat split; auto; try tauto; try discriminate. intros _. cbn [typeof]. rewrite Ty; auto.
  - cbn [data_requests] in X. apply Forall_typed in T. unfold sbind, sret.
    assert (D : Forall (sharp (walk true) (walkable true)) l).
    { eapply Forall_apply; [|exact IH|exact T]. cbn beta. intros; auto. }
    pose proof (sharp_elems (walk true) (walkable true) (Ok tt) l D false i Hi X) as G.
    destruct (elems_loop _ _ _ _ _ i) as [[[l' [|]]|m] i1]; rewrite walkable_slice.
    1,2: destruct G as (_ & Fa & Ms & _); rewrite moved_slice, Ms;
      (split; [exact Fa|]); (split; [intuition discriminate|auto; discriminate]).
    + intros Fa. apply G. split; auto.
  - cbn [data_requests] in X. apply Forall_typed in T. unfold sbind, sret.
    assert (D : Forall (sharp (walk addr) (walkable addr)) l).
    { eapply Forall_apply; [|exact IH|exact T]. cbn beta. intros; auto. }
    pose proof (sharp_elems (walk addr) (walkable addr) (if addr then Ok tt else Panic p_slice) l D false i Hi X) as G.
    destruct (elems_loop _ _ _ _ _ i) as [[[l' [|]]|m] i1]; rewrite walkable_array.
    1,2: destruct G as (_ & Fa & Ms & Q); rewrite moved_array, Ms;
      (split; [split; auto; intros H; specialize (Q eq_refl H); destruct addr; auto; discriminate|]);
      (split; [intuition discriminate|auto; discriminate]).
    + intros [Fa Q]. apply G. split; auto. intros _ H. rewrite (Q H). auto.
  - cbn [data_requests] in X. destruct T as [T O]. apply Forall_typed_entries in T. unfold sbind, sret.
    assert (D : Forall (fun e => sharp (walk false) (walkable false) (fst e) /\ sharp (walk false) (walkable false) (snd e)) es).
    { eapply Forall_apply; [|exact IH|exact T]. intros a [H1 H2] [T1 T2]. split; auto. }
    pose proof (sharp_map (walk false) (walkable false) es D [] false i Hi X) as G.
    destruct (map_loop _ _ _ _ _ i) as [[[l' [|]]|m] i1]; rewrite walkable_map; auto.
    all: destruct G as (_ & Fa & Ms); rewrite moved_map, Ms;
      (split; [exact Fa|]); (split; [intuition discriminate|auto; discriminate]).
  - destruct (leaf_package p i Hi) as (n & Er & Q). unfold sbind, sret. rewrite Er. destruct (Q j Hj X) as [-> _].
    pose proof (negb_eqb_iff (nm (ImportPath p)) (PkgName p)) as M.
    destruct (negb _); cbn [SpecTemplate.walkable SpecTemplate.moved]; repeat split; auto; try tauto; discriminate.
  - destruct (leaf_symbol s i Hi) as (s' & Er & Q). unfold sbind, sret. rewrite Er. destruct (Q j Hj X) as [-> _].
    pose proof (tells_iff _ _ _ (tells_symbol s (sym_as nm s))) as M.
    destruct (negb _); cbn [SpecTemplate.walkable SpecTemplate.moved]; repeat split; auto; try tauto; discriminate.
  - destruct (leaf_symbol (MRType m) i Hi) as (s' & Er & Q). unfold sbind, sret. rewrite Er. destruct (Q j Hj X) as [-> _].
    pose proof (tells_iff _ _ _ (tells_symbol (MRType m) (sym_as nm (MRType m)))) as M.
    destruct (negb _); cbn [SpecTemplate.walkable SpecTemplate.moved]; repeat split; auto; try tauto; discriminate.
  - destruct (leaf_signature s i Hi T) as (s' & c' & Er & Ch & Q). unfold sbind, sret. rewrite Er. destruct (Q j Hj X) as [-> _].
    apply tells_iff in Ch. destruct c'; cbn [SpecTemplate.walkable SpecTemplate.moved]; repeat split; auto; try tauto; discriminate.
  - unfold sbind, slift, sret. cbn [SpecTemplate.walkable SpecTemplate.moved data_requests] in *.
    destruct (spec_parent parent_of s r) as [[p|]|m] eqn:Sp.
    + destruct (leaf_package p i Hi) as (n & Er & Q). rewrite Er. destruct (Q j Hj X) as [-> _].
      pose proof (negb_eqb_iff (nm (ImportPath p)) (PkgName p)) as M.
      destruct (negb _); (split; [eauto|]); (split; [|destruct s; auto; discriminate]).
      * split; auto. intros _. exists p. split; auto. tauto.
      * split; [discriminate|]. intros (q & [= <-] & N). tauto.
    + split; eauto. split; [|discriminate]. split; [discriminate|]. intros (q & [=] & _).
    + intros [q [=]].
  - destruct e as [cm s p|cm n s p]; unfold sbind, sret; cbn [SpecTemplate.walkable SpecTemplate.moved data_requests] in *.
    + destruct (leaf_symbol s i Hi) as (s' & Er & Q). rewrite Er. destruct (Q j Hj X) as [-> _].
      pose proof (tells_iff _ _ _ (tells_symbol s (sym_as nm s))) as M. rewrite symbol_eqb_sym.
      destruct (negb _); repeat split; auto; try tauto; discriminate.
    + destruct (leaf_signature s i Hi T) as (s' & c' & Er & Ch & Q). rewrite Er. destruct (Q j Hj X) as [-> _].
      apply tells_iff in Ch. destruct c'; repeat split; auto; try tauto; discriminate.
  - unfold sret. cbn. repeat split; auto; try discriminate; tauto.
  - unfold sret. cbn. repeat split; auto; try discriminate; tauto.
Qed.
End Exact.

Section Theorems.
Variable implements : gty -> string -> bool.
Variable unsafe : bool.
Variable parent_of : spec -> res (option Package).
Notation Q := (QualifyTemplateData implements unsafe parent_of).
(** the names of the file once everything the data mentions is registered *)
Notation names i d := (name_in (run (registrations (data_requests unsafe parent_of (data d))) i)).

Lemma panics_exact own h d : let i := run h (NewImportsFor own) in
  typed implements (data d) ->
  (is_ok (fst (Q (Some d) i)) = true <-> walkable implements unsafe parent_of (names i d) true (data d)).
Proof.
  intros i T. assert (Hi : Inv i) by apply run_new_Inv. rewrite run_registrations.
  set (j := after (data_requests unsafe parent_of (data d)) i).
  assert (Hj : Inv j) by (apply after_Inv; auto).
  pose proof (walk_sharp implements unsafe parent_of j Hj (data d) true T i Hi (ext_refl _)) as S.
  unfold QualifyTemplateData, sbind, sret. change (VIface "interface {}" (Some d)) with (data d).
  destruct (qualifyTemplateData implements unsafe parent_of true (data d) i) as [[[v c]|e] i1]; cbn [fst is_ok].
  - destruct S as (_ & W & _). tauto.
  - split; [discriminate|]. intros W. contradiction.
Qed.
Lemma kept_data own h d : let i := run h (NewImportsFor own) in
  typed implements (data d) -> walkable implements unsafe parent_of (names i d) true (data d) ->
  ~ moved implements unsafe parent_of (names i d) (data d) ->
  Q (Some d) i = (Ok (Some d), run (registrations (data_requests unsafe parent_of (data d))) i).
Proof.
  intros i T. assert (Hi : Inv i) by apply run_new_Inv. rewrite run_registrations.
  set (j := after (data_requests unsafe parent_of (data d)) i).
  assert (Hj : Inv j) by (apply after_Inv; auto). intros W N.
  pose proof (walk_sharp implements unsafe parent_of j Hj (data d) true T i Hi (ext_refl _)) as S.
  unfold QualifyTemplateData, sbind, sret. change (VIface "interface {}" (Some d)) with (data d).
  destruct (qualifyTemplateData implements unsafe parent_of true (data d) i) as [[[v c]|e] i1] eqn:E; [|contradiction].
  destruct S as (-> & _ & M & _). destruct c; [destruct N; apply M; auto|]. f_equal. f_equal.
  eapply same_data; [|exact E]. apply T.
Qed.

(** ** What is moved is different *)
Notation typed := (typed implements).
Notation renamed := (renamed implements unsafe parent_of).
Notation renamed_all := (renamed_all implements unsafe parent_of).
Notation renamed_fields := (renamed_fields implements unsafe parent_of).
Notation renamed_entries := (renamed_entries implements unsafe parent_of).
Lemma entries_grow l : forall m, List.length (entries_in l m) <= List.length m + List.length l /\
  (List.length (entries_in l m) = List.length m + List.length l -> entries_in l m = m ++ l).
Proof.
  assert (S : forall k x m, set_entry k x m = m ++ [(k, x)] \/ List.length (set_entry k x m) = List.length m).
  { intros k x. induction m as [|[k' x'] m IH]; cbn [set_entry]; auto. destruct (same_key k k'); [right; auto|].
    destruct IH as [->|E]; [left; auto|right; cbn; auto]. }
  induction l as [|[k x] l IH]; intros m; unfold entries_in; cbn [fold_left fst snd].
  - rewrite Nat.add_0_r, app_nil_r. auto.
  - fold (entries_in l (set_entry k x m)). destruct (IH (set_entry k x m)) as [L E]. cbn [List.length] in *.
    destruct (S k x m) as [Eq|Eq].
    + rewrite Eq in *. rewrite app_length in *. cbn [List.length] in *. split; [lia|]. intros H. rewrite E by lia. now rewrite <- app_assoc.
    + split; [lia|]. intros H. lia.
Qed.
Lemma renamed_iface nm c v v' : renamed nm c v v' -> is_iface v' = is_iface v.
Proof. destruct 1; auto. Qed.
Lemma renamed_differs nm v : forall v', typed v -> renamed nm true v v' -> v' <> v.
Proof.
  induction v as [t|t d IH|t fs IH|e|e x IH|t l IH|t l IH|t es IH|p|s|m|s|s r|e|im|n|r|g|o|p|t n] using val_ind';
    intros v' T R; try contradiction; inversion R; subst; clear R; try (cbn in *; congruence).
  - intros [= E]. destruct d; try discriminate; destruct (ref_as nm r); discriminate.
  - destruct T as (_ & Nd & T). intros [= E].
    match goal with A : as_type d = None, B : denotes d = None |- _ => rewrite A, B in T end. eapply IH; eauto.
  - cbn [SpecTemplate.typed] in T. apply Forall_typed_fields in T. intros [= ->].
    assert (G : forall c, renamed_fields nm c fs fs -> c = true -> False); [|eapply G; eauto].
    clear - IH T. induction fs as [|[ex x] fs IHf]; intros c R C; inversion R; subst; try discriminate;
      apply Forall_cons_iff in IH as [Ix IH]; apply Forall_cons_iff in T as [Tx T]; eauto.
    match goal with A : _ || _ = true |- _ => apply orb_true_iff in A as [->|A]; [|eauto] end. cbn [snd] in *. eapply Ix; eauto.
  - destruct T as [Te T]. intros [= Et E].
    match goal with A : SpecTemplate.renamed _ _ _ _ _ x x' |- _ => rename A into R end.
    pose proof (renamed_iface _ _ _ _ R) as F. destruct (is_iface x) eqn:Fx.
    + rewrite <- E in Fx. destruct x as [tx [d|]| | | | | | | | | | | | | | | | | |]; try (inversion R; fail); try (rewrite E in Fx; discriminate).
      destruct T as (_ & Nd & _). inversion R; subst; cbn [held] in Fx; try discriminate.
      * rewrite shown_not_iface in Fx. discriminate.
      * match goal with A : SpecTemplate.renamed _ _ _ _ _ d _ |- _ => apply renamed_iface in A; congruence end.
    + assert (held x' = x') by (destruct x'; auto; discriminate). eapply IH; eauto. congruence.
  - cbn [SpecTemplate.typed] in T. apply Forall_typed in T. intros [= ->].
    assert (G : forall c, renamed_all nm c l l -> c = true -> False); [|eapply G; eauto].
    clear - IH T. induction l as [|x l IHl]; intros c R C; inversion R; subst; try discriminate;
      apply Forall_cons_iff in IH as [Ix IH]; apply Forall_cons_iff in T as [Tx T].
    match goal with A : _ || _ = true |- _ => apply orb_true_iff in A as [->|A]; [|eauto] end. eapply Ix; eauto.
  - cbn [SpecTemplate.typed] in T. apply Forall_typed in T. intros [= ->].
    assert (G : forall c, renamed_all nm c l l -> c = true -> False); [|eapply G; eauto].
    clear - IH T. induction l as [|x l IHl]; intros c R C; inversion R; subst; try discriminate;
      apply Forall_cons_iff in IH as [Ix IH]; apply Forall_cons_iff in T as [Tx T].
    match goal with A : _ || _ = true |- _ => apply orb_true_iff in A as [->|A]; [|eauto] end. eapply Ix; eauto.
  - destruct T as [T _]. apply Forall_typed_entries in T. intros [= E].
    match goal with A : SpecTemplate.renamed_entries _ _ _ _ _ es es' |- _ => rename A into R end.
    fold (entries_in es' []) in E. destruct (entries_grow es' []) as [_ G]. cbn [List.length Nat.add app] in G.
    assert (L : List.length es' = List.length es). { clear - R. induction R; cbn; auto. }
    rewrite E in G. rewrite L in G. specialize (G eq_refl). subst es'. clear - IH T R.
    assert (G : forall c, renamed_entries nm c es es -> c = true -> False); [|eapply G; eauto]. clear R.
    induction es as [|[k x] es IHl]; intros c R C; inversion R; subst; try discriminate;
      apply Forall_cons_iff in IH as [[Ik Ix] IH]; apply Forall_cons_iff in T as [[Tk Tx] T]; cbn [fst snd] in *.
    match goal with A : ?ck || ?cx || ?cs = true |- _ => apply orb_true_iff in A as [A|A]; [apply orb_true_iff in A as [A|A]|] end; subst.
    + eapply Ik; eauto.
    + eapply Ix; eauto.
    + eapply IHl; eauto.
  - destruct m as [ty mn]. cbn in *. congruence.
  - intros [= <-].
    match goal with A : spec_parent _ _ _ = _, B : _ <> PkgName p |- _ =>
      cbn in A; injection A as A; apply B; rewrite <- A at 2; reflexivity end.
Qed.
Lemma unchanged_exact own h d : let i := run h (NewImportsFor own) in typed (data d) ->
  (fst (Q (Some d) i) = Ok (Some d) <->
   walkable implements unsafe parent_of (names i d) true (data d) /\ ~ moved implements unsafe parent_of (names i d) (data d)).
Proof.
  intros i T. split.
  - intros E. pose proof (panics_exact own h d T) as P. fold i in P. rewrite E in P. split; [apply P; auto|]. clear P.
    assert (Hi : Inv i) by apply run_new_Inv. rewrite run_registrations.
    set (j := after (data_requests unsafe parent_of (data d)) i).
    assert (Hj : Inv j) by (apply after_Inv; auto).
    pose proof (walk_sharp implements unsafe parent_of j Hj (data d) true T i Hi (ext_refl _)) as S.
    unfold QualifyTemplateData, sbind, sret in E. change (VIface "interface {}" (Some d)) with (data d) in E.
    destruct (qualifyTemplateData implements unsafe parent_of true (data d) i) as [[[v c]|e] i1] eqn:W; [|discriminate].
    destruct S as (A & _ & M & _). intros Mv. apply M in Mv. subst c. cbn [fst] in E.
    pose proof (walk_does implements unsafe parent_of (data d) true T i v true i1 Hi W) as D.
    pose proof (d_new _ _ _ _ _ _ _ _ D eq_refl) as N.
    pose proof (d_renamed _ _ _ _ _ _ _ _ D j Hj) as R. subst i1. specialize (R (ext_refl _)).
    apply renamed_differs in R; auto. apply R. unfold data at 1. rewrite box_new by auto. unfold data.
    injection E as E. rewrite <- E. destruct v; auto; discriminate.
  - intros [W N]. unfold i. rewrite (kept_data own h d T W N). auto.
Qed.
Lemma type_exact own h d d' i' : let i := run h (NewImportsFor own) in typed (data d) ->
  Q (Some d) i = (Ok (Some d'), i') ->
  (moved implements unsafe parent_of (names i d) (data d) -> typeof d' = moved_type (names i d) (data d)) /\
  (~ moved implements unsafe parent_of (names i d) (data d) -> d' = d).
Proof.
  intros i T E. split.
  - intros Mv. assert (Hi : Inv i) by apply run_new_Inv. rewrite run_registrations in *.
    set (j := after (data_requests unsafe parent_of (data d)) i) in *.
    assert (Hj : Inv j) by (apply after_Inv; auto).
    pose proof (walk_sharp implements unsafe parent_of j Hj (data d) true T i Hi (ext_refl _)) as S.
    unfold QualifyTemplateData, sbind, sret in E. change (VIface "interface {}" (Some d)) with (data d) in E.
    destruct (qualifyTemplateData implements unsafe parent_of true (data d) i) as [[[v c]|e] i1] eqn:W; [|discriminate].
    destruct S as (A & _ & M & Ty & _). apply M in Mv. subst c. injection E as E _. rewrite <- Ty by auto.
    pose proof (walk_does implements unsafe parent_of (data d) true T i v true i1 Hi W) as D.
    pose proof (d_new _ _ _ _ _ _ _ _ D eq_refl) as N. destruct v; try discriminate N; injection E as <-; auto.
  - intros N. pose proof (panics_exact own h d T) as P. fold i in P. rewrite E in P. cbn [fst is_ok] in P.
    pose proof (kept_data own h d T (proj1 P eq_refl) N) as K. fold i in K. rewrite E in K. injection K as K _. auto.
Qed.
End Theorems.
