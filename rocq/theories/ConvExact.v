(** C26: exactly which reflect types are converted, and exactly which are converted faithfully. *)
From Verif Require Import Base BaseFacts Types SpecTypes TypesFacts Conv SpecConv TypesTheorems ConvProofs.

(** ** which are converted at all *)
Definition TK (t : RType) : Prop := rvalid t = true ->
  match TypeNameForReflectType t with
  | Ok n => rtaken t = true /\ n <> TNil /\ is_slice n = is_rslice t
  | Panic _ => rtaken t = false
  end.
Lemma takes_args l : Forall TK l -> forallb rvalid l = true ->
  match all_ok (map (fun t => rbind (TypeNameForReflectType t) (fun t => Ok (mkArg "" t))) l) with
  | Ok a => forallb rtaken l = true /\ Forall (fun x => ArgTy x <> TNil) a /\
            map (fun x => is_slice (ArgTy x)) a = map is_rslice l
  | Panic _ => forallb rtaken l = false
  end.
Proof.
  induction 1 as [|t l H F IH]; cbn [forallb map all_ok]; [auto|].
  rewrite andb_true_iff. intros [V1 V2]. specialize (H V1). specialize (IH V2).
  destruct (TypeNameForReflectType t) as [n|m]; cbn [rbind]; [|rewrite H; auto].
  destruct H as (-> & N & S). destruct (all_ok _) as [a|m]; cbn [rbind andb]; auto.
  destruct IH as (-> & NA & M). cbn [map ArgTy]. rewrite S, M. auto.
Qed.
(** The second loop, over the results, at position [i] of the arguments. *)
Fixpoint results_loop (i : nat) (outs : list RType) (args : list ArgType) : res (list ArgType) :=
  match outs with
  | [] => Ok args
  | o :: r =>
      rbind (TypeNameForReflectType o) (fun t =>
      match set_nth i (mkArg "" t) args with
      | None => Panic index_oob
      | Some args => results_loop (S i) r args
      end)
  end.
Lemma sig_loop ins outs v : signatureFromReflectType_ TypeNameForReflectType (mkRSig ins outs v) =
  rbind (all_ok (map (fun t => rbind (TypeNameForReflectType t) (fun t => Ok (mkArg "" t))) ins)) (fun args =>
  rbind (results_loop 0 outs args) (fun args => Ok (mkSig args (map (fun _ => mkArg "" TNil) outs) v))).
Proof. reflexivity. Qed.
Lemma set_nth_some {A} i (v : A) l : i < List.length l -> exists l', set_nth i v l = Some l'.
Proof.
  revert i. induction l as [|x l IH]; intros [|i]; cbn; try lia; eauto.
  intros L. destruct (IH i) as [l' ->]; [lia|]. eauto.
Qed.
Lemma set_nth_none {A} i (v : A) l : List.length l <= i -> set_nth i v l = None.
Proof.
  revert i. induction l as [|x l IH]; intros [|i]; cbn; auto; try lia.
  intros L. rewrite IH by lia. auto.
Qed.
Lemma takes_results outs : Forall TK outs -> forallb rvalid outs = true -> forall i args,
  i <= List.length args ->
  is_ok (results_loop i outs args) = forallb rtaken outs && Nat.leb (i + List.length outs) (List.length args).
Proof.
  induction 1 as [|t l H F IH]; cbn [forallb results_loop]; intros V i args L.
  - cbn. rewrite Nat.add_0_r. symmetry. apply Nat.leb_le. auto.
  - apply andb_true_iff in V as [V1 V2]. specialize (H V1).
    destruct (TypeNameForReflectType t) as [n|m]; cbn [rbind]; [|rewrite H; auto].
    destruct H as (-> & _). cbn [andb List.length]. destruct (Nat.lt_ge_cases i (List.length args)) as [C|C].
    + destruct (set_nth_some i (mkArg "" n) args C) as [a E]. rewrite E.
      apply set_nth_length in E. rewrite IH by (auto; lia). rewrite E. f_equal. f_equal. lia.
    + rewrite set_nth_none by auto. cbn [is_ok]. symmetry. apply andb_false_iff. right.
      apply Nat.leb_gt. lia.
Qed.
Lemma is_ok_rbind {A B} (m : res A) (k : A -> res B) : is_ok (rbind m k) = match m with Ok a => is_ok (k a) | Panic _ => false end.
Proof. destruct m; auto. Qed.
Lemma all_ok_length {A} (l : list (res A)) a : all_ok l = Ok a -> List.length a = List.length l.
Proof.
  revert a. induction l as [|[x|m] l IH]; intros a; cbn; try discriminate.
  - intros [= <-]. auto.
  - destruct (all_ok l) as [r|]; cbn; [|discriminate]. intros [= <-]. cbn. f_equal. auto.
Qed.
Lemma takes_sig ins outs v : Forall TK ins -> Forall TK outs ->
  forallb rvalid ins = true -> forallb rvalid outs = true ->
  is_ok (signatureFromReflectType_ TypeNameForReflectType (mkRSig ins outs v)) =
  forallb rtaken ins && forallb rtaken outs && Nat.leb (List.length outs) (List.length ins).
Proof.
  intros FI FO VI VO. rewrite sig_loop, is_ok_rbind. pose proof (takes_args ins FI VI) as T.
  destruct (all_ok _) as [a|m] eqn:E; [|rewrite T; auto]. destruct T as (-> & _).
  apply all_ok_length in E. rewrite map_length in E. rewrite is_ok_rbind.
  pose proof (takes_results outs FO VO 0 a) as R. rewrite E in R. cbn [andb Nat.add] in *.
  destruct (results_loop 0 outs a); cbn [is_ok] in *; rewrite <- R by lia; auto.
Qed.
Lemma takes : forall t, TK t.
Proof.
  induction t using RType_ind'; intros V.
  - destruct (reflect_conv (RNamed k p n) V eq_refl) as (x & -> & _ & N & S). auto.
  - specialize (IHt V). cbn [TypeNameForReflectType rKind rName rPkgPath is_basic andb negb String.eqb rtaken].
    destruct (TypeNameForReflectType t) as [x|m]; cbn [rbind]; auto. destruct IHt as (T & N & _).
    unfold PointerType. rewrite (nil_ok x) by auto. repeat split; auto; discriminate.
  - specialize (IHt V). cbn [TypeNameForReflectType rKind rName rPkgPath is_basic andb negb String.eqb rtaken].
    destruct (TypeNameForReflectType t) as [x|m]; cbn [rbind]; auto. destruct IHt as (T & N & _).
    unfold SliceType. rewrite (nil_ok x) by auto. repeat split; auto; discriminate.
  - cbn [rvalid] in V. apply andb_true_iff in V as [V0 V]. apply Z.leb_le in V0.
    specialize (IHt V). cbn [TypeNameForReflectType rKind rName rPkgPath is_basic andb negb String.eqb rtaken].
    destruct (TypeNameForReflectType t) as [x|m]; cbn [rbind]; auto. destruct IHt as (T & N & _).
    unfold ArrayType. rewrite (nil_ok x) by auto. destruct (Z.ltb_spec n 0); [lia|].
    repeat split; auto; discriminate.
  - reflexivity.
  - cbn [rvalid] in V. apply andb_true_iff in V as [V0 V]. apply andb_true_iff in V0 as [V0 V1].
    apply Z.leb_le in V0, V1.
    specialize (IHt V). cbn [TypeNameForReflectType rKind rName rPkgPath is_basic andb negb String.eqb rtaken].
    destruct (TypeNameForReflectType t) as [x|m]; cbn [rbind]; auto. destruct IHt as (T & N & _).
    unfold ChannelType. rewrite (nil_ok x) by auto.
    assert (d = 1 \/ d = 2 \/ d = 3)%Z as [->|[->| ->]] by lia; (repeat split; auto; discriminate).
  - destruct s as [ins outs v]. destruct H as [HI HO]. cbn [RIn ROut] in HI, HO. destruct outs as [|o outs].
    + cbn [rvalid rvalid_sig forallb] in V. rewrite andb_true_r, andb_true_iff in V. destruct V as [V1 V2].
      cbn [TypeNameForReflectType rKind rName rPkgPath is_basic andb negb String.eqb rtaken].
      rewrite sig_loop. pose proof (takes_args ins HI V1) as T. destruct (all_ok _) as [a|m]; cbn [rbind]; auto.
      destruct T as (T & N & M). cbn [results_loop rbind map].
      rewrite func_ok by (auto; constructor).
      assert (VO : variadic_ok (mkSig a [] v) = true).
      { unfold variadic_ok. cbn [IsVariadic Args]. destruct v; auto. cbn [negb orb] in *.
        apply (f_equal (@rev bool)) in M. rewrite <- !map_rev in M.
        destruct (rev a) as [|x y], (rev ins) as [|t z]; try discriminate; auto. cbn [map] in M. congruence. }
      rewrite VO. repeat split; auto; discriminate.
    + pose proof (reflect_results (mkRSig ins (o :: outs) v)) as R. cbn [ROut] in R.
      destruct (TypeNameForReflectType _); [|reflexivity]. discriminate R. discriminate.
  - cbn [TypeNameForReflectType rKind rName rPkgPath is_basic andb negb String.eqb rtaken rvalid] in *.
    set (g := fun f : RField => match f with mkRField n t tag _ => rbind (TypeNameForReflectType t) (fun t => Ok (mkField n t tag)) end).
    assert (X : is_ok (all_ok (map g fs)) = forallb (fun f => match f with mkRField _ t _ _ => rtaken t end) fs).
    { induction H as [|[n t tag a] l H F IH]; cbn [map all_ok forallb] in *; auto.
      apply andb_true_iff in V as [V1 V2]. apply andb_true_iff in V1 as [_ V1]. cbn [RFType] in H.
      specialize (H V1). specialize (IH V2). unfold g at 1.
      destruct (TypeNameForReflectType t) as [x|m]; cbn [rbind]; [|rewrite H; auto].
      destruct H as (-> & _). rewrite <- IH. cbn [andb]. destruct (all_ok (map g l)); auto. }
    destruct (all_ok (map g fs)); cbn [rbind is_ok] in *; auto. repeat split; auto; discriminate.
  - cbn [TypeNameForReflectType rKind rName rPkgPath is_basic andb negb String.eqb rtaken rvalid] in *.
    match goal with |- context [forallb ?h ms] => set (tk := h) end.
    set (g := fun m : RMethod => match m with mkRMethod n s => rbind (signatureFromReflectType_ TypeNameForReflectType s) (fun s => Ok (mkMethod n s)) end).
    assert (X : is_ok (all_ok (map g ms)) = forallb tk ms).
    { induction H as [|[n [ins outs v]] l H F IH]; cbn [map all_ok forallb] in *; auto.
      apply andb_true_iff in V as [V1 V2]. cbn [RMSig rvalid_sig] in H, V1. destruct H as [HI HO]. cbn [RIn ROut] in HI, HO.
      apply andb_true_iff in V1 as [V1 _]. apply andb_true_iff in V1 as [VI VO].
      specialize (IH V2). unfold g at 1, tk at 1.
      rewrite <- (takes_sig ins outs v HI HO VI VO).
      destruct (signatureFromReflectType_ _ _); cbn [rbind is_ok andb]; auto.
      rewrite <- IH. destruct (all_ok (map g l)); auto. }
    destruct (all_ok (map g ms)); cbn [rbind is_ok] in *; auto. repeat split; auto; discriminate.
Qed.
Lemma reflect_taken t : rvalid t = true -> is_ok (TypeNameForReflectType t) = rtaken t.
Proof.
  intros V. pose proof (takes t V) as T. destruct (TypeNameForReflectType t); cbn [is_ok]; [destruct T as (-> & _)|]; auto.
Qed.

(** ** which faithfully *)
Definition PL (t : RType) : Prop := forall n, rvalid t = true -> TypeNameForReflectType t = Ok n -> rsame t n -> rplain t = true.
Lemma same_not_nil t : ~ rsame t TNil.
Proof. destruct t; cbn [rsame]; try (intros (H & _); discriminate H). destruct (_ && _); intros (H & _); discriminate H. Qed.
Lemma plain_args l : Forall PL l -> forall a, forallb rvalid l = true ->
  all_ok (map (fun t => rbind (TypeNameForReflectType t) (fun t => Ok (mkArg "" t))) l) = Ok a ->
  rsame_types rsame l a -> forallb rplain l = true.
Proof.
  induction 1 as [|t l H F IH]; intros a V E S; cbn [forallb map all_ok] in *; auto.
  apply andb_true_iff in V as [V1 V2]. destruct (TypeNameForReflectType t) as [n|] eqn:N; [|discriminate].
  cbn [rbind] in E. destruct (all_ok _) as [r|] eqn:A; [|discriminate]. injection E as <-.
  cbn [rsame_types ArgTy] in S. destruct S as (_ & S1 & S2).
  rewrite (H n), (IH r); auto.
Qed.
Lemma plain_sig ins outs v x : Forall PL ins -> forallb rvalid ins = true ->
  signatureFromReflectType_ TypeNameForReflectType (mkRSig ins outs v) = Ok x ->
  rsame_sig rsame (mkRSig ins outs v) x -> outs = [] /\ forallb rplain ins = true.
Proof.
  intros F V E S. rewrite sig_loop in E. destruct (all_ok _) as [a|] eqn:A; [|discriminate]. cbn [rbind] in E.
  destruct outs as [|o outs].
  - injection E as <-. destruct S as (S & _). split; auto. eapply plain_args; eauto.
  - destruct (results_loop _ _ _); [|discriminate]. injection E as <-. destruct S as (_ & S & _).
    cbn [Results map rsame_types ArgTy] in S. destruct S as (_ & S & _). destruct (same_not_nil _ S).
Qed.
Lemma plain_when_same : forall t, PL t.
Proof.
  induction t using RType_ind'; intros x V E S.
  - reflexivity.
  - cbn [TypeNameForReflectType rKind rName rPkgPath is_basic andb negb String.eqb] in E.
    destruct (TypeNameForReflectType t) as [y|] eqn:Y; [|discriminate]. cbn [rbind] in E. unfold PointerType in E.
    destruct (is_nil y); [discriminate|]. injection E as <-. destruct S as [_ S]. eapply IHt; eauto.
  - cbn [TypeNameForReflectType rKind rName rPkgPath is_basic andb negb String.eqb] in E.
    destruct (TypeNameForReflectType t) as [y|] eqn:Y; [|discriminate]. cbn [rbind] in E. unfold SliceType in E.
    destruct (is_nil y); [discriminate|]. injection E as <-. destruct S as [_ S]. eapply IHt; eauto.
  - cbn [rvalid] in V. apply andb_true_iff in V as [_ V].
    cbn [TypeNameForReflectType rKind rName rPkgPath is_basic andb negb String.eqb] in E.
    destruct (TypeNameForReflectType t) as [y|] eqn:Y; [|discriminate]. cbn [rbind] in E. unfold ArrayType in E.
    destruct (is_nil y); [discriminate|]. destruct (Z.ltb n 0); [discriminate|]. injection E as <-.
    destruct S as (_ & S & _). eapply IHt; eauto.
  - discriminate.
  - cbn [rvalid] in V. apply andb_true_iff in V as [_ V].
    destruct S as (K & S & _).
    cbn [TypeNameForReflectType rKind rName rPkgPath is_basic andb negb String.eqb] in E.
    destruct (TypeNameForReflectType t) as [y|] eqn:Y; [|discriminate]. cbn [rbind] in E. unfold ChannelType in E.
    destruct (is_nil y || _); [discriminate|]. injection E as <-. eapply IHt; eauto.
  - destruct s as [ins outs v]. destruct H as [HI _]. cbn [RIn] in HI. cbn [rvalid rvalid_sig] in V.
    apply andb_true_iff in V as [V _]. apply andb_true_iff in V as [V _].
    cbn [TypeNameForReflectType rKind rName rPkgPath is_basic andb negb String.eqb] in E.
    destruct (signatureFromReflectType_ _ _) as [s|] eqn:G; [|discriminate]. cbn [rbind] in E.
    destruct S as (_ & y & Y & S). assert (y = s) as ->.
    { unfold FuncTypeFromSig in E. repeat match type of E with context [if ?b then _ else _] => destruct b; try discriminate end;
        try (injection E as <-; cbn in Y; congruence). }
    destruct (plain_sig _ _ _ _ HI V G S) as [-> P]. exact P.
  - cbn [TypeNameForReflectType rKind rName rPkgPath is_basic andb negb String.eqb rvalid rplain] in *.
    set (g := fun f : RField => match f with mkRField n t tag _ => rbind (TypeNameForReflectType t) (fun t => Ok (mkField n t tag)) end) in *.
    destruct (all_ok (map g fs)) as [l|] eqn:A; [|discriminate]. injection E as <-. destruct S as (_ & y & Y & S).
    injection Y as <-. revert l A S. induction H as [|[n t tag a] r H F IH]; intros l A S; auto.
    cbn [map all_ok forallb] in *. apply andb_true_iff in V as [V1 V2]. apply andb_true_iff in V1 as [V0 V1].
    unfold g at 1 in A. destruct (TypeNameForReflectType t) as [z|] eqn:Z; [|discriminate]. cbn [rbind] in A.
    destruct (all_ok (map g r)) as [k|]; [|discriminate]. injection A as <-. cbn [rsame_fields FldName FldType] in S.
    destruct S as (S0 & S1 & _ & S2). rewrite (IH V2 k eq_refl S2). cbn [RFType] in H. rewrite (H z); auto.
    destruct a; auto. subst n. discriminate V0.
  - cbn [TypeNameForReflectType rKind rName rPkgPath is_basic andb negb String.eqb rvalid rplain] in *.
    set (g := fun m : RMethod => match m with mkRMethod n s => rbind (signatureFromReflectType_ TypeNameForReflectType s) (fun s => Ok (mkMethod n s)) end) in *.
    destruct (all_ok (map g ms)) as [l|] eqn:A; [|discriminate]. injection E as <-. destruct S as (_ & _ & y & Y & S).
    injection Y as <-. revert l A S. induction H as [|[n [ins outs v]] r H F IH]; intros l A S; auto.
    cbn [map all_ok forallb] in *. apply andb_true_iff in V as [V1 V2]. cbn [rvalid_sig] in V1.
    apply andb_true_iff in V1 as [V1 _]. apply andb_true_iff in V1 as [V1 _].
    unfold g at 1 in A. destruct (signatureFromReflectType_ _ _) as [z|] eqn:Z; [|discriminate]. cbn [rbind] in A.
    destruct (all_ok (map g r)) as [k|]; [|discriminate]. injection A as <-. cbn [rsame_methods MtdName MtdSig] in S.
    destruct S as (_ & S1 & S2). rewrite (IH V2 k eq_refl S2). cbn [RMSig] in H. destruct H as [HI _]. cbn [RIn] in HI.
    destruct (plain_sig _ _ _ _ HI V1 Z S1) as [-> ->]. auto.
Qed.
Lemma reflect_exact t : rvalid t = true ->
  ((exists n, TypeNameForReflectType t = Ok n /\ rsame t n) <-> rplain t = true).
Proof.
  intros V. split.
  - intros (n & E & S). eapply plain_when_same; eauto.
  - apply reflect_faithful; auto.
Qed.
