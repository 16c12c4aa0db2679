(** Proofs about the conversions from go/types and reflect. *)
From Verif Require Import Base BaseFacts Types SpecTypes TypesFacts Conv SpecConv TypesTheorems.

(** ** Induction principles *)
Section GoInd.
Variable P : GoType -> Prop.
Definition PVars (l : list GoVar) : Prop := Forall (fun v => P (VType v)) l.
Definition PRecv (r : GoRecv_ GoType) : Prop := match r with Recv v => P (VType v) | _ => True end.
Definition PGoSig (s : GoSig) : Prop := PRecv (SRecv s) /\ PVars (SParams s) /\ PVars (SResults s).
Hypothesis HBasic : forall k, P (GTBasic k).
Hypothesis HNamed : forall p n, P (GTNamed p n).
Hypothesis HMap : forall k e, P k -> P e -> P (GTMap k e).
Hypothesis HSlice : forall e, P e -> P (GTSlice e).
Hypothesis HArray : forall e n, P e -> P (GTArray e n).
Hypothesis HPointer : forall e, P e -> P (GTPointer e).
Hypothesis HChan : forall d e, P e -> P (GTChan d e).
Hypothesis HSig : forall s, PGoSig s -> P (GTSignature s).
Hypothesis HStruct : forall fs, Forall (fun f => P (GFType f)) fs -> P (GTStruct fs).
Hypothesis HInterface : forall es ms, Forall (fun m => PGoSig (GMSig m)) ms -> P (GTInterface es ms).
Hypothesis HOther : forall d, P (GTOther d).
Fixpoint GoType_ind' (t : GoType) : P t :=
  let vars := fix vars (l : list GoVar) : PVars l :=
    match l with
    | [] => Forall_nil _
    | mkVar n t :: r => @Forall_cons _ (fun v => P (VType v)) (mkVar n t) r (GoType_ind' t) (vars r)
    end in
  let sg (s : GoSig) : PGoSig s :=
    match s with
    | mkGoSig recv ps rs v =>
        conj (match recv as r return PRecv r with
              | NoRecv => I | IfaceRecv => I | Recv (mkVar n t) => GoType_ind' t end)
             (conj (vars ps) (vars rs))
    end in
  match t with
  | GTBasic k => HBasic k
  | GTNamed p n => HNamed p n
  | GTMap k e => HMap k e (GoType_ind' k) (GoType_ind' e)
  | GTSlice e => HSlice e (GoType_ind' e)
  | GTArray e n => HArray e n (GoType_ind' e)
  | GTPointer e => HPointer e (GoType_ind' e)
  | GTChan d e => HChan d e (GoType_ind' e)
  | GTSignature s => HSig s (sg s)
  | GTStruct fs => HStruct fs
      ((fix go (l : list GoField) : Forall (fun f => P (GFType f)) l :=
        match l with
        | [] => Forall_nil _
        | mkGoField n a t tag :: r =>
            @Forall_cons _ (fun f => P (GFType f)) (mkGoField n a t tag) r (GoType_ind' t) (go r)
        end) fs)
  | GTInterface es ms => HInterface es ms
      ((fix go (l : list GoMethod) : Forall (fun m => PGoSig (GMSig m)) l :=
        match l with
        | [] => Forall_nil _
        | mkGoMethod n s :: r =>
            @Forall_cons _ (fun m => PGoSig (GMSig m)) (mkGoMethod n s) r (sg s) (go r)
        end) ms)
  | GTOther d => HOther d
  end.
End GoInd.
Section RInd.
Variable P : RType -> Prop.
Definition PRSig (s : RSig) : Prop := Forall P (RIn s) /\ Forall P (ROut s).
Hypothesis HNamed : forall k p n, P (RNamed k p n).
Hypothesis HPtr : forall e, P e -> P (RPtr e).
Hypothesis HSlice : forall e, P e -> P (RSlice e).
Hypothesis HArray : forall e n, P e -> P (RArray e n).
Hypothesis HMap : forall k e, P k -> P e -> P (RMap k e).
Hypothesis HChan : forall e d, P e -> P (RChan e d).
Hypothesis HFunc : forall s, PRSig s -> P (RFunc s).
Hypothesis HStruct : forall fs, Forall (fun f => P (RFType f)) fs -> P (RStruct fs).
Hypothesis HInterface : forall ms, Forall (fun m => PRSig (RMSig m)) ms -> P (RInterface ms).
Fixpoint RType_ind' (t : RType) : P t :=
  let tys := fix tys (l : list RType) : Forall P l :=
    match l with
    | [] => Forall_nil _
    | t :: r => @Forall_cons _ P t r (RType_ind' t) (tys r)
    end in
  let sg (s : RSig) : PRSig s := match s with mkRSig i o v => conj (tys i) (tys o) end in
  match t with
  | RNamed k p n => HNamed k p n
  | RPtr e => HPtr e (RType_ind' e)
  | RSlice e => HSlice e (RType_ind' e)
  | RArray e n => HArray e n (RType_ind' e)
  | RMap k e => HMap k e (RType_ind' k) (RType_ind' e)
  | RChan e d => HChan e d (RType_ind' e)
  | RFunc s => HFunc s (sg s)
  | RStruct fs => HStruct fs
      ((fix go (l : list RField) : Forall (fun f => P (RFType f)) l :=
        match l with
        | [] => Forall_nil _
        | mkRField n t tag a :: r =>
            @Forall_cons _ (fun f => P (RFType f)) (mkRField n t tag a) r (RType_ind' t) (go r)
        end) fs)
  | RInterface ms => HInterface ms
      ((fix go (l : list RMethod) : Forall (fun m => PRSig (RMSig m)) l :=
        match l with
        | [] => Forall_nil _
        | mkRMethod n s :: r =>
            @Forall_cons _ (fun m => PRSig (RMSig m)) (mkRMethod n s) r (sg s) (go r)
        end) ms)
  end.
End RInd.

(** ** go/types *)
Definition CV (t : GoType) : Prop :=
  (convertible t = true -> exists n, TypeNameForGoType t = Ok n /\ same_go t n /\ n <> TNil /\
     is_slice n = is_go_slice t) /\
  (convertible t = false -> exists m, TypeNameForGoType t = Panic m).

Lemma vars_conv l : Forall (fun v => CV (VType v)) l ->
  (convertible_vars convertible l = true -> exists a, argsTypesForGoType_ TypeNameForGoType l = Ok a /\
     same_vars same_go l a /\ Forall (fun x => ArgTy x <> TNil) a /\
     map (fun x => is_slice (ArgTy x)) a = map (fun v => is_go_slice (VType v)) l) /\
  (convertible_vars convertible l = false -> exists m, argsTypesForGoType_ TypeNameForGoType l = Panic m).
Proof.
  induction 1 as [|[n t] l [H1 H2] F IH]; cbn [convertible_vars forallb].
  - split; [|discriminate]. intros _. exists []. repeat split; auto.
  - unfold argsTypesForGoType_ in *. cbn [map all_ok VType] in *. destruct (convertible t); cbn [andb].
    + destruct (H1 eq_refl) as (x & -> & S & N & SL). cbn [rbind]. destruct IH as [I1 I2]. split; intros C.
      * destruct (I1 C) as (a & -> & SA & NA & MA). exists (mkArg n x :: a). cbn [rbind same_vars ArgName ArgTy map].
        rewrite SL, MA. auto.
      * destruct (I2 C) as (m & ->). exists m. auto.
    + split; [discriminate|]. intros _. destruct (H2 eq_refl) as (m & ->). exists m. auto.
Qed.

Lemma sig_conv s : PGoSig CV s ->
  (convertible_sig convertible s = true -> exists x, signatureFromGoType_ TypeNameForGoType s = Ok x /\
     same_sig same_go s x /\ Forall (fun a => ArgTy a <> TNil) (Args x) /\
     Forall (fun a => ArgTy a <> TNil) (Results x) /\ variadic_ok x = variadic_last s) /\
  (convertible_sig convertible s = false -> exists m, signatureFromGoType_ TypeNameForGoType s = Panic m).
Proof.
  destruct s as [recv ps rs v]. intros (PR & PP & PS). cbn [SRecv SParams SResults] in *.
  cbn [convertible_sig signatureFromGoType_].
  destruct (vars_conv ps PP) as [P1 P2]. destruct (vars_conv rs PS) as [R1 R2].
  destruct (convertible_vars convertible ps); cbn [andb].
  2:{ split; [discriminate|]. destruct (P2 eq_refl) as (m & ->). intros _. exists m. auto. }
  destruct (P1 eq_refl) as (a & -> & SA & NA & MA). cbn [rbind].
  destruct (convertible_vars convertible rs); cbn [andb].
  2:{ split; [discriminate|]. destruct (R2 eq_refl) as (m & ->). intros _. exists m. auto. }
  destruct (R1 eq_refl) as (r & -> & SR & NR & MR). cbn [rbind].
  assert (VO : forall b l, map (fun x : ArgType => is_slice (ArgTy x)) b = map (fun v : GoVar => is_go_slice (VType v)) l ->
     variadic_ok (mkSig b r v) = negb v || match rev l with mkVar _ t :: _ => is_go_slice t | [] => false end).
  { intros b l M. unfold variadic_ok. cbn [IsVariadic Args]. f_equal.
    apply (f_equal (@rev bool)) in M. rewrite <- !map_rev in M.
    destruct (rev b) as [|x y], (rev l) as [|[n t] z]; try discriminate; auto.
    cbn [map VType] in M. congruence. }
  destruct recv as [| |[n t]].
  - split; [|discriminate]. intros _. eexists. split; [reflexivity|]. cbn [same_sig Args Results IsVariadic].
    repeat split; auto. apply VO; auto.
  - split; [|discriminate]. intros _. eexists. split; [reflexivity|]. cbn [same_sig Args Results IsVariadic].
    repeat split; auto. apply VO; auto.
  - cbn [PRecv VType] in PR. destruct PR as [C1 C2]. destruct (convertible t).
    + destruct (C1 eq_refl) as (x & -> & S & N & SL). split; [|discriminate]. intros _.
      eexists. split; [reflexivity|]. cbn [same_sig Args Results IsVariadic app ArgName ArgTy].
      repeat split; auto. cbn [variadic_last]. apply VO. cbn [map ArgTy VType]. congruence.
    + split; [discriminate|]. destruct (C2 eq_refl) as (m & ->). intros _. exists m. auto.
Qed.

Lemma nil_ok t : t <> TNil -> is_nil t = false.
Proof. destruct t; auto; intros H; destruct (H eq_refl). Qed.
Lemma func_ok x : Forall (fun a => ArgTy a <> TNil) (Args x) ->
  Forall (fun a => ArgTy a <> TNil) (Results x) ->
  FuncTypeFromSig x = if variadic_ok x then Ok (TFunc x) else
    Panic "cannot create a function type with variadic signature where last arg is not a slice".
Proof.
  intros NA NR. unfold FuncTypeFromSig.
  assert (E : forall l : list ArgType, Forall (fun a => ArgTy a <> TNil) l -> existsb (fun a => is_nil (ArgTy a)) l = false).
  { induction 1; simpl; auto. rewrite nil_ok by auto. auto. }
  rewrite (E _ NA), (E _ NR). unfold variadic_ok. destruct x as [a r v]. cbn [Args IsVariadic].
  destruct v; cbn [andb negb orb]; auto.
  destruct (last_arg_split a) as [[-> ->]|(l & y & -> & ->)]; auto.
  rewrite rev_app_distr. cbn [rev app]. destruct y as [n t]. cbn [ArgTy]. destruct t; auto.
Qed.

Theorem go_conv : forall t, CV t.
Proof.
  induction t using GoType_ind'.
  - destruct k; split; intros C; try discriminate; try (eexists; reflexivity);
      eexists; split; try reflexivity; repeat split; auto; discriminate.
  - destruct p as [[pp pn]|]; split; intros C; try discriminate; [|eexists; reflexivity].
    eexists; split; [reflexivity|]. repeat split; auto; discriminate.
  - destruct IHt1 as [A1 A2], IHt2 as [B1 B2]. split; cbn [convertible TypeNameForGoType]; intros C.
    + apply andb_true_iff in C as [C1 C2]. destruct (A1 C1) as (x & -> & S1 & N1 & _).
      destruct (B1 C2) as (y & -> & S2 & N2 & _). cbn [rbind]. unfold MapType.
      rewrite (nil_ok x), (nil_ok y) by auto. eexists; split; [reflexivity|]. repeat split; auto; discriminate.
    + destruct (convertible t1).
      * destruct (A1 eq_refl) as (x & -> & _). destruct (B2 C) as (m & ->). exists m. auto.
      * destruct (A2 eq_refl) as (m & ->). exists m. auto.
  - destruct IHt as [A1 A2]. split; cbn [convertible TypeNameForGoType]; intros C.
    + destruct (A1 C) as (x & -> & S1 & N1 & _). cbn [rbind]. unfold SliceType. rewrite (nil_ok x) by auto.
      eexists; split; [reflexivity|]. repeat split; auto; discriminate.
    + destruct (A2 C) as (m & ->). exists m. auto.
  - destruct IHt as [A1 A2]. split; cbn [convertible TypeNameForGoType]; intros C.
    + apply andb_true_iff in C as [C1 C2]. destruct (A1 C2) as (x & -> & S1 & N1 & _). cbn [rbind].
      unfold ArrayType. rewrite (nil_ok x) by auto. apply Z.leb_le in C1.
      destruct (Z.ltb_spec n 0); [lia|].
      eexists; split; [reflexivity|]. repeat split; auto; discriminate.
    + destruct (convertible t).
      * destruct (A1 eq_refl) as (x & -> & S1 & N1 & _). cbn [rbind]. unfold ArrayType.
        rewrite andb_true_r in C. apply Z.leb_gt in C. destruct (Z.ltb_spec n 0); [|lia].
        rewrite orb_true_r. eexists; reflexivity.
      * destruct (A2 eq_refl) as (m & ->). exists m. auto.
  - destruct IHt as [A1 A2]. split; cbn [convertible TypeNameForGoType]; intros C.
    + destruct (A1 C) as (x & -> & S1 & N1 & _). cbn [rbind]. unfold PointerType. rewrite (nil_ok x) by auto.
      eexists; split; [reflexivity|]. repeat split; auto; discriminate.
    + destruct (A2 C) as (m & ->). exists m. auto.
  - destruct IHt as [A1 A2]. split; cbn [convertible TypeNameForGoType]; intros C.
    + apply andb_true_iff in C as [C1 C2]. apply andb_true_iff in C1 as [C0 C1].
      apply Z.leb_le in C0, C1.
      destruct (A1 C2) as (x & -> & S1 & N1 & _).
      assert (d = 0 \/ d = 1 \/ d = 2)%Z as [->|[->| ->]] by lia; cbn [Z.eqb rbind Pos.eqb];
        unfold ChannelType; rewrite (nil_ok x) by auto;
        (eexists; split; [reflexivity|]; repeat split; auto 6; discriminate).
    + destruct (Z.eqb_spec d 0) as [->|D0]; [|destruct (Z.eqb_spec d 1) as [->|D1]; [|destruct (Z.eqb_spec d 2) as [->|D2]]];
        cbn [rbind]; try (eexists; reflexivity);
        destruct (A2 C) as (m & ->); exists m; auto.
  - destruct (sig_conv s H) as [A1 A2]. split; cbn [convertible TypeNameForGoType]; intros C.
    + apply andb_true_iff in C as [C1 C2]. destruct (A1 C1) as (x & -> & S1 & NA & NR & V). cbn [rbind].
      rewrite func_ok, V, C2 by auto. eexists; split; [reflexivity|]. repeat split; try discriminate.
      exists x. auto.
    + destruct (convertible_sig convertible s).
      * destruct (A1 eq_refl) as (x & -> & S1 & NA & NR & V). cbn [rbind]. cbn [andb] in C.
        rewrite func_ok, V, C by auto. eexists; reflexivity.
      * destruct (A2 eq_refl) as (m & ->). exists m. auto.
  - assert (X : (convertible (GTStruct fs) = true -> exists l, all_ok (map (fun f =>
          match f with
          | mkGoField n anon t tag =>
              rbind (TypeNameForGoType t) (fun t => Ok (mkField (if anon then "" else n) t tag))
          end) fs) = Ok l /\ same_fields same_go fs l) /\
       (convertible (GTStruct fs) = false -> exists m, all_ok (map (fun f =>
          match f with
          | mkGoField n anon t tag =>
              rbind (TypeNameForGoType t) (fun t => Ok (mkField (if anon then "" else n) t tag))
          end) fs) = Panic m)).
    { induction H as [|[n a t tag] l [H1 H2] F IH]; cbn [map all_ok convertible forallb].
      - split; [|discriminate]. intros _. exists []. split; auto. exact I.
      - cbn [GFType convertible] in *. destruct (convertible t); cbn [andb].
        + destruct (H1 eq_refl) as (x & -> & S1 & _). cbn [rbind]. destruct IH as [I1 I2]. split; intros C.
          * destruct (I1 C) as (r & -> & S2). cbn [rbind]. eexists; split; [reflexivity|].
            cbn [same_fields FldName FldType FldTag]. auto.
          * destruct (I2 C) as (m & ->). exists m. auto.
        + split; [discriminate|]. destruct (H2 eq_refl) as (m & ->). exists m. auto. }
    destruct X as [X1 X2]. split; cbn [TypeNameForGoType]; intros C.
    + destruct (X1 C) as (l & -> & S1). cbn [rbind]. eexists; split; [reflexivity|].
      split; [|split; [discriminate|reflexivity]]. split; [reflexivity|]. exists l. auto.
    + destruct (X2 C) as (m & ->). exists m. auto.
  - assert (X : (forallb (fun m => match m with mkGoMethod _ s => convertible_sig convertible s end) ms = true ->
        exists l, all_ok (map (fun m =>
          match m with
          | mkGoMethod n s => rbind (signatureFromGoType_ TypeNameForGoType s) (fun s => Ok (mkMethod n s))
          end) ms) = Ok l /\ same_methods same_go ms l) /\
       (forallb (fun m => match m with mkGoMethod _ s => convertible_sig convertible s end) ms = false ->
        exists m, all_ok (map (fun m =>
          match m with
          | mkGoMethod n s => rbind (signatureFromGoType_ TypeNameForGoType s) (fun s => Ok (mkMethod n s))
          end) ms) = Panic m)).
    { induction H as [|[n s] l P F IH]; cbn [map all_ok forallb].
      - split; [|discriminate]. intros _. exists []. split; auto. exact I.
      - cbn [GMSig] in P. destruct (sig_conv s P) as [H1 H2]. destruct (convertible_sig convertible s); cbn [andb].
        + destruct (H1 eq_refl) as (x & -> & S1 & _). cbn [rbind]. destruct IH as [I1 I2]. split; intros C.
          * destruct (I1 C) as (r & -> & S2). cbn [rbind]. eexists; split; [reflexivity|].
            cbn [same_methods MtdName MtdSig]. auto.
          * destruct (I2 C) as (m & ->). exists m. auto.
        + split; [discriminate|]. destruct (H2 eq_refl) as (m & ->). exists m. auto. }
    assert (Y : (forallb (fun e => some_pkg (fst e)) es = true ->
        all_ok (map (fun e => rbind (PackageForGoType (fst e)) (fun p => Ok (mkSymbol p (snd e)))) es) =
        Ok (map (fun e => mkSymbol match fst e with Some p => p | None => mkPackage "" "" end (snd e)) es)) /\
       (forallb (fun e => some_pkg (fst e)) es = false -> exists m,
        all_ok (map (fun e => rbind (PackageForGoType (fst e)) (fun p => Ok (mkSymbol p (snd e)))) es) = Panic m)).
    { clear. induction es as [|[[[pp pn]|] n] l [I1 I2]]; cbn [map all_ok forallb some_pkg fst snd andb].
      - split; [auto|discriminate].
      - split; intros C; cbn [PackageForGoType rbind].
        + rewrite (I1 C). reflexivity.
        + destruct (I2 C) as (m & ->). exists m. auto.
      - split; [discriminate|]. eexists; reflexivity. }
    destruct X as [X1 X2], Y as [Y1 Y2]. split; cbn [convertible TypeNameForGoType]; intros C.
    + apply andb_true_iff in C as [C1 C2]. rewrite (Y1 C1). cbn [rbind].
      destruct (X1 C2) as (l & -> & S1). cbn [rbind]. eexists; split; [reflexivity|].
      split; [|split; [discriminate|reflexivity]]. split; [reflexivity|]. split; [reflexivity|]. exists l. auto.
    + destruct (forallb (fun e => some_pkg (fst e)) es).
      * rewrite (Y1 eq_refl). cbn [rbind]. destruct (X2 C) as (m & ->). exists m. auto.
      * destruct (Y2 eq_refl) as (m & ->). exists m. auto.
  - split; [discriminate|]. intros _. eexists; reflexivity.
Qed.

Lemma go_faithful t n : TypeNameForGoType t = Ok n -> same_go t n.
Proof.
  intros E. destruct (go_conv t) as [H1 H2]. destruct (convertible t).
  - destruct (H1 eq_refl) as (x & E' & S & _). congruence.
  - destruct (H2 eq_refl) as (m & E'). congruence.
Qed.
Lemma go_accepts t : is_ok (TypeNameForGoType t) = convertible t.
Proof.
  destruct (go_conv t) as [H1 H2]. destruct (convertible t).
  - destruct (H1 eq_refl) as (x & -> & _). auto.
  - destruct (H2 eq_refl) as (m & ->). auto.
Qed.
Lemma go_sig_faithful s x : signatureFromGoType s = Ok x -> same_sig same_go s x.
Proof.
  intros E. assert (P : PGoSig CV s).
  { destruct s as [recv ps rs v]. repeat split; try (apply Forall_forall; intros; apply go_conv).
    destruct recv as [| |[n t]]; cbn; auto. apply go_conv. }
  destruct (sig_conv s P) as [H1 H2]. unfold signatureFromGoType in E. destruct (convertible_sig convertible s).
  - destruct (H1 eq_refl) as (y & E' & S & _). congruence.
  - destruct (H2 eq_refl) as (m & E'). congruence.
Qed.
Lemma go_total_refuted : ~ (forall t, valid_go t = true -> exists n, TypeNameForGoType t = Ok n).
Proof. intros H. destruct (H (GTNamed None "error") eq_refl) as (n & E). discriminate. Qed.

(** ** SymbolForGoObject *)
Lemma symbol_for_object o :
  (forall p n, (o = GOOther (Some p) n \/ o = GOFunc (Some p) n None) ->
     SymbolForGoObject o = Ok (SomSymbol (mkSymbol p n))) /\
  (forall pkg n p m, (o = GOFunc pkg n (Some (GTNamed (Some p) m)) \/ o = GOFunc pkg n (Some (GTPointer (GTNamed (Some p) m)))) ->
     SymbolForGoObject o = Ok (SomMethod (mkMethodRef (mkSymbol p m) n))) /\
  (forall n, (o = GOOther None n \/ o = GOFunc None n None) -> is_ok (SymbolForGoObject o) = false).
Proof.
  repeat split.
  - intros [pp pn] n [-> | ->]; reflexivity.
  - intros pkg n [pp pn] m [-> | ->]; reflexivity.
  - intros n [-> | ->]; reflexivity.
Qed.

(** ** reflect *)
Definition RC (t : RType) : Prop := rvalid t = true -> rplain t = true ->
  exists n, TypeNameForReflectType t = Ok n /\ rsame t n /\ n <> TNil /\ is_slice n = is_rslice t.
Lemma rtypes_conv l : Forall RC l -> forallb rvalid l = true -> forallb rplain l = true ->
  exists a, all_ok (map (fun t => rbind (TypeNameForReflectType t) (fun t => Ok (mkArg "" t))) l) = Ok a /\
    rsame_types rsame l a /\ Forall (fun x => ArgTy x <> TNil) a /\
    map (fun x => is_slice (ArgTy x)) a = map is_rslice l.
Proof.
  induction 1 as [|t l H F IH]; cbn [forallb map all_ok].
  - intros _ _. exists []. repeat split; auto.
  - rewrite !andb_true_iff. intros [V1 V2] [P1 P2]. destruct (H V1 P1) as (x & -> & S & N & SL).
    destruct (IH V2 P2) as (a & E & SA & NA & MA). cbn [rbind]. rewrite E. cbn [rbind].
    exists (mkArg "" x :: a). cbn [rsame_types ArgName ArgTy map]. rewrite SL, MA. auto.
Qed.
Lemma rsig_conv ins v : Forall RC ins -> rvalid_sig rvalid is_rslice (mkRSig ins [] v) = true ->
  forallb rplain ins = true ->
  exists x, signatureFromReflectType_ TypeNameForReflectType (mkRSig ins [] v) = Ok x /\
    rsame_sig rsame (mkRSig ins [] v) x /\ Forall (fun a => ArgTy a <> TNil) (Args x) /\
    Results x = [] /\ variadic_ok x = true.
Proof.
  intros F V P. cbn [rvalid_sig forallb] in V. rewrite andb_true_r, andb_true_iff in V. destruct V as [V1 V2].
  destruct (rtypes_conv ins F V1 P) as (a & E & S & N & M). cbn [signatureFromReflectType_].
  rewrite E. cbn [rbind map]. eexists. split; [reflexivity|]. cbn [rsame_sig Args Results IsVariadic].
  repeat split; auto. unfold variadic_ok. cbn [IsVariadic Args]. destruct v; auto. cbn [negb orb] in *.
  apply (f_equal (@rev bool)) in M. rewrite <- !map_rev in M.
  destruct (rev a) as [|x y], (rev ins) as [|t z]; try discriminate; auto. cbn [map] in M. congruence.
Qed.

Theorem reflect_conv : forall t, RC t.
Proof.
  induction t using RType_ind'; intros V P.
  - cbn [rvalid rplain] in *. cbn [TypeNameForReflectType rKind rName rPkgPath rsame].
    destruct (is_basic k) eqn:B, (String.eqb p "") eqn:E; cbn [andb].
    1: { exists (TBasic k). destruct k; try discriminate; repeat split; auto; discriminate. }
    all: rewrite V; eexists; split; [reflexivity|]; repeat split; auto; discriminate.
  - destruct (IHt V P) as (x & E & S & N & _). cbn [TypeNameForReflectType rKind rName rPkgPath is_basic andb].
    cbn [negb String.eqb]. rewrite E. cbn [rbind]. unfold PointerType. rewrite (nil_ok x) by auto.
    eexists; split; [reflexivity|]. repeat split; auto; discriminate.
  - destruct (IHt V P) as (x & E & S & N & _). cbn [TypeNameForReflectType rKind rName rPkgPath is_basic andb].
    cbn [negb String.eqb]. rewrite E. cbn [rbind]. unfold SliceType. rewrite (nil_ok x) by auto.
    eexists; split; [reflexivity|]. repeat split; auto; discriminate.
  - cbn [rvalid] in V. apply andb_true_iff in V as [V0 V]. apply Z.leb_le in V0.
    destruct (IHt V P) as (x & E & S & N & _). cbn [TypeNameForReflectType rKind rName rPkgPath is_basic andb].
    cbn [negb String.eqb]. rewrite E. cbn [rbind]. unfold ArrayType. rewrite (nil_ok x) by auto.
    destruct (Z.ltb_spec n 0); [lia|].
    eexists; split; [reflexivity|]. repeat split; auto; discriminate.
  - discriminate.
  - cbn [rvalid] in V. apply andb_true_iff in V as [V0 V]. apply andb_true_iff in V0 as [V0 V1].
    apply Z.leb_le in V0, V1.
    destruct (IHt V P) as (x & E & S & N & _). cbn [TypeNameForReflectType rKind rName rPkgPath is_basic andb].
    cbn [negb String.eqb]. rewrite E. cbn [rbind]. unfold ChannelType. rewrite (nil_ok x) by auto.
    assert (d = 1 \/ d = 2 \/ d = 3)%Z as [->|[->| ->]] by lia;
      (eexists; split; [reflexivity|]; repeat split; auto; discriminate).
  - destruct s as [ins outs v]. cbn [rplain] in P. destruct outs; [|discriminate]. destruct H as [HI _].
    cbn [RIn] in HI. cbn [rvalid] in V.
    destruct (rsig_conv ins v HI V P) as (x & E & S & NA & R & VO).
    cbn [TypeNameForReflectType rKind rName rPkgPath is_basic andb negb String.eqb]. rewrite E. cbn [rbind].
    rewrite func_ok, VO by (auto; rewrite R; constructor).
    eexists; split; [reflexivity|]. split; [|split; [discriminate|reflexivity]]. split; [reflexivity|].
    exists x. split; auto.
  - cbn [TypeNameForReflectType rKind rName rPkgPath is_basic andb negb String.eqb].
    assert (X : exists l, all_ok (map (fun f =>
          match f with
          | mkRField n t tag _ => rbind (TypeNameForReflectType t) (fun t => Ok (mkField n t tag))
          end) fs) = Ok l /\ rsame_fields rsame fs l).
    { cbn [rvalid rplain] in V, P. induction H as [|[n t tag a] l H F IH]; cbn [map all_ok forallb] in *.
      - exists []. split; auto. exact I.
      - apply andb_true_iff in V as [V1 V2]. apply andb_true_iff in V1 as [_ V1].
        apply andb_true_iff in P as [P0 P2]. apply andb_true_iff in P0 as [P0 P1]. cbn [RFType] in H.
        destruct (H V1 P1) as (x & -> & S & _). destruct (IH V2 P2) as (r & E & SR). cbn [rbind]. rewrite E.
        cbn [rbind]. eexists; split; [reflexivity|]. cbn [rsame_fields FldName FldType FldTag].
        destruct a; [discriminate|]. auto. }
    destruct X as (l & -> & S). cbn [rbind]. eexists; split; [reflexivity|].
    split; [|split; [discriminate|reflexivity]]. split; [reflexivity|]. exists l. auto.
  - cbn [TypeNameForReflectType rKind rName rPkgPath is_basic andb negb String.eqb].
    assert (X : exists l, all_ok (map (fun m =>
          match m with
          | mkRMethod n s =>
              rbind (signatureFromReflectType_ TypeNameForReflectType s) (fun s => Ok (mkMethod n s))
          end) ms) = Ok l /\ rsame_methods rsame ms l).
    { cbn [rvalid rplain] in V, P. induction H as [|[n [ins outs v]] l H F IH]; cbn [map all_ok forallb] in *.
      - exists []. split; auto. exact I.
      - apply andb_true_iff in V as [V1 V2]. apply andb_true_iff in P as [P1 P2]. cbn [RMSig] in H.
        destruct outs; [|discriminate]. destruct H as [HI _]. cbn [RIn] in HI.
        destruct (rsig_conv ins v HI V1 P1) as (x & -> & S & _). destruct (IH V2 P2) as (r & E & SR).
        cbn [rbind]. rewrite E. cbn [rbind]. eexists; split; [reflexivity|].
        cbn [rsame_methods MtdName MtdSig]. auto. }
    destruct X as (l & -> & S). cbn [rbind]. eexists; split; [reflexivity|].
    split; [|split; [discriminate|reflexivity]]. split; [reflexivity|]. split; [reflexivity|]. exists l. auto.
Qed.
Lemma reflect_faithful t : rvalid t = true -> rplain t = true ->
  exists n, TypeNameForReflectType t = Ok n /\ rsame t n.
Proof. intros V P. destruct (reflect_conv t V P) as (n & E & S & _). eauto. Qed.

(** Functions with results always fail, whatever their types. *)
Lemma set_nth_length {A} i (v : A) l l' : set_nth i v l = Some l' -> List.length l' = List.length l.
Proof.
  revert i l'. induction l as [|x l IH]; intros [|i] l'; cbn; try discriminate.
  - intros [= <-]. auto.
  - destruct (set_nth i v l) eqn:E; [|discriminate]. intros [= <-]. cbn. f_equal. eapply IH; eauto.
Qed.
Lemma reflect_results s : ROut s <> [] -> is_ok (TypeNameForReflectType (RFunc s)) = false.
Proof.
  destruct s as [ins outs v]. cbn [ROut]. intros NE.
  cbn [TypeNameForReflectType rKind rName rPkgPath is_basic andb negb String.eqb signatureFromReflectType_].
  destruct (all_ok _) as [a|]; cbn [rbind]; auto.
  match goal with |- context [rbind (?f 0 outs a)] => destruct (f 0 outs a) as [b|] eqn:R; cbn [rbind]; auto end.
  unfold FuncTypeFromSig. cbn [Args Results]. destruct (existsb _ b); auto.
  destruct outs as [|o r]; [congruence|]. reflexivity.
Qed.
Lemma reflect_map k e : is_ok (TypeNameForReflectType (RMap k e)) = false.
Proof. reflexivity. Qed.
Lemma reflect_total_refuted :
  ~ (forall t, rvalid t = true -> exists n, TypeNameForReflectType t = Ok n /\ rsame t n).
Proof. intros H. destruct (H (RMap (RNamed KInt "" "int") (RNamed KInt "" "int")) eq_refl) as (n & E & _). discriminate. Qed.
(** A method with a result converts, but to something else. *)
Lemma reflect_method_corrupt : exists t n, rvalid t = true /\ TypeNameForReflectType t = Ok n /\ ~ rsame t n /\
  tMethods n = Some [mkMethod "M" (mkSig [mkArg "" (TBasic KString)] [mkArg "" TNil] false)].
Proof.
  exists (RInterface [mkRMethod "M" (mkRSig [RNamed KInt "" "int"] [RNamed KString "" "string"] false)]).
  eexists. split; [reflexivity|]. split; [reflexivity|]. split; [|reflexivity].
  cbn. intros (_ & _ & ms & E & H). injection E as <-. cbn in H.
  destruct H as (_ & ((_ & (_ & K) & _) & _) & _). discriminate.
Qed.
Lemma reflect_embedded_lost : exists t n, rvalid t = true /\ TypeNameForReflectType t = Ok n /\ ~ rsame t n /\
  tFields n = Some [mkField "Buffer" (TNamed (mkSymbol (mkPackage "bytes" "") "Buffer")) ""].
Proof.
  exists (RStruct [mkRField "Buffer" (RNamed KStruct "bytes" "Buffer") "" true]).
  eexists. split; [reflexivity|]. split; [reflexivity|]. split; [|reflexivity].
  cbn. intros (_ & fs & E & H). injection E as <-. cbn in H. destruct H as (H & _). discriminate.
Qed.
