(** Constructors, accessors, signatures and the two defective shapes. *)
From Verif Require Import Base BaseFacts GoPath Utf8 Quote SpecLit Types SpecTypes TypesFacts Imports SpecImports
  SpecGo SpecRender SpecView LitProofs LexProofs TextProofs ParseProofs TextTheorems.

Lemma views :
  (forall k t, BasicType k = Ok t -> k <> KUnsafePointer ->
     view_of t = mkView KindBasic zeroSymbol TNil TNil (-1) 0 k None None None None) /\
  (forall t, BasicType KUnsafePointer = Ok t ->
     view_of t = mkView KindNamed (mkSymbol (mkPackage "unsafe" "unsafe") "Pointer") TNil TNil (-1) 0 KInvalid None None None None) /\
  (forall s, view_of (NamedType s) = mkView KindNamed s TNil TNil (-1) 0 KInvalid None None None None) /\
  (forall e t, PointerType e = Ok t ->
     view_of t = mkView KindPtr zeroSymbol e TNil (-1) 0 KInvalid None None None None) /\
  (forall e t, SliceType e = Ok t ->
     view_of t = mkView KindSlice zeroSymbol e TNil (-1) 0 KInvalid None None None None) /\
  (forall e n t, ArrayType e n = Ok t ->
     view_of t = mkView KindArray zeroSymbol e TNil n 0 KInvalid None None None None) /\
  (forall k v t, MapType k v = Ok t ->
     view_of t = mkView KindMap zeroSymbol v k (-1) 0 KInvalid None None None None) /\
  (forall e d t, ChannelType e d = Ok t ->
     view_of t = mkView KindChan zeroSymbol e TNil (-1) (direction d) KInvalid None None None None) /\
  (forall s t, FuncTypeFromSig s = Ok t ->
     view_of t = mkView KindFunc zeroSymbol TNil TNil (-1) 0 KInvalid (Some s) None None None) /\
  (forall a r t, FuncType a r = Ok t ->
     view_of t = mkView KindFunc zeroSymbol TNil TNil (-1) 0 KInvalid (Some (mkSig a r false)) None None None) /\
  (forall a r t, FuncTypeVariadic a r = Ok t ->
     view_of t = mkView KindFunc zeroSymbol TNil TNil (-1) 0 KInvalid (Some (mkSig a r true)) None None None) /\
  (forall fs, view_of (StructType fs) = mkView KindStruct zeroSymbol TNil TNil (-1) 0 KInvalid None (Some fs) None None) /\
  (forall es ms, view_of (InterfaceType es ms) =
     mkView KindInterface zeroSymbol TNil TNil (-1) 0 KInvalid None None (Some ms) (Some es)).
Proof.
  repeat split; unfold FuncType, FuncTypeVariadic, FuncTypeFromSig, BasicType, PointerType, SliceType, ArrayType, MapType, ChannelType;
    intros; repeat match goal with
    | H : (if ?b then _ else _) = _ |- _ => destruct b eqn:?; try discriminate
    | H : Ok _ = Ok _ |- _ => injection H as <-
    end; try reflexivity.
  destruct k; congruence || discriminate.
Qed.

Lemma is_nil_TNil t : is_nil t = true <-> t = TNil.
Proof. destruct t; split; intros; try discriminate; auto. Qed.
Lemma is_nil_false t : is_nil t = false <-> t <> TNil.
Proof. destruct t; split; intros; try discriminate; auto. congruence. Qed.
Lemma existsb_nil_iff (l : list ArgType) :
  existsb (fun a => is_nil (ArgTy a)) l = true <-> exists a, In a l /\ ArgTy a = TNil.
Proof.
  rewrite existsb_exists. split; intros (x & I & H); exists x; split; auto; apply is_nil_TNil; auto.
Qed.
Lemma last_arg_split (l : list ArgType) : last_arg l = None /\ l = [] \/
  exists l' a, l = l' ++ [a] /\ last_arg l = Some a.
Proof.
  destruct (rev l) as [|a r] eqn:E.
  - left. apply (f_equal (@rev _)) in E. rewrite rev_involutive in E. simpl in E. subst. auto.
  - right. apply (f_equal (@rev _)) in E. rewrite rev_involutive in E. simpl in E.
    exists (rev r), a. split; auto. subst. unfold last_arg. rewrite map_app. simpl. apply last_last.
Qed.
Lemma land_dir d : Z.ldiff d 3 = 0%Z <-> (0 <= d <= 3)%Z.
Proof.
  split.
  - intros H.
    assert (N : (0 <= d)%Z).
    { destruct (Z.neg_nonneg_cases d) as [L|L]; auto. exfalso.
      assert (Z.ldiff d 3 < 0)%Z by (apply Z.ldiff_neg; split; auto; lia). lia. }
    split; auto. apply Z.ldiff_le in H; lia.
  - intros H. assert (d = 0 \/ d = 1 \/ d = 2 \/ d = 3)%Z as [->|[->|[->| ->]]] by lia; reflexivity.
Qed.

Lemma rejects :
  (forall k, is_ok (BasicType k) = false <->
     In k [KInvalid; KArray; KChan; KFunc; KInterface; KMap; KPtr; KSlice; KStruct]) /\
  (forall e, is_ok (PointerType e) = false <-> e = TNil) /\
  (forall e, is_ok (SliceType e) = false <-> e = TNil) /\
  (forall e n, is_ok (ArrayType e n) = false <-> e = TNil \/ (n < 0)%Z) /\
  (forall k v, is_ok (MapType k v) = false <-> k = TNil \/ v = TNil) /\
  (forall e d, is_ok (ChannelType e d) = false <-> e = TNil \/ ~ (0 <= d <= 3)%Z) /\
  (forall s, is_ok (FuncTypeFromSig s) = false <->
     (exists a, In a (Args s ++ Results s) /\ ArgTy a = TNil) \/
     (IsVariadic s = true /\ ~ exists l n e, Args s = l ++ [mkArg n (TSlice e)])).
Proof.
  split; [|split; [|split; [|split; [|split; [|split]]]]].
  - intros k. destruct k; vm_compute; split; intros H; try discriminate; auto 12;
      repeat (destruct H as [H|H]; try discriminate); destruct H.
  - intros e. unfold PointerType. destruct e; simpl; split; intros; try discriminate; auto.
  - intros e. unfold SliceType. destruct e; simpl; split; intros; try discriminate; auto.
  - intros e n. unfold ArrayType. destruct (is_nil e) eqn:E; simpl.
    + apply is_nil_TNil in E. tauto.
    + apply is_nil_false in E. destruct (Z.ltb_spec n 0); simpl; split; intros; auto; try discriminate.
      destruct H0; [congruence|lia].
  - intros k v. unfold MapType. destruct (is_nil k) eqn:E; simpl.
    + apply is_nil_TNil in E. tauto.
    + apply is_nil_false in E. destruct (is_nil v) eqn:V; simpl.
      * apply is_nil_TNil in V. tauto.
      * apply is_nil_false in V. split; intros; [discriminate|tauto].
  - intros e d. unfold ChannelType. destruct (is_nil e) eqn:E; simpl.
    + apply is_nil_TNil in E. tauto.
    + apply is_nil_false in E.
      set (d' := if (d =? 0)%Z then BothDir else d).
      assert (D : Z.ldiff d' BothDir = 0%Z <-> (0 <= d <= 3)%Z).
      { unfold d'. destruct (Z.eqb_spec d 0); [subst; vm_compute; split; intros; auto; split; discriminate|].
        apply land_dir. }
      destruct (Z.eqb_spec (Z.ldiff d' BothDir) 0) as [Z0|Z0]; simpl; split; intros; auto; try discriminate.
      * exfalso. destruct H; tauto.
      * right. tauto.
  - intros [a r v]. unfold FuncTypeFromSig. cbn [Args Results IsVariadic].
    destruct (existsb _ a) eqn:EA.
    { apply existsb_nil_iff in EA as (x & I & N). simpl. split; auto. intros _. left. exists x.
      split; auto. apply in_or_app; auto. }
    destruct (existsb _ r) eqn:ER.
    { apply existsb_nil_iff in ER as (x & I & N). simpl. split; auto. intros _. left. exists x.
      split; auto. apply in_or_app; auto. }
    assert (NO : ~ exists x, In x (a ++ r) /\ ArgTy x = TNil).
    { intros (x & I & N). apply in_app_or in I as [I|I].
      - assert (existsb (fun a => is_nil (ArgTy a)) a = true) by (apply existsb_nil_iff; eauto). congruence.
      - assert (existsb (fun a => is_nil (ArgTy a)) r = true) by (apply existsb_nil_iff; eauto). congruence. }
    destruct v; cbn [andb].
    + destruct (last_arg_split a) as [[-> ->]|(l' & [n t] & -> & ->)].
      * simpl. split; auto. intros _. right. split; auto. intros (l & n & e & E). destruct l; discriminate.
      * cbn [ArgTy]. destruct t as [ | | | |e| | | | | | ]; simpl; split; intros H; auto; try discriminate.
        all: try (right; split; auto; intros (l & n1 & e1 & E); apply app_inj_tail in E as [_ E]; discriminate).
        exfalso. destruct H as [H|[_ H]]; [tauto|]. apply H. exists l', n, e. auto.
    + simpl. split; [discriminate|]. intros [H|[H _]]; [tauto|discriminate].
Qed.

Section WithPrint.
Variable isPrint : N -> bool.

Lemma same_text t1 t2 s :
  wf t1 = true -> text_ok t1 = true -> no_shadow t1 = true ->
  wf t2 = true -> text_ok t2 = true -> no_shadow t2 = true ->
  typeNameToString isPrint t1 = Ok s -> typeNameToString isPrint t2 = Ok s -> erase t1 = erase t2.
Proof.
  intros W1 T1 N1 W2 T2 N2 E1 E2. rewrite string_is_buffer in E1, E2.
  destruct (type_text_parses isPrint t1 W1 T1) as (s1 & F1 & P1).
  destruct (type_text_parses isPrint t2 W2 T2) as (s2 & F2 & P2).
  assert (s1 = s) by congruence. assert (s2 = s) by congruence. subst.
  rewrite <- (undenote_denote t1 W1 N1), <- (undenote_denote t2 W2 N2). congruence.
Qed.
Lemma round_trip t : wf t = true -> text_ok t = true ->
  exists s, typeNameToString isPrint t = Ok s /\ parse_type s = Some (denote t).
Proof. intros W T. rewrite string_is_buffer. apply type_text_parses; auto. Qed.

Lemma nested t s : typeNameToString isPrint t = Ok s ->
  typeNameToString isPrint (TPtr t) = Ok ("*" ++ s)%string /\
  typeNameToString isPrint (TSlice t) = Ok ("[]" ++ s)%string /\
  (forall n, typeNameToString isPrint (TArray t n) = Ok ("[" ++ decZ n ++ "]" ++ s)%string) /\
  (forall k x, typeNameToString isPrint k = Ok x ->
     typeNameToString isPrint (TMap t k) = Ok ("map[" ++ x ++ "]" ++ s)%string) /\
  typeNameToString isPrint (TChan t BothDir) = Ok ("chan " ++ s)%string /\
  typeNameToString isPrint (TChan t SendDir) = Ok ("chan<- " ++ s)%string /\
  typeNameToString isPrint (TChan t RecvDir) = Ok ("<-chan " ++ s)%string /\
  typeNameToString isPrint (TFunc (mkSig [] [mkArg "" t] false)) = Ok ("func() " ++ s)%string /\
  (forall n, n <> "" ->
     typeNameToString isPrint (TFunc (mkSig [mkArg n t] [] false)) = Ok ("func(" ++ n ++ " " ++ s ++ ")")%string) /\
  (forall n, n <> "" ->
     typeNameToString isPrint (TFunc (mkSig [mkArg n (TSlice t)] [] true)) = Ok ("func(" ++ n ++ " ..." ++ s ++ ")")%string) /\
  (forall n, n <> "" ->
     typeNameToString isPrint (TStruct [mkField n t ""]) = Ok ("struct{" ++ n ++ " " ++ s ++ "}")%string) /\
  (forall n, n <> "" ->
     typeNameToString isPrint (TInterface [mkMethod n (mkSig [] [mkArg "" t] false)] []) =
       Ok ("interface{" ++ n ++ "() " ++ s ++ "}")%string).
Proof.
  rewrite string_is_buffer. intros E.
  assert (NE : forall n : string, n <> "" -> String.eqb n "" = false) by (intros; apply String.eqb_neq; auto).
  repeat split; intros; try rewrite string_is_buffer in *; cbn [typeNameToString typeNameToBuffer signatureToBuffer_];
    unfold any_named, arg_name_text; cbn [existsb ArgName List.length Nat.ltb Nat.leb Nat.eqb Nat.sub andb orb];
    try (match goal with N : ?n <> "" |- _ => rewrite (NE n N) end); cbn [negb orb andb];
    repeat match goal with H : typeNameToBuffer _ _ = Ok _ |- _ => rewrite H; clear H end;
    cbn; rewrite ?append_nil_r; auto; try (rewrite ?append_assoc; reflexivity).
Qed.

(** ** Signatures *)
Lemma dparams_length {T} (rec : T -> gotype) named v l : List.length (dparams rec named v l) = List.length l.
Proof. induction l as [|[n t] l IH]; simpl; auto. Qed.
Lemma dparams_names (rec : TypeName -> gotype) v l :
  all_or_nothing (map ArgName l) (dparams rec (has_names l) v l).
Proof.
  destruct (has_names l) eqn:H.
  - right. split; [rewrite dparams_length, map_length; auto|]. split.
    + unfold has_names in H. apply existsb_exists in H as (a & I & N). exists (ArgName a).
      split; [apply in_map; auto|]. apply negb_true_iff, String.eqb_neq in N. auto.
    + clear H. induction l as [|[n t] l IH]; intros [|k] m p; cbn; try discriminate; [|apply IH].
      intros [= <-] [= <-]. reflexivity.
  - left. split; [rewrite dparams_length, map_length; auto|]. split.
    + intros n I. apply in_map_iff in I as (a & <- & I).
      destruct (String.eqb_spec (ArgName a) ""); auto.
      assert (has_names l = true); [|congruence]. apply existsb_exists. exists a. split; auto.
      apply negb_true_iff, String.eqb_neq; auto.
    + clear H. induction l as [|[n t] l IH]; intros p I; cbn in I; [destruct I|].
      destruct I as [<-|I]; auto.
Qed.
Lemma dparams_dots {T} (rec : T -> gotype) named v l k p : nth_error (dparams rec named v l) k = Some p ->
  gp_dots p = true <-> v = true /\ S k = List.length l.
Proof.
  revert k. induction l as [|[n t] l IH]; intros [|k]; cbn; try discriminate.
  - intros [= <-]. cbn. destruct l; cbn; split; intros; auto; [tauto|discriminate|destruct H; discriminate].
  - intros H. rewrite (IH k H). cbn. split; intros [A B]; split; auto; lia.
Qed.

Lemma signature_text sg : wf_sig sg = true -> sig_text_ok sg = true ->
  exists s ps rs, signatureToBuffer isPrint sg = Ok s /\ parse_signature s = Some (ps, rs) /\
    all_or_nothing (map ArgName (Args sg)) ps /\ all_or_nothing (map ArgName (Results sg)) rs /\
    (forall k p, nth_error ps k = Some p ->
       (gp_dots p = true <-> IsVariadic sg = true /\ S k = List.length (Args sg))) /\
    (forall p, In p rs -> gp_dots p = false).
Proof.
  intros W T. destruct (signature_text_parses isPrint sg W T) as (s & E & P).
  exists s. unfold denote_sig_with in P.
  eexists _, _. split; [exact E|]. split; [exact P|]. split; [apply dparams_names|].
  split; [apply dparams_names|]. split; [intros k p; apply dparams_dots|].
  intros p I. apply In_nth_error in I as (k & H). apply dparams_dots in H.
  destruct (gp_dots p); auto. destruct H as [H _]. destruct (H eq_refl). discriminate.
Qed.

Lemma results_parens sg s : signatureToBuffer isPrint sg = Ok s ->
  exists a r, s = ("(" ++ a ++ ")" ++ r)%string /\
    (Results sg = [] /\ r = "" \/
     (exists t x, Results sg = [mkArg "" t] /\ typeNameToString isPrint t = Ok x /\ r = (" " ++ x)%string) \/
     ((2 <= List.length (Results sg) \/ exists n t, Results sg = [mkArg n t] /\ n <> "") /\
      exists x, r = (" (" ++ x ++ ")")%string)).
Proof.
  destruct sg as [a r v]. unfold signatureToBuffer. rewrite sig_loops. cbn [Results].
  destruct (args_loop _ _ _ _ _ _ _) as [x|]; [|discriminate].
  set (R := match r with [] => _ | _ => _ end). destruct R as [y|] eqn:ER; [|discriminate].
  intros [= <-]. exists x, y. split; [cbn; rewrite ?append_assoc; auto|].
  unfold R in ER. clear R. destruct r as [|[n t] r]; [left; injection ER as <-; auto|]. right.
  cbv zeta in ER.
  destruct (results_loop _ _ _ _) as [z|] eqn:Z; [|discriminate].
  destruct r as [|b r].
  - cbn [List.length Nat.ltb Nat.leb any_named existsb ArgName orb] in ER.
    destruct (String.eqb_spec n "") as [->|NE].
    + left. exists t. rewrite string_is_buffer. cbn in Z. unfold any_named in Z. cbn in Z.
      destruct (typeNameToBuffer isPrint t) as [w|]; [|discriminate]. cbn in Z. injection Z as <-.
      exists w. cbn in ER. rewrite !append_nil_r in ER. injection ER as <-. auto.
    + right. split; [right; eauto|]. cbn in ER. exists z. injection ER as <-. reflexivity.
  - right. split; [left; cbn; lia|]. exists z. cbn in ER. injection ER as <-. reflexivity.
Qed.

(** ** Channels of receive-only channels *)
Lemma chan_of_recv e : wf e = true -> text_ok e = true -> recv_chan e = false ->
  exists s, typeNameToString isPrint (TChan (TChan e RecvDir) BothDir) = Ok s /\
    parse_type s = Some (GChan DSend (GChan DBoth (denote e))).
Proof.
  intros WF T NR.
  destruct (type_renders isPrint (TChan e RecvDir)) as [R _]; [exact WF|cbn; exact T|].
  assert (X : renders (typeNameToBuffer isPrint (TChan (TChan e RecvDir) BothDir)) (toks (TChan (TChan e BothDir) SendDir))).
  { change (toks (TChan (TChan e BothDir) SendDir)) with
      ([] ++ [TKw "chan"] ++ ([] ++ ([] ++ toks (TChan e RecvDir)))).
    change (typeNameToBuffer isPrint (TChan (TChan e RecvDir) BothDir)) with
      (W "" +++ (W "chan" +++ (W "" +++ (W " " +++ typeNameToBuffer isPrint (TChan e RecvDir))))).
    apply rco_app; [apply rc_nil|].
    apply ro_app; [apply ro_chan|apply rco_app; [apply rc_nil|apply rco_app; [apply rc_space|exact R]]|].
    destruct R as (s & E & _). rewrite E. eexists. split; [reflexivity|]. split; [discriminate|reflexivity]. }
  destruct X as (s & E & L). exists s. split; [exact E|].
  unfold parse_type. rewrite (lexo_lex _ _ L), ptype_all; auto.
  cbn. rewrite NR. auto.
Qed.
Lemma chan_kept e d : wf (TChan e d) = true -> text_ok e = true -> ~ (d = BothDir /\ tKind e = KindChan /\ tDir e = RecvDir) ->
  exists s, typeNameToString isPrint (TChan e d) = Ok s /\
    parse_type s = Some (GChan (denote_dir d) (denote e)).
Proof.
  intros W T N. destruct (round_trip (TChan e d) W) as (s & E & P); [|exists s; auto].
  cbn [text_ok]. rewrite T, andb_true_r. apply negb_true_iff, andb_false_iff.
  destruct (Z.eqb_spec d 3); auto. right. destruct e; auto. cbn. apply Z.eqb_neq. intros ->. apply N. auto.
Qed.
Lemma chan_refuted : ~ forall e d, wf (TChan e d) = true -> text_ok e = true ->
  exists s, typeNameToString isPrint (TChan e d) = Ok s /\ parse_type s = Some (denote (TChan e d)).
Proof.
  intros H. destruct (H (TChan (TBasic KInt) RecvDir) BothDir eq_refl eq_refl) as (s & E & P).
  destruct (chan_of_recv (TBasic KInt) eq_refl eq_refl eq_refl) as (s' & E' & P').
  assert (s' = s) by congruence. subst. rewrite P' in P. discriminate.
Qed.

(** ** Interfaces with embeds and methods *)
Lemma glued e n sg :
  typeNameToString isPrint (TInterface [mkMethod n sg] [mkSymbol zeroPackage e]) =
  typeNameToString isPrint (TInterface [mkMethod (e ++ n) sg] []).
Proof.
  cbn [typeNameToString typeNameToBuffer]. unfold symbol_text. cbn.
  destruct (signatureToBuffer_ _ _ sg); cbn; auto. rewrite !append_nil_r, <- !append_assoc. reflexivity.
Qed.
Lemma interface_refuted :
  (exists e s, typeNameToString isPrint (InterfaceType [e] [mkMethod "Foo" (mkSig [] [] false)]) = Ok s /\
     sym_ok e = true /\ parse_type s = None) /\
  (exists e s, typeNameToString isPrint (InterfaceType [e] [mkMethod "Foo" (mkSig [] [] false)]) = Ok s /\
     sym_ok e = true /\ parse_type s = Some (GInterface [inl ("errorFoo", [], [])])).
Proof.
  split.
  - exists (mkSymbol (mkPackage "fmt" "fmt") "Stringer"). eexists. split; [reflexivity|]. split; reflexivity.
  - exists (mkSymbol zeroPackage "error"). eexists. split; [reflexivity|]. split; reflexivity.
Qed.
Lemma interface_one_kind es ms : wf (InterfaceType es ms) = true -> (es = [] \/ ms = []) ->
  forallb sym_ok es = true -> forallb (fun m => ident (MtdName m) && sig_text_ok (MtdSig m)) ms = true ->
  exists s, typeNameToString isPrint (InterfaceType es ms) = Ok s /\
    parse_type s = Some (GInterface
      (map (fun e => inr (qualifier e, SymName e)) es ++
       map (fun m => inl (MtdName m, fst (denote_sig (MtdSig m)), snd (denote_sig (MtdSig m)))) ms)).
Proof.
  intros W O TE TM. destruct (round_trip (TInterface ms es) W) as (s & E & P).
  - cbn [text_ok]. rewrite TE, andb_true_r. apply andb_true_iff; split.
    + destruct O; subst; auto. destruct ms; auto.
    + rewrite forallb_forall in *. intros m I. specialize (TM m I). destruct m as [n [a r v]]. exact TM.
  - exists s. split; auto. rewrite P. cbn [denote_with]. do 3 f_equal.
    apply map_ext. intros [n [a r v]]. reflexivity.
Qed.
End WithPrint.
