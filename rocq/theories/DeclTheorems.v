(** NewTypeSpec: the declaration built from a TypeName declares that type. *)
From Verif Require Import Base BaseFacts GoPath Types SpecTypes TypesFacts Imports SpecImports SpecGo SpecRender
  SpecLit LexProofs TextProofs ParseProofs Conv World SpecFile SpecDecl FileLexProofs DeclParse DeclText WorldProofs FileTheorems.

Section Decls.
Context {TD : Type}.
Notation World := (World TD).

(** allocating one entry per member of a list *)
Lemma map_m_alloc {A B} (tab : World -> list B) (set : list B -> World -> World) (g : A -> B) l :
  (forall v w, tab (set v w) = v) -> (forall u v w, set u (set v w) = set u w) ->
  (forall w, set (tab w) w = w) ->
  forall w, map_m (fun a => alloc tab set (g a)) l w =
    (Ok (seq (List.length (tab w)) (List.length l)), set (tab w ++ map g l) w).
Proof.
  intros TS SS ST. induction l as [|a l IH]; intros w.
  - cbn. rewrite app_nil_r, ST. reflexivity.
  - cbn [map_m]. unfold sbind at 1. unfold alloc at 1. unfold sbind. rewrite IH. unfold sret.
    rewrite TS, SS, app_length. cbn [List.length seq map]. rewrite Nat.add_1_r, <- app_assoc. reflexivity.
Qed.
Lemma all_some_map {A B} (f : A -> option B) (g : A -> B) l :
  (forall a, In a l -> f a = Some (g a)) -> all_some (map f l) = Some (map g l).
Proof.
  induction l as [|a l IH]; intros H; [reflexivity|]. cbn [map all_some]. rewrite (H a) by (left; auto).
  cbn [obind]. rewrite IH by (intros; apply H; right; auto). reflexivity.
Qed.
(** members of a table that was extended *)
Lemma all_some_seq {A B C} (tab pre : list B) (h : A -> B) (f : B -> option C) (g : A -> C) l :
  tab = pre ++ map h l -> (forall a, In a l -> f (h a) = Some (g a)) ->
  all_some (map (fun id => obind (nth_error tab id) f) (seq (List.length pre) (List.length l))) = Some (map g l).
Proof.
  intros E H. revert pre E. induction l as [|a l IH]; intros pre E; [reflexivity|].
  cbn [List.length seq map all_some].
  assert (N : nth_error tab (List.length pre) = Some (h a)).
  { rewrite E. rewrite nth_error_app2 by lia. rewrite Nat.sub_diag. reflexivity. }
  rewrite N. cbn [obind]. rewrite (H a) by (left; auto). cbn [obind].
  assert (X := IH (fun b I => H b (or_intror I)) (pre ++ [h a])).
  rewrite app_length in X. cbn [List.length] in X. rewrite Nat.add_1_r in X. rewrite X; [reflexivity|].
  rewrite E, <- app_assoc. reflexivity.
Qed.

Lemma decl_ok_text t : decl_ok t = true -> multi_line t = false -> text_ok t = true.
Proof. destruct t; intros; try discriminate; auto. Qed.
Lemma NewTypeSpec_meaning (w : World) name t : wf t = true -> decl_ok t = true ->
  exists T w', NewTypeSpec name (IsName t) w = (Ok (List.length (types w)), w') /\
    nth_error (types w') (List.length (types w)) = Some T /\
    TSName T = name /\ TSIsAlias T = false /\ TSUnderlying T = t /\
    forall fuel tb T', TSUnderlying T' = t -> TSStruct T' = TSStruct T -> TSInterface T' = TSInterface T ->
      spec_meaning (set_types tb w') (S fuel) T' = Some (denote t).
Proof.
  intros WF OK. unfold NewTypeSpec. unfold sbind at 1. unfold alloc at 1.
  set (w1 := set_types (types w ++ [mkTypeSpec "" name false t [] [] None]) w).
  assert (N1 : nth_error (types w1) (List.length (types w)) = Some (mkTypeSpec "" name false t [] [] None)).
  { cbn. rewrite nth_error_app2 by lia. rewrite Nat.sub_diag. reflexivity. }
  assert (PL : forall T, nth_error (types (set_types (upd (List.length (types w)) T (types w1)) w1)) (List.length (types w)) = Some T).
  { intros T. cbn. apply nth_upd_same. rewrite app_length. cbn. lia. }
  destruct t as [|k|s|e|e|e n|e k|e d|sg|fs|ms es]; try discriminate WF;
    try (eexists; eexists; split; [reflexivity|]; split; [exact N1|]; cbn [TSName TSIsAlias TSUnderlying];
         split; [reflexivity|]; split; [reflexivity|]; split; [reflexivity|]; intros fuel tb T' TU TS TI; cbn [spec_meaning_with];
         rewrite TU; match type of OK with decl_ok ?t = _ => change (text_ok t = true) in OK end;
         rewrite WF, OK; reflexivity).
  - (* struct *)
    set (gf := fun f : FieldType => mkFieldSpec "" (FldName f) (FldTag f)
                 (match FldType f with TNil => NoType | ft => IsName ft end) (Some (List.length (types w)))).
    unfold sbind at 1. rewrite (map_m_alloc fields set_fields gf fs) by (intros; try reflexivity; destruct w0; reflexivity).
    unfold sbind, put, sret.
    eexists. eexists. split; [reflexivity|]. cbn [types set_types set_fields]. split.
    { apply nth_upd_same. cbn. rewrite app_length. cbn. lia. }
    cbn [TSName TSIsAlias TSUnderlying]. split; [reflexivity|]. split; [reflexivity|]. split; [reflexivity|].
    intros fuel tb T' TU TS TI. cbn [TSStruct] in TS. cbn [spec_meaning_with fields types set_types set_fields]. rewrite TU, TS.
    erewrite (all_some_seq (fields w1 ++ map gf fs) (fields w1) gf _
               (fun f => (opt_name (FldName f), denote (FldType f), FldTag f))); [|reflexivity|].
    + cbn [option_map denote_with]. do 2 f_equal. apply map_ext. intros [n ft tag]. reflexivity.
    + intros f I. cbn [wf] in WF. cbn [decl_ok] in OK. rewrite forallb_forall in WF, OK.
      specialize (WF f I). specialize (OK f I). apply andb_true_iff in OK as [OK TG]. apply andb_true_iff in OK as [NM DO].
      destruct f as [n ft tag]. cbn [FldName FldType FldTag] in *. unfold gf. cbn [FSType FSName FSTag FldName FldType FldTag].
      destruct ft; try discriminate WF; rewrite WF, DO; cbn [andb obind]; rewrite TG, andb_true_r;
      (destruct (String.eqb n ""); [|rewrite NM; reflexivity]);
      cbn [embeddable type_name] in NM; try discriminate NM; try reflexivity.
      match goal with E : TypeName |- _ => destruct E; try discriminate NM; reflexivity end.
  - (* interface *)
    unfold sbind at 1.
    set (ge := fun e : Symbol => InterfaceEmbed "" e (Some (List.length (types w)))).
    set (gm := fun m : MethodType => InterfaceMethod "" (MtdName m) (MtdSig m) (Some (List.length (types w)))).
    rewrite (map_m_alloc ielems set_ielems ge es) by (intros; try reflexivity; destruct w0; reflexivity).
    unfold sbind at 1.
    rewrite (map_m_alloc ielems set_ielems gm ms) by (intros; try reflexivity; destruct w0; reflexivity).
    unfold sbind, put, sret.
    eexists. eexists. split; [reflexivity|]. cbn [types set_types set_ielems]. split.
    { apply nth_upd_same. cbn. rewrite app_length. cbn. lia. }
    cbn [TSName TSIsAlias TSUnderlying]. split; [reflexivity|]. split; [reflexivity|]. split; [reflexivity|].
    intros fuel tb T' TU TS TI. cbn [TSInterface] in TI. cbn [spec_meaning_with ielems types set_types set_ielems]. rewrite TU, TI.
    set (h := fun x : Symbol + MethodType => match x with inl e => ge e | inr m => gm m end).
    set (l := map inl es ++ map inr ms : list (Symbol + MethodType)).
    assert (EQ : ((ielems w1 ++ map ge es) ++ map gm ms = ielems w1 ++ map h l)%list).
    { unfold l. rewrite map_app, !map_map. rewrite <- app_assoc. reflexivity. }
    rewrite EQ.
    change (ielems (set_ielems (ielems w1 ++ map ge es) w1)) with (ielems w1 ++ map ge es).
    replace (seq (List.length (ielems w1)) (List.length es) ++ seq (List.length (ielems w1 ++ map ge es)) (List.length ms))
      with (seq (List.length (ielems w1)) (List.length l)).
    2:{ unfold l. rewrite app_length, !map_length, seq_app, app_length, map_length. reflexivity. }
    erewrite (all_some_seq (ielems w1 ++ map h l) (ielems w1) h elem_meaning
               (fun x => match x with
                         | inl e => inr (qualifier e, SymName e)
                         | inr m => inl (MtdName m, fst (denote_sig (MtdSig m)), snd (denote_sig (MtdSig m)))
                         end)); [|reflexivity|].
    + cbn [option_map denote_with]. do 2 f_equal. unfold l. rewrite map_app, !map_map. f_equal.
      apply map_ext. intros [n [a r v]]. reflexivity.
    + cbn [decl_ok] in OK. apply andb_true_iff in OK as [OE OM]. rewrite forallb_forall in OE, OM.
      cbn [wf] in WF. rewrite forallb_forall in WF.
      intros [e|m] I; unfold l in I; apply in_app_iff in I; cbn [h elem_meaning_with ge gm].
      * assert (IE : In e es) by (destruct I as [I|I]; apply in_map_iff in I as (x & X & I); congruence).
        unfold ge. cbn [elem_meaning_with]. rewrite (OE e IE). reflexivity.
      * assert (IM : In m ms) by (destruct I as [I|I]; apply in_map_iff in I as (x & X & I); congruence).
        specialize (OM m IM). apply andb_true_iff in OM as [O1 O2]. specialize (WF m IM).
        unfold gm. cbn [elem_meaning_with]. rewrite O1, O2.
        replace (wf_sig (MtdSig m)) with true; [reflexivity|].
        destruct m as [n [a r v]]. cbn [MtdSig] in *. unfold wf_sig. cbn [Args Results IsVariadic].
        apply andb_true_iff in WF as [W1 W2]. apply andb_true_iff in W2 as [W2 W3]. rewrite W1, W2, W3. reflexivity.
Qed.
Lemma NewTypeAlias_meaning (w : World) name t : wf t = true -> decl_ok t = true ->
  exists T w', NewTypeAlias name (IsName t) w = (Ok (List.length (types w)), w') /\
    nth_error (types w') (List.length (types w)) = Some T /\
    TSName T = name /\ TSIsAlias T = true /\ TSUnderlying T = t /\
    forall fuel, spec_meaning w' (S fuel) T = Some (denote t).
Proof.
  intros WF OK. destruct (NewTypeSpec_meaning w name t WF OK) as (T & w' & E & N & TN & TA & TU & M).
  unfold NewTypeAlias, sbind. rewrite E. unfold get. rewrite N. unfold put, sret.
  eexists. eexists. split; [reflexivity|]. cbn [types set_types]. split.
  { apply nth_upd_same. apply nth_error_Some. congruence. }
  cbn [TSName TSIsAlias TSUnderlying]. do 3 (split; [auto|]). intros fuel. apply M; auto.
Qed.
Lemma set_types_same (w : World) : set_types (types w) w = w.
Proof. destruct w; reflexivity. Qed.

(** The text of the new declaration, read back. *)
Lemma NewTypeSpec_text env (w : World) name t alias fuel : ident name = true -> wf t = true -> decl_ok t = true ->
  exists id T w' s, (if alias : bool then NewTypeAlias else NewTypeSpec) name (IsName t) w = (Ok id, w') /\
    nth_error (types w') id = Some T /\
    TypeSpec_writeTo env (S fuel) w' T true = Ok s /\
    option_map ptypespec (tokens s) = Some (Some (name, alias, denote t, [TOp ";"])).
Proof.
  intros N WF OK.
  assert (X : exists T w', (if alias then NewTypeAlias else NewTypeSpec) name (IsName t) w = (Ok (List.length (types w)), w') /\
    nth_error (types w') (List.length (types w)) = Some T /\ TSName T = name /\ TSIsAlias T = alias /\
    spec_meaning w' (S fuel) T = Some (denote t)).
  { destruct alias.
    - destruct (NewTypeAlias_meaning w name t WF OK) as (T & w' & ? & ? & ? & ? & ? & M). exists T, w'. auto.
    - destruct (NewTypeSpec_meaning w name t WF OK) as (T & w' & ? & ? & ? & ? & ? & M). exists T, w'.
      specialize (M fuel (types w') T). rewrite set_types_same in M. auto 10. }
  destruct X as (T & w' & E & NT & TN & TA & M).
  assert (TM : typespec_meaning w' (S fuel) T = Some (name, alias, denote t)).
  { unfold typespec_meaning_with. rewrite TN, N, M, TA. reflexivity. }
  destruct (typespec_item env w' (S fuel) T _ TM) as (ts & [TX P _]).
  destruct (TX true) as (s & W & F). exists (List.length (types w)), T, w', s. split; auto. split; auto. split; auto.
  unfold tokens. rewrite <- (append_nil_r s), F. cbn [flexer fend lex_end omap ends_after fold_left semi app].
  cbn [option_map]. rewrite app_nil_r. rewrite (P []). reflexivity.
Qed.
End Decls.

(** ** The text of grouped and single declarations *)
Section Forms.
Context {TD : Type}.
Variables (env : Env TD) (w : World TD).
(** The members of a declaration: keyword, the declaration's comment and, for each member, its
    own comment and its text. *)
Definition members (fuel : nat) (e : FileElement) : option (string * string * list (string * res string)) :=
  match e with
  | EConst d =>
      obind (nth_error (constDecls w) d) (fun D => obind (lookup_all (consts w) (VDSpecs D)) (fun l =>
      Some ("const", VDComment D, map (fun v => (VComment v, ValueSpec_writeTo env w v false)) l)))
  | EVar d =>
      obind (nth_error (varDecls w) d) (fun D => obind (lookup_all (vars w) (VDSpecs D)) (fun l =>
      Some ("var", VDComment D, map (fun v => (VComment v, ValueSpec_writeTo env w v false)) l)))
  | EType d =>
      obind (nth_error (typeDecls w) d) (fun D => obind (lookup_all (types w) (TDTypes D)) (fun l =>
      Some ("type", TDComment D, map (fun t => (TSComment t, TypeSpec_writeTo env fuel w t false)) l)))
  | EFunc _ => None
  end.
Lemma decl_form {A} kw comment (spc : A -> string) write l :
  (forall a, write a true = W (writeComment (spc a)) +++ write a false) ->
  decl_writeTo kw comment spc write l =
    let ms := map (fun a => (spc a, write a false)) l in
    if Nat.ltb 1 (List.length ms) || negb (String.eqb comment "")
    then W (writeComment comment ++ kw ++ " (" ++ newline)%string
         +++ concat_res (map (fun m => W (writeComment (fst m)) +++ snd m) ms) +++ W (")" ++ newline)%string
    else match ms with
         | [(c, t)] => W (writeComment c ++ kw ++ " ")%string +++ t
         | _ => Panic index_oob
         end.
Proof.
  intros H. unfold decl_writeTo. cbv zeta. rewrite map_length.
  destruct (Nat.ltb 1 (List.length l) || negb (String.eqb comment "")) eqn:G.
  - rewrite map_map. cbn [fst snd].
    change (W (writeComment comment ++ kw ++ " (" ++ newline)%string) with (W (writeComment comment) +++ W (kw ++ " (" ++ newline)%string).
    rewrite bcat_assoc. do 3 f_equal. f_equal. apply map_ext. intros a. apply H.
  - destruct l as [|a [|b l]]; [reflexivity| |discriminate]. cbn [map].
    change (W (writeComment (spc a) ++ kw ++ " ")%string) with (W (writeComment (spc a)) +++ W (kw ++ " ")%string).
    rewrite bcat_assoc. reflexivity.
Qed.
Lemma element_form fuel e kw comment ms : members fuel e = Some (kw, comment, ms) ->
  FileElement_writeTo env fuel w e =
    if Nat.ltb 1 (List.length ms) || negb (String.eqb comment "")
    then W (writeComment comment ++ kw ++ " (" ++ newline)%string
         +++ concat_res (map (fun m => W (writeComment (fst m)) +++ snd m) ms) +++ W (")" ++ newline)%string
    else match ms with
         | [(c, t)] => W (writeComment c ++ kw ++ " ")%string +++ t
         | _ => Panic index_oob
         end.
Proof.
  assert (V : forall v, ValueSpec_writeTo env w v true = W (writeComment (VComment v)) +++ ValueSpec_writeTo env w v false).
  { intros v. unfold ValueSpec_writeTo at 2. cbn [W]. unfold ValueSpec_writeTo.
    destruct (W (join ", " (VNames v)) +++ _); reflexivity. }
  assert (T : forall t, TypeSpec_writeTo env fuel w t true = W (writeComment (TSComment t)) +++ TypeSpec_writeTo env fuel w t false).
  { intros t. unfold TypeSpec_writeTo. destruct (W (TSName t) +++ _); reflexivity. }
  destruct e as [d|d|d|fn]; cbn [members FileElement_writeTo]; unfold obind, rd.
  - destruct (nth_error (constDecls w) d) as [D|]; [|discriminate].
    destruct (lookup_all (consts w) (VDSpecs D)) as [l|] eqn:L; [|discriminate]. intros [= <- <- <-].
    cbn [rbind]. rewrite (lookup_all_rd w consts _ _ L). cbn [rbind]. apply decl_form. exact V.
  - destruct (nth_error (varDecls w) d) as [D|]; [|discriminate].
    destruct (lookup_all (vars w) (VDSpecs D)) as [l|] eqn:L; [|discriminate]. intros [= <- <- <-].
    cbn [rbind]. rewrite (lookup_all_rd w vars _ _ L). cbn [rbind]. apply decl_form. exact V.
  - destruct (nth_error (typeDecls w) d) as [D|]; [|discriminate].
    destruct (lookup_all (types w) (TDTypes D)) as [l|] eqn:L; [|discriminate]. intros [= <- <- <-].
    cbn [rbind]. rewrite (lookup_all_rd w types _ _ L). cbn [rbind]. apply decl_form. exact T.
  - discriminate.
Qed.
(** one element alone *)
Lemma element_parses fuel e d : has_content w e = true -> element_meaning w (block_text env w) fuel e = Some d ->
  exists s ts, FileElement_writeTo env fuel w e = Ok s /\ tokens s = Some ts /\ ptop ts = Some (d, []).
Proof.
  intros H M. destruct (element_text env w fuel e d H M) as (ts & (s & E & F) & P & _).
  exists s, ts. split; auto. split.
  - unfold tokens. rewrite <- (append_nil_r s), F. cbn. rewrite app_nil_r. auto.
  - specialize (P []). rewrite app_nil_r in P. auto.
Qed.
End Forms.

From Verif Require Import SpecWorld.
Lemma type_spec_refuted : forall env : Env unit,
  ~ (forall (w : World unit) name t fuel, ident name = true -> wf t = true -> text_ok t = true ->
       exists id T w' s, NewTypeSpec name (IsName t) w = (Ok id, w') /\ nth_error (types w') id = Some T /\
         TypeSpec_writeTo env (S fuel) w' T true = Ok s /\
         option_map ptypespec (tokens s) = Some (Some (name, false, denote t, [TOp ";"]))).
Proof.
  intros env H.
  destruct (H empty_world "T" (TStruct [mkField "A" (TStruct []) "x"]) 0 eq_refl eq_refl eq_refl)
    as (id & T & w' & s & E & N & WT & P).
  cbn in E. injection E as <- <-. cbn in N. injection N as <-.
  cbn in WT. injection WT as <-. cbn in P. discriminate P.
Qed.
