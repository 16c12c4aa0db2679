(** What Go reads in the declaration of any type with usable names. *)
From Verif Require Import Base BaseFacts GoPath Utf8 Quote SpecLit LitProofs Types SpecTypes TypesFacts
  Imports SpecImports SpecGo SpecRender LexProofs TextProofs ParseProofs TextTheorems Conv Fmt World
  SpecFile SpecDecl FileLexProofs DeclParse DeclText WorldProofs FileTheorems DeclTheorems SpecText TextExact SpecDeclText.

(** ** Last tokens *)
Lemma gsig_last a r v : Forall (fun x => lastok (gtoks (ArgTy x))) r -> lastok (sig_toks gtoks (mkSig a r v)).
Proof.
  intros F. unfold sig_toks. apply lastok_cons, lastok_app. destruct r as [|x r].
  - apply lastok_one. reflexivity.
  - apply lastok_cons. destruct (Nat.ltb 1 (List.length (x :: r)) || has_names (x :: r)) eqn:E.
    + apply lastok_cons, lastok_app, lastok_one. reflexivity.
    + apply orb_false_iff in E as [E1 E2]. destruct r; [|discriminate]. destruct x as [n t].
      cbn [args_toks]. rewrite E2. cbn [app]. rewrite app_nil_r. inversion F; auto.
Qed.
Lemma gtoks_last t : wf t = true -> lastok (gtoks t).
Proof.
  induction t using TypeName_ind'; intros WF; try discriminate WF.
  - apply lastok_one. reflexivity.
  - apply sym_toks_last.
  - apply lastok_cons. apply IHt. exact WF.
  - apply lastok_cons, lastok_cons. apply IHt. exact WF.
  - cbn [wf] in WF. apply andb_true_iff in WF as [_ WF]. apply lastok_cons, lastok_cons, lastok_cons. auto.
  - cbn [wf] in WF. apply andb_true_iff in WF as [WF _].
    apply lastok_cons, lastok_cons, lastok_app, lastok_cons. auto.
  - cbn [wf] in WF. apply andb_true_iff in WF as [_ WF]. cbn [gtoks].
    apply lastok_app, lastok_cons, lastok_app. auto.
  - destruct s as [a r v]. cbn [wf] in WF. apply andb_true_iff in WF as [_ WF].
    apply andb_true_iff in WF as [_ WR]. apply lastok_cons. apply gsig_last.
    destruct H as [_ H]. cbn [Results] in H. unfold PArgs in H. rewrite Forall_forall in *.
    rewrite forallb_forall in WR. auto.
  - cbn [gtoks]. apply lastok_cons, lastok_cons, lastok_app, lastok_one. reflexivity.
  - cbn [gtoks]. apply lastok_cons, lastok_cons, lastok_app, lastok_one. reflexivity.
Qed.
Lemma gsig_toks_last s : wf_sig s = true -> lastok (sig_toks gtoks s).
Proof.
  destruct s as [a r v]. unfold wf_sig. cbn [Args Results]. rewrite !andb_true_iff. intros [_ WR].
  apply gsig_last. apply Forall_forall. rewrite forallb_forall in WR. intros x I. apply gtoks_last. auto.
Qed.

(** ** What is read on one line *)
Lemma sep_treads t : wf t = true -> sep_ok t = true -> treads (toks t) (denote t).
Proof.
  intros W X. split.
  - destruct (shape_of t (wf_not_nil t W)) as [x T D _|q n T D _|h r T H _ _].
    + eapply TLocal; eauto.
    + eapply TQual; eauto.
    + eapply TOther; eauto.
  - destruct (type_reads_sep t W X) as [R _]. exact R.
Qed.
Lemma read_treads t : wf t = true -> names_fine t = true -> readable t = true -> treads (gtoks t) (denote (read_as t)).
Proof.
  intros W N R. rewrite gtoks_read by auto. apply sep_treads; [apply wf_read; auto|].
  apply sep_read. unfold ready. rewrite N, R. auto.
Qed.

Section WithEnv.
Context {TD : Type}.
Notation World := (World TD).
Variable env : Env TD.
Notation isPrint := (World.isPrint env).

(** ** Lines *)
Definition sig_fine (s : Signature) : bool :=
  names_ok (Args s) && names_ok (Results s) && (forallb (fun x => names_fine (ArgTy x)) (Args s) && forallb (fun x => names_fine (ArgTy x)) (Results s)).
Lemma gsig_renders s : wf_sig s = true -> sig_fine s = true ->
  renders (signatureToBuffer isPrint s) (sig_toks gtoks s).
Proof.
  destruct s as [a r v]. unfold wf_sig, sig_fine. cbn [Args Results]. rewrite !andb_true_iff.
  intros [[V WA] WR] [[NA NR] [FA FR]].
  apply (sigPG isPrint a r v); auto. split; apply Forall_forall; intros; apply gtype_renders.
Qed.
Lemma gmethod_frl c n s : ident n = true -> wf_sig s = true -> sig_fine s = true ->
  frl (method_writeTo env c n s) false (TIdent n :: sig_toks gtoks s ++ [TOp ";"]) false.
Proof.
  intros N WS TS. unfold method_writeTo. rewrite <- (app_nil_l (TIdent n :: _)).
  eapply frl_app; [apply comment_frl|]. rewrite <- bcat_assoc.
  change (TIdent n :: sig_toks gtoks s ++ [TOp ";"]) with ((TIdent n :: sig_toks gtoks s) ++ [TOp ";"]).
  eapply frol_app; [|apply (frl_newline true)|apply opens_newline].
  pose proof (gsig_renders s WS TS) as R.
  change (TIdent n :: sig_toks gtoks s) with ([TIdent n] ++ sig_toks gtoks s).
  eapply fro_app; [apply renders_fro, ro_ident; auto|apply last_fro; [exact R|apply gsig_toks_last; auto]|].
  destruct R as (x & E & _). rewrite E. eapply signature_opens; eauto.
Qed.
(** a field whose type ends its own line, and a tag on the next *)
Lemma field_tag_frl c n tag r ts : (n <> "" -> ident n = true) -> wtext r ts -> tag <> "" ->
  frl (field_writeTo env c n tag r) false ((if String.eqb n "" then [] else [TIdent n]) ++ ts ++ [TOp ";"; TStr tag; TOp ";"]) false.
Proof.
  intros N R T. unfold field_writeTo.
  rewrite <- (app_nil_l (_ ++ ts ++ _)). eapply frl_app; [apply comment_frl|].
  destruct (name_frl n false) as (e & NF); auto. eapply frl_app; [exact NF|].
  change [TOp ";"; TStr tag; TOp ";"] with ([TOp ";"] ++ [TStr tag; TOp ";"]). rewrite app_assoc.
  eapply frl_app; [apply R|].
  pose proof (tag_frl env tag false) as TF. apply String.eqb_neq in T. rewrite T in TF. rewrite T.
  change [TStr tag; TOp ";"] with ([TStr tag] ++ semi true). eapply frl_app; [exact TF|apply frl_newline].
Qed.
Lemma gplain_wtext t : wf t = true -> names_fine t = true ->
  wtext (W " " +++ typeNameToBuffer isPrint t +++ W newline) (gtoks t).
Proof.
  intros WF TX e. rewrite <- (app_nil_l (gtoks t ++ _)). eapply frl_app; [apply fl_space|].
  eapply frol_app; [apply last_fro; [apply gtype_renders; auto|apply gtoks_last; auto]| |apply opens_newline].
  apply (frl_newline true).
Qed.
Lemma gcaught_renders t : wf t = true -> names_fine t = true ->
  renders (W (caught "v" (typeNameToString isPrint t))) (gtoks t).
Proof.
  intros WF TX. rewrite string_is_buffer. destruct (gtype_renders isPrint t WF TX) as [(s & E & L) _].
  rewrite E. exists s. auto.
Qed.

(** ** Types over several lines *)
Definition dtext (t : TypeName) : Prop := exists ts, wtext (expand_type env t) ts /\
  (decl_readable t = true -> treads ts (denote (decl_read_as t))) /\ (decl_readable t = false -> never ts).
Lemma plain_dtext t : multi_line t = false -> wf t = true -> names_fine t = true -> 
  (expand_type env t = W " " +++ typeNameToBuffer isPrint t +++ W newline) -> dtext t.
Proof.
  intros M W N E. exists (gtoks t). rewrite E. split; [apply gplain_wtext; auto|].
  assert (D : decl_readable t = readable t /\ decl_read_as t = read_as t).
  { unfold decl_readable, readable. destruct t; try discriminate M; cbn [line_parts tag_apart decl_read_as negb]; rewrite andb_true_r; auto. }
  destruct D as [-> ->]. split; intros R; [apply read_treads; auto|apply unread; auto].
Qed.
Lemma never_terminated {A} (tk : A -> list token) l x : In x l -> never (tk x ++ [TOp ";"]) -> never (terminated tk l).
Proof.
  intros I N. induction l as [|y l IH]; [contradiction|]. unfold terminated. cbn [flat_map]. destruct I as [->|I]; [apply never_l; auto|].
  apply never_r. apply IH; auto.
Qed.
Lemma body_wtext (kw : string) head body ts : (forall e, frl (W head) e [TKw kw; TOp "{"] false) -> frl body false ts false ->
  wtext (W head +++ body +++ W ("}" ++ newline)%string) (TKw kw :: TOp "{" :: ts ++ [TOp "}"]).
Proof.
  intros H B e. eapply frl_eq; [eapply frl_app; [apply H|eapply frl_app; [exact B|apply fl_rbrace]]|].
  cbn [app]. rewrite <- app_assoc. reflexivity.
Qed.
Lemma lines_frl {A} (write : A -> res string) (lt : A -> list token) l :
  (forall a, In a l -> frl (write a) false (lt a) false) -> frl (concat_res (map write l)) false (flat_map lt l) false.
Proof.
  induction l as [|a l IH]; intros H; [apply frl_nil|]. cbn [map concat_res flat_map].
  eapply frl_app; [apply H; left; auto|]. apply IH. intros b I. apply H. right; auto.
Qed.
Lemma never_flat {A} (lt : A -> list token) l x : In x l -> never (lt x) -> never (flat_map lt l).
Proof.
  intros I N. induction l as [|y l IH]; [contradiction|]. cbn [flat_map]. destruct I as [->|I]; [apply never_l; auto|].
  apply never_r. auto.
Qed.

(** one field *)
Definition field_read (f : FieldType) : bool :=
  match f with mkField _ t tag => decl_readable t && negb (multi_line t && negb (String.eqb tag "")) end.
Definition field_type_res (ft : TypeName) : res string :=
  match ft with
  | TNil => W ""
  | TStruct _ | TInterface _ _ => expand_type env ft
  | _ => W (caught "v" (typeNameToString isPrint ft))
  end.
Definition field_res (f : FieldType) : res string :=
  match f with mkField n ft tag => field_writeTo env "" n tag (field_type_res ft) end.
Definition fdenote (f : FieldType) : gfield :=
  match f with mkField n t tag => (opt_name n, denote (decl_read_as t), tag) end.
Lemma embeddable_decl t : embeddable t = true -> names_type (denote (decl_read_as t)) = true.
Proof.
  intros E. assert (multi_line t = false) as M by (destruct t; try discriminate E; reflexivity).
  replace (decl_read_as t) with (read_as t) by (destruct t; try discriminate M; reflexivity).
  apply embeddable_read in E. destruct (embeddable_denote _ E) as (q & m & [X|X]); rewrite X; auto.
Qed.
Lemma field_line f : (wf (FldType f) = true -> names_fine (FldType f) = true -> dtext (FldType f)) ->
  wf (FldType f) = true -> names_fine (FldType f) = true ->
  (if String.eqb (FldName f) "" then embeddable (FldType f) else ident (FldName f)) = true ->
  exists lt, frl (field_res f) false lt false /\
    (field_read f = true -> exists b, lt = fitem_toks b ++ [TOp ";"] /\ fitem_ok b /\ fitem_of b = fdenote f) /\
    (field_read f = false -> never lt).
Proof.
  destruct f as [n t tag]. cbn [FldType FldName field_res field_read fdenote]. intros D WF NF NM.
  assert (NI : n <> "" -> ident n = true).
  { intros NE. apply String.eqb_neq in NE. rewrite NE in NM. exact NM. }
  assert (EM : n = "" -> names_type (denote (decl_read_as t)) = true).
  { intros ->. cbn in NM. apply embeddable_decl; auto. }
  destruct (multi_line t) eqn:ML.
  - destruct (D WF NF) as (ts & WT & TR & NV).
    assert (E : field_type_res t = expand_type env t) by (destruct t; try discriminate ML; reflexivity). rewrite E.
    destruct (String.eqb_spec tag "") as [->|NE]; cbn [negb andb].
    + exists ((if String.eqb n "" then [] else [TIdent n]) ++ ts ++ [TOp ";"]).
      split; [apply field_multi_frl; auto|]. rewrite andb_true_r. split; intros R.
      * exists (n, ts, denote (decl_read_as t), ""). cbn [fitem_toks String.eqb fitem_of]. rewrite app_nil_r, <- app_assoc.
        split; [reflexivity|]. split; [split; auto|reflexivity].
      * apply never_r, never_l. auto.
    + exists ((if String.eqb n "" then [] else [TIdent n]) ++ ts ++ [TOp ";"; TStr tag; TOp ";"]).
      split; [apply field_tag_frl; auto|]. rewrite andb_false_r. split; [discriminate|].
      intros _. apply never_r, never_r. intros s. destruct s; reflexivity.
  - assert (E : field_type_res t = W (caught "v" (typeNameToString isPrint t)))
      by (destruct t; try discriminate ML; try discriminate WF; reflexivity). rewrite E.
    cbn [andb negb]. rewrite andb_true_r.
    assert (DR : decl_readable t = readable t /\ decl_read_as t = read_as t).
    { unfold decl_readable, readable. destruct t; try discriminate ML; cbn [line_parts tag_apart decl_read_as negb]; rewrite andb_true_r; auto. }
    destruct DR as [-> DR].
    exists ((if String.eqb n "" then [] else [TIdent n]) ++ gtoks t ++ (if String.eqb tag "" then [] else [TStr tag]) ++ [TOp ";"]).
    split; [apply field_frl; auto; [apply gcaught_renders; auto|apply gtoks_last; auto]|]. split; intros R.
    + exists (n, gtoks t, denote (decl_read_as t), tag). cbn [fitem_toks fitem_of]. split; [rewrite <- !app_assoc; reflexivity|].
      split; [split; auto; rewrite DR; apply read_treads; auto|reflexivity].
    + apply never_r, never_l. apply unread; auto.
Qed.
Lemma decl_readable_struct fs : decl_readable (TStruct fs) = forallb field_read fs.
Proof.
  unfold decl_readable. cbn [line_parts tag_apart]. induction fs as [|[n t tag] fs IH]; auto.
  cbn [flat_map existsb forallb field_read]. rewrite <- IH. unfold decl_readable. rewrite forallb_app.
  destruct (forallb one_word (line_parts t)), (tag_apart t), (multi_line t && negb (String.eqb tag "")), (forallb one_word _); cbn; auto;
  destruct (existsb _ fs); reflexivity.
Qed.
Lemma fields_lines fs :
  Forall (fun f => wf (FldType f) = true -> names_fine (FldType f) = true -> dtext (FldType f)) fs ->
  forallb (fun f => wf (FldType f)) fs = true ->
  forallb (fun f => if String.eqb (FldName f) "" then embeddable (FldType f) else ident (FldName f)) fs = true ->
  forallb (fun f => names_fine (FldType f)) fs = true ->
  exists ts, frl (concat_res (map field_res fs)) false ts false /\
    (forallb field_read fs = true -> exists items, ts = terminated fitem_toks items /\ Forall fitem_ok items /\ map fitem_of items = map fdenote fs) /\
    (forallb field_read fs = false -> never ts).
Proof.
  induction 1 as [|f fs D F IH]; intros WF NM NF.
  - exists []. split; [apply frl_nil|]. split; [|discriminate]. intros _. exists []. repeat split; constructor.
  - cbn [forallb] in *. apply andb_true_iff in WF as [W1 W2]. apply andb_true_iff in NM as [N1 N2]. apply andb_true_iff in NF as [F1 F2].
    destruct (field_line f D W1 F1 N1) as (lt & L1 & L2 & L3). destruct (IH W2 N2 F2) as (ts & T1 & T2 & T3).
    exists (lt ++ ts). cbn [map concat_res]. split; [eapply frl_app; eauto|]. split; intros R.
    + apply andb_true_iff in R as [R1 R2]. destruct (L2 R1) as (b & -> & B1 & B2). destruct (T2 R2) as (items & -> & I1 & I2).
      exists (b :: items). split; [reflexivity|]. split; [constructor; auto|]. cbn [map]. rewrite B2, I2. auto.
    + apply andb_false_iff in R as [R|R]; [apply never_l; auto|apply never_r; auto].
Qed.
(** the methods of an interface *)
Definition sig_read (s : Signature) : bool :=
  forallb (fun x => readable (ArgTy x)) (Args s) && forallb (fun x => readable (ArgTy x)) (Results s).
Lemma gsig_toks_read s : sig_read s = true -> sig_toks gtoks s = sig_toks toks (map_sig read_as s).
Proof.
  unfold sig_read. rewrite andb_true_iff, !forallb_forall. intros [A B].
  apply sig_toks_map; apply Forall_forall; intros x I; apply gtoks_read; auto.
Qed.
Lemma gsig_reads s : wf_sig s = true -> sig_fine s = true -> sig_read s = true -> sig_reads (map_sig read_as s).
Proof.
  destruct s as [a r v]. unfold wf_sig, sig_fine, sig_read. cbn [Args Results map_sig]. rewrite !andb_true_iff.
  intros [[V WA] WR] [_ [FA FR]] [RA RR]. 
  assert (SP : forall l : list ArgType, forallb (fun x => names_fine (ArgTy x)) l = true -> forallb (fun x => readable (ArgTy x)) l = true ->
    forallb (fun x => sep_ok (ArgTy x)) (map_args read_as l) = true).
  { intros l F R. apply (forallb_args ready sep_ok); [apply Forall_forall; intros; apply sep_read; auto|apply ready_args; auto]. }
  apply sig_sep_reads; cbn [Args Results]; auto. unfold wf_sig. cbn [Args Results]. rewrite !andb_true_iff. repeat split.
  - apply (variadic_read (mkSig a r v)); auto.
  - apply (forallb_args wf wf); auto. apply Forall_forall. intros; apply wf_read; auto.
  - apply (forallb_args wf wf); auto. apply Forall_forall. intros; apply wf_read; auto.
Qed.
Lemma never_gsig s : wf_sig s = true -> sig_read s = false -> never (sig_toks gtoks s).
Proof.
  destruct s as [a r v]. unfold wf_sig. cbn [Args Results]. rewrite !andb_true_iff. intros [[V WA] WR] R.
  apply unread_sig; auto.
  - split; apply Forall_forall; intros; apply unread; auto.
  - rewrite WA, WR. auto.
Qed.
Lemma decl_readable_interface ms es : decl_readable (TInterface ms es) = forallb (fun m => sig_read (MtdSig m)) ms.
Proof.
  unfold decl_readable. cbn [line_parts tag_apart negb]. rewrite andb_true_r, forallb_flat_map. apply forallb_ext'.
  intros [n s]. rewrite sig_parts_all. reflexivity.
Qed.
Lemma expand_type_reading : forall t, wf t = true -> names_fine t = true -> dtext t.
Proof.
  induction t using TypeName_ind'; intros WF NF; try discriminate WF; try (apply plain_dtext; auto; fail).
  - (* struct *)
    cbn [wf] in WF. unfold names_fine in NF. rewrite parts_struct in NF. apply andb_true_iff in NF as [NM NF]. cbn [own_names] in NM.
    destruct (fields_lines fs) as (ts & T1 & T2 & T3); auto.
    exists (TKw "struct" :: TOp "{" :: ts ++ [TOp "}"]). split; [|rewrite decl_readable_struct; split; intros R].
    + cbn [expand_type]. apply body_wtext; [apply fl_struct|]. exact T1.
    + destruct (T2 R) as (items & -> & I1 & I2). cbn [decl_read_as denote_with]. 
      replace (map _ (map _ fs)) with (map fitem_of items) by (rewrite I2, map_map; apply map_ext; intros []; reflexivity).
      apply struct_treads. exact I1.
    + apply never_cons, never_cons, never_l. auto.
  - (* interface *)
    cbn [wf] in WF. unfold names_fine in NF. rewrite parts_interface in NF. apply andb_true_iff in NF as [NM NF].
    cbn [own_names] in NM. apply andb_true_iff in NM as [NE NM]. rewrite forallb_forall in WF, NE, NM, NF.
    assert (M : forall m, In m ms -> ident (MtdName m) = true /\ wf_sig (MtdSig m) = true /\ sig_fine (MtdSig m) = true).
    { intros m I. specialize (WF m I). specialize (NM m I). specialize (NF m I). destruct m as [n [a r v]].
      cbn [MtdName MtdSig Args Results] in *. unfold wf_sig, sig_fine. cbn [Args Results]. fold (names_fine) in NF.
      rewrite !andb_true_iff in *. tauto. }
    set (le := fun e => sym_toks e ++ [TOp ";"]). set (lm := fun m => (TIdent (MtdName m) :: sig_toks gtoks (MtdSig m)) ++ [TOp ";"]).
    exists (TKw "interface" :: TOp "{" :: (flat_map le es ++ flat_map lm ms) ++ [TOp "}"]).
    split; [|rewrite decl_readable_interface; split; intros R].
    + cbn [expand_type]. intros e. rewrite <- (bcat_assoc (concat_res _)). revert e. apply body_wtext; [apply fl_interface|].
      apply frl_app with false; apply lines_frl.
      * intros s I. apply embed_frl. auto.
      * intros m I. destruct (M m I) as (M1 & M2 & M3). apply (gmethod_frl "" (MtdName m) (MtdSig m)); auto.
    + set (items := map IEmb es ++ map (fun m => IMtd (MtdName m) (map_sig read_as (MtdSig m))) ms).
      rewrite forallb_forall in R.
      replace (flat_map le es ++ flat_map lm ms) with (terminated ielem_toks items).
      2:{ unfold terminated, items. rewrite flat_map_app. f_equal.
          { rewrite !flat_map_concat_map, map_map. reflexivity. }
          rewrite !flat_map_concat_map, map_map. f_equal. apply map_ext_in. intros m I. unfold lm. cbn [ielem_toks]. rewrite gsig_toks_read by auto. reflexivity. }
      replace (denote (decl_read_as (TInterface ms es))) with (GInterface (map ielem_of items)).
      2:{ unfold items. rewrite map_app, !map_map. cbn [decl_read_as denote_with]. f_equal. f_equal. rewrite map_map.
          apply map_ext. intros [n [a r v]]. reflexivity. }
      apply interface_treads. unfold items. apply Forall_app. split; apply Forall_forall.
      * intros x I. apply in_map_iff in I as (y & <- & I). exact Logic.I.
      * intros x I. apply in_map_iff in I as (m & <- & I). destruct (M m I) as (M1 & M2 & M3). apply gsig_reads; auto.
    + apply forallb_false in R as (m & I & F). destruct (M m I) as (M1 & M2 & M3).
      apply never_cons, never_cons, never_l, never_r. eapply never_flat; [exact I|]. apply never_l, never_cons. apply never_gsig; auto.
Qed.

(** ** The new declaration *)
Lemma concat_res_seq {A B} (tab pre : list B) (h : A -> B) (f : B -> res string) (g : A -> res string) l :
  tab = pre ++ map h l -> (forall a, In a l -> f (h a) = g a) ->
  concat_res (map (fun id => rbind match nth_error tab id with Some x => Ok x | None => Panic nil_deref end f) (seq (List.length pre) (List.length l)))
  = concat_res (map g l).
Proof.
  intros E H. revert pre E. induction l as [|a l IH]; intros pre E; [reflexivity|].
  cbn [List.length seq map concat_res].
  assert (N : nth_error tab (List.length pre) = Some (h a)).
  { rewrite E. rewrite nth_error_app2 by lia. rewrite Nat.sub_diag. reflexivity. }
  rewrite N. cbn [rbind]. rewrite (H a) by (left; auto).
  assert (X := IH (fun b I => H b (or_intror I)) (pre ++ [h a])).
  rewrite app_length in X. cbn [List.length] in X. rewrite Nat.add_1_r in X. rewrite X; [reflexivity|].
  rewrite E, <- app_assoc. reflexivity.
Qed.
Lemma concat_res_app (a b : list (res string)) : concat_res (a ++ b) = concat_res a +++ concat_res b.
Proof. induction a as [|x a IH]; [cbn [app concat_res]; destruct (concat_res b); reflexivity|]. cbn [app concat_res]. rewrite IH, bcat_assoc. reflexivity. Qed.
Lemma NewTypeSpec_writes (w : World) name t : wf t = true ->
  exists T w', NewTypeSpec name (IsName t) w = (Ok (List.length (types w)), w') /\
    nth_error (types w') (List.length (types w)) = Some T /\
    TSName T = name /\ TSIsAlias T = false /\ TSComment T = "" /\
    forall fuel tb al, TypeSpec_writeUnderlying env (S fuel) (set_types tb w')
        (mkTypeSpec (TSComment T) (TSName T) al (TSUnderlying T) (TSStruct T) (TSInterface T) (TSParent T)) = expand_type env t.
Proof.
  intros WF. unfold NewTypeSpec. unfold sbind at 1. unfold alloc at 1.
  set (w1 := set_types (types w ++ [mkTypeSpec "" name false t [] [] None]) w).
  assert (N1 : nth_error (types w1) (List.length (types w)) = Some (mkTypeSpec "" name false t [] [] None)).
  { cbn. rewrite nth_error_app2 by lia. rewrite Nat.sub_diag. reflexivity. }
  destruct t as [|k|s|e|e|e n|e k|e d|sg|fs|ms es]; try discriminate WF;
    try (eexists; eexists; split; [reflexivity|]; split; [exact N1|]; cbn [TSName TSIsAlias TSComment TSUnderlying TSStruct TSInterface TSParent];
         do 3 (split; [reflexivity|]); intros fuel tb al; reflexivity).
  - set (gf := fun f : FieldType => mkFieldSpec "" (FldName f) (FldTag f)
                 (match FldType f with TNil => NoType | ft => IsName ft end) (Some (List.length (types w)))).
    unfold sbind at 1. rewrite (map_m_alloc fields set_fields gf fs) by (intros; try reflexivity; destruct w0; reflexivity).
    unfold sbind, put, sret.
    eexists. eexists. split; [reflexivity|]. cbn [types set_types set_fields]. split.
    { apply nth_upd_same. cbn. rewrite app_length. cbn. lia. }
    cbn [TSName TSIsAlias TSComment TSUnderlying TSStruct TSInterface TSParent]. do 3 (split; [reflexivity|]).
    intros fuel tb al. cbn [TypeSpec_writeUnderlying expand_type TSUnderlying TSStruct]. unfold rd. cbn [fields types set_types set_fields].
    f_equal. f_equal. erewrite (concat_res_seq (fields w1 ++ map gf fs) (fields w1) gf); [reflexivity|reflexivity|].
    intros [n ft tag] I. unfold gf. cbn [FSComment FSName FSTag FSType FldName FldTag FldType]. destruct ft; reflexivity.
  - unfold sbind at 1.
    set (ge := fun e : Symbol => InterfaceEmbed "" e (Some (List.length (types w)))).
    set (gm := fun m : MethodType => InterfaceMethod "" (MtdName m) (MtdSig m) (Some (List.length (types w)))).
    rewrite (map_m_alloc ielems set_ielems ge es) by (intros; try reflexivity; destruct w0; reflexivity).
    unfold sbind at 1.
    rewrite (map_m_alloc ielems set_ielems gm ms) by (intros; try reflexivity; destruct w0; reflexivity).
    unfold sbind, put, sret.
    eexists. eexists. split; [reflexivity|]. cbn [types set_types set_ielems]. split.
    { apply nth_upd_same. cbn. rewrite app_length. cbn. lia. }
    cbn [TSName TSIsAlias TSComment TSUnderlying TSStruct TSInterface TSParent]. do 3 (split; [reflexivity|]).
    intros fuel tb al. cbn [TypeSpec_writeUnderlying expand_type TSUnderlying TSInterface]. unfold rd. cbn [ielems types set_types set_ielems].
    set (h := fun x : Symbol + MethodType => match x with inl e => ge e | inr m => gm m end).
    set (l := map inl es ++ map inr ms : list (Symbol + MethodType)).
    assert (EQ : ((ielems w1 ++ map ge es) ++ map gm ms = ielems w1 ++ map h l)%list).
    { unfold l. rewrite map_app, !map_map. rewrite <- app_assoc. reflexivity. }
    rewrite EQ.
    change (ielems (set_ielems (ielems w1 ++ map ge es) w1)) with (ielems w1 ++ map ge es).
    replace (seq (List.length (ielems w1)) (List.length es) ++ seq (List.length (ielems w1 ++ map ge es)) (List.length ms))
      with (seq (List.length (ielems w1)) (List.length l)).
    2:{ unfold l. rewrite app_length, !map_length, seq_app, app_length, map_length. reflexivity. }
    erewrite (concat_res_seq (ielems w1 ++ map h l) (ielems w1) h _
      (fun x => match x with inl e => embed_writeTo "" e | inr m => method_writeTo env "" (MtdName m) (MtdSig m) end)); [|reflexivity|].
    + f_equal. rewrite <- bcat_assoc. f_equal. unfold l. rewrite map_app, !map_map. apply concat_res_app.
    + intros [e|m] I; reflexivity.
Qed.
Lemma new_type_text (w : World) name t alias fuel : wf t = true ->
  exists T w', (if alias : bool then NewTypeAlias else NewTypeSpec) name (IsName t) w = (Ok (List.length (types w)), w') /\
    nth_error (types w') (List.length (types w)) = Some T /\
    TypeSpec_writeTo env (S fuel) w' T true = (W name +++ W " " +++ W (if alias then "= " else "") +++ expand_type env t).
Proof.
  intros WF. destruct (NewTypeSpec_writes w name t WF) as (T & w' & E & N & TN & TA & TC & X). destruct alias.
  - unfold NewTypeAlias, sbind. rewrite E. unfold get. rewrite N. unfold put, sret.
    eexists. eexists. split; [reflexivity|]. cbn [types set_types]. split.
    { apply nth_upd_same. apply nth_error_Some. congruence. }
    unfold TypeSpec_writeTo. rewrite X. cbn [TSName TSIsAlias TSComment]. rewrite TN, TC. cbn [writeComment].
    destruct (expand_type env t); reflexivity.
  - exists T, w'. split; auto. split; auto. specialize (X fuel (types w') false). rewrite set_types_same in X.
    unfold TypeSpec_writeTo. replace (TypeSpec_writeUnderlying env (S fuel) w' T) with (expand_type env t) by (rewrite <- X; destruct T; cbn in *; subst; reflexivity).
    rewrite TN, TA, TC. cbn [writeComment]. destruct (expand_type env t); reflexivity.
Qed.

(** ** What is read *)
Theorem decl_reading (w : World) name t alias fuel : ident name = true -> wf t = true -> names_fine t = true ->
  exists id T w' s, (if alias : bool then NewTypeAlias else NewTypeSpec) name (IsName t) w = (Ok id, w') /\
    nth_error (types w') id = Some T /\ TypeSpec_writeTo env (S fuel) w' T true = Ok s /\
    if decl_readable t then option_map ptypespec (tokens s) = Some (Some (name, alias, denote (decl_read_as t), [TOp ";"]))
    else forall d, option_map ptypespec (tokens s) <> Some (Some (d, [TOp ";"])).
Proof.
  intros N WF NF. destruct (new_type_text w name t alias fuel WF) as (T & w' & E & NT & TX).
  destruct (expand_type_reading t WF NF) as (ts & X & RD & NV).
  assert (F : frl (TypeSpec_writeTo env (S fuel) w' T true) false ((TIdent name :: (if alias then [TOp "="] else []) ++ ts) ++ [TOp ";"]) false).
  { rewrite TX, <- bcat_assoc. eapply frl_eq; [eapply frl_app|].
    - eapply rendersc_frl. apply (rc_ident_sp _ N).
    - eapply frl_app with (e1 := if alias then false else true) (x := if alias then [TOp "="] else []); [|apply X].
      destruct alias; [apply fl_equals|apply frl_nil].
    - cbn [app]. rewrite <- app_assoc. reflexivity. }
  destruct F as (s & S & L). exists (List.length (types w)), T, w', s. split; auto. split; auto. split; auto.
  assert (TK : tokens s = Some ((TIdent name :: (if alias then [TOp "="] else []) ++ ts) ++ [TOp ";"])).
  { unfold tokens. rewrite <- (append_nil_r s), L. cbn [flexer fend lex_end omap ends_after fold_left semi app].
    rewrite app_nil_r. reflexivity. }
  rewrite TK. cbn [option_map app ptypespec]. rewrite <- app_assoc. destruct (decl_readable t) eqn:R.
  - specialize (RD eq_refl).
    assert (EX : match expect "=" ((if alias then [TOp "="] else []) ++ ts ++ [TOp ";"])
                with Some r1 => (true, r1) | None => (false, (if alias then [TOp "="] else []) ++ ts ++ [TOp ";"]) end
                = (alias, ts ++ [TOp ";"])).
    { destruct alias; cbn [app]; [reflexivity|]. rewrite (treads_not_op ts _ "=" _ RD) by reflexivity. auto. }
    rewrite EX. rewrite (tr_reads _ _ RD); [reflexivity| |reflexivity]. unfold fuel_for. rewrite app_length. lia.
  - specialize (NV eq_refl). intros d H.
    assert (Z : forall fu l g, ptype fu (l ++ [TOp ";"]) = Some (g, [TOp ";"]) -> scan SN l <> None).
    { intros fu l g P. apply clean_all in P as [(x & c & EQ & R') _]. change (x :: c ++ [TOp ";"]) with ((x :: c) ++ [TOp ";"]) in EQ.
      apply app_inv_tail in EQ. subst. destruct R' as [-> | ->]; discriminate. }
    destruct alias; cbn [app expect String.eqb Ascii.eqb Bool.eqb] in H.
    + destruct (ptype _ (ts ++ [TOp ";"])) as [[g r]|] eqn:P; [|discriminate]. cbn [bind] in H. injection H as _ ->. eapply Z; eauto.
    + destruct ts as [|x ts']; [discriminate (NV SN)|]. cbn [app] in H.
      destruct (expect "=" (x :: ts' ++ [TOp ";"])) as [r1|] eqn:EX.
      * apply expect_some in EX. injection EX as -> <-.
        destruct (ptype _ (ts' ++ [TOp ";"])) as [[g r]|] eqn:P; [|discriminate]. cbn [bind] in H. injection H as _ ->.
        apply (Z _ _ _ P). exact (NV SN).
      * change (x :: ts' ++ [TOp ";"]) with ((x :: ts') ++ [TOp ";"]) in H.
        destruct (ptype _ ((x :: ts') ++ [TOp ";"])) as [[g r]|] eqn:P; [|discriminate]. cbn [bind] in H. injection H as _ ->. eapply Z; eauto.
Qed.

(** ** When it is the declared type *)
Lemma sig_parts_straight s : wf_sig s = true -> denote_sig (map_sig read_as s) = denote_sig s -> forallb straight (sig_parts parts s) = true.
Proof.
  intros WF H. destruct s as [a r v]. unfold wf_sig in WF. cbn [Args Results] in WF. rewrite !andb_true_iff in WF.
  rewrite sig_parts_all. apply sig_straight; auto.
  - split; apply Forall_forall; intros; apply same_straight; auto.
  - tauto.
  - rewrite andb_true_iff. tauto.
Qed.
Lemma straight_sig s : forallb straight (sig_parts parts s) = true -> map_sig read_as s = s.
Proof.
  destruct s as [a r v]. rewrite sig_parts_all. cbn [Args Results map_sig]. rewrite andb_true_iff, !forallb_forall. intros [A B].
  assert (L : forall l : list ArgType, (forall x, In x l -> forallb straight (parts (ArgTy x)) = true) -> map_args read_as l = l).
  { intros l H. unfold map_args. rewrite <- (map_id l) at 2. apply map_ext_in. intros [n t] I. destruct (straight_same t (H _ I)) as [-> _]. reflexivity. }
  rewrite !L by auto. reflexivity.
Qed.
Lemma decl_same_straight t : wf t = true -> denote (decl_read_as t) = denote t -> forallb straight (line_parts t) = true.
Proof.
  induction t as [ |k|s|e IH|e IH|e n IH|e k IHe IHk|e d IH|s IH|fs IH|ms es IH] using TypeName_ind'; intros WF H;
    try (apply same_straight; assumption).
  - cbn [wf decl_read_as denote_with line_parts] in *. injection H as H. rewrite forallb_flat_map. revert WF H.
    induction IH as [|[n t tag] fs E F IH]; auto. cbn [forallb map FldType] in *. rewrite !andb_true_iff. intros [W1 W2] H.
    injection H as H1 H2. split; auto.
  - cbn [wf decl_read_as denote_with line_parts] in *. injection H as H. apply app_inv_head in H. rewrite forallb_flat_map. clear IH. revert WF H.
    induction ms as [|[n s] ms IH]; auto. cbn [forallb map MtdSig] in *. rewrite !andb_true_iff. intros [W1 W2] H.
    injection H as H1 H2. split; auto. destruct s as [a r v]. cbn [map_sig] in H1. apply sig_parts_straight.
    + unfold wf_sig. cbn [Args Results]. rewrite !andb_true_iff in *. tauto.
    + unfold denote_sig. cbn [map_sig]. injection H1 as H3 H4. unfold denote_sig_with. cbn [Args Results IsVariadic]. rewrite H3, H4. auto.
Qed.
Lemma decl_straight_same t : forallb straight (line_parts t) = true -> decl_read_as t = t.
Proof.
  induction t as [ |k|s|e IH|e IH|e n IH|e k IHe IHk|e d IH|s IH|fs IH|ms es IH] using TypeName_ind'; intros H;
    try (apply straight_same; assumption).
  - cbn [decl_read_as line_parts] in *. f_equal. rewrite forallb_flat_map in H. revert H.
    induction IH as [|[n t tag] fs E F IH]; auto. cbn [forallb map FldType] in *. rewrite !andb_true_iff. intros [A B].
    rewrite E, IH; auto.
  - cbn [decl_read_as line_parts] in *. f_equal. rewrite forallb_flat_map in H. clear IH. revert H.
    induction ms as [|[n s] ms IH]; auto. cbn [forallb map] in *. rewrite !andb_true_iff. intros [A B].
    rewrite straight_sig, IH; auto.
Qed.
Lemma straight_one_word p : straight p = true -> one_word p = true.
Proof.
  unfold straight. rewrite andb_true_iff. intros [_ B]. apply negb_true_iff in B. destruct p as [| | | | | | | | | |ms es]; auto.
  cbn [one_word both_kinds] in *. destruct ms as [|[n sg] ms]; auto. destruct es; [auto|discriminate].
Qed.
Theorem decl_exact (w : World) name t alias fuel : ident name = true -> wf t = true -> names_fine t = true ->
  exists id T w' s, (if alias : bool then NewTypeAlias else NewTypeSpec) name (IsName t) w = (Ok id, w') /\
    nth_error (types w') id = Some T /\ TypeSpec_writeTo env (S fuel) w' T true = Ok s /\
    (option_map ptypespec (tokens s) = Some (Some (name, alias, denote t, [TOp ";"])) <->
     tag_apart t = false /\ forall p, In p (line_parts t) -> both_of_recv p = false /\ both_kinds p = false).
Proof.
  intros N WF NF. destruct (decl_reading w name t alias fuel N WF NF) as (id & T & w' & s & E & NT & TX & R).
  exists id, T, w', s. split; auto. split; auto. split; auto.
  assert (SF : forallb straight (line_parts t) = true <-> forall p, In p (line_parts t) -> both_of_recv p = false /\ both_kinds p = false).
  { rewrite forallb_forall. split; intros H p I; specialize (H p I); unfold straight in *.
    - apply andb_true_iff in H as [A B]. apply negb_true_iff in A, B. auto.
    - destruct H as [-> ->]. auto. }
  rewrite <- SF. split.
  - intros H. destruct (decl_readable t) eqn:DR; [|exfalso; eapply R; exact H]. rewrite R in H. injection H as H.
    unfold decl_readable in DR. apply andb_true_iff in DR as [_ DR]. apply negb_true_iff in DR. split; auto.
    apply decl_same_straight; auto.
  - intros [TA S]. rewrite (decl_straight_same t S) in R. unfold decl_readable in R. rewrite TA in R.
    replace (forallb one_word (line_parts t)) with true in R; [exact R|]. symmetry. rewrite forallb_forall in *.
    intros p I. apply straight_one_word. auto.
Qed.
End WithEnv.
