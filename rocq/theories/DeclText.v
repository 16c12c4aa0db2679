(** The text of declarations: its tokens, and what the Go grammar makes of them. *)
From Verif Require Import Base BaseFacts GoPath Utf8 Quote SpecLit LitProofs Types SpecTypes TypesFacts
  Imports SpecImports SpecGo SpecRender LexProofs TextProofs ParseProofs TextTheorems Conv Fmt World
  SpecFile SpecDecl FileLexProofs DeclParse.

(** ** Comments *)
Lemma split_no_newline s : forall l, In l (split_on (ch 10) s) ->
  forall c, In c (list_ascii_of_string l) -> is_newline c = false.
Proof.
  induction s as [|c s IH]; cbn [split_on].
  - intros l [<-|[]] c [].
  - destruct (Ascii.eqb_spec c (ch 10)) as [E|E].
    + intros l [<-|H]; [intros ? []|apply IH; auto].
    + destruct (split_on (ch 10) s) as [|x xs] eqn:SP.
      * intros l [<-|[]] d [<-|[]]. apply Ascii.eqb_neq; auto.
      * intros l [<-|H] d D.
        -- cbn [list_ascii_of_string] in D. destruct D as [<-|D]; [apply Ascii.eqb_neq; auto|].
           apply (IH x); auto. left; auto.
        -- apply (IH l); auto. right; auto.
Qed.
Lemma comment_lines_fl ls : (forall l, In l ls -> forall c, In c (list_ascii_of_string l) -> is_newline c = false) ->
  fl false (fold_right (fun l r => ("// " ++ l ++ newline ++ r)%string) "" ls) [] false.
Proof.
  induction ls as [|l ls IH]; intros H rest.
  - cbn [fold_right append]. rewrite omap_nil. auto.
  - cbn [fold_right]. rewrite !append_assoc. cbn [append].
    change (flexer (FCode LStart false) (String "/" (String "/" (String " " (l ++ newline ++
      fold_right (fun l0 r => (String "/" (String "/" (String " " (l0 ++ newline ++ r))))%string) "" ls ++ rest)))))
      with (omap (app []) (omap (app []) (omap (app []) (flexer (FComment false) (l ++ newline ++
      fold_right (fun l0 r => (String "/" (String "/" (String " " (l0 ++ newline ++ r))))%string) "" ls ++ rest))))).
    rewrite !omap_nil, fcomment_line by (apply H; left; auto). cbn [semi]. rewrite !omap_nil.
    rewrite <- (omap_nil (flexer (FCode LStart false) rest)).
    apply IH. intros m M. apply H. right; auto.
Qed.
Lemma comment_fl c : fl false (writeComment c) [] false.
Proof.
  unfold writeComment. destruct (String.eqb c ""); [apply fl_nil|].
  apply comment_lines_fl. apply split_no_newline.
Qed.
Lemma comment_frl c : frl (W (writeComment c)) false [] false.
Proof. exists (writeComment c). split; auto. apply comment_fl. Qed.

(** ** Last tokens *)
Definition lastok (ts : list token) : Prop := forall e, ends_after e ts = true.
Lemma lastok_app a b : lastok b -> lastok (a ++ b).
Proof. intros H e. rewrite ends_after_app. apply H. Qed.
Lemma lastok_cons a b : lastok b -> lastok (a :: b).
Proof. apply (lastok_app [a]). Qed.
Lemma lastok_one t : ends_line t = true -> lastok [t].
Proof. intros H e. exact H. Qed.
Lemma sym_toks_last s : lastok (sym_toks s).
Proof. unfold sym_toks. destruct (qualifier s); intros e; reflexivity. Qed.
Lemma sig_last a r v : Forall (fun x => lastok (toks (ArgTy x))) r -> lastok (sig_toks toks (mkSig a r v)).
Proof.
  intros F. unfold sig_toks. apply lastok_cons, lastok_app. destruct r as [|x r].
  - apply lastok_one. reflexivity.
  - apply lastok_cons. destruct (Nat.ltb 1 (List.length (x :: r)) || has_names (x :: r)) eqn:E.
    + apply lastok_cons, lastok_app, lastok_one. reflexivity.
    + apply orb_false_iff in E as [E1 E2]. destruct r; [|discriminate]. destruct x as [n t].
      cbn [args_toks]. rewrite E2. cbn [app]. rewrite app_nil_r. inversion F; auto.
Qed.
Lemma toks_last t : wf t = true -> lastok (toks t).
Proof.
  induction t using TypeName_ind'; intros WF; try discriminate WF.
  - apply lastok_one. reflexivity.
  - apply sym_toks_last.
  - apply lastok_cons. apply IHt. exact WF.
  - apply lastok_cons, lastok_cons. apply IHt. exact WF.
  - cbn [wf] in WF. apply andb_true_iff in WF as [_ WF]. apply lastok_cons, lastok_cons, lastok_cons. auto.
  - cbn [wf] in WF. apply andb_true_iff in WF as [WF _].
    apply lastok_cons, lastok_cons, lastok_app, lastok_cons. auto.
  - cbn [wf] in WF. apply andb_true_iff in WF as [_ WF]. cbn [toks].
    apply lastok_app, lastok_cons, lastok_app. auto.
  - destruct s as [a r v]. cbn [wf] in WF. apply andb_true_iff in WF as [_ WF].
    apply andb_true_iff in WF as [_ WR]. apply lastok_cons. apply sig_last.
    destruct H as [_ H]. cbn [Results] in H. unfold PArgs in H. rewrite Forall_forall in *.
    rewrite forallb_forall in WR. auto.
  - cbn [toks]. apply lastok_cons, lastok_cons, lastok_app, lastok_one. reflexivity.
  - cbn [toks]. apply lastok_cons, lastok_cons, lastok_app, lastok_app, lastok_app, lastok_one. reflexivity.
Qed.
Lemma sig_toks_last s : wf_sig s = true -> lastok (sig_toks toks s).
Proof.
  destruct s as [a r v]. unfold wf_sig. cbn [Args Results]. rewrite !andb_true_iff. intros [_ WR].
  apply sig_last. apply Forall_forall. rewrite forallb_forall in WR. intros x I. apply toks_last. auto.
Qed.

Lemma frl_eq e a x x' e1 : frl a e x e1 -> x = x' -> frl a e x' e1.
Proof. intros H ->. exact H. Qed.
Lemma last_fro r ts e : renders r ts -> lastok ts -> fro r e ts true.
Proof. intros R L. rewrite <- (L e). apply renders_fro. exact R. Qed.

(** Concrete pieces. *)
Ltac flpiece := eexists; split; [reflexivity|]; intros ?rest; cbn;
  match goal with |- context [flexer (FCode LStart ?e) ?r] => destruct (flexer (FCode LStart e) r) end; reflexivity.
Lemma fl_struct e : frl (W (" struct {" ++ newline)%string) e [TKw "struct"; TOp "{"] false.
Proof. flpiece. Qed.
Lemma fl_interface e : frl (W (" interface {" ++ newline)%string) e [TKw "interface"; TOp "{"] false.
Proof. flpiece. Qed.
Lemma fl_rbrace e : frl (W ("}" ++ newline)%string) e [TOp "}"; TOp ";"] false.
Proof. flpiece. Qed.
Lemma fl_space e : frl (W " ") e [] e.
Proof. flpiece. Qed.
Lemma fl_equals e : frl (W "= ") e [TOp "="] false.
Proof. flpiece. Qed.
Lemma fl_open kw e : legal_ident kw = true -> is_keyword kw = true -> 
  frl (W (kw ++ " (" ++ newline)%string) e [TKw kw; TOp "("] false.
Proof.
  intros L K. exists (kw ++ " (" ++ newline)%string. split; auto.
  change [TKw kw; TOp "("] with ([TKw kw] ++ [TOp "("]).
  pose proof (lexo_fo _ _ (lexo_word kw L) e) as A. unfold ident_token in A. rewrite K in A.
  eapply fo_fl_app; [exact A| |discriminate|reflexivity].
  intros r. cbn. destruct (flexer (FCode LStart false) r); reflexivity.
Qed.
Lemma fl_word kw e : legal_ident kw = true -> is_keyword kw = true ->
  existsb (String.eqb kw) ["break"; "continue"; "fallthrough"; "return"] = false ->
  frl (W (kw ++ " ")%string) e [TKw kw] false.
Proof.
  intros L K N. exists (kw ++ " ")%string. split; auto.
  change [TKw kw] with ([TKw kw] ++ []).
  pose proof (lexo_fo _ _ (lexo_word kw L) e) as A. unfold ident_token in A. rewrite K in A.
  unfold ends_after in A. cbn [fold_left ends_line] in A. rewrite N in A.
  eapply fo_fl_app; [exact A| |discriminate|reflexivity].
  intros r. cbn. destruct (flexer (FCode LStart false) r); reflexivity.
Qed.
Lemma fl_close e : frl (W (")" ++ newline)%string) e [TOp ")"; TOp ";"] false.
Proof. flpiece. Qed.

Section WithEnv.
Context {TD : Type}.
Notation World := (World TD).
Variable env : Env TD.
Notation isPrint := (World.isPrint env).

(** ** Lines of a struct or interface body *)
Lemma name_frl n e : (n = "" -> True) -> (n <> "" -> ident n = true) ->
  exists e', frl (W (if negb (String.eqb n "") then (n ++ " ")%string else "")) e
    (if String.eqb n "" then [] else [TIdent n]) e'.
Proof.
  intros _ H. destruct (String.eqb_spec n "") as [->|NE]; cbn [negb].
  - exists e. apply frl_nil.
  - exists (ends_after e [TIdent n]). apply rendersc_frl. apply rc_ident_sp. auto.
Qed.
Lemma tag_frl tag e : frl (W (if negb (String.eqb tag "") then (" " ++ tag_literal isPrint tag)%string else "")) e
  (if String.eqb tag "" then [] else [TStr tag]) (if String.eqb tag "" then e else true).
Proof.
  destruct (String.eqb tag ""); cbn [negb]; [apply frl_nil|].
  assert (R : rendersc (W (" " ++ tag_literal isPrint tag)) [TStr tag]).
  { eexists. split; [reflexivity|]. change [TStr tag] with ([] ++ [TStr tag]).
    apply lexc_app; [|apply lexc_tag]. destruct rc_space as (x & [= <-] & L); auto. }
  exact (rendersc_frl _ _ R e).
Qed.
(** one field whose type is on one line *)
Lemma field_frl c n tag r ts : (n <> "" -> ident n = true) -> renders r ts -> lastok ts ->
  frl (field_writeTo env c n tag r) false
    ((if String.eqb n "" then [] else [TIdent n]) ++ ts ++ (if String.eqb tag "" then [] else [TStr tag]) ++ [TOp ";"]) false.
Proof.
  intros N R L. unfold field_writeTo.
  rewrite <- (app_nil_l (_ ++ ts ++ _)). eapply frl_app; [apply comment_frl|].
  destruct (name_frl n false) as (e & NF); auto. eapply frl_app; [exact NF|].
  destruct (tag_frl tag true) as (s & E & T).
  eapply frol_app; [apply last_fro; eauto| |].
  - eapply frl_app; [apply tag_frl|]. 
    replace [TOp ";"] with (semi (if String.eqb tag "" then true else true)) by (destruct (String.eqb tag ""); auto).
    apply frl_newline.
  - destruct (String.eqb tag ""); cbn [negb].
    + apply (opens_W newline); [discriminate|reflexivity].
    + apply opens_app; [apply opens_W; [discriminate|reflexivity]|reflexivity].
Qed.
(** one field whose type ends its own line *)
Definition wtext (r : res string) (ts : list token) : Prop := forall e, frl r e (ts ++ [TOp ";"]) false.
Lemma field_multi_frl c n r ts : (n <> "" -> ident n = true) -> wtext r ts ->
  frl (field_writeTo env c n "" r) false ((if String.eqb n "" then [] else [TIdent n]) ++ ts ++ [TOp ";"]) false.
Proof.
  intros N R. unfold field_writeTo.
  rewrite <- (app_nil_l (_ ++ ts ++ _)). eapply frl_app; [apply comment_frl|].
  destruct (name_frl n false) as (e & NF); auto. eapply frl_app; [exact NF|].
  rewrite <- (app_nil_r (ts ++ _)). eapply frl_app; [apply R|].
  change (@nil token) with (@nil token ++ semi false) at 1.
  eapply frl_app; [apply frl_nil|apply frl_newline].
Qed.
Lemma embed_frl c s : sym_ok s = true -> frl (embed_writeTo c s) false (sym_toks s ++ [TOp ";"]) false.
Proof.
  intros H. unfold embed_writeTo. rewrite <- (app_nil_l (sym_toks s ++ _)).
  eapply frl_app; [apply comment_frl|]. rewrite Symbol_String_text.
  eapply frol_app; [apply last_fro; [apply ro_symbol; auto|apply sym_toks_last]| |apply opens_newline].
  apply (frl_newline true).
Qed.
Lemma signature_opens s x : signatureToBuffer isPrint s = Ok x -> opens (Ok x).
Proof.
  destruct s as [a r v]. intros H. unfold signatureToBuffer in H. rewrite sig_loops in H.
  unfold W in H at 1. cbn [bcat] in H. destruct (args_loop _ _ _ _ _ _ _ +++ _); [|discriminate].
  injection H as <-. eexists. split; [reflexivity|]. split; [discriminate|reflexivity].
Qed.
Lemma named_sig_fro n s e : ident n = true -> wf_sig s = true -> sig_text_ok s = true ->
  fro (W n +++ signatureToBuffer isPrint s) e (TIdent n :: sig_toks toks s) true.
Proof.
  intros N WS TS. pose proof (signature_renders isPrint s WS TS) as R.
  change (TIdent n :: sig_toks toks s) with ([TIdent n] ++ sig_toks toks s).
  eapply fro_app; [apply renders_fro, ro_ident; auto|apply last_fro; [exact R|apply sig_toks_last; auto]|].
  destruct R as (x & E & _). rewrite E. apply (signature_opens s); auto.
Qed.
Lemma bcat_assoc a b c : (a +++ b) +++ c = a +++ b +++ c.
Proof. destruct a, b, c; cbn; auto. rewrite append_assoc. auto. Qed.
Lemma method_frl c n s : ident n = true -> wf_sig s = true -> sig_text_ok s = true ->
  frl (method_writeTo env c n s) false (TIdent n :: sig_toks toks s ++ [TOp ";"]) false.
Proof.
  intros N WS TS. unfold method_writeTo. rewrite <- (app_nil_l (TIdent n :: _)).
  eapply frl_app; [apply comment_frl|]. rewrite <- bcat_assoc.
  change (TIdent n :: sig_toks toks s ++ [TOp ";"]) with ((TIdent n :: sig_toks toks s) ++ [TOp ";"]).
  eapply frol_app; [apply named_sig_fro; auto|apply (frl_newline true)|apply opens_newline].
Qed.
Lemma element_frl e : match e with
    | InterfaceEmbed _ s _ => sym_ok s
    | InterfaceMethod _ n s _ => ident n && wf_sig s && sig_text_ok s
    end = true ->
  frl (InterfaceElement_writeTo env e) false
    (ielem_toks match e with InterfaceEmbed _ s _ => IEmb s | InterfaceMethod _ n s _ => IMtd n s end ++ [TOp ";"]) false.
Proof.
  destruct e as [c s p|c n s p]; intros H; cbn [InterfaceElement_writeTo ielem_toks].
  - apply embed_frl; auto.
  - apply andb_true_iff in H as [H H3]. apply andb_true_iff in H as [H1 H2]. apply method_frl; auto.
Qed.
(** a sequence of lines *)
Lemma lines_frl {A B} (write : A -> res string) (item : B -> list token) la lb :
  Forall2 (fun a b => frl (write a) false (item b ++ [TOp ";"]) false) la lb ->
  frl (concat_res (map write la)) false (terminated item lb) false.
Proof.
  induction 1 as [|a b la lb H F IH]; [apply frl_nil|]. cbn [map concat_res terminated flat_map].
  eapply frl_app; eauto.
Qed.
Lemma struct_wtext body items : frl body false (terminated fitem_toks items) false ->
  wtext (W (" struct {" ++ newline)%string +++ body +++ W ("}" ++ newline)%string)
        (TKw "struct" :: TOp "{" :: terminated fitem_toks items ++ [TOp "}"]).
Proof.
  intros B e. eapply frl_eq; [eapply frl_app; [apply fl_struct|eapply frl_app; [exact B|apply fl_rbrace]]|].
  cbn [app]. rewrite <- app_assoc. reflexivity.
Qed.
Lemma interface_wtext body items : frl body false (terminated ielem_toks items) false ->
  wtext (W (" interface {" ++ newline)%string +++ body +++ W ("}" ++ newline)%string)
        (TKw "interface" :: TOp "{" :: terminated ielem_toks items ++ [TOp "}"]).
Proof.
  intros B e. eapply frl_eq; [eapply frl_app; [apply fl_interface|eapply frl_app; [exact B|apply fl_rbrace]]|].
  cbn [app]. rewrite <- app_assoc. reflexivity.
Qed.
Lemma plain_wtext t : wf t = true -> text_ok t = true ->
  wtext (W " " +++ typeNameToBuffer isPrint t +++ W newline) (toks t).
Proof.
  intros WF TX e. rewrite <- (app_nil_l (toks t ++ _)). eapply frl_app; [apply fl_space|].
  eapply frol_app; [apply last_fro; [apply type_renders; auto|apply toks_last; auto]| |apply opens_newline].
  apply (frl_newline true).
Qed.
Lemma caught_renders t : wf t = true -> text_ok t = true ->
  renders (W (caught "v" (typeNameToString isPrint t))) (toks t).
Proof.
  intros WF TX. rewrite string_is_buffer. destruct (type_renders isPrint t WF TX) as [(s & E & L) _].
  rewrite E. exists s. auto.
Qed.

(** ** Types written over several lines *)
Lemma multi_dec t : multi_line t = false -> decl_ok t = text_ok t.
Proof. destruct t; try discriminate; auto. Qed.
Lemma expand_type_text : forall t, wf t = true -> decl_ok t = true ->
  exists ts, wtext (expand_type env t) ts /\ treads ts (denote t).
Proof.
  induction t using TypeName_ind'; intros WF TX; try discriminate WF;
    try (eexists; split; [apply plain_wtext; auto|apply type_treads; auto]; fail).
  - (* struct *)
    cbn [wf decl_ok] in WF, TX.
    assert (X : exists items, Forall fitem_ok items /\
        Forall2 (fun f b => frl (match f with
            | mkField n ft tag =>
                field_writeTo env "" n tag
                  match ft with
                  | TNil => W ""
                  | TStruct _ | TInterface _ _ => expand_type env ft
                  | _ => W (caught "v" (typeNameToString isPrint ft))
                  end
            end) false (fitem_toks b ++ [TOp ";"]) false) fs items /\
        map fitem_of items = map (fun f => match f with mkField n t tag => (opt_name n, denote t, tag) end) fs).
    { clear - H WF TX. induction fs as [|[n t tag] fs IH].
      { exists []. repeat split; constructor. }
      inversion H as [|? ? P1 P2]; subst. cbn [forallb FldType FldName FldTag] in *.
      apply andb_true_iff in WF as [WF1 WF2]. apply andb_true_iff in TX as [TX1 TX2].
      apply andb_true_iff in TX1 as [TX1 T3]. apply andb_true_iff in TX1 as [T1 T2].
      destruct (IH P2 WF2 TX2) as (items & I1 & I2 & I3).
      assert (NM : n <> "" -> ident n = true).
      { intros NE. apply String.eqb_neq in NE. rewrite NE in T1. exact T1. }
      assert (EM : n = "" -> names_type (denote t) = true).
      { intros ->. cbn in T1. destruct (embeddable_denote t T1) as (q & m & [E|E]); rewrite E; auto. }
      destruct (multi_line t) eqn:ML.
      - cbn [negb orb] in T3. apply String.eqb_eq in T3. subst tag.
        destruct (P1 WF1 T2) as (ts & T & R).
        exists ((n, ts, denote t, "") :: items). split; [constructor; auto; split; auto|]. split.
        + constructor; auto.
          assert (E : match t with TNil => W "" | TStruct _ | TInterface _ _ => expand_type env t
                      | _ => W (caught "v" (typeNameToString isPrint t)) end = expand_type env t)
            by (destruct t; try discriminate ML; reflexivity).
          rewrite E. eapply frl_eq; [apply (field_multi_frl "" n _ ts); auto|].
          cbn [fitem_toks String.eqb]. rewrite app_nil_r, <- app_assoc. reflexivity.
        + cbn [map]. rewrite I3. reflexivity.
      - rewrite (multi_dec t ML) in T2.
        exists ((n, toks t, denote t, tag) :: items). split; [constructor; auto; split; auto|].
        { apply type_treads; auto. }
        split.
        + constructor; auto.
          assert (E : match t with TNil => W "" | TStruct _ | TInterface _ _ => expand_type env t
                      | _ => W (caught "v" (typeNameToString isPrint t)) end = W (caught "v" (typeNameToString isPrint t)))
            by (destruct t; try discriminate ML; try discriminate WF1; reflexivity).
          rewrite E. eapply frl_eq; [apply (field_frl "" n tag _ (toks t)); auto|].
          * apply caught_renders; auto.
          * apply toks_last; auto.
          * cbn [fitem_toks]. rewrite <- !app_assoc. reflexivity.
        + cbn [map]. rewrite I3. reflexivity. }
    destruct X as (items & I1 & I2 & I3).
    eexists. split; [apply struct_wtext; eapply lines_frl; exact I2|].
    cbn [denote_with]. rewrite <- I3. apply struct_treads. exact I1.
  - (* interface *)
    cbn [wf decl_ok] in WF, TX. apply andb_true_iff in TX as [TE TM].
    set (items := map IEmb es ++ map (fun m => IMtd (MtdName m) (MtdSig m)) ms).
    exists (TKw "interface" :: TOp "{" :: terminated ielem_toks items ++ [TOp "}"]).
    assert (OKE : forallb ielem_ok (map IEmb es) = true).
    { rewrite forallb_forall in *. intros x IN. apply in_map_iff in IN as (y & <- & IN). cbn. auto. }
    assert (OKM : forallb ielem_ok (map (fun m => IMtd (MtdName m) (MtdSig m)) ms) = true).
    { rewrite forallb_forall in *. intros x IN. apply in_map_iff in IN as ([n [a r v]] & <- & IN).
      specialize (WF _ IN). specialize (TM _ IN). cbn [MtdName MtdSig ielem_ok] in *.
      apply andb_true_iff in TM as [T1 T2]. rewrite T1, T2. unfold wf_sig. cbn [Args Results].
      apply andb_true_iff in WF as [W1 W2]. apply andb_true_iff in W2 as [W2 W3]. rewrite W1, W2, W3. auto. }
    split.
    + cbn [expand_type].
      assert (B : frl (concat_res (map (embed_writeTo "") es) +++
          concat_res (map (fun m => method_writeTo env "" (MtdName m) (MtdSig m)) ms)) false
          (terminated ielem_toks items) false).
      { unfold items. unfold terminated. rewrite flat_map_app. apply frl_app with false.
        - apply (lines_frl _ ielem_toks es (map IEmb es)). clear - TE.
          induction es as [|s es IH]; cbn [map]; constructor; cbn [forallb] in TE;
          apply andb_true_iff in TE as [T1 T2]; auto. apply embed_frl; auto.
        - apply (lines_frl _ ielem_toks ms (map (fun m => IMtd (MtdName m) (MtdSig m)) ms)). clear - OKM.
          induction ms as [|m ms IH]; cbn [map]; constructor; cbn [map forallb] in OKM;
          apply andb_true_iff in OKM as [T1 T2]; auto. cbn [ielem_ok] in T1.
          apply andb_true_iff in T1 as [T1 T4]. apply andb_true_iff in T1 as [T1 T3].
          apply method_frl; auto. }
      intros e. pose proof (interface_wtext _ _ B e) as R. rewrite bcat_assoc in R. exact R.
    + replace (denote (TInterface ms es)) with (GInterface (map ielem_of items)).
      * apply interface_treads, ielem_ok_reads. unfold items. rewrite forallb_app, OKE, OKM. auto.
      * unfold items. rewrite map_app, !map_map. cbn [denote_with]. f_equal. f_equal.
        apply map_ext. intros [n [a r v]]. reflexivity.
Qed.

Lemma named_spec_text (w : World) T g : named_spec w T = Some g -> String.eqb (TSName T) "" = false ->
  exists s, TypeSpec_ToSymbol T w = Ok s /\ sym_ok s = true /\ g = GName (qualifier s) (SymName s).
Proof.
  unfold named_spec_with, TypeSpec_ToSymbol, file_package, rd, obind. intros H N. rewrite N.
  destruct (TSParent T) as [f|]; [|discriminate].
  destruct (nth_error (files w) f) as [F|]; [|discriminate].
  destruct (sym_ok _) eqn:S; [|discriminate]. injection H as <-.
  eexists. split; [reflexivity|]. split; [exact S|reflexivity].
Qed.

Lemma all_some_Forall2 {A B} (f : A -> option B) l r : all_some (map f l) = Some r ->
  Forall2 (fun a b => f a = Some b) l r.
Proof.
  revert r. induction l as [|a l IH]; intros r H; cbn [map all_some] in H.
  - injection H as <-. constructor.
  - destruct (f a) eqn:E; [|discriminate]. cbn in H. destruct (all_some (map f l)) as [x|]; [|discriminate].
    injection H as <-. constructor; auto.
Qed.

Lemma Forall2_choose {A B C} (P : A -> B -> Prop) (Q : A -> C -> Prop) (R : C -> B -> Prop) la lb :
  (forall a b, P a b -> exists c, Q a c /\ R c b) -> Forall2 P la lb ->
  exists lc, Forall2 Q la lc /\ Forall2 R lc lb.
Proof.
  intros H. induction 1 as [|a b la lb X F IH].
  - exists []. split; constructor.
  - destruct (H a b X) as (c & C1 & C2). destruct IH as (lc & I1 & I2). exists (c :: lc). split; constructor; auto.
Qed.

Theorem writeUnderlying_text (w : World) : forall fuel T g, spec_meaning w fuel T = Some g ->
  exists ts, wtext (TypeSpec_writeUnderlying env fuel w T) ts /\ treads ts g.
Proof.
  induction fuel as [|fuel IH]; intros T g H; [discriminate|].
  cbn [spec_meaning_with] in H. cbn [TypeSpec_writeUnderlying].
  destruct (TSUnderlying T) as [|k|s|e|e|e n|e k|e d|sg|fs|ms es] eqn:U;
    try (match type of H with (if ?b then _ else _) = _ => destruct b eqn:B; [|discriminate] end;
         injection H as <-; apply andb_true_iff in B as [B1 B2];
         eexists; split; [apply plain_wtext; auto|apply type_treads; auto]; fail).
  - discriminate H.
  - (* struct *)
    destruct (all_some _) as [gs|] eqn:E in H; [|discriminate]. injection H as <-.
    apply all_some_Forall2 in E.
    match type of E with Forall2 ?P _ _ =>
      pose proof (Forall2_choose P (fun id b =>
         frl (rbind (rd fields id w) (fun f =>
                field_writeTo env (FSComment f) (FSName f) (FSTag f)
                  match FSType f with
                  | NoType => W ""
                  | IsName t => field_type_text env t
                  | IsSpec ts =>
                      rbind (rd types ts w) (fun T' =>
                      if String.eqb (TSName T') "" then TypeSpec_writeUnderlying env fuel w T'
                      else rbind (TypeSpec_ToSymbol T' w) (fun s => W (Symbol_String s)))
                  end)) false (fitem_toks b ++ [TOp ";"]) false)
         (fun b g => fitem_ok b /\ fitem_of b = g) (TSStruct T) gs) as X end.
    destruct X as (items & I1 & I2); [|exact E|].
    { intros id [[on g] tag] H. unfold rd. unfold obind in H at 1.
      destruct (nth_error (fields w) id) as [f|]; [|discriminate]. cbn [rbind].
      match type of H with obind ?o _ = _ => destruct o as [[g' multi]|] eqn:FT; [|discriminate] end.
      cbn [obind] in H.
      match type of H with (if ?b then _ else _) = _ => destruct b eqn:B; [|discriminate] end.
      injection H as <- <- <-. apply andb_true_iff in B as [B1 B2].
      assert (NM : FSName f <> "" -> ident (FSName f) = true).
      { intros NE. apply String.eqb_neq in NE. rewrite NE in B1. exact B1. }
      assert (EM : FSName f = "" -> names_type g' = true).
      { intros NE. rewrite NE in B1. exact B1. }
      assert (MULTI : forall r ts, multi = true -> wtext r ts -> treads ts g' ->
        exists c : fitem, frl (field_writeTo env (FSComment f) (FSName f) (FSTag f) r) false (fitem_toks c ++ [TOp ";"]) false
          /\ fitem_ok c /\ fitem_of c = (opt_name (FSName f), g', FSTag f)).
      { intros r ts -> TX R. cbn [negb orb] in B2. apply String.eqb_eq in B2. rewrite B2.
        exists (FSName f, ts, g', ""). split; [|split; [split; auto|reflexivity]].
        eapply frl_eq; [apply field_multi_frl; eauto|].
        cbn [fitem_toks String.eqb]. rewrite app_nil_r, <- app_assoc. reflexivity. }
      assert (ONE : forall r ts, renders r ts -> lastok ts -> treads ts g' ->
        exists c : fitem, frl (field_writeTo env (FSComment f) (FSName f) (FSTag f) r) false (fitem_toks c ++ [TOp ";"]) false
          /\ fitem_ok c /\ fitem_of c = (opt_name (FSName f), g', FSTag f)).
      { intros r ts TX L R. exists (FSName f, ts, g', FSTag f). split; [|split; [split; auto|reflexivity]].
        eapply frl_eq; [apply field_frl; eauto|].
        cbn [fitem_toks]. rewrite <- !app_assoc. reflexivity. }
      destruct (FSType f) as [|t|id'].
      - discriminate.
      - destruct (wf t && decl_ok t) eqn:WD; [|discriminate]. injection FT as <- <-.
        apply andb_true_iff in WD as [WF DK]. unfold field_type_text.
        destruct (multi_line t) eqn:ML.
        + destruct (expand_type_text t WF DK) as (ts & TX & R).
          destruct t; try discriminate ML; eapply MULTI; eauto.
        + rewrite (multi_dec t ML) in DK.
          destruct t; try discriminate ML; try discriminate WF;
            (eapply ONE; [apply caught_renders; auto|apply toks_last; auto|apply type_treads; auto]).
      - unfold obind in FT. destruct (nth_error (types w) id') as [T'|]; [|discriminate]. cbn [rbind].
        destruct (String.eqb (TSName T') "") eqn:TN.
        + destruct (spec_meaning w fuel T') as [g2|] eqn:SM; [|discriminate]. injection FT as <- <-.
          destruct (IH T' g2 SM) as (ts & TX & R). eapply MULTI; eauto.
        + destruct (named_spec w T') as [g2|] eqn:NS; [|discriminate]. injection FT as <- <-.
          destruct (named_spec_text w T' g2 NS TN) as (s & ES & OK & ->). rewrite ES. cbn [rbind].
          eapply ONE; [rewrite Symbol_String_text; apply ro_symbol; auto|apply sym_toks_last|apply sym_treads]. }
    assert (OK : Forall fitem_ok items /\ map fitem_of items = gs).
    { clear - I2. induction I2 as [|b g items gs [H1 H2] F [IH1 IH2]]; [split; constructor|].
      split; [constructor; auto|]. cbn [map]. rewrite H2, IH2. auto. }
    destruct OK as [O1 <-].
    eexists. split; [apply struct_wtext; eapply lines_frl; exact I1|]. apply struct_treads; auto.
  - (* interface *)
    destruct (all_some _) as [gs|] eqn:E in H; [|discriminate]. injection H as <-.
    apply all_some_Forall2 in E.
    match type of E with Forall2 ?P _ _ =>
      pose proof (Forall2_choose P (fun id b =>
         frl (rbind (rd ielems id w) (InterfaceElement_writeTo env)) false (ielem_toks b ++ [TOp ";"]) false)
         (fun b g => ielem_ok b = true /\ ielem_of b = g) (TSInterface T) gs) as X end.
    destruct X as (items & I1 & I2); [|exact E|].
    { intros id g H. unfold rd. unfold obind in H at 1.
      destruct (nth_error (ielems w) id) as [el|]; [|discriminate]. cbn [rbind].
      exists (match el with InterfaceEmbed _ s _ => IEmb s | InterfaceMethod _ n s _ => IMtd n s end).
      destruct el as [c s p|c n s p]; cbn [elem_meaning_with] in H.
      - destruct (sym_ok s) eqn:S; [|discriminate]. injection H as <-.
        split; [apply (element_frl (InterfaceEmbed c s p)); auto|]. split; auto.
      - destruct (ident n && wf_sig s && sig_text_ok s) eqn:S; [|discriminate]. injection H as <-.
        split; [apply (element_frl (InterfaceMethod c n s p)); auto|]. split; auto. }
    assert (OK : forallb ielem_ok items = true /\ map ielem_of items = gs).
    { clear - I2. induction I2 as [|b g items gs [H1 H2] F [IH1 IH2]]; [split; reflexivity|].
      split; [cbn; rewrite H1; auto|]. cbn [map]. rewrite H2, IH2. auto. }
    destruct OK as [O1 <-].
    eexists. split; [apply interface_wtext; eapply lines_frl; exact I1|]. apply interface_treads, ielem_ok_reads; auto.
Qed.
End WithEnv.
