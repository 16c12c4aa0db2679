(** The tokens of the text of any type with usable names, and what the Go grammar makes of them. *)
From Coq Require Import ZifyN ZifyBool.
From Verif Require Import Base BaseFacts Utf8 Quote SpecLit LitProofs Types SpecTypes TypesFacts
  SpecImports SpecGo SpecRender LexProofs TextProofs ParseProofs TextTheorems SpecText.

(** ** Tokens *)
(** the elements of an interface: the methods as names and tokens of signatures *)
Definition mtoks (m : string * list token) : list token := TIdent (fst m) :: snd m.
Fixpoint itoks (es : list Symbol) (ms : list (string * list token)) : list token :=
  match es with
  | [] => sep_toks mtoks ms
  | e :: es' =>
      match es', ms with
      | _ :: _, _ => sym_toks e ++ TOp ";" :: itoks es' ms
      | [], [] => sym_toks e
      | [], (n, s) :: ms' =>
          match qualifier e with Some q => [TIdent q; TOp "."] | None => [] end ++
          ident_token (SymName e ++ n) :: s ++
          match ms' with [] => [] | _ => TOp ";" :: sep_toks mtoks ms' end
      end
  end.
Fixpoint gtoks (t : TypeName) : list token :=
  match t with
  | TNil => []
  | TBasic k => [TIdent (basic_name k)]
  | TNamed s => sym_toks s
  | TPtr e => TOp "*" :: gtoks e
  | TSlice e => TOp "[" :: TOp "]" :: gtoks e
  | TArray e n => TOp "[" :: TInt (decZ n) :: TOp "]" :: gtoks e
  | TMap e k => TKw "map" :: TOp "[" :: gtoks k ++ TOp "]" :: gtoks e
  | TChan e d =>
      (if (d =? 1)%Z then [TOp "<-"] else []) ++ TKw "chan" ::
      (if (d =? 2)%Z then [TOp "<-"] else []) ++ gtoks e
  | TFunc s => TKw "func" :: sig_toks gtoks s
  | TStruct fs =>
      TKw "struct" :: TOp "{" ::
      sep_toks (fun f => match f with
                         | mkField n t tag =>
                             (if String.eqb n "" then [] else [TIdent n]) ++ gtoks t ++
                             (if String.eqb tag "" then [] else [TStr tag])
                         end) fs ++ [TOp "}"]
  | TInterface ms es => TKw "interface" :: TOp "{" :: itoks es (map (fun m => match m with mkMethod n s => (n, sig_toks gtoks s) end) ms) ++ [TOp "}"]
  end.
Definition gfield_toks (f : FieldType) : list token :=
  match f with
  | mkField n t tag =>
      (if String.eqb n "" then [] else [TIdent n]) ++ gtoks t ++
      (if String.eqb tag "" then [] else [TStr tag])
  end.

Definition gm (m : MethodType) : string * list token := match m with mkMethod n s => (n, sig_toks gtoks s) end.

(** ** Parts *)
Lemma forallb_flat_map {A B} (P : B -> bool) (f : A -> list B) l :
  forallb P (flat_map f l) = forallb (fun x => forallb P (f x)) l.
Proof. induction l as [|x l IH]; auto. cbn [flat_map forallb]. rewrite forallb_app, IH. auto. Qed.
Lemma forallb_ext' {A} (P Q : A -> bool) l : (forall x, P x = Q x) -> forallb P l = forallb Q l.
Proof. intros E. induction l as [|x l IH]; auto. cbn [forallb]. rewrite E, IH. auto. Qed.
Section Parts.
Variable P : TypeName -> bool.
Notation all := (fun t => forallb P (parts t)).
Lemma sig_parts_all (s : Signature) : forallb P (sig_parts parts s) =
  forallb (fun x => all (ArgTy x)) (Args s) && forallb (fun x => all (ArgTy x)) (Results s).
Proof.
  destruct s as [a r v]. cbn [sig_parts Args Results]. rewrite forallb_app, !forallb_flat_map.
  f_equal; apply forallb_ext'; intros []; reflexivity.
Qed.
Lemma parts_func s : all (TFunc s) = P (TFunc s) &&
  (forallb (fun x => all (ArgTy x)) (Args s) && forallb (fun x => all (ArgTy x)) (Results s)).
Proof. cbn [parts forallb]. rewrite sig_parts_all. auto. Qed.
Lemma parts_struct fs : all (TStruct fs) = P (TStruct fs) && forallb (fun f => all (FldType f)) fs.
Proof.
  cbn [parts forallb]. rewrite forallb_flat_map. f_equal. apply forallb_ext'. intros []; reflexivity.
Qed.
Lemma parts_interface ms es : all (TInterface ms es) = P (TInterface ms es) &&
  forallb (fun m => forallb (fun x => all (ArgTy x)) (Args (MtdSig m)) &&
                    forallb (fun x => all (ArgTy x)) (Results (MtdSig m))) ms.
Proof.
  cbn [parts forallb]. rewrite forallb_flat_map. f_equal. apply forallb_ext'. intros [n s].
  rewrite sig_parts_all. reflexivity.
Qed.
Lemma parts_map e k : all (TMap e k) = P (TMap e k) && (all e && all k).
Proof. cbn [parts forallb]. rewrite forallb_app. auto. Qed.
End Parts.

(** ** Rendering *)
Section WithPrint.
Variable isPrint : N -> bool.
Notation render := (typeNameToBuffer isPrint).
Notation rec_elem := (rec_elem isPrint).
Notation fields_loop := (fields_loop isPrint).
Notation methods_loop := (methods_loop isPrint).

Definition PG (t : TypeName) : Prop := wf t = true -> names_fine t = true ->
  renders (render t) (gtoks t) /\ (forall e, t = TSlice e -> renders (render e) (gtoks e)).

Lemma gfields_renders : forall l i,
  Forall (fun f => PG (FldType f)) l ->
  forallb (fun f => wf (FldType f)) l = true ->
  forallb (fun f => if String.eqb (FldName f) "" then embeddable (FldType f) else ident (FldName f)) l = true ->
  forallb (fun f => names_fine (FldType f)) l = true ->
  renders (fields_loop i l) (sep_loop i gfield_toks l) /\
  (0 < i -> sep (fields_loop i l) (sep_loop i gfield_toks l)).
Proof.
  induction l as [|[n t tag] r IH]; intros i F WF TX TY.
  { split; [apply ro_nil|intros _; apply rc_sep_nil]. }
  inversion F as [|? ? F1 F2]; subst. cbn [forallb FldType FldName] in *.
  apply andb_true_iff in WF as [WF1 WF2]. apply andb_true_iff in TX as [TN TX2].
  apply andb_true_iff in TY as [TX1 TY2].
  destruct (IH (S i)) as [R SP]; auto. specialize (SP ltac:(lia)).
  destruct (F1 WF1 TX1) as [RT _].
  assert (TAGR : rendersc (W (if negb (String.eqb tag "") then (" " ++ tag_literal isPrint tag)%string else ""))
     (if String.eqb tag "" then [] else [TStr tag])).
  { destruct (String.eqb tag ""); cbn [negb]; [apply rc_nil|].
    exists (" " ++ tag_literal isPrint tag)%string. split; auto.
    change [TStr tag] with ([] ++ [TStr tag]). apply lexc_app; [|apply lexc_tag].
    destruct rc_space as (x & [= <-] & L); auto. }
  assert (TAGS : sep (W (if negb (String.eqb tag "") then (" " ++ tag_literal isPrint tag)%string else ""))
     (if String.eqb tag "" then [] else [TStr tag])).
  { destruct (String.eqb tag ""); cbn [negb]; [apply rc_sep_nil|].
    left. apply opens_W; [discriminate|reflexivity]. }
  assert (BODY : renders
      (W (if negb (String.eqb n "") then (n ++ " ")%string else "") +++ render t +++
       W (if negb (String.eqb tag "") then (" " ++ tag_literal isPrint tag)%string else "") +++
       fields_loop (S i) r) (gfield_toks (mkField n t tag) ++ sep_loop (S i) gfield_toks r)).
  { unfold gfield_toks at 1. rewrite <- app_assoc. apply rco_app.
    - destruct (String.eqb n "") eqn:E; cbn [negb]; [apply rc_nil|apply rc_ident_sp; auto].
    - rewrite <- app_assoc. apply ro_sep; auto; [apply rco_app; auto|apply sep_app; auto]. }
  cbn [TextProofs.fields_loop]. rewrite sep_loop_cons. split.
  - apply rco_app; auto. apply rc_maybe_semi.
  - intros H. left. apply opens_semi; auto. eapply renders_ok; eauto.
Qed.

Lemma sigPG a r v :
  PSig PG (mkSig a r v) ->
  variadic_ok (mkSig a r v) = true ->
  forallb (fun x => wf (ArgTy x)) a = true -> forallb (fun x => wf (ArgTy x)) r = true ->
  names_ok a = true -> names_ok r = true ->
  forallb (fun x => names_fine (ArgTy x)) a = true -> forallb (fun x => names_fine (ArgTy x)) r = true ->
  renders (signatureToBuffer_ render rec_elem (mkSig a r v)) (sig_toks gtoks (mkSig a r v))
  /\ opens (signatureToBuffer_ render rec_elem (mkSig a r v)).
Proof.
  intros [PA PR] V WA WR NA NR TA TR. cbn [Args Results] in *.
  assert (G : forall l, PArgs PG l -> forallb (fun x => wf (ArgTy x)) l = true ->
     forallb (fun x => names_fine (ArgTy x)) l = true ->
     Forall (fun x => renders (render (ArgTy x)) (gtoks (ArgTy x)) /\
        (forall e, ArgTy x = TSlice e -> renders (render e) (gtoks e))) l).
  { intros l P W X. unfold PArgs in P. rewrite Forall_forall in *. rewrite forallb_forall in W, X.
    intros x I. apply P; auto. }
  pose proof (G a PA WA TA) as GA. pose proof (G r PR WR TR) as GR.
  apply sig_renders; auto.
  - eapply Forall_impl; [|exact GA]. simpl. intros ? [? _]; auto.
  - eapply Forall_impl; [|exact GR]. simpl. intros ? [? _]; auto.
  - intros -> x L. unfold variadic_ok in V. cbn [IsVariadic Args negb orb] in V.
    pose proof L as L'. rewrite last_arg_rev' in L'. destruct (rev a); [discriminate|].
    injection L' as ->. apply last_arg_in in L. rewrite Forall_forall in GA.
    destruct (GA x L) as [_ G2]. destruct (ArgTy x) eqn:E; try discriminate.
    cbn [TextProofs.rec_elem gtoks skipn]. apply G2; auto.
Qed.

(** what is needed of methods *)
Definition method_fine (m : MethodType) : Prop :=
  match m with
  | mkMethod n s => ident n = true /\ renders (signatureToBuffer_ render rec_elem s) (sig_toks gtoks s) /\
      opens (signatureToBuffer_ render rec_elem s)
  end.
Lemma gmethods_renders : forall l i, Forall method_fine l ->
  renders (methods_loop i l) (sep_loop i mtoks (map gm l)) /\
  (0 < i -> sep (methods_loop i l) (sep_loop i mtoks (map gm l))).
Proof.
  induction l as [|[n s] r IH]; intros i F.
  { split; [apply ro_nil|intros _; apply rc_sep_nil]. }
  inversion F as [|? ? F1 F2]; subst. destruct F1 as (TN & RS & OS).
  destruct (IH (S i)) as [R SP]; auto. specialize (SP ltac:(lia)).
  assert (BODY : renders
      (W n +++ signatureToBuffer_ render rec_elem s +++ methods_loop (S i) r)
      (mtoks (gm (mkMethod n s)) ++ sep_loop (S i) mtoks (map gm r))).
  { unfold mtoks at 1. cbn [gm fst snd].
    change ((TIdent n :: sig_toks gtoks s) ++ sep_loop (S i) mtoks (map gm r))
      with ([TIdent n] ++ (sig_toks gtoks s ++ sep_loop (S i) mtoks (map gm r))).
    apply ro_app; [apply ro_ident; auto|apply ro_sep; auto|].
    apply opens_app; auto. eapply renders_ok; eauto. }
  cbn [TextProofs.methods_loop map]. rewrite sep_loop_cons. split.
  - apply rco_app; auto. apply rc_maybe_semi.
  - intros H. left. apply opens_semi; auto. eapply renders_ok; eauto.
Qed.

Lemma all_ident_app (a b : string) : all_ident_bytes (a ++ b) = all_ident_bytes a && all_ident_bytes b.
Proof. induction a as [|c a IH]; auto. cbn [append all_ident_bytes]. rewrite IH, andb_assoc. auto. Qed.
Lemma legal_all s : legal_ident s = true -> all_ident_bytes s = true.
Proof.
  destruct s as [|c s]; [discriminate|]. cbn [legal_ident all_ident_bytes]. intros H.
  apply andb_true_iff in H as [H1 H2]. rewrite H1, H2. auto.
Qed.
Lemma legal_app (a b : string) : legal_ident a = true -> legal_ident b = true -> legal_ident (a ++ b) = true.
Proof.
  intros A B. apply legal_all in B. destruct a as [|c a]; [discriminate|]. cbn [append legal_ident] in *.
  rewrite all_ident_app. apply andb_true_iff in A as [-> ->]. rewrite B. auto.
Qed.

Lemma plus_assoc a b c : ((a +++ b) +++ c) = (a +++ (b +++ c)).
Proof. destruct a, b, c; cbn; rewrite ?append_assoc; auto. Qed.
Lemma plus_nil_l a : (W "" +++ a) = a.
Proof. destruct a; auto. Qed.
Lemma plus_nil_r a : (a +++ W "") = a.
Proof. destruct a; cbn; rewrite ?append_nil_r; auto. Qed.

Lemma glued_word e n : sym_ok e = true -> ident n = true ->
  renders (W (symbol_text e) +++ W n)
    (match qualifier e with Some q => [TIdent q; TOp "."] | None => [] end ++ [ident_token (SymName e ++ n)]).
Proof.
  unfold sym_ok, symbol_text, qualifier. intros H N. apply andb_true_iff in H as [H1 H2].
  assert (LN : legal_ident (SymName e ++ n) = true).
  { unfold ident in *. apply andb_true_iff in H1 as [A _], N as [B _]. apply legal_app; auto. }
  destruct (String.eqb (PkgName (SymPackage e)) "") eqn:E; cbn [negb append].
  - exists (SymName e ++ n)%string. split; [reflexivity|]. apply lexo_word; auto.
  - simpl in H2. exists (PkgName (SymPackage e) ++ "." ++ (SymName e ++ n))%string. split.
    { cbn. rewrite !append_assoc. auto. }
    change ([TIdent (PkgName (SymPackage e)); TOp "."] ++ [ident_token (SymName e ++ n)]) with
      ([TIdent (PkgName (SymPackage e))] ++ ([TOp "."; ident_token (SymName e ++ n)])).
    apply lexo_lexo_app; try discriminate; auto; [apply lexo_ident; auto|].
    intros r B. clear H1 N. revert LN. generalize (SymName e ++ n)%string as x. intros x L.
    destruct x as [|c x]; [discriminate|]. cbn [legal_ident] in L.
    apply andb_true_iff in L as [L1 L2]. cbn [append lexer lex_step lex_start].
    change (lex_start ".") with (Some (@nil token, LDot)). cbv iota. rewrite omap_nil.
    cbn [lexer lex_step].
    assert (D : is_digit_byte c = false) by (unfold is_letter_byte, is_digit_byte in *; lia).
    assert (P : Ascii.eqb c "." = false) by (destruct (Ascii.eqb_spec c "."); auto; subst; discriminate).
    rewrite P, D. unfold lex_flush, lex_start. rewrite letter_not_space, L1 by auto.
    rewrite lexer_ident by auto. rewrite omap_app_app. reflexivity.
Qed.
Lemma elems_renders : forall es ms i, forallb sym_ok es = true -> Forall method_fine ms ->
  renders (embeds_loop i es +++ methods_loop 0 ms)
    (match es with [] => [] | _ => if Nat.ltb 0 i then [TOp ";"] else [] end ++ itoks es (map gm ms)) /\
  (0 < i -> es <> [] -> opens (embeds_loop i es +++ methods_loop 0 ms)).
Proof.
  induction es as [|e es IH]; intros ms i F M.
  { split; [|congruence]. cbn [embeds_loop itoks app]. rewrite plus_nil_l.
    destruct (gmethods_renders ms 0 M) as [R _]. destruct ms; exact R. }
  cbn [forallb] in F. apply andb_true_iff in F as [F1 F2].
  cbn [embeds_loop]. rewrite !plus_assoc.
  assert (BODY : renders (W (symbol_text e) +++ (embeds_loop (S i) es +++ methods_loop 0 ms)) (itoks (e :: es) (map gm ms))).
  { destruct es as [|e' es].
    - cbn [embeds_loop]. rewrite plus_nil_l. destruct ms as [|[n s] ms]; cbn [map gm itoks].
      + cbn [TextProofs.methods_loop]. rewrite plus_nil_r. apply ro_symbol; auto.
      + cbn [TextProofs.methods_loop]. change (W (if Nat.ltb 0 0 then "; " else "")) with (W ""). rewrite plus_nil_l.
        inversion M as [|? ? M1 M2]; subst. destruct M1 as (TN & RS & OS).
        rewrite <- plus_assoc. destruct (gmethods_renders ms 1 M2) as [RM SM]. specialize (SM ltac:(lia)).
        match goal with |- renders _ (?q ++ ?x :: ?y) => change (q ++ x :: y) with (q ++ [x] ++ y); rewrite app_assoc end.
        apply ro_app; [apply glued_word; auto| |].
        * assert (E : match map gm ms with [] => [] | _ :: _ => TOp ";" :: sep_toks mtoks (map gm ms) end = sep_loop 1 mtoks (map gm ms))
            by (destruct ms; reflexivity).
          rewrite E. apply ro_sep; auto.
        * apply opens_app; auto. eapply renders_ok; eauto.
    - destruct (IH ms (S i) F2 M) as [R O]. specialize (O ltac:(lia) ltac:(discriminate)).
      cbn [itoks]. apply ro_app; [apply ro_symbol; auto| |exact O].
      exact R. }
  split.
  - apply rco_app; [|exact BODY]. apply rc_maybe_semi.
  - intros H _. apply opens_semi; auto. eapply renders_ok. exact BODY.
Qed.

Lemma fine_sig (s : Signature) : PSig PG s -> variadic_ok s = true ->
  forallb (fun a => wf (ArgTy a)) (Args s) && forallb (fun a => wf (ArgTy a)) (Results s) = true ->
  names_ok (Args s) && names_ok (Results s) = true ->
  forallb (fun a => names_fine (ArgTy a)) (Args s) && forallb (fun a => names_fine (ArgTy a)) (Results s) = true ->
  renders (signatureToBuffer_ render rec_elem s) (sig_toks gtoks s) /\
  opens (signatureToBuffer_ render rec_elem s).
Proof.
  destruct s as [a r v]. cbn [Args Results]. rewrite !andb_true_iff. intros P V [WA WR] [NA NR] [TA TR]. apply sigPG; auto.
Qed.
Lemma gtype_renders : forall t, PG t.
Proof.
  induction t using TypeName_ind'; intros WF TX; (split; [|try (intros ? ?; discriminate)]).
  - discriminate.
  - apply ro_basic; auto.
  - unfold names_fine in TX. cbn in TX. rewrite andb_true_r in TX. apply ro_symbol; auto.
  - destruct (IHt WF TX) as [R _]. change (gtoks (TPtr t)) with ([TOp "*"] ++ gtoks t).
    apply rco_app; auto using rc_star.
  - destruct (IHt WF TX) as [R _]. change (gtoks (TSlice t)) with ([TOp "["; TOp "]"] ++ gtoks t).
    apply rco_app; auto using rc_slice.
  - intros e [= <-]. destruct (IHt WF TX) as [R _]. exact R.
  - cbn [wf] in WF. apply andb_true_iff in WF as [N WF]. destruct (IHt WF TX) as [R _].
    change (gtoks (TArray t n)) with ([TOp "["] ++ ([TInt (decZ n); TOp "]"] ++ gtoks t)).
    cbn [typeNameToBuffer]. apply rco_app; auto using rc_lbrack.
    assert (X : rendersc (W (decZ n) +++ W "]") [TInt (decZ n); TOp "]"]).
    { exists (decZ n ++ "]")%string. split; auto. apply lexc_number. unfold decZ.
      apply Z.leb_le in N. destruct (Z.ltb_spec n 0); [lia|]. apply number_dec. }
    destruct X as (s & E & L). destruct R as (u & E2 & L2). rewrite E2.
    exists (s ++ u)%string. split.
    + injection E as <-. cbn. rewrite append_assoc. auto.
    + apply lexc_lexo_app; auto.
  - cbn [wf] in WF. apply andb_true_iff in WF as [W1 W2].
    unfold names_fine in TX. rewrite parts_map in TX. rewrite !andb_true_iff in TX. destruct TX as [_ [T1 T2]].
    destruct (IHt1 W1 T1) as [R1 _]. destruct (IHt2 W2 T2) as [R2 _].
    change (gtoks (TMap t1 t2)) with ([TKw "map"; TOp "["] ++ (gtoks t2 ++ [TOp "]"] ++ gtoks t1)).
    cbn [typeNameToBuffer]. apply rco_app; [apply rc_map|]. apply ro_app; auto.
    + apply rco_app; auto using rc_rbrack.
    + apply opens_app; [apply opens_W; [discriminate|reflexivity]|]. eapply renders_ok; eauto.
  - cbn [wf] in WF. apply andb_true_iff in WF as [W1 W2].
    destruct (IHt W2 TX) as [R _]. cbn [typeNameToBuffer gtoks].
    unfold RecvDir, SendDir. apply rco_app.
    { destruct (d =? 1)%Z; [apply rc_arrow|apply rc_nil]. }
    change (TKw "chan" :: (if (d =? 2)%Z then [TOp "<-"] else []) ++ gtoks t) with
      ([TKw "chan"] ++ ((if (d =? 2)%Z then [TOp "<-"] else []) ++ ([] ++ gtoks t))).
    assert (RR : renders (W " " +++ render t) ([] ++ gtoks t)).
    { apply rco_app; auto using rc_space. }
    apply ro_app; [apply ro_chan| |].
    + apply rco_app; auto. destruct (d =? 2)%Z; [apply rc_arrow|apply rc_nil].
    + destruct (d =? 2)%Z.
      * apply opens_app; [apply opens_W; [discriminate|reflexivity]|]. eapply renders_ok; eauto.
      * destruct R as (s & -> & _). cbn. exists (String " " s). split; auto. split; [discriminate|reflexivity].
  - destruct s as [a r v]. cbn [wf] in WF. apply andb_true_iff in WF as [WV WF1].
    unfold names_fine in TX. rewrite parts_func in TX. apply andb_true_iff in TX as [TN TX].
    rewrite render_func. change (gtoks (TFunc (mkSig a r v))) with ([TKw "func"] ++ sig_toks gtoks (mkSig a r v)).
    destruct (fine_sig (mkSig a r v)) as [RS OS]; auto. apply ro_app; auto using ro_func.
  - rewrite render_struct. cbn [wf] in *. unfold names_fine in TX. rewrite parts_struct in TX. apply andb_true_iff in TX as [TN TX].
    destruct (gfields_renders fs 0) as [R _]; auto.
    change (gtoks (TStruct fs)) with ([TKw "struct"; TOp "{"] ++ (sep_toks gfield_toks fs ++ [TOp "}"])).
    apply rco_app; [apply rc_struct|]. apply rc_ro, roc_app; auto using rc_rbrace.
    + destruct fs; auto.
    + apply opens_W; [discriminate|reflexivity].
  - rewrite render_interface. cbn [wf] in *. unfold names_fine in TX. rewrite parts_interface in TX. apply andb_true_iff in TX as [TN TX].
    cbn [own_names] in TN. apply andb_true_iff in TN as [TE TM].
    change (gtoks (TInterface ms es)) with ([TKw "interface"; TOp "{"] ++ (itoks es (map gm ms) ++ [TOp "}"])).
    assert (M : Forall method_fine ms).
    { rewrite Forall_forall in *. rewrite forallb_forall in WF, TM, TX. intros [n s] I.
      specialize (H _ I). specialize (WF _ I). specialize (TM _ I). specialize (TX _ I). cbv beta iota in *. cbn [MtdSig] in *.
      destruct s as [a r v]. apply andb_true_iff in WF as [WV WF]. apply andb_true_iff in TM as [NM TM].
      split; [exact NM|]. apply fine_sig; auto. }
    destruct (elems_renders es ms 0 TE M) as [R _].
    apply rco_app; [apply rc_interface|]. rewrite <- plus_assoc.
    assert (E : match es with [] => [] | _ :: _ => if Nat.ltb 0 0 then [TOp ";"] else [] end = []) by (destruct es; auto).
    rewrite E in R.
    apply rc_ro, roc_app; auto using rc_rbrace. apply opens_W; [discriminate|reflexivity].
Qed.
End WithPrint.

(** ** The type whose tokens these are *)
Lemma toks_both m : toks (both m) = TKw "chan" :: toks m.
Proof.
  induction m using TypeName_ind'; try reflexivity. cbn [both]. unfold RecvDir, SendDir, BothDir.
  destruct (Z.eqb_spec d 1) as [->|D]; [|reflexivity]. cbn [toks Z.eqb Pos.eqb app]. rewrite IHm. reflexivity.
Qed.
Lemma has_names_map {T} (g : T -> T) l : has_names (map_args g l) = has_names l.
Proof. unfold has_names, map_args. induction l as [|[n t] l IH]; auto. cbn [map existsb ArgName]. rewrite IH. auto. Qed.
Lemma args_toks_map (g : TypeName -> TypeName) named v l :
  Forall (fun a => gtoks (ArgTy a) = toks (g (ArgTy a))) l ->
  args_toks gtoks named v l = args_toks toks named v (map_args g l).
Proof.
  induction 1 as [|[n t] l E F IH]; [reflexivity|]. cbn [map_args map args_toks ArgTy] in *. rewrite E.
  fold (map_args g l). rewrite IH. destruct l as [|b l]; reflexivity.
Qed.
Lemma sig_toks_map (g : TypeName -> TypeName) s :
  Forall (fun a => gtoks (ArgTy a) = toks (g (ArgTy a))) (Args s) ->
  Forall (fun a => gtoks (ArgTy a) = toks (g (ArgTy a))) (Results s) ->
  sig_toks gtoks s = sig_toks toks (map_sig g s).
Proof.
  destruct s as [a r v]. cbn [Args Results map_sig sig_toks]. intros A R.
  rewrite !has_names_map, (args_toks_map g _ _ a), (args_toks_map g _ _ r) by auto.
  replace (List.length (map_args g r)) with (List.length r) by (unfold map_args; rewrite map_length; auto).
  destruct r as [|x r]; reflexivity.
Qed.
Lemma itoks_none es : itoks es [] = sep_toks sym_toks es.
Proof. induction es as [|e es IH]; auto. cbn [itoks sep_toks]. destruct es; [rewrite app_nil_r; auto|]. rewrite IH. auto. Qed.
Lemma itoks_glue es e n s ms : itoks (es ++ [e]) ((n, s) :: ms) =
  sep_toks sym_toks es ++ match es with [] => [] | _ => [TOp ";"] end ++
  match qualifier e with Some q => [TIdent q; TOp "."] | None => [] end ++
  ident_token (SymName e ++ n) :: s ++ match ms with [] => [] | _ => TOp ";" :: sep_toks mtoks ms end.
Proof.
  induction es as [|x es IH]; [reflexivity|]. cbn [app itoks].
  destruct es as [|y es]; [cbn [app itoks sep_toks]; rewrite app_nil_r; reflexivity|].
  change ((y :: es) ++ [e]) with (y :: (es ++ [e])) in *. rewrite IH.
  cbn [sep_toks]. rewrite <- !app_assoc. cbn [app]. rewrite <- !app_assoc. reflexivity.
Qed.
Lemma rev_split {A} (l : list A) x r : rev l = x :: r -> l = rev r ++ [x].
Proof. intros E. rewrite <- (rev_involutive l), E. reflexivity. Qed.
Lemma mtoks_map (ms : list MethodType) :
  Forall (fun m => sig_toks gtoks (MtdSig m) = sig_toks toks (map_sig read_as (MtdSig m))) ms ->
  sep_toks mtoks (map gm ms) =
  sep_toks method_toks (map (fun m => match m with mkMethod n s => mkMethod n (map_sig read_as s) end) ms).
Proof.
  induction 1 as [|[n s] ms E F IH]; [reflexivity|]. cbn [map sep_toks gm mtoks method_toks fst snd MtdSig] in *.
  unfold mtoks at 1. cbn [fst snd]. rewrite E, IH. destruct ms; reflexivity.
Qed.
Lemma gtoks_read t : readable t = true -> gtoks t = toks (read_as t).
Proof.
  unfold readable.
  assert (AR : forall (l : list ArgType), PArgs (fun t => forallb one_word (parts t) = true -> gtoks t = toks (read_as t)) l ->
    forallb (fun x => forallb one_word (parts (ArgTy x))) l = true -> Forall (fun a => gtoks (ArgTy a) = toks (read_as (ArgTy a))) l).
  { intros l P. unfold PArgs in P. rewrite Forall_forall in *. rewrite forallb_forall. intros H x I. apply P; auto. }
  induction t as [ |k|s|e IH|e IH|e n IH|e k IHe IHk|e d IH|s IH|fs IH|ms es IH] using TypeName_ind'; intros R;
    try reflexivity; try (cbn [gtoks read_as toks]; rewrite IH by exact R; reflexivity).
  - rewrite parts_map in R. rewrite !andb_true_iff in R. destruct R as [_ [R1 R2]].
    cbn [gtoks read_as toks]. rewrite IHe, IHk by auto. reflexivity.
  - cbn [gtoks read_as]. rewrite IH by exact R. unfold BothDir. destruct (Z.eqb_spec d 3) as [->|D]; [|reflexivity].
    rewrite toks_both. reflexivity.
  - rewrite parts_func in R. rewrite !andb_true_iff in R. destruct R as [_ [R1 R2]], IH as [HA HR].
    cbn [gtoks read_as toks]. rewrite (sig_toks_map read_as s) by auto. reflexivity.
  - rewrite parts_struct in R. apply andb_true_iff in R as [_ R].
    change (gtoks (TStruct fs)) with ([TKw "struct"; TOp "{"] ++ (sep_toks gfield_toks fs ++ [TOp "}"])).
    cbn [read_as]. match goal with |- _ = toks (TStruct ?l) =>
      change (toks (TStruct l)) with ([TKw "struct"; TOp "{"] ++ (sep_toks field_toks l ++ [TOp "}"])) end.
    f_equal. f_equal. clear -IH R. induction IH as [|[n t tag] fs E F IH]; [reflexivity|].
    cbn [forallb FldType] in *. apply andb_true_iff in R as [R1 R2].
    cbn [map sep_toks gfield_toks field_toks]. rewrite E, IH by auto. destruct fs; reflexivity.
  - rewrite parts_interface in R. apply andb_true_iff in R as [R1 R].
    assert (S : Forall (fun m => sig_toks gtoks (MtdSig m) = sig_toks toks (map_sig read_as (MtdSig m))) ms).
    { rewrite Forall_forall in *. rewrite forallb_forall in R. intros m I. specialize (R m I). apply andb_true_iff in R as [A B].
      destruct (IH m I) as [HA HR]. apply sig_toks_map; auto. }
    change (gtoks (TInterface ms es)) with ([TKw "interface"; TOp "{"] ++ (itoks es (map gm ms) ++ [TOp "}"])).
    assert (TI : forall ms es, toks (TInterface ms es) = [TKw "interface"; TOp "{"] ++
       (sep_toks sym_toks es ++ match es, ms with _ :: _, _ :: _ => [TOp ";"] | _, _ => [] end ++ sep_toks method_toks ms) ++ [TOp "}"]).
    { intros ms' es'. rewrite <- !app_assoc. reflexivity. }
    cbn [read_as]. unfold glue. destruct ms as [|[n s] ms].
    + cbn [map]. rewrite TI, itoks_none. cbn [sep_toks app]. destruct es; rewrite ?app_nil_r; reflexivity.
    + cbn [map gm]. destruct (rev es) as [|e es'] eqn:RV.
      * apply (f_equal (@rev _)) in RV. rewrite rev_involutive in RV. subst es. cbn [rev]. rewrite TI.
        change (itoks [] ((n, sig_toks gtoks s) :: map gm ms)) with (sep_toks mtoks (map gm (mkMethod n s :: ms))).
        rewrite mtoks_map by auto. reflexivity.
      * apply rev_split in RV. rewrite TI, RV, itoks_glue.
        cbn [one_word] in R1. rewrite RV, rev_app_distr in R1. cbn [rev app] in R1.
        destruct (qualifier e); [discriminate|]. apply negb_true_iff in R1. unfold ident_token. rewrite R1.
        inversion S as [|? ? S1 S2]; subst. rewrite mtoks_map by auto. cbn [MtdSig] in S1. rewrite S1. cbn [app].
        f_equal. f_equal. f_equal. f_equal. destruct (rev es'); [|]; f_equal; cbn [sep_toks method_toks app]; destruct ms; reflexivity.
Qed.

(** ** It can be read *)
Lemma wf_both m : wf m = true -> wf (both m) = true.
Proof.
  induction m using TypeName_ind'; intros W; cbn [both]; try (cbn [wf]; exact W).
  unfold RecvDir. destruct (Z.eqb_spec d 1) as [->|D].
  - cbn [wf] in *. apply andb_true_iff in W as [_ W]. rewrite IHm by auto. reflexivity.
  - cbn [wf] in *. rewrite W. reflexivity.
Qed.
Lemma sep_both m : sep_ok m = true -> sep_ok (both m) = true.
Proof.
  induction m using TypeName_ind'; intros W; cbn [both]; try (cbn [sep_ok recv_chan]; exact W).
  unfold RecvDir. destruct (Z.eqb_spec d 1) as [->|D].
  - cbn [sep_ok] in *. apply andb_true_iff in W as [_ W]. rewrite IHm by auto. reflexivity.
  - cbn [sep_ok recv_chan] in *. rewrite W. destruct (Z.eqb_spec d 1); [congruence|]. reflexivity.
Qed.
Lemma slice_read t : is_slice t = true -> is_slice (read_as t) = true.
Proof. destruct t; try discriminate. auto. Qed.
Lemma variadic_read s : variadic_ok s = true -> variadic_ok (map_sig read_as s) = true.
Proof.
  destruct s as [a r v]. unfold variadic_ok. cbn [map_sig IsVariadic Args]. destruct v; auto. cbn [negb orb].
  unfold map_args. rewrite <- map_rev. destruct (rev a) as [|[n t] l]; auto. cbn [map ArgTy]. apply slice_read.
Qed.
Lemma names_ok_map {T} (g : T -> T) l : names_ok (map_args g l) = names_ok l.
Proof. unfold names_ok, map_args. induction l as [|[n t] l IH]; auto. cbn [map forallb ArgName]. rewrite IH. auto. Qed.
Lemma forallb_args (P Q : TypeName -> bool) (l : list ArgType) : Forall (fun a => P (ArgTy a) = true -> Q (read_as (ArgTy a)) = true) l ->
  forallb (fun a => P (ArgTy a)) l = true -> forallb (fun a => Q (ArgTy a)) (map_args read_as l) = true.
Proof.
  induction 1 as [|[n t] l E F IH]; auto. cbn [map_args map forallb ArgTy] in *. rewrite !andb_true_iff. intros [A B]. split; auto.
Qed.
Lemma glue_wf ms es : wf (glue ms es) = wf (TInterface ms es).
Proof. unfold glue. destruct ms as [|[n s] ms]; auto. destruct (rev es); auto. Qed.
Lemma wf_read t : wf t = true -> wf (read_as t) = true.
Proof.
  induction t as [ |k|s|e IH|e IH|e n IH|e k IHe IHk|e d IH|s IH|fs IH|ms es IH] using TypeName_ind'; cbn [wf read_as]; auto.
  - rewrite !andb_true_iff. intros [A B]. auto.
  - rewrite !andb_true_iff. intros [A B]. auto.
  - rewrite !andb_true_iff. intros [[A B] C]. unfold BothDir. destruct (Z.eqb_spec d 3) as [->|D]; [apply wf_both; auto|].
    cbn [wf]. rewrite A, B, IH by auto. auto.
  - rewrite andb_true_iff. intros [V H]. rewrite variadic_read by auto. destruct s as [a r v], IH as [HA HR].
    cbn [map_sig]. apply andb_true_iff in H as [A B]. rewrite !(forallb_args wf wf) by auto. auto.
  - intros H. induction IH as [|[n t tag] fs E F IH]; auto. cbn [forallb map FldType] in *. apply andb_true_iff in H as [A B].
    rewrite E, IH by auto. auto.
  - rewrite glue_wf. cbn [wf]. intros H. induction IH as [|[n s] ms E F IH]; auto. cbn [forallb map MtdSig] in *.
    apply andb_true_iff in H as [A B]. rewrite IH by auto. apply andb_true_iff in A as [V H].
    rewrite variadic_read by auto. destruct s as [a r v], E as [HA HR]. cbn [map_sig]. apply andb_true_iff in H as [H1 H2].
    rewrite !(forallb_args wf wf) by auto. auto.
Qed.
Lemma embeddable_read t : embeddable t = true -> embeddable (read_as t) = true.
Proof. destruct t as [| | |e| | | | | | |]; try discriminate; auto. destruct e; try discriminate; auto. Qed.
Definition ready (t : TypeName) : bool := names_fine t && readable t.
Lemma ready_args (l : list ArgType) : forallb (fun x => names_fine (ArgTy x)) l = true ->
  forallb (fun x => readable (ArgTy x)) l = true -> forallb (fun x => ready (ArgTy x)) l = true.
Proof. rewrite !forallb_forall. intros A B x I. unfold ready. rewrite A, B; auto. Qed.
Lemma sep_read t : ready t = true -> sep_ok (read_as t) = true.
Proof.
  induction t as [ |k|s|e IH|e IH|e n IH|e k IHe IHk|e d IH|s IH|fs IH|ms es IH] using TypeName_ind';
    intros R; try (apply IH; exact R); auto.
  - unfold ready, names_fine in R. cbn in R. rewrite !andb_true_r in R. exact R.
  - unfold ready, names_fine, readable in *. rewrite !parts_map in R. rewrite !andb_true_iff in R.
    destruct R as [[_ [A B]] [_ [C D]]]. cbn [read_as sep_ok]. rewrite IHe, IHk; auto; apply andb_true_iff; auto.
  - cbn [read_as]. unfold BothDir. destruct (Z.eqb_spec d 3) as [->|D]; [apply sep_both, IH, R|].
    cbn [sep_ok]. rewrite IH by exact R. destruct (Z.eqb_spec d 3); [congruence|]. reflexivity.
  - unfold ready, names_fine, readable in R. rewrite !parts_func in R. rewrite !andb_true_iff in R.
    destruct R as [[N [A B]] [_ [C D]]]. destruct s as [a r v], IH as [HA HR]. cbn [own_names Args Results] in *.
    cbn [read_as map_sig sep_ok]. rewrite !names_ok_map. apply andb_true_iff in N as [-> ->].
    rewrite !(forallb_args ready sep_ok) by auto using ready_args. auto.
  - unfold ready, names_fine, readable in R. rewrite !parts_struct in R. rewrite !andb_true_iff in R.
    destruct R as [[N A] [_ B]]. cbn [own_names] in N. cbn [read_as sep_ok]. revert N A B.
    induction IH as [|[n t tag] fs E F IH]; auto. cbn [forallb map FldType FldName] in *. rewrite !andb_true_iff.
    intros [N1 N2] [A1 A2] [B1 B2]. repeat split; auto.
    + destruct (String.eqb n ""); auto. apply embeddable_read; auto.
    + apply E. apply andb_true_iff. auto.
  - unfold ready, names_fine, readable in R. rewrite !parts_interface in R. rewrite !andb_true_iff in R.
    destruct R as [[N A] [O B]]. cbn [own_names] in N. apply andb_true_iff in N as [NE NM].
    assert (M : forallb (fun m => match m with
        | mkMethod n s => ident n && match s with mkSig a r _ => names_ok a && names_ok r &&
                forallb (fun x => sep_ok (ArgTy x)) a && forallb (fun x => sep_ok (ArgTy x)) r end end)
        (map (fun m => match m with mkMethod n s => mkMethod n (map_sig read_as s) end) ms) = true).
    { clear O NE. revert NM A B. induction IH as [|[n s] ms E F IH]; auto. cbn [forallb map MtdSig] in *. destruct s as [a r v].
      rewrite !andb_true_iff. intros [[N1 [N2 N3]] N4] [[A1 A2] A3] [[B1 B2] B3]. destruct E as [HA HR].
      cbn [map_sig Args Results] in *. rewrite !names_ok_map. rewrite !(forallb_args ready sep_ok) by auto using ready_args.
      repeat split; auto. rewrite N2, N3. auto. }
    cbn [read_as]. unfold glue. destruct ms as [|[n s] ms]; [cbn [map sep_ok]; rewrite NE; auto|].
    cbn [map] in *. destruct (rev es) as [|e es'] eqn:RV; [cbn [sep_ok]; rewrite NE; exact M|].
    cbn [one_word] in O. rewrite RV in O. destruct (qualifier e); [discriminate|]. apply rev_split in RV. subst es.
    rewrite forallb_app in NE. apply andb_true_iff in NE as [NE NL]. cbn [forallb] in NL. rewrite andb_true_r in NL.
    cbn [sep_ok]. rewrite NE. cbn [forallb] in *. rewrite !andb_true_iff in *. destruct M as [[M1 M2] M3].
    repeat split; auto. unfold sym_ok, ident in *. rewrite !andb_true_iff in NL. destruct NL as [[NL _] _].
    apply andb_true_iff in M1 as [M1 _]. rewrite legal_app, O; auto.
Qed.

(** ** Tokens that cannot be read: a keyword or a string at the start of a field or an interface
    element, a keyword after a period, and a qualified name before an opening parenthesis. *)
Inductive sstate := SN | SB | SD | SQ.
Definition scan_step (s : sstate) (t : token) : option sstate :=
  match t with
  | TKw _ => match s with SN | SQ => Some SN | _ => None end
  | TIdent _ => match s with SD => Some SQ | _ => Some SN end
  | TOp o =>
      if String.eqb o "." then Some SD
      else if String.eqb o "(" then match s with SQ => None | _ => Some SN end
      else if String.eqb o "{" || String.eqb o ";" then Some SB
      else Some SN
  | TStr _ => match s with SB => None | _ => Some SN end
  | _ => Some SN
  end.
Fixpoint scan (s : sstate) (ts : list token) : option sstate :=
  match ts with [] => Some s | t :: r => match scan_step s t with Some s' => scan s' r | None => None end end.
Lemma scan_app s a b : scan s (a ++ b) = match scan s a with Some s' => scan s' b | None => None end.
Proof. revert s. induction a as [|t a IH]; intros s; auto. cbn [app scan]. destruct (scan_step s t); auto. Qed.

(** from [s] the tokens up to [r] can be passed, ending in [s'] *)
Definition adv (s : sstate) (ts r : list token) (s' : sstate) : Prop := exists c, ts = c ++ r /\ scan s c = Some s'.
Lemma adv_refl s r : adv s r r s.
Proof. exists []. auto. Qed.
Lemma adv_cons s t ts r s1 s' : scan_step s t = Some s1 -> adv s1 ts r s' -> adv s (t :: ts) r s'.
Proof. intros E (c & -> & R). exists (t :: c). split; auto. cbn [scan]. rewrite E. auto. Qed.
Lemma adv_trans s a b c s1 s2 : adv s a b s1 -> adv s1 b c s2 -> adv s a c s2.
Proof. intros (x & -> & X) (y & -> & Y). exists (x ++ y). rewrite app_assoc. split; auto. rewrite scan_app, X. auto. Qed.
Definition ends (s : sstate) (ts r : list token) : Prop :=
  exists t c, ts = t :: c ++ r /\ (scan s (t :: c) = Some SN \/ scan s (t :: c) = Some SQ).
Definition kw_head (ts : list token) : bool := match ts with TKw _ :: _ | TStr _ :: _ => true | _ => false end.
Lemma expect_some o ts r : expect o ts = Some r -> ts = TOp o :: r.
Proof.
  destruct ts as [|[]]; try discriminate. cbn. destruct (String.eqb_spec o s); [|discriminate]. intros [= ->]. subst. auto.
Qed.
Lemma ends_cons s t ts r s1 : scan_step s t = Some s1 -> ends s1 ts r -> ends s (t :: ts) r.
Proof.
  intros E (u & c & -> & R). exists t, (u :: c). split; auto. change (scan s (t :: u :: c)) with
    (match scan_step s t with Some s' => scan s' (u :: c) | None => None end). rewrite E. exact R.
Qed.
Lemma adv_ends s t ts r s1 : scan_step s t = Some s1 -> adv s1 ts r SN -> ends s (t :: ts) r.
Proof. intros E (c & -> & R). exists t, c. split; auto. left. cbn [scan]. rewrite E. auto. Qed.
Lemma one_ends s t r s1 : scan_step s t = Some s1 -> s1 = SN \/ s1 = SQ -> ends s (t :: r) r.
Proof. intros E O. exists t, []. split; auto. cbn [scan]. rewrite E. destruct O as [-> | ->]; auto. Qed.
(** after something that ends comes a token that does not depend on how *)
Definition plain (t : token) (s : sstate) : Prop := scan_step SN t = Some s /\ scan_step SQ t = Some s.
Lemma ends_then s a t b s1 c s2 : ends s a (t :: b) -> plain t s1 -> adv s1 b c s2 -> adv s a c s2.
Proof.
  intros (u & x & -> & R) [P1 P2] (y & -> & Y). exists ((u :: x) ++ t :: y). split.
  - cbn [app]. rewrite <- app_assoc. reflexivity.
  - rewrite scan_app. destruct R as [-> | ->]; cbn [scan]; rewrite ?P1, ?P2; auto.
Qed.
Lemma ends_then_ends s a t b s1 c : ends s a (t :: b) -> plain t s1 -> ends s1 b c -> ends s a c.
Proof.
  intros (u & x & -> & R) [P1 P2] (v & y & -> & Y). exists u, (x ++ t :: v :: y). split.
  - rewrite <- app_assoc. reflexivity.
  - change (u :: x ++ t :: v :: y) with ((u :: x) ++ t :: v :: y). rewrite scan_app.
    destruct R as [-> | ->]; cbn [scan]; rewrite ?P1, ?P2; auto.
Qed.
Lemma adv_then_ends s a b s1 c : adv s a b s1 -> ends s1 b c -> ends s a c.
Proof.
  intros (x & -> & X) (v & y & -> & Y). destruct x as [|u x].
  - cbn in X. injection X as <-. exists v, y. auto.
  - exists u, (x ++ v :: y). split; [cbn [app]; rewrite <- app_assoc; reflexivity|].
    change (u :: x ++ v :: y) with ((u :: x) ++ v :: y). rewrite scan_app, X. auto.
Qed.
Lemma ends_end s a t b : ends s a (t :: b) -> plain t SN -> ends s a b.
Proof.
  intros (u & x & -> & R) [P1 P2]. exists u, (x ++ [t]). split.
  - rewrite <- app_assoc. reflexivity.
  - change (u :: x ++ [t]) with ((u :: x) ++ [t]). rewrite scan_app.
    destruct R as [-> | ->]; cbn [scan]; rewrite ?P1, ?P2; auto.
Qed.
Lemma ends_block ts r : ends SN ts r -> kw_head ts = false -> ends SB ts r.
Proof.
  intros (t & c & -> & R) K. exists t, c. split; auto. destruct t; try discriminate; exact R.
Qed.
Lemma pl o : existsb (String.eqb o) [")"; "]"; "}"; ","] = true -> plain (TOp o) SN.
Proof. cbn. intros H. repeat (apply orb_true_iff in H as [H|H]; [apply String.eqb_eq in H; subst; split; reflexivity|]). discriminate. Qed.

Ltac bd := repeat match goal with
  | H : bind ?o _ = Some _ |- _ => let E := fresh "E" in destruct o eqn:E; [cbn [bind] in H|discriminate H]
  | H : (let '(_, _) := ?p in _) = Some _ |- _ => destruct p
  | p : (_ * _)%type |- _ => destruct p
  | H : expect _ _ = Some _ |- _ => apply expect_some in H; subst
  | H : Some _ = Some _ |- _ => injection H as H; subst
  | H : (_, _) = (_, _) |- _ => injection H as H; subst
  end.
Definition clean (f : nat) : Prop :=
  (forall ts g r, ptype f ts = Some (g, r) -> ends SN ts r /\
     (match g with GName _ _ | GPtr _ => kw_head ts = false | _ => True end)) /\
  (forall ts ps rs r, psig f ts = Some (ps, rs, r) -> ends SN ts r) /\
  (forall ts es r, pentries f ts = Some (es, r) -> adv SN ts r SN) /\
  (forall ts e r, pentry f ts = Some (e, r) -> ends SN ts r) /\
  (forall ts fs r, pfields f ts = Some (fs, r) -> adv SB ts r SN) /\
  (forall ts fs r, pfield f ts = Some (fs, r) -> ends SN ts r /\ kw_head ts = false) /\
  (forall ts es r, pelems f ts = Some (es, r) -> adv SB ts r SN).
Lemma clean_all f : clean f.
Proof.
  induction f as [|f (PT & PS & PEs & PE & PFs & PF & PI)]; [repeat split; discriminate|].
  unfold clean. repeat match goal with |- _ /\ _ => split end.
  - intros ts g r H. cbn [ptype] in H. destruct ts as [|[x|k|n|n|n|n|o] ts]; try discriminate.
    + assert (L : forall r', ts = r' -> ends SN (TIdent x :: ts) r').
      { intros r' ->. eapply one_ends; [reflexivity|auto]. }
      destruct ts as [|[y|k|n|n|n|n|o] ts]; try (bd; split; [apply L; auto|exact eq_refl]).
      destruct (String.eqb_spec o "."); [|bd; split; [apply L; auto|exact eq_refl]]. subst.
      destruct ts as [|[y|k|n|n|n|n|o] ts]; try discriminate. bd. split; [|exact eq_refl].
      eapply ends_cons; [reflexivity|]. eapply ends_cons; [reflexivity|]. eapply one_ends; [reflexivity|auto].
    + destruct (String.eqb_spec k "map").
      { bd. split; [|exact Logic.I]. apply PT in E0 as [E0 _]. apply PT in E2 as [E2 _].
        eapply ends_cons; [reflexivity|]. eapply ends_cons; [reflexivity|].
        eapply ends_then_ends; eauto. apply pl. reflexivity. }
      destruct (String.eqb_spec k "chan").
      { destruct (expect "<-" ts) eqn:X.
        - bd. split; [|exact Logic.I]. apply PT in E as [E _].
          eapply ends_cons; [reflexivity|]. eapply ends_cons; [reflexivity|]. auto.
        - bd. split; [|exact Logic.I]. apply PT in E as [E _]. eapply ends_cons; [reflexivity|]. auto. }
      destruct (String.eqb_spec k "func").
      { bd. split; [|exact Logic.I]. apply PS in E. eapply ends_cons; [reflexivity|]. auto. }
      destruct (String.eqb_spec k "struct").
      { bd. split; [|exact Logic.I]. apply PFs in E0. eapply ends_cons; [reflexivity|]. eapply adv_ends; [reflexivity|]. auto. }
      destruct (String.eqb_spec k "interface"); [|discriminate].
      bd. split; [|exact Logic.I]. apply PI in E0. eapply ends_cons; [reflexivity|]. eapply adv_ends; [reflexivity|]. auto.
    + assert (K : match g with GName _ _ | GPtr _ => kw_head (TOp o :: ts) = false | _ => True end) by (destruct g; auto).
      split; [|exact K]. clear K.
      destruct (String.eqb_spec o "*"). { subst. bd. apply PT in E as [E _]. eapply ends_cons; [reflexivity|]. auto. }
      destruct (String.eqb_spec o "("). { subst. bd. apply PT in E as [E _]. eapply ends_cons; [reflexivity|].
        eapply ends_end; [exact E|]. apply pl. reflexivity. }
      destruct (String.eqb_spec o "<-").
      { subst. destruct ts as [|[y|k|m|m|m|m|o] ts]; try discriminate. destruct (String.eqb_spec k "chan"); [|discriminate].
        bd. apply PT in E as [E _]. eapply ends_cons; [reflexivity|]. eapply ends_cons; [reflexivity|]. auto. }
      destruct (String.eqb_spec o "["); [|discriminate]. subst.
      assert (SL : forall z, (bind (expect "]" ts) (fun r1 => bind (ptype f r1) (fun '(e, r2) => Some (GSlice e, r2)))) = Some (z, r) ->
         ends SN (TOp "[" :: ts) r).
      { intros z H'. clear H. bd. apply PT in E0 as [E0 _]. eapply ends_cons; [reflexivity|]. eapply ends_cons; [reflexivity|]. auto. }
      destruct ts as [|[y|k|m|m|m|m|o] ts]; try (eapply SL; exact H).
      bd. apply PT in E0 as [E0 _]. eapply ends_cons; [reflexivity|]. eapply ends_cons; [reflexivity|].
      eapply ends_cons; [reflexivity|]. auto.
  - intros ts ps rs r H. cbn [psig] in H. bd. apply PEs in E0.
    match goal with H : context [expect "(" ?l] |- _ => rename l into r1 end.
    destruct (expect "(" r1) eqn:X.
    + bd. match goal with H : (if ?c then _ else _) = _ |- _ => destruct c; [|discriminate H] end. bd.
      match goal with H : pentries f _ = Some _ |- _ => apply PEs in H end.
      eapply adv_ends; [reflexivity|]. eapply adv_trans; [exact E0|]. eapply adv_cons; [reflexivity|]. auto.
    + destruct r1 as [|t r1]; [bd; eapply adv_ends; [reflexivity|exact E0]|].
      destruct (type_start t); bd; [|eapply adv_ends; [reflexivity|exact E0]].
      match goal with H : ptype f _ = Some _ |- _ => apply PT in H as [H _] end.
      eapply ends_cons; [reflexivity|]. eapply adv_then_ends; eauto.
  - intros ts es r H. cbn [pentries] in H. destruct (expect ")" ts) eqn:X.
    { bd. eapply adv_cons; [reflexivity|]. apply adv_refl. }
    bd. apply PE in E. match goal with H : context [expect "," ?l] |- _ => destruct (expect "," l) eqn:Y end; bd.
    + match goal with H : pentries f _ = Some _ |- _ => apply PEs in H end.
      eapply ends_then; [exact E| |eassumption]. apply pl. reflexivity.
    + eapply ends_then; [exact E| |apply adv_refl]. apply pl. reflexivity.
  - intros ts e r H. cbn [pentry] in H.
    assert (TY : forall ts' c, bind (ptype f ts') c = Some (e, r) ->
       (forall g r', c (g, r') = Some (e, r) -> r' = r) -> ends SN ts' r).
    { intros ts' c H' C. destruct (ptype f ts') as [[g r']|] eqn:E; [|discriminate]. cbn [bind] in H'. apply C in H'. subst.
      apply PT in E as [E _]. exact E. }
    assert (G : match expect "..." ts with
        | Some r0 => bind (ptype f r0) (fun '(t, r2) => Some (ETyped true t, r2))
        | None => bind (ptype f ts) (fun '(t, r2) => Some (ETyped false t, r2))
        end = Some (e, r) -> ends SN ts r).
    { clear H. intros H. destruct (expect "..." ts) eqn:X.
      - apply expect_some in X. subst. eapply ends_cons; [reflexivity|]. eapply TY; [exact H|]. cbn. intros ? ? [= _ ->]. auto.
      - eapply TY; [exact H|]. cbn. intros ? ? [= _ ->]. auto. }
    destruct ts as [|[x|k|n|n|n|n|o] ts]; try (apply G; exact H).
    assert (NM : bind (ptype f ts) (fun '(t, r2) => Some (ENamed x false t, r2)) = Some (e, r) -> ends SN (TIdent x :: ts) r).
    { clear H. intros H. eapply ends_cons; [reflexivity|]. eapply TY; [exact H|]. cbn. intros ? ? [= _ ->]. auto. }
    destruct ts as [|[y|k|n|n|n|n|o] ts]; try (apply NM; exact H).
    destruct (String.eqb o "."); [eapply TY; [exact H|]; cbn; intros ? ? [= _ ->]; auto|].
    destruct (String.eqb o "," || String.eqb o ")"); [bd; eapply one_ends; [reflexivity|auto]|].
    destruct (String.eqb_spec o "..."); [|apply NM; exact H]. subst.
    eapply ends_cons; [reflexivity|]. eapply ends_cons; [reflexivity|]. eapply TY; [exact H|]. cbn. intros ? ? [= _ ->]. auto.
  - intros ts es r H. cbn [pfields] in H. destruct (expect "}" ts) eqn:X.
    { bd. eapply adv_cons; [reflexivity|]. apply adv_refl. }
    bd. apply PF in E as [E K]. apply ends_block in E; [|exact K].
    match goal with H : context [expect ";" ?l] |- _ => destruct (expect ";" l) eqn:Y end; bd.
    + match goal with H : pfields f _ = Some _ |- _ => apply PFs in H end.
      eapply ends_then; [exact E| |eassumption]. split; reflexivity.
    + eapply ends_then; [exact E| |apply adv_refl]. apply pl. reflexivity.
  - intros ts fs r H. cbn [pfield] in H. cbv zeta in H.
    assert (EM : bind (ptype f ts) (fun '(t, r0) =>
        match t with
        | GName _ _ | GPtr (GName _ _) =>
            match r0 with
            | TStr tag :: r1 => Some ([(None, t, tag)], r1)
            | _ => Some ([(None, t, "")], r0)
            end
        | _ => None
        end) = Some (fs, r) -> ends SN ts r /\ kw_head ts = false).
    { clear H. intros H. destruct (ptype f ts) as [[g r0]|] eqn:E; [|discriminate]. cbn [bind] in H. apply PT in E as [E K].
      assert (K' : kw_head ts = false) by (destruct g as [| [] | | | | | | |]; try discriminate H; exact K).
      split; [|exact K'].
      assert (Z : match r0 with TStr tag :: r1 => Some ([(@None string, g, tag)], r1) | _ => Some ([(None, g, "")], r0) end = Some (fs, r))
        by (destruct g as [| [] | | | | | | |]; try discriminate H; exact H).
      destruct r0 as [|[] r0]; injection Z as _ <-; try exact E. eapply ends_end; [exact E|]. split; reflexivity. }
    destruct ts as [|[x|k|n|n|n|n|o] ts]; try (apply EM; exact H).
    split; [|reflexivity].
    assert (TG : bind (ptype f ts) (fun '(t, r2) =>
                match r2 with
                | TStr tag :: r3 => Some ([(Some x, t, tag)], r3)
                | _ => Some ([(Some x, t, "")], r2)
                end) = Some (fs, r) -> ends SN (TIdent x :: ts) r).
    { clear H. intros H. destruct (ptype f ts) as [[g r0]|] eqn:E; [|discriminate]. cbn [bind] in H. apply PT in E as [E _].
      eapply ends_cons; [reflexivity|].
      destruct r0 as [|[] r0]; injection H as _ <-; try exact E. eapply ends_end; [exact E|]. split; reflexivity. }
    destruct ts as [|[y|k|n|n|n|n|o] ts]; try (apply TG; exact H); try (apply EM; exact H).
    destruct (String.eqb o "." || String.eqb o ";" || String.eqb o "}"); [apply EM; exact H|].
    destruct (String.eqb_spec o ","); [|apply TG; exact H]. subst.
    destruct (pfield f ts) as [[gs r0]|] eqn:E; [|discriminate]. cbn [bind] in H. apply PF in E as [E _].
    eapply ends_cons; [reflexivity|]. eapply ends_cons; [reflexivity|].
    destruct gs as [|[[[?|] ?] ?] ?]; try discriminate. injection H as _ <-. exact E.
  - intros ts es r H. cbn [pelems] in H. destruct (expect "}" ts) eqn:X.
    { bd. eapply adv_cons; [reflexivity|]. apply adv_refl. }
    destruct ts as [|[x|k|n|n|n|n|o] ts]; try discriminate.
    assert (ONE : forall e r', match expect "(" ts with
              | Some _ => bind (psig f ts) (fun '(ps, rs, r1) => Some (@inl _ (option string * string) (x, ps, rs), r1))
              | None =>
                  bind (ptype f (TIdent x :: ts)) (fun '(t, r1) =>
                  match t with GName q n => Some (inr (q, n), r1) | _ => None end)
              end = Some (e, r') -> ends SB (TIdent x :: ts) r').
    { clear H. intros e r' H. destruct (expect "(" ts).
      - bd. match goal with H : psig f _ = Some _ |- _ => apply PS in H end. eapply ends_cons; [reflexivity|]. auto.
      - destruct (ptype f (TIdent x :: ts)) as [[g r0]|] eqn:E; [|discriminate]. cbn [bind] in H. apply PT in E as [E _].
        apply ends_block; [|reflexivity]. destruct g; try discriminate. injection H as _ <-. exact E. }
    match type of H with bind ?o _ = _ => destruct o as [[e r']|] eqn:E; [cbn [bind] in H|discriminate] end.
    clear E. specialize (ONE _ _ eq_refl). rename ONE into E. destruct (expect ";" r') eqn:Y; bd.
    + match goal with H : pelems f _ = Some _ |- _ => apply PI in H end.
      eapply ends_then; [exact E| |eassumption]. split; reflexivity.
    + eapply ends_then; [exact E| |apply adv_refl]. apply pl. reflexivity.
Qed.
Lemma parsed_clean f ts g : ptype f ts = Some (g, []) -> scan SN ts <> None.
Proof.
  intros H. apply clean_all in H as [(t & c & -> & R) _]. rewrite app_nil_r. destruct R as [-> | ->]; discriminate.
Qed.

(** ** Types whose text cannot be read *)
Definition never (ts : list token) : Prop := forall s, scan s ts = None.
Lemma never_l a b : never a -> never (a ++ b).
Proof. intros H s. rewrite scan_app, H. auto. Qed.
Lemma never_r a b : never b -> never (a ++ b).
Proof. intros H s. rewrite scan_app. destruct (scan s a); auto. Qed.
Lemma never_cons t b : never b -> never (t :: b).
Proof. intros H. apply (never_r [t]). exact H. Qed.
Lemma never_sep {T} (tk : T -> list token) l x : In x l -> never (tk x) -> never (sep_toks tk l).
Proof.
  intros I N. induction l as [|y l IH]; [contradiction|]. cbn [sep_toks]. destruct I as [->|I]; [apply never_l; auto|].
  apply never_r. destruct l; [contradiction|]. apply never_cons. auto.
Qed.
Lemma never_args named v (l : list ArgType) x : In x l -> never (gtoks (ArgTy x)) ->
  (v = true -> match rev l with [] => True | a :: _ => is_slice (ArgTy a) = true end) ->
  never (args_toks gtoks named v l).
Proof.
  intros I N V. induction l as [|[n t] l IH]; [contradiction|]. cbn [args_toks]. apply never_r. destruct I as [<-|I].
  - apply never_l. cbn [ArgTy] in N. destruct l as [|b l]; [|exact N]. destruct v; [|exact N].
    specialize (V eq_refl). cbn in V. destruct t; try discriminate. intros s. specialize (N s). cbn [gtoks] in N.
    cbn [gtoks skipn]. change (scan SN (gtoks t) = None). exact N.
  - apply never_r. destruct l as [|b l]; [contradiction|]. apply never_cons. apply IH; auto. intros E. specialize (V E).
    cbn [rev] in V. cbn [rev]. destruct (rev l ++ [b]); [exact Logic.I|exact V].
Qed.
Lemma never_sig (s : Signature) : variadic_ok s = true ->
  (exists x, (In x (Args s) \/ In x (Results s)) /\ never (gtoks (ArgTy x))) -> never (sig_toks gtoks s).
Proof.
  destruct s as [a r v]. cbn [Args Results sig_toks]. intros V (x & [I|I] & N).
  - apply never_cons, never_l. eapply never_args; eauto. intros ->. unfold variadic_ok in V. cbn in V. destruct (rev a); auto.
  - apply never_cons, never_r, never_cons. destruct r as [|y r]; [contradiction|].
    assert (NA : never (args_toks gtoks (has_names (y :: r)) false (y :: r))) by (eapply never_args; eauto; discriminate).
    destruct (Nat.ltb 1 (List.length (y :: r)) || has_names (y :: r)); [|exact NA]. apply never_cons, never_l, NA.
Qed.
Lemma never_itoks es ms n s : In (n, s) ms -> never s -> never (itoks es ms).
Proof.
  intros I N. induction es as [|e es IH].
  - cbn [itoks]. eapply never_sep; eauto. apply never_cons. exact N.
  - cbn [itoks]. destruct es as [|e' es].
    + destruct ms as [|[m u] ms]; [contradiction|]. apply never_r, never_cons. destruct I as [[= -> ->]|I]; [apply never_l, N|].
      apply never_r. destruct ms as [|y ms]; [contradiction|]. apply never_cons. eapply never_sep; eauto. apply never_cons. exact N.
    + apply never_r, never_cons. exact IH.
Qed.
Lemma unread_glue e n (sg : Signature) rest :
  match qualifier e with Some _ => false | None => negb (is_keyword (SymName e ++ n)) end = false ->
  scan SB (match qualifier e with Some q => [TIdent q; TOp "."] | None => [] end ++
    ident_token (SymName e ++ n) :: sig_toks gtoks sg ++ rest) = None.
Proof.
  unfold ident_token. destruct sg as [a r v]. cbn [sig_toks]. destruct (qualifier e).
  - intros _. destruct (is_keyword (SymName e ++ n)); reflexivity.
  - intros K. apply negb_false_iff in K. rewrite K. reflexivity.
Qed.
Lemma forallb_false {A} (P : A -> bool) l : forallb P l = false -> exists x, In x l /\ P x = false.
Proof.
  induction l as [|x l IH]; [discriminate|]. cbn [forallb]. destruct (P x) eqn:E; [|exists x; split; [left|]; auto].
  intros H. destruct (IH H) as (y & I & F). exists y. split; [right|]; auto.
Qed.
Lemma unread_args (l : list ArgType) : PArgs (fun t => wf t = true -> readable t = false -> never (gtoks t)) l ->
  forallb (fun x => wf (ArgTy x)) l = true -> forallb (fun x => forallb one_word (parts (ArgTy x))) l = false ->
  exists x, In x l /\ never (gtoks (ArgTy x)).
Proof.
  intros P W H. apply forallb_false in H as (x & I & F). exists x. split; auto. unfold PArgs in P. rewrite Forall_forall in P.
  rewrite forallb_forall in W. apply P; auto.
Qed.
Lemma unread_sig (s : Signature) : PSig (fun t => wf t = true -> readable t = false -> never (gtoks t)) s -> variadic_ok s = true ->
  match s with mkSig a r _ => forallb (fun x => wf (ArgTy x)) a && forallb (fun x => wf (ArgTy x)) r end = true ->
  forallb (fun x => forallb one_word (parts (ArgTy x))) (Args s) && forallb (fun x => forallb one_word (parts (ArgTy x))) (Results s) = false ->
  never (sig_toks gtoks s).
Proof.
  intros [PA PR] V W H. apply never_sig; auto. destruct s as [a r v]. cbn [Args Results] in *. apply andb_true_iff in W as [WA WR].
  apply andb_false_iff in H as [H|H].
  - destruct (unread_args a PA WA H) as (x & I & N). exists x. auto.
  - destruct (unread_args r PR WR H) as (x & I & N). exists x. auto.
Qed.
Lemma unread t : wf t = true -> readable t = false -> never (gtoks t).
Proof.
  induction t as [ |k|s|e IH|e IH|e n IH|e k IHe IHk|e d IH|s IH|fs IH|ms es IH] using TypeName_ind'; intros W R; try discriminate.
  - cbn [gtoks]. apply never_cons. auto.
  - cbn [gtoks]. apply never_cons, never_cons. auto.
  - cbn [gtoks wf] in *. apply andb_true_iff in W as [_ W]. apply never_cons, never_cons, never_cons. auto.
  - cbn [gtoks wf] in *. apply andb_true_iff in W as [W1 W2]. unfold readable in R. rewrite parts_map in R. cbn [one_word andb] in R.
    apply never_cons, never_cons. apply andb_false_iff in R as [R|R]; [apply never_r, never_cons|apply never_l]; auto.
  - cbn [gtoks wf] in *. apply andb_true_iff in W as [_ W]. apply never_r, never_cons, never_r. auto.
  - cbn [gtoks wf] in *. apply andb_true_iff in W as [V W]. unfold readable in R. rewrite parts_func in R. cbn [one_word andb] in R.
    apply never_cons. apply unread_sig; auto.
  - change (gtoks (TStruct fs)) with ([TKw "struct"; TOp "{"] ++ (sep_toks gfield_toks fs ++ [TOp "}"])).
    cbn [wf] in W. unfold readable in R. rewrite parts_struct in R. cbn [one_word andb] in R.
    apply forallb_false in R as ([n t tag] & I & F). rewrite Forall_forall in IH. rewrite forallb_forall in W.
    apply never_r, never_l. apply never_sep with (x := mkField n t tag); auto. cbn [gfield_toks]. apply never_r, never_l. apply (IH _ I (W _ I) F).
  - change (gtoks (TInterface ms es)) with ([TKw "interface"; TOp "{"] ++ (itoks es (map gm ms) ++ [TOp "}"])).
    cbn [wf] in W. unfold readable in R. rewrite parts_interface in R. apply andb_false_iff in R as [R|R].
    + cbn [one_word] in R. destruct ms as [|[n sg] ms]; [discriminate|]. destruct (rev es) as [|e es'] eqn:RV; [discriminate|].
      apply rev_split in RV. subst es. cbn [map gm]. rewrite itoks_glue.
      pose proof (unread_glue e n sg (match map gm ms with [] => [] | _ :: _ => TOp ";" :: sep_toks mtoks (map gm ms) end) R) as U.
      intros s. rewrite <- !app_assoc. rewrite scan_app.
      destruct (scan s [TKw "interface"; TOp "{"]) as [s1|] eqn:E1; [|auto].
      assert (s1 = SB) as -> by (destruct s; cbn in E1; congruence).
      destruct (rev es') as [|x r].
      * change (sep_toks sym_toks []) with (@nil token). rewrite !app_nil_l. rewrite app_assoc. rewrite scan_app, U. auto.
      * rewrite scan_app. destruct (scan SB (sep_toks sym_toks (x :: r))) as [s2|]; auto.
        rewrite scan_app. change (scan s2 [TOp ";"]) with (Some SB). cbv iota. rewrite app_assoc, scan_app, U. auto.
    + apply forallb_false in R as ([n sg] & I & F). rewrite Forall_forall in IH. rewrite forallb_forall in W.
      specialize (IH _ I). specialize (W _ I). cbn [MtdSig] in *. apply andb_true_iff in W as [V W].
      apply never_r, never_l. apply never_itoks with (n := n) (s := sig_toks gtoks sg).
      * apply in_map_iff. exists (mkMethod n sg). auto.
      * apply unread_sig; auto.
Qed.

(** ** When the type read is the type written *)
Definition straight (t : TypeName) : bool := negb (both_of_recv t) && negb (both_kinds t).
Lemma recv_both m : recv_chan (both m) = false.
Proof. destruct m; try reflexivity. cbn [both]. destruct (_ =? RecvDir)%Z; reflexivity. Qed.
Lemma recv_read t : recv_chan (read_as t) = recv_chan t.
Proof.
  destruct t; try reflexivity; cbn [read_as].
  - unfold BothDir. destruct (Z.eqb_spec dir 3) as [->|D]; [apply recv_both|reflexivity].
  - unfold glue. destruct (map _ methods) as [|[n s] l]; auto. destruct (rev embeds); auto.
Qed.
Lemma args_straight (P : TypeName -> Prop) named v (l : list ArgType) :
  Forall (fun a => wf (ArgTy a) = true -> denote (read_as (ArgTy a)) = denote (ArgTy a) -> P (ArgTy a)) l ->
  forallb (fun a => wf (ArgTy a)) l = true ->
  (v = true -> match rev l with [] => True | a :: _ => is_slice (ArgTy a) = true end) ->
  dparams denote named v (map_args read_as l) = dparams denote named v l -> Forall (fun a => P (ArgTy a)) l.
Proof.
  induction 1 as [|[n t] l E F IH]; [constructor|]. cbn [forallb map_args map dparams ArgTy] in *. rewrite andb_true_iff.
  intros [W1 W2] V. fold (map_args read_as l) in *. intros H.
  assert (LE : match map_args read_as l with [] => v | _ => false end = match l with [] => v | _ => false end) by (destruct l; auto).
  rewrite LE in H. injection H as H1 H2. clear LE. constructor.
  - cbn [ArgTy]. apply E; auto. destruct l as [|b l]; [|exact H1]. destruct v; [|exact H1].
    specialize (V eq_refl). cbn in V. destruct t; try discriminate. cbn [read_as denote_with unslice] in *. rewrite H1. auto.
  - apply IH; auto. intros X. specialize (V X). cbn [rev] in V. destruct (rev l) as [|b r]; [exact Logic.I|exact V].
Qed.
Lemma sig_straight (s : Signature) : PSig (fun t => wf t = true -> denote (read_as t) = denote t -> forallb straight (parts t) = true) s ->
  variadic_ok s = true -> match s with mkSig a r _ => forallb (fun x => wf (ArgTy x)) a && forallb (fun x => wf (ArgTy x)) r end = true ->
  match map_sig read_as s with mkSig a r v => (dparams denote (has_names a) v a, dparams denote (has_names r) false r) end =
  match s with mkSig a r v => (dparams denote (has_names a) v a, dparams denote (has_names r) false r) end ->
  forallb (fun x => forallb straight (parts (ArgTy x))) (Args s) && forallb (fun x => forallb straight (parts (ArgTy x))) (Results s) = true.
Proof.
  intros [PA PR] V W. destruct s as [a r v]. cbn [map_sig Args Results] in *. rewrite !has_names_map. intros H. injection H as H1 H2.
  apply andb_true_iff in W as [WA WR].
  apply (args_straight (fun t => forallb straight (parts t) = true)) in H1, H2; auto; try discriminate.
  - rewrite andb_true_iff, !forallb_forall. rewrite Forall_forall in H1, H2. auto.
  - intros ->. unfold variadic_ok in V. cbn in V. destruct (rev a); auto.
Qed.
Lemma same_straight t : wf t = true -> denote (read_as t) = denote t -> forallb straight (parts t) = true.
Proof.
  induction t as [ |k|s|e IH|e IH|e n IH|e k IHe IHk|e d IH|s IH|fs IH|ms es IH] using TypeName_ind'; intros W H; try reflexivity;
    cbn [read_as denote_with] in H.
  - injection H as H. apply (IH W H).
  - injection H as H. apply (IH W H).
  - injection H as H. cbn [wf] in W. apply andb_true_iff in W as [_ W]. apply (IH W H).
  - injection H as H1 H2. cbn [wf] in W. apply andb_true_iff in W as [W1 W2]. rewrite parts_map, IHe, IHk; auto.
  - cbn [wf] in W. apply andb_true_iff in W as [_ W]. cbn [parts forallb]. unfold straight, both_of_recv at 1. unfold BothDir in *.
    destruct (Z.eqb_spec d 3) as [->|D].
    + assert (NR : recv_chan e = false).
      { rewrite <- recv_read. destruct (read_as e); auto. cbn [both recv_chan] in *. unfold RecvDir in H.
        destruct (Z.eqb_spec dir 1); [discriminate|auto]. }
      rewrite NR. cbn [negb andb both_kinds]. apply (IH W).
      pose proof (recv_read e) as RR. rewrite NR in RR. destruct (read_as e); try (injection H as H; exact H).
      cbn [both recv_chan] in *. unfold RecvDir in H. rewrite RR in H. injection H as H. exact H.
    + cbn [andb negb both_kinds]. injection H as H. apply (IH W H).
  - cbn [wf] in W. apply andb_true_iff in W as [V W]. rewrite parts_func. cbn [straight both_of_recv both_kinds negb andb].
    apply sig_straight; auto. destruct s as [a r v]. cbn [map_sig] in *. injection H as H1 H2. rewrite H1, H2. auto.
  - cbn [wf] in W. rewrite parts_struct. change (straight (TStruct fs)) with true. cbn [andb]. injection H as H. revert W H.
    induction IH as [|[n t tag] fs E F IH]; auto. cbn [forallb map FldType] in *. rewrite !andb_true_iff. intros [W1 W2] H.
    injection H as H1 H2. split; auto.
  - cbn [wf] in W. rewrite parts_interface.
    assert (OK : both_kinds (TInterface ms es) = false).
    { unfold glue in H. destruct ms as [|[n s] ms]; auto. destruct es as [|e es]; auto. exfalso. cbn [map] in H.
      destruct (rev (e :: es)) as [|x r] eqn:RV.
      - apply (f_equal (@List.length _)) in RV. rewrite rev_length in RV. discriminate.
      - cbn [denote_with] in H. injection H as H. apply (f_equal (@List.length _)) in H.
        apply (f_equal (@List.length _)) in RV. rewrite rev_length in RV. cbn [List.length] in RV.
        rewrite ?app_length in H. cbn [List.length] in H. rewrite ?app_length in H. cbn [List.length] in H.
        rewrite ?map_length in H. rewrite ?rev_length in H. lia. }
    replace (straight (TInterface ms es)) with true by (unfold straight; rewrite OK; auto). cbn [andb].
    assert (G : glue (map (fun m => match m with mkMethod n s => mkMethod n (map_sig read_as s) end) ms) es =
                TInterface (map (fun m => match m with mkMethod n s => mkMethod n (map_sig read_as s) end) ms) es).
    { unfold glue. destruct ms as [|[n s] ms]; auto. destruct es; [auto|discriminate]. }
    rewrite G in H. cbn [denote_with] in H. injection H as H. apply app_inv_head in H. clear OK G. revert W H.
    induction IH as [|[n s] ms E F IH]; auto. cbn [forallb map MtdSig] in *. rewrite !andb_true_iff. intros [[V W1] W2] H.
    injection H as H1 H2. split; auto. apply andb_true_iff. apply sig_straight; auto. destruct s as [a r v]. cbn [map_sig] in *.
    injection H1 as H3 H4. rewrite H3, H4. auto.
Qed.
Lemma straight_same : forall t, forallb straight (parts t) = true -> read_as t = t /\ readable t = true.
Proof.
  unfold readable.
  assert (AR : forall (l : list ArgType), PArgs (fun t => forallb straight (parts t) = true -> read_as t = t /\ forallb one_word (parts t) = true) l ->
    forallb (fun x => forallb straight (parts (ArgTy x))) l = true ->
    map_args read_as l = l /\ forallb (fun x => forallb one_word (parts (ArgTy x))) l = true).
  { intros l P. induction P as [|[n t] l E F IH]; auto. cbn [forallb map_args map ArgTy] in *. rewrite !andb_true_iff.
    intros [A B]. destruct (E A) as [E1 E2], (IH B) as [I1 I2]. unfold map_args in I1. rewrite E1, I1. auto. }
  assert (SR : forall (s : Signature), PSig (fun t => forallb straight (parts t) = true -> read_as t = t /\ forallb one_word (parts t) = true) s ->
    forallb (fun x => forallb straight (parts (ArgTy x))) (Args s) && forallb (fun x => forallb straight (parts (ArgTy x))) (Results s) = true ->
    map_sig read_as s = s /\
    forallb (fun x => forallb one_word (parts (ArgTy x))) (Args s) && forallb (fun x => forallb one_word (parts (ArgTy x))) (Results s) = true).
  { intros [a r v] [PA PR]. cbn [Args Results map_sig] in *. rewrite !andb_true_iff. intros [A B].
    destruct (AR a PA A) as [-> ->], (AR r PR B) as [-> ->]. auto. }
  induction t as [ |k|s|e IH|e IH|e n IH|e k IHe IHk|e d IH|s IH|fs IH|ms es IH] using TypeName_ind'; intros H; auto.
  - destruct (IH H) as [E1 E2]. cbn [read_as]. rewrite E1. auto.
  - destruct (IH H) as [E1 E2]. cbn [read_as]. rewrite E1. auto.
  - destruct (IH H) as [E1 E2]. cbn [read_as]. rewrite E1. auto.
  - rewrite parts_map in *. rewrite !andb_true_iff in H. destruct H as [_ [A B]]. destruct (IHe A) as [E1 E2], (IHk B) as [E3 E4].
    cbn [read_as]. rewrite E1, E2, E3, E4. auto.
  - cbn [parts forallb] in H. apply andb_true_iff in H as [S H]. destruct (IH H) as [E1 E2]. split; [|exact E2].
    cbn [read_as]. rewrite E1. unfold straight, both_of_recv, BothDir in S. unfold BothDir.
    destruct (Z.eqb_spec d 3) as [->|D]; auto. cbn [andb] in S. apply andb_true_iff in S as [S _]. apply negb_true_iff in S.
    destruct e; auto. cbn [both recv_chan] in *. unfold RecvDir. rewrite S. auto.
  - rewrite parts_func in *. apply andb_true_iff in H as [_ H]. destruct (SR s IH H) as [E1 E2]. cbn [read_as]. rewrite E1, E2. auto.
  - rewrite parts_struct in *. apply andb_true_iff in H as [_ H]. cbn [read_as one_word andb]. revert H.
    assert (G : forallb (fun f => forallb straight (parts (FldType f))) fs = true ->
      map (fun f => match f with mkField n t tag => mkField n (read_as t) tag end) fs = fs /\ forallb (fun f => forallb one_word (parts (FldType f))) fs = true).
    { induction IH as [|[n t tag] fs E F IH]; auto. cbn [forallb map FldType] in *. rewrite !andb_true_iff. intros [A B].
      destruct (E A) as [-> ->], (IH B) as [-> ->]. auto. }
    intros H. destruct (G H) as [-> ->]. auto.
  - rewrite parts_interface in *. apply andb_true_iff in H as [S H]. cbn [read_as].
    assert (G : forallb (fun m => forallb (fun x => forallb straight (parts (ArgTy x))) (Args (MtdSig m)) &&
                    forallb (fun x => forallb straight (parts (ArgTy x))) (Results (MtdSig m))) ms = true ->
      map (fun m => match m with mkMethod n s => mkMethod n (map_sig read_as s) end) ms = ms /\
      forallb (fun m => forallb (fun x => forallb one_word (parts (ArgTy x))) (Args (MtdSig m)) &&
                    forallb (fun x => forallb one_word (parts (ArgTy x))) (Results (MtdSig m))) ms = true).
    { clear S H. induction IH as [|[n s] ms E F IH]; auto. cbn [forallb map MtdSig] in *. rewrite !andb_true_iff. intros [A B].
      destruct (SR s E) as [-> X]; [apply andb_true_iff; auto|]. apply andb_true_iff in X. destruct (IH B) as [-> ->]. tauto. }
    destruct (G H) as [-> ->]. unfold straight in S. apply andb_true_iff in S as [_ S]. unfold glue.
    destruct ms as [|[n s] ms]; auto. destruct es; [auto|discriminate].
Qed.
Lemma straight_forall t : forallb straight (parts t) = true <->
  forall p, In p (parts t) -> both_of_recv p = false /\ both_kinds p = false.
Proof.
  rewrite forallb_forall. split; intros H p I; specialize (H p I); unfold straight in *.
  - apply andb_true_iff in H as [A B]. apply negb_true_iff in A, B. auto.
  - destruct H as [-> ->]. auto.
Qed.

(** ** The reading *)
Section Reading.
Variable isPrint : N -> bool.
Theorem text_reading t : wf t = true -> names_fine t = true ->
  exists s, typeNameToString isPrint t = Ok s /\
    parse_type s = if readable t then Some (denote (read_as t)) else None.
Proof.
  intros W N. destruct (gtype_renders isPrint t W N) as [(s & E & L) _]. exists s. split; [rewrite string_is_buffer; exact E|].
  unfold parse_type. rewrite (lexo_lex _ _ L). destruct (readable t) eqn:R.
  - rewrite gtoks_read by auto. rewrite ptype_sep; auto; [apply wf_read; auto|apply sep_read; unfold ready; rewrite N, R; auto].
  - destruct (ptype (fuel_for (gtoks t)) (gtoks t)) as [[g [|x r]]|] eqn:P; auto.
    exfalso. apply (parsed_clean _ _ _ P). apply unread; auto.
Qed.
Theorem text_exact t : wf t = true -> names_fine t = true ->
  exists s, typeNameToString isPrint t = Ok s /\
    (parse_type s = Some (denote t) <-> forall p, In p (parts t) -> both_of_recv p = false /\ both_kinds p = false).
Proof.
  intros W N. destruct (text_reading t W N) as (s & E & P). exists s. split; auto. rewrite P, <- straight_forall. split.
  - destruct (readable t); [|discriminate]. intros [= H]. apply same_straight; auto.
  - intros S. destruct (straight_same t S) as [-> ->]. auto.
Qed.
Lemma one_kind_readable t : (forall p, In p (parts t) -> both_kinds p = false) -> readable t = true.
Proof.
  intros H. unfold readable. apply forallb_forall. intros p I. specialize (H p I). destruct p as [| | | | | | | | | |ms es]; auto.
  cbn [one_word both_kinds] in *. destruct ms as [|[n sg] ms]; auto. destruct es; [auto|discriminate].
Qed.
Theorem chan_exact t : wf t = true -> names_fine t = true -> (forall p, In p (parts t) -> both_kinds p = false) ->
  exists s, typeNameToString isPrint t = Ok s /\ parse_type s = Some (denote (read_as t)) /\
    (denote (read_as t) = denote t <-> forall p, In p (parts t) -> both_of_recv p = false).
Proof.
  intros W N O. destruct (text_reading t W N) as (s & E & P). rewrite one_kind_readable in P by auto. exists s.
  repeat split; auto.
  - intros H p I. apply same_straight in H; auto. rewrite straight_forall in H. apply H; auto.
  - intros H. destruct (straight_same t) as [-> _]; auto. apply straight_forall. auto.
Qed.
End Reading.
