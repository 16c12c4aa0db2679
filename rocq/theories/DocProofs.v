(** The comments of the text that is written, and what they stand above. *)
From Verif Require Import Base BaseFacts GoPath Utf8 Quote SpecLit LitProofs Types SpecTypes TypesFacts
  Imports SpecImports SpecGo SpecRender LexProofs TextProofs ParseProofs TextTheorems Conv Fmt World
  SpecFile SpecDecl FileLexProofs QuoteProofs DeclParse DeclText FileTheorems SpecDoc.

(** ** The lexer with comments gives the tokens of the lexer without *)
Lemma event_tokens_map ts : event_tokens (map ETok ts) = ts.
Proof. induction ts as [|t ts IH]; cbn; [|f_equal]; auto. Qed.
Lemma event_tokens_app a b : event_tokens (a ++ b) = event_tokens a ++ event_tokens b.
Proof. apply flat_map_app. Qed.
Lemma elexer_flexer text : forall s acc, option_map event_tokens (elexer s acc text) = flexer s text.
Proof.
  induction text as [|c r IH]; intros s acc; cbn [elexer flexer].
  - destruct (fend s) as [ts|]; auto. cbn [option_map]. rewrite event_tokens_app, event_tokens_map.
    destruct (in_comment s); reflexivity.
  - unfold estep. destruct (fstep s c) as [[ts s']|]; auto. rewrite <- IH with (acc := (if in_comment s && negb (is_newline c) then snoc acc c else "")).
    destruct (elexer s' _ r) as [es|]; auto. cbn [option_map omap]. rewrite !event_tokens_app, event_tokens_map.
    destruct (in_comment s && is_newline c), (line_end s c); cbn [event_tokens flat_map app]; rewrite ?app_nil_r; auto.
Qed.
Theorem events_tokens text : option_map event_tokens (events text) = tokens text.
Proof. apply elexer_flexer. Qed.

(** ** Pieces *)
Definition oapp (a : list event) (o : option (list event)) : option (list event) := option_map (app a) o.
Lemma oapp_nil o : oapp [] o = o.
Proof. destruct o; auto. Qed.
Lemma oapp_app a b o : oapp a (oapp b o) = oapp (a ++ b) o.
Proof. destruct o; cbn; auto. rewrite app_assoc. auto. Qed.
Definition el (e : bool) (s : string) (es : list event) (e' : bool) : Prop :=
  forall rest, elexer (FCode LStart e) "" (s ++ rest) = oapp es (elexer (FCode LStart e') "" rest).
Definition eo (e : bool) (s : string) (es : list event) (e' : bool) : Prop :=
  forall rest, bounded rest = true ->
    elexer (FCode LStart e) "" (s ++ rest) = oapp es (elexer (FCode LStart e') "" rest).
Lemma el_nil e : el e "" [] e.
Proof. intros r. cbn [append]. rewrite oapp_nil. auto. Qed.
Lemma el_app e a x e1 b y e2 : el e a x e1 -> el e1 b y e2 -> el e (a ++ b) (x ++ y) e2.
Proof. intros A B r. rewrite append_assoc, A, B, oapp_app. auto. Qed.
Lemma el_eo_app e a x e1 b y e2 : el e a x e1 -> eo e1 b y e2 -> eo e (a ++ b) (x ++ y) e2.
Proof. intros A B r R. rewrite append_assoc, A, B, oapp_app by auto. auto. Qed.
Lemma eo_el_app e a x e1 b y e2 : eo e a x e1 -> el e1 b y e2 -> b <> "" -> bounded b = true ->
  el e (a ++ b) (x ++ y) e2.
Proof. intros A B NE BB r. rewrite append_assoc, A, B, oapp_app; auto. apply bounded_app; auto. Qed.

Lemma elexer_lrun s : forall st e rest ts st', lrun st s = Some (ts, st') ->
  elexer (FCode st e) "" (s ++ rest) = oapp (map ETok ts) (elexer (FCode st' (ends_after e ts)) "" rest).
Proof.
  induction s as [|c s IH]; intros st e rest ts st' H; cbn [append lrun] in *.
  - injection H as <- <-. rewrite oapp_nil. auto.
  - destruct (lex_step st c) as [[us st1]|] eqn:E; [|discriminate].
    destruct (lrun st1 s) as [[vs st2]|] eqn:R; [|discriminate]. injection H as <- <-.
    cbn [elexer]. unfold estep. cbn [fstep in_comment line_end andb app].
    destruct (negb (in_literal st) && (is_newline c || is_slash c)) eqn:N.
    + apply andb_true_iff in N as [N1 N2]. apply negb_true_iff in N1.
      rewrite lex_step_special in E by auto. discriminate.
    + rewrite E. assert (LE : is_newline c && negb (in_literal st) = false).
      { destruct (in_literal st); [apply andb_false_r|]. cbn [negb andb] in N. apply orb_false_iff in N as [-> _]. auto. }
      unfold line_end. rewrite LE, app_nil_r. erewrite IH by eauto.
      rewrite map_app, <- oapp_app, ends_after_app. auto.
Qed.
Lemma elexer_ident acc e rest : bounded rest = true ->
  elexer (FCode (LIdent acc) e) "" rest =
  oapp [ETok (ident_token acc)] (elexer (FCode LStart (ends_after e [ident_token acc])) "" rest).
Proof.
  destruct rest as [|c r]; intros B.
  - cbn [elexer fend lex_end]. cbn. auto.
  - cbn [bounded] in B. apply negb_true_iff in B. cbn [elexer]. unfold estep. cbn [fstep in_literal negb andb in_comment line_end].
    destruct (is_newline c) eqn:NL, (is_slash c) eqn:SL; cbn [orb andb].
    + apply Ascii.eqb_eq in NL. subst c. discriminate.
    + cbn [lex_end]. fold (oapp). destruct (elexer _ _ r); auto.
    + cbn [lex_end]. destruct (elexer _ _ r); auto.
    + cbn [lex_step]. rewrite B. unfold lex_flush.
      destruct (lex_start c) as [[us st]|]; auto. destruct (elexer _ _ r); auto.
Qed.
Lemma lexo_eo s ts : lexo s ts -> forall e, eo e s (map ETok ts) (ends_after e ts).
Proof.
  intros H e rest B.
  pose proof (H "" eq_refl) as H0. pose proof (H "." eq_refl) as H1. pose proof (H "=" eq_refl) as H2.
  rewrite lexer_lrun in H0. rewrite lexer_lrun in H1. rewrite lexer_lrun in H2.
  destruct (lrun LStart s) as [[us st]|] eqn:R; [|discriminate H0].
  assert (O := lrun_op_state _ LStart _ _ Logic.I R).
  erewrite elexer_lrun by eauto. cbn [lexer] in H0. cbn in H0. rewrite app_nil_r in H0.
  destruct st; cbn [lex_end omap] in H0; try discriminate H0.
  - injection H0 as <-. rewrite app_nil_r. auto.
  - injection H0 as <-. rewrite elexer_ident by auto. rewrite oapp_app, ends_after_app, map_app. auto.
  - injection H0 as <-. exfalso. eapply not_number; [reflexivity|exact H1].
  - injection H0 as <-. exfalso. eapply not_operator; [exact O|exact H2].
  - cbn in H1. discriminate H1.
Qed.
Lemma lexc_el s ts : lexc s ts -> forall e, el e s (map ETok ts) (ends_after e ts).
Proof.
  intros H e rest.
  pose proof (H "") as H0. pose proof (H "a") as H1. pose proof (H ".") as H2. pose proof (H "=") as H3.
  rewrite lexer_lrun in H0. rewrite lexer_lrun in H1. rewrite lexer_lrun in H2. rewrite lexer_lrun in H3.
  destruct (lrun LStart s) as [[us st]|] eqn:R; [|discriminate H0].
  assert (O := lrun_op_state _ LStart _ _ Logic.I R).
  erewrite elexer_lrun by eauto. cbn [lexer] in H0. cbn in H0. rewrite app_nil_r in H0.
  destruct st; cbn [lex_end omap] in H0; try discriminate H0.
  - injection H0 as <-. rewrite app_nil_r. auto.
  - injection H0 as <-. exfalso. cbn in H1. unfold ident_token in H1 at 1 2.
    injection H1 as H1. rewrite <- app_assoc in H1. apply app_inv_head in H1. discriminate H1.
  - injection H0 as <-. exfalso. eapply not_number; [reflexivity|exact H2].
  - injection H0 as <-. exfalso. eapply not_operator; [exact O|exact H3].
  - exfalso. cbn in H2. discriminate H2.
Qed.
Lemma el_newline e : el e newline (map ETok (semi e) ++ [ELine]) false.
Proof. intros r. reflexivity. Qed.
Lemma ecomment_line e l : forall acc rest, (forall c, In c (list_ascii_of_string l) -> is_newline c = false) ->
  elexer (FComment e) acc (l ++ newline ++ rest) =
  oapp (ECom (acc ++ l) :: map ETok (semi e) ++ [ELine]) (elexer (FCode LStart false) "" rest).
Proof.
  induction l as [|c l IH]; intros acc rest H.
  - rewrite append_nil_r. reflexivity.
  - cbn [append elexer]. unfold estep. cbn [fstep]. rewrite (H c) by (left; auto).
    cbn [in_comment andb negb map app]. assert (LE : line_end (FComment e) c = false).
    { unfold line_end. rewrite (H c) by (left; auto). auto. }
    rewrite LE. cbn [app]. rewrite IH by (intros d D; apply H; right; auto).
    match goal with |- option_map _ ?x = _ => change (oapp [] x = oapp (ECom (acc ++ String c l) :: map ETok (semi e) ++ [ELine]) (elexer (FCode LStart false) "" rest)) end.
    rewrite oapp_nil. unfold snoc. rewrite append_assoc. reflexivity.
Qed.

(** ** Pieces with their notes: from above [p], line [l] to above [p'], line [l'] *)
Lemma scan_app a : forall p l b, scan p l (a ++ b) =
  let '(n, (p', l')) := scan p l a in let '(m, q) := scan p' l' b in (n ++ m, q).
Proof.
  induction a as [|x a IH]; intros p l b; cbn [app scan].
  - destruct (scan p l b); auto.
  - destruct x as [t|s|].
    + rewrite IH. destruct (scan [] LTokens a) as [n [p' l']]. destruct (scan p' l' b). rewrite app_assoc. auto.
    + destruct l; auto. rewrite IH. destruct (scan p LTokens a) as [n [p' l']]. destruct (scan p' l' b). auto.
    + destruct l; auto. rewrite IH. destruct (scan [] LEmpty a) as [n [p' l']]. destruct (scan p' l' b). rewrite app_assoc. auto.
Qed.
Definition after (p : list string) (l : line) (ts : list token) : list note * (list string * line) :=
  match ts with [] => ([], (p, l)) | t :: _ => (above p t, ([], LTokens)) end.
Lemma scan_tokens ts : forall p l, scan p l (map ETok ts) = after p l ts.
Proof.
  induction ts as [|t ts IH]; intros p l; [reflexivity|]. cbn [map scan]. rewrite IH.
  destruct ts; cbn; rewrite app_nil_r; reflexivity.
Qed.
Definition place : Type := bool * list string * line.
Definition nrl (r : res string) (a : place) (n : list note) (b : place) : Prop :=
  let '(e, p, l) := a in let '(e', p', l') := b in
  exists s es, r = Ok s /\ el e s es e' /\ scan p l es = (n, (p', l')).
Definition nro (r : res string) (a : place) (n : list note) (b : place) : Prop :=
  let '(e, p, l) := a in let '(e', p', l') := b in
  exists s es, r = Ok s /\ eo e s es e' /\ scan p l es = (n, (p', l')).
Lemma nrl_app a r n b r' m c : nrl r a n b -> nrl r' b m c -> nrl (r +++ r') a (n ++ m) c.
Proof.
  destruct a as [[e p] l], b as [[e1 p1] l1], c as [[e2 p2] l2].
  intros (s & es & -> & A & B) (t & fs & -> & C & D). eexists; eexists; split; [reflexivity|].
  split; [eapply el_app; eauto|]. rewrite scan_app, B, D. auto.
Qed.
Lemma nrol_app a r n b r' m c : nro r a n b -> nrl r' b m c -> opens r' -> nrl (r +++ r') a (n ++ m) c.
Proof.
  destruct a as [[e p] l], b as [[e1 p1] l1], c as [[e2 p2] l2].
  intros (s & es & -> & A & B) (t & fs & -> & C & D) (u & [= <-] & NE & O). eexists; eexists; split; [reflexivity|].
  split; [eapply eo_el_app; eauto|]. rewrite scan_app, B, D. auto.
Qed.
Lemma nrlo_app a r n b r' m c : nrl r a n b -> nro r' b m c -> nro (r +++ r') a (n ++ m) c.
Proof.
  destruct a as [[e p] l], b as [[e1 p1] l1], c as [[e2 p2] l2].
  intros (s & es & -> & A & B) (t & fs & -> & C & D). eexists; eexists; split; [reflexivity|].
  split; [eapply el_eo_app; eauto|]. rewrite scan_app, B, D. auto.
Qed.
Lemma nrl_nil a : nrl (W "") a [] a.
Proof. destruct a as [[e p] l]. exists "", []. split; auto. split; [apply el_nil|reflexivity]. Qed.
Lemma nrl_eq r a n n' b : nrl r a n b -> n = n' -> nrl r a n' b.
Proof. intros H ->. exact H. Qed.
(** pieces of tokens *)
Lemma rc_nrl r ts e p l : rendersc r ts ->
  nrl r (e, p, l) (fst (after p l ts)) (ends_after e ts, fst (snd (after p l ts)), snd (snd (after p l ts))).
Proof.
  intros (s & -> & H). exists s, (map ETok ts). split; auto. split; [apply lexc_el; auto|].
  rewrite scan_tokens. destruct ts; reflexivity.
Qed.
Lemma ro_nro r t ts e p l : renders r (t :: ts) -> lastok (t :: ts) -> nro r (e, p, l) (above p t) (true, [], LTokens).
Proof.
  intros (s & -> & H) L. exists s, (map ETok (t :: ts)). split; auto. split; [|apply scan_tokens].
  rewrite <- (L e). apply lexo_eo; auto.
Qed.
Lemma nl_newline e p : nrl (W newline) (e, p, LTokens) match semi e with t :: _ => above p t | [] => [] end
  (false, match semi e with _ :: _ => [] | [] => p end, LEmpty).
Proof. eexists; eexists; split; [reflexivity|]. split; [apply el_newline|]. destruct e; cbn; rewrite ?app_nil_r; reflexivity. Qed.
Lemma nl_tail e : nrl (W newline) (e, [], LTokens) [] (false, [], LEmpty).
Proof. destruct e; apply nl_newline. Qed.
Lemma nl_blank p : nrl (W newline) (false, p, LEmpty) (flush p) (false, [], LEmpty).
Proof. eexists; eexists; split; [reflexivity|]. split; [apply el_newline|]. cbn. rewrite app_nil_r. reflexivity. Qed.
Lemma comment_events ls : (forall l, In l ls -> forall c, In c (list_ascii_of_string l) -> is_newline c = false) ->
  el false (fold_right (fun l r => ("// " ++ l ++ newline ++ r)%string) "" ls)
     (flat_map (fun l => [ECom (" " ++ l); ELine]) ls) false.
Proof.
  induction ls as [|l ls IH]; intros H; [apply el_nil|].
  cbn [fold_right flat_map]. intros rest.
  replace (("// " ++ l ++ newline ++ fold_right (fun l0 r => ("// " ++ l0 ++ newline ++ r)%string) "" ls) ++ rest)%string
    with ("//" ++ (" " ++ l) ++ newline ++ fold_right (fun l0 r => ("// " ++ l0 ++ newline ++ r)%string) "" ls ++ rest)%string
    by (rewrite !append_assoc; reflexivity).
  transitivity (oapp [] (elexer (FComment false) "" ((" " ++ l) ++ newline ++ fold_right (fun l0 r => ("// " ++ l0 ++ newline ++ r)%string) "" ls ++ rest)%string)).
  { change (elexer (FCode LStart false) "" ("//" ++ (" " ++ l) ++ newline ++ fold_right (fun l0 r => ("// " ++ l0 ++ newline ++ r)%string) "" ls ++ rest))
      with (oapp [] (oapp [] (elexer (FComment false) "" ((" " ++ l) ++ newline ++ fold_right (fun l0 r => ("// " ++ l0 ++ newline ++ r)%string) "" ls ++ rest)))).
    rewrite !oapp_nil. auto. }
  rewrite oapp_nil, ecomment_line.
  - rewrite IH by (intros m M; apply H; right; auto). rewrite oapp_app. reflexivity.
  - intros c [<-|I]; [reflexivity|]. apply (H l); auto. left; auto.
Qed.
Lemma scan_comment ls : forall p, scan p LEmpty (flat_map (fun l => [ECom (" " ++ l); ELine]) ls)
  = ([], (p ++ map (fun l => (" " ++ l)%string) ls, LEmpty)).
Proof.
  induction ls as [|l ls IH]; intros p; cbn [flat_map scan app map]; [rewrite app_nil_r; auto|].
  rewrite IH, <- app_assoc. reflexivity.
Qed.
Lemma comment_nrl c : nrl (W (writeComment c)) (false, [], LEmpty) [] (false, comment_lines c, LEmpty).
Proof.
  unfold writeComment, comment_lines. destruct (String.eqb c ""); [apply nrl_nil|].
  eexists; eexists; split; [reflexivity|]. split; [apply comment_events, split_no_newline|]. apply scan_comment.
Qed.

Lemma sym_toks_head s : exists r, sym_toks s = name_head (qualifier s) (SymName s) :: r.
Proof. unfold sym_toks, name_head. destruct (qualifier s); eexists; reflexivity. Qed.
Lemma toks_head t : wf t = true -> names_type (denote t) = true -> exists r, toks t = type_head (denote t) :: r.
Proof.
  intros WF N. destruct t as [|k|s|e| | | | |s|fs|ms es]; try discriminate; cbn [toks denote_with type_head].
  - eexists; reflexivity.
  - apply sym_toks_head.
  - eexists; reflexivity.
  - destruct s as [a r v]. discriminate.
Qed.
Lemma toks_nonempty t : wf t = true -> exists x r, toks t = x :: r.
Proof.
  intros WF. destruct t as [|k|s|e| | | |e d|s|fs|ms es]; try discriminate; cbn [toks]; try (eexists; eexists; reflexivity).
  - destruct (sym_toks_head s) as (r & ->). eauto.
  - destruct (d =? 1)%Z; cbn [app]; eauto.
Qed.
(** concrete pieces *)
Ltac elsolve := intros ?rest; match goal with |- _ = oapp _ (elexer (FCode LStart ?e) "" ?r) =>
    cbn; destruct (elexer (FCode LStart e) "" r) end; reflexivity.
Lemma nl_struct e : nrl (W (" struct {" ++ newline)%string) (e, [], LTokens) [] (false, [], LEmpty).
Proof. exists (" struct {" ++ newline)%string, [ETok (TKw "struct"); ETok (TOp "{"); ELine]. split; auto. split; [elsolve|reflexivity]. Qed.
Lemma nl_interface e : nrl (W (" interface {" ++ newline)%string) (e, [], LTokens) [] (false, [], LEmpty).
Proof. exists (" interface {" ++ newline)%string, [ETok (TKw "interface"); ETok (TOp "{"); ELine]. split; auto. split; [elsolve|reflexivity]. Qed.
Lemma nl_rbrace e p l : nrl (W ("}" ++ newline)%string) (e, p, l) (above p (TOp "}")) (false, [], LEmpty).
Proof.
  exists ("}" ++ newline)%string, [ETok (TOp "}"); ETok (TOp ";"); ELine]. split; auto. split; [elsolve|].
  cbn. rewrite ?app_nil_r. reflexivity.
Qed.
Lemma nl_rparen e p l : nrl (W (")" ++ newline)%string) (e, p, l) (above p (TOp ")")) (false, [], LEmpty).
Proof.
  exists (")" ++ newline)%string, [ETok (TOp ")"); ETok (TOp ";"); ELine]. split; auto. split; [elsolve|].
  cbn. rewrite ?app_nil_r. reflexivity.
Qed.
Lemma nl_space e p l : nrl (W " ") (e, p, l) [] (e, p, l).
Proof. exists " ", []. split; auto. split; [elsolve|reflexivity]. Qed.
Lemma nl_equals e : nrl (W "= ") (e, [], LTokens) [] (false, [], LTokens).
Proof. exists "= ", [ETok (TOp "=")]. split; auto. split; [elsolve|reflexivity]. Qed.
Lemma eo_word kw e : legal_ident kw = true -> is_keyword kw = true ->
  existsb (String.eqb kw) ["break"; "continue"; "fallthrough"; "return"] = false ->
  eo e kw [ETok (TKw kw)] false.
Proof.
  intros L K N. pose proof (lexo_eo _ _ (lexo_word kw L) e) as A. unfold ident_token in A. rewrite K in A.
  unfold ends_after in A. cbn [fold_left ends_line] in A. rewrite N in A. exact A.
Qed.
Lemma nl_open kw e p : legal_ident kw = true -> is_keyword kw = true ->
  existsb (String.eqb kw) ["break"; "continue"; "fallthrough"; "return"] = false ->
  nrl (W (kw ++ " (" ++ newline)%string) (e, p, LEmpty) (above p (TKw kw)) (false, [], LEmpty).
Proof.
  intros L K N. exists (kw ++ " (" ++ newline)%string, ([ETok (TKw kw)] ++ [ETok (TOp "("); ELine]). split; auto. split.
  - eapply eo_el_app; [apply eo_word; auto|elsolve|discriminate|reflexivity].
  - cbn. rewrite app_nil_r. reflexivity.
Qed.
Lemma nl_word kw e p : legal_ident kw = true -> is_keyword kw = true ->
  existsb (String.eqb kw) ["break"; "continue"; "fallthrough"; "return"] = false ->
  nrl (W (kw ++ " ")%string) (e, p, LEmpty) (above p (TKw kw)) (false, [], LTokens).
Proof.
  intros L K N. exists (kw ++ " ")%string, ([ETok (TKw kw)] ++ []). split; auto. split.
  - eapply eo_el_app; [apply eo_word; auto|elsolve|discriminate|reflexivity].
  - cbn. rewrite app_nil_r. reflexivity.
Qed.
Lemma ident_nrl n e p l : ident n = true -> nrl (W (n ++ " ")%string) (e, p, l) (above p (TIdent n)) (true, [], LTokens).
Proof. intros N. apply (rc_nrl _ _ e p l (rc_ident_sp _ N)). Qed.

(** ** Complete lines of arbitrary code *)
Fixpoint erun (st : fstate) (acc : string) (s : string) : option (list event * fstate * string) :=
  match s with
  | EmptyString => Some ([], st, acc)
  | String c r =>
      match estep st acc c with
      | Some (es, st', acc') =>
          match erun st' acc' r with Some (fs, st2, acc2) => Some (es ++ fs, st2, acc2) | None => None end
      | None => None
      end
  end.
Lemma elexer_erun s : forall st acc rest,
  elexer st acc (s ++ rest) = match erun st acc s with
                              | Some (es, st', acc') => oapp es (elexer st' acc' rest)
                              | None => None
                              end.
Proof.
  induction s as [|c s IH]; intros st acc rest; cbn [append elexer erun].
  - rewrite oapp_nil. auto.
  - destruct (estep st acc c) as [[[es st'] acc']|]; auto. rewrite IH.
    destruct (erun st' acc' s) as [[[fs st2] acc2]|]; auto. fold (oapp es). apply oapp_app.
Qed.
Lemma erun_app s : forall st acc t, erun st acc (s ++ t) =
  match erun st acc s with
  | Some (es, st', acc') => match erun st' acc' t with Some (fs, st2, acc2) => Some (es ++ fs, st2, acc2) | None => None end
  | None => None
  end.
Proof.
  induction s as [|c s IH]; intros st acc t; cbn [append erun].
  - destruct (erun st acc t) as [[[? ?] ?]|]; auto.
  - destruct (estep st acc c) as [[[es st'] acc']|]; auto. rewrite IH.
    destruct (erun st' acc' s) as [[[fs st2] acc2]|]; auto. destruct (erun st2 acc2 t) as [[[gs st3] acc3]|]; auto.
    rewrite app_assoc. auto.
Qed.
Lemma estep_newline st acc es st' acc' : estep st acc (ch 10) = Some (es, st', acc') ->
  acc' = "" /\ ((st' = FCode LStart false /\ exists fs, es = fs ++ [ELine]) \/
                (exists a e, st' = FCode (LRaw a) e) \/ (exists b e, st' = FBlock b e)).
Proof.
  unfold estep. destruct (fstep st (ch 10)) as [[ts s']|] eqn:F; [|discriminate]. intros [= <- <- <-].
  change (is_newline (ch 10)) with true. cbn [negb]. rewrite andb_false_r. split; auto.
  destruct (fstep_newline _ _ _ F) as [-> | [(a & e & ->)|(b & e & ->)]]; eauto. left. split; auto.
  assert (L : line_end st (ch 10) = true).
  { unfold line_end. change (is_newline (ch 10)) with true. cbn [andb].
    destruct st as [st e|e|e|b e|b e]; auto.
    - cbn [fstep] in F. change (is_newline (ch 10)) with true in F. cbn [orb] in F. rewrite andb_true_r in F.
      destruct (in_literal st) eqn:L; auto. cbn [negb] in F. destruct st; try discriminate L; discriminate F.
    - discriminate F.
    - discriminate F. }
  rewrite L. rewrite app_assoc. eauto.
Qed.
Lemma lines_el s es : whole_lines s = true -> events s = Some es ->
  el false s es false /\ (s = "" \/ exists fs, es = fs ++ [ELine]).
Proof.
  unfold whole_lines, events. destruct (last_byte s) as [c|] eqn:L.
  - intros E. apply Ascii.eqb_eq in E. subst c. destruct (last_byte_split _ _ L) as (r & ->).
    intros H. rewrite <- (append_nil_r (r ++ _)) in H. rewrite elexer_erun, erun_app in H.
    unfold el.
    destruct (erun (FCode LStart false) "" r) as [[[a st1] acc1]|] eqn:R; [|discriminate].
    cbn [erun] in H. destruct (estep st1 acc1 (ch 10)) as [[[b st2] acc2]|] eqn:F; [|discriminate].
    destruct (estep_newline _ _ _ _ _ F) as [-> [[-> (fs & ->)]|[(x & e & ->)|(bb & e & ->)]]].
    + cbn in H. injection H as <-. rewrite !app_nil_r. split.
      * intros rest. rewrite elexer_erun, erun_app, R. cbn [erun]. rewrite F. rewrite app_nil_r. auto.
      * right. rewrite app_assoc. eauto.
    + discriminate H.
    + discriminate H.
  - destruct s as [|a s]; [|exfalso; revert L; clear; revert a; induction s as [|b s IH]; [discriminate|];
      intros a H; apply (IH b); exact H].
    intros _ [= <-]. split; [apply el_nil|auto].
Qed.
Lemma scan_line fs p l : snd (snd (scan p l (fs ++ [ELine]))) = LEmpty.
Proof. rewrite scan_app. destruct (scan p l fs) as [n [p' []]]; reflexivity. Qed.

Section WithEnv.
Context {TD : Type}.
Notation World := (World TD).
Variable env : Env TD.
Notation isPrint := (World.isPrint env).

(** a type that ends its own line *)
Definition wn (r : res string) (n : list note) : Prop := forall e, nrl r (e, [], LTokens) n (false, [], LEmpty).
Lemma tag_nrl tag e : nrl (W (if negb (String.eqb tag "") then (" " ++ tag_literal isPrint tag)%string else ""))
  (e, [], LTokens) [] (if String.eqb tag "" then e else true, [], LTokens).
Proof.
  destruct (String.eqb tag ""); cbn [negb]; [apply nrl_nil|].
  assert (R : rendersc (W (" " ++ tag_literal isPrint tag)) [TStr tag]).
  { eexists. split; [reflexivity|]. change [TStr tag] with ([] ++ [TStr tag]).
    apply lexc_app; [|apply lexc_tag]. destruct rc_space as (x & [= <-] & L); auto. }
  exact (rc_nrl _ _ e [] LTokens R).
Qed.
Definition name_or (n : string) (t : token) : token := if String.eqb n "" then t else TIdent n.
Lemma field_nrl c n tag r t ts : (n <> "" -> ident n = true) -> renders r (t :: ts) -> lastok (t :: ts) ->
  nrl (field_writeTo env c n tag r) (false, [], LEmpty) (doc c (name_or n t)) (false, [], LEmpty).
Proof.
  intros N R L. unfold field_writeTo, doc, name_or.
  assert (T' : forall e p l, nrl (r +++ W (if negb (String.eqb tag "") then (" " ++ tag_literal isPrint tag)%string else "") +++ W newline)
     (e, p, l) (above p t) (false, [], LEmpty)).
  { intros e p l. rewrite <- (app_nil_r (above p t)). eapply nrol_app; [eapply ro_nro; eauto| |].
    - eapply (nrl_app _ _ [] _ _ [] _); [apply (tag_nrl tag true)|apply nl_tail].
    - destruct (String.eqb tag ""); cbn [negb].
      + apply (opens_W newline); [discriminate|reflexivity].
      + apply opens_app; [apply opens_W; [discriminate|reflexivity]|reflexivity]. }
  rewrite <- (app_nil_l (above _ _)). eapply nrl_app; [apply comment_nrl|].
  destruct (String.eqb_spec n "") as [->|NE]; cbn [negb].
  - rewrite <- (app_nil_l (above _ _)). eapply nrl_app; [apply nrl_nil|apply T'].
  - rewrite <- (app_nil_r (above _ _)). eapply nrl_app; [apply ident_nrl; auto|apply (T' true [] LTokens)].
Qed.
Lemma field_multi_nrl c n r ns : n <> "" -> ident n = true -> wn r ns ->
  nrl (field_writeTo env c n "" r) (false, [], LEmpty) (doc c (TIdent n) ++ ns) (false, [], LEmpty).
Proof.
  intros NE N R. unfold field_writeTo, doc. rewrite <- (app_nil_l (above _ _ ++ _)).
  eapply nrl_app; [apply comment_nrl|]. apply String.eqb_neq in NE. rewrite NE. cbn [negb].
  eapply nrl_app; [apply ident_nrl; auto|]. rewrite <- (app_nil_r ns). eapply nrl_app; [apply R|].
  eapply (nrl_app _ _ [] _ _ [] _); [apply nrl_nil|apply (nl_blank [])].
Qed.
Lemma embed_nrl c s : sym_ok s = true ->
  nrl (embed_writeTo c s) (false, [], LEmpty) (doc c (name_head (qualifier s) (SymName s))) (false, [], LEmpty).
Proof.
  intros H. unfold embed_writeTo, doc. rewrite <- (app_nil_l (above _ _)).
  eapply nrl_app; [apply comment_nrl|]. rewrite Symbol_String_text.
  rewrite <- (app_nil_r (above _ _)). destruct (sym_toks_head s) as (r & E).
  eapply nrol_app; [eapply ro_nro; [rewrite <- E; apply ro_symbol; auto|rewrite <- E; apply sym_toks_last]| |apply opens_newline].
  apply nl_tail.
Qed.
Lemma named_sig_nro n s e p l : ident n = true -> wf_sig s = true -> sig_text_ok s = true ->
  nro (W n +++ signatureToBuffer isPrint s) (e, p, l) (above p (TIdent n)) (true, [], LTokens).
Proof.
  intros N WS TS. pose proof (signature_renders isPrint s WS TS) as R.
  destruct R as (x & E & R). destruct (ro_ident n N) as (y & [= <-] & I).
  destruct (signature_opens env s x E) as (z & [= <-] & NE & B). rewrite E.
  assert (RR : renders (W n +++ Ok x) (TIdent n :: sig_toks toks s)).
  { eexists. split; [reflexivity|]. change (TIdent n :: sig_toks toks s) with ([TIdent n] ++ sig_toks toks s).
    apply lexo_lexo_app; auto. }
  eapply ro_nro; [exact RR|]. apply lastok_cons, sig_toks_last; auto.
Qed.
Lemma method_nrl c n s : ident n = true -> wf_sig s = true -> sig_text_ok s = true ->
  nrl (method_writeTo env c n s) (false, [], LEmpty) (doc c (TIdent n)) (false, [], LEmpty).
Proof.
  intros N WS TS. unfold method_writeTo, doc. rewrite <- (app_nil_l (above _ _)).
  eapply nrl_app; [apply comment_nrl|]. rewrite <- bcat_assoc. rewrite <- (app_nil_r (above _ _)).
  eapply nrol_app; [apply named_sig_nro; auto|apply nl_tail|apply opens_newline].
Qed.
(** a sequence of lines *)
Lemma lines_nrl {A} (write : A -> res string) (n : A -> list note) l :
  Forall (fun a => nrl (write a) (false, [], LEmpty) (n a) (false, [], LEmpty)) l ->
  nrl (concat_res (map write l)) (false, [], LEmpty) (flat_map n l) (false, [], LEmpty).
Proof.
  induction 1 as [|a l H F IH]; [apply nrl_nil|]. cbn [map concat_res flat_map]. eapply nrl_app; eauto.
Qed.
Lemma struct_wn body ns : nrl body (false, [], LEmpty) ns (false, [], LEmpty) ->
  wn (W (" struct {" ++ newline)%string +++ body +++ W ("}" ++ newline)%string) ns.
Proof.
  intros B e. eapply nrl_eq; [eapply nrl_app; [apply nl_struct|eapply nrl_app; [exact B|apply nl_rbrace]]|].
  cbn. apply app_nil_r.
Qed.
Lemma interface_wn body ns : nrl body (false, [], LEmpty) ns (false, [], LEmpty) ->
  wn (W (" interface {" ++ newline)%string +++ body +++ W ("}" ++ newline)%string) ns.
Proof.
  intros B e. eapply nrl_eq; [eapply nrl_app; [apply nl_interface|eapply nrl_app; [exact B|apply nl_rbrace]]|].
  cbn. apply app_nil_r.
Qed.
Lemma plain_wn t : wf t = true -> text_ok t = true ->
  wn (W " " +++ typeNameToBuffer isPrint t +++ W newline) [].
Proof.
  intros WF TX e. eapply (nrl_app _ _ [] _ _ [] _); [apply nl_space|].
  destruct (toks_nonempty t WF) as (x & r & E).
  eapply (nrol_app _ _ (above [] x) _ _ [] _); [eapply ro_nro; [rewrite <- E; apply type_renders; auto|rewrite <- E; apply toks_last; auto]| |apply opens_newline].
  apply nl_tail.
Qed.
Lemma nrl_all_nil {A} (write : A -> res string) l :
  Forall (fun a => nrl (write a) (false, [], LEmpty) [] (false, [], LEmpty)) l ->
  nrl (concat_res (map write l)) (false, [], LEmpty) [] (false, [], LEmpty).
Proof.
  intros H. eapply nrl_eq; [apply (lines_nrl write (fun _ => [])); exact H|]. clear. induction l; auto.
Qed.
Lemma expand_type_wn : forall t, wf t = true -> decl_ok t = true -> wn (expand_type env t) [].
Proof.
  induction t using TypeName_ind'; intros WF TX; try discriminate WF;
    try (apply plain_wn; auto; fail).
  - (* struct *)
    cbn [wf decl_ok] in WF, TX. cbn [expand_type]. apply struct_wn, nrl_all_nil.
    apply Forall_forall. intros [n t tag] IN. rewrite Forall_forall in H. specialize (H _ IN).
    rewrite forallb_forall in WF, TX. specialize (WF _ IN). specialize (TX _ IN). cbn [FldType FldName FldTag] in *.
    apply andb_true_iff in TX as [TX1 T3]. apply andb_true_iff in TX1 as [T1 T2].
    assert (NM : n <> "" -> ident n = true).
    { intros NE. apply String.eqb_neq in NE. rewrite NE in T1. exact T1. }
    destruct (multi_line t) eqn:ML.
    + cbn [negb orb] in T3. apply String.eqb_eq in T3. subst tag.
      assert (E : match t with TNil => W "" | TStruct _ | TInterface _ _ => expand_type env t
                  | _ => W (caught "v" (typeNameToString isPrint t)) end = expand_type env t)
        by (destruct t; try discriminate ML; reflexivity).
      rewrite E. destruct (String.eqb_spec n "") as [->|NE].
      { destruct t; try discriminate ML; discriminate T1. }
      apply (field_multi_nrl "" n (expand_type env t) []); auto.
    + rewrite (multi_dec t ML) in T2. destruct (toks_nonempty t WF) as (x & r & ET).
      assert (E : match t with TNil => W "" | TStruct _ | TInterface _ _ => expand_type env t
                  | _ => W (caught "v" (typeNameToString isPrint t)) end = W (caught "v" (typeNameToString isPrint t)))
        by (destruct t; try discriminate ML; try discriminate WF; reflexivity).
      rewrite E. eapply (field_nrl "" n tag _ x r); auto.
      * rewrite <- ET. apply caught_renders; auto.
      * rewrite <- ET. apply toks_last; auto.
  - (* interface *)
    cbn [wf decl_ok] in WF, TX. apply andb_true_iff in TX as [TE TM]. cbn [expand_type].
    rewrite forallb_forall in *.
    pose proof (interface_wn (concat_res (map (embed_writeTo "") es) +++
        concat_res (map (fun m => method_writeTo env "" (MtdName m) (MtdSig m)) ms)) []) as X.
    rewrite bcat_assoc in X. apply X.
    eapply (nrl_app _ _ [] _ _ [] _); apply nrl_all_nil, Forall_forall.
    + intros s IN. apply (embed_nrl "" s). auto.
    + intros [n [a r v]] IN. specialize (WF _ IN). specialize (TM _ IN). cbn [MtdName MtdSig] in *.
      apply andb_true_iff in TM as [T1 T2]. apply (method_nrl "" n); auto.
      unfold wf_sig. cbn [Args Results]. apply andb_true_iff in WF as [W1 W2]. apply andb_true_iff in W2 as [W2 W3].
      rewrite W1, W2, W3. auto.
Qed.

(** ** Type specs *)
Theorem writeUnderlying_wn (w : World) : forall fuel T g, spec_meaning w fuel T = Some g ->
  wn (TypeSpec_writeUnderlying env fuel w T) (spec_notes w fuel T).
Proof.
  induction fuel as [|fuel IH]; intros T g H; [discriminate|].
  cbn [spec_meaning_with] in H. cbn [TypeSpec_writeUnderlying spec_notes].
  destruct (TSUnderlying T) as [|k|s|e|e|e n|e k|e d|sg|fs|ms es] eqn:U;
    try (match type of H with (if ?b then _ else _) = _ => destruct b eqn:B; [|discriminate] end;
         injection H as <-; apply andb_true_iff in B as [B1 B2]; apply plain_wn; auto; fail).
  - discriminate H.
  - (* struct *)
    destruct (all_some _) as [gs|] eqn:E in H; [|discriminate]. injection H as <-.
    apply all_some_Forall2 in E. apply struct_wn, lines_nrl.
    induction E as [|id m ids gs' H E IHE]; constructor; [|exact IHE].
    clear IHE E gs'. destruct m as [[on g] tag]. unfold rd. unfold obind in H at 1.
    destruct (nth_error (fields w) id) as [f|]; [|discriminate]. cbn [rbind].
    match type of H with obind ?o _ = _ => destruct o as [[g' multi]|] eqn:FT; [|discriminate] end.
    cbn [obind] in H.
    match type of H with (if ?b then _ else _) = _ => destruct b eqn:B; [|discriminate] end.
    injection H as <- <- <-. apply andb_true_iff in B as [B1 B2].
    assert (NM : FSName f <> "" -> ident (FSName f) = true).
    { intros NE. apply String.eqb_neq in NE. rewrite NE in B1. exact B1. }
    assert (EM : FSName f = "" -> names_type g' = true).
    { intros NE. rewrite NE in B1. exact B1. }
    assert (ONE : forall r t ts h, renders r (t :: ts) -> lastok (t :: ts) ->
       (FSName f = "" -> h = t) -> h = field_head w f \/ FSName f <> "" -> (FSName f <> "" -> field_head w f = TIdent (FSName f)) ->
       nrl (field_writeTo env (FSComment f) (FSName f) (FSTag f) r) (false, [], LEmpty) (doc (FSComment f) (field_head w f) ++ []) (false, [], LEmpty)).
    { intros r t ts h R L HT HH HN. rewrite app_nil_r. eapply nrl_eq; [eapply field_nrl; eauto|].
      unfold name_or. destruct (String.eqb_spec (FSName f) "") as [EN|NE].
      - destruct HH as [<-|]; [|congruence]. rewrite HT; auto.
      - rewrite HN; auto. }
    assert (FN : FSName f <> "" -> field_head w f = TIdent (FSName f)).
    { intros NE. unfold field_head. apply String.eqb_neq in NE. rewrite NE. auto. }
    destruct (FSType f) as [|t|id'] eqn:FTY.
    + discriminate.
    + destruct (wf t && decl_ok t) eqn:WD; [|discriminate]. injection FT as <- <-.
      apply andb_true_iff in WD as [WF DK]. unfold field_type_text.
      destruct (multi_line t) eqn:ML.
      * cbn [negb orb] in B2. apply String.eqb_eq in B2. rewrite B2.
        assert (NE : FSName f <> "").
        { intros NE. specialize (EM NE). destruct t; try discriminate ML; discriminate EM. }
        rewrite FN by auto.
        replace (match t with TNil => W "" | TStruct _ | TInterface _ _ => expand_type env t
                 | _ => W (caught "v" (typeNameToString isPrint t)) end) with (expand_type env t)
          by (destruct t; try discriminate ML; reflexivity).
        apply field_multi_nrl; auto. apply expand_type_wn; auto.
      * rewrite (multi_dec t ML) in DK.
        replace (match t with TNil => W "" | TStruct _ | TInterface _ _ => expand_type env t
                 | _ => W (caught "v" (typeNameToString isPrint t)) end) with (W (caught "v" (typeNameToString isPrint t)))
          by (destruct t; try discriminate ML; try discriminate WF; reflexivity).
        destruct (toks_nonempty t WF) as (x & r & ET).
        apply (ONE _ x r x).
        -- rewrite <- ET. apply caught_renders; auto.
        -- rewrite <- ET. apply toks_last; auto.
        -- auto.
        -- destruct (String.eqb_spec (FSName f) "") as [EN|NE]; [left|right; auto].
           unfold field_head. rewrite EN, FTY. cbn. destruct (toks_head t WF (EM EN)) as (r' & ET'). congruence.
        -- exact FN.
    + unfold obind in FT. destruct (nth_error (types w) id') as [T'|] eqn:ET'; [|discriminate]. cbn [rbind].
      destruct (String.eqb (TSName T') "") eqn:TN.
      * destruct (spec_meaning w fuel T') as [g2|] eqn:SM; [|discriminate]. injection FT as <- <-.
        cbn [negb orb] in B2. apply String.eqb_eq in B2. rewrite B2. specialize (IH T' g2 SM).
        destruct (String.eqb_spec (FSName f) "") as [EN|NE].
        -- specialize (EM EN). rewrite EN. unfold field_writeTo, doc. cbn [String.eqb negb].
           assert (FH : field_head w f = type_head (denote (TSUnderlying T'))).
           { unfold field_head, obind. rewrite EN, FTY. cbn [String.eqb]. rewrite ET', TN. reflexivity. }
           destruct fuel as [|fuel']; [discriminate|]. cbn [spec_meaning_with] in SM.
           assert (NMU : wf (TSUnderlying T') = true /\ text_ok (TSUnderlying T') = true /\ g2 = denote (TSUnderlying T') /\
                         multi_line (TSUnderlying T') = false).
           { destruct (TSUnderlying T'); try discriminate SM; try (destruct (all_some _); [|discriminate]; injection SM as <-; discriminate EM);
             (match type of SM with (if ?b then _ else _) = _ => destruct b eqn:B; [|discriminate] end;
              injection SM as <-; apply andb_true_iff in B as [? ?]; auto). }
           destruct NMU as (WF & TX & -> & ML).
           assert (EW : TypeSpec_writeUnderlying env (S fuel') w T' = W " " +++ typeNameToBuffer isPrint (TSUnderlying T') +++ W newline
                        /\ spec_notes w (S fuel') T' = []).
           { cbn [TypeSpec_writeUnderlying spec_notes]. destruct (TSUnderlying T'); try discriminate; auto. }
           destruct EW as [-> ->].
           rewrite FH. rewrite app_nil_r. rewrite <- (app_nil_l (above _ _)).
           eapply nrl_app; [apply comment_nrl|]. rewrite <- (app_nil_l (above _ _)). eapply nrl_app; [apply nrl_nil|].
           rewrite <- (app_nil_r (above _ _)). destruct (toks_head _ WF EM) as (x & TH).
           eapply nrl_app.
           ++ rewrite <- (app_nil_l (above _ _)). eapply nrl_app; [apply nl_space|]. rewrite <- (app_nil_r (above _ _)).
              eapply nrol_app; [eapply ro_nro; [rewrite <- TH; apply type_renders; auto|rewrite <- TH; apply toks_last; auto]| |apply opens_newline].
              apply nl_tail.
           ++ eapply (nrl_app _ _ [] _ _ [] _); [apply nrl_nil|apply (nl_blank [])].
        -- rewrite FN by auto. apply field_multi_nrl; auto.
      * destruct (named_spec w T') as [g2|] eqn:NS; [|discriminate]. injection FT as <- <-.
        destruct (named_spec_text w T' g2 NS TN) as (s & ES & OK & ->). rewrite ES. cbn [rbind].
        destruct (sym_toks_head s) as (r & SH). rewrite Symbol_String_text.
        apply (ONE _ (name_head (qualifier s) (SymName s)) r (name_head (qualifier s) (SymName s))).
        -- rewrite <- SH. apply ro_symbol; auto.
        -- rewrite <- SH. apply sym_toks_last.
        -- auto.
        -- destruct (String.eqb_spec (FSName f) "") as [EN|NE]; [left|right; auto].
           unfold field_head, obind. rewrite EN, FTY. cbn [String.eqb]. rewrite ET', TN, NS. reflexivity.
        -- exact FN.
  - (* interface *)
    destruct (all_some _) as [gs|] eqn:E in H; [|discriminate]. injection H as <-.
    apply all_some_Forall2 in E. apply interface_wn, lines_nrl.
    induction E as [|id m ids gs' H E IHE]; constructor; [|exact IHE].
    unfold rd. unfold obind in H at 1. destruct (nth_error (ielems w) id) as [el|]; [|discriminate]. cbn [rbind].
    destruct el as [c s p|c n s p]; cbn [elem_meaning_with InterfaceElement_writeTo element_notes] in *.
    + destruct (sym_ok s) eqn:S; [|discriminate]. apply embed_nrl; auto.
    + destruct (ident n && wf_sig s && sig_text_ok s) eqn:S; [|discriminate].
      apply andb_true_iff in S as [S S3]. apply andb_true_iff in S as [S1 S2]. apply method_nrl; auto.
Qed.

(** ** Declarations *)
Definition nitem {A} (write : A -> bool -> res string) (c : A -> string) (head : A -> token) (inner : A -> list note) (a : A) : Prop :=
  forall e p l, (l = LEmpty \/ p = []) ->
  nrl (write a false) (e, p, l) (above p (head a) ++ inner a) (false, [], LEmpty) /\
  nrl (write a true) (false, [], LEmpty) (doc (c a) (head a) ++ inner a) (false, [], LEmpty).
Lemma typespec_nitem (w : World) fuel T m : typespec_meaning w fuel T = Some m ->
  nitem (TypeSpec_writeTo env fuel w) TSComment (fun T => TIdent (TSName T)) (spec_notes w fuel) T.
Proof.
  unfold typespec_meaning_with. destruct (ident (TSName T)) eqn:N; [|discriminate].
  destruct (spec_meaning w fuel T) as [g|] eqn:S; [|discriminate]. intros _.
  pose proof (writeUnderlying_wn w fuel T g S) as TX.
  assert (R : forall e p l, nrl (W (TSName T) +++ W " " +++ W (if TSIsAlias T then "= " else "") +++ TypeSpec_writeUnderlying env fuel w T)
     (e, p, l) (above p (TIdent (TSName T)) ++ spec_notes w fuel T) (false, [], LEmpty)).
  { intros e p l. rewrite <- bcat_assoc. eapply nrl_app; [apply (ident_nrl _ e p l N)|].
    rewrite <- (app_nil_l (spec_notes w fuel T)).
    destruct (TSIsAlias T); (eapply nrl_app; [|apply TX]); [apply nl_equals|apply nrl_nil]. }
  intros e p l _. unfold TypeSpec_writeTo. split.
  - rewrite <- (app_nil_l (_ ++ spec_notes w fuel T)). eapply nrl_app; [apply nrl_nil|apply R].
  - rewrite <- (app_nil_l (_ ++ spec_notes w fuel T)). eapply nrl_app; [apply comment_nrl|apply R].
Qed.
Lemma decl_nrl {A} kw comment spc (write : A -> bool -> res string) head inner specs l :
  legal_ident kw = true -> is_keyword kw = true ->
  existsb (String.eqb kw) ["break"; "continue"; "fallthrough"; "return"] = false ->
  Forall (nitem write spc head (fun a => match inner a with Some l => l | None => [] end)) specs ->
  negb (Nat.eqb (List.length specs) 0) || negb (String.eqb comment "") = true ->
  decl_notes kw comment specs spc head inner = Some l ->
  nrl (decl_writeTo kw comment spc write specs) (false, [], LEmpty) l (false, [], LEmpty).
Proof.
  intros K1 K2 K3 F NE D. unfold decl_notes in D.
  destruct (all_some (map inner specs)) as [ns|] eqn:AS; [|discriminate]. injection D as <-.
  apply all_some_Forall2 in AS. unfold decl_writeTo.
  destruct (Nat.ltb 1 (List.length specs) || negb (String.eqb comment "")) eqn:G.
  - assert (GR : grouped comment specs = true).
    { unfold grouped. apply orb_true_iff in G as [G|G].
      - apply Nat.ltb_lt in G. destruct (Nat.eqb_spec (List.length specs) 1); [lia|]. auto.
      - rewrite G, orb_true_r. auto. }
    rewrite GR. eapply nrl_eq; [eapply nrl_app; [apply comment_nrl|eapply nrl_app; [apply nl_open; auto|
        eapply nrl_app; [|apply nl_rparen]]]|].
    + apply (lines_nrl (fun s => write s true) (fun a => doc (spc a) (head a) ++ match inner a with Some l => l | None => [] end)).
      eapply Forall_impl; [|exact F]. intros a N. apply (N false [] LEmpty); auto.
    + cbn [above app]. unfold doc at 1. rewrite app_nil_r. f_equal.
      clear - AS. induction AS as [|a n specs ns H AS IH]; [reflexivity|].
      cbn [flat_map combine map List.concat]. rewrite H, IH. reflexivity.
  - apply orb_false_iff in G as [G1 G2]. rewrite G2, orb_false_r in NE.
    destruct specs as [|a [|b specs]]; [discriminate|clear G1 NE|discriminate].
    inversion F as [|? ? N _]; subst. inversion AS as [|? n ? ? H AS']; subst. inversion AS'; subst.
    unfold grouped. cbn [List.length Nat.eqb negb orb]. rewrite G2. cbn [flat_map List.concat]. rewrite !app_nil_r.
    eapply nrl_eq; [eapply nrl_app; [apply comment_nrl|eapply nrl_app; [apply nl_word; auto|]]|].
    + destruct (N false [] LTokens (or_intror eq_refl)) as [N1 _]. exact N1.
    + rewrite H. reflexivity.
Qed.

Variable w : World.
Notation block_text := (block_text env w).

Lemma init_nrl cb i ns : init_meaning block_text cb = Some i -> init_notes block_text cb = Some ns ->
  nrl (W " = " +++ CodeBlock_writeTo env w cb +++ W newline) (true, [], LTokens) ns (false, [], LEmpty).
Proof.
  unfold init_notes, obind. intros _. destruct (block_text cb) as [s|] eqn:C; [|discriminate]. apply block_text_ok in C.
  destruct (events (s ++ newline)) as [es|] eqn:E; [|discriminate].
  destruct (scan [] LTokens es) as [n [[|] l]] eqn:SC; [|discriminate]. intros [= ->]. rewrite C.
  rewrite <- (app_nil_l ns). eapply (nrl_app _ _ [] (false, [], LTokens)).
  - exists " = ", [ETok (TOp "=")]. split; auto. split; [elsolve|reflexivity].
  - destruct (lines_el (s ++ newline) es) as [EL LS]; auto.
    { unfold whole_lines. change newline with (String (ch 10) ""). rewrite last_byte_append. reflexivity. }
    exists (s ++ newline)%string, es. split; auto. split; auto. rewrite SC. f_equal. f_equal.
    destruct LS as [X|(fs & ->)]; [destruct s; discriminate|].
    pose proof (scan_line fs [] LTokens) as X. rewrite SC in X. exact X.
Qed.
Lemma value_nitem const v m ns : gvalue_meaning w block_text const v = Some m -> value_notes block_text v = Some ns ->
  nitem (ValueSpec_writeTo env w) VComment value_head (fun v => match value_notes block_text v with Some l => l | None => [] end) v.
Proof.
  unfold gvalue_meaning_with, value_meaning_with. intros H VN.
  destruct (negb (match VNames v with [] => true | _ => false end) && forallb ident (VNames v)) eqn:N; [|discriminate].
  apply andb_true_iff in N as [NE NI].
  assert (NN : VNames v <> []) by (destruct (VNames v); [discriminate|discriminate]). clear NE.
  destruct (value_type w (VSType v)) as [t|] eqn:VT; [|discriminate]. cbn [option_map obind] in H.
  match type of H with obind ?o _ = _ => destruct o as [i|] eqn:IM; [|discriminate] end. clear H.
  unfold nitem. cbv beta. rewrite VN.
  assert (IF : nrl (match VInit v with None => W "" | Some cb => W " = " +++ CodeBlock_writeTo env w cb end +++ W newline)
                 (true, [], LTokens) ns (false, [], LEmpty) /\
               opens (match VInit v with None => W "" | Some cb => W " = " +++ CodeBlock_writeTo env w cb end +++ W newline)).
  { unfold value_notes in VN. destruct (VInit v) as [cb|].
    - destruct (init_meaning block_text cb) as [i'|] eqn:II; [|discriminate].
      pose proof (init_nrl cb i' ns II VN) as F. rewrite bcat_assoc. split; [exact F|].
      destruct F as (s & es & E & _). destruct (CodeBlock_writeTo env w cb); [|discriminate].
      apply opens_app; [apply opens_W; [discriminate|reflexivity]|reflexivity].
    - injection VN as <-. split; [|apply opens_newline].
      eapply (nrl_app _ _ [] _ _ [] _); [apply nrl_nil|apply nl_tail]. }
  destruct IF as [IF IO].
  set (rest := match VInit v with None => W "" | Some cb => W " = " +++ CodeBlock_writeTo env w cb end +++ W newline) in *.
  assert (TY : nrl (W (TypeNameOrSpec_text env w (VSType v)) +++ rest) (true, [], LTokens) ns (false, [], LEmpty) /\
               opens (W (TypeNameOrSpec_text env w (VSType v)) +++ rest)).
  { pose proof (value_type_lex env w (VSType v) t VT) as X. destruct t as [g|].
    - destruct X as (ts0 & R & L & TR & OP).
      assert (X : exists x ts, ts0 = x :: ts) by (destruct (tr_shape _ _ TR) as [x T _|q n T _|h r' T H']; rewrite T; eauto).
      destruct X as (x & ts & ->). split.
      + rewrite <- (app_nil_l ns). eapply (nrol_app _ _ (above [] x)); [eapply ro_nro; eauto|exact IF|exact IO].
      + apply opens_app; auto. destruct IO as (? & -> & _); auto.
    - rewrite X. rewrite <- (app_nil_l ns). split; [eapply nrl_app; [apply nrl_nil|exact IF]|].
      destruct IO as (u & -> & ?). exists u. auto. }
  destruct TY as [TY TO].
  assert (R : forall e p l, nrl (W (join ", " (VNames v)) +++ W (TypeNameOrSpec_text env w (VSType v)) +++ rest)
     (e, p, l) (above p (value_head v) ++ ns) (false, [], LEmpty)).
  { intros e p l. assert (NH : exists r, names_toks (VNames v) = value_head v :: r).
    { unfold value_head. destruct (VNames v) as [|n [|m' r]]; [congruence| |]; eexists; reflexivity. }
    destruct NH as (r & NH).
    eapply nrol_app; [eapply ro_nro; [rewrite <- NH; apply names_renders; auto|rewrite <- NH; apply names_last; auto]|exact TY|exact TO]. }
  intros e p l _. unfold ValueSpec_writeTo. split.
  - rewrite <- (app_nil_l (above _ _ ++ ns)). eapply nrl_app; [apply nrl_nil|apply R].
  - rewrite <- (app_nil_l (_ ++ ns)). eapply nrl_app; [apply comment_nrl|apply R].
Qed.
Lemma rc_mid r ts e : rendersc r ts -> nrl r (e, [], LTokens) [] (ends_after e ts, [], LTokens).
Proof. intros R. pose proof (rc_nrl r ts e [] LTokens R) as X. destruct ts; exact X. Qed.
Lemma func_nrl f m b ns : func_meaning f = Some m -> body_meaning block_text (FNBody f) = Some b ->
  body_notes block_text (FNBody f) = Some ns ->
  nrl (FuncSpec_writeTo env w f) (false, [], LEmpty) (doc (FNComment f) (TKw "func") ++ ns) (false, [], LEmpty).
Proof.
  unfold func_meaning_with, body_meaning, body_notes. intros H B BN.
  destruct (ident (FNName f) && wf_sig (FNSig f) && sig_text_ok (FNSig f)) eqn:N; [|discriminate].
  apply andb_true_iff in N as [N TX]. apply andb_true_iff in N as [NI WF].
  unfold obind in B, BN. destruct (block_text (FNBody f)) as [body|] eqn:C; [|discriminate]. apply block_text_ok in C.
  destruct (whole_lines body) eqn:WL; [|discriminate]. clear B.
  destruct (events body) as [es|] eqn:E; [|discriminate]. injection BN as <-.
  destruct (lines_el body es WL E) as [EL _].
  assert (RT : exists rts, rendersc (W (receiver_text (FNReceiver f))) rts).
  { eexists. apply receiver_rc. destruct (FNReceiver f) as [r|]; auto.
    destruct ((String.eqb (RcvName r) "" || ident (RcvName r)) && ident (RcvType r)); [auto|discriminate]. }
  destruct RT as (rts & RT). unfold FuncSpec_writeTo. rewrite C.
  rewrite scan_app. destruct (scan [] LEmpty es) as [n [p l]] eqn:SC. cbn [scan fst]. rewrite app_nil_r.
  rewrite <- (app_nil_l (doc _ _ ++ _)). eapply nrl_app; [apply comment_nrl|].
  eapply nrl_app; [apply (nl_word "func"); reflexivity|].
  rewrite <- (app_nil_l (n ++ _)). eapply nrl_app; [apply rc_mid; exact RT|].
  rewrite <- bcat_assoc. rewrite <- (app_nil_l (n ++ _)).
  eapply (nrol_app _ _ (above [] (TIdent (FNName f)))); [apply named_sig_nro; auto| |].
  - rewrite <- (app_nil_l (n ++ _)). eapply (nrl_app _ _ [] (false, [], LEmpty)).
    + exists (" {" ++ newline)%string, [ETok (TOp "{"); ELine]. split; auto. split; [elsolve|reflexivity].
    + eapply nrl_app; [|apply nl_rbrace]. exists body, es. split; auto. split; [exact EL|exact SC].
  - apply opens_app; [apply opens_W; [discriminate|reflexivity]|reflexivity].
Qed.

(** ** Files *)
Lemma Forall2_Forall {A B} (P : A -> B -> Prop) (Q : A -> Prop) l r : (forall a b, P a b -> Q a) -> Forall2 P l r -> Forall Q l.
Proof. intros H. induction 1; constructor; eauto. Qed.
Lemma fileelement_nrl fuel e d ns : has_content w e = true -> element_meaning w block_text fuel e = Some d ->
  fileelement_notes w block_text fuel e = Some ns ->
  nrl (FileElement_writeTo env fuel w e) (false, [], LEmpty) ns (false, [], LEmpty).
Proof.
  assert (LE : forall {A} (tab : World -> list A) ids l, lookup_all (tab w) ids = Some l ->
     List.length l = List.length ids).
  { intros A tab ids l H. unfold lookup_all in H. apply all_some_length in H. rewrite map_length in H. auto. }
  assert (VN : forall const l ms ns kw c, Forall2 (fun a m => gvalue_meaning w block_text const a = Some m) l ms ->
     decl_notes kw c l VComment value_head (value_notes block_text) = Some ns ->
     Forall (nitem (ValueSpec_writeTo env w) VComment value_head (fun v => match value_notes block_text v with Some l => l | None => [] end)) l).
  { intros const l ms ns' kw c M D. unfold decl_notes in D. destruct (all_some (map _ l)) as [x|] eqn:AS; [|discriminate].
    apply all_some_Forall2 in AS. clear D. revert x AS. induction M as [|v m l ms V M IH]; intros x AS; constructor.
    - inversion AS; subst. eapply value_nitem; eauto.
    - inversion AS; subst. eapply IH; eauto. }
  destruct e as [d'|d'|d'|fn]; cbn [has_content element_meaning_with FileElement_writeTo fileelement_notes]; unfold obind, rd; intros HC H NS.
  - destruct (nth_error (constDecls w) d') as [D|]; [|discriminate].
    destruct (lookup_all (consts w) (VDSpecs D)) as [l|] eqn:L; [|discriminate].
    destruct (all_some (map (gvalue_meaning _ _ _) _)) as [ms|] eqn:M; [|discriminate].
    cbn [rbind]. rewrite (lookup_all_rd w consts _ _ L). cbn [rbind]. rewrite <- (LE _ _ _ _ L) in HC.
    apply all_some_Forall2 in M. eapply decl_nrl; eauto.
  - destruct (nth_error (varDecls w) d') as [D|]; [|discriminate].
    destruct (lookup_all (vars w) (VDSpecs D)) as [l|] eqn:L; [|discriminate].
    destruct (all_some (map (gvalue_meaning _ _ _) _)) as [ms|] eqn:M; [|discriminate].
    cbn [rbind]. rewrite (lookup_all_rd w vars _ _ L). cbn [rbind]. rewrite <- (LE _ _ _ _ L) in HC.
    apply all_some_Forall2 in M. eapply decl_nrl; eauto.
  - destruct (nth_error (typeDecls w) d') as [D|]; [|discriminate].
    destruct (lookup_all (types w) (TDTypes D)) as [l|] eqn:L; [|discriminate].
    destruct (all_some (map (typespec_meaning _ _) _)) as [ms|] eqn:M; [|discriminate].
    cbn [rbind]. rewrite (lookup_all_rd w types _ _ L). cbn [rbind]. rewrite <- (LE _ _ _ _ L) in HC.
    apply all_some_Forall2 in M. eapply decl_nrl; eauto.
    eapply Forall2_Forall; [|exact M]. intros a m X. eapply typespec_nitem; exact X.
  - destruct (nth_error (funcs w) fn) as [f|]; [|discriminate]. cbn [rbind].
    destruct (func_meaning f) as [[[rc n] s]|] eqn:FM; [|discriminate].
    destruct (body_meaning block_text (FNBody f)) as [b|] eqn:B; [|discriminate].
    destruct (body_notes block_text (FNBody f)) as [x|] eqn:BN; [|discriminate]. injection NS as <-.
    eapply func_nrl; eauto.
Qed.
Lemma elements_nrl fuel es : forall ds ns, forallb (has_content w) es = true ->
  all_some (map (element_meaning w block_text fuel) es) = Some ds ->
  all_some (map (fileelement_notes w block_text fuel) es) = Some ns ->
  nrl (concat_res (map (fun e => W newline +++ FileElement_writeTo env fuel w e) es)) (false, [], LEmpty) (List.concat ns) (false, [], LEmpty).
Proof.
  induction es as [|e es IH]; intros ds ns HC H NS; cbn [forallb map all_some concat_res] in *.
  - injection NS as <-. apply nrl_nil.
  - apply andb_true_iff in HC as [H1 H2].
    destruct (element_meaning w block_text fuel e) as [d|] eqn:E; [|discriminate]. cbn in H.
    destruct (all_some (map (element_meaning _ _ _) es)) as [ds'|]; [|discriminate].
    destruct (fileelement_notes w block_text fuel e) as [n|] eqn:EN; [|discriminate]. cbn in NS.
    destruct (all_some (map (fileelement_notes _ _ _) es)) as [ns'|]; [|discriminate]. injection NS as <-.
    cbn [List.concat]. eapply nrl_app; [|eapply IH; eauto].
    eapply (nrl_app _ _ [] _ _ n _); [apply (nl_blank [])|eapply fileelement_nrl; eauto].
Qed.
Lemma import_nrl s m : import_meaning s = Some m -> nrl (W (import_line env s)) (false, [], LEmpty) [] (false, [], LEmpty).
Proof.
  unfold import_meaning, import_line. intros H.
  assert (Q : forall e, nrl (W (Quote isPrint (SpecPath s)) +++ W newline) (e, [], LTokens) [] (false, [], LEmpty)).
  { intros e. eapply (nrl_app _ _ [] _ _ [] _); [|apply nl_tail].
    apply rc_mid. eexists. split; [reflexivity|]. apply lexc_quote. }
  assert (K : nrl (W "import ") (false, [], LEmpty) [] (false, [], LTokens)) by (apply (nl_word "import" false []); reflexivity).
  destruct (String.eqb (PackageAlias s) "") eqn:A; cbn [negb].
  - exact (nrl_app _ _ [] _ _ [] _ K (Q _)).
  - destruct (ident (PackageAlias s)) eqn:I; [|discriminate].
    pose proof (nrl_app _ _ [] _ _ [] _ K (nrl_app _ _ [] _ _ [] _ (ident_nrl _ false [] LTokens I) (Q _))) as X.
    destruct X as (t & es & E & X). exists t, es. split; [|exact X]. rewrite <- E. unfold W. cbn [bcat]. rewrite !append_assoc. reflexivity.
Qed.
Lemma imports_nrl l ms : all_some (map import_meaning l) = Some ms ->
  nrl (W (fold_right append "" (map (import_line env) l))) (false, [], LEmpty) [] (false, [], LEmpty).
Proof.
  intros H. apply all_some_Forall2 in H. induction H as [|s m l ms H F IH]; [apply nrl_nil|].
  cbn [map fold_right]. exact (nrl_app _ _ [] _ _ [] _ (import_nrl s m H) IH).
Qed.
Definition canonical_comment (F : GoFile) : string := (" import " ++ Quote isPrint (FCanonical F))%string.
Lemma canonical_tokens F : tokens (canonical_comment F) = Some [TKw "import"; TStr (FCanonical F); TOp ";"].
Proof.
  assert (X : fl false (canonical_comment F) [TKw "import"; TStr (FCanonical F)] true).
  { unfold canonical_comment. change [TKw "import"; TStr (FCanonical F)] with ([TKw "import"] ++ [TStr (FCanonical F)]).
    eapply fl_app with (e1 := false); [|apply (lexc_fl _ _ (lexc_quote _ _) false)].
    intros rest. cbn. destruct (flexer (FCode LStart false) rest); reflexivity. }
  unfold tokens. rewrite <- (append_nil_r (canonical_comment F)), X. reflexivity.
Qed.
Lemma package_nrl F p : ident (FPackageName F) = true ->
  nrl (W (package_line env F)) (false, p, LEmpty)
    (above p (TKw "package") ++ if String.eqb (FCanonical F) "" then [] else [NLine (canonical_comment F)]) (false, [], LEmpty).
Proof.
  intros I. unfold package_line.
  assert (K : nrl (W "package ") (false, p, LEmpty) (above p (TKw "package")) (false, [], LTokens)) by (apply (nl_word "package"); reflexivity).
  assert (N : nro (W (FPackageName F)) (false, [], LTokens) [] (true, [], LTokens)).
  { eapply (ro_nro _ (TIdent (FPackageName F)) [] false [] LTokens); [apply ro_ident; auto|apply lastok_one; reflexivity]. }
  destruct (String.eqb (FCanonical F) ""); cbn [negb].
  - exact (nrl_app _ _ _ _ _ _ _ K (nrol_app _ _ _ _ _ _ _ N (nl_tail true) opens_newline)).
  - assert (C : nrl (W (" // import " ++ Quote isPrint (FCanonical F) ++ newline)) (true, [], LTokens) [NLine (canonical_comment F)] (false, [], LEmpty)).
    { eexists. exists [ECom (canonical_comment F); ETok (TOp ";"); ELine]. split; [reflexivity|]. split; [|reflexivity]. intros rest.
      replace ((" // import " ++ Quote isPrint (FCanonical F) ++ newline) ++ rest)%string
        with (" //" ++ canonical_comment F ++ newline ++ rest)%string
        by (unfold canonical_comment; rewrite !append_assoc; reflexivity).
      set (q := canonical_comment F).
      transitivity (oapp [] (elexer (FComment true) "" (q ++ newline ++ rest))).
      { cbn. destruct (elexer (FComment true) _ _); reflexivity. }
      rewrite oapp_nil. rewrite ecomment_line; [reflexivity|].
      assert (N1 : no_newline q = true).
      { unfold q, canonical_comment. rewrite no_newline_app, Quote_no_newline. reflexivity. }
      unfold no_newline in N1. rewrite forallb_forall in N1. intros c X. apply negb_true_iff. auto. }
    assert (O : opens (W (" // import " ++ Quote isPrint (FCanonical F) ++ newline))) by (apply opens_W; [discriminate|reflexivity]).
    exact (nrl_app _ _ _ _ _ _ _ K (nrol_app _ _ _ _ _ _ _ N C O)).
Qed.
Theorem file_comments fuel F g : file_meaning w block_text fuel F = Some g ->
  exists s canon, GoFile_writeTo env fuel w F = Ok s /\
    tokens canon = Some [TKw "import"; TStr (FCanonical F); TOp ";"] /\
    forall ns, file_notes w block_text fuel F canon = Some ns -> comments s = Some ns.
Proof.
  intros FM. destruct (file_text env w fuel F g FM) as (s & ES & _).
  exists s, (canonical_comment F). split; auto. split; [apply canonical_tokens|].
  revert FM. unfold file_meaning_with. destruct (ident (FPackageName F)) eqn:I; [|discriminate]. cbn [andb].
  destruct (forallb (has_content w) (FElements F)) eqn:HC; [|discriminate]. unfold obind.
  destruct (all_some (map import_meaning _)) as [ms|] eqn:M; [|discriminate].
  destruct (all_some (map _ (FElements F))) as [ds|] eqn:D; [|discriminate]. intros _ ns. unfold file_notes.
  destruct (all_some (map (fileelement_notes w block_text fuel) (FElements F))) as [nss|] eqn:NS; [|discriminate]. intros [= <-].
  pose proof (elements_nrl fuel _ _ _ HC D NS) as T.
  assert (X : nrl (GoFile_writeTo env fuel w F) (false, [], LEmpty)
    (flush (comment_lines (FFileComment F)) ++ doc (FPackageComment F) (TKw "package") ++
      (if String.eqb (FCanonical F) "" then [] else [NLine (canonical_comment F)]) ++ List.concat nss) (false, [], LEmpty)).
  { unfold GoFile_writeTo. rewrite <- (app_nil_l (flush _ ++ _)).
    eapply nrl_app; [apply comment_nrl|].
    eapply nrl_app with (b := (false, [], LEmpty)).
    { unfold comment_lines. destruct (String.eqb (FFileComment F) ""); cbn [negb]; [apply nrl_nil|apply nl_blank]. }
    rewrite <- (app_nil_l (doc _ _ ++ _)). eapply nrl_app; [apply comment_nrl|].
    unfold doc. rewrite app_assoc. eapply nrl_app; [apply package_nrl; auto|].
    rewrite <- (app_nil_l (List.concat nss)). eapply nrl_app; [apply (nl_blank [])|].
    rewrite <- (app_nil_l (List.concat nss)). eapply nrl_app; [eapply imports_nrl; exact M|exact T]. }
  destruct X as (s' & es & E & EL & SC). rewrite ES in E. injection E as <-.
  unfold comments, events. specialize (EL ""). rewrite append_nil_r in EL. rewrite EL. cbn.
  unfold notes. rewrite app_nil_r, SC. cbn. rewrite app_nil_r. reflexivity.
Qed.
End WithEnv.
