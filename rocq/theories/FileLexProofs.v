(** Lexing source text with line breaks and comments: pieces whose tokens are known. *)
From Verif Require Import Base BaseFacts Utf8 Quote SpecLit LitProofs Types SpecTypes TypesFacts
  SpecImports SpecGo SpecRender LexProofs TextProofs SpecFile.

(** [fl e s ts e']: at a token boundary in state [e], the text [s] gives the tokens [ts] and
    leads to a token boundary in state [e'], whatever follows.  [fo]: unless an identifier
    byte follows. *)
Definition fl (e : bool) (s : string) (ts : list token) (e' : bool) : Prop :=
  forall rest, flexer (FCode LStart e) (s ++ rest) = omap (app ts) (flexer (FCode LStart e') rest).
Definition fo (e : bool) (s : string) (ts : list token) (e' : bool) : Prop :=
  forall rest, bounded rest = true ->
    flexer (FCode LStart e) (s ++ rest) = omap (app ts) (flexer (FCode LStart e') rest).

Lemma fl_fo e s ts e' : fl e s ts e' -> fo e s ts e'.
Proof. intros H r _. apply H. Qed.
Lemma fl_nil e : fl e "" [] e.
Proof. intros r. cbn [append]. rewrite omap_nil. auto. Qed.
Lemma fl_app e a x e1 b y e2 : fl e a x e1 -> fl e1 b y e2 -> fl e (a ++ b) (x ++ y) e2.
Proof. intros A B r. rewrite append_assoc, A, B, omap_app_app. auto. Qed.
Lemma fl_fo_app e a x e1 b y e2 : fl e a x e1 -> fo e1 b y e2 -> fo e (a ++ b) (x ++ y) e2.
Proof. intros A B r R. rewrite append_assoc, A, B, omap_app_app by auto. auto. Qed.
Lemma fo_fl_app e a x e1 b y e2 : fo e a x e1 -> fl e1 b y e2 -> b <> "" -> bounded b = true ->
  fl e (a ++ b) (x ++ y) e2.
Proof.
  intros A B NE BB r. rewrite append_assoc, A, B, omap_app_app; auto. apply bounded_app; auto.
Qed.
Lemma fo_fo_app e a x e1 b y e2 : fo e a x e1 -> fo e1 b y e2 -> b <> "" -> bounded b = true ->
  fo e (a ++ b) (x ++ y) e2.
Proof.
  intros A B NE BB r R. rewrite append_assoc, A, B, omap_app_app; auto. apply bounded_app; auto.
Qed.

(** ** From the lexer of types *)
Fixpoint lrun (st : lstate) (s : string) : option (list token * lstate) :=
  match s with
  | EmptyString => Some ([], st)
  | String c r =>
      match lex_step st c with
      | Some (ts, st') => match lrun st' r with Some (us, st2) => Some (ts ++ us, st2) | None => None end
      | None => None
      end
  end.
Lemma lexer_lrun s : forall st rest,
  lexer st (s ++ rest) = match lrun st s with
                         | Some (ts, st') => omap (app ts) (lexer st' rest)
                         | None => None
                         end.
Proof.
  induction s as [|c s IH]; intros st rest; cbn [append lexer lrun].
  - rewrite omap_nil. auto.
  - destruct (lex_step st c) as [[ts st']|]; auto. rewrite IH.
    destruct (lrun st' s) as [[us st2]|]; auto. apply omap_app_app.
Qed.
Lemma ends_in_snoc acc c : ends_in [c] (snoc acc c) = true.
Proof.
  unfold snoc. induction acc as [|a acc IH]; cbn [append ends_in]; [cbn; rewrite Ascii.eqb_refl; reflexivity|].
  destruct (acc ++ String c "")%string eqn:E; [destruct acc; discriminate|exact IH].
Qed.
Lemma no_operator l acc c : forallb (fun o => negb (ends_in [c] o)) l = true -> existsb (String.eqb (snoc acc c)) l = false.
Proof.
  intros H. apply not_true_is_false. intros X. apply existsb_exists in X as (o & I & E). apply String.eqb_eq in E.
  rewrite forallb_forall in H. specialize (H _ I). rewrite <- E, ends_in_snoc in H. discriminate.
Qed.
Lemma lex_step_special st c : in_literal st = false -> is_newline c || is_slash c = true ->
  lex_step st c = None.
Proof.
  intros L H. assert (c = ch 10 \/ c = "/"%char) as [-> | ->].
  { apply orb_true_iff in H as [H|H]; apply Ascii.eqb_eq in H; auto. }
  - destruct st; try discriminate L; try reflexivity; cbn [lex_step].
    + change (is_ident_byte (ch 10) || Ascii.eqb (ch 10) "." || (exponent acc && (Ascii.eqb (ch 10) "+" || Ascii.eqb (ch 10) "-")))
        with (exponent acc && false). rewrite andb_false_r. reflexivity.
    + rewrite !no_operator by reflexivity. reflexivity.
  - destruct st; try discriminate L; try reflexivity; cbn [lex_step].
    + change (is_ident_byte "/" || Ascii.eqb "/" "." || (exponent acc && (Ascii.eqb "/" "+" || Ascii.eqb "/" "-")))
        with (exponent acc && false). rewrite andb_false_r. reflexivity.
    + rewrite !no_operator by reflexivity. reflexivity.
Qed.
Lemma ends_after_app e a b : ends_after e (a ++ b) = ends_after (ends_after e a) b.
Proof. apply fold_left_app. Qed.
Lemma flexer_lrun s : forall st e rest ts st', lrun st s = Some (ts, st') ->
  flexer (FCode st e) (s ++ rest) = omap (app ts) (flexer (FCode st' (ends_after e ts)) rest).
Proof.
  induction s as [|c s IH]; intros st e rest ts st' H; cbn [append lrun] in *.
  - injection H as <- <-. rewrite omap_nil. auto.
  - destruct (lex_step st c) as [[us st1]|] eqn:E; [|discriminate].
    destruct (lrun st1 s) as [[vs st2]|] eqn:R; [|discriminate]. injection H as <- <-.
    cbn [flexer fstep].
    destruct (negb (in_literal st) && (is_newline c || is_slash c)) eqn:N.
    + apply andb_true_iff in N as [N1 N2]. apply negb_true_iff in N1.
      rewrite lex_step_special in E by auto. discriminate.
    + rewrite E. erewrite IH by eauto. rewrite omap_app_app, ends_after_app. auto.
Qed.
Lemma flexer_ident acc e rest : bounded rest = true ->
  flexer (FCode (LIdent acc) e) rest =
  omap (app [ident_token acc]) (flexer (FCode LStart (ends_after e [ident_token acc])) rest).
Proof.
  destruct rest as [|c r]; intros B.
  - cbn [flexer fend lex_end]. cbn. auto.
  - cbn [bounded] in B. apply negb_true_iff in B. cbn [flexer fstep in_literal negb andb].
    destruct (is_newline c || is_slash c) eqn:N.
    + cbn [lex_end]. destruct (is_newline c).
      * rewrite omap_app_app. cbn [app ends_after fold_left]. auto.
      * rewrite omap_app_app. auto.
    + cbn [lex_step]. rewrite B. unfold lex_flush.
      destruct (lex_start c) as [[us st]|]; auto. rewrite omap_app_app. auto.
Qed.
Lemma omap_app_inj (a : list token) (o : option (list token)) l :
  omap (app a) o = Some (a ++ l) -> o = Some l.
Proof. destruct o; [|discriminate]. intros [= H]. apply app_inv_head in H. subst. auto. Qed.

Definition op_state (st : lstate) : Prop :=
  match st with LOp acc => existsb (String.eqb acc) open_operators = true | _ => True end.
Lemma start_op_state c ts st : lex_start c = Some (ts, st) -> op_state st.
Proof.
  unfold lex_start. intros H.
  repeat match type of H with (if ?b then _ else _) = _ => destruct b eqn:?; [injection H as <- <-; auto; exact Logic.I|] end.
  discriminate.
Qed.
Lemma step_op_state st c ts st' : lex_step st c = Some (ts, st') -> op_state st'.
Proof.
  assert (FL : forall t, lex_flush t c = Some (ts, st') -> op_state st').
  { unfold lex_flush. intros t H. destruct (lex_start c) as [[us x]|] eqn:E; [|discriminate]. injection H as _ <-.
    eapply start_op_state; eauto. }
  destruct st; cbn [lex_step]; intros H;
  repeat match type of H with
  | (if ?b then _ else _) = _ => destruct b eqn:?
  | match ?o with Some _ => _ | None => _ end = _ => destruct o eqn:?
  end; try discriminate; eauto using start_op_state; injection H as <- <-; auto; exact Logic.I.
Qed.
Lemma lrun_op_state s : forall st ts st', op_state st -> lrun st s = Some (ts, st') -> op_state st'.
Proof.
  induction s as [|c s IH]; intros st ts st' O; cbn [lrun]; [intros [= <- <-]; exact O|].
  destruct (lex_step st c) as [[a st1]|] eqn:E; [|discriminate]. destruct (lrun st1 s) as [[b st2]|] eqn:R; [|discriminate].
  intros [= <- <-]. eapply IH; [|exact R]. eapply step_op_state; eauto.
Qed.
(** A text that may be followed by anything but an identifier byte does not end inside a number
    or an operator. *)
Lemma not_number us acc o : lexer (LNum acc) "." = o -> omap (app us) o = Some ((us ++ [number_token acc]) ++ [TOp "."]) -> False.
Proof.
  intros <- H. cbn in H. rewrite <- app_assoc in H. injection H as H.
  apply app_inv_head in H. discriminate.
Qed.
Lemma not_operator us acc : op_state (LOp acc) -> omap (app us) (lexer (LOp acc) "=") = Some ((us ++ [TOp acc]) ++ [TOp "="]) -> False.
Proof.
  cbn [op_state]. intros O. apply existsb_exists in O as (o & I & E). apply String.eqb_eq in E. subst o.
  cbn in I. repeat (destruct I as [<-|I]; [cbn; rewrite <- app_assoc; intros [= H]; apply app_inv_head in H; discriminate|]).
  destruct I.
Qed.
Lemma lexo_fo s ts : lexo s ts -> forall e, fo e s ts (ends_after e ts).
Proof.
  intros H e rest B.
  pose proof (H "" eq_refl) as H0. pose proof (H "." eq_refl) as H1. pose proof (H "=" eq_refl) as H2.
  rewrite lexer_lrun in H0. rewrite lexer_lrun in H1. rewrite lexer_lrun in H2.
  destruct (lrun LStart s) as [[us st]|] eqn:R; [|discriminate H0].
  assert (O := lrun_op_state _ LStart _ _ Logic.I R).
  erewrite flexer_lrun by eauto. cbn [lexer] in H0. cbn in H0. rewrite app_nil_r in H0.
  destruct st; cbn [lex_end omap] in H0; try discriminate H0.
  - injection H0 as <-. rewrite app_nil_r. auto.
  - injection H0 as <-. rewrite flexer_ident by auto. rewrite omap_app_app, ends_after_app. auto.
  - injection H0 as <-. exfalso. eapply not_number; [reflexivity|exact H1].
  - injection H0 as <-. exfalso. eapply not_operator; [exact O|exact H2].
  - cbn in H1. discriminate H1.
Qed.
Lemma lexc_fl s ts : lexc s ts -> forall e, fl e s ts (ends_after e ts).
Proof.
  intros H e rest.
  pose proof (H "") as H0. pose proof (H "a") as H1. pose proof (H ".") as H2. pose proof (H "=") as H3.
  rewrite lexer_lrun in H0. rewrite lexer_lrun in H1. rewrite lexer_lrun in H2. rewrite lexer_lrun in H3.
  destruct (lrun LStart s) as [[us st]|] eqn:R; [|discriminate H0].
  assert (O := lrun_op_state _ LStart _ _ Logic.I R).
  erewrite flexer_lrun by eauto. cbn [lexer] in H0. cbn in H0. rewrite app_nil_r in H0.
  destruct st; cbn [lex_end omap] in H0; try discriminate H0.
  - injection H0 as <-. rewrite app_nil_r. auto.
  - injection H0 as <-. exfalso. cbn in H1. unfold ident_token in H1 at 1 2.
    injection H1 as H1. rewrite <- app_assoc in H1. apply app_inv_head in H1. discriminate H1.
  - injection H0 as <-. exfalso. eapply not_number; [reflexivity|exact H2].
  - injection H0 as <-. exfalso. eapply not_operator; [exact O|exact H3].
  - exfalso. cbn in H2. discriminate H2.
Qed.

(** ** Line breaks and comments *)
Lemma fl_newline e : fl e newline (semi e) false.
Proof. intros r. reflexivity. Qed.
Lemma fcomment_line e l : forall rest, (forall c, In c (list_ascii_of_string l) -> is_newline c = false) ->
  flexer (FComment e) (l ++ newline ++ rest) = omap (app (semi e)) (flexer (FCode LStart false) rest).
Proof.
  induction l as [|c l IH]; intros rest H; [reflexivity|].
  cbn [append flexer fstep]. rewrite (H c) by (left; auto). rewrite omap_nil. apply IH.
  intros d D. apply H. right; auto.
Qed.

(** Results. *)
Definition frl (r : res string) (e : bool) (ts : list token) (e' : bool) : Prop :=
  exists s, r = Ok s /\ fl e s ts e'.
Definition fro (r : res string) (e : bool) (ts : list token) (e' : bool) : Prop :=
  exists s, r = Ok s /\ fo e s ts e'.
Lemma frl_fro r e ts e' : frl r e ts e' -> fro r e ts e'.
Proof. intros (s & -> & H). exists s. split; auto. apply fl_fo; auto. Qed.
Lemma frl_app e a x e1 b y e2 : frl a e x e1 -> frl b e1 y e2 -> frl (a +++ b) e (x ++ y) e2.
Proof. intros (s & -> & A) (t & -> & B). eexists; split; [reflexivity|]. eapply fl_app; eauto. Qed.
Lemma frlo_app e a x e1 b y e2 : frl a e x e1 -> fro b e1 y e2 -> fro (a +++ b) e (x ++ y) e2.
Proof. intros (s & -> & A) (t & -> & B). eexists; split; [reflexivity|]. eapply fl_fo_app; eauto. Qed.
Lemma frol_app e a x e1 b y e2 : fro a e x e1 -> frl b e1 y e2 -> opens b -> frl (a +++ b) e (x ++ y) e2.
Proof.
  intros (s & -> & A) (t & -> & B) (u & [= <-] & NE & O). eexists; split; [reflexivity|].
  eapply fo_fl_app; eauto.
Qed.
Lemma fro_app e a x e1 b y e2 : fro a e x e1 -> fro b e1 y e2 -> opens b -> fro (a +++ b) e (x ++ y) e2.
Proof.
  intros (s & -> & A) (t & -> & B) (u & [= <-] & NE & O). eexists; split; [reflexivity|].
  eapply fo_fo_app; eauto.
Qed.
Lemma frl_nil e : frl (W "") e [] e.
Proof. exists "". split; auto. apply fl_nil. Qed.
Lemma frl_newline e : frl (W newline) e (semi e) false.
Proof. exists newline. split; auto. apply fl_newline. Qed.
Lemma opens_newline : opens (W newline).
Proof. exists newline. repeat split; discriminate. Qed.
Lemma renders_fro r ts : renders r ts -> forall e, fro r e ts (ends_after e ts).
Proof. intros (s & -> & H) e. exists s. split; auto. apply lexo_fo; auto. Qed.
Lemma rendersc_frl r ts : rendersc r ts -> forall e, frl r e ts (ends_after e ts).
Proof. intros (s & -> & H) e. exists s. split; auto. apply lexc_fl; auto. Qed.
Lemma frl_tokens r ts e' : frl r false ts e' -> exists s, r = Ok s /\ tokens s = Some (ts ++ semi e').
Proof.
  intros (s & -> & H). exists s. split; auto. specialize (H ""). rewrite append_nil_r in H.
  unfold tokens. rewrite H. cbn. auto.
Qed.
