(** Lexing the text of a type. *)
From Coq Require Import ZifyN ZifyBool DecimalString Decimal DecimalN.
From Verif Require Import Base BaseFacts Utf8 Quote SpecLit LitProofs Types SpecTypes TypesFacts
  SpecImports SpecGo SpecRender.

(** [lexc s ts]: [s] is the spelling of [ts] whatever follows.
    [lexo s ts]: the same unless an identifier byte follows. *)
Definition lexc (s : string) (ts : list token) : Prop :=
  forall rest, lexer LStart (s ++ rest) = omap (app ts) (lexer LStart rest).
Definition bounded (s : string) : bool :=
  match s with EmptyString => true | String c _ => negb (is_ident_byte c) end.
Definition lexo (s : string) (ts : list token) : Prop :=
  forall rest, bounded rest = true ->
    lexer LStart (s ++ rest) = omap (app ts) (lexer LStart rest).

Lemma omap_app_app (a b : list token) o : omap (app a) (omap (app b) o) = omap (app (a ++ b)) o.
Proof. destruct o; simpl; auto. rewrite app_assoc. auto. Qed.
Lemma omap_nil (o : option (list token)) : omap (app []) o = o.
Proof. destruct o; auto. Qed.

Lemma lexc_nil : lexc "" [].
Proof. intros r. cbn [append]. rewrite omap_nil. auto. Qed.
Lemma lexc_lexo s ts : lexc s ts -> lexo s ts.
Proof. intros H r _. apply H. Qed.
Lemma lexc_app a x b y : lexc a x -> lexc b y -> lexc (a ++ b) (x ++ y).
Proof. intros A B r. rewrite append_assoc, A, B, omap_app_app. auto. Qed.
Lemma lexc_lexo_app a x b y : lexc a x -> lexo b y -> lexo (a ++ b) (x ++ y).
Proof. intros A B r H. rewrite append_assoc, A, B, omap_app_app by auto. auto. Qed.
Lemma bounded_app b r : b <> "" -> bounded b = true -> bounded (b ++ r) = true.
Proof. destruct b; [congruence|auto]. Qed.
Lemma lexo_lexc_app a x b y : lexo a x -> lexc b y -> b <> "" -> bounded b = true ->
  lexc (a ++ b) (x ++ y).
Proof.
  intros A B NE BB r. rewrite append_assoc, A, B, omap_app_app; auto. apply bounded_app; auto.
Qed.
Lemma lexo_lexo_app a x b y : lexo a x -> lexo b y -> b <> "" -> bounded b = true ->
  lexo (a ++ b) (x ++ y).
Proof.
  intros A B NE BB r R. rewrite append_assoc, A, B, omap_app_app; auto. apply bounded_app; auto.
Qed.

(** Identifiers *)
Lemma lexer_ident s : forall acc rest, all_ident_bytes s = true -> bounded rest = true ->
  lexer (LIdent acc) (s ++ rest) = omap (app [ident_token (acc ++ s)]) (lexer LStart rest).
Proof.
  induction s as [|c s IH]; cbn [append]; intros acc rest H B.
  - rewrite append_nil_r. destruct rest as [|c r]; [reflexivity|].
    cbn [lexer lex_step]. cbn [bounded] in B. apply negb_true_iff in B. rewrite B.
    unfold lex_flush. destruct (lex_start c) as [[ts st]|]; auto.
    rewrite omap_app_app. auto.
  - cbn [all_ident_bytes] in H. apply andb_true_iff in H as [H1 H2].
    cbn [lexer lex_step]. unfold is_ident_byte. rewrite H1, IH, omap_nil by auto.
    unfold snoc. rewrite append_assoc. auto.
Qed.
Lemma letter_not_space c : is_letter_byte c = true -> is_blank c = false.
Proof.
  intros H. unfold is_blank. destruct (Ascii.eqb_spec c " "); [subst; discriminate|].
  destruct (Ascii.eqb_spec c (ch 9)); [subst; discriminate|]. destruct (Ascii.eqb_spec c (ch 13)); [subst; discriminate|]. auto.
Qed.
Lemma digit_not_space c : is_digit_byte c = true -> is_blank c = false.
Proof.
  intros H. unfold is_blank. destruct (Ascii.eqb_spec c " "); [subst; discriminate|].
  destruct (Ascii.eqb_spec c (ch 9)); [subst; discriminate|]. destruct (Ascii.eqb_spec c (ch 13)); [subst; discriminate|]. auto.
Qed.
Lemma lexo_word s : legal_ident s = true -> lexo s [ident_token s].
Proof.
  destruct s as [|c s]; [discriminate|]. cbn [legal_ident]. intros H r B.
  apply andb_true_iff in H as [H1 H2]. cbn [append lexer lex_step]. unfold lex_start.
  rewrite letter_not_space, H1, omap_nil by auto. rewrite lexer_ident by auto. auto.
Qed.
Lemma lexo_ident s : ident s = true -> lexo s [TIdent s].
Proof.
  unfold ident. intros H. apply andb_true_iff in H as [H1 H2]. apply negb_true_iff in H2.
  pose proof (lexo_word s H1) as L. unfold ident_token in L. rewrite H2 in L. auto.
Qed.

(** Numbers *)
Lemma lexer_int s : forall acc rest, all_digits s = true -> number (acc ++ s) = true ->
  lexer (LNum acc) (s ++ String "]" rest) =
  omap (app [TInt (acc ++ s); TOp "]"]) (lexer LStart rest).
Proof.
  induction s as [|c s IH]; cbn [append]; intros acc rest H Z.
  - rewrite append_nil_r in *. cbn [lexer lex_step].
    change (is_ident_byte "]" || Ascii.eqb "]" "." || (exponent acc && (Ascii.eqb "]" "+" || Ascii.eqb "]" "-")))
      with (exponent acc && false). rewrite andb_false_r. unfold number_token. rewrite Z. reflexivity.
  - cbn [all_digits] in H. apply andb_true_iff in H as [H1 H2].
    cbn [lexer lex_step]. unfold is_ident_byte. rewrite H1, orb_true_r. cbn [orb].
    assert (E : ((snoc acc c) ++ s)%string = (acc ++ String c s)%string) by (unfold snoc; rewrite append_assoc; auto).
    rewrite IH, omap_nil, E; auto. rewrite E. exact Z.
Qed.
Lemma lexc_number s : number s = true -> lexc (s ++ "]") [TInt s; TOp "]"].
Proof.
  destruct s as [|c s]; [discriminate|]. intros N r. assert (H := N). cbn [number] in H.
  apply andb_true_iff in H as [H _]. apply andb_true_iff in H as [H1 H2].
  rewrite append_assoc. cbn [append].
  assert (L1 : is_letter_byte c = false) by (unfold is_letter_byte, is_digit_byte in *; lia).
  cbn [lexer lex_step]. unfold lex_start. rewrite digit_not_space, L1, H1 by auto.
  rewrite omap_nil, lexer_int; auto.
Qed.

Lemma all_digits_of_uint d : all_digits (NilEmpty.string_of_uint d) = true.
Proof. induction d; cbn; auto. Qed.
Lemma unorm_head d : match Decimal.unorm d with
  | Decimal.D0 d' => d' = Decimal.Nil | Decimal.Nil => False | _ => True end.
Proof. induction d; simpl; auto. Qed.
Lemma number_dec n : number (dec n) = true.
Proof.
  unfold dec. rewrite <- (DecimalN.Unsigned.of_to n) at 1.
  rewrite DecimalN.Unsigned.to_of. pose proof (unorm_head (N.to_uint n)) as H.
  destruct (Decimal.unorm (N.to_uint n)); try contradiction; subst; auto;
  cbn [NilZero.string_of_uint NilEmpty.string_of_uint number String.eqb]; rewrite all_digits_of_uint; auto.
Qed.

(** String literals *)
Lemma lexer_raw s : forall acc rest v, raw_body s = Some v ->
  lexer (LRaw acc) (s ++ String (ch 96) rest) =
  match raw_body (acc ++ s) with
  | Some v => omap (app [TStr v]) (lexer LStart rest)
  | None => None
  end.
Proof.
  induction s as [|c s IH]; cbn [append]; intros acc rest v H.
  - rewrite append_nil_r. cbn [lexer lex_step].
    change (Ascii.eqb (ch 96) (ch 96)) with true. cbv iota. destruct (raw_body acc); auto.
  - cbn [raw_body] in H. destruct (N.eqb_spec (code c) 96); [discriminate|].
    assert (exists v', raw_body s = Some v') as [v' V].
    { destruct (raw_body s); eauto. destruct (code c =? 13)%N; discriminate. }
    cbn [lexer lex_step]. destruct (Ascii.eqb_spec c (ch 96)); [subst; exfalso; apply n; reflexivity|].
    rewrite omap_nil. erewrite IH by eauto. unfold snoc. rewrite append_assoc. auto.
Qed.

Lemma hexval_plain c v : hexval c = Some v -> code c <> 34%N /\ code c <> 92%N /\ code c <> 10%N.
Proof. unfold hexval, between. intros H. repeat split; intros E; rewrite E in H; discriminate. Qed.
Lemma octval_plain c v : octval c = Some v -> code c <> 34%N /\ code c <> 92%N /\ code c <> 10%N.
Proof. unfold octval, between. intros H. repeat split; intros E; rewrite E in H; discriminate. Qed.
Lemma code_ch c n : (n < 256)%nat -> code c <> N.of_nat n -> Ascii.eqb c (ch n) = false.
Proof.
  intros B H. destruct (Ascii.eqb_spec c (ch n)) as [E|]; auto. exfalso. apply H. subst c.
  unfold code, ch, N_of_ascii, ascii_of_nat. apply N_ascii_embedding. lia.
Qed.
(** One ordinary byte inside an interpreted literal. *)
Lemma lexer_str_plain c acc s : code c <> 34%N -> code c <> 92%N -> code c <> 10%N ->
  lexer (LStr acc) (String c s) = lexer (LStr (snoc acc c)) s.
Proof.
  intros A B C. cbn [lexer lex_step].
  rewrite (code_ch c 34), (code_ch c 92), (code_ch c 10), omap_nil by (auto; lia). auto.
Qed.
Lemma lexer_str_esc x acc s : code x <> 10%N ->
  lexer (LStr acc) (String (ch 92) (String x s)) = lexer (LStr (snoc (snoc acc (ch 92)) x)) s.
Proof.
  intros A. cbn [lexer lex_step].
  change (Ascii.eqb (ch 92) (ch 34)) with false. change (Ascii.eqb (ch 92) (ch 92)) with true.
  cbv iota. cbn [lexer lex_step].
  rewrite (code_ch x 10), !omap_nil by (auto; lia). auto.
Qed.
Lemma hexnum_app_some l : forall a v, hexnum a l = Some v -> Forall (fun c => exists v, hexval c = Some v) l.
Proof.
  induction l as [|c l IH]; intros a v H; constructor; cbn [hexnum] in H;
  destruct (hexval c) eqn:E; try discriminate; eauto.
Qed.
Ltac inv_forall := repeat match goal with H : Forall _ (_ :: _) |- _ => inversion H; clear H; subst end.
Lemma omap_some {A B} (f : A -> B) o v : omap f o = Some v -> exists u, o = Some u.
Proof. destruct o; try discriminate; eauto. Qed.

Lemma lexer_str : forall n s, String.length s <= n -> forall acc rest v, interp_body s = Some v ->
  lexer (LStr acc) (s ++ rest) = lexer (LStr (acc ++ s)) rest.
Proof.
  induction n as [|n IH]; intros [|c s] L acc rest v H; try (simpl in L; lia);
    try (rewrite append_nil_r; reflexivity).
  simpl in L. cbn [interp_body] in H.
  destruct (N.eqb_spec (code c) 34) as [|N34]; [discriminate|].
  destruct (N.eqb_spec (code c) 10) as [|N10]; [discriminate|].
  destruct (N.eqb_spec (code c) 92) as [E92|N92].
  2:{ apply omap_some in H as [u H]. cbn [append]. rewrite lexer_str_plain by auto.
      erewrite IH by (eauto; lia). unfold snoc. rewrite append_assoc. auto. }
  assert (c = ch 92) as ->.
  { rewrite <- (ascii_N_embedding c). unfold code in E92. rewrite E92. reflexivity. }
  assert (X10 : forall x, simple_escape x <> None \/ octval x <> None \/
                          code x = 120%N \/ code x = 117%N \/ code x = 85%N -> code x <> 10%N).
  { intros x [X|[X|[X|[X|X]]]] E; try (rewrite E in X; discriminate);
    [unfold simple_escape in X|unfold octval in X]; rewrite E in X; apply X; reflexivity. }
  Ltac step_plain := rewrite lexer_str_plain by
    first [eapply hexval_plain; eassumption|eapply octval_plain; eassumption].
  Ltac fin IH := erewrite IH by (try eassumption; simpl in *; lia); unfold snoc; rewrite ?append_assoc; auto.
  destruct s as [|x [|h1 [|h2 r']]]; try discriminate.
  - destruct (simple_escape x) eqn:S; [|discriminate].
    cbn [append]. rewrite lexer_str_esc by (apply X10; left; congruence).
    unfold snoc. rewrite !append_assoc. auto.
  - destruct (simple_escape x) eqn:S; [|discriminate]. apply omap_some in H as [u H].
    cbn [append]. rewrite lexer_str_esc by (apply X10; left; congruence).
    change (String h1 rest) with (String h1 "" ++ rest)%string. fin IH.
  - destruct (N.eqb_spec (code x) 120) as [E|_].
    { destruct (hexnum 0 [h1; h2]) eqn:HX; [|discriminate]. apply omap_some in H as [u H].
      apply hexnum_app_some in HX. inv_forall.
      repeat match goal with H : exists _, _ |- _ => destruct H end.
      cbn [append]. rewrite lexer_str_esc by (apply X10; tauto). do 2 step_plain. fin IH. }
    destruct (N.eqb_spec (code x) 117) as [E|_].
    { destruct r' as [|h3 [|h4 r'']]; try discriminate.
      destruct (hexnum 0 [h1; h2; h3; h4]) eqn:HX; [|discriminate].
      destruct (valid_rune n0); [|discriminate]. apply omap_some in H as [u H].
      apply hexnum_app_some in HX. inv_forall.
      repeat match goal with H : exists _, _ |- _ => destruct H end.
      cbn [append]. rewrite lexer_str_esc by (apply X10; tauto). do 4 step_plain. fin IH. }
    destruct (N.eqb_spec (code x) 85) as [E|_].
    { destruct r' as [|h3 [|h4 [|h5 [|h6 [|h7 [|h8 r'']]]]]]; try discriminate.
      destruct (hexnum 0 [h1; h2; h3; h4; h5; h6; h7; h8]) eqn:HX; [|discriminate].
      destruct (valid_rune n0); [|discriminate]. apply omap_some in H as [u H].
      apply hexnum_app_some in HX. inv_forall.
      repeat match goal with H : exists _, _ |- _ => destruct H end.
      cbn [append]. rewrite lexer_str_esc by (apply X10; tauto). do 8 step_plain. fin IH. }
    destruct (simple_escape x) eqn:S.
    { apply omap_some in H as [u H].
      change ((String (ch 92) (String x (String h1 (String h2 r'))) ++ rest)%string)
        with (String (ch 92) (String x (String h1 (String h2 r') ++ rest))).
      rewrite lexer_str_esc by (apply X10; left; congruence). fin IH. }
    destruct (octval x) eqn:O1; [|discriminate]. destruct (octval h1) eqn:O2; [|discriminate].
    destruct (octval h2) eqn:O3; [|discriminate].
    destruct (_ <=? 255)%N; [|discriminate]. apply omap_some in H as [u H].
    cbn [append]. rewrite lexer_str_esc by (apply X10; right; left; congruence).
    do 2 step_plain. fin IH.
Qed.

Section WithPrint.
Variable isPrint : N -> bool.
Lemma lexc_tag tag : lexc (tag_literal isPrint tag) [TStr tag].
Proof.
  intros r. unfold tag_literal. destruct (CanBackquote tag) eqn:C.
  - unfold bquote. rewrite !append_assoc. cbn [append lexer lex_step].
    change (lex_start (ascii_of_nat 96)) with (Some (@nil token, LRaw "")). cbv iota.
    rewrite omap_nil. change (ascii_of_nat 96) with (ch 96).
    pose proof (raw_can isPrint (String.length tag) tag (le_n _) C) as R.
    erewrite lexer_raw by eauto. cbn [append]. rewrite R. auto.
  - unfold Quote, dquote. rewrite !append_assoc. cbn [append lexer lex_step].
    change (lex_start (ascii_of_nat 34)) with (Some (@nil token, LStr "")). cbv iota.
    rewrite omap_nil. pose proof (interp_quote_body isPrint (String.length tag) tag (le_n _)) as I.
    erewrite lexer_str; [|apply le_n|exact I]. cbn [append lexer lex_step].
    change (Ascii.eqb (ascii_of_nat 34) (ch 34)) with true. cbv iota. rewrite I. auto.
Qed.
Lemma tag_literal_value tag : literal_value (tag_literal isPrint tag) = Some tag.
Proof.
  unfold tag_literal. destruct (CanBackquote tag) eqn:C.
  - apply (backquote_value isPrint); auto.
  - apply Quote_value.
Qed.
End WithPrint.
