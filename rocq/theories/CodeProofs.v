(** Proofs about the reading of code with references: C101. *)
From Coq Require Import Lia.
From Verif Require Import Base BaseFacts GoPath Utf8 Quote Types SpecTypes TypesFacts Imports SpecImports ImportsProofs ImportsTheorems SpecLit LitProofs Conv Fmt World SpecWorld
  WorldProofs SpecGo SpecRender LexProofs TextProofs ParseProofs TextTheorems SpecFile FileLexProofs SpecDecl SpecQualify QualifyProofs QualifyTheorems SourceProofs SourceTheorems
  SpecBuild SpecFormat FormatProofs QualifyExamples FileTheorems SpecScope CodeTokens SpecCode.

(** ** Scanning *)
Lemma omap_some_app (a : list token) (o : option (list token)) l : o = Some l -> omap (app a) o = Some (a ++ l).
Proof. intros ->. reflexivity. Qed.
Lemma scan_flexer x : forall s ts s' rest, scan s x = Some (ts, s') -> flexer s (x ++ rest) = omap (app ts) (flexer s' rest).
Proof.
  induction x as [|c x IH]; intros s ts s' rest H; cbn [scan append flexer] in *.
  - injection H as <- <-. rewrite omap_nil. auto.
  - destruct (fstep s c) as [[t1 s1]|]; [|discriminate]. cbn [obind] in H. destruct (scan s1 x) as [[t2 s2]|] eqn:E; [|discriminate].
    injection H as <- <-. rewrite (IH _ _ _ _ E), omap_app_app. auto.
Qed.
(** a letter, a digit or a quote *)
Definition quiet (c : ascii) : bool := is_ident_byte c || Ascii.eqb c (ch 34).
Lemma ends_op l acc c : forallb (fun o => negb (match rev (list_ascii_of_string o) with d :: _ => quiet d | [] => false end)) l = true -> quiet c = true ->
  existsb (String.eqb (snoc acc c)) l = false.
Proof.
  intros H Q. apply not_true_is_false. intros X. apply existsb_exists in X as (o & I & E). apply String.eqb_eq in E.
  rewrite forallb_forall in H. specialize (H _ I). rewrite <- E in H. unfold snoc in H.
  assert (L : forall s, list_ascii_of_string (s ++ String c "") = list_ascii_of_string s ++ [c]) by (induction s; cbn; congruence).
  rewrite L, rev_app_distr in H. cbn in H. rewrite Q in H. discriminate.
Qed.
Lemma quiet_plain c : quiet c = true -> is_newline c || is_slash c = false /\ Ascii.eqb c "*" = false /\ Ascii.eqb c "=" = false.
Proof. intros H. destruct c as [[] [] [] [] [] [] [] []]; vm_compute in H; try discriminate; vm_compute; auto. Qed.
Lemma pending_flush s ts c rest : pending s = Some ts -> quiet c = true ->
  exists e, flexer s (String c rest) = omap (app ts) (flexer (FCode LStart e) (String c rest)).
Proof.
  intros P Q. destruct (quiet_plain c Q) as (NS & ST & EQ). assert (NS' := NS). apply orb_false_iff in NS' as [NN NSL].
  destruct s as [st e|e|e|b e|b e]; try discriminate.
  - destruct st; try discriminate; injection P as <-.
    + exists e. rewrite omap_nil. auto.
    + exists (ends_after e [TOp acc]). cbn [flexer fstep in_literal negb andb lex_step]. rewrite NS.
      rewrite !ends_op by (auto; reflexivity). unfold lex_flush. destruct (lex_start c) as [[us st]|]; auto. rewrite omap_app_app. auto.
  - injection P as <-. exists (ends_after e [TOp "/"]). cbn [flexer fstep in_literal negb andb lex_step]. rewrite NSL, ST, EQ, NN. cbn [orb].
    unfold lex_flush. destruct (lex_start c) as [[us st]|]; auto. rewrite omap_app_app. auto.
Qed.

(** ** Numbers *)
Lemma flexer_digits s : forall acc e rest, all_digits s = true ->
  flexer (FCode (LNum acc) e) (s ++ rest) = flexer (FCode (LNum (acc ++ s)) e) rest.
Proof.
  induction s as [|c s IH]; intros acc e rest H; cbn [append]; [rewrite append_nil_r; auto|].
  cbn [all_digits] in H. apply andb_true_iff in H as [H1 H2].
  assert (NS : is_newline c || is_slash c = false).
  { clear - H1. destruct c as [[] [] [] [] [] [] [] []]; vm_compute in H1; try discriminate; reflexivity. }
  cbn [flexer fstep in_literal negb andb lex_step]. rewrite NS. unfold is_ident_byte. rewrite H1, orb_true_r. cbn [orb].
  rewrite omap_nil. cbn [ends_after fold_left]. rewrite IH by auto. unfold snoc. rewrite append_assoc. auto.
Qed.
Lemma ends_in_digits l s : all_digits s = true -> forallb (fun c => negb (is_digit_byte c)) l = true -> ends_in l s = false.
Proof.
  intros D F. induction s as [|c s IH]; [reflexivity|]. cbn [all_digits] in D. apply andb_true_iff in D as [D1 D2].
  cbn [ends_in]. destruct s as [|c' s]; [|auto]. apply not_true_is_false. intros X. apply existsb_exists in X as (d & I & E).
  apply Ascii.eqb_eq in E. subst d. rewrite forallb_forall in F. specialize (F _ I). rewrite D1 in F. discriminate.
Qed.
Lemma exponent_digits s : all_digits s = true -> exponent s = false.
Proof.
  intros D. unfold exponent. destruct s as [|c [|x s]]; [reflexivity|..].
  - destruct c as [[] [] [] [] [] [] [] []]; apply ends_in_digits; auto.
  - assert (A : ends_in ["p"; "P"]%char (String c (String x s)) = false) by (apply ends_in_digits; auto).
    assert (B : ends_in ["e"; "E"]%char (String c (String x s)) = false) by (apply ends_in_digits; auto).
    destruct c as [[] [] [] [] [] [] [] []]; auto. destruct (_ || _); auto.
Qed.
Lemma flexer_number d e rest : SpecGo.number d = true -> match rest with String c _ => ends_number c | EmptyString => true end = true ->
  flexer (FCode LStart e) (d ++ rest) = omap (app [TInt d]) (flexer (FCode LStart true) rest).
Proof.
  destruct d as [|c d]; [discriminate|]. intros N R. assert (H := N). cbn [SpecGo.number] in H.
  apply andb_true_iff in H as [H _]. apply andb_true_iff in H as [H1 H2].
  assert (NS : is_newline c || is_slash c = false).
  { clear - H1. destruct c as [[] [] [] [] [] [] [] []]; vm_compute in H1; try discriminate; reflexivity. }
  assert (L1 : is_letter_byte c = false).
  { clear - H1. destruct c as [[] [] [] [] [] [] [] []]; vm_compute in H1; try discriminate; reflexivity. }
  cbn [append flexer fstep in_literal negb andb lex_step]. rewrite NS. unfold lex_start. rewrite digit_not_space, L1, H1 by auto.
  rewrite omap_nil. cbn [ends_after fold_left]. rewrite flexer_digits by auto. cbn [append].
  assert (EX : exponent (String c d) = false) by (apply exponent_digits; cbn; rewrite H1, H2; auto).
  assert (NT : number_token (String c d) = TInt (String c d)) by (unfold number_token; rewrite N; auto).
  destruct rest as [|x r]; [cbn [flexer fend lex_end]; rewrite NT; reflexivity|].
  unfold ends_number in R. apply negb_true_iff, orb_false_iff in R as [R1 R2].
  cbn [flexer fstep in_literal negb andb]. destruct (is_newline x || is_slash x) eqn:S.
  - cbn [lex_end]. rewrite NT. destruct (is_newline x); rewrite omap_app_app; auto.
  - cbn [lex_step]. rewrite R1, R2, EX. cbn [orb andb]. unfold lex_flush. rewrite NT.
    destruct (lex_start x) as [[us st]|]; auto. rewrite omap_app_app. auto.
Qed.

(** ** Code: the text of every piece and how it is read *)
Lemma lexc_quote isPrint x : lexc (Quote isPrint x) [TStr x].
Proof.
  intros r. unfold Quote, dquote. rewrite !append_assoc. cbn [append lexer lex_step].
  change (lex_start (ascii_of_nat 34)) with (Some (@nil token, LStr "")). cbv iota.
  rewrite omap_nil. pose proof (interp_quote_body isPrint (String.length x) x (le_n _)) as I.
  erewrite lexer_str; [|apply le_n|exact I]. cbn [append lexer lex_step].
  change (Ascii.eqb (ascii_of_nat 34) (ch 34)) with true. cbv iota. rewrite I. auto.
Qed.
Definition first (p : ascii -> bool) (x : string) : Prop := match x with String c _ => p c = true | EmptyString => False end.
(** [text] reads as [rt] wherever a word can stand (or, if it is no word, between two tokens). *)
Definition read_as (r : reference) (rt : list token) (text : string) : Prop :=
  lexo text rt /\ closes rt /\ (starts_word r = true -> first is_letter_byte text).
Section Read.
Context {TD : Type}.
Variables (own : string) (w : World TD) (T : reference -> list token -> Prop).
Definition put_reads (v : ascii) (a : Arg) (text : string) : Prop :=
  match a with
  | AString x => (by_text v = true -> text = x) /\ (v = "q"%char -> exists isPrint, text = Quote isPrint x)
  | AInt z => in_decimal v = true -> text = if (0 <=? z)%Z then dec (Z.to_N z) else ("-" ++ dec (Z.to_N (- z)))%string
  | _ => forall r, refers_to w a = Some r -> by_text v = true -> readable own a r = true -> exists rt, T r rt /\ read_as r rt text
  end.
Definition reads (p : piece) (text : string) : Prop :=
  match p with Plain x => text = x | Put v a => put_reads v a text end.
Lemma concat_cons s l : String.concat "" (s :: l) = (s ++ String.concat "" l)%string.
Proof. destruct l; [cbn; rewrite append_nil_r; auto|reflexivity]. Qed.
Lemma next_text p l xs : Forall2 reads l xs -> next p l = true ->
  match String.concat "" xs with String c _ => p c | EmptyString => true end = true.
Proof.
  intros F. induction F as [|a x l xs H F IH]; intros N; [reflexivity|]. cbn [next] in N. rewrite concat_cons.
  destruct a as [[|c y]|v a]; cbn [reads] in H; [subst x; exact (IH N)|subst x; exact N|].
  destruct a as [y| | | | | | | | | | | | | | | | | | | | | |]; try discriminate. destruct H as [HT HQ].
  destruct (by_text v) eqn:BV; [rewrite (HT eq_refl); destruct y as [|c y]; [exact (IH N)|exact N]|].
  apply andb_true_iff in N as [VQ N]. apply Ascii.eqb_eq in VQ. destruct (HQ VQ) as (ip & ->). exact N.
Qed.
Lemma fills_toks ts : forall l us, fills T l us -> fills T (map Tok ts ++ l) (ts ++ us).
Proof. induction ts as [|t ts IH]; intros l us F; [exact F|]. cbn [map app]. constructor. auto. Qed.
Lemma fills_tokens ts : fills T (map Tok ts) ts.
Proof. induction ts; [constructor|]. cbn. constructor. auto. Qed.
Lemma items_read l : forall xs s its, Forall2 reads l xs -> items own w s l = Some its ->
  exists ts, flexer s (String.concat "" xs) = Some ts /\ fills T its ts.
Proof.
  induction l as [|p l IH]; intros xs s its F H.
  { inversion F; subst. cbn [items] in H. destruct (fend s) as [ts|] eqn:E; [|discriminate]. injection H as <-. exists ts. split; [exact E|apply fills_tokens]. }
  inversion F as [|? x ? xs' R F' E1 E2]; subst. rewrite concat_cons.
  assert (TX : forall y, x = y -> text_items s y (fun s' => items own w s' l) = Some its ->
    exists ts, flexer s (x ++ String.concat "" xs') = Some ts /\ fills T its ts).
  { intros y -> TI. unfold text_items in TI. destruct (scan s y) as [[ts s']|] eqn:SC; [|discriminate]. cbn [obind] in TI.
    destruct (items own w s' l) as [i|] eqn:EI; [|discriminate]. injection TI as <-. destruct (IH _ _ _ F' EI) as (us & EU & FU).
    exists (ts ++ us). rewrite (scan_flexer _ _ _ _ _ SC), EU. split; [reflexivity|]. apply fills_toks, FU. }
  (* a token run [rt] between a pending state and the state after an operand *)
  assert (MID : forall s x its ts rt (k : list item -> list item), pending s = Some ts ->
    (at_start s = true \/ first quiet x) ->
    (forall e, flexer (FCode LStart e) (x ++ String.concat "" xs') = omap (app rt) (flexer (FCode LStart true) (String.concat "" xs'))) ->
    (forall i us, fills T i us -> fills T (k i) (ts ++ rt ++ us)) ->
    option_map k (items own w (FCode LStart true) l) = Some its ->
    exists ts, flexer s (x ++ String.concat "" xs') = Some ts /\ fills T its ts).
  { clear s x its R TX F H. intros s x its ts rt k PE ST FX FK EI. destruct (items own w (FCode LStart true) l) as [i|] eqn:E; [|discriminate]. injection EI as <-.
    destruct (IH _ _ _ F' E) as (us & EU & FU). exists (ts ++ rt ++ us). split; [|apply FK, FU].
    destruct ST as [ST|ST].
    - destruct s as [[] e| | | |]; try discriminate. injection PE as <-. rewrite FX, EU. reflexivity.
    - destruct x as [|c x]; [destruct ST|]. cbn [append]. destruct (pending_flush s ts c (x ++ String.concat "" xs') PE ST) as (e & ->).
      change (String c (x ++ String.concat "" xs')) with (String c x ++ String.concat "" xs')%string. rewrite FX, EU. reflexivity. }
  assert (RF : forall v a, (forall y, a <> AString y) -> (forall z, a <> AInt z) -> p = Put v a ->
    obind (refers_to w a) (fun y => if by_text v && readable own a y && (at_start s || starts_word y) && next ends_word l
      then obind (pending s) (fun ts => option_map (app (map Tok ts ++ [Ref y])) (items own w (FCode LStart true) l)) else None) = Some its ->
    exists ts, flexer s (x ++ String.concat "" xs') = Some ts /\ fills T its ts).
  { intros v a NS NI -> H'. destruct (refers_to w a) as [r|] eqn:RT; [|discriminate]. cbn [obind] in H'.
    destruct (by_text v && readable own a r && (at_start s || starts_word r) && next ends_word l) eqn:B; [|discriminate].
    apply andb_true_iff in B as [B NX]. apply andb_true_iff in B as [B ST]. apply andb_true_iff in B as [BV RD].
    assert (PR : forall r, refers_to w a = Some r -> by_text v = true -> readable own a r = true -> exists rt, T r rt /\ read_as r rt x).
    { destruct a; try exact R; [destruct (NS s0); auto|destruct (NI z); auto]. }
    destruct (PR r RT BV RD) as (rt & TR & LX & CL & SW). destruct (pending s) as [ts|] eqn:PE; [|discriminate]. cbn [obind] in H'.
    eapply (MID s x its ts rt); [exact PE| | | |exact H'].
    - apply orb_true_iff in ST as [ST|ST]; [left; exact ST|right]. specialize (SW ST). destruct x as [|c x]; [destruct SW|].
      cbn in SW |- *. unfold quiet, is_ident_byte. rewrite SW. reflexivity.
    - intros e. rewrite (lexo_fo _ _ LX e); [rewrite CL; reflexivity|].
      pose proof (next_text _ _ _ F' NX) as NT. destruct (String.concat "" xs'); auto.
    - intros i us FI. rewrite <- app_assoc. apply fills_toks. cbn [app]. constructor; auto. }
  destruct p as [y|v a]; cbn [items reads] in *; [exact (TX _ R H)|].
  destruct a; try (eapply RF; [| | |exact H]; [discriminate|discriminate|reflexivity]).
  - destruct R as [RS RQ]. destruct (by_text v) eqn:BV; [exact (TX _ (RS eq_refl) H)|]. destruct (Ascii.eqb v "q") eqn:VQ; [|discriminate].
    apply Ascii.eqb_eq in VQ. subst v.
    destruct (RQ eq_refl) as (ip & ->). destruct (pending s) as [ts|] eqn:PE; [|discriminate]. cbn [obind] in H.
    eapply (MID s _ its ts [TStr s0]); [exact PE| | | |exact H].
    + right. reflexivity.
    + intros e. rewrite (lexc_fl _ _ (lexc_quote ip s0) e). reflexivity.
    + intros i us FI. rewrite map_app, <- app_assoc. apply fills_toks. constructor. exact FI.
  - destruct (in_decimal v && next ends_number l) eqn:B; [|discriminate].
    apply andb_true_iff in B as [BV NX]. specialize (R BV).
    assert (DG : forall n, first quiet (dec n)).
    { intros n. pose proof (number_dec n) as N. destruct (dec n) as [|c d]; [discriminate|]. cbn [SpecGo.number] in N.
      apply andb_true_iff in N as [N _]. apply andb_true_iff in N as [N _]. cbn. unfold quiet, is_ident_byte. rewrite N, orb_true_r. reflexivity. }
    destruct (Z.leb_spec 0 z) as [BZ|BZ]; subst x.
    + destruct (pending s) as [ts|] eqn:PE; [|discriminate]. cbn [obind] in H.
      eapply (MID s _ its ts [TInt (dec (Z.to_N z))]); [exact PE|right; apply DG| | |exact H].
      * intros e. apply flexer_number; [apply number_dec|]. apply (next_text _ _ _ F' NX).
      * intros i us FI. rewrite <- app_assoc. apply fills_toks. cbn [app]. constructor; auto. rewrite dec_number. f_equal. lia.
    + destruct (scan s "-") as [[ts s']|] eqn:SC; [|discriminate]. cbn [obind] in H.
      destruct (pending s') as [us|] eqn:PE; [|discriminate]. cbn [obind] in H.
      destruct (items own w (FCode LStart true) l) as [i|] eqn:EI; [|discriminate]. injection H as <-.
      destruct (MID s' (dec (Z.to_N (- z))) (map Tok us ++ [Num (- z)] ++ i) us [TInt (dec (Z.to_N (- z)))] (fun i => map Tok us ++ [Num (- z)] ++ i)) as (vs & EV & FV);
        [exact PE|right; apply DG| | |reflexivity|].
      * intros e. apply flexer_number; [apply number_dec|]. apply (next_text _ _ _ F' NX).
      * intros i' vs FI. apply fills_toks. cbn [app]. constructor; auto. rewrite dec_number. f_equal. lia.
      * exists (ts ++ vs). rewrite append_assoc, (scan_flexer _ _ _ _ _ SC), EV. split; [reflexivity|].
        rewrite <- app_assoc. apply fills_toks. rewrite <- app_assoc. exact FV.
Qed.
End Read.

(** ** What stands for a reference in a written file *)
Section Target.
Variables (real : string -> string) (own : string) (H : list call).
Hypothesis OK : forallb call_ok H = true.
Hypothesis HON : forall c, In c H -> honest real c.
Hypothesis US : forall c, In c H -> usable_requests c.
Notation j := (run H (NewImportsFor own)).
Notation specs := (ImportSpecs j).
(** Every package of the reference that is not the file's own stands before a dot. *)
Definition strong (r : reference) (rt : list token) : Prop :=
  (ref_tokens real own specs r rt /\ closes rt) /\
  match r with
  | RType t => forall y, In y (symbols_of t) -> has_package y = true -> sym_path y <> own ->
      exists q, refers real own specs q (sym_path y) /\ q <> "" /\ shows q rt
  | _ => True
  end.
Lemma prefix_ident path n : prefix_name j path = Some n -> n <> "" -> ident n = true.
Proof.
  intros P N. unfold prefix_name in P. destruct (String.eqb path (pkgPath j)); [injection P as <-; congruence|].
  destruct (lookup path (importsByPath j)) as [d|] eqn:L; [|discriminate]. injection P as <-.
  apply usable_ident. eapply (usable_run own H OK US); eauto.
Qed.
Lemma ident_first n : ident n = true -> first is_letter_byte n.
Proof.
  unfold ident. intros X. apply andb_true_iff in X as [X _]. destruct n as [|c n]; [discriminate|]. cbn in X. apply andb_true_iff in X as [X _]. exact X.
Qed.
Lemma first_app p x y : first p x -> first p (x ++ y).
Proof. destruct x; [intros []|auto]. Qed.
Lemma renamed_ok s : known j s -> ident (SymName s) = true -> sym_ok (rename j s) = true.
Proof.
  intros K N. unfold sym_ok. rewrite rename_name, N. cbn [andb]. unfold rename. destruct (has_package s) eqn:HP.
  - specialize (K HP). destruct (prefix_name j (sym_path s)) as [n|] eqn:Pn; [|congruence]. cbn [SymPackage PkgName].
    destruct (String.eqb_spec n "") as [->|NE]; [reflexivity|]. rewrite (prefix_ident _ _ Pn NE). reflexivity.
  - unfold has_package in HP. apply negb_false_iff, andb_true_iff in HP as [HP _]. rewrite HP. reflexivity.
Qed.
Lemma sym_ok_first s : sym_ok s = true -> first is_letter_byte (symbol_text s).
Proof.
  unfold sym_ok, symbol_text. intros X. apply andb_true_iff in X as [X Y]. destruct (String.eqb (PkgName (SymPackage s)) ""); cbn [negb append].
  - apply ident_first, X.
  - apply first_app, first_app, ident_first, Y.
Qed.
Lemma symbol_reads s s1 : sym_final j s s1 -> ident (SymName s) = true ->
  exists rt, name_tokens real own specs s rt /\ lexo (Symbol_String s1) rt /\ closes rt /\ first is_letter_byte (Symbol_String s1).
Proof.
  intros SF N. destruct (sym_final_known _ _ _ SF) as [-> K]. exists (sym_toks (rename j s)). pose proof (renamed_ok s K N) as SO.
  split.
  - unfold name_tokens, sym_toks, qualifier, rename. destruct (has_package s) eqn:HP.
    + specialize (K HP). destruct (prefix_name j (sym_path s)) as [n|] eqn:Pn; [|congruence]. cbn [SymPackage PkgName SymName].
      exists n. split; [apply prefix_refers; auto|]. destruct (String.eqb n ""); reflexivity.
    + unfold has_package in HP. apply negb_false_iff, andb_true_iff in HP as [HP _]. rewrite HP. reflexivity.
  - destruct (ro_symbol _ SO) as (x & E & L). rewrite Symbol_String_text. unfold W in E. injection E as E. rewrite <- E in L.
    split; [exact L|]. split; [apply sym_closes|]. apply sym_ok_first, SO.
Qed.
Lemma package_reads p n i i' : Inv i -> registerPackage p i = (Ok n, i') -> ext i' j -> ImportPath p <> own ->
  exists rt, ref_tokens real own specs (RPackage p) rt /\ lexo n rt /\ closes rt /\ first is_letter_byte n.
Proof.
  intros Ij E X NO. pose proof (package_written real own H p n i i' OK HON Ij E X) as R.
  assert (NE : n <> "") by (intros ->; unfold refers in R; cbn in R; contradiction).
  assert (ID : ident n = true).
  { apply (prefix_ident (ImportPath p)); auto. eapply prefix_name_ext; [exact X|].
    unfold registerPackage, RegisterImportForPackage, RegisterImport, sbind, sret in E.
    destruct (prefix_reg i (ImportPath p) (PkgName p) Ij) as (k & i1 & E1 & I1 & X1 & P & _).
    rewrite E1, strip_with_dot in E. injection E as <- <-. exact P. }
  exists [TIdent n]. split; [exists n; auto|]. split; [apply lexo_ident, ID|]. split; [apply closes_one; reflexivity|]. apply ident_first, ID.
Qed.
Lemma buffer_first isPrint t s : wf t = true -> text_ok t = true -> starts_word (RType t) = true -> typeNameToBuffer isPrint t = Ok s -> first is_letter_byte s.
Proof.
  assert (AP : forall a b, (forall x, a = Ok x -> first is_letter_byte x) -> forall x, a +++ b = Ok x -> first is_letter_byte x).
  { intros [a|] [b|] Fa x E; try discriminate. injection E as <-. apply first_app. auto. }
  assert (WS : forall a x, first is_letter_byte a -> W a = Ok x -> first is_letter_byte x) by (intros a x Fa [= <-]; exact Fa).
  destruct t; cbn [wf text_ok starts_word typeNameToBuffer]; intros WF X SW E; try discriminate; revert E;
    try (repeat apply AP; intros; eapply WS; [|eassumption]; exact (eq_refl true)).
  - intros [= <-]. clear - WF. destruct k; try discriminate WF; exact (eq_refl true).
  - intros [= <-]. apply sym_ok_first, X.
  - apply negb_true_iff in SW. change RecvDir with 1%Z. rewrite SW. intros E. apply (AP (W "chan") (W (if (dir =? SendDir)%Z then "<-" else "") +++ W " " +++ typeNameToBuffer isPrint t));
      [|rewrite <- E; set (y := W "chan" +++ _); destruct y; reflexivity].
    intros; eapply WS; [|eassumption]; exact (eq_refl true).
Qed.
Lemma type_reads isPrint t t1 : type_final j t t1 -> wf t = true -> text_ok t = true ->
  exists x rt, typeNameToString isPrint t1 = Ok x /\ strong (RType t) rt /\ read_as (RType t) rt x.
Proof.
  intros TF W X. destruct (type_final_wf _ _ _ TF W) as [-> K].
  assert (TX : text_ok (map_symbols (rename j) t) = true).
  { apply text_ok_map; auto. intros s IN. apply (rename_ok own H OK US); auto. }
  assert (WM : wf (map_symbols (rename j) t) = true) by (rewrite wf_map; auto).
  destruct (type_renders isPrint _ WM TX) as [(x & E & L) _]. exists x, (toks (map_symbols (rename j) t)).
  rewrite string_is_buffer. split; [exact E|]. split; [split|].
  - split; [|apply type_closes, WM]. exists (denote (map_symbols (rename j) t)). split; [apply ptype_all; auto|].
    apply resolve_denote. apply Forall_forall. intros y IN. apply known_good_sym; auto.
  - intros y IN HP NO. specialize (K y IN HP). destruct (prefix_name j (sym_path y)) as [n|] eqn:Pn; [|congruence].
    pose proof (prefix_refers real own H OK HON _ _ Pn) as R. exists n. split; [exact R|].
    assert (NE : n <> "") by (intros ->; unfold refers in R; cbn in R; contradiction). split; [exact NE|].
    apply (type_shows _ WM (rename j y)).
    + rewrite (g_syms _ _ _ _ _ (ImportsProofs.good_type t)). apply in_map, IN.
    + unfold qualifier, rename. rewrite HP, Pn. cbn [SymPackage PkgName]. destruct (String.eqb_spec n ""); [contradiction|reflexivity].
  - split; [exact L|]. split; [apply type_closes, WM|]. intros SW. eapply buffer_first; eauto.
    destruct t; try exact SW; try reflexivity; discriminate.
Qed.
Lemma target_reads {TD} (env : Env TD) (w w1 : World TD) a t r i i' a1 verb :
  by_text verb = true -> arg_target w a = Ok t -> target_reference t = Some r -> Inv i -> target_act a t i = (Ok a1, i') -> ext i' j ->
  readable own a r = true -> exists rt, strong r rt /\ read_as r rt (fmt_arg env w1 verb a1).
Proof.
  intros V AT TR Ij TA X RD.
  assert (SV : forall x, fmt_arg env w1 verb x = match arg_string env w1 x with Some r => caught verb r | None => fmt_arg env w1 verb x end).
  { intros x. unfold fmt_arg at 1. unfold by_text in V. rewrite V. destruct (arg_string env w1 x) eqn:AS; [reflexivity|]. unfold fmt_arg. rewrite AS, V. auto. }
  destruct t as [p|s|m|s|t|p|]; cbn [target_act target_reference] in *; unfold sbind, sret in TA; injection TR as <- || discriminate TR; cbn [readable] in RD.
  - destruct (registerPackage p i) as [[n|] i2] eqn:RP; [|discriminate]. injection TA as TA <-.
    apply negb_true_iff, String.eqb_neq in RD. destruct (package_reads p n i i2 Ij RP X RD) as (rt & RT & L & C & FI).
    exists rt. split; [split; auto|].
    assert (ET : fmt_arg env w1 verb a1 = n); [|rewrite ET; repeat split; auto].
    rewrite SV. destruct (String.eqb_spec n (PkgName p)) as [E|E]; cbn [negb] in TA; subst a1; [|reflexivity].
    assert (AP : a = APackage p \/ a = APackagePtr p).
    { destruct a; cbn [arg_target] in AT; auto; unfold rbind in AT;
      repeat match type of AT with context [match ?x with _ => _ end] => destruct x; try discriminate end;
      try discriminate AT; injection AT as ->; auto. }
    rewrite E. destruct AP as [-> | ->]; reflexivity.
  - destruct (EnsureImported s i) as [[s1|] i2] eqn:EI; [|discriminate]. injection TA as <- <-.
    destruct (symbol_reads s s1) as (rt & RT & L & C & FI); [exists i, i2; auto|exact RD|].
    exists rt. split; [split; [split; [exact RT|exact C]|exact Logic.I]|]. rewrite SV. cbn [arg_string caught]. repeat split; auto.
  - destruct (EnsureImported (MRType m) i) as [[s1|] i2] eqn:EI; [|discriminate]. injection TA as TA <-.
    apply andb_true_iff in RD as [RD BV]. apply andb_true_iff in RD as [RN RM].
    destruct (symbol_reads (MRType m) s1) as (rt & RT & L & C & FI); [exists i, i2; auto|exact RN|].
    exists (rt ++ [TOp "."; TIdent (MRMethod m)]). split; [split; [split; [exists rt; auto|apply closes_app, closes_cons, closes_one; reflexivity]|exact Logic.I]|].
    assert (ET : fmt_arg env w1 verb a1 = (Symbol_String s1 ++ "." ++ MRMethod m)%string).
    { rewrite SV. destruct (symbol_eqb s1 (MRType m)) eqn:EQ; cbn [negb] in TA; subst a1; [|reflexivity].
      apply symbol_eqb_eq in EQ. subst s1. destruct a; cbn in BV; try discriminate; cbn [arg_target] in AT; injection AT as <-; reflexivity. }
    rewrite ET. split; [|split; [apply closes_app, closes_cons, closes_one; reflexivity|intros _; apply first_app, FI]].
    apply lexo_lexo_app; [exact L| |discriminate|reflexivity].
    destruct (ro_symbol (mkSymbol (mkPackage "" "x") (MRMethod m))) as (y & EY & LY); [unfold sym_ok; cbn [SymName SymPackage PkgName]; rewrite RM; reflexivity|].
    unfold W, symbol_text, sym_toks, qualifier in *. cbn in EY, LY. injection EY as <-. clear - LY.
    intros rest B. specialize (LY rest B). cbn [append] in LY |- *. cbn [lexer lex_step] in LY.
    change (lex_start "x") with (Some (@nil token, LIdent "x")) in LY. cbv iota in LY. rewrite omap_nil in LY. cbn [lexer lex_step] in LY.
    change (is_ident_byte ".") with false in LY. cbv iota in LY. unfold lex_flush in LY. change (lex_start ".") with (Some (@nil token, LDot)) in LY. cbv iota in LY.
    cbn [lexer lex_step]. change (lex_start ".") with (Some (@nil token, LDot)). cbv iota. rewrite omap_nil.
    destruct (lexer LDot (MRMethod m ++ rest)) as [u|], (lexer LStart rest) as [v|]; cbn in *; congruence.
  - discriminate.
  - destruct (EnsureTypeImported t i) as [[[t1 c]|] i2] eqn:EI; [|discriminate]. injection TA as <- <-.
    apply andb_true_iff in RD as [W T]. destruct (type_reads (isPrint env) t t1) as (x & rt & E1 & ST & RA); auto. { exists c, i, i2. auto. }
    exists rt. split; [exact ST|]. rewrite SV. cbn [arg_string]. rewrite E1. exact RA.
  - destruct (registerPackage p i) as [[n|] i2] eqn:RP; [|discriminate]. injection TA as <- <-.
    apply negb_true_iff, String.eqb_neq in RD. destruct (package_reads p n i i2 Ij RP X RD) as (rt & RT & L & C & FI).
    exists rt. split; [split; auto|]. rewrite SV. cbn [arg_string caught]. repeat split; auto.
Qed.
End Target.

(** ** The blocks of a written file *)
Lemma fills_mono (T T' : reference -> list token -> Prop) l ts : (forall r us, T r us -> T' r us) -> fills T l ts -> fills T' l ts.
Proof. intros M F. induction F; econstructor; eauto. Qed.
Lemma concat_app l m : String.concat "" (l ++ m) = (String.concat "" l ++ String.concat "" m)%string.
Proof. induction l as [|x l IH]; [reflexivity|]. cbn [app]. rewrite !concat_cons, IH, append_assoc. auto. Qed.
Section Block.
Context {TD : Type}.
Variables (env : Env TD) (real : string -> string) (own : string) (h : list call) (fuel f : nat) (w : World TD) (F : GoFile)
  (s : string) (w1 : World TD).
Hypothesis P : prepared real own h w f F.
Hypothesis S : source env fuel f w = (Ok s, w1).
Lemma blocks_read :
  exists H F1, nth_error (files w1) f = Some F1 /\ FImports F1 = run H (NewImportsFor own) /\
  forall cb ls z its, part_of w f (IBlock cb) -> formatted w cb ls -> items own w (FCode LStart false) (concat ls ++ [Plain z]) = Some its ->
    exists text ts, block_text env w1 cb = Some text /\ tokens (text ++ z) = Some ts /\ fills (strong real own H) its ts.
Proof.
  pose proof P as (EF & EI & OK & HON & US & NT & HR). destruct (source_split _ _ _ _ _ _ S) as (Q & _).
  assert (IF : Inv (FImports F)) by (rewrite EI; apply run_new_Inv).
  pose proof (no_templates_ok env w f (fun r => right_name real r /\ usable_name r) NT) as TO.
  destruct (history_after env real own h fuel f w w1 F EF EI OK HON US TO HR Q) as (H & F1 & E1 & EI1 & _ & EH & OK1 & HON1 & US1).
  exists H, F1. split; [exact E1|]. split; [congruence|]. intros cb ls z its PB (b & EB & FB) IT.
  assert (BB : blocks w1 = blocks w).
  { change (blocks (skel w1) = blocks (skel w)). erewrite skel_after; eauto. }
  (* a line *)
  assert (LN : forall n l args, nth_error b n = Some (Line (format_of l) args) -> nth_error (argss w) args = Some (args_of l) -> verbs_ok l ->
    exists xs, Forall2 (reads own w (strong real own H)) l xs /\ codeElement_writeTo env w1 (Line (format_of l) args) = Ok (String.concat "" xs)).
  { intros n l args EN EA V.
    destruct (nth_after env fuel f w w1 F _ EF IF TO HR Q argss er_args args _ (fun _ => eq_refl) EA) as (l1 & EA1 & ER).
    assert (L : List.length l1 = List.length (args_of l)).
    { apply (f_equal (@List.length _)) in ER. unfold er_args in ER. rewrite !map_length in ER. congruence. }
    assert (X : forall k a v, nth_error (args_of l) k = Some a -> exists a1, nth_error l1 k = Some a1 /\
                put_reads own w (strong real own H) v a (fmt_arg env w1 v a1)).
    { intros k a v K.
      assert (A : argument w cb n k = Some a). { unfold argument, obind. rewrite EB, EN, EA. auto. }
      assert (A1 : forall a1, argument w1 cb n k = Some a1 -> nth_error l1 k = Some a1).
      { unfold argument, obind. rewrite BB, EB, EN, EA1. auto. }
      destruct (arg_after env fuel f w w1 F _ EF IF TO HR Q cb n k a PB A) as (a1 & t & j & j' & B1 & AT & Ij & TA & EX). rewrite EH in EX.
      exists a1. split; auto. unfold put_reads. destruct a.
      all: try (intros r RF SV RD; rewrite refers_target, AT in RF; eapply target_reads; eauto).
      - cbn in AT. injection AT as <-. cbn in TA. injection TA as <- <-. split.
        + intros B. unfold fmt_arg. unfold by_text in B. rewrite B. reflexivity.
        + intros ->. exists (isPrint env). reflexivity.
      - cbn in AT. injection AT as <-. cbn in TA. injection TA as <- <-. intros B. unfold fmt_arg. cbn [arg_string]. unfold in_decimal in B. rewrite B.
        unfold decZ. destruct (Z.ltb_spec z0 0), (Z.leb_spec 0 z0); try lia; reflexivity. }
    exists (shown (fmt_arg env w1) l l1). split.
    - clear EA EN V ER EA1. revert l1 L X. induction l as [|[t|v a] l IH]; intros l1 L X; cbn [shown].
      + constructor.
      + constructor; [reflexivity|]. apply IH; auto.
      + destruct l1 as [|a1 l1]; [discriminate|]. constructor.
        * destruct (X 0 a v eq_refl) as (a2 & [= <-] & PT). exact PT.
        * apply IH; [cbn in L; lia|]. intros k b0 v0 K. apply (X (Datatypes.S k) b0 v0 K).
    - unfold codeElement_writeTo, rd. rewrite EA1. cbn [rbind]. f_equal. apply Fprintf_pieces; auto. }
  (* the block *)
  assert (BL : exists xs, Forall2 (reads own w (strong real own H)) (concat ls) xs /\ concat_res (map (codeElement_writeTo env w1) b) = Ok (String.concat "" xs)).
  { clear EB IT. assert (LN' : forall e l args, In e b -> e = Line (format_of l) args -> nth_error (argss w) args = Some (args_of l) -> verbs_ok l ->
      exists xs, Forall2 (reads own w (strong real own H)) l xs /\ codeElement_writeTo env w1 e = Ok (String.concat "" xs)).
    { intros e l args IN -> . apply In_nth_error in IN as (n & EN). eauto. }
    clear LN. induction FB as [|e l b ls (args & EE & EA & V) FB IH]; [exists []; split; [constructor|reflexivity]|].
    destruct (LN' e l args (or_introl eq_refl) EE EA V) as (xs & FX & EX). destruct IH as (ys & FY & EY); [intros; eapply LN'; eauto; right; auto|].
    exists (xs ++ ys). split; [apply Forall2_app; auto|]. cbn [map concat_res]. rewrite EX. cbn [rbind]. rewrite EY, concat_app. reflexivity. }
  destruct BL as (xs & FX & EX). exists (String.concat "" xs).
  destruct (items_read own w (strong real own H) (concat ls ++ [Plain z]) (xs ++ [z]) (FCode LStart false) its) as (ts & ET & FT); auto.
  { apply Forall2_app; auto. repeat constructor. }
  exists ts. split; [|split; [|exact FT]].
  - unfold block_text, CodeBlock_writeTo, rd. rewrite BB, EB. cbn [rbind]. rewrite EX. reflexivity.
  - unfold tokens. rewrite concat_app in ET. exact ET.
Qed.
Lemma code_read :
  exists F1, nth_error (files w1) f = Some F1 /\
  forall cb ls z its, part_of w f (IBlock cb) -> formatted w cb ls -> items own w (FCode LStart false) (concat ls ++ [Plain z]) = Some its ->
    exists text ts, block_text env w1 cb = Some text /\ tokens (text ++ z) = Some ts /\
      fills (ref_tokens real own (ImportSpecs (FImports F1))) its ts.
Proof.
  destruct blocks_read as (H & F1 & E1 & EI & R). exists F1. split; auto. intros cb ls z its PB FM IT.
  destruct (R cb ls z its PB FM IT) as (x & ts & A & B & C). exists x, ts. split; auto. split; auto. rewrite EI.
  eapply fills_mono; [|exact C]. intros r us [[Y _] _]. exact Y.
Qed.
End Block.
