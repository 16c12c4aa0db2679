(** strconv.Quote never writes a line break; the quoted text is a single token. *)
From Coq Require Import ZifyN ZifyBool.
From Verif Require Import Base BaseFacts Utf8 Quote SpecLit LitProofs Types SpecImports SpecGo LexProofs SpecFile.
Local Open Scope N_scope.
Ltac Zify.zify_post_hook ::= Z.div_mod_to_equations.

Definition no_newline (s : string) : bool := forallb (fun c => negb (is_newline c)) (list_ascii_of_string s).
Lemma no_newline_app a b : no_newline (a ++ b) = no_newline a && no_newline b.
Proof. induction a as [|c a IH]; auto. unfold no_newline in *. cbn. rewrite IH, andb_assoc. auto. Qed.
Lemma byte_not_newline n : n < 256 -> n <> 10 -> is_newline (byte_of n) = false.
Proof.
  intros B N. unfold is_newline. apply code_ch; [apply Nat.ltb_lt; reflexivity|]. rewrite code_byte_of by auto. exact N.
Qed.
Lemma cons_no_newline n s : n < 256 -> n <> 10 -> no_newline s = true -> no_newline (String (byte_of n) s) = true.
Proof. intros B N H. unfold no_newline in *. cbn. rewrite byte_not_newline by auto. exact H. Qed.
Lemma hexdigit_ok n : n < 16 -> is_newline (hexdigit n) = false.
Proof.
  intros B. unfold hexdigit. destruct (N.ltb_spec n 10); apply byte_not_newline; lia.
Qed.
Lemma hex2_ok r : r < 256 -> no_newline (hex2 r) = true.
Proof. intros B. unfold no_newline, hex2. cbn. rewrite !hexdigit_ok by lia. auto. Qed.
Lemma hex4_ok r : r < 65536 -> no_newline (hex4 r) = true.
Proof. intros B. unfold hex4. rewrite no_newline_app, !hex2_ok by lia. auto. Qed.
Section WithPrint.
Variable isPrint : N -> bool.
Lemma encode_ok r : r < 1114112 -> r <> 10 -> no_newline (EncodeRune r) = true.
Proof.
  intros B N. unfold EncodeRune. destruct (N.ltb_spec r 128).
  { apply cons_no_newline; auto; lia. }
  destruct (N.ltb_spec r 2048). { repeat apply cons_no_newline; auto; lia. }
  destruct ((1114111 <? r) || between 55296 57343 r); [reflexivity|].
  destruct (N.ltb_spec r 65536); repeat apply cons_no_newline; auto; lia.
Qed.
Lemma escaped_ok r : r < 1114112 -> no_newline (escapedRune isPrint r) = true.
Proof.
  intros B. unfold escapedRune. destruct ((r =? 34) || (r =? 92)) eqn:E.
  { unfold bs. change (String "\" (str1 r)) with ("\" ++ str1 r)%string. rewrite no_newline_app.
    apply cons_no_newline; auto; lia. }
  destruct (IsPrint isPrint r) eqn:P.
  { apply encode_ok; auto. intros ->. discriminate P. }
  destruct (r =? 7); [reflexivity|]. destruct (r =? 8); [reflexivity|]. destruct (r =? 12); [reflexivity|].
  destruct (r =? 10); [reflexivity|]. destruct (r =? 13); [reflexivity|]. destruct (r =? 9); [reflexivity|].
  destruct (r =? 11); [reflexivity|].
  destruct ((r <? 32) || (r =? 127)) eqn:E2. { rewrite no_newline_app, hex2_ok by lia. auto. }
  destruct (N.ltb_spec r 65536); rewrite no_newline_app.
  - rewrite hex4_ok by lia. auto.
  - unfold hex8. rewrite no_newline_app, !hex4_ok by lia. auto.
Qed.
Lemma decode_bound s rn w : DecodeRuneInString s = (rn, w) -> rn < 1114112.
Proof.
  destruct (string_dec s "") as [->|NE]; [intros [= <- _]; reflexivity|].
  intros E. destruct (Nat.eqb w 1 && (rn =? RuneError)) eqn:X.
  - apply andb_true_iff in X as [_ X]. apply N.eqb_eq in X. subst. reflexivity.
  - destruct (decode_encode s rn w NE E X) as (V & _). unfold valid_rune, between in V. lia.
Qed.
Lemma quote_body_ok s : forall skip, no_newline (quote_body isPrint skip s) = true.
Proof.
  induction s as [|c s IH]; intros skip; [reflexivity|]. cbn [quote_body].
  destruct skip; [|apply IH]. destruct (DecodeRuneInString (String c s)) as [rn w] eqn:E.
  destruct (Nat.eqb w 1 && (rn =? RuneError)).
  - rewrite !no_newline_app, hex2_ok by apply code_lt. rewrite IH. reflexivity.
  - rewrite no_newline_app, IH, escaped_ok; auto. eapply decode_bound; eauto.
Qed.
Lemma Quote_no_newline s : no_newline (Quote isPrint s) = true.
Proof. unfold Quote. rewrite !no_newline_app, quote_body_ok. reflexivity. Qed.
Lemma lexc_quote s : lexc (Quote isPrint s) [TStr s].
Proof.
  intros r. unfold Quote, dquote. rewrite !append_assoc. cbn [append lexer lex_step].
  change (lex_start (ascii_of_nat 34)) with (Some (@nil token, LStr "")). cbv iota.
  rewrite omap_nil. pose proof (interp_quote_body isPrint (String.length s) s (le_n _)) as I.
  erewrite lexer_str; [|apply le_n|exact I]. cbn [append lexer lex_step].
  change (Ascii.eqb (ascii_of_nat 34) (ch 34)) with true. cbv iota. rewrite I. auto.
Qed.
End WithPrint.
