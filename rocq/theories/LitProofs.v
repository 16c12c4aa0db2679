(** strconv.Quote / CanBackquote against the specification of Go string literals. *)
From Coq Require Import ZifyN ZifyBool.
From Verif Require Import Base BaseFacts Utf8 Quote SpecLit.
Local Open Scope N_scope.
Ltac Zify.zify_post_hook ::= Z.div_mod_to_equations.

Lemma code_lt c : code c < 256.
Proof. apply N_ascii_bounded. Qed.
Lemma byte_of_code c : byte_of (code c) = c.
Proof. apply ascii_N_embedding. Qed.
Lemma code_byte_of n : n < 256 -> code (byte_of n) = n.
Proof. apply N_ascii_embedding. Qed.
Lemma byte_of_eq c n : n = code c -> byte_of n = c.
Proof. intros ->. apply byte_of_code. Qed.

(** Decoding a rune that is valid and re-encoding it gives back the same bytes. *)
Lemma decode_encode s rn w : s <> "" -> DecodeRuneInString s = (rn, w) ->
  (Nat.eqb w 1 && (rn =? RuneError)) = false ->
  valid_rune rn = true /\ s = (EncodeRune rn ++ drop w s)%string /\ (1 <= w)%nat.
Proof.
  intros NE. destruct s as [|c0 r0]; [congruence|]. clear NE. unfold DecodeRuneInString.
  pose proof (code_lt c0) as B0. set (b0 := code c0) in *.
  assert (INV : (RuneError, 1%nat) = (rn, w) -> (Nat.eqb w 1 && (rn =? RuneError)) = false -> False).
  { intros [= <- <-]. discriminate. }
  destruct (N.ltb_spec b0 128) as [L|L].
  { intros [= <- <-] _. split; [|split].
    - unfold valid_rune, between. lia.
    - unfold EncodeRune. destruct (N.ltb_spec b0 128); [|lia]. simpl. unfold b0. rewrite byte_of_code. auto.
    - lia. }
  destruct (N.ltb_spec b0 194) as [L1|L1]; [intros; exfalso; eauto|].
  destruct (N.ltb_spec b0 224) as [L2|L2].
  { destruct r0 as [|c1 r1]; [intros; exfalso; eauto|].
    pose proof (code_lt c1) as B1. set (b1 := code c1) in *.
    unfold second_ok. destruct (N.eqb_spec b0 224); [lia|]. destruct (N.eqb_spec b0 237); [lia|].
    destruct (N.eqb_spec b0 240); [lia|]. destruct (N.eqb_spec b0 244); [lia|].
    destruct (cont_byte b1) eqn:C1; [|intros; exfalso; eauto].
    unfold cont_byte in C1. apply andb_true_iff in C1 as [C1 C1']. apply N.leb_le in C1, C1'.
    intros [= <- <-] _. split; [|split]; [unfold valid_rune, between; lia| |lia].
    unfold EncodeRune. destruct (N.ltb_spec ((b0 - 192) * 64 + (b1 - 128)) 128); [lia|].
    destruct (N.ltb_spec ((b0 - 192) * 64 + (b1 - 128)) 2048); [|lia].
    unfold str1. cbn [append drop]. f_equal; [|f_equal]; symmetry; apply byte_of_eq; fold b0; fold b1; lia. }
  destruct (N.ltb_spec b0 240) as [L3|L3].
  { destruct r0 as [|c1 [|c2 r2]]; try (intros; exfalso; eauto; fail).
    pose proof (code_lt c1) as B1. set (b1 := code c1) in *.
    pose proof (code_lt c2) as B2. set (b2 := code c2) in *.
    destruct (second_ok b0 b1 && cont_byte b2) eqn:C; [|intros; exfalso; eauto].
    apply andb_true_iff in C as [C1 C2].
    unfold cont_byte in C2. apply andb_true_iff in C2 as [C2 C2']. apply N.leb_le in C2, C2'.
    assert (S1 : 128 <= b1 <= 191 /\ (b0 = 224 -> 160 <= b1) /\ (b0 = 237 -> b1 <= 159)).
    { unfold second_ok, between, cont_byte in C1.
      destruct (N.eqb_spec b0 224); [|destruct (N.eqb_spec b0 237);
        [|destruct (N.eqb_spec b0 240); [lia|destruct (N.eqb_spec b0 244); [lia|]]]]; lia. }
    intros [= <- <-] _. split; [|split]; [unfold valid_rune, between; lia| |lia].
    set (rn := (b0 - 224) * 4096 + (b1 - 128) * 64 + (b2 - 128)).
    assert (R1 : 2048 <= rn < 65536) by (unfold rn; lia).
    assert (R2 : rn < 55296 \/ 57343 < rn) by (unfold rn; lia).
    unfold EncodeRune. destruct (N.ltb_spec rn 128); [lia|]. destruct (N.ltb_spec rn 2048); [lia|].
    replace ((1114111 <? rn) || between 55296 57343 rn) with false by (unfold between; lia).
    destruct (N.ltb_spec rn 65536); [|lia].
    unfold enc3, str1. cbn [append drop]. f_equal; [|f_equal; [|f_equal]]; symmetry; apply byte_of_eq; fold b0; fold b1; fold b2; unfold rn; lia. }
  destruct (N.ltb_spec b0 245) as [L4|L4]; [|intros; exfalso; eauto].
  { destruct r0 as [|c1 [|c2 [|c3 r3]]]; try (intros; exfalso; eauto; fail).
    pose proof (code_lt c1) as B1. set (b1 := code c1) in *.
    pose proof (code_lt c2) as B2. set (b2 := code c2) in *.
    pose proof (code_lt c3) as B3. set (b3 := code c3) in *.
    destruct (second_ok b0 b1 && cont_byte b2 && cont_byte b3) eqn:C; [|intros; exfalso; eauto].
    apply andb_true_iff in C as [C C3]. apply andb_true_iff in C as [C1 C2].
    unfold cont_byte in C2, C3. apply andb_true_iff in C2 as [C2 C2']. apply N.leb_le in C2, C2'.
    apply andb_true_iff in C3 as [C3 C3']. apply N.leb_le in C3, C3'.
    assert (S1 : 128 <= b1 <= 191 /\ (b0 = 240 -> 144 <= b1) /\ (b0 = 244 -> b1 <= 143)).
    { unfold second_ok, between, cont_byte in C1.
      destruct (N.eqb_spec b0 224); [lia|destruct (N.eqb_spec b0 237);
        [lia|destruct (N.eqb_spec b0 240); [|destruct (N.eqb_spec b0 244)]]]; lia. }
    intros [= <- <-] _. split; [|split]; [unfold valid_rune, between; lia| |lia].
    set (rn := (b0 - 240) * 262144 + (b1 - 128) * 4096 + (b2 - 128) * 64 + (b3 - 128)).
    assert (R1 : 65536 <= rn < 1114112) by (unfold rn; lia).
    unfold EncodeRune. destruct (N.ltb_spec rn 128); [lia|]. destruct (N.ltb_spec rn 2048); [lia|].
    replace ((1114111 <? rn) || between 55296 57343 rn) with false by (unfold between; lia).
    destruct (N.ltb_spec rn 65536); [lia|].
    unfold str1. cbn [append drop]. f_equal; [|f_equal; [|f_equal; [|f_equal]]]; symmetry; apply byte_of_eq;
      fold b0; fold b1; fold b2; fold b3; unfold rn; lia. }
Qed.

(** The bytes of a non-ASCII rune are all above 0x7f. *)
Fixpoint high_bytes (s : string) : bool :=
  match s with EmptyString => true | String c r => (128 <=? code c) && high_bytes r end.
Lemma high_str1 a : 128 <= a -> a < 256 -> high_bytes (str1 a) = true.
Proof. intros. unfold str1, high_bytes. rewrite code_byte_of by auto. lia. Qed.
Lemma encode_high rn : 128 <= rn -> high_bytes (EncodeRune rn) = true.
Proof.
  intros H. unfold EncodeRune. destruct (N.ltb_spec rn 128); [lia|].
  destruct (N.ltb_spec rn 2048).
  { cbn [high_bytes]. rewrite high_str1, code_byte_of by lia. lia. }
  destruct ((1114111 <? rn) || between 55296 57343 rn) eqn:V; [reflexivity|].
  destruct (N.ltb_spec rn 65536).
  { unfold enc3. cbn [high_bytes]. rewrite high_str1, !code_byte_of by lia. lia. }
  unfold between in V. cbn [high_bytes]. rewrite high_str1, !code_byte_of by lia. lia.
Qed.

Lemma omap_omap {A B C} (f : A -> B) (g : B -> C) o : omap g (omap f o) = omap (fun x => g (f x)) o.
Proof. destruct o; auto. Qed.

Lemma interp_plain c t : code c <> 34 -> code c <> 10 -> code c <> 92 ->
  interp_body (String c t) = omap (String c) (interp_body t).
Proof.
  intros. cbn [interp_body].
  destruct (N.eqb_spec (code c) 34); [lia|]. destruct (N.eqb_spec (code c) 10); [lia|].
  destruct (N.eqb_spec (code c) 92); [lia|]. auto.
Qed.
Lemma interp_high s t : high_bytes s = true ->
  interp_body (s ++ t) = omap (append s) (interp_body t).
Proof.
  induction s as [|c s IH]; cbn [append high_bytes].
  - intros _. destruct (interp_body t); auto.
  - intros H. apply andb_true_iff in H as [H1 H2]. rewrite interp_plain by lia.
    rewrite IH by auto. rewrite omap_omap. auto.
Qed.

Lemma hexval_hexdigit n : n < 16 -> hexval (hexdigit n) = Some n.
Proof.
  intros H.
  assert (C : n = 0 \/ n = 1 \/ n = 2 \/ n = 3 \/ n = 4 \/ n = 5 \/ n = 6 \/ n = 7 \/ n = 8 \/ n = 9 \/
              n = 10 \/ n = 11 \/ n = 12 \/ n = 13 \/ n = 14 \/ n = 15) by lia.
  repeat (destruct C as [->|C]; [reflexivity|]). subst; reflexivity.
Qed.

Lemma interp_hex2 v t : v < 256 ->
  interp_body (("\x" ++ hex2 v) ++ t) = omap (String (byte_of v)) (interp_body t).
Proof.
  intros H. unfold hex2. cbn [append]. cbn [interp_body].
  change (code "\"%char =? 34) with false. change (code "\"%char =? 10) with false.
  change (code "\"%char =? 92) with true. change (code "x"%char =? 120) with true. cbv iota.
  unfold hexnum. rewrite !hexval_hexdigit by lia.
  replace ((0 * 16 + v / 16) * 16 + v mod 16) with v by lia. auto.
Qed.
Lemma interp_hex4 v t : v < 65536 -> valid_rune v = true ->
  interp_body (("\u" ++ hex4 v) ++ t) = omap (append (EncodeRune v)) (interp_body t).
Proof.
  intros H V. unfold hex4, hex2. cbn [append]. cbn [interp_body].
  change (code "\"%char =? 34) with false. change (code "\"%char =? 10) with false.
  change (code "\"%char =? 92) with true. change (code "u"%char =? 120) with false.
  change (code "u"%char =? 117) with true. cbv iota.
  unfold hexnum. rewrite !hexval_hexdigit by lia.
  match goal with |- (if valid_rune ?x then _ else _) = _ => replace x with v by lia end.
  rewrite V. auto.
Qed.
Lemma interp_hex8 v t : valid_rune v = true ->
  interp_body (("\U" ++ hex8 v) ++ t) = omap (append (EncodeRune v)) (interp_body t).
Proof.
  intros V. assert (H : v < 1114112) by (unfold valid_rune in V; lia).
  unfold hex8, hex4, hex2. cbn [append]. cbn [interp_body].
  change (code "\"%char =? 34) with false. change (code "\"%char =? 10) with false.
  change (code "\"%char =? 92) with true. change (code "U"%char =? 120) with false.
  change (code "U"%char =? 117) with false. change (code "U"%char =? 85) with true. cbv iota.
  unfold hexnum. rewrite !hexval_hexdigit by lia.
  match goal with |- (if valid_rune ?x then _ else _) = _ => replace x with v by lia end.
  rewrite V. auto.
Qed.
Lemma interp_simple x v t : simple_escape x = Some v ->
  interp_body (String "\"%char (String x t)) = omap (String (byte_of v)) (interp_body t).
Proof.
  intros H. cbn [interp_body].
  change (code "\"%char =? 34) with false. change (code "\"%char =? 10) with false.
  change (code "\"%char =? 92) with true. cbv iota.
  assert (X : code x <> 120 /\ code x <> 117 /\ code x <> 85).
  { unfold simple_escape in H.
    repeat split; intros E; rewrite E in H; discriminate H. }
  destruct t as [|h1 [|h2 r']].
  - rewrite H. auto.
  - rewrite H. auto.
  - destruct (N.eqb_spec (code x) 120); [lia|]. destruct (N.eqb_spec (code x) 117); [lia|].
    destruct (N.eqb_spec (code x) 85); [lia|]. rewrite H. auto.
Qed.

Section WithPrint.
Variable isPrint : N -> bool.

Lemma interp_escaped rn t : valid_rune rn = true ->
  interp_body (escapedRune isPrint rn ++ t) = omap (append (EncodeRune rn)) (interp_body t).
Proof.
  intros V. unfold escapedRune.
  assert (SIMPLE : forall x, rn < 128 -> simple_escape x = Some rn ->
     interp_body (String "\"%char (String x t)) = omap (append (EncodeRune rn)) (interp_body t)).
  { intros x L S. rewrite (interp_simple x rn t S). f_equal. unfold EncodeRune.
    destruct (N.ltb_spec rn 128); [|lia]. auto. }
  destruct (N.eqb_spec rn 34) as [->|N34]; [apply SIMPLE; reflexivity|].
  destruct (N.eqb_spec rn 92) as [->|N92]; [apply SIMPLE; reflexivity|]. cbn [orb].
  unfold IsPrint.
  destruct (N.ltb_spec rn 128) as [L|L].
  - destruct (between 32 126 rn) eqn:B.
    + unfold between in B. unfold EncodeRune. destruct (N.ltb_spec rn 128); [|lia].
      unfold str1. cbn [append]. rewrite interp_plain; rewrite ?code_byte_of; auto; lia.
    + unfold between in B.
      destruct (N.eqb_spec rn 7) as [->|]; [apply SIMPLE; reflexivity|].
      destruct (N.eqb_spec rn 8) as [->|]; [apply SIMPLE; reflexivity|].
      destruct (N.eqb_spec rn 12) as [->|]; [apply SIMPLE; reflexivity|].
      destruct (N.eqb_spec rn 10) as [->|]; [apply SIMPLE; reflexivity|].
      destruct (N.eqb_spec rn 13) as [->|]; [apply SIMPLE; reflexivity|].
      destruct (N.eqb_spec rn 9) as [->|]; [apply SIMPLE; reflexivity|].
      destruct (N.eqb_spec rn 11) as [->|]; [apply SIMPLE; reflexivity|].
      replace ((rn <? 32) || (rn =? 127)) with true by lia.
      rewrite interp_hex2 by lia. unfold EncodeRune. destruct (N.ltb_spec rn 128); [|lia]. auto.
  - destruct (isPrint rn).
    + apply interp_high, encode_high; auto.
    + destruct (N.eqb_spec rn 7); [lia|]. destruct (N.eqb_spec rn 8); [lia|].
      destruct (N.eqb_spec rn 12); [lia|]. destruct (N.eqb_spec rn 10); [lia|].
      destruct (N.eqb_spec rn 13); [lia|]. destruct (N.eqb_spec rn 9); [lia|].
      destruct (N.eqb_spec rn 11); [lia|].
      replace ((rn <? 32) || (rn =? 127)) with false by lia.
      destruct (N.ltb_spec rn 65536).
      * apply interp_hex4; auto. * apply interp_hex8; auto.
Qed.

Lemma quote_skip k : forall s, quote_body isPrint k s = quote_body isPrint 0 (drop k s).
Proof. induction k as [|k IH]; intros [|c r]; auto; apply IH. Qed.

Lemma length_drop k : forall s, (String.length (drop k s) <= String.length s)%nat.
Proof. induction k as [|k IH]; intros [|c r]; simpl; try lia. specialize (IH r). lia. Qed.

Lemma interp_quote_body : forall n s, (String.length s <= n)%nat ->
  interp_body (quote_body isPrint 0 s) = Some s.
Proof.
  induction n as [|n IH]; intros [|c r] L; auto; [simpl in L; lia|].
  cbn [quote_body]. destruct (DecodeRuneInString (String c r)) as [rn w] eqn:D.
  simpl in L. destruct (Nat.eqb w 1 && (rn =? RuneError)) eqn:E.
  - rewrite <- append_assoc, interp_hex2 by apply code_lt.
    rewrite IH by lia. simpl. rewrite byte_of_code. auto.
  - destruct (decode_encode (String c r) rn w) as (V & S & W); auto; [discriminate|].
    rewrite interp_escaped by auto. rewrite quote_skip.
    rewrite IH by (pose proof (length_drop (Nat.pred w) r); lia).
    cbn [omap]. rewrite S. destruct w; [lia|]. cbn [drop Nat.pred]. auto.
Qed.

Lemma strip_last_app b q : strip_last (b ++ String q "") = Some (b, q).
Proof.
  induction b as [|c b IH]; auto. cbn [append strip_last]. rewrite IH.
  destruct (b ++ String q "")%string eqn:E; auto. destruct b; discriminate.
Qed.

Lemma Quote_value s : literal_value (Quote isPrint s) = Some s.
Proof.
  unfold Quote, dquote. cbn [append]. unfold literal_value. rewrite strip_last_app.
  apply (interp_quote_body (String.length s)). auto.
Qed.

Lemma back_skip k : forall s, can_backquote k s = can_backquote 0 (drop k s).
Proof. induction k as [|k IH]; intros [|c r]; auto; apply IH. Qed.
Lemma raw_app_high a t : high_bytes a = true -> raw_body (a ++ t) = omap (append a) (raw_body t).
Proof.
  induction a as [|c a IH]; cbn [append high_bytes]; intros H.
  - destruct (raw_body t); auto.
  - apply andb_true_iff in H as [H1 H2]. cbn [raw_body].
    destruct (N.eqb_spec (code c) 96); [lia|]. destruct (N.eqb_spec (code c) 13); [lia|].
    rewrite IH by auto. rewrite omap_omap. auto.
Qed.
Lemma raw_can : forall n s, (String.length s <= n)%nat -> can_backquote 0 s = true -> raw_body s = Some s.
Proof.
  induction n as [|n IH]; intros [|c r] L; auto; [simpl in L; lia|].
  cbn [can_backquote]. destruct (DecodeRuneInString (String c r)) as [rn w] eqn:D.
  simpl in L. destruct (Nat.ltb_spec 1 w) as [W|W].
  - destruct (rn =? 65279); [discriminate|]. rewrite back_skip. intros H.
    assert (E : (Nat.eqb w 1 && (rn =? RuneError)) = false).
    { destruct (Nat.eqb_spec w 1); [lia|]. auto. }
    destruct (decode_encode (String c r) rn w) as (V & S & _); auto; [discriminate|].
    rewrite S. rewrite raw_app_high.
    + destruct w; [lia|]. cbn [drop]. simpl Nat.pred in H.
      rewrite IH; auto. pose proof (length_drop w r); lia.
    + apply encode_high. unfold DecodeRuneInString in D.
      destruct (N.ltb_spec (code c) 128); [injection D as <- <-; lia|].
      destruct (N.ltb_spec rn 128); auto. exfalso.
      (* multi-byte runes are at least 128 *)
      clear IH L H. unfold EncodeRune in S.
      destruct (N.ltb_spec rn 128); [|lia]. simpl in S. injection S as Sc _.
      rewrite Sc, code_byte_of in *; lia.
  - destruct (N.eqb_spec rn RuneError); [discriminate|].
    destruct (((rn <? 32) && negb (rn =? 9)) || (rn =? 96) || (rn =? 127)) eqn:B; [discriminate|].
    intros H.
    assert (E : (Nat.eqb w 1 && (rn =? RuneError)) = false).
    { destruct (N.eqb_spec rn RuneError); [lia|]. apply andb_false_r. }
    destruct (decode_encode (String c r) rn w) as (V & S & W1); auto; [discriminate|].
    assert (w = 1%nat) by lia. subst w.
    assert (RN : rn = code c).
    { unfold DecodeRuneInString in D.
      destruct (code c <? 128); [congruence|]. destruct (code c <? 194); [congruence|].
      repeat match type of D with
      | (if ?b then _ else _) = _ => destruct b
      | match ?r with EmptyString => _ | String _ _ => _ end = _ => destruct r
      | _ => congruence
      end. }
    cbn [raw_body]. rewrite <- RN.
    destruct (N.eqb_spec rn 96); [lia|]. destruct (N.eqb_spec rn 13); [lia|].
    rewrite IH; auto. lia.
Qed.
Lemma backquote_value s : CanBackquote s = true -> literal_value (bquote ++ s ++ bquote) = Some s.
Proof.
  intros H. unfold bquote. cbn [append]. unfold literal_value. rewrite strip_last_app.
  change (code (ascii_of_nat 96) =? 34) with false. change (code (ascii_of_nat 96) =? 96) with true.
  cbn [andb]. apply (raw_can (String.length s)); auto.
Qed.
End WithPrint.
