(** Proofs about names.go. *)
From Coq Require Import ZifyN ZifyBool.
From Verif Require Import Base BaseFacts Utf8 Quote SpecLit UnicodeTables Names SpecNames LitProofs.
Local Open Scope N_scope.
Ltac Zify.zify_post_hook ::= Z.div_mod_to_equations.

Lemma scalar_valid r : scalar r <-> valid_rune r = true.
Proof. unfold scalar, valid_rune, between. lia. Qed.

Lemma drop_app s t : drop (String.length s) (s ++ t) = t.
Proof. induction s; simpl; auto. Qed.

(** Decoding an encoded rune. *)
Lemma decode_app r rest : scalar r ->
  DecodeRuneInString (EncodeRune r ++ rest) = (r, String.length (EncodeRune r)).
Proof.
  intros [S1 S2]. unfold EncodeRune.
  destruct (N.ltb_spec r 128).
  { unfold str1. cbn [append DecodeRuneInString String.length]. rewrite code_byte_of by lia.
    destruct (N.ltb_spec r 128); [auto|lia]. }
  destruct (N.ltb_spec r 2048).
  { unfold str1. cbn [append DecodeRuneInString String.length]. rewrite !code_byte_of by lia.
    repeat match goal with |- context [?a <? ?b] => destruct (N.ltb_spec a b); try lia end.
    replace (second_ok (192 + r / 64) (128 + r mod 64)) with true.
    - f_equal. lia.
    - unfold second_ok, cont_byte, between.
      repeat match goal with |- context [?a =? ?b] => destruct (N.eqb_spec a b); try lia end; lia. }
  replace ((1114111 <? r) || between 55296 57343 r) with false by (unfold between; lia).
  destruct (N.ltb_spec r 65536).
  { unfold enc3, str1. cbn [append DecodeRuneInString String.length]. rewrite !code_byte_of by lia.
    repeat match goal with |- context [?a <? ?b] => destruct (N.ltb_spec a b); try lia end.
    replace (second_ok (224 + r / 4096) (128 + (r / 64) mod 64) && cont_byte (128 + r mod 64)) with true.
    - f_equal. lia.
    - unfold second_ok, cont_byte, between.
      repeat match goal with |- context [?a =? ?b] => destruct (N.eqb_spec a b); try lia end; lia. }
  unfold str1. cbn [append DecodeRuneInString String.length]. rewrite !code_byte_of by lia.
  repeat match goal with |- context [?a <? ?b] => destruct (N.ltb_spec a b); try lia end.
  replace (second_ok (240 + r / 262144) (128 + (r / 4096) mod 64) && cont_byte (128 + (r / 64) mod 64) &&
     cont_byte (128 + r mod 64)) with true.
  - f_equal. lia.
  - unfold second_ok, cont_byte, between.
    repeat match goal with |- context [?a =? ?b] => destruct (N.eqb_spec a b); try lia end; lia.
Qed.
Lemma encode_ne r rest : (EncodeRune r ++ rest)%string <> "".
Proof.
  unfold EncodeRune, enc3, str1.
  repeat match goal with |- context [if ?b then _ else _] => destruct b end; discriminate.
Qed.
Lemma starts_unique r1 x1 r2 x2 s : starts_with r1 x1 s -> starts_with r2 x2 s -> r1 = r2 /\ x1 = x2.
Proof.
  intros [A ->] [B E]. pose proof (decode_app r1 x1 A) as D. rewrite E, (decode_app r2 x2 B) in D.
  injection D as <- _. split; auto. apply (f_equal (drop (String.length (EncodeRune r2)))) in E.
  rewrite !drop_app in E. auto.
Qed.
Lemma decode_cases s : s <> "" ->
  (exists r rest, starts_with r rest s /\
     DecodeRuneInString s = (r, String.length (EncodeRune r)) /\ drop (String.length (EncodeRune r)) s = rest)
  \/ ~ starts_utf8 s /\ DecodeRuneInString s = (RuneError, 1%nat).
Proof.
  intros NE. destruct (DecodeRuneInString s) as [rn w] eqn:D.
  destruct (Nat.eqb w 1 && (rn =? RuneError)) eqn:X.
  - right. apply andb_true_iff in X as [X1 X2]. apply Nat.eqb_eq in X1. apply N.eqb_eq in X2. subst.
    split; auto. intros (r & rest & V & ->). rewrite decode_app in D by auto. injection D as -> L.
    unfold RuneError in L. vm_compute in L. discriminate.
  - left. destruct (decode_encode s rn w NE D X) as (V & E & _). apply scalar_valid in V.
    exists rn, (drop w s). rewrite E in D at 1. rewrite decode_app in D by auto. injection D as <-.
    repeat split; auto; apply V.
Qed.

Section AnyTables.
Variable isPrint : N -> bool.
Variable isUpper : N -> bool.
Variable toUpper toLower : N -> N.

Lemma Export_spec :
  Export isPrint isUpper toUpper "" = Ok "" /\
  forall r rest s, starts_with r rest s -> r <> RuneError ->
    Export isPrint isUpper toUpper s = Ok
      (if isUpper r then s
       else if (toUpper r =? r)%N then (if (r =? 95)%N then "X" ++ rest else "X" ++ s)
       else EncodeRune (toUpper r) ++ rest)%string.
Proof.
  split; auto. intros r rest s [V ->] NR. unfold Export.
  destruct (String.eqb_spec (EncodeRune r ++ rest) "") as [E|_]; [destruct (encode_ne _ _ E)|].
  rewrite decode_app by auto. destruct (N.eqb_spec r RuneError); [congruence|].
  rewrite drop_app. destruct (isUpper r); auto. destruct (toUpper r =? r); auto. destruct (r =? 95); auto.
Qed.
Lemma Unexport_spec :
  Unexport isPrint toLower "" = Ok "" /\
  forall r rest s, starts_with r rest s -> r <> RuneError ->
    Unexport isPrint toLower s = Ok (EncodeRune (toLower r) ++ rest)%string.
Proof.
  split; auto. intros r rest s [V ->] NR. unfold Unexport.
  destruct (String.eqb_spec (EncodeRune r ++ rest) "") as [E|_]; [destruct (encode_ne _ _ E)|].
  rewrite decode_app by auto. destruct (N.eqb_spec r RuneError); [congruence|].
  rewrite drop_app. auto.
Qed.
Lemma panics_iff s :
  (is_ok (Export isPrint isUpper toUpper s) = false <->
     s <> "" /\ (~ starts_utf8 s \/ exists rest, starts_with RuneError rest s)) /\
  (is_ok (Unexport isPrint toLower s) = false <->
     s <> "" /\ (~ starts_utf8 s \/ exists rest, starts_with RuneError rest s)).
Proof.
  destruct (String.eqb_spec s "") as [->|NE].
  { split; split; simpl; try discriminate; intros [H _]; congruence. }
  destruct (decode_cases s NE) as [(r & rest & V & D & R)|[NV D]].
  - destruct (N.eqb_spec r RuneError) as [->|NR].
    + assert (P1 : is_ok (Export isPrint isUpper toUpper s) = false).
      { unfold Export. apply String.eqb_neq in NE as ->. rewrite D. reflexivity. }
      assert (P2 : is_ok (Unexport isPrint toLower s) = false).
      { unfold Unexport. apply String.eqb_neq in NE as ->. rewrite D. reflexivity. }
      split; split; auto; intros _; split; eauto.
    + destruct Export_spec as [_ H1]. rewrite (H1 r rest s V NR). clear H1.
      destruct Unexport_spec as [_ H2]. rewrite (H2 r rest s V NR).
      split; split; simpl; try discriminate; intros [_ [H|(x & H)]].
      1,3: exfalso; apply H; exists r, rest; auto.
      all: destruct (starts_unique _ _ _ _ _ V H); congruence.
  - assert (P1 : is_ok (Export isPrint isUpper toUpper s) = false).
    { unfold Export. apply String.eqb_neq in NE as ->. rewrite D. reflexivity. }
    assert (P2 : is_ok (Unexport isPrint toLower s) = false).
    { unfold Unexport. apply String.eqb_neq in NE as ->. rewrite D. reflexivity. }
    split; split; auto.
Qed.
End AnyTables.

(** ** Facts about the Unicode tables, checked over all their entries *)
Lemma table_map_cases t r : table_map t r = r \/ In (r, table_map t r) t.
Proof.
  unfold table_map. destruct (find _ t) as [[a b]|] eqn:F; auto.
  apply find_some in F as [I E]. apply N.eqb_eq in E. subst. auto.
Qed.
Lemma table_check (P : N -> N -> bool) t r : forallb (fun '(a, b) => P a b) t = true ->
  table_map t r <> r -> P r (table_map t r) = true.
Proof.
  intros H N. destruct (table_map_cases t r) as [E|I]; [congruence|].
  rewrite forallb_forall in H. apply (H _ I).
Qed.
Definition good_rune (r : N) : bool := valid_rune r && negb (r =? RuneError).
Lemma upper_entries : forallb (fun '(a, b) =>
  good_rune b && (IsUpper b || odd_upper a) && (implb (odd_upper a) (negb (IsUpper b)))) upper_table = true.
Proof. vm_compute. reflexivity. Qed.
Lemma lower_entries : forallb (fun '(a, b) =>
  good_rune b && negb (IsUpper b) && (table_map lower_table b =? b)) lower_table = true.
Proof. vm_compute. reflexivity. Qed.
Lemma upper_of r : ToUpper r <> r -> good_rune (ToUpper r) = true /\
  (IsUpper (ToUpper r) = true <-> odd_upper r = false).
Proof.
  intros N. pose proof (table_check _ _ r upper_entries N) as H. fold (ToUpper r) in H.
  rewrite !andb_true_iff in H. destruct H as [[H1 H2] H3]. split; auto.
  destruct (IsUpper (ToUpper r)), (odd_upper r); split; intros; auto; discriminate.
Qed.
Lemma lower_of r : ToLower r <> r -> good_rune (ToLower r) = true /\
  IsUpper (ToLower r) = false /\ ToLower (ToLower r) = ToLower r.
Proof.
  intros N. pose proof (table_check _ _ r lower_entries N) as H. fold (ToLower r) in H.
  rewrite !andb_true_iff in H. destruct H as [[H1 H2] H3]. split; auto. split.
  - apply negb_true_iff; auto.
  - apply N.eqb_eq. auto.
Qed.
Lemma odd_has_upper r : odd_upper r = true -> ToUpper r <> r /\ IsUpper r = false.
Proof.
  intros H. unfold odd_upper in H. apply existsb_exists in H as ((a & b) & I & H).
  assert (F : forallb (fun r => negb (ToUpper r =? r) && negb (IsUpper r))
    (flat_map (fun '(a, b) => map (fun k => a + N.of_nat k) (seq 0 (N.to_nat (b - a + 1))))
      [(8064, 8071); (8080, 8087); (8096, 8103); (8115, 8115); (8131, 8131); (8179, 8179);
       (8560, 8575); (9424, 9449)]) = true) by (vm_compute; reflexivity).
  rewrite forallb_forall in F. specialize (F r).
  assert (IN : In r (flat_map (fun '(a, b) => map (fun k => a + N.of_nat k) (seq 0 (N.to_nat (b - a + 1))))
      [(8064, 8071); (8080, 8087); (8096, 8103); (8115, 8115); (8131, 8131); (8179, 8179);
       (8560, 8575); (9424, 9449)])).
  { apply in_flat_map. exists (a, b). split; auto. apply in_map_iff. exists (N.to_nat (r - a)).
    split; [lia|]. apply in_seq. lia. }
  specialize (F IN). apply andb_true_iff in F as [F1 F2]. split.
  - apply negb_true_iff, N.eqb_neq in F1. auto.
  - apply negb_true_iff in F2. auto.
Qed.
Lemma X_exported rest : exported ("X" ++ rest).
Proof. exists 88, rest. split; [split; [unfold scalar; lia|reflexivity]|vm_compute; reflexivity]. Qed.
Lemma good_scalar r : good_rune r = true -> scalar r /\ r <> RuneError.
Proof.
  unfold good_rune. rewrite andb_true_iff, negb_true_iff, N.eqb_neq, scalar_valid. auto.
Qed.

Section Unicode.
Variable isPrint : N -> bool.
Notation export := (Export isPrint IsUpper ToUpper).
Notation unexport := (Unexport isPrint ToLower).

Lemma export_exported s : exported s -> export s = Ok s.
Proof.
  intros (r & rest & V & U). destruct (Export_spec isPrint IsUpper ToUpper) as [_ H].
  rewrite (H r rest s V), U; auto. intros ->. vm_compute in U. discriminate.
Qed.
Lemma export_ok_iff r rest s : starts_with r rest s -> r <> RuneError ->
  exists x, export s = Ok x /\ (exported x <-> odd_upper r = false) /\
            (export x = Ok x <-> odd_upper r = false).
Proof.
  intros V NR. destruct (Export_spec isPrint IsUpper ToUpper) as [_ H].
  rewrite (H r rest s V NR). eexists. split; [reflexivity|].
  destruct (odd_upper r) eqn:O.
  - destruct (odd_has_upper r O) as [U1 U2]. rewrite U2. apply N.eqb_neq in U1 as U3. rewrite U3.
    destruct (upper_of r U1) as [G UI]. destruct (good_scalar _ G) as [G1 G2].
    assert (NU : IsUpper (ToUpper r) = false).
    { destruct (IsUpper (ToUpper r)); auto. destruct UI as [UI _]. rewrite UI in O; auto; discriminate. }
    assert (V2 : starts_with (ToUpper r) rest (EncodeRune (ToUpper r) ++ rest)) by (split; auto).
    split; (split; [|discriminate]).
    + intros (r2 & x2 & V3 & U). destruct (starts_unique _ _ _ _ _ V2 V3) as [<- _]. congruence.
    + rewrite (H _ _ _ V2 G2), NU.
      assert (UU : ToUpper (ToUpper r) = ToUpper r).
      { assert (F : forallb (fun '(a, b) => (table_map upper_table b =? b)) upper_table = true)
          by (vm_compute; reflexivity).
        pose proof (table_check _ _ r F U1) as T. apply N.eqb_eq in T. exact T. }
      rewrite UU, N.eqb_refl.
      assert (N95 : (ToUpper r =? 95) = false).
      { assert (F : forallb (fun '(a, b) => negb (b =? 95)) upper_table = true)
          by (vm_compute; reflexivity).
        pose proof (table_check _ _ r F U1) as T. apply negb_true_iff in T. exact T. }
      rewrite N95. intros [= E]. exfalso.
      apply (f_equal String.length) in E. simpl in E. lia.
  - split; (split; [reflexivity|]); intros _; [|apply export_exported];
    (destruct (IsUpper r) eqn:U; [exists r, rest; auto|]);
    (destruct (N.eqb_spec (ToUpper r) r) as [E|E];
      [destruct (r =? 95); apply X_exported|]);
    destruct (upper_of r E) as [G UI]; destruct (good_scalar _ G) as [G1 G2];
    exists (ToUpper r), rest; (split; [split; auto|apply UI; auto]).
Qed.
Lemma export_refuted : ~ (forall r rest s, starts_with r rest s -> r <> RuneError ->
  exists x, export s = Ok x /\ exported x /\ export x = Ok x).
Proof.
  intros H. destruct (H 8064 "" (EncodeRune 8064)) as (x & E & X & _).
  - split; [unfold scalar; lia|reflexivity].
  - discriminate.
  - destruct (export_ok_iff 8064 "" (EncodeRune 8064)) as (x' & E' & X' & _).
    + split; [unfold scalar; lia|reflexivity].
    + discriminate.
    + assert (x' = x) by congruence. subst. apply X' in X. vm_compute in X. discriminate.
Qed.
Lemma unexport_empty p toLower : Unexport p toLower "" = Ok "". Proof. reflexivity. Qed.
Lemma unexport_spec r rest s : starts_with r rest s -> r <> RuneError ->
  exists x, unexport s = Ok x /\ starts_with (ToLower r) rest x /\ unexport x = Ok x /\
    (exported x <-> IsUpper r = true /\ ToLower r = r).
Proof.
  intros V NR. destruct (Unexport_spec isPrint ToLower) as [_ H]. rewrite (H r rest s V NR).
  eexists. split; [reflexivity|].
  destruct (N.eq_dec (ToLower r) r) as [E|E].
  - rewrite E. destruct V as [V ->]. assert (V' : starts_with r rest (EncodeRune r ++ rest)) by (split; auto).
    split; auto. split; [rewrite (H r rest _ V' NR), E; auto|]. split.
    + intros (r2 & x2 & V3 & U). destruct (starts_unique _ _ _ _ _ V' V3) as [<- _]. auto.
    + intros [U _]. exists r, rest. auto.
  - destruct (lower_of r E) as (G & U & L). destruct (good_scalar _ G) as [G1 G2].
    assert (V2 : starts_with (ToLower r) rest (EncodeRune (ToLower r) ++ rest)) by (split; auto).
    split; auto. split; [rewrite (H _ _ _ V2 G2), L; auto|]. split.
    + intros (r2 & x2 & V3 & U3). destruct (starts_unique _ _ _ _ _ V2 V3) as [<- _]. congruence.
    + intros [_ X]. congruence.
Qed.
Lemma unexport_refuted : ~ (forall r rest s, starts_with r rest s -> r <> RuneError ->
  exists x, unexport s = Ok x /\ ~ exported x).
Proof.
  intros H. destruct (H 978 "" (EncodeRune 978)) as (x & E & X).
  - split; [unfold scalar; lia|reflexivity].
  - discriminate.
  - apply X. exists 978, "". split; [|vm_compute; reflexivity]. split; [unfold scalar; lia|].
    vm_compute in E. injection E as <-. reflexivity.
Qed.
Lemma reject_refuted : ~ (forall s, s <> "" -> is_ok (export s) = false -> ~ starts_utf8 s).
Proof.
  intros H. apply (H (EncodeRune RuneError)).
  - discriminate.
  - vm_compute. reflexivity.
  - exists RuneError, "". split; [unfold scalar, RuneError; lia|reflexivity].
Qed.
End Unicode.
