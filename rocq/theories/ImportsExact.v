(** Exactly when a chosen alias is usable, and when a qualified type can be qualified again. *)
From Verif Require Import Base BaseFacts GoPath Types SpecTypes TypesFacts Imports SpecImports ImportsProofs ImportsTheorems MemoryShare.

Lemma candidate_legal base k : legal_ident (candidate base k) = legal_ident base.
Proof.
  rewrite <- cand_candidate. unfold cand. destruct (N.eqb_spec k 0); auto. destruct base as [|b base].
  - pose proof (dec_digits k) as D. pose proof (dec_nonempty k) as N.
    cbn [String.append]. destruct (dec k) as [|c r]; [congruence|]. cbn [all_digits] in D. apply andb_true_iff in D as [D _].
    cbn [legal_ident]. destruct (is_letter_byte c) eqn:L; auto. exfalso. unfold is_letter_byte, is_digit_byte in *.
    apply andb_true_iff in D as [D1 D2]. apply N.leb_le in D1, D2.
    repeat rewrite ?orb_true_iff, ?andb_true_iff, ?N.leb_le, ?N.eqb_eq in L. lia.
  - cbn [String.append legal_ident]. rewrite all_ident_app, (digits_ident (dec k)) by apply dec_digits. rewrite andb_true_r. auto.
Qed.
Lemma candidate_alias base k : k <> 0%N -> usable_alias (candidate base k) = legal_ident base.
Proof.
  intros NK. unfold usable_alias. rewrite candidate_legal. destruct (legal_ident base) eqn:L; auto. cbn [andb].
  rewrite <- cand_candidate. unfold cand. destruct (N.eqb_spec k 0); [contradiction|].
  destruct (last_digit _ (dec_nonempty k) (dec_digits k)) as (c & Lc & Dc).
  rewrite <- (last_byte_app base) in Lc by apply dec_nonempty.
  apply andb_true_iff. split.
  - apply negb_true_iff. apply not_true_iff_false. unfold is_keyword. rewrite existsb_exists.
    intros (x & Hx & E). apply String.eqb_eq in E. rewrite E in Lc.
    repeat (destruct Hx as [<-|Hx]; [injection Lc as <-; discriminate Dc|]). destruct Hx.
  - apply negb_true_iff, String.eqb_neq. intros E. rewrite E in Lc. injection Lc as <-. discriminate.
Qed.
Theorem alias_exact own h path name :
  let i := run h (NewImportsFor own) in
  path <> own -> ~ In path (listed i) ->
  let base := if String.eqb name "" then path_Base path else name in
  exists n i', RegisterImport path name i = (Ok (n ++ ".")%string, i') /\
    (usable_alias n = true <-> usable_alias base = true \/ legal_ident base = true /\ ~ free_name i base).
Proof.
  intros i N NL base. destruct (least_free own h path name N NL) as (k & i' & E & FR & LT & _).
  fold base in E, FR, LT. fold i in FR, LT. do 2 eexists. split; [exact E|].
  destruct (N.eq_dec k 0) as [->|NK].
  - cbn [candidate] in *. tauto.
  - rewrite candidate_alias by auto. assert (NF : ~ free_name i base) by (apply (LT 0%N); lia).
    split; [auto|]. intros [U|[U _]]; auto. unfold usable_alias in U. destruct (legal_ident base); auto; discriminate.
Qed.

(** ** Qualifying again, for another file *)
Lemma spec_unique i s s' : Inv i -> In s (ImportSpecs i) -> In s' (ImportSpecs i) -> SpecPath s = SpecPath s' -> s = s'.
Proof.
  intros I H H' E. rewrite In_ImportSpecs, in_map_iff in H, H'.
  destruct H as ([k d] & <- & H), H' as ([k' d'] & <- & H'). simpl in E. subst k'.
  apply In_lookup in H; [|apply inv_nodup_paths; auto].
  apply In_lookup in H'; [|apply inv_nodup_paths; auto]. congruence.
Qed.
(** The import of [q] means [q]. *)
Definition right_spec real i q := exists n, prefix_name i q = Some n /\ n <> "" /\ resolves real (ImportSpecs i) n q.
Lemma right_resolves real i path n : Inv i -> (forall q, In q (listed i) -> right_spec real i q) ->
  prefix_name i path = Some n -> n <> "" -> forall p, resolves real (ImportSpecs i) n p <-> p = path.
Proof.
  intros I ALL PN NN p. assert (L : In path (listed i)).
  { apply In_listed. unfold prefix_name in PN. destruct (String.eqb path (pkgPath i)); [congruence|].
    destruct (lookup path (importsByPath i)); discriminate. }
  split.
  - intros (s & IS & EN & <-). assert (LS : In (SpecPath s) (listed i)) by (apply in_map; auto).
    destruct (ALL _ LS) as (m & Pm & Nm & s' & IS' & EN' & SP'). rewrite (spec_unique i s' s I IS' IS SP') in EN'.
    eapply prefix_name_inj; eauto. congruence.
  - intros ->. destruct (ALL _ L) as (m & Pm & Nm & R). congruence.
Qed.
Lemma first_request_app path a b : first_request path (a ++ b) =
  match first_request path a with Some n => Some n | None => first_request path b end.
Proof. induction a as [|[p n] a IH]; cbn; auto. destruct (String.eqb p path); auto. Qed.
Lemma first_request_in path l n : first_request path l = Some n -> In (path, n) l.
Proof.
  induction l as [|[p x] l IH]; cbn; [discriminate|]. destruct (String.eqb_spec p path) as [->|]; auto. intros [= ->]. auto.
Qed.
Lemma first_request_none path l n : first_request path l = None -> ~ In (path, n) l.
Proof.
  induction l as [|[p x] l IH]; cbn; auto. destruct (String.eqb_spec p path) as [->|]; [discriminate|].
  intros E [[= -> ->]|H]; auto. eapply IH; eauto.
Qed.
Lemma prefix_prefix i path n : Inv i -> prefix_name i path = Some n -> n <> "" -> fst (PrefixForPackage path i) = Ok (n ++ ".")%string.
Proof.
  intros I P N. apply PrefixForPackage_iff; auto. exists n. split; auto. unfold with_dot. destruct (String.eqb_spec n ""); congruence.
Qed.
Theorem requalify_exact real ownA hA ownB hB t tA c A' :
  forallb call_ok hB = true -> (forall c, In c hB -> honest real c) -> wf t = true ->
  EnsureTypeImported t (run hA (NewImportsFor ownA)) = (Ok (tA, c), A') ->
  let B := run hB (NewImportsFor ownB) in
  exists g c' B', EnsureTypeImported tA B = (Ok (map_symbols g t, c'), B') /\
    ((forall s, In s (symbols_of t) -> SymName (g s) = SymName s /\
       (has_package s = true -> refers real ownB (ImportSpecs B') (PkgName (SymPackage (g s))) (sym_path s))) <->
     forall path, mentions (symbols_of t) path -> path = ownB \/
       (path = "" -> ownA <> "") /\
       (path = ownA \/ In path (listed B) \/ fst (PrefixForPackage path A') = Ok (real path ++ ".")%string \/
        fst (PrefixForPackage path A') <> fst (PrefixForPackage path B'))).
Proof.
  intros OK HON W EA B. set (iA := run hA (NewImportsFor ownA)) in *.
  assert (IA : Inv iA) by apply run_new_Inv.
  destruct (g_reg _ _ _ _ _ (good_type t) W iA IA) as (cA & i' & E & _ & K & _).
  destruct (g_keep _ _ _ _ _ (good_type t) true iA IA) as [I' X]. rewrite E in I', X. simpl in I', X.
  unfold EnsureTypeImported in EA. rewrite EA in E. injection E as -> -> ->. rename i' into A.
  assert (OA : pkgPath A = ownA) by (rewrite (proj1 X); apply run_new_own).
  assert (IB : Inv B) by apply run_new_Inv. assert (OB : pkgPath B = ownB) by apply run_new_own.
  assert (WA : wf (map_symbols (rename A) t) = true) by (rewrite wf_map; auto).
  destruct (g_reg _ _ _ _ _ (good_type (map_symbols (rename A) t)) WA B IB) as (cB & B' & EB & _ & KB & PB).
  destruct (g_keep _ _ _ _ _ (good_type (map_symbols (rename A) t)) true B IB) as [IB' XB]. rewrite EB in IB', XB. simpl in IB', XB.
  assert (OB' : pkgPath B' = ownB) by (rewrite (proj1 XB); auto).
  assert (EH : B' = run (hB ++ [CEnsureTypeImported (map_symbols (rename A) t)]) (NewImportsFor ownB)).
  { rewrite run_app. simpl. fold B. unfold EnsureTypeImported. rewrite EB. auto. }
  exists (fun s => rename B' (rename A s)), cB, B'. split.
  { unfold EnsureTypeImported. rewrite EB. do 3 f_equal. apply map_symbols_comp. }
  assert (SYM : forall s, In s (symbols_of t) -> In (rename A s) (symbols_of (map_symbols (rename A) t))).
  { intros s Hs. rewrite (g_syms _ _ _ _ _ (good_type t)). apply in_map; auto. }
  (* a symbol of the type, as the first file leaves it *)
  assert (SA : forall s, In s (symbols_of t) -> has_package s = true -> exists n, prefix_name A (sym_path s) = Some n /\
     rename A s = mkSymbol (mkPackage (sym_path s) n) (SymName s)).
  { intros s Hs HP. specialize (K s Hs HP). destruct (prefix_name A (sym_path s)) as [n|] eqn:PN; [|congruence].
    exists n. split; auto. unfold rename. rewrite HP, PN. auto. }
  (* its request in the second file *)
  assert (RQ : forall p n, In (p, n) (sym_requests (symbols_of (map_symbols (rename A) t))) -> prefix_name A p = Some n /\ mentions (symbols_of t) p).
  { intros p n IN. unfold sym_requests in IN. apply in_map_iff in IN as (x & [= <- <-] & IN). apply filter_In in IN as [IN HX].
    rewrite (g_syms _ _ _ _ _ (good_type t)) in IN. apply in_map_iff in IN as (s & <- & Hs).
    destruct (has_package s) eqn:HP.
    - destruct (SA s Hs HP) as (n & PN & ->). split; [exact PN|]. exists s. auto.
    - unfold rename in HX. rewrite HP in HX. congruence. }
  (* how a path comes into the second file's imports *)
  assert (LB : forall q, In q (listed B') -> exists n nm, n <> "" /\ prefix_name B' q = Some n /\
     In (mkImportSpec (if String.eqb n nm then "" else n) q) (ImportSpecs B') /\
     ((In q (listed B) /\ (nm = "" \/ nm = real q)) \/
      (~ In q (listed B) /\ prefix_name A q = Some nm /\ mentions (symbols_of t) q))).
  { intros q Lq. rewrite EH in Lq.
    assert (OKH : forallb call_ok (hB ++ [CEnsureTypeImported (map_symbols (rename A) t)]) = true).
    { rewrite forallb_app, OK. cbn [forallb call_ok]. rewrite WA. auto. }
    destruct (listed_requested ownB _ q OKH Lq) as (nm & FRQ).
    assert (NQ : q <> ownB).
    { apply listed_prefix in Lq as [Lq _]; [|apply run_new_Inv]. rewrite run_new_own in Lq. congruence. }
    destruct (alias_flag ownB _ q nm OKH NQ FRQ) as (n & Nn & PN & IS). rewrite <- EH in PN, IS.
    exists n, nm. split; auto. split.
    { assert (PF : fst (PrefixForPackage q B') = Ok (n ++ ".")%string) by (rewrite PN; auto).
      apply PrefixForPackage_iff in PF as (m & Pm & Em); auto. rewrite Pm. f_equal.
      unfold with_dot in Em. destruct (String.eqb_spec m ""); [destruct n; discriminate|]. apply append_inj_r in Em. auto. }
    split; auto.
    rewrite flat_map_app in FRQ. rewrite first_request_app in FRQ.
    destruct (first_request q (flat_map requests hB)) as [x|] eqn:F1.
    - injection FRQ as ->. left. split.
      + destruct (alias_flag ownB hB q nm OK NQ F1) as (y & _ & _ & IY). fold B in IY. apply (in_map SpecPath) in IY. exact IY.
      + apply first_request_in, in_flat_map in F1 as (y & Iy & Ry). apply (HON y Iy _ _ Ry).
    - right. split. { intros LQ. destruct (listed_requested ownB hB q OK LQ) as (y & Ey). congruence. }
      apply first_request_in in FRQ. cbn [flat_map requests] in FRQ. rewrite app_nil_r in FRQ. apply RQ; auto. }
  (* how each symbol is written in the second file *)
  assert (SB : forall s, In s (symbols_of t) -> has_package s = true -> (sym_path s = "" -> ownA <> "") ->
     exists n, prefix_name B' (sym_path s) = Some n /\ PkgName (SymPackage (rename B' (rename A s))) = n).
  { intros s Hs HP NE. destruct (SA s Hs HP) as (n & PN & RN).
    assert (HP2 : has_package (rename A s) = true).
    { rewrite RN. unfold has_package. cbn [SymPackage PkgName ImportPath]. apply negb_true_iff, andb_false_iff.
      destruct (String.eqb_spec (sym_path s) ""); auto. left. apply String.eqb_neq. intros ->.
      apply prefix_name_nonempty in PN; auto. apply (NE e). congruence. }
    pose proof (KB _ (SYM s Hs) HP2) as KN. unfold rename at 1. rewrite HP2. rewrite rename_path in KN |- *.
    destruct (prefix_name B' (sym_path s)) as [m|] eqn:PM; [|congruence]. exists m. auto. }
  (* a path that is right in the second file *)
  split.
  - intros REF path (s & Hs & HP & <-). destruct (String.eqb_spec (sym_path s) ownB) as [|NO]; auto. right.
    destruct (REF s Hs) as [_ R]. specialize (R HP). destruct (SA s Hs HP) as (nA & PA & RN).
    assert (NE : sym_path s = "" -> ownA <> "").
    { intros E0 EA0. assert (E1 : nA = ""). { unfold prefix_name in PA. rewrite OA, E0, EA0 in PA. cbn in PA. congruence. }
      unfold refers in R. rewrite RN, E1, E0 in R. cbn in R. congruence. }
    split; auto. destruct (SB s Hs HP NE) as (n & PN & EN). rewrite EN in R.
    destruct (String.eqb_spec (sym_path s) ownA) as [|NA]; auto. right.
    destruct (In_dec string_dec (sym_path s) (listed B)) as [|NL]; auto. right.
    assert (NnA : nA <> "") by (intros ->; apply prefix_name_nonempty in PA; auto; congruence).
    assert (Nn : n <> "") by (intros ->; apply prefix_name_nonempty in PN; auto; congruence).
    rewrite (prefix_prefix A _ nA), (prefix_prefix B' _ n) by auto.
    destruct (String.eqb_spec nA (real (sym_path s))) as [->|NR]; auto. right. intros EQ. injection EQ as EQ. apply append_inj_r in EQ. subst nA.
    unfold refers in R. destruct (String.eqb_spec n ""); [contradiction|]. destruct (proj2 (R _) eq_refl) as (sp & IS & ES & SP).
    assert (LS : In (sym_path s) (listed B')) by (rewrite <- SP; apply in_map; auto).
    destruct (LB _ LS) as (n2 & nm & N2 & P2 & I2 & [[L _]|(_ & PA2 & _)]); [contradiction|].
    assert (n2 = n) by congruence. assert (nm = n) by congruence. subst n2 nm. rewrite String.eqb_refl in I2.
    rewrite (spec_unique B' sp _ IB' IS I2 SP) in ES. unfold effective_name in ES. cbn in ES. congruence.
  - intros RG s Hs. split; [rewrite !rename_name; auto|]. intros HP.
    assert (ALL : forall q, In q (listed B') -> right_spec real B' q).
    { intros q Lq. destruct (LB q Lq) as (n & nm & N & PN & IS & CS). exists n. split; auto. split; auto.
      eexists. split; [exact IS|]. split; auto. unfold effective_name. cbn [PackageAlias SpecPath].
      destruct (String.eqb_spec n nm) as [<-|]; [|destruct (String.eqb_spec n ""); congruence]. cbn.
      destruct CS as [[_ [->| ->]]|(NL & PA & M)]; [contradiction|auto|].
      assert (NQ : q <> ownB) by (intros ->; unfold prefix_name in PN; rewrite OB', String.eqb_refl in PN; congruence).
      assert (NQA : q <> ownA) by (intros ->; unfold prefix_name in PA; rewrite OA, String.eqb_refl in PA; congruence).
      destruct (RG q M) as [|[_ [|[L|[R|R]]]]]; try contradiction.
      + rewrite (prefix_prefix A _ n) in R by auto. injection R as R. apply append_inj_r in R. auto.
      + exfalso. apply R. rewrite (prefix_prefix A _ n), (prefix_prefix B' _ n) by auto. auto. }
    destruct (RG (sym_path s)) as [EO|[NE _]]; [exists s; auto| |].
    + assert (E0 : PkgName (SymPackage (rename B' (rename A s))) = "").
      { destruct (SA s Hs HP) as (n & PN & RN). unfold rename at 1. destruct (has_package (rename A s)) eqn:HP2.
        - rewrite rename_path. unfold prefix_name. rewrite OB', EO, String.eqb_refl. auto.
        - unfold has_package in HP2. apply negb_false_iff, andb_true_iff in HP2 as [HP2 _]. apply String.eqb_eq in HP2. auto. }
      unfold refers. rewrite E0. auto.
    + destruct (SB s Hs HP NE) as (n & PN & ->). unfold refers. destruct (String.eqb_spec n "") as [->|Nn].
      * apply prefix_name_nonempty in PN; auto. congruence.
      * apply right_resolves; auto.
Qed.
