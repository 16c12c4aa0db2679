(** Theorems about the text of types: totality, round trip, meaning in the generated file. *)
From Coq Require Import Permutation.
From Verif Require Import Base BaseFacts GoPath Utf8 Quote SpecLit Types SpecTypes TypesFacts Imports SpecImports
  ImportsProofs ImportsTheorems SpecGo SpecRender LexProofs TextProofs ParseProofs.

Section WithPrint.
Variable isPrint : N -> bool.

(** ** String() and nested rendering *)
Lemma Symbol_String_text s : Symbol_String s = symbol_text s.
Proof. unfold Symbol_String, symbol_text. destruct (negb _); auto. rewrite append_assoc. auto. Qed.
Lemma string_is_buffer t : typeNameToString isPrint t = typeNameToBuffer isPrint t.
Proof.
  destruct t; auto.
  - cbn. unfold basic_text, W. destruct (Kind_beq k KUint8); auto. destruct (Kind_beq k KInt32); auto.
  - cbn. rewrite Symbol_String_text. auto.
Qed.

(** Totality on well-formed types, legal names or not. *)
Lemma sig_total (rec rec_elem : TypeName -> res string) a r v :
  Forall (fun x => is_ok (rec (ArgTy x)) = true) a ->
  Forall (fun x => is_ok (rec (ArgTy x)) = true) r ->
  (v = true -> forall x, last_arg a = Some x -> is_ok (rec_elem (ArgTy x)) = true) ->
  is_ok (signatureToBuffer_ rec rec_elem (mkSig a r v)) = true.
Proof.
  intros FA FR V. rewrite sig_loops. rewrite !ok_app.
  assert (A : forall named l i len, i + List.length l = len ->
     Forall (fun x => is_ok (rec (ArgTy x)) = true) l ->
     (v = true -> forall x, last_arg l = Some x -> is_ok (rec_elem (ArgTy x)) = true) ->
     is_ok (args_loop rec rec_elem v named len i l) = true).
  { intros named. induction l as [|[n t] l IH]; intros i len L F V'; auto.
    inversion F; subst. cbn [args_loop List.length] in *. rewrite !ok_app. cbn [is_ok W andb].
    rewrite IH; auto; [| lia |].
    - destruct l as [|b l].
      + replace (Nat.eqb i (i + S (List.length (@nil ArgType)) - 1)) with true
          by (simpl; symmetry; apply Nat.eqb_eq; lia).
        destruct v; cbn [andb].
        * rewrite ok_app. cbn [is_ok W andb]. rewrite andb_true_r. apply (V' eq_refl (mkArg n t)). auto.
        * rewrite andb_true_r. auto.
      + replace (Nat.eqb i (i + S (List.length (b :: l)) - 1)) with false
          by (symmetry; apply Nat.eqb_neq; simpl; lia).
        rewrite andb_false_r, andb_true_r. auto.
    - intros E x X. apply V'; auto. destruct l; [discriminate|]. exact X. }
  rewrite A by auto. cbn [is_ok W andb]. destruct r as [|x r]; auto. cbv zeta.
  rewrite !ok_app. cbn [is_ok W andb].
  rewrite (results_args rec rec_elem _ (List.length (x :: r))).
  assert (B : forall named l i len, Forall (fun x => is_ok (rec (ArgTy x)) = true) l ->
     is_ok (args_loop rec rec_elem false named len i l) = true).
  { intros named. induction l as [|[n t] l IH]; intros i len F; auto.
    inversion F; subst. cbn [args_loop andb]. rewrite !ok_app. cbn [is_ok W andb].
    rewrite IH; auto. rewrite andb_true_r. auto. }
  rewrite B; auto.
Qed.
Definition TOT (t : TypeName) : Prop := wf t = true ->
  is_ok (typeNameToBuffer isPrint t) = true /\
  (forall e, t = TSlice e -> is_ok (typeNameToBuffer isPrint e) = true).
Lemma sigTOT a r v :
  PSig TOT (mkSig a r v) -> variadic_ok (mkSig a r v) = true ->
  forallb (fun x => wf (ArgTy x)) a = true -> forallb (fun x => wf (ArgTy x)) r = true ->
  is_ok (signatureToBuffer_ (typeNameToBuffer isPrint) (rec_elem isPrint) (mkSig a r v)) = true.
Proof.
  intros [PA PR] V WA WR. cbn [Args Results] in *. unfold PArgs in *.
  rewrite Forall_forall in PA, PR. rewrite forallb_forall in WA, WR.
  apply sig_total.
  - apply Forall_forall. intros x I. apply PA; auto.
  - apply Forall_forall. intros x I. apply PR; auto.
  - intros -> x L. unfold variadic_ok in V. cbn [IsVariadic Args negb orb] in V.
    pose proof L as L'. rewrite last_arg_rev' in L'. destruct (rev a); [discriminate|].
    injection L' as ->. apply last_arg_in in L. destruct (PA x L (WA x L)) as [_ G].
    destruct (ArgTy x) eqn:E; try discriminate. cbn. apply G; auto.
Qed.
Lemma buffer_total : forall t, TOT t.
Proof.
  induction t using TypeName_ind'; intros WF; (split; [|try (intros ? ?; discriminate)]);
    try discriminate; try reflexivity.
  - destruct (IHt WF) as [R _]. cbn [typeNameToBuffer]. rewrite ok_app, R. auto.
  - destruct (IHt WF) as [R _]. cbn [typeNameToBuffer]. rewrite ok_app, R. auto.
  - intros e [= <-]. destruct (IHt WF); auto.
  - cbn [wf] in WF. apply andb_true_iff in WF as [N WF]. destruct (IHt WF) as [R _].
    cbn [typeNameToBuffer]. rewrite !ok_app, R. auto.
  - cbn [wf] in WF. apply andb_true_iff in WF as [W1 W2].
    destruct (IHt1 W1) as [R1 _]. destruct (IHt2 W2) as [R2 _].
    cbn [typeNameToBuffer]. rewrite !ok_app, R1, R2. auto.
  - cbn [wf] in WF. apply andb_true_iff in WF as [W1 W2]. destruct (IHt W2) as [R _].
    cbn [typeNameToBuffer]. rewrite !ok_app, R. auto.
  - destruct s as [a r v]. cbn [wf] in WF. apply andb_true_iff in WF as [WV WF1].
    apply andb_true_iff in WF1 as [WA WR]. rewrite render_func, ok_app, sigTOT; auto.
  - rewrite render_struct. cbn [wf] in WF. rewrite !ok_app.
    assert (G : forall i, is_ok (fields_loop isPrint i fs) = true).
    { revert H WF. induction fs as [|[n t tag] l IH]; intros H WF i; auto.
      inversion H as [|? ? H1 H2]; subst. cbn [forallb FldType] in *. apply andb_true_iff in WF as [W1 W2].
      destruct (H1 W1) as [R _]. cbn [fields_loop]. rewrite !ok_app, R, IH; auto. }
    rewrite G. auto.
  - rewrite render_interface. cbn [wf] in WF. rewrite !ok_app.
    assert (G : forall i, is_ok (embeds_loop i es) = true).
    { clear. induction es; intros i; auto. cbn [embeds_loop]. rewrite !ok_app, IHes. auto. }
    assert (G2 : forall i, is_ok (methods_loop isPrint i ms) = true).
    { revert H WF. induction ms as [|[n [a r v]] l IH]; intros H WF i; auto.
      inversion H as [|? ? H1 H2]; subst. cbn [forallb MtdSig] in *. apply andb_true_iff in WF as [W1 W2].
      apply andb_true_iff in W1 as [WV W1]. apply andb_true_iff in W1 as [WA WR].
      cbn [methods_loop]. rewrite !ok_app, IH, sigTOT; auto. }
    rewrite G, G2. auto.
Qed.
Lemma String_total t : wf t = true -> exists s, typeNameToString isPrint t = Ok s.
Proof.
  intros W. rewrite string_is_buffer. destruct (buffer_total t W) as [R _].
  destruct (typeNameToBuffer isPrint t); [eauto|discriminate].
Qed.
End WithPrint.

(** ** The text determines the type *)
Definition kind_named (x : string) : option Kind :=
  find (fun k => String.eqb (basic_name k) x)
    [KBool; KString; KInt; KInt8; KInt16; KInt32; KInt64; KUint; KUint8; KUint16; KUint32; KUint64;
     KUintptr; KFloat32; KFloat64; KComplex64; KComplex128].
Definition gsym (q : option string) (n : string) : Symbol :=
  mkSymbol (mkPackage "" (match q with Some q => q | None => "" end)) n.
Definition dname (o : option string) : string := match o with Some x => x | None => "" end.
Definition undec (s : string) : Z :=
  match DecimalString.NilZero.uint_of_string s with Some u => Z.of_N (N.of_uint u) | None => 0%Z end.
Definition undir (d : dir) : Z := match d with DRecv => 1 | DSend => 2 | DBoth => 3 end.
Fixpoint undenote (g : gotype) : TypeName :=
  match g with
  | GName None x => match kind_named x with Some k => TBasic k | None => TNamed (gsym None x) end
  | GName q x => TNamed (gsym q x)
  | GPtr e => TPtr (undenote e)
  | GSlice e => TSlice (undenote e)
  | GArray n e => TArray (undenote e) (undec n)
  | GMap k e => TMap (undenote e) (undenote k)
  | GChan d e => TChan (undenote e) (undir d)
  | GFunc ps rs =>
      TFunc (mkSig (map (fun '(n, d, t) => mkArg (dname n) (if d : bool then TSlice (undenote t) else undenote t)) ps)
                   (map (fun '(n, d, t) => mkArg (dname n) (if d : bool then TSlice (undenote t) else undenote t)) rs)
                   (existsb (fun p => snd (fst p)) ps))
  | GStruct fs => TStruct (map (fun '(n, t, tag) => mkField (dname n) (undenote t) tag) fs)
  | GInterface es =>
      TInterface
        (flat_map (fun e => match e with
           | inl (n, ps, rs) =>
               [mkMethod n (mkSig
                  (map (fun '(n, d, t) => mkArg (dname n) (if d : bool then TSlice (undenote t) else undenote t)) ps)
                  (map (fun '(n, d, t) => mkArg (dname n) (if d : bool then TSlice (undenote t) else undenote t)) rs)
                  (existsb (fun p => snd (fst p)) ps))]
           | inr _ => [] end) es)
        (flat_map (fun e => match e with inl _ => [] | inr (q, n) => [gsym q n] end) es)
  end.
Definition no_shadow_sym (s : Symbol) : bool :=
  negb (String.eqb (PkgName (SymPackage s)) "" && existsb (String.eqb (SymName s)) basic_names).

Lemma undec_dec n : (0 <= n)%Z -> undec (decZ n) = n.
Proof.
  intros H. unfold undec, decZ. destruct (Z.ltb_spec n 0); [lia|]. unfold dec.
  rewrite DecimalString.NilZero.usu.
  - rewrite DecimalN.Unsigned.of_to. lia.
  - intros E. pose proof (DecimalN.Unsigned.of_to (Z.to_N n)) as O. rewrite E in O. cbn in O.
    rewrite <- O in E. discriminate.
Qed.
Lemma kind_of_basic k : is_basic k = true -> kind_named (basic_name k) = Some k.
Proof. destruct k; intros H; try discriminate; reflexivity. Qed.
Lemma kind_named_none x : existsb (String.eqb x) basic_names = false -> kind_named x = None.
Proof.
  intros H. unfold kind_named.
  match goal with |- find _ ?l = _ => assert (A : forall k, In k l -> In (basic_name k) basic_names) end.
  { intros k Hk. repeat (destruct Hk as [<-|Hk]; [cbn; tauto|]). destruct Hk. }
  match goal with |- find ?f ?l = _ => destruct (find f l) as [k|] eqn:F; auto; exfalso;
     apply find_some in F as [F1 F2]; apply String.eqb_eq in F2; apply A in F1 end.
  rewrite F2 in F1. apply not_true_iff_false in H. apply H. apply existsb_exists. exists x. split; auto.
  apply String.eqb_refl.
Qed.

Definition UD (t : TypeName) : Prop :=
  wf t = true -> forallb no_shadow_sym (symbols_of t) = true -> undenote (denote t) = erase t.
Definition uparam : gparam -> ArgType :=
  fun '(n, d, t) => mkArg (dname n) (if d : bool then TSlice (undenote t) else undenote t).
Lemma undenote_args v named : forall l, PArgs UD l ->
  forallb (fun x => wf (ArgTy x)) l = true ->
  forallb no_shadow_sym (args_symbols symbols_of l) = true ->
  (named = false -> has_names l = false) ->
  (v = true -> match rev l with [] => True | a :: _ => is_slice (ArgTy a) = true end) ->
  map uparam (dparams denote named v l) =
  map (fun a => match a with
                | mkArg n t => mkArg (if named && String.eqb n "" then "_" else n) (erase t)
                end) l.
Proof.
  induction l as [|[n t] l IH]; intros P W S N V; auto.
  inversion P as [|? ? P1 P2]; subst. cbn [forallb ArgTy] in *.
  apply andb_true_iff in W as [W1 W2]. unfold args_symbols in S. cbn [flat_map] in S.
  rewrite forallb_app in S. apply andb_true_iff in S as [S1 S2].
  specialize (P1 W1 S1). cbn [ArgTy] in P1. cbn [dparams map]. f_equal.
  - cbn [uparam]. f_equal.
    + destruct named; cbn [dname andb].
      * destruct (String.eqb n ""); auto.
      * specialize (N eq_refl). cbn [has_names existsb ArgName] in N. apply orb_false_iff in N as [N _].
        apply negb_false_iff, String.eqb_eq in N. auto.
    + destruct l as [|b l]; auto. destruct v; auto.
      specialize (V eq_refl). cbn in V. destruct t; try discriminate.
      cbn [denote_with unslice undenote erase] in *. auto.
  - apply IH; auto.
    + intros E. specialize (N E). cbn [has_names existsb] in N. apply orb_false_iff in N as [_ N]. exact N.
    + intros E. specialize (V E). simpl in V. destruct (rev l); auto.
Qed.
Lemma existsb_dots v named : forall l : list ArgType, existsb (fun p : gparam => snd (fst p)) (dparams denote named v l) =
  match l with [] => false | _ => v end.
Proof.
  induction l as [|[n t] l IH]; auto. cbn [dparams existsb fst snd]. rewrite IH.
  destruct l; [apply orb_false_r|reflexivity].
Qed.
Lemma undenote_sig a r v : PSig UD (mkSig a r v) -> variadic_ok (mkSig a r v) = true ->
  forallb (fun x => wf (ArgTy x)) a = true -> forallb (fun x => wf (ArgTy x)) r = true ->
  forallb no_shadow_sym (args_symbols symbols_of a ++ args_symbols symbols_of r) = true ->
  mkSig (map uparam (dparams denote (has_names a) v a)) (map uparam (dparams denote (has_names r) false r))
    (existsb (fun p : gparam => snd (fst p)) (dparams denote (has_names a) v a))
  = erase_sig erase (mkSig a r v).
Proof.
  intros [PA PR] V WA WR S. cbn [Args Results] in *. rewrite forallb_app in S.
  apply andb_true_iff in S as [S1 S2]. rewrite existsb_dots. cbn [erase_sig]. unfold erase_args.
  assert (V1 : v = true -> match rev a with [] => False | x :: _ => is_slice (ArgTy x) = true end).
  { intros ->. unfold variadic_ok in V. cbn [IsVariadic Args negb orb] in V.
    destruct (rev a); [discriminate|auto]. }
  f_equal.
  - apply undenote_args; auto. intros E. specialize (V1 E). destruct (rev a); auto.
  - apply undenote_args; auto. discriminate.
  - destruct a; [destruct v; [specialize (V1 eq_refl); contradiction|reflexivity]|reflexivity].
Qed.

Lemma gsym_qualifier s : gsym (qualifier s) (SymName s) = erase_symbol s.
Proof.
  unfold gsym, qualifier, erase_symbol.
  destruct (String.eqb_spec (PkgName (SymPackage s)) "") as [->|]; auto.
Qed.
Lemma undenote_denote : forall t, UD t.
Proof.
  induction t using TypeName_ind'; intros WF S; cbn [symbols_of] in S; try discriminate; cbn [denote_with undenote erase].
  - rewrite kind_of_basic; auto.
  - rewrite <- gsym_qualifier. cbn [forallb] in S. rewrite andb_true_r in S.
    unfold no_shadow_sym in S. unfold qualifier. destruct (String.eqb (PkgName (SymPackage s)) ""); auto.
    cbn [andb] in S. apply negb_true_iff in S. rewrite kind_named_none; auto.
  - f_equal. apply IHt; auto.
  - f_equal. apply IHt; auto.
  - cbn [wf] in WF. apply andb_true_iff in WF as [N WF]. apply Z.leb_le in N.
    rewrite undec_dec by auto. f_equal. apply IHt; auto.
  - cbn [wf] in WF. apply andb_true_iff in WF as [W1 W2]. rewrite forallb_app in S.
    apply andb_true_iff in S as [S1 S2]. f_equal; auto.
  - cbn [wf] in WF. apply andb_true_iff in WF as [W1 W2]. f_equal; auto.
    unfold denote_dir. destruct (Z.eqb_spec d 1); auto. destruct (Z.eqb_spec d 2); auto.
    cbn [undir]. lia.
  - destruct s as [a r v]. cbn [wf] in WF. apply andb_true_iff in WF as [WV WF1].
    apply andb_true_iff in WF1 as [WA WR]. cbn [sig_symbols_] in S.
    cbn [denote_with undenote erase]. f_equal. apply (undenote_sig a r v); auto.
  - f_equal. cbn [wf] in WF. revert H WF S. induction fs as [|[n t tag] l IH]; intros H WF S; auto.
    inversion H as [|? ? H1 H2]; subst. cbn [forallb FldType flat_map] in *.
    apply andb_true_iff in WF as [W1 W2]. rewrite forallb_app in S. apply andb_true_iff in S as [S1 S2].
    cbn [map]. f_equal; auto. f_equal; auto.
    unfold opt_name, dname. destruct (String.eqb_spec n ""); auto.
  - cbn [wf] in WF. rewrite forallb_app in S. apply andb_true_iff in S as [S1 S2].
    rewrite !flat_map_app. f_equal.
    + rewrite flat_map_concat_map, map_map. cbn beta iota.
      replace (concat (map (fun x : Symbol => @nil MethodType) es)) with (@nil MethodType)
        by (clear; induction es; auto).
      cbn [app]. clear S1. revert H WF S2. induction ms as [|[n [a r v]] l IH]; intros H WF S2; auto.
      inversion H as [|? ? H1 H2]; subst. cbn [forallb flat_map MtdSig sig_symbols_] in *.
      apply andb_true_iff in WF as [W1 W2]. apply andb_true_iff in W1 as [WV W1].
      apply andb_true_iff in W1 as [WA WR]. rewrite forallb_app in S2.
      apply andb_true_iff in S2 as [SA SB].
      cbn [map flat_map app]. f_equal; auto. f_equal. apply (undenote_sig a r v); auto.
    + clear. rewrite !flat_map_concat_map, !map_map.
      match goal with |- _ ++ ?x = _ => assert (E : x = []) end.
      { induction ms as [|[n [a r v]] l IH]; auto. }
      rewrite E, app_nil_r. induction es as [|x l IH]; auto.
      cbn [map concat app]. rewrite IH, gsym_qualifier. auto.
Qed.

(** ** Meaning of the text in the generated file *)
Section Meaning.
Variable real : string -> string.
Variable specs : list ImportSpec.
Variable own : string.
Variable g : Symbol -> Symbol.
Definition good_sym (s : Symbol) : Prop :=
  SymName (g s) = SymName s /\ resolve_qual real specs (qualifier (g s)) = Some (path_qualifier own s).
Definition RD (t : TypeName) : Prop := Forall good_sym (symbols_of t) ->
  resolve_type real specs (denote (map_symbols g t)) = Some (denote_with (path_qualifier own) t).
Definition rparam (p : option string * bool * gotype) : option (option string * bool * gotype) :=
  let '(n, d, t) := p in obind (resolve_type real specs t) (fun t => Some (n, d, t)).
Lemma has_names_map (l : list ArgType) : has_names (map_args (map_symbols g) l) = has_names l.
Proof.
  induction l as [|[n t] l IH]; auto. cbn [map_args map has_names existsb ArgName].
  unfold has_names, map_args in IH. rewrite IH. auto.
Qed.
Lemma unslice_map t : unslice (denote (map_symbols g t)) =
  match t with TSlice e => denote (map_symbols g e) | _ => denote (map_symbols g t) end.
Proof. destruct t as [| | | | | | | |[]| |]; auto. Qed.
Lemma resolve_unslice t u : resolve_type real specs t = Some u ->
  resolve_type real specs (unslice t) = Some (unslice u).
Proof.
  destruct t; cbn [resolve_type unslice]; intros H;
  repeat match type of H with
  | obind ?x _ = _ => destruct x eqn:?E; cbn [obind] in H; [|discriminate]
  end; injection H as <-; cbn [unslice obind resolve_type]; auto;
  repeat match goal with E : ?x = Some _ |- context [?x] => rewrite E; cbn [obind] end; auto.
Qed.
Lemma resolve_args named v : forall l, PArgs RD l -> Forall good_sym (args_symbols symbols_of l) ->
  all_some (map rparam (dparams denote named v (map_args (map_symbols g) l))) =
  Some (dparams (denote_with (path_qualifier own)) named v l).
Proof.
  induction l as [|[n t] l IH]; intros P S; auto.
  inversion P as [|? ? P1 P2]; subst. unfold args_symbols in S. cbn [flat_map] in S.
  apply Forall_app in S as [S1 S2]. specialize (P1 S1). cbn [ArgTy] in P1.
  specialize (IH P2 S2).
  cbn [map_args map dparams]. unfold map_args in IH. cbn [map all_some]. rewrite IH.
  assert (L : match map (fun a : ArgType => match a with mkArg n t => mkArg n (map_symbols g t) end) l with
              | [] => v | _ => false end = match l with [] => v | _ => false end) by (destruct l; auto).
  rewrite L. unfold rparam. destruct (match l with [] => v | _ => false end).
  - rewrite (resolve_unslice _ _ P1). reflexivity.
  - rewrite P1. reflexivity.
Qed.

Lemma resolve_denote : forall t, RD t.
Proof.
  induction t using TypeName_ind'; intros S; cbn [symbols_of] in S; cbn [map_symbols denote_with resolve_type]; auto.
  - inversion S as [|? ? [N Q] _]; subst. rewrite N, Q. auto.
  - rewrite IHt by auto. auto.
  - rewrite IHt by auto. auto.
  - rewrite IHt by auto. auto.
  - apply Forall_app in S as [S1 S2]. rewrite IHt1, IHt2 by auto. auto.
  - rewrite IHt by auto. auto.
  - destruct s as [a r v]. cbn [sig_symbols_] in S. apply Forall_app in S as [S1 S2].
    destruct H as [PA PR]. cbn [Args Results] in *.
    cbn [map_sig denote_with resolve_type]. rewrite !has_names_map.
    pose proof (resolve_args (has_names a) v a PA S1) as RA.
    pose proof (resolve_args (has_names r) false r PR S2) as RR.
    change gparam with (option string * bool * gotype)%type in *. fold rparam.
    rewrite RA. cbn [obind]. rewrite RR. reflexivity.
  - assert (E : all_some (map (fun '(n, t, tag) =>
        obind (resolve_type real specs t) (fun t0 : gotype => Some (n, t0, tag)))
      (map (fun f : FieldType => match f with mkField n t tag => (opt_name n, denote t, tag) end)
       (map (fun x : FieldType => match x with mkField n t tag => mkField n (map_symbols g t) tag end) fs)))
      = Some (map (fun f : FieldType => match f with
            mkField n t tag => (opt_name n, denote_with (path_qualifier own) t, tag) end) fs)).
    { revert H S. induction fs as [|[n t tag] l IH]; intros H S; auto.
      inversion H as [|? ? H1 H2]; subst. cbn [flat_map] in S. apply Forall_app in S as [S1 S2].
      specialize (H1 S1). cbn [FldType] in H1. cbn [map all_some]. rewrite H1. cbn [obind]. rewrite (IH H2 S2). reflexivity. }
    rewrite E. reflexivity.
  - apply Forall_app in S as [S1 S2].
    match goal with |- obind (all_some (map ?f _)) _ = _ => set (F := f) end.
    assert (APP : forall A (x y : list (option A)) u w, all_some x = Some u -> all_some y = Some w ->
              all_some (x ++ y) = Some (u ++ w)).
    { clear. induction x as [|[a|] x IH]; intros y u w; cbn [all_some obind app]; try discriminate.
      - intros [= <-] ->. auto.
      - destruct (all_some x) as [x'|]; [|discriminate]. cbn [obind]. intros [= <-] Y.
        rewrite (IH y x' w) by auto. reflexivity. }
    rewrite map_app. erewrite APP; [reflexivity| |].
    + clear -S1. induction es as [|s l IH]; auto. inversion S1 as [|? ? [N Q] S2]; subst.
      cbn [map all_some]. unfold F at 1. rewrite Q, N. cbn [obind]. rewrite (IH S2). reflexivity.
    + revert H S2. induction ms as [|[n [a r v]] l IH]; intros H S2; auto.
      inversion H as [|? ? [PA PR] H2]; subst. cbn [flat_map sig_symbols_ MtdSig Args Results] in *.
      apply Forall_app in S2 as [S2 S3]. apply Forall_app in S2 as [SA SB].
      pose proof (resolve_args (has_names a) v a PA SA) as RA.
      pose proof (resolve_args (has_names r) false r PR SB) as RR.
      change gparam with (option string * bool * gotype)%type in *.
      cbn [map all_some map_sig]. unfold F at 1. fold rparam. rewrite !has_names_map, RA. cbn [obind]. rewrite RR. cbn [obind].
      rewrite (IH H2 S3). reflexivity.
Qed.
End Meaning.

(** Imports whose requests are usable only contain usable names. *)
Definition usable_names (i : Imports) : Prop :=
  forall path d, lookup path (importsByPath i) = Some d -> usable_alias (packageName d) = true.
Lemma usable_fold l : forall i, Inv i -> usable_names i ->
  (forall p n, In (p, n) l -> usable_alias (if String.eqb n "" then path_Base p else n) = true) ->
  usable_names (fold_left reg_pair l i).
Proof.
  induction l as [|[p n] l IH]; intros i I U H; auto. cbn [fold_left].
  assert (K : Inv (reg_pair i (p, n)) /\ usable_names (reg_pair i (p, n))).
  { unfold reg_pair, RegisterImport. cbn [fst snd].
    destruct (prefix_name i p) as [m|] eqn:P.
    - rewrite (prefix_known _ _ _ _ _ I P). auto.
    - destruct (prefix_new i p n I P) as (k & i' & E & _ & _ & -> & I' & _). rewrite E. cbn [snd].
      split; auto. intros path d. cbn [importsByPath].
      destruct (String.eqb_spec path p) as [->|NE].
      + rewrite lookup_insert_same. intros [= <-]. cbn [packageName]. rewrite cand_candidate.
        apply candidate_usable. apply H. left; auto.
      + rewrite lookup_insert_other by auto. apply U. }
  destruct K as [I' U']. apply IH; auto. intros; apply H; right; auto.
Qed.
Lemma usable_run own h : forallb call_ok h = true -> (forall c, In c h -> usable_requests c) ->
  usable_names (run h (NewImportsFor own)).
Proof.
  intros OK H. rewrite (run_requests h _ OK (Inv_new own)).
  apply usable_fold; [apply Inv_new|intros p d L; discriminate|].
  intros p n IN. apply in_flat_map in IN as (c & C & R). eapply H; eauto.
Qed.
Lemma usable_ident s : usable_alias s = true -> ident s = true.
Proof. unfold usable_alias, ident. intros H. apply andb_true_iff in H as [H _]. exact H. Qed.

(** Legality is kept by renaming symbols to usable qualifiers. *)
Lemma text_ok_args (g : Symbol -> Symbol) (l : list ArgType) :
  Forall (fun a => (forall s, In s (symbols_of (ArgTy a)) -> sym_ok s = true -> sym_ok (g s) = true) ->
                   text_ok (ArgTy a) = true -> text_ok (map_symbols g (ArgTy a)) = true) l ->
  (forall s, In s (args_symbols symbols_of l) -> sym_ok s = true -> sym_ok (g s) = true) ->
  forallb (fun x => text_ok (ArgTy x)) l = true ->
  forallb (fun x => text_ok (ArgTy x)) (map_args (map_symbols g) l) = true /\
  names_ok (map_args (map_symbols g) l) = names_ok l.
Proof.
  induction l as [|[n t] l IH]; intros P G W; auto.
  inversion P as [|? ? P1 P2]; subst. cbn [forallb ArgTy] in *. apply andb_true_iff in W as [W1 W2].
  destruct IH as [IH1 IH2]; auto.
  { intros s I. apply G. cbn. apply in_or_app. right; auto. }
  split.
  - cbn [map_args map forallb ArgTy]. rewrite P1; auto. intros s I. apply G. cbn. apply in_or_app. auto.
  - cbn [map_args map names_ok forallb ArgName]. unfold names_ok, map_args in IH2. rewrite IH2. auto.
Qed.
Lemma text_ok_map g : forall t,
  (forall s, In s (symbols_of t) -> sym_ok s = true -> sym_ok (g s) = true) ->
  text_ok t = true -> text_ok (map_symbols g t) = true.
Proof.
  assert (SIG : forall a r v,
    PSig (fun t => (forall s, In s (symbols_of t) -> sym_ok s = true -> sym_ok (g s) = true) ->
                   text_ok t = true -> text_ok (map_symbols g t) = true) (mkSig a r v) ->
    (forall s, In s (args_symbols symbols_of a ++ args_symbols symbols_of r) -> sym_ok s = true -> sym_ok (g s) = true) ->
    names_ok a && names_ok r && forallb (fun x => text_ok (ArgTy x)) a &&
       forallb (fun x => text_ok (ArgTy x)) r = true ->
    names_ok (map_args (map_symbols g) a) && names_ok (map_args (map_symbols g) r) &&
       forallb (fun x => text_ok (ArgTy x)) (map_args (map_symbols g) a) &&
       forallb (fun x => text_ok (ArgTy x)) (map_args (map_symbols g) r) = true).
  { intros a r v [PA PR] G T. cbn [Args Results] in *. rewrite !andb_true_iff in T.
    destruct T as [[[NA NR] TA] TR].
    destruct (text_ok_args g a PA) as [A1 A2]; auto. { intros s I. apply G, in_or_app; auto. }
    destruct (text_ok_args g r PR) as [R1 R2]; auto. { intros s I. apply G, in_or_app; auto. }
    rewrite A1, A2, R1, R2, NA, NR. auto. }
  induction t using TypeName_ind'; cbn [symbols_of map_symbols text_ok]; intros G T; auto.
  - apply G; auto. left; auto.
  - apply andb_true_iff in T as [T1 T2]. rewrite IHt1, IHt2; auto.
    + intros s I. apply G, in_or_app; auto.
    + intros s I. apply G, in_or_app; auto.
  - apply andb_true_iff in T as [T1 T2]. rewrite IHt by auto. rewrite andb_true_r.
    destruct t; auto.
  - destruct s as [a r v]. cbn [map_sig text_ok]. apply (SIG a r v); auto.
  - revert H G T. induction fs as [|[n t tag] l IH]; intros H G T; auto.
    inversion H as [|? ? H1 H2]; subst. cbn [map forallb flat_map FldName FldType] in *.
    apply andb_true_iff in T as [T1 T2]. apply andb_true_iff in T1 as [T0 T1].
    rewrite IH; auto; [|intros s I; apply G, in_or_app; auto].
    rewrite H1; auto; [|intros s I; apply G, in_or_app; auto].
    rewrite andb_true_r. apply andb_true_iff; split; auto.
    destruct (String.eqb n ""); auto. destruct t as [| | |[]| | | | | | |]; auto.
  - rewrite !andb_true_iff in *. destruct T as [[ME TE] TM]. repeat split.
    + destruct ms, es; auto.
    + rewrite forallb_forall in *. intros x I. apply in_map_iff in I as (y & <- & I).
      apply G; auto. apply in_or_app; auto.
    + assert (G2 : forall s, In s (flat_map (fun m => match m with mkMethod _ s => sig_symbols_ symbols_of s end) ms) ->
                sym_ok s = true -> sym_ok (g s) = true) by (intros; apply G; auto; apply in_or_app; auto).
      clear ME TE G. revert H G2 TM. induction ms as [|[n [a r v]] l IH]; intros H G T; auto.
      inversion H as [|? ? H1 H2]; subst. cbn [map forallb flat_map sig_symbols_ map_sig MtdSig] in *.
      apply andb_true_iff in T as [T1 T2]. apply andb_true_iff in T1 as [T0 T1].
      rewrite T0, (SIG a r v), IH; auto; intros s I; apply G, in_or_app; auto.
Qed.

Lemma filter_unique real specs q path : NoDup (map SpecPath specs) ->
  (forall p, resolves real specs q p <-> p = path) ->
  exists s, filter (fun s => String.eqb (effective_name real s) q) specs = [s] /\ SpecPath s = path.
Proof.
  intros ND R.
  assert (IN : forall s, In s (filter (fun s => String.eqb (effective_name real s) q) specs) <->
               In s specs /\ effective_name real s = q).
  { intros s. rewrite filter_In, String.eqb_eq. tauto. }
  assert (ND2 : NoDup (map SpecPath (filter (fun s => String.eqb (effective_name real s) q) specs))).
  { clear R IN. induction specs as [|s l IH]; cbn [filter]; auto. cbn [map] in ND. inversion ND; subst.
    destruct (String.eqb (effective_name real s) q); auto. cbn [map]. constructor; auto.
    intros I. apply in_map_iff in I as (y & E & I). apply filter_In in I as [I _].
    apply H1. rewrite <- E. apply in_map; auto. }
  destruct (proj2 (R path) eq_refl) as (s & S1 & S2 & S3).
  assert (ALL : forall x, In x (filter (fun s => String.eqb (effective_name real s) q) specs) -> SpecPath x = path).
  { intros x I. apply IN in I as [I1 I2]. apply R. exists x; auto. }
  assert (ex : In s (filter (fun s => String.eqb (effective_name real s) q) specs)) by (apply IN; auto).
  destruct (filter _ specs) as [|x [|y l]] eqn:F; [destruct ex| |].
  - exists x. split; auto. apply ALL. left; auto.
  - exfalso. cbn [map] in ND2. inversion ND2 as [|? ? N _]; subst. apply N. left.
    rewrite (ALL x), (ALL y); auto; [right; left; auto|left; auto].
Qed.

Lemma text_means isPrint real own h t :
  forallb call_ok h = true -> (forall c, In c h -> honest real c) -> (forall c, In c h -> usable_requests c) ->
  wf t = true -> text_ok t = true ->
  honest real (CEnsureTypeImported t) -> usable_requests (CEnsureTypeImported t) ->
  exists t' c i' s, EnsureTypeImported t (run h (NewImportsFor own)) = (Ok (t', c), i') /\
    typeNameToString isPrint t' = Ok s /\
    exists g, parse_type s = Some g /\
    forall h', forallb call_ok h' = true -> (forall c, In c h' -> honest real c) ->
      resolve_type real (ImportSpecs (run h' i')) g = Some (denote_with (path_qualifier own) t).
Proof.
  intros OK HON US W T HT UT.
  assert (RUN : exec (CEnsureTypeImported t) (run h (NewImportsFor own)) =
      run (h ++ [CEnsureTypeImported t]) (NewImportsFor own)) by (rewrite run_app; auto).
  set (i := run h (NewImportsFor own)) in *.
  assert (I : Inv i) by apply run_new_Inv.
  destruct (type_refers real own h t OK HON W HT) as (g0 & c0 & i0 & E0 & R0). fold i in E0.
  destruct (g_reg _ _ _ _ _ (good_type t) W i I) as (c & i' & E & C & K & P).
  destruct (g_keep _ _ _ _ _ (good_type t) true i I) as [I' X]. rewrite E in I', X. simpl in I', X.
  assert (EE : (Ok (map_symbols g0 t, c0), i0) = (Ok (map_symbols (rename i') t, c), i')).
  { rewrite <- E0. exact E. }
  assert (i0 = i') by congruence. subst i0.
  assert (OWN : pkgPath i' = own) by (destruct X as [X1 _]; rewrite X1; apply run_new_own).
  assert (US' : usable_names i').
  { replace i' with (run (h ++ [CEnsureTypeImported t]) (NewImportsFor own)).
    - apply usable_run.
      + rewrite forallb_app. simpl. rewrite OK, W. auto.
      + intros x IN. apply in_app_or in IN as [IN|[<-|[]]]; auto.
    - rewrite <- RUN. simpl. unfold EnsureTypeImported. rewrite E. auto. }
  exists (map_symbols (rename i') t), c, i'.
  assert (TX : text_ok (map_symbols (rename i') t) = true).
  { apply text_ok_map; auto. intros s IN. unfold sym_ok. rewrite rename_name, !andb_true_iff.
    intros [N1 N2]. split; auto. unfold rename. destruct (has_package s) eqn:HP; auto.
    specialize (K s IN HP). destruct (prefix_name i' (sym_path s)) as [n|] eqn:Pn; [|congruence].
    cbn [SymPackage PkgName]. unfold prefix_name in Pn.
    destruct (String.eqb (sym_path s) (pkgPath i')); [injection Pn as <-; auto|].
    destruct (lookup (sym_path s) (importsByPath i')) as [d|] eqn:L; [|discriminate].
    injection Pn as <-. rewrite (usable_ident (packageName d)); [apply orb_true_r|].
    eapply US'; eauto. }
  assert (WM : wf (map_symbols (rename i') t) = true) by (rewrite wf_map; auto).
  destruct (type_text_parses isPrint _ WM TX) as (s & ES & PS).
  exists s. split; [exact E|]. split; [rewrite string_is_buffer; auto|].
  exists (denote (map_symbols (rename i') t)). split; auto.
  intros h' OK' HON'. apply resolve_denote. apply Forall_forall. intros x IN.
  specialize (R0 h' OK' HON' x IN). destruct R0 as (_ & R1 & R2).
  split; [apply rename_name|]. unfold path_qualifier, qualifier. destruct (has_package x) eqn:HP.
  - specialize (R1 eq_refl).
    assert (GE : PkgName (SymPackage (g0 x)) = PkgName (SymPackage (rename i' x))).
    { assert (M : map_symbols g0 t = map_symbols (rename i') t) by congruence.
      assert (S : map g0 (symbols_of t) = map (rename i') (symbols_of t)).
      { rewrite <- !(g_syms _ _ _ _ _ (good_type t)). rewrite M. auto. }
      clear -S IN. induction (symbols_of t) as [|y l IH]; [destruct IN|].
      cbn [map] in S. injection S as S1 S2. destruct IN as [->|IN]; [congruence|auto]. }
    rewrite GE in R1. unfold refers in R1. cbn [andb].
    destruct (String.eqb_spec (PkgName (SymPackage (rename i' x))) "") as [E1|E1].
    + rewrite R1, String.eqb_refl. reflexivity.
    + destruct (run_keep h' _ I') as [Ij Xj].
      assert (ND : NoDup (map SpecPath (ImportSpecs (run h' i')))).
      { pose proof (import_specs own (h ++ CEnsureTypeImported t :: h')) as SP. cbv zeta in SP.
        destruct SP as (_ & _ & ND & _). rewrite run_app in ND. fold i in ND.
        change (run (CEnsureTypeImported t :: h') i) with (run h' (exec (CEnsureTypeImported t) i)) in ND.
        assert (EX : exec (CEnsureTypeImported t) i = i')
          by (simpl; unfold EnsureTypeImported; rewrite E; auto).
        rewrite EX in ND. exact ND. }
      destruct (filter_unique _ _ _ _ ND R1) as (sp & F & SPE). cbn [resolve_qual]. rewrite F, SPE.
      destruct (String.eqb_spec (sym_path x) own) as [EO|]; [|reflexivity].
      exfalso. apply E1. unfold rename. rewrite HP. unfold prefix_name.
      rewrite EO, OWN, String.eqb_refl. reflexivity.
  - cbn [andb]. unfold rename. rewrite HP.
    unfold has_package in HP. apply negb_false_iff, andb_true_iff in HP as [HP _]. rewrite HP. reflexivity.
Qed.
