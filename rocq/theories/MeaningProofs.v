(** The meaning of a written file: what it parses to, resolved through its own import list. *)
From Coq Require Import Permutation.
From Verif Require Import Base BaseFacts GoPath Utf8 Quote SpecLit Types SpecTypes TypesFacts Imports SpecImports ImportsProofs
  ImportsTheorems SettleProofs SpecGo SpecRender LexProofs TextProofs ParseProofs TextTheorems Conv World WorldProofs SpecFile SpecDecl FileTheorems SpecQualify
  QualifyProofs QualifyTheorems SourceProofs SourceTheorems.

Lemma all_some_map2 {A B C} (f0 : A -> option C) (f1 : A -> option B) (r : B -> option C) l : forall m0,
  (forall a c, In a l -> f0 a = Some c -> exists b, f1 a = Some b /\ r b = Some c) ->
  all_some (map f0 l) = Some m0 -> exists m1, all_some (map f1 l) = Some m1 /\ all_some (map r m1) = Some m0.
Proof.
  induction l as [|a l IH]; intros m0 H E; cbn [map all_some] in *.
  - injection E as <-. exists []. auto.
  - unfold obind in E. destruct (f0 a) as [c|] eqn:F0; [|discriminate]. destruct (all_some (map f0 l)) as [m|] eqn:M; [|discriminate].
    injection E as <-. destruct (H a c (or_introl eq_refl) F0) as (b & F1 & RB).
    destruct (IH m) as (m1 & M1 & R1); [intros; apply H; auto; right; auto|auto|].
    exists (b :: m1). rewrite F1, M1. cbn [obind map all_some]. rewrite RB, R1. auto.
Qed.
Lemma type_name_map g t : type_name (map_symbols g t) = type_name t.
Proof. destruct t as [| | | | | | | |[]| |]; auto. Qed.
Lemma embeddable_map g t : embeddable (map_symbols g t) = embeddable t.
Proof. destruct t as [| | |e| | | | |[]| |]; auto. apply type_name_map. Qed.
Lemma multi_line_map g t : multi_line (map_symbols g t) = multi_line t.
Proof. destruct t as [| | | | | | | |[]| |]; auto. Qed.
Lemma sig_text_ok_map g s : (forall x, In x (sig_symbols s) -> sym_ok x = true -> sym_ok (g x) = true) ->
  sig_text_ok s = true -> sig_text_ok (map_sig (map_symbols g) s) = true.
Proof. intros G X. destruct s as [a r v]. apply (text_ok_map g (TFunc (mkSig a r v))); auto. Qed.
Lemma decl_ok_map g : forall t, (forall s, In s (symbols_of t) -> sym_ok s = true -> sym_ok (g s) = true) ->
  decl_ok t = true -> decl_ok (map_symbols g t) = true.
Proof.
  induction t as [ |k|s|e IH|e IH|e n IH|e k IHe IHk|e d IH|s IH|fs IH|ms es IH] using TypeName_ind'; intros G D;
    try (match goal with |- decl_ok (map_symbols g ?t) = true => exact (text_ok_map g t G D) end).
  - cbn [map_symbols decl_ok symbols_of] in *. induction IH as [|[n t tag] l P PL IH]; auto.
    cbn [map forallb flat_map FldName FldType FldTag] in *.
    apply andb_true_iff in D as [D D2]. apply andb_true_iff in D as [D D3]. apply andb_true_iff in D as [D0 D1].
    rewrite embeddable_map, multi_line_map, D0, D3, P; auto; cbn [andb].
    + apply IH; auto. intros s IN. apply G, in_or_app. auto.
    + intros s IN. apply G, in_or_app. auto.
  - cbn [map_symbols decl_ok symbols_of] in *. apply andb_true_iff in D as [D1 D2]. apply andb_true_iff. split.
    + rewrite forallb_forall in *. intros x IN. apply in_map_iff in IN as (y & <- & IN). apply G; auto. apply in_or_app. auto.
    + clear D1. induction IH as [|[n s] l P PL IH]; auto.
      cbn [map forallb flat_map MtdName MtdSig] in *. apply andb_true_iff in D2 as [D2 D3]. apply andb_true_iff in D2 as [D0 D1].
      rewrite D0. cbn [andb]. apply andb_true_iff. split.
      * destruct s as [a r v]. apply (sig_text_ok_map g (mkSig a r v)); auto. intros x IN. apply G. apply in_or_app. right. apply in_or_app. auto.
      * apply IH; auto. intros x IN. apply G. apply in_app_or in IN as [IN|IN]; apply in_or_app; auto. right. apply in_or_app. auto.
Qed.
Lemma resolve_names_type real specs g g0 : resolve_type real specs g = Some g0 -> names_type g = names_type g0.
Proof.
  assert (A : forall g g0, resolve_type real specs g = Some g0 -> match g, g0 with GName _ _, GName _ _ => True | GName _ _, _ => False | _, GName _ _ => False | _, _ => True end).
  { intros a b. destruct a; cbn [resolve_type]; unfold obind; intros E;
    repeat match type of E with match ?x with _ => _ end = _ => destruct x; try discriminate end; injection E as <-; auto. }
  intros E. destruct g as [q n|e| | | | | | |]; cbn [resolve_type] in E; unfold obind in E;
    repeat match type of E with match ?x with _ => _ end = _ => destruct x eqn:?; try discriminate end; injection E as <-; auto.
  apply A in Heqo. cbn [names_type]. destruct e, g; auto; destruct Heqo.
Qed.

Section Resolve.
Variables (real : string -> string) (own : string) (H : list call).
Hypothesis OK : forallb call_ok H = true.
Hypothesis HON : forall c, In c H -> honest real c.
Hypothesis US : forall c, In c H -> usable_requests c.
Notation j := (run H (NewImportsFor own)).
Notation specs := (ImportSpecs j).
Notation pq := (path_qualifier own).
Lemma type_resolves t t1 : type_final j t t1 -> wf t = true ->
  wf t1 = true /\ resolve_type real specs (denote t1) = Some (denote_with pq t) /\
  (text_ok t = true -> text_ok t1 = true) /\ (decl_ok t = true -> decl_ok t1 = true) /\ multi_line t1 = multi_line t.
Proof.
  intros TF W. destruct (type_final_wf _ _ _ TF W) as [-> K]. split; [rewrite wf_map; auto|]. split.
  { apply resolve_denote. apply Forall_forall. intros x IN. apply known_good_sym; auto. }
  split; [apply text_ok_map|split; [apply decl_ok_map|apply multi_line_map]]; intros s IN; apply rename_ok; auto.
Qed.
Lemma sig_resolves t t1 : sig_final j t t1 -> wf_sig t = true ->
  wf_sig t1 = true /\ (sig_text_ok t = true -> sig_text_ok t1 = true) /\
  resolve_params real specs (fst (denote_sig t1)) = Some (fst (denote_sig_with pq t)) /\
  resolve_params real specs (snd (denote_sig t1)) = Some (snd (denote_sig_with pq t)).
Proof.
  intros TF W. destruct (sig_final_wf _ _ _ TF W) as [-> K]. split.
  { assert (FS : forall s, wf_sig s = wf (TFunc s)) by (intros [a r v]; unfold wf_sig; cbn [wf Args Results]; symmetry; apply andb_assoc).
    rewrite FS in *. rewrite <- W. symmetry. rewrite <- (wf_map (rename j) (TFunc t)). reflexivity. }
  split. { apply sig_text_ok_map. intros s IN. apply rename_ok; auto. }
  assert (G : Forall (good_sym real specs own (rename j)) (sig_symbols t)).
  { apply Forall_forall. intros x IN. apply known_good_sym; auto. }
  destruct t as [a r v]. unfold sig_symbols, sig_symbols_ in G. cbn [Args Results] in G. apply Forall_app in G as [GA GR].
  assert (RA : forall l, PArgs (RD real specs own (rename j)) l).
  { intros l. apply Forall_forall. intros x _. apply resolve_denote. }
  pose proof (resolve_args real specs own (rename j) (has_names a) v a (RA a) GA) as A.
  pose proof (resolve_args real specs own (rename j) (has_names r) false r (RA r) GR) as B.
  unfold denote_sig_with, map_sig. cbn [Args Results IsVariadic fst snd]. unfold resolve_params. split.
  - rewrite <- (has_names_map (rename j) a) in A at 1. exact A.
  - rewrite <- (has_names_map (rename j) r) in B at 1. exact B.
Qed.
Lemma sym_resolves s s1 : sym_final j s s1 ->
  SymName s1 = SymName s /\ resolve_qual real specs (qualifier s1) = Some (pq s) /\ (sym_ok s = true -> sym_ok s1 = true).
Proof.
  intros SF. destruct (sym_final_known _ _ _ SF) as [-> K]. destruct (known_good_sym real own H OK HON s K) as [A B].
  split; auto. split; auto. apply rename_ok; auto.
Qed.
End Resolve.

(** ** Declarations *)
Section Meaning.
Context {TD : Type}.
Variable env : Env TD.
Variables (fuel f : nat) (w w1 : World TD) (F : GoFile) (R : string * string -> Prop).
Variables (real : string -> string) (own : string) (H : list call).
Hypothesis EF : nth_error (files w) f = Some F.
Hypothesis IF : Inv (FImports F).
Hypothesis NT : templates_ok env w f R.
Hypothesis HR : forall r, file_mentions w f r -> R r.
Hypothesis Q : qualify_file env fuel f w = (Ok tt, w1).
Hypothesis EH : imp f w1 = run H (NewImportsFor own).
Hypothesis OK : forallb call_ok H = true.
Hypothesis HON : forall c, In c H -> honest real c.
Hypothesis US : forall c, In c H -> usable_requests c.
Hypothesis NN : no_named_specs w f.
Notation j := (run H (NewImportsFor own)).
Notation specs := (ImportSpecs j).
Notation pq := (path_qualifier own).
Notation rt := (resolve_type real specs).

Definition rfield (x : option string * gotype * string) : option (option string * gotype * string) :=
  let '(n, t, tag) := x in obind (rt t) (fun t => Some (n, t, tag)).
Definition relem (e : gelem) : option gelem :=
  match e with
  | inl (n, ps, rs) =>
      obind (resolve_params real specs ps) (fun ps => obind (resolve_params real specs rs) (fun rs => Some (inl (n, ps, rs))))
  | inr (q, n) => obind (resolve_qual real specs q) (fun p => Some (inr (p, n)))
  end.
Lemma elem_means i e g0 : part_of w f (IElem i) -> nth_error (ielems w) i = Some e -> elem_meaning_with pq e = Some g0 ->
  exists e1 g, nth_error (ielems w1) i = Some e1 /\ elem_meaning e1 = Some g /\ relem g = Some g0.
Proof.
  intros P E M. destruct (elem_after env fuel f w w1 F R EF IF NT HR Q i e P E) as (e1 & E1 & FI). exists e1. rewrite EH in FI.
  destruct e as [c s p|c n s p]; cbn [elem_final elem_meaning_with] in *; destruct FI as (s1 & -> & FI).
  - destruct (sym_resolves real own H OK HON US s s1 FI) as (N & RQ & SO). destruct (sym_ok s) eqn:S0; [|discriminate]. injection M as <-.
    eexists. split; auto. cbn [elem_meaning_with]. rewrite SO by auto. split; auto. cbn [relem]. rewrite RQ, N. auto.
  - destruct (ident n && wf_sig s && sig_text_ok s) eqn:S0; [|discriminate]. injection M as <-.
    apply andb_true_iff in S0 as [S0 T]. apply andb_true_iff in S0 as [ID W].
    destruct (sig_resolves real own H OK HON US s s1 FI W) as (W1 & T1 & RP & RR).
    eexists. split; auto. cbn [elem_meaning_with]. rewrite ID, W1, T1 by auto. split; [reflexivity|]. cbn [relem].
    rewrite RP. cbn [obind]. rewrite RR. reflexivity.
Qed.
Lemma under_head t t1 : type_final j t t1 ->
  match t with TStruct _ => exists l, t1 = TStruct l | TInterface _ _ => exists a b, t1 = TInterface a b
  | _ => wf t = true -> match t1 with TStruct _ | TInterface _ _ => False | _ => True end end.
Proof.
  destruct t as [| | | | | | | |[]|fs|ms es]; intros TF; try (intros W; destruct (type_final_wf _ _ _ TF W) as [-> _]; exact I).
  - destruct TF as (c & i & i' & Ii & E & _). unfold EnsureTypeImported in E. cbn [qualifyType] in E. unfold sbind at 1 in E.
    destruct (qualifyFields_ (qualifyType true) fs i) as [[[nf []]|m] i2]; [| |discriminate]; injection E as <- _ _; eauto.
  - destruct TF as (c & i & i' & Ii & E & _). unfold EnsureTypeImported in E. cbn [qualifyType] in E. unfold sbind at 1 in E.
    destruct (qualifySymbols true es i) as [[[nf ce]|m] i2]; [|discriminate]. unfold sbind at 1 in E.
    destruct (qualifyMethods_ (qualifyType true) ms i2) as [[[nm cm]|m] i3]; [|discriminate].
    destruct (ce || cm); injection E as <- _ _; unfold InterfaceType; eauto.
Qed.
Lemma spec_means k : forall i T g0, part_of w f (IType i) -> nth_error (types w) i = Some T -> spec_meaning_with pq w k T = Some g0 ->
  exists T1 g, nth_error (types w1) i = Some T1 /\ spec_meaning w1 k T1 = Some g /\ rt g = Some g0.
Proof.
  induction k as [|k IH]; intros i T g0 P E M; [discriminate|].
  destruct (type_after env fuel f w w1 F R EF IF NT HR Q i T P E) as (T1 & E1 & ET & FI). rewrite EH in FI. exists T1.
  pose proof (under_head _ _ FI) as UH.
  assert (ST : TSStruct T1 = TSStruct T) by (rewrite ET; auto). assert (SI : TSInterface T1 = TSInterface T) by (rewrite ET; auto).
  assert (DEF : match TSUnderlying T with TStruct _ | TInterface _ _ => False | _ => True end ->
     exists g, spec_meaning w1 (S k) T1 = Some g /\ rt g = Some g0).
  { intros NS. cbn [spec_meaning_with] in M.
    assert (M2 : wf (TSUnderlying T) && text_ok (TSUnderlying T) = true /\ g0 = denote_with pq (TSUnderlying T)).
    { destruct (TSUnderlying T); try destruct NS; destruct (wf _ && text_ok _); try discriminate; split; auto; congruence. }
    clear M. destruct M2 as [M2 ->]. apply andb_true_iff in M2 as [W X].
    destruct (type_resolves real own H OK HON US _ _ FI W) as (W1 & RT & X1 & _ & ML).
    exists (denote (TSUnderlying T1)). split; [|exact RT]. specialize (X1 X). clear - W1 X1 ML NS.
    assert (ML0 : multi_line (TSUnderlying T1) = false) by (rewrite ML; destruct (TSUnderlying T); auto; destruct NS).
    cbn [spec_meaning_with]. destruct (TSUnderlying T1); try discriminate ML0; rewrite W1, X1; reflexivity. }
  destruct (TSUnderlying T) as [| | | | | | | | |fs|ms es] eqn:U; try (destruct (DEF I) as (g & A & B); exists g; auto; fail).
  - clear DEF. destruct UH as (l & U1). cbn [spec_meaning_with] in *. rewrite U in M. rewrite U1, ST.
    destruct (all_some (map _ (TSStruct T))) as [m0|] eqn:AS in M; [|discriminate]. injection M as <-.
    match type of AS with all_some (map ?f0 _) = _ => match goal with |- context [all_some (map ?f1 _)] =>
      destruct (all_some_map2 f0 f1 rfield (TSStruct T) m0) as (m1 & AS1 & RS) end end; [|exact AS|].
    + intros id fm0 IN MF. cbv beta in *. destruct (nth_error (fields w) id) as [Fd|] eqn:EFd; [|discriminate]. cbn [obind] in MF.
      assert (PF : part_of w f (IField id)) by (eapply po_field; eauto).
      destruct (field_after env fuel f w w1 F R EF IF NT HR Q id Fd PF EFd) as (Fd1 & EFd1 & EQ & TF). rewrite EH in TF.
      rewrite EFd1. cbn [obind]. assert (NM : FSName Fd1 = FSName Fd) by (rewrite EQ; auto). assert (TG : FSTag Fd1 = FSTag Fd) by (rewrite EQ; auto).
      rewrite NM, TG.
      match type of MF with obind ?x _ = _ => destruct x as [[g mu]|] eqn:X; [|discriminate] end. cbn [obind] in MF.
      match goal with |- context [obind ?y _] => assert (Y : exists g1, y = Some (g1, mu) /\ rt g1 = Some g) end.
      { destruct (FSType Fd) as [|t|ts] eqn:FT; cbn [tos_final] in TF; [discriminate| |].
        - destruct TF as (t1 & -> & TF). destruct (wf t && decl_ok t) eqn:WD; [|discriminate]. injection X as <- <-.
          apply andb_true_iff in WD as [W D]. destruct (type_resolves real own H OK HON US _ _ TF W) as (W1 & RT & _ & D1 & ML).
          rewrite W1, (D1 D), ML. cbn [andb]. eauto.
        - rewrite TF. destruct (nth_error (types w) ts) as [T'|] eqn:ETs; [|discriminate]. cbn [obind] in X.
          assert (PT : part_of w f (IType ts)) by (eapply po_field_type; eauto).
          destruct (proj2 (proj2 NN) id Fd PF EFd ts T' FT ETs) as [AN|AN].
          + rewrite AN in X. cbn [String.eqb] in X. destruct (spec_meaning_with pq w k T') as [g'|] eqn:SM; [|discriminate]. injection X as <- <-.
            destruct (IH ts T' g' PT ETs SM) as (T1' & g1 & ET1 & SM1 & RT). rewrite ET1. cbn [obind].
            destruct (type_after env fuel f w w1 F R EF IF NT HR Q ts T' PT ETs) as (T2 & E2 & EQ2 & _). rewrite ET1 in E2. injection E2 as <-.
            assert (N2 : TSName T1' = TSName T') by (rewrite EQ2; auto). rewrite N2, AN. cbn [String.eqb]. rewrite SM1. cbn [option_map]. eauto.
          + unfold named_spec_with in X. rewrite AN in X. cbn [obind option_map] in X. destruct (String.eqb (TSName T') "") eqn:Z; [|discriminate].
            destruct (spec_meaning_with pq w k T') as [g'|] eqn:SM; [|discriminate]. injection X as <- <-.
            destruct (IH ts T' g' PT ETs SM) as (T1' & g1 & ET1 & SM1 & RT). rewrite ET1. cbn [obind].
            destruct (type_after env fuel f w w1 F R EF IF NT HR Q ts T' PT ETs) as (T2 & E2 & EQ2 & _). rewrite ET1 in E2. injection E2 as <-.
            assert (N2 : TSName T1' = TSName T') by (rewrite EQ2; auto). rewrite N2, Z. rewrite SM1. cbn [option_map]. eauto. }
      destruct Y as (g1 & -> & RT). cbn [obind]. rewrite (resolve_names_type _ _ _ _ RT).
      destruct ((if String.eqb (FSName Fd) "" then names_type g else ident (FSName Fd)) && (negb mu || String.eqb (FSTag Fd) "")); [|discriminate].
      injection MF as <-. eexists. split; auto. cbn [rfield]. rewrite RT. auto.
    + rewrite AS1. exists (GStruct m1). split; auto. split; auto. cbn [resolve_type]. unfold rfield in RS. rewrite RS. auto.
  - clear DEF. destruct UH as (a & b & U1). cbn [spec_meaning_with] in *. rewrite U in M. rewrite U1, SI.
    destruct (all_some (map _ (TSInterface T))) as [m0|] eqn:AS in M; [|discriminate]. injection M as <-.
    match type of AS with all_some (map ?f0 _) = _ => match goal with |- context [all_some (map ?f1 _)] =>
      destruct (all_some_map2 f0 f1 relem (TSInterface T) m0) as (m1 & AS1 & RS) end end; [|exact AS|].
    + intros id em IN ME. cbv beta in *. destruct (nth_error (ielems w) id) as [e|] eqn:Ee; [|discriminate]. cbn [obind] in ME.
      assert (PE : part_of w f (IElem id)) by (eapply po_elem; eauto).
      destruct (elem_means id e em PE Ee ME) as (e1 & g & E1' & M1 & RE). rewrite E1'. cbn [obind]. eauto.
    + rewrite AS1. exists (GInterface m1). split; auto. split; auto. cbn [resolve_type].
      change (obind (all_some (map relem m1)) (fun es => Some (GInterface es)) = Some (GInterface m0)). rewrite RS. auto.
Qed.
Lemma typespec_means k i T g0 : part_of w f (IType i) -> nth_error (types w) i = Some T -> typespec_meaning_with pq w k T = Some g0 ->
  exists T1 g, nth_error (types w1) i = Some T1 /\ typespec_meaning w1 k T1 = Some g /\ resolve_typespec real specs g = Some g0.
Proof.
  intros P E M. unfold typespec_meaning_with in M. destruct (ident (TSName T)) eqn:ID; [|discriminate].
  destruct (spec_meaning_with pq w k T) as [m|] eqn:SM; [|discriminate]. injection M as <-.
  destruct (spec_means k i T m P E SM) as (T1 & g & E1 & SM1 & RT).
  destruct (type_after env fuel f w w1 F R EF IF NT HR Q i T P E) as (T2 & E2 & EQ & _). rewrite E1 in E2. injection E2 as <-.
  exists T1. assert (N : TSName T1 = TSName T) by (rewrite EQ; auto). assert (A : TSIsAlias T1 = TSIsAlias T) by (rewrite EQ; auto).
  unfold typespec_meaning_with. rewrite N, ID, SM1, A. cbn [option_map]. eexists. split; auto. split; auto. cbn [resolve_typespec]. rewrite RT. auto.
Qed.
Lemma value_type_means t t1 m : (forall ts, t = IsSpec ts -> part_of w f (IType ts)) -> undeclared w t -> tos_final j t t1 ->
  value_type_with pq w t = Some m -> exists m1, value_type w1 t1 = Some m1 /\ resolve_opt real specs m1 = Some m.
Proof.
  intros PT NU TF M. destruct t as [|t|ts]; cbn [tos_final value_type_with] in *.
  - subst t1. injection M as <-. exists None. auto.
  - destruct TF as (t1' & -> & TF). destruct (wf t && text_ok t) eqn:WX; [|discriminate]. injection M as <-.
    apply andb_true_iff in WX as [W X]. destruct (type_resolves real own H OK HON US _ _ TF W) as (W1 & RT & X1 & _).
    exists (Some (denote t1')). cbn [value_type_with]. rewrite W1, (X1 X). split; auto. cbn [resolve_opt]. rewrite RT. auto.
  - subst t1. destruct (nth_error (types w) ts) as [T|] eqn:ET; [|discriminate]. cbn [obind] in M.
    destruct (type_after env fuel f w w1 F R EF IF NT HR Q ts T (PT _ eq_refl) ET) as (T1 & E1 & EQ & FI). rewrite EH in FI.
    assert (N : TSName T1 = TSName T) by (rewrite EQ; auto). assert (A : TSParent T1 = TSParent T) by (rewrite EQ; auto).
    cbn [value_type_with]. rewrite E1. cbn [obind]. rewrite N, A.
    destruct (String.eqb_spec (TSName T) "") as [Z|Z].
    + destruct (wf (TSUnderlying T) && text_ok (TSUnderlying T)) eqn:WX; [|discriminate]. injection M as <-.
      apply andb_true_iff in WX as [W X]. destruct (type_resolves real own H OK HON US _ _ FI W) as (W1 & RT & X1 & _).
      rewrite W1, (X1 X). eexists. split; [reflexivity|]. cbn [resolve_opt]. rewrite RT. auto.
    + destruct (NU ts T eq_refl ET) as [?|PN]; [congruence|]. rewrite PN in *.
      destruct (ident (TSName T)); [|discriminate]. injection M as <-. eexists. split; [reflexivity|]. reflexivity.
Qed.
Lemma gvalue_means code c v v1 m : (forall ts, VSType v = IsSpec ts -> part_of w f (IType ts)) -> undeclared w (VSType v) ->
  v1 = with_vtype v (VSType v1) -> tos_final j (VSType v) (VSType v1) ->
  gvalue_meaning_with pq w code c v = Some m -> exists m1, gvalue_meaning w1 code c v1 = Some m1 /\ resolve_value real specs m1 = Some m.
Proof.
  intros PT NU EQ TF M. unfold gvalue_meaning_with, value_meaning_with in *.
  assert (N : VNames v1 = VNames v) by (rewrite EQ; auto). assert (A : VInit v1 = VInit v) by (rewrite EQ; auto). rewrite N, A.
  destruct (negb _ && forallb ident (VNames v)); [|discriminate].
  destruct (value_type_with pq w (VSType v)) as [t|] eqn:VT; [|discriminate]. cbn [option_map obind] in M.
  destruct (value_type_means _ _ _ PT NU TF VT) as (t1 & VT1 & RT). rewrite VT1. cbn [option_map obind].
  destruct (match VInit v with None => Some None | Some cb => option_map Some (init_meaning code cb) end) as [i|]; [|discriminate].
  cbn [obind] in *.
  assert (VF : value_form c t1 i = value_form c t i).
  { destruct t1 as [x|]; cbn [resolve_opt] in RT; [destruct (rt x); [|discriminate]|]; injection RT as <-; auto. }
  rewrite VF. destruct (value_form c t i); [|discriminate]. injection M as <-. eexists. split; auto. cbn [resolve_value]. rewrite RT. auto.
Qed.
Lemma func_means i G m : part_of w f (IFunc i) -> nth_error (funcs w) i = Some G -> func_meaning_with pq G = Some m ->
  exists G1 ps rs, nth_error (funcs w1) i = Some G1 /\ FNBody G1 = FNBody G /\
    func_meaning G1 = Some (fst (fst m), snd (fst m), (ps, rs)) /\
    resolve_params real specs ps = Some (fst (snd m)) /\ resolve_params real specs rs = Some (snd (snd m)).
Proof.
  intros P E M. destruct (func_after env fuel f w w1 F R EF IF NT HR Q i G P E) as (G1 & E1 & EQ & FI). rewrite EH in FI. exists G1.
  unfold func_meaning_with in *. assert (N : FNName G1 = FNName G) by (rewrite EQ; auto). assert (RC : FNReceiver G1 = FNReceiver G) by (rewrite EQ; auto).
  assert (BD : FNBody G1 = FNBody G) by (rewrite EQ; auto).
  destruct (ident (FNName G) && wf_sig (FNSig G) && sig_text_ok (FNSig G)) eqn:C; [|discriminate].
  apply andb_true_iff in C as [C X]. apply andb_true_iff in C as [ID W].
  destruct (sig_resolves real own H OK HON US _ _ FI W) as (W1 & X1 & RP & RR).
  exists (fst (denote_sig (FNSig G1))), (snd (denote_sig (FNSig G1))). split; auto. split; auto. rewrite N, RC, ID, W1, (X1 X). cbn [andb].
  destruct (FNReceiver G) as [r|].
  - destruct ((String.eqb (RcvName r) "" || ident (RcvName r)) && ident (RcvType r)); [|discriminate]. injection M as <-.
    cbn [fst snd]. split; auto. 
  - injection M as <-. cbn [fst snd]. split; auto.
Qed.
(** A list of members, looked up and given a meaning. *)
Lemma members {A C} (tab tab1 : list A) (f0 f1 : A -> option C) (r : C -> option C) ids l m :
  lookup_all tab ids = Some l -> all_some (map f0 l) = Some m ->
  (forall i a c, In i ids -> nth_error tab i = Some a -> f0 a = Some c ->
     exists a1 c1, nth_error tab1 i = Some a1 /\ f1 a1 = Some c1 /\ r c1 = Some c) ->
  exists l1 m1, lookup_all tab1 ids = Some l1 /\ List.length l1 = List.length l /\ all_some (map f1 l1) = Some m1 /\ all_some (map r m1) = Some m.
Proof.
  unfold lookup_all. revert l m. induction ids as [|i ids IH]; intros l m L M X; cbn [map all_some] in *.
  - injection L as <-. cbn in M. injection M as <-. exists [], []. auto.
  - destruct (nth_error tab i) as [a|] eqn:N; [|discriminate]. cbn [obind] in L.
    destruct (all_some (map (nth_error tab) ids)) as [l'|] eqn:L'; [|discriminate]. cbn [obind] in L. injection L as <-.
    cbn [map all_some] in M. destruct (f0 a) as [c|] eqn:F0; [|discriminate]. cbn [obind] in M.
    destruct (all_some (map f0 l')) as [m'|] eqn:M'; [|discriminate]. cbn [obind] in M. injection M as <-.
    destruct (X i a c (or_introl eq_refl) N F0) as (a1 & c1 & N1 & F1 & RC).
    destruct (IH l' m' eq_refl M') as (l1 & m1 & L1 & LEN & M1 & R1); [intros; eapply X; eauto; right; auto|].
    exists (a1 :: l1), (c1 :: m1). rewrite N1, L1. cbn [obind map all_some List.length]. rewrite F1, M1. cbn [obind map all_some].
    rewrite RC, R1. auto.
Qed.
Lemma element_means code k e m : In e (FElements F) -> element_meaning_with pq w code k e = Some m ->
  exists m1, element_meaning w1 code k e = Some m1 /\ resolve_decl real specs m1 = Some m.
Proof.
  intros IN M. pose proof (skel_after env fuel f w w1 F R EF IF NT HR Q) as SK.
  destruct e as [d|d|d|i]; cbn [element_meaning_with] in *.
  - rewrite (f_equal constDecls SK : constDecls w1 = constDecls w).
    destruct (nth_error (constDecls w) d) as [D|] eqn:ED; [|discriminate]. cbn [obind] in *.
    destruct (lookup_all (consts w) (VDSpecs D)) as [l|] eqn:LA; [|discriminate]. cbn [obind] in M.
    destruct (all_some (map (gvalue_meaning_with pq w code true) l)) as [ms|] eqn:AM; [|discriminate]. cbn [obind] in M. injection M as <-.
    destruct (members (consts w) (consts w1) _ (gvalue_meaning w1 code true) (resolve_value real specs) _ _ _ LA AM) as (l1 & m1 & L1 & LEN & M1 & R1).
    { intros i v c II EV MV. assert (P : part_of w f (IConst i)) by (eapply po_const; eauto).
      destruct (const_after env fuel f w w1 F R EF IF NT HR Q i v P EV) as (v1 & E1 & EQ & TF). rewrite EH in TF.
      destruct (gvalue_means code true v v1 c) as (c1 & G1 & RV); auto.
      - intros ts T. eapply po_const_type; eauto. - eapply (proj1 NN); eauto. - exists v1, c1. auto. }
    rewrite L1. cbn [obind]. rewrite M1. cbn [obind]. eexists. split; auto. cbn [resolve_decl]. rewrite R1. cbn [obind]. unfold grouped. rewrite LEN. auto.
  - rewrite (f_equal varDecls SK : varDecls w1 = varDecls w).
    destruct (nth_error (varDecls w) d) as [D|] eqn:ED; [|discriminate]. cbn [obind] in *.
    destruct (lookup_all (vars w) (VDSpecs D)) as [l|] eqn:LA; [|discriminate]. cbn [obind] in M.
    destruct (all_some (map (gvalue_meaning_with pq w code false) l)) as [ms|] eqn:AM; [|discriminate]. cbn [obind] in M. injection M as <-.
    destruct (members (vars w) (vars w1) _ (gvalue_meaning w1 code false) (resolve_value real specs) _ _ _ LA AM) as (l1 & m1 & L1 & LEN & M1 & R1).
    { intros i v c II EV MV. assert (P : part_of w f (IVar i)) by (eapply po_var; eauto).
      destruct (var_after env fuel f w w1 F R EF IF NT HR Q i v P EV) as (v1 & E1 & EQ & TF). rewrite EH in TF.
      destruct (gvalue_means code false v v1 c) as (c1 & G1 & RV); auto.
      - intros ts T. eapply po_var_type; eauto. - eapply (proj1 (proj2 NN)); eauto. - exists v1, c1. auto. }
    rewrite L1. cbn [obind]. rewrite M1. cbn [obind]. eexists. split; auto. cbn [resolve_decl]. rewrite R1. cbn [obind]. unfold grouped. rewrite LEN. auto.
  - rewrite (f_equal typeDecls SK : typeDecls w1 = typeDecls w).
    destruct (nth_error (typeDecls w) d) as [D|] eqn:ED; [|discriminate]. cbn [obind] in *.
    destruct (lookup_all (types w) (TDTypes D)) as [l|] eqn:LA; [|discriminate]. cbn [obind] in M.
    destruct (all_some (map (typespec_meaning_with pq w k) l)) as [ms|] eqn:AM; [|discriminate]. cbn [obind] in M. injection M as <-.
    destruct (members (types w) (types w1) _ (typespec_meaning w1 k) (resolve_typespec real specs) _ _ _ LA AM) as (l1 & m1 & L1 & LEN & M1 & R1).
    { intros i T c II EV MV. eapply typespec_means; eauto. eapply po_type; eauto. }
    rewrite L1. cbn [obind]. rewrite M1. cbn [obind]. eexists. split; auto. cbn [resolve_decl]. rewrite R1. cbn [obind]. unfold grouped. rewrite LEN. auto.
  - destruct (nth_error (funcs w) i) as [G|] eqn:EG; [|discriminate]. cbn [obind] in M.
    destruct (func_meaning_with pq G) as [[[rc n] [ps0 rs0]]|] eqn:FM; [|discriminate]. cbn [obind] in M.
    assert (P : part_of w f (IFunc i)) by (eapply po_func; eauto).
    destruct (func_means i G _ P EG FM) as (G1 & ps & rs & E1 & BD & FM1 & RP & RR). cbn [fst snd] in *.
    rewrite E1. cbn [obind]. rewrite FM1. cbn [obind]. rewrite BD.
    destruct (body_meaning code (FNBody G)) as [b|]; [|discriminate]. cbn [obind] in *. injection M as <-.
    eexists. split; [reflexivity|]. cbn [resolve_decl]. rewrite RP. cbn [obind]. rewrite RR. reflexivity.
Qed.
End Meaning.

Theorem source_means_more_with {TD} (env : Env TD) real own h fuel f w F s w1 g0 :
  nth_error (files w) f = Some F -> FImports F = run h (NewImportsFor own) ->
  forallb call_ok h = true -> (forall c, In c h -> honest real c) -> (forall c, In c h -> usable_requests c) ->
  templates_ok env w f (fun r => right_name real r /\ usable_name r) -> no_named_specs w f ->
  (forall r, file_mentions w f r -> right_name real r /\ usable_name r) ->
  source env fuel f w = (Ok s, w1) ->
  file_meaning_with (path_qualifier own) w (block_text env w1) fuel F = Some g0 ->
  exists H F1 g, (qualify_file env fuel f w = (Ok tt, w1) /\ imp f w1 = run H (NewImportsFor own) /\ FImports F1 = imp f w1 /\
      F1 = with_imports F (FImports F1) /\ forallb call_ok H = true /\ (forall c, In c H -> honest real c)) /\
    file_meaning w1 (block_text env w1) fuel F1 = Some g /\ GoFile_writeTo env fuel w1 F1 = Ok s /\
    nth_error (files w1) f = Some F1 /\ parse_file s = Some g /\
    map import_of (GImports g) = ImportSpecs (FImports F1) /\
    resolve_file real g = Some (mkGFile (GPackage g0) (GImports g) (GDecls g0)).
Proof.
  intros EF EI OK HON US NT NN HR S M. destruct (source_split _ _ _ _ _ _ S) as (Q & F1' & E1' & G1).
  destruct (history_after env real own h fuel f w w1 F EF EI OK HON US NT HR Q) as (H & F1 & E1 & EI1 & EQ & EH & OK1 & HON1 & US1).
  rewrite E1 in E1'. injection E1' as <-. assert (IF : Inv (FImports F)) by (rewrite EI; apply run_new_Inv).
  unfold file_meaning_with in M. destruct (ident (FPackageName F) && forallb (has_content w) (FElements F)) eqn:C; [|discriminate].
  destruct (all_some (map import_meaning (ImportSpecs (FImports F)))); [|discriminate]. cbn [obind] in M.
  destruct (all_some (map (element_meaning_with (path_qualifier own) w (block_text env w1) fuel) (FElements F))) as [ds|] eqn:DS; [|discriminate].
  cbn [obind] in M. injection M as <-. cbn [GPackage GDecls].
  destruct (all_some_map2 _ (element_meaning w1 (block_text env w1) fuel) (resolve_decl real (ImportSpecs (run H (NewImportsFor own)))) _ _
    (fun e m IN => element_means env fuel f w w1 F _ real own H EF IF NT HR Q EH OK1 HON1 US1 NN _ fuel e m IN) DS) as (m1 & M1 & R1).
  destruct (specs_written own H OK1 US1) as (is & IM & IO).
  assert (FN : FPackageName F1 = FPackageName F) by (rewrite EQ; auto). assert (FE : FElements F1 = FElements F) by (rewrite EQ; auto).
  assert (SK : skel w1 = skel w) by (eapply skel_after; eauto).
  assert (HC : forallb (has_content w1) (FElements F) = forallb (has_content w) (FElements F)).
  { clear - SK. assert (A : forall e, has_content w1 e = has_content w e).
    { intros e. unfold has_content. rewrite (f_equal constDecls SK : constDecls w1 = constDecls w), (f_equal varDecls SK : varDecls w1 = varDecls w),
        (f_equal typeDecls SK : typeDecls w1 = typeDecls w). auto. }
    induction (FElements F) as [|e l IH]; auto. cbn [forallb]. rewrite A, IH. auto. }
  assert (FM : file_meaning w1 (block_text env w1) fuel F1 = Some (mkGFile (FPackageName F) is m1)).
  { unfold file_meaning_with. rewrite FN, FE, HC, C, EI1, EH, IM. cbn [obind]. rewrite M1. auto. }
  destruct (file_text env w1 fuel F1 _ FM) as (s' & G2 & PF). rewrite G1 in G2. injection G2 as <-.
  exists H, F1, (mkGFile (FPackageName F) is m1). split; [auto 7|]. split; auto. split; auto. split; auto. split; auto. cbn [GImports]. split; [rewrite EI1, EH; auto|].
  unfold resolve_file. cbn [GImports GDecls GPackage]. rewrite IO, R1. auto.
Qed.
Theorem source_means_with {TD} (env : Env TD) real own h fuel f w F s w1 g0 :
  nth_error (files w) f = Some F -> FImports F = run h (NewImportsFor own) ->
  forallb call_ok h = true -> (forall c, In c h -> honest real c) -> (forall c, In c h -> usable_requests c) ->
  templates_ok env w f (fun r => right_name real r /\ usable_name r) -> no_named_specs w f ->
  (forall r, file_mentions w f r -> right_name real r /\ usable_name r) ->
  source env fuel f w = (Ok s, w1) ->
  file_meaning_with (path_qualifier own) w (block_text env w1) fuel F = Some g0 ->
  exists F1 g, nth_error (files w1) f = Some F1 /\ parse_file s = Some g /\
    map import_of (GImports g) = ImportSpecs (FImports F1) /\
    resolve_file real g = Some (mkGFile (GPackage g0) (GImports g) (GDecls g0)).
Proof.
  intros EF EI OK HON US NT NN HR S M.
  destruct (source_means_more_with env real own h fuel f w F s w1 g0 EF EI OK HON US NT NN HR S M) as (H & F1 & g & _ & _ & _ & X). eauto.
Qed.
Theorem source_means_more {TD} (env : Env TD) real own h fuel f w F s w1 g0 :
  nth_error (files w) f = Some F -> FImports F = run h (NewImportsFor own) ->
  forallb call_ok h = true -> (forall c, In c h -> honest real c) -> (forall c, In c h -> usable_requests c) ->
  no_templates w f -> no_named_specs w f -> (forall r, file_mentions w f r -> right_name real r /\ usable_name r) ->
  source env fuel f w = (Ok s, w1) ->
  file_meaning_with (path_qualifier own) w (block_text env w1) fuel F = Some g0 ->
  exists H F1 g, (qualify_file env fuel f w = (Ok tt, w1) /\ imp f w1 = run H (NewImportsFor own) /\ FImports F1 = imp f w1 /\
      F1 = with_imports F (FImports F1) /\ forallb call_ok H = true /\ (forall c, In c H -> honest real c)) /\
    file_meaning w1 (block_text env w1) fuel F1 = Some g /\ GoFile_writeTo env fuel w1 F1 = Ok s /\
    nth_error (files w1) f = Some F1 /\ parse_file s = Some g /\
    map import_of (GImports g) = ImportSpecs (FImports F1) /\
    resolve_file real g = Some (mkGFile (GPackage g0) (GImports g) (GDecls g0)).
Proof.
  intros EF EI OK HON US NT. apply (source_means_more_with env real own h fuel f w F s w1 g0 EF EI OK HON US). apply no_templates_ok. exact NT.
Qed.
Theorem source_means {TD} (env : Env TD) real own h fuel f w F s w1 g0 :
  nth_error (files w) f = Some F -> FImports F = run h (NewImportsFor own) ->
  forallb call_ok h = true -> (forall c, In c h -> honest real c) -> (forall c, In c h -> usable_requests c) ->
  no_templates w f -> no_named_specs w f -> (forall r, file_mentions w f r -> right_name real r /\ usable_name r) ->
  source env fuel f w = (Ok s, w1) ->
  file_meaning_with (path_qualifier own) w (block_text env w1) fuel F = Some g0 ->
  exists F1 g, nth_error (files w1) f = Some F1 /\ parse_file s = Some g /\
    map import_of (GImports g) = ImportSpecs (FImports F1) /\
    resolve_file real g = Some (mkGFile (GPackage g0) (GImports g) (GDecls g0)).
Proof.
  intros EF EI OK HON US NT. apply (source_means_with env real own h fuel f w F s w1 g0 EF EI OK HON US). apply no_templates_ok. exact NT.
Qed.
