(** The text of a type: its tokens, and what the Go grammar makes of them. *)
From Coq Require Import ZifyN ZifyBool.
From Verif Require Import Base BaseFacts Utf8 Quote SpecLit LitProofs Types SpecTypes TypesFacts
  SpecImports SpecGo SpecRender LexProofs.

(** ** Tokens of a type *)
Definition sym_toks (s : Symbol) : list token :=
  match qualifier s with
  | None => [TIdent (SymName s)]
  | Some q => [TIdent q; TOp "."; TIdent (SymName s)]
  end.
Section Args.
Context {T : Type} (rec : T -> list token) (named v : bool).
Fixpoint args_toks (l : list (ArgType_ T)) : list token :=
  match l with
  | [] => []
  | mkArg n t :: r =>
      (if named then [TIdent (if String.eqb n "" then "_" else n)] else []) ++
      (if match r with [] => v | _ => false end then TOp "..." :: skipn 2 (rec t) else rec t) ++
      match r with [] => [] | _ => TOp "," :: args_toks r end
  end.
End Args.
Definition sig_toks {T} (rec : T -> list token) (s : Signature_ T) : list token :=
  match s with
  | mkSig a r v =>
      TOp "(" :: args_toks rec (has_names a) v a ++ TOp ")" ::
      match r with
      | [] => []
      | _ =>
          if Nat.ltb 1 (List.length r) || has_names r
          then TOp "(" :: args_toks rec (has_names r) false r ++ [TOp ")"]
          else args_toks rec (has_names r) false r
      end
  end.
Section Seps.
Context {T : Type} (rec : T -> list token).
Fixpoint sep_toks (l : list T) : list token :=
  match l with
  | [] => []
  | x :: r => rec x ++ match r with [] => [] | _ => TOp ";" :: sep_toks r end
  end.
End Seps.
Fixpoint toks (t : TypeName) : list token :=
  match t with
  | TNil => []
  | TBasic k => [TIdent (basic_name k)]
  | TNamed s => sym_toks s
  | TPtr e => TOp "*" :: toks e
  | TSlice e => TOp "[" :: TOp "]" :: toks e
  | TArray e n => TOp "[" :: TInt (decZ n) :: TOp "]" :: toks e
  | TMap e k => TKw "map" :: TOp "[" :: toks k ++ TOp "]" :: toks e
  | TChan e d =>
      (if (d =? 1)%Z then [TOp "<-"] else []) ++ TKw "chan" ::
      (if (d =? 2)%Z then [TOp "<-"] else []) ++ toks e
  | TFunc s => TKw "func" :: sig_toks toks s
  | TStruct fs =>
      TKw "struct" :: TOp "{" ::
      sep_toks (fun f => match f with
                         | mkField n t tag =>
                             (if String.eqb n "" then [] else [TIdent n]) ++ toks t ++
                             (if String.eqb tag "" then [] else [TStr tag])
                         end) fs ++ [TOp "}"]
  | TInterface ms es =>
      TKw "interface" :: TOp "{" :: sep_toks sym_toks es ++
      match es, ms with _ :: _, _ :: _ => [TOp ";"] | _, _ => [] end ++
      sep_toks (fun m => match m with mkMethod n s => TIdent n :: sig_toks toks s end) ms ++ [TOp "}"]
  end.

(** ** Lexing *)
Definition renders (r : res string) (ts : list token) : Prop := exists s, r = Ok s /\ lexo s ts.
Definition rendersc (r : res string) (ts : list token) : Prop := exists s, r = Ok s /\ lexc s ts.
(** text starting with a byte that ends an identifier *)
Definition opens (r : res string) : Prop := exists s, r = Ok s /\ s <> "" /\ bounded s = true.

Lemma rc_app a x b y : rendersc a x -> rendersc b y -> rendersc (a +++ b) (x ++ y).
Proof. intros (s & -> & A) (t & -> & B). eexists; split; [reflexivity|]. apply lexc_app; auto. Qed.
Lemma rco_app a x b y : rendersc a x -> renders b y -> renders (a +++ b) (x ++ y).
Proof. intros (s & -> & A) (t & -> & B). eexists; split; [reflexivity|]. apply lexc_lexo_app; auto. Qed.
Lemma roc_app a x b y : renders a x -> rendersc b y -> opens b -> rendersc (a +++ b) (x ++ y).
Proof.
  intros (s & -> & A) (t & -> & B) (u & [= <-] & NE & O). eexists; split; [reflexivity|].
  apply lexo_lexc_app; auto.
Qed.
Lemma ro_app a x b y : renders a x -> renders b y -> opens b -> renders (a +++ b) (x ++ y).
Proof.
  intros (s & -> & A) (t & -> & B) (u & [= <-] & NE & O). eexists; split; [reflexivity|].
  apply lexo_lexo_app; auto.
Qed.
Lemma rc_ro a x : rendersc a x -> renders a x.
Proof. intros (s & -> & A). exists s. split; auto. apply lexc_lexo; auto. Qed.
Lemma rc_nil : rendersc (W "") [].
Proof. exists "". split; auto. apply lexc_nil. Qed.
Lemma ro_nil : renders (W "") [].
Proof. apply rc_ro, rc_nil. Qed.
Lemma opens_app a b : opens a -> is_ok b = true -> opens (a +++ b).
Proof.
  intros (s & -> & NE & O). destruct b as [t|]; [|discriminate]. intros _. eexists; split; [reflexivity|].
  split; [destruct s; [congruence|discriminate]|]. apply bounded_app; auto.
Qed.
Lemma ok_app a b : is_ok (a +++ b) = is_ok a && is_ok b.
Proof. destruct a, b; auto. Qed.
Lemma renders_ok a x : renders a x -> is_ok a = true.
Proof. intros (s & -> & _). auto. Qed.
Lemma rendersc_ok a x : rendersc a x -> is_ok a = true.
Proof. intros (s & -> & _). auto. Qed.
Lemma opens_ok a : opens a -> is_ok a = true.
Proof. intros (s & -> & _). auto. Qed.
Lemma opens_W s : s <> "" -> bounded s = true -> opens (W s).
Proof. intros. exists s. auto. Qed.

(** concrete pieces *)
Ltac lexpiece := eexists; split; [reflexivity|]; intros ?rest; cbn;
  match goal with |- context [lexer LStart ?r] => destruct (lexer LStart r) end; reflexivity.
Lemma rc_lparen : rendersc (W "(") [TOp "("].  Proof. lexpiece. Qed.
Lemma rc_rparen : rendersc (W ")") [TOp ")"].  Proof. lexpiece. Qed.
Lemma rc_lbrack : rendersc (W "[") [TOp "["].  Proof. lexpiece. Qed.
Lemma rc_rbrack : rendersc (W "]") [TOp "]"].  Proof. lexpiece. Qed.
Lemma rc_rbrace : rendersc (W "}") [TOp "}"].  Proof. lexpiece. Qed.
Lemma rc_star : rendersc (W "*") [TOp "*"].  Proof. lexpiece. Qed.
Lemma rc_comma : rendersc (W ", ") [TOp ","].  Proof. lexpiece. Qed.
Lemma rc_semi : rendersc (W "; ") [TOp ";"].  Proof. lexpiece. Qed.
Lemma rc_dots : rendersc (W "...") [TOp "..."].  Proof. lexpiece. Qed.
Lemma rc_arrow : rendersc (W "<-") [TOp "<-"].  Proof. lexpiece. Qed.
Lemma rc_slice : rendersc (W "[]") [TOp "["; TOp "]"].  Proof. lexpiece. Qed.
Lemma rc_space : rendersc (W " ") [].  Proof. lexpiece. Qed.
Lemma rc_map : rendersc (W "map[") [TKw "map"; TOp "["].  Proof. lexpiece. Qed.
Lemma rc_struct : rendersc (W "struct{") [TKw "struct"; TOp "{"].  Proof. lexpiece. Qed.
Lemma rc_interface : rendersc (W "interface{") [TKw "interface"; TOp "{"].  Proof. lexpiece. Qed.
Lemma ro_func : renders (W "func") [TKw "func"].
Proof. exists "func"; split; auto. apply (lexo_word "func"). reflexivity. Qed.
Lemma ro_chan : renders (W "chan") [TKw "chan"].
Proof. exists "chan"; split; auto. apply (lexo_word "chan"). reflexivity. Qed.
Lemma ro_ident s : ident s = true -> renders (W s) [TIdent s].
Proof. intros H. exists s; split; auto. apply lexo_ident; auto. Qed.
Lemma rc_ident_sp s : ident s = true -> rendersc (W (s ++ " ")) [TIdent s].
Proof.
  intros H. exists (s ++ " ")%string; split; auto. change [TIdent s] with ([TIdent s] ++ []).
  apply lexo_lexc_app; try discriminate; auto; [apply lexo_ident; auto|].
  destruct rc_space as (x & [= <-] & L); auto.
Qed.

Lemma ro_symbol s : sym_ok s = true -> renders (W (symbol_text s)) (sym_toks s).
Proof.
  unfold sym_ok, symbol_text, sym_toks, qualifier. intros H. apply andb_true_iff in H as [H1 H2].
  destruct (String.eqb (PkgName (SymPackage s)) "") eqn:E; cbn [negb append].
  - apply ro_ident; auto.
  - simpl in H2. exists (PkgName (SymPackage s) ++ "." ++ SymName s)%string. split.
    { unfold W. rewrite append_assoc. auto. }
    change [TIdent (PkgName (SymPackage s)); TOp "."; TIdent (SymName s)] with
      ([TIdent (PkgName (SymPackage s))] ++ ([TOp "."; TIdent (SymName s)])).
    apply lexo_lexo_app; try discriminate; auto; [apply lexo_ident; auto|].
    intros r B. unfold ident in H1. apply andb_true_iff in H1 as [L K].
    destruct (SymName s) as [|c n]; [discriminate|]. cbn [legal_ident] in L.
    apply andb_true_iff in L as [L1 L2]. cbn [append lexer lex_step lex_start].
    change (lex_start ".") with (Some (@nil token, LDot)). cbv iota. rewrite omap_nil.
    cbn [lexer lex_step].
    assert (D : is_digit_byte c = false) by (unfold is_letter_byte, is_digit_byte in *; lia).
    assert (P : Ascii.eqb c "." = false) by (destruct (Ascii.eqb_spec c "."); auto; subst; discriminate).
    rewrite P, D. unfold lex_flush, lex_start. rewrite letter_not_space, L1 by auto.
    rewrite lexer_ident by auto. rewrite omap_app_app. unfold ident_token. cbn [append].
    apply negb_true_iff in K. rewrite K. auto.
Qed.

Lemma ro_basic k : is_basic k = true -> renders (W (basic_text k)) [TIdent (basic_name k)].
Proof.
  destruct k; intros H; try discriminate H;
  (apply ro_ident; reflexivity).
Qed.

(** The loops of signatureToBuffer as named functions. *)
Section Loops.
Context {T : Type} (rec rec_elem : T -> res string) (variadic named : bool) (len : nat).
Fixpoint args_loop (i : nat) (l : list (ArgType_ T)) : res string :=
  match l with
  | [] => W ""
  | a :: r =>
      W (if Nat.ltb 0 i then ", " else "")
      +++ W (arg_name_text named a)
      +++ (if variadic && Nat.eqb i (len - 1)
           then W "..." +++ match a with mkArg _ t => rec_elem t end
           else match a with mkArg _ t => rec t end)
      +++ args_loop (S i) r
  end.
Fixpoint results_loop (i : nat) (l : list (ArgType_ T)) : res string :=
  match l with
  | [] => W ""
  | a :: r =>
      W (if Nat.ltb 0 i then ", " else "")
      +++ W (arg_name_text named a)
      +++ match a with mkArg _ t => rec t end
      +++ results_loop (S i) r
  end.
End Loops.
Lemma sig_loops {T} (rec rec_elem : T -> res string) a r v :
  signatureToBuffer_ rec rec_elem (mkSig a r v) =
  W "(" +++ args_loop rec rec_elem v (any_named a) (List.length a) 0 a +++ W ")" +++
  match r with
  | [] => W ""
  | _ => let parens := Nat.ltb 1 (List.length r) || any_named r in
         W " " +++ W (if parens then "(" else "") +++
         results_loop rec (any_named r) 0 r +++ W (if parens then ")" else "")
  end.
Proof. reflexivity. Qed.

Definition name_ok {T} (a : ArgType_ T) : bool := String.eqb (ArgName a) "" || ident (ArgName a).
Lemma rc_arg_name {T} named (a : ArgType_ T) : name_ok a = true ->
  rendersc (W (arg_name_text named a))
    (if named then [TIdent (if String.eqb (ArgName a) "" then "_" else ArgName a)] else []).
Proof.
  unfold name_ok, arg_name_text. intros H. destruct named; [|apply rc_nil].
  destruct (String.eqb (ArgName a) "") eqn:E; cbn [negb].
  - apply (rc_ident_sp "_"). reflexivity.
  - simpl in H. apply rc_ident_sp; auto.
Qed.
Lemma app_nil_l' {A} (l : list A) : l = [] ++ l. Proof. auto. Qed.

Section ArgsLoop.
Context {T : Type} (rec rec_elem : T -> res string) (tk : T -> list token) (v named : bool).
Lemma args_loop_renders : forall l i len, i + List.length l = len ->
  forallb name_ok l = true ->
  Forall (fun a => renders (rec (ArgTy a)) (tk (ArgTy a))) l ->
  (v = true -> forall a, last_arg l = Some a -> renders (rec_elem (ArgTy a)) (skipn 2 (tk (ArgTy a)))) ->
  renders (args_loop rec rec_elem v named len i l)
    (match l with [] => [] | _ => if Nat.ltb 0 i then TOp "," :: args_toks tk named v l
                                  else args_toks tk named v l end)
  /\ (l <> [] -> 0 < i -> opens (args_loop rec rec_elem v named len i l)).
Proof.
  induction l as [|[n t] r IH]; intros i len L N F V.
  { split; [apply ro_nil|congruence]. }
  cbn [forallb] in N. apply andb_true_iff in N as [N1 N2]. inversion F as [|? ? F1 F2]; subst.
  cbn [List.length] in *.
  assert (BODY : renders
     (if v && Nat.eqb i (i + S (List.length r) - 1) then W "..." +++ rec_elem t else rec t)
     (if match r with [] => v | _ => false end then TOp "..." :: skipn 2 (tk t) else tk t)).
  { destruct r as [|b r].
    - replace (Nat.eqb i (i + S (List.length (@nil (ArgType_ T))) - 1)) with true
        by (simpl; symmetry; apply Nat.eqb_eq; lia).
      rewrite andb_true_r. destruct v.
      + change (TOp "..." :: skipn 2 (tk t)) with ([TOp "..."] ++ skipn 2 (tk t)).
        apply rco_app; [apply rc_dots|]. apply (V eq_refl (mkArg n t)). auto.
      + apply F1.
    - replace (Nat.eqb i (i + S (List.length (b :: r)) - 1)) with false
        by (symmetry; apply Nat.eqb_neq; simpl; lia).
      rewrite andb_false_r. apply F1. }
  destruct (IH (S i) (i + S (List.length r))) as [R O]; auto.
  { lia. }
  { intros E a A. apply V; auto. destruct r; [discriminate|]. exact A. }
  assert (ALL : renders (W (arg_name_text named (mkArg n t)) +++
      (if v && Nat.eqb i (i + S (List.length r) - 1) then W "..." +++ rec_elem t else rec t) +++
      args_loop rec rec_elem v named (i + S (List.length r)) (S i) r)
      (args_toks tk named v (mkArg n t :: r))).
  { cbn [args_toks]. apply rco_app; [apply (rc_arg_name named (mkArg n t)); auto|].
    destruct r as [|b r].
    - rewrite app_nil_r. destruct BODY as (s & E & LX). rewrite E. cbn. exists s.
      rewrite append_nil_r. auto.
    - apply ro_app; auto. apply O; [discriminate|lia]. }
  cbn [args_loop]. destruct (Nat.ltb_spec 0 i).
  - split.
    + change (TOp "," :: args_toks tk named v (mkArg n t :: r))
        with ([TOp ","] ++ args_toks tk named v (mkArg n t :: r)).
      apply rco_app; [apply rc_comma|exact ALL].
    + intros _ _. apply opens_app; [apply opens_W; [discriminate|reflexivity]|].
      eapply renders_ok. exact ALL.
  - split; [|lia]. rewrite (app_nil_l' (args_toks _ _ _ _)).
    apply rco_app; [apply rc_nil|exact ALL].
Qed.
End ArgsLoop.
Lemma results_args {T} (rec rec_elem : T -> res string) named len : forall l i,
  results_loop rec named i l = args_loop rec rec_elem false named len i l.
Proof. induction l as [|[n t] r IH]; intros i; [reflexivity|].
  cbn [results_loop args_loop andb]. rewrite (IH (S i)). reflexivity. Qed.

Lemma sig_renders {T} (rec rec_elem : T -> res string) (tk : T -> list token) a r v :
  forallb name_ok a = true -> forallb name_ok r = true ->
  Forall (fun a => renders (rec (ArgTy a)) (tk (ArgTy a))) a ->
  Forall (fun a => renders (rec (ArgTy a)) (tk (ArgTy a))) r ->
  (v = true -> forall x, last_arg a = Some x -> renders (rec_elem (ArgTy x)) (skipn 2 (tk (ArgTy x)))) ->
  renders (signatureToBuffer_ rec rec_elem (mkSig a r v)) (sig_toks tk (mkSig a r v))
  /\ opens (signatureToBuffer_ rec rec_elem (mkSig a r v)).
Proof.
  intros NA NR FA FR V. rewrite sig_loops.
  set (AL := args_loop rec rec_elem v (any_named a) (List.length a) 0 a).
  assert (RA : renders AL (args_toks tk (has_names a) v a)).
  { destruct (args_loop_renders rec rec_elem tk v (any_named a) a 0 (List.length a)) as [R _]; auto.
    destruct a; auto. }
  set (RT := match r with [] => W "" | _ => _ end).
  assert (RR : renders RT (match r with [] => [] | _ =>
     if Nat.ltb 1 (List.length r) || has_names r
          then TOp "(" :: args_toks tk (has_names r) false r ++ [TOp ")"]
          else args_toks tk (has_names r) false r end)).
  { unfold RT. destruct r as [|x r']; [apply ro_nil|]. set (rr := x :: r') in *.
    cbv zeta. change (@any_named T) with (@has_names T).
    assert (RB : renders (results_loop rec (has_names rr) 0 rr) (args_toks tk (has_names rr) false rr)).
    { rewrite (results_args rec rec_elem _ (List.length rr)).
      destruct (args_loop_renders rec rec_elem tk false (has_names rr) rr 0 (List.length rr)) as [R _]; auto.
      discriminate. }
    destruct (Nat.ltb 1 (List.length rr) || has_names rr).
    - rewrite (app_nil_l' (TOp "(" :: _)).
      apply rco_app; [apply rc_space|].
      change (TOp "(" :: args_toks tk (has_names rr) false rr ++ [TOp ")"])
        with ([TOp "("] ++ (args_toks tk (has_names rr) false rr ++ [TOp ")"])).
      apply rco_app; [apply rc_lparen|]. apply rc_ro. apply roc_app; auto using rc_rparen.
      apply opens_W; [discriminate|reflexivity].
    - rewrite (app_nil_l' (args_toks _ _ _ _)). apply rco_app; [apply rc_space|].
      rewrite (app_nil_l' (args_toks _ _ _ _)). apply rco_app; [apply rc_nil|].
      destruct RB as (s & E & LX). rewrite E. cbn. exists s. rewrite append_nil_r. auto. }
  assert (R2 : renders (W ")" +++ RT) (TOp ")" :: match r with [] => [] | _ =>
     if Nat.ltb 1 (List.length r) || has_names r
          then TOp "(" :: args_toks tk (has_names r) false r ++ [TOp ")"]
          else args_toks tk (has_names r) false r end)).
  { match goal with |- renders _ (?x :: ?y) => change (x :: y) with ([x] ++ y) end.
    apply rco_app; [apply rc_rparen|auto]. }
  assert (O2 : opens (W ")" +++ RT)).
  { apply opens_app; [apply opens_W; [discriminate|reflexivity]|]. eapply renders_ok; eauto. }
  split.
  - cbn [sig_toks]. match goal with |- renders _ (?x :: ?y) => change (x :: y) with ([x] ++ y) end.
    apply rco_app; [apply rc_lparen|]. apply ro_app; auto.
  - apply opens_app; [apply opens_W; [discriminate|reflexivity]|].
    rewrite ok_app. apply andb_true_iff; split; [eapply renders_ok|eapply opens_ok]; eauto.
Qed.

Definition sep (b : res string) (y : list token) : Prop := opens b \/ (b = Ok "" /\ y = []).
Lemma ro_sep a x b y : renders a x -> renders b y -> sep b y -> renders (a +++ b) (x ++ y).
Proof.
  intros A B [O|[-> ->]]; [apply ro_app; auto|].
  destruct A as (s & -> & A). exists s. cbn. rewrite append_nil_r, app_nil_r. auto.
Qed.
Lemma sep_app a x b y : sep a x -> renders b y -> sep b y -> sep (a +++ b) (x ++ y).
Proof.
  intros [O|[-> ->]] B S.
  - left. apply opens_app; auto. eapply renders_ok; eauto.
  - destruct B as (s & -> & B). cbn. destruct S as [(u & E & U)|[E ->]]; [left|right; auto].
    exists u; auto.
Qed.
Lemma rc_sep_nil : sep (W "") []. Proof. right; auto. Qed.

Section WithPrint.
Variable isPrint : N -> bool.
Notation render := (typeNameToBuffer isPrint).

Definition field_toks (f : FieldType) : list token :=
  match f with
  | mkField n t tag =>
      (if String.eqb n "" then [] else [TIdent n]) ++ toks t ++
      (if String.eqb tag "" then [] else [TStr tag])
  end.
Fixpoint fields_loop (i : nat) (l : list FieldType) : res string :=
  match l with
  | [] => W ""
  | mkField name t tag :: r =>
      W (if Nat.ltb 0 i then "; " else "")
      +++ W (if negb (String.eqb name "") then (name ++ " ")%string else "")
      +++ render t
      +++ W (if negb (String.eqb tag "") then (" " ++ tag_literal isPrint tag)%string else "")
      +++ fields_loop (S i) r
  end.
Definition rec_elem (t : TypeName) : res string :=
  match t with
  | TPtr e | TSlice e | TArray e _ | TMap e _ | TChan e _ => render e
  | _ => Panic nil_deref
  end.
Definition method_toks (m : MethodType) : list token :=
  match m with mkMethod n s => TIdent n :: sig_toks toks s end.
Fixpoint embeds_loop (i : nat) (l : list Symbol) : res string :=
  match l with
  | [] => W ""
  | emb :: r =>
      W (if Nat.ltb 0 i then "; " else "") +++ W (symbol_text emb) +++ embeds_loop (S i) r
  end.
Fixpoint methods_loop (i : nat) (l : list MethodType) : res string :=
  match l with
  | [] => W ""
  | mkMethod name sig :: r =>
      W (if Nat.ltb 0 i then "; " else "")
      +++ W name +++ signatureToBuffer_ render rec_elem sig +++ methods_loop (S i) r
  end.
Lemma render_struct fs : render (TStruct fs) = W "struct{" +++ fields_loop 0 fs +++ W "}".
Proof. reflexivity. Qed.
Lemma render_interface ms es :
  render (TInterface ms es) = W "interface{" +++ embeds_loop 0 es +++ methods_loop 0 ms +++ W "}".
Proof. reflexivity. Qed.
Lemma render_func s : render (TFunc s) = W "func" +++ signatureToBuffer_ render rec_elem s.
Proof. reflexivity. Qed.

(** separated lists *)
Definition sep_loop (i : nat) {T} (tk : T -> list token) (l : list T) : list token :=
  match l with [] => [] | _ => if Nat.ltb 0 i then TOp ";" :: sep_toks tk l else sep_toks tk l end.
Lemma rc_maybe_semi i : rendersc (W (if Nat.ltb 0 i then "; " else "")) (if Nat.ltb 0 i then [TOp ";"] else []).
Proof. destruct (Nat.ltb 0 i); [apply rc_semi|apply rc_nil]. Qed.
Lemma sep_loop_cons i {T} (tk : T -> list token) x r :
  sep_loop i tk (x :: r) = (if Nat.ltb 0 i then [TOp ";"] else []) ++ (tk x ++ sep_loop (S i) tk r).
Proof.
  unfold sep_loop. cbn [sep_toks]. change (Nat.ltb 0 (S i)) with true. cbv iota.
  destruct r; destruct (Nat.ltb 0 i); reflexivity.
Qed.
Lemma opens_semi i b : 0 < i -> is_ok b = true -> opens (W (if Nat.ltb 0 i then "; " else "") +++ b).
Proof.
  intros H O. destruct (Nat.ltb_spec 0 i); [|lia].
  apply opens_app; auto. apply opens_W; [discriminate|reflexivity].
Qed.

Definition PT (t : TypeName) : Prop := wf t = true -> text_ok t = true ->
  renders (render t) (toks t) /\ (forall e, t = TSlice e -> renders (render e) (toks e)).

Lemma fields_renders : forall l i,
  Forall (fun f => PT (FldType f)) l ->
  forallb (fun f => wf (FldType f)) l = true ->
  forallb (fun f => (if String.eqb (FldName f) "" then embeddable (FldType f)
                         else ident (FldName f)) && text_ok (FldType f)) l = true ->
  renders (fields_loop i l) (sep_loop i field_toks l) /\
  (0 < i -> sep (fields_loop i l) (sep_loop i field_toks l)).
Proof.
  induction l as [|[n t tag] r IH]; intros i F WF TX.
  { split; [apply ro_nil|intros _; apply rc_sep_nil]. }
  inversion F as [|? ? F1 F2]; subst. cbn [forallb FldType FldName] in *.
  apply andb_true_iff in WF as [WF1 WF2]. apply andb_true_iff in TX as [TX1 TX2].
  apply andb_true_iff in TX1 as [TN TX1].
  destruct (IH (S i)) as [R SP]; auto. specialize (SP ltac:(lia)).
  destruct (F1 WF1 TX1) as [RT _].
  assert (TAGR : rendersc (W (if negb (String.eqb tag "") then (" " ++ tag_literal isPrint tag)%string else ""))
     (if String.eqb tag "" then [] else [TStr tag])).
  { destruct (String.eqb tag ""); cbn [negb]; [apply rc_nil|].
    exists (" " ++ tag_literal isPrint tag)%string. split; auto.
    change [TStr tag] with ([] ++ [TStr tag]). apply lexc_app; [|apply lexc_tag].
    destruct rc_space as (x & [= <-] & L); auto. }
  assert (TAGS : sep (W (if negb (String.eqb tag "") then (" " ++ tag_literal isPrint tag)%string else ""))
     (if String.eqb tag "" then [] else [TStr tag])).
  { destruct (String.eqb tag ""); cbn [negb]; [apply rc_sep_nil|].
    left. apply opens_W; [discriminate|reflexivity]. }
  assert (BODY : renders
      (W (if negb (String.eqb n "") then (n ++ " ")%string else "") +++ render t +++
       W (if negb (String.eqb tag "") then (" " ++ tag_literal isPrint tag)%string else "") +++
       fields_loop (S i) r) (field_toks (mkField n t tag) ++ sep_loop (S i) field_toks r)).
  { unfold field_toks at 1. rewrite <- app_assoc. apply rco_app.
    - destruct (String.eqb n "") eqn:E; cbn [negb]; [apply rc_nil|apply rc_ident_sp; auto].
    - rewrite <- app_assoc. apply ro_sep; auto; [apply rco_app; auto|apply sep_app; auto]. }
  cbn [fields_loop]. rewrite sep_loop_cons. split.
  - apply rco_app; auto. apply rc_maybe_semi.
  - intros H. left. apply opens_semi; auto. eapply renders_ok; eauto.
Qed.

Lemma embeds_renders : forall l i, forallb sym_ok l = true ->
  renders (embeds_loop i l) (sep_loop i sym_toks l) /\
  (0 < i -> sep (embeds_loop i l) (sep_loop i sym_toks l)).
Proof.
  induction l as [|s r IH]; intros i F.
  { split; [apply ro_nil|intros _; apply rc_sep_nil]. }
  cbn [forallb] in F. apply andb_true_iff in F as [F1 F2].
  destruct (IH (S i)) as [R SP]; auto. specialize (SP ltac:(lia)).
  assert (BODY : renders (W (symbol_text s) +++ embeds_loop (S i) r) (sym_toks s ++ sep_loop (S i) sym_toks r)).
  { apply ro_sep; auto. apply ro_symbol; auto. }
  cbn [embeds_loop]. rewrite sep_loop_cons. split.
  - apply rco_app; auto. apply rc_maybe_semi.
  - intros H. left. apply opens_semi; auto. eapply renders_ok; eauto.
Qed.

Lemma last_arg_in {T} (l : list (ArgType_ T)) x : last_arg l = Some x -> In x l.
Proof.
  unfold last_arg. induction l as [|a l IH]; [discriminate|].
  destruct l as [|b l]; [intros [= ->]; left; auto|]. intros H. right. apply IH. exact H.
Qed.
Lemma last_arg_rev' {T} (l : list (ArgType_ T)) : last_arg l = match rev l with [] => None | a :: _ => Some a end.
Proof.
  unfold last_arg. induction l as [|a l IH] using rev_ind; auto.
  rewrite map_app, rev_app_distr. simpl. clear. induction (map Some l) as [|x m IH]; auto.
  simpl. rewrite IH. destruct m; auto.
Qed.
Lemma sigPT a r v :
  PSig PT (mkSig a r v) ->
  variadic_ok (mkSig a r v) = true ->
  forallb (fun x => wf (ArgTy x)) a = true -> forallb (fun x => wf (ArgTy x)) r = true ->
  names_ok a = true -> names_ok r = true ->
  forallb (fun x => text_ok (ArgTy x)) a = true -> forallb (fun x => text_ok (ArgTy x)) r = true ->
  renders (signatureToBuffer_ render rec_elem (mkSig a r v)) (sig_toks toks (mkSig a r v))
  /\ opens (signatureToBuffer_ render rec_elem (mkSig a r v)).
Proof.
  intros [PA PR] V WA WR NA NR TA TR. cbn [Args Results] in *.
  assert (G : forall l, PArgs PT l -> forallb (fun x => wf (ArgTy x)) l = true ->
     forallb (fun x => text_ok (ArgTy x)) l = true ->
     Forall (fun x => renders (render (ArgTy x)) (toks (ArgTy x)) /\
        (forall e, ArgTy x = TSlice e -> renders (render e) (toks e))) l).
  { intros l P W X. unfold PArgs in P. rewrite Forall_forall in *. rewrite forallb_forall in W, X.
    intros x I. apply P; auto. }
  pose proof (G a PA WA TA) as GA. pose proof (G r PR WR TR) as GR.
  apply sig_renders; auto.
  - eapply Forall_impl; [|exact GA]. simpl. intros ? [? _]; auto.
  - eapply Forall_impl; [|exact GR]. simpl. intros ? [? _]; auto.
  - intros -> x L. unfold variadic_ok in V. cbn [IsVariadic Args negb orb] in V.
    pose proof L as L'. rewrite last_arg_rev' in L'. destruct (rev a); [discriminate|].
    injection L' as ->. apply last_arg_in in L. rewrite Forall_forall in GA.
    destruct (GA x L) as [_ G2]. destruct (ArgTy x) eqn:E; try discriminate.
    cbn [rec_elem toks skipn]. apply G2; auto.
Qed.

Lemma methods_renders : forall l i,
  Forall (fun m => PSig PT (MtdSig m)) l ->
  forallb (fun m =>
        match m with
        | mkMethod _ s =>
            variadic_ok s &&
            match s with
            | mkSig args results _ =>
                forallb (fun a => wf (ArgTy a)) args && forallb (fun a => wf (ArgTy a)) results
            end
        end) l = true ->
  forallb (fun m => match m with
        | mkMethod n s =>
            ident n &&
            match s with
            | mkSig a r _ =>
                names_ok a && names_ok r &&
                forallb (fun x => text_ok (ArgTy x)) a && forallb (fun x => text_ok (ArgTy x)) r
            end
        end) l = true ->
  renders (methods_loop i l) (sep_loop i method_toks l) /\
  (0 < i -> sep (methods_loop i l) (sep_loop i method_toks l)).
Proof.
  induction l as [|[n [a rs v]] r IH]; intros i F WF TX.
  { split; [apply ro_nil|intros _; apply rc_sep_nil]. }
  inversion F as [|? ? F1 F2]; subst. cbn [forallb MtdSig] in *.
  apply andb_true_iff in WF as [WF1 WF2]. apply andb_true_iff in TX as [TX1 TX2].
  apply andb_true_iff in TX1 as [TN TX1]. apply andb_true_iff in WF1 as [WV WF1].
  apply andb_true_iff in WF1 as [WA WR].
  rewrite !andb_true_iff in TX1. destruct TX1 as [[[NA NR] TA] TR].
  destruct (IH (S i)) as [R SP]; auto. specialize (SP ltac:(lia)).
  destruct (sigPT a rs v) as [RS OS]; auto.
  assert (BODY : renders
      (W n +++ signatureToBuffer_ render rec_elem (mkSig a rs v) +++ methods_loop (S i) r)
      (method_toks (mkMethod n (mkSig a rs v)) ++ sep_loop (S i) method_toks r)).
  { unfold method_toks at 1.
    change ((TIdent n :: sig_toks toks (mkSig a rs v)) ++ sep_loop (S i) method_toks r)
      with ([TIdent n] ++ (sig_toks toks (mkSig a rs v) ++ sep_loop (S i) method_toks r)).
    apply ro_app; [apply ro_ident; auto|apply ro_sep; auto|].
    apply opens_app; auto. eapply renders_ok; eauto. }
  cbn [methods_loop]. rewrite sep_loop_cons. split.
  - apply rco_app; auto. apply rc_maybe_semi.
  - intros H. left. apply opens_semi; auto. eapply renders_ok; eauto.
Qed.

Lemma type_renders : forall t, PT t.
Proof.
  induction t using TypeName_ind'; intros WF TX; (split; [|try (intros ? ?; discriminate)]).
  - discriminate.
  - apply ro_basic; auto.
  - apply ro_symbol; auto.
  - destruct (IHt WF TX) as [R _]. change (toks (TPtr t)) with ([TOp "*"] ++ toks t).
    apply rco_app; auto using rc_star.
  - destruct (IHt WF TX) as [R _]. change (toks (TSlice t)) with ([TOp "["; TOp "]"] ++ toks t).
    apply rco_app; auto using rc_slice.
  - intros e [= <-]. destruct (IHt WF TX) as [R _]. exact R.
  - cbn [wf] in WF. apply andb_true_iff in WF as [N WF]. destruct (IHt WF TX) as [R _].
    change (toks (TArray t n)) with ([TOp "["] ++ ([TInt (decZ n); TOp "]"] ++ toks t)).
    cbn [typeNameToBuffer]. apply rco_app; auto using rc_lbrack.
    assert (X : rendersc (W (decZ n) +++ W "]") [TInt (decZ n); TOp "]"]).
    { exists (decZ n ++ "]")%string. split; auto. apply lexc_number. unfold decZ.
      apply Z.leb_le in N. destruct (Z.ltb_spec n 0); [lia|]. apply number_dec. }
    destruct X as (s & E & L). destruct R as (u & E2 & L2). rewrite E2.
    exists (s ++ u)%string. split.
    + injection E as <-. cbn. rewrite append_assoc. auto.
    + apply lexc_lexo_app; auto.
  - cbn [wf] in WF. apply andb_true_iff in WF as [W1 W2].
    cbn [text_ok] in TX. apply andb_true_iff in TX as [T1 T2].
    destruct (IHt1 W1 T1) as [R1 _]. destruct (IHt2 W2 T2) as [R2 _].
    change (toks (TMap t1 t2)) with ([TKw "map"; TOp "["] ++ (toks t2 ++ [TOp "]"] ++ toks t1)).
    cbn [typeNameToBuffer]. apply rco_app; [apply rc_map|]. apply ro_app; auto.
    + apply rco_app; auto using rc_rbrack.
    + apply opens_app; [apply opens_W; [discriminate|reflexivity]|]. eapply renders_ok; eauto.
  - cbn [wf] in WF. apply andb_true_iff in WF as [W1 W2].
    cbn [text_ok] in TX. apply andb_true_iff in TX as [T1 T2].
    destruct (IHt W2 T2) as [R _]. cbn [typeNameToBuffer toks].
    unfold RecvDir, SendDir. apply rco_app.
    { destruct (d =? 1)%Z; [apply rc_arrow|apply rc_nil]. }
    change (TKw "chan" :: (if (d =? 2)%Z then [TOp "<-"] else []) ++ toks t) with
      ([TKw "chan"] ++ ((if (d =? 2)%Z then [TOp "<-"] else []) ++ ([] ++ toks t))).
    assert (RR : renders (W " " +++ render t) ([] ++ toks t)).
    { apply rco_app; auto using rc_space. }
    apply ro_app; [apply ro_chan| |].
    + apply rco_app; auto. destruct (d =? 2)%Z; [apply rc_arrow|apply rc_nil].
    + destruct (d =? 2)%Z.
      * apply opens_app; [apply opens_W; [discriminate|reflexivity]|]. eapply renders_ok; eauto.
      * destruct R as (s & -> & _). cbn. exists (String " " s). split; auto. split; [discriminate|reflexivity].
  - destruct s as [a r v]. cbn [wf] in WF. apply andb_true_iff in WF as [WV WF1].
    apply andb_true_iff in WF1 as [WA WR].
    cbn [text_ok] in TX. rewrite !andb_true_iff in TX. destruct TX as [[[NA NR] TA] TR].
    rewrite render_func. change (toks (TFunc (mkSig a r v))) with ([TKw "func"] ++ sig_toks toks (mkSig a r v)).
    destruct (sigPT a r v) as [RS OS]; auto. apply ro_app; auto using ro_func.
  - rewrite render_struct. cbn [wf text_ok] in *.
    destruct (fields_renders fs 0) as [R _]; auto.
    change (toks (TStruct fs)) with ([TKw "struct"; TOp "{"] ++ (sep_toks field_toks fs ++ [TOp "}"])).
    apply rco_app; [apply rc_struct|]. apply rc_ro, roc_app; auto using rc_rbrace.
    + destruct fs; auto.
    + apply opens_W; [discriminate|reflexivity].
  - rewrite render_interface. cbn [wf text_ok] in *. rewrite !andb_true_iff in TX.
    destruct TX as [[ME TE] TM].
    destruct (embeds_renders es 0) as [RE _]; auto. destruct (methods_renders ms 0) as [RM _]; auto.
    change (toks (TInterface ms es)) with ([TKw "interface"; TOp "{"] ++
       (sep_toks sym_toks es ++ match es, ms with _ :: _, _ :: _ => [TOp ";"] | _, _ => [] end ++ (sep_toks method_toks ms ++ [TOp "}"]))).
    apply rco_app; [apply rc_interface|].
    assert (C : opens (W "}")) by (apply opens_W; [discriminate|reflexivity]).
    destruct ms as [|m ms].
    + cbn [methods_loop sep_toks app]. destruct es; apply rc_ro, roc_app; auto;
      apply (rc_app (W "") [] (W "}") [TOp "}"]); auto using rc_nil, rc_rbrace.
    + destruct es as [|x es]; [|discriminate]. cbn [embeds_loop sep_toks app].
      rewrite (app_nil_l' (_ ++ [TOp "}"])).
      apply rco_app; [apply rc_nil|]. apply rc_ro, roc_app; auto using rc_rbrace.
Qed.

Lemma signature_renders s : wf_sig s = true -> sig_text_ok s = true ->
  renders (signatureToBuffer isPrint s) (sig_toks toks s).
Proof.
  destruct s as [a r v]. unfold wf_sig, sig_text_ok. cbn [Args Results]. rewrite !andb_true_iff.
  intros [[V WA] WR] [[[NA NR] TA] TR]. apply sigPT; auto. split; apply Forall_forall; intros; apply type_renders.
Qed.
Lemma lexo_lex s ts : lexo s ts -> lex s = Some ts.
Proof.
  intros H. specialize (H "" eq_refl). rewrite append_nil_r in H. unfold lex. rewrite H.
  cbn. rewrite app_nil_r. auto.
Qed.
End WithPrint.
