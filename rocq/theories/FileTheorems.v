(** The text of declarations and files read back by the Go grammar. *)
From Verif Require Import Base BaseFacts GoPath Utf8 Quote SpecLit LitProofs Types SpecTypes TypesFacts
  Imports SpecImports SpecGo SpecRender LexProofs TextProofs ParseProofs TextTheorems Conv Fmt World
  SpecFile SpecDecl FileLexProofs QuoteProofs DeclParse DeclText.

(** ** Complete lines of arbitrary code *)
Fixpoint frun (st : fstate) (s : string) : option (list token * fstate) :=
  match s with
  | EmptyString => Some ([], st)
  | String c r =>
      match fstep st c with
      | Some (ts, st') => match frun st' r with Some (us, st2) => Some (ts ++ us, st2) | None => None end
      | None => None
      end
  end.
Lemma flexer_frun s : forall st rest,
  flexer st (s ++ rest) = match frun st s with
                          | Some (ts, st') => omap (app ts) (flexer st' rest)
                          | None => None
                          end.
Proof.
  induction s as [|c s IH]; intros st rest; cbn [append flexer frun].
  - rewrite omap_nil. auto.
  - destruct (fstep st c) as [[ts st']|]; auto. rewrite IH.
    destruct (frun st' s) as [[us st2]|]; auto. apply omap_app_app.
Qed.
Lemma fstep_newline st ts st' : fstep st (ch 10) = Some (ts, st') ->
  st' = FCode LStart false \/ (exists acc e, st' = FCode (LRaw acc) e) \/ (exists b e, st' = FBlock b e).
Proof.
  destruct st as [st e|e|e|b e|b e]; cbn [fstep].
  - change (is_newline (ch 10)) with true. cbn [orb]. rewrite andb_true_r.
    destruct (in_literal st) eqn:L; cbn [negb].
    + destruct st; try discriminate L; cbn [lex_step].
      * intros [= <- <-]. right; eauto.
      * discriminate.
      * discriminate.
      * discriminate.
      * discriminate.
    + destruct (lex_end st); [|discriminate]. intros [= <- <-]. left; auto.
  - intros [= <- <-]. left; auto.
  - intros [= <- <-]. left; auto.
  - intros [= <- <-]. right; eauto.
  - intros [= <- <-]. right; eauto.
Qed.
Lemma last_byte_split s c : last_byte s = Some c -> exists r, s = (r ++ String c "")%string.
Proof.
  induction s as [|a s IH]; [discriminate|]. cbn [last_byte]. destruct s as [|b s].
  - intros [= ->]. exists "". auto.
  - intros H. destruct (IH H) as (r & E). exists (String a r). cbn [append]. rewrite <- E. auto.
Qed.
Lemma frun_app s : forall st t, frun st (s ++ t) =
  match frun st s with
  | Some (a, st1) => match frun st1 t with Some (b, st2) => Some (a ++ b, st2) | None => None end
  | None => None
  end.
Proof.
  induction s as [|c s IH]; intros st t; cbn [append frun].
  - destruct (frun st t) as [[? ?]|]; auto.
  - destruct (fstep st c) as [[ts st']|]; auto. rewrite IH.
    destruct (frun st' s) as [[us st2]|]; auto. destruct (frun st2 t) as [[vs st3]|]; auto.
    rewrite app_assoc. auto.
Qed.
Lemma lines_fl s ts : whole_lines s = true -> tokens s = Some ts -> fl false s ts false.
Proof.
  unfold whole_lines, tokens. destruct (last_byte s) as [c|] eqn:L.
  - intros E. apply Ascii.eqb_eq in E. subst c. destruct (last_byte_split _ _ L) as (r & ->).
    intros H rest. rewrite <- (append_nil_r (r ++ _)) in H. rewrite flexer_frun in H. rewrite flexer_frun.
    rewrite frun_app in *. destruct (frun (FCode LStart false) r) as [[a st1]|]; [|discriminate].
    cbn [frun] in *. destruct (fstep st1 (ch 10)) as [[b st2]|] eqn:F; [|discriminate].
    destruct (fstep_newline _ _ _ F) as [-> | [(acc & e & ->)|(bb & e & ->)]].
    + cbn in H. injection H as <-. rewrite !app_nil_r. auto.
    + discriminate H.
    + discriminate H.
  - destruct s as [|a s]; [|exfalso; revert L; clear; revert a; induction s as [|b s IH]; [discriminate|];
      intros a H; apply (IH b); exact H].
    intros _ [= <-]. apply fl_nil.
Qed.

Lemma Forall2_impl {A B} (P Q : A -> B -> Prop) la lb :
  (forall a b, P a b -> Q a b) -> Forall2 P la lb -> Forall2 Q la lb.
Proof. intros H. induction 1; constructor; auto. Qed.

(** ** Delimited code *)
Lemma until_brace_all ts : forall d b, until_brace d (ts ++ [TOp "}"]) = Some (b, []) ->
  b = ts /\ forall rest, until_brace d (ts ++ TOp "}" :: rest) = Some (ts, rest).
Proof.
  induction ts as [|t ts IH]; intros d b H; cbn [app until_brace] in *.
  - destruct d as [|d]; cbn in *.
    + injection H as <-. auto.
    + discriminate.
  - destruct (Nat.eqb d 0 && is_op "}" t).
    + injection H as _ H. destruct ts; discriminate.
    + unfold bind in *. destruct (depth_after d t) as [d'|]; [|discriminate].
      destruct (until_brace d' (ts ++ [TOp "}"])) as [[l r]|] eqn:E; [|discriminate].
      injection H as <- ->. destruct (IH d' l E) as [-> A]. split; auto. intros rest. rewrite A. auto.
Qed.
Lemma until_semi_all : forall ts d i x, until_semi d ts = Some (i, [x]) ->
  ts = i ++ [TOp ";"] /\ forall rest, until_semi d (i ++ TOp ";" :: rest) = Some (i, TOp ";" :: rest).
Proof.
  induction ts as [|t ts IH]; intros d i x H; [discriminate|]. cbn [until_semi] in H.
  destruct (Nat.eqb d 0 && is_op ";" t) eqn:E.
  - injection H as <- <- ->. apply andb_true_iff in E as [E1 E2]. apply Nat.eqb_eq in E1. subst d.
    destruct t; try discriminate E2. apply String.eqb_eq in E2. subst s. split; auto.
  - unfold bind in H. destruct (depth_after d t) as [d'|] eqn:D; [|discriminate].
    destruct (until_semi d' ts) as [[l r]|] eqn:U; [|discriminate]. injection H as <- ->.
    destruct (IH d' l x U) as [-> A]. split; auto. intros rest. cbn [app until_semi]. rewrite E, D.
    cbn [bind]. rewrite A. auto.
Qed.

Section WithEnv.
Context {TD : Type}.
Notation World := (World TD).
Variable env : Env TD.
Notation isPrint := (World.isPrint env).

(** ** Declarations *)
Definition res_opt {A} (r : res A) : option A := match r with Ok a => Some a | Panic _ => None end.

(** An item of a declaration: its text with and without its comment, its tokens, and what
    they parse to. *)
Record item {A M} (write : A -> bool -> res string) (p : list token -> option (M * list token))
       (a : A) (m : M) (ts : list token) : Prop :=
  { it_text : forall c, frl (write a c) false (ts ++ [TOp ";"]) false;
    it_parse : forall rest, p (ts ++ TOp ";" :: rest) = Some (m, TOp ";" :: rest);
    it_head : exists x r, ts = TIdent x :: r }.
Lemma decl_text {A M} kw comment spc (write : A -> bool -> res string)
      (p : list token -> option (M * list token)) specs ms :
  legal_ident kw = true -> is_keyword kw = true ->
  existsb (String.eqb kw) ["break"; "continue"; "fallthrough"; "return"] = false ->
  Forall2 (fun a m => exists ts, item write p a m ts) specs ms ->
  negb (Nat.eqb (List.length specs) 0) || negb (String.eqb comment "") = true ->
  exists ts, frl (decl_writeTo kw comment spc write specs) false ts false
    /\ (forall rest, pdecl p kw (ts ++ rest) = Some (grouped comment specs, ms, rest))
    /\ exists r, ts = TKw kw :: r.
Proof.
  intros K1 K2 K3 F NE.
  assert (X : exists tss, Forall2 (fun a ts => forall c, frl (write a c) false (ts ++ [TOp ";"]) false) specs tss
     /\ Forall2 (fun ts m => (forall rest, p (ts ++ TOp ";" :: rest) = Some (m, TOp ";" :: rest))
                             /\ exists x r, ts = TIdent x :: r) tss ms).
  { eapply Forall2_choose; [|exact F]. intros a m (ts & [T P H]). exists ts. auto. }
  destruct X as (tss & FT & FP).
  assert (PG : forall rest fuel, List.length tss < fuel ->
     pgroup p fuel (terminated (fun ts => ts) tss ++ TOp ")" :: rest) = Some (ms, rest)).
  { clear - FP. induction FP as [|ts m tss ms [P (x & r & ->)] FP IH]; intros rest fuel L.
    - destruct fuel; [lia|]. reflexivity.
    - destruct fuel; [cbn in L; lia|]. cbn [terminated flat_map]. rewrite <- !app_assoc.
      cbn [app pgroup expect]. specialize (P (terminated (fun ts => ts) tss ++ TOp ")" :: rest)).
      fold (terminated (fun ts : list token => ts) tss).
      cbn [app] in P. rewrite P. cbn [bind expect String.eqb Ascii.eqb Bool.eqb].
      rewrite IH by (cbn in L; lia). reflexivity. }
  unfold decl_writeTo.
  destruct (Nat.ltb 1 (List.length specs) || negb (String.eqb comment "")) eqn:G.
  - exists (TKw kw :: TOp "(" :: terminated (fun ts => ts) tss ++ [TOp ")"; TOp ";"]). split; [|split].
    + eapply frl_eq; [eapply frl_app; [apply comment_frl|eapply frl_app; [apply fl_open; auto|
        eapply frl_app; [|apply fl_close]]]|reflexivity].
      apply (lines_frl (fun s => write s true) (fun ts : list token => ts)).
      clear - FT. induction FT; constructor; auto.
    + intros rest. cbn [app pdecl]. rewrite String.eqb_refl. cbn [expect String.eqb Ascii.eqb Bool.eqb].
      rewrite <- app_assoc. cbn [app]. rewrite PG.
      * cbn [bind expect String.eqb Ascii.eqb Bool.eqb]. f_equal. f_equal. f_equal. unfold grouped.
        apply orb_true_iff in G as [G|G].
        -- apply Nat.ltb_lt in G. destruct (Nat.eqb_spec (List.length specs) 1); [lia|]. auto.
        -- rewrite G, orb_true_r. auto.
      * cbn [List.length]. rewrite app_length. clear - FP.
        assert (T : forall tss : list (list token), List.length tss <= List.length (terminated (fun ts : list token => ts) tss)).
        { clear. induction tss as [|a l IH]; cbn [terminated flat_map List.length]; [lia|].
          fold (terminated (fun ts : list token => ts) l). rewrite !app_length. cbn [List.length]. lia. }
        specialize (T tss). cbn [List.length]. lia.
    + eauto.
  - apply orb_false_iff in G as [G1 G2]. rewrite G2, orb_false_r in NE.
    destruct specs as [|a [|b specs]]; [discriminate|clear G1 NE|discriminate].
    inversion FT as [|? ts ? tss' T1 T2]; subst. inversion T2; subst.
    inversion FP as [|? m ? ms' P1 P2]; subst. inversion P2; subst.
    destruct P1 as [P (x & r & ->)].
    exists (TKw kw :: (TIdent x :: r) ++ [TOp ";"]). split; [|split].
    + eapply frl_eq; [eapply frl_app; [apply comment_frl|eapply frl_app; [apply fl_word; auto|apply T1]]|reflexivity].
    + intros rest. cbn [app pdecl]. rewrite String.eqb_refl. cbn [expect].
      specialize (P rest). cbn [app] in P. rewrite <- app_assoc. cbn [app]. rewrite P.
      cbn [bind expect String.eqb Ascii.eqb Bool.eqb]. unfold grouped. cbn [List.length Nat.eqb negb orb].
      rewrite G2. reflexivity.
    + eauto.
Qed.

(** *** Types *)
Lemma treads_not_op ts g o rest : treads ts g -> heads (TOp o) = false -> expect o (ts ++ rest) = None.
Proof.
  intros [[x T _|q n T _|h r T H] _] N; rewrite T; try reflexivity.
  destruct h; try reflexivity. cbn [app expect]. destruct (String.eqb_spec o s); auto. subst. congruence.
Qed.
Lemma typespec_item (w : World) fuel T m : typespec_meaning w fuel T = Some m ->
  exists ts, item (TypeSpec_writeTo env fuel w) ptypespec T m ts.
Proof.
  unfold typespec_meaning_with. destruct (ident (TSName T)) eqn:N; [|discriminate].
  destruct (spec_meaning w fuel T) as [g|] eqn:S; [|discriminate]. intros [= <-].
  destruct (writeUnderlying_text env w fuel T g S) as (ts & TX & R).
  exists (TIdent (TSName T) :: (if TSIsAlias T then [TOp "="] else []) ++ ts). split.
  - intros c. unfold TypeSpec_writeTo.
    eapply frl_eq; [eapply frl_app with (e1 := false) (x := [])|].
    + destruct c; [apply comment_frl|apply frl_nil].
    + rewrite <- bcat_assoc. eapply frl_app.
      * eapply rendersc_frl. apply (rc_ident_sp _ N).
      * eapply frl_app with (e1 := if TSIsAlias T then false else true)
          (x := if TSIsAlias T then [TOp "="] else []); [|apply TX].
        destruct (TSIsAlias T); [apply fl_equals|apply frl_nil].
    + cbn [app]. rewrite <- app_assoc. reflexivity.
  - intros rest. cbn [app ptypespec].
    assert (E : match expect "=" (((if TSIsAlias T then [TOp "="] else []) ++ ts) ++ TOp ";" :: rest)
                with Some r1 => (true, r1) | None => (false, ((if TSIsAlias T then [TOp "="] else []) ++ ts) ++ TOp ";" :: rest) end
                = (TSIsAlias T, ts ++ TOp ";" :: rest)).
    { destruct (TSIsAlias T); cbn [app]; [reflexivity|]. rewrite (treads_not_op ts g) by auto. auto. }
    rewrite E. rewrite (tr_reads _ _ R); [reflexivity| |reflexivity].
    unfold fuel_for. rewrite app_length. lia.
  - eauto.
Qed.

(** *** Constants and variables *)
Fixpoint names_toks (l : list string) : list token :=
  match l with
  | [] => []
  | [n] => [TIdent n]
  | n :: r => TIdent n :: TOp "," :: names_toks r
  end.
Lemma pnames_list l : forall fuel rest, l <> [] -> List.length l <= fuel -> expect "," rest = None ->
  pnames fuel (names_toks l ++ rest) = Some (l, rest).
Proof.
  induction l as [|n l IH]; intros fuel rest NE L E; [congruence|].
  destruct fuel as [|f]; [cbn in L; lia|]. destruct l as [|m l].
  - cbn [names_toks app pnames]. rewrite E. auto.
  - change (names_toks (n :: m :: l)) with (TIdent n :: TOp "," :: names_toks (m :: l)).
    cbn [app pnames expect String.eqb Ascii.eqb Bool.eqb].
    rewrite IH; [reflexivity|discriminate|cbn in L |- *; lia|auto].
Qed.
Lemma names_renders l : forallb ident l = true -> l <> [] -> renders (W (join ", " l)) (names_toks l).
Proof.
  induction l as [|n l IH]; intros H NE; [congruence|]. cbn [forallb] in H. apply andb_true_iff in H as [H1 H2].
  destruct l as [|m l].
  - cbn. apply ro_ident; auto.
  - change (join ", " (n :: m :: l)) with (n ++ ", " ++ join ", " (m :: l))%string.
    change (names_toks (n :: m :: l)) with ([TIdent n] ++ ([TOp ","] ++ names_toks (m :: l))).
    destruct (ro_ident n H1) as (s & [= <-] & A).
    destruct (IH H2 ltac:(discriminate)) as (t & [= <-] & B).
    destruct rc_comma as (u & [= <-] & C).
    eexists. split; [reflexivity|]. apply lexo_lexo_app; [exact A| |discriminate|reflexivity].
    apply lexc_lexo_app; auto.
Qed.
Lemma names_last l : l <> [] -> lastok (names_toks l).
Proof.
  induction l as [|n l IH]; [congruence|]. intros _. destruct l as [|m l].
  - apply lastok_one. reflexivity.
  - change (names_toks (n :: m :: l)) with ([TIdent n; TOp ","] ++ names_toks (m :: l)).
    apply lastok_app. apply IH. discriminate.
Qed.
Lemma names_head l : l <> [] -> exists x r, names_toks l = TIdent x :: r.
Proof. destruct l as [|n [|m l]]; [congruence| |]; intros _; eexists; eexists; reflexivity. Qed.
Lemma names_length l : List.length l <= List.length (names_toks l).
Proof.
  induction l as [|n [|m l] IH]; try (cbn; lia).
  change (names_toks (n :: m :: l)) with (TIdent n :: TOp "," :: names_toks (m :: l)). cbn [List.length] in *.
  lia.
Qed.

(** the type of a constant or variable: text starting with a space *)
Lemma value_type_lex (w : World) t g : value_type w t = Some g ->
  match g with
  | None => TypeNameOrSpec_text env w t = ""
  | Some g => exists ts, renders (W (TypeNameOrSpec_text env w t)) ts /\ lastok ts /\ treads ts g /\
                         opens (W (TypeNameOrSpec_text env w t))
  end.
Proof.
  assert (SP : forall s ts g, lexo s ts -> lastok ts -> treads ts g ->
     exists ts, renders (W (" " ++ s)) ts /\ lastok ts /\ treads ts g /\ opens (W (" " ++ s))).
  { intros s ts g' L LK R. exists ts. split; [|split; [auto|split; auto]].
    - destruct rc_space as (x & [= <-] & A).
      exists (" " ++ s)%string. split; auto. rewrite <- (app_nil_l ts). apply lexc_lexo_app; auto.
    - apply opens_W; [discriminate|reflexivity]. }
  unfold value_type_with, TypeNameOrSpec_text. destruct t as [|t|id].
  - intros [= <-]. auto.
  - destruct (wf t && text_ok t) eqn:B; [|discriminate]. intros [= <-]. apply andb_true_iff in B as [B1 B2].
    rewrite string_is_buffer. destruct (type_renders isPrint t B1 B2) as [(s & E & L) _]. rewrite E.
    eapply SP; eauto using toks_last, type_treads.
  - unfold obind, rd. destruct (nth_error (types w) id) as [T|]; [|discriminate]. cbn [rbind].
    unfold TypeSpec_String. destruct (String.eqb (TSName T) "") eqn:N.
    + destruct (wf _ && text_ok _) eqn:B; [|discriminate]. intros [= <-]. apply andb_true_iff in B as [B1 B2].
      rewrite string_is_buffer. destruct (type_renders isPrint _ B1 B2) as [(s & E & L) _]. rewrite E.
      eapply SP; eauto using toks_last, type_treads.
    + destruct (TSParent T) as [f|] eqn:P.
      * destruct (named_spec w T) as [g'|] eqn:NS; [|discriminate]. intros [= <-].
        destruct (named_spec_text w T g' NS N) as (s & E & OK & ->). rewrite E. cbn [rbind caught].
        rewrite Symbol_String_text. destruct (ro_symbol s OK) as (x & [= <-] & L).
        eapply SP; eauto using sym_toks_last, sym_treads.
      * destruct (ident (TSName T)) eqn:I; [|discriminate]. intros [= <-].
        cbn [caught]. eapply SP; [apply lexo_ident; auto|apply lastok_one; reflexivity|apply ident_treads].
Qed.
Lemma value_type_text (w : World) t g : value_type w t = Some g ->
  match g with
  | None => TypeNameOrSpec_text env w t = ""
  | Some g => exists ts, (forall e, fro (W (TypeNameOrSpec_text env w t)) e ts true) /\ treads ts g /\
                         opens (W (TypeNameOrSpec_text env w t))
  end.
Proof.
  intros H. pose proof (value_type_lex w t g H) as X. destruct g as [g|]; auto.
  destruct X as (ts & R & L & T & O). exists ts. split; [|auto]. intros e. apply last_fro; auto.
Qed.

Variable w : World.
Definition block_text (cb : nat) : option string := res_opt (CodeBlock_writeTo env w cb).

Lemma block_text_ok cb s : block_text cb = Some s -> CodeBlock_writeTo env w cb = Ok s.
Proof. unfold block_text. destruct (CodeBlock_writeTo env w cb); [intros [= ->]; auto|discriminate]. Qed.

Lemma init_text cb i : init_meaning block_text cb = Some i ->
  frl (W " = " +++ CodeBlock_writeTo env w cb +++ W newline) true (TOp "=" :: i ++ [TOp ";"]) false
  /\ (forall rest, until_semi 0 (i ++ TOp ";" :: rest) = Some (i, TOp ";" :: rest)).
Proof.
  unfold init_meaning, obind. destruct (block_text cb) as [s|] eqn:C; [|discriminate]. apply block_text_ok in C.
  destruct (tokens (s ++ newline)) as [ts|] eqn:T; [|discriminate].
  destruct (until_semi 0 ts) as [[i' r]|] eqn:U; [|discriminate].
  destruct r as [|x [|y r]]; try discriminate. intros [= ->].
  destruct (until_semi_all _ _ _ _ U) as [-> A]. split; auto. rewrite C.
  change (TOp "=" :: i ++ [TOp ";"]) with ([TOp "="] ++ (i ++ [TOp ";"])).
  eapply frl_app with (e1 := false).
  - eexists; split; [reflexivity|]. intros rest. cbn. destruct (flexer (FCode LStart false) rest); reflexivity.
  - exists (s ++ newline)%string. split; auto. apply lines_fl; auto.
    unfold whole_lines. change newline with (String (ch 10) ""). rewrite last_byte_append. reflexivity.
Qed.

Lemma value_item const v m : gvalue_meaning w block_text const v = Some m ->
  exists ts, item (ValueSpec_writeTo env w) (pvalue const) v m ts.
Proof.
  unfold gvalue_meaning_with, value_meaning_with. intros H.
  destruct (negb (match VNames v with [] => true | _ => false end) && forallb ident (VNames v)) eqn:N; [|discriminate].
  apply andb_true_iff in N as [NE NI].
  assert (NN : VNames v <> []) by (destruct (VNames v); [discriminate|discriminate]). clear NE.
  destruct (value_type w (VSType v)) as [t|] eqn:VT; [|discriminate]. cbn [option_map obind] in H.
  assert (CM : forall c : bool, frl (W (if c then writeComment (VComment v) else "")) false [] false).
  { intros []; [apply comment_frl|apply frl_nil]. }
  assert (NF : fro (W (join ", " (VNames v))) false (names_toks (VNames v)) true).
  { apply last_fro; [apply names_renders; auto|apply names_last; auto]. }
  (* the type and what follows it *)
  set (tyt := TypeNameOrSpec_text env w (VSType v)) in *.
  assert (TY : exists ts, (forall b y, frl b true y false -> opens b -> frl (W tyt +++ b) true (ts ++ y) false /\ opens (W tyt +++ b))
     /\ forall rest, (exists o r, rest = TOp o :: r /\ (o = "=" \/ o = ";")) ->
        match ts ++ rest with
        | TOp o :: _ =>
            if String.eqb o "=" || String.eqb o ";" then Some (VNames v, None, ts ++ rest)
            else bind (ptype (fuel_for (ts ++ rest)) (ts ++ rest)) (fun '(t, r1) => Some (VNames v, Some t, r1))
        | _ => bind (ptype (fuel_for (ts ++ rest)) (ts ++ rest)) (fun '(t, r1) => Some (VNames v, Some t, r1))
        end = Some (VNames v, t, rest) /\ expect "," (ts ++ rest) = None).
  { pose proof (value_type_text w (VSType v) t VT) as X. fold tyt in X. destruct t as [g|].
    - destruct X as (ts & FR & R & OP). exists ts. split.
      + intros b y B O. split; [eapply frol_app; eauto|].
        apply opens_app; auto. destruct O as (? & -> & _); auto.
      + intros rest (o & r & -> & OO). split; [|eapply treads_not_op; eauto].
        assert (PT : bind (ptype (fuel_for (ts ++ TOp o :: r)) (ts ++ TOp o :: r)) (fun '(t, r1) => Some (VNames v, Some t, r1))
           = Some (VNames v, Some g, TOp o :: r)).
        { rewrite (tr_reads _ _ R); [reflexivity|unfold fuel_for; rewrite app_length; lia|].
          destruct OO as [-> | ->]; reflexivity. }
        rewrite PT. destruct (tr_shape _ _ R) as [x T _|q n T _|h r' T H']; rewrite T; cbn [app]; auto.
        destruct h; auto. cbn [heads existsb] in H'.
        destruct (String.eqb_spec s "="); [subst; discriminate|].
        destruct (String.eqb_spec s ";"); [subst; discriminate|]. auto.
    - exists []. rewrite X. split.
      + intros b y B O. destruct B as (s & -> & B). cbn. split; [exists s; auto|exact O].
      + intros rest (o & r & -> & OO). cbn [app]. destruct OO as [-> | ->]; auto. }
  destruct TY as (ts & TYT & TYP).
  (* the initial value *)
  match type of H with obind ?o _ = _ => destruct o as [i|] eqn:IM; [|discriminate] end.
  cbn [obind] in H. destruct (value_form const t i) eqn:VF; [|discriminate]. injection H as <-.
  set (its := match i with Some i => TOp "=" :: i | None => [] end).
  assert (IT : frl (match VInit v with None => W "" | Some cb => W " = " +++ CodeBlock_writeTo env w cb end +++ W newline)
                 true (its ++ [TOp ";"]) false /\
               opens (match VInit v with None => W "" | Some cb => W " = " +++ CodeBlock_writeTo env w cb end +++ W newline)).
  { unfold its. destruct (VInit v) as [cb|].
    - destruct (init_meaning block_text cb) as [i'|] eqn:II; [|discriminate]. injection IM as <-.
      destruct (init_text cb i' II) as [F _]. rewrite bcat_assoc. split; [exact F|].
      destruct F as (s & E & _). destruct (CodeBlock_writeTo env w cb); [|discriminate].
      apply opens_app; [apply opens_W; [discriminate|reflexivity]|reflexivity].
    - injection IM as <-. split; [apply (frl_newline true)|apply opens_newline]. }
  destruct IT as [IF IO].
  assert (IP : forall rest, match expect "=" (its ++ TOp ";" :: rest) with
       | Some r1 => bind (until_semi 0 r1) (fun '(i, r2) => Some (Some i, r2))
       | None => Some (None, its ++ TOp ";" :: rest)
       end = Some (i, TOp ";" :: rest)).
  { intros rest. unfold its. destruct (VInit v) as [cb|].
    - destruct (init_meaning block_text cb) as [i'|] eqn:II; [|discriminate]. injection IM as <-.
      destruct (init_text cb i' II) as [_ U]. cbn [app expect String.eqb Ascii.eqb Bool.eqb]. rewrite U. reflexivity.
    - injection IM as <-. reflexivity. }
  exists (names_toks (VNames v) ++ ts ++ its). split.
  - intros c. unfold ValueSpec_writeTo. rewrite <- (app_nil_l (_ ++ [TOp ";"])).
    eapply frl_app; [apply CM|]. destruct (TYT _ _ IF IO) as [A B].
    rewrite <- !app_assoc. eapply frol_app; [exact NF|exact A|exact B].
  - intros rest. unfold pvalue, pvaluespec.
    assert (SH : exists o r, its ++ TOp ";" :: rest = TOp o :: r /\ (o = "=" \/ o = ";")).
    { unfold its. destruct i; eexists; eexists; split; try reflexivity; auto. }
    destruct (TYP _ SH) as [T1 T2]. rewrite <- !app_assoc.
    rewrite pnames_list; auto.
    + cbn [bind]. rewrite T1. cbn [bind]. rewrite IP. cbn [bind]. rewrite VF. reflexivity.
    + rewrite app_length. pose proof (names_length (VNames v)). lia.
  - destruct (names_head (VNames v) NN) as (x & r & ->). eexists. eexists. reflexivity.
Qed.

(** *** Functions *)
Lemma receiver_rc r : match r with
    | Some r => (String.eqb (RcvName r) "" || ident (RcvName r)) && ident (RcvType r) = true
    | None => True end ->
  rendersc (W (receiver_text r)) match r with
    | Some r => TOp "(" :: (if String.eqb (RcvName r) "" then [] else [TIdent (RcvName r)]) ++
                (if RcvIsPointer r then [TOp "*"] else []) ++ [TIdent (RcvType r); TOp ")"]
    | None => []
    end.
Proof.
  destruct r as [[n t p]|]; [|intros _; apply rc_nil]. cbn [RcvName RcvType RcvIsPointer]. intros H.
  apply andb_true_iff in H as [H1 H2]. unfold receiver_text. cbn [RcvName RcvType RcvIsPointer].
  assert (A : rendersc (W (if negb (String.eqb n "") then n ++ " " else "")) (if String.eqb n "" then [] else [TIdent n])).
  { destruct (String.eqb n ""); [apply rc_nil|apply rc_ident_sp; auto]. }
  assert (B : rendersc (W (if p then "*" else "")) (if p then [TOp "*"] else [])).
  { destruct p; [apply rc_star|apply rc_nil]. }
  assert (C : rendersc (W t +++ W ") ") ([TIdent t] ++ [TOp ")"])).
  { apply roc_app; [apply ro_ident; auto|lexpiece|apply opens_W; [discriminate|reflexivity]]. }
  pose proof (rc_app _ _ _ _ rc_lparen (rc_app _ _ _ _ A (rc_app _ _ _ _ B C))) as X.
  exact X.
Qed.
Lemma func_text f rc n s b : func_meaning f = Some (rc, n, s) -> body_meaning block_text (FNBody f) = Some b ->
  exists ts, frl (FuncSpec_writeTo env w f) false ts false
    /\ (forall rest, pfuncdecl (ts ++ rest) = Some (DFunc rc n s b, rest))
    /\ exists r, ts = TKw "func" :: r.
Proof.
  unfold func_meaning_with, body_meaning. intros H B.
  destruct (ident (FNName f) && wf_sig (FNSig f) && sig_text_ok (FNSig f)) eqn:N; [|discriminate].
  apply andb_true_iff in N as [N TX]. apply andb_true_iff in N as [NI WF].
  unfold obind in B. destruct (block_text (FNBody f)) as [body|] eqn:C; [|discriminate]. apply block_text_ok in C.
  destruct (whole_lines body) eqn:WL; [|discriminate].
  destruct (tokens body) as [bts|] eqn:BT; [|discriminate].
  destruct (until_brace 0 (bts ++ [TOp "}"])) as [[b' r']|] eqn:UB; [|discriminate].
  destruct r'; [|discriminate]. injection B as <-. destruct (until_brace_all _ _ _ UB) as [-> UA].
  set (rts := match FNReceiver f with
    | Some r => TOp "(" :: (if String.eqb (RcvName r) "" then [] else [TIdent (RcvName r)]) ++
                (if RcvIsPointer r then [TOp "*"] else []) ++ [TIdent (RcvType r); TOp ")"]
    | None => []
    end).
  assert (RT : rendersc (W (receiver_text (FNReceiver f))) rts).
  { apply receiver_rc. destruct (FNReceiver f) as [r|]; auto.
    destruct ((String.eqb (RcvName r) "" || ident (RcvName r)) && ident (RcvType r)); [auto|discriminate]. }
  assert (SE : n = FNName f /\ s = denote_sig (FNSig f)).
  { destruct (FNReceiver f) as [r|]; [destruct (_ && _); [|discriminate]|]; injection H as _ <- <-; auto. }
  destruct SE as [-> ->].
  exists (TKw "func" :: rts ++ (TIdent (FNName f) :: sig_toks toks (FNSig f)) ++ [TOp "{"] ++ bts ++ [TOp "}"; TOp ";"]).
  split; [|split; [|eauto]].
  - unfold FuncSpec_writeTo. rewrite C.
    eapply frl_eq; [eapply frl_app; [apply comment_frl|]|].
    + eapply frl_app; [apply (fl_word "func"); reflexivity|].
      eapply frl_app; [apply rendersc_frl; exact RT|].
      rewrite <- bcat_assoc. eapply frol_app; [apply named_sig_fro; auto| |].
      * eapply frl_app with (e1 := false) (x := [TOp "{"]).
        -- eexists; split; [reflexivity|]. intros rest. cbn. destruct (flexer (FCode LStart false) rest); reflexivity.
        -- eapply frl_app; [exists body; split; [reflexivity|apply lines_fl; eauto]|apply fl_rbrace].
      * apply opens_app; [apply opens_W; [discriminate|reflexivity]|reflexivity].
    + reflexivity.
  - intros rest. unfold pfuncdecl, pfunc. cbn [app String.eqb Ascii.eqb Bool.eqb].
    rewrite <- !app_assoc. cbn [app].
    set (tail := TIdent (FNName f) :: _).
    assert (PR : match preceiver (rts ++ tail) with
             | Some (rc, r1) => Some (Some rc, r1)
             | None => Some (None, rts ++ tail)
             end = Some (rc, tail)).
    { unfold rts. destruct (FNReceiver f) as [[rn rt rp]|]; cbn [RcvName RcvType RcvIsPointer] in *.
      - destruct (_ && _); [|discriminate]. injection H as <-. unfold opt_name.
        destruct (String.eqb rn ""), rp; reflexivity.
      - injection H as <-. reflexivity. }
    rewrite PR. cbn [bind]. unfold tail.
    rewrite <- !app_assoc. cbn [app].
    rewrite sig_psig; auto using sig_args_ok.
    + cbn [bind expect String.eqb Ascii.eqb Bool.eqb]. destruct (denote_sig (FNSig f)) as [ps rs] eqn:DS.
      cbn [bind expect String.eqb Ascii.eqb Bool.eqb]. rewrite <- app_assoc. cbn [app]. rewrite UA.
      cbn [bind expect String.eqb Ascii.eqb Bool.eqb]. reflexivity.
    + unfold fuel_for. rewrite app_length. lia.
Qed.

(** ** Elements *)
Lemma lookup_all_rd {A} (tab : World -> list A) ids l : lookup_all (tab w) ids = Some l -> rd_all tab ids w = Ok l.
Proof.
  unfold lookup_all, rd_all, rd. revert l. induction ids as [|i ids IH]; intros l H; cbn [map all_some all_ok] in *.
  - injection H as <-. auto.
  - destruct (nth_error (tab w) i); [|discriminate]. cbn in H.
    destruct (all_some (map (nth_error (tab w)) ids)) as [l'|]; [|discriminate]. injection H as <-.
    rewrite (IH _ eq_refl). reflexivity.
Qed.
Lemma all_some_length {A} (l : list (option A)) r : all_some l = Some r -> List.length r = List.length l.
Proof.
  revert r. induction l as [|[a|] l IH]; intros r H; cbn in H; [injection H as <-; auto| |discriminate].
  destruct (all_some l); [|discriminate]. injection H as <-. cbn. auto.
Qed.
Lemma element_text fuel e d : has_content w e = true -> element_meaning w block_text fuel e = Some d ->
  exists ts, frl (FileElement_writeTo env fuel w e) false ts false
    /\ (forall rest, ptop (ts ++ rest) = Some (d, rest))
    /\ exists k r, ts = TKw k :: r /\ k <> "import".
Proof.
  assert (LE : forall {A} (tab : World -> list A) ids l, lookup_all (tab w) ids = Some l ->
     List.length l = List.length ids).
  { intros A tab ids l H. unfold lookup_all in H. apply all_some_length in H. rewrite map_length in H. auto. }
  destruct e as [d'|d'|d'|fn]; cbn [has_content element_meaning_with FileElement_writeTo]; unfold obind, rd; intros HC H.
  - destruct (nth_error (constDecls w) d') as [D|]; [|discriminate].
    destruct (lookup_all (consts w) (VDSpecs D)) as [l|] eqn:L; [|discriminate].
    destruct (all_some _) as [ms|] eqn:M; [|discriminate]. injection H as <-.
    cbn [rbind]. rewrite (lookup_all_rd consts _ _ L). cbn [rbind]. rewrite <- (LE _ _ _ _ L) in HC.
    apply all_some_Forall2 in M.
    edestruct (decl_text "const" (VDComment D) VComment (ValueSpec_writeTo env w) (pvalue true) l ms)
      as (ts & T & P & r & ->); eauto.
    { eapply Forall2_impl; [|exact M]. intros. apply value_item; auto. }
    eexists. split; [exact T|]. split; [|eexists; eexists; split; [reflexivity|discriminate]].
    intros rest. specialize (P rest). cbn [app] in P |- *.
    unfold ptop. cbn [String.eqb Ascii.eqb Bool.eqb]. rewrite P. reflexivity.
  - destruct (nth_error (varDecls w) d') as [D|]; [|discriminate].
    destruct (lookup_all (vars w) (VDSpecs D)) as [l|] eqn:L; [|discriminate].
    destruct (all_some _) as [ms|] eqn:M; [|discriminate]. injection H as <-.
    cbn [rbind]. rewrite (lookup_all_rd vars _ _ L). cbn [rbind]. rewrite <- (LE _ _ _ _ L) in HC.
    apply all_some_Forall2 in M.
    edestruct (decl_text "var" (VDComment D) VComment (ValueSpec_writeTo env w) (pvalue false) l ms)
      as (ts & T & P & r & ->); eauto.
    { eapply Forall2_impl; [|exact M]. intros. apply value_item; auto. }
    eexists. split; [exact T|]. split; [|eexists; eexists; split; [reflexivity|discriminate]].
    intros rest. specialize (P rest). cbn [app] in P |- *.
    unfold ptop. cbn [String.eqb Ascii.eqb Bool.eqb]. rewrite P. reflexivity.
  - destruct (nth_error (typeDecls w) d') as [D|]; [|discriminate].
    destruct (lookup_all (types w) (TDTypes D)) as [l|] eqn:L; [|discriminate].
    destruct (all_some _) as [ms|] eqn:M; [|discriminate]. injection H as <-.
    cbn [rbind]. rewrite (lookup_all_rd types _ _ L). cbn [rbind]. rewrite <- (LE _ _ _ _ L) in HC.
    apply all_some_Forall2 in M.
    edestruct (decl_text "type" (TDComment D) TSComment (TypeSpec_writeTo env fuel w) ptypespec l ms)
      as (ts & T & P & r & ->); eauto.
    { eapply Forall2_impl; [|exact M]. intros. apply typespec_item; auto. }
    eexists. split; [exact T|]. split; [|eexists; eexists; split; [reflexivity|discriminate]].
    intros rest. specialize (P rest). cbn [app] in P |- *.
    unfold ptop, ptypedecl. cbn [String.eqb Ascii.eqb Bool.eqb]. rewrite P. reflexivity.
  - destruct (nth_error (funcs w) fn) as [f|]; [|discriminate]. cbn [rbind].
    destruct (func_meaning f) as [[[rc n] s]|] eqn:FM; [|discriminate].
    destruct (body_meaning block_text (FNBody f)) as [b|] eqn:B; [|discriminate]. injection H as <-.
    destruct (func_text f rc n s b FM B) as (ts & T & P & r & ->).
    eexists. split; [exact T|]. split; [|eexists; eexists; split; [reflexivity|discriminate]].
    intros rest. specialize (P rest). cbn [app] in P |- *.
    unfold ptop. cbn [String.eqb Ascii.eqb Bool.eqb]. exact P.
Qed.
Lemma elements_text fuel es ds : forallb (has_content w) es = true ->
  all_some (map (element_meaning w block_text fuel) es) = Some ds ->
  exists ts, frl (concat_res (map (fun e => W newline +++ FileElement_writeTo env fuel w e) es)) false ts false
    /\ (forall f, List.length ts <= f -> ptops f ts = Some ds)
    /\ match ts with [] => True | TKw k :: _ => k <> "import" | _ => False end.
Proof.
  revert ds. induction es as [|e es IH]; intros ds HC H; cbn [forallb map all_some] in *.
  - injection H as <-. exists []. split; [apply frl_nil|]. split; auto. intros [|f] _; reflexivity.
  - apply andb_true_iff in HC as [H1 H2].
    destruct (element_meaning w block_text fuel e) as [d|] eqn:E; [|discriminate]. cbn in H.
    destruct (all_some _) as [ds'|]; [|discriminate]. injection H as <-.
    destruct (element_text fuel e d H1 E) as (a & A & PA & k & r & -> & NI).
    destruct (IH ds' H2 eq_refl) as (b & B & PB & _).
    exists ((TKw k :: r) ++ b). split; [|split].
    + cbn [concat_res]. eapply frl_app; [|exact B].
      rewrite <- (app_nil_l (TKw k :: r)). eapply frl_app; [apply (frl_newline false)|exact A].
    + intros f L. destruct f as [|f]; [cbn in L; lia|].
      specialize (PA b). cbn [app] in PA |- *. cbn [ptops]. rewrite PA. cbn [bind].
      rewrite PB; [reflexivity|]. cbn [app List.length] in L. rewrite app_length in L. lia.
    + exact NI.
Qed.

(** ** The header *)
Definition import_toks (i : option string * string) : list token :=
  TKw "import" :: match fst i with Some a => [TIdent a] | None => [] end ++ [TStr (snd i); TOp ";"].
Lemma import_frl s m : import_meaning s = Some m -> frl (W (import_line env s)) false (import_toks m) false.
Proof.
  unfold import_meaning, import_line.
  assert (Q : frl (W (Quote isPrint (SpecPath s) ++ newline)) false [TStr (SpecPath s); TOp ";"] false).
  { change (W (Quote isPrint (SpecPath s) ++ newline)) with (W (Quote isPrint (SpecPath s)) +++ W newline).
    eapply (frl_app _ _ [_] _ _ [_]); [|apply (frl_newline true)].
    eexists; split; [reflexivity|]. apply (lexc_fl _ _ (lexc_quote _ _) false). }
  assert (K : frl (W "import ") false [TKw "import"] false) by (apply (fl_word "import"); reflexivity).
  destruct (String.eqb (PackageAlias s) "") eqn:A; cbn [negb].
  - intros [= <-].
    exact (frl_app _ _ _ _ _ _ _ K Q).
  - destruct (ident (PackageAlias s)) eqn:I; [|discriminate]. intros [= <-].
    assert (Q' : forall e, frl (W (Quote isPrint (SpecPath s) ++ newline)) e [TStr (SpecPath s); TOp ";"] false).
    { intros e. change (W (Quote isPrint (SpecPath s) ++ newline)) with (W (Quote isPrint (SpecPath s)) +++ W newline).
      eapply (frl_app _ _ [_] _ _ [_]); [|apply (frl_newline true)].
      eexists; split; [reflexivity|]. apply (lexc_fl _ _ (lexc_quote _ _) e). }
    pose proof (rendersc_frl _ _ (rc_ident_sp _ I) false) as R.
    pose proof (frl_app _ _ _ _ _ _ _ K (frl_app _ _ _ _ _ _ _ R (Q' _))) as X.
    destruct X as (t & E & X). exists t. split; [|exact X]. rewrite <- E. unfold W. cbn [bcat]. rewrite !append_assoc. reflexivity.
Qed.
Lemma imports_frl l ms : all_some (map import_meaning l) = Some ms ->
  frl (W (fold_right append "" (map (import_line env) l))) false (flat_map import_toks ms) false.
Proof.
  intros H. apply all_some_Forall2 in H. induction H as [|s m l ms H F IH]; [apply frl_nil|].
  cbn [map fold_right flat_map]. exact (frl_app _ _ _ _ _ _ _ (import_frl s m H) IH).
Qed.
Lemma pimports_toks ms : forall fuel rest, List.length ms <= fuel ->
  match rest with [] => True | TKw k :: _ => k <> "import" | _ => False end ->
  pimports fuel (flat_map import_toks ms ++ rest) = (ms, rest).
Proof.
  induction ms as [|[[a|] p] ms IH]; intros fuel rest L R.
  - cbn [flat_map app]. destruct fuel; [reflexivity|]. cbn [pimports].
    destruct rest as [|[k|k|k|k|k|k|k] r]; try contradiction; auto.
    apply String.eqb_neq in R. rewrite R. cbn [andb].
    destruct r as [|[?|?|?|?|?|?|?] [|[?|?|?|?|?|?|?] [|[?|?|?|?|?|?|?] ?]]]; reflexivity.
  - destruct fuel; [cbn in L; lia|]. cbn [flat_map import_toks fst snd app pimports String.eqb Ascii.eqb Bool.eqb andb].
    rewrite IH; [reflexivity|cbn in L; lia|auto].
  - destruct fuel; [cbn in L; lia|]. cbn [flat_map import_toks fst snd app pimports String.eqb Ascii.eqb Bool.eqb andb].
    rewrite IH; [reflexivity|cbn in L; lia|auto].
Qed.
Lemma package_frl F : ident (FPackageName F) = true ->
  frl (W (package_line env F)) false [TKw "package"; TIdent (FPackageName F); TOp ";"] false.
Proof.
  intros I. unfold package_line.
  assert (K : frl (W "package ") false [TKw "package"] false) by (apply (fl_word "package"); reflexivity).
  assert (N : fro (W (FPackageName F)) false [TIdent (FPackageName F)] true).
  { apply last_fro; [apply ro_ident; auto|apply lastok_one; reflexivity]. }
  destruct (String.eqb (FCanonical F) ""); cbn [negb].
  - exact (frl_app _ _ _ _ _ _ _ K (frol_app _ _ _ _ _ _ _ N (frl_newline true) opens_newline)).
  - assert (C : frl (W (" // import " ++ Quote isPrint (FCanonical F) ++ newline)) true [TOp ";"] false).
    { eexists; split; [reflexivity|]. intros rest.
      replace ((" // import " ++ Quote isPrint (FCanonical F) ++ newline) ++ rest)%string
        with (" //" ++ (" import " ++ Quote isPrint (FCanonical F)) ++ newline ++ rest)%string
        by (rewrite !append_assoc; reflexivity).
      set (q := (" import " ++ Quote isPrint (FCanonical F))%string).
      transitivity (omap (app []) (flexer (FComment true) (q ++ newline ++ rest))).
      { cbn. destruct (flexer (FComment true) _); reflexivity. }
      rewrite omap_nil. apply fcomment_line.
      assert (N1 : no_newline q = true).
      { unfold q. rewrite no_newline_app, Quote_no_newline. reflexivity. }
      unfold no_newline in N1. rewrite forallb_forall in N1. intros c X. apply negb_true_iff. auto. }
    assert (O : opens (W (" // import " ++ Quote isPrint (FCanonical F) ++ newline))) by (apply opens_W; [discriminate|reflexivity]).
    exact (frl_app _ _ _ _ _ _ _ K (frol_app _ _ _ _ _ _ _ N C O)).
Qed.

(** ** Files *)
Theorem file_text fuel F g : file_meaning w block_text fuel F = Some g ->
  exists s, GoFile_writeTo env fuel w F = Ok s /\ parse_file s = Some g.
Proof.
  unfold file_meaning_with. destruct (ident (FPackageName F)) eqn:I; [|discriminate]. cbn [andb].
  destruct (forallb (has_content w) (FElements F)) eqn:HC; [|discriminate]. unfold obind.
  destruct (all_some (map import_meaning _)) as [ms|] eqn:M; [|discriminate].
  destruct (all_some (map _ (FElements F))) as [ds|] eqn:D; [|discriminate]. intros [= <-].
  destruct (elements_text fuel _ _ HC D) as (ts & T & P & NI).
  assert (X : frl (GoFile_writeTo env fuel w F) false
    ([TKw "package"; TIdent (FPackageName F); TOp ";"] ++ flat_map import_toks ms ++ ts) false).
  { unfold GoFile_writeTo. rewrite <- (app_nil_l ([TKw _; _; _] ++ _)).
    eapply frl_app; [apply comment_frl|].
    rewrite <- (app_nil_l ([TKw _; _; _] ++ _)).
    eapply frl_app with (e1 := false); [destruct (negb _); [apply (frl_newline false)|apply frl_nil]|].
    rewrite <- (app_nil_l ([TKw _; _; _] ++ _)).
    eapply frl_app; [apply comment_frl|]. eapply frl_app; [apply package_frl; auto|].
    rewrite <- (app_nil_l (_ ++ ts)). eapply frl_app; [apply (frl_newline false)|].
    eapply frl_app; [apply imports_frl; exact M|exact T]. }
  destruct X as (s & E & X). exists s. split; auto. unfold parse_file, tokens.
  rewrite <- (append_nil_r s), X. cbn [flexer fend lex_end omap]. cbn [semi ends_after fold_left app].
  cbn [bind]. unfold pheader. cbn [ppackage app String.eqb Ascii.eqb Bool.eqb expect bind].
  rewrite app_nil_r. rewrite pimports_toks; auto.
  - cbn [bind]. rewrite P; auto.
  - rewrite app_length. assert (forall l, List.length l <= List.length (flat_map import_toks l)); [|specialize (H ms); lia].
    induction l as [|a l IH]; cbn [flat_map List.length]; [lia|]. rewrite app_length. unfold import_toks at 1.
    cbn [List.length]. lia.
Qed.
End WithEnv.

(** ** Import specs as strings *)
Definition import_text (isPrint : N -> bool) (s : ImportSpec) : string := ("import " ++ ImportSpec_String isPrint s ++ newline)%string.
Lemma import_toks_length l : List.length l <= List.length (flat_map import_toks l).
Proof.
  induction l as [|a l IH]; cbn [flat_map List.length]; [lia|]. rewrite app_length. unfold import_toks at 1.
  cbn [List.length]. lia.
Qed.
Theorem import_specs_text isPrint p l ms : ident p = true -> all_some (map import_meaning l) = Some ms ->
  parse_file ("package " ++ p ++ newline ++ fold_right append "" (map (import_text isPrint) l)) = Some (mkGFile p ms []).
Proof.
  intros HI HM. set (env := mkEnv isPrint (fun _ _ _ => "") (fun _ _ _ => "") (fun _ d => sret d) (fun _ _ _ => Ok "") : Env unit).
  assert (E : map (import_text isPrint) l = map (import_line env) l).
  { apply map_ext. intros s. unfold import_text, ImportSpec_String, import_line.
    change (World.isPrint env) with isPrint. generalize (Quote isPrint (SpecPath s)) as q. intros q.
    destruct (String.eqb (PackageAlias s) ""); cbn [negb]; rewrite ?append_assoc; reflexivity. }
  rewrite E. pose (F := mkFile (NewImportsFor "") "" "" "" p "" []).
  assert (X : frl (W ("package " ++ p ++ newline ++ fold_right append "" (map (import_line env) l))) false
    ([TKw "package"; TIdent p; TOp ";"] ++ flat_map import_toks ms) false).
  { replace (W ("package " ++ p ++ newline ++ fold_right append "" (map (import_line env) l)))
      with (W (package_line env F) +++ W (fold_right append "" (map (import_line env) l))).
    - eapply frl_app; [exact (package_frl env F HI)|]. exact (imports_frl env l ms HM).
    - cbn. rewrite !append_assoc. reflexivity. }
  destruct X as (s & ES & X). injection ES as <-. unfold parse_file, tokens.
  match goal with |- bind (flexer _ ?t) _ = _ => rewrite <- (append_nil_r t) end.
  rewrite X. cbn [flexer fend lex_end omap]. cbn [semi ends_after fold_left app].
  cbn [bind]. unfold pheader. cbn [ppackage app String.eqb Ascii.eqb Bool.eqb expect bind].
  rewrite pimports_toks; auto. rewrite app_length. pose proof (import_toks_length ms). lia.
Qed.
