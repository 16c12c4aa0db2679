(** Exactly when a method is written rightly, and that a signature never is. *)
From Verif Require Import Base BaseFacts GoPath SpecLit Types SpecTypes Imports SpecImports ImportsProofs ImportsTheorems
  TypesFacts SpecGo SpecRender Conv World WorldProofs SpecQualify QualifyProofs QualifyTheorems SourceProofs SourceTheorems TotalTheorems.

Lemma longer (t m : string) : (t ++ "." ++ m)%string <> m.
Proof. intros E. apply (f_equal String.length) in E. rewrite !length_append in E. cbn in E. lia. Qed.
(** Text that begins as fmt's dump of a struct is no signature. *)
Lemma dump_unparsed x : parse_signature ("&{" ++ x) = None.
Proof.
  unfold parse_signature. destruct (lex ("&{" ++ x)) as [ts|] eqn:E; auto.
  unfold lex in E. cbn [String.append] in E. cbn [lexer] in E.
  change (lex_step LStart "&"%char) with (Some ([] : list token, LOp "&")) in E. cbv iota in E.
  change (lex_step (LOp "&") "{"%char) with (Some ([TOp "&"; TOp "{"], LStart)) in E.
  cbv iota in E. destruct (lexer LStart x) as [r|]; [|discriminate E]. cbn [omap app] in E. injection E as <-.
  reflexivity.
Qed.

(** A declared method prints its own name alone. *)
Lemma method_text {TD} (env : Env TD) (w w1 : World TD) a t m verb : skel w1 = skel w -> refers_to w a = Some (RMethod t m) ->
  method_by_value a = false -> (forall o, a <> AGoObject o) -> verb = "s"%char \/ verb = "v"%char -> fmt_arg env w1 verb a = m.
Proof.
  intros SK RF MV NO V. assert (SV : (Ascii.eqb verb "s" || Ascii.eqb verb "v")%char = true) by (destruct V as [->| ->]; auto).
  destruct a; try discriminate; try (exfalso; eapply NO; reflexivity); cbn [refers_to] in RF.
  1,2,3: repeat match type of RF with context [nth_error ?l ?x] => destruct (nth_error l x); [cbn [obind] in RF|discriminate] end.
  1,2: destruct (single_name _ _) in RF; discriminate.
  1: destruct (named_type _ _) in RF; discriminate.
  - unfold fmt_arg. cbn [arg_string]. rewrite SV. destruct (nth_error (ielems w) id) as [e|] eqn:E; [|discriminate]. cbn [obind] in RF.
    destruct e as [|c n g [p|]]; try discriminate. destruct (nth_error (types w) p) as [T|]; [|discriminate]. cbn [obind] in RF.
    destruct (named_type w T); [|discriminate]. injection RF as _ <-.
    destruct (nth_map_eq er_elem _ _ id _ (f_equal ielems SK : map er_elem (ielems w1) = map er_elem (ielems w)) E) as (e1 & E1 & EE).
    unfold rd. rewrite E1. cbn [rbind]. destruct e1 as [|c1 n1 g1 p1]; [discriminate|]. injection EE as _ -> _. reflexivity.
  - unfold fmt_arg. cbn [arg_string]. rewrite SV. destruct (nth_error (funcs w) id) as [G|] eqn:E; [|discriminate]. cbn [obind] in RF.
    destruct (FNReceiver G) as [r|] eqn:ER; [|destruct (declared w (FNParent G) (FNName G)); discriminate].
    destruct (declared w (FNParent G) (RcvType r)); [|discriminate]. injection RF as _ <-.
    destruct (nth_map_eq er_func _ _ id _ (f_equal funcs SK : map er_func (funcs w1) = map er_func (funcs w)) E) as (G1 & E1 & EE).
    unfold rd. rewrite E1. cbn [rbind]. assert (EN : FNName G1 = FNName G) by exact (f_equal FNName EE).
    assert (ER1 : FNReceiver G1 = Some r) by (rewrite <- ER; exact (f_equal FNReceiver EE)).
    unfold FuncSpec_String. rewrite ER1, EN. destruct (FNParent G1); reflexivity.
  - destruct (TypeNameForReflectType _) in RF; discriminate.
  - destruct (TypeNameForGoType _) in RF; discriminate.
  - destruct p; discriminate.
Qed.

Section Exact.
Context {TD : Type}.
Variables (env : Env TD) (real : string -> string) (own : string) (h : list call) (fuel f : nat) (w : World TD) (F : GoFile)
  (s : string) (w1 : World TD).
Hypothesis P : prepared real own h w f F.
Hypothesis S : source env fuel f w = (Ok s, w1).
Theorem methods_exact :
  exists F1, nth_error (files w1) f = Some F1 /\
  forall cb n k a t m verb, part_of w f (IBlock cb) -> argument w cb n k = Some a -> refers_to w a = Some (RMethod t m) ->
    (forall o, a <> AGoObject o) -> verb = "s"%char \/ verb = "v"%char ->
    exists a1, argument w1 cb n k = Some a1 /\
      (written real own (ImportSpecs (FImports F1)) (RMethod t m) (fmt_arg env w1 verb a1) <->
       method_by_value a = true \/ has_package t = true /\ ~ keeps_name (FImports F1) (SymPackage t)).
Proof.
  destruct P as (EF & EI & OK & HON & US & NT & HR). destruct (source_split _ _ _ _ _ _ S) as (Q & _).
  apply (no_templates_ok env) with (R := fun r => right_name real r /\ usable_name r) in NT.
  destruct (history_after env real own h fuel f w w1 F EF EI OK HON US NT HR Q) as (H & F1 & E1 & EI1 & _ & EH & OK1 & HON1 & US1).
  assert (IF : Inv (FImports F)) by (rewrite EI; apply run_new_Inv).
  destruct (references_written_with env real own h fuel f w F s w1 EF EI OK HON US NT HR S) as (F1' & E1' & RW).
  rewrite E1 in E1'. injection E1' as <-.
  exists F1. split; auto. intros cb n k a t m verb PO A RF NO V.
  destruct (arg_after env fuel f w w1 F _ EF IF NT HR Q cb n k a PO A) as (a1 & tg & j & j' & A1 & AT & Ij & TA & X).
  exists a1. split; auto. split.
  - intros (x & WS & EX). destruct (method_by_value a) eqn:MV; auto. right.
    pose proof RF as RT. rewrite refers_target, AT in RT. destruct tg as [p|y|mr|y|y|p|]; try discriminate RT. cbn [target_reference] in RT.
    injection RT as <- <-. cbn [target_act] in TA. unfold sbind, sret in TA.
    destruct (EnsureImported (MRType mr) j) as [[s1|] i] eqn:EN; [|discriminate]. injection TA as TA <-.
    assert (SF : sym_final (imp f w1) (MRType mr) s1) by (exists j, i; auto).
    destruct (sym_final_known _ _ _ SF) as [RN _].
    assert (NE : s1 <> MRType mr).
    { intros ->. rewrite (proj2 (symbol_eqb_eq _ _) eq_refl) in TA. cbn [negb] in TA. subst a1.
      apply (longer x (MRMethod mr)). rewrite <- EX. apply (method_text env w w1 a (MRType mr)); auto.
      eapply skel_after; eauto. }
    unfold rename in RN. destruct (has_package (MRType mr)) eqn:HP; [|congruence]. split; auto.
    intros K. apply NE. unfold keeps_name in K. rewrite EI1 in K. apply PrefixForPackage_iff in K as (q & PN & E); [|rewrite EH; apply run_new_Inv].
    change (prefix_name (imp f w1) (sym_path (MRType mr)) = Some q) in PN. rewrite PN in RN.
    change (with_dot (PkgName (SymPackage (MRType mr))) = with_dot q) in E. apply with_dot_inj in E.
    rewrite RN, <- E. destruct (MRType mr) as [[? ?] ?]; auto.
  - intros C. destruct (RW cb n k a (RMethod t m) verb PO A RF V) as (a2 & A2 & WR); [discriminate| |congruence].
    intros ? ? [= <- <-]. exact C.
Qed.
Theorem signatures_never :
  exists F1, nth_error (files w1) f = Some F1 /\
  forall cb n k a sg verb, part_of w f (IBlock cb) -> argument w cb n k = Some a -> refers_to w a = Some (RSignature sg) ->
    verb = "s"%char \/ verb = "v"%char ->
    exists a1, argument w1 cb n k = Some a1 /\ parse_signature (fmt_arg env w1 verb a1) = None.
Proof.
  destruct P as (EF & EI & OK & HON & US & NT & HR). destruct (source_split _ _ _ _ _ _ S) as (Q & _).
  apply (no_templates_ok env) with (R := fun r => right_name real r /\ usable_name r) in NT.
  destruct (history_after env real own h fuel f w w1 F EF EI OK HON US NT HR Q) as (H & F1 & E1 & EI1 & _ & EH & OK1 & HON1 & US1).
  assert (IF : Inv (FImports F)) by (rewrite EI; apply run_new_Inv).
  exists F1. split; auto. intros cb n k a sg verb PO A RF V.
  destruct (arg_after env fuel f w w1 F _ EF IF NT HR Q cb n k a PO A) as (a1 & tg & j & j' & A1 & AT & Ij & TA & X).
  exists a1. split; auto. rewrite refers_target, AT in RF. destruct tg as [p|y|mr|y|y|p|]; try discriminate RF.
  cbn [target_act] in TA. unfold sbind, sret in TA. destruct (EnsureAllTypesImported y j) as [[[s1 c]|] i]; [|discriminate].
  injection TA as <- <-. unfold fmt_arg. cbn [arg_string]. destruct V as [->| ->]; apply dump_unparsed.
Qed.
End Exact.
