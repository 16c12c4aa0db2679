(** Proofs: files with templates are written as before after WriteGoFiles, whatever came of it. *)
From Verif Require Import Base BaseFacts GoPath Types SpecTypes Imports SpecImports ImportsTheorems Conv World SpecProgram SpecWorld SpecGo SpecFile SpecDecl SpecRender
  ProgramCalls ProgramProofs Template SpecTemplate TemplateProofs TemplateTheorems
  SpecFormat SpecCode SpecAppend SpecOrder SpecQualify QualifyProofs QualifyTheorems SourceProofs SourceTheorems SpecShare SharedProofs Write SpecLocal LocalProofs OwnProofs AloneProofs SpecTried TriedProofs
  SpecFileTemplate FileTemplates SpecLocalData SpecRetry LocalTemplates AgainProofs AgainTheorems RetryProofs.

Lemma free_simple unsafe parent_of nm v : without_specs v -> plain_pointers v -> simple unsafe parent_of nm v.
Proof.
  induction v as [t|t d IH|t fs IH|e|e x IH|t l IH|t l IH|t es IH|p|s|m|s|s r|e|im|n|r|g|o|p|t n] using val_ind';
    cbn [without_specs plain_pointers simple]; auto.
  - induction IH as [|[b x] fs H _ IHL]; cbn [fold_right fst snd]; auto. intros [W1 W2] [P1 P2]. split; auto.
  - intros W [N P]. split; auto.
  - induction IH as [|x l H _ IHL]; cbn [fold_right]; auto. intros [W1 W2] [P1 P2]. split; auto.
  - induction IH as [|x l H _ IHL]; cbn [fold_right]; auto. intros [W1 W2] [P1 P2]. split; auto.
  - induction IH as [|[k x] es [HK HX] _ IHL]; cbn [fold_right fst snd]; auto. intros [[W1 W2] W3] (P1 & P2 & P3). split; auto.
  - intros [].
Qed.
Section Templates.
Variables (implements : gty -> string -> bool) (unsafe : bool) (isPrint : N -> bool) (verb : World (option val) -> ascii -> Arg -> string)
  (other : World (option val) -> string -> list Arg -> string) (texec : World (option val) -> nat -> option val -> res string).
Notation env := (template_env implements unsafe isPrint verb other texec).
Hypothesis SD : shows_data texec.
Lemma free_templates w f : free_data implements w f -> plain_templates env w f.
Proof.
  intros FD. exists data_without_specs. split; [apply closed_without_specs; auto|]. intros t tm d T E v ->. apply (FD v). exists t, tm. auto.
Qed.
Lemma free_again w f own h fuel F : free_data implements w f -> nth_error (files w) f = Some F -> FImports F = run h (NewImportsFor own) ->
  forall r w1, source env fuel f w = (r, w1) -> source env fuel f w1 = (r, w1).
Proof.
  intros FD EF EI r w1. assert (SI : forall nm d, template_data w f d -> simple unsafe (world_parent w) nm (data d)).
  { intros nm d T. destruct (FD d T) as (_ & W & P). apply free_simple; auto. }
  apply (data_again implements unsafe isPrint verb other texec f w) with (own := own) (h := h) (F := F); auto.
  intros t tm d T E. assert (TDd : template_data w f d) by (exists t, tm; auto). split; [apply (FD d TDd)|]. right. auto.
Qed.
Theorem data_calls_again fuel l w w' f F own h :
  nth_error (files w) f = Some F -> FImports F = run h (NewImportsFor own) -> free_data implements w f ->
  plain_code env w f -> (forall g, In g l -> g <> f -> apart_from w f g) -> write_calls env fuel l w w' ->
  exists r w2 w3, source env fuel f w = (r, w2) /\ source env fuel f w' = (r, w3) /\ nth_error (files w3) f = nth_error (files w2) f.
Proof.
  intros EF EI FD PC AP. eapply calls_settled; eauto using free_templates, template_by_calls. eapply free_again; eauto.
Qed.
Context {X H E X' H' E' : Type}.
Variables (format_Source : string -> string + E) (write : H -> string -> X -> done E * X) (close : H -> X -> done E * X) (outFn : string -> X -> opened H E * X).
Variables (format_Source' : string -> string + E') (write' : H' -> string -> X' -> done E' * X') (close' : H' -> X' -> done E' * X') (outFn' : string -> X' -> opened H' E' * X').
Theorem data_any_again fuel l st o st' f F own h :
  nth_error (files (world st)) f = Some F -> FImports F = run h (NewImportsFor own) -> free_data implements (world st) f ->
  plain_code env (world st) f -> (forall g, In g l -> g <> f -> apart_from (world st) f g) ->
  WriteGoFiles env format_Source write close outFn fuel l st = (o, st') ->
  exists r w2 w3, source env fuel f (world st) = (r, w2) /\ source env fuel f (world st') = (r, w3) /\ nth_error (files w3) f = nth_error (files w2) f.
Proof.
  intros EF EI FD PC AP. eapply settled_again; eauto using free_templates, template_by_calls. eapply free_again; eauto.
Qed.
Theorem data_both fuel l st o st' f F own h l1 l2 st2 st3 :
  nth_error (files (world st)) f = Some F -> FImports F = run h (NewImportsFor own) -> free_data implements (world st) f ->
  plain_code env (world st) f -> (forall g, In g (l ++ l1) -> g <> f -> apart_from (world st) f g) ->
  WriteGoFiles env format_Source write close outFn fuel l st = (o, st') ->
  world st2 = world st' -> WriteGoFiles env format_Source' write' close' outFn' fuel (l1 ++ f :: l2) st2 = (Ret None, st3) ->
  exists s w2 hd formatted, source env fuel f (world st) = (Ok s, w2) /\ format_Source' s = inl formatted /\ In (EvWrite hd formatted Done) (trace st3).
Proof.
  intros EF EI FD PC AP. eapply settled_both; eauto using free_templates, template_by_calls. eapply free_again; eauto.
Qed.
End Templates.
(** Two calls, for the example. *)
Lemma two_calls {TD} (env : Env TD) fuel X H E (format_Source : string -> string + E) (write : H -> string -> X -> done E * X) (close : H -> X -> done E * X)
    outFn outFn' l l' w x o st1 x' o' st2 :
  WriteGoFiles env format_Source write close outFn fuel l (mkState w x []) = (o, st1) ->
  WriteGoFiles env format_Source write close outFn' fuel l' (mkState (world st1) x' []) = (o', st2) ->
  write_calls env fuel (l ++ l' ++ []) w (world st2).
Proof.
  intros A B. exact (wc_call env fuel X H E _ _ _ _ _ _ _ _ _ _ A (wc_call env fuel X H E _ _ _ _ _ _ _ _ _ _ B (wc_none env fuel _))).
Qed.
