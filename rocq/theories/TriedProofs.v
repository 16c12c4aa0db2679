(** Proofs: writing several files, whatever comes of it. *)
From Verif Require Import Base BaseFacts GoPath Types SpecTypes Imports SpecImports ImportsTheorems Conv World SpecProgram SpecWorld SpecGo SpecFile SpecDecl SpecRender
  SpecFormat SpecCode SpecAppend SpecOrder SpecQualify QualifyProofs QualifyTheorems SourceProofs SourceTheorems SpecShare SharedProofs Write SpecLocal LocalProofs OwnProofs AloneProofs SpecTried.

Section Tried.
Context {TD : Type}.
Variables (env : Env TD) (fuel : nat).
Hypothesis KP : imports_by_calls env.
Notation World := (World TD).
Lemma template_skel (v w : World) g t : skel v = skel w -> template_of v g t -> template_of w g t.
Proof.
  intros SK (cb & b & P & B & IN). exists cb, b. split; [apply (part_skel v w g); auto|]. rewrite <- (f_equal blocks SK : blocks v = blocks w). auto.
Qed.
Lemma same_entry_trans (w w1 w2 : World) x : same_entry w w1 x -> same_entry w1 w2 x -> same_entry w w2 x.
Proof. destruct x; cbn; congruence. Qed.
Lemma changes_none (w : World) : changes_in w [] w.
Proof.
  unfold changes_in. repeat match goal with |- _ /\ _ => split end; auto; [intros g F E; exists F; auto 10|intros x _; destruct x; reflexivity].
Qed.
Theorem tried_changes l : forall w w1, tried_in_order env fuel l w w1 -> changes_in w l w1.
Proof.
  induction l as [|g l IH]; intros w w2 TR; inversion TR as [|? ? r ? w1 ? S TR']; subst; [apply changes_none|].
  pose proof (f_skel _ _ _ (own_source env g w KP fuel r w1 S)) as SK. symmetry in SK.
  destruct (source_changes env fuel g w r w1 KP S) as (A1 & A2 & A3 & A4 & A5 & A6 & A7 & A8 & A9 & A10 & A11 & A12).
  destruct (IH _ _ TR') as (B1 & B2 & B3 & B4 & B5 & B6 & B7 & B8 & B9 & B10 & B11 & B12).
  split; [intros h N; rewrite B1, A1; auto; [intros ->; apply N; left; auto|intros I; apply N; right; auto]|].
  split.
  { intros h F EF.
    assert (X : exists F1, nth_error (files w1) h = Some F1 /\ FFileComment F1 = FFileComment F /\
     FPackageComment F1 = FPackageComment F /\ FCanonical F1 = FCanonical F /\ FPackageName F1 = FPackageName F /\ FName F1 = FName F /\
     FElements F1 = FElements F /\ pkgPath (FImports F1) = pkgPath (FImports F)).
    { destruct (Nat.eq_dec h g) as [->|N]; [apply A2; auto|]. exists F. rewrite A1 by auto. auto 10. }
    destruct X as (F1 & E1 & X). destruct (B2 _ _ E1) as (F2 & E2 & Y). exists F2. split; auto.
    destruct X as (X1 & X2 & X3 & X4 & X5 & X6 & X7), Y as (Y1 & Y2 & Y3 & Y4 & Y5 & Y6 & Y7). repeat split; congruence. }
  do 5 (split; [congruence|]).
  split.
  { intros t N. rewrite B8, A8; auto; [apply N; left; auto|].
    intros h I T. apply (N h (or_intror I)). apply (template_skel w1 w); auto. }
  split.
  { intros x N. apply (same_entry_trans w w1).
    - apply A9. apply N. left. auto.
    - apply B9. intros h I P. apply (N h (or_intror I)). apply (part_skel w1 w h); auto. }
  split.
  { intros a N. rewrite B10, A10; auto; [apply N; left; auto|].
    intros h I U. apply (N h (or_intror I)). apply (uses_skel w1 w h a); auto. }
  split; [intros a; rewrite B11; auto|].
  intros x N. rewrite B12; auto. rewrite A12; auto.
Qed.

Context {X H E : Type}.
Variables (format_Source : string -> string + E) (write : H -> string -> X -> done E * X) (close : H -> X -> done E * X).
Variable outFn : string -> X -> opened H E * X.
Lemma file_world h f st o st1 : WriteGoFile env format_Source write fuel h f st = (o, st1) ->
  (exists t, trace st1 = trace st ++ t /\ number_opened t = 0) /\ exists r, source env fuel f (world st) = (r, world st1).
Proof.
  unfold WriteGoFile. destruct (source env fuel f (world st)) as [[s|m] w1].
  - destruct (format_Source s) as [fmtd|e].
    + destruct (write h fmtd (outside st)) as [r x1]. intros [= <- <-]. cbn. split; [eexists; split; [reflexivity|reflexivity]|eauto].
    + intros [= <- <-]. cbn. split; [exists []; rewrite app_nil_r; auto|eauto].
  - intros [= <- <-]. cbn. split; [exists []; rewrite app_nil_r; auto|eauto].
Qed.
Lemma number_app (a b : list (event H E)) : number_opened (a ++ b) = number_opened a + number_opened b.
Proof. unfold number_opened. rewrite filter_app, app_length. auto. Qed.
Theorem write_tried l : forall st o st', WriteGoFiles env format_Source write close outFn fuel l st = (o, st') ->
  exists t, trace st' = trace st ++ t /\ tried_in_order env fuel (firstn (number_opened t) l) (world st) (world st') /\
    number_opened t <= List.length l /\ (o = Ret None -> number_opened t = List.length l).
Proof.
  induction l as [|f l IH]; intros st o st' R; cbn [WriteGoFiles] in R.
  { injection R as <- <-. exists []. rewrite app_nil_r. repeat split; auto. constructor. }
  destruct (nth_error (files (world st)) f) as [F|].
  2:{ injection R as <- <-. exists []. rewrite app_nil_r. cbn. split; auto. split; [constructor|]. split; [apply Nat.le_0_l|discriminate]. }
  destruct (outFn (file_path F) (outside st)) as [r x1].
  assert (NO : forall e : event H E, opens e = false -> number_opened [e] = 0) by (intros e N; unfold number_opened; cbn; rewrite N; auto).
  destruct r as [[h|]|e|m].
  - destruct (with_close close h (WriteGoFile env format_Source write fuel h f) (mkState (world st) x1 (trace st ++ [EvOpen (file_path F) (Opened (Some h))]))) as [o1 st2] eqn:W.
    unfold with_close in W. destruct (WriteGoFile _ _ _ _ _ _ _) as [o2 st3] eqn:WF. destruct (file_world _ _ _ _ _ WF) as ((t & ET & NT) & r & S).
    destruct (close h (outside st3)) as [rc xc]. cbn [world trace] in S, ET.
    assert (T2 : trace st2 = trace st ++ ([EvOpen (file_path F) (Opened (Some h))] ++ t ++ [EvClose h rc])).
    { injection W as _ <-. cbn [trace]. rewrite ET, <- !app_assoc. reflexivity. }
    assert (N2 : number_opened ([EvOpen (file_path F) (Opened (Some h))] ++ t ++ [EvClose h rc]) = 1).
    { rewrite !number_app, NT. reflexivity. }
    assert (W2 : world st2 = world st3) by (injection W as _ <-; auto).
    assert (ST : o1 = Ret None /\ WriteGoFiles env format_Source write close outFn fuel l st2 = (o, st') \/ (o1 <> Ret None /\ o = o1 /\ st' = st2)).
    { destruct o1 as [[e|]|m]; [right; injection R as <- <-; split; [discriminate|auto]|left; auto|right; injection R as <- <-; split; [discriminate|auto]]. }
    destruct ST as [(-> & R')|(NR & -> & ->)].
    + destruct (IH _ _ _ R') as (t' & ET' & TR & LE & ALL). eexists. split; [rewrite ET', T2, <- app_assoc; reflexivity|].
      rewrite number_app, N2. cbn [Nat.add firstn List.length]. split; [|split; [lia|intros; f_equal; auto]].
      econstructor; [exact S|]. rewrite <- W2. exact TR.
    + eexists. split; [exact T2|]. rewrite N2. cbn [firstn List.length]. split; [|split; [lia|intros ->; destruct NR; auto]].
      econstructor; [exact S|]. rewrite <- W2. constructor.
  - injection R as <- <-. eexists. split; [reflexivity|]. rewrite NO by auto. split; [constructor|]. split; [lia|discriminate].
  - injection R as <- <-. eexists. split; [reflexivity|]. rewrite NO by auto. split; [constructor|]. split; [lia|discriminate].
  - injection R as <- <-. eexists. split; [reflexivity|]. rewrite NO by auto. split; [constructor|]. split; [lia|discriminate].
Qed.
Theorem write_changes l st o st' : WriteGoFiles env format_Source write close outFn fuel l st = (o, st') ->
  exists t, trace st' = trace st ++ t /\ changes_in (world st) (firstn (number_opened t) l) (world st').
Proof.
  intros R. destruct (write_tried _ _ _ _ R) as (t & ET & TR & _). exists t. split; auto. apply tried_changes. auto.
Qed.
Lemma firstn_in {A} (x : A) n l : In x (firstn n l) -> In x l.
Proof. revert n. induction l as [|a l IH]; intros [|n] I; cbn in *; auto; [destruct I|]. destruct I; auto. right. eauto. Qed.
Theorem write_retry l st o st' f F : nth_error (files (world st)) f = Some F ->
  plain_code env (world st) f -> plain_templates env (world st) f -> (forall g, In g l -> apart_from (world st) f g) ->
  WriteGoFiles env format_Source write close outFn fuel l st = (o, st') ->
  exists r w2 w3, source env fuel f (world st) = (r, w2) /\ source env fuel f (world st') = (r, w3) /\ nth_error (files w3) f = nth_error (files w2) f.
Proof.
  intros EF PC PT AP R. destruct (write_tried _ _ _ _ R) as (t & _ & TR & _).
  apply (written_alone env fuel f (world st) F EF KP (firstn (number_opened t) l)); auto. intros g I. apply AP. eapply firstn_in; eauto.
Qed.
End Tried.
