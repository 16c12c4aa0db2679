(** Proofs about writing files. *)
From Verif Require Import Base BaseFacts GoPath Types Imports Conv World SpecWorld Write SpecWrite.

Section Proofs.
Context {TD X H E : Type}.
Variable env : Env TD.
Variable fuel : nat.
Variable format_Source : string -> string + E.
Variable write : H -> string -> X -> done E * X.
Variable close : H -> X -> done E * X.
Notation event := (event H E).
Notation WriteGoFiles := (WriteGoFiles env format_Source write close).
Notation written_file := (written_file env fuel format_Source).
Notation written_files := (written_files env fuel format_Source).
Notation failed_file := (failed_file env fuel format_Source).
Notation world_after := (world_after env fuel).

Lemma one_file outFn w f st o st' :
  world st = w -> WriteGoFiles outFn fuel [f] st = (o, st') ->
  exists es, trace st' = trace st ++ es /\
    (o = Ret None /\ written_file w f es /\ world st' = snd (source env fuel f w) \/ failed_file w f es o).
Proof.
  intros EW. cbn [Write.WriteGoFiles]. rewrite EW. destruct (nth_error (files w) f) as [F|] eqn:EF.
  2:{ intros [= <- <-]. exists []. rewrite app_nil_r. split; [auto|right]. constructor; auto. }
  assert (FA : file_at w f (file_path F)) by (exists F; auto).
  destruct (outFn (file_path F) (outside st)) as [r x1]. destruct r as [[h|]|e|m].
  - unfold with_close, WriteGoFile. cbn [world outside trace].
    destruct (source env fuel f w) as [[text|m] w1] eqn:SR.
    + destruct (format_Source text) as [fm|e] eqn:FS.
      * destruct (write h fm x1) as [d x2]. cbn [world outside trace]. destruct (close h x2) as [c x3].
        assert (AS : forall e1 e2 e3 : event, ((trace st ++ [e1]) ++ [e2]) ++ [e3] = trace st ++ [e1; e2; e3])
          by (intros; rewrite <- !app_assoc; reflexivity).
        destruct c as [|ce|cm]; [| |].
        -- destruct d as [|e|m]; intros [= <- <-]; cbn [trace world]; eexists; (split; [apply AS|]).
           ++ left. split; auto. split; [|auto]. econstructor; eauto. exact I.
           ++ right. eapply ff_write; eauto. exact I.
           ++ right. eapply ff_write_panic; eauto. exact I.
        -- destruct d as [|e|m]; intros [= <- <-]; cbn [trace world]; eexists; (split; [apply AS|]).
           ++ left. split; auto. split; [|auto]. econstructor; eauto. exact I.
           ++ right. eapply ff_write; eauto. exact I.
           ++ right. eapply ff_write_panic; eauto. exact I.
        -- intros [= <- <-]; cbn [trace]; eexists; (split; [apply AS|]). right.
           apply (ff_close env fuel format_Source w f (file_path F) h [EvWrite h fm d] cm); auto.
           right. eauto 10.
      * cbn [world outside trace]. destruct (close h x1) as [c x3].
        assert (AS : forall e1 e2 : event, (trace st ++ [e1]) ++ [e2] = trace st ++ [e1; e2])
          by (intros; rewrite <- !app_assoc; reflexivity).
        destruct c as [|ce|cm]; intros [= <- <-]; cbn [trace]; eexists; (split; [apply AS|]); right.
        -- eapply ff_format; eauto. exact I.
        -- eapply ff_format; eauto. exact I.
        -- apply (ff_close env fuel format_Source w f (file_path F) h [] cm); auto.
    + cbn [world outside trace]. destruct (close h x1) as [c x3].
      assert (AS : forall e1 e2 : event, (trace st ++ [e1]) ++ [e2] = trace st ++ [e1; e2])
        by (intros; rewrite <- !app_assoc; reflexivity).
      destruct c as [|ce|cm]; intros [= <- <-]; cbn [trace]; eexists; (split; [apply AS|]); right.
      * eapply ff_render; eauto. exact I.
      * eapply ff_render; eauto. exact I.
      * apply (ff_close env fuel format_Source w f (file_path F) h [] cm); auto.
  - intros [= <- <-]. cbn [trace]. eexists. split; [reflexivity|right]. apply ff_nil; auto.
  - intros [= <- <-]. cbn [trace]. eexists. split; [reflexivity|right]. apply ff_open; auto.
  - intros [= <- <-]. cbn [trace]. eexists. split; [reflexivity|right]. apply ff_open_panic; auto.
Qed.
Lemma cons_files outFn f fs st : WriteGoFiles outFn fuel (f :: fs) st =
  match WriteGoFiles outFn fuel [f] st with
  | (Ret None, st1) => WriteGoFiles outFn fuel fs st1
  | r => r
  end.
Proof.
  cbn [Write.WriteGoFiles]. destruct (nth_error (files (world st)) f); auto.
  destruct (outFn (file_path g) (outside st)) as [[[h|]|e|m] x1]; auto.
  destruct (with_close close h _ _) as [[[e|]|m] st2]; auto.
Qed.

Theorem runs outFn st fs o st' : WriteGoFiles outFn fuel fs st = (o, st') ->
  exists es, trace st' = trace st ++ es /\
  (o = Ret None /\ written_files (world st) fs es \/
   exists done f rest es1 es2, fs = done ++ f :: rest /\ es = es1 ++ es2 /\
     written_files (world st) done es1 /\ failed_file (world_after (world st) done) f es2 o).
Proof.
  assert (G : forall fs before es0 w0 st o st', written_files w0 before es0 -> world st = world_after w0 before ->
    WriteGoFiles outFn fuel fs st = (o, st') ->
    exists es, trace st' = trace st ++ es /\
    (o = Ret None /\ written_files w0 (before ++ fs) (es0 ++ es) \/
     exists done f rest es1 es2, before ++ fs = done ++ f :: rest /\ es0 ++ es = es1 ++ es2 /\
       written_files w0 done es1 /\ failed_file (world_after w0 done) f es2 o)).
  { clear. induction fs as [|f fs IH]; intros before es0 w0 st o st' WS EW R.
    - cbn in R. injection R as <- <-. exists []. rewrite !app_nil_r. auto.
    - rewrite cons_files in R. destruct (WriteGoFiles outFn fuel [f] st) as [o1 st1] eqn:R1.
      destruct (one_file _ _ _ _ _ _ EW R1) as (es1 & T1 & [(-> & WF & W1)|FF]).
      + destruct (IH (before ++ [f]) (es0 ++ es1) w0 st1 o st') as (es & T & HH); auto.
        { constructor; auto. }
        { rewrite W1. unfold SpecWrite.world_after. rewrite fold_left_app. reflexivity. }
        exists (es1 ++ es). rewrite T, T1, app_assoc. split; auto.
        rewrite <- app_assoc in HH. cbn in HH. rewrite <- app_assoc in HH. exact HH.
      + assert (O : o1 = o /\ st1 = st').
        { destruct o1 as [[e|]|m]; try (injection R as <- <-; auto).
          exfalso. inversion FF. }
        destruct O as [<- <-]. exists es1. split; auto. right. exists before, f, fs, es0, es1. auto. }
  intros R. destruct (G fs [] [] (world st) st o st' (ws_nil _ _ _ _) eq_refl R) as (es & T & HH).
  exists es. split; auto.
Qed.

(** ** The order of events *)
Inductive sessions : list event -> Prop :=
| s_nil : sessions []
| s_open p r es : (forall h, r <> Opened (Some h)) -> sessions es -> sessions (EvOpen p r :: es)
| s_closed p h c es : sessions es -> sessions (EvOpen p (Opened (Some h)) :: EvClose h c :: es)
| s_written p h t d c es : sessions es -> sessions (EvOpen p (Opened (Some h)) :: EvWrite h t d :: EvClose h c :: es).
Lemma sessions_app es es' : sessions es -> sessions es' -> sessions (es ++ es').
Proof. intros A B. induction A; cbn; [exact B|apply s_open|apply s_closed|apply s_written]; auto. Qed.
Lemma written_sessions (w : World TD) fs es : written_files w fs es -> sessions es.
Proof.
  induction 1 as [|fs f es es' WS IH WF]; [constructor|]. apply sessions_app; auto.
  destruct WF. apply s_written, s_nil.
Qed.
Lemma failed_sessions (w : World TD) f es o : failed_file w f es o -> sessions es.
Proof.
  destruct 1 as [| | | | | | | |path h es m FA D]; try (apply s_nil); try (apply s_closed, s_nil); try (apply s_written, s_nil);
    try (apply s_open; [discriminate|apply s_nil]).
  destruct D as [->|(? & ? & ? & ? & _ & _ & ->)]; cbn; [apply s_closed, s_nil|apply s_written, s_nil].
Qed.
Lemma sessions_head es : sessions es -> es = [] \/ exists p o es', es = EvOpen p o :: es'.
Proof. intros []; eauto. Qed.
Lemma sessions_closed es : sessions es -> closed_once es.
Proof.
  induction 1 as [|p r es N S IH|p h c es S IH|p h t d c es S IH]; intros a b path h0 EQ.
  - destruct a; discriminate.
  - destruct a as [|x a]; cbn in EQ.
    + injection EQ as _ E0 _. congruence.
    + injection EQ as <- EQ. destruct (IH a b path h0 EQ) as (mid & r' & b' & ? & ?). eauto.
  - destruct a as [|x a]; cbn in EQ; [injection EQ as <- <- <-|injection EQ as <- EQ].
    + exists [], c, es. split; [auto|]. split; [auto|]. apply sessions_head; auto.
    + destruct a as [|y a]; cbn in EQ; [discriminate|]. injection EQ as <- EQ. eauto.
  - destruct a as [|x a]; cbn in EQ; [injection EQ as <- <- <-|injection EQ as <- EQ].
    + exists [EvWrite h t d], c, es. split; [auto|]. split; [eauto|]. apply sessions_head; auto.
    + destruct a as [|y a]; cbn in EQ; [discriminate|]. injection EQ as <- EQ.
      destruct a as [|z a]; cbn in EQ; [discriminate|]. injection EQ as <- EQ. eauto.
Qed.
Lemma sessions_opened es : sessions es -> opened_first es.
Proof.
  induction 1 as [|p r es N S IH|p h c es S IH|p h t d c es S IH]; intros a b e EQ.
  - destruct a; discriminate.
  - destruct a as [|x a]; cbn in EQ; injection EQ as <- EQ; [exact I|].
    specialize (IH a b e EQ). destruct e as [|h t d|h c]; auto.
    + destruct IH as (a' & q & ->). exists (EvOpen p r :: a'), q. auto.
    + destruct IH as [(a' & q & ->)|(a' & q & t & d & ->)]; [left; exists (EvOpen p r :: a'), q; auto|].
      right. exists (EvOpen p r :: a'), q, t, d. auto.
  - destruct a as [|x a]; cbn in EQ; [injection EQ as <- EQ; exact I|]. injection EQ as <- EQ.
    destruct a as [|y a]; cbn in EQ; [injection EQ as <- EQ; left; exists [], p; auto|]. injection EQ as <- EQ.
    specialize (IH a b e EQ). destruct e as [|h' t d|h' c']; auto.
    + destruct IH as (a' & q & ->). exists (EvOpen p (Opened (Some h)) :: EvClose h c :: a'), q. auto.
    + destruct IH as [(a' & q & ->)|(a' & q & t & d & ->)].
      * left. exists (EvOpen p (Opened (Some h)) :: EvClose h c :: a'), q. auto.
      * right. exists (EvOpen p (Opened (Some h)) :: EvClose h c :: a'), q, t, d. auto.
  - destruct a as [|x a]; cbn in EQ; [injection EQ as <- EQ; exact I|]. injection EQ as <- EQ.
    destruct a as [|y a]; cbn in EQ; [injection EQ as <- EQ; exists [], p; auto|]. injection EQ as <- EQ.
    destruct a as [|z a]; cbn in EQ; [injection EQ as <- EQ; right; exists [], p, t, d; auto|]. injection EQ as <- EQ.
    specialize (IH a b e EQ). destruct e as [|h' t' d'|h' c']; auto.
    + destruct IH as (a' & q & ->). exists (EvOpen p (Opened (Some h)) :: EvWrite h t d :: EvClose h c :: a'), q. auto.
    + destruct IH as [(a' & q & ->)|(a' & q & t' & d' & ->)].
      * left. exists (EvOpen p (Opened (Some h)) :: EvWrite h t d :: EvClose h c :: a'), q. auto.
      * right. exists (EvOpen p (Opened (Some h)) :: EvWrite h t d :: EvClose h c :: a'), q, t', d'. auto.
Qed.
Theorem closes outFn st fs o st' : WriteGoFiles outFn fuel fs st = (o, st') ->
  exists es, trace st' = trace st ++ es /\ closed_once es /\ opened_first es.
Proof.
  intros R. destruct (runs _ _ _ _ _ R) as (es & T & HH). exists es. split; auto.
  assert (S : sessions es).
  { destruct HH as [(_ & WS)|(done & f & rest & es1 & es2 & _ & -> & WS & FF)].
    - eapply written_sessions; eauto.
    - apply sessions_app; [eapply written_sessions; eauto|eapply failed_sessions; eauto]. }
  split; [apply sessions_closed|apply sessions_opened]; auto.
Qed.

(** ** The outside world *)
Lemma happened_app outFn x es x1 es' x2 : happened outFn write close x es x1 -> happened outFn write close x1 es' x2 ->
  happened outFn write close x (es ++ es') x2.
Proof. intros A B. induction A; cbn [app]; auto; econstructor; eauto. Qed.
Lemma one_happened outFn f st o st' : WriteGoFiles outFn fuel [f] st = (o, st') ->
  exists es, trace st' = trace st ++ es /\ happened outFn write close (outside st) es (outside st').
Proof.
  cbn [Write.WriteGoFiles]. destruct (nth_error (files (world st)) f) as [F|].
  2:{ intros [= <- <-]. exists []. rewrite app_nil_r. split; [auto|constructor]. }
  destruct (outFn (file_path F) (outside st)) as [r x1] eqn:OP. destruct r as [[h|]|e|m].
  2,3,4: intros [= <- <-]; cbn; eexists; split; [reflexivity|]; eapply h_open; [exact OP|constructor].
  unfold with_close, WriteGoFile. cbn [world outside trace].
  destruct (source env fuel f (world st)) as [[text|m] w1].
  - destruct (format_Source text) as [fm|e].
    + destruct (write h fm x1) as [d x2] eqn:WR. cbn [world outside trace]. destruct (close h x2) as [c x3] eqn:CL.
      intros R. exists [EvOpen (file_path F) (Opened (Some h)); EvWrite h fm d; EvClose h c].
      assert (S : st' = mkState w1 x3 (((trace st ++ [EvOpen (file_path F) (Opened (Some h))]) ++ [EvWrite h fm d]) ++ [EvClose h c])).
      { destruct d, c; cbn in R; injection R as _ <-; reflexivity. }
      subst st'. cbn. rewrite <- !app_assoc. split; [reflexivity|].
      eapply h_open; [exact OP|]. eapply h_write; [exact WR|]. eapply h_close; [exact CL|]. constructor.
    + cbn [world outside trace]. destruct (close h x1) as [c x3] eqn:CL.
      intros R. exists [EvOpen (file_path F) (Opened (Some h)); EvClose h c].
      assert (S : st' = mkState w1 x3 ((trace st ++ [EvOpen (file_path F) (Opened (Some h))]) ++ [EvClose h c])).
      { destruct c; cbn in R; injection R as _ <-; reflexivity. }
      subst st'. cbn. rewrite <- !app_assoc. split; [reflexivity|].
      eapply h_open; [exact OP|]. eapply h_close; [exact CL|]. constructor.
  - cbn [world outside trace]. destruct (close h x1) as [c x3] eqn:CL.
    intros R. exists [EvOpen (file_path F) (Opened (Some h)); EvClose h c].
    assert (S : st' = mkState w1 x3 ((trace st ++ [EvOpen (file_path F) (Opened (Some h))]) ++ [EvClose h c])).
    { destruct c; cbn in R; injection R as _ <-; reflexivity. }
    subst st'. cbn. rewrite <- !app_assoc. split; [reflexivity|].
    eapply h_open; [exact OP|]. eapply h_close; [exact CL|]. constructor.
Qed.
Lemma all_happened outFn fs : forall st o st', WriteGoFiles outFn fuel fs st = (o, st') ->
  exists es, trace st' = trace st ++ es /\ happened outFn write close (outside st) es (outside st').
Proof.
  induction fs as [|f fs IH]; intros st o st' R.
  - cbn in R. injection R as <- <-. exists []. rewrite app_nil_r. split; [auto|constructor].
  - rewrite cons_files in R. destruct (WriteGoFiles outFn fuel [f] st) as [o1 st1] eqn:R1.
    destruct (one_happened _ _ _ _ _ R1) as (es & T & HP).
    destruct o1 as [[e|]|m]; try (injection R as <- <-; eauto; fail).
    destruct (IH _ _ _ R) as (es' & T' & HP'). exists (es ++ es').
    rewrite T', T, app_assoc. split; [auto|]. eapply happened_app; eauto.
Qed.
Lemma final_world outFn fs : forall st st', WriteGoFiles outFn fuel fs st = (Ret None, st') ->
  world st' = world_after (world st) fs.
Proof.
  induction fs as [|f fs IH]; intros st st' R; [injection R as <-; auto|].
  rewrite cons_files in R. destruct (WriteGoFiles outFn fuel [f] st) as [o1 st1] eqn:R1.
  destruct o1 as [[e|]|m]; try discriminate.
  destruct (one_file outFn (world st) f st _ _ eq_refl R1) as (es & _ & [(_ & _ & W)|FF]).
  - rewrite (IH _ _ R), W. reflexivity.
  - exfalso. inversion FF.
Qed.
(** C46 *)
Theorem runs_all outFn st fs o st' : WriteGoFiles outFn fuel fs st = (o, st') ->
  exists es, trace st' = trace st ++ es /\ happened outFn write close (outside st) es (outside st') /\
  (o = Ret None /\ written_files (world st) fs es /\ world st' = world_after (world st) fs \/
   exists done f rest es1 es2, fs = done ++ f :: rest /\ es = es1 ++ es2 /\
     written_files (world st) done es1 /\ failed_file (world_after (world st) done) f es2 o).
Proof.
  intros R. destruct (runs _ _ _ _ _ R) as (es & T & HH). exists es. split; auto.
  destruct (all_happened _ _ _ _ _ R) as (es' & T' & HP). rewrite T in T'. apply app_inv_head in T'. subst es'.
  split; auto. destruct HH as [(-> & WS)|HH]; [left|right; auto]. split; auto. split; auto. eapply final_world; eauto.
Qed.

(** ** What is written *)
Theorem writes outFn st fs o st' : WriteGoFiles outFn fuel fs st = (o, st') ->
  exists es, trace st' = trace st ++ es /\
  (forall h text r, In (EvWrite h text r) es ->
     exists done f rest unformatted w1, fs = done ++ f :: rest /\
       source env fuel f (world_after (world st) done) = (Ok unformatted, w1) /\ format_Source unformatted = inl text) /\
  (forall unformatted e, o = Ret (Some (FormatError unformatted e)) ->
     exists done f rest w1 es1 p h c, fs = done ++ f :: rest /\
       source env fuel f (world_after (world st) done) = (Ok unformatted, w1) /\ format_Source unformatted = inr e /\
       es = es1 ++ [EvOpen p (Opened (Some h)); EvClose h c]).
Proof.
  intros R. destruct (runs _ _ _ _ _ R) as (es & T & HH). exists es. split; auto.
  assert (WR : forall (w : World TD) fs' (es' : list event), written_files w fs' es' -> forall h text r, In (EvWrite h text r) es' ->
     exists done f rest unformatted w1, fs' = done ++ f :: rest /\
       source env fuel f (world_after w done) = (Ok unformatted, w1) /\ format_Source unformatted = inl text).
  { clear. induction 1 as [|fs' f es0 es' WS IH WF]; intros h text r I; [destruct I|]. apply in_app_or in I as [I|I].
    - destruct (IH _ _ _ I) as (done & f0 & rest & u & w1 & -> & A). exists done, f0, (rest ++ [f]), u, w1.
      rewrite <- app_assoc. auto.
    - destruct WF as [path h0 w1 u fm c FA S F C]. destruct I as [I|[I|[I|[]]]]; try discriminate.
      injection I as <- <- <-. exists fs', f, [], u, w1. auto. }
  destruct HH as [(-> & WS)|(done & f & rest & es1 & es2 & -> & -> & WS & FF)].
  - split; [|discriminate]. intros h text r I. eapply WR; eauto.
  - split.
    + intros h text r I. apply in_app_or in I as [I|I].
      * destruct (WR _ _ _ WS _ _ _ I) as (d & f0 & rest0 & u & w1 & -> & A). exists d, f0, (rest0 ++ f :: rest), u, w1.
        rewrite <- app_assoc. auto.
      * exists done, f, rest.
        destruct FF as [|p' e' FA|p' m FA|p' FA|p' h' w1 m c FA S C|p' h' w1 u e' c FA S F C|p' h' w1 u fm e' c FA S F C
                       |p' h' w1 u fm m c FA S F C|p' h' es m FA D];
          try (cbn in I; repeat (destruct I as [I|I]; try discriminate I); destruct I; fail).
        -- destruct I as [I|[I|[I|[]]]]; try discriminate I. injection I as <- <- <-. eauto.
        -- destruct I as [I|[I|[I|[]]]]; try discriminate I. injection I as <- <- <-. eauto.
        -- destruct I as [I|I]; [discriminate|]. apply in_app_or in I as [I|[I|[]]]; [|discriminate].
           destruct D as [->|(w1 & u & fm & r' & A & B & ->)]; [destruct I|]. destruct I as [I|[]]. injection I as <- <- <-. eauto.
    + intros u e ->. inversion FF; subst. exists done, f, rest, w1, es1, path, h, c. auto.
Qed.
End Proofs.
