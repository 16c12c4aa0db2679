(** Proofs: after files were written, with whatever result, writing any of them gives what it would have given before. *)
From Verif Require Import Base BaseFacts GoPath Types SpecTypes Imports SpecImports ImportsTheorems Conv World SpecProgram SpecWorld SpecGo SpecFile SpecDecl SpecRender
  SpecFormat SpecCode SpecAppend SpecOrder SpecQualify QualifyProofs QualifyTheorems SourceProofs SourceTheorems SpecShare SharedProofs Write SpecLocal LocalProofs OwnProofs AloneProofs SpecTried TriedProofs
  AgainProofs AgainTheorems SpecRetry.

(** ** What is kept of the conditions *)
Lemma pieces_kin l : forall args, Forall2 kin (args_of l) args -> exists l', format_of l' = format_of l /\ args_of l' = args /\
  (verbs_ok l -> verbs_ok l') /\ ((forall v a, In (Put v a) l -> textual v a) -> forall v a, In (Put v a) l' -> textual v a).
Proof.
  induction l as [|[s|v a] l IH]; intros args K; cbn [args_of format_of] in *.
  - inversion K. exists []. repeat split; auto.
  - destruct (IH args K) as (l' & A & B & C & D). exists (Plain s :: l'). cbn [args_of format_of]. rewrite A, B. split; auto. split; auto. split.
    + intros V v a [E|IN]; [discriminate E|]. apply (C (fun v a H => V v a (or_intror H)) v a IN).
    + intros V v a [E|IN]; [discriminate E|]. apply (D (fun v a H => V v a (or_intror H)) v a IN).
  - inversion K as [|? b ? args' KH KT]; subst. destruct (IH args' KT) as (l' & A & B & C & D). exists (Put v b :: l'). cbn [args_of format_of].
    rewrite A, B. split; auto. split; auto. split.
    + intros V v' a' [E|IN]; [injection E as <- <-; apply (V v a); left; auto|]. apply (C (fun v a H => V v a (or_intror H)) v' a' IN).
    + intros V v' a' [E|IN]; [injection E as <- <-; apply KH, V; left; auto|]. apply (D (fun v a H => V v a (or_intror H)) v' a' IN).
Qed.
Section Kept.
Context {TD : Type}.
Variables (env : Env TD) (f : nat) (w w1 : World TD).
Hypothesis SK : skel w1 = skel w.
Hypothesis KA : forall a l1, uses_args w f a -> nth_error (argss w1) a = Some l1 -> exists l, nth_error (argss w) a = Some l /\ Forall2 kin l l1.
Lemma seen_kept x : seen w1 f x -> seen w f x.
Proof.
  induction 1 as [x P|args l a x U E IN N|e n p S IH N].
  - apply seen_part. apply (part_skel w1 w); auto.
  - assert (U' : uses_args w f args) by (apply (uses_skel w1 w); auto). destruct (KA args l U' E) as (l0 & E0 & K).
    destruct (In_nth_error _ _ IN) as [j EJ]. destruct (nth_F2 _ _ _ _ _ K EJ) as (a0 & E1 & [_ [X|X]]); [congruence|].
    apply (seen_arg w f args l0 a0 x U' E0 (nth_error_In _ _ E1)). congruence.
  - apply (seen_owner w f e n p IH). cbn [naming_of] in *.
    pose proof (form ielems er_elem w w1 e (fun _ => eq_refl) SK) as X.
    destruct (nth_error (ielems w1) e) as [[|]|]; try discriminate N; destruct (nth_error (ielems w) e) as [[|]|]; try discriminate X.
    cbn in *. injection X as X1 X2 X3. congruence.
Qed.
Lemma plain_kept : plain_code env w f -> plain_code env w1 f.
Proof.
  intros PC cb b fm args P B IN. assert (P0 : part_of w f (IBlock cb)) by (apply (part_skel w1 w); auto).
  rewrite (f_equal blocks SK : blocks w1 = blocks w) in B.
  assert (U : uses_args w f args) by (exists cb, b, fm; auto).
  destruct (nth_error (argss w1) args) as [l1|] eqn:E1.
  - destruct (KA args l1 U E1) as (l0 & E0 & K). destruct (PC cb b fm args P0 B IN) as [(l & -> & EL & VO & TX)|[SV BV]].
    + assert (l0 = args_of l) as -> by congruence. destruct (pieces_kin l l1 K) as (l' & X1 & X2 & X3 & X4).
      left. exists l'. split; auto. split; [congruence|]. split; auto.
    + right. split; auto. intros l a EL IA. assert (l = l1) as -> by congruence. destruct (In_nth_error _ _ IA) as [j EJ].
      destruct (nth_F2 _ _ _ _ _ K EJ) as (a0 & E2 & [_ X]). specialize (BV l0 a0 E0 (nth_error_In _ _ E2)).
      destruct a; cbn in *; auto; destruct X as [X|X]; try discriminate X; destruct a0; try discriminate X; cbn in BV; auto.
  - destruct (PC cb b fm args P0 B IN) as [(l & -> & EL & VO & TX)|[SV BV]].
    + exfalso. pose proof (f_equal (fun u => nth_error (argss u) args) SK) as X. cbn [skel argss] in X. rewrite !nth_error_map, E1, EL in X. discriminate X.
    + right. split; auto. intros l a EL. congruence.
Qed.
Lemma apart_kept g : apart_from w f g -> apart_from w1 f g.
Proof.
  intros (N & NS & EA & TA). split; auto. split; [|split].
  - intros [(x & NB & P & P')|(a & U & U')]; apply NS.
    + left. exists x. split; auto. split; apply (part_skel w1 w); auto.
    + right. exists a. split; apply (uses_skel w1 w); auto.
  - intros id s S P NE. apply seen_kept in S. cbn [naming_of] in NE.
    pose proof (form ielems er_elem w w1 id (fun _ => eq_refl) SK) as X.
    destruct (nth_error (ielems w1) id) as [[c e p|]|] eqn:E1; try discriminate NE.
    destruct (nth_error (ielems w) id) as [[c0 e0 p0|]|] eqn:E0; try discriminate X.
    apply (EA id e0 S); [apply (part_skel w1 w); auto|]. cbn [naming_of]. rewrite E0. auto.
  - intros t T T'. apply (TA t); apply (template_skel w1 w); auto.
Qed.
End Kept.

(** ** Writing again after other files *)
Section Retry.
Context {TD : Type}.
Variables (env : Env TD) (fuel f : nat).
Hypothesis KP : imports_by_calls env.
Notation World := (World TD).

Lemma home_skel (w w1 : World) x : skel w1 = skel w -> home w1 x = home w x.
Proof.
  intros SK. unfold home. destruct x as [i|i|i|i|i|i|i]; auto.
  - pose proof (form_name consts er_value (fun v => NValue (VNames v) (VParent v)) w w1 i (fun _ => eq_refl) SK) as X.
    cbn [naming_of]. rewrite X; auto. intros a b H. f_equal; [exact (f_equal VNames H)|exact (f_equal VParent H)].
  - pose proof (form_name vars er_value (fun v => NValue (VNames v) (VParent v)) w w1 i (fun _ => eq_refl) SK) as X.
    cbn [naming_of]. rewrite X; auto. intros a b H. f_equal; [exact (f_equal VNames H)|exact (f_equal VParent H)].
  - pose proof (form_name types er_type (fun T => NType (TSName T) (TSParent T)) w w1 i (fun _ => eq_refl) SK) as X.
    cbn [naming_of]. rewrite X; auto. intros a b H. f_equal; [exact (f_equal TSName H)|exact (f_equal TSParent H)].
  - cbn [naming_of]. destruct (nth_error (World.fields w1) i), (nth_error (World.fields w) i); auto.
  - cbn [naming_of]. destruct (nth_error (ielems w1) i) as [[]|], (nth_error (ielems w) i) as [[]|]; auto.
  - pose proof (form_name funcs er_func (fun F => NFunc (FNName F) (FNReceiver F) (FNParent F)) w w1 i (fun _ => eq_refl) SK) as X.
    cbn [naming_of]. rewrite X; auto. intros a b H. f_equal; [exact (f_equal FNName H)|exact (f_equal FNReceiver H)|exact (f_equal FNParent H)].
Qed.
(** The file is written in two worlds that are the same for it: they are so afterwards. *)
Lemma own_same w v F r w1 v1 r' : same_for w v f F -> plain_code env w f -> plain_templates env w f ->
  source env fuel f w = (r, w1) -> source env fuel f v = (r', v1) ->
  r' = r /\ skel w1 = skel w /\ skel v1 = skel v /\ plain_code env w1 f /\ plain_templates env w1 f /\
  (forall g, apart_from w f g -> apart_from w1 f g) /\ exists F1, same_for w1 v1 f F1.
Proof.
  intros SF PC PT S S'.
  destruct (local_source env f w v F SF PC PT fuel) as (r0 & u & u' & A & B & _). rewrite S in A. injection A as <- <-. rewrite S' in B. injection B as -> <-.
  pose proof (f_skel _ _ _ (own_source env f w KP fuel r w1 S)) as SK. pose proof (f_skel _ _ _ (own_source env f v KP fuel r v1 S')) as SK'.
  destruct PT as (D & CD & TD0).
  destruct (par_file env f w v F SF D CD TD0 False 0 0 fuel w v) as (r0 & x1 & x1' & Q & Q' & RL & _);
    [apply rel_first; [auto|intros []]|].
  assert (w1 = x1) as <-.
  { unfold source, sbind in S. rewrite Q in S. destruct r0 as [[]|m]; [|congruence]. unfold get, from_res in S. destruct (nth_error (files x1) f); congruence. }
  assert (v1 = x1') as <-.
  { unfold source, sbind in S'. rewrite Q' in S'. destruct r0 as [[]|m]; [|congruence]. unfold get, from_res in S'. destruct (nth_error (files x1') f); congruence. }
  clear Q Q' S S'.
  assert (KA : forall a l1, uses_args w f a -> nth_error (argss w1) a = Some l1 -> exists l, nth_error (argss w) a = Some l /\ Forall2 kin l l1).
  { intros a l1 U E1. destruct (r_a f w F D False 0 0 w1 v1 RL a U) as [_ M]. rewrite E1 in M. destruct (nth_error (argss w) a) as [l|]; [eauto|contradiction]. }
  split; auto. split; auto. split; auto. split; [eapply plain_kept; eauto|]. split; [|split].
  - exists D. split; auto. intros t tm d T E. apply (template_skel w1 w) in T; auto.
    destruct (r_tm f w F D False 0 0 w1 v1 RL t T) as [_ M]. rewrite E in M. destruct (nth_error (templs w) t) as [[tm0 d0]|] eqn:E0; [|contradiction].
    apply M. cbn. eapply TD0; eauto.
  - intros g. apply apart_kept; auto.
  - destruct RL as [R1 (G & EG & EE) R3 R4 R5 R6 R7 R8 R9 R10 R11 R12 R13 R14 R15 R16 R17 _]. exists G. split; auto. split; [congruence|]. split.
    { intros e IN. rewrite EE in IN. destruct e as [d|d|d|d]; cbn; auto; [apply (R4 d IN)|apply (R5 d IN)|apply (R6 d IN)]. }
    split.
    { intros x P. apply (part_skel w1 w) in P; auto. destruct x; cbn;
        [apply (R7 _ P)|apply (R8 _ P)|apply (R9 _ P)|apply (R10 _ P)|apply (R11 _ P)|apply (R12 _ P)|apply (R13 _ P)]. }
    split. { intros x SX. apply R15. eapply seen_kept; eauto. }
    split. { intros a U. apply (uses_skel w1 w) in U; auto. apply (R14 a U). }
    split. { intros t T. apply (template_skel w1 w) in T; auto. apply (R17 t T). }
    intros x i SX HX. rewrite (home_skel w w1 x SK) in HX. apply (R3 x i); auto. eapply seen_kept; eauto.
Qed.
(** What is kept: that the world is for the file the same as one in which the file is written twice with the result [r]. *)
Definition settled_as (r : res string) (G : option GoFile) (others : list nat) (v : World) : Prop :=
  exists w F w1, nth_error (files w1) f = G /\ same_for w v f F /\ skel v = skel w /\ plain_code env w f /\ plain_templates env w f /\
    (forall g, In g others -> g <> f -> apart_from w f g) /\ source env fuel f w = (r, w1) /\ source env fuel f w1 = (r, w1).
Lemma settled_step r G others g v v1 r1 : settled_as r G others v -> In g others -> source env fuel g v = (r1, v1) -> settled_as r G others v1.
Proof.
  intros (w & F & w1 & EG & SF & SK & PC & PT & AP & S & S1) IN E. destruct (Nat.eq_dec g f) as [->|N].
  - destruct (own_same w v F r w1 v1 r1 SF PC PT S E) as (_ & K1 & K2 & PC1 & PT1 & AK & F1 & SF1).
    exists w1, F1, w1. split; auto. split; auto. split; [congruence|]. repeat (split; auto).
  - destruct (same_step env fuel f w F KP g v v1 r1 SK SF (AP g IN N) E) as [SF1 SK1].
    exists w, F, w1. repeat (split; auto).
Qed.
Lemma settled_tried r G others l : forall v v1, settled_as r G others v -> (forall g, In g l -> In g others) -> tried_in_order env fuel l v v1 -> settled_as r G others v1.
Proof.
  induction l as [|g l IH]; intros v v2 ST IN TR; inversion TR as [|? ? r1 ? v1 ? S TR']; subst; auto.
  apply (IH v1 v2); auto. { eapply settled_step; eauto. apply IN. left; auto. } intros j J. apply IN. right; auto.
Qed.
Lemma settled_result r G others v : settled_as r G others v -> exists w1, source env fuel f v = (r, w1) /\ nth_error (files w1) f = G.
Proof.
  intros (w & F & w1 & EG & SF & SK & PC & PT & AP & S & S1). destruct (local_source env f w v F SF PC PT fuel) as (r0 & u & u' & A & B & EU).
  rewrite S in A. injection A as <- <-. exists u'. split; auto. congruence.
Qed.
End Retry.

(** ** WriteGoFiles *)
Section Files.
Context {TD : Type}.
Variables (env : Env TD) (fuel : nat).
Hypothesis KP : imports_by_calls env.
Context {X H E : Type}.
Theorem write_settled (format_Source : string -> string + E) (write : H -> string -> X -> done E * X) (close : H -> X -> done E * X) outFn
    r G l st o st' f others : settled_as env fuel f r G others (world st) -> (forall g, In g l -> In g others) ->
  WriteGoFiles env format_Source write close outFn fuel l st = (o, st') -> settled_as env fuel f r G others (world st').
Proof.
  intros ST IN R. destruct (write_tried env fuel format_Source write close outFn l st o st' R) as (t & _ & TR & _).
  eapply settled_tried; [exact KP|exact ST| |exact TR]. intros g I. apply IN. eapply firstn_in; eauto.
Qed.
Theorem write_settled_text (format_Source : string -> string + E) (write : H -> string -> X -> done E * X) (close : H -> X -> done E * X) outFn
    r G l1 f l2 st st' others : settled_as env fuel f r G others (world st) -> (forall g, In g l1 -> In g others) ->
  WriteGoFiles env format_Source write close outFn fuel (l1 ++ f :: l2) st = (Ret None, st') ->
  exists s hd formatted, r = Ok s /\ format_Source s = inl formatted /\ In (EvWrite hd formatted Done) (trace st').
Proof.
  intros ST IN R. destruct (write_in_order env format_Source write close _ _ _ _ _ _ _ R) as (w1 & s & w2 & hd & fm & IO1 & S & IO2 & FS & TR).
  destruct (settled_result env fuel f r G others w1) as (w3 & S1 & _). { eapply settled_tried; [exact KP|exact ST|exact IN|apply tried; exact IO1]. }
  rewrite S in S1. injection S1 as <- <-. eauto 6.
Qed.
End Files.
Lemma settled_first {TD} (env : Env TD) fuel f w F l : nth_error (files w) f = Some F -> plain_code env w f -> plain_templates env w f ->
  (forall g, In g l -> g <> f -> apart_from w f g) -> (forall r w1, source env fuel f w = (r, w1) -> source env fuel f w1 = (r, w1)) ->
  exists r w1, source env fuel f w = (r, w1) /\ settled_as env fuel f r (nth_error (files w1) f) l w.
Proof.
  intros EF PC PT AP AG. destruct (source env fuel f w) as [r w1] eqn:S. exists r, w1. split; auto. exists w, F, w1. split; auto.
  split; [apply same_self; auto|]. repeat (split; auto).
Qed.
Section Both.
Context {TD : Type}.
Variables (env : Env TD) (fuel : nat).
Hypothesis KP : imports_by_calls env.
Context {X H E X' H' E' : Type}.
Variables (format_Source : string -> string + E) (write : H -> string -> X -> done E * X) (close : H -> X -> done E * X) (outFn : string -> X -> opened H E * X).
Variables (format_Source' : string -> string + E') (write' : H' -> string -> X' -> done E' * X') (close' : H' -> X' -> done E' * X') (outFn' : string -> X' -> opened H' E' * X').
Lemma settled_again l st o st' f F : nth_error (files (world st)) f = Some F -> plain_code env (world st) f -> plain_templates env (world st) f ->
  (forall g, In g l -> g <> f -> apart_from (world st) f g) -> (forall r w1, source env fuel f (world st) = (r, w1) -> source env fuel f w1 = (r, w1)) ->
  WriteGoFiles env format_Source write close outFn fuel l st = (o, st') ->
  exists r w2 w3, source env fuel f (world st) = (r, w2) /\ source env fuel f (world st') = (r, w3) /\ nth_error (files w3) f = nth_error (files w2) f.
Proof.
  intros EF PC PT AP AG R. destruct (settled_first env fuel f _ F l EF PC PT AP AG) as (r & w1 & S & ST).
  destruct (settled_result env fuel f r (nth_error (files w1) f) l (world st')) as (w3 & S3 & EG); [|eauto 6]. eapply write_settled; eauto.
Qed.
Lemma settled_both l st o st' f F l1 l2 st2 st3 : nth_error (files (world st)) f = Some F -> plain_code env (world st) f -> plain_templates env (world st) f ->
  (forall g, In g (l ++ l1) -> g <> f -> apart_from (world st) f g) -> (forall r w1, source env fuel f (world st) = (r, w1) -> source env fuel f w1 = (r, w1)) ->
  WriteGoFiles env format_Source write close outFn fuel l st = (o, st') ->
  world st2 = world st' -> WriteGoFiles env format_Source' write' close' outFn' fuel (l1 ++ f :: l2) st2 = (Ret None, st3) ->
  exists s w2 hd formatted, source env fuel f (world st) = (Ok s, w2) /\ format_Source' s = inl formatted /\ In (EvWrite hd formatted Done) (trace st3).
Proof.
  intros EF PC PT AP AG R EW R2. destruct (settled_first env fuel f _ F (l ++ l1) EF PC PT AP AG) as (r & w1 & S & ST).
  assert (ST2 : settled_as env fuel f r (nth_error (files w1) f) (l ++ l1) (world st2)).
  { rewrite EW. eapply write_settled; [exact KP|exact ST| |exact R]. intros g I. apply in_app_iff; auto. }
  destruct (write_settled_text env fuel KP format_Source' write' close' outFn' r _ l1 f l2 st2 st3 (l ++ l1) ST2) as (s & hd & fm & -> & FS & TR); auto.
  { intros g I. apply in_app_iff; auto. }
  exists s, w1, hd, fm. auto.
Qed.
(** Files without templates. *)
Theorem write_any_again l st o st' f F own h :
  nth_error (files (world st)) f = Some F -> FImports F = run h (NewImportsFor own) -> no_templates (world st) f ->
  plain_code env (world st) f -> (forall g, In g l -> g <> f -> apart_from (world st) f g) ->
  WriteGoFiles env format_Source write close outFn fuel l st = (o, st') ->
  exists r w2 w3, source env fuel f (world st) = (r, w2) /\ source env fuel f (world st') = (r, w3) /\ nth_error (files w3) f = nth_error (files w2) f.
Proof.
  intros EF EI NT PC AP. eapply settled_again; eauto using no_templates_plain. intros r w1 S. eapply source_again; eauto.
Qed.
Theorem write_both l st o st' f F own h l1 l2 st2 st3 :
  nth_error (files (world st)) f = Some F -> FImports F = run h (NewImportsFor own) -> no_templates (world st) f ->
  plain_code env (world st) f -> (forall g, In g (l ++ l1) -> g <> f -> apart_from (world st) f g) ->
  WriteGoFiles env format_Source write close outFn fuel l st = (o, st') ->
  world st2 = world st' -> WriteGoFiles env format_Source' write' close' outFn' fuel (l1 ++ f :: l2) st2 = (Ret None, st3) ->
  exists s w2 hd formatted, source env fuel f (world st) = (Ok s, w2) /\ format_Source' s = inl formatted /\ In (EvWrite hd formatted Done) (trace st3).
Proof.
  intros EF EI NT PC AP. eapply settled_both; eauto using no_templates_plain. intros r w1 S. eapply source_again; eauto.
Qed.
End Both.

(** ** Any number of calls *)
Lemma settled_calls {TD} (env : Env TD) fuel f r G others : imports_by_calls env -> forall l w w1, write_calls env fuel l w w1 ->
  (forall g, In g l -> In g others) -> settled_as env fuel f r G others w -> settled_as env fuel f r G others w1.
Proof.
  intros KP l w w1 WC. induction WC as [w|X H E format_Source write close outFn l st o st' l' w' R _ IH]; intros IN ST; auto.
  apply IH; [intros g I; apply IN, in_app_iff; auto|].
  eapply write_settled; [exact KP|exact ST| |exact R]. intros g I. apply IN, in_app_iff. auto.
Qed.
Lemma calls_settled {TD} (env : Env TD) fuel l w w' f F : imports_by_calls env -> nth_error (files w) f = Some F -> plain_code env w f -> plain_templates env w f ->
  (forall g, In g l -> g <> f -> apart_from w f g) -> (forall r w1, source env fuel f w = (r, w1) -> source env fuel f w1 = (r, w1)) ->
  write_calls env fuel l w w' ->
  exists r w2 w3, source env fuel f w = (r, w2) /\ source env fuel f w' = (r, w3) /\ nth_error (files w3) f = nth_error (files w2) f.
Proof.
  intros KP EF PC PT AP AG R. destruct (settled_first env fuel f _ F l EF PC PT AP AG) as (r & w1 & S & ST).
  destruct (settled_result env fuel f r (nth_error (files w1) f) l w') as (w3 & S3 & EG); [|eauto 6]. eapply settled_calls; eauto.
Qed.
Theorem calls_again {TD} (env : Env TD) fuel l w w' f F own h : imports_by_calls env ->
  nth_error (files w) f = Some F -> FImports F = run h (NewImportsFor own) -> no_templates w f ->
  plain_code env w f -> (forall g, In g l -> g <> f -> apart_from w f g) -> write_calls env fuel l w w' ->
  exists r w2 w3, source env fuel f w = (r, w2) /\ source env fuel f w' = (r, w3) /\ nth_error (files w3) f = nth_error (files w2) f.
Proof.
  intros KP EF EI NT PC AP. eapply calls_settled; eauto using no_templates_plain. intros r w1 S. eapply source_again; eauto.
Qed.
