(** Proofs: a file is written the same alone and after other files. *)
From Coq Require Import Permutation.
From Verif Require Import Base BaseFacts GoPath Types SpecTypes Imports SpecImports ImportsTheorems Conv World SpecProgram SpecWorld SpecGo SpecFile SpecDecl SpecRender
  SpecQualify QualifyProofs QualifyTheorems SourceProofs SourceTheorems SpecShare SharedProofs Write SpecFormat SpecCode SpecAppend SpecOrder SpecLocal LocalProofs OwnProofs.

Section Alone.
Context {TD : Type}.
Variables (env : Env TD) (fuel f : nat) (w : World TD) (F : GoFile).
Hypothesis EF : nth_error (files w) f = Some F.
Notation World := (World TD).

Lemma same_self : same_for w w f F.
Proof. repeat split; auto; intros x; destruct x; cbn; auto. Qed.
Hypothesis KP : imports_by_calls env.
Lemma same_step g (v v1 : World) r : skel v = skel w -> same_for w v f F -> apart_from w f g ->
  source env fuel g v = (r, v1) -> same_for w v1 f F /\ skel v1 = skel w.
Proof.
  intros SK SF (GF & NS & NE & TA) S.
  destruct (own_source env g v KP fuel r v1 S) as [SK1 _ OF O1 O2 O3 O4 O5 O6 OA OT]. rewrite SK in SK1. split; auto.
  pose proof (f_equal constDecls SK1 : constDecls v1 = constDecls w) as C1. pose proof (f_equal varDecls SK1 : varDecls v1 = varDecls w) as C2.
  pose proof (f_equal typeDecls SK1 : typeDecls v1 = typeDecls w) as C3. pose proof (f_equal blocks SK1 : blocks v1 = blocks w) as C4.
  destruct SF as (E1 & E2 & EL & EN & NM & AR & TM & PK).
  assert (NP : forall x, (forall cb, x <> IBlock cb) -> part_of w f x -> ~ part_of v g x).
  { intros x NB P P'. apply NS. left. exists x. split; auto. split; auto. apply (part_skel v w g); auto. }
  split; auto. split; [rewrite OF by auto; auto|]. split.
  { intros e IN. specialize (EL e IN). destruct e; cbn in *; congruence. }
  split.
  { intros x P. specialize (EN x P). assert (N := NP x). destruct x; cbn in *;
      [rewrite O1|rewrite O2|rewrite O3|rewrite O4|rewrite O5|rewrite O6|congruence]; auto; apply N; auto; discriminate. }
  split.
  { intros x SX. destruct x as [i|i|i|i|i|i|i]; cbn [naming_of]; auto.
    - apply (form_name consts er_value); auto. intros a b H. f_equal; [exact (f_equal VNames H)|exact (f_equal VParent H)].
    - apply (form_name vars er_value); auto. intros a b H. f_equal; [exact (f_equal VNames H)|exact (f_equal VParent H)].
    - apply (form_name types er_type); auto. intros a b H. f_equal; [exact (f_equal TSName H)|exact (f_equal TSParent H)].
    - apply (form_name World.fields er_field); auto. intros a b H. f_equal. exact (f_equal FSName H).
    - pose proof (form ielems er_elem w v1 i (fun _ => eq_refl) SK1) as X.
      destruct (nth_error (ielems w) i) as [[c e p|c n e p]|] eqn:EW.
      + assert (NG : ~ part_of v g (IElem i)).
        { intros P. apply (NE i e SX); [apply (part_skel v w g); auto|]. cbn [naming_of]. rewrite EW. auto. }
        rewrite (O5 i NG). specialize (NM _ SX). cbn [naming_of] in NM. rewrite NM, EW. auto.
      + destruct (nth_error (ielems v1) i) as [[|]|]; try discriminate X. cbn in *. congruence.
      + destruct (nth_error (ielems v1) i) as [[|]|]; try discriminate X. auto.
    - apply (form_name funcs er_func); auto. intros a b H. f_equal; [exact (f_equal FNName H)|exact (f_equal FNReceiver H)|exact (f_equal FNParent H)]. }
  split.
  { intros a U. rewrite <- (AR a U). apply OA. intros U'. apply NS. right. exists a. split; auto. apply (uses_skel v w g a); auto. }
  split.
  { intros t TO. rewrite <- (TM t TO). apply OT. intros (cb & b & P & B & IN). apply (TA t TO). exists cb, b.
    split; [apply (part_skel v w g); auto|]. rewrite <- (f_equal blocks SK : blocks v = blocks w). auto. }
  intros x i SX HX. apply form_package. auto.
Qed.
Lemma same_after l : forall v w1, tried_in_order env fuel l v w1 -> (forall g, In g l -> apart_from w f g) ->
  skel v = skel w -> same_for w v f F -> same_for w w1 f F.
Proof.
  induction l as [|g l IH]; intros v w1 IO AP SK SF; inversion IO as [|? ? r ? v1 ? S IO']; subst; auto.
  destruct (same_step g v v1 r SK SF (AP g (or_introl eq_refl)) S) as [SF1 SK1].
  apply (IH v1 w1); auto. intros j J. apply AP. right. auto.
Qed.
Theorem written_alone l w1 : plain_code env w f -> plain_templates env w f ->
  (forall g, In g l -> apart_from w f g) -> tried_in_order env fuel l w w1 ->
  exists r w2 w3, source env fuel f w = (r, w2) /\ source env fuel f w1 = (r, w3) /\ nth_error (files w3) f = nth_error (files w2) f.
Proof.
  intros TX PT AP IO. apply (local_source env f w w1 F); auto.
  apply (same_after l w w1); auto using same_self.
Qed.
End Alone.

Lemma source_file {TD} (env : Env TD) fuel f w s w1 : source env fuel f w = (Ok s, w1) -> exists F, nth_error (files w) f = Some F.
Proof.
  unfold source, qualify_file, sbind, get. destruct (nth_error (files w) f) as [F|]; [eauto|discriminate].
Qed.
Lemma tried {TD} (env : Env TD) fuel l : forall w w1, in_order env fuel l w w1 -> tried_in_order env fuel l w w1.
Proof. induction 1; econstructor; eauto. Qed.
Lemma order_file {TD} (env : Env TD) fuel l f : imports_by_calls env -> ~ In f l ->
  forall w w1, tried_in_order env fuel l w w1 -> nth_error (files w1) f = nth_error (files w) f.
Proof.
  intros KP. induction l as [|g l IH]; intros NI w w1 IO; inversion IO as [|? ? r ? v1 ? S IO']; subst; auto.
  rewrite (IH (fun H => NI (or_intror H)) v1 w1 IO'). destruct (own_source env g w KP fuel r v1 S) as [_ _ OF]. apply OF. intros ->. apply NI. left. auto.
Qed.
(** Several files, given to WriteGoFiles. *)
Theorem write_alone {TD} (env : Env TD) {X H E} (format_Source : string -> string + E)
    (write : H -> string -> X -> done E * X) (close : H -> X -> done E * X) outFn fuel l g r st st' :
  imports_by_calls env -> plain_code env (world st) g -> plain_templates env (world st) g -> (forall f, In f l -> apart_from (world st) g f) ->
  WriteGoFiles env format_Source write close outFn fuel (l ++ g :: r) st = (Ret None, st') ->
  exists s w2 hd formatted, source env fuel g (world st) = (Ok s, w2) /\ format_Source s = inl formatted /\ In (EvWrite hd formatted Done) (trace st').
Proof.
  intros KP TX PT AP R.
  destruct (write_in_order env format_Source write close _ _ _ _ _ _ _ R) as (w1 & s & w2 & hd & fmtd & IO1 & S & IO2 & FS & TR).
  destruct (nth_error (files (world st)) g) as [F|] eqn:EF.
  2:{ exfalso. destruct (source_file _ _ _ _ _ _ S) as (G & EG). rewrite (order_file env fuel l g KP (fun I => proj1 (AP g I) eq_refl) _ _ (tried _ _ _ _ _ IO1)) in EG. congruence. }
  destruct (written_alone env fuel g (world st) F EF KP l w1 TX PT AP (tried _ _ _ _ _ IO1)) as (r0 & w3 & w4 & S1 & S2 & _).
  rewrite S in S2. injection S2 as <- <-. exists s, w3, hd, fmtd. auto.
Qed.

(** In any order. *)
Section Orders.
Context {TD : Type}.
Variables (env : Env TD) (fuel : nat) (w : World TD).
Lemma texts_order l : forall v w1, texts_in_order env fuel l v w1 -> tried_in_order env fuel (map fst l) v w1.
Proof. induction l as [|[f s] l IH]; intros v w1 T; inversion T; subst; cbn; econstructor; eauto. Qed.
Lemma texts_app l : forall m v v1 v2, texts_in_order env fuel l v v1 -> texts_in_order env fuel m v1 v2 -> texts_in_order env fuel (l ++ m) v v2.
Proof. induction l as [|[f s] l IH]; intros m v v1 v2 A B; inversion A; subst; auto. cbn [app]. econstructor; eauto. Qed.
Lemma texts_split l : forall m v v2, texts_in_order env fuel (l ++ m) v v2 -> exists v1, texts_in_order env fuel l v v1 /\ texts_in_order env fuel m v1 v2.
Proof.
  induction l as [|[f s] l IH]; intros m v v2 T; cbn [app] in T; [exists v; split; [constructor|auto]|].
  inversion T as [|? ? ? ? w1 ? S T']; subst. destruct (IH _ _ _ T') as (v1 & A & B). exists v1. split; auto. econstructor; eauto.
Qed.
Hypothesis KP : imports_by_calls env.
Variable l : list (nat * string).
Hypothesis ND : NoDup (map fst l).
Hypothesis RD : forall f, In f (map fst l) -> plain_code env w f /\ plain_templates env w f.
Hypothesis AP : forall f g, In f (map fst l) -> In g (map fst l) -> g <> f -> apart_from w f g.
(** Each of the files after some of the others. *)
Lemma after_some f k v F : nth_error (files w) f = Some F -> In f (map fst l) -> incl k (map fst l) -> ~ In f k -> tried_in_order env fuel k w v ->
  exists r w2 w3, source env fuel f w = (r, w2) /\ source env fuel f v = (r, w3) /\ nth_error (files w3) f = nth_error (files w2) f.
Proof.
  intros EF IN IK NI IO. destruct (RD f IN) as (TX & PT).
  eapply (written_alone env fuel f w F EF KP k v); eauto. intros g IG. apply AP; auto. intros ->. auto.
Qed.
Lemma nodup_left {A} (a b : list A) : NoDup (a ++ b) -> NoDup a.
Proof. induction a as [|x a IH]; intros H; [constructor|]. inversion H; subst. constructor; [|auto]. intros X. apply H2, in_or_app. auto. Qed.
Lemma nodup_right {A} (a b : list A) : NoDup (a ++ b) -> NoDup b.
Proof. induction a as [|x a IH]; intros H; auto. inversion H; subst. auto. Qed.
(** What each of them is when written first. *)
Lemma each k wk : texts_in_order env fuel k w wk -> NoDup (map fst k) -> incl (map fst k) (map fst l) ->
  forall f s, In (f, s) k -> exists w2, source env fuel f w = (Ok s, w2) /\ nth_error (files wk) f = nth_error (files w2) f.
Proof.
  intros T NK IK f s IN. destruct (in_split _ _ IN) as (l1 & l2 & E). rewrite E in T. destruct (texts_split _ _ _ _ T) as (v & T1 & T2).
  inversion T2 as [|? ? ? ? v1 ? S T3]; subst k. subst. rewrite map_app in *. cbn [map fst] in *.
  pose proof (NoDup_remove_2 _ _ _ NK) as NI. pose proof (NoDup_remove_1 _ _ _ NK) as NR.
  assert (I1 : incl (map fst l1) (map fst l)) by (intros x IX; apply IK, in_or_app; auto).
  assert (IF : In f (map fst l)) by (apply IK, in_or_app; right; left; auto).
  assert (N1 : ~ In f (map fst l1)) by (intros X; apply NI, in_or_app; auto).
  destruct (source_file _ _ _ _ _ _ S) as (F & EFv). rewrite (order_file env fuel (map fst l1) f KP N1 w v (texts_order _ _ _ T1)) in EFv.
  destruct (after_some f (map fst l1) v F) as (r & w2 & w3 & S1 & S2 & EF); auto using texts_order.
  rewrite S in S2. injection S2 as <- <-. exists w2. split; auto. rewrite <- EF.
  apply (order_file env fuel (map fst l2)); [auto|intros X; apply NI, in_or_app; auto|apply texts_order; auto].
Qed.
Theorem any_order w1 l' : texts_in_order env fuel l w w1 -> Permutation l l' ->
  exists w1', texts_in_order env fuel l' w w1' /\ forall f, In f (map fst l) -> nth_error (files w1') f = nth_error (files w1) f.
Proof.
  intros T P. pose proof (each l w1 T ND (incl_refl _)) as A.
  assert (PM : Permutation (map fst l) (map fst l')) by (apply Permutation_map; auto).
  assert (B : forall p q, l' = p ++ q -> exists v, texts_in_order env fuel p w v).
  { induction p as [|[f s] p IH] using rev_ind; intros q E; [exists w; constructor|].
    rewrite <- app_assoc in E. destruct (IH _ E) as (v & TV).
    assert (IN : In (f, s) l) by (apply (Permutation_in _ (Permutation_sym P)); rewrite E; apply in_or_app; right; left; auto).
    destruct (A f s IN) as (w2 & S & _).
    assert (ND' : NoDup (map fst p ++ f :: map fst q)) by (eapply Permutation_NoDup in PM; auto; rewrite E, map_app in PM; exact PM).
    destruct (source_file _ _ _ _ _ _ S) as (F & EF).
    destruct (after_some f (map fst p) v F) as (r & x & w3 & S1 & S2 & _); auto using texts_order.
    - apply (in_map fst) in IN. exact IN.
    - intros j IJ. apply (Permutation_in _ (Permutation_sym PM)). rewrite E, map_app. apply in_or_app. auto.
    - intros X. apply (NoDup_remove_2 _ _ _ ND'). apply in_or_app. auto.
    - rewrite S in S1. injection S1 as <- <-. exists w3. eapply texts_app; eauto. econstructor; eauto. constructor. }
  destruct (B l' [] (eq_sym (app_nil_r _))) as (w1' & T'). exists w1'. split; auto.
  intros f IF. apply in_map_iff in IF as ([f' s] & <- & IN). cbn [fst].
  destruct (A f' s IN) as (w2 & S & E2).
  destruct (each l' w1' T') with (f := f') (s := s) as (w3 & S3 & E3).
  - eapply Permutation_NoDup; eauto.
  - intros j IJ. apply (Permutation_in _ (Permutation_sym PM)). auto.
  - eapply Permutation_in; eauto.
  - rewrite S in S3. injection S3 as <-. congruence.
Qed.
End Orders.
