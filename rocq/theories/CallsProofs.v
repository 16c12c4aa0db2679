(** Calls change one attribute each; their order matters only for calls about the same one. *)
From Verif Require Import Base GoPath Types SpecTypes Imports SpecImports SpecGo SpecRender World WorldProofs SpecCalls.

Lemma map_upd_blank {A B} (g : A -> B) i v l a : nth_error l i = Some a -> g v = g a -> map g (upd i v l) = map g l.
Proof.
  revert i. induction l as [|b l IH]; intros [|i]; cbn; intros E G; try discriminate; [congruence|]. f_equal. apply IH; auto.
Qed.
Section Calls.
Context {TD : Type}.
Notation World := (World TD).
Implicit Types w : World.
Ltac solve_rest := unfold rest; cbn; f_equal; eapply map_upd_blank; [eassumption|reflexivity].
Ltac solve_other E := intros k N; destruct k; try reflexivity; cbn;
  match goal with |- context [nth_error (upd ?i _ _) ?j] => destruct (Nat.eq_dec i j) as [->|NE];
    [rewrite nth_upd_same by (apply nth_error_Some; congruence); rewrite E; cbn;
     match goal with a : _ |- _ => destruct a; try reflexivity; exfalso; apply N; reflexivity | _ => exfalso; apply N; reflexivity end
    |rewrite nth_upd_other by exact NE; reflexivity] end.
Lemma effect s w v : attr w (about s) = Some v ->
  exists w', perform s w = (Ok tt, w') /\ attr w' (about s) = Some (new_value s v) /\
    (forall k, k <> about s -> attr w' k = attr w k) /\ rest w' = rest w.
Proof.
  destruct s as [id c|id c|id c|id c|id c|id c|d c|d c|d c|f a c]; try destruct c; try destruct a; cbn [about vabout fabout sabout dabout attr perform];
  unfold Value_SetComment, Value_SetType, Value_SetInitializer, Field_SetComment, Field_SetTag, Elem_SetComment, Method_AddArg, Method_AddResult,
    Method_SetVariadic, Method_onSignature, Func_SetComment, Func_AddArg, Func_AddResult, Func_SetVariadic, Func_onSignature, Type_SetComment,
    ConstDecl_SetComment, ConstDecl_AddConst, VarDecl_SetComment, VarDecl_AddVar, TypeDecl_SetComment, TypeDecl_AddType,
    SetFileComment, SetPackageComment, SetCanonical, sbind, get, put;
  match goal with |- context [nth_error ?l ?i] => destruct (nth_error l i) as [o|] eqn:E; [|discriminate] end;
  cbn [option_map obind]; try (destruct o as [oc os op|oc on os op]; cbn [elem_attr]; [try discriminate|]);
  intros V; injection V as <-;
  (eexists; split; [reflexivity|]; split;
   [cbn; rewrite nth_upd_same by (apply nth_error_Some; congruence); reflexivity|split; [solve_other E|solve_rest]]).
Qed.
Lemma tab_ext {A B} (g : A -> B) : forall l l' : list A, map g l = map g l' ->
  (forall i a a', nth_error l i = Some a -> nth_error l' i = Some a' -> g a = g a' -> a = a') -> l = l'.
Proof.
  induction l as [|a l IH]; intros [|a' l'] M H; cbn in M; try discriminate; auto. injection M as M1 M2. f_equal.
  - apply (H 0); auto.
  - apply IH; auto. intros i b b' E E'. apply (H (S i)); auto.
Qed.
Ltac same K E E' := let X := fresh in pose proof K as X; cbn in X; rewrite E, E' in X; cbn in X; clear K.
Lemma all_of_it w w' : rest w = rest w' -> (forall k, attr w k = attr w' k) -> w = w'.
Proof.
  intros Rs H. destruct w as [fi cd vd td cs vs ts fs es fns bl ar te], w' as [fi' cd' vd' td' cs' vs' ts' fs' es' fns' bl' ar' te'].
  unfold rest in Rs. cbn in Rs. injection Rs as R1 R2 R3 R4 R5 R6 R7 R8 R9 R10 R11 R12 R13. f_equal; auto.
  - eapply tab_ext; [exact R1|]. intros i a a' E E' G. destruct a, a'. cbn in G. injection G as -> -> -> ->.
    pose proof (H (AtFile i FiComment)) as X1. pose proof (H (AtFile i FiPackage)) as X2. pose proof (H (AtFile i FiCanonical)) as X3.
    cbn in X1, X2, X3. rewrite E, E' in X1, X2, X3. cbn in X1, X2, X3. congruence.
  - eapply tab_ext; [exact R2|]. intros i a a' E E' G. destruct a, a'.
    pose proof (H (AtConsts i DaComment)) as X1. pose proof (H (AtConsts i DaMembers)) as X2.
    cbn in X1, X2. rewrite E, E' in X1, X2. cbn in X1, X2. congruence.
  - eapply tab_ext; [exact R3|]. intros i a a' E E' G. destruct a, a'.
    pose proof (H (AtVars i DaComment)) as X1. pose proof (H (AtVars i DaMembers)) as X2.
    cbn in X1, X2. rewrite E, E' in X1, X2. cbn in X1, X2. congruence.
  - eapply tab_ext; [exact R4|]. intros i a a' E E' G. destruct a, a'.
    pose proof (H (AtTypes i DaComment)) as X1. pose proof (H (AtTypes i DaMembers)) as X2.
    cbn in X1, X2. rewrite E, E' in X1, X2. cbn in X1, X2. congruence.
  - eapply tab_ext; [exact R5|]. intros i a a' E E' G. destruct a, a'. unfold blank_value in G. cbn in G. injection G as -> ->.
    pose proof (H (AtConst i VaComment)) as X1. pose proof (H (AtConst i VaType)) as X2. pose proof (H (AtConst i VaInit)) as X3.
    cbn in X1, X2, X3. rewrite E, E' in X1, X2, X3. cbn in X1, X2, X3. congruence.
  - eapply tab_ext; [exact R6|]. intros i a a' E E' G. destruct a, a'. unfold blank_value in G. cbn in G. injection G as -> ->.
    pose proof (H (AtVar i VaComment)) as X1. pose proof (H (AtVar i VaType)) as X2. pose proof (H (AtVar i VaInit)) as X3.
    cbn in X1, X2, X3. rewrite E, E' in X1, X2, X3. cbn in X1, X2, X3. congruence.
  - eapply tab_ext; [exact R7|]. intros i a a' E E' G. destruct a, a'. cbn in G.
    pose proof (H (AtType i)) as X1. cbn in X1. rewrite E, E' in X1. cbn in X1. congruence.
  - eapply tab_ext; [exact R8|]. intros i a a' E E' G. destruct a, a'. cbn in G.
    pose proof (H (AtField i FaComment)) as X1. pose proof (H (AtField i FaTag)) as X2.
    cbn in X1, X2. rewrite E, E' in X1, X2. cbn in X1, X2. congruence.
  - eapply tab_ext; [exact R9|]. intros i a a' E E' G.
    pose proof (H (AtElem i SaComment)) as X1. pose proof (H (AtElem i SaArgs)) as X2. pose proof (H (AtElem i SaResults)) as X3. pose proof (H (AtElem i SaVariadic)) as X4.
    cbn in X1, X2, X3, X4. rewrite E, E' in X1, X2, X3, X4. cbn in X1, X2, X3, X4.
    destruct a as [c s p|c n [x y z] p], a' as [c' s' p'|c' n' [x' y' z'] p']; cbn in *; congruence.
  - eapply tab_ext; [exact R10|]. intros i a a' E E' G. destruct a as [c n r [x y z] b p], a' as [c' n' r' [x' y' z'] b' p']. cbn in G.
    pose proof (H (AtFunc i SaComment)) as X1. pose proof (H (AtFunc i SaArgs)) as X2. pose proof (H (AtFunc i SaResults)) as X3. pose proof (H (AtFunc i SaVariadic)) as X4.
    cbn in X1, X2, X3, X4. rewrite E, E' in X1, X2, X3, X4. cbn in X1, X2, X3, X4. congruence.
Qed.
(** Several calls *)
Lemma effects l : forall w, (forall s, In s l -> attr w (about s) <> None) ->
  exists w', for_each perform l w = (Ok tt, w') /\ rest w' = rest w /\
    forall k, attr w' k = option_map (fun v => fold_left (fun v s => new_value s v) (calls_about k l) v) (attr w k).
Proof.
  induction l as [|s l IH]; intros w H.
  - exists w. split; [reflexivity|]. split; [reflexivity|]. intros k. cbn. destruct (attr w k); reflexivity.
  - destruct (attr w (about s)) as [v|] eqn:A; [|destruct (H s); [left; auto|exact A]].
    destruct (effect s w v A) as (w1 & P & A1 & O & Rs). destruct (IH w1) as (w2 & P2 & R2 & A2).
    { intros x I. destruct (attribute_eq (about x) (about s)) as [E|E]; [rewrite E, A1; discriminate|]. rewrite O by exact E. apply H. right; exact I. }
    exists w2. cbn [for_each]. unfold sbind. rewrite P. split; [exact P2|]. split; [congruence|]. intros k. rewrite A2. unfold calls_about. cbn [filter].
    destruct (attribute_eq (about s) k) as [E|E].
    + subst k. rewrite A1, A. reflexivity.
    + rewrite O by congruence. reflexivity.
Qed.
Lemma order_free l l' w : (forall s, In s l -> attr w (about s) <> None) -> (forall k, calls_about k l = calls_about k l') ->
  exists w', for_each perform l w = (Ok tt, w') /\ for_each perform l' w = (Ok tt, w').
Proof.
  intros H C. destruct (effects l w H) as (w1 & P & Rs & A). destruct (effects l' w) as (w2 & P' & R' & A').
  { intros s I. apply H. assert (J : In s (calls_about (about s) l')).
    { unfold calls_about. apply filter_In. split; [exact I|]. destruct (attribute_eq (about s) (about s)); congruence. }
    rewrite <- C in J. unfold calls_about in J. apply filter_In in J. apply J. }
  exists w1. split; [exact P|]. rewrite P'. f_equal. apply all_of_it; [congruence|]. intros k. rewrite A, A', C. reflexivity.
Qed.
End Calls.
