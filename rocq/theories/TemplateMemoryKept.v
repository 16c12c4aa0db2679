(** Data in memory: what panics, what is handed back as it is. *)
From Coq Require Import Lia.
From Verif Require Import Base BaseFacts GoPath Types SpecTypes TypesFacts Imports SpecImports ImportsProofs ImportsTheorems Conv World
  SettleProofs QualifyProofs HeaderProofs Template SpecTemplate TemplateProofs TemplateRuns
  TemplateTheorems TemplateExact TemplateMemory SpecTemplateMemory TemplateMemoryProofs TemplateMemoryTree.

Section Kept.
Variable implements : gty -> string -> bool.
Variable unsafe : bool.
Variable parent_of : spec -> res (option Package).
Notation stands_for := (stands_for unsafe).
Notation Q := (QualifyMemory implements unsafe parent_of).
Notation names i d := (name_in (run (registrations (data_requests unsafe parent_of (data d))) i)).
Lemma memory_panics own h d t m : let i := run h (NewImportsFor own) in
  stands_for m d t -> plain_keys t -> typed implements (data t) ->
  exists N, forall fuel, N <= fuel ->
  ((exists o m' i', Q fuel (Some d) m i = Some (Ok o, m', i')) <-> walkable implements unsafe parent_of (names i t) true (data t)).
Proof.
  intros i S P T. destruct (data_as_tree implements unsafe parent_of d t m S P) as [N H]. exists N. intros fuel L. specialize (H fuel i L).
  pose proof (panics_exact implements unsafe parent_of own h t T) as X. fold i in X.
  destruct (QualifyTemplateData implements unsafe parent_of (Some t) i) as [[o|e] i'].
  - destruct H as (o' & m' & E & _). split; [intros _; apply X; reflexivity|intros _; eauto].
  - destruct H as (m' & E). split; [intros (o & m1 & i1 & E1); congruence|]. intros W. apply X in W. discriminate.
Qed.
Lemma memory_kept own h d t m : let i := run h (NewImportsFor own) in
  stands_for m d t -> plain_keys t -> typed implements (data t) -> is_hiface d = false ->
  walkable implements unsafe parent_of (names i t) true (data t) -> ~ moved implements unsafe parent_of (names i t) (data t) ->
  exists N, forall fuel, N <= fuel ->
  Q fuel (Some d) m i = Some (Ok (Some d), m, run (registrations (data_requests unsafe parent_of (data t))) i).
Proof.
  intros i S P T F W NM. pose proof (kept_data implements unsafe parent_of own h t T W NM) as K. fold i in K.
  destruct (simulated_any implements unsafe parent_of (data t)) as [N H]. exists N. intros fuel L.
  assert (S0 : stands_for (hide [] [] m) (HIface any (Some d)) (data t)) by (rewrite hide_nil; constructor; auto).
  assert (BE : below [] [] m) by (split; intros b []).
  assert (M := H fuel L true (HIface any (Some d)) m i [] [] BE S0 P). unfold matches in M.
  assert (Hi : Inv i) by apply run_new_Inv.
  set (j := after (data_requests unsafe parent_of (data t)) i).
  assert (Hj : Inv j) by (apply after_Inv; auto).
  pose proof (walk_sharp implements unsafe parent_of j Hj (data t) true T i Hi (ext_refl _)) as SH.
  unfold QualifyTemplateData, sbind, sret in K. change (VIface "interface {}" (Some t)) with (data t) in K.
  destruct (qualifyTemplateData implements unsafe parent_of true (data t) i) as [[[v c]|e] i1] eqn:E; [|discriminate].
  destruct SH as (_ & _ & MV & _). destruct c.
  { exfalso. apply NM. rewrite run_registrations. apply MV. reflexivity. }
  destruct M as ([[v' a] c'] & m' & EQ & -> & _). destruct (walk_unchanged _ _ _ _ _ _ _ _ _ _ _ _ EQ) as [-> _].
  unfold QualifyMemory. change "interface {}" with any. unfold hbind. rewrite EQ. apply (f_equal snd) in K. cbn [snd] in K. rewrite <- K. unfold hret. enough (G : hinterface_of v' = Some d) by (rewrite G; reflexivity).
  destruct fuel as [|fuel]; [discriminate|]. cbn [qualifyMemory] in EQ.
  assert (R : qualifyMemory implements unsafe parent_of fuel false d m i = Some (Ok (v', a, false), m, i1) -> hinterface_of v' = Some d).
  { intros E1. destruct (walk_unchanged _ _ _ _ _ _ _ _ _ _ _ _ E1) as [_ D]. rewrite (D F). destruct d; auto; discriminate. }
  destruct d; auto. destruct (replacement _ _ _ _) as [x|]; auto. unfold hbind, imports_only in EQ. destruct (x i) as [[[y c]|?] i2]; [|discriminate].
  destruct c; [|injection EQ as <- _ _; reflexivity]. unfold new_reference in EQ. destruct y as [| |? [z|]| | | | | | | | | | | | | | | |]; discriminate.
Qed.
Lemma grows {A} (l l' : list A) : (forall n v, nth_error l n = Some v -> nth_error l' n = Some v) -> List.length l <= List.length l'.
Proof.
  intros H. destruct (Nat.le_gt_cases (List.length l) (List.length l')) as [|G]; auto. exfalso. apply nth_error_Some in G.
  destruct (nth_error l (List.length l')) as [v|] eqn:E; [|congruence]. apply H in E. apply in_nth in E. lia.
Qed.
Lemma untouched_stands fuel d m i r m' i' : Q fuel d m i = Some (r, m', i') ->
  forall u v t, SpecTemplateMemory.stands_for u m v t -> SpecTemplateMemory.stands_for u m' v t.
Proof.
  intros E u v t. apply stands_old. apply never_written in E. split; auto. destruct E as [E1 E2]. split; apply grows; auto.
Qed.
End Kept.
