(** Theorems about QualifyTemplateData. *)
From Coq Require Import Permutation.
From Verif Require Import Base BaseFacts GoPath Types SpecTypes TypesFacts Imports SpecImports ImportsProofs ImportsTheorems Conv World
  Template SpecTemplate TemplateProofs TemplateRuns TemplateOrder.

Section Theorems.
Variable implements : gty -> string -> bool.
Variable unsafe : bool.
Variable parent_of : spec -> res (option Package).
Notation typed := (typed implements).
Notation reqs := (data_requests unsafe parent_of).
Notation readable := (readable unsafe parent_of).
Notation storable := (storable unsafe parent_of).
Notation renamed := (renamed implements unsafe parent_of).
Notation Q := (QualifyTemplateData implements unsafe parent_of).
Notation walk := (qualifyTemplateData implements unsafe parent_of).

Lemma written_iff i p n : Inv i -> written_as i p n <-> prefix_name i p = Some n.
Proof.
  intros Hi. unfold written_as. change (if String.eqb n "" then "" else (n ++ ".")%string) with (with_dot n).
  rewrite PrefixForPackage_iff by auto. split.
  - intros (m & P & E). apply with_dot_inj in E. congruence.
  - eauto.
Qed.
Lemma run_registrations l : forall i, run (registrations l) i = after l i.
Proof. induction l as [|[p n] l IH]; intros i; auto. apply IH. Qed.
Lemma interface_box t d v : interface_of v = match box (VIface t d) v with VIface _ r => r | _ => None end.
Proof. destruct v; auto. Qed.

Lemma nil_data i : Q None i = (Ok None, i).
Proof. reflexivity. Qed.
Lemma unchanged_data own h d : let i := run h (NewImportsFor own) in
  typed (data d) -> readable true (data d) ->
  (forall p n, In (p, n) (reqs (data d)) -> written_as i p n) -> Q (Some d) i = (Ok (Some d), i).
Proof.
  intros i T R S. assert (Hi : Inv i) by apply run_new_Inv.
  destruct (walk_settled implements unsafe parent_of (data d) true i T R Hi) as (v' & E).
  { intros p n H. apply written_iff; auto. }
  unfold QualifyTemplateData, sbind. change (VIface "interface {}" (Some d)) with (data d). rewrite E. unfold sret.
  rewrite (interface_box any (Some d)).
  pose proof (d_same _ _ _ _ _ _ _ _ (walk_does implements unsafe parent_of (data d) true T i v' false i Hi E) eq_refl) as B.
  fold (data d). rewrite B. auto.
Qed.

Lemma renamed_data own h d r i' : let i := run h (NewImportsFor own) in
  typed (data d) -> Q (Some d) i = (Ok r, i') ->
  i' = run (registrations (reqs (data d))) i /\ exists c, renamed (name_in i') c (data d) (VIface any r).
Proof.
  intros i T E. assert (Hi : Inv i) by apply run_new_Inv. unfold QualifyTemplateData, sbind in E.
  change (VIface "interface {}" (Some d)) with (data d) in E.
  destruct (walk true (data d) i) as [[[v' c]|m] i1] eqn:Ew; [|discriminate]. injection E as <- <-.
  pose proof (walk_does implements unsafe parent_of (data d) true T i v' c i1 Hi Ew) as [A S N F R].
  split. { rewrite run_registrations. exact A. }
  exists c. assert (I1 : Inv i1) by (rewrite A; apply after_Inv; auto).
  specialize (R i1 I1 (ext_refl i1)). rewrite (interface_box any (Some d)). fold (data d).
  assert (B : exists x, box (data d) v' = VIface any x) by (unfold data; destruct v'; cbn; eauto).
  destruct B as (x & B). rewrite B in *. exact R.
Qed.
(** Every package referred to has the name that stands in the renamed data. *)
Lemma names_registered own h d r i' p n : let i := run h (NewImportsFor own) in
  typed (data d) -> Q (Some d) i = (Ok r, i') -> In (p, n) (reqs (data d)) -> written_as i' p (name_in i' p).
Proof.
  intros i T E H. assert (Hi : Inv i) by apply run_new_Inv. destruct (renamed_data own h d r i' T E) as [A _].
  rewrite run_registrations in A.
  assert (I' : Inv i') by (rewrite A; apply after_Inv; auto).
  apply written_iff; auto. pose proof (after_prefix (reqs (data d)) i p n Hi H) as K. fold i in A. rewrite <- A in K.
  destruct (prefix_name i' p) as [m|] eqn:P; [|congruence]. f_equal. symmetry. apply name_in_prefix; auto.
Qed.

Lemma renamed_typeof nm v : forall c v', typed v -> renamed nm c v v' -> plain_pointers v -> typeof v' = typeof v.
Proof.
  induction v as [t|t d IH|t fs IH|e|e x IH|t l IH|t l IH|t es IH|p|s|m|s|s r|e|im|n|r|g|o|p|t n] using val_ind';
    intros c v' T R S; inversion R; subst; auto.
  destruct S as [Nx S]. destruct T as [<- T]. cbn [typeof].
  assert (G : held x' = x').
  { destruct x'; auto. exfalso. clear - H3 Nx. inversion H3; subst; discriminate Nx. }
  rewrite G. f_equal. eapply IH; eauto.
Qed.
Lemma type_kept own h d r i' : let i := run h (NewImportsFor own) in
  typed (data d) -> Q (Some d) i = (Ok r, i') -> plain_pointers d -> denotes d = None ->
  exists d', r = Some d' /\ typeof d' = typeof d.
Proof.
  intros i T E S D. destruct (renamed_data own h d r i' T E) as (_ & c & R). inversion R; subst; try congruence.
  - eexists. split; [reflexivity|]. cbn [typeof]. destruct n; auto.
  - exists d'. split; auto. destruct T as (_ & _ & T).
    match goal with H : as_type d = None, R' : SpecTemplate.renamed _ _ _ _ _ d d' |- _ =>
      rewrite H, D in T; eapply renamed_typeof; [exact T|exact R'|exact S] end.
Qed.

Lemma no_panic own h d : let i := run h (NewImportsFor own) in
  typed (data d) -> readable true (data d) -> storable true (data d) -> exists r i', Q (Some d) i = (Ok r, i').
Proof.
  intros i T R S. assert (Hi : Inv i) by apply run_new_Inv.
  destruct (walk_runs implements unsafe parent_of (data d) true T R S i Hi) as (v' & c & i' & E & _).
  unfold QualifyTemplateData, sbind. change (VIface "interface {}" (Some d)) with (data d). rewrite E. unfold sret. eauto.
Qed.

Lemma any_order own h d w r i' : let i := run h (NewImportsFor own) in
  typed (data d) -> keys_apart implements unsafe parent_of (name_in i) (data d) ->
  (forall p n, In (p, n) (reqs (data d)) -> exists x, fst (PrefixForPackage p i) = Ok x) ->
  shuffled d w -> Q (Some d) i = (Ok r, i') ->
  i' = i /\ exists d' w', r = Some d' /\ Q (Some w) i = (Ok (Some w'), i) /\ shuffled d' w'.
Proof.
  intros i T A K Sh E. assert (Hi : Inv i) by apply run_new_Inv.
  assert (KK : knows i (reqs (data d))).
  { intros p n H. destruct (K p n H) as (x & Ex). apply PrefixForPackage_iff in Ex as (m & P & _); auto. congruence. }
  unfold QualifyTemplateData, sbind in *. change (VIface "interface {}" (Some d)) with (data d) in E.
  change (VIface "interface {}" (Some w)) with (data w).
  destruct (walk true (data d) i) as [[[v' c]|m] i1] eqn:Ew; [|discriminate]. injection E as <- <-.
  pose proof (known_state implements unsafe parent_of true (data d) i v' c i1 T Hi KK Ew) as ->. split; auto.
  destruct (walk_shuffled implements unsafe parent_of (data d) true i v' c i (data w) T Hi KK A (sh_iface any d w Sh) Ew) as (w' & E2 & S2 & _).
  rewrite E2. unfold sret.
  pose proof (walk_does implements unsafe parent_of (data d) true T i v' c i Hi Ew) as [_ Sm N _ _].
  assert (G : exists d', interface_of v' = Some d').
  { rewrite (interface_box any (Some d)). fold (data d). destruct c; [|rewrite Sm by auto; eexists; reflexivity].
    unfold data. rewrite box_new by auto. eauto. }
  destruct G as (d' & G). rewrite G.
  assert (H : exists w0, interface_of w' = Some w0 /\ shuffled d' w0).
  { clear - G S2. destruct S2; cbn [interface_of] in *; try (injection G as <-; eexists; split; [reflexivity|constructor; eauto; fail]).
    - eexists. split; [exact G|apply sh_same].
    - injection G as <-. eauto.
    - injection G as <-. eexists. split; [reflexivity|]. econstructor; eauto. }
  destruct H as (w0 & -> & H). exists d', w0. auto.
Qed.

Lemma external own h d x : let i := run h (NewImportsFor own) in
  denotes d = Some (Ok x) -> ref_wf x -> exists i',
  i' = run (registrations (ref_requests x)) i /\
  ((ref_as (name_in i') x = x /\ Q (Some d) i = (Ok (Some d), i')) \/
   (ref_as (name_in i') x <> x /\
    Q (Some d) i = (Ok (Some (if implements (typeof (shown (ref_as (name_in i') x))) any then shown (ref_as (name_in i') x) else d)), i'))).
Proof.
  intros i D V. assert (Hi : Inv i) by apply run_new_Inv. exists (after (ref_requests x) i). split; [symmetry; apply run_registrations|].
  destruct (replacement_ref implements any (data d) d x i Hi D V) as (m & r' & c & Em & E & Ch & R).
  assert (Ia : Inv (after (ref_requests x) i)) by (apply after_Inv; auto).
  specialize (R _ Ia (ext_refl _)). set (i' := after (ref_requests x) i) in *. rewrite <- R.
  unfold QualifyTemplateData, sbind. cbn [qualifyTemplateData].
  change (VIface "interface {}" (Some d)) with (data d). change "interface {}" with any. rewrite Em, E. unfold sret.
  destruct c; cbn [andb tells] in *.
  - right. split; auto. destruct (implements _ _); auto. destruct r'; auto.
  - left. split; auto.
Qed.

Lemma same_plain addr v i v' i' : is_iface v = false -> walk addr v i = (Ok (v', false), i') -> v' = v.
Proof.
  intros N E. destruct v as [t [d|]|t fs|e [x|]|t l|t l|t es|p|s|m|s|s r|[cm s p|cm n s p]|im|n|r|g|o|p|t n];
    try discriminate N; cbn [qualifyTemplateData] in E; unfold sbind, sret, slift in E; try (injection E; auto; fail);
    repeat match type of E with
    | context [match ?m with _ => _ end] => destruct m eqn:?; try discriminate E
    | context [if ?m then _ else _] => destruct m eqn:?; try discriminate E
    end; injection E; intros; subst; congruence.
Qed.
Lemma same_data x i w i' : is_iface x = false -> walk true (data x) i = (Ok (w, false), i') -> interface_of w = Some x.
Proof.
  intros N E. unfold data in E. cbn [qualifyTemplateData] in E.
  destruct (replacement implements any (VIface any (Some x)) x) eqn:R.
  - destruct x; try discriminate R; cbn [replacement] in R; injection R as <-; unfold sbind, sret, slift, replace in E;
    repeat match type of E with
    | context [match ?m with _ => _ end] => destruct m eqn:?; try discriminate E
    | context [if ?m then _ else _] => destruct m eqn:?; try discriminate E
    end; injection E; intros; subst; auto.
  - apply same_plain in E; auto. subst w. destruct x; auto; discriminate N.
Qed.
Lemma twice own h d r i' : let i := run h (NewImportsFor own) in
  typed (data d) -> Q (Some d) i = (Ok r, i') ->
  forall h', let j := run h' i' in simple unsafe parent_of (name_in j) (data d) -> Q r j = (Ok r, j).
Proof.
  intros i T E h' j S. assert (Hi : Inv i) by apply run_new_Inv. unfold QualifyTemplateData at 1 in E. unfold sbind in E.
  change (VIface "interface {}" (Some d)) with (data d) in E.
  destruct (walk true (data d) i) as [[[v' c]|m] i1] eqn:Ew; [|discriminate]. injection E as <- <-.
  pose proof (walk_does implements unsafe parent_of (data d) true T i v' c i1 Hi Ew) as D.
  assert (I1 : Inv i1) by (rewrite (d_after _ _ _ _ _ _ _ _ D); apply after_Inv; auto).
  assert (Hj : Inv j /\ ext i1 j) by (apply run_keep; auto). destruct Hj as [Hj X].
  destruct (walk_settles implements unsafe parent_of (data d) true i v' c i1 T Hi Ew j Hj X S true (fun _ => eq_refl)) as (w & Ek).
  rewrite (interface_box any (Some d)). fold (data d).
  assert (B : exists x, box (data d) v' = data x /\ is_iface x = false).
  { destruct c.
    - exists v'. pose proof (d_new _ _ _ _ _ _ _ _ D eq_refl) as N. split; auto. unfold data. now rewrite box_new.
    - exists d. rewrite (d_same _ _ _ _ _ _ _ _ D eq_refl). destruct T as (_ & N & _). auto. }
  destruct B as (x & B & N). rewrite B in *. unfold data. unfold QualifyTemplateData, sbind.
  change (VIface "interface {}" (Some x)) with (data x). rewrite Ek. unfold sret. now rewrite (same_data x j w j).
Qed.
End Theorems.

Lemma template_keeps implements unsafe isPrint verb other texec w d i :
  pkgPath (snd (tq (template_env implements unsafe isPrint verb other texec) w d i)) = pkgPath i.
Proof. apply k_template. Qed.
