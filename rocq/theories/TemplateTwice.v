(** When a second pass over template data changes nothing: C57. *)
From Verif Require Import Base GoPath Types SpecTypes TypesFacts Imports SpecImports ImportsProofs Conv World Template SpecTemplate TemplateProofs
  TemplateRuns TemplateExact TemplateOrder TemplateText TemplateTheorems ImportsTheorems SettleProofs TotalProofs.

Section Twice.
Variable implements : gty -> string -> bool.
Variable unsafe : bool.
Variable parent_of : spec -> res (option Package).
Notation typed := (typed implements).
Notation reqs := (data_requests unsafe parent_of).
Notation renamed := (renamed implements unsafe parent_of).
Notation keys_apart := (keys_apart implements unsafe parent_of).
Notation moved := (moved implements unsafe parent_of).
Notation simple := (simple unsafe parent_of).
Notation Q := (QualifyTemplateData implements unsafe parent_of).

Lemma held_plain nm c x x' : renamed nm c x x' -> is_iface x = false -> held x' = x'.
Proof. intros R N. apply renamed_iface in R. rewrite N in R. destruct x'; auto; discriminate. Qed.

(** The result is data of Go's type system again. *)
Lemma renamed_typed nm v : forall c v', renamed nm c v v' -> typed v -> plain_pointers v -> keys_apart nm v -> typed v'.
Proof.
  induction v as [t|t d IH|t fs IH|e|e x IH|t l IH|t l IH|t es IH|p|s|m|s|s r|e|im|n|r|g|o|p|t n] using val_ind';
    intros c v' R T P K; try contradiction; inversion R; subst; clear R; auto.
  - destruct T as (A & B & T). cbn [as_type] in T. split; [|split]; auto.
    + destruct n; auto.
    + cbn [as_type]. unfold type_as. rewrite wf_map. auto.
  - destruct T as (A & B & T). split; [auto|split; [apply shown_not_iface|]].
    match goal with H : denotes d = _ |- _ => rewrite (denotes_not_type _ _ H), H in T end.
    destruct r; cbn in T |- *; auto. unfold type_as. rewrite wf_map. auto.
  - destruct T as (A & B & T).
    match goal with H1 : as_type d = None, H2 : denotes d = None |- _ => rewrite H1, H2 in T end.
    match goal with H : SpecTemplate.renamed _ _ _ _ _ d d' |- _ => rename H into R end.
    split; [rewrite (renamed_typeof implements unsafe parent_of nm d c d' T R P); auto|].
    split; [rewrite (renamed_iface _ _ _ _ _ _ _ R); auto|].
    destruct (renamed_kind _ _ _ _ _ _ _ R B) as [-> ->]. eauto.
  - cbn [SpecTemplate.typed plain_pointers SpecTemplate.keys_apart] in *.
    match goal with H : renamed_fields _ _ _ _ _ _ _ |- _ => rename H into R end.
    revert c fs' R T P K. induction IH as [|[ex x] fs Hx _ IH]; intros c fs' R T P K; inversion R; subst; cbn [fold_right fst snd] in *; auto;
      destruct T, P, K; split; eauto.
  - destruct T as [E T]. destruct P as [N P]. split; auto.
    match goal with H : SpecTemplate.renamed _ _ _ _ _ x x' |- _ => rename H into R end.
    rewrite (held_plain _ _ _ _ R N). eauto.
  - cbn [SpecTemplate.typed plain_pointers SpecTemplate.keys_apart] in *.
    match goal with H : renamed_all _ _ _ _ _ _ _ |- _ => rename H into R end.
    revert c l' R T P K. induction IH as [|x l Hx _ IH]; intros c l' R T P K; inversion R; subst; cbn [fold_right] in *; auto;
      destruct T, P, K; split; eauto.
  - cbn [SpecTemplate.typed plain_pointers SpecTemplate.keys_apart] in *.
    match goal with H : renamed_all _ _ _ _ _ _ _ |- _ => rename H into R end.
    revert c l' R T P K. induction IH as [|x l Hx _ IH]; intros c l' R T P K; inversion R; subst; cbn [fold_right] in *; auto;
      destruct T, P, K; split; eauto.
  - destruct K as [A K]. destruct T as [T _].
    match goal with H : renamed_entries _ _ _ _ _ _ _ |- _ => rename H into R end.
    pose proof (A _ _ R) as O. change (typed (VMap t (fold_left (fun m e => set_entry (fst e) (snd e) m) es' []))).
    rewrite (entries_apart es' [] O). cbn [app]. split; [|exact O]. clear A O. revert R T P K.
    cbn [plain_pointers]. generalize true. revert es'.
    induction IH as [|[k x] es [Hk Hx] _ IH]; intros es' c R T P K; inversion R; subst; cbn [fold_right fst snd] in *; auto.
    destruct T as (? & ? & ?), P as (? & ? & ?), K as (? & ? & ?). split; [|split]; eauto.
  - cbn [SpecTemplate.typed] in *. unfold sig_as, type_as. rewrite wf_sig_map'. auto.
  - cbn [SpecTemplate.typed] in *. unfold sig_as, type_as. rewrite wf_sig_map'. auto.
Qed.

(** If nothing in the result gets another name, the specs of the data got none. *)
Section Back.
Variable j : Imports.
Hypothesis Hj : Inv j.
Notation nm := (name_in j).
Lemma names_inj p q : prefix_name j p <> None -> prefix_name j q <> None -> nm p = nm q -> p = q.
Proof.
  destruct (prefix_name j p) as [a|] eqn:A; [|congruence]. destruct (prefix_name j q) as [b|] eqn:B; [|congruence]. intros _ _ E.
  rewrite (name_in_prefix j p a Hj A), (name_in_prefix j q b Hj B) in E. subst b. eapply prefix_name_inj; eauto.
Qed.
Lemma entries_back es : Forall (fun e =>
    (forall c v', renamed nm c (fst e) v' -> typed (fst e) -> plain_pointers (fst e) -> keys_apart nm (fst e) ->
      knows j (reqs (fst e)) -> knows j (reqs v') -> ~ moved nm v' -> simple nm (fst e)) /\
    (forall c v', renamed nm c (snd e) v' -> typed (snd e) -> plain_pointers (snd e) -> keys_apart nm (snd e) ->
      knows j (reqs (snd e)) -> knows j (reqs v') -> ~ moved nm v' -> simple nm (snd e))) es ->
  forall c es', renamed_entries implements unsafe parent_of nm c es es' ->
  fold_right (fun e P => typed (fst e) /\ typed (snd e) /\ P) True es ->
  fold_right (fun e P => plain_pointers (fst e) /\ plain_pointers (snd e) /\ P) True es ->
  fold_right (fun e P => keys_apart nm (fst e) /\ keys_apart nm (snd e) /\ P) True es ->
  knows j (flat_map (fun e => reqs (fst e) ++ reqs (snd e)) es) -> knows j (flat_map (fun e => reqs (fst e) ++ reqs (snd e)) es') ->
  ~ fold_right (fun e P => moved nm (fst e) \/ moved nm (snd e) \/ P) False es' ->
  fold_right (fun e P => simple nm (fst e) /\ simple nm (snd e) /\ P) True es.
Proof.
  induction 1 as [|[k x] es [Hk Hx] _ IH]; intros c es' R T P K K1 K2 M; inversion R; subst; cbn [fold_right flat_map fst snd] in *; auto.
  destruct T as (? & ? & ?), P as (? & ? & ?), K as (? & ? & ?). apply knows_app in K1 as [K1 K1'], K2 as [K2 K2'].
  apply knows_app in K1 as [? ?], K2 as [? ?]. split; [|split]; [eapply Hk|eapply Hx|eapply IH]; eauto; intuition.
Qed.
Lemma moved_back v : forall c v', renamed nm c v v' -> typed v -> plain_pointers v -> keys_apart nm v ->
  knows j (reqs v) -> knows j (reqs v') -> ~ moved nm v' -> simple nm v.
Proof.
  induction v as [t|t d IH|t fs IH|e|e x IH|t l IH|t l IH|t es IH|p|s|m|s|s r|e|im|n|r|g|o|p|t n] using val_ind';
    intros c v' R T P K K1 K2 M; inversion R; subst; clear R; cbn [SpecTemplate.simple]; auto.
  - destruct d; try discriminate; exact Logic.I.
  - destruct d; try discriminate; exact Logic.I.
  - match goal with H1 : as_type d = None, H2 : denotes d = None |- _ => rename H1 into A, H2 into B end.
    match goal with H : SpecTemplate.renamed _ _ _ _ _ d d' |- _ => rename H into R end.
    destruct T as (_ & N & T). rewrite A, B in T. destruct (renamed_kind _ _ _ _ _ _ _ R N) as [A' B'].
    cbn [data_requests SpecTemplate.moved] in K1, K2, M. rewrite A, B in K1. rewrite A', B' in K2, M. eapply IH; eauto.
  - cbn [SpecTemplate.typed plain_pointers SpecTemplate.keys_apart data_requests SpecTemplate.moved] in *.
    match goal with H : renamed_fields _ _ _ _ _ _ _ |- _ => rename H into R end.
    revert c fs' R T P K K1 K2 M. induction IH as [|[ex x] fs Hx _ IH]; intros c fs' R T P K K1 K2 M; inversion R; subst;
      cbn [fold_right flat_map fst snd] in *; auto; destruct T, P, K; apply knows_app in K1 as [K1 K1'], K2 as [K2 K2'].
    + split; [intros [?|?]; congruence|]. eapply IH; eauto.
    + match goal with H : ex = true \/ unsafe = true |- _ => rename H into V end.
      pose proof (proj2 (orb_true_iff _ _) V) as V'. rewrite V' in K1, K2. split; [intros _; eapply Hx; eauto|eapply IH; eauto].
  - destruct P as [N P]. split; auto. destruct T. eapply IH; eauto.
  - destruct P as [N P]. split; auto. destruct T.
    match goal with H : SpecTemplate.renamed _ _ _ _ _ x x' |- _ => rename H into R end.
    rewrite (held_plain _ _ _ _ R N) in K2, M. eapply IH; eauto.
  - cbn [SpecTemplate.typed plain_pointers SpecTemplate.keys_apart data_requests SpecTemplate.moved] in *.
    match goal with H : renamed_all _ _ _ _ _ _ _ |- _ => rename H into R end.
    revert c l' R T P K K1 K2 M. induction IH as [|x l Hx _ IH]; intros c l' R T P K K1 K2 M; inversion R; subst;
      cbn [fold_right flat_map] in *; auto; destruct T, P, K; apply knows_app in K1 as [K1 K1'], K2 as [K2 K2'].
    split; [eapply Hx|eapply IH]; eauto.
  - cbn [SpecTemplate.typed plain_pointers SpecTemplate.keys_apart data_requests SpecTemplate.moved] in *.
    match goal with H : renamed_all _ _ _ _ _ _ _ |- _ => rename H into R end.
    revert c l' R T P K K1 K2 M. induction IH as [|x l Hx _ IH]; intros c l' R T P K K1 K2 M; inversion R; subst;
      cbn [fold_right flat_map] in *; auto; destruct T, P, K; apply knows_app in K1 as [K1 K1'], K2 as [K2 K2'].
    split; [eapply Hx|eapply IH]; eauto.
  - destruct K as [_ K]. destruct T as [T _]. eapply entries_back; eauto.
  - destruct K as [A K]. destruct T as [T _]. 
    match goal with H : renamed_entries _ _ _ _ _ _ _ |- _ => rename H into R end.
    cbn [data_requests SpecTemplate.moved] in K1, K2, M.
    rewrite (entries_apart es' [] (A _ _ R)) in K2, M. cbn [app] in K2, M. eapply entries_back; eauto.
  - intros p E. congruence.
  - intros q E. left. congruence.
  - intros q E. assert (q = p) by congruence. subst q. right.
    cbn [data_requests spec_parent] in K1, K2. rewrite E in K1.
    symmetry. apply names_inj; [eapply K2; left; reflexivity|eapply K1; left; reflexivity|].
    destruct (String.eqb_spec (nm "") (nm (ImportPath p))) as [G|G]; auto.
    exfalso. apply M. cbn [SpecTemplate.moved spec_parent]. eexists. split; [reflexivity|]. exact G.
Qed.
End Back.

Lemma twice_exact own h d r i' : let i := run h (NewImportsFor own) in
  typed (data d) -> Q (Some d) i = (Ok r, i') ->
  forall h', let k := run h' i' in plain_pointers (data d) -> keys_apart (name_in k) (data d) ->
  (Q r k = (Ok r, k) <-> simple (name_in k) (data d)).
Proof.
  intros i T E h' k P K. split; [|apply (twice implements unsafe parent_of own h d r i' T E h')]. intros Ek.
  assert (Hi : Inv i) by apply run_new_Inv. pose proof E as E0. unfold QualifyTemplateData at 1 in E. unfold sbind in E.
  change (VIface "interface {}" (Some d)) with (data d) in E.
  destruct (qualifyTemplateData implements unsafe parent_of true (data d) i) as [[[v' c]|m] i1] eqn:Ew; [|discriminate]. injection E as Er <-.
  pose proof (walk_does implements unsafe parent_of (data d) true T i v' c i1 Hi Ew) as D.
  assert (I1 : Inv i1) by (rewrite (d_after _ _ _ _ _ _ _ _ D); apply after_Inv; auto).
  assert (Hk : Inv k /\ ext i1 k) by (apply run_keep; auto). destruct Hk as [Hk X].
  pose proof (d_renamed _ _ _ _ _ _ _ _ D k Hk X) as R.
  assert (B : exists x, box (data d) v' = data x /\ r = Some x).
  { rewrite (interface_box any (Some d)) in Er. fold (data d) in Er. destruct c.
    - exists v'. pose proof (d_new _ _ _ _ _ _ _ _ D eq_refl) as N. unfold data in *. rewrite box_new in * by auto. auto.
    - exists d. rewrite (d_same _ _ _ _ _ _ _ _ D eq_refl) in *. auto. }
  destruct B as (x & B & ->). rewrite B in R. clear Er B.
  pose proof (renamed_typed _ _ _ _ R T P K) as Tx.
  assert (Hh : exists hk, k = run hk (NewImportsFor own)).
  { destruct (renamed_data implements unsafe parent_of own h d (Some x) i1 T E0) as [A _].
    eexists (h ++ registrations (reqs (data d)) ++ h'). unfold k. rewrite A. unfold run, i. rewrite !fold_left_app. reflexivity. }
  destruct Hh as (hk & Hh).
  assert (A : k = after (reqs (data x)) k).
  { pose proof (renamed_data implements unsafe parent_of own hk x (Some x) k Tx) as Z. cbv zeta in Z. rewrite <- Hh in Z.
    destruct (Z Ek) as [Z1 _]. rewrite run_registrations in Z1. exact Z1. }
  pose proof (unchanged_exact implements unsafe parent_of own hk x) as U. cbv zeta in U. rewrite <- Hh in U. specialize (U Tx).
  rewrite Ek in U. destruct (proj1 U eq_refl) as [_ M]. rewrite run_registrations, <- A in M.
  eapply (moved_back k Hk (data d) c (data x)); eauto.
  - intros p n IN. destruct (prefix_name i1 p) as [a|] eqn:Pa.
    + rewrite (prefix_name_ext _ _ _ _ X Pa). discriminate.
    + exfalso. rewrite (d_after _ _ _ _ _ _ _ _ D) in Pa. exact (after_prefix _ _ _ _ Hi IN Pa).
  - intros p n IN. rewrite A. eapply after_prefix; eauto.
Qed.
End Twice.
