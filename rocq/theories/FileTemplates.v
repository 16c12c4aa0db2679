(** Files whose code contains templates. *)
From Verif Require Import Base BaseFacts GoPath Types SpecTypes TypesFacts Imports SpecImports ImportsProofs ImportsTheorems Conv World
  SpecGo SpecRender SpecFile SpecDecl FileTheorems TextTheorems SettleProofs SpecQualify QualifyProofs QualifyTheorems SourceTheorems MeaningProofs SpecTotal TotalProofs TotalTheorems
  Template SpecTemplate TemplateProofs TemplateRuns TemplateTheorems SpecFileTemplate.

(** ** Only what [parent_of] returns matters *)
Section Parents.
Variable implements : gty -> string -> bool.
Variable unsafe : bool.
Variables p1 p2 : spec -> res (option Package).
Hypothesis SAME : forall s, p1 s = p2 s.
Lemma parent_same s r : spec_parent p1 s r = spec_parent p2 s r.
Proof. destruct r; cbn; auto. Qed.
Definition same_run (r1 r2 : val -> IM (val * bool)) (v : val) : Prop := forall i, r1 v i = r2 v i.
Lemma elems_same r1 r2 ok l : Forall (same_run r1 r2) l -> forall started i,
  elems_loop implements r1 ok l started i = elems_loop implements r2 ok l started i.
Proof.
  induction 1 as [|x l H _ IH]; intros started i; cbn [elems_loop]; auto. unfold sbind. rewrite (H i).
  destruct (r2 x i) as [[[x' c]|m] i1]; auto. destruct (started || c).
  - destruct (slift _ i1) as [[u|m] i2]; auto. destruct (slift (store implements x x') i2) as [[y|m] i3]; auto. rewrite IH. auto.
  - rewrite IH. auto.
Qed.
Lemma fields_same r1 r2 addr l : Forall (fun f => same_run r1 r2 (snd f)) l -> forall earlier started i,
  fields_loop implements unsafe r1 addr earlier l started i = fields_loop implements unsafe r2 addr earlier l started i.
Proof.
  induction 1 as [|[e x] l H _ IH]; intros earlier started i; cbn [fields_loop]; auto. cbn [snd] in H. unfold sbind.
  assert (G : getField_qualify unsafe r1 addr e x i = getField_qualify unsafe r2 addr e x i).
  { unfold getField_qualify. destruct e; [apply H|]. destruct unsafe; [|auto]. destruct addr; [apply H|auto]. }
  rewrite G. destruct (getField_qualify unsafe r2 addr e x i) as [[[x' c]|m] i1]; auto. destruct (started || c).
  - destruct (slift _ i1) as [[u|m] i2]; auto. destruct (slift (store implements x x') i2) as [[y|m] i3]; auto. rewrite IH. auto.
  - rewrite IH. auto.
Qed.
Lemma entries_same r1 r2 l : Forall (fun e => same_run r1 r2 (fst e) /\ same_run r1 r2 (snd e)) l -> forall m started i,
  map_loop implements r1 l m started i = map_loop implements r2 l m started i.
Proof.
  induction 1 as [|[k x] l [HK HX] _ IH]; intros m started i; cbn [map_loop]; auto. cbn [fst snd] in *. unfold sbind.
  rewrite (HK i). destruct (r2 k i) as [[[k' ck]|e] i1]; auto. rewrite (HX i1). destruct (r2 x i1) as [[[x' cx]|e] i2]; auto.
  destruct (started || ck || cx).
  - destruct (slift (store implements k k') i2) as [[k''|e] i3]; auto. destruct (slift (store implements x x') i3) as [[x''|e] i4]; auto.
  - auto.
Qed.
Lemma walk_same v : forall addr, same_run (qualifyTemplateData implements unsafe p1 addr) (qualifyTemplateData implements unsafe p2 addr) v.
Proof.
  induction v as [t|t d IH|t fs IH|e|e x IH|t l IH|t l IH|t es IH|p|s|m|s|s r|e|im|n|r|g|o|p|t n] using val_ind';
    intros addr i; cbn [qualifyTemplateData]; auto.
  - destruct (replacement implements t (VIface t (Some d)) d); auto. apply IH.
  - unfold sbind. rewrite (fields_same _ (qualifyTemplateData implements unsafe p2 addr)); auto.
    eapply Forall_impl; [|exact IH]. cbn. auto.
  - unfold sbind. rewrite (IH true i). auto.
  - unfold sbind. rewrite (elems_same _ (qualifyTemplateData implements unsafe p2 true)); auto. eapply Forall_impl; [|exact IH]. cbn. auto.
  - unfold sbind. rewrite (elems_same _ (qualifyTemplateData implements unsafe p2 addr)); auto. eapply Forall_impl; [|exact IH]. cbn. auto.
  - unfold sbind. rewrite (entries_same _ (qualifyTemplateData implements unsafe p2 false)); auto.
    eapply Forall_impl; [|exact IH]. cbn. intros a [A B]. auto.
  - unfold sbind. rewrite parent_same. auto.
Qed.
Lemma template_same d i : QualifyTemplateData implements unsafe p1 d i = QualifyTemplateData implements unsafe p2 d i.
Proof. destruct d as [d|]; auto. unfold QualifyTemplateData, sbind. rewrite (walk_same (VIface "interface {}" (Some d)) true i). auto. Qed.
Lemma requests_same v : data_requests unsafe p1 v = data_requests unsafe p2 v.
Proof.
  induction v as [t|t d IH|t fs IH|e|e x IH|t l IH|t l IH|t es IH|p|s|m|s|s r|e|im|n|r|g|o|p|t n] using val_ind';
    cbn [data_requests]; auto.
  - rewrite IH. auto.
  - induction IH as [|f l H _ IH]; cbn [flat_map]; auto. rewrite H, IH. auto.
  - induction IH as [|f l H _ IH]; cbn [flat_map]; auto. rewrite H, IH. auto.
  - induction IH as [|f l H _ IH]; cbn [flat_map]; auto. rewrite H, IH. auto.
  - induction IH as [|f l [H1 H2] _ IH]; cbn [flat_map]; auto. rewrite H1, H2, IH. auto.
  - rewrite parent_same. auto.
Qed.
Lemma simple_same nm v : simple unsafe p1 nm v -> simple unsafe p2 nm v.
Proof.
  induction v as [t|t d IH|t fs IH|e|e x IH|t l IH|t l IH|t es IH|p|s|m|s|s r|e|im|n|r|g|o|p|t n] using val_ind';
    cbn [simple]; auto.
  - induction IH as [|f l H _ IH]; cbn; tauto.
  - tauto.
  - induction IH as [|f l H _ IH]; cbn; tauto.
  - induction IH as [|f l H _ IH]; cbn; tauto.
  - induction IH as [|f l [H1 H2] _ IH]; cbn; tauto.
  - rewrite parent_same. auto.
Qed.
Lemma readable_same v : forall addr, readable unsafe p1 addr v -> readable unsafe p2 addr v.
Proof.
  induction v as [t|t d IH|t fs IH|e|e x IH|t l IH|t l IH|t es IH|p|s|m|s|s r|e|im|n|r|g|o|p|t n] using val_ind';
    intros addr; cbn [readable]; auto.
  - destruct (denotes d); auto.
  - induction IH as [|f l H _ IH]; cbn; auto. specialize (H addr). intuition.
  - induction IH as [|f l H _ IH]; cbn; auto. specialize (H true). intuition.
  - induction IH as [|f l H _ IH]; cbn; auto. specialize (H addr). intuition.
  - induction IH as [|f l [H1 H2] _ IH]; cbn; auto. specialize (H1 false). specialize (H2 false). intuition.
  - rewrite parent_same. auto.
Qed.
Lemma storable_same v : forall addr, storable unsafe p1 addr v -> storable unsafe p2 addr v.
Proof.
  induction v as [t|t d IH|t fs IH|e|e x IH|t l IH|t l IH|t es IH|p|s|m|s|s r|e|im|n|r|g|o|p|t n] using val_ind';
    intros addr; cbn [storable]; auto.
  - destruct (denotes d); auto.
  - rewrite (requests_same (VStruct t fs)). intros [A B]. split; auto. clear A.
    induction IH as [|f l H _ IH]; cbn in *; auto. specialize (H addr). intuition.
  - rewrite requests_same. specialize (IH true). intuition.
  - induction IH as [|f l H _ IH]; cbn; auto. specialize (H true). intuition.
  - rewrite (requests_same (VArray t l)). intros [A B]. split; auto. clear A.
    induction IH as [|f l H _ IH]; cbn in *; auto. specialize (H addr). intuition.
  - induction IH as [|f l [H1 H2] _ IH]; cbn; auto. specialize (H1 false). specialize (H2 false). intuition.
Qed.
End Parents.

Lemma parent_skel {TD} (w : World TD) s : world_parent (skel w) s = world_parent w s.
Proof.
  assert (FP : forall p, file_package p (skel w) = file_package p w).
  { intros p. unfold file_package, rd, skel. cbn [files]. rewrite nth_error_map. destruct (nth_error (files w) p) as [F|]; auto. }
  destruct s as [id|id|id|id]; unfold world_parent, rd, skel; cbn [consts vars types funcs]; rewrite nth_error_map.
  - destruct (nth_error (consts w) id) as [v|]; auto. cbn. destruct (VParent v); auto. rewrite FP. auto.
  - destruct (nth_error (vars w) id) as [v|]; auto. cbn. destruct (VParent v); auto. rewrite FP. auto.
  - destruct (nth_error (types w) id) as [v|]; auto. cbn. destruct (TSParent v); auto. rewrite FP. auto.
  - destruct (nth_error (funcs w) id) as [v|]; auto. cbn. destruct (FNParent v); auto. rewrite FP. auto.
Qed.

(** ** The data of one template *)
Section Data.
Variable implements : gty -> string -> bool.
Variable unsafe : bool.
Variable parent_of : spec -> res (option Package).
Notation typed := (typed implements).
Notation reqs := (data_requests unsafe parent_of).
Notation renamed := (renamed implements unsafe parent_of).
Notation Q := (QualifyTemplateData implements unsafe parent_of).
Notation walk := (qualifyTemplateData implements unsafe parent_of).
Lemma data_after d i r i' : Inv i -> typed (data d) -> Q (Some d) i = (Ok r, i') ->
  i' = fold_left reg_pair (reqs (data d)) i /\
  (exists c, forall j, Inv j -> ext i' j -> renamed (name_in j) c (data d) (VIface any r)) /\
  (forall j, Inv j -> ext i' j -> simple unsafe parent_of (name_in j) (data d) -> Q r j = (Ok r, j)).
Proof.
  intros Hi T E. unfold QualifyTemplateData at 1 in E. unfold sbind in E.
  change (VIface "interface {}" (Some d)) with (data d) in E.
  destruct (walk true (data d) i) as [[[v' c]|m] i1] eqn:Ew; [|discriminate]. injection E as <- <-.
  pose proof (walk_does implements unsafe parent_of (data d) true T i v' c i1 Hi Ew) as D.
  split; [exact (d_after _ _ _ _ _ _ _ _ D)|]. rewrite (interface_box any (Some d)). fold (data d). split.
  - exists c. intros j Hj X. pose proof (d_renamed _ _ _ _ _ _ _ _ D j Hj X) as R.
    assert (B : exists x, box (data d) v' = VIface any x) by (unfold data; destruct v'; cbn; eauto).
    destruct B as (x & B). rewrite B in *. exact R.
  - intros j Hj X S.
    destruct (walk_settles implements unsafe parent_of (data d) true i v' c i1 T Hi Ew j Hj X S true (fun _ => eq_refl)) as (w & Ek).
    assert (B : exists x, box (data d) v' = data x /\ is_iface x = false).
    { destruct c.
      - exists v'. pose proof (d_new _ _ _ _ _ _ _ _ D eq_refl) as N. split; auto. unfold data. now rewrite box_new.
      - exists d. rewrite (d_same _ _ _ _ _ _ _ _ D eq_refl). destruct T as (_ & N & _). auto. }
    destruct B as (x & B & N). rewrite B in *. unfold data. unfold QualifyTemplateData, sbind.
    change (VIface "interface {}" (Some x)) with (data x). rewrite Ek. unfold sret.
    rewrite (same_data implements unsafe parent_of x j w j N Ek). auto.
Qed.
Lemma data_runs d i : Inv i -> typed (data d) -> readable unsafe parent_of true (data d) -> storable unsafe parent_of true (data d) ->
  exists r i', Q (Some d) i = (Ok r, i').
Proof.
  intros Hi T R S. destruct (walk_runs implements unsafe parent_of (data d) true T R S i Hi) as (v' & c & i' & E & _).
  unfold QualifyTemplateData, sbind. change (VIface "interface {}" (Some d)) with (data d). rewrite E. unfold sret. eauto.
Qed.
End Data.

(** ** The file *)
Section File.
Variable implements : gty -> string -> bool.
Variable unsafe : bool.
Variables (isPrint : N -> bool) (verb : World (option val) -> ascii -> Arg -> string)
  (other : World (option val) -> string -> list Arg -> string)
  (texec : World (option val) -> nat -> option val -> res string).
Notation env := (template_env implements unsafe isPrint verb other texec).
Implicit Types w : World (option val).
Definition asked w (d : option val) : list (string * string) :=
  match d with Some d => data_requests unsafe (world_parent w) (data d) | None => [] end.
Lemma tq_skel w w' d i : skel w' = skel w -> tq env w' d i = tq env (skel w) d i.
Proof.
  intros SK. cbn [tq template_env]. apply template_same. intros s. rewrite <- (parent_skel w'), SK. auto.
Qed.
Lemma data_asks_for w d : typed implements (data d) -> (forall nm, simple unsafe (world_parent w) nm (data d)) ->
  data_asks env w (Some d) (asked w (Some d)).
Proof.
  intros T S. split; [intros w' i SK _; apply tq_skel; auto|].
  intros i d' i' Hi E. rewrite <- (tq_skel w w) in E by auto. cbn [tq template_env] in E.
  destruct (data_after implements unsafe (world_parent w) d i d' i' Hi T E) as (A & _ & ST). split; [exact A|].
  intros w' j SK Hj X. rewrite (tq_skel w w') by auto. rewrite <- (tq_skel w w) by auto. cbn [tq template_env]. auto.
Qed.
Lemma nil_asks w : data_asks env w None [].
Proof.
  split; [intros; reflexivity|]. intros i d' i' Hi E. injection E as <- <-. split; auto. intros w' j _ _ _. reflexivity.
Qed.
Lemma asks_mentions w f r : template_asks (asked w) w f r <-> data_mentions unsafe w f r.
Proof.
  split.
  - intros (t & tm & [d|] & T & E & IN); [|destruct IN]. exists d. split; auto. exists t, tm. auto.
  - intros (d & (t & tm & T & E) & IN). exists t, tm, (Some d). auto.
Qed.
End File.
