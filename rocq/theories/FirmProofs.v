(** Qualifying succeeds wherever it succeeded in a world of the same shape, provided that each
    visit does. *)
From Verif Require Import Base BaseFacts Types SpecTypes Imports SpecImports ImportsProofs ImportsTheorems Conv World WorldProofs
  SpecGo SpecRender SpecWorld SpecQualify QualifyProofs QualifyTheorems.

Section Firm.
Context {TD : Type}.
Notation World := (World TD).
Variable env : Env TD.
Variable f : nat.
Variable R : string * string -> Prop.
Variable Pl : loc -> Prop.
Notation J := (J env f R Pl).
Notation le := (le env f R).
Notation good := (good env f R Pl).
(** the shape, but for the files *)
Definition bare (w : World) : World := set_files [] (skel w).
Variable B : World.
Variable G : World -> Prop.
Hypothesis GJ : forall v, G v -> J v.
Hypothesis GB : forall v, G v -> bare v = B.
Hypothesis GV : forall l v, Pl l -> G v -> exists v2, visit env f l v = (Ok tt, v2) /\ G v2.

Definition firm (m : WM unit) (P : World -> list loc) : Prop := forall v0 v1 v,
  J v0 -> bare v0 = B -> (forall l, In l (P (skel v0)) -> Pl l) -> m v0 = (Ok tt, v1) ->
  G v -> exists v2, m v = (Ok tt, v2) /\ G v2.
Definition held m P := good m P /\ firm m P.
Lemma held_ext m m' P : (forall w, J w -> m w = m' w) -> held m' P -> held m P.
Proof.
  intros E [Gd H]. split; [eapply good_ext; eauto|]. intros v0 v1 v J0 B0 PL X GG. rewrite E in X by auto. rewrite E by auto. eapply H; eauto.
Qed.
Lemma held_weak m P Q : (forall sk l, In l (Q sk) <-> In l (P sk)) -> held m P -> held m Q.
Proof.
  intros H [Gd X]. split; [eapply good_weak; eauto|]. intros v0 v1 v J0 B0 PL E. eapply X; eauto. intros l IN. apply PL, H, IN.
Qed.
Lemma held_ret : held (sret tt) (fun _ => []).
Proof. split; [apply good_ret|]. intros v0 v1 v _ _ _ _ GG. exists v. auto. Qed.
Lemma held_visit l : held (visit env f l) (fun _ => [l]).
Proof. split; [apply good_visit|]. intros v0 v1 v _ _ PL _ GG. apply GV; auto. apply PL. left; auto. Qed.
Lemma held_seq m k P Q : held m P -> held k Q -> held (do _ <- m ;; k) (fun sk => P sk ++ Q sk).
Proof.
  intros [Gm Fm] [Gk Fk]. split; [apply good_seq; auto|].
  intros v0 v2 v J0 B0 PL E GG. unfold sbind in E. destruct (m v0) as [[[]|e] v1] eqn:Em; [|discriminate].
  assert (PM : forall l, In l (P (skel v0)) -> Pl l) by (intros l IN; apply PL, in_or_app; auto).
  destruct (Gm v0 v1 J0 PM Em) as (L1 & _). destruct (Fm v0 v1 v J0 B0 PM Em GG) as (u & Eu & GU).
  unfold sbind. rewrite Eu. apply (Fk v1 v2 u); auto.
  - eapply J_le; eauto.
  - unfold bare. rewrite (le_skel _ _ _ _ _ L1). auto.
  - intros l IN. rewrite (le_skel _ _ _ _ _ L1) in IN. apply PL, in_or_app; auto.
Qed.
Lemma held_for {A} (g : A -> WM unit) (P : A -> World -> list loc) (l : list A) :
  (forall a, held (g a) (P a)) -> held (for_each g l) (fun sk => flat_map (fun a => P a sk) l).
Proof. intros H. induction l as [|a l IH]; cbn [for_each flat_map]; [apply held_ret|]. apply held_seq; auto. Qed.
Lemma held_get {A} (tab : World -> list A) i (k : A -> WM unit) (P : A -> World -> list loc) :
  (forall w, tab (skel w) = tab (bare w)) -> (forall a, held (k a) (P a)) ->
  held (do a <- getsk tab i ;; k a) (fun sk => match nth_error (tab sk) i with Some a => P a sk | None => [] end).
Proof.
  intros T H. split; [apply good_get; intros a; apply H|]. intros v0 v1 v J0 B0 PL E GG. rewrite bind_getsk in *.
  rewrite (T v), (GB v GG), <- B0, <- T.
  destruct (nth_error (tab (skel v0)) i) as [a|] eqn:N; [|discriminate]. destruct (H a) as [_ F]. eapply F; eauto.
Qed.
Lemma held_line_at args i : held (line_qualify_at f args i)
  (fun sk => match nth_error (argss sk) args with Some _ => [LArg args i] | None => [] end).
Proof.
  eapply held_ext; [intros w Jw; eapply line_at_eq; eauto|].
  apply (held_get argss args (fun _ => visit env f (LArg args i)) (fun _ _ => [LArg args i])); [reflexivity|]. intros; apply held_visit.
Qed.
Lemma held_line args : held (line_qualify f args) (plan_line args).
Proof.
  eapply held_ext; [intros w Jw; apply line_eq|].
  pose proof (held_get argss args (fun l => for_each (line_qualify_at f args) (seq 0 (List.length l))) _ (fun _ => eq_refl)
    (fun l => held_for _ _ (seq 0 (List.length l)) (held_line_at args))) as H.
  eapply held_weak; [|exact H]. clear.
  intros sk l. unfold plan_line. destruct (nth_error (argss sk) args) as [x|] eqn:E; [|tauto].
  rewrite in_map_iff, in_flat_map. split.
  - intros (i & <- & IN). exists i. split; auto. left; auto.
  - intros (i & IN & [<-|[]]). exists i. auto.
Qed.
Hypothesis NT : forall t, ~ Pl (LTempl t).
Lemma held_code e : held (codeElement_qualify env f e) (plan_code e).
Proof.
  destruct e as [fm args|t]; [apply held_line|]. split; [apply good_code|].
  intros v0 v1 v _ _ PL. exfalso. apply (NT t), PL. left; auto.
Qed.
Lemma held_block cb : held (CodeBlock_qualify env f cb) (plan_block cb).
Proof.
  apply (held_get blocks cb (fun b => for_each (codeElement_qualify env f) b) (fun b sk => flat_map (fun e => plan_code e sk) b)); [reflexivity|].
  intros b. apply held_for. intros e. apply held_code.
Qed.
Lemma held_elem i : held (InterfaceElement_qualify f i) (plan_elem i).
Proof.
  eapply held_ext; [intros w Jw; eapply elem_eq; eauto|].
  apply (held_get ielems i (fun _ => visit env f (LElem i)) (fun _ _ => [LElem i])); [reflexivity|]. intros; apply held_visit.
Qed.
Lemma held_type fuel : forall i, held (TypeSpec_qualify fuel f i) (plan_type fuel i).
Proof.
  induction fuel as [|fuel IH]; intros i.
  { split; [intros w w1 Jw _ E|intros v0 v1 v _ _ _ E]; discriminate. }
  cbn [plan_type].
  assert (GF : forall fid, held (field_step f fuel fid) (fun sk =>
            match nth_error (fields sk) fid with
            | None => []
            | Some fs => match FSType fs with
                         | NoType => []
                         | IsName _ => [LField fid]
                         | IsSpec ts => plan_type fuel ts sk
                         end
            end)).
  { intros fid. eapply held_ext; [intros w Jw; eapply field_eq; eauto|].
    apply (held_get fields fid (fun fs => match FSType fs with NoType => sret tt | IsName _ => visit env f (LField fid) | IsSpec ts => TypeSpec_qualify fuel f ts end)
                (fun fs sk => match FSType fs with NoType => [] | IsName _ => [LField fid] | IsSpec ts => plan_type fuel ts sk end)); [reflexivity|].
    intros fs. destruct (FSType fs); [apply held_ret|apply held_visit|apply IH]. }
  eapply held_ext; [intros w Jw; eapply type_eq; eauto|].
  apply (held_get types i (fun T => do _ <- visit env f (LType i) ;; do _ <- for_each (field_step f fuel) (TSStruct T) ;; for_each (InterfaceElement_qualify f) (TSInterface T))
        (fun T sk => [LType i] ++
          flat_map (fun fid =>
            match nth_error (fields sk) fid with
            | None => []
            | Some fs => match FSType fs with
                         | NoType => []
                         | IsName _ => [LField fid]
                         | IsSpec ts => plan_type fuel ts sk
                         end
            end) (TSStruct T) ++
          flat_map (fun e => plan_elem e sk) (TSInterface T))); [reflexivity|].
  intros T. apply (held_seq _ _ (fun _ => [LType i])); [apply held_visit|].
  apply held_seq; apply held_for; auto. intros e; apply held_elem.
Qed.
Section Value.
Variables (tab : World -> list ValueSpec) (set : list ValueSpec -> World -> World) (L : nat -> loc).
Hypothesis TS : forall w, tab (skel w) = map er_value (tab w).
Hypothesis CO : forall i w, cont w (L i) = obind (nth_error (tab w) i) (fun v => tos_content (VSType v)).
Hypothesis SC : forall i w t, set_cont (L i) (CT t) w = set (upd_with i (fun v => with_vtype v (IsName t)) (tab w)) w.
Hypothesis RE : forall j w, tab (reimp f j w) = tab w.
Hypothesis TB : forall w, tab (skel w) = tab (bare w).
Lemma held_value fuel i : held (qualify_value env tab set fuel f i) (plan_value tab L fuel i).
Proof.
  eapply held_ext; [intros w Jw; eapply (value_eq env f R Pl tab set L TS CO SC RE); eauto|].
  apply (held_get tab i (fun v => do _ <- match VSType v with NoType => sret tt | IsName _ => visit env f (L i) | IsSpec ts => TypeSpec_qualify fuel f ts end ;;
              match VInit v with None => sret tt | Some cb => CodeBlock_qualify env f cb end)
        (fun v sk => match VSType v with NoType => [] | IsName _ => [L i] | IsSpec ts => plan_type fuel ts sk end ++
                     match VInit v with None => [] | Some cb => plan_block cb sk end)); [exact TB|].
  intros v.
  apply (held_seq _ _ (fun sk => match VSType v with NoType => [] | IsName _ => [L i] | IsSpec ts => plan_type fuel ts sk end)
           (fun sk => match VInit v with None => [] | Some cb => plan_block cb sk end)).
  - destruct (VSType v); [apply held_ret|apply held_visit|apply held_type].
  - destruct (VInit v); [apply held_block|apply held_ret].
Qed.
End Value.
Lemma held_element fuel e : held (FileElement_qualify env fuel f e) (plan_element fuel e).
Proof.
  destruct e as [d|d|d|i]; cbn [FileElement_qualify plan_element].
  - apply (held_get constDecls d (fun D => for_each (qualify_value env consts set_consts fuel f) (VDSpecs D))
            (fun D sk => flat_map (fun i => plan_value consts LConst fuel i sk) (VDSpecs D))); [reflexivity|].
    intros D. apply held_for. intros i. apply held_value; auto.
  - apply (held_get varDecls d (fun D => for_each (qualify_value env vars set_vars fuel f) (VDSpecs D))
            (fun D sk => flat_map (fun i => plan_value vars LVar fuel i sk) (VDSpecs D))); [reflexivity|].
    intros D. apply held_for. intros i. apply held_value; auto.
  - apply (held_get typeDecls d (fun D => for_each (TypeSpec_qualify fuel f) (TDTypes D))
            (fun D sk => flat_map (fun i => plan_type fuel i sk) (TDTypes D))); [reflexivity|].
    intros D. apply held_for. intros i. apply held_type; auto.
  - eapply held_ext; [intros w Jw; eapply (func_eq env f R Pl fuel); eauto|].
    apply (held_get funcs i (fun F => do _ <- visit env f (LFunc i) ;; CodeBlock_qualify env f (FNBody F))
             (fun F sk => [LFunc i] ++ plan_block (FNBody F) sk)); [reflexivity|].
    intros F. apply (held_seq _ _ (fun _ => [LFunc i])); [apply held_visit|apply held_block].
Qed.
(** Each element where it is reached, in the first run, succeeds in the second. *)
Lemma each_reached {A} (g : A -> WM unit) (P : A -> World -> list loc) (l : list A) : (forall a, good (g a) (P a)) ->
  forall v0 v1, J v0 -> bare v0 = B -> (forall a, In a l -> forall x, In x (P a (skel v0)) -> Pl x) -> for_each g l v0 = (Ok tt, v1) ->
  forall a, In a l -> exists u u1, J u /\ bare u = B /\ (forall x, In x (P a (skel u)) -> Pl x) /\ g a u = (Ok tt, u1).
Proof.
  intros GG. induction l as [|b l IH]; intros v0 v1 J0 B0 PL E a IN; [destruct IN|].
  cbn [for_each] in E. unfold sbind in E. destruct (g b v0) as [[[]|e] v] eqn:Eb; [|discriminate].
  destruct IN as [<-|IN].
  - exists v0, v. split; auto. split; auto. split; auto. intros x. apply PL. left; auto.
  - assert (PB : forall x, In x (P b (skel v0)) -> Pl x) by (apply PL; left; auto).
    destruct (GG b v0 v J0 PB Eb) as (L & _). apply (IH v v1); auto.
    + eapply J_le; eauto.
    + unfold bare. rewrite (le_skel _ _ _ _ _ L). auto.
    + intros c IC x. rewrite (le_skel _ _ _ _ _ L). apply PL. right; auto.
Qed.
Lemma firm_elements fuel es es' v0 v1 v : incl es' es ->
  J v0 -> bare v0 = B -> (forall e, In e es -> forall l, In l (plan_element fuel e (skel v0)) -> Pl l) ->
  for_each (FileElement_qualify env fuel f) es v0 = (Ok tt, v1) -> G v ->
  exists v2, for_each (FileElement_qualify env fuel f) es' v = (Ok tt, v2) /\ G v2.
Proof.
  intros INC J0 B0 PL E. pose proof (each_reached _ _ es (fun e => proj1 (held_element fuel e)) v0 v1 J0 B0 PL E) as H. clear E.
  revert v. induction es' as [|e es' IH]; intros v GG; [exists v; auto|].
  destruct (H e) as (u & u1 & Ju & Bu & Pu & Eu); [apply INC; left; auto|].
  destruct (proj2 (held_element fuel e) u u1 v Ju Bu Pu Eu GG) as (v' & E' & G').
  cbn [for_each]. unfold sbind. rewrite E'. apply IH; auto. intros x IN. apply INC. right; auto.
Qed.
End Firm.
