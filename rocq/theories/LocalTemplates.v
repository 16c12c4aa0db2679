(** Proofs: templates whose data has no specs in it depend on nothing else of the program. *)
From Verif Require Import Base BaseFacts Types Imports Conv World Template SpecTemplate TemplateProofs FileTemplates
  SpecFormat SpecCode SpecAppend SpecOrder SpecQualify SpecShare SpecLocal SpecLocalData.

Section Free.
Variable implements : gty -> string -> bool.
Variable unsafe : bool.
Lemma free_box x y : without_specs y -> without_specs (box x y).
Proof. intros H. destruct x; auto. cbn [box]. destruct y as [t' [d|]| | | | | | | | | | | | | | | | | |]; auto. Qed.
Lemma free_store x y z : store implements x y = Ok z -> without_specs y -> without_specs z.
Proof. unfold store. destruct (assignable _ _ _); [|discriminate]. intros [= <-]. apply free_box. Qed.
Notation frees l := (fold_right (fun x P => without_specs x /\ P) True l).
Notation free_fields l := (fold_right (fun f P => without_specs (snd f) /\ P) True l).
Notation free_entries l := (fold_right (fun e P => (without_specs (fst e) /\ without_specs (snd e)) /\ P) True l).
Definition frees_out (r : val -> IM (val * bool)) (x : val) : Prop := forall i x' c i', r x i = (Ok (x', c), i') -> without_specs x'.
Lemma elems_free r ok l : Forall (frees_out r) l -> frees l -> forall st i l' c i', elems_loop implements r ok l st i = (Ok (l', c), i') -> frees l'.
Proof.
  induction 1 as [|x l H _ IH]; intros W st i l' c i' E; cbn [elems_loop] in E; unfold sbind, sret, slift in E.
  - injection E as <- <- <-. exact I.
  - destruct (r x i) as [[[x' cx]|] i1] eqn:EX; [|discriminate]. destruct W as [WX WL]. destruct (st || cx).
    + destruct (if st then Ok tt else ok); [|discriminate]. destruct (store implements x x') as [y|] eqn:EY; [|discriminate].
      destruct (elems_loop implements r ok l true i1) as [[[l1 c1]|] i2] eqn:EL; [|discriminate]. injection E as <- <- <-. split.
      * eapply free_store; eauto. * eapply IH; eauto.
    + destruct (elems_loop implements r ok l false i1) as [[[l1 c1]|] i2] eqn:EL; [|discriminate]. injection E as <- <- <-. split; auto. eapply IH; eauto.
Qed.
Lemma fields_free r addr l : Forall (fun f => frees_out r (snd f)) l -> free_fields l -> forall e st i l' c i',
  fields_loop implements unsafe r addr e l st i = (Ok (l', c), i') -> free_fields l'.
Proof.
  induction 1 as [|[ex x] l H _ IH]; intros W e st i l' c i' E; cbn [fields_loop] in E; unfold sbind, sret, slift in E.
  - injection E as <- <- <-. exact I.
  - destruct (getField_qualify unsafe r addr ex x i) as [[[x' cx]|] i1] eqn:EX; [|discriminate]. destruct W as [WX WL]. cbn [snd] in *.
    assert (WX' : without_specs x').
    { unfold getField_qualify, sret, spanic in EX. destruct ex; [eapply H; eauto|]. destruct unsafe; [destruct addr; [eapply H; eauto|discriminate]|]. injection EX as <- <- <-. auto. }
    destruct (st || cx).
    + destruct (if (st || e) && ex then Ok tt else Panic p_readonly); [|discriminate]. destruct (store implements x x') as [y|] eqn:EY; [|discriminate].
      destruct (fields_loop implements unsafe r addr (e && ex) l true i1) as [[[l1 c1]|] i2] eqn:EL; [|discriminate]. injection E as <- <- <-. split.
      * eapply free_store; eauto. * eapply IH; eauto.
    + destruct (fields_loop implements unsafe r addr (e && ex) l false i1) as [[[l1 c1]|] i2] eqn:EL; [|discriminate]. injection E as <- <- <-. split; auto. eapply IH; eauto.
Qed.
Lemma entry_free k x m : without_specs k -> without_specs x -> free_entries m -> free_entries (set_entry k x m).
Proof.
  intros WK WX. induction m as [|[k' x'] m IH]; cbn [set_entry]; intros W; [cbn; auto|]. destruct W as [[A B] C]. cbn [fst snd] in *.
  destruct (same_key k k'); cbn; auto.
Qed.
Lemma snoc_free k x m : without_specs k -> without_specs x -> free_entries m -> free_entries (m ++ [(k, x)]).
Proof. intros WK WX. induction m as [|[k' x'] m IH]; cbn; tauto. Qed.
Lemma entries_free r l : Forall (fun e => frees_out r (fst e) /\ frees_out r (snd e)) l -> free_entries l -> forall m st i m' c i', free_entries m ->
  map_loop implements r l m st i = (Ok (m', c), i') -> free_entries m'.
Proof.
  induction 1 as [|[k x] l [HK HX] _ IH]; intros W m st i m' c i' WM E; cbn [map_loop] in E; unfold sbind, sret, slift in E.
  - injection E as <- <- <-. auto.
  - cbn [fst snd] in *. destruct (r k i) as [[[k' ck]|] i1] eqn:EK; [|discriminate]. destruct (r x i1) as [[[x' cx]|] i2] eqn:EX; [|discriminate].
    destruct W as [[WK WX] WL]. cbn [fst snd] in *. destruct (st || ck || cx).
    + destruct (store implements k k') as [k2|] eqn:E1; [|discriminate]. destruct (store implements x x') as [x2|] eqn:E2; [|discriminate].
      eapply (IH WL); [|exact E]. apply entry_free; auto; eapply free_store; eauto.
    + eapply (IH WL); [|exact E]. apply snoc_free; auto.
Qed.
Lemma replaced_free t old d m : replacement implements t old d = Some m -> without_specs old -> forall i v' c i', m i = (Ok (v', c), i') -> without_specs v'.
Proof.
  intros E WO i v' c i' M.
  assert (R : forall new ch j j', without_specs new -> replace implements t old new ch j = (Ok (v', c), j') -> without_specs v').
  { intros new ch j j' WN. unfold replace, sret. destruct (ch && implements (typeof new) t); intros [= <- <- <-]; auto. }
  destruct d; cbn [replacement] in E; try discriminate E; injection E as <-; unfold sbind, slift in M.
  - destruct (EnsureTypeImported t0 i) as [[[n1 b1]|] j1]; [|discriminate]. eapply R; [|exact M]. exact I.
  - destruct (TypeNameForReflectType t0); [|discriminate]. destruct (EnsureTypeImported _ i) as [[[n1 b1]|] j1]; [|discriminate]. eapply R; [|exact M]. exact I.
  - destruct (TypeNameForGoType t0); [|discriminate]. destruct (EnsureTypeImported _ i) as [[[n1 b1]|] j1]; [|discriminate]. eapply R; [|exact M]. exact I.
  - destruct (SymbolForGoObject o) as [[s|s]|]; [| |discriminate]; destruct (EnsureImported _ i) as [[n1|] j1]; try discriminate; (eapply R; [|exact M]); exact I.
  - destruct (PackageForGoType p); [|discriminate]. destruct (registerPackage _ i) as [[n1|] j1]; [|discriminate]. eapply R; [|exact M]. exact I.
Qed.
Variables p1 p2 : spec -> res (option Package).
Notation walk1 := (qualifyTemplateData implements unsafe p1).
Notation walk2 := (qualifyTemplateData implements unsafe p2).
Lemma walk_free v : without_specs v -> forall addr, same_run (walk1 addr) (walk2 addr) v /\ frees_out (walk1 addr) v.
Proof.
  assert (LF : forall l, Forall (fun x => without_specs x -> forall addr, same_run (walk1 addr) (walk2 addr) x /\ frees_out (walk1 addr) x) l -> frees l ->
    forall addr, Forall (same_run (walk1 addr) (walk2 addr)) l /\ Forall (frees_out (walk1 addr)) l).
  { induction 1 as [|x l H _ IH]; intros W addr; [auto|]. destruct W as [WX WL]. destruct (IH WL addr), (H WX addr). auto. }
  induction v as [t|t d IH|t fs IH|e|e x IH|t l IH|t l IH|t es IH|p|s|m|s|s r|e|im|n|r|g|o|p|t n] using val_ind';
    intros W addr; (split; [intros i|intros i v' c i' E]); cbn [qualifyTemplateData] in *; auto;
    try (unfold sret in E; injection E as <- <- <-; exact I); try (exfalso; exact W).
  - destruct (replacement implements t (VIface t (Some d)) d); auto. apply IH. exact W.
  - destruct (replacement implements t (VIface t (Some d)) d) as [m|] eqn:ER; [eapply replaced_free; eauto|]. eapply (IH W false); eauto.
  - unfold sbind. rewrite (fields_same _ _ (walk1 addr) (walk2 addr)); auto.
    clear - IH W. induction IH as [|x l H _ IHl]; [auto|]. destruct W as [WX WL]. constructor; [apply (H WX addr)|auto].
  - unfold sbind, sret in E. destruct (fields_loop implements unsafe (walk1 addr) addr true fs false i) as [[[l' b]|] j] eqn:EL; [|discriminate].
    destruct b; injection E as <- <- <-; [|exact W]. cbn [without_specs]. eapply fields_free; [|exact W|exact EL].
    clear - IH W. induction IH as [|x l H _ IHl]; [auto|]. destruct W as [WX WL]. constructor; [apply (H WX addr)|auto].
  - unfold sbind. rewrite (proj1 (IH W true) i). auto.
  - unfold sbind, sret in E. destruct (walk1 true x i) as [[[x' b]|] j] eqn:EX; [|discriminate]. destruct b; injection E as <- <- <-; [|exact W].
    cbn [without_specs]. eapply (IH W true); eauto.
  - unfold sbind. rewrite (elems_same _ (walk1 true) (walk2 true)); auto. apply LF; auto.
  - unfold sbind, sret in E. destruct (elems_loop implements (walk1 true) (Ok tt) l false i) as [[[l' b]|] j] eqn:EL; [|discriminate].
    destruct b; injection E as <- <- <-; [|exact W]. cbn [without_specs]. eapply elems_free; [|exact W|exact EL]. apply LF; auto.
  - unfold sbind. rewrite (elems_same _ (walk1 addr) (walk2 addr)); auto. apply LF; auto.
  - unfold sbind, sret in E. destruct (elems_loop implements (walk1 addr) (if addr then Ok tt else Panic p_slice) l false i) as [[[l' b]|] j] eqn:EL; [|discriminate].
    destruct b; injection E as <- <- <-; [|exact W]. cbn [without_specs]. eapply elems_free; [|exact W|exact EL]. apply LF; auto.
  - unfold sbind. rewrite (entries_same _ (walk1 false) (walk2 false)); auto.
    clear - IH W. induction IH as [|x l [H1 H2] _ IHl]; [auto|]. destruct W as [[WA WB] WL]. constructor; [split; [apply (H1 WA false)|apply (H2 WB false)]|auto].
  - unfold sbind, sret in E. destruct (map_loop implements (walk1 false) es [] false i) as [[[l' b]|] j] eqn:EL; [|discriminate].
    destruct b; injection E as <- <- <-; [|exact W]. cbn [without_specs]. eapply entries_free; [|exact W| |exact EL]; [|exact I].
    clear - IH W. induction IH as [|x l [H1 H2] _ IHl]; [auto|]. destruct W as [[WA WB] WL]. constructor; [split; [apply (H1 WA false)|apply (H2 WB false)]|auto].
  - unfold sbind, sret in E. destruct (registerPackage p i) as [[a|] j]; [|discriminate]. destruct (negb _); injection E as <- <- <-; exact I.
  - unfold sbind, sret in E. destruct (EnsureImported s i) as [[a|] j]; [|discriminate]. destruct (negb _); injection E as <- <- <-; exact I.
  - unfold sbind, sret in E. destruct (EnsureImported _ i) as [[a|] j]; [|discriminate]. destruct (negb _); injection E as <- <- <-; exact I.
  - unfold sbind, sret in E. destruct (EnsureAllTypesImported s i) as [[[a b]|] j]; [|discriminate]. destruct b; injection E as <- <- <-; exact I.
  - unfold sbind, sret in E. destruct e as [c0 s p|c0 n s p].
    + destruct (EnsureImported s i) as [[a|] j]; [|discriminate]. destruct (negb _); injection E as <- <- <-; exact I.
    + destruct (EnsureAllTypesImported s i) as [[[a b]|] j]; [|discriminate]. destruct b; injection E as <- <- <-; exact I.
Qed.
End Free.
Theorem closed_without_specs implements unsafe isPrint verb other texec : shows_data texec ->
  closed_data (template_env implements unsafe isPrint verb other texec) data_without_specs.
Proof.
  intros SD. split; [|split; [|exact SD]].
  - intros d w w' i W. cbn [tq template_env]. destruct d as [d|]; auto. unfold QualifyTemplateData, sbind.
    rewrite (proj1 (walk_free implements unsafe (world_parent w') (world_parent w) (VIface "interface {}" (Some d)) (W d eq_refl) true) i). auto.
  - intros d w i d' i' W E v ->. cbn [tq template_env] in E. destruct d as [d|]; [|discriminate]. unfold QualifyTemplateData, sbind, sret in E.
    destruct (qualifyTemplateData implements unsafe (world_parent w) true (VIface "interface {}" (Some d)) i) as [[[x c]|] j] eqn:EX; [|discriminate].
    injection E as E <-. pose proof (proj2 (walk_free implements unsafe (world_parent w) (world_parent w) (VIface "interface {}" (Some d)) (W d eq_refl) true) _ _ _ _ EX) as WX.
    destruct x; cbn [interface_of] in E; try (injection E as <-; exact WX). subst dyn. exact WX.
Qed.
