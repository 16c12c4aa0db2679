(** Packages that do not compete for names are named alike in whatever order they are requested. *)
From Coq Require Import Permutation.
From Verif Require Import Base BaseFacts GoPath Types SpecTypes Imports SpecImports ImportsProofs ImportsTheorems SettleProofs Conv World WorldProofs
  SpecQualify QualifyProofs QualifyTheorems SourceProofs SourceTheorems SpecAppend SpecOrder.

Section Tidy.
Variables (own : string) (R : string * string -> Prop).
Hypothesis NC : no_conflict own R.
(** Every package has the name that it is given alone. *)
Definition tidy (i : Imports) : Prop :=
  pkgPath i = own /\
  forall p d, lookup p (importsByPath i) = Some d ->
    exists n, R (p, n) /\ d = mkImportDef (base_name p n) (negb (String.eqb (base_name p n) n)).
Lemma tidy_new : tidy (NewImportsFor own).
Proof. split; [reflexivity|]. intros p d E. discriminate E. Qed.
Lemma Inv_not_own i p d : Inv i -> lookup p (importsByPath i) = Some d -> p <> pkgPath i.
Proof. intros I L ->. rewrite inv_own in L by auto. discriminate. Qed.
Lemma tidy_reg i r : Inv i -> tidy i -> R r -> tidy (reg_pair i r).
Proof.
  intros I [O T] HR. unfold reg_pair, RegisterImport. destruct (prefix_name i (fst r)) as [n|] eqn:P.
  { rewrite (prefix_known _ _ _ _ _ I P). split; auto. }
  destruct (prefix_new i (fst r) (snd r) I P) as (n & i' & E & FR & MN & -> & _). rewrite E. cbn [snd].
  assert (NO : fst r <> own /\ lookup (fst r) (importsByPath i) = None).
  { unfold prefix_name in P. rewrite O in P. destruct (String.eqb_spec (fst r) own); [discriminate|]. split; auto.
    destruct (lookup (fst r) (importsByPath i)); [discriminate|auto]. }
  destruct NO as [NO NL].
  assert (Z : n = 0%N).
  { destruct (N.eq_dec n 0) as [|NZ]; auto. exfalso. assert (LT : (0 < n)%N) by lia. specialize (MN 0%N LT).
    destruct (lookup (cand (base_name (fst r) (snd r)) 0) (pathsByName i)) as [q|] eqn:LQ; [|congruence].
    destruct (inv_bwd _ I _ _ LQ) as (d & LD & PD). destruct (T q d LD) as (m & RM & ->). cbn in PD.
    assert (NQ : q <> own) by (rewrite <- O; eapply Inv_not_own; eauto).
    assert (X : r = (q, m)) by (apply NC; auto; right; symmetry; exact PD). subst r. cbn in NL. congruence. }
  subst n. split; auto. cbn [importsByPath]. intros p d. destruct (String.eqb_spec p (fst r)) as [->|NE].
  - rewrite lookup_insert_same. intros [= <-]. exists (snd r). split; [destruct r; auto|]. reflexivity.
  - rewrite lookup_insert_other by auto. apply T.
Qed.
Lemma tidy_fold l : forall i, Inv i -> tidy i -> (forall r, In r l -> R r) -> tidy (fold_left reg_pair l i).
Proof.
  induction l as [|r l IH]; intros i I T H; auto. cbn [fold_left]. apply IH.
  - exact (proj1 (fold_reg_keep [r] i I)).
  - apply tidy_reg; auto. apply H. left. auto.
  - intros x IN. apply H. right. auto.
Qed.
Lemma tidy_ext i j : Inv i -> Inv j -> tidy i -> tidy j ->
  (forall p, lookup p (importsByPath i) <> None -> lookup p (importsByPath j) <> None) -> ext i j.
Proof.
  intros I J [O T] [O' T'] D. split; [congruence|]. intros p d L.
  destruct (lookup p (importsByPath j)) as [d'|] eqn:L'; [|exfalso; apply (D p); congruence]. f_equal.
  destruct (T p d L) as (n & RN & ->), (T' p d' L') as (m & RM & ->).
  assert (NO : p <> own) by (rewrite <- O; eapply Inv_not_own; eauto).
  assert (X : (p, n) = (p, m)) by (apply NC; auto). injection X as ->. auto.
Qed.
End Tidy.

Lemma ext_same_names i j : Inv i -> Inv j -> ext i j -> ext j i -> same_names i j.
Proof.
  intros I J X Y. assert (L : forall p, lookup p (importsByPath i) = lookup p (importsByPath j)).
  { intros p. destruct X as [_ X], Y as [_ Y]. destruct (lookup p (importsByPath i)) as [d|] eqn:E; [symmetry; auto|].
    destruct (lookup p (importsByPath j)) as [d|] eqn:E'; auto. apply Y in E'. congruence. }
  split.
  - unfold ImportSpecs at 1. apply ImportSpecs_any_order; auto.
    assert (K : forall m : list (string * importDef), NoDup (keys m) -> NoDup m).
    { intros m. unfold keys. apply NoDup_map_inv. }
    apply NoDup_Permutation; [apply K, inv_nodup_paths; auto|apply K, inv_nodup_paths; auto|].
    intros [p d]. split; intros IN.
    + apply lookup_In. rewrite <- L. apply In_lookup; auto. apply inv_nodup_paths; auto.
    + apply lookup_In. rewrite L. apply In_lookup; auto. apply inv_nodup_paths; auto.
  - intros p. unfold PrefixForPackage.
    assert (P : prefix_name i p = prefix_name j p) by (unfold prefix_name; rewrite L; destruct X as [-> _]; auto).
    destruct (prefix_name i p) as [n|] eqn:E.
    + rewrite (prefix_known _ _ _ _ _ I E), (prefix_known _ _ _ _ _ J (eq_sym P)). auto.
    + destruct X as [XP _]. unfold prefixForPackage, prefix_name in *. rewrite XP in *.
      destruct (String.eqb p (pkgPath i)); [discriminate|]. rewrite <- L.
      destruct (lookup p (importsByPath i)); [discriminate|]. reflexivity.
Qed.

(** ** Histories *)
Lemma listed_fold l i p : Inv i -> (lookup p (importsByPath (fold_left reg_pair l i)) <> None <->
  lookup p (importsByPath i) <> None \/ p <> pkgPath i /\ In p (map fst l)).
Proof. intros I. rewrite <- In_listed, fold_reg_listed by auto. rewrite In_listed. tauto. Qed.
Lemma names_unordered own h h' : forallb call_ok h = true -> forallb call_ok h' = true ->
  (forall r, requested h r <-> requested h' r) -> no_conflict own (requested h) ->
  same_names (run h (NewImportsFor own)) (run h' (NewImportsFor own)).
Proof.
  intros OK OK' SR NC. pose proof (run_new_Inv own h) as I. pose proof (run_new_Inv own h') as I'.
  rewrite (run_requests h _ OK (Inv_new own)) in *. rewrite (run_requests h' _ OK' (Inv_new own)) in *.
  assert (T : tidy own (requested h) (fold_left reg_pair (flat_map requests h) (NewImportsFor own))).
  { apply tidy_fold; auto using Inv_new, tidy_new. }
  assert (T' : tidy own (requested h) (fold_left reg_pair (flat_map requests h') (NewImportsFor own))).
  { apply tidy_fold; auto using Inv_new, tidy_new. intros r IN. apply SR. exact IN. }
  assert (D : forall p, In p (map fst (flat_map requests h)) <-> In p (map fst (flat_map requests h'))).
  { intros p. rewrite !in_map_iff. split; intros (r & E & IN); exists r; split; auto; apply SR; auto. }
  apply ext_same_names; auto; eapply tidy_ext; eauto; intros p; rewrite !listed_fold by apply Inv_new; rewrite D; auto.
Qed.

(** The first to be requested has the name. *)
Lemma first_named own p n h : p <> own ->
  let i := run (CRegisterImport p n :: h) (NewImportsFor own) in
  lookup p (importsByPath i) = Some (mkImportDef (base_name p n) (negb (String.eqb (base_name p n) n))).
Proof.
  intros NO i. unfold i, run. cbn [fold_left exec]. fold (run h (snd (RegisterImport p n (NewImportsFor own)))).
  assert (P : prefix_name (NewImportsFor own) p = None).
  { unfold prefix_name. cbn. destruct (String.eqb_spec p own); [contradiction|auto]. }
  unfold RegisterImport. destruct (prefix_new (NewImportsFor own) p n (Inv_new own) P) as (k & i' & E & _ & MN & EI & I' & _).
  rewrite E. cbn [snd]. destruct (run_keep h i' I') as [_ [_ X]]. apply X. rewrite EI. cbn [importsByPath].
  rewrite lookup_insert_same. assert (k = 0%N) as ->; [|reflexivity].
  destruct (N.eq_dec k 0) as [|NZ]; auto. exfalso. apply (MN 0%N); [lia|reflexivity].
Qed.
Lemma prefix_of_entry i p d : Inv i -> lookup p (importsByPath i) = Some d -> fst (PrefixForPackage p i) = Ok (packageName d ++ ".")%string.
Proof.
  intros I L. unfold PrefixForPackage. rewrite (prefix_known i p "" _ (packageName d) I).
  - cbn. unfold with_dot. destruct (String.eqb_spec (packageName d) ""); auto. exfalso. eapply inv_name; eauto.
  - unfold prefix_name. destruct (String.eqb_spec p (pkgPath i)) as [->|]; [rewrite inv_own in L by auto; discriminate|]. rewrite L. auto.
Qed.
Lemma dot_inj a b : Ok (a ++ ".")%string = Ok (b ++ ".")%string -> a = b.
Proof. intros E. injection E as E. eapply append_inj_r. exact E. Qed.
Theorem order_exact own h : forallb call_ok h = true ->
  ((forall h', forallb call_ok h' = true -> (forall r, requested h r <-> requested h' r) ->
     same_names (run h (NewImportsFor own)) (run h' (NewImportsFor own))) <->
   no_conflict own (requested h)).
Proof.
  intros OK. split; [|intros NC h' OK' SR; apply names_unordered; auto].
  intros H [p n] [q m] R1 R2 N1 N2 C. cbn [fst snd] in *.
  assert (SR : forall r0, requested h r0 -> forall r, requested h r <-> requested (CRegisterImport (fst r0) (snd r0) :: h) r).
  { intros [p0 n0] R0 r. unfold requested in *. cbn. split; auto. intros [<-|]; auto. }
  assert (S1 := H (CRegisterImport p n :: h) OK (SR _ R1)). assert (S2 := H (CRegisterImport q m :: h) OK (SR _ R2)).
  set (i1 := run (CRegisterImport p n :: h) (NewImportsFor own)) in *. set (i2 := run (CRegisterImport q m :: h) (NewImportsFor own)) in *.
  assert (I1 : Inv i1) by apply run_new_Inv. assert (I2 : Inv i2) by apply run_new_Inv.
  assert (L1 := first_named own p n h N1). assert (L2 := first_named own q m h N2). cbn zeta in L1, L2. fold i1 in L1. fold i2 in L2.
  destruct S1 as [S1 P1], S2 as [S2 P2].
  assert (PP : forall path, fst (PrefixForPackage path i1) = fst (PrefixForPackage path i2)) by (intros path; rewrite <- P1, <- P2; auto).
  assert (A1 := prefix_of_entry i1 p _ I1 L1). assert (A2 := prefix_of_entry i2 q _ I2 L2). cbn [packageName] in A1, A2.
  assert (E : p = q).
  { destruct C as [|C]; auto. change (base_name p n = base_name q m) in C. rewrite <- PP in A2. rewrite C in L1.
    apply PrefixForPackage_iff in A2; auto. destruct A2 as (k & PK & EK).
    unfold prefix_name in PK. assert (O : pkgPath i1 = own) by apply run_new_own. rewrite O in PK.
    destruct (String.eqb_spec q own); [contradiction|]. destruct (lookup q (importsByPath i1)) as [d|] eqn:LQ; [|discriminate].
    cbn in PK. injection PK as <-.
    assert (B : packageName d = base_name q m).
    { unfold with_dot in EK. destruct (String.eqb_spec (packageName d) "") as [e|]; [exfalso; exact (inv_name _ I1 _ _ LQ e)|].
      apply dot_inj. f_equal. symmetry. exact EK. }
    pose proof (inv_fwd _ I1 _ _ LQ) as F1. pose proof (inv_fwd _ I1 _ _ L1) as F2. cbn [packageName] in F2. rewrite B in F1. congruence. }
  clear C. subst q. rewrite <- PP, A1 in A2. apply dot_inj in A2. f_equal.
  assert (SS : In (spec_of_entry (p, mkImportDef (base_name p n) (negb (String.eqb (base_name p n) n)))) (ImportSpecs i2)).
  { rewrite <- S2, S1. apply In_ImportSpecs, in_map, lookup_In. auto. }
  rewrite In_ImportSpecs in SS. apply in_map_iff in SS as ([p' d'] & E & IN).
  apply In_lookup in IN; [|apply inv_nodup_paths; auto]. unfold spec_of_entry in E. cbn [fst snd isAlias packageName] in E.
  injection E as E ->. rewrite L2 in IN. injection IN as <-. cbn [isAlias packageName] in E. clear - A2 E.
  pose proof (base_name_nonempty p m) as NE. rewrite A2 in E.
  destruct (String.eqb_spec (base_name p m) m) as [B|B], (String.eqb_spec (base_name p m) n) as [B'|B']; cbn in E; try congruence.
  unfold base_name in *. destruct (String.eqb_spec m "") as [Em|Em]; destruct (String.eqb_spec n "") as [En|En]; congruence.
Qed.
