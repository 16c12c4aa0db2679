(** What becomes of a slice of arguments. *)
From Verif Require Import Base BaseFacts GoPath Types SpecTypes TypesFacts Imports SpecImports ImportsProofs ImportsTheorems SpecGo SpecRender Conv World SpecFile SpecDecl SpecWorld
  SpecQualify QualifyProofs QualifyTheorems SourceProofs SourceTheorems SharedProofs SpecArgs.

Lemma called_iff i path n : Inv i -> (called_in i path n <-> prefix_name i path = Some n).
Proof.
  intros I. unfold called_in. rewrite PrefixForPackage_iff by exact I. split.
  - intros (m & P & E). change (with_dot n = with_dot m) in E. apply with_dot_inj in E. congruence.
  - intros P. exists n. split; [exact P|reflexivity].
Qed.
Lemma renamed_known i s : Inv i -> known i s -> renamed_sym i s (rename i s).
Proof.
  intros I K. unfold renamed_sym, rename. destruct (has_package s) eqn:HP; [|reflexivity].
  specialize (K HP). destruct (prefix_name i (sym_path s)) as [n|] eqn:P; [|congruence]. exists n. split; [apply called_iff; auto|reflexivity].
Qed.
Lemma renamed_unique i s s1 s2 : Inv i -> renamed_sym i s s1 -> renamed_sym i s s2 -> s1 = s2.
Proof.
  intros I. unfold renamed_sym. destruct (has_package s); [|congruence]. intros (n & A & ->) (m & B & ->).
  apply called_iff in A; auto. apply called_iff in B; auto. congruence.
Qed.
(** A symbol is left as it is exactly if its package has its name in the file. *)
Lemma renamed_same i s : Inv i -> (renamed_sym i s s <-> (has_package s = true -> called_in i (sym_path s) (PkgName (SymPackage s)))).
Proof.
  intros I. unfold renamed_sym. destruct s as [[p q] r]. destruct (has_package _) eqn:HP; cbn [sym_path SymPackage ImportPath PkgName SymName].
  - split; [intros (n & C & [= <-]) _; exact C|]. intros C. exists q. split; [exact (C eq_refl)|reflexivity].
  - split; [discriminate|reflexivity].
Qed.
Lemma requests_same i l : Inv i -> ((forall path n, In (path, n) (sym_requests l) -> called_in i path n) <-> (forall s, In s l -> renamed_sym i s s)).
Proof.
  intros I. split.
  - intros H s IN. apply renamed_same; auto. intros HP. apply H. apply request_path; auto.
  - intros H path n IN. unfold sym_requests in IN. apply in_map_iff in IN as (s & [= <- <-] & IN). apply filter_In in IN as [IN HP].
    specialize (H s IN). apply renamed_same in H; auto.
Qed.
Lemma turn_arg {TD} (w : World TD) a t a1 i i' j : arg_target w a = Ok t -> Inv i -> Inv j ->
  target_act a t i = (Ok a1, i') -> ext i' j -> turned w j a a1.
Proof.
  intros AT Ii Ij TA X. unfold turned. rewrite refers_target, AT.
  destruct t as [p|s|m|s|t|p|]; cbn [target_act target_reference] in *; unfold sbind, sret in TA.
  - destruct (registerPackage p i) as [[n|] i1] eqn:RP; [|discriminate]. injection TA as TA <-. exists n. split.
    { apply called_iff; auto. eapply prefix_name_ext; [exact X|]. unfold registerPackage, RegisterImportForPackage, RegisterImport, sbind, sret in RP.
      destruct (prefix_reg i (ImportPath p) (PkgName p) Ii) as (k & i2 & E1 & I1 & X1 & P & _).
      rewrite E1, strip_with_dot in RP. injection RP as <- <-. exact P. }
    assert (AP : a = APackage p \/ a = APackagePtr p).
    { destruct a; cbn [arg_target] in AT; auto; unfold rbind in AT;
      repeat match type of AT with context [match ?x with _ => _ end] => destruct x; try discriminate end;
      try discriminate AT; injection AT as ->; auto. }
    destruct AP as [-> | ->]; destruct (String.eqb n (PkgName p)); cbn [negb] in TA; symmetry; exact TA.
  - destruct (EnsureImported s i) as [[s1|] i1] eqn:EI; [|discriminate]. injection TA as <- <-.
    assert (SF : sym_final j s s1) by (exists i, i1; auto). apply sym_final_known in SF as [-> K].
    eexists. split; [apply renamed_known; auto|reflexivity].
  - destruct (EnsureImported (MRType m) i) as [[s1|] i1] eqn:EI; [|discriminate]. injection TA as TA <-.
    assert (SF : sym_final j (MRType m) s1) by (exists i, i1; auto). apply sym_final_known in SF as [-> K].
    eexists. split; [apply renamed_known; auto|]. destruct (symbol_eqb (rename j (MRType m)) (MRType m)) eqn:EQ; cbn [negb] in TA.
    + left. split; [apply symbol_eqb_eq; exact EQ|auto].
    + right. split; [|auto]. intros Y. rewrite Y in EQ. assert (Z : symbol_eqb (MRType m) (MRType m) = true) by (apply symbol_eqb_eq; auto). congruence.
  - destruct (EnsureAllTypesImported s i) as [[[s1 c]|] i1] eqn:EI; [|discriminate]. injection TA as <- <-.
    exists s1. split; [reflexivity|]. intros W. destruct (sig_final_wf j s s1) as [-> K]; auto. { exists c, i, i1. auto. }
    exists (rename j). split; [|reflexivity]. intros x IN. apply renamed_known; auto.
  - destruct (EnsureTypeImported t i) as [[[t1 c]|] i1] eqn:EI; [|discriminate]. injection TA as <- <-.
    exists t1. split; [reflexivity|]. intros W. destruct (type_final_wf j t t1) as [-> K]; auto. { exists c, i, i1. auto. }
    exists (rename j). split; [|reflexivity]. intros x IN. apply renamed_known; auto.
  - destruct (registerPackage p i) as [[n|] i1] eqn:RP; [|discriminate]. injection TA as <- <-. exists n. split.
    { apply called_iff; auto. eapply prefix_name_ext; [exact X|]. unfold registerPackage, RegisterImportForPackage, RegisterImport, sbind, sret in RP.
      destruct (prefix_reg i (ImportPath p) (PkgName p) Ii) as (k & i2 & E1 & I1 & X1 & P & _).
      rewrite E1, strip_with_dot in RP. injection RP as <- <-. exact P. }
    destruct (go_package_target w a p AT) as (q & ->). reflexivity.
  - injection TA as <- <-. reflexivity.
Qed.
Lemma Forall2_at {A B} (R : A -> B -> Prop) : forall l m, List.length m = List.length l ->
  (forall k a b, nth_error l k = Some a -> nth_error m k = Some b -> R a b) -> Forall2 R l m.
Proof.
  induction l as [|a l IH]; intros [|b m] L H; try discriminate; constructor.
  - exact (H 0 a b eq_refl eq_refl).
  - apply IH; [cbn in L; lia|]. intros k. exact (H (S k)).
Qed.
Theorem args_after {TD} (env : Env TD) own h fuel f w F s w1 :
  nth_error (files w) f = Some F -> FImports F = run h (NewImportsFor own) -> no_templates w f ->
  source env fuel f w = (Ok s, w1) ->
  exists F1, nth_error (files w1) f = Some F1 /\
  forall a l, nth_error (argss w) a = Some l -> uses_args w f a ->
    exists l1, nth_error (argss w1) a = Some l1 /\ Forall2 (turned w (FImports F1)) l l1.
Proof.
  intros EF EI NT S. destruct (source_split _ _ _ _ _ _ S) as (Q & _).
  assert (IF : Inv (FImports F)) by (rewrite EI; apply run_new_Inv).
  assert (NT' : templates_ok env w f (fun _ => True)) by (apply no_templates_ok; exact NT).
  assert (HR : forall r, file_mentions w f r -> (fun _ => True) r) by auto.
  destruct (file_after env fuel f w w1 F _ EF IF NT' HR Q) as (F1 & E1 & EI1 & FF & SR & I1).
  exists F1. split; [exact E1|]. intros a l E (cb & b & fm & P & EB & IN). apply In_nth_error in IN as (n & EN).
  destruct (nth_after env fuel f w w1 F _ EF IF NT' HR Q argss er_args a l (fun _ => eq_refl) E) as (l1 & EL1 & ER).
  exists l1. split; [exact EL1|]. apply Forall2_at.
  { apply (f_equal (@List.length Arg)) in ER. unfold er_args in ER. rewrite !map_length in ER. exact ER. }
  intros k x x1 X X1. assert (A : argument w cb n k = Some x) by (unfold argument, obind; rewrite EB, EN, E; exact X).
  destruct (arg_after env fuel f w w1 F _ EF IF NT' HR Q cb n k x P A) as (a1 & t & j & j' & A1 & AT & Ij & TA & XT).
  assert (BB : blocks w1 = blocks w) by (exact (f_equal blocks (skel_after env fuel f w w1 F _ EF IF NT' HR Q))).
  unfold argument, obind in A1. rewrite BB, EB, EN, EL1, X1 in A1. injection A1 as ->.
  eapply turn_arg; eauto. rewrite EI1. exact XT.
Qed.

(** ** When a slice is left as it is *)
Lemma map_fixed {A} (g : A -> A) : forall l, map g l = l -> forall x, In x l -> g x = x.
Proof. induction l as [|y l IH]; intros E x IN; [destruct IN|]. injection E as E1 E2. destruct IN as [<-|IN]; auto. Qed.
Lemma type_unique i t t1 t2 : Inv i -> renamed_type i t t1 -> renamed_type i t t2 -> t1 = t2.
Proof.
  intros I (g & G & ->) (k & K & ->). apply (g_cong _ _ _ _ _ (ImportsProofs.good_type t)). intros s IN. eapply renamed_unique; eauto.
Qed.
Lemma sig_unique i t t1 t2 : Inv i -> renamed_sig i t t1 -> renamed_sig i t t2 -> t1 = t2.
Proof.
  intros I (g & G & ->) (k & K & ->). apply (g_cong _ _ _ _ _ (good_signature t)). intros s IN. eapply renamed_unique; eauto.
Qed.
Lemma type_same i t : renamed_type i t t <-> forall s, In s (symbols_of t) -> renamed_sym i s s.
Proof.
  split.
  - intros (g & G & E) s IN. pose proof (g_syms _ _ _ _ _ (ImportsProofs.good_type t) g) as Y. cbn beta in Y. rewrite <- E in Y.
    rewrite <- (map_fixed g _ (eq_sym Y) s IN) at 2. auto.
  - intros H. exists (fun s => s). split; [exact H|]. symmetry. apply (g_id _ _ _ _ _ (ImportsProofs.good_type t)). auto.
Qed.
Lemma sig_same i t : renamed_sig i t t <-> forall s, In s (sig_symbols t) -> renamed_sym i s s.
Proof.
  split.
  - intros (g & G & E) s IN. pose proof (g_syms _ _ _ _ _ (good_signature t) g) as Y. cbn beta in Y. rewrite <- E in Y.
    rewrite <- (map_fixed g _ (eq_sym Y) s IN) at 2. auto.
  - intros H. exists (fun s => s). split; [exact H|]. symmetry. apply (g_id _ _ _ _ _ (good_signature t)). auto.
Qed.
Section Same.
Context {TD : Type}.
Variable w : World TD.
Variable i : Imports.
Hypothesis I : Inv i.
Lemma turned_unique a a1 a2 : whole_reference w a -> turned w i a a1 -> turned w i a a2 -> a1 = a2.
Proof.
  unfold whole_reference, turned. destruct (refers_to w a) as [[p|s|s m|t|s]|]; [| | | | |congruence].
  - intros _ (n & C & E) (n2 & C2 & E2). apply called_iff in C; auto. apply called_iff in C2; auto.
    assert (n2 = n) by congruence. subst n2. destruct a; try (destruct (String.eqb n (PkgName p)); congruence).
  - intros _ (s1 & R1 & ->) (s2 & R2 & ->). f_equal. eapply renamed_unique; eauto.
  - intros _ (s1 & R1 & E1) (s2 & R2 & E2). pose proof (renamed_unique i s s1 s2 I R1 R2). subst s2.
    destruct E1 as [[A ->]|[A ->]], E2 as [[B ->]|[B ->]]; congruence.
  - intros W (t1 & -> & R1) (t2 & -> & R2). f_equal. eapply type_unique; eauto.
  - intros W (t1 & -> & R1) (t2 & -> & R2). f_equal. eapply sig_unique; eauto.
Qed.
Lemma turned_same a : whole_reference w a -> (turned w i a a <-> left_alone w i a).
Proof.
  unfold whole_reference, turned, left_alone. destruct (refers_to w a) as [r|] eqn:RF; [|intros _; split; auto; discriminate].
  intros W. split.
  - intros T r' [= <-]. destruct r as [p|s|s m|t|s]; cbn [packages_of].
    + destruct T as (n & C & E). destruct (String.eqb_spec n (PkgName p)) as [N|N].
      * subst n. split; [intros path n [[= <- <-]|[]]; exact C|]. intros q ->. discriminate.
      * exfalso. destruct a; try discriminate; cbn [refers_to] in RF; injection E as E; injection RF as RF; subst; apply N; rewrite E; reflexivity.
    + destruct T as (s1 & R & ->). cbn [refers_to] in RF. injection RF as ->. split; [|reflexivity].
      apply requests_same; auto. intros x [<-|[]]. exact R.
    + destruct T as (s1 & R & [[-> _]|[N ->]]).
      * split; [|exact Logic.I]. apply requests_same; auto. intros x [<-|[]]. exact R.
      * exfalso. cbn [refers_to MRType] in RF. congruence.
    + destruct T as (t1 & -> & R). cbn [refers_to] in RF. injection RF as ->. split; [|reflexivity].
      apply requests_same; auto. apply type_same. auto.
    + destruct T as (t1 & -> & R). cbn [refers_to] in RF. injection RF as ->. split; [|reflexivity].
      apply requests_same; auto. apply sig_same. auto.
  - intros H. destruct (H r eq_refl) as [C K]. clear H. destruct r as [p|s|s m|t|s]; cbn [packages_of] in C.
    + exists (PkgName p). split; [apply C; left; reflexivity|]. rewrite String.eqb_refl. destruct a; auto. exfalso. eapply K; reflexivity.
    + exists s. split; [|exact K]. apply (proj1 (requests_same i [s] I) C). left; auto.
    + exists s. split; [|left; auto]. apply (proj1 (requests_same i [s] I) C). left; auto.
    + exists t. split; [exact K|]. intros _. apply type_same. apply requests_same; auto.
    + exists s. split; [exact K|]. intros _. apply sig_same. apply requests_same; auto.
Qed.
Lemma turned_list : forall l l1, Forall (whole_reference w) l -> Forall2 (turned w i) l l1 -> (l1 = l <-> Forall (left_alone w i) l).
Proof.
  intros l l1 W H. induction H as [|a a1 l l1 T H IH]; [split; auto|]. inversion W as [|? ? W1 W2]; subst. split.
  - intros [= -> E]. constructor; [apply turned_same; auto|]. apply IH; auto.
  - intros L. inversion L as [|? ? L1 L2]; subst. f_equal; [|apply IH; auto]. eapply turned_unique; [exact W1|exact T|]. apply turned_same; auto.
Qed.
End Same.
Theorem args_kept {TD} (env : Env TD) own h fuel f w F s w1 :
  nth_error (files w) f = Some F -> FImports F = run h (NewImportsFor own) -> no_templates w f ->
  source env fuel f w = (Ok s, w1) ->
  exists F1, nth_error (files w1) f = Some F1 /\
  forall a l, nth_error (argss w) a = Some l -> uses_args w f a -> Forall (whole_reference w) l ->
    (nth_error (argss w1) a = nth_error (argss w) a <-> Forall (left_alone w (FImports F1)) l).
Proof.
  intros EF EI NT S. destruct (args_after env own h fuel f w F s w1 EF EI NT S) as (F1 & E1 & H). exists F1. split; [exact E1|].
  intros a l E U W. destruct (H a l E U) as (l1 & EL & T). rewrite E, EL.
  assert (I1 : Inv (FImports F1)).
  { destruct (source_split _ _ _ _ _ _ S) as (Q & _). assert (IF : Inv (FImports F)) by (rewrite EI; apply run_new_Inv).
    destruct (file_after env fuel f w w1 F (fun _ => True) EF IF (no_templates_ok _ _ _ _ NT) (fun _ _ => Logic.I) Q) as (F2 & E2 & _ & _ & _ & I2).
    rewrite E1 in E2. injection E2 as <-. exact I2. }
  pose proof (turned_list w (FImports F1) I1 l l1 W T) as [A B]. split; [intros [= Y]; auto|]. intros L. f_equal. auto.
Qed.
