(** A file with a template, for the example of C109. *)
From Verif Require Import Base BaseFacts GoPath Types SpecTypes Imports SpecImports SpecGo SpecRender Conv World SpecFile SpecDecl SpecWorld
  Template SpecTemplate PropTemplate SpecFileTemplate FileTemplateExamples
  SpecFormat SpecCode SpecAppend SpecOrder SpecQualify SpecShare SpecLocal SpecLocalData LocalTemplates QualifyExamples.

(** Another file beside it, whose function is written by a template with a spec as data. *)
Definition tplOther : World (option val) :=
  let w := tplWorld in
  set_files (files w ++ [mkFile (NewImportsFor "a.b/n") "u.go" "" "another" "n" "" [EFunc 1]])
   (set_funcs (funcs w ++ [mkFunc "" "G" None (mkSig [] [] false) 2 (Some 1)])
   (set_blocks (blocks w ++ [[Templ 1]])
   (set_templs (templs w ++ [(1, Some (VPtr (GName "gopoet.TypeSpec") (Some (VSpec (SType 0) None))))]) w))).
Ltac check := vm_compute; reflexivity.
Lemma tpl_shows : shows_data exec.
Proof.
  intros d w w' tm W. unfold exec. destruct d as [[]|]; auto. destruct target as [[]|]; auto.
  exfalso. exact (W _ eq_refl).
Qed.
Lemma tpl_closed : closed_data tplEnv data_without_specs.
Proof. apply closed_without_specs, tpl_shows. Qed.
Lemma tpl_free : plain_templates tplEnv tplWorld 0.
Proof.
  exists data_without_specs. split; [exact tpl_closed|]. intros t tm d T E v ->.
  assert (v = sample) as -> by (apply tpl_data; exists t, tm; split; auto). cbn. tauto.
Qed.
Lemma tpl_values : sees_values tplEnv.
Proof. split; reflexivity. Qed.
Definition no_names (l : list Arg) : bool := forallb (fun a => match named_by a with None => true | _ => false end) l.
Lemma tpl_args args l a : nth_error (argss tplWorld) args = Some l -> In a l -> named_by a = None.
Proof.
  intros E IN. assert (B : forallb no_names (argss tplWorld) = true) by check. rewrite forallb_forall in B.
  specialize (B _ (nth_error_In _ _ E)). unfold no_names in B. rewrite forallb_forall in B. specialize (B _ IN).
  destruct (named_by a); [discriminate B|reflexivity].
Qed.
Lemma tpl_lines : plain_code tplEnv tplWorld 0.
Proof.
  intros cb b fm args _ _ _. right. split; [exact tpl_values|]. intros l a E IN. pose proof (tpl_args args l a E IN) as N.
  destruct a; try discriminate N; exact I.
Qed.
Lemma tpl_seen x : seen tplWorld 0 x -> part_of tplWorld 0 x \/ exists p, x = IType p.
Proof.
  intros S. destruct S as [x P|args l a x U E IN NB|e n p SE _]; [auto| |eauto]. rewrite (tpl_args args l a E IN) in NB. discriminate NB.
Qed.
Lemma tpl_elements : FElements (tplGoFile tplWorld) = [EType 0; EFunc 0].
Proof. check. Qed.
Lemma func_part {TD} (w : World TD) f i : part_of w f (IFunc i) -> exists F, nth_error (files w) f = Some F /\ In (EFunc i) (FElements F).
Proof. intros P. inversion P; subst. eauto. Qed.
Lemma block_part {TD} (w : World TD) f cb : part_of w f (IBlock cb) -> consts w = [] -> vars w = [] ->
  exists i F, part_of w f (IFunc i) /\ nth_error (funcs w) i = Some F /\ cb = FNBody F.
Proof.
  intros P C V. inversion P as [| | | | | | | | |i v ? PI E _|i v ? PI E _|i F PI E]; subst.
  - rewrite C in E. destruct i; discriminate E.
  - rewrite V in E. destruct i; discriminate E.
  - eauto.
Qed.
Lemma tpl_func i : part_of tplWorld 0 (IFunc i) -> i = 0.
Proof.
  intros P. apply func_part in P as (F & EF & IN). rewrite (proj1 tpl_file) in EF.
  apply (f_equal (fun o => match o with Some G => FElements G | None => [] end)) in EF. cbv beta iota in EF. rewrite tpl_elements in EF. rewrite <- EF in IN.
  destruct IN as [H|[H|[]]]; [discriminate H|injection H as <-; reflexivity].
Qed.
Lemma tpl_blocks cb : part_of tplWorld 0 (IBlock cb) -> cb = 0.
Proof.
  intros P. apply block_part in P as (i & F & PF & EF & ->); [|check|check]. apply tpl_func in PF. subst i.
  assert (X : option_map FNBody (nth_error (funcs tplWorld) 0) = Some 0) by check. rewrite EF in X. cbn [option_map] in X. injection X as X. exact X.
Qed.
Lemma tpl_same : same_for tplWorld tplOther 0 (tplGoFile tplWorld).
Proof.
  split; [apply tpl_file|]. split; [check|]. split.
  { intros e IN. destruct e; reflexivity || exact I. }
  split; [|split; [|split; [|split]]].
  - intros x P. destruct x as [i|i|i|i|i|i|i]; try reflexivity.
    + apply tpl_func in P. subst i. check.
    + apply tpl_blocks in P. subst i. check.
  - intros x SX. destruct x as [i|i|i|i|i|i|i]; try reflexivity.
    apply tpl_seen in SX as [P|(p & E)]; [|discriminate E]. apply tpl_func in P. subst i. check.
  - reflexivity.
  - intros t T. pose proof (proj1 tpl_there t T) as N. apply nth_error_Some in N.
    change (nth_error (templs tplWorld ++ [(1, Some (VPtr (GName "gopoet.TypeSpec") (Some (VSpec (SType 0) None))))]) t = nth_error (templs tplWorld) t).
    apply nth_error_app1. exact N.
  - intros x i SX H. assert (L : i < 1).
    { assert (B : forallb (fun o => match o with Some i => Nat.ltb i 1 | None => true end)
          (map VParent (consts tplWorld) ++ map VParent (vars tplWorld) ++ map TSParent (types tplWorld) ++ map FNParent (funcs tplWorld)) = true) by check.
      rewrite !forallb_app, !andb_true_iff, !forallb_forall in B. destruct B as (B1 & B2 & B3 & B4).
      destruct x as [j|j|j|j|j|j|j]; unfold home in H; cbn [naming_of] in H; try discriminate H;
        match type of H with context [nth_error ?t ?k] => destruct (nth_error t k) as [y|] eqn:EN; [|discriminate H] end; cbn [option_map] in H; apply nth_error_In in EN.
      - specialize (B1 _ (in_map VParent _ _ EN)). cbn beta in B1. rewrite H in B1. apply Nat.ltb_lt. exact B1.
      - specialize (B2 _ (in_map VParent _ _ EN)). cbn beta in B2. rewrite H in B2. apply Nat.ltb_lt. exact B2.
      - specialize (B3 _ (in_map TSParent _ _ EN)). cbn beta in B3. rewrite H in B3. apply Nat.ltb_lt. exact B3.
      - discriminate H.
      - destruct y; discriminate H.
      - specialize (B4 _ (in_map FNParent _ _ EN)). cbn beta in B4. rewrite H in B4. apply Nat.ltb_lt. exact B4. }
    destruct i as [|i]; [check|exfalso; clear - L; lia].
Qed.

(** The same file is written after the other one, and each has a template of its own. *)
Definition tpl_label (x : item) : nat := match x with IFunc 1 | IBlock 2 => 1 | _ => 0 end.
Lemma tpl_labelled : labelled tplOther tpl_label (fun _ => 0) = true.
Proof. check. Qed.
Definition templs_label (w : World (option val)) (lab : item -> nat) : bool :=
  all_i (blocks w) (fun cb b => forallb (fun e => match e with Templ u => Nat.eqb u (lab (IBlock cb)) | _ => true end) b).
Lemma template_label w lab laba f t : labelled w lab laba = true -> templs_label w lab = true -> template_of w f t -> t = f.
Proof.
  intros LB X (cb & b & P & B & IN). apply (part_label _ _ _ LB) in P. pose proof (all_i_at _ _ X _ _ B) as E. cbv beta in E.
  rewrite forallb_forall in E. specialize (E _ IN). cbv beta iota in E. apply Nat.eqb_eq in E. congruence.
Qed.
Lemma tpl_of f t : template_of tplOther f t -> t = f.
Proof. apply template_label with (lab := tpl_label) (laba := fun _ => 0); [exact tpl_labelled|check]. Qed.
Lemma tpl_apart : apart_from tplOther 0 1.
Proof.
  split; [discriminate|]. split; [apply labelled_apart with (lab := tpl_label) (laba := fun _ => 0); [exact tpl_labelled|discriminate]|]. split.
  - intros id s _ _ H. cbn [naming_of] in H. assert (L : ielems tplOther = []) by check. rewrite L in H. destruct id; discriminate H.
  - intros t T0 T1. apply tpl_of in T0, T1. subst t. discriminate T1.
Qed.
Lemma tpl_other_lines : plain_code tplEnv tplOther 0.
Proof.
  intros cb b fm args _ _ _. right. split; [exact tpl_values|]. intros l a E IN.
  assert (X : argss tplOther = argss tplWorld) by check. rewrite X in E. pose proof (tpl_args args l a E IN) as N.
  destruct a; try discriminate N; exact I.
Qed.
Lemma tpl_other_free : plain_templates tplEnv tplOther 0.
Proof.
  exists data_without_specs. split; [exact tpl_closed|]. intros t tm d T E v ->. apply tpl_of in T. subst t.
  assert (X : nth_error (templs tplOther) 0 = Some (0, Some sample)) by check. rewrite X in E.
  apply (f_equal (fun o => match o with Some (_, Some x) => x | _ => v end)) in E. cbv beta iota in E. rewrite <- E. cbn. tauto.
Qed.
