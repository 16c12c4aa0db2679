(** Rendering changes neither the name nor the import path of any file, also when it panics. *)
From Verif Require Import Base GoPath Types SpecTypes TypesFacts Imports Conv World WorldProofs.

(** [m] keeps what [R] observes *)
Definition keeps {S K A} (R : S -> K) (m : ST S A) : Prop := forall s, R (snd (m s)) = R s.
Section Keeps.
Context {S K : Type} (R : S -> K).
Lemma k_ret {A} (a : A) : keeps R (sret a).
Proof. intros s. reflexivity. Qed.
Lemma k_panic {A} m : keeps R (spanic (A := A) m).
Proof. intros s. reflexivity. Qed.
Lemma k_lift {A} (r : res A) : keeps R (slift r).
Proof. intros s. reflexivity. Qed.
Lemma k_bind {A B} (m : ST S A) (f : A -> ST S B) : keeps R m -> (forall a, keeps R (f a)) -> keeps R (sbind m f).
Proof. intros M F s. specialize (M s). unfold sbind. destruct (m s) as [[a|e] s']; auto. rewrite F. exact M. Qed.
Lemma k_each {A} (f : A -> ST S unit) l : (forall a, keeps R (f a)) -> keeps R (for_each f l).
Proof. intros F. induction l as [|a l IH]; cbn; [apply k_ret|]. apply k_bind; auto. Qed.
End Keeps.

Ltac k_step := first [apply k_ret|apply k_panic|apply k_lift|apply k_bind; [|intros ?]|apply k_each; intros ?].

Lemma k_prefix p n reg : keeps pkgPath (prefixForPackage p n reg).
Proof.
  intros i. unfold prefixForPackage. destruct (String.eqb p (pkgPath i)); auto. destruct (lookup _ _); auto.
  destruct reg; auto. cbn [negb]. destruct (choose_name _ _ _ _ _); auto.
Qed.
Lemma k_qualify s reg : keeps pkgPath (qualify s reg).
Proof.
  unfold qualify. destruct (_ && _); [apply k_ret|]. apply k_bind; [apply k_prefix|]. intros a. destruct (negb _); apply k_ret.
Qed.
Lemma k_map {A} (f : A -> IM (A * bool)) l : Forall (fun a => keeps pkgPath (f a)) l -> keeps pkgPath (map_changed f l).
Proof.
  induction 1 as [|a l F _ IH]; cbn [map_changed]; [apply k_ret|].
  apply k_bind; auto. intros [a' c]. apply k_bind; auto. intros [r' cr]. apply k_ret.
Qed.
Lemma k_args (rec : TypeName -> IM (TypeName * bool)) l : Forall (fun a => keeps pkgPath (rec (ArgTy a))) l ->
  keeps pkgPath (qualifyArgs_ rec l).
Proof.
  intros F. apply k_map. eapply Forall_impl; [|exact F]. intros [n t] K. cbn [ArgTy] in K. apply k_bind; auto. intros [t' c]. apply k_ret.
Qed.
Lemma k_sig (rec : TypeName -> IM (TypeName * bool)) s : PSig (fun t => keeps pkgPath (rec t)) s ->
  keeps pkgPath (qualifySignature_ rec s).
Proof.
  destruct s as [a r v]. intros [A B]. cbn [qualifySignature_]. apply k_bind; [apply k_args; exact A|]. intros [a' ca].
  apply k_bind; [apply k_args; exact B|]. intros [r' cr]. destruct (_ || _); apply k_ret.
Qed.
Lemma k_type reg t : keeps pkgPath (qualifyType reg t).
Proof.
  induction t as [ |k|s|e IH|e IH|e n IH|e k IHe IHk|e d IH|s IH|fs IH|ms es IH] using TypeName_ind'; cbn [qualifyType];
    try apply k_ret; try apply k_panic; try (apply k_bind; [exact IH|]; intros [t' [|]]; repeat k_step; fail).
  - apply k_bind; [apply k_qualify|]. intros a. destruct (negb _); apply k_ret.
  - apply k_bind; [exact IHk|]. intros [a ca]. apply k_bind; [exact IHe|]. intros [b cb]. destruct (_ || _); repeat k_step.
  - apply k_bind; [apply k_sig; exact IH|]. intros [a [|]]; repeat k_step.
  - apply k_bind.
    + apply k_map. eapply Forall_impl; [|exact IH]. intros [n t tag] K. cbn [FldType] in K. apply k_bind; auto. intros [t' c]. apply k_ret.
    + intros [a [|]]; repeat k_step.
  - apply k_bind.
    + apply k_map. apply Forall_forall. intros s _. apply k_bind; [apply k_qualify|]. intros a. apply k_ret.
    + intros [a ca]. apply k_bind.
      * apply k_map. eapply Forall_impl; [|exact IH]. intros [n s] K. cbn [MtdSig] in K. apply k_bind; [apply k_sig; exact K|].
        intros [s' c]. apply k_ret.
      * intros [b cb]. destruct (_ || _); apply k_ret.
Qed.
Lemma k_signature reg s : keeps pkgPath (qualifySignature reg s).
Proof.
  apply k_sig. destruct s as [a r v]. split; apply Forall_forall; intros; apply k_type.
Qed.
Lemma k_package p : keeps pkgPath (registerPackage p).
Proof. apply k_bind; [apply k_prefix|]. intros a. apply k_ret. Qed.

Section Files.
Context {TD : Type}.
Variable env : Env TD.
(** names and import paths of the files *)
Definition headers (w : World TD) : list (string * string) := map (fun F => (FName F, pkgPath (FImports F))) (files w).
Hypothesis TQ : forall w d, keeps pkgPath (tq env w d).

Lemma map_upd {A B} (g : A -> B) (l : list A) : forall i v, (forall a, nth_error l i = Some a -> g v = g a) -> map g (upd i v l) = map g l.
Proof.
  induction l as [|x l IH]; intros [|i] v H; cbn [upd map]; auto.
  - rewrite (H x); auto.
  - rewrite IH; auto.
Qed.
Lemma k_imports {A} f (m : IM A) : keeps pkgPath m -> keeps headers (onImports f m).
Proof.
  intros M w. unfold onImports, headers. destruct (nth_error (files w) f) as [F|] eqn:EF; auto.
  specialize (M (FImports F)). destruct (m (FImports F)) as [r i]. cbn [snd set_files files] in *.
  apply map_upd. intros a EA. rewrite EF in EA. injection EA as <-. cbn. rewrite M. reflexivity.
Qed.
Lemma k_get {A} (tab : World TD -> list A) i : keeps headers (get tab i).
Proof. intros w. unfold get. destruct (nth_error _ _); auto. Qed.
Lemma k_from {A} (g : World TD -> res A) : keeps headers (from_res g).
Proof. intros w. reflexivity. Qed.

Lemma k_ensure f s : keeps headers (onImports f (EnsureImported s)).
Proof. apply k_imports, k_qualify. Qed.
Lemma k_ensure_type f t : keeps headers (onImports f (EnsureTypeImported t)).
Proof. apply k_imports, k_type. Qed.
Lemma k_ensure_all f s : keeps headers (onImports f (EnsureAllTypesImported s)).
Proof. apply k_imports, k_signature. Qed.
Lemma k_reg f p : keeps headers (onImports f (registerPackage p)).
Proof. apply k_imports, k_package. Qed.

Ltac k_put := match goal with |- keeps headers (put _ _ _ _) => intros ?; reflexivity end.
Ltac k_all :=
  repeat first [apply k_get|apply k_from|apply k_ensure|apply k_ensure_type|apply k_ensure_all|apply k_reg|k_put|k_step
               |match goal with |- keeps _ (match ?x with _ => _ end) => destruct x end].
Lemma k_sym_arg f s : keeps headers (qualify_sym_arg f s).
Proof. unfold qualify_sym_arg. k_all. Qed.
Lemma k_method f a m : keeps headers (qualify_method f a m).
Proof. unfold qualify_method. k_all. Qed.
Lemma k_arg f a : keeps headers (Arg_qualify f a).
Proof.
  destruct a; cbn [Arg_qualify]; try apply k_sym_arg; try apply k_method; unfold qualify_package;
    repeat first [apply k_sym_arg|apply k_method|k_all; fail|k_step|apply k_get|apply k_from
                 |match goal with |- keeps _ (match ?x with _ => _ end) => destruct x end].
Qed.
Lemma k_line f args : keeps headers (line_qualify f args).
Proof.
  unfold line_qualify. apply k_bind; [apply k_get|]. intros l. apply k_each. intros i. unfold line_qualify_at.
  apply k_bind; [apply k_get|]. intros l'. destruct (nth_error l' i); [|apply k_ret]. apply k_bind; [apply k_arg|].
  intros a'. apply k_bind; [apply k_get|]. intros l''. k_put.
Qed.
Lemma k_templ f t : keeps headers (templ_qualify env f t).
Proof.
  unfold templ_qualify. apply k_bind; [apply k_get|]. intros [tm d]. apply k_bind; [|intros d'; k_put].
  intros w. apply (k_imports f (tq env w d) (TQ w d) w).
Qed.
Lemma k_block f cb : keeps headers (CodeBlock_qualify env f cb).
Proof.
  unfold CodeBlock_qualify. apply k_bind; [apply k_get|]. intros b. apply k_each. intros [fm args|t]; cbn; [apply k_line|apply k_templ].
Qed.
Lemma k_ielem f id : keeps headers (InterfaceElement_qualify f id).
Proof. unfold InterfaceElement_qualify. k_all. Qed.
Lemma k_typespec fuel f : forall id, keeps headers (TypeSpec_qualify fuel f id).
Proof.
  induction fuel as [|fuel IH]; intros id; cbn [TypeSpec_qualify]; [apply k_panic|].
  apply k_bind; [apply k_get|]. intros T. apply k_bind; [apply k_ensure_type|]. intros [u c].
  apply k_bind; [k_put|]. intros _. apply k_bind; [|intros _; apply k_each; intros; apply k_ielem].
  apply k_each. intros fid. apply k_bind; [apply k_get|]. intros fs. destruct (FSType fs); [apply k_ret| |apply IH].
  apply k_bind; [apply k_ensure_type|]. intros [t' c']. k_put.
Qed.
Lemma k_value tab set fuel f id : (forall v (w : World TD), files (set v w) = files w) -> keeps headers (qualify_value env tab set fuel f id).
Proof.
  intros FS. unfold qualify_value. apply k_bind; [apply k_get|]. intros v. apply k_bind.
  - destruct (VSType v); [apply k_ret| |apply k_typespec].
    apply k_bind; [apply k_ensure_type|]. intros [t' c']. intros w. unfold headers, put. cbn [snd]. rewrite FS. auto.
  - intros _. destruct (VInit v); [apply k_block|apply k_ret].
Qed.
Lemma k_element fuel f e : keeps headers (FileElement_qualify env fuel f e).
Proof.
  destruct e; cbn [FileElement_qualify]; (apply k_bind; [apply k_get|]; intros D).
  - apply k_each. intros id. apply k_value. reflexivity.
  - apply k_each. intros id. apply k_value. reflexivity.
  - apply k_each. intros id. apply k_typespec.
  - apply k_bind; [apply k_ensure_all|]. intros [s c]. apply k_bind; [k_put|]. intros _. apply k_block.
Qed.
Theorem source_headers fuel f (w : World TD) : headers (snd (source env fuel f w)) = headers w.
Proof.
  revert w. change (keeps headers (source env fuel f)). unfold source. apply k_bind.
  - unfold qualify_file. apply k_bind; [apply k_get|]. intros F. apply k_each. intros e. apply k_element.
  - intros _. apply k_bind; [apply k_get|]. intros F. apply k_from.
Qed.
End Files.
