(** Proofs: writing a file - also when that panics - changes nothing but what belongs to the file. *)
From Verif Require Import Base BaseFacts GoPath Types SpecTypes Imports SpecImports ImportsProofs ImportsTheorems Conv World WorldProofs
  SpecProgram ProgramProofs TypesFacts Template SpecFormat SpecCode SpecAppend SpecOrder SpecQualify
  QualifyProofs QualifyTheorems SourceProofs SourceTheorems SpecShare SharedProofs SpecLocal.

Lemma map_upd {A B} (g : A -> B) i x l : (forall a, nth_error l i = Some a -> g a = g x) -> map g (upd i x l) = map g l.
Proof.
  revert i. induction l as [|b l IH]; intros [|i] H; cbn; auto.
  - f_equal. symmetry. apply H. reflexivity.
  - f_equal. apply IH. intros a E. apply H. exact E.
Qed.
(** ** Nothing changes the path of the package *)
Definition kp {A} (m : IM A) : Prop := forall i, pkgPath (snd (m i)) = pkgPath i.
Lemma kp_ret {A} (a : A) : kp (sret a). Proof. intros i. reflexivity. Qed.
Lemma kp_lift {A} (r : res A) : kp (slift r). Proof. intros i. reflexivity. Qed.
Lemma kp_panic {A} e : kp (spanic e : IM A). Proof. intros i. reflexivity. Qed.
Lemma kp_bind {A B} (m : IM A) (k : A -> IM B) : kp m -> (forall a, kp (k a)) -> kp (do a <- m ;; k a).
Proof. intros M K i. unfold sbind. specialize (M i). destruct (m i) as [[a|e] j]; cbn [snd] in *; auto. rewrite (K a j). auto. Qed.
Lemma kp_prefix p n b : kp (prefixForPackage p n b).
Proof.
  intros i. unfold prefixForPackage. destruct (String.eqb p (pkgPath i)); auto. destruct (lookup p _); auto. destruct (negb b); auto.
  destruct (choose_name _ _ _ _ _); auto.
Qed.
Lemma kp_qualify s b : kp (qualify s b).
Proof. unfold qualify. destruct (_ && _); [apply kp_ret|]. apply kp_bind; [apply kp_prefix|]. intros a. destruct (negb _); apply kp_ret. Qed.
Lemma kp_map {A} (g : A -> IM (A * bool)) l : Forall (fun a => kp (g a)) l -> kp (map_changed g l).
Proof.
  induction 1 as [|a l H _ IH]; cbn [map_changed]; [apply kp_ret|].
  apply kp_bind; auto. intros [a' c]. apply kp_bind; auto. intros [r' cr]. apply kp_ret.
Qed.
Lemma kp_args {T} (rec : T -> IM (T * bool)) l : Forall (fun a => kp (rec (ArgTy a))) l -> kp (qualifyArgs_ rec l).
Proof.
  intros H. apply kp_map. eapply Forall_impl; [|exact H]. intros [n t] K. apply kp_bind; [exact K|]. intros [nt c]. apply kp_ret.
Qed.
Lemma kp_sig {T} (rec : T -> IM (T * bool)) s : Forall (fun a => kp (rec (ArgTy a))) (Args s) -> Forall (fun a => kp (rec (ArgTy a))) (Results s) ->
  kp (qualifySignature_ rec s).
Proof.
  destruct s as [a r b]. cbn [Args Results]. intros HA HR. cbn [qualifySignature_]. apply kp_bind; [apply kp_args; auto|]. intros [a' ca].
  apply kp_bind; [apply kp_args; auto|]. intros [r' cr]. destruct (ca || cr); apply kp_ret.
Qed.
Lemma kp_type reg t : kp (qualifyType reg t).
Proof.
  induction t using TypeName_ind'; cbn [qualifyType].
  all: try apply kp_panic; try apply kp_ret.
  - apply kp_bind; [apply kp_qualify|]. intros a. destruct (negb _); apply kp_ret.
  - apply kp_bind; auto. intros [a c]. destruct c; [apply kp_bind; [apply kp_lift|intros; apply kp_ret]|apply kp_ret].
  - apply kp_bind; auto. intros [a c]. destruct c; [apply kp_bind; [apply kp_lift|intros; apply kp_ret]|apply kp_ret].
  - apply kp_bind; auto. intros [a c]. destruct c; [apply kp_bind; [apply kp_lift|intros; apply kp_ret]|apply kp_ret].
  - apply kp_bind; auto. intros [a c]. apply kp_bind; auto. intros [b d]. destruct (d || c); [apply kp_bind; [apply kp_lift|intros; apply kp_ret]|apply kp_ret].
  - apply kp_bind; auto. intros [a c]. destruct c; [apply kp_bind; [apply kp_lift|intros; apply kp_ret]|apply kp_ret].
  - destruct H as [HA HR]. apply kp_bind; [apply kp_sig; auto|]. intros [a c]. destruct c; [apply kp_bind; [apply kp_lift|intros; apply kp_ret]|apply kp_ret].
  - apply kp_bind.
    + apply kp_map. eapply Forall_impl; [|eassumption]. intros [n t tag] K. apply kp_bind; [exact K|]. intros [nt c]. apply kp_ret.
    + intros [a c]. destruct c; apply kp_ret.
  - apply kp_bind.
    + apply kp_map. apply Forall_forall. intros x _. apply kp_bind; [apply kp_qualify|]. intros; apply kp_ret.
    + intros [a c]. apply kp_bind.
      * apply kp_map. eapply Forall_impl; [|eassumption]. intros [n sg] [K1 K2]. apply kp_bind; [apply kp_sig; auto|]. intros [ns c']. apply kp_ret.
      * intros [b d]. destruct (c || d); apply kp_ret.
Qed.
Lemma kp_signature reg s : kp (qualifySignature reg s).
Proof. apply kp_sig; apply Forall_forall; intros; apply kp_type. Qed.
Lemma exec_path c i : pkgPath (exec c i) = pkgPath i.
Proof. destruct c; cbn [exec]; auto; try apply kp_prefix; try apply kp_qualify; try apply kp_type; apply kp_signature. Qed.
Lemma run_path h : forall i, pkgPath (run h i) = pkgPath i.
Proof. induction h as [|c h IH]; intros i; cbn; auto. unfold run in IH. rewrite IH. apply exec_path. Qed.

Section Own.
Context {TD : Type}.
Variables (env : Env TD) (f : nat) (w : World TD).
Notation World := (World TD).
Notation part := (part_of w f).
Hypothesis KP : imports_by_calls env.

Record frm (v : World) : Prop := mkFrm
  { f_skel : skel v = skel w;
    f_names : map fst (templs v) = map fst (templs w);
    f_file : forall g, g <> f -> nth_error (files v) g = nth_error (files w) g;
    f_c : forall i, ~ part (IConst i) -> nth_error (consts v) i = nth_error (consts w) i;
    f_v : forall i, ~ part (IVar i) -> nth_error (vars v) i = nth_error (vars w) i;
    f_t : forall i, ~ part (IType i) -> nth_error (types v) i = nth_error (types w) i;
    f_f : forall i, ~ part (IField i) -> nth_error (World.fields v) i = nth_error (World.fields w) i;
    f_e : forall i, ~ part (IElem i) -> nth_error (ielems v) i = nth_error (ielems w) i;
    f_fn : forall i, ~ part (IFunc i) -> nth_error (funcs v) i = nth_error (funcs w) i;
    f_a : forall a, ~ uses_args w f a -> nth_error (argss v) a = nth_error (argss w) a;
    f_tm : forall t, ~ template_of w f t -> nth_error (templs v) t = nth_error (templs w) t }.
Lemma frm_first : frm w.
Proof. split; auto. Qed.

Definition own {A} (Q : A -> Prop) (m : WM (TD := TD) A) : Prop := forall v r v1, frm v -> m v = (r, v1) -> frm v1 /\ forall a, r = Ok a -> Q a.
Lemma own_ret {A} (Q : A -> Prop) a : Q a -> own Q (sret a).
Proof. intros H v r v1 FR [= <- <-]. split; auto. intros b [= <-]. auto. Qed.
Lemma own_panic {A} (Q : A -> Prop) m : own Q (spanic m).
Proof. intros v r v1 FR [= <- <-]. split; auto. intros b [=]. Qed.
Lemma own_lift {A} r : own (A := A) (fun _ => True) (slift r).
Proof. intros v r0 v1 FR [= <- <-]. split; auto. Qed.
Lemma own_res {A} (g : World -> res A) : own (fun _ => True) (from_res g).
Proof. intros v r0 v1 FR [= <- <-]. split; auto. Qed.
Lemma own_bind {A B} (Q : A -> Prop) (P : B -> Prop) m k : own Q m -> (forall a, Q a -> own P (k a)) -> own P (do a <- m ;; k a).
Proof.
  intros M K v r v2 FR E. unfold sbind in E. destruct (m v) as [[a|e] v1] eqn:EM.
  - destruct (M v _ v1 FR EM) as [FR1 Q1]. eapply K; eauto.
  - injection E as <- <-. split; [eapply M; eauto|intros a [=]].
Qed.
Lemma own_for {A} (g : A -> WM unit) l : (forall a, In a l -> own (fun _ => True) (g a)) -> own (fun _ => True) (for_each g l).
Proof.
  induction l as [|a l IH]; intros H; cbn [for_each]; [apply own_ret; auto|].
  eapply own_bind; [apply H; left; auto|]. intros _ _. apply IH. intros; apply H; right; auto.
Qed.
Lemma own_get {A} (tab : World -> list A) er i : (forall u : World, tab (skel u) = map er (tab u)) ->
  own (fun a => exists a0, nth_error (tab w) i = Some a0 /\ er a = er a0) (get tab i).
Proof.
  intros S v r v1 FR E. unfold get in E. pose proof (f_equal (fun u => nth_error (tab u) i) (f_skel _ FR)) as X. cbv beta in X.
  rewrite !S, !nth_error_map in X. destruct (nth_error (tab v) i) as [a|]; injection E as <- <-; split; auto; intros b [=]. subst b.
  destruct (nth_error (tab w) i) as [a0|]; [|discriminate X]. injection X as X. eauto.
Qed.
Lemma own_imports {A} (m : IM A) : kp m -> own (fun _ => True) (onImports f m).
Proof.
  intros H v r v1 FR E. split; auto. unfold onImports in E. destruct (nth_error (files v) f) as [G|] eqn:EG; [|injection E as <- <-; auto].
  specialize (H (FImports G)). destruct (m (FImports G)) as [r0 i]. injection E as <- <-. cbn [snd] in H. destruct FR as [SK]. split; cbn [set_files]; auto.
  - rewrite <- SK. unfold skel. cbn [set_files files constDecls varDecls typeDecls consts vars types World.fields ielems funcs blocks argss]. f_equal.
    apply map_upd. intros a EA. rewrite EG in EA. injection EA as <-. unfold er_imports. cbn. rewrite H. reflexivity.
  - intros g N. cbn [files set_files]. rewrite nth_upd_other by auto. auto.
Qed.
Notation T := (fun _ : unit => True).
Lemma own_put {A} (tab : World -> list A) set er i x a0 (P : nat -> Prop) :
  (forall u : World, tab (skel u) = map er (tab u)) ->
  (forall v, frm v -> map er (upd i x (tab v)) = map er (tab v) -> P i -> frm (set (upd i x (tab v)) v)) ->
  P i -> nth_error (tab w) i = Some a0 -> er x = er a0 -> own T (put tab set i x).
Proof.
  intros S H Pi E0 EX v r v1 FR [= <- <-]. split; auto. apply H; auto. apply map_upd. intros a EA.
  pose proof (f_equal (fun u => nth_error (tab u) i) (f_skel _ FR)) as X. cbv beta in X. rewrite !S, !nth_error_map, E0, EA in X. injection X as X. congruence.
Qed.
Ltac keeps := let v := fresh in let SK := fresh "SK" in let M := fresh "M" in let P := fresh "P" in intros v [SK] M P;
  split; cbn [set_consts set_vars set_types set_fields set_ielems set_funcs set_argss templs files consts vars types World.fields ielems funcs argss]; auto;
  [rewrite <- SK; unfold skel; cbn [set_consts set_vars set_types set_fields set_ielems set_funcs set_argss
     files constDecls varDecls typeDecls consts vars types World.fields ielems funcs blocks argss]; rewrite ?M; reflexivity
  |let j := fresh in let N := fresh in intros j N; rewrite nth_upd_other by (intros ->; exact (N P)); auto].
Lemma put_const i x a : part (IConst i) -> nth_error (consts w) i = Some a -> er_value x = er_value a -> own T (put consts set_consts i x).
Proof. intros P. apply (own_put consts set_consts er_value i x a (fun i => part (IConst i))); auto. keeps. Qed.
Lemma put_var i x a : part (IVar i) -> nth_error (vars w) i = Some a -> er_value x = er_value a -> own T (put vars set_vars i x).
Proof. intros P. apply (own_put vars set_vars er_value i x a (fun i => part (IVar i))); auto. keeps. Qed.
Lemma put_type i x a : part (IType i) -> nth_error (types w) i = Some a -> er_type x = er_type a -> own T (put types set_types i x).
Proof. intros P. apply (own_put types set_types er_type i x a (fun i => part (IType i))); auto. keeps. Qed.
Lemma put_field i x a : part (IField i) -> nth_error (World.fields w) i = Some a -> er_field x = er_field a -> own T (put World.fields set_fields i x).
Proof. intros P. apply (own_put World.fields set_fields er_field i x a (fun i => part (IField i))); auto. keeps. Qed.
Lemma put_elem i x a : part (IElem i) -> nth_error (ielems w) i = Some a -> er_elem x = er_elem a -> own T (put ielems set_ielems i x).
Proof. intros P. apply (own_put ielems set_ielems er_elem i x a (fun i => part (IElem i))); auto. keeps. Qed.
Lemma put_func i x a : part (IFunc i) -> nth_error (funcs w) i = Some a -> er_func x = er_func a -> own T (put funcs set_funcs i x).
Proof. intros P. apply (own_put funcs set_funcs er_func i x a (fun i => part (IFunc i))); auto. keeps. Qed.
Lemma put_args i x a : uses_args w f i -> nth_error (argss w) i = Some a -> er_args x = er_args a -> own T (put argss set_argss i x).
Proof. intros P. apply (own_put argss set_argss er_args i x a (fun i => uses_args w f i)); auto. keeps. Qed.

(** ** Qualifying *)
Lemma own_arg a : own (fun _ => True) (Arg_qualify f a).
Proof.
  assert (IM1 : forall s, own (fun _ => True) (qualify_sym_arg f s)).
  { intros s. eapply own_bind; [apply own_imports, kp_qualify|]. intros. apply own_ret; auto. }
  assert (IM2 : forall b m, own (fun _ => True) (qualify_method f b m)).
  { intros b m. eapply own_bind; [apply own_imports, kp_qualify|]. intros. apply own_ret; auto. }
  assert (RP : forall p, kp (registerPackage p)).
  { intros p. apply kp_bind; [apply kp_prefix|]. intros; apply kp_ret. }
  assert (GT : forall {A} (tab : World -> list A) i, own (fun _ => True) (get tab i)).
  { intros A tab i v r v1 FR E. unfold get in E. destruct (nth_error (tab v) i); injection E as <- <-; split; auto. }
  destruct a; cbn [Arg_qualify]; try (apply own_ret; exact I); auto;
    repeat match goal with
      | |- own _ (sret _) => apply own_ret; exact I
      | |- own _ (spanic _) => apply own_panic
      | |- own _ (qualify_sym_arg _ _) => apply IM1
      | |- own _ (qualify_method _ _ _) => apply IM2
      | |- own _ (qualify_package _ _ _) => unfold qualify_package
      | |- own _ (match ?x with _ => _ end) => destruct x
      | |- own _ (sbind _ _) => eapply own_bind;
          [first [apply GT|apply own_lift|apply own_res|apply own_imports; first [apply kp_type|apply kp_signature|apply kp_qualify|apply RP]]|intros]
      end.
Qed.
Lemma er_args_length l l0 : er_args l = er_args l0 <-> List.length l = List.length l0.
Proof.
  unfold er_args. split; intros H; [apply (f_equal (@List.length Arg)) in H; rewrite !map_length in H; auto|].
  revert l0 H. induction l; intros [|b l0] H; cbn in *; try discriminate; auto. f_equal. apply IHl. congruence.
Qed.
Lemma own_line args : uses_args w f args -> own T (line_qualify f args).
Proof.
  intros U. unfold line_qualify. eapply own_bind; [apply (own_get argss er_args); reflexivity|]. intros l0 _. apply own_for. intros i _. unfold line_qualify_at.
  eapply own_bind; [apply (own_get argss er_args); reflexivity|]. intros l (l1 & E1 & L1). destruct (nth_error l i) as [a|]; [|apply own_ret; exact I].
  eapply own_bind; [apply own_arg|]. intros b _. eapply own_bind; [apply (own_get argss er_args); reflexivity|]. intros l2 (l3 & E3 & L3).
  eapply put_args; eauto. rewrite <- L3. apply er_args_length, upd_length.
Qed.
Lemma own_template t : template_of w f t -> own T (templ_qualify env f t).
Proof.
  intros TO v r v1 FR E. unfold templ_qualify, sbind, get in E. destruct (nth_error (templs v) t) as [[tm d]|] eqn:ET; [|injection E as <- <-; auto].
  destruct (onImports f (tq env v d) v) as [[d'|e] v2] eqn:EI.
  - assert (K : kp (tq env v d)) by (intros i; destruct (KP v d i) as (h & ->); apply run_path).
    destruct (own_imports _ K v _ v2 FR EI) as [FR2 _].
    assert (ET2 : templs v2 = templs v).
    { unfold onImports in EI. destruct (nth_error (files v) f); [|discriminate]. destruct (tq env v d (FImports g)). injection EI as _ <-. reflexivity. }
    injection E as <- <-. split; auto. destruct FR2 as [SK TN]. split; cbn [set_templs templs files consts vars types World.fields ielems funcs argss]; auto.
    + rewrite <- TN. apply map_upd. rewrite ET2, ET. intros a [= <-]. reflexivity.
    + intros j N. rewrite nth_upd_other by (intros ->; exact (N TO)). auto.
  - injection E as <- <-. split; auto.
    assert (K : kp (tq env v d)) by (intros i; destruct (KP v d i) as (h & ->); apply run_path). eapply (own_imports _ K v); eauto.
Qed.
Lemma own_block cb : part (IBlock cb) -> own T (CodeBlock_qualify env f cb).
Proof.
  intros P. unfold CodeBlock_qualify. eapply own_bind; [apply (own_get blocks (fun b => b)); intros; symmetry; apply map_id|].
  intros b (b0 & E0 & ->). apply own_for. intros [fm args|t] IN; cbn [codeElement_qualify].
  - apply own_line. exists cb, b0, fm. auto.
  - apply own_template. exists cb, b0. auto.
Qed.
Lemma own_elem i : part (IElem i) -> own T (InterfaceElement_qualify f i).
Proof.
  intros P. unfold InterfaceElement_qualify. eapply own_bind; [apply (own_get ielems er_elem); reflexivity|]. intros e (e0 & E0 & EV).
  destruct e as [c s p|c n s p], e0 as [c0 s0 p0|c0 n0 s0 p0]; try discriminate EV.
  - eapply own_bind; [apply own_imports, kp_qualify|]. intros s' _. eapply put_elem; eauto.
  - eapply own_bind; [apply own_imports, kp_signature|]. intros [s' b] _. eapply put_elem; eauto.
Qed.
Lemma own_type fuel : forall i, part (IType i) -> own T (TypeSpec_qualify fuel f i).
Proof.
  induction fuel as [|fuel IH]; intros i P; cbn [TypeSpec_qualify]; [apply own_panic|].
  eapply own_bind; [apply (own_get types er_type); reflexivity|]. intros TS (T0 & E0 & EV).
  pose proof (f_equal TSStruct EV : TSStruct TS = TSStruct T0) as ES. pose proof (f_equal TSInterface EV : TSInterface TS = TSInterface T0) as EI.
  eapply own_bind; [apply own_imports, kp_type|]. intros [u b] _.
  eapply own_bind; [eapply put_type; [exact P|eauto|rewrite <- EV; reflexivity]|]. intros _ _.
  eapply own_bind.
  - apply own_for. intros fid IN. rewrite ES in IN. assert (PF : part (IField fid)) by (eapply po_field; eauto).
    eapply own_bind; [apply (own_get World.fields er_field); reflexivity|]. intros fs (f0 & EF0 & EFV).
    destruct (FSType fs) as [|t|ts] eqn:FT; [apply own_ret; exact I| |].
    + eapply own_bind; [apply own_imports, kp_type|]. intros [t' b'] _. eapply put_field; [exact PF|eauto|].
      rewrite <- EFV. unfold er_field, with_ftype. cbn. rewrite FT. reflexivity.
    + apply IH. eapply po_field_type; eauto. pose proof (f_equal FSType EFV) as X. cbn in X. rewrite FT in X. destruct (FSType f0); try discriminate. cbn in X. congruence.
  - intros _ _. apply own_for. intros e IN. rewrite EI in IN. apply own_elem. eapply po_elem; eauto.
Qed.
Lemma own_init (cb : option nat) : (forall b, cb = Some b -> part (IBlock b)) ->
  own T match cb with None => sret tt | Some b => CodeBlock_qualify env f b end.
Proof. destruct cb as [b|]; intros H; [apply own_block; auto|apply own_ret; exact I]. Qed.
Lemma own_const fuel i : part (IConst i) -> own T (qualify_value env consts set_consts fuel f i).
Proof.
  intros P. unfold qualify_value. eapply own_bind; [apply (own_get consts er_value); reflexivity|]. intros v (v0 & E0 & EV).
  pose proof (f_equal VInit EV : VInit v = VInit v0) as EI. pose proof (f_equal VSType EV) as ET. cbn in ET.
  eapply (own_bind T); [|intros _ _; apply own_init; intros b EB; eapply po_const_init; eauto; congruence].
  destruct (VSType v) as [|t|ts] eqn:VT; [apply own_ret; exact I| |].
  - eapply own_bind; [apply own_imports, kp_type|]. intros [t' b'] _. eapply put_const; [exact P|eauto|].
    rewrite <- EV. unfold er_value, with_vtype. cbn. rewrite VT. reflexivity.
  - apply own_type. eapply po_const_type; eauto. destruct (VSType v0); try discriminate. cbn in ET. congruence.
Qed.
Lemma own_var fuel i : part (IVar i) -> own T (qualify_value env vars set_vars fuel f i).
Proof.
  intros P. unfold qualify_value. eapply own_bind; [apply (own_get vars er_value); reflexivity|]. intros v (v0 & E0 & EV).
  pose proof (f_equal VInit EV : VInit v = VInit v0) as EI. pose proof (f_equal VSType EV) as ET. cbn in ET.
  eapply (own_bind T); [|intros _ _; apply own_init; intros b EB; eapply po_var_init; eauto; congruence].
  destruct (VSType v) as [|t|ts] eqn:VT; [apply own_ret; exact I| |].
  - eapply own_bind; [apply own_imports, kp_type|]. intros [t' b'] _. eapply put_var; [exact P|eauto|].
    rewrite <- EV. unfold er_value, with_vtype. cbn. rewrite VT. reflexivity.
  - apply own_type. eapply po_var_type; eauto. destruct (VSType v0); try discriminate. cbn in ET. congruence.
Qed.
Lemma own_file fuel : own T (qualify_file env fuel f).
Proof.
  unfold qualify_file. eapply own_bind; [apply (own_get files er_imports); reflexivity|]. intros G (F & EF & EG).
  pose proof (f_equal FElements EG : FElements G = FElements F) as EE. rewrite EE. apply own_for. intros e IN.
  destruct e as [d|d|d|i]; cbn [FileElement_qualify].
  - eapply own_bind; [apply (own_get constDecls (fun b => b)); intros; symmetry; apply map_id|]. intros X (D0 & E0 & ->).
    apply own_for. intros i II. apply own_const. eapply po_const; eauto.
  - eapply own_bind; [apply (own_get varDecls (fun b => b)); intros; symmetry; apply map_id|]. intros X (D0 & E0 & ->).
    apply own_for. intros i II. apply own_var. eapply po_var; eauto.
  - eapply own_bind; [apply (own_get typeDecls (fun b => b)); intros; symmetry; apply map_id|]. intros X (D0 & E0 & ->).
    apply own_for. intros i II. apply own_type. eapply po_type; eauto.
  - assert (P : part (IFunc i)) by (eapply po_func; eauto).
    eapply own_bind; [apply (own_get funcs er_func); reflexivity|]. intros v (v0 & E0 & EV).
    pose proof (f_equal FNBody EV : FNBody v = FNBody v0) as EB.
    eapply own_bind; [apply own_imports, kp_signature|]. intros [t b] _. eapply own_bind.
    + eapply put_func; [exact P|eauto|]. rewrite <- EV. reflexivity.
    + intros _ _. apply own_block. rewrite EB. eapply po_body; eauto.
Qed.
Theorem own_source fuel r w1 : source env fuel f w = (r, w1) -> frm w1.
Proof.
  intros S. assert (O : own (fun _ => True) (source env fuel f)).
  { unfold source. eapply own_bind; [apply own_file|]. intros _ _. eapply own_bind; [apply (own_get files er_imports); reflexivity|]. intros. apply own_res. }
  eapply O; eauto using frm_first.
Qed.
End Own.

Section Theorem_.
Context {TD : Type}.
Notation World := (World TD).
(** Entries that have the same form. *)
Lemma form {A} (tab : World -> list A) er (v v1 : World) i : (forall u : World, tab (skel u) = map er (tab u)) -> skel v1 = skel v ->
  option_map er (nth_error (tab v1) i) = option_map er (nth_error (tab v) i).
Proof. intros S E. rewrite <- !nth_error_map, <- !S, E. auto. Qed.
Lemma form_name {A} (tab : World -> list A) er (g : A -> naming) (v v1 : World) i : (forall u : World, tab (skel u) = map er (tab u)) -> skel v1 = skel v ->
  (forall a b, er a = er b -> g a = g b) -> option_map g (nth_error (tab v1) i) = option_map g (nth_error (tab v) i).
Proof.
  intros S E G. pose proof (form tab er v v1 i S E) as X.
  destruct (nth_error (tab v1) i), (nth_error (tab v) i); try discriminate X; auto. cbn. f_equal. apply G. cbn in X. congruence.
Qed.
Lemma form_package (v v1 : World) i : skel v1 = skel v -> file_package i v1 = file_package i v.
Proof.
  intros E. pose proof (form files er_imports v v1 i (fun _ => eq_refl) E) as X. unfold file_package, rd.
  destruct (nth_error (files v1) i) as [A|], (nth_error (files v) i) as [B|]; try discriminate X; auto. cbn. f_equal.
  cbn in X. injection X as X1 _ _ _ X2 _ _. unfold GoFile_Package. rewrite X1, X2. auto.
Qed.
Theorem source_changes (env : Env TD) fuel f (w : World) r w1 : imports_by_calls env -> source env fuel f w = (r, w1) -> changes_only w f w1.
Proof.
  intros KP S. destruct (own_source env f w KP fuel r w1 S) as [SK TN OF O1 O2 O3 O4 O5 O6 OA OT].
  split; auto. split.
  { intros F EF. pose proof (form files er_imports w w1 f (fun _ => eq_refl) SK) as X. rewrite EF in X.
    destruct (nth_error (files w1) f) as [F1|]; [|discriminate X]. exists F1. split; auto. cbn in X. injection X as X1 X2 X3 X4 X5 X6 X7. repeat split; congruence. }
  split; [exact (f_equal constDecls SK)|]. split; [exact (f_equal varDecls SK)|]. split; [exact (f_equal typeDecls SK)|]. split; [exact (f_equal blocks SK)|].
  split; auto. split; auto. split.
  { intros x P. destruct x; cbn; auto. rewrite (f_equal blocks SK : blocks w1 = blocks w). auto. }
  split; auto. split.
  { intros a. pose proof (form argss er_args w w1 a (fun _ => eq_refl) SK) as X.
    destruct (nth_error (argss w1) a), (nth_error (argss w) a); try discriminate X; auto. cbn. f_equal. apply er_args_length. cbn in X. congruence. }
  intros x NE. destruct x as [i|i|i|i|i|i|i]; cbn [naming_of] in *; auto.
  - apply (form_name consts er_value); auto. intros a b H. f_equal; [exact (f_equal VNames H)|exact (f_equal VParent H)].
  - apply (form_name vars er_value); auto. intros a b H. f_equal; [exact (f_equal VNames H)|exact (f_equal VParent H)].
  - apply (form_name types er_type); auto. intros a b H. f_equal; [exact (f_equal TSName H)|exact (f_equal TSParent H)].
  - apply (form_name World.fields er_field); auto. intros a b H. f_equal. exact (f_equal FSName H).
  - pose proof (form ielems er_elem w w1 i (fun _ => eq_refl) SK) as X.
    destruct (nth_error (ielems w) i) as [[c e p|c n e p]|] eqn:EW.
    + destruct (NE e). auto.
    + destruct (nth_error (ielems w1) i) as [[|]|]; try discriminate X. cbn in *. congruence.
    + destruct (nth_error (ielems w1) i) as [[|]|]; try discriminate X. auto.
  - apply (form_name funcs er_func); auto. intros a b H. f_equal; [exact (f_equal FNName H)|exact (f_equal FNReceiver H)|exact (f_equal FNParent H)].
Qed.
End Theorem_.
