(** Proofs: what types with a nil in them leave in the imports. *)
From Verif Require Import Base BaseFacts Types SpecTypes TypesFacts Imports SpecImports ImportsProofs ImportsTheorems SpecNil Conv World WorldProofs.

Notation regs l i := (fold_left reg_sym l i).
Definition stops {A} (m : IM A) (l : list Symbol) : Prop := forall i, Inv i -> m i = (Panic nil_deref, regs l i).
Definition passes {A} (m : IM A) (l : list Symbol) : Prop := forall i, Inv i -> exists a, m i = (Ok a, regs l i) /\ Inv (regs l i).
Lemma stop_first {A B} (m : IM A) (k : A -> IM B) l : stops m l -> stops (sbind m k) l.
Proof. intros M i I. unfold sbind. rewrite (M i I). auto. Qed.
Lemma stop_then {A B} (m : IM A) (k : A -> IM B) l l' : passes m l -> (forall a, stops (k a) l') -> stops (sbind m k) (l ++ l').
Proof.
  intros M K i I. unfold sbind. destruct (M i I) as (a & E & I1). rewrite E, fold_left_app. apply K; auto.
Qed.
Lemma pass_good {A} (f : bool -> A -> IM (A * bool)) syms mp a : good f syms mp true a -> passes (f true a) (syms a).
Proof.
  intros G i I. destruct (g_reg _ _ _ _ _ G eq_refl i I) as (c & i' & E & _). pose proof (g_fold _ _ _ _ _ G eq_refl i I) as F.
  destruct (g_keep _ _ _ _ _ G true i I) as [I1 _]. rewrite <- F. rewrite E in *. cbn [snd] in *. eauto.
Qed.
Lemma pass_bind {A B} (m : IM A) (k : A -> B) l : passes m l -> passes (do a <- m ;; sret (k a)) l.
Proof. intros M i I. destruct (M i I) as (a & E & I1). unfold sbind, sret. rewrite E. eauto. Qed.
Lemma stop_list {A} (f : A -> IM (A * bool)) syms pre x post l : (forall a, In a pre -> passes (f a) (syms a)) -> stops (f x) l ->
  stops (map_changed f (pre ++ x :: post)) (flat_map syms pre ++ l).
Proof.
  intros P X. induction pre as [|a pre IH]; cbn [app flat_map map_changed].
  - apply stop_first; auto.
  - rewrite <- app_assoc. apply stop_then; [apply P; left; auto|]. intros [a' c]. apply stop_first. apply IH. intros b H. apply P. right; auto.
Qed.
Lemma pass_list {A} (f : A -> IM (A * bool)) syms l : (forall a, In a l -> passes (f a) (syms a)) -> passes (map_changed f l) (flat_map syms l).
Proof.
  induction l as [|a l IH]; intros P i I; cbn [flat_map map_changed]; [exists ([], false); auto|].
  destruct (P a (or_introl eq_refl) i I) as ([a' c] & E & I1). unfold sbind. rewrite E.
  destruct (IH (fun b H => P b (or_intror H)) _ I1) as ([r' cr] & E2 & I2). rewrite E2, fold_left_app. unfold sret. eauto.
Qed.
Lemma pass_type t : wf t = true -> passes (qualifyType true t) (symbols_of t).
Proof. intros W. apply (pass_good qualifyType symbols_of map_symbols). rewrite <- W. apply good_type. Qed.
Lemma pass_sig s : wf_sig s = true -> passes (qualifySignature_ (qualifyType true) s) (sig_symbols s).
Proof. intros W. apply (pass_good (fun reg => qualifySignature reg) sig_symbols (fun h => map_sig (map_symbols h))). rewrite <- W. apply good_signature. Qed.
Lemma pass_symbol s : passes (do nt <- qualify s true ;; sret (nt, negb (symbol_eqb nt s))) [s].
Proof. apply (pass_good (fun reg s => do nt <- qualify s reg ;; sret (nt, negb (symbol_eqb nt s))) (fun s => [s]) (fun h => h)). apply good_symbol. Qed.
Lemma pass_arg a : wf (ArgTy a) = true ->
  passes (match a with mkArg name t => do '(nt, c) <- qualifyType true t ;; sret (mkArg name nt, c) end) (symbols_of (ArgTy a)).
Proof. destruct a as [n t]. intros W i I. destruct (pass_type t W i I) as ([nt c] & E & I1). unfold sbind, sret. rewrite E. eauto. Qed.
Lemma pass_args l : forallb (fun a => wf (ArgTy a)) l = true -> passes (qualifyArgs_ (qualifyType true) l) (flat_map (fun a => symbols_of (ArgTy a)) l).
Proof. intros W. rewrite forallb_forall in W. apply pass_list. intros a H. apply pass_arg; auto. Qed.
Lemma stop_args pre n t post l : forallb (fun a => wf (ArgTy a)) pre = true -> stops (qualifyType true t) l ->
  stops (qualifyArgs_ (qualifyType true) (pre ++ mkArg n t :: post)) (flat_map (fun a => symbols_of (ArgTy a)) pre ++ l).
Proof.
  intros W S. rewrite forallb_forall in W. apply stop_list; [intros a H; apply pass_arg; auto|]. apply stop_first; auto.
Qed.
Lemma flat_one {A} (l : list A) : flat_map (fun x => [x]) l = l.
Proof. induction l; cbn; congruence. Qed.

Scheme nil_ind := Minimality for nil_after Sort Prop with sig_nil_ind := Minimality for sig_nil_after Sort Prop.
Combined Scheme nil_both from nil_ind, sig_nil_ind.
Lemma nil_stops : (forall t l, nil_after t l -> stops (qualifyType true t) l) /\
  (forall s l, sig_nil_after s l -> stops (qualifySignature_ (qualifyType true) s) l).
Proof.
  apply nil_both; intros; cbn [qualifyType qualifySignature_]; auto using stop_first.
  - intros i I. reflexivity.
  - apply stop_then; [apply pass_type; auto|]. intros [k' c]. apply stop_first; auto.
  - apply stop_first. apply stop_list.
    + rewrite forallb_forall in H. intros [fn ft tag'] IN. specialize (H _ IN). cbn [FldType] in *. intros i I.
      destruct (pass_type ft H i I) as ([nt c] & E & I1). unfold sbind, sret. rewrite E. eauto.
    + apply stop_first; auto.
  - apply stop_then.
    + unfold qualifySymbols. rewrite <- (flat_one es) at 2. apply pass_list. intros a _. apply pass_symbol.
    + intros [nes ce]. apply stop_first. apply stop_list.
      * rewrite forallb_forall in H. intros [mn ms] IN. specialize (H _ IN). cbn [MtdSig] in *. intros i I.
        destruct (pass_sig ms H i I) as ([nt c] & E & I1). unfold sbind, sret. rewrite E. eauto.
      * apply stop_first; auto.
  - apply stop_first. apply stop_args; auto.
  - apply stop_then; [apply pass_args; auto|]. intros [a' c]. apply stop_first. apply stop_args; auto.
Qed.
Lemma regs_run l i : Inv i -> regs l i = run (map CEnsureImported l) i.
Proof.
  revert i. induction l as [|s l IH]; intros i I; auto. change (regs l (reg_sym i s) = run (map CEnsureImported l) (exec (CEnsureImported s) i)).
  rewrite (exec_requests (CEnsureImported s) i eq_refl I). cbn [requests]. rewrite <- fold_sym_requests. cbn [fold_left]. apply IH.
  destruct (pass_symbol s i I) as (a & _ & X). exact X.
Qed.
Theorem nil_type own h t l : nil_after t l -> let i := run h (NewImportsFor own) in
  EnsureTypeImported t i = (Panic nil_deref, run (map CEnsureImported l) i).
Proof. intros N i. assert (I : Inv i) by apply run_new_Inv. rewrite <- regs_run by auto. apply (proj1 nil_stops); auto. Qed.
Theorem nil_signature own h s l : sig_nil_after s l -> let i := run h (NewImportsFor own) in
  EnsureAllTypesImported s i = (Panic nil_deref, run (map CEnsureImported l) i).
Proof. intros N i. assert (I : Inv i) by apply run_new_Inv. rewrite <- regs_run by auto. apply (proj2 nil_stops); auto. Qed.

(** ** Every type that is as it should be but for nils *)
Definition one_of (t : TypeName) : Prop := wf_but_nil t = true -> wf t = true \/ exists l, nil_after t l.
Lemma first_broken {A} (g : A -> TypeName) l : Forall (fun a => one_of (g a)) l -> forallb (fun a => wf_but_nil (g a)) l = true ->
  forallb (fun a => wf (g a)) l = true \/ exists pre a post l0, l = pre ++ a :: post /\ forallb (fun a => wf (g a)) pre = true /\ nil_after (g a) l0.
Proof.
  induction 1 as [|a l H _ IH]; cbn [forallb]; auto. intros W. apply andb_true_iff in W as [WA WL]. destruct (H WA) as [E|[l0 N]].
  - destruct (IH WL) as [E2|(pre & b & post & l0 & -> & WP & N)]; [left; rewrite E; auto|].
    right. exists (a :: pre), b, post, l0. cbn [forallb app]. rewrite E. auto.
  - right. exists [], a, l, l0. auto.
Qed.
Lemma sig_one_of (s : Signature) : PSig one_of s ->
  variadic_or_nil s && match s with mkSig args results _ => forallb (fun a => wf_but_nil (ArgTy a)) args && forallb (fun a => wf_but_nil (ArgTy a)) results end = true ->
  wf_sig s = true \/ exists l, sig_nil_after s l.
Proof.
  destruct s as [args results v]. intros [HA HR] W. cbn [Args Results] in *. apply andb_true_iff in W as [WV W]. apply andb_true_iff in W as [WA WR].
  destruct (first_broken ArgTy args HA WA) as [E|(pre & [n t] & post & l & -> & WP & N)]; [|right; eexists; apply sn_arg; eauto].
  destruct (first_broken ArgTy results HR WR) as [E2|(pre & [n t] & post & l & -> & WP & N)]; [|right; eexists; apply sn_result; eauto].
  left. rewrite wf_sig_unfold. cbn [Args Results]. rewrite E, E2, andb_true_r. unfold variadic_or_nil, variadic_ok in *. cbn [IsVariadic Args] in *.
  destruct v; auto. cbn [negb orb] in *. destruct (rev args) as [|a r] eqn:ER; auto. apply orb_true_iff in WV as [WV|WV]; auto.
  assert (IN : In a args) by (apply in_rev; rewrite ER; left; auto). rewrite forallb_forall in E. specialize (E a IN). destruct (ArgTy a); discriminate.
Qed.
Theorem nil_complete t : one_of t.
Proof.
  induction t as [ |k|s|e IH|e IH|e n IH|e k IHe IHk|e d IH|s IH|fs IH|ms es IH] using TypeName_ind'; unfold one_of in *; intros W.
  - right. exists []. constructor.
  - left. exact W.
  - left. auto.
  - destruct (IH W) as [E|[l N]]; [left; auto|right; eexists; constructor; eauto].
  - destruct (IH W) as [E|[l N]]; [left; auto|right; eexists; constructor; eauto].
  - cbn [wf_but_nil wf] in *. apply andb_true_iff in W as [W1 W2]. rewrite W1. destruct (IH W2) as [E|[l N]]; [left; auto|right; eexists; constructor; eauto].
  - cbn [wf_but_nil wf] in *. apply andb_true_iff in W as [W1 W2]. destruct (IHk W2) as [E|[l N]]; [|right; eexists; apply na_key; eauto].
    destruct (IHe W1) as [E2|[l N]]; [left; rewrite E2; auto|right; eexists; apply na_elem; eauto].
  - cbn [wf_but_nil wf] in *. apply andb_true_iff in W as [W1 W2]. rewrite W1. destruct (IH W2) as [E|[l N]]; [left; auto|right; eexists; constructor; eauto].
  - rewrite wf_TFunc. destruct (sig_one_of s IH W) as [E|[l N]]; [auto|right; eexists; apply na_func; eauto].
  - destruct (first_broken FldType fs IH W) as [E|(pre & [n t tag] & post & l & -> & WP & N)]; [auto|right; eexists; apply na_struct; eauto].
  - rewrite wf_TInterface. cbn [wf_but_nil] in W. enough (X : forallb (fun m => wf_sig (MtdSig m)) ms = true \/
        exists pre n s post l, ms = pre ++ mkMethod n s :: post /\ forallb (fun m => wf_sig (MtdSig m)) pre = true /\ sig_nil_after s l).
    { destruct X as [X|(pre & n & s & post & l & -> & WP & N)]; [auto|right; eexists; apply na_iface; eauto]. }
    induction IH as [|[n s] ms H _ IHL]; cbn [forallb] in *; auto. apply andb_true_iff in W as [W1 W2]. cbn [MtdSig] in *.
    destruct (sig_one_of s H W1) as [E|[l N]]; [|right; exists [], n, s, ms, l; auto].
    destruct (IHL W2) as [E2|(pre & n' & s' & post & l & -> & WP & N)]; [left; rewrite E; auto|].
    right. exists (mkMethod n s :: pre), n', s', post, l. cbn [forallb app MtdSig]. rewrite E. auto.
Qed.
Theorem nil_or_fine own h t : wf_but_nil t = true -> let i := run h (NewImportsFor own) in
  wf t = true /\ (exists r, EnsureTypeImported t i = (Ok r, run (map CEnsureImported (symbols_of t)) i)) \/
  exists l, nil_after t l /\ EnsureTypeImported t i = (Panic nil_deref, run (map CEnsureImported l) i).
Proof.
  intros W i. destruct (nil_complete t W) as [E|[l N]].
  - left. split; auto. assert (I : Inv i) by apply run_new_Inv. destruct (pass_type t E i I) as (r & R & _). exists r. rewrite <- regs_run by auto. exact R.
  - right. exists l. split; auto. apply nil_type; auto.
Qed.
Theorem nil_or_fine_signature own h s : sig_wf_but_nil s = true -> let i := run h (NewImportsFor own) in
  wf_sig s = true /\ (exists r, EnsureAllTypesImported s i = (Ok r, run (map CEnsureImported (sig_symbols s)) i)) \/
  exists l, sig_nil_after s l /\ EnsureAllTypesImported s i = (Panic nil_deref, run (map CEnsureImported l) i).
Proof.
  intros W i. assert (X : wf_sig s = true \/ exists l, sig_nil_after s l).
  { apply sig_one_of; [split; apply Forall_forall; intros; apply nil_complete|]. destruct s as [args results v]. unfold sig_wf_but_nil in W. cbn [Args Results] in W.
    rewrite andb_assoc. exact W. }
  destruct X as [E|[l N]].
  - left. split; auto. assert (I : Inv i) by apply run_new_Inv. destruct (pass_sig s E i I) as (r & R & _). exists r. rewrite <- regs_run by auto. exact R.
  - right. exists l. split; auto. apply nil_signature; auto.
Qed.

(** ** Files *)
Section Files.
Context {TD : Type}.
Variable env : Env TD.
Theorem nil_function fuel f (w : World TD) F own h fn rest FN l : nth_error (files w) f = Some F -> FImports F = run h (NewImportsFor own) ->
  FElements F = EFunc fn :: rest -> nth_error (funcs w) fn = Some FN -> sig_nil_after (FNSig FN) l ->
  exists w1 F1, source env fuel f w = (Panic nil_deref, w1) /\ nth_error (files w1) f = Some F1 /\ FImports F1 = run (map CEnsureImported l) (FImports F).
Proof.
  intros EF EI EE EN N. assert (L : f < List.length (files w)) by (apply nth_error_Some; congruence).
  eexists _, _. split; [|split].
  - unfold source, qualify_file, sbind, get. rewrite EF, EE. cbn [for_each FileElement_qualify]. unfold sbind, get, onImports. rewrite EN, EF.
    rewrite EI, (nil_signature own h _ l N). reflexivity.
  - cbn [set_files files]. rewrite nth_upd_same by auto. reflexivity.
  - rewrite EI. reflexivity.
Qed.
Theorem nil_argument f (w : World TD) F own h t l : nth_error (files w) f = Some F -> FImports F = run h (NewImportsFor own) -> nil_after t l ->
  exists w1 F1, Arg_qualify f (ATypeName t) w = (Panic nil_deref, w1) /\ nth_error (files w1) f = Some F1 /\ FImports F1 = run (map CEnsureImported l) (FImports F).
Proof.
  intros EF EI N. assert (L : f < List.length (files w)) by (apply nth_error_Some; congruence).
  eexists _, _. split; [|split].
  - cbn [Arg_qualify]. unfold sbind, onImports. rewrite EF, EI, (nil_type own h t l N). reflexivity.
  - cbn [set_files files]. rewrite nth_upd_same by auto. reflexivity.
  - rewrite EI. reflexivity.
Qed.
End Files.
