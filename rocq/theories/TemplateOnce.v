(** Templates that occur once in the code of a file are qualified once.  A copy of the world, in
    which each template carries a mark that says whether it may still be qualified, is qualified
    and written like the world itself. *)
From Verif Require Import Base BaseFacts GoPath Types SpecTypes Imports SpecImports Conv World SpecWorld SpecQualify SpecTotal
  SpecDecl SpecFile SpecGo SpecRender FileTheorems WorldProofs QualifyProofs.

(** [Again]: may be qualified any number of times; [First]: not yet qualified; [Done]: not again. *)
Inductive mark := Again | First | Done.

Section Once.
Context {TD : Type}.
Variable env : Env TD.
Notation MD := (TD * mark)%type.
Notation MW := (World MD).
Implicit Types w : MW.

Definition unmark w : World TD :=
  mkWorld (files w) (constDecls w) (varDecls w) (typeDecls w) (consts w) (vars w) (types w) (World.fields w) (ielems w) (funcs w)
    (blocks w) (argss w) (map (fun x => (fst x, fst (snd x))) (templs w)).
Definition mark_tq w (d : MD) : IM MD := fun i =>
  match snd d with
  | Done => (Ok d, i)
  | m => let '(r, i') := tq env (unmark w) (fst d) i in
         (match r with Ok d' => Ok (d', match m with First => Done | m => m end) | Panic e => Panic e end, i')
  end.
Definition mark_env : Env MD :=
  mkEnv (isPrint env) (fun w => fmt_verb env (unmark w)) (fun w => fmt_other env (unmark w)) mark_tq
    (fun w t d => texec env (unmark w) t (fst d)).

(** ** What decides which templates are qualified *)
Record bones := mkBones
  { bFiles : list (list FileElement); bConstDecls : list ValueDecl; bVarDecls : list ValueDecl;
    bConsts : list (option nat); bVars : list (option nat); bFuncs : list nat; bBlocks : list CodeBlock }.
Definition bones_of {D} (w : World D) : bones :=
  mkBones (map FElements (files w)) (constDecls w) (varDecls w) (map VInit (consts w)) (map VInit (vars w)) (map FNBody (funcs w)) (blocks w).
Definition code_plan (e : codeElement) : list nat := match e with Templ t => [t] | Line _ _ => [] end.
Definition block_plan (cb : nat) (b : bones) : list nat :=
  match nth_error (bBlocks b) cb with Some l => flat_map code_plan l | None => [] end.
Definition value_plan (tab : bones -> list (option nat)) (i : nat) (b : bones) : list nat :=
  match nth_error (tab b) i with Some (Some cb) => block_plan cb b | _ => [] end.
Definition element_plan (e : FileElement) (b : bones) : list nat :=
  match e with
  | EConst d => match nth_error (bConstDecls b) d with Some D => flat_map (fun i => value_plan bConsts i b) (VDSpecs D) | None => [] end
  | EVar d => match nth_error (bVarDecls b) d with Some D => flat_map (fun i => value_plan bVars i b) (VDSpecs D) | None => [] end
  | EType _ => []
  | EFunc i => match nth_error (bFuncs b) i with Some cb => block_plan cb b | None => [] end
  end.
Definition file_plan (f : nat) (b : bones) : list nat :=
  match nth_error (bFiles b) f with Some l => flat_map (fun e => element_plan e b) l | None => [] end.

(** The templates [L] may still be qualified, in this number. *)
Notation count := (count_occ Nat.eq_dec).
Definition ready (ts : list (nat * MD)) (L : list nat) : Prop :=
  forall t tm d m, nth_error ts t = Some (tm, (d, m)) ->
    match m with Again => True | First => count L t <= 1 | Done => count L t = 0 end.
Definition sim {A} (P : bones -> list nat) (m2 : WM (TD := MD) A) (m : WM (TD := TD) A) : Prop := forall w L,
  ready (templs w) (P (bones_of w) ++ L) ->
  exists r w', m2 w = (r, w') /\ m (unmark w) = (r, unmark w') /\ bones_of w' = bones_of w /\
    forall a, r = Ok a -> ready (templs w') L.
Notation none := (fun _ : bones => @nil nat).

Lemma sim_ret {A} (a : A) : sim none (sret a) (sret a).
Proof. intros w L R. exists (Ok a), w. auto. Qed.
Lemma sim_panic {A} e : sim none (@spanic _ A e) (spanic e).
Proof. intros w L R. exists (Panic e), w. repeat split; auto; discriminate. Qed.
Lemma sim_lift {A} (r : res A) : sim none (slift r) (slift r).
Proof. intros w L R. exists r, w. auto. Qed.
Lemma sim_res {A} (g2 : MW -> res A) (g : World TD -> res A) : (forall w, g (unmark w) = g2 w) -> sim none (from_res g2) (from_res g).
Proof. intros E w L R. exists (g2 w), w. unfold from_res. rewrite E. auto. Qed.
Lemma sim_bind {A B} P Q (m2 : WM A) m (k2 : A -> WM B) k : sim P m2 m -> (forall a, sim Q (k2 a) (k a)) ->
  sim (fun b => P b ++ Q b) (sbind m2 k2) (sbind m k).
Proof.
  intros Hm Hk w L R. rewrite <- app_assoc in R. destruct (Hm w _ R) as (r & w' & E2 & E & B1 & R').
  unfold sbind. rewrite E2, E. destruct r as [a|e].
  - destruct (Hk a w' L) as (r & w'' & F2 & F & B2 & R''). { rewrite B1. eauto. }
    exists r, w''. rewrite F2, F, B2. auto.
  - exists (Panic e), w'. repeat split; auto. discriminate.
Qed.
Lemma sim_pure {A B} Q (m2 : WM A) m (k2 : A -> WM B) k : sim none m2 m -> (forall a, sim Q (k2 a) (k a)) ->
  sim Q (sbind m2 k2) (sbind m k).
Proof. intros Hm Hk. apply (sim_bind none Q); auto. Qed.
Lemma sim_get {A B} (tab2 : MW -> list A) (tab : World TD -> list A) i P (k2 : A -> WM B) k :
  (forall w, tab (unmark w) = tab2 w) ->
  (forall a, exists Pa, sim Pa (k2 a) (k a) /\ forall w, nth_error (tab2 w) i = Some a -> P (bones_of w) = Pa (bones_of w)) ->
  sim P (sbind (get tab2 i) k2) (sbind (get tab i) k).
Proof.
  intros E H w L R. unfold sbind, get. rewrite E. destruct (nth_error (tab2 w) i) as [a|] eqn:N.
  - destruct (H a) as (Pa & S & EP). rewrite (EP w N) in R. apply S. auto.
  - exists (Panic nil_deref), w. repeat split; auto. discriminate.
Qed.
Lemma sim_get0 {A B} (tab2 : MW -> list A) (tab : World TD -> list A) i (k2 : A -> WM B) k :
  (forall w, tab (unmark w) = tab2 w) -> (forall a, sim none (k2 a) (k a)) -> sim none (sbind (get tab2 i) k2) (sbind (get tab i) k).
Proof. intros E H. apply sim_get; auto. intros a. exists none. auto. Qed.
Lemma sim_put {A} (tab2 : MW -> list A) (tab : World TD -> list A) set2 set i a :
  (forall w, tab (unmark w) = tab2 w) -> (forall w l, unmark (set2 l w) = set l (unmark w)) ->
  (forall w l, bones_of (set2 l w) = bones_of w) -> (forall w l, templs (set2 l w) = templs w) ->
  sim none (put tab2 set2 i a) (put tab set i a).
Proof.
  intros T S B M w L R. exists (Ok tt), (set2 (upd i a (tab2 w)) w). unfold put. rewrite S, T, B, M. auto.
Qed.
Lemma sim_weak {A} P Q (m2 : WM A) m : (forall b, P b = Q b) -> sim P m2 m -> sim Q m2 m.
Proof. intros E H w L R. apply H. rewrite E. auto. Qed.
Lemma sim_for {A} (P : A -> bones -> list nat) (g2 : A -> WM unit) g l : (forall a, sim (P a) (g2 a) (g a)) ->
  sim (fun b => flat_map (fun a => P a b) l) (for_each g2 l) (for_each g l).
Proof.
  intros H. induction l as [|a l IH]; cbn [for_each flat_map]; [apply sim_ret|].
  apply (sim_bind (P a) (fun b => flat_map (fun a => P a b) l)); auto.
Qed.
Lemma sim_for0 {A} (g2 : A -> WM unit) g (l : list A) : (forall a, sim none (g2 a) (g a)) -> sim none (for_each g2 l) (for_each g l).
Proof.
  intros H. eapply sim_weak; [|apply (sim_for (fun _ => none)); exact H]. intros b. cbn. induction l; auto.
Qed.

(** ** The steps *)
Lemma elements_kept (l : list GoFile) i F im : nth_error l i = Some F -> map FElements (upd i (with_imports F im) l) = map FElements l.
Proof. intros E. rewrite map_upd. apply upd_same. rewrite nth_error_map, E. auto. Qed.
Lemma sim_imports {A} f (m : IM A) : sim none (onImports f m) (onImports f m).
Proof.
  intros w L R. unfold onImports. cbn [unmark files].
  destruct (nth_error (files w) f) as [F|] eqn:E.
  - destruct (m (FImports F)) as [r i]. eexists r, _. split; [reflexivity|]. split; [reflexivity|]. split.
    + unfold bones_of. cbn. rewrite elements_kept; auto.
    + intros a _. exact R.
  - eexists _, w. repeat split; auto; discriminate.
Qed.
Ltac put_step := apply sim_put; reflexivity.
Ltac step := first
  [ apply sim_ret | apply sim_panic | apply sim_lift | apply sim_imports
  | apply sim_res; reflexivity
  | put_step
  | apply sim_get0; [reflexivity|intros ?]
  | apply sim_pure; [|intros ?] ].
Lemma sim_sym f s : sim none (qualify_sym_arg f s) (qualify_sym_arg f s).
Proof. unfold qualify_sym_arg. repeat step. Qed.
Lemma sim_meth f a m : sim none (qualify_method f a m) (qualify_method f a m).
Proof. unfold qualify_method. repeat step. Qed.
Lemma sim_arg f a : sim none (Arg_qualify f a) (Arg_qualify f a).
Proof.
  destruct a; cbn [Arg_qualify]; unfold qualify_package; repeat step; auto using sim_sym, sim_meth;
    repeat match goal with x : _ * _ |- _ => destruct x end; repeat step.
  - match goal with e : InterfaceElement |- _ => destruct e end; repeat step.
  - match goal with e : SymbolOrMethodRef |- _ => destruct e end; auto using sim_sym, sim_meth.
  - match goal with e : SymbolOrMethodRef |- _ => destruct e end; auto using sim_sym, sim_meth.
Qed.
Lemma sim_line_at f args i : sim none (line_qualify_at f args i) (line_qualify_at f args i).
Proof.
  unfold line_qualify_at. step. destruct (nth_error a i); [|step]. apply sim_pure; [apply sim_arg|intros a']. repeat step.
Qed.
Lemma sim_line f args : sim none (line_qualify f args) (line_qualify f args).
Proof. unfold line_qualify. step. apply sim_for0. intros i. apply sim_line_at. Qed.
Lemma ready_upd ts t tm d m d' m' L : nth_error ts t = Some (tm, (d, m)) -> ready ts (t :: L) ->
  match m' with Again => True | First => count L t <= 1 | Done => count L t = 0 end ->
  ready (upd t (tm, (d', m')) ts) L.
Proof.
  intros E R H t' tm' d1 m1 E'. destruct (Nat.eq_dec t t') as [<-|N].
  - rewrite nth_upd_same in E' by (apply nth_error_Some; congruence). injection E' as <- <- <-. exact H.
  - rewrite nth_upd_other in E' by auto. specialize (R t' tm' d1 m1 E'). cbn [count_occ] in R.
    destruct (Nat.eq_dec t t') as [|_]; [contradiction|]. exact R.
Qed.
Lemma sim_templ f t : sim (fun _ => [t]) (templ_qualify mark_env f t) (templ_qualify env f t).
Proof.
  intros w L R. cbn [app] in R. unfold templ_qualify, sbind, get. cbn [unmark templs]. rewrite nth_error_map.
  destruct (nth_error (templs w) t) as [[tm [d m]]|] eqn:E; cbn [option_map fst snd].
  2:{ exists (Panic nil_deref), w. repeat split; auto. discriminate. }
  pose proof (R _ _ _ _ E) as C. cbn [count_occ] in C. destruct (Nat.eq_dec t t) as [_|N]; [|contradiction].
  unfold onImports. cbn [unmark files]. cbn [tq mark_env]. unfold mark_tq. cbn [fst snd].
  destruct (nth_error (files w) f) as [F|] eqn:EF.
  2:{ eexists _, w. repeat split; auto. discriminate. }
  assert (UP : forall d' m', map (fun x : nat * MD => (fst x, fst (snd x))) (upd t (tm, (d', m')) (templs w)) =
    upd t (tm, d') (map (fun x : nat * MD => (fst x, fst (snd x))) (templs w))) by (intros; rewrite map_upd; auto).
  destruct m; [| |discriminate].
  - destruct (tq env (unmark w) d (FImports F)) as [[d'|e] i]; eexists _, _; (split; [reflexivity|]); split.
    + unfold put. cbn [unmark set_templs set_files templs files]. unfold unmark. cbn [set_templs set_files templs files constDecls varDecls typeDecls consts vars types World.fields ielems funcs blocks argss].
      rewrite UP. reflexivity.
    + split; [unfold bones_of; cbn; rewrite elements_kept; auto|]. intros _ _. cbn [set_templs set_files templs]. eapply ready_upd; eauto.
    + reflexivity.
    + split; [unfold bones_of; cbn; rewrite elements_kept; auto|]. discriminate.
  - destruct (tq env (unmark w) d (FImports F)) as [[d'|e] i]; eexists _, _; (split; [reflexivity|]); split.
    + unfold put. cbn [unmark set_templs set_files templs files]. unfold unmark. cbn [set_templs set_files templs files constDecls varDecls typeDecls consts vars types World.fields ielems funcs blocks argss].
      rewrite UP. reflexivity.
    + split; [unfold bones_of; cbn; rewrite elements_kept; auto|]. intros _ _. cbn [set_templs set_files templs]. eapply ready_upd; eauto. lia.
    + reflexivity.
    + split; [unfold bones_of; cbn; rewrite elements_kept; auto|]. discriminate.
Qed.
Lemma sim_code f e : sim (fun _ => code_plan e) (codeElement_qualify mark_env f e) (codeElement_qualify env f e).
Proof. destruct e; [apply sim_line|apply sim_templ]. Qed.
Lemma sim_block f cb : sim (block_plan cb) (CodeBlock_qualify mark_env f cb) (CodeBlock_qualify env f cb).
Proof.
  apply sim_get; [reflexivity|]. intros b. exists (fun _ => flat_map code_plan b). split.
  - apply (sim_for (fun e _ => code_plan e)). intros e. apply sim_code.
  - intros w E. unfold block_plan. cbn [bones_of bBlocks]. rewrite E. auto.
Qed.
Lemma sim_elem f id : sim none (InterfaceElement_qualify f id) (InterfaceElement_qualify f id).
Proof.
  unfold InterfaceElement_qualify. step. destruct a; step; try step. destruct a as [s' b]. step.
Qed.
Lemma sim_type fuel f : forall id, sim none (TypeSpec_qualify fuel f id) (TypeSpec_qualify fuel f id).
Proof.
  induction fuel as [|fuel IH]; intros id; cbn [TypeSpec_qualify]; [step|]. step. step; [step|]. destruct a0 as [u c].
  step; [step|]. step; [|apply sim_for0; intros e; apply sim_elem].
  apply sim_for0. intros fid. step. destruct (FSType _); [step| |apply IH]. step; [step|]. destruct a2 as [t' b]. step.
Qed.
Lemma init_kept (l : list ValueSpec) i v v' : nth_error l i = Some v -> VInit v' = VInit v -> map VInit (upd i v' l) = map VInit l.
Proof. intros E H. rewrite map_upd. apply upd_same. rewrite nth_error_map, E. cbn. congruence. Qed.
(** A const or var: the type is replaced, the initializer kept. *)
Lemma sim_value (tab2 : MW -> list ValueSpec) (tab : World TD -> list ValueSpec) set2 set btab fuel f id :
  (forall w, tab (unmark w) = tab2 w) -> (forall w l, unmark (set2 l w) = set l (unmark w)) ->
  (forall w l, map VInit l = map VInit (tab2 w) -> bones_of (set2 l w) = bones_of w) -> (forall w l, templs (set2 l w) = templs w) ->
  (forall w, btab (bones_of w) = map VInit (tab2 w)) -> (forall w l, tab2 (set_files l w) = tab2 w) ->
  sim (value_plan btab id) (qualify_value mark_env tab2 set2 fuel f id) (qualify_value env tab set fuel f id).
Proof.
  intros T S B M BT TF w L R. unfold qualify_value. rewrite !bind_get, T.
  destruct (nth_error (tab2 w) id) as [v|] eqn:E.
  2:{ exists (Panic nil_deref), w. repeat split; auto. discriminate. }
  assert (I : sim (fun b => match VInit v with Some cb => block_plan cb b | None => [] end)
    (match VInit v with None => sret tt | Some cb => CodeBlock_qualify mark_env f cb end)
    (match VInit v with None => sret tt | Some cb => CodeBlock_qualify env f cb end)).
  { destruct (VInit v); [apply sim_block|apply sim_ret]. }
  assert (R' : ready (templs w) ((match VInit v with Some cb => block_plan cb (bones_of w) | None => [] end) ++ L)).
  { unfold value_plan in R. rewrite BT, nth_error_map, E in R. cbn [option_map] in R. destruct (VInit v); exact R. }
  destruct (VSType v) as [|t|ts].
  - exact (sim_pure _ _ _ _ _ (sim_ret tt) (fun _ => I) w L R').
  - assert (X : exists r w', (do '(t', _) <- onImports f (EnsureTypeImported t) ;;
              put tab2 set2 id (mkValue (VComment v) (VNames v) (IsName t') (VInit v) (VParent v))) w = (r, w') /\
        (do '(t', _) <- onImports f (EnsureTypeImported t) ;;
              put tab set id (mkValue (VComment v) (VNames v) (IsName t') (VInit v) (VParent v))) (unmark w) = (r, unmark w') /\
        bones_of w' = bones_of w /\ templs w' = templs w).
    { unfold sbind, onImports. cbn [unmark files]. destruct (nth_error (files w) f) as [F|] eqn:EF.
      2:{ eexists _, w. repeat split; auto. }
      destruct (EnsureTypeImported t (FImports F)) as [[[t' b]|e] i]; eexists _, _; (split; [reflexivity|]).
      - unfold put. change (set_files (upd f (with_imports F i) (files w)) (unmark w)) with (unmark (set_files (upd f (with_imports F i) (files w)) w)).
        rewrite T, <- S. split; [reflexivity|]. rewrite M. split; [|reflexivity]. rewrite B.
        + unfold bones_of. cbn. rewrite elements_kept; auto.
        + rewrite TF. eapply init_kept; eauto.
      - split; [reflexivity|]. split; [|reflexivity]. unfold bones_of. cbn. rewrite elements_kept; auto. }
    destruct X as (r & w' & E2 & E1 & BO & TE). rewrite (bind_eq _ _ w), (bind_eq _ _ (unmark w)), E2, E1. destruct r as [[]|e].
    + destruct (I w' L) as (r & w'' & F2 & F1 & BO2 & R2). { rewrite BO, TE. exact R'. }
      exists r, w''. split; [exact F2|]. split; [exact F1|]. rewrite BO2. auto.
    + exists (Panic e), w'. repeat split; auto. discriminate.
  - exact (sim_pure _ _ _ _ _ (sim_type fuel f ts) (fun _ => I) w L R').
Qed.
Lemma sim_element fuel f e : sim (element_plan e) (FileElement_qualify mark_env fuel f e) (FileElement_qualify env fuel f e).
Proof.
  destruct e as [d|d|d|i]; cbn [FileElement_qualify element_plan].
  - apply sim_get; [reflexivity|]. intros D. exists (fun b => flat_map (fun i => value_plan bConsts i b) (VDSpecs D)). split.
    + apply sim_for. intros i. apply sim_value; auto. intros w l E. unfold bones_of. cbn. rewrite E. auto.
    + intros w E. cbn [element_plan bones_of bConstDecls]. rewrite E. auto.
  - apply sim_get; [reflexivity|]. intros D. exists (fun b => flat_map (fun i => value_plan bVars i b) (VDSpecs D)). split.
    + apply sim_for. intros i. apply sim_value; auto. intros w l E. unfold bones_of. cbn. rewrite E. auto.
    + intros w E. cbn [element_plan bones_of bVarDecls]. rewrite E. auto.
  - step. apply sim_for0. intros i. apply sim_type.
  - intros w L R. rewrite !bind_get. cbn [unmark funcs]. destruct (nth_error (funcs w) i) as [F|] eqn:E.
    2:{ exists (Panic nil_deref), w. repeat split; auto. discriminate. }
    cbn [element_plan bones_of bFuncs] in R. rewrite nth_error_map, E in R. cbn [option_map] in R.
    rewrite (bind_eq _ _ w), (bind_eq _ _ (unmark w)). unfold onImports. cbn [unmark files].
    destruct (nth_error (files w) f) as [G|] eqn:EF.
    2:{ eexists _, w. repeat split; auto; discriminate. }
    destruct (EnsureAllTypesImported (FNSig F) (FImports G)) as [[[s b]|e] j].
    + unfold sbind, put.
      set (w1 := set_funcs _ _). set (v1 := set_funcs _ (set_files _ (unmark w))).
      assert (V : v1 = unmark w1) by reflexivity. rewrite V.
      destruct (sim_block f (FNBody F) w1 L) as (r & w2 & F2 & F1 & BO & R2).
      * change (templs w1) with (templs w). assert (BB : bones_of w1 = bones_of w); [|rewrite BB; exact R].
        unfold bones_of, w1. cbn. rewrite elements_kept by auto. rewrite map_upd. rewrite (upd_same i); auto.
        rewrite nth_error_map, E. auto.
      * exists r, w2. rewrite F2, F1. split; auto. split; auto. split; auto. rewrite BO.
        unfold bones_of, w1. cbn. rewrite elements_kept by auto. rewrite map_upd. rewrite (upd_same i); auto.
        rewrite nth_error_map, E. auto.
    + eexists _, _. split; [reflexivity|]. split; [reflexivity|]. split; [|discriminate]. unfold bones_of. cbn. rewrite elements_kept; auto.
Qed.
Theorem sim_file fuel f : sim (file_plan f) (qualify_file mark_env fuel f) (qualify_file env fuel f).
Proof.
  apply sim_get; [reflexivity|]. intros F. exists (fun b => flat_map (fun e => element_plan e b) (FElements F)). split.
  - apply sim_for. intros e. apply sim_element.
  - intros w E. unfold file_plan. cbn [bones_of bFiles]. rewrite nth_error_map, E. auto.
Qed.

(** ** The text *)
Lemma code_text w e : codeElement_writeTo mark_env w e = codeElement_writeTo env (unmark w) e.
Proof.
  destruct e as [format args|t]; cbn [codeElement_writeTo]; [reflexivity|]. unfold rd. cbn [unmark templs]. rewrite nth_error_map.
  destruct (nth_error (templs w) t) as [[tm [d m]]|]; reflexivity.
Qed.
Lemma block_text_same w cb : CodeBlock_writeTo mark_env w cb = CodeBlock_writeTo env (unmark w) cb.
Proof.
  unfold CodeBlock_writeTo, rd. cbn [unmark blocks]. destruct (nth_error (blocks w) cb) as [b|]; auto. cbn [rbind].
  f_equal. apply map_ext. apply code_text.
Qed.
Lemma value_text w v c : ValueSpec_writeTo mark_env w v c = ValueSpec_writeTo env (unmark w) v c.
Proof.
  unfold ValueSpec_writeTo. destruct (VInit v) as [cb|]; [|reflexivity]. rewrite block_text_same. reflexivity.
Qed.
Lemma underlying_text fuel w : forall T, TypeSpec_writeUnderlying mark_env fuel w T = TypeSpec_writeUnderlying env fuel (unmark w) T.
Proof.
  induction fuel as [|fuel IH]; intros T; cbn [TypeSpec_writeUnderlying]; auto. destruct (TSUnderlying T); auto.
  do 3 f_equal. apply map_ext. intros id. unfold rd at 1 3. cbn [unmark World.fields].
  destruct (nth_error (World.fields w) id) as [F|]; auto. cbn [rbind]. f_equal. destruct (FSType F) as [|t|ts]; auto.
  unfold rd. cbn [unmark types]. destruct (nth_error (types w) ts) as [T'|]; auto. cbn [rbind]. destruct (String.eqb (TSName T') ""); auto. rewrite IH. auto.
Qed.
Lemma decl_text {A} kw c sc (g1 g2 : A -> bool -> res string) l : (forall x b, g1 x b = g2 x b) ->
  decl_writeTo kw c sc g1 l = decl_writeTo kw c sc g2 l.
Proof.
  intros E. unfold decl_writeTo. destruct (_ || _).
  - do 3 f_equal. f_equal. apply map_ext. auto.
  - destruct l; auto. rewrite E. auto.
Qed.
Lemma element_text fuel w e : FileElement_writeTo mark_env fuel w e = FileElement_writeTo env fuel (unmark w) e.
Proof.
  destruct e as [d|d|d|i]; cbn [FileElement_writeTo]; unfold rd at 1 2; cbn [unmark constDecls varDecls typeDecls funcs].
  - destruct (nth_error (constDecls w) d) as [D|]; auto. cbn [rbind]. change (rd_all consts (VDSpecs D) (unmark w)) with (rd_all consts (VDSpecs D) w).
    destruct (rd_all consts (VDSpecs D) w); auto. cbn [rbind]. apply decl_text. intros; apply value_text.
  - destruct (nth_error (varDecls w) d) as [D|]; auto. cbn [rbind]. change (rd_all vars (VDSpecs D) (unmark w)) with (rd_all vars (VDSpecs D) w).
    destruct (rd_all vars (VDSpecs D) w); auto. cbn [rbind]. apply decl_text. intros; apply value_text.
  - destruct (nth_error (typeDecls w) d) as [D|]; auto. cbn [rbind]. change (rd_all types (TDTypes D) (unmark w)) with (rd_all types (TDTypes D) w).
    destruct (rd_all types (TDTypes D) w); auto. cbn [rbind]. apply decl_text. intros T b. unfold TypeSpec_writeTo. rewrite underlying_text. auto.
  - destruct (nth_error (funcs w) i) as [F|]; auto. cbn [rbind]. unfold FuncSpec_writeTo. rewrite block_text_same. reflexivity.
Qed.
Lemma file_text fuel w F : GoFile_writeTo mark_env fuel w F = GoFile_writeTo env fuel (unmark w) F.
Proof.
  unfold GoFile_writeTo. do 6 f_equal. f_equal. apply map_ext. intros e. rewrite element_text. auto.
Qed.
Theorem source_same fuel f w : ready (templs w) (file_plan f (bones_of w)) ->
  exists r w', source mark_env fuel f w = (r, w') /\ source env fuel f (unmark w) = (r, unmark w').
Proof.
  intros R. destruct (sim_file fuel f w []) as (r & w' & E2 & E & _). { rewrite app_nil_r. exact R. }
  unfold source. rewrite !bind_eq, E2, E. destruct r as [[]|e]; [|eauto].
  rewrite !bind_get. cbn [unmark files]. destruct (nth_error (files w') f) as [F|]; [|eauto].
  unfold from_res. rewrite file_text. eauto.
Qed.
Theorem qualify_same fuel f w : ready (templs w) (file_plan f (bones_of w)) ->
  exists r w', qualify_file mark_env fuel f w = (r, w') /\ qualify_file env fuel f (unmark w) = (r, unmark w').
Proof.
  intros R. destruct (sim_file fuel f w []) as (r & w' & E2 & E & _); eauto. rewrite app_nil_r. exact R.
Qed.

(** ** Marking the templates that occur at most once *)
Fixpoint marked (g : nat -> mark) (k : nat) (l : list (nat * TD)) : list (nat * MD) :=
  match l with [] => [] | (tm, d) :: l => (tm, (d, g k)) :: marked g (S k) l end.
Lemma nth_marked g l : forall k t, nth_error (marked g k l) t = option_map (fun x => (fst x, (snd x, g (k + t)))) (nth_error l t).
Proof.
  induction l as [|[tm d] l IH]; intros k [|t]; cbn [marked nth_error option_map fst snd]; auto.
  - rewrite Nat.add_0_r. auto.
  - rewrite IH, Nat.add_succ_r. auto.
Qed.
Lemma unmarked g l : forall k, map (fun x : nat * MD => (fst x, fst (snd x))) (marked g k l) = l.
Proof. induction l as [|[tm d] l IH]; intros k; cbn; auto. rewrite IH. auto. Qed.
Definition choose (L : list nat) (t : nat) : mark := if Nat.leb (count L t) 1 then First else Again.
Definition mark_world (f : nat) (v : World TD) : MW :=
  mkWorld (files v) (constDecls v) (varDecls v) (typeDecls v) (consts v) (vars v) (types v) (World.fields v) (ielems v) (funcs v)
    (blocks v) (argss v) (marked (choose (file_plan f (bones_of v))) 0 (templs v)).
Lemma unmark_world f v : unmark (mark_world f v) = v.
Proof. unfold unmark, mark_world. cbn. rewrite unmarked. destruct v; auto. Qed.
Lemma mark_ready f v : ready (templs (mark_world f v)) (file_plan f (bones_of (mark_world f v))).
Proof.
  intros t tm d m E. cbn [mark_world templs] in E. rewrite nth_marked in E. change (bones_of (mark_world f v)) with (bones_of v).
  destruct (nth_error (templs v) t) as [[tm' d']|]; [|discriminate]. injection E as <- <- <-. cbn [Nat.add]. unfold choose.
  destruct (Nat.leb_spec (count (file_plan f (bones_of v)) t) 1); auto.
Qed.
End Once.
