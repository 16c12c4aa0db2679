(** What the calls of the library leave alone: the elements of files, the members of
    declarations and the files of specs. *)
From Verif Require Import Base GoPath Types SpecTypes Imports SpecImports Conv World WorldProofs SpecGo SpecRender SpecCalls SpecWorld
  SpecProgram.

Definition grows {A} (members : A -> list nat) (l l' : list A) : Prop :=
  forall d D, nth_error l d = Some D -> exists D' r, nth_error l' d = Some D' /\ members D' = members D ++ r.
Lemma grows_refl {A} (g : A -> list nat) l : grows g l l.
Proof. intros d D E. exists D, []. rewrite app_nil_r. auto. Qed.
Lemma grows_trans {A} (g : A -> list nat) l m n : grows g l m -> grows g m n -> grows g l n.
Proof.
  intros H K d D E. destruct (H d D E) as (D' & r & E' & M). destruct (K d D' E') as (D2 & r2 & E2 & M2).
  exists D2, (r ++ r2). split; auto. rewrite M2, M, app_assoc. auto.
Qed.
Lemma grows_app {A} (g : A -> list nat) l x : grows g l (l ++ [x]).
Proof.
  intros d D E. exists D, []. rewrite app_nil_r. split; auto. rewrite nth_error_app1; auto. apply nth_error_Some. congruence.
Qed.
Lemma grows_upd {A} (g : A -> list nat) l i x r : (forall y, nth_error l i = Some y -> g x = g y ++ r) -> grows g l (upd i x l).
Proof.
  intros H d D E. destruct (Nat.eq_dec i d) as [->|N].
  - exists x, r. rewrite nth_upd_same by (apply nth_error_Some; congruence). auto.
  - exists D, []. rewrite nth_upd_other by auto. rewrite app_nil_r. auto.
Qed.

Section Frame.
Context {TD : Type}.
Variable env : Env TD.
Notation World := (World TD).
Notation WM := (WM (TD := TD)).
(** what may happen to the imports of each file *)
Variable R : nat -> Imports -> Imports -> Prop.
Hypothesis Rrefl : forall f i, R f i i.
Hypothesis Rtrans : forall f i j k, R f i j -> R f j k -> R f i k.

Definition file_kept (f : nat) (F F' : GoFile) : Prop :=
  FElements F' = FElements F /\ FName F' = FName F /\ FPackageName F' = FPackageName F /\ R f (FImports F) (FImports F').
Lemma file_kept_refl f F : file_kept f F F.
Proof. repeat split; auto. Qed.
Definition files_kept (l l' : list GoFile) : Prop :=
  List.length l' = List.length l /\
  forall f F, nth_error l f = Some F -> exists F', nth_error l' f = Some F' /\ file_kept f F F'.
Record decls_grow (w w' : World) : Prop := mkGrow
  { g_consts : grows VDSpecs (constDecls w) (constDecls w');
    g_vars : grows VDSpecs (varDecls w) (varDecls w');
    g_types : grows TDTypes (typeDecls w) (typeDecls w') }.
Lemma decls_grow_refl w : decls_grow w w.
Proof. split; apply grows_refl. Qed.
Lemma decls_grow_trans a b c : decls_grow a b -> decls_grow b c -> decls_grow a c.
Proof. intros [A B C] [A' B' C']. split; eapply grows_trans; eauto. Qed.
Record frame (w w' : World) : Prop := mkFrame
  { f_files : files_kept (files w) (files w');
    f_of : forall k, file_of w' k = file_of w k;
    f_decls : decls_grow w w' }.
Lemma kept_files_refl l : files_kept l l.
Proof. split; auto. intros f F E. exists F. split; auto. apply file_kept_refl. Qed.
Lemma kept_files_trans l m n : files_kept l m -> files_kept m n -> files_kept l n.
Proof.
  intros [L H] [L' H']. split; [congruence|]. intros f F E. destruct (H f F E) as (G & EG & K). destruct (H' f G EG) as (J & EJ & K').
  exists J. split; auto. destruct K as (A & B & C & D). destruct K' as (A' & B' & C' & D'). repeat split; try congruence. eauto.
Qed.
Lemma frame_refl w : frame w w.
Proof. split; auto using kept_files_refl, decls_grow_refl. Qed.
Lemma frame_trans a b c : frame a b -> frame b c -> frame a c.
Proof.
  intros [A B C] [A' B' C']. split; [eapply kept_files_trans; eauto| |eapply decls_grow_trans; eauto].
  intros k. rewrite B'. auto.
Qed.

(** [fact]: what is known about the file of one spec. *)
Definition fact := option (thing * option nat).
Definition meets (w : World) (P : fact) : Prop := match P with None => True | Some (k, f) => file_of w k = f end.
Definition framed (P : fact) {A} (m : WM A) : Prop := forall w, meets w P -> frame w (snd (m w)).
Lemma meets_frame w w' P : frame w w' -> meets w P -> meets w' P.
Proof. intros F. destruct P as [[k f]|]; cbn; auto. rewrite (f_of _ _ F). auto. Qed.
Lemma framed_weaken P {A} (m : WM A) : framed None m -> framed P m.
Proof. intros H w _. apply H. exact Logic.I. Qed.
Lemma framed_ret P {A} (a : A) : framed P (sret a).
Proof. intros w _. apply frame_refl. Qed.
Lemma framed_panic P {A} e : framed P (spanic e : WM A).
Proof. intros w _. apply frame_refl. Qed.
Lemma framed_lift P {A} (r : res A) : framed P (slift r : WM A).
Proof. intros w _. apply frame_refl. Qed.
Lemma framed_from P {A} (r : World -> res A) : framed P (from_res r).
Proof. intros w _. apply frame_refl. Qed.
Lemma framed_get P {A} (tab : World -> list A) i : framed P (get tab i).
Proof. intros w _. unfold get. destruct (nth_error (tab w) i); apply frame_refl. Qed.
Lemma framed_bind P {A B} (m : WM A) (k : A -> WM B) : framed P m -> (forall a, framed P (k a)) -> framed P (do a <- m ;; k a).
Proof.
  intros H K w M. pose proof (H w M) as H'. unfold sbind. destruct (m w) as [[a|e] w1]; cbn [snd] in *; auto.
  eapply frame_trans; [exact H'|]. apply K. eapply meets_frame; eauto.
Qed.
Lemma framed_each P {A} (g : A -> WM unit) l : (forall a, framed P (g a)) -> framed P (for_each g l).
Proof. intros H. induction l; cbn [for_each]; [apply framed_ret|apply framed_bind; auto]. Qed.
Lemma framed_map P {A B} (g : A -> WM B) l : (forall a, framed P (g a)) -> framed P (map_m g l).
Proof. intros H. induction l; cbn [map_m]; [apply framed_ret|]. apply framed_bind; auto. intros b. apply framed_bind; auto. intros s. apply framed_ret. Qed.

(** ** Tables without a part in the frame *)
Definition inert (w w' : World) : Prop :=
  files w' = files w /\ constDecls w' = constDecls w /\ varDecls w' = varDecls w /\ typeDecls w' = typeDecls w /\
  consts w' = consts w /\ vars w' = vars w /\ types w' = types w /\ funcs w' = funcs w.
Lemma inert_frame w w' : inert w w' -> frame w w'.
Proof.
  intros (A & B & C & D & E & F & G & H). split.
  - rewrite A. apply kept_files_refl.
  - intros [id|id|id|id]; cbn; congruence.
  - split; rewrite ?B, ?C, ?D; apply grows_refl.
Qed.
Ltac inert := intros w _; apply inert_frame; repeat split; reflexivity.
Lemma framed_put_fields P i v : framed P (put World.fields set_fields i v). Proof. inert. Qed.
Lemma framed_put_ielems P i v : framed P (put ielems set_ielems i v). Proof. inert. Qed.
Lemma framed_put_blocks P i v : framed P (put blocks set_blocks i v). Proof. inert. Qed.
Lemma framed_put_argss P i v : framed P (put argss set_argss i v). Proof. inert. Qed.
Lemma framed_put_templs P i v : framed P (put templs set_templs i v). Proof. inert. Qed.
Lemma framed_new_fields P v : framed P (alloc World.fields set_fields v). Proof. inert. Qed.
Lemma framed_new_ielems P v : framed P (alloc ielems set_ielems v). Proof. inert. Qed.
Lemma framed_new_blocks P v : framed P (alloc blocks set_blocks v). Proof. inert. Qed.
Lemma framed_new_argss P v : framed P (alloc argss set_argss v). Proof. inert. Qed.
Lemma framed_new_templs P v : framed P (alloc templs set_templs v). Proof. inert. Qed.

(** ** Specs *)
Lemma obind_app {A B} (g : A -> option B) l x i : g x = None -> obind (nth_error (l ++ [x]) i) g = obind (nth_error l i) g.
Proof.
  intros N. destruct (Nat.lt_ge_cases i (List.length l)) as [L|L]; [rewrite nth_error_app1 by auto; auto|].
  rewrite nth_error_app2 by auto. replace (nth_error l i) with (@None A) by (symmetry; apply nth_error_None; auto).
  destruct (i - List.length l) as [|[|n]]; cbn; auto.
Qed.
Lemma obind_upd {A B} (g : A -> option B) l x i j : obind (nth_error l i) g = g x ->
  obind (nth_error (upd i x l) j) g = obind (nth_error l j) g.
Proof.
  intros N. destruct (Nat.eq_dec i j) as [->|NE]; [|rewrite nth_upd_other by auto; auto].
  destruct (nth_error l j) as [y|] eqn:E.
  - rewrite nth_upd_same by (apply nth_error_Some; congruence). cbn in *. auto.
  - replace (nth_error (upd j x l) j) with (@None A); auto. symmetry. apply nth_error_None. rewrite upd_length. apply nth_error_None; auto.
Qed.
Ltac spec_frame L := split; [apply kept_files_refl|intros [?|?|?|?]; cbn; auto; apply L; auto|split; apply grows_refl].
Lemma framed_new_consts P v : VParent v = None -> framed P (alloc consts set_consts v).
Proof. intros N w _. spec_frame @obind_app. Qed.
Lemma framed_new_vars P v : VParent v = None -> framed P (alloc vars set_vars v).
Proof. intros N w _. spec_frame @obind_app. Qed.
Lemma framed_new_types P v : TSParent v = None -> framed P (alloc types set_types v).
Proof. intros N w _. spec_frame @obind_app. Qed.
Lemma framed_new_funcs P v : FNParent v = None -> framed P (alloc funcs set_funcs v).
Proof. intros N w _. spec_frame @obind_app. Qed.
Lemma framed_put_consts i v : framed (Some (AConstSpec i, VParent v)) (put consts set_consts i v).
Proof. intros w M. cbn in M. spec_frame @obind_upd. Qed.
Lemma framed_put_vars i v : framed (Some (AVarSpec i, VParent v)) (put vars set_vars i v).
Proof. intros w M. cbn in M. spec_frame @obind_upd. Qed.
Lemma framed_put_types i v : framed (Some (ATypSpec i, TSParent v)) (put types set_types i v).
Proof. intros w M. cbn in M. spec_frame @obind_upd. Qed.
Lemma framed_put_funcs i v : framed (Some (AFuncSpec i, FNParent v)) (put funcs set_funcs i v).
Proof. intros w M. cbn in M. spec_frame @obind_upd. Qed.
(** reading a spec tells its file *)
Lemma framed_get_fact {A B} (tab : World -> list A) (K : nat -> thing) (par : A -> option nat) i (k : A -> WM B) :
  (forall w, file_of w (K i) = obind (nth_error (tab w) i) par) ->
  (forall v, framed (Some (K i, par v)) (k v)) -> framed None (do v <- get tab i ;; k v).
Proof.
  intros H G w _. unfold sbind, get. destruct (nth_error (tab w) i) as [v|] eqn:E; [|apply frame_refl].
  apply G. cbn. rewrite H, E. reflexivity.
Qed.
Lemma framed_get_consts {B} i (k : ValueSpec -> WM B) : (forall v, framed (Some (AConstSpec i, VParent v)) (k v)) ->
  framed None (do v <- get consts i ;; k v).
Proof. apply framed_get_fact with (K := AConstSpec). auto. Qed.
Lemma framed_get_vars {B} i (k : ValueSpec -> WM B) : (forall v, framed (Some (AVarSpec i, VParent v)) (k v)) ->
  framed None (do v <- get vars i ;; k v).
Proof. apply framed_get_fact with (K := AVarSpec). auto. Qed.
Lemma framed_get_types {B} i (k : TypeSpec -> WM B) : (forall v, framed (Some (ATypSpec i, TSParent v)) (k v)) ->
  framed None (do v <- get types i ;; k v).
Proof. apply framed_get_fact with (K := ATypSpec). auto. Qed.
Lemma framed_get_funcs {B} i (k : FuncSpec -> WM B) : (forall v, framed (Some (AFuncSpec i, FNParent v)) (k v)) ->
  framed None (do v <- get funcs i ;; k v).
Proof. apply framed_get_fact with (K := AFuncSpec). auto. Qed.
Lemma framed_alloc_types {B} v (k : nat -> WM B) : TSParent v = None ->
  (forall i, framed (Some (ATypSpec i, None)) (k i)) -> framed None (do i <- alloc types set_types v ;; k i).
Proof.
  intros N G w _. unfold sbind, alloc. eapply frame_trans; [apply (framed_new_types None v N w Logic.I)|].
  apply G. cbn. rewrite nth_error_app2, Nat.sub_diag by apply Nat.le_refl. cbn. auto.
Qed.

(** ** Declarations *)
Lemma framed_new_constDecls P v : framed P (alloc constDecls set_constDecls v).
Proof. intros w _. split; [apply kept_files_refl|intros []; reflexivity|split; cbn; auto using grows_refl, grows_app]. Qed.
Lemma framed_new_varDecls P v : framed P (alloc varDecls set_varDecls v).
Proof. intros w _. split; [apply kept_files_refl|intros []; reflexivity|split; cbn; auto using grows_refl, grows_app]. Qed.
Lemma framed_new_typeDecls P v : framed P (alloc typeDecls set_typeDecls v).
Proof. intros w _. split; [apply kept_files_refl|intros []; reflexivity|split; cbn; auto using grows_refl, grows_app]. Qed.
Lemma framed_set_constDecl P d (g : ValueDecl -> ValueDecl) r : (forall D, VDSpecs (g D) = VDSpecs D ++ r) ->
  framed P (do D <- get constDecls d ;; put constDecls set_constDecls d (g D)).
Proof.
  intros H w _. unfold sbind, get. destruct (nth_error (constDecls w) d) as [D|] eqn:E; [|apply frame_refl].
  split; [apply kept_files_refl|intros []; reflexivity|split; cbn; auto using grows_refl]. apply grows_upd with (r := r).
  intros y Y. rewrite E in Y. injection Y as <-. auto.
Qed.
Lemma framed_set_varDecl P d (g : ValueDecl -> ValueDecl) r : (forall D, VDSpecs (g D) = VDSpecs D ++ r) ->
  framed P (do D <- get varDecls d ;; put varDecls set_varDecls d (g D)).
Proof.
  intros H w _. unfold sbind, get. destruct (nth_error (varDecls w) d) as [D|] eqn:E; [|apply frame_refl].
  split; [apply kept_files_refl|intros []; reflexivity|split; cbn; auto using grows_refl]. apply grows_upd with (r := r).
  intros y Y. rewrite E in Y. injection Y as <-. auto.
Qed.
Lemma framed_set_typeDecl P d (g : TypeDecl -> TypeDecl) r : (forall D, TDTypes (g D) = TDTypes D ++ r) ->
  framed P (do D <- get typeDecls d ;; put typeDecls set_typeDecls d (g D)).
Proof.
  intros H w _. unfold sbind, get. destruct (nth_error (typeDecls w) d) as [D|] eqn:E; [|apply frame_refl].
  split; [apply kept_files_refl|intros []; reflexivity|split; cbn; auto using grows_refl]. apply grows_upd with (r := r).
  intros y Y. rewrite E in Y. injection Y as <-. auto.
Qed.

(** ** Files *)
Lemma kept_files_upd l f F F' : nth_error l f = Some F -> file_kept f F F' -> files_kept l (upd f F' l).
Proof.
  intros E K. split; [apply upd_length|]. intros g G EG. destruct (Nat.eq_dec f g) as [<-|N].
  - rewrite nth_upd_same by (apply nth_error_Some; congruence). exists F'. rewrite E in EG. injection EG as <-. auto.
  - rewrite nth_upd_other by auto. exists G. split; auto. apply file_kept_refl.
Qed.
Lemma framed_set_file P f (g : GoFile -> GoFile) : (forall F, file_kept f F (g F)) ->
  framed P (do F <- get files f ;; put files set_files f (g F)).
Proof.
  intros H w _. unfold sbind, get. destruct (nth_error (files w) f) as [F|] eqn:E; [|apply frame_refl].
  split; [eapply kept_files_upd; eauto|intros []; reflexivity|split; cbn; auto using grows_refl].
Qed.
Lemma onImports_frame {A} f (m : IM A) w : (forall i, R f i (snd (m i))) -> frame w (snd (onImports f m w)).
Proof.
  intros H. unfold onImports. destruct (nth_error (files w) f) as [F|] eqn:E; [|apply frame_refl].
  specialize (H (FImports F)). destruct (m (FImports F)) as [r i]. cbn [snd] in *.
  split; [|intros []; reflexivity|split; cbn; auto using grows_refl].
  eapply kept_files_upd; eauto. repeat split; auto.
Qed.
Lemma framed_imports P {A} f (m : IM A) : (forall i, R f i (snd (m i))) -> framed P (onImports f m).
Proof. intros H w _. apply onImports_frame; auto. Qed.
Section One.
Variable f : nat.
Hypothesis Rexec : forall c i, R f i (exec c i).
Hypothesis Rtq : forall w d i, R f i (snd (tq env w d i)).
Lemma framed_symbol P s : framed P (onImports f (EnsureImported s)).
Proof. apply framed_imports. intros i. exact (Rexec (CEnsureImported s) i). Qed.
Lemma framed_type P t : framed P (onImports f (EnsureTypeImported t)).
Proof. apply framed_imports. intros i. exact (Rexec (CEnsureTypeImported t) i). Qed.
Lemma framed_signature P s : framed P (onImports f (EnsureAllTypesImported s)).
Proof. apply framed_imports. intros i. exact (Rexec (CEnsureAllTypesImported s) i). Qed.
Lemma framed_package P p : framed P (onImports f (registerPackage p)).
Proof.
  apply framed_imports. intros i. pose proof (Rexec (CRegisterImportForPackage p) i) as H. cbn [exec] in H.
  unfold registerPackage, sbind. destruct (RegisterImportForPackage p i) as [[x|e] j]; exact H.
Qed.
Lemma framed_tq P d : framed P (fun w => onImports f (tq env w d) w).
Proof. intros w _. apply onImports_frame. auto. Qed.
End One.
End Frame.
