(** Files that can be written, and files that cannot. *)
From Verif Require Import Base BaseFacts GoPath Types SpecTypes TypesFacts Imports SpecImports ImportsProofs ImportsTheorems
  SettleProofs SpecGo SpecRender Conv Fmt World SpecFile SpecDecl SpecWorld SpecQualify WorldProofs QualifyProofs QualifyTheorems
  TextProofs TextTheorems SourceTheorems SpecTotal TotalProofs.
From Coq Require Import Lia.

(** ** More fuel changes nothing *)
Section Mono.
Context {TD : Type}.
Variable env : Env TD.
Definition mono {A} (m m' : WM (TD := TD) A) : Prop := forall w r w1, m w = (Ok r, w1) -> m' w = (Ok r, w1).
Lemma mono_refl {A} (m : WM (TD := TD) A) : mono m m.
Proof. intros w r w1 E; exact E. Qed.
Lemma mono_bind {A B} (m m' : WM (TD := TD) A) (k k' : A -> WM (TD := TD) B) :
  mono m m' -> (forall a, mono (k a) (k' a)) -> mono (do a <- m ;; k a) (do a <- m' ;; k' a).
Proof.
  intros M K w r w1. unfold sbind. destruct (m w) as [[a|e] w2] eqn:E; [|discriminate]. rewrite (M _ _ _ E). apply K.
Qed.
Lemma mono_for {A} (g g' : A -> WM (TD := TD) unit) l : (forall a, mono (g a) (g' a)) -> mono (for_each g l) (for_each g' l).
Proof.
  intros G. induction l as [|a l IH]; cbn [for_each]; [apply mono_refl|]. apply mono_bind; auto.
Qed.
Lemma mono_type f k k' : k <= k' -> forall i, mono (TypeSpec_qualify k f i) (TypeSpec_qualify k' f i).
Proof.
  revert k'. induction k as [|k IH]; intros k' LE i; [intros w r w1 E; discriminate|].
  destruct k' as [|k']; [lia|]. cbn [TypeSpec_qualify].
  apply mono_bind; [apply mono_refl|]. intros T. apply mono_bind; [apply mono_refl|]. intros [u b].
  apply mono_bind; [apply mono_refl|]. intros _. apply mono_bind; [|intros; apply mono_refl].
  apply mono_for. intros fid. apply mono_bind; [apply mono_refl|]. intros fs.
  destruct (FSType fs); try apply mono_refl. apply IH. lia.
Qed.
Lemma mono_value tab set k k' f i : k <= k' -> mono (qualify_value env tab set k f i) (qualify_value env tab set k' f i).
Proof.
  intros LE. unfold qualify_value. apply mono_bind; [apply mono_refl|]. intros v. apply mono_bind; [|intros; apply mono_refl].
  destruct (VSType v); try apply mono_refl. apply mono_type; auto.
Qed.
Lemma mono_qualify f k k' : k <= k' -> mono (qualify_file env k f) (qualify_file env k' f).
Proof.
  intros LE. unfold qualify_file. apply mono_bind; [apply mono_refl|]. intros F. apply mono_for. intros e.
  destruct e as [d|d|d|i]; cbn [FileElement_qualify]; try apply mono_refl; (apply mono_bind; [apply mono_refl|]; intros D; apply mono_for; intros i).
  - apply mono_value; auto.
  - apply mono_value; auto.
  - apply mono_type; auto.
Qed.
Definition rmono {A} (r r' : res A) : Prop := forall a, r = Ok a -> r' = Ok a.
Lemma rmono_refl {A} (r : res A) : rmono r r. Proof. intros a E; exact E. Qed.
Lemma rmono_bind {A B} (r r' : res A) (k k' : A -> res B) : rmono r r' -> (forall a, rmono (k a) (k' a)) -> rmono (rbind r k) (rbind r' k').
Proof. intros R K b. destruct r as [a|e] eqn:E; cbn [rbind]; [|discriminate]. rewrite (R a eq_refl). apply K. Qed.
Lemma rmono_app (a a' b b' : res string) : rmono a a' -> rmono b b' -> rmono (a +++ b) (a' +++ b').
Proof.
  intros A B s. destruct a as [x|]; [|discriminate]. rewrite (A x eq_refl). destruct b as [y|]; [|discriminate].
  rewrite (B y eq_refl). auto.
Qed.
Lemma rmono_concat {A} (g g' : A -> res string) l : (forall a, rmono (g a) (g' a)) -> rmono (concat_res (map g l)) (concat_res (map g' l)).
Proof. intros G. induction l as [|a l IH]; cbn [map concat_res]; [apply rmono_refl|]. apply rmono_app; auto. Qed.
Lemma rmono_under w k : forall k' T, k <= k' -> rmono (TypeSpec_writeUnderlying env k w T) (TypeSpec_writeUnderlying env k' w T).
Proof.
  induction k as [|k IH]; intros k' T LE; [intros s E; discriminate|].
  destruct k' as [|k']; [lia|]. cbn [TypeSpec_writeUnderlying]. destruct (TSUnderlying T); try apply rmono_refl.
  apply rmono_app; [apply rmono_refl|]. apply rmono_app; [|apply rmono_refl]. apply rmono_concat. intros id.
  apply rmono_bind; [apply rmono_refl|]. intros F. unfold field_writeTo.
  apply rmono_app; [apply rmono_refl|]. apply rmono_app; [apply rmono_refl|]. apply rmono_app; [|apply rmono_refl].
  destruct (FSType F); try apply rmono_refl. apply rmono_bind; [apply rmono_refl|]. intros T'.
  destruct (String.eqb (TSName T') ""); [apply IH; lia|apply rmono_refl].
Qed.
Lemma rmono_decl {A} kw c sc (wr wr' : A -> bool -> res string) l : (forall a b, rmono (wr a b) (wr' a b)) ->
  rmono (decl_writeTo kw c sc wr l) (decl_writeTo kw c sc wr' l).
Proof.
  intros R. unfold decl_writeTo. destruct (_ || _).
  - apply rmono_app; [apply rmono_refl|]. apply rmono_app; [apply rmono_refl|]. apply rmono_app; [|apply rmono_refl].
    apply rmono_concat. intros a. apply R.
  - destruct l; [apply rmono_refl|]. apply rmono_app; [apply rmono_refl|]. apply rmono_app; [apply rmono_refl|]. apply R.
Qed.
Lemma rmono_write w k k' F : k <= k' -> rmono (GoFile_writeTo env k w F) (GoFile_writeTo env k' w F).
Proof.
  intros LE. unfold GoFile_writeTo. do 6 (apply rmono_app; [apply rmono_refl|]).
  apply rmono_concat. intros e. apply rmono_app; [apply rmono_refl|]. destruct e as [d|d|d|i]; cbn [FileElement_writeTo]; try apply rmono_refl.
  apply rmono_bind; [apply rmono_refl|]. intros D. apply rmono_bind; [apply rmono_refl|]. intros l. apply rmono_decl.
  intros T b. unfold TypeSpec_writeTo. do 4 (apply rmono_app; [apply rmono_refl|]). apply rmono_under; auto.
Qed.
Theorem source_more_fuel f k k' w s w1 : source env k f w = (Ok s, w1) -> k <= k' -> source env k' f w = (Ok s, w1).
Proof.
  intros E LE. destruct (source_split _ _ _ _ _ _ E) as (Q & F1 & E1 & G). eapply source_join; eauto.
  - eapply mono_qualify; eauto. - eapply rmono_write; eauto.
Qed.
End Mono.

(** ** Cycles and fuel *)
Section Cycle.
Context {TD : Type}.
Variable w : World TD.
Variable f : nat.
Lemma reaches_end i j k : reaches w f i j -> holds w f j k -> reaches w f i k.
Proof. intros R H. induction R; [eapply r_more; eauto; apply r_step; auto|eapply r_more; eauto]. Qed.
Lemma reaches_part i j : reaches w f i j -> part_of w f (IType i).
Proof. intros R. destruct R as [? ? [P _]|? ? ? [P _]]; exact P. Qed.
Lemma holds_part i j : holds w f i j -> part_of w f (IType j).
Proof.
  intros (P & T & fid & F & ET & IN & EF & S). eapply po_field_type; [|exact EF|exact S]. eapply po_field; eauto.
Qed.
Lemma fits_path k : forall l i, complete w f -> no_cycle w f -> NoDup l -> (forall j, In j l -> j < List.length (types w)) ->
  (forall j, In j l -> reaches w f j i) -> part_of w f (IType i) -> List.length (types w) <= List.length l + k ->
  fits k i (skel w).
Proof.
  induction k as [|k IH]; intros l i C NC ND RNG RE P LE.
  - exfalso. destruct (c_type w f C i P) as (T & ET & _).
    assert (NI : ~ In i l). { intros IN. apply (NC i). auto. }
    assert (N2 : NoDup (i :: l)) by (constructor; auto).
    assert (X : incl (i :: l) (seq 0 (List.length (types w)))).
    { intros j [<-|IN]; apply in_seq; split; try lia; cbn; [apply nth_error_Some; congruence|auto]. }
    apply NoDup_incl_length in X; auto. rewrite seq_length in X. cbn in X. lia.
  - destruct (c_type w f C i P) as (T & ET & _). cbn [fits]. rewrite (nth_skel types er_type w i T eq_refl ET).
    cbn [er_type with_under TSStruct]. intros fid IN.
    assert (PF : part_of w f (IField fid)) by (eapply po_field; eauto).
    destruct (c_field w f C fid PF) as (F & EF & _). rewrite (nth_skel fields er_field w fid F eq_refl EF).
    cbn [er_field with_ftype FSType]. destruct (FSType F) as [|t|ts] eqn:FT; cbn [er_tos]; auto.
    assert (H : holds w f i ts). { split; [exact P|]. exists T, fid, F. auto. }
    assert (NI : ~ In i l). { intros IN2. apply (NC i). auto. }
    apply (IH (i :: l)); auto.
    + constructor; auto.
    + intros j [<-|IN2]; auto. apply nth_error_Some. congruence.
    + intros j [<-|IN2]; [apply r_step; auto|]. eapply reaches_end; eauto.
    + eapply holds_part; eauto.
    + cbn. lia.
Qed.
Lemma fits_enough i : complete w f -> no_cycle w f -> part_of w f (IType i) -> fits (List.length (types w)) i (skel w).
Proof. intros C NC P. apply (fits_path _ []); auto; try (intros j []). constructor. Qed.
Lemma fits_step k i j : fits k i (skel w) -> holds w f i j -> exists k', k' < k /\ fits k' j (skel w).
Proof.
  destruct k as [|k]; [intros []|]. intros FI (P & T & fid & F & ET & IN & EF & S). cbn [fits] in FI.
  rewrite (nth_skel types er_type w i T eq_refl ET) in FI. specialize (FI fid IN).
  rewrite (nth_skel fields er_field w fid F eq_refl EF) in FI. cbn [er_field with_ftype FSType] in FI. rewrite S in FI.
  exists k. split; [lia|exact FI].
Qed.
Lemma fits_reaches i j : reaches w f i j -> forall k, fits k i (skel w) -> exists k', k' < k /\ fits k' j (skel w).
Proof.
  induction 1 as [i j H|i j l H R IH]; intros k FI; [eapply fits_step; eauto|].
  destruct (fits_step _ _ _ FI H) as (k1 & L1 & F1). destruct (IH _ F1) as (k2 & L2 & F2). exists k2. split; [lia|auto].
Qed.
Lemma fits_no_cycle k : forall i, fits k i (skel w) -> ~ reaches w f i i.
Proof.
  induction k as [k IH] using lt_wf_ind. intros i FI R. destruct (fits_reaches _ _ R _ FI) as (k' & L & F'). eapply IH; eauto.
Qed.
End Cycle.

(** ** Complete files *)
(** The file's templates are there; their data can be qualified, and then stay as they are. *)
Definition templates_there {TD} (env : Env TD) (w : World TD) (f : nat) : Prop :=
  forall t, template_of w f t -> exists tm d, nth_error (templs w) t = Some (tm, d) /\ okd env (skel w) (imp f w) d.
Lemma no_templates_there {TD} env (w : World TD) f : no_templates w f -> templates_there env w f.
Proof. intros N t (cb & b & P & B & IN). exfalso. eapply N; eauto. Qed.
Section Complete.
Context {TD : Type}.
Variable w : World TD.
Variable f : nat.
Variable env : Env TD.
Hypothesis C : complete w f.
Hypothesis TE : templates_there env w f.
Notation okl := (okl env f).
Notation TN := (tnames w).
Lemma whole_target a : whole_arg w a -> exists t, arg_target w a = Ok t /\ okt t.
Proof.
  intros [P|(r & E & Wr)].
  - exists TgNone. destruct a; try discriminate; split; try reflexivity; exact I.
  - rewrite refers_target in E. destruct (arg_target w a) as [t|m]; [|discriminate]. exists t. split; auto.
    destruct t; cbn in E |- *; try discriminate; injection E as <-; auto.
Qed.
Lemma target_whole a t : arg_target w a = Ok t -> okt t -> whole_arg w a.
Proof.
  intros E O. destruct (target_reference t) as [r|] eqn:R.
  - right. exists r. rewrite refers_target, E. split; auto. destruct t; cbn in R; try discriminate; injection R as <-; cbn in *; auto.
  - left. destruct t; try discriminate. destruct a; cbn [arg_target] in E; try discriminate; auto;
      unfold rbind in E; repeat match type of E with context[match ?x with _ => _ end] => destruct x; try discriminate end.
Qed.
Lemma scope_whole l : in_scope w f l -> okl w l.
Proof.
  intros SC x E. destruct l as [i|i|i|i|i|i|args k|t]; cbn [in_scope cont] in *.
  - destruct (c_const w f C i SC) as (v & EV & WN). unfold obind in E. rewrite EV in E.
    destruct (VSType v); try discriminate. injection E as <-. exact WN.
  - destruct (c_var w f C i SC) as (v & EV & WN). unfold obind in E. rewrite EV in E.
    destruct (VSType v); try discriminate. injection E as <-. exact WN.
  - destruct (c_type w f C i SC) as (v & EV & WN). rewrite EV in E. injection E as <-. exact WN.
  - destruct (c_field w f C i SC) as (v & EV & WN & _). unfold obind in E. rewrite EV in E.
    destruct (FSType v); try discriminate. injection E as <-. exact WN.
  - destruct (c_elem w f C i SC) as (v & EV & WN). rewrite EV in E. destruct v; injection E as <-; cbn; auto.
  - destruct (c_func w f C i SC) as (v & EV & WN). rewrite EV in E. injection E as <-. exact WN.
  - destruct SC as (cb & b & fm & P & B & IN). destruct (c_block w f C cb P) as (b' & B' & H).
    assert (b' = b) by congruence. subst b'. destruct (H fm args IN) as (l & EL & FA).
    unfold obind in E. rewrite EL in E. destruct (nth_error l k) as [a|] eqn:EA; [|discriminate]. injection E as <-.
    cbn [okc]. apply whole_target. rewrite Forall_forall in FA. apply FA. eapply nth_error_In; eauto.
  - destruct (TE t SC) as (tm & d & ET & O). rewrite ET in E. injection E as <-. exact O.
Qed.
Lemma block_ready cb : part_of w f (IBlock cb) -> block_there TN cb (skel w).
Proof.
  intros P. destruct (c_block w f C cb P) as (b & B & H). unfold block_there. change (blocks (skel w)) with (blocks w). rewrite B.
  intros e IN. destruct e as [fm args|t]; cbn [line_there].
  - destruct (H fm args IN) as (l & EL & _). unfold there.
    rewrite (nth_skel argss er_args w args l eq_refl EL). exact I.
  - destruct (TE t) as (tm & d & ET & _); [exists cb, b; auto|]. unfold tnames. rewrite nth_error_map, ET. discriminate.
Qed.
Lemma type_ready lazy k : forall i, part_of w f (IType i) -> (lazy = true \/ fits k i (skel w)) -> type_there lazy k i (skel w).
Proof.
  induction k as [|k IH]; intros i P FI; cbn [type_there fits] in *; [destruct FI as [FI|[]]; exact FI|].
  destruct (c_type w f C i P) as (T & ET & _). rewrite (nth_skel types er_type w i T eq_refl ET) in *.
  cbn [er_type with_under TSStruct TSInterface] in *. split.
  - intros fid IN. assert (PF : part_of w f (IField fid)) by (eapply po_field; eauto).
    destruct (c_field w f C fid PF) as (F & EF & _).
    assert (FI2 : lazy = true \/ match nth_error (fields (skel w)) fid with
          | Some fs => match FSType fs with IsSpec ts => fits k ts (skel w) | _ => True end
          | None => False end) by (destruct FI as [FI|FI]; [left; exact FI|right; exact (FI fid IN)]).
    rewrite (nth_skel fields er_field w fid F eq_refl EF) in *.
    cbn [er_field with_ftype FSType] in *. destruct (FSType F) as [|t|ts] eqn:FT; cbn [er_tos] in *; auto.
    apply IH; auto. eapply po_field_type; eauto.
  - intros e IN. assert (PE : part_of w f (IElem e)) by (eapply po_elem; eauto).
    destruct (c_elem w f C e PE) as (v & EV & _). unfold there. rewrite (nth_skel ielems er_elem w e v eq_refl EV). exact I.
Qed.
Lemma file_ready lazy k F : nth_error (files w) f = Some F ->
  (lazy = true \/ forall i, part_of w f (IType i) -> fits k i (skel w)) -> file_there f TN lazy k (skel w).
Proof.
  intros EF FI. unfold file_there. rewrite (nth_skel files er_imports w f F eq_refl EF). cbn [er_imports with_imports FElements].
  assert (TR : forall i, part_of w f (IType i) -> type_there lazy k i (skel w)).
  { intros i P. apply type_ready; auto. destruct FI; auto. }
  intros e IN. pose proof (c_elements w f C F e EF IN) as ET. destruct e as [d|d|d|i]; cbn [elem_there element_there] in *.
  - destruct ET as (D & ED & _). change (constDecls (skel w)) with (constDecls w). rewrite ED. intros i IN2.
    assert (P : part_of w f (IConst i)) by (eapply po_const; eauto). destruct (c_const w f C i P) as (v & EV & _).
    unfold value_there. rewrite (nth_skel consts er_value w i v eq_refl EV). cbn [er_value with_vtype VSType VInit]. split.
    + destruct (VSType v) eqn:T; cbn [er_tos]; auto. apply TR. eapply po_const_type; eauto.
    + destruct (VInit v) eqn:VI; auto. apply block_ready. eapply po_const_init; eauto.
  - destruct ET as (D & ED & _). change (varDecls (skel w)) with (varDecls w). rewrite ED. intros i IN2.
    assert (P : part_of w f (IVar i)) by (eapply po_var; eauto). destruct (c_var w f C i P) as (v & EV & _).
    unfold value_there. rewrite (nth_skel vars er_value w i v eq_refl EV). cbn [er_value with_vtype VSType VInit]. split.
    + destruct (VSType v) eqn:T; cbn [er_tos]; auto. apply TR. eapply po_var_type; eauto.
    + destruct (VInit v) eqn:VI; auto. apply block_ready. eapply po_var_init; eauto.
  - destruct ET as (D & ED & _). change (typeDecls (skel w)) with (typeDecls w). rewrite ED. intros i IN2.
    apply TR. eapply po_type; eauto.
  - assert (P : part_of w f (IFunc i)) by (eapply po_func; eauto). destruct (c_func w f C i P) as (G & EG & _).
    rewrite (nth_skel funcs er_func w i G eq_refl EG). apply block_ready. apply (po_body w f i G); auto.
Qed.
Lemma J_complete F : nth_error (files w) f = Some F -> Inv (FImports F) -> templates_ok env w f (fun _ => True) ->
  J env f (fun _ => True) (in_scope w f) w.
Proof. intros EF IF TO. apply (J_w env f w F (fun _ => True) EF IF TO). intros r _. exact I. Qed.
Lemma plan_scope k l : In l (plan_file f k (skel w)) -> in_scope w f l /\ okl w l.
Proof.
  intros IN. pose proof (scope_file w f k l IN) as SC. split; [exact SC|apply scope_whole; exact SC].
Qed.
Lemma qualify_ends lazy k F : nth_error (files w) f = Some F -> Inv (FImports F) -> templates_ok env w f (fun _ => True) ->
  (lazy = true \/ forall i, part_of w f (IType i) -> fits k i (skel w)) -> ends lazy (qualify_file env k f) w.
Proof.
  intros EF IF TO FI. apply (tot_file env f (in_scope w f) TN lazy k w); auto.
  - eapply J_complete; eauto.
  - eapply file_ready; eauto.
  - intros l. apply plan_scope.
Qed.
End Complete.

(** ** Qualification keeps files complete *)
Section Kept.
Context {TD : Type}.
Lemma nth_same {A B} (er : A -> B) (l l' : list A) i a : map er l' = map er l -> nth_error l' i = Some a ->
  exists b, nth_error l i = Some b /\ er a = er b.
Proof.
  intros E H. assert (X : nth_error (map er l') i = nth_error (map er l) i) by (rewrite E; auto).
  rewrite !nth_error_map, H in X. destruct (nth_error l i) as [b|]; [|discriminate]. exists b. split; auto. cbn in X. congruence.
Qed.
Lemma tos_spec t t' ts : er_tos t = er_tos t' -> t = IsSpec ts -> t' = IsSpec ts.
Proof. intros E ->. destruct t'; cbn in E; congruence. Qed.
Lemma sk_files (w w1 : World TD) : skel w1 = skel w -> map er_imports (files w1) = map er_imports (files w).
Proof. intros E. exact (f_equal files E). Qed.
Lemma sk_consts (w w1 : World TD) : skel w1 = skel w -> map er_value (consts w1) = map er_value (consts w).
Proof. intros E. exact (f_equal consts E). Qed.
Lemma sk_vars (w w1 : World TD) : skel w1 = skel w -> map er_value (vars w1) = map er_value (vars w).
Proof. intros E. exact (f_equal vars E). Qed.
Lemma sk_types (w w1 : World TD) : skel w1 = skel w -> map er_type (types w1) = map er_type (types w).
Proof. intros E. exact (f_equal types E). Qed.
Lemma sk_fields (w w1 : World TD) : skel w1 = skel w -> map er_field (fields w1) = map er_field (fields w).
Proof. intros E. exact (f_equal fields E). Qed.
Lemma sk_ielems (w w1 : World TD) : skel w1 = skel w -> map er_elem (ielems w1) = map er_elem (ielems w).
Proof. intros E. exact (f_equal ielems E). Qed.
Lemma sk_funcs (w w1 : World TD) : skel w1 = skel w -> map er_func (funcs w1) = map er_func (funcs w).
Proof. intros E. exact (f_equal funcs E). Qed.
Lemma sk_args (w w1 : World TD) : skel w1 = skel w -> map er_args (argss w1) = map er_args (argss w).
Proof. intros E. exact (f_equal argss E). Qed.
Lemma er_value_fields v v' : er_value v = er_value v' ->
  VComment v = VComment v' /\ VNames v = VNames v' /\ er_tos (VSType v) = er_tos (VSType v') /\ VInit v = VInit v' /\ VParent v = VParent v'.
Proof. destruct v, v'. unfold er_value, with_vtype. cbn. intros [= -> -> -> -> ->]. repeat split. Qed.
Lemma er_type_fields T T' : er_type T = er_type T' -> TSName T = TSName T' /\ TSStruct T = TSStruct T' /\
  TSInterface T = TSInterface T' /\ TSParent T = TSParent T'.
Proof. destruct T, T'. unfold er_type, with_under. cbn. intros [=]. subst. repeat split. Qed.
Lemma er_field_fields v v' : er_field v = er_field v' -> er_tos (FSType v) = er_tos (FSType v').
Proof. destruct v, v'. unfold er_field, with_ftype. cbn. congruence. Qed.
Lemma er_func_fields v v' : er_func v = er_func v' -> FNBody v = FNBody v'.
Proof. destruct v, v'. unfold er_func, with_sig. cbn. congruence. Qed.
Lemma er_file_fields F F' : er_imports F = er_imports F' -> FElements F = FElements F'.
Proof. destruct F, F'. unfold er_imports, with_imports. cbn. congruence. Qed.
Variables (w w1 : World TD) (f : nat).
Lemma part_kept x : skel w1 = skel w -> part_of w1 f x -> part_of w f x.
Proof.
  intros SK. assert (CD : constDecls w1 = constDecls w) by exact (f_equal constDecls SK).
  assert (VD : varDecls w1 = varDecls w) by exact (f_equal varDecls SK).
  assert (TDe : typeDecls w1 = typeDecls w) by exact (f_equal typeDecls SK).
  induction 1 as [F d D i EF IN ED ID|F d D i EF IN ED ID|F d D i EF IN ED ID|F i EF IN
    |i v ts P IH N T|i v ts P IH N T|i T fid P IH N IN|i F ts P IH N T|i T e P IH N IN
    |i v cb P IH N T|i v cb P IH N T|i F P IH N].
  - destruct (nth_same _ _ _ _ _ (sk_files _ _ SK) EF) as (F' & EF' & E). rewrite (er_file_fields _ _ E) in IN.
    eapply po_const; eauto. congruence.
  - destruct (nth_same _ _ _ _ _ (sk_files _ _ SK) EF) as (F' & EF' & E). rewrite (er_file_fields _ _ E) in IN.
    eapply po_var; eauto. congruence.
  - destruct (nth_same _ _ _ _ _ (sk_files _ _ SK) EF) as (F' & EF' & E). rewrite (er_file_fields _ _ E) in IN.
    eapply po_type; eauto. congruence.
  - destruct (nth_same _ _ _ _ _ (sk_files _ _ SK) EF) as (F' & EF' & E). rewrite (er_file_fields _ _ E) in IN.
    eapply po_func; eauto.
  - destruct (nth_same _ _ _ _ _ (sk_consts _ _ SK) N) as (v' & N' & E). apply er_value_fields in E as (_ & _ & E & _).
    eapply po_const_type; eauto. eapply tos_spec; eauto.
  - destruct (nth_same _ _ _ _ _ (sk_vars _ _ SK) N) as (v' & N' & E). apply er_value_fields in E as (_ & _ & E & _).
    eapply po_var_type; eauto. eapply tos_spec; eauto.
  - destruct (nth_same _ _ _ _ _ (sk_types _ _ SK) N) as (v' & N' & E). apply er_type_fields in E as (_ & E & _).
    rewrite E in IN. eapply po_field; eauto.
  - destruct (nth_same _ _ _ _ _ (sk_fields _ _ SK) N) as (v' & N' & E). apply er_field_fields in E.
    eapply po_field_type; eauto. eapply tos_spec; eauto.
  - destruct (nth_same _ _ _ _ _ (sk_types _ _ SK) N) as (v' & N' & E). apply er_type_fields in E as (_ & _ & E & _).
    rewrite E in IN. eapply po_elem; eauto.
  - destruct (nth_same _ _ _ _ _ (sk_consts _ _ SK) N) as (v' & N' & E). apply er_value_fields in E as (_ & _ & _ & E & _).
    eapply po_const_init; eauto. congruence.
  - destruct (nth_same _ _ _ _ _ (sk_vars _ _ SK) N) as (v' & N' & E). apply er_value_fields in E as (_ & _ & _ & E & _).
    eapply po_var_init; eauto. congruence.
  - destruct (nth_same _ _ _ _ _ (sk_funcs _ _ SK) N) as (v' & N' & E). apply er_func_fields in E.
    rewrite E. eapply po_body; eauto.
Qed.
Lemma nth_map_eq {A B} (er : A -> B) (l l' : list A) i a : map er l' = map er l -> nth_error l i = Some a ->
  exists b, nth_error l' i = Some b /\ er b = er a.
Proof. intros E H. destruct (nth_same er l' l i a (eq_sym E) H) as (b & X & Y). eauto. Qed.
Lemma complete_kept env : templates_there env w f ->
  J env f (fun _ => True) (in_scope w f) w -> le env f (fun _ => True) w w1 -> complete w f -> complete w1 f.
Proof.
  intros TE Jw L C. pose proof (le_skel _ _ _ _ _ L) as SK.
  assert (OK : forall l, in_scope w f l -> okl env f w1 l).
  { intros l SC. eapply okl_le; [exact Jw|exact L|]. apply (scope_whole w f env C TE); auto. }
  assert (PK : forall x, part_of w1 f x -> part_of w f x) by (intros x; apply part_kept; auto).
  assert (CD : constDecls w1 = constDecls w) by exact (f_equal constDecls SK).
  assert (VD : varDecls w1 = varDecls w) by exact (f_equal varDecls SK).
  assert (TDe : typeDecls w1 = typeDecls w) by exact (f_equal typeDecls SK).
  assert (BL : blocks w1 = blocks w) by exact (f_equal blocks SK).
  assert (NM : forall T T1, er_type T1 = er_type T -> named_type w T <> None -> named_type w1 T1 <> None).
  { intros T T1 E N. assert (X : TypeSpec_ToSymbol T1 w1 = TypeSpec_ToSymbol T w).
    { rewrite <- (TypeSymbol_skel T1 w1), <- (TypeSymbol_skel T w), SK, E. auto. }
    unfold named_type, TypeSpec_ToSymbol in *. apply er_type_fields in E as (EN & _ & _ & EP). rewrite EN, EP in *.
    destruct (String.eqb (TSName T) ""); auto. destruct (TSParent T) as [p|]; auto. cbn [declared] in *. unfold declared, obind in *.
    unfold file_package, rd in X. destruct (nth_error (files w) p) as [Fp|]; [|congruence].
    destruct (nth_error (files w1) p); [congruence|]. cbn in X. discriminate. }
  split.
  - intros F e EF IN. destruct (nth_same _ _ _ _ _ (sk_files _ _ SK) EF) as (F' & EF' & E). rewrite (er_file_fields _ _ E) in IN.
    pose proof (c_elements w f C F' e EF' IN) as H. destruct e; cbn [element_there] in *; rewrite ?CD, ?VD, ?TDe; exact H.
  - intros i P. pose proof (PK _ P) as P0. destruct (c_const w f C i P0) as (v & EV & _).
    destruct (nth_map_eq _ _ _ _ _ (sk_consts _ _ SK) EV) as (v1 & EV1 & E). exists v1. split; auto.
    destruct (VSType v1) as [|t|] eqn:T; cbn; auto. apply (OK (LConst i) P0 (CT t)). cbn. rewrite EV1. cbn. rewrite T. auto.
  - intros i P. pose proof (PK _ P) as P0. destruct (c_var w f C i P0) as (v & EV & _).
    destruct (nth_map_eq _ _ _ _ _ (sk_vars _ _ SK) EV) as (v1 & EV1 & E). exists v1. split; auto.
    destruct (VSType v1) as [|t|] eqn:T; cbn; auto. apply (OK (LVar i) P0 (CT t)). cbn. rewrite EV1. cbn. rewrite T. auto.
  - intros i P. pose proof (PK _ P) as P0. destruct (c_type w f C i P0) as (v & EV & _).
    destruct (nth_map_eq _ _ _ _ _ (sk_types _ _ SK) EV) as (v1 & EV1 & E). exists v1. split; auto.
    apply (OK (LType i) P0 (CT (TSUnderlying v1))). cbn. rewrite EV1. auto.
  - intros i P. pose proof (PK _ P) as P0. destruct (c_field w f C i P0) as (v & EV & _ & NS).
    destruct (nth_map_eq _ _ _ _ _ (sk_fields _ _ SK) EV) as (v1 & EV1 & E). exists v1. split; auto. apply er_field_fields in E. split.
    + destruct (FSType v1) as [|t|] eqn:T; cbn; auto. apply (OK (LField i) P0 (CT t)). cbn. rewrite EV1. cbn. rewrite T. auto.
    + intros id T FT ET N. destruct (nth_same _ _ _ _ _ (sk_types _ _ SK) ET) as (T0 & ET0 & ER). apply (NM T0 T ER).
      eapply NS; [eapply tos_spec; [exact E|exact FT]|exact ET0|]. apply er_type_fields in ER as (<- & _). auto.
  - intros i P. pose proof (PK _ P) as P0. destruct (c_elem w f C i P0) as (v & EV & _).
    destruct (nth_map_eq _ _ _ _ _ (sk_ielems _ _ SK) EV) as (v1 & EV1 & E). exists v1. split; auto.
    destruct v1 as [c s p|c n s p]; auto. apply (OK (LElem i) P0 (CS s)). cbn. rewrite EV1. auto.
  - intros i P. pose proof (PK _ P) as P0. destruct (c_func w f C i P0) as (v & EV & _).
    destruct (nth_map_eq _ _ _ _ _ (sk_funcs _ _ SK) EV) as (v1 & EV1 & E). exists v1. split; auto.
    apply (OK (LFunc i) P0 (CS (FNSig v1))). cbn. rewrite EV1. auto.
  - intros cb P. pose proof (PK _ P) as P0. destruct (c_block w f C cb P0) as (b & B & H). exists b. rewrite BL. split; auto.
    intros fm args IN. destruct (H fm args IN) as (l & EL & _).
    destruct (nth_map_eq _ _ _ _ _ (sk_args _ _ SK) EL) as (l1 & EL1 & E). exists l1. split; auto.
    apply Forall_forall. intros a IA. apply In_nth_error in IA as (k & EK).
    destruct (OK (LArg args k) (ex_intro _ cb (ex_intro _ b (ex_intro _ fm (conj P0 (conj B IN))))) (CA a)) as (t & AT & OT).
    + cbn. unfold obind. rewrite EL1, EK. auto.
    + eapply target_whole; eauto.
Qed.
End Kept.

(** ** Complete files have a text *)
Section Write.
Context {TD : Type}.
Variable env : Env TD.
Variable w : World TD.
Variable f : nat.
Hypothesis C : complete w f.
Hypothesis TX : forall t, template_of w f t -> exists tm d s, nth_error (templs w) t = Some (tm, d) /\ texec env w tm d = Ok s.
Lemma ok_W s : is_ok (W s) = true. Proof. reflexivity. Qed.
Lemma ok_concat {A} (g : A -> res string) l : (forall a, In a l -> is_ok (g a) = true) -> is_ok (concat_res (map g l)) = true.
Proof.
  induction l as [|a l IH]; intros H; auto. cbn [map concat_res]. rewrite ok_app, H, IH; auto; [|left; auto].
  intros b IN. apply H. right; auto.
Qed.
Lemma buffer_ok t : wf t = true -> is_ok (typeNameToBuffer (isPrint env) t) = true.
Proof. intros WF. exact (proj1 (buffer_total (isPrint env) t WF)). Qed.
Lemma signature_ok s : wf_sig s = true -> is_ok (signatureToBuffer (isPrint env) s) = true.
Proof.
  intros WS. destruct s as [a r v]. unfold wf_sig in WS. cbn [Args Results] in WS.
  apply andb_true_iff in WS as [WS WR]. apply andb_true_iff in WS as [WV WA].
  apply (sigTOT (isPrint env) a r v); auto. split; apply Forall_forall; intros; apply buffer_total.
Qed.
Lemma method_ok c n s : wf_sig s = true -> is_ok (method_writeTo env c n s) = true.
Proof. intros WS. unfold method_writeTo. rewrite !ok_app, signature_ok; auto. Qed.
Lemma fieldw_ok c n tag r : is_ok r = true -> is_ok (field_writeTo env c n tag r) = true.
Proof. intros R. unfold field_writeTo. rewrite !ok_app, R. auto. Qed.
Lemma expand_ok t : wf t = true -> is_ok (expand_type env t) = true.
Proof.
  induction t using TypeName_ind'; intros WF; try discriminate WF;
    try (cbn [expand_type]; rewrite !ok_app, buffer_ok by exact WF; reflexivity).
  - cbn [expand_type]. rewrite !ok_app, !ok_W, andb_true_r. cbn [andb]. apply ok_concat. intros [n t tag] IN. apply fieldw_ok.
    rewrite Forall_forall in H. pose proof (H _ IN) as HT. cbn [FldType] in HT. cbn [wf] in WF. rewrite forallb_forall in WF.
    pose proof (WF _ IN) as WT. cbn [FldType] in WT. destruct t; try reflexivity; apply HT; exact WT.
  - cbn [expand_type]. rewrite !ok_app, !ok_W, andb_true_r. cbn [andb]. apply andb_true_iff. split.
    + apply ok_concat. intros s _. reflexivity.
    + apply ok_concat. intros [n s] IN. apply method_ok. cbn [wf] in WF. rewrite forallb_forall in WF. specialize (WF _ IN).
      cbn [MtdSig] in *. unfold wf_sig. destruct s as [a r v]. cbn [Args Results]. rewrite <- andb_assoc. exact WF.
Qed.
Lemma field_text_ok t : wf t = true -> is_ok (field_type_text env t) = true.
Proof. intros WF. destruct t; try reflexivity; apply expand_ok; exact WF. Qed.
Lemma rd_ok {A} (tab : World TD -> list A) i a : nth_error (tab w) i = Some a -> rd tab i w = Ok a.
Proof. intros E. unfold rd. rewrite E. auto. Qed.
Lemma under_ok k : forall i T, part_of w f (IType i) -> nth_error (types w) i = Some T -> fits k i (skel w) ->
  is_ok (TypeSpec_writeUnderlying env k w T) = true.
Proof.
  induction k as [|k IH]; intros i T P ET FI; [destruct FI|]. cbn [TypeSpec_writeUnderlying].
  destruct (c_type w f C i P) as (T' & ET' & WF). assert (T' = T) by congruence. subst T'.
  destruct (TSUnderlying T) eqn:U; try (rewrite !ok_app, buffer_ok by exact WF; reflexivity); [discriminate WF| |].
  - rewrite !ok_app, !ok_W, andb_true_r. cbn [andb]. apply ok_concat. intros fid IN.
    assert (PF : part_of w f (IField fid)) by (eapply po_field; eauto).
    destruct (c_field w f C fid PF) as (F & EF & WN & NS). rewrite (rd_ok World.fields _ _ EF). cbn [rbind]. apply fieldw_ok.
    destruct (FSType F) as [|t|ts] eqn:FT; [reflexivity|apply field_text_ok; exact WN|].
    assert (PT : part_of w f (IType ts)) by (eapply po_field_type; eauto).
    destruct (c_type w f C ts PT) as (T2 & ET2 & _). rewrite (rd_ok types _ _ ET2). cbn [rbind].
    destruct (String.eqb (TSName T2) "") eqn:NE.
    + apply (IH ts); auto. cbn [fits] in FI. rewrite (nth_skel types er_type w i T eq_refl ET) in FI. specialize (FI fid IN).
      rewrite (nth_skel World.fields er_field w fid F eq_refl EF) in FI. cbn [er_field with_ftype FSType] in FI. rewrite FT in FI. exact FI.
    + apply String.eqb_neq in NE. specialize (NS ts T2 eq_refl ET2 NE). unfold named_type in NS.
      apply String.eqb_neq in NE. rewrite NE in NS. unfold TypeSpec_ToSymbol. rewrite NE.
      destruct (TSParent T2) as [p|]; [|contradiction NS; auto]. unfold declared, obind in NS. unfold file_package, rd.
      destruct (nth_error (files w) p); [reflexivity|contradiction NS; auto].
  - rewrite !ok_app, !ok_W, andb_true_r. cbn [andb]. apply ok_concat. intros e IN.
    assert (PE : part_of w f (IElem e)) by (eapply po_elem; eauto).
    destruct (c_elem w f C e PE) as (v & EV & WV). rewrite (rd_ok ielems _ _ EV). cbn [rbind].
    destruct v as [c s p|c n s p]; [reflexivity|]. apply method_ok. exact WV.
Qed.
Lemma blockw_ok cb : part_of w f (IBlock cb) -> is_ok (CodeBlock_writeTo env w cb) = true.
Proof.
  intros P. destruct (c_block w f C cb P) as (b & B & H). unfold CodeBlock_writeTo. rewrite (rd_ok blocks _ _ B). cbn [rbind].
  apply ok_concat. intros [fm args|t] IN; cbn [codeElement_writeTo].
  - destruct (H fm args IN) as (l & EL & _). rewrite (rd_ok argss _ _ EL). reflexivity.
  - destruct (TX t) as (tm & d & s & ET & X); [exists cb, b; auto|]. unfold rd. rewrite ET. cbn [rbind]. rewrite X. reflexivity.
Qed.
Lemma valuew_ok v c : (forall cb, VInit v = Some cb -> part_of w f (IBlock cb)) -> is_ok (ValueSpec_writeTo env w v c) = true.
Proof.
  intros P. unfold ValueSpec_writeTo. rewrite !ok_app, !ok_W, andb_true_r. cbn [andb].
  destruct (VInit v) as [cb|]; [|reflexivity]. rewrite ok_app, blockw_ok; auto.
Qed.
Lemma rd_all_ok {A} (tab : World TD -> list A) l : (forall i, In i l -> exists a, nth_error (tab w) i = Some a) ->
  exists x, rd_all tab l w = Ok x /\ List.length x = List.length l /\
            forall a, In a x -> exists i, In i l /\ nth_error (tab w) i = Some a.
Proof.
  unfold rd_all. induction l as [|i l IH]; intros H; [exists []; split; [reflexivity|]; split; [reflexivity|intros a []]|].
  destruct (H i (or_introl eq_refl)) as (a & E). destruct IH as (x & EX & LX & HX); [intros j IN; apply H; right; auto|].
  exists (a :: x). cbn [map all_ok]. rewrite (rd_ok tab _ _ E), EX. split; auto. split; [cbn; congruence|].
  intros b [<-|IN]; [exists i; split; auto; left; auto|]. destruct (HX b IN) as (j & J1 & J2). exists j. split; auto. right; auto.
Qed.
Lemma decl_ok {A} kw c sc (wr : A -> bool -> res string) l : (forall a b, In a l -> is_ok (wr a b) = true) ->
  (l <> [] \/ c <> "") -> is_ok (decl_writeTo kw c sc wr l) = true.
Proof.
  intros H NE. unfold decl_writeTo. destruct (Nat.ltb 1 (List.length l) || negb (String.eqb c "")) eqn:B.
  - rewrite !ok_app, !ok_W, andb_true_r. cbn [andb]. apply ok_concat. intros a IN. apply H; auto.
  - apply orb_false_iff in B as [_ B]. apply negb_false_iff, String.eqb_eq in B. destruct l as [|a l]; [destruct NE; congruence|].
    rewrite !ok_app, !ok_W. cbn [andb]. apply H. left; auto.
Qed.
Lemma length_ne {A B} (l : list A) (x : list B) : List.length x = List.length l -> l <> [] -> x <> [].
Proof. destruct l, x; cbn; congruence. Qed.
Lemma elementw_ok k F e : nth_error (files w) f = Some F -> In e (FElements F) -> element_fits k e (skel w) ->
  is_ok (FileElement_writeTo env k w e) = true.
Proof.
  intros EF IN FI. pose proof (c_elements w f C F e EF IN) as ET.
  destruct e as [d|d|d|i]; cbn [element_there FileElement_writeTo] in *.
  - destruct ET as (D & ED & NE). rewrite (rd_ok constDecls _ _ ED). cbn [rbind].
    assert (PP : forall i, In i (VDSpecs D) -> part_of w f (IConst i)) by (intros; eapply po_const; eauto).
    destruct (rd_all_ok consts (VDSpecs D)) as (x & EX & LX & HX).
    { intros i II. destruct (c_const w f C i (PP i II)) as (v & EV & _). eauto. }
    rewrite EX. cbn [rbind]. apply decl_ok; [|destruct NE; auto; left; eapply length_ne; eauto].
    intros v b II. destruct (HX v II) as (i & I1 & I2). apply valuew_ok. intros cb E. eapply po_const_init; eauto.
  - destruct ET as (D & ED & NE). rewrite (rd_ok varDecls _ _ ED). cbn [rbind].
    assert (PP : forall i, In i (VDSpecs D) -> part_of w f (IVar i)) by (intros; eapply po_var; eauto).
    destruct (rd_all_ok vars (VDSpecs D)) as (x & EX & LX & HX).
    { intros i II. destruct (c_var w f C i (PP i II)) as (v & EV & _). eauto. }
    rewrite EX. cbn [rbind]. apply decl_ok; [|destruct NE; auto; left; eapply length_ne; eauto].
    intros v b II. destruct (HX v II) as (i & I1 & I2). apply valuew_ok. intros cb E. eapply po_var_init; eauto.
  - destruct ET as (D & ED & NE). rewrite (rd_ok typeDecls _ _ ED). cbn [rbind].
    cbn [element_fits] in FI. change (typeDecls (skel w)) with (typeDecls w) in FI. rewrite ED in FI.
    assert (PP : forall i, In i (TDTypes D) -> part_of w f (IType i)) by (intros; eapply po_type; eauto).
    destruct (rd_all_ok types (TDTypes D)) as (x & EX & LX & HX).
    { intros i II. destruct (c_type w f C i (PP i II)) as (v & EV & _). eauto. }
    rewrite EX. cbn [rbind]. apply decl_ok; [|destruct NE; auto; left; eapply length_ne; eauto].
    intros v b II. destruct (HX v II) as (i & I1 & I2). unfold TypeSpec_writeTo. rewrite !ok_app, !ok_W. cbn [andb].
    apply (under_ok k i); auto.
  - assert (P : part_of w f (IFunc i)) by (eapply po_func; eauto). destruct (c_func w f C i P) as (G & EG & WG).
    rewrite (rd_ok funcs _ _ EG). cbn [rbind]. unfold FuncSpec_writeTo. rewrite !ok_app, !ok_W, signature_ok, blockw_ok; auto.
    apply (po_body w f i G); auto.
Qed.
Lemma write_ok k F : nth_error (files w) f = Some F -> (forall e, In e (FElements F) -> element_fits k e (skel w)) ->
  exists s, GoFile_writeTo env k w F = Ok s.
Proof.
  intros EF FI. assert (X : is_ok (GoFile_writeTo env k w F) = true).
  { unfold GoFile_writeTo. rewrite !ok_app, !ok_W. cbn [andb]. apply ok_concat. intros e IN. rewrite ok_app, ok_W. cbn [andb].
    eapply elementw_ok; eauto. }
  destruct (GoFile_writeTo env k w F); [eauto|discriminate].
Qed.
End Write.

(** ** The theorems *)
(** Executing the templates of the file, as they are in [w], succeeds. *)
Definition templates_run {TD} (env : Env TD) (w : World TD) (f : nat) : Prop :=
  forall t tm d, template_of w f t -> nth_error (templs w) t = Some (tm, d) -> exists s, texec env w tm d = Ok s.
Section Theorems.
Context {TD : Type}.
Variable env : Env TD.
Variables (own : string) (h : list call) (f : nat) (w : World TD) (F : GoFile).
Hypothesis EF : nth_error (files w) f = Some F.
Hypothesis EI : FImports F = run h (NewImportsFor own).
Hypothesis TO : templates_ok env w f (fun _ => True).
Lemma IF' : Inv (FImports F).
Proof. rewrite EI. apply run_new_Inv. Qed.
Lemma qualified_written_with w1 fuel : complete w f -> templates_there env w f ->
  qualify_file env fuel f w = (Ok tt, w1) -> templates_run env w1 f -> exists s, source env fuel f w = (Ok s, w1).
Proof.
  intros C TE Q TR. pose proof (J_complete w f env F EF IF' TO) as Jw.
  assert (PL : forall l, In l (plan_file f fuel (skel w)) -> in_scope w f l) by (intros l IN; apply (scope_file w f fuel l IN)).
  destruct (good_file env f (fun _ => True) (in_scope w f) fuel w w1 Jw PL Q) as (L & _).
  pose proof (le_skel _ _ _ _ _ L) as SK. pose proof (complete_kept w w1 f env TE Jw L C) as C1.
  destruct (nth_map_eq _ _ _ _ _ (sk_files _ _ SK) EF) as (F1 & EF1 & EE). apply er_file_fields in EE.
  destruct (write_ok env w1 f C1) with (k := fuel) (F := F1) as (s & G); auto.
  { intros t T. assert (T0 : template_of w f t).
    { destruct T as (cb & b & P & B & IN). exists cb, b. split; [exact (part_kept w w1 f _ SK P)|]. split; auto.
      assert (BL : blocks w1 = blocks w) by exact (f_equal blocks SK). congruence. }
    destruct (TE t T0) as (tm & d & ET & _).
    assert (X : nth_error (tnames w1) t = Some tm) by (rewrite (le_tnames _ _ _ _ _ L); unfold tnames; rewrite nth_error_map, ET; auto).
    unfold tnames in X. rewrite nth_error_map in X. destruct (nth_error (templs w1) t) as [[tm' d']|] eqn:E1; [|discriminate].
    destruct (TR t tm' d' T E1) as (s & X1). exists tm', d', s. auto. }
  { intros e IN. rewrite SK. rewrite EE in IN.
    exact (file_fits env f (fun _ => True) (in_scope w f) fuel w w1 F Jw PL Q EF e IN). }
  exists s. eapply source_join; eauto.
Qed.
Theorem source_ends_with fuel : complete w f -> templates_there env w f ->
  (exists w1, qualify_file env fuel f w = (Ok tt, w1) /\ (templates_run env w1 f -> exists s, source env fuel f w = (Ok s, w1))) \/
  (exists w1, source env fuel f w = (Panic out_of_fuel, w1)).
Proof.
  intros C TE. destruct (qualify_ends w f env C TE true fuel F EF IF' TO (or_introl eq_refl)) as (w1 & [Q|[_ Q]]).
  - left. exists w1. split; auto. apply qualified_written_with; auto.
  - right. exists w1. unfold source, sbind. rewrite Q. auto.
Qed.
Theorem source_no_cycle_with fuel w1 : qualify_file env fuel f w = (Ok tt, w1) -> no_cycle w f.
Proof.
  intros Q i R. pose proof (reaches_part w f i i R) as P.
  destruct (part_visited env fuel f w w1 F (fun _ => True) EF IF' TO (fun _ _ => I) Q (IType i) P) as (k & _ & FI).
  eapply fits_no_cycle; eauto.
Qed.
Theorem source_total_with fuel : complete w f -> templates_there env w f -> no_cycle w f -> List.length (types w) <= fuel ->
  exists w1, qualify_file env fuel f w = (Ok tt, w1) /\ (templates_run env w1 f -> exists s, source env fuel f w = (Ok s, w1)).
Proof.
  intros C TE NC LE.
  destruct (qualify_ends w f env C TE false (List.length (types w)) F EF IF' TO) as (w1 & [Q|[Z _]]); [| |discriminate Z].
  { right. intros i P. apply (fits_enough w f); auto. }
  exists w1. split; [eapply mono_qualify; eauto|]. intros TR.
  destruct (qualified_written_with w1 _ C TE Q TR) as (s & E). exists s. eapply source_more_fuel; eauto.
Qed.
Theorem source_endless_with : complete w f -> templates_there env w f -> ~ no_cycle w f ->
  forall fuel, exists w1, source env fuel f w = (Panic out_of_fuel, w1).
Proof.
  intros C TE NC fuel. destruct (source_ends_with fuel C TE) as [(w1 & Q & _)|H]; auto.
  contradiction NC. eapply source_no_cycle_with; eauto.
Qed.
End Theorems.
(** Without templates *)
Lemma skel_part {TD} (w w1 : World TD) f t : skel w1 = skel w -> template_of w1 f t -> template_of w f t.
Proof.
  intros SK (cb & b & P & B & IN). exists cb, b. split; [exact (part_kept w w1 f _ SK P)|]. split; auto.
  assert (BL : blocks w1 = blocks w) by exact (f_equal blocks SK). congruence.
Qed.
Lemma no_templates_run {TD} (env : Env TD) f w w1 F fuel :
  nth_error (files w) f = Some F -> Inv (FImports F) -> no_templates w f ->
  qualify_file env fuel f w = (Ok tt, w1) -> templates_run env w1 f.
Proof.
  intros EF IF NT Q t tm d T. exfalso.
  destruct (after env fuel f w w1 F (fun _ => True) EF IF (no_templates_ok env w f _ NT) (fun _ _ => I) Q) as (L & _).
  apply (skel_part w) in T; [|exact (le_skel _ _ _ _ _ L)]. destruct T as (cb & b & P & B & IN). eapply NT; eauto.
Qed.
Theorem source_ends {TD} (env : Env TD) own h f w F fuel :
  nth_error (files w) f = Some F -> FImports F = run h (NewImportsFor own) -> no_templates w f -> complete w f ->
  (exists s w1, source env fuel f w = (Ok s, w1)) \/ (exists w1, source env fuel f w = (Panic out_of_fuel, w1)).
Proof.
  intros EF EI NT C. pose proof (no_templates_ok env w f (fun _ => True) NT) as TO.
  destruct (source_ends_with env own h f w F EF EI TO fuel C (no_templates_there _ w f NT)) as [(w1 & Q & H)|H]; auto.
  left. destruct (H (no_templates_run env f w w1 F fuel EF (IF' own h F EI) NT Q)) as (s & E). eauto.
Qed.
Theorem source_no_cycle {TD} (env : Env TD) own h f w F fuel s w1 :
  nth_error (files w) f = Some F -> FImports F = run h (NewImportsFor own) -> no_templates w f ->
  source env fuel f w = (Ok s, w1) -> no_cycle w f.
Proof.
  intros EF EI NT S. destruct (source_split _ _ _ _ _ _ S) as (Q & _).
  eapply source_no_cycle_with; eauto. apply no_templates_ok. exact NT.
Qed.
Theorem source_total {TD} (env : Env TD) own h f w F fuel :
  nth_error (files w) f = Some F -> FImports F = run h (NewImportsFor own) -> no_templates w f -> complete w f ->
  no_cycle w f -> List.length (types w) <= fuel -> exists s w1, source env fuel f w = (Ok s, w1).
Proof.
  intros EF EI NT C NC LE. pose proof (no_templates_ok env w f (fun _ => True) NT) as TO.
  destruct (source_total_with env own h f w F EF EI TO fuel C (no_templates_there _ w f NT) NC LE) as (w1 & Q & H).
  destruct (H (no_templates_run env f w w1 F fuel EF (IF' own h F EI) NT Q)) as (s & E). eauto.
Qed.
Theorem source_writable {TD} (env : Env TD) own h f w F :
  nth_error (files w) f = Some F -> FImports F = run h (NewImportsFor own) -> no_templates w f -> complete w f ->
  ((exists fuel s w1, source env fuel f w = (Ok s, w1)) <-> no_cycle w f).
Proof.
  intros EF EI NT C. split.
  - intros (fuel & s & w1 & E). eapply source_no_cycle; eauto.
  - intros NC. exists (List.length (types w)). eapply source_total; eauto.
Qed.
Theorem source_endless {TD} (env : Env TD) own h f w F :
  nth_error (files w) f = Some F -> FImports F = run h (NewImportsFor own) -> no_templates w f -> complete w f ->
  ~ no_cycle w f -> forall fuel, exists w1, source env fuel f w = (Panic out_of_fuel, w1).
Proof.
  intros EF EI NT C NC fuel. destruct (source_ends env own h f w F fuel EF EI NT C) as [(s & w1 & E)|H]; auto.
  contradiction NC. eapply source_no_cycle; eauto.
Qed.
