(** Types that share signatures with the functions of a file. *)
From Verif Require Import Base GoPath Types SpecTypes SpecRender Imports SpecImports TypesFacts ImportsProofs SettleProofs
  Memory SpecMemory MemoryProofs MemoryQualify MemoryEdits.

(** ** Renaming what was partly renamed before *)
Lemma rename_absorb i j s : ext i j -> rename j (rename i s) = rename j s.
Proof.
  intros X. unfold rename at 2. destruct (has_package s) eqn:H; [|reflexivity].
  destruct (prefix_name i (sym_path s)) as [n|] eqn:P; [|reflexivity].
  assert (K : known i s) by (intros _; congruence).
  pose proof (rename_idem i j s K X) as R. unfold rename at 2 in R. rewrite H, P in R. rewrite R. symmetry. now apply rename_ext.
Qed.
Lemma map_symbols_comp g h t : map_symbols g (map_symbols h t) = map_symbols (fun s => g (h s)) t.
Proof.
  induction t as [ |k|s|e IH|e IH|e n IH|e k IHe IHk|e d IH|s IH|fs IH|ms es IH] using TypeName_ind'; cbn [map_symbols]; try congruence.
  - f_equal. destruct s as [a r v], IH as (HA & HR). cbn in *. f_equal; unfold map_args; rewrite map_map; apply map_ext_in; intros [n t] I.
    + unfold PArgs in HA. rewrite Forall_forall in HA. f_equal. exact (HA _ I).
    + unfold PArgs in HR. rewrite Forall_forall in HR. f_equal. exact (HR _ I).
  - f_equal. rewrite map_map. apply map_ext_in. intros [n t tag] I. rewrite Forall_forall in IH. f_equal. exact (IH _ I).
  - f_equal; [|now rewrite map_map]. rewrite map_map. apply map_ext_in. intros [n s] I. rewrite Forall_forall in IH. specialize (IH _ I). cbn in IH.
    destruct s as [a r v], IH as (HA & HR). cbn in *. f_equal. f_equal; unfold map_args; rewrite map_map; apply map_ext_in; intros [n2 t] I2.
    + unfold PArgs in HA. rewrite Forall_forall in HA. f_equal. exact (HA _ I2).
    + unfold PArgs in HR. rewrite Forall_forall in HR. f_equal. exact (HR _ I2).
Qed.
Lemma map_sig_comp g h s : map_sig (map_symbols g) (map_sig (map_symbols h) s) = map_sig (map_symbols (fun s => g (h s))) s.
Proof.
  destruct s as [a r v]. cbn. f_equal; unfold map_args; rewrite map_map; apply map_ext; intros [n t]; f_equal; apply map_symbols_comp.
Qed.
Lemma reg_again i0 i s s' : ext i0 i -> Inv i -> rename i0 s = rename i0 s' -> reg_sym i s = reg_sym i s'.
Proof.
  intros X I E.
  assert (NOP : forall s n, prefix_name i0 (sym_path s) = Some n -> reg_sym i s = i).
  { intros x n P. unfold reg_sym. destruct (has_package x); [|reflexivity]. unfold RegisterImport.
    rewrite (prefix_known _ _ _ _ _ I (prefix_name_ext _ _ _ _ X P)). reflexivity. }
  assert (EP : sym_path s = sym_path s') by (rewrite <- (rename_path i0 s), E, rename_path; reflexivity).
  destruct (prefix_name i0 (sym_path s)) as [n|] eqn:P.
  - rewrite (NOP s n P), (NOP s' n); congruence.
  - unfold rename in E. rewrite <- EP, P in E. destruct (has_package s), (has_package s'); subst; reflexivity.
Qed.
Lemma fold_again i0 : forall l l' i, ext i0 i -> Inv i -> map (rename i0) l = map (rename i0) l' -> fold_left reg_sym l i = fold_left reg_sym l' i.
Proof.
  induction l as [|s r IH]; intros [|s' r'] i X I E; try discriminate; [reflexivity|]. cbn in E |- *. injection E as E1 E2.
  rewrite (reg_again i0 i s s' X I E1). destruct (fold_reg_sym_keep [s'] i I) as (I1 & X1). cbn in I1, X1. apply IH; auto. eapply ext_trans; eauto.
Qed.
Section Again.
Context {A : Type} (f : bool -> A -> IM (A * bool)) (syms : A -> list Symbol) (mp : (Symbol -> Symbol) -> A -> A) (ok : A -> bool).
Hypothesis GOOD : forall a, good f syms mp (ok a) a.
Hypothesis COMP : forall g h a, mp g (mp h a) = mp (fun s => g (h s)) a.
Hypothesis OKM : forall g a, ok (mp g a) = ok a.
Definition alike (i : Imports) (a a' : A) : Prop := mp (rename i) a = mp (rename i) a'.
Lemma mp_ext g h a : (forall s, g s = h s) -> mp g a = mp h a.
Proof. intros E. apply (g_cong _ _ _ _ _ (GOOD a)). auto. Qed.
Lemma alike_ext i j a a' : ext i j -> alike i a a' -> alike j a a'.
Proof.
  unfold alike. intros X E. rewrite (mp_ext _ (fun s => rename j (rename i s)) a) by (intros; now rewrite rename_absorb).
  rewrite (mp_ext _ (fun s => rename j (rename i s)) a') by (intros; now rewrite rename_absorb). rewrite <- (COMP (rename j) (rename i) a), <- (COMP (rename j) (rename i) a'). now rewrite E.
Qed.
Lemma alike_ok i a a' : alike i a a' -> ok a = ok a'.
Proof. unfold alike. intros E. rewrite <- (OKM (rename i) a), E. apply OKM. Qed.
Lemma qualify_alike i a a' : Inv i -> alike i a a' -> ok a = true ->
  exists c c' i', f true a i = (Ok (mp (rename i') a, c), i') /\ f true a' i = (Ok (mp (rename i') a, c'), i') /\
    changed c' (mp (rename i') a) a' /\ Inv i' /\ ext i i' /\ all_known syms i' a.
Proof.
  intros I E O. assert (O' : ok a' = true) by (now rewrite <- (alike_ok _ _ _ E)).
  destruct (g_reg _ _ _ _ _ (GOOD a) O i I) as (c & i1 & E1 & C1 & K1 & _).
  destruct (g_reg _ _ _ _ _ (GOOD a') O' i I) as (c' & i2 & E2 & C2 & K2 & _).
  pose proof (g_fold _ _ _ _ _ (GOOD a) O i I) as F1. pose proof (g_fold _ _ _ _ _ (GOOD a') O' i I) as F2.
  rewrite E1 in F1. rewrite E2 in F2. cbn in F1, F2.
  assert (SY : map (rename i) (syms a) = map (rename i) (syms a')).
  { rewrite <- !(g_syms _ _ _ _ _ (GOOD _)). now rewrite E. }
  rewrite (fold_again i _ _ i (ext_refl i) I SY) in F1. rewrite <- F2 in F1. subst i2.
  destruct (g_keep _ _ _ _ _ (GOOD a) true i I) as (I' & X). rewrite E1 in I', X. cbn in I', X.
  pose proof (alike_ext _ _ _ _ X E) as E'. unfold alike in E'.
  exists c, c', i1. split; [exact E1|]. rewrite <- E' in E2, C2. split; [exact E2|]. auto.
Qed.
(** What was rewritten stays as it is. *)
Definition settled (i : Imports) (a : A) : Prop := mp (rename i) a = a /\ all_known syms i a.
Lemma settled_result i i' a : ext i i' -> all_known syms i a -> settled i' (mp (rename i) a).
Proof.
  intros X K. split.
  - rewrite COMP. apply (g_cong _ _ _ _ _ (GOOD a)). intros s Hs. apply rename_idem; auto.
  - intros s Hs. rewrite (g_syms _ _ _ _ _ (GOOD a)) in Hs. apply in_map_iff in Hs as (x & <- & Hx). apply known_rename; auto.
Qed.
Lemma settled_ext i i' a : ext i i' -> settled i a -> settled i' a.
Proof. intros X (E & K). rewrite <- E. now apply settled_result. Qed.
End Again.
Definition alikeT := alike map_symbols.
Definition alikeS := alike (fun h => map_sig (map_symbols h)).
Lemma wf_sig_map' h s : wf_sig (map_sig (map_symbols h) s) = wf_sig s.
Proof. apply wf_sig_map. split; apply Forall_forall; intros; apply wf_map. Qed.

(** ** Replacing a signature *)
Section Replace.
Variable F : nat -> bool.
(** What is not as deep as [p] does not lead to [p]. *)
Lemma view_none_S n m t : view F (S n) m t = None -> view F n m t = None.
Proof. intros H. destruct (view F n m t) as [T|] eqn:E; [|reflexivity]. rewrite (view_mono F m n (S n) t T ltac:(lia) E) in H. discriminate. Qed.
Definition put (p : nat) (o : msig) (m : mem) : mem := mkMem (replace p (OSig o) (objs m)) (arrays m).
Lemma open_put p o m s : open_cells F (put p o m) s = open_cells F m s.
Proof. reflexivity. Qed.
Lemma args_impl (V V' : mty -> option TypeName) c b : (forall t T, V t = Some T -> V' t = Some T) -> arg_view V c = Some b -> arg_view V' c = Some b.
Proof. intros H. destruct c; try discriminate. cbn. destruct (V t) eqn:E; [|discriminate]. now rewrite (H _ _ E). Qed.
Lemma fields_impl (V V' : mty -> option TypeName) c b : (forall t T, V t = Some T -> V' t = Some T) -> field_view V c = Some b -> field_view V' c = Some b.
Proof. intros H. destruct c; try discriminate. cbn. destruct (V t) eqn:E; [|discriminate]. now rewrite (H _ _ E). Qed.
Lemma sig_impl (V V' : mty -> option TypeName) m p o s x : (forall t T, V t = Some T -> V' t = Some T) ->
  sig_view F V m s = Some x -> sig_view F V' (put p o m) s = Some x.
Proof.
  intros H. unfold sig_view. rewrite !open_put.
  destruct (open_cells F m (ms_args s)) as [la|]; [|discriminate]. cbn [obind].
  destruct (all_view (arg_view V) la) as [A|] eqn:VA; [|discriminate]. cbn [obind].
  destruct (open_cells F m (ms_results s)) as [lr|]; [|discriminate]. cbn [obind].
  destruct (all_view (arg_view V) lr) as [R|] eqn:VR; [|discriminate]. cbn [obind].
  rewrite (all_view_impl _ _ (fun c b => args_impl V V' c b H) _ _ VA). cbn [obind].
  now rewrite (all_view_impl _ _ (fun c b => args_impl V V' c b H) _ _ VR).
Qed.
Lemma put_other p o o0 m q x : nth_error (objs m) p = Some (OSig o0) ->
  nth_error (objs m) q = Some x -> (forall y, x <> OSig y) -> nth_error (objs (put p o m)) q = Some x.
Proof. intros Hp Hq NS. cbn. rewrite replace_other; auto. intros ->. rewrite Hp in Hq. injection Hq as <-. now apply (NS o0). Qed.
Lemma not_through p o o0 m : nth_error (objs m) p = Some (OSig o0) ->
  forall n t T, view F n m (MFunc p) = None -> view F n m t = Some T -> view F n (put p o m) t = Some T.
Proof.
  intros Hp. induction n as [|n IH]; intros t T NP V; [discriminate|].
  assert (NPn : view F n m (MFunc p) = None) by (now apply view_none_S).
  assert (IHn := fun t T => IH t T NPn).
  cbn [view] in V |- *. destruct t as [|k|e|e|e len|e k|e d|q|q|q|q]; auto.
  - destruct (view F n m e) eqn:E; [|discriminate]. now rewrite (IHn _ _ E).
  - destruct (view F n m e) eqn:E; [|discriminate]. now rewrite (IHn _ _ E).
  - destruct (view F n m e) eqn:E; [|discriminate]. now rewrite (IHn _ _ E).
  - destruct (view F n m e) eqn:E; [|discriminate]. rewrite (IHn _ _ E). cbn [obind] in *.
    destruct (view F n m k) eqn:K; [|discriminate]. now rewrite (IHn _ _ K).
  - destruct (view F n m e) eqn:E; [|discriminate]. now rewrite (IHn _ _ E).
  - destruct (nth_error (objs m) q) as [[s| | |]|] eqn:N; try discriminate.
    now rewrite (put_other p o o0 m q _ Hp N ltac:(discriminate)).
  - destruct (Nat.eq_dec q p) as [->|NE]; [cbn [view] in NP; congruence|].
    cbn [put objs]. rewrite replace_other by auto. destruct (nth_error (objs m) q) as [[|s| |]|]; try discriminate.
    destruct (sig_view F (view F n m) m s) as [x|] eqn:E; [|discriminate].
    fold (put p o m). now rewrite (sig_impl _ _ m p o s x IHn E).
  - destruct (nth_error (objs m) q) as [[| |fs|]|] eqn:N; try discriminate.
    rewrite (put_other p o o0 m q _ Hp N ltac:(discriminate)), open_put.
    destruct (open_cells F m fs) as [l|]; [|discriminate]. cbn [obind] in *.
    destruct (all_view (field_view (view F n m)) l) as [L|] eqn:E; [|discriminate].
    now rewrite (all_view_impl _ _ (fun c b => fields_impl _ _ c b IHn) _ _ E).
  - destruct (nth_error (objs m) q) as [[| | |ms es]|] eqn:N; try discriminate.
    rewrite (put_other p o o0 m q _ Hp N ltac:(discriminate)), !open_put.
    destruct (open_cells F m ms) as [l|]; [|discriminate]. cbn [obind] in *.
    destruct (all_view (method_view F (view F n m) m) l) as [L|] eqn:E; [|discriminate].
    assert (MI : forall c b, method_view F (view F n m) m c = Some b -> method_view F (view F n (put p o m)) (put p o m) c = Some b).
    { intros [| |nm s|] b H; try discriminate. cbn in H |- *. destruct (sig_view F (view F n m) m s) as [x|] eqn:Es; [|discriminate].
      now rewrite (sig_impl _ _ m p o s x IHn Es). }
    now rewrite (all_view_impl _ _ MI _ _ E).
Qed.
(** Growth shows nothing new about what could be seen before. *)
Lemma open_back m m' s l l' : grown m m' -> open_cells F m s = Some l -> open_cells F m' s = Some l' -> l' = l.
Proof. intros G H H'. pose proof (open_frame _ _ _ _ (grown_frame F _ _ G) _ _ H). congruence. Qed.
Lemma all_view_back {B} (f f' g : cell -> option B) l : (forall c b b', f c = Some b -> f' c = Some b' -> g c = Some b') ->
  forall L L', all_view f l = Some L -> all_view f' l = Some L' -> all_view g l = Some L'.
Proof.
  intros H. induction l as [|c r IH]; intros L L' E E'; cbn in *; [now injection E' as <-|].
  destruct (f c) as [b|] eqn:Fc; [|discriminate]. destruct (f' c) as [b'|] eqn:Fc'; [|discriminate]. rewrite (H _ _ _ Fc Fc'). cbn in *.
  destruct (all_view f r) as [R|]; [|discriminate]. destruct (all_view f' r) as [R'|]; [|discriminate].
  rewrite (IH _ _ eq_refl eq_refl). exact E'.
Qed.
Lemma sig_back m m' k n o s s' : grown m m' ->
  (forall t T T', view F k m t = Some T -> view F n m' t = Some T' -> view F n m t = Some T') ->
  sig_view F (view F k m) m o = Some s -> sig_view F (view F n m') m' o = Some s' -> sig_view F (view F n m) m o = Some s'.
Proof.
  intros G H. assert (HA : forall c b b', arg_view (view F k m) c = Some b -> arg_view (view F n m') c = Some b' -> arg_view (view F n m) c = Some b').
  { intros [nm t| | |] b b' E E'; try discriminate. cbn in *. destruct (view F k m t) eqn:V; [|discriminate].
    destruct (view F n m' t) eqn:V'; [|discriminate]. now rewrite (H _ _ _ V V'). }
  unfold sig_view.
  destruct (open_cells F m (ms_args o)) as [la|] eqn:OA; [|discriminate]. cbn [obind].
  destruct (all_view (arg_view (view F k m)) la) as [A|] eqn:VA; [|discriminate]. cbn [obind].
  destruct (open_cells F m (ms_results o)) as [lr|] eqn:OR; [|discriminate]. cbn [obind].
  destruct (all_view (arg_view (view F k m)) lr) as [R|] eqn:VR; [|discriminate]. cbn [obind]. intros _.
  rewrite (open_frame _ _ _ _ (grown_frame F _ _ G) _ _ OA), (open_frame _ _ _ _ (grown_frame F _ _ G) _ _ OR). cbn [obind].
  destruct (all_view (arg_view (view F n m')) la) as [A'|] eqn:VA'; [|discriminate]. cbn [obind].
  destruct (all_view (arg_view (view F n m')) lr) as [R'|] eqn:VR'; [|discriminate]. cbn [obind].
  rewrite (all_view_back _ _ _ _ HA _ _ VA VA'). cbn [obind]. now rewrite (all_view_back _ _ _ _ HA _ _ VR VR').
Qed.
Lemma view_back m m' : grown m m' -> forall n k t T T', view F k m t = Some T -> view F n m' t = Some T' -> view F n m t = Some T'.
Proof.
  intros G. induction n as [|n IH]; intros k t T T' V V'; [discriminate|]. destruct k as [|k]; [discriminate|].
  assert (IHk := fun t T T' => IH k t T T').
  cbn [view] in V, V' |- *. destruct t as [|b|e|e|e len|e b|e d|q|q|q|q]; auto.
  - destruct (view F k m e) eqn:E; [|discriminate]. destruct (view F n m' e) eqn:E'; [|discriminate]. now rewrite (IHk _ _ _ E E').
  - destruct (view F k m e) eqn:E; [|discriminate]. destruct (view F n m' e) eqn:E'; [|discriminate]. now rewrite (IHk _ _ _ E E').
  - destruct (view F k m e) eqn:E; [|discriminate]. destruct (view F n m' e) eqn:E'; [|discriminate]. now rewrite (IHk _ _ _ E E').
  - destruct (view F k m e) eqn:E; [|discriminate]. destruct (view F n m' e) eqn:E'; [|discriminate]. rewrite (IHk _ _ _ E E'). cbn [obind] in *.
    destruct (view F k m b) eqn:K; [|discriminate]. destruct (view F n m' b) eqn:K'; [|discriminate]. now rewrite (IHk _ _ _ K K').
  - destruct (view F k m e) eqn:E; [|discriminate]. destruct (view F n m' e) eqn:E'; [|discriminate]. now rewrite (IHk _ _ _ E E').
  - destruct (nth_error (objs m) q) as [[s| | |]|] eqn:N; try discriminate. now rewrite (proj1 G _ _ N) in V'.
  - destruct (nth_error (objs m) q) as [[|s| |]|] eqn:N; try discriminate. rewrite (proj1 G _ _ N) in V'.
    destruct (sig_view F (view F k m) m s) as [x|] eqn:E; [|discriminate]. destruct (sig_view F (view F n m') m' s) as [x'|] eqn:E'; [|discriminate].
    now rewrite (sig_back _ _ _ _ _ _ _ G IHk E E').
  - destruct (nth_error (objs m) q) as [[| |fs|]|] eqn:N; try discriminate. rewrite (proj1 G _ _ N) in V'.
    destruct (open_cells F m fs) as [l|] eqn:O; [|discriminate]. rewrite (open_frame _ _ _ _ (grown_frame F _ _ G) _ _ O) in V'. cbn [obind] in *.
    destruct (all_view (field_view (view F k m)) l) as [L|] eqn:E; [|discriminate]. destruct (all_view (field_view (view F n m')) l) as [L'|] eqn:E'; [|discriminate].
    assert (HF : forall c b b', field_view (view F k m) c = Some b -> field_view (view F n m') c = Some b' -> field_view (view F n m) c = Some b').
    { intros [|nm t tag| |] b b' X X'; try discriminate. cbn in *. destruct (view F k m t) eqn:Y; [|discriminate].
      destruct (view F n m' t) eqn:Y'; [|discriminate]. now rewrite (IHk _ _ _ Y Y'). }
    now rewrite (all_view_back _ _ _ _ HF _ _ E E').
  - destruct (nth_error (objs m) q) as [[| | |ms es]|] eqn:N; try discriminate. rewrite (proj1 G _ _ N) in V'.
    destruct (open_cells F m ms) as [l|] eqn:O; [|discriminate]. rewrite (open_frame _ _ _ _ (grown_frame F _ _ G) _ _ O) in V'. cbn [obind] in *.
    destruct (all_view (method_view F (view F k m) m) l) as [L|] eqn:E; [|discriminate].
    destruct (all_view (method_view F (view F n m') m') l) as [L'|] eqn:E'; [|discriminate].
    assert (HM : forall c b b', method_view F (view F k m) m c = Some b -> method_view F (view F n m') m' c = Some b' -> method_view F (view F n m) m c = Some b').
    { intros [| |nm s|] b b' X X'; try discriminate. cbn in *. destruct (sig_view F (view F k m) m s) as [x|] eqn:Y; [|discriminate].
      destruct (sig_view F (view F n m') m' s) as [x'|] eqn:Y'; [|discriminate]. now rewrite (sig_back _ _ _ _ _ _ _ G IHk Y Y'). }
    rewrite (all_view_back _ _ _ _ HM _ _ E E'). cbn [obind] in *.
    destruct (open_cells F m es) as [l2|] eqn:O2; [|discriminate]. rewrite (open_frame _ _ _ _ (grown_frame F _ _ G) _ _ O2) in V'. exact V'.
Qed.
(** the least depth at which [p] can be seen *)
Lemma least n m p s : view F n m (MFunc p) = Some (TFunc s) -> exists k, S k <= n /\ view F (S k) m (MFunc p) = Some (TFunc s) /\ view F k m (MFunc p) = None.
Proof.
  induction n as [|n IH]; intros H; [discriminate|]. destruct (view F n m (MFunc p)) as [T|] eqn:E.
  - pose proof (view_mono F m n (S n) _ _ ltac:(lia) E) as E'. rewrite H in E'. injection E' as <-.
    destruct (IH eq_refl) as (k & L & V & N). exists k. repeat split; auto.
  - exists n. repeat split; auto.
Qed.
End Replace.

(** ** What the replacement does to the types that lead to the signature *)
Definition moved {B} (h : B -> B) (b b' : B) : Prop := h b' = h b /\ (h b = b -> b' = b).
Lemma moved_refl {B} (h : B -> B) b : moved h b b. Proof. split; auto. Qed.
Lemma all_view_moved {B} (h : B -> B) (f g : cell -> option B) l :
  (forall c b, f c = Some b -> exists b', g c = Some b' /\ moved h b b') ->
  forall L, all_view f l = Some L -> exists L', all_view g l = Some L' /\ moved (map h) L L'.
Proof.
  intros H. induction l as [|c r IH]; intros L E; cbn in E |- *.
  - injection E as <-. exists []. split; [reflexivity|apply moved_refl].
  - destruct (f c) as [b|] eqn:Fc; [|discriminate]. cbn in E. destruct (all_view f r) as [R|]; [|discriminate]. injection E as <-.
    destruct (H c b Fc) as (b' & G & (M1 & M2)). destruct (IH R eq_refl) as (R' & G' & (M3 & M4)).
    rewrite G. cbn. rewrite G'. exists (b' :: R'). split; [reflexivity|]. split; cbn; [congruence|].
    intros E. injection E as E1 E2. f_equal; auto.
Qed.
Section Moved.
Variable h : Symbol -> Symbol.
Notation hT := (map_symbols h).
Notation hS := (map_sig (map_symbols h)).
Notation hA := (fun a : ArgType => match a with mkArg n t => mkArg n (hT t) end).
Notation hF := (fun x : FieldType => match x with mkField n t tag => mkField n (hT t) tag end).
Notation hM := (fun x : MethodType => match x with mkMethod n s => mkMethod n (hS s) end).
Variables (V V' : mty -> option TypeName).
Hypothesis VM : forall t T, V t = Some T -> exists T', V' t = Some T' /\ moved hT T T'.
Lemma arg_moved c b : arg_view V c = Some b -> exists b', arg_view V' c = Some b' /\ moved hA b b'.
Proof.
  destruct c as [n t| | |]; try discriminate. cbn. destruct (V t) as [T|] eqn:E; [|discriminate]. intros H. injection H as <-.
  destruct (VM _ _ E) as (T' & -> & (M1 & M2)). eexists. split; [reflexivity|]. split; [now rewrite M1|]. intros X. injection X as X. now rewrite (M2 X).
Qed.
Lemma field_moved c b : field_view V c = Some b -> exists b', field_view V' c = Some b' /\ moved hF b b'.
Proof.
  destruct c as [|n t tag| |]; try discriminate. cbn. destruct (V t) as [T|] eqn:E; [|discriminate]. intros H. injection H as <-.
  destruct (VM _ _ E) as (T' & -> & (M1 & M2)). eexists. split; [reflexivity|]. split; [now rewrite M1|]. intros X. injection X as X. now rewrite (M2 X).
Qed.
Lemma sig_moved F p o m s x : sig_view F V m s = Some x -> exists x', sig_view F V' (put p o m) s = Some x' /\ moved hS x x'.
Proof.
  unfold sig_view. rewrite !open_put. destruct (open_cells F m (ms_args s)) as [la|]; [|discriminate]. cbn [obind].
  destruct (all_view (arg_view V) la) as [A|] eqn:VA; [|discriminate]. cbn [obind].
  destruct (open_cells F m (ms_results s)) as [lr|]; [|discriminate]. cbn [obind].
  destruct (all_view (arg_view V) lr) as [R|] eqn:VR; [|discriminate]. cbn [obind]. intros E. injection E as <-.
  destruct (all_view_moved _ _ _ _ arg_moved _ VA) as (A' & -> & (M1 & M2)). destruct (all_view_moved _ _ _ _ arg_moved _ VR) as (R' & -> & (M3 & M4)).
  cbn [obind]. eexists. split; [reflexivity|]. split; cbn; unfold map_args; [congruence|]. intros X. injection X as X1 X2. f_equal; auto.
Qed.
Lemma method_moved F p o m c b : method_view F V m c = Some b -> exists b', method_view F V' (put p o m) c = Some b' /\ moved hM b b'.
Proof.
  destruct c as [| |n s|]; try discriminate. cbn. destruct (sig_view F V m s) as [x|] eqn:E; [|discriminate]. intros H. injection H as <-.
  destruct (sig_moved F p o m s x E) as (x' & -> & (M1 & M2)). eexists. split; [reflexivity|]. split; [now rewrite M1|].
  intros X. injection X as X. now rewrite (M2 X).
Qed.
End Moved.
Lemma replaced F h p m o0 o' k s0 s' : nth_error (objs m) p = Some (OSig o0) ->
  sig_view F (view F k m) m o0 = Some s0 -> view F k m (MFunc p) = None -> sig_view F (view F k m) m o' = Some s' ->
  s' = map_sig (map_symbols h) s0 -> map_sig (map_symbols h) s' = s' ->
  forall n t T, view F n m t = Some T -> exists T', view F n (put p o' m) t = Some T' /\ moved (map_symbols h) T T'.
Proof.
  intros Hp V0 NP V' ES ID.
  assert (Hp' : nth_error (objs (put p o' m)) p = Some (OSig o')) by (cbn; now rewrite (set_obj_same _ _ _ _ Hp)).
  assert (VP : sig_view F (view F k (put p o' m)) (put p o' m) o' = Some s').
  { apply (sig_impl F (view F k m)); auto. intros t T. now apply (not_through F p o' o0). }
  induction n as [|n IH]; intros t T V; [discriminate|].
  cbn [view] in V |- *. destruct t as [|b|e|e|e len|e b|e d|q|q|q|q].
  - injection V as <-. eexists. split; [reflexivity|apply moved_refl].
  - injection V as <-. eexists. split; [reflexivity|apply moved_refl].
  - destruct (view F n m e) as [E|] eqn:VE; [|discriminate]. injection V as <-. destruct (IH _ _ VE) as (E' & -> & (M1 & M2)).
    eexists. split; [reflexivity|]. split; cbn; [congruence|]. intros X. injection X as X. f_equal; auto.
  - destruct (view F n m e) as [E|] eqn:VE; [|discriminate]. injection V as <-. destruct (IH _ _ VE) as (E' & -> & (M1 & M2)).
    eexists. split; [reflexivity|]. split; cbn; [congruence|]. intros X. injection X as X. f_equal; auto.
  - destruct (view F n m e) as [E|] eqn:VE; [|discriminate]. injection V as <-. destruct (IH _ _ VE) as (E' & -> & (M1 & M2)).
    eexists. split; [reflexivity|]. split; cbn; [congruence|]. intros X. injection X as X. f_equal; auto.
  - destruct (view F n m e) as [E|] eqn:VE; [|discriminate]. cbn [obind] in V. destruct (view F n m b) as [B|] eqn:VB; [|discriminate]. injection V as <-.
    destruct (IH _ _ VE) as (E' & -> & (M1 & M2)). destruct (IH _ _ VB) as (B' & -> & (M3 & M4)).
    eexists. split; [reflexivity|]. split; cbn; [congruence|]. intros X. injection X as X1 X2. f_equal; auto.
  - destruct (view F n m e) as [E|] eqn:VE; [|discriminate]. injection V as <-. destruct (IH _ _ VE) as (E' & -> & (M1 & M2)).
    eexists. split; [reflexivity|]. split; cbn; [congruence|]. intros X. injection X as X. f_equal; auto.
  - destruct (nth_error (objs m) q) as [[s| | |]|] eqn:N; try discriminate. injection V as <-.
    rewrite (put_other p o' o0 m q _ Hp N ltac:(discriminate)). eexists. split; [reflexivity|apply moved_refl].
  - destruct (Nat.eq_dec q p) as [->|NE].
    + rewrite Hp in V. destruct (sig_view F (view F n m) m o0) as [s|] eqn:Vs; [|discriminate]. injection V as <-.
      assert (VS : view F (S n) m (MFunc p) = Some (TFunc s)) by (cbn [view]; rewrite Hp, Vs; reflexivity).
      assert (VS0 : view F (S k) m (MFunc p) = Some (TFunc s0)) by (cbn [view]; rewrite Hp, V0; reflexivity).
      assert (LE : k <= n).
      { destruct (Nat.le_gt_cases k n); auto. exfalso. rewrite (view_mono F m (S n) k _ _ ltac:(lia) VS) in NP. discriminate. }
      rewrite (view_mono F m (S k) (S n) _ _ ltac:(lia) VS0) in VS. injection VS as <-.
      rewrite Hp'.
      assert (VN : sig_view F (view F n (put p o' m)) (put p o' m) o' = Some s').
      { revert VP. apply sig_frame; [apply frame_refl|]. intros t T. apply view_mono. lia. }
      rewrite VN. eexists. split; [reflexivity|]. split; cbn [map_symbols]; [now rewrite ID, ES|].
      intros X. injection X as X. now rewrite ES, X.
    + cbn [put objs]. rewrite replace_other by auto. fold (put p o' m). destruct (nth_error (objs m) q) as [[|s| |]|]; try discriminate.
      destruct (sig_view F (view F n m) m s) as [x|] eqn:E; [|discriminate]. injection V as <-.
      destruct (sig_moved h _ _ IH F p o' m s x E) as (x' & -> & (M1 & M2)).
      eexists. split; [reflexivity|]. split; cbn; [congruence|]. intros X. injection X as X. f_equal; auto.
  - destruct (nth_error (objs m) q) as [[| |fs|]|] eqn:N; try discriminate.
    rewrite (put_other p o' o0 m q _ Hp N ltac:(discriminate)), open_put.
    destruct (open_cells F m fs) as [l|]; [|discriminate]. cbn [obind] in *.
    destruct (all_view (field_view (view F n m)) l) as [L|] eqn:E; [|discriminate]. injection V as <-.
    destruct (all_view_moved _ _ _ _ (field_moved h _ _ IH) _ E) as (L' & -> & (M1 & M2)).
    eexists. split; [reflexivity|]. split; cbn; [congruence|]. intros X. injection X as X. f_equal; auto.
  - destruct (nth_error (objs m) q) as [[| | |ms es]|] eqn:N; try discriminate.
    rewrite (put_other p o' o0 m q _ Hp N ltac:(discriminate)), !open_put.
    destruct (open_cells F m ms) as [l|]; [|discriminate]. cbn [obind] in *.
    destruct (all_view (method_view F (view F n m) m) l) as [L|] eqn:E; [|discriminate]. cbn [obind] in *.
    destruct (obind (open_cells F m es) (all_view sym_view)) as [E2|]; [|discriminate]. injection V as <-.
    destruct (all_view_moved _ _ _ _ (method_moved h _ _ IH F p o' m) _ E) as (L' & -> & (M1 & M2)). cbn [obind].
    eexists. split; [reflexivity|]. split; cbn; [congruence|]. intros X. injection X as X1 X2. f_equal; auto.
Qed.

(** ** A list of parts *)
Lemma qualify_alikeT i a a' : Inv i -> alikeT i a a' -> wf a = true ->
  exists c c' i', qualifyType true a i = (Ok (map_symbols (rename i') a, c), i') /\ qualifyType true a' i = (Ok (map_symbols (rename i') a, c'), i') /\
    changed c' (map_symbols (rename i') a) a' /\ Inv i' /\ ext i i' /\ all_known symbols_of i' a.
Proof. apply (qualify_alike qualifyType symbols_of map_symbols wf good_type map_symbols_comp (fun g a => wf_map g a)). Qed.
Lemma qualify_alikeS i a a' : Inv i -> alikeS i a a' -> wf_sig a = true ->
  exists c c' i', qualifySignature true a i = (Ok (map_sig (map_symbols (rename i')) a, c), i') /\
    qualifySignature true a' i = (Ok (map_sig (map_symbols (rename i')) a, c'), i') /\
    changed c' (map_sig (map_symbols (rename i')) a) a' /\ Inv i' /\ ext i i' /\ all_known sig_symbols i' a.
Proof.
  apply (qualify_alike (fun reg => qualifySignature reg) sig_symbols (fun h => map_sig (map_symbols h)) wf_sig good_signature map_sig_comp (fun g a => wf_sig_map' g a)).
Qed.
Definition root (x : part) : mty := match x with PType t => t | PSig p | PPtr p => MFunc p end.
Definition vroot (v : vpart) : TypeName := match v with VType T => T | VSig s => TFunc s end.
Definition fits (x : part) (v : vpart) : Prop :=
  match x, v with PType _, VType _ | PSig _, VSig _ | PPtr _, VSig _ => True | _, _ => False end.
Definition pending (N : nat) (i : Imports) (m : mem) (x : part) (v : vpart) : Prop :=
  fits x v /\ wf (vroot v) = true /\ exists U, view everywhere N m (root x) = Some U /\ alikeT i (vroot v) U.
Definition settledT := settled symbols_of map_symbols.
Definition finished (N : nat) (i : Imports) (m : mem) (x : part) (v : vpart) : Prop :=
  fits x v /\ settledT i (vroot v) /\ view everywhere N m (root x) = Some (vroot v).
Definition carried (N : nat) (i : Imports) (m m' : mem) : Prop :=
  forall t T, view everywhere N m t = Some T -> exists T', view everywhere N m' t = Some T' /\ moved (map_symbols (rename i)) T T'.
Lemma below_everywhere m : below everywhere m. Proof. intros a H. discriminate H. Qed.
Lemma grown_carried N i m m' : grown m m' -> carried N i m m'.
Proof. intros G t T V. exists T. split; [|apply moved_refl]. revert V. apply view_frame. now apply grown_frame. Qed.
Lemma settledT_result i a : all_known symbols_of i a -> settledT i (map_symbols (rename i) a).
Proof. apply (settled_result qualifyType symbols_of map_symbols wf good_type map_symbols_comp i i a (ext_refl i)). Qed.
Lemma settledT_ext i j a : ext i j -> settledT i a -> settledT j a.
Proof. apply (settled_ext qualifyType symbols_of map_symbols wf good_type map_symbols_comp). Qed.
Lemma alikeT_ext i j a a' : ext i j -> alikeT i a a' -> alikeT j a a'.
Proof. apply (alike_ext qualifyType symbols_of map_symbols wf good_type map_symbols_comp). Qed.
Lemma pending_carried N i i' m m' x v : ext i i' -> carried N i' m m' -> pending N i m x v -> pending N i' m' x v.
Proof.
  intros X C (FT & W & U & VU & AL). destruct (C _ _ VU) as (U' & VU' & (M & _)). split; [exact FT|]. split; [exact W|].
  exists U'. split; [exact VU'|]. pose proof (alikeT_ext _ _ _ _ X AL) as AL'. unfold alikeT, alike in *. congruence.
Qed.
Lemma finished_carried N i i' m m' x v : ext i i' -> carried N i' m m' -> finished N i m x v -> finished N i' m' x v.
Proof.
  intros X C (FT & ST & VU). pose proof (settledT_ext _ _ _ X ST) as ST'. split; [exact FT|]. split; [exact ST'|].
  destruct (C _ _ VU) as (U' & VU' & (_ & M)). now rewrite (M (proj1 ST')) in VU'.
Qed.
Lemma func_view N m p U : view everywhere N m (MFunc p) = Some U ->
  exists n o s, N = S n /\ nth_error (objs m) p = Some (OSig o) /\ U = TFunc s /\ sig_view everywhere (view everywhere n m) m o = Some s.
Proof.
  destruct N as [|n]; [discriminate|]. cbn [view]. destruct (nth_error (objs m) p) as [[|o| |]|]; try discriminate.
  destruct (sig_view _ _ m o) as [s|] eqn:E; [|discriminate]. intros H. injection H as <-. exists n, o, s. auto.
Qed.
(** [k] is any depth at which the signature can be seen. *)
Lemma pointer_sim k fuel i m p o s sm : k <= fuel -> Inv i -> nth_error (objs m) p = Some (OSig o) ->
  sig_view everywhere (view everywhere k m) m o = Some sm -> alikeS i s sm -> wf_sig s = true ->
  exists c i' m' q o', EnsureAllTypesImported s i = (Ok (map_sig (map_symbols (rename i')) s, c), i') /\
    mqualify_pointer fuel true p (i, m) = (Ok q, (i', m')) /\ grown m m' /\ Inv i' /\ ext i i' /\ all_known sig_symbols i' s /\
    nth_error (objs m') q = Some (OSig o') /\
    sig_view everywhere (view everywhere k m') m' o' = Some (map_sig (map_symbols (rename i')) s).
Proof.
  intros LE I N V AL W. destruct (qualify_alikeS i s sm I AL W) as (c & c' & i' & E1 & E2 & CH & I' & X & K).
  pose proof (sig_sim true k (mqualifyType fuel true) (fun F m i t T => qualify_sim true k fuel F m i t T LE) everywhere m i o sm (below_everywhere m) V) as R.
  change (qualifySignature_ (qualifyType true) sm i) with (qualifySignature true sm i) in R. rewrite E2 in R.
  destruct R as (m' & r & R & G & RC).
  assert (GS : on_mem (get_sig p) (i, m) = (Ok o, (i, m))) by (unfold on_mem, get_sig; cbn [snd fst]; now rewrite N).
  unfold mqualify_pointer. rewrite (sbind_ok _ _ _ _ _ GS), (sbind_ok _ _ _ _ _ R). destruct c'.
  - destruct RC as (o' & -> & V'). set (m2 := mkMem (objs m' ++ [OSig o']) (arrays m')).
    exists c, i', m2, (List.length (objs m')), o'. split; [exact E1|]. split; [reflexivity|].
    assert (G2 : grown m' m2) by apply new_obj_grown. split; [eapply grown_trans; eauto|]. split; [exact I'|]. split; [exact X|]. split; [exact K|].
    split; [apply nth_new|]. eapply sigs_vf; [apply grown_frame; exact G2|exact V'].
  - destruct RC as (-> & RS). exists c, i', m', p, o. split; [exact E1|]. split; [reflexivity|]. split; [exact G|]. split; [exact I'|].
    split; [exact X|]. split; [exact K|]. split; [now apply G|]. cbn in CH. rewrite CH. eapply sigs_vf; [apply grown_frame; exact G|exact V].
Qed.
Lemma part_sim N fuel i m x v : N <= fuel -> Inv i -> pending N i m x v ->
  exists v' i' m' x', vqualify v i = (Ok v', i') /\ mqualify_part fuel x (i, m) = (Ok x', (i', m')) /\ Inv i' /\ ext i i' /\
    carried N i' m m' /\ finished N i' m' x' v'.
Proof.
  intros LE I (FT & W & U & VU & AL). destruct x as [t|p|p], v as [T|s]; cbn [fits] in FT; try contradiction; cbn [root vroot] in *.
  - destruct (qualify_alikeT i T U I AL W) as (c & c' & i' & E1 & E2 & CH & I' & X & K).
    pose proof (qualify_sim true N fuel everywhere m i t U LE (below_everywhere m) VU) as R. rewrite E2 in R.
    destruct R as (m' & t' & R & G & V' & _). exists (VType (map_symbols (rename i') T)), i', m', (PType t').
    split; [cbn; unfold EnsureTypeImported; now rewrite (sbind_ok _ _ _ _ _ E1)|].
    split; [cbn; now rewrite (sbind_ok _ _ _ _ _ R)|]. split; [exact I'|]. split; [exact X|]. split; [now apply grown_carried|].
    split; [exact FT|]. split; [now apply settledT_result|exact V'].
  - destruct (func_view _ _ _ _ VU) as (n & o & sm & -> & N0 & -> & VS).
    destruct (least everywhere (S n) m p sm VU) as (k & LK & VK & NK).
    assert (VSK : sig_view everywhere (view everywhere k m) m o = Some sm).
    { cbn [view] in VK. rewrite N0 in VK. destruct (sig_view everywhere (view everywhere k m) m o); [|discriminate]. now injection VK as ->. }
    assert (ALS : alikeS i s sm) by (unfold alikeT, alikeS, alike in *; cbn [map_symbols] in AL; now injection AL).
    rewrite wf_TFunc in W.
    destruct (pointer_sim k fuel i m p o s sm ltac:(lia) I N0 VSK ALS W) as (c & i' & m' & q & o' & E1 & R & G & I' & X & K & Nq & Vq).
    set (s' := map_sig (map_symbols (rename i')) s) in *.
    assert (ST : settledT i' (TFunc s')) by (apply (settledT_result i' (TFunc s)); exact K).
    exists (VSig s'), i'. cbn [vqualify]. rewrite (sbind_ok _ _ _ _ _ E1). cbn [mqualify_part]. unfold mqualify_in_place.
    destruct (Nat.eqb_spec q p) as [->|NE].
    + exists m', (PSig p).
      assert (RI : (do q <- mqualify_pointer fuel true p ;; if Nat.eqb q p then sret false else
        do s0 <- on_mem (get_sig q) ;; do _ <- on_mem (set_obj p (OSig s0)) ;; sret true) (i, m) = (Ok false, (i', m'))).
      { rewrite (sbind_ok _ _ _ _ _ R), Nat.eqb_refl. reflexivity. }
      split; [reflexivity|]. rewrite (sbind_ok _ _ _ _ _ RI). split; [reflexivity|]. split; [exact I'|]. split; [exact X|].
      split; [now apply grown_carried|]. split; [exact FT|]. split; [exact ST|]. cbn [root vroot view]. rewrite Nq.
      assert (VN : sig_view everywhere (view everywhere n m') m' o' = Some s').
      { revert Vq. apply sig_frame; [apply frame_refl|]. intros t T. apply view_mono. lia. }
      now rewrite VN.
    + exists (put p o' m'), (PSig p).
      assert (RI : (do q <- mqualify_pointer fuel true p ;; if Nat.eqb q p then sret false else
        do s0 <- on_mem (get_sig q) ;; do _ <- on_mem (set_obj p (OSig s0)) ;; sret true) (i, m) = (Ok true, (i', put p o' m'))).
      { rewrite (sbind_ok _ _ _ _ _ R). apply Nat.eqb_neq in NE. rewrite NE.
        assert (GS : on_mem (get_sig q) (i', m') = (Ok o', (i', m'))) by (unfold on_mem, get_sig; cbn [snd fst]; now rewrite Nq).
        now rewrite (sbind_ok _ _ _ _ _ GS). }
      split; [reflexivity|]. rewrite (sbind_ok _ _ _ _ _ RI). split; [reflexivity|]. split; [exact I'|]. split; [exact X|].
      assert (N1 : nth_error (objs m') p = Some (OSig o)) by (now apply G).
      assert (NK1 : view everywhere k m' (MFunc p) = None).
      { destruct (view everywhere k m' (MFunc p)) as [T|] eqn:E; [|reflexivity].
        rewrite (view_back everywhere m m' G k (S k) _ _ _ VK E) in NK. discriminate. }
      assert (VS1 : sig_view everywhere (view everywhere k m') m' o = Some sm) by (eapply sigs_vf; [apply grown_frame; exact G|exact VSK]).
      assert (ES : s' = map_sig (map_symbols (rename i')) sm).
      { pose proof (alikeT_ext _ _ _ _ X AL) as AL'. unfold alikeT, alike in AL'. cbn [map_symbols] in AL'. now injection AL'. }
      assert (ID : map_sig (map_symbols (rename i')) s' = s').
      { destruct ST as (ST & _). cbn [map_symbols] in ST. now injection ST. }
      assert (C1 : carried (S n) i' m (put p o' m')).
      { intros t T V. pose proof (view_frame _ _ _ _ (grown_frame everywhere _ _ G) _ _ _ V) as V1.
        exact (replaced everywhere (rename i') p m' o o' k sm s' N1 VS1 NK1 Vq ES ID (S n) t T V1). }
      split; [exact C1|]. split; [exact FT|]. split; [exact ST|]. cbn [root vroot].
      assert (Np : nth_error (objs (put p o' m')) p = Some (OSig o')) by (cbn; now rewrite (set_obj_same _ _ _ _ N1)).
      assert (VP : sig_view everywhere (view everywhere k (put p o' m')) (put p o' m') o' = Some s').
      { apply (sig_impl everywhere (view everywhere k m')); auto. intros t T. now apply (not_through everywhere p o' o). }
      cbn [view]. rewrite Np.
      assert (VN : sig_view everywhere (view everywhere n (put p o' m')) (put p o' m') o' = Some s').
      { revert VP. apply sig_frame; [apply frame_refl|]. intros t T. apply view_mono. lia. }
      now rewrite VN.
  - destruct (func_view _ _ _ _ VU) as (n & o & sm & -> & N0 & -> & VS).
    assert (ALS : alikeS i s sm) by (unfold alikeT, alikeS, alike in *; cbn [map_symbols] in AL; now injection AL).
    rewrite wf_TFunc in W.
    destruct (pointer_sim n fuel i m p o s sm ltac:(lia) I N0 VS ALS W) as (c & i' & m' & q & o' & E1 & R & G & I' & X & K & Nq & Vq).
    exists (VSig (map_sig (map_symbols (rename i')) s)), i', m', (PPtr q). cbn [vqualify]. rewrite (sbind_ok _ _ _ _ _ E1).
    split; [reflexivity|]. split; [cbn; now rewrite (sbind_ok _ _ _ _ _ R)|]. split; [exact I'|]. split; [exact X|]. split; [now apply grown_carried|].
    split; [exact FT|]. split; [apply (settledT_result i' (TFunc s)); exact K|]. cbn [root vroot view]. now rewrite Nq, Vq.
Qed.
Lemma forall2_impl {A B} (P Q : A -> B -> Prop) : (forall a b, P a b -> Q a b) -> forall l r, Forall2 P l r -> Forall2 Q l r.
Proof. intros H l r F. induction F; auto. Qed.
Lemma parts_sim N fuel : N <= fuel -> forall l lv dl dv i m, Inv i -> Forall2 (pending N i m) l lv -> Forall2 (finished N i m) dl dv ->
  exists lv' i' m' l', vqualify_all lv i = (Ok lv', i') /\ mqualify_parts fuel l (i, m) = (Ok l', (i', m')) /\
    Forall2 (finished N i' m') l' lv' /\ Forall2 (finished N i' m') dl dv.
Proof.
  intros LE. induction l as [|x r IH]; intros lv dl dv i m I P D; inversion P; subst; clear P.
  - exists [], i, m, []. repeat split; auto.
  - destruct (part_sim N fuel i m x y LE I H1) as (v' & i1 & m1 & x' & E1 & E2 & I1 & X & C & FI).
    assert (P1 : Forall2 (pending N i1 m1) r l').
    { revert H3. apply forall2_impl. intros a b. now apply pending_carried. }
    assert (D1 : Forall2 (finished N i1 m1) (x' :: dl) (v' :: dv)).
    { constructor; auto. revert D. apply forall2_impl. intros a b. now apply finished_carried. }
    destruct (IH l' (x' :: dl) (v' :: dv) i1 m1 I1 P1 D1) as (lv2 & i2 & m2 & l2 & E3 & E4 & F1 & F2).
    inversion F2; subst. exists (v' :: lv2), i2, m2, (x' :: l2). cbn [vqualify_all mqualify_parts].
    rewrite (sbind_ok _ _ _ _ _ E1), (sbind_ok _ _ _ _ _ E3), (sbind_ok _ _ _ _ _ E2), (sbind_ok _ _ _ _ _ E4). repeat split; auto.
Qed.
Lemma means_root m x v : means m x v <-> fits x v /\ denotes m (root x) (vroot v).
Proof.
  destruct x, v; cbn; try tauto.
  - split; [intros H; split; auto; apply func_denotes; eauto|]. intros (_ & H). apply func_denotes in H as (s' & E & H). now injection E as ->.
  - split; [intros H; split; auto; apply func_denotes; eauto|]. intros (_ & H). apply func_denotes in H as (s' & E & H). now injection E as ->.
Qed.
Theorem shared_parts l lv i m : Inv i -> Forall2 (means m) l lv -> forallb vpart_wf lv = true ->
  exists n0, forall n, n0 <= n -> exists lv' i' m' l', vqualify_all lv i = (Ok lv', i') /\ mqualify_parts n l (i, m) = (Ok l', (i', m')) /\
    Forall2 (means m') l' lv'.
Proof.
  intros I H W.
  assert (P : exists n0, forall n, n0 <= n -> Forall2 (pending n i m) l lv).
  { clear -H W. induction H as [|x v r rv M F IH]; [exists 0; constructor|]. cbn in W. apply andb_prop in W as (W1 & W2).
    destruct (IH W2) as (n1 & H1). apply means_root in M as (FT & (n2 & V)). exists (Nat.max n1 n2). intros n L. constructor; [|apply H1; lia].
    split; [exact FT|]. split.
    - destruct v; [exact W1|]. cbn [vroot]. rewrite wf_TFunc. exact W1.
    - exists (vroot v). split; [eapply view_mono; [|exact V]; lia|]. unfold alikeT, alike. reflexivity. }
  destruct P as (n0 & P). exists n0. intros n L.
  destruct (parts_sim n0 n L l lv [] [] i m I (P n0 (le_n _)) (Forall2_nil _)) as (lv' & i' & m' & l' & E1 & E2 & F1 & _).
  exists lv', i', m', l'. split; [exact E1|]. split; [exact E2|]. revert F1. apply forall2_impl.
  intros x v (FT & _ & V). apply means_root. split; [exact FT|]. exists n0. exact V.
Qed.
