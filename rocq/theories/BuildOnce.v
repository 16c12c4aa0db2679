(** In a file that is built from a description every template is in the code once: the templates
    of the description can be told apart, as building does not look at their data. *)
From Verif Require Import Base BaseFacts GoPath Types SpecTypes Imports SpecImports SpecGo SpecRender Conv World SpecFile SpecDecl SpecWorld
  SpecQualify WorldProofs SpecBuild BuildProofs BuildTypes BuildFiles BuildTotal Template SpecTemplate SpecFileTemplate.

(** ** Building with other data *)
Section Map.
Context {TD TE : Type}.
Variable g : TD -> TE.
Definition wmap (w : World TD) : World TE :=
  mkWorld (files w) (constDecls w) (varDecls w) (typeDecls w) (consts w) (vars w) (types w) (World.fields w) (ielems w) (funcs w)
    (blocks w) (argss w) (map (fun '(t, d) => (t, g d)) (templs w)).
Fixpoint cmap (c : chunk TD) : chunk TE :=
  match c with
  | KPrint t => KPrint t | KPrintln t => KPrintln t | KPrintf f a => KPrintf f a | KPrintlnf f a => KPrintlnf f a
  | KRender t d => KRender t (g d)
  | KCode l => KCode (map cmap l)
  end.
Definition goes {A} (a : WM (TD := TD) A) (b : WM (TD := TE) A) : Prop := forall w, b (wmap w) = (fst (a w), wmap (snd (a w))).
Lemma g_ret {A} (x : A) : goes (sret x) (sret x).
Proof. intros w. reflexivity. Qed.
Lemma g_panic {A} m : goes (spanic (A := A) m) (spanic m).
Proof. intros w. reflexivity. Qed.
Lemma g_bind {A B} (a : WM A) a' (k : A -> WM B) k' : goes a a' -> (forall x, goes (k x) (k' x)) -> goes (sbind a k) (sbind a' k').
Proof.
  intros H K w. unfold sbind. rewrite H. destruct (a w) as [[x|m] w']; cbn [fst snd]; [apply K|reflexivity].
Qed.
Definition same_tab {A} (t1 : World TD -> list A) (t2 : World TE -> list A) : Prop := forall w, t2 (wmap w) = t1 w.
Definition same_set {A} (s1 : list A -> World TD -> World TD) (s2 : list A -> World TE -> World TE) : Prop :=
  forall l w, s2 l (wmap w) = wmap (s1 l w).
Lemma g_get {A} t1 t2 i : same_tab t1 t2 -> goes (get (A := A) t1 i) (get t2 i).
Proof. intros H w. unfold get. rewrite H. destruct (nth_error (t1 w) i); reflexivity. Qed.
Lemma g_put {A} t1 t2 s1 s2 i (v : A) : same_tab t1 t2 -> same_set s1 s2 -> goes (put t1 s1 i v) (put t2 s2 i v).
Proof. intros H K w. unfold put. rewrite H, K. reflexivity. Qed.
Lemma g_alloc {A} t1 t2 s1 s2 (v : A) : same_tab t1 t2 -> same_set s1 s2 -> goes (alloc t1 s1 v) (alloc t2 s2 v).
Proof. intros H K w. unfold alloc. rewrite H, K. reflexivity. Qed.
Lemma g_each {A} (f : A -> WM unit) f' l : (forall a, goes (f a) (f' a)) -> goes (for_each f l) (for_each f' l).
Proof. intros H. induction l; cbn [for_each]; [apply g_ret|apply g_bind; auto]. Qed.
Lemma g_each_map {A B} (h : A -> B) (f : A -> WM unit) f' l : (forall a, goes (f a) (f' (h a))) -> goes (for_each f l) (for_each f' (map h l)).
Proof. intros H. induction l; cbn [for_each map]; [apply g_ret|apply g_bind; auto]. Qed.
Lemma g_map {A B} (f : A -> WM B) f' l : (forall a, goes (f a) (f' a)) -> goes (map_m f l) (map_m f' l).
Proof. intros H. induction l; cbn [map_m]; [apply g_ret|]. apply g_bind; auto. intros b. apply g_bind; auto. intros. apply g_ret. Qed.
Lemma g_map_map {A B C} (h : A -> C) (f : A -> WM B) f' l : (forall a, goes (f a) (f' (h a))) -> goes (map_m f l) (map_m f' (map h l)).
Proof. intros H. induction l; cbn [map_m map]; [apply g_ret|]. apply g_bind; auto. intros b. apply g_bind; auto. intros. apply g_ret. Qed.
Lemma g_name {A} T (k : TypeName -> WM A) k' : (forall t, goes (k t) (k' t)) ->
  goes (fun w => match TypeSpec_ToTypeName T w with Panic m => (Panic m, w) | Ok t => k t w end)
       (fun w => match TypeSpec_ToTypeName T w with Panic m => (Panic m, w) | Ok t => k' t w end).
Proof.
  intros H w. change (TypeSpec_ToTypeName T (wmap w)) with (TypeSpec_ToTypeName T w). destruct (TypeSpec_ToTypeName T w); [apply H|reflexivity].
Qed.
Ltac go := repeat first
  [ apply g_ret | apply g_panic | apply g_get; intros ?; reflexivity | apply g_put; [intros ?; reflexivity|intros ? ?; reflexivity]
  | apply g_alloc; [intros ?; reflexivity|intros ? ?; reflexivity]
  | apply g_bind; [|intros] | apply g_each; intros | apply g_map; intros
  | match goal with |- goes (match ?x with _ => _ end) (match ?x with _ => _ end) => destruct x end ].

Lemma g_printf cb f a : goes (CodeBlock_Printf cb f a) (CodeBlock_Printf cb f a).
Proof. unfold CodeBlock_Printf. go. Qed.
Lemma g_printlnf cb f a : goes (CodeBlock_Printlnf cb f a) (CodeBlock_Printlnf cb f a).
Proof. apply g_printf. Qed.
Lemma g_print cb t : goes (CodeBlock_Print cb t) (CodeBlock_Print cb t).
Proof. apply g_printf. Qed.
Lemma g_println cb t : goes (CodeBlock_Println cb t) (CodeBlock_Println cb t).
Proof. apply g_printf. Qed.
Lemma g_render cb t d : goes (CodeBlock_RenderCode cb t d) (CodeBlock_RenderCode cb t (g d)).
Proof.
  unfold CodeBlock_RenderCode. apply g_bind; [go|intros b]. apply g_bind; [|intros; go].
  intros w. unfold alloc. cbn [fst snd]. f_equal.
  - cbn [wmap templs]. rewrite map_length. reflexivity.
  - unfold set_templs, wmap. cbn [files constDecls varDecls typeDecls consts vars types World.fields ielems funcs blocks argss templs].
    rewrite map_app. reflexivity.
Qed.
Lemma g_addcode cb c : goes (CodeBlock_AddCode cb c) (CodeBlock_AddCode cb c).
Proof. unfold CodeBlock_AddCode. go. Qed.
Lemma g_new : goes NewCodeBlock NewCodeBlock.
Proof. unfold NewCodeBlock. go. Qed.
Lemma g_chunk c : forall cb, goes (add_chunk cb c) (add_chunk cb (cmap c)).
Proof.
  induction c as [t|t|f a|f a|t d|l F] using chunk_induction; intros cb; cbn [add_chunk cmap].
  - apply g_print.
  - apply g_println.
  - apply g_printf.
  - apply g_printlnf.
  - apply g_render.
  - apply g_bind; [apply g_new|intros b]. apply g_bind; [|intros; apply g_addcode].
    induction F as [|c l H _ IH]; cbn [map]; [apply g_ret|]. apply g_bind; auto.
Qed.
Lemma g_new_block l : goes (new_block l) (new_block (map cmap l)).
Proof.
  assert (G : goes (do b <- NewCodeBlock ;; do _ <- for_each (add_chunk b) l ;; sret b)
                   (do b <- NewCodeBlock ;; do _ <- for_each (add_chunk b) (map cmap l) ;; sret b)).
  { apply g_bind; [apply g_new|intros b]. apply g_bind; [|intros; apply g_ret]. apply g_each_map. intros c. apply g_chunk. }
  destruct l as [|c [|c2 l]]; [exact G| |destruct c; exact G].
  destruct c; cbn [map cmap new_block]; try exact G; (apply g_bind; [apply g_new|intros b]; apply g_bind; [|intros; apply g_ret]).
  - apply g_print.
  - apply g_println.
  - apply g_printf.
  - apply g_printlnf.
  - apply g_render.
Qed.
Lemma g_func_chunk fn c : goes (func_chunk fn c) (func_chunk fn (cmap c)).
Proof.
  destruct c; cbn [func_chunk cmap].
  - apply g_bind; [go|intros; apply g_print].
  - apply g_bind; [go|intros; apply g_println].
  - apply g_bind; [go|intros; apply g_printf].
  - apply g_bind; [go|intros; apply g_printlnf].
  - apply g_bind; [go|intros; apply g_render].
  - apply g_bind; [apply g_new_block|intros b]. apply g_bind; [go|intros; apply g_addcode].
Qed.
Lemma g_elem e : goes (build_elem e) (build_elem e).
Proof.
  destruct e; cbn [build_elem]; unfold NewInterfaceEmbed, NewInterfaceMethod, Elem_SetComment, Method_SetVariadic, Method_onSignature; go.
  all: destruct a as [n t]; unfold Method_AddArg, Method_AddResult, Method_onSignature; go.
Qed.
Lemma g_field c n t x : goes (build_field c n t x) (build_field c n t x).
Proof. unfold build_field, NewField, Field_SetComment, Field_SetTag. go. Qed.
Lemma g_struct n ids : goes (NewStructTypeSpec n ids) (NewStructTypeSpec n ids).
Proof.
  unfold NewStructTypeSpec, Field_setParent. go.
  apply g_name with (k := fun t => sret _) (k' := fun t => sret _). intros. apply g_ret.
Qed.
Lemma g_interface n ids : goes (NewInterfaceTypeSpec n ids) (NewInterfaceTypeSpec n ids).
Proof. unfold NewInterfaceTypeSpec, Elem_setParent. go. Qed.
Lemma g_typespec n x : goes (NewTypeSpec n x) (NewTypeSpec n x).
Proof.
  unfold NewTypeSpec. destruct x as [|t|id]; [go|go|].
  apply g_bind; [go|intros T]. apply g_name. intros t. go.
Qed.
Lemma g_alias n x : goes (NewTypeAlias n x) (NewTypeAlias n x).
Proof. unfold NewTypeAlias. apply g_bind; [apply g_typespec|intros]. go. Qed.
Lemma g_type t : goes (build_type t) (build_type t).
Proof.
  induction t as [n|fs F|es|t IH] using tdesc_induction; cbn [build_type].
  - apply g_ret.
  - apply g_bind; [|intros; apply g_bind; [apply g_struct|intros; apply g_ret]].
    induction F as [|[[[c n] tag] t] fs H _ IHF]; [apply g_ret|]. apply g_bind; [exact H|intros x].
    apply g_bind; [apply g_field|intros]. apply g_bind; [exact IHF|intros; apply g_ret].
  - apply g_bind; [apply g_map; intros; apply g_elem|intros]. apply g_bind; [apply g_interface|intros; apply g_ret].
  - apply g_bind; [exact IH|intros]. apply g_bind; [apply g_typespec|intros; apply g_ret].
Qed.
Lemma g_fields fs : goes (build_fields fs) (build_fields fs).
Proof.
  induction fs as [|[[[c n] tag] t] fs IH]; cbn [build_fields]; [apply g_ret|]. apply g_bind; [apply g_type|intros x].
  apply g_bind; [apply g_field|intros]. apply g_bind; [exact IH|intros; apply g_ret].
Qed.
Lemma g_build_typespec t : goes (build_typespec t) (build_typespec t).
Proof.
  unfold build_typespec. apply g_bind.
  - destruct (tsBody t).
    + apply g_bind; [apply g_fields|intros; apply g_struct].
    + apply g_bind; [apply g_map; intros; apply g_elem|intros; apply g_interface].
    + apply g_bind; [apply g_type|intros; apply g_typespec].
    + apply g_bind; [apply g_type|intros; apply g_alias].
  - intros id. unfold Type_SetComment. go.
Qed.
Section Values.
Variables (new1 : list string -> WM (TD := TD) nat) (tab1 : World TD -> list ValueSpec) (set1 : list ValueSpec -> World TD -> World TD).
Variables (new2 : list string -> WM (TD := TE) nat) (tab2 : World TE -> list ValueSpec) (set2 : list ValueSpec -> World TE -> World TE).
Hypothesis N : forall l, goes (new1 l) (new2 l).
Hypothesis T : same_tab tab1 tab2.
Hypothesis U : same_set set1 set2.
Lemma g_value v : goes (build_value new1 tab1 set1 v) (build_value new2 tab2 set2 (vmap (map cmap) v)).
Proof.
  unfold build_value. cbn [vmap vComment vNames vType vInit]. apply g_bind; [apply N|intros id].
  apply g_bind; [unfold Value_SetComment; apply g_bind; [apply g_get; exact T|intros; apply g_put; auto]|intros _].
  apply g_bind.
  { destruct (vType v); [|apply g_ret]. apply g_bind; [apply g_type|intros x].
    unfold Value_SetType; apply g_bind; [apply g_get; exact T|intros; apply g_put; auto]. }
  intros _. apply g_bind; [|intros; apply g_ret].
  destruct (vInit v) as [l|]; cbn [option_map]; [|apply g_ret].
  assert (G : goes (do cb <- new_block l ;; do _ <- Value_SetInitializer tab1 set1 id (Some cb) ;; sret (Some cb))
                   (do cb <- new_block (map cmap l) ;; do _ <- Value_SetInitializer tab2 set2 id (Some cb) ;; sret (Some cb))).
  { apply g_bind; [apply g_new_block|intros b]. apply g_bind; [|intros; apply g_ret].
    unfold Value_SetInitializer; apply g_bind; [apply g_get; exact T|intros; apply g_put; auto]. }
  destruct l as [|c [|c2 l]]; [exact G| |destruct c; exact G]. destruct c; try exact G. cbn [map cmap].
  apply g_bind; [|intros _; apply g_bind; [apply g_get; exact T|intros; apply g_ret]].
  apply g_bind; [apply (g_new_block [KPrintf format args])|intros b].
  unfold Value_SetInitializer; apply g_bind; [apply g_get; exact T|intros; apply g_put; auto].
Qed.
Lemma g_values l : goes (build_values new1 tab1 set1 l) (build_values new2 tab2 set2 (map (vmap (map cmap)) l)).
Proof. unfold build_values. apply g_bind; [apply g_map_map; intros; apply g_value|intros; apply g_ret]. Qed.
End Values.
Lemma g_func f : goes (build_func f) (build_func (fnmap (map cmap) f)).
Proof.
  unfold build_func. cbn [fnmap fnComment fnReceiver fnName fnArgs fnResults fnVariadic fnCode].
  apply g_bind; [destruct (fnReceiver f); unfold NewFunc, NewMethod; apply g_bind; try apply g_new; intros; go|intros id].
  apply g_bind; [unfold Func_SetComment; go|intros _].
  apply g_bind; [apply g_each; intros [n t]; unfold Func_AddArg, Func_onSignature; go|intros _].
  apply g_bind; [apply g_each; intros [n t]; unfold Func_AddResult, Func_onSignature; go|intros _].
  apply g_bind; [unfold Func_SetVariadic, Func_onSignature; go|intros _].
  apply g_bind; [apply g_each_map; intros; apply g_func_chunk|intros _]. go.
Qed.
Lemma g_add f e : goes (AddElement f e) (AddElement f e).
Proof. unfold AddElement, setParent, Value_setParent, Type_setParent, Func_setParent. destruct e; go. Qed.
Lemma g_element f e : goes (build_element f e) (build_element f (emap (map cmap) e)).
Proof.
  destruct e; cbn [build_element emap].
  - apply g_bind; [apply g_values; [unfold NewConst; intros; go|intros ?; reflexivity|intros ? ?; reflexivity]|intros [ids l']].
    apply g_bind; [unfold NewConstDecl; go|intros d].
    apply g_bind; [apply g_values; [unfold NewConst; intros; go|intros ?; reflexivity|intros ? ?; reflexivity]|intros [ids2 m']].
    apply g_bind; [unfold ConstDecl_AddConst; go|intros _]. apply g_bind; [unfold ConstDecl_SetComment; go|intros _].
    apply g_bind; [apply g_add|intros _; apply g_ret].
  - apply g_bind; [apply g_value; [unfold NewConst; intros; go|intros ?; reflexivity|intros ? ?; reflexivity]|intros [id v']].
    apply g_bind; [unfold AddConst, NewConstDecl; apply g_bind; [go|intros; apply g_add]|intros; apply g_ret].
  - apply g_bind; [apply g_values; [unfold NewVar; intros; go|intros ?; reflexivity|intros ? ?; reflexivity]|intros [ids l']].
    apply g_bind; [unfold NewVarDecl; go|intros d].
    apply g_bind; [apply g_values; [unfold NewVar; intros; go|intros ?; reflexivity|intros ? ?; reflexivity]|intros [ids2 m']].
    apply g_bind; [unfold VarDecl_AddVar; go|intros _]. apply g_bind; [unfold VarDecl_SetComment; go|intros _].
    apply g_bind; [apply g_add|intros _; apply g_ret].
  - apply g_bind; [apply g_value; [unfold NewVar; intros; go|intros ?; reflexivity|intros ? ?; reflexivity]|intros [id v']].
    apply g_bind; [unfold AddVar, NewVarDecl; apply g_bind; [go|intros; apply g_add]|intros; apply g_ret].
  - apply g_bind; [apply g_map; intros; apply g_build_typespec|intros ids].
    apply g_bind; [unfold NewTypeDecl; go|intros d].
    apply g_bind; [apply g_map; intros; apply g_build_typespec|intros ids2].
    apply g_bind; [unfold TypeDecl_AddType; go|intros _]. apply g_bind; [unfold TypeDecl_SetComment; go|intros _].
    apply g_bind; [apply g_add|intros _; apply g_ret].
  - apply g_bind; [apply g_build_typespec|intros id].
    apply g_bind; [unfold AddType, NewTypeDecl; apply g_bind; [go|intros; apply g_add]|intros; apply g_ret].
  - apply g_bind; [apply g_func|intros [id fn']]. apply g_bind; [apply g_add|intros; apply g_ret].
Qed.
Theorem g_file d : goes (build_file d) (build_file (fmap (map cmap) d)).
Proof.
  unfold build_file. cbn [fmap fdName fdPath fdPackage fdFileComment fdPackageComment fdCanonical fdElements].
  apply g_bind; [unfold NewGoFile; go|intros f].
  apply g_bind; [unfold SetFileComment; go|intros _]. apply g_bind; [unfold SetPackageComment; go|intros _].
  apply g_bind; [unfold SetCanonical; go|intros _]. apply g_bind; [apply g_map_map; intros; apply g_element|intros; apply g_ret].
Qed.
End Map.

(** ** Telling templates apart *)
Section Label.
Context {TD : Type}.
Definition chunk_labels (c : chunk (TD * nat)) : list nat :=
  flat_map (fun p => match p with PTemplate _ (_, n) => [n] | PFormat _ _ => [] end) (chunk_parts c).
Definition code_labels (l : list (chunk (TD * nat))) : list nat := flat_map chunk_labels l.
Definition erase : list (chunk (TD * nat)) -> list (chunk TD) := map (cmap fst).
Lemma label_list {A B} (m : B -> A) (labels : B -> list nat) l :
  Forall (fun a => forall n, exists b, m b = a /\ labels b = seq n (List.length (labels b))) l ->
  forall n, exists l', map m l' = l /\ flat_map labels l' = seq n (List.length (flat_map labels l')).
Proof.
  induction 1 as [|a l H _ IH]; intros n; [exists []; auto|]. destruct (H n) as (b & Eb & Lb).
  destruct (IH (n + List.length (labels b))) as (l' & El & Ll). exists (b :: l'). split; [cbn; congruence|].
  cbn [flat_map]. rewrite app_length, seq_app, <- Lb, <- Ll. reflexivity.
Qed.
Lemma label_chunk c : forall n, exists c', cmap fst c' = c /\ chunk_labels c' = seq n (List.length (chunk_labels c')).
Proof.
  induction c as [t|t|f a|f a|t d|l F] using chunk_induction; intros n.
  - exists (KPrint t). auto.
  - exists (KPrintln t). auto.
  - exists (KPrintf f a). auto.
  - exists (KPrintlnf f a). auto.
  - exists (KRender t (d, n)). auto.
  - destruct (label_list (cmap fst) chunk_labels l F n) as (l' & E & L). exists (KCode l'). split; [cbn; congruence|].
    assert (X : chunk_labels (KCode l') = flat_map chunk_labels l').
    { unfold chunk_labels. cbn [chunk_parts]. clear. induction l' as [|c l IH]; cbn [flat_map]; auto. rewrite flat_map_app, IH. auto. }
    rewrite X. auto.
Qed.
Lemma label_code l n : exists l', erase l' = l /\ code_labels l' = seq n (List.length (code_labels l')).
Proof. apply label_list. apply Forall_forall. intros c _. apply label_chunk. Qed.
Definition value_labels (v : vdesc (list (chunk (TD * nat)))) : list nat := flat_map code_labels (vcodes v).
Definition element_labels (e : edesc (list (chunk (TD * nat)))) : list nat := flat_map code_labels (ecodes e).
Lemma label_value v n : exists v', vmap erase v' = v /\ value_labels v' = seq n (List.length (value_labels v')).
Proof.
  destruct v as [c ns t [l|]].
  - destruct (label_code l n) as (l' & E & L). exists (mkV c ns t (Some l')). unfold vmap, value_labels, vcodes. cbn. rewrite E, app_nil_r. auto.
  - exists (mkV c ns t None). auto.
Qed.
Lemma labels_values l : flat_map code_labels (flat_map vcodes l) = flat_map value_labels l.
Proof. induction l; cbn [flat_map]; auto. rewrite flat_map_app. f_equal. auto. Qed.
Lemma label_values l n : exists l', map (vmap erase) l' = l /\ flat_map value_labels l' = seq n (List.length (flat_map value_labels l')).
Proof. apply label_list. apply Forall_forall. intros v _. apply label_value. Qed.
Lemma label_element e n : exists e', emap erase e' = e /\ element_labels e' = seq n (List.length (element_labels e')).
Proof.
  assert (G : forall l m, exists l' m', map (vmap erase) l' = l /\ map (vmap erase) m' = m /\
    flat_map code_labels (flat_map vcodes (l' ++ m')) = seq n (List.length (flat_map code_labels (flat_map vcodes (l' ++ m'))))).
  { intros l m. destruct (label_values l n) as (l' & El & Ll). destruct (label_values m (n + List.length (flat_map value_labels l'))) as (m' & Em & Lm).
    exists l', m'. split; auto. split; auto. rewrite labels_values, flat_map_app, app_length, seq_app, <- Ll, <- Lm. auto. }
  destruct e as [c l m|v|c l m|v|c l m|t|f].
  - destruct (G l m) as (l' & m' & El & Em & L). exists (DConsts c l' m'). cbn [emap]. rewrite El, Em. auto.
  - destruct (label_value v n) as (v' & E & L). exists (DOneConst v'). cbn [emap]. rewrite E. auto.
  - destruct (G l m) as (l' & m' & El & Em & L). exists (DVars c l' m'). cbn [emap]. rewrite El, Em. auto.
  - destruct (label_value v n) as (v' & E & L). exists (DOneVar v'). cbn [emap]. rewrite E. auto.
  - exists (DTypes c l m). auto.
  - exists (DOneType t). auto.
  - destruct f as [c r nm a rs vr l]. destruct (label_code l n) as (l' & E & L). exists (DFunction (mkFn c r nm a rs vr l')).
    split; [rewrite <- E; reflexivity|].
    unfold element_labels. cbn [ecodes fnCode flat_map]. rewrite app_nil_r. auto.
Qed.
Lemma label_file d : exists d', fmap erase d' = d /\ NoDup (flat_map code_labels (codes d')).
Proof.
  destruct d as [a b c x y z es]. destruct (label_list (emap erase) element_labels es) with (n := 0) as (es' & E & L).
  { apply Forall_forall. intros e _. apply label_element. }
  exists (mkFD a b c x y z es'). split; [unfold fmap; cbn; rewrite E; auto|]. unfold codes. cbn [fdElements].
  assert (X : forall l, flat_map code_labels (flat_map ecodes l) = flat_map element_labels l).
  { clear. induction l; cbn [flat_map]; auto. rewrite flat_map_app. f_equal. auto. }
  rewrite X, L. apply seq_NoDup.
Qed.
End Label.

(** ** The templates of a built file *)
Section Built.
Context {TD : Type}.
Implicit Types w : World TD.
Lemma lookup_nth {A} (tab : list A) ids : forall Vs, lookup_all tab ids = Some Vs -> Forall2 (fun i V => nth_error tab i = Some V) ids Vs.
Proof.
  unfold lookup_all. induction ids as [|i ids IH]; intros Vs H; cbn in H; [injection H as <-; constructor|].
  destruct (nth_error tab i) as [V|] eqn:E; [|discriminate]. cbn in H.
  destruct (all_some (map (nth_error tab) ids)) as [r|] eqn:R; [|discriminate]. cbn in H. injection H as <-. constructor; auto.
Qed.
Lemma values_templates f w tab D c vs : values_are f w tab D c vs ->
  flat_map (value_templates w tab) (VDSpecs D) = flat_map (block_templates w) (flat_map vcodes vs).
Proof.
  intros (_ & Vs & L & A). apply lookup_nth in L. revert vs A. induction L as [|i V ids Vs E _ IH]; intros vs A; inversion A as [|? v ? vs' [(_ & _ & VI & _) _] A']; subst; auto.
  cbn [flat_map]. rewrite flat_map_app. f_equal; auto. unfold value_templates, vcodes. rewrite E, VI. destruct (vInit v); cbn [flat_map]; auto.
  rewrite app_nil_r. auto.
Qed.
Lemma element_is_templates f w e d : element_is f w e d -> element_templates w e = flat_map (block_templates w) (ecodes d).
Proof.
  destruct e as [i|i|i|i]; cbn [element_is element_templates].
  - intros (D & -> & H). destruct d; try destruct H; (erewrite values_templates; [|split; eauto]); cbn [flat_map app ecodes]; rewrite ?app_nil_r; auto.
  - intros (D & -> & H). destruct d; try destruct H; (erewrite values_templates; [|split; eauto]); cbn [flat_map app ecodes]; rewrite ?app_nil_r; auto.
  - intros (D & _ & H). destruct d; try destruct H; auto.
  - intros (F & -> & H). destruct d; try destruct H as [(_ & _ & _ & _ & ->) _]; try destruct H. cbn [ecodes flat_map]. rewrite app_nil_r. auto.
Qed.
Lemma file_is_templates f w d : file_is w f d -> file_templates w f = flat_map (block_templates w) (codes d).
Proof.
  intros (F & E & _ & _ & _ & _ & _ & _ & _ & A). unfold file_templates, codes. rewrite E.
  induction A as [|e x es ds H _ IH]; auto. cbn [flat_map]. rewrite flat_map_app, IH, (element_is_templates f w e x H). auto.
Qed.
End Built.
Section Labels.
Context {TD : Type}.
Implicit Types w : World (TD * nat).
Definition label w (t : nat) : nat := match nth_error (templs w) t with Some (_, (_, n)) => n | None => 0 end.
Lemma block_labels w m l cb : represents w m -> block_is m l cb -> map (label w) (block_templates w cb) = code_labels l.
Proof.
  intros R B. unfold block_is in B. destruct (repr_nth w m cb R) as (b & N); [eapply nth_error_lt; eauto|].
  unfold block_templates. rewrite N. assert (F : Forall2 (element_part w) b (flat_map chunk_parts l)).
  { destruct (Forall2_nth (A := CodeBlock) _ _ _ [] cb R (nth_error_lt _ _ _ B)) as (b' & N' & F). rewrite N' in N. injection N as ->.
    rewrite (nth_nth_error _ _ _ [] B) in F. exact F. }
  assert (X : code_labels l = flat_map (fun p => match p with PTemplate _ (_, n) => [n] | PFormat _ _ => [] end) (flat_map chunk_parts l)).
  { unfold code_labels, chunk_labels. clear. induction l as [|c l IH]; cbn [flat_map]; auto. rewrite flat_map_app, IH. auto. }
  rewrite X. clear X B N.
  induction F as [|e p b ps H _ IH]; auto. cbn [flat_map]. rewrite map_app, IH. f_equal.
  destruct e, p as [|tm [x n]]; cbn in H; try contradiction; auto. cbn. unfold label. rewrite H. auto.
Qed.
End Labels.
Definition pmap {TD TE} (g : TD -> TE) (p : part TD) : part TE :=
  match p with PFormat f a => PFormat f a | PTemplate t d => PTemplate t (g d) end.
Lemma represents_map {TD TE} (g : TD -> TE) w m : represents w m -> represents (wmap g w) (map (map (pmap g)) m).
Proof.
  unfold represents. change (blocks (wmap g w)) with (blocks w). induction 1 as [|b ps bs m H _ IH]; cbn [map]; constructor; auto.
  clear IH. induction H as [|e p b ps H _ IH]; cbn [map]; constructor; auto.
  destruct e, p; cbn in *; auto. rewrite nth_error_map, H. reflexivity.
Qed.
Lemma wmap_wmap {TD TE} (g : TD -> TE) h w : (forall x, h (g x) = x) -> wmap h (wmap g w) = w.
Proof.
  intros H. destruct w. unfold wmap. cbn. f_equal. rewrite map_map. rewrite <- map_id. apply map_ext. intros [t d]. rewrite H. auto.
Qed.
Theorem built_once {TD} (d : filedesc (list (chunk TD))) w m f d' w1 : represents w m -> go_name (fdName d) ->
  build_file d w = (Ok (f, d'), w1) -> NoDup (file_templates w1 f).
Proof.
  intros R GN E. destruct (label_file d) as (dl & EL & ND). set (wl := wmap (fun x => (x, 0)) w).
  assert (GN' : go_name (fdName dl)) by (rewrite <- EL in GN; exact GN).
  destruct (build_file_ok dl wl _ (represents_map _ w m R) GN') as (d2 & w2 & m2 & E2 & _ & _ & R2 & _ & FI & BI & _).
  pose proof (g_file fst dl wl) as G. rewrite E2 in G. cbn [fst snd] in G. unfold wl in G. rewrite wmap_wmap in G by auto.
  fold (@erase TD) in G. change (fmap (map (cmap fst)) dl) with (fmap erase dl) in G. rewrite EL, E in G. injection G as -> -> ->.
  change (NoDup (file_templates w2 (List.length (files wl)))). rewrite (file_is_templates _ _ _ FI).
  apply (NoDup_map_inv (label w2)). revert ND.
  assert (X : map (label w2) (flat_map (block_templates w2) (codes d2)) = flat_map code_labels (codes dl)); [|rewrite X; auto].
  induction BI as [|l cb ls cbs B _ IH]; auto. cbn [flat_map]. rewrite map_app, IH, (block_labels w2 m2 l cb R2 B). auto.
Qed.
