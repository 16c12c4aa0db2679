(** Qualification of a file (model.go:198-200) as a list of visits to the places that hold
    types, signatures, symbols or code arguments: each visit renames what it finds and leaves it
    in a form that later visits do not change. *)
From Verif Require Import Base GoPath Types SpecTypes TypesFacts Imports SpecImports ImportsProofs ImportsTheorems
  SettleProofs SpecRender Conv Fmt World WorldProofs.

(** ** Places and their contents *)
Inductive loc :=
| LConst (i : nat) | LVar (i : nat) | LType (i : nat) | LField (i : nat) | LElem (i : nat) | LFunc (i : nat)
| LArg (i k : nat) | LTempl (t : nat).

Lemma loc_eq_dec (a b : loc) : {a = b} + {a <> b}.
Proof. decide equality; apply Nat.eq_dec. Qed.

(** What a code argument refers to (the cases of code.go:139-213). *)
Inductive target :=
| TgPkg (p : Package) | TgSym (s : Symbol) | TgMeth (m : MethodReference) | TgSig (s : Signature)
| TgType (t : TypeName) | TgGoPkg (p : Package) | TgNone.

Section Q.
Context {TD : Type}.
Notation World := (World TD).
Variable env : Env TD.
Variable f : nat.
(** the registrations and the places under consideration *)
Variable R : string * string -> Prop.
Variable Pl : loc -> Prop.
Inductive content := CT (t : TypeName) | CS (s : Signature) | CY (s : Symbol) | CA (a : Arg) | CD (d : TD).

Definition tos_content (t : TypeNameOrSpec) : option content :=
  match t with IsName t => Some (CT t) | _ => None end.
Definition elem_content (e : InterfaceElement) : content :=
  match e with InterfaceEmbed _ s _ => CY s | InterfaceMethod _ _ s _ => CS s end.
Definition cont (w : World) (l : loc) : option content :=
  match l with
  | LConst i => obind (nth_error (consts w) i) (fun v => tos_content (VSType v))
  | LVar i => obind (nth_error (vars w) i) (fun v => tos_content (VSType v))
  | LType i => option_map (fun T => CT (TSUnderlying T)) (nth_error (types w) i)
  | LField i => obind (nth_error (fields w) i) (fun v => tos_content (FSType v))
  | LElem i => option_map elem_content (nth_error (ielems w) i)
  | LFunc i => option_map (fun F => CS (FNSig F)) (nth_error (funcs w) i)
  | LArg i k => obind (nth_error (argss w) i) (fun l => option_map CA (nth_error l k))
  | LTempl t => option_map (fun x => CD (snd x)) (nth_error (templs w) t)
  end.
Definition with_vtype (v : ValueSpec) (t : TypeNameOrSpec) : ValueSpec :=
  mkValue (VComment v) (VNames v) t (VInit v) (VParent v).
Definition with_under (T : TypeSpec) (u : TypeName) : TypeSpec :=
  mkTypeSpec (TSComment T) (TSName T) (TSIsAlias T) u (TSStruct T) (TSInterface T) (TSParent T).
Definition with_ftype (v : FieldSpec) (t : TypeNameOrSpec) : FieldSpec :=
  mkFieldSpec (FSComment v) (FSName v) (FSTag v) t (FSParent v).
Definition with_sig (F : FuncSpec) (s : Signature) : FuncSpec :=
  mkFunc (FNComment F) (FNName F) (FNReceiver F) s (FNBody F) (FNParent F).
Definition with_elem (e : InterfaceElement) (x : content) : InterfaceElement :=
  match e, x with
  | InterfaceEmbed c _ p, CY s => InterfaceEmbed c s p
  | InterfaceMethod c n _ p, CS s => InterfaceMethod c n s p
  | _, _ => e
  end.
Definition upd_with {A} (i : nat) (g : A -> A) (l : list A) : list A :=
  match nth_error l i with Some a => upd i (g a) l | None => l end.
Definition set_cont (l : loc) (x : content) (w : World) : World :=
  match l, x with
  | LConst i, CT t => set_consts (upd_with i (fun v => with_vtype v (IsName t)) (consts w)) w
  | LVar i, CT t => set_vars (upd_with i (fun v => with_vtype v (IsName t)) (vars w)) w
  | LType i, CT t => set_types (upd_with i (fun v => with_under v t) (types w)) w
  | LField i, CT t => set_fields (upd_with i (fun v => with_ftype v (IsName t)) (fields w)) w
  | LElem i, x => set_ielems (upd_with i (fun e => with_elem e x) (ielems w)) w
  | LFunc i, CS s => set_funcs (upd_with i (fun F => with_sig F s) (funcs w)) w
  | LArg i k, CA a => set_argss (upd_with i (upd k a) (argss w)) w
  | LTempl t, CD d => set_templs (upd_with t (fun x => (fst x, d)) (templs w)) w
  | _, _ => w
  end.

(** ** The skeleton: everything that qualification does not change *)
Definition er_imports (F : GoFile) : GoFile := with_imports F (NewImportsFor (pkgPath (FImports F))).
Definition er_tos (t : TypeNameOrSpec) : TypeNameOrSpec := match t with IsName _ => IsName TNil | t => t end.
Definition er_value (v : ValueSpec) := with_vtype v (er_tos (VSType v)).
Definition er_type (T : TypeSpec) := with_under T TNil.
Definition er_field (v : FieldSpec) := with_ftype v (er_tos (FSType v)).
Definition er_elem (e : InterfaceElement) : InterfaceElement :=
  match e with
  | InterfaceEmbed c _ p => InterfaceEmbed c (mkSymbol (mkPackage "" "") "") p
  | InterfaceMethod c n _ p => InterfaceMethod c n (mkSig [] [] false) p
  end.
Definition er_func (F : FuncSpec) := with_sig F (mkSig [] [] false).
Definition er_args (l : list Arg) : list Arg := map (fun _ => AInt 0) l.
Definition skel (w : World) : World :=
  mkWorld (map er_imports (files w)) (constDecls w) (varDecls w) (typeDecls w)
    (map er_value (consts w)) (map er_value (vars w)) (map er_type (types w)) (map er_field (fields w))
    (map er_elem (ielems w)) (map er_func (funcs w)) (blocks w) (map er_args (argss w)) [].
(** and the templates, without their data *)
Definition tnames (w : World) : list nat := map fst (templs w).

(** ** Imports of the file *)
Definition imp (w : World) : Imports :=
  match nth_error (files w) f with Some F => FImports F | None => NewImportsFor "" end.
Definition reimp (i : Imports) (w : World) : World :=
  set_files (upd_with f (fun F => with_imports F i) (files w)) w.
Definition steps (i j : Imports) : Prop :=
  exists l, (forall r, In r l -> R r) /\ j = fold_left reg_pair l i.

(** ** The action on one content *)
Definition arg_target (w : World) (a : Arg) : res target :=
  match a with
  | APackage p | APackagePtr p => Ok (TgPkg p)
  | ASymbol s | ASymbolPtr s => Ok (TgSym s)
  | AMethodRef m | AMethodRefPtr m => Ok (TgMeth m)
  | ASignature s | ASignaturePtr s => Ok (TgSig s)
  | ATypeName t => Ok (TgType t)
  | AConst id => rbind (rd consts id w) (fun v => rbind (ValueSpec_ToSymbol v w) (fun s => Ok (TgSym s)))
  | AVar id => rbind (rd vars id w) (fun v => rbind (ValueSpec_ToSymbol v w) (fun s => Ok (TgSym s)))
  | ATypeSpec id => rbind (rd types id w) (fun T => rbind (TypeSpec_ToSymbol T w) (fun s => Ok (TgSym s)))
  | AIMethod id =>
      rbind (rd ielems id w) (fun e =>
      match e with
      | InterfaceMethod _ n _ p => rbind (InterfaceMethod_ToMethodRef n p w) (fun m => Ok (TgMeth m))
      | InterfaceEmbed _ _ _ => Panic nil_deref
      end)
  | AFunc id =>
      rbind (rd funcs id w) (fun fn => rbind (FuncSpec_ToSymbol fn w) (fun sm =>
      match sm with SomSymbol s => Ok (TgSym s) | SomMethod m => Ok (TgMeth m) end))
  | AReflectType t => rbind (TypeNameForReflectType t) (fun t => Ok (TgType t))
  | AGoType t => rbind (TypeNameForGoType t) (fun t => Ok (TgType t))
  | AGoObject o =>
      rbind (SymbolForGoObject o) (fun sm =>
      match sm with SomSymbol s => Ok (TgSym s) | SomMethod m => Ok (TgMeth m) end)
  | AGoPackage p => rbind (PackageForGoType p) (fun p => Ok (TgGoPkg p))
  | AString _ | AInt _ | AField _ | AEmbed _ | AOther _ => Ok TgNone
  end.
Definition target_act (a : Arg) (t : target) : IM Arg :=
  match t with
  | TgPkg p =>
      do n <- registerPackage p ;;
      sret (if negb (String.eqb n (PkgName p)) then APackage (mkPackage (ImportPath p) n) else a)
  | TgSym s => do s' <- EnsureImported s ;; sret (ASymbol s')
  | TgMeth m =>
      do s' <- EnsureImported (MRType m) ;;
      sret (if negb (symbol_eqb s' (MRType m)) then AMethodRefPtr (mkMethodRef s' (MRMethod m)) else a)
  | TgSig s => do '(s', _) <- EnsureAllTypesImported s ;; sret (ASignaturePtr s')
  | TgType t => do '(t', _) <- EnsureTypeImported t ;; sret (ATypeName t')
  | TgGoPkg p => do n <- registerPackage p ;; sret (AString n)
  | TgNone => sret a
  end.
Definition act (w : World) (x : content) : IM content :=
  match x with
  | CT t => do '(t', _) <- EnsureTypeImported t ;; sret (CT t')
  | CS s => do '(s', _) <- EnsureAllTypesImported s ;; sret (CS s')
  | CY s => do s' <- EnsureImported s ;; sret (CY s')
  | CA a => do t <- slift (arg_target w a) ;; do a' <- target_act a t ;; sret (CA a')
  | CD d => do d' <- tq env (skel w) d ;; sret (CD d')
  end.
(** The registrations it requests (of template data: [asks]). *)
Definition target_requests (t : target) : list (string * string) :=
  match t with
  | TgPkg p | TgGoPkg p => [(ImportPath p, PkgName p)]
  | TgSym s => sym_requests [s]
  | TgMeth m => sym_requests [MRType m]
  | TgSig s => sym_requests (sig_symbols s)
  | TgType t => sym_requests (symbols_of t)
  | TgNone => []
  end.
Definition creq (w : World) (x : content) : list (string * string) :=
  match x with
  | CT t => sym_requests (symbols_of t)
  | CS s => sym_requests (sig_symbols s)
  | CY s => sym_requests [s]
  | CA a => match arg_target w a with Ok t => target_requests t | Panic _ => [] end
  | CD d => []
  end.
Definition same_kind (x y : content) : Prop :=
  match x, y with CT _, CT _ | CS _, CS _ | CY _, CY _ | CA _, CA _ | CD _, CD _ => True | _, _ => False end.
(** Qualifying the content again changes nothing, in any world with this skeleton. *)
Definition calm (w : World) (i : Imports) (d : TD) : Prop :=
  forall w' j, skel w' = skel w -> Inv j -> ext i j -> tq env w' d j = (Ok d, j).
Definition stable (w : World) (i : Imports) (x : content) : Prop :=
  (forall j, Inv j -> ext i j -> act w x j = (Ok x, j)) /\
  match x with CD d => calm w i d | _ => True end.
(** [l]: the registrations that qualifying the content requests, after which it is stable. *)
Definition data_asks (w : World) (d : TD) (l : list (string * string)) : Prop :=
  (forall w' i, skel w' = skel w -> Inv i -> tq env w' d i = tq env (skel w) d i) /\
  forall i d' i', Inv i -> tq env (skel w) d i = (Ok d', i') -> i' = fold_left reg_pair l i /\ calm w i' d'.
Definition asks (w : World) (x : content) (l : list (string * string)) : Prop :=
  match x with CD d => data_asks w d l | _ => l = creq w x end.

(** *** Imports only grow *)
Lemma steps_refl i : steps i i.
Proof. exists []. split; auto. intros r []. Qed.
Lemma steps_trans a b c : steps a b -> steps b c -> steps a c.
Proof.
  intros (l & Hl & ->) (m & Hm & ->). exists (l ++ m). split.
  - intros r IN. apply in_app_or in IN as [IN|IN]; auto.
  - rewrite fold_left_app. auto.
Qed.
Lemma steps_Inv i j : steps i j -> Inv i -> Inv j.
Proof. intros (l & _ & ->) H. apply fold_reg_keep; auto. Qed.
Lemma steps_ext i j : steps i j -> Inv i -> ext i j.
Proof. intros (l & _ & ->) H. apply fold_reg_keep; auto. Qed.

(** *** One content *)
Lemma registerPackage_settles p i n i' : Inv i -> registerPackage p i = (Ok n, i') ->
  i' = fold_left reg_pair [(ImportPath p, PkgName p)] i /\
  forall q j, Inv j -> ext i' j -> registerPackage (mkPackage (ImportPath p) q) j = (Ok n, j).
Proof.
  intros Hi E. unfold registerPackage, RegisterImportForPackage, RegisterImport, sbind, sret in E.
  destruct (prefix_reg i (ImportPath p) (PkgName p) Hi) as (k & i1 & E1 & I1 & X1 & P & _).
  rewrite E1 in E. rewrite strip_with_dot in E. injection E as <- <-. split.
  - cbn [fold_left]. unfold reg_pair, RegisterImport. cbn [fst snd]. rewrite E1. auto.
  - intros q j J X. unfold registerPackage, RegisterImportForPackage, RegisterImport, sbind, sret.
    cbn [ImportPath PkgName]. rewrite (prefix_known j (ImportPath p) q true k J).
    + rewrite strip_with_dot. auto. + eapply prefix_name_ext; eauto.
Qed.
Lemma package_eta p : mkPackage (ImportPath p) (PkgName p) = p.
Proof. destruct p; auto. Qed.
Lemma qualify_settles' s i s' i' : Inv i -> EnsureImported s i = (Ok s', i') ->
  i' = fold_left reg_pair (sym_requests [s]) i /\
  forall j, Inv j -> ext i' j -> EnsureImported s' j = (Ok s', j).
Proof.
  intros Hi E. destruct (qualify_settles s i s' i' Hi E) as [F S]. split; auto.
  rewrite <- fold_sym_requests. exact F.
Qed.

Lemma target_act_settles a t i a' i' : Inv i -> target_act a t i = (Ok a', i') ->
  i' = fold_left reg_pair (target_requests t) i /\
  (a' = a /\ (forall j, Inv j -> ext i' j -> target_act a t j = (Ok a, j)) \/
   exists t', (forall w : World, arg_target w a' = Ok t') /\
     forall j, Inv j -> ext i' j -> target_act a' t' j = (Ok a', j)).
Proof.
  intros Hi. destruct t as [p|s|m|s|t|p|]; cbn [target_act target_requests]; unfold sbind, sret; intros E.
  - destruct (registerPackage p i) as [[n|e] i1] eqn:Er; [|discriminate].
    destruct (registerPackage_settles p i n i1 Hi Er) as [F S].
    destruct (String.eqb_spec n (PkgName p)) as [->|N]; cbn [negb] in E; injection E as <- <-; split; auto.
    + left. split; auto. intros j J X. rewrite <- (package_eta p) at 1. rewrite (S (PkgName p) j J X).
      rewrite String.eqb_refl. auto.
    + right. exists (TgPkg (mkPackage (ImportPath p) n)). split; auto. intros j J X. cbn [target_act]. unfold sbind, sret.
      rewrite S by auto. cbn [PkgName]. rewrite String.eqb_refl. auto.
  - destruct (EnsureImported s i) as [[s'|e] i1] eqn:Er; [|discriminate]. injection E as <- <-.
    destruct (qualify_settles' s i s' i1 Hi Er) as [F S]. split; auto. right. exists (TgSym s'). split; auto.
    intros j J X. cbn [target_act]. unfold sbind, sret. rewrite S by auto. auto.
  - destruct (EnsureImported (MRType m) i) as [[s'|e] i1] eqn:Er; [|discriminate].
    destruct (qualify_settles' _ i s' i1 Hi Er) as [F S].
    destruct (symbol_eqb s' (MRType m)) eqn:EQ; cbn [negb] in E; injection E as <- <-; split; auto.
    + left. split; auto. apply symbol_eqb_eq in EQ. intros j J X. rewrite <- EQ. rewrite S by auto.
      rewrite (proj2 (symbol_eqb_eq s' s')) by auto. auto.
    + right. exists (TgMeth (mkMethodRef s' (MRMethod m))). split; auto. intros j J X. cbn [target_act MRType].
      unfold sbind, sret. rewrite S by auto. rewrite (proj2 (symbol_eqb_eq s' s')) by auto. auto.
  - destruct (EnsureAllTypesImported s i) as [[[s' c]|e] i1] eqn:Er; [|discriminate]. injection E as <- <-.
    destruct (settles_signature s i s' c i1 Hi Er) as (F & _ & S). rewrite fold_sym_requests in F. split; auto.
    right. exists (TgSig s'). split; auto.
    intros j J X. cbn [target_act]. unfold sbind, sret, EnsureAllTypesImported. rewrite S by auto. auto.
  - destruct (EnsureTypeImported t i) as [[[s' c]|e] i1] eqn:Er; [|discriminate]. injection E as <- <-.
    destruct (settles_type t i s' c i1 Hi Er) as (F & _ & S). rewrite fold_sym_requests in F. split; auto.
    right. exists (TgType s'). split; auto.
    intros j J X. cbn [target_act]. unfold sbind, sret, EnsureTypeImported. rewrite S by auto. auto.
  - destruct (registerPackage p i) as [[n|e] i1] eqn:Er; [|discriminate]. injection E as <- <-.
    destruct (registerPackage_settles p i n i1 Hi Er) as [F S]. split; auto.
    right. exists TgNone. split; auto.
  - injection E as <- <-. split; auto.
Qed.

Lemma skel_skel (w : World) : skel (skel w) = skel w.
Proof.
  unfold skel. cbn [files constDecls varDecls typeDecls consts vars types fields ielems funcs blocks argss templs].
  f_equal; rewrite map_map; apply map_ext; intros x; try reflexivity.
  - unfold er_value. cbn. destruct (VSType x); auto.
  - unfold er_value. cbn. destruct (VSType x); auto.
  - unfold er_field. cbn. destruct (FSType x); auto.
  - destruct x; auto.
  - unfold er_args. rewrite map_map. auto.
Qed.
Lemma act_settles w x l i y i' : Inv i -> asks w x l -> act w x i = (Ok y, i') ->
  i' = fold_left reg_pair l i /\ same_kind x y /\ stable w i' y.
Proof.
  intros Hi AK. unfold stable. destruct x as [t|s|s|a|d]; cbn [asks creq] in AK; try subst l; cbn [act]; unfold sbind, sret, slift; intros E.
  5:{ destruct (tq env (skel w) d i) as [[d'|e] i1] eqn:Er; [|discriminate]. injection E as <- <-.
      destruct AK as [_ AK]. destruct (AK i d' i1 Hi Er) as [F C]. split; auto. split; [exact I|]. split; auto.
      intros j J X. cbn [act]. unfold sbind, sret. rewrite (C (skel w)); auto. apply skel_skel. }
  - destruct (EnsureTypeImported t i) as [[[s' c]|e] i1] eqn:Er; [|discriminate]. injection E as <- <-.
    destruct (settles_type t i s' c i1 Hi Er) as (F & _ & S). rewrite fold_sym_requests in F. repeat split; auto.
    intros j J X. cbn [act]. unfold sbind, sret, EnsureTypeImported. rewrite S by auto. auto.
  - destruct (EnsureAllTypesImported s i) as [[[s' c]|e] i1] eqn:Er; [|discriminate]. injection E as <- <-.
    destruct (settles_signature s i s' c i1 Hi Er) as (F & _ & S). rewrite fold_sym_requests in F. repeat split; auto.
    intros j J X. cbn [act]. unfold sbind, sret, EnsureAllTypesImported. rewrite S by auto. auto.
  - destruct (EnsureImported s i) as [[s'|e] i1] eqn:Er; [|discriminate]. injection E as <- <-.
    destruct (qualify_settles' s i s' i1 Hi Er) as [F S]. repeat split; auto.
    intros j J X. cbn [act]. unfold sbind, sret. rewrite S by auto. auto.
  - destruct (arg_target w a) as [t|e] eqn:Et; [|discriminate].
    destruct (target_act a t i) as [[a'|e] i1] eqn:Ea; [|discriminate]. injection E as <- <-.
    destruct (target_act_settles a t i a' i1 Hi Ea) as [F S]. repeat split; auto.
    intros j J X. cbn [act]. unfold sbind, sret, slift. destruct S as [[-> S]|(t' & A & S)].
    + rewrite Et, S by auto. auto.
    + rewrite A, S by auto. auto.
Qed.

(** *** The skeleton determines the action *)
Lemma rd_map {A} (tab : World -> list A) (er : A -> A) (w : World) i :
  tab (skel w) = map er (tab w) ->
  rd tab i (skel w) = match rd tab i w with Ok a => Ok (er a) | Panic m => Panic m end.
Proof. intros E. unfold rd. rewrite E, nth_error_map. destruct (nth_error (tab w) i); auto. Qed.
Lemma file_package_skel i (w : World) : file_package i (skel w) = file_package i w.
Proof.
  unfold file_package. rewrite (rd_map files er_imports) by auto. destruct (rd files i w); auto.
Qed.
Lemma SymbolAt_skel v k (w : World) : ValueSpec_SymbolAt (er_value v) k (skel w) = ValueSpec_SymbolAt v k w.
Proof.
  unfold ValueSpec_SymbolAt. cbn [er_value with_vtype VNames VParent].
  destruct (if (k <? 0)%Z then None else nth_error (VNames v) (Z.to_nat k)); auto.
  destruct (VParent v); auto. rewrite file_package_skel. auto.
Qed.
Lemma TypeSymbol_skel T (w : World) : TypeSpec_ToSymbol (er_type T) (skel w) = TypeSpec_ToSymbol T w.
Proof.
  unfold TypeSpec_ToSymbol. cbn [er_type with_under TSName TSParent]. destruct (String.eqb (TSName T) ""); auto.
  destruct (TSParent T); auto. rewrite file_package_skel. auto.
Qed.
Lemma arg_target_skel (w : World) a : arg_target (skel w) a = arg_target w a.
Proof.
  destruct a; cbn [arg_target]; auto.
  - rewrite (rd_map consts er_value) by auto. destruct (rd consts id w) as [v|]; cbn [rbind]; auto.
    unfold ValueSpec_ToSymbol. rewrite SymbolAt_skel. auto.
  - rewrite (rd_map vars er_value) by auto. destruct (rd vars id w) as [v|]; cbn [rbind]; auto.
    unfold ValueSpec_ToSymbol. rewrite SymbolAt_skel. auto.
  - rewrite (rd_map types er_type) by auto. destruct (rd types id w) as [v|]; cbn [rbind]; auto.
    rewrite TypeSymbol_skel. auto.
  - rewrite (rd_map ielems er_elem) by auto. destruct (rd ielems id w) as [[c s p|c n s p]|]; cbn [rbind er_elem]; auto.
    unfold InterfaceMethod_ToMethodRef. destruct p; auto.
    rewrite (rd_map types er_type) by auto. destruct (rd types n0 w) as [v|]; cbn [rbind]; auto.
    rewrite TypeSymbol_skel. auto.
  - rewrite (rd_map funcs er_func) by auto. destruct (rd funcs id w) as [v|]; cbn [rbind]; auto.
    unfold FuncSpec_ToSymbol. cbn [er_func with_sig FNParent FNReceiver FNName].
    destruct (FNParent v); auto. rewrite file_package_skel. auto.
Qed.
Lemma act_skel (w w' : World) x : skel w' = skel w -> act w' x = act w x.
Proof.
  intros E. destruct x; auto; cbn [act].
  - rewrite <- (arg_target_skel w'), E, arg_target_skel. auto.
  - rewrite E. auto.
Qed.
Lemma creq_skel (w w' : World) x : skel w' = skel w -> creq w' x = creq w x.
Proof.
  intros E. destruct x; auto. cbn [creq]. rewrite <- (arg_target_skel w'), E, arg_target_skel. auto.
Qed.
Lemma stable_skel (w w' : World) i x : skel w' = skel w -> stable w i x -> stable w' i x.
Proof.
  intros E [S C]. split.
  - intros j J X. rewrite (act_skel w); auto.
  - destruct x; auto. intros w2 j E2. apply C. congruence.
Qed.
Lemma asks_skel (w w' : World) x l : skel w' = skel w -> asks w x l -> asks w' x l.
Proof.
  intros E. destruct x; cbn [asks]; try (rewrite (creq_skel w w') by auto; auto; fail).
  intros [A B]. split.
  - intros w2 i E2. rewrite E. apply A. congruence.
  - intros i d' i' Hi. rewrite E. intros Ed. destruct (B i d' i' Hi Ed) as [F C]. split; auto.
    intros w2 j E2. apply C. congruence.
Qed.
Lemma stable_ext (w : World) i j x : ext i j -> stable w i x -> stable w j x.
Proof.
  intros X [S C]. split.
  - intros k K Y. apply S; auto. eapply ext_trans; eauto.
  - destruct x; auto. intros w2 k E2 K Y. apply C; auto. eapply ext_trans; eauto.
Qed.

(** *** Reading and writing places *)
Lemma nth_upd_with {A} i j (g : A -> A) (l : list A) :
  nth_error (upd_with i g l) j = if Nat.eqb i j then option_map g (nth_error l j) else nth_error l j.
Proof.
  unfold upd_with. destruct (Nat.eqb_spec i j) as [->|N].
  - destruct (nth_error l j) as [a|] eqn:E; [|rewrite E; auto]. cbn.
    apply nth_upd_same. apply nth_error_Some. congruence.
  - destruct (nth_error l i) as [a|] eqn:E; auto. rewrite nth_upd_other; auto.
Qed.
Lemma map_upd {A B} (er : A -> B) i a (l : list A) : map er (upd i a l) = upd i (er a) (map er l).
Proof. revert i; induction l as [|x l IH]; intros [|i]; cbn; auto. rewrite IH. auto. Qed.
Lemma map_upd_with {A B} (er : A -> B) i (g : A -> A) (l : list A) :
  (forall a, nth_error l i = Some a -> er (g a) = er a) -> map er (upd_with i g l) = map er l.
Proof.
  intros H. unfold upd_with. destruct (nth_error l i) as [a|] eqn:E; auto.
  rewrite map_upd, H by auto. apply upd_same. rewrite nth_error_map, E. auto.
Qed.
Lemma upd_with_same {A} i (g : A -> A) (l : list A) :
  (forall a, nth_error l i = Some a -> g a = a) -> upd_with i g l = l.
Proof.
  intros H. unfold upd_with. destruct (nth_error l i) as [a|] eqn:E; auto. rewrite H by auto. apply upd_same; auto.
Qed.
Ltac world := unfold skel; cbn [files constDecls varDecls typeDecls consts vars types fields ielems funcs blocks argss templs
  set_files set_consts set_vars set_types set_fields set_ielems set_funcs set_argss set_templs].

Lemma set_cont_skel l x y w : cont w l = Some x -> same_kind x y -> skel (set_cont l y w) = skel w.
Proof.
  destruct l as [i|i|i|i|i|i|i k|t0]; cbn [cont]; unfold obind, option_map; intros C K.
  - destruct (nth_error (consts w) i) as [v|] eqn:E; [|discriminate]. destruct (VSType v) eqn:T; try discriminate.
    injection C as <-. destruct y; try contradiction. cbn [set_cont]. world. f_equal.
    apply map_upd_with. intros a Ea. assert (a = v) as -> by congruence. unfold er_value. cbn. rewrite T. auto.
  - destruct (nth_error (vars w) i) as [v|] eqn:E; [|discriminate]. destruct (VSType v) eqn:T; try discriminate.
    injection C as <-. destruct y; try contradiction. cbn [set_cont]. world. f_equal.
    apply map_upd_with. intros a Ea. assert (a = v) as -> by congruence. unfold er_value. cbn. rewrite T. auto.
  - destruct (nth_error (types w) i) as [v|] eqn:E; [|discriminate].
    injection C as <-. destruct y; try contradiction. cbn [set_cont]. world. f_equal.
    apply map_upd_with. auto.
  - destruct (nth_error (fields w) i) as [v|] eqn:E; [|discriminate]. destruct (FSType v) eqn:T; try discriminate.
    injection C as <-. destruct y; try contradiction. cbn [set_cont]. world. f_equal.
    apply map_upd_with. intros a Ea. assert (a = v) as -> by congruence. unfold er_field. cbn. rewrite T. auto.
  - cbn [set_cont]. world. f_equal. apply map_upd_with. intros [c s p|c n s p] _; destruct y; auto.
  - destruct (nth_error (funcs w) i) as [v|] eqn:E; [|discriminate].
    injection C as <-. destruct y; try contradiction. cbn [set_cont]. world. f_equal.
    apply map_upd_with. auto.
  - destruct y; auto. cbn [set_cont]. world. f_equal. apply map_upd_with. intros v _.
    unfold er_args. rewrite map_upd. destruct (nth_error v k) as [b|] eqn:B.
    + apply upd_same. rewrite nth_error_map, B. auto.
    + apply nth_error_None in B. clear -B. revert k B; induction v as [|z v IH]; intros [|k] B; cbn in *; auto; try lia.
      f_equal. apply IH. lia.
  - destruct y; auto.
Qed.
Lemma cont_set_same l x y w : cont w l = Some x -> same_kind x y -> cont (set_cont l y w) l = Some y.
Proof.
  destruct l as [i|i|i|i|i|i|i k|t0]; cbn [cont]; unfold obind, option_map; intros C K.
  - destruct (nth_error (consts w) i) as [v|] eqn:E; [|discriminate]. destruct (VSType v) eqn:T; try discriminate.
    injection C as <-. destruct y; try contradiction. cbn [set_cont set_consts consts].
    rewrite nth_upd_with, Nat.eqb_refl, E. auto.
  - destruct (nth_error (vars w) i) as [v|] eqn:E; [|discriminate]. destruct (VSType v) eqn:T; try discriminate.
    injection C as <-. destruct y; try contradiction. cbn [set_cont set_vars vars].
    rewrite nth_upd_with, Nat.eqb_refl, E. auto.
  - destruct (nth_error (types w) i) as [v|] eqn:E; [|discriminate].
    injection C as <-. destruct y; try contradiction. cbn [set_cont set_types types].
    rewrite nth_upd_with, Nat.eqb_refl, E. auto.
  - destruct (nth_error (fields w) i) as [v|] eqn:E; [|discriminate]. destruct (FSType v) eqn:T; try discriminate.
    injection C as <-. destruct y; try contradiction. cbn [set_cont set_fields fields].
    rewrite nth_upd_with, Nat.eqb_refl, E. auto.
  - destruct (nth_error (ielems w) i) as [v|] eqn:E; [|discriminate].
    cbn [set_cont set_ielems ielems]. rewrite nth_upd_with, Nat.eqb_refl, E. cbn [option_map].
    injection C as <-. destruct v, y; try contradiction; auto.
  - destruct (nth_error (funcs w) i) as [v|] eqn:E; [|discriminate].
    injection C as <-. destruct y; try contradiction. cbn [set_cont set_funcs funcs].
    rewrite nth_upd_with, Nat.eqb_refl, E. auto.
  - destruct (nth_error (argss w) i) as [v|] eqn:E; [|discriminate].
    destruct (nth_error v k) as [b|] eqn:B; [|discriminate]. injection C as <-. destruct y; try contradiction.
    cbn [set_cont set_argss argss]. rewrite nth_upd_with, Nat.eqb_refl, E. cbn [option_map].
    rewrite nth_upd_same; auto. apply nth_error_Some. congruence.
  - destruct (nth_error (templs w) t0) as [v|] eqn:E; [|discriminate].
    injection C as <-. destruct y; try contradiction. cbn [set_cont set_templs templs].
    rewrite nth_upd_with, Nat.eqb_refl, E. auto.
Qed.
Lemma cont_set_other l l' y w : l <> l' -> cont (set_cont l y w) l' = cont w l'.
Proof.
  assert (AG : forall {A B : Type} (g : A -> A) (h : A -> option B) i j (tab : list A), i <> j ->
    obind (nth_error (upd_with i g tab) j) h = obind (nth_error tab j) h).
  { intros A B g h i j tab N. rewrite nth_upd_with. destruct (Nat.eqb_spec i j); congruence. }
  assert (OM : forall {A B : Type} (g : A -> A) (h : A -> B) i j (tab : list A), i <> j ->
    option_map h (nth_error (upd_with i g tab) j) = option_map h (nth_error tab j)).
  { intros A B g h i j tab N. rewrite nth_upd_with. destruct (Nat.eqb_spec i j); congruence. }
  intros N. destruct l as [i|i|i|i|i|i|i k|t0], l' as [j|j|j|j|j|j|j k'|t1];
    destruct y; cbn [set_cont cont consts vars types fields ielems funcs argss set_consts set_vars set_types set_fields set_ielems set_funcs set_argss set_templs templs]; auto;
    try (apply AG; congruence); try (apply OM; congruence).
  unfold obind. rewrite nth_upd_with. destruct (Nat.eqb_spec i j) as [->|]; auto.
  destruct (nth_error (argss w) j) as [v|]; auto. cbn [option_map]. f_equal.
  rewrite nth_upd_other by congruence. auto.
Qed.
Lemma set_files_id (w : World) l : l = files w -> set_files l w = w.
Proof. intros ->. destruct w; auto. Qed.
Lemma set_consts_id (w : World) l : l = consts w -> set_consts l w = w.
Proof. intros ->. destruct w; auto. Qed.
Lemma set_vars_id (w : World) l : l = vars w -> set_vars l w = w.
Proof. intros ->. destruct w; auto. Qed.
Lemma set_types_id (w : World) l : l = types w -> set_types l w = w.
Proof. intros ->. destruct w; auto. Qed.
Lemma set_fields_id (w : World) l : l = fields w -> set_fields l w = w.
Proof. intros ->. destruct w; auto. Qed.
Lemma set_ielems_id (w : World) l : l = ielems w -> set_ielems l w = w.
Proof. intros ->. destruct w; auto. Qed.
Lemma set_funcs_id (w : World) l : l = funcs w -> set_funcs l w = w.
Proof. intros ->. destruct w; auto. Qed.
Lemma set_argss_id (w : World) l : l = argss w -> set_argss l w = w.
Proof. intros ->. destruct w; auto. Qed.
Lemma set_templs_id (w : World) l : l = templs w -> set_templs l w = w.
Proof. intros ->. destruct w; auto. Qed.
Lemma set_cont_id l x w : cont w l = Some x -> set_cont l x w = w.
Proof.
  destruct l as [i|i|i|i|i|i|i k|t0]; cbn [cont]; unfold obind, option_map; intros C.
  - destruct (nth_error _ i) as [v|] eqn:E; [|discriminate]. destruct (VSType v) eqn:T; try discriminate.
    injection C as <-. cbn [set_cont]. apply set_consts_id, upd_with_same.
    intros a Ea. assert (a = v) as -> by congruence. unfold with_vtype. rewrite <- T. destruct v; auto.
  - destruct (nth_error _ i) as [v|] eqn:E; [|discriminate]. destruct (VSType v) eqn:T; try discriminate.
    injection C as <-. cbn [set_cont]. apply set_vars_id, upd_with_same.
    intros a Ea. assert (a = v) as -> by congruence. unfold with_vtype. rewrite <- T. destruct v; auto.
  - destruct (nth_error _ i) as [v|] eqn:E; [|discriminate].
    injection C as <-. cbn [set_cont]. apply set_types_id, upd_with_same.
    intros a Ea. assert (a = v) as -> by congruence. destruct v; auto.
  - destruct (nth_error _ i) as [v|] eqn:E; [|discriminate]. destruct (FSType v) eqn:T; try discriminate.
    injection C as <-. cbn [set_cont]. apply set_fields_id, upd_with_same.
    intros a Ea. assert (a = v) as -> by congruence. unfold with_ftype. rewrite <- T. destruct v; auto.
  - destruct (nth_error _ i) as [v|] eqn:E; [|discriminate].
    injection C as <-. cbn [set_cont]. apply set_ielems_id, upd_with_same.
    intros a Ea. assert (a = v) as -> by congruence. destruct v; auto.
  - destruct (nth_error _ i) as [v|] eqn:E; [|discriminate].
    injection C as <-. cbn [set_cont]. apply set_funcs_id, upd_with_same.
    intros a Ea. assert (a = v) as -> by congruence. destruct v; auto.
  - destruct (nth_error _ i) as [v|] eqn:E; [|discriminate].
    destruct (nth_error v k) as [b|] eqn:B; [|discriminate]. injection C as <-.
    cbn [set_cont]. apply set_argss_id, upd_with_same.
    intros a Ea. assert (a = v) as -> by congruence. apply upd_same; auto.
  - destruct (nth_error _ t0) as [v|] eqn:E; [|discriminate].
    injection C as <-. cbn [set_cont]. apply set_templs_id, upd_with_same.
    intros a Ea. assert (a = v) as -> by congruence. destruct v; auto.
Qed.
Lemma set_cont_tnames l x w : tnames (set_cont l x w) = tnames w.
Proof.
  destruct l, x; try reflexivity. unfold tnames. cbn [set_cont set_templs templs]. apply map_upd_with. auto.
Qed.
Lemma reimp_skel i w : pkgPath i = pkgPath (imp w) -> skel (reimp i w) = skel w.
Proof.
  intros E. unfold reimp. world. f_equal. apply map_upd_with. intros F EF.
  unfold imp in E. rewrite EF in E. unfold er_imports. cbn [FImports with_imports]. rewrite E. auto.
Qed.
Lemma reimp_cont i w l : cont (reimp i w) l = cont w l.
Proof. destruct l; reflexivity. Qed.
Lemma reimp_imp i w F : nth_error (files w) f = Some F -> imp (reimp i w) = i.
Proof.
  intros E. unfold imp, reimp. cbn [set_files files]. rewrite nth_upd_with, Nat.eqb_refl, E. auto.
Qed.
Lemma reimp_id w : reimp (imp w) w = w.
Proof.
  unfold reimp, imp. apply set_files_id, upd_with_same. intros F E. rewrite E. destruct F; auto.
Qed.
Lemma reimp_reimp i j w : reimp j (reimp i w) = reimp j w.
Proof.
  unfold reimp, set_files. cbn [files constDecls varDecls typeDecls consts vars types fields ielems funcs blocks argss templs].
  f_equal. unfold upd_with.
  destruct (nth_error (files w) f) as [F|] eqn:E; [|rewrite E; auto].
  rewrite nth_upd_same by (apply nth_error_Some; congruence). rewrite upd_upd. auto.
Qed.
Lemma set_cont_files l y w : files (set_cont l y w) = files w.
Proof. destruct l, y; reflexivity. Qed.
Lemma set_cont_imp l y w : imp (set_cont l y w) = imp w.
Proof. unfold imp. rewrite set_cont_files. auto. Qed.

(** ** Later worlds *)
Definition moved (w : World) (i0 i1 : Imports) (x y : content) : Prop :=
  y = x \/ exists l j j', asks w x l /\ steps i0 j /\ act w x j = (Ok y, j') /\ steps j' i1.
Definition omoved w i0 i1 (x y : option content) : Prop :=
  match x, y with
  | None, None => True
  | Some x, Some y => moved w i0 i1 x y
  | _, _ => False
  end.
Record le (w w' : World) : Prop := mkLe
  { le_skel : skel w' = skel w;
    le_tnames : tnames w' = tnames w;
    le_imp : steps (imp w) (imp w');
    le_files : files w' = files (reimp (imp w') w);
    le_cont : forall l, omoved w (imp w) (imp w') (cont w l) (cont w' l) }.
(** Every content either asks for registrations in [R] only or is already qualified. *)
Record J (w : World) : Prop := mkJ
  { j_file : nth_error (files w) f <> None;
    j_inv : Inv (imp w);
    j_cont : forall l x, Pl l -> cont w l = Some x ->
      (exists rs, asks w x rs /\ forall r, In r rs -> R r) \/ stable w (imp w) x }.
Definition done (l : loc) (w : World) : Prop := forall x, cont w l = Some x -> stable w (imp w) x.

Lemma moved_trans (w : World) i0 i1 i2 x y z : Inv i0 -> steps i0 i1 -> steps i1 i2 ->
  moved w i0 i1 x y -> moved w i1 i2 y z -> moved w i0 i2 x z.
Proof.
  intros H0 S01 S12 [->|(l & j & j' & AK & A & B & C)] [->|(m & k & k' & AM & D & E & G)].
  - left; auto.
  - right. exists m, k, k'. repeat split; auto. eapply steps_trans; eauto.
  - right. exists l, j, j'. repeat split; auto. eapply steps_trans; eauto.
  - assert (IJ : Inv j) by (eapply steps_Inv; eauto).
    destruct (act_settles w x l j y j' IJ AK B) as (F & _ & [ST _]).
    assert (IJ' : Inv j') by (rewrite F; apply fold_reg_keep; auto).
    assert (IK : Inv k) by (eapply steps_Inv; [exact D|]; eapply steps_Inv; [exact C|]; auto).
    assert (X : ext j' k).
    { eapply ext_trans; [apply steps_ext; [exact C|auto]|]. apply steps_ext; auto. eapply steps_Inv; eauto. }
    rewrite (ST k IK X) in E. injection E as <- <-. right. exists l, j, j'. repeat split; auto.
    eapply steps_trans; eauto.
Qed.
Lemma moved_skel (w w' : World) i0 i1 x y : skel w' = skel w -> moved w' i0 i1 x y -> moved w i0 i1 x y.
Proof.
  intros E [->|(l & j & j' & AK & A & B & C)]; [left; auto|]. right. exists l, j, j'. rewrite (act_skel w) in B by auto.
  split; [eapply asks_skel; [|exact AK]; auto|]. auto.
Qed.
Lemma le_refl w : le w w.
Proof.
  split; auto.
  - apply steps_refl.
  - rewrite reimp_id. auto.
  - intros l. destruct (cont w l); cbn; auto. left; auto.
Qed.
Lemma le_trans a b c : J a -> le a b -> le b c -> le a c.
Proof.
  intros Ja [S1 T1 I1 F1 C1] [S2 T2 I2 F2 C2]. split.
  - congruence.
  - congruence.
  - eapply steps_trans; eauto.
  - rewrite F2. unfold reimp at 1. cbn [set_files files].
    rewrite F1. unfold reimp. cbn [set_files files]. unfold upd_with.
    destruct (nth_error (files a) f) as [F|] eqn:E; [|rewrite E; auto].
    rewrite nth_upd_same by (apply nth_error_Some; congruence). rewrite upd_upd. auto.
  - intros l. specialize (C1 l). specialize (C2 l).
    destruct (cont a l) as [x|], (cont b l) as [y|], (cont c l) as [z|]; cbn in *; auto; try contradiction.
    eapply moved_trans; eauto. + apply j_inv; auto. + eapply moved_skel; eauto.
Qed.
Lemma J_le w w' : J w -> le w w' -> J w'.
Proof.
  intros Jw L. destruct Jw as [JF JI JC]. destruct L as [S TN I1 F C]. split.
  - rewrite F. unfold reimp. cbn [set_files files]. rewrite nth_upd_with, Nat.eqb_refl.
    destruct (nth_error (files w) f); cbn; congruence.
  - eapply steps_Inv; eauto.
  - intros l y PL E. specialize (C l). rewrite E in C. destruct (cont w l) as [x|] eqn:EX; [|contradiction].
    destruct C as [->|(rs & j & j' & AK & A & B & D)].
    + destruct (JC l x PL EX) as [(rs & AK & H)|H].
      * left. exists rs. split; auto. eapply asks_skel; eauto.
      * right. eapply stable_skel; [exact S|]. eapply stable_ext; [|exact H]. apply steps_ext; auto.
    + right. assert (IJ : Inv j) by (eapply steps_Inv; eauto).
      destruct (act_settles w x rs j y j' IJ AK B) as (FF & _ & ST).
      eapply stable_skel; [exact S|]. eapply stable_ext; [|exact ST]. apply steps_ext; auto.
      rewrite FF. apply fold_reg_keep; auto.
Qed.
Lemma done_le l w w' : J w -> le w w' -> done l w -> done l w'.
Proof.
  intros Jw L D y E. pose proof (le_cont _ _ L l) as C. rewrite E in C.
  destruct (cont w l) as [x|] eqn:EX; [|contradiction].
  pose proof (D x EX) as SX. assert (X : ext (imp w) (imp w')) by (apply steps_ext; [apply (le_imp _ _ L)|apply j_inv; auto]).
  assert (y = x) as ->.
  { destruct C as [->|(rs & j & j' & AK & A & B & G)]; auto.
    assert (IJ : Inv j) by (eapply steps_Inv; [exact A|apply j_inv; auto]).
    rewrite (proj1 SX j IJ) in B; [congruence|]. apply steps_ext; auto. apply j_inv; auto. }
  eapply stable_skel; [apply (le_skel _ _ L)|]. eapply stable_ext; eauto.
Qed.

(** ** One visit *)
Definition visit (l : loc) : WM unit := fun w =>
  match cont w l with
  | None => (Ok tt, w)
  | Some x =>
      match act w x (imp w) with
      | (Ok y, i) => (Ok tt, set_cont l y (reimp i w))
      | (Panic m, i) => (Panic m, reimp i w)
      end
  end.
Lemma visit_done l w : J w -> done l w -> visit l w = (Ok tt, w).
Proof.
  intros Jw D. unfold visit. destruct (cont w l) as [x|] eqn:E; auto.
  rewrite (proj1 (D x E) (imp w) (j_inv _ Jw) (ext_refl _)). rewrite reimp_id, set_cont_id; auto.
Qed.
Lemma visit_le l w w' : J w -> Pl l -> visit l w = (Ok tt, w') -> le w w' /\ done l w' /\ forall l', l' <> l -> cont w' l' = cont w l'.
Proof.
  intros Jw PL. unfold visit. destruct (cont w l) as [x|] eqn:E.
  2:{ intros [= <-]. split; [apply le_refl|]. split; auto. intros x Ex. congruence. }
  destruct (act w x (imp w)) as [[y|m] i] eqn:A; [|discriminate]. intros [= <-].
  pose proof (j_inv _ Jw) as HI.
  destruct (j_cont _ Jw l x PL E) as [(rs & AK & HR)|HS].
  2:{ rewrite (proj1 HS (imp w) HI (ext_refl _)) in A. injection A as <- <-. rewrite reimp_id, set_cont_id by auto.
      split; [apply le_refl|]. split; auto. intros z Ez. assert (z = x) as -> by congruence. auto. }
  destruct (act_settles w x rs (imp w) y i HI AK A) as (FF & K & ST).
  assert (SK : skel (set_cont l y (reimp i w)) = skel w).
  { rewrite (set_cont_skel l x) by (auto; rewrite reimp_cont; auto).
    apply reimp_skel. rewrite FF. destruct (fold_reg_keep rs (imp w) HI) as [_ [P _]]. exact P. }
  assert (EI : imp (set_cont l y (reimp i w)) = i).
  { rewrite set_cont_imp. destruct (nth_error (files w) f) as [F|] eqn:EF; [|exfalso; apply (j_file _ Jw); auto].
    eapply reimp_imp; eauto. }
  assert (ST1 : steps (imp w) i) by (exists rs; auto).
  split; [|split].
  - split; auto.
    + rewrite set_cont_tnames. auto.
    + rewrite EI. auto.
    + rewrite EI, set_cont_files. auto.
    + intros l'. rewrite EI. destruct (cont w l') as [x'|] eqn:E'.
      * assert (D : l = l' \/ l <> l').
        { destruct (loc_eq_dec l l'); auto. }
        destruct D as [<-|N].
        -- rewrite (cont_set_same l x) by (auto; rewrite reimp_cont; auto). cbn.
           assert (x' = x) as -> by congruence. right. exists rs, (imp w), i. split; auto. split; [apply steps_refl|]. split; auto. apply steps_refl.
        -- rewrite cont_set_other, reimp_cont, E' by auto. cbn. left; auto.
      * assert (N : l <> l') by congruence. rewrite cont_set_other, reimp_cont, E' by auto. cbn. auto.
  - intros z Ez. rewrite (cont_set_same l x) in Ez by (auto; rewrite reimp_cont; auto).
    injection Ez as <-. rewrite EI. eapply stable_skel; [exact SK|]. auto.
  - intros l' N. rewrite cont_set_other, reimp_cont by auto. auto.
Qed.

(** ** Programs made of visits *)
(** [m] visits the places [P] (a function of the skeleton) and no others, and does nothing when
    run again in any later world. *)
Definition good (m : WM unit) (P : World -> list loc) : Prop := forall w w1,
  J w -> (forall l, In l (P (skel w)) -> Pl l) -> m w = (Ok tt, w1) ->
  le w w1 /\ (forall l, In l (P (skel w)) -> done l w1) /\
  (forall l, ~ In l (P (skel w)) -> cont w1 l = cont w l) /\
  forall w2, le w1 w2 -> m w2 = (Ok tt, w2).

Lemma good_ext m m' P : (forall w, J w -> m w = m' w) -> good m' P -> good m P.
Proof.
  intros E G w w1 Jw PL H. rewrite E in H by auto. destruct (G w w1 Jw PL H) as (L & D & U & S).
  split; [auto|]. split; [auto|]. split; [auto|]. intros w2 L2. rewrite E; auto.
  eapply J_le; [|exact L2]. eapply J_le; eauto.
Qed.
Lemma good_weak m P Q : (forall sk l, In l (Q sk) <-> In l (P sk)) -> good m P -> good m Q.
Proof.
  intros H G w w1 Jw PL E. destruct (G w w1 Jw) as (L & D & U & S); auto.
  { intros l IN. apply PL, H. auto. }
  split; [auto|]. split; [intros l IN; apply D, H; auto|]. split; auto.
  intros l N. apply U. intros IN. apply N, H. auto.
Qed.
Lemma good_ret : good (sret tt) (fun _ => []).
Proof. intros w w1 Jw _ [= <-]. split; [apply le_refl|]. split; [intros l []|]. auto. Qed.
Lemma good_visit l : good (visit l) (fun _ => [l]).
Proof.
  intros w w1 Jw PL E. destruct (visit_le l w w1 Jw) as (L & D & U); auto. { apply PL. left; auto. }
  split; auto. split; [|split].
  - intros l' [<-|[]]. auto.
  - intros l' N. apply U. intros ->. apply N. left; auto.
  - intros w2 L2. assert (J w1) by (eapply J_le; eauto). apply visit_done.
    + eapply J_le; eauto. + eapply done_le; eauto.
Qed.
Lemma good_seq m k P Q : good m P -> good k Q ->
  good (do _ <- m ;; k) (fun sk => P sk ++ Q sk).
Proof.
  intros Gm Gk w w2 Jw PL E. unfold sbind in E. destruct (m w) as [[[]|e] w1] eqn:Em; [|discriminate].
  destruct (Gm w w1 Jw) as (L1 & D1 & U1 & S1); auto. { intros l IN. apply PL, in_or_app; auto. }
  assert (J1 : J w1) by (eapply J_le; eauto).
  destruct (Gk w1 w2 J1) as (L2 & D2 & U2 & S2); auto.
  { intros l IN. rewrite (le_skel _ _ L1) in IN. apply PL, in_or_app; auto. }
  split; [eapply le_trans; eauto|]. split; [|split].
  - intros l IN. apply in_app_or in IN as [IN|IN].
    + eapply done_le; [exact J1|exact L2|auto].
    + apply D2. rewrite (le_skel _ _ L1). auto.
  - intros l N. rewrite U2, U1; auto; intros IN; apply N, in_or_app; auto. rewrite (le_skel _ _ L1) in IN. auto.
  - intros w3 L3. unfold sbind. rewrite S1 by (eapply le_trans; eauto). auto.
Qed.
Lemma good_for {A} (g : A -> WM unit) (P : A -> World -> list loc) (l : list A) :
  (forall a, good (g a) (P a)) -> good (for_each g l) (fun sk => flat_map (fun a => P a sk) l).
Proof.
  intros G. induction l as [|a l IH]; cbn [for_each flat_map]; [apply good_ret|]. apply good_seq; auto.
Qed.
(** Reading the unchanging part of a table entry. *)
Definition getsk {A} (tab : World -> list A) (i : nat) : WM A :=
  fun w => match nth_error (tab (skel w)) i with Some a => (Ok a, w) | None => (Panic nil_deref, w) end.
Lemma good_get {A} (tab : World -> list A) i (k : A -> WM unit) (P : A -> World -> list loc) :
  (forall a, good (k a) (P a)) ->
  good (do a <- getsk tab i ;; k a)
       (fun sk => match nth_error (tab sk) i with Some a => P a sk | None => [] end).
Proof.
  intros G w w1 Jw PL E. unfold sbind, getsk in E. destruct (nth_error (tab (skel w)) i) as [a|] eqn:T; [|discriminate].
  destruct (G a w w1 Jw PL E) as (L & D & U & S). split; [auto|]. split; [auto|]. split; [auto|].
  intros w2 L2. unfold sbind, getsk. rewrite (le_skel _ _ L2), (le_skel _ _ L), T. auto.
Qed.

(** ** The qualification code is made of visits *)
Lemma onImports_imp {A} (m : IM A) w : J w -> onImports f m w = let '(r, i) := m (imp w) in (r, reimp i w).
Proof.
  intros Jw. unfold onImports, imp, reimp, upd_with. destruct (nth_error (files w) f) eqn:E; auto.
  exfalso. apply (j_file _ Jw). auto.
Qed.
Lemma reimp_same w : reimp (imp w) w = w. Proof. apply reimp_id. Qed.
Lemma Arg_qualify_act a w : J w ->
  Arg_qualify f a w = let '(r, i) := (do t <- slift (arg_target w a) ;; target_act a t) (imp w) in (r, reimp i w).
Proof.
  intros Jw.
  assert (QS : forall s, qualify_sym_arg f s w =
    let '(r, i) := target_act a (TgSym s) (imp w) in (r, reimp i w)).
  { intros s. unfold qualify_sym_arg, sbind, sret. rewrite onImports_imp by auto. cbn [target_act]. unfold sbind, sret.
    destruct (EnsureImported s (imp w)) as [[s'|m] i]; auto. }
  assert (QM : forall m, qualify_method f a m w =
    let '(r, i) := target_act a (TgMeth m) (imp w) in (r, reimp i w)).
  { intros s. unfold qualify_method, sbind, sret. rewrite onImports_imp by auto. cbn [target_act]. unfold sbind, sret.
    destruct (EnsureImported (MRType s) (imp w)) as [[s'|m] i]; auto. }
  assert (QP : forall p, qualify_package f a p w =
    let '(r, i) := target_act a (TgPkg p) (imp w) in (r, reimp i w)).
  { intros s. unfold qualify_package, sbind, sret. rewrite onImports_imp by auto. cbn [target_act]. unfold sbind, sret.
    destruct (registerPackage s (imp w)) as [[s'|m] i]; auto. }
  assert (QT : forall t, (do '(t', _) <- onImports f (EnsureTypeImported t) ;; sret (ATypeName t')) w =
    let '(r, i) := target_act a (TgType t) (imp w) in (r, reimp i w)).
  { intros t. unfold sbind, sret. rewrite onImports_imp by auto. cbn [target_act]. unfold sbind, sret.
    destruct (EnsureTypeImported t (imp w)) as [[[s' c]|m] i]; auto. }
  assert (QG : forall s, (do '(t', _) <- onImports f (EnsureAllTypesImported s) ;; sret (ASignaturePtr t')) w =
    let '(r, i) := target_act a (TgSig s) (imp w) in (r, reimp i w)).
  { intros t. unfold sbind, sret. rewrite onImports_imp by auto. cbn [target_act]. unfold sbind, sret.
    destruct (EnsureAllTypesImported t (imp w)) as [[[s' c]|m] i]; auto. }
  unfold sbind at 1, slift.
  destruct a; cbn [arg_target Arg_qualify]; try (rewrite <- ?QS, <- ?QM, <- ?QP, <- ?QT, <- ?QG; auto; fail);
    try (cbn [target_act]; unfold sret; rewrite reimp_id; auto; fail).
  - unfold sbind, get, rd, from_res. destruct (nth_error (consts w) id) as [v|]; cbn [rbind]; [|rewrite reimp_id; auto].
    destruct (ValueSpec_ToSymbol v w); cbn [rbind]; [|rewrite reimp_id; auto]. auto.
  - unfold sbind, get, rd, from_res. destruct (nth_error (vars w) id) as [v|]; cbn [rbind]; [|rewrite reimp_id; auto].
    destruct (ValueSpec_ToSymbol v w); cbn [rbind]; [|rewrite reimp_id; auto]. auto.
  - unfold sbind, get, rd, from_res. destruct (nth_error (types w) id) as [v|]; cbn [rbind]; [|rewrite reimp_id; auto].
    destruct (TypeSpec_ToSymbol v w); cbn [rbind]; [|rewrite reimp_id; auto]. auto.
  - unfold sbind, get, rd at 1, from_res. destruct (nth_error (ielems w) id) as [[c s p|c n s p]|]; cbn [rbind]; try (rewrite reimp_id; auto).
    destruct (InterfaceMethod_ToMethodRef n p w); cbn [rbind]; [|rewrite reimp_id; auto]. auto.
  - unfold sbind, get, rd, from_res. destruct (nth_error (funcs w) id) as [v|]; cbn [rbind]; [|rewrite reimp_id; auto].
    destruct (FuncSpec_ToSymbol v w) as [[s|m]|]; cbn [rbind]; auto. rewrite reimp_id; auto.
  - unfold sbind at 1, slift. destruct (TypeNameForReflectType t); cbn [rbind]; [|rewrite reimp_id; auto]. auto.
  - unfold sbind at 1, slift. destruct (TypeNameForGoType t); cbn [rbind]; [|rewrite reimp_id; auto]. auto.
  - unfold sbind at 1, slift. destruct (SymbolForGoObject o) as [[s|m]|]; cbn [rbind]; auto. rewrite reimp_id; auto.
  - unfold sbind at 1, slift. destruct (PackageForGoType p) as [q|]; cbn [rbind]; [|rewrite reimp_id; auto].
    cbn [target_act]. unfold sbind, sret. rewrite onImports_imp by auto.
    destruct (registerPackage q (imp w)) as [[s'|m] i]; auto.
Qed.

Lemma bind_get {A B} (tab : World -> list A) i (k : A -> WM B) (w : World) :
  (do a <- get tab i ;; k a) w = match nth_error (tab w) i with Some a => k a w | None => (Panic nil_deref, w) end.
Proof. unfold sbind, get. destruct (nth_error (tab w) i); auto. Qed.
Lemma bind_getsk {A B} (tab : World -> list A) i (k : A -> WM B) (w : World) :
  (do a <- getsk tab i ;; k a) w = match nth_error (tab (skel w)) i with Some a => k a w | None => (Panic nil_deref, w) end.
Proof. unfold sbind, getsk. destruct (nth_error (tab (skel w)) i); auto. Qed.
Lemma bind_eq {S A B} (m : ST S A) (k : A -> ST S B) s :
  (do a <- m ;; k a) s = match m s with (Ok a, s') => k a s' | (Panic e, s') => (Panic e, s') end.
Proof. unfold sbind. destruct (m s) as [[x|e] s']; auto. Qed.

(** Places visited, read off the skeleton. *)
Definition plan_line (args : nat) (sk : World) : list loc :=
  match nth_error (argss sk) args with Some l => map (LArg args) (seq 0 (List.length l)) | None => [] end.
Definition plan_code (e : codeElement) (sk : World) : list loc :=
  match e with Line _ args => plan_line args sk | Templ t => [LTempl t] end.
Definition plan_block (cb : nat) (sk : World) : list loc :=
  match nth_error (blocks sk) cb with Some b => flat_map (fun e => plan_code e sk) b | None => [] end.
Definition plan_elem (i : nat) (sk : World) : list loc :=
  match nth_error (ielems sk) i with Some _ => [LElem i] | None => [] end.
Fixpoint plan_type (fuel i : nat) (sk : World) : list loc :=
  match fuel with
  | O => []
  | S fuel' =>
      match nth_error (types sk) i with
      | None => []
      | Some T =>
          [LType i] ++
          flat_map (fun fid =>
            match nth_error (fields sk) fid with
            | None => []
            | Some fs => match FSType fs with
                         | NoType => []
                         | IsName _ => [LField fid]
                         | IsSpec ts => plan_type fuel' ts sk
                         end
            end) (TSStruct T) ++
          flat_map (fun e => plan_elem e sk) (TSInterface T)
      end
  end.
Definition plan_value (tab : World -> list ValueSpec) (L : nat -> loc) (fuel i : nat) (sk : World) : list loc :=
  match nth_error (tab sk) i with
  | None => []
  | Some v =>
      match VSType v with NoType => [] | IsName _ => [L i] | IsSpec ts => plan_type fuel ts sk end ++
      match VInit v with None => [] | Some cb => plan_block cb sk end
  end.
Definition plan_element (fuel : nat) (e : FileElement) (sk : World) : list loc :=
  match e with
  | EConst d => match nth_error (constDecls sk) d with
                | Some D => flat_map (fun i => plan_value consts LConst fuel i sk) (VDSpecs D) | None => [] end
  | EVar d => match nth_error (varDecls sk) d with
              | Some D => flat_map (fun i => plan_value vars LVar fuel i sk) (VDSpecs D) | None => [] end
  | EType d => match nth_error (typeDecls sk) d with
               | Some D => flat_map (fun i => plan_type fuel i sk) (TDTypes D) | None => [] end
  | EFunc i => match nth_error (funcs sk) i with
               | Some F => [LFunc i] ++ plan_block (FNBody F) sk | None => [] end
  end.
Definition plan_file (fuel : nat) (sk : World) : list loc :=
  match nth_error (files sk) f with
  | Some F => flat_map (fun e => plan_element fuel e sk) (FElements F)
  | None => []
  end.

Lemma line_at_eq args i w : J w -> line_qualify_at f args i w = (do _ <- getsk argss args ;; visit (LArg args i)) w.
Proof.
  intros Jw. unfold line_qualify_at, sbind at 1, get, getsk. unfold sbind at 3, skel. cbn [argss].
  rewrite nth_error_map. destruct (nth_error (argss w) args) as [l|] eqn:E; cbn [option_map]; auto.
  unfold visit. cbn [cont]. unfold obind. rewrite E.
  destruct (nth_error l i) as [a|] eqn:Ea; cbn [option_map]; auto.
  unfold sbind at 1. rewrite Arg_qualify_act by auto. cbn [act]. unfold sbind, slift, sret.
  destruct (arg_target w a) as [t|m]; auto.
  destruct (target_act a t (imp w)) as [[a'|m] j] eqn:Et; auto.
  cbn [reimp set_files argss]. rewrite E. unfold put. f_equal. cbn [set_cont]. unfold upd_with.
  cbn [reimp set_files argss]. rewrite E. auto.
Qed.
Lemma good_line_at args i : good (line_qualify_at f args i)
  (fun sk => match nth_error (argss sk) args with Some _ => [LArg args i] | None => [] end).
Proof.
  eapply good_ext; [intros w Jw; apply line_at_eq; auto|].
  apply (good_get argss args (fun _ => visit (LArg args i)) (fun _ _ => [LArg args i])). intros; apply good_visit.
Qed.
Lemma line_eq args w : line_qualify f args w = (do l <- getsk argss args ;; for_each (line_qualify_at f args) (seq 0 (List.length l))) w.
Proof.
  unfold line_qualify, sbind, get, getsk, skel. cbn [argss]. rewrite nth_error_map.
  destruct (nth_error (argss w) args); auto. cbn [option_map]. unfold er_args. rewrite map_length. auto.
Qed.
Lemma good_line args : good (line_qualify f args) (plan_line args).
Proof.
  eapply good_ext; [intros w Jw; apply line_eq|].
  pose proof (good_get argss args (fun l => for_each (line_qualify_at f args) (seq 0 (List.length l))) _
    (fun l => good_for _ _ (seq 0 (List.length l)) (good_line_at args))) as G.
  eapply good_weak; [|exact G]. clear.
  intros sk l. unfold plan_line. destruct (nth_error (argss sk) args) as [x|] eqn:E; [|tauto].
  rewrite in_map_iff, in_flat_map. split.
  - intros (k & <- & IN). exists k. split; auto. left; auto.
  - intros (k & IN & [<-|[]]). exists k. auto.
Qed.
(** The data of a template: what its qualification does depends on the skeleton only. *)
Lemma templ_eq t w : J w -> Pl (LTempl t) ->
  templ_qualify env f t w = match nth_error (tnames w) t with Some _ => visit (LTempl t) w | None => (Panic nil_deref, w) end.
Proof.
  intros Jw PL. unfold templ_qualify. rewrite bind_get. unfold tnames. rewrite nth_error_map.
  destruct (nth_error (templs w) t) as [[tm d]|] eqn:E; cbn [option_map]; auto.
  unfold visit. assert (EC : cont w (LTempl t) = Some (CD d)) by (cbn [cont]; rewrite E; auto).
  rewrite EC. rewrite bind_eq. cbn [act]. rewrite onImports_imp by auto. rewrite bind_eq.
  assert (ET : tq env w d (imp w) = tq env (skel w) d (imp w)).
  { destruct (j_cont _ Jw _ _ PL EC) as [(rs & [AK _] & _)|[_ ST]].
    - apply AK; auto. apply j_inv; auto.
    - rewrite (ST w), (ST (skel w)); auto using j_inv, ext_refl, skel_skel. }
  rewrite ET. destruct (tq env (skel w) d (imp w)) as [[d'|m] i]; auto. unfold sret. cbn [fst snd].
  unfold put. f_equal. cbn [set_cont]. f_equal. unfold upd_with.
  change (templs (reimp i w)) with (templs w). rewrite E. auto.
Qed.
Lemma good_templ t : good (templ_qualify env f t) (fun _ => [LTempl t]).
Proof.
  intros w w1 Jw PL E. assert (P : Pl (LTempl t)) by (apply PL; left; auto).
  rewrite templ_eq in E by auto. destruct (nth_error (tnames w) t) eqn:T; [|discriminate].
  destruct (good_visit (LTempl t) w w1 Jw PL E) as (L & D & U & S). split; auto. split; auto. split; auto.
  intros w2 L2. assert (J w1) by (eapply J_le; eauto). rewrite templ_eq; auto; [|eapply J_le; eauto].
  rewrite (le_tnames _ _ L2), (le_tnames _ _ L), T. auto.
Qed.
Lemma good_code e : good (codeElement_qualify env f e) (plan_code e).
Proof.
  destruct e as [fm args|t]; [apply good_line|].
  apply good_templ.
Qed.
Lemma good_block cb : good (CodeBlock_qualify env f cb) (plan_block cb).
Proof.
  apply (good_get blocks cb (fun b => for_each (codeElement_qualify env f) b) (fun b sk => flat_map (fun e => plan_code e sk) b)).
  intros b. apply good_for. intros e. apply good_code.
Qed.
Lemma elem_eq i w : J w -> InterfaceElement_qualify f i w = (do _ <- getsk ielems i ;; visit (LElem i)) w.
Proof.
  intros Jw. unfold InterfaceElement_qualify, sbind at 1 4, get, getsk, skel. cbn [ielems]. rewrite nth_error_map.
  destruct (nth_error (ielems w) i) as [e|] eqn:E; cbn [option_map]; auto.
  unfold visit. cbn [cont]. rewrite E. cbn [option_map].
  destruct e as [c s p|c n s p]; cbn [elem_content act]; unfold sbind, sret; rewrite onImports_imp by auto.
  - destruct (EnsureImported s (imp w)) as [[s'|m] j]; auto. unfold put. f_equal.
    cbn [set_cont]. unfold upd_with. cbn [reimp set_files ielems]. rewrite E. auto.
  - destruct (EnsureAllTypesImported s (imp w)) as [[[s' b]|m] j]; auto. unfold put. f_equal.
    cbn [set_cont]. unfold upd_with. cbn [reimp set_files ielems]. rewrite E. auto.
Qed.
Lemma good_elem i : good (InterfaceElement_qualify f i) (plan_elem i).
Proof.
  eapply good_ext; [intros w Jw; apply elem_eq; auto|].
  apply (good_get ielems i (fun _ => visit (LElem i)) (fun _ _ => [LElem i])). intros; apply good_visit.
Qed.
(** The loop body of [TypeSpec_qualify]. *)
Definition field_step (fuel fid : nat) : WM (TD := TD) unit :=
  do fs <- get fields fid ;;
  match FSType fs with
  | NoType => sret tt
  | IsName t =>
      do '(t', _) <- onImports f (EnsureTypeImported t) ;;
      put fields set_fields fid (mkFieldSpec (FSComment fs) (FSName fs) (FSTag fs) (IsName t') (FSParent fs))
  | IsSpec ts => TypeSpec_qualify fuel f ts
  end.
Lemma field_eq fuel fid w : J w -> field_step fuel fid w = (do fs <- getsk fields fid ;;
  match FSType fs with NoType => sret tt | IsName _ => visit (LField fid) | IsSpec ts => TypeSpec_qualify fuel f ts end) w.
Proof.
  intros Jw. unfold field_step, sbind at 1 3, get, getsk, skel. cbn [fields]. rewrite nth_error_map.
  destruct (nth_error (fields w) fid) as [v|] eqn:E; cbn [option_map]; auto.
  cbn [er_field with_ftype FSType]. destruct (FSType v) eqn:T; cbn [er_tos]; auto.
  unfold visit. cbn [cont]. unfold obind. rewrite E. rewrite T. cbn [tos_content act]. unfold sbind, sret.
  rewrite onImports_imp by auto. destruct (EnsureTypeImported t (imp w)) as [[[s' b]|m] j]; auto. unfold put. f_equal.
  cbn [set_cont]. unfold upd_with. cbn [reimp set_files fields]. rewrite E. auto.
Qed.
Lemma type_eq fuel i w : J w -> TypeSpec_qualify (S fuel) f i w = (do T <- getsk types i ;; do _ <- visit (LType i) ;;
  do _ <- for_each (field_step fuel) (TSStruct T) ;; for_each (InterfaceElement_qualify f) (TSInterface T)) w.
Proof.
  intros Jw. cbn [TypeSpec_qualify]. rewrite bind_get, bind_getsk. unfold skel; cbn [types]. rewrite nth_error_map.
  destruct (nth_error (types w) i) as [T|] eqn:E; cbn [option_map]; auto.
  rewrite (bind_eq (visit (LType i))). unfold visit. cbn [cont]. rewrite E. cbn [option_map act].
  rewrite bind_eq, onImports_imp by auto. rewrite (bind_eq (EnsureTypeImported _)).
  destruct (EnsureTypeImported (TSUnderlying T) (imp w)) as [[[u b]|m] j]; auto. unfold sret at 1.
  rewrite bind_eq. unfold put. cbn [set_cont er_type with_under TSStruct TSInterface]. unfold upd_with.
  cbn [reimp set_files types]. rewrite E. auto.
Qed.
Lemma good_type fuel : forall i, good (TypeSpec_qualify fuel f i) (plan_type fuel i).
Proof.
  induction fuel as [|fuel IH]; intros i.
  { intros w w1 Jw _ E. discriminate. }
  cbn [plan_type].
  assert (GF : forall fid, good (field_step fuel fid) (fun sk =>
            match nth_error (fields sk) fid with
            | None => []
            | Some fs => match FSType fs with
                         | NoType => []
                         | IsName _ => [LField fid]
                         | IsSpec ts => plan_type fuel ts sk
                         end
            end)).
  { intros fid. eapply good_ext; [intros w Jw; apply field_eq; auto|].
    apply (good_get fields fid (fun fs => match FSType fs with NoType => sret tt | IsName _ => visit (LField fid) | IsSpec ts => TypeSpec_qualify fuel f ts end)
                (fun fs sk => match FSType fs with NoType => [] | IsName _ => [LField fid] | IsSpec ts => plan_type fuel ts sk end)).
    intros fs. destruct (FSType fs); [apply good_ret|apply good_visit|apply IH]. }
  eapply good_ext; [intros w Jw; apply type_eq; auto|].
  apply (good_get types i (fun T => do _ <- visit (LType i) ;; do _ <- for_each (field_step fuel) (TSStruct T) ;; for_each (InterfaceElement_qualify f) (TSInterface T))
        (fun T sk => [LType i] ++
          flat_map (fun fid =>
            match nth_error (fields sk) fid with
            | None => []
            | Some fs => match FSType fs with
                         | NoType => []
                         | IsName _ => [LField fid]
                         | IsSpec ts => plan_type fuel ts sk
                         end
            end) (TSStruct T) ++
          flat_map (fun e => plan_elem e sk) (TSInterface T))).
      intros T. apply (good_seq _ _ (fun _ => [LType i])); [apply good_visit|].
      apply good_seq; apply good_for; auto. intros e; apply good_elem.
Qed.
Section Value.
Variables (tab : World -> list ValueSpec) (set : list ValueSpec -> World -> World) (L : nat -> loc).
Hypothesis TS : forall w, tab (skel w) = map er_value (tab w).
Hypothesis CO : forall i w, cont w (L i) = obind (nth_error (tab w) i) (fun v => tos_content (VSType v)).
Hypothesis SC : forall i w t, set_cont (L i) (CT t) w = set (upd_with i (fun v => with_vtype v (IsName t)) (tab w)) w.
Hypothesis RE : forall j w, tab (reimp j w) = tab w.
Lemma value_eq fuel i w : J w -> qualify_value env tab set fuel f i w = (do v <- getsk tab i ;;
    do _ <- match VSType v with NoType => sret tt | IsName _ => visit (L i) | IsSpec ts => TypeSpec_qualify fuel f ts end ;;
    match VInit v with None => sret tt | Some cb => CodeBlock_qualify env f cb end) w.
Proof.
  intros Jw. unfold qualify_value. rewrite bind_get, bind_getsk. rewrite TS, nth_error_map.
  destruct (nth_error (tab w) i) as [v|] eqn:E; cbn [option_map]; auto.
  cbn [er_value with_vtype VSType VInit]. destruct (VSType v) eqn:T; cbn [er_tos]; auto.
  rewrite bind_eq. rewrite (bind_eq (visit (L i))). unfold visit. rewrite CO. unfold obind. rewrite E, T. cbn [tos_content act].
  rewrite bind_eq, onImports_imp by auto. rewrite (bind_eq (EnsureTypeImported _)).
  destruct (EnsureTypeImported t (imp w)) as [[[u b]|m] j]; auto. unfold sret.
  unfold put. cbn [fst snd]. rewrite SC. unfold upd_with. rewrite RE, E. auto.
Qed.
Lemma good_value fuel i : good (qualify_value env tab set fuel f i) (plan_value tab L fuel i).
Proof.
  eapply good_ext; [intros w Jw; apply value_eq; auto|].
  apply (good_get tab i (fun v => do _ <- match VSType v with NoType => sret tt | IsName _ => visit (L i) | IsSpec ts => TypeSpec_qualify fuel f ts end ;;
              match VInit v with None => sret tt | Some cb => CodeBlock_qualify env f cb end)
        (fun v sk => match VSType v with NoType => [] | IsName _ => [L i] | IsSpec ts => plan_type fuel ts sk end ++
                     match VInit v with None => [] | Some cb => plan_block cb sk end)).
      intros v.
      apply (good_seq _ _ (fun sk => match VSType v with NoType => [] | IsName _ => [L i] | IsSpec ts => plan_type fuel ts sk end)
               (fun sk => match VInit v with None => [] | Some cb => plan_block cb sk end)).
      - destruct (VSType v); [apply good_ret|apply good_visit|apply good_type].
      - destruct (VInit v); [apply good_block|apply good_ret].
Qed.
End Value.
Lemma func_eq fuel i w : J w -> FileElement_qualify env fuel f (EFunc i) w =
  (do F <- getsk funcs i ;; do _ <- visit (LFunc i) ;; CodeBlock_qualify env f (FNBody F)) w.
Proof.
  intros Jw. cbn [FileElement_qualify]. rewrite bind_get, bind_getsk. unfold skel; cbn [funcs]. rewrite nth_error_map.
  destruct (nth_error (funcs w) i) as [F|] eqn:E; cbn [option_map]; auto.
  rewrite (bind_eq (visit (LFunc i))). unfold visit. cbn [cont]. rewrite E. cbn [option_map act].
  rewrite bind_eq, onImports_imp by auto. rewrite (bind_eq (EnsureAllTypesImported _)).
  destruct (EnsureAllTypesImported (FNSig F) (imp w)) as [[[u b]|m] j]; auto. unfold sret at 1.
  rewrite bind_eq. unfold put. cbn [set_cont er_func with_sig FNBody]. unfold upd_with.
  cbn [reimp set_files funcs]. rewrite E. auto.
Qed.
Lemma file_eq fuel w : qualify_file env fuel f w =
  (do F <- getsk files f ;; for_each (FileElement_qualify env fuel f) (FElements F)) w.
Proof.
  unfold qualify_file, sbind, get, getsk, skel. cbn [files]. rewrite nth_error_map.
  destruct (nth_error (files w) f); auto.
Qed.
Lemma good_element fuel e : good (FileElement_qualify env fuel f e) (plan_element fuel e).
Proof.
  destruct e as [d|d|d|i]; cbn [FileElement_qualify plan_element].
  - apply (good_get constDecls d (fun D => for_each (qualify_value env consts set_consts fuel f) (VDSpecs D))
            (fun D sk => flat_map (fun i => plan_value consts LConst fuel i sk) (VDSpecs D))).
    intros D. apply good_for. intros i. apply good_value; auto.
  - apply (good_get varDecls d (fun D => for_each (qualify_value env vars set_vars fuel f) (VDSpecs D))
            (fun D sk => flat_map (fun i => plan_value vars LVar fuel i sk) (VDSpecs D))).
    intros D. apply good_for. intros i. apply good_value; auto.
  - apply (good_get typeDecls d (fun D => for_each (TypeSpec_qualify fuel f) (TDTypes D))
            (fun D sk => flat_map (fun i => plan_type fuel i sk) (TDTypes D))).
    intros D. apply good_for. intros i. apply good_type; auto.
  - eapply good_ext; [intros w Jw; apply (func_eq fuel); auto|].
    apply (good_get funcs i (fun F => do _ <- visit (LFunc i) ;; CodeBlock_qualify env f (FNBody F))
             (fun F sk => [LFunc i] ++ plan_block (FNBody F) sk)).
    intros F. apply (good_seq _ _ (fun _ => [LFunc i])); [apply good_visit|apply good_block].
Qed.
Theorem good_file fuel : good (qualify_file env fuel f) (plan_file fuel).
Proof.
  eapply good_ext; [intros w Jw; apply file_eq; auto|].
  apply (good_get files f (fun F => for_each (FileElement_qualify env fuel f) (FElements F))
           (fun F sk => flat_map (fun e => plan_element fuel e sk) (FElements F))).
  intros F. apply good_for. intros e. apply good_element.
Qed.
End Q.
