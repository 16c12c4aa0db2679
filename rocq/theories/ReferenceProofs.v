(** Names never change, and what references denote. *)
From Verif Require Import Base BaseFacts GoPath Types SpecTypes Imports SpecImports ImportsProofs ImportsTheorems Conv World WorldProofs SpecGo SpecRender SpecCalls SpecWorld
  SpecQualify ProgramFrame SpecProgram ProgramCalls ProgramProofs SpecMembers MemberFrame MemberCalls MemberProofs MemberTheorems MemberOwners SpecReferences.

Section Names.
Context {TD : Type}.
Notation World := (World TD).
Notation WM := (WM (TD := TD)).
Variable env : Env TD.

(** ** Names are kept *)
Definition facts := list (named_thing * called_as).
Definition known (w : World) (P : facts) : Prop := forall k c, In (k, c) P -> called w k = Some c.
Definition same_names (w w' : World) : Prop := forall k c, called w k = Some c -> called w' k = Some c.
Definition names (P : facts) {A} (m : WM A) : Prop := forall w, known w P -> same_names w (snd (m w)).
Lemma same_refl w : same_names w w. Proof. intros k c H. exact H. Qed.
Lemma names_bind P {A B} (m : WM A) (k : A -> WM B) : names P m -> (forall a, names P (k a)) -> names P (do a <- m ;; k a).
Proof.
  intros H K w O. pose proof (H w O) as H'. unfold sbind. destruct (m w) as [[a|e] w1]; cbn [snd] in *; auto.
  intros j c E. apply (K a w1); auto. intros j' c' I. auto.
Qed.
Lemma names_still P {A} (m : WM A) : (forall w, consts (snd (m w)) = consts w /\ vars (snd (m w)) = vars w /\ types (snd (m w)) = types w /\
  funcs (snd (m w)) = funcs w /\ World.fields (snd (m w)) = World.fields w /\ ielems (snd (m w)) = ielems w) -> names P m.
Proof. intros H w _ k c. destruct (H w) as (E1 & E2 & E3 & E4 & E5 & E6). destruct k; cbn; rewrite ?E1, ?E2, ?E3, ?E4, ?E5, ?E6; auto. Qed.
Ltac still := apply names_still; intros ?w; repeat split; reflexivity.
Lemma names_ret P {A} (a : A) : names P (sret a). Proof. still. Qed.
Lemma names_panic P {A} e : names P (spanic e : WM A). Proof. still. Qed.
Lemma names_lift P {A} (r : res A) : names P (slift r : WM A). Proof. still. Qed.
Lemma names_from P {A} (r : World -> res A) : names P (from_res r). Proof. still. Qed.
Lemma names_get P {A} (tab : World -> list A) i : names P (get tab i).
Proof. apply names_still. intros w. unfold get. destruct (nth_error (tab w) i); repeat split. Qed.
Lemma names_each P {A} (g : A -> WM unit) l : (forall a, names P (g a)) -> names P (for_each g l).
Proof. intros H. induction l; cbn [for_each]; [apply names_ret|apply names_bind; auto]. Qed.
Lemma names_map P {A B} (g : A -> WM B) l : (forall a, names P (g a)) -> names P (map_m g l).
Proof. intros H. induction l; cbn [map_m]; [apply names_ret|]. apply names_bind; auto. intros b. apply names_bind; auto. intros s. apply names_ret. Qed.
Lemma names_imports P {A} f (m : IM A) : names P (onImports f m).
Proof. apply names_still. intros w. unfold onImports. destruct (nth_error (files w) f) as [F|]; [|repeat split]. destruct (m (FImports F)); repeat split. Qed.
Lemma names_tq P f d : names P (fun w => onImports f (tq env w d) w).
Proof. intros w K. exact (names_imports P f (tq env w d) w K). Qed.
Lemma names_state P {A B} (r : World -> res A) (g : A -> B) : names P (fun w => match r w with Panic m => (Panic m, w) | Ok a => (Ok (g a), w) end).
Proof. apply names_still. intros w. destruct (r w); repeat split. Qed.

(** one table *)
Section Table.
Context {X : Type} (tab : World -> list X) (set : list X -> World -> World) (K : nat -> named_thing) (lab : X -> called_as).
Hypothesis called_tab : forall w i, called w (K i) = option_map lab (nth_error (tab w) i).
Hypothesis called_set : forall w l i, called (set l w) (K i) = option_map lab (nth_error l i).
Hypothesis other_set : forall w l k, (forall i, k <> K i) -> called (set l w) k = called w k.
Hypothesis K_dec : forall k, (exists i, k = K i) \/ forall i, k <> K i.
Lemma tab_get P {B} i (k : X -> WM B) : (forall x, names ((K i, lab x) :: P) (k x)) -> names P (do x <- get tab i ;; k x).
Proof.
  intros H w O. unfold sbind, get. destruct (nth_error (tab w) i) as [x|] eqn:E; [|apply same_refl].
  apply H. intros j c [J|J]; auto. injection J as <- <-. rewrite called_tab, E. reflexivity.
Qed.
Lemma tab_put P i x : In (K i, lab x) P -> names P (put tab set i x).
Proof.
  intros M w O k c E. cbn [put snd]. destruct (K_dec k) as [[j ->]|N]; [|rewrite other_set; auto].
  rewrite called_set. rewrite called_tab in E. destruct (Nat.eq_dec i j) as [->|NE]; [|rewrite nth_upd_other; auto].
  rewrite nth_upd_same by (apply nth_error_Some; destruct (nth_error (tab w) j); discriminate).
  pose proof (O _ _ M) as L. rewrite called_tab in L. cbn. congruence.
Qed.
Lemma tab_alloc P {B} x (k : nat -> WM B) : (forall i, names ((K i, lab x) :: P) (k i)) -> names P (do i <- alloc tab set x ;; k i).
Proof.
  intros H w O k' c E. unfold sbind, alloc.
  assert (G : same_names w (set (tab w ++ [x]) w)).
  { intros j c' E'. destruct (K_dec j) as [[j' ->]|N]; [|rewrite other_set; auto]. rewrite called_set. rewrite called_tab in E'.
    rewrite nth_error_app1; auto. apply nth_error_Some. destruct (nth_error (tab w) j'); discriminate. }
  apply H; [|auto]. intros j c' [J|J]; [|auto]. injection J as <- <-.
  rewrite called_set, nth_error_app2, Nat.sub_diag by auto. reflexivity.
Qed.
Lemma tab_new P x : names P (alloc tab set x).
Proof.
  intros w O. pose proof (tab_alloc P x (fun i => sret i) (fun i => names_ret _ i) w O) as H. exact H.
Qed.
End Table.
Ltac dec := intros []; try (left; eexists; reflexivity); right; intros ? ?; discriminate.
Ltac side := first [reflexivity|intros; reflexivity|intros w l [] H; try reflexivity; exfalso; eapply H; reflexivity|dec].
Definition lab_value (v : ValueSpec) := Values (VNames v).
Definition lab_type (T : TypeSpec) := OneType (TSName T).
Definition lab_func (f : FuncSpec) := OneFunc (FNReceiver f) (FNName f).
Definition lab_field (x : FieldSpec) := OneField (FSName x).
Definition lab_elem (e : InterfaceElement) := match e with InterfaceEmbed _ _ _ => Embedded | InterfaceMethod _ n _ _ => OneMethod n end.
Lemma get_const P {B} i (k : ValueSpec -> WM B) : (forall x, names ((NConst i, lab_value x) :: P) (k x)) -> names P (do x <- get consts i ;; k x).
Proof. apply tab_get; side. Qed.
Lemma get_var P {B} i (k : ValueSpec -> WM B) : (forall x, names ((NVar i, lab_value x) :: P) (k x)) -> names P (do x <- get vars i ;; k x).
Proof. apply tab_get; side. Qed.
Lemma get_type P {B} i (k : TypeSpec -> WM B) : (forall x, names ((NType i, lab_type x) :: P) (k x)) -> names P (do x <- get types i ;; k x).
Proof. apply tab_get; side. Qed.
Lemma get_func P {B} i (k : FuncSpec -> WM B) : (forall x, names ((NFunc i, lab_func x) :: P) (k x)) -> names P (do x <- get funcs i ;; k x).
Proof. apply tab_get; side. Qed.
Lemma get_field P {B} i (k : FieldSpec -> WM B) : (forall x, names ((NField i, lab_field x) :: P) (k x)) -> names P (do x <- get World.fields i ;; k x).
Proof. apply tab_get; side. Qed.
Lemma get_elem P {B} i (k : InterfaceElement -> WM B) : (forall x, names ((NElem i, lab_elem x) :: P) (k x)) -> names P (do x <- get ielems i ;; k x).
Proof. apply tab_get; side. Qed.
Lemma put_const P i x : In (NConst i, lab_value x) P -> names P (put consts set_consts i x).
Proof. apply tab_put; side. Qed.
Lemma put_var P i x : In (NVar i, lab_value x) P -> names P (put vars set_vars i x).
Proof. apply tab_put; side. Qed.
Lemma put_type P i x : In (NType i, lab_type x) P -> names P (put types set_types i x).
Proof. apply tab_put; side. Qed.
Lemma put_func P i x : In (NFunc i, lab_func x) P -> names P (put funcs set_funcs i x).
Proof. apply tab_put; side. Qed.
Lemma put_field P i x : In (NField i, lab_field x) P -> names P (put World.fields set_fields i x).
Proof. apply tab_put; side. Qed.
Lemma put_elem P i x : In (NElem i, lab_elem x) P -> names P (put ielems set_ielems i x).
Proof. apply tab_put; side. Qed.
Lemma new_const P x : names P (alloc consts set_consts x). Proof. apply tab_new with (K := NConst) (lab := lab_value); side. Qed.
Lemma new_var P x : names P (alloc vars set_vars x). Proof. apply tab_new with (K := NVar) (lab := lab_value); side. Qed.
Lemma new_type P x : names P (alloc types set_types x). Proof. apply tab_new with (K := NType) (lab := lab_type); side. Qed.
Lemma new_func P x : names P (alloc funcs set_funcs x). Proof. apply tab_new with (K := NFunc) (lab := lab_func); side. Qed.
Lemma new_field P x : names P (alloc World.fields set_fields x). Proof. apply tab_new with (K := NField) (lab := lab_field); side. Qed.
Lemma new_elem P x : names P (alloc ielems set_ielems x). Proof. apply tab_new with (K := NElem) (lab := lab_elem); side. Qed.
Lemma alloc_type P {B} x (k : nat -> WM B) : (forall i, names ((NType i, lab_type x) :: P) (k i)) -> names P (do i <- alloc types set_types x ;; k i).
Proof. apply tab_alloc; side. Qed.

Ltac inside := cbn [lab_value lab_type lab_func lab_field lab_elem VNames TSName FNName FNReceiver FSName]; repeat first [left; reflexivity|right].
Ltac nm := repeat first
  [ match goal with |- forall _, _ => intro end
  | match goal with
    | |- names _ (sret _) => apply names_ret
    | |- names _ (spanic _) => apply names_panic
    | |- names _ (slift _) => apply names_lift
    | |- names _ (from_res _) => apply names_from
    | |- names _ (put consts _ _ _) => apply put_const; inside
    | |- names _ (put vars _ _ _) => apply put_var; inside
    | |- names _ (put types _ _ _) => apply put_type; inside
    | |- names _ (put funcs _ _ _) => apply put_func; inside
    | |- names _ (put World.fields _ _ _) => apply put_field; inside
    | |- names _ (put ielems _ _ _) => apply put_elem; try match goal with |- In (_, lab_elem (match ?x with _ => _ end)) _ => destruct x end; inside
    | |- names _ (put _ _ _ _) => still
    | |- names _ (alloc consts _ _) => apply new_const
    | |- names _ (alloc vars _ _) => apply new_var
    | |- names _ (alloc types _ _) => apply new_type
    | |- names _ (alloc funcs _ _) => apply new_func
    | |- names _ (alloc World.fields _ _) => apply new_field
    | |- names _ (alloc ielems _ _) => apply new_elem
    | |- names _ (alloc _ _ _) => still
    | |- names _ (onImports _ _) => apply names_imports
    | |- names _ (fun w => onImports _ (tq _ w _) w) => apply names_tq
    | |- names _ (get _ _) => apply names_get
    | |- names _ (for_each _ _) => apply names_each
    | |- names _ (map_m _ _) => apply names_map
    | |- names _ (sbind (get consts _) _) => apply get_const
    | |- names _ (sbind (get vars _) _) => apply get_var
    | |- names _ (sbind (get types _) _) => apply get_type
    | |- names _ (sbind (get funcs _) _) => apply get_func
    | |- names _ (sbind (get World.fields _) _) => apply get_field
    | |- names _ (sbind (get ielems _) _) => apply get_elem
    | |- names _ (sbind (alloc types _ _) _) => apply alloc_type
    | |- names _ (sbind _ _) => apply names_bind
    | |- names _ (match ?x with _ => _ end) => destruct x
    end ].
Section One.
Variable f : nat.
Lemma names_arg P a : names P (Arg_qualify f a).
Proof. destruct a; cbn [Arg_qualify]; unfold qualify_method, qualify_sym_arg, qualify_package; nm. Qed.
Lemma names_block P cb : names P (CodeBlock_qualify env f cb).
Proof.
  unfold CodeBlock_qualify, codeElement_qualify, line_qualify, line_qualify_at, templ_qualify. repeat first [apply names_arg|progress nm].
Qed.
Lemma names_elem P id : names P (InterfaceElement_qualify f id).
Proof. unfold InterfaceElement_qualify. nm. Qed.
Lemma names_typespec fuel : forall P id, names P (TypeSpec_qualify fuel f id).
Proof. induction fuel as [|fuel IH]; intros P id; cbn [TypeSpec_qualify]; repeat first [apply IH|apply names_elem|progress nm]. Qed.
Lemma names_element P fuel e : names P (FileElement_qualify env fuel f e).
Proof. destruct e; cbn [FileElement_qualify]; unfold qualify_value; repeat first [apply names_typespec|apply names_block|progress nm]. Qed.
Lemma names_source P fuel : names P (source env fuel f).
Proof. unfold source, qualify_file. repeat first [apply names_element|progress nm]. Qed.
End One.
Lemma names_code P cb s a : names P (CodeBlock_Printf (TD := TD) cb s a).
Proof. unfold CodeBlock_Printf. nm. Qed.
Ltac code := unfold Print, Println, Printf, Printlnf, RenderCode, Func_Print, Func_Println, Func_Printf, Func_Printlnf, Func_RenderCode, Func_AddCode,
  make_args, set_arg, CodeBlock_PrintfSlice, CodeBlock_Print, CodeBlock_Println, CodeBlock_Printlnf, CodeBlock_RenderCode, CodeBlock_AddCode, NewCodeBlock, CodeBlock_Printf; nm.
Lemma names_type P n t : names P (NewTypeSpec (TD := TD) n t).
Proof.
  destruct t as [|t|id]; cbn [NewTypeSpec]; [nm|nm|]. apply get_type. intros T w K.
  destruct (TypeSpec_ToTypeName T w); [|apply same_refl]. apply new_type with (P := P). intros k c I. apply K. right. exact I.
Qed.
Lemma names_struct P n l : names P (NewStructTypeSpec (TD := TD) n l).
Proof.
  unfold NewStructTypeSpec, Field_setParent. nm. match goal with |- names _ (fun w => match TypeSpec_ToTypeName ?T w with _ => _ end) => apply (names_state _ (TypeSpec_ToTypeName T)) end.
Qed.
Lemma names_interface P n l : names P (NewInterfaceTypeSpec (TD := TD) n l).
Proof. unfold NewInterfaceTypeSpec, Elem_setParent. nm. Qed.
Lemma names_call c w : same_names w (snd (do_call env c w)).
Proof.
  assert (H : forall A (m : WM A), names [] m -> same_names w (snd (m w))) by (intros A m N; apply N; intros k x []).
  destruct c; cbn [do_call]; unfold ended; cbn [snd];
  try (match goal with |- same_names w (snd (?m w)) => apply (H _ m) end).
  all: try apply names_source; try apply names_type; try apply names_struct; try apply names_interface.
  all: try (code; fail).
  all: unfold NewGoFile, NewConst, NewVar, NewField, NewInterfaceEmbed, NewInterfaceMethod, NewFunc, NewMethod, NewConstDecl, NewVarDecl, NewTypeDecl;
    try (code; fail).
  - unfold NewTypeAlias. repeat first [apply names_type|progress nm].
  - destruct s as [id c|id c|id c|id c|id c|id c|d c|d c|d c|f a c]; try destruct c; try destruct a; cbn [SpecCalls.perform];
    unfold Value_SetComment, Value_SetType, Value_SetInitializer, Field_SetComment, Field_SetTag, Elem_SetComment, Method_AddArg, Method_AddResult,
      Method_SetVariadic, Method_onSignature, Func_SetComment, Func_AddArg, Func_AddResult, Func_SetVariadic, Func_onSignature, Type_SetComment,
      ConstDecl_SetComment, ConstDecl_AddConst, VarDecl_SetComment, VarDecl_AddVar, TypeDecl_SetComment, TypeDecl_AddType,
      SetFileComment, SetPackageComment, SetCanonical; nm.
  - unfold Value_Initialize, Value_SetInitializer. code.
  - unfold Value_Initialize, Value_SetInitializer. code.
  - destruct b; cbn [SpecWorld.perform snd]; match goal with |- same_names w (snd (?m w)) => apply (H _ m) end; code.
  - destruct a; cbn [add]; unfold AddConst, AddVar, AddType, AddElement, World.setParent, Value_setParent, Type_setParent, Func_setParent,
      NewConstDecl, NewVarDecl, NewTypeDecl; nm.
Qed.
Lemma names_history p : forall w, same_names w (after env p w).
Proof.
  induction p as [|c p IH]; intros w; [apply same_refl|]. intros k l E. rewrite after_cons. apply IH, names_call, E.
Qed.

(** ** What references denote *)
Section Denote.
Variable p : list (api_call TD).
Hypothesis tqs : imports_by_calls env.
Hypothesis ret : additions_return env p empty_world.
Let W := after env p empty_world.
Lemma file_package_made f : answer (file_package f W) =
  obind (nth_error (made env p empty_world) f) (fun '(_, path, package) => Some (mkPackage path package)).
Proof.
  rewrite <- (program_files env p tqs). unfold file_package, rd. rewrite nth_error_map. fold W.
  destruct (nth_error (files W) f) as [F|]; reflexivity.
Qed.
Lemma file_of_home k : file_of W k = last_file env k p empty_world None.
Proof. unfold W. rewrite (history_file env p empty_world k ret). f_equal. destruct k as [[|]|[|]|[|]|[|]]; reflexivity. Qed.
Lemma package_home k f : file_of W k = Some f -> answer (file_package f W) = home env p k.
Proof. intros E. unfold home. rewrite <- file_of_home, E. apply file_package_made. Qed.
Lemma no_home k : file_of W k = None -> home env p k = None.
Proof. intros E. unfold home. rewrite <- file_of_home, E. reflexivity. Qed.
Lemma value_denotes k v i : file_of W k = VParent v -> answer (ValueSpec_SymbolAt v (Z.of_nat i) W) =
  obind (home env p k) (fun P => option_map (mkSymbol P) (nth_error (VNames v) i)).
Proof.
  intros E. unfold ValueSpec_SymbolAt. replace (Z.of_nat i <? 0)%Z with false by (symmetry; apply Z.ltb_ge, Zle_0_nat). rewrite Nat2Z.id.
  destruct (VParent v) as [f|] eqn:V.
  - rewrite <- (package_home k f E). destruct (nth_error (VNames v) i) as [n|]; [|destruct (file_package f W); reflexivity].
    destruct (file_package f W); reflexivity.
  - rewrite (no_home k E). destruct (nth_error (VNames v) i); reflexivity.
Qed.
Lemma value_denotes_any k v i : file_of W k = VParent v -> answer (ValueSpec_SymbolAt v i W) =
  obind (home env p k) (fun P => option_map (mkSymbol P) (nth_name (VNames v) i)).
Proof.
  intros E. unfold nth_name. destruct i as [|q|q]; [exact (value_denotes k v 0 E)| |destruct (home env p k); reflexivity].
  pose proof (value_denotes k v (Pos.to_nat q) E) as H. rewrite positive_nat_Z in H. exact H.
Qed.
Lemma value_denotes_one k v : file_of W k = VParent v -> answer (ValueSpec_ToSymbol v W) =
  match VNames v with [n] => option_map (fun P => mkSymbol P n) (home env p k) | _ => None end.
Proof.
  intros E. unfold ValueSpec_ToSymbol. destruct (VNames v) as [|n [|m l]] eqn:N; [reflexivity| |reflexivity].
  cbn [List.length Nat.eqb negb]. rewrite (value_denotes_any k v 0%Z E), N. cbn. destruct (home env p k); reflexivity.
Qed.
Lemma const_denotes id v i : nth_error (consts W) id = Some v -> answer (ValueSpec_SymbolAt v i W) =
  obind (home env p (AConstSpec id)) (fun P => option_map (mkSymbol P) (nth_name (VNames v) i)).
Proof. intros E. apply value_denotes_any. cbn. rewrite E. reflexivity. Qed.
Lemma const_denotes_one id v : nth_error (consts W) id = Some v -> answer (ValueSpec_ToSymbol v W) =
  match VNames v with [n] => option_map (fun P => mkSymbol P n) (home env p (AConstSpec id)) | _ => None end.
Proof. intros E. apply value_denotes_one. cbn. rewrite E. reflexivity. Qed.
Lemma var_denotes id v i : nth_error (vars W) id = Some v -> answer (ValueSpec_SymbolAt v i W) =
  obind (home env p (AVarSpec id)) (fun P => option_map (mkSymbol P) (nth_name (VNames v) i)).
Proof. intros E. apply value_denotes_any. cbn. rewrite E. reflexivity. Qed.
Lemma var_denotes_one id v : nth_error (vars W) id = Some v -> answer (ValueSpec_ToSymbol v W) =
  match VNames v with [n] => option_map (fun P => mkSymbol P n) (home env p (AVarSpec id)) | _ => None end.
Proof. intros E. apply value_denotes_one. cbn. rewrite E. reflexivity. Qed.
Lemma type_denoted id T : nth_error (types W) id = Some T -> answer (TypeSpec_ToSymbol T W) = type_denotes env p id.
Proof.
  intros E. unfold type_denotes, called, TypeSpec_ToSymbol. fold W. rewrite E. cbn [option_map]. destruct (String.eqb (TSName T) ""); [reflexivity|].
  assert (F : file_of W (ATypSpec id) = TSParent T) by (cbn; rewrite E; reflexivity). destruct (TSParent T) as [f|].
  - rewrite <- (package_home _ f F). destruct (file_package f W); reflexivity.
  - rewrite (no_home _ F). reflexivity.
Qed.
Lemma func_denotes id F : nth_error (funcs W) id = Some F -> answer (FuncSpec_ToSymbol F W) =
  option_map (fun P => match FNReceiver F with
                       | None => SomSymbol (mkSymbol P (FNName F))
                       | Some r => SomMethod (mkMethodRef (mkSymbol P (RcvType r)) (FNName F))
                       end) (home env p (AFuncSpec id)).
Proof.
  intros E. unfold FuncSpec_ToSymbol. assert (H : file_of W (AFuncSpec id) = FNParent F) by (cbn; rewrite E; reflexivity).
  destruct (FNParent F) as [f|].
  - rewrite <- (package_home _ f H). destruct (file_package f W); [|reflexivity]. destruct (FNReceiver F); reflexivity.
  - rewrite (no_home _ H). reflexivity.
Qed.
End Denote.
Lemma after_app p q (w : World) : after env (p ++ q) w = after env q (after env p w).
Proof. unfold after. apply fold_left_app. Qed.
Lemma elem_kind w w' id c n s t : same_names w w' -> nth_error (ielems w) id = Some (InterfaceMethod c n s t) ->
  exists c' s' t', nth_error (ielems w') id = Some (InterfaceMethod c' n s' t').
Proof.
  intros S E. pose proof (S (NElem id) (OneMethod n)) as H. cbn in H. rewrite E in H. specialize (H eq_refl).
  destruct (nth_error (ielems w') id) as [[c' s'|c' n' s' t']|]; [discriminate| |discriminate]. injection H as ->. eauto.
Qed.
Lemma method_denotes p q id c n s t : imports_by_calls env -> additions_return env (p ++ q) empty_world ->
  let w := after env p empty_world in
  let W := after env (p ++ q) empty_world in
  nth_error (ielems w) id = Some (InterfaceMethod c n s t) -> makings_return env q w ->
  exists c' s' t', nth_error (ielems W) id = Some (InterfaceMethod c' n s' t') /\
    answer (InterfaceMethod_ToMethodRef n t' W) =
    obind (last_spec env (MElem id) q w t) (fun k => option_map (fun S => mkMethodRef S n) (type_denotes env (p ++ q) k)).
Proof.
  intros T R w W E M. destruct (elem_kind w W id c n s t) as (c' & s' & t' & E'); auto.
  { unfold W. rewrite after_app. apply names_history. }
  exists c', s', t'. split; auto.
  assert (O : spec_of W (MElem id) = last_spec env (MElem id) q w t).
  { unfold W. rewrite after_app. fold w. rewrite owner_history; auto; [|cbn; apply nth_error_Some; congruence]. f_equal. cbn. rewrite E. reflexivity. }
  cbn in O. rewrite E' in O. cbn in O. rewrite <- O. unfold InterfaceMethod_ToMethodRef. destruct t' as [k|]; [|reflexivity]. cbn [obind].
  unfold rd. destruct (nth_error (types W) k) as [K|] eqn:EK.
  - cbn [rbind]. rewrite <- (type_denoted (p ++ q) T R k K EK). fold W. destruct (TypeSpec_ToSymbol K W); reflexivity.
  - unfold type_denotes, called. fold W. rewrite EK. reflexivity.
Qed.
End Names.
