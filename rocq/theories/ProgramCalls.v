(** The frame of every call. *)
From Verif Require Import Base GoPath Types SpecTypes Imports SpecImports Conv World WorldProofs SpecGo SpecRender SpecCalls SpecWorld
  SpecProgram ProgramFrame.

Section Calls.
Context {TD : Type}.
Variable env : Env TD.
Notation World := (World TD).
Notation WM := (WM (TD := TD)).
Variable R : nat -> Imports -> Imports -> Prop.
Hypothesis Rrefl : forall f i, R f i i.
Hypothesis Rtrans : forall f i j k, R f i j -> R f j k -> R f i k.
Notation framed := (framed (TD := TD) R).
Notation frame := (frame (TD := TD) R).

Ltac fr := repeat first
  [ progress intros
  | match goal with
    | |- framed _ (sret _) => apply framed_ret; assumption
    | |- framed _ (spanic _) => apply framed_panic; assumption
    | |- framed _ (slift _) => apply framed_lift; assumption
    | |- framed _ (from_res _) => apply framed_from; assumption
    | |- framed _ (put _ _ _ _) =>
        first [apply framed_put_fields; assumption|apply framed_put_ielems; assumption|apply framed_put_blocks; assumption
              |apply framed_put_argss; assumption|apply framed_put_templs; assumption]
    | |- framed _ (alloc _ _ _) =>
        first [apply framed_new_fields; assumption|apply framed_new_ielems; assumption|apply framed_new_blocks; assumption
              |apply framed_new_argss; assumption|apply framed_new_templs; assumption]
    | |- framed _ (onImports _ (EnsureImported _)) => apply framed_symbol; assumption
    | |- framed _ (onImports _ (EnsureTypeImported _)) => apply framed_type; assumption
    | |- framed _ (onImports _ (EnsureAllTypesImported _)) => apply framed_signature; assumption
    | |- framed _ (onImports _ (registerPackage _)) => apply framed_package; assumption
    | |- framed _ (fun w => onImports _ (tq _ w _) w) => apply framed_tq; assumption
    | |- framed _ (get _ _) => apply framed_get; assumption
    | |- framed _ (for_each _ _) => apply framed_each; [assumption..|]
    | |- framed _ (map_m _ _) => apply framed_map; [assumption..|]
    | |- framed _ (sbind _ _) => apply framed_bind; [assumption..| |]
    | |- framed _ (match ?x with _ => _ end) => destruct x
    end ].

Lemma framed_Printf P cb s a : framed P (CodeBlock_Printf cb s a).
Proof. unfold CodeBlock_Printf. fr. Qed.
Lemma framed_RenderCode P cb t d : framed P (CodeBlock_RenderCode cb t d).
Proof. unfold CodeBlock_RenderCode. fr. Qed.
Lemma framed_AddCode P cb c : framed P (CodeBlock_AddCode (TD := TD) cb c).
Proof. unfold CodeBlock_AddCode. fr. Qed.
Lemma framed_NewCodeBlock P : framed P (NewCodeBlock (TD := TD)).
Proof. unfold NewCodeBlock. fr. Qed.
Ltac code := unfold Print, Println, Printf, Printlnf, RenderCode, Func_Print, Func_Println, Func_Printf, Func_Printlnf, Func_RenderCode, Func_AddCode,
  make_args, set_arg, CodeBlock_PrintfSlice, CodeBlock_Print, CodeBlock_Println, CodeBlock_Printlnf;
  repeat first [apply framed_Printf|apply framed_RenderCode|apply framed_AddCode|apply framed_NewCodeBlock|progress fr].

(** ** Qualification *)
Section One.
Variable f : nat.
Hypothesis Rexec : forall c i, R f i (exec c i).
Hypothesis Rtq : forall w d i, R f i (snd (tq env w d i)).
Lemma framed_qualify_method P a m : framed P (qualify_method f a m).
Proof. unfold qualify_method. fr. Qed.
Lemma framed_qualify_sym P s : framed P (qualify_sym_arg f s).
Proof. unfold qualify_sym_arg. fr. Qed.
Lemma framed_qualify_package P a p : framed P (qualify_package f a p).
Proof. unfold qualify_package. fr. Qed.
Ltac fr1 := repeat first [apply framed_qualify_method|apply framed_qualify_sym|apply framed_qualify_package|progress fr].
Lemma framed_arg P a : framed P (Arg_qualify f a).
Proof. destruct a; cbn [Arg_qualify]; fr1. Qed.
Lemma framed_line P a : framed P (line_qualify f a).
Proof. unfold line_qualify, line_qualify_at. repeat first [apply framed_arg|progress fr]. Qed.
Lemma framed_templ P t : framed P (templ_qualify env f t).
Proof. unfold templ_qualify. fr. Qed.
Lemma framed_block P cb : framed P (CodeBlock_qualify env f cb).
Proof. unfold CodeBlock_qualify, codeElement_qualify. repeat first [apply framed_line|apply framed_templ|progress fr].
 Qed.
Lemma framed_elem P id : framed P (InterfaceElement_qualify f id).
Proof. unfold InterfaceElement_qualify. fr. Qed.
Lemma framed_typespec fuel : forall id, framed None (TypeSpec_qualify fuel f id).
Proof.
  induction fuel as [|fuel IH]; intros id; cbn [TypeSpec_qualify]; [fr|].
  apply framed_get_types; [assumption|]. intros T. fr.
  - refine (framed_put_types R Rrefl id (mkTypeSpec _ _ _ _ _ _ _)).
  - apply framed_weaken. apply IH.
  - apply framed_elem.
Qed.
Lemma framed_const_value fuel id : framed None (qualify_value env consts set_consts fuel f id).
Proof.
  unfold qualify_value. apply framed_get_consts; [assumption|]. intros v. fr.
  - refine (framed_put_consts R Rrefl id (mkValue _ _ _ _ _)).
  - apply framed_weaken, framed_typespec.
  - apply framed_block.
Qed.
Lemma framed_var_value fuel id : framed None (qualify_value env vars set_vars fuel f id).
Proof.
  unfold qualify_value. apply framed_get_vars; [assumption|]. intros v. fr.
  - refine (framed_put_vars R Rrefl id (mkValue _ _ _ _ _)).
  - apply framed_weaken, framed_typespec.
  - apply framed_block.
Qed.
Lemma framed_element fuel e : framed None (FileElement_qualify env fuel f e).
Proof.
  destruct e as [d|d|d|fn]; cbn [FileElement_qualify].
  - fr. apply framed_const_value.
  - fr. apply framed_var_value.
  - fr. apply framed_typespec.
  - apply framed_get_funcs; [assumption|]. intros v. fr.
    + refine (framed_put_funcs R Rrefl fn (mkFunc _ _ _ _ _ _)).
    + apply framed_block.
Qed.
Lemma framed_source fuel : framed None (source env fuel f).
Proof. unfold source, qualify_file. fr. apply framed_element. Qed.

End One.
(** ** Constructors and settings *)
Lemma framed_state_res P {A} (r : World -> res A) : framed P (fun w => match r w with Panic m => (Panic m, w) | Ok a => (Ok a, w) end).
Proof. intros w _. destruct (r w); apply frame_refl; assumption. Qed.
Lemma framed_NewTypeSpec n t : framed None (NewTypeSpec (TD := TD) n t).
Proof.
  destruct t as [|t|id]; cbn [NewTypeSpec]; [fr| |].
  - apply framed_alloc_types; [assumption..|reflexivity|]. intros i. fr;
    match goal with |- framed _ (put types set_types _ ?v) => exact (framed_put_types R Rrefl i v) end.
  - fr. intros w _. destruct (TypeSpec_ToTypeName _ w) as [u|e]; [|apply frame_refl; assumption].
    apply framed_new_types with (P := None); [assumption|reflexivity|exact Logic.I].
Qed.
Lemma framed_NewTypeAlias n t : framed None (NewTypeAlias (TD := TD) n t).
Proof.
  unfold NewTypeAlias. apply framed_bind; [assumption|apply framed_NewTypeSpec|]. intros i.
  apply framed_get_types; [assumption|]. intros T. fr. refine (framed_put_types R Rrefl i (mkTypeSpec _ _ _ _ _ _ _)).
Qed.
Lemma framed_NewStruct n l : framed None (NewStructTypeSpec (TD := TD) n l).
Proof.
  unfold NewStructTypeSpec, Field_setParent. apply framed_alloc_types; [assumption..|reflexivity|]. intros i. fr.
  - intros w _. destruct (TypeSpec_ToTypeName _ w); apply frame_refl; assumption.
  - refine (framed_put_types R Rrefl i (mkTypeSpec _ _ _ _ _ _ _)).
Qed.
Lemma framed_NewInterface n l : framed None (NewInterfaceTypeSpec (TD := TD) n l).
Proof.
  unfold NewInterfaceTypeSpec, Elem_setParent. apply framed_alloc_types; [assumption..|reflexivity|]. intros i. fr.
  refine (framed_put_types R Rrefl i (mkTypeSpec _ _ _ _ _ _ _)).
Qed.
Lemma framed_set_const id (g : ValueSpec -> ValueSpec) : (forall v, VParent (g v) = VParent v) ->
  framed None (do v <- get consts id ;; put consts set_consts id (g v)).
Proof. intros H. apply framed_get_consts; [assumption|]. intros v. rewrite <- H. apply framed_put_consts; assumption. Qed.
Lemma framed_set_var id (g : ValueSpec -> ValueSpec) : (forall v, VParent (g v) = VParent v) ->
  framed None (do v <- get vars id ;; put vars set_vars id (g v)).
Proof. intros H. apply framed_get_vars; [assumption|]. intros v. rewrite <- H. apply framed_put_vars; assumption. Qed.
Lemma framed_set_type id (g : TypeSpec -> TypeSpec) : (forall v, TSParent (g v) = TSParent v) ->
  framed None (do v <- get types id ;; put types set_types id (g v)).
Proof. intros H. apply framed_get_types; [assumption|]. intros v. rewrite <- H. apply framed_put_types; assumption. Qed.
Lemma framed_set_func id (g : FuncSpec -> FuncSpec) : (forall v, FNParent (g v) = FNParent v) ->
  framed None (do v <- get funcs id ;; put funcs set_funcs id (g v)).
Proof. intros H. apply framed_get_funcs; [assumption|]. intros v. rewrite <- H. apply framed_put_funcs; assumption. Qed.
Lemma framed_setting s : framed None (SpecCalls.perform (TD := TD) s).
Proof.
  destruct s as [id c|id c|id c|id c|id c|id c|d c|d c|d c|f a c]; try destruct c; try destruct a; cbn [SpecCalls.perform];
  unfold Value_SetComment, Value_SetType, Value_SetInitializer, Field_SetComment, Field_SetTag, Elem_SetComment, Method_AddArg, Method_AddResult,
    Method_SetVariadic, Method_onSignature, Func_SetComment, Func_AddArg, Func_AddResult, Func_SetVariadic, Func_onSignature, Type_SetComment,
    ConstDecl_SetComment, ConstDecl_AddConst, VarDecl_SetComment, VarDecl_AddVar, TypeDecl_SetComment, TypeDecl_AddType,
    SetFileComment, SetPackageComment, SetCanonical;
  try (apply framed_set_const; reflexivity); try (apply framed_set_var; reflexivity); try (apply framed_set_type; reflexivity);
  try (apply framed_set_func; reflexivity);
  try (apply framed_set_file; [assumption|]; intros F; repeat split; auto; fail);
  try (eapply framed_set_constDecl; [assumption|]; intros D; cbn; rewrite ?app_nil_r; reflexivity);
  try (eapply framed_set_varDecl; [assumption|]; intros D; cbn; rewrite ?app_nil_r; reflexivity);
  try (eapply framed_set_typeDecl; [assumption|]; intros D; cbn; rewrite ?app_nil_r; reflexivity);
  try (fr; fail).
  - apply framed_set_constDecl with (r := [id]); [assumption|]. intros D. reflexivity.
  - apply framed_set_varDecl with (r := [id]); [assumption|]. intros D. reflexivity.
  - apply framed_set_typeDecl with (r := [id]); [assumption|]. intros D. reflexivity.
Qed.
Lemma framed_init_const id s a : framed None (Value_Initialize (TD := TD) consts set_consts id s a).
Proof. unfold Value_Initialize. code. apply framed_set_const. reflexivity. Qed.
Lemma framed_init_var id s a : framed None (Value_Initialize (TD := TD) vars set_vars id s a).
Proof. unfold Value_Initialize. code. apply framed_set_var. reflexivity. Qed.

(** ** All calls that are not additions or new files *)
Lemma framed_ended {A} (m : WM A) w : framed None m -> frame w (snd (ended m w)).
Proof. intros H. apply (H w Logic.I). Qed.
(** the file whose imports the call may change *)
Definition touched (c : api_call TD) : option nat :=
  match c with PImport f _ | PTemplateData f _ | PWrite _ f => Some f | _ => None end.
Definition ordinary (c : api_call TD) : Prop := match c with PNewFile _ _ _ | PAdd _ _ => False | _ => True end.
Lemma framed_call c w : ordinary c ->
  (forall f, touched c = Some f -> (forall c i, R f i (exec c i)) /\ forall w d i, R f i (snd (tq env w d i))) -> frame w (snd (do_call env c w)).
Proof.
  destruct c; cbn [ordinary touched do_call]; intros O T; try contradiction; try destruct (T _ eq_refl) as [Rexec Rtq]; clear T;
  try (apply framed_ended);
  try (match goal with |- frame w (snd (?m w)) => cut (framed None m); [intros H; exact (H w Logic.I)|] end);
  try (code; fail); try apply framed_setting; try apply framed_init_const; try apply framed_init_var; try (apply framed_source; assumption);
  try apply framed_NewTypeSpec; try apply framed_NewTypeAlias; try apply framed_NewStruct; try apply framed_NewInterface.
  - unfold NewConst. apply framed_new_consts; [assumption|reflexivity].
  - unfold NewVar. apply framed_new_vars; [assumption|reflexivity].
  - unfold NewField. fr.
  - unfold NewInterfaceEmbed. fr.
  - unfold NewInterfaceMethod. fr.
  - unfold NewFunc, NewMethod. code. apply framed_new_funcs; [assumption|reflexivity].
  - unfold NewMethod. code. apply framed_new_funcs; [assumption|reflexivity].
  - unfold NewConstDecl. apply framed_new_constDecls; assumption.
  - unfold NewVarDecl. apply framed_new_varDecls; assumption.
  - unfold NewTypeDecl. apply framed_new_typeDecls; assumption.
  - destruct b; cbn [SpecWorld.perform snd];
    match goal with |- frame w (snd (?m w)) => cut (framed None m); [intros H; exact (H w Logic.I)|] end; code.
  - apply framed_imports; [assumption|]. intros i. apply Rexec.
Qed.
End Calls.
