(** The frame of every call, for members. *)
From Verif Require Import Base GoPath Types SpecTypes Imports SpecImports Conv World WorldProofs SpecGo SpecRender SpecCalls SpecWorld
  SpecProgram SpecMembers MemberFrame.

Section Calls.
Context {TD : Type}.
Variable env : Env TD.
Notation World := (World TD).
Notation WM := (WM (TD := TD)).
Variables (p : bool) (nf ne : nat -> Prop) (nt : nat).
Notation keeps := (keeps (TD := TD) p nf ne nt).
Notation kept := (kept (TD := TD) p nf ne nt).

Ltac kp := repeat first
  [ match goal with |- forall _, _ => intro end
  | match goal with
    | |- keeps (sret _) => apply keeps_ret
    | |- keeps (spanic _) => apply keeps_panic
    | |- keeps (slift _) => apply keeps_lift
    | |- keeps (from_res _) => apply keeps_from
    | |- keeps (put files set_files _ _) => apply keeps_put_files
    | |- keeps (put constDecls set_constDecls _ _) => apply keeps_put_constDecls
    | |- keeps (put varDecls set_varDecls _ _) => apply keeps_put_varDecls
    | |- keeps (put typeDecls set_typeDecls _ _) => apply keeps_put_typeDecls
    | |- keeps (put consts set_consts _ _) => apply keeps_put_consts
    | |- keeps (put vars set_vars _ _) => apply keeps_put_vars
    | |- keeps (put funcs set_funcs _ _) => apply keeps_put_funcs
    | |- keeps (put blocks set_blocks _ _) => apply keeps_put_blocks
    | |- keeps (put argss set_argss _ _) => apply keeps_put_argss
    | |- keeps (put templs set_templs _ _) => apply keeps_put_templs
    | |- keeps (put types set_types _ _) => apply keeps_put_new; assumption
    | |- keeps (alloc files set_files _) => apply keeps_new_files
    | |- keeps (alloc constDecls set_constDecls _) => apply keeps_new_constDecls
    | |- keeps (alloc varDecls set_varDecls _) => apply keeps_new_varDecls
    | |- keeps (alloc typeDecls set_typeDecls _) => apply keeps_new_typeDecls
    | |- keeps (alloc consts set_consts _) => apply keeps_new_consts
    | |- keeps (alloc vars set_vars _) => apply keeps_new_vars
    | |- keeps (alloc funcs set_funcs _) => apply keeps_new_funcs
    | |- keeps (alloc blocks set_blocks _) => apply keeps_new_blocks
    | |- keeps (alloc argss set_argss _) => apply keeps_new_argss
    | |- keeps (alloc templs set_templs _) => apply keeps_new_templs
    | |- keeps (alloc World.fields set_fields _) => apply keeps_new_fields
    | |- keeps (alloc ielems set_ielems _) => apply keeps_new_ielems
    | |- keeps (alloc types set_types _) => apply keeps_new_types
    | |- keeps (onImports _ _) => apply keeps_imports
    | |- keeps (get _ _) => apply keeps_get
    | |- keeps (for_each _ _) => apply keeps_each
    | |- keeps (map_m _ _) => apply keeps_map
    | |- keeps (sbind (alloc types set_types _) _) => apply keeps_new_type
    | |- keeps (sbind (get types _) (fun x => put types set_types _ (mkTypeSpec _ _ _ _ _ _ _))) => apply keeps_set_type; intros []; reflexivity
    | |- keeps (sbind (get World.fields _) (fun x => put World.fields set_fields _ _)) => apply keeps_set_field
    | |- keeps (sbind (get ielems _) (fun x => put ielems set_ielems _ _)) => apply keeps_set_elem
    | |- keeps (sbind _ _) => apply keeps_bind
    | |- keeps (match ?x with _ => _ end) => destruct x
    end ].

Lemma keeps_Printf cb s a : keeps (CodeBlock_Printf cb s a).
Proof. unfold CodeBlock_Printf. kp. Qed.
Lemma keeps_RenderCode cb t d : keeps (CodeBlock_RenderCode cb t d).
Proof. unfold CodeBlock_RenderCode. kp. Qed.
Lemma keeps_AddCode cb c : keeps (CodeBlock_AddCode (TD := TD) cb c).
Proof. unfold CodeBlock_AddCode. kp. Qed.
Lemma keeps_NewCodeBlock : keeps (NewCodeBlock (TD := TD)).
Proof. unfold NewCodeBlock. kp. Qed.
Ltac code := unfold Print, Println, Printf, Printlnf, RenderCode, Func_Print, Func_Println, Func_Printf, Func_Printlnf, Func_RenderCode, Func_AddCode,
  make_args, set_arg, CodeBlock_PrintfSlice, CodeBlock_Print, CodeBlock_Println, CodeBlock_Printlnf;
  repeat first [apply keeps_Printf|apply keeps_RenderCode|apply keeps_AddCode|apply keeps_NewCodeBlock|progress kp].

Lemma keeps_NewTypeSpec n t : keeps (NewTypeSpec (TD := TD) n t).
Proof.
  destruct t as [|t|id]; cbn [NewTypeSpec]; kp.
  intros w N. destruct (TypeSpec_ToTypeName _ w) as [u|e]; [|apply kept_refl]. apply keeps_new_types; auto.
Qed.
Lemma keeps_NewTypeAlias n t : keeps (NewTypeAlias (TD := TD) n t).
Proof.
  unfold NewTypeAlias. apply keeps_bind; [apply keeps_NewTypeSpec|]. intros i.
  intros w N. unfold sbind at 1, get. destruct (nth_error (types w) i) as [T|] eqn:E; [|apply kept_refl].
  unfold sbind, put, sret. cbn [fst snd].
  pose proof (keeps_set_type p nf ne nt i (fun T => mkTypeSpec (TSComment T) (TSName T) true (TSUnderlying T) (TSStruct T) (TSInterface T) (TSParent T))
    (fun x => eq_refl) w N) as K. unfold sbind, get, put in K. rewrite E in K. exact K.
Qed.
Lemma keeps_setParent f e : keeps (setParent (TD := TD) f e).
Proof. destruct e; cbn [setParent]; unfold Value_setParent, Type_setParent, Func_setParent; kp. Qed.
Lemma keeps_AddElement f e : keeps (AddElement (TD := TD) f e).
Proof. unfold AddElement. repeat first [apply keeps_setParent|progress kp]. Qed.
Lemma keeps_add f a : keeps (add (TD := TD) f a).
Proof.
  destruct a; cbn [add]; unfold AddConst, AddVar, AddType, NewConstDecl, NewVarDecl, NewTypeDecl; repeat first [apply keeps_AddElement|progress kp].
Qed.
(** settings: tags and signatures apart *)
Definition setting_ok (s : setting) : Prop :=
  match s with
  | CallField i (FSetTag _) => ~ nf i
  | CallElem i (SAddArg _ _) | CallElem i (SAddResult _ _) | CallElem i (SSetVariadic _) => ~ ne i
  | _ => True
  end.
Lemma keeps_signature i g : ~ ne i -> keeps (Method_onSignature (TD := TD) i g).
Proof.
  intros N w _. unfold Method_onSignature, sbind, get. destruct (nth_error (ielems w) i) as [[c s q|c n s q]|] eqn:E; try apply kept_refl.
  split; cbn; auto using sub_refl. apply sub_upd. intros M. contradiction.
Qed.
Lemma keeps_setting s : setting_ok s -> keeps (SpecCalls.perform (TD := TD) s).
Proof.
  destruct s as [id c|id c|id c|id c|id c|id c|d c|d c|d c|f a c]; try destruct c; try destruct a; cbn [SpecCalls.perform setting_ok]; intros OK;
  unfold Value_SetComment, Value_SetType, Value_SetInitializer, Field_SetComment, Field_SetTag, Elem_SetComment, Method_AddArg, Method_AddResult,
    Method_SetVariadic, Func_SetComment, Func_AddArg, Func_AddResult, Func_SetVariadic, Func_onSignature, Type_SetComment,
    ConstDecl_SetComment, ConstDecl_AddConst, VarDecl_SetComment, VarDecl_AddVar, TypeDecl_SetComment, TypeDecl_AddType,
    SetFileComment, SetPackageComment, SetCanonical; try (apply keeps_signature; exact OK); kp; try reflexivity; try contradiction.
  all: try match goal with x : InterfaceElement |- _ => destruct x; reflexivity end.
Qed.
Lemma keeps_init {tab set} id s a : (forall i v, keeps (put tab set i v)) -> keeps (Value_Initialize (TD := TD) tab set id s a).
Proof. intros H. unfold Value_Initialize, Value_SetInitializer. code. apply H. Qed.
Lemma keeps_ended {A} (m : WM A) w : keeps m -> nt <= List.length (types w) -> kept w (snd (ended m w)).
Proof. intros H N. apply (H w N). Qed.
Definition quiet (c : api_call TD) : Prop :=
  match c with
  | PWrite _ _ | PNewStruct _ _ | PNewInterface _ _ => False
  | PSet s => setting_ok s
  | _ => True
  end.
Lemma keeps_call c w : quiet c -> nt <= List.length (types w) -> kept w (snd (do_call env c w)).
Proof.
  intros Q N. destruct c; cbn [quiet do_call] in *; try contradiction;
  try (apply keeps_ended; [|exact N]);
  try (match goal with |- kept w (snd (?m w)) => cut (keeps m); [intros H; exact (H w N)|] end);
  try (code; fail); try (apply keeps_setting; exact Q); try (apply keeps_init; kp; fail); try apply keeps_add;
  try apply keeps_NewTypeSpec; try apply keeps_NewTypeAlias.
  all: unfold NewGoFile, NewConst, NewVar, NewField, NewInterfaceEmbed, NewInterfaceMethod, NewFunc, NewMethod, NewConstDecl, NewVarDecl, NewTypeDecl;
    try (code; fail).
  - destruct b; cbn [SpecWorld.perform snd];
    match goal with |- kept w (snd (?m w)) => cut (keeps m); [intros H; exact (H w N)|] end; code.
  - intros w' N'. apply keeps_imports; auto.
Qed.
End Calls.
