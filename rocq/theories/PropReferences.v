(** Properties of references: C98.  Only statements, examples and [exact]. *)
From Verif Require Import Base GoPath Types SpecTypes Imports SpecImports ImportsProofs Conv World SpecGo SpecRender SpecFile SpecDecl
  FileTheorems SpecCalls SpecWorld SpecQualify QualifyExamples SpecProgram ProgramProofs SpecMembers SpecReferences ReferenceProofs.

(** An example: an interface type that is made, added to one file and then to another; a method and
    consts; a spec that joins a declaration after this was added. *)
Definition refFirst : list (api_call unit) :=
  [PNewFile "a.go" "x.y/a" "a"; PNewFile "b.go" "x.y/b" "bb"; PNewIMethod "Get"; PNewInterface "I" [0]; PAdd 0 (AddedType 0);
   PNewConst ["c"; "d"]; PNewConstDecl [0]; PAdd 1 (AddedElement (EConst 0)); PNewConst ["late"]; PSet (CallConsts 0 (DAdd 1))].
Definition refRest : list (api_call unit) :=
  [PNewInterface "J" [0]; PWrite 3 0; PNewMethod (Some (mkReceiver "r" "T" true)) "M"; PAdd 0 (AddedElement (EFunc 0));
   PAdd 0 (AddedType 1); PAdd 1 (AddedType 1); PNewVar ["v"]; PWrite 3 1].
Definition refAll := refFirst ++ refRest.
Definition refW : World unit := after exEnv refAll empty_world.

(** C98: names never change ... *)
Theorem C98_names : forall TD (env : Env TD) p (w : World TD) k c, called w k = Some c -> called (after env p w) k = Some c.
Proof. exact @names_history. Qed.
Print Assumptions C98_names.
Example C98_names_example : called (after exEnv refFirst empty_world) (NElem 0) = Some (OneMethod "Get") /\
  called refW (NElem 0) = Some (OneMethod "Get") /\ called refW (NType 1) = Some (OneType "J") /\
  called refW (NFunc 0) = Some (OneFunc (Some (mkReceiver "r" "T" true)) "M").
Proof. vm_compute. repeat split. Qed.

(** ... and a symbol is the name with the package of the file to which the spec was added last;
    there is none if it was never added. *)
Theorem C98_const : forall TD (env : Env TD) p, imports_by_calls env -> additions_return env p empty_world ->
  forall id v i, nth_error (consts (after env p empty_world)) id = Some v ->
  answer (ValueSpec_SymbolAt v i (after env p empty_world)) =
  obind (home env p (AConstSpec id)) (fun P => option_map (mkSymbol P) (nth_name (VNames v) i)).
Proof. exact @const_denotes. Qed.
Print Assumptions C98_const.
Theorem C98_const_one : forall TD (env : Env TD) p, imports_by_calls env -> additions_return env p empty_world ->
  forall id v, nth_error (consts (after env p empty_world)) id = Some v ->
  answer (ValueSpec_ToSymbol v (after env p empty_world)) =
  match VNames v with [n] => option_map (fun P => mkSymbol P n) (home env p (AConstSpec id)) | _ => None end.
Proof. exact @const_denotes_one. Qed.
Print Assumptions C98_const_one.
Theorem C98_var : forall TD (env : Env TD) p, imports_by_calls env -> additions_return env p empty_world ->
  forall id v i, nth_error (vars (after env p empty_world)) id = Some v ->
  answer (ValueSpec_SymbolAt v i (after env p empty_world)) =
  obind (home env p (AVarSpec id)) (fun P => option_map (mkSymbol P) (nth_name (VNames v) i)).
Proof. exact @var_denotes. Qed.
Print Assumptions C98_var.
Theorem C98_var_one : forall TD (env : Env TD) p, imports_by_calls env -> additions_return env p empty_world ->
  forall id v, nth_error (vars (after env p empty_world)) id = Some v ->
  answer (ValueSpec_ToSymbol v (after env p empty_world)) =
  match VNames v with [n] => option_map (fun P => mkSymbol P n) (home env p (AVarSpec id)) | _ => None end.
Proof. exact @var_denotes_one. Qed.
Print Assumptions C98_var_one.
Theorem C98_type : forall TD (env : Env TD) p, imports_by_calls env -> additions_return env p empty_world ->
  forall id T, nth_error (types (after env p empty_world)) id = Some T ->
  answer (TypeSpec_ToSymbol T (after env p empty_world)) = type_denotes env p id.
Proof. exact @type_denoted. Qed.
Print Assumptions C98_type.
Theorem C98_func : forall TD (env : Env TD) p, imports_by_calls env -> additions_return env p empty_world ->
  forall id F, nth_error (funcs (after env p empty_world)) id = Some F ->
  answer (FuncSpec_ToSymbol F (after env p empty_world)) =
  option_map (fun P => match FNReceiver F with
                       | None => SomSymbol (mkSymbol P (FNName F))
                       | Some r => SomMethod (mkMethodRef (mkSymbol P (RcvType r)) (FNName F))
                       end) (home env p (AFuncSpec id)).
Proof. exact @func_denotes. Qed.
Print Assumptions C98_func.
(** A method of an interface is the method of the type spec that was made of it last. *)
Theorem C98_method : forall TD (env : Env TD) p q id c n s t, imports_by_calls env -> additions_return env (p ++ q) empty_world ->
  let w := after env p empty_world in
  let W := after env (p ++ q) empty_world in
  nth_error (ielems w) id = Some (InterfaceMethod c n s t) -> makings_return env q w ->
  exists c' s' t', nth_error (ielems W) id = Some (InterfaceMethod c' n s' t') /\
    answer (InterfaceMethod_ToMethodRef n t' W) =
    obind (last_spec env (MElem id) q w t) (fun k => option_map (fun S => mkMethodRef S n) (type_denotes env (p ++ q) k)).
Proof. exact @method_denotes. Qed.
Print Assumptions C98_method.
Example C98_example : imports_by_calls exEnv /\ additions_return exEnv refAll empty_world /\
  makings_return exEnv refRest (after exEnv refFirst empty_world) /\
  home exEnv refAll (AConstSpec 0) = Some (mkPackage "x.y/b" "bb") /\ home exEnv refAll (AConstSpec 1) = None /\
  home exEnv refAll (AVarSpec 0) = None /\
  home exEnv refAll (AFuncSpec 0) = Some (mkPackage "x.y/a" "a") /\
  type_denotes exEnv refFirst 0 = Some (mkSymbol (mkPackage "x.y/a" "a") "I") /\
  last_spec exEnv (MElem 0) refRest (after exEnv refFirst empty_world) (Some 0) = Some 1 /\
  type_denotes exEnv refAll 1 = Some (mkSymbol (mkPackage "x.y/b" "bb") "J") /\
  nth_name ["c"; "d"] 1 = Some "d" /\ nth_name ["c"; "d"] 2 = None /\ nth_name ["c"; "d"] (-1) = None /\
  (exists c s, nth_error (ielems (after exEnv refFirst empty_world)) 0 = Some (InterfaceMethod c "Get" s (Some 0))).
Proof.
  split; [intros w d i; exists []; reflexivity|]. vm_compute. repeat split. do 2 eexists. reflexivity.
Qed.
