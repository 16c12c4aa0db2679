(** Properties of the members of struct and interface type specs: C95, C96.  Only statements,
    examples and [exact]. *)
From Verif Require Import Base GoPath Types SpecTypes Imports SpecImports SpecLit Conv World SpecWorld SpecGo SpecRender SpecFile SpecDecl FileTheorems
  SpecCalls SpecQualify QualifyExamples SpecProgram SpecMembers MemberFrame MemberTheorems MemberHistory MemberOwners MemberWriting.

(** C95: as stated (whenever a spec is asked for its underlying type) the claim is false: the tag of
    a field and the signature of a method can be set after the spec was made.  The text then has
    one type written in two ways. *)
Definition lateTag : list (api_call unit) :=
  [PNewFile "a.go" "x.y/a" "a"; PNewField "A" (IsName (TBasic KInt)); PNewStruct "" [0]; PNewTypeSpec "T" (IsSpec 0);
   PNewVar ["v"]; PSet (CallVar 0 (VSetType (IsSpec 0))); PAdd 0 (AddedVar 0); PAdd 0 (AddedType 1)].
Definition lateTagW : World unit := after exEnv lateTag empty_world.
Definition lateTagW1 : World unit := after exEnv [PSet (CallField 0 (FSetTag "k"))] lateTagW.
Theorem C95_refuted : agrees lateTagW 0 /\ agrees lateTagW 1 /\ ~ agrees lateTagW1 0 /\ ~ agrees lateTagW1 1 /\
  fst (source exEnv 3 0 lateTagW1) = Ok ("package a" ++ newline ++ newline ++ newline ++ "var v struct{A int}" ++ newline ++ newline ++
    "type T  struct {" ++ newline ++ "A int `k`" ++ newline ++ "}" ++ newline)%string.
Proof.
  repeat split; try (eexists; split; vm_compute; reflexivity); try (intros (T & E & D); vm_compute in E; injection E as <-; vm_compute in D; discriminate).
Qed.
Print Assumptions C95_refuted.
(** What holds: a spec agrees with its members when it is made. *)
Theorem C95_struct_partial : forall TD n l (w w' : World TD) id,
  (forall i x ts, In i l -> nth_error (World.fields w) i = Some x -> FSType x = IsSpec ts -> ts < List.length (types w)) ->
  NewStructTypeSpec n l w = (Ok id, w') -> agrees w' id.
Proof. exact @struct_agrees. Qed.
Print Assumptions C95_struct_partial.
Theorem C95_interface_partial : forall TD n l (w w' : World TD) id, NewInterfaceTypeSpec n l w = (Ok id, w') -> agrees w' id.
Proof. exact @interface_agrees. Qed.
Print Assumptions C95_interface_partial.
Theorem C95_type_partial : forall TD n t (w w' : World TD) id, NewTypeSpec n t w = (Ok id, w') ->
  (forall s T, t = IsSpec s -> nth_error (types w) s = Some T -> TSName T = ""%string -> agrees w s) -> agrees w' id.
Proof. exact @type_agrees. Qed.
Print Assumptions C95_type_partial.
Theorem C95_alias_partial : forall TD n t (w w' : World TD) id, NewTypeAlias n t w = (Ok id, w') ->
  (forall s T, t = IsSpec s -> nth_error (types w) s = Some T -> TSName T = ""%string -> agrees w s) -> agrees w' id.
Proof. exact @alias_agrees. Qed.
Print Assumptions C95_alias_partial.
(** And it stays so whatever is called, except for setting one of its members and for writing
    files; fields given a named spec are left out, since that spec can be moved to another file. *)
Theorem C95_kept_partial : forall TD (env : Env TD) p w id, agrees w id -> no_named_fields w id -> writes_none p ->
  (forall c, In c p -> ~ sets_member w id c) -> agrees (after env p w) id.
Proof. exact @agrees_kept. Qed.
Print Assumptions C95_kept_partial.
Definition keptCalls : list (api_call unit) :=
  [PSet (CallField 0 (FSetComment "c")); PNewField "B" (IsSpec 0); PSet (CallField 1 (FSetTag "k")); PNewStruct "U" [0; 1]; PNewStruct "" [7];
   PAdd 0 (AddedType 2)].
Example C95_example : agrees lateTagW 0 /\ no_named_fields lateTagW 0 /\ writes_none keptCalls /\
  (forall c, In c keptCalls -> ~ sets_member lateTagW 0 c) /\
  agrees (after exEnv keptCalls lateTagW) 0 /\ agrees (after exEnv keptCalls lateTagW) 2 /\
  option_map TSUnderlying (nth_error (types (after exEnv keptCalls lateTagW)) 2) =
    Some (TStruct [mkField "A" (TBasic KInt) ""; mkField "B" (TStruct [mkField "A" (TBasic KInt) ""]) "k"]).
Proof.
  split; [eexists; split; vm_compute; reflexivity|]. split.
  { intros T i x ts S E IN EX EQ. vm_compute in E. injection E as <-. destruct IN as [<-|[]]. vm_compute in EX. injection EX as <-. discriminate EQ. }
  split. { intros c H. cbn in H. repeat (destruct H as [<-|H]; [exact Logic.I|]). destruct H. }
  split. { intros c H (T & E & S). vm_compute in E. injection E as <-. cbn in H.
    repeat (destruct H as [<-|H]; [cbn in S; try contradiction; destruct S as [S|[]]; discriminate S|]). destruct H. }
  split; [eexists; split; vm_compute; reflexivity|]. split; [eexists; split; vm_compute; reflexivity|]. vm_compute. reflexivity.
Qed.

(** Writing files breaks it too: a file gives its names to the packages in the members of the specs
    it writes, and a spec that shares them keeps the old names. *)
Definition sharedBody : list (api_call unit) :=
  [PNewFile "a.go" "x.y/a" "a"; PNewField "A" (IsName (TNamed (mkSymbol (mkPackage "b/x" "x") "T")));
   PNewStruct "" [0]; PNewTypeSpec "U" (IsSpec 0); PAdd 0 (AddedType 1); PImport 0 (CRegisterImport "a/x" "x")].
Definition sharedBodyW : World unit := after exEnv sharedBody empty_world.
Theorem C95_written_refuted : let w := after exEnv [PWrite 3 0] sharedBodyW in
  agrees sharedBodyW 0 /\ agrees sharedBodyW 1 /\ agrees w 1 /\ ~ agrees w 0 /\
  option_map TSUnderlying (nth_error (types w) 0) = Some (TStruct [mkField "A" (TNamed (mkSymbol (mkPackage "b/x" "x") "T")) ""]) /\
  option_map FSType (nth_error (World.fields w) 0) = Some (IsName (TNamed (mkSymbol (mkPackage "b/x" "x1") "T"))).
Proof.
  split; [eexists; split; vm_compute; reflexivity|]. split; [eexists; split; vm_compute; reflexivity|]. split; [eexists; split; vm_compute; reflexivity|].
  split; [intros (T & E & D); vm_compute in E; injection E as <-; vm_compute in D; discriminate|]. split; vm_compute; reflexivity.
Qed.
Print Assumptions C95_written_refuted.
(** But nothing else: up to the names of packages a spec agrees with its members after any calls,
    also after files were written, with or without panics. *)
Theorem C95_written_partial : forall TD (env : Env TD) p w id, agrees_by_path w id -> no_named_fields w id ->
  (forall c, In c p -> ~ sets_member w id c) -> agrees_by_path (after env p w) id.
Proof. exact @agrees_by_path_kept. Qed.
Print Assumptions C95_written_partial.
Example C95_written_example : agrees_by_path sharedBodyW 0 /\ no_named_fields sharedBodyW 0 /\
  (forall c, In c [PWrite 3 0; PNewTypeSpec "V" (IsSpec 0); PWrite 3 0] -> ~ sets_member sharedBodyW 0 c) /\
  ~ agrees_by_path (after exEnv [PSet (CallField 0 (FSetTag "k"))] sharedBodyW) 0.
Proof.
  split; [eexists; eexists; split; [|split]; vm_compute; reflexivity|]. split.
  { intros T i x ts S E IN EX EQ. vm_compute in E. injection E as <-. destruct IN as [<-|[]]. vm_compute in EX. injection EX as <-. discriminate EQ. }
  split. { intros c H (T & E & S). cbn in H. repeat (destruct H as [<-|H]; [exact S|]). destruct H. }
  intros (T & t & E & D & P). vm_compute in E. injection E as <-. vm_compute in D. injection D as <-. vm_compute in P. discriminate P.
Qed.

(** C96 *)
Theorem C96_owner : forall TD (env : Env TD) p w k, exists_in w k -> makings_return env p w ->
  spec_of (after env p w) k = last_spec env k p w (spec_of w k).
Proof. exact @owner_history. Qed.
Print Assumptions C96_owner.
Definition ownerCalls : list (api_call unit) :=
  [PNewStruct "U" [0]; PNewIMethod "M"; PNewInterface "I" [0]; PWrite 3 0; PNewTypeSpec "V" (IsSpec 0); PNewStruct "W" []].
Example C96_example : exists_in lateTagW (MField 0) /\ makings_return exEnv ownerCalls lateTagW /\
  spec_of lateTagW (MField 0) = Some 0 /\ spec_of (after exEnv ownerCalls lateTagW) (MField 0) = Some 2 /\
  spec_of (after exEnv ownerCalls lateTagW) (MElem 0) = Some 3.
Proof. repeat split; vm_compute; auto. Qed.
