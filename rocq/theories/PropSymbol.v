(** Properties of references to declarations, of packages by path and of empty declarations: C67-C70.
    Only statements, examples and [exact]. *)
From Verif Require Import Base GoPath Types Imports Conv World SpecWorld SpecSymbol SymbolProofs QualifyExamples.

(** C67: as stated (for every declaration that is in a file) the claim is false: a member added to
    the group after the group was added to the file has no symbol. *)
Definition lateConst : WM (TD := unit) unit :=
  do f <- NewGoFile "t.go" "a.b/m" "m" ;;
  do a <- NewConst ["a"] ;;
  do d <- NewConstDecl [a] ;;
  do _ <- AddElement f (EConst d) ;;
  do b <- NewConst ["b"] ;;
  ConstDecl_AddConst d b.
Definition lateVar : WM (TD := unit) unit :=
  do f <- NewGoFile "t.go" "a.b/m" "m" ;;
  do d <- NewVarDecl [] ;;
  do _ <- AddElement f (EVar d) ;;
  do b <- NewVar ["b"] ;;
  VarDecl_AddVar d b.
Definition lateType : WM (TD := unit) unit :=
  do f <- NewGoFile "t.go" "a.b/m" "m" ;;
  do d <- NewTypeDecl [] ;;
  do _ <- AddElement f (EType d) ;;
  do b <- NewTypeSpec "B" (IsName (TBasic KInt)) ;;
  TypeDecl_AddType d b.
Theorem C67_late_refuted :
  (exists w v F, lateConst empty_world = (Ok tt, w) /\ nth_error (files w) 0 = Some F /\ In (EConst 0) (FElements F) /\
     nth_error (constDecls w) 0 = Some (mkValueDecl "" [0; 1]) /\ nth_error (consts w) 1 = Some v /\ VNames v = ["b"] /\
     is_ok (ValueSpec_ToSymbol v w) = false) /\
  (exists w v F, lateVar empty_world = (Ok tt, w) /\ nth_error (files w) 0 = Some F /\ In (EVar 0) (FElements F) /\
     nth_error (varDecls w) 0 = Some (mkValueDecl "" [0]) /\ nth_error (vars w) 0 = Some v /\ VNames v = ["b"] /\
     is_ok (ValueSpec_ToSymbol v w) = false) /\
  (exists w T F, lateType empty_world = (Ok tt, w) /\ nth_error (files w) 0 = Some F /\ In (EType 0) (FElements F) /\
     nth_error (typeDecls w) 0 = Some (mkTypeDecl "" [0]) /\ nth_error (types w) 0 = Some T /\ TSName T = "B" /\
     is_ok (TypeSpec_ToSymbol T w) = false).
Proof.
  split; [|split]; (do 3 eexists; split; [vm_compute; reflexivity|]; split; [reflexivity|]; split; [left; reflexivity|];
    split; [reflexivity|]; split; [reflexivity|]; split; reflexivity).
Qed.
Print Assumptions C67_late_refuted.
(** What holds: when AddElement returns, every member the element has then can be referred to. *)
Theorem C67_added_partial : forall TD f e (w w' : World TD), AddElement f e w = (Ok tt, w') ->
  exists F, nth_error (files w') f = Some F /\ In e (FElements F) /\ referable w' F e.
Proof. exact @added_referable. Qed.
Print Assumptions C67_added_partial.
Example C67_example : exists w, (do f <- NewGoFile "t.go" "a.b/m" "m" ;; do a <- NewConst ["a"; "b"] ;; do d <- NewConstDecl [a] ;;
    AddElement f (EConst d)) (@empty_world unit) = (Ok tt, w) /\
  match nth_error (consts w) 0 with Some v => ValueSpec_SymbolAt v 1 w = Ok (mkSymbol (mkPackage "a.b/m" "m") "b") | None => False end.
Proof. eexists. split; [vm_compute; reflexivity|reflexivity]. Qed.

(** C68: as stated (for every named interface type that is in a file) the claim is false: a named
    type made from an unnamed interface spec shares its elements, which keep referring to the
    unnamed spec. *)
Definition sharedInterface : WM (TD := unit) unit :=
  do f <- NewGoFile "t.go" "a.b/m" "m" ;;
  do e <- NewInterfaceMethod "Get" ;;
  do u <- NewInterfaceTypeSpec "" [e] ;;
  do t <- NewTypeSpec "T" (IsSpec u) ;;
  AddType f t.
Theorem C68_shared_refuted : exists w T F, sharedInterface empty_world = (Ok tt, w) /\
  nth_error (files w) 0 = Some F /\ nth_error (types w) 1 = Some T /\ TSName T = "T" /\ TSParent T = Some 0 /\
  TSInterface T = [0] /\ ~ elem_refers w (package_of F) "T" 0 /\
  match nth_error (ielems w) 0 with
  | Some (InterfaceMethod _ n _ parent) => InterfaceMethod_ToMethodRef n parent w = Panic "cannot use unnamed type as symbol"
  | _ => False
  end.
Proof.
  do 3 eexists. split; [vm_compute; reflexivity|]. do 5 (split; [reflexivity|]). split; [|reflexivity].
  intros H. discriminate H.
Qed.
Print Assumptions C68_shared_refuted.
(** What holds: the methods of a type made from elements or from a TypeName. *)
Theorem C68_methods_partial : forall TD f t name (mk : WM (TD := TD) nat) w w1 w',
  (exists es, mk = NewInterfaceTypeSpec name es) \/ (exists n, mk = NewTypeSpec name (IsName n)) ->
  name <> "" -> mk w = (Ok t, w1) -> AddType f t w1 = (Ok tt, w') ->
  exists T F, nth_error (types w') t = Some T /\ nth_error (files w') f = Some F /\
    forall id, In id (TSInterface T) -> elem_refers w' (package_of F) name id.
Proof. exact @interface_methods_refer. Qed.
Print Assumptions C68_methods_partial.
Example C68_example :
  let w1 := snd ((do f <- NewGoFile "t.go" "a.b/m" "m" ;; do e <- NewInterfaceMethod "Get" ;; NewInterfaceTypeSpec "T" [e]) (@empty_world unit)) in
  let w2 := snd (AddType 0 0 w1) in
  fst (AddType 0 0 w1) = Ok tt /\
  match nth_error (ielems w2) 0 with
  | Some (InterfaceMethod _ n _ parent) => InterfaceMethod_ToMethodRef n parent w2 = Ok (mkMethodRef (mkSymbol (mkPackage "a.b/m" "m") "T") "Get")
  | _ => False
  end.
Proof. vm_compute. split; reflexivity. Qed.

(** C69 *)
Theorem C69_last_element : forall p n s,
  (exists k, (p = n ++ slashes k \/ exists dir, p = dir ++ "/" ++ n ++ slashes k)%string) -> n <> "" -> has_byte slash n = false ->
  NewPackage p = mkPackage p n /\ NewSymbol p s = mkSymbol (mkPackage p n) s.
Proof. exact new_package_name. Qed.
Print Assumptions C69_last_element.
(** Paths without elements *)
Theorem C69_no_element : forall k, NewPackage (slashes k) = mkPackage (slashes k) (if Nat.eqb k 0 then "." else "/").
Proof. exact new_package_none. Qed.
Print Assumptions C69_no_element.
Example C69_example : has_byte slash "bar" = false /\ NewPackage "foo.com/bar" = mkPackage "foo.com/bar" "bar" /\
  NewSymbol "unsafe" "Pointer" = mkSymbol (mkPackage "unsafe" "unsafe") "Pointer".
Proof. vm_compute. auto. Qed.

(** C70: as stated (every declaration can be written) the claim is false: *)
Theorem C70_empty_refuted : forall (env : Env unit), exists w F,
  (do f <- NewGoFile "t.go" "a.b/m" "m" ;; do d <- NewConstDecl [] ;; AddElement f (EConst d)) (@empty_world unit) = (Ok tt, w) /\
  nth_error (files w) 0 = Some F /\ forall fuel, GoFile_writeTo env fuel w F = Panic index_oob.
Proof. intros env. do 2 eexists. split; [vm_compute; reflexivity|]. split; [reflexivity|]. intros fuel. reflexivity. Qed.
Print Assumptions C70_empty_refuted.
(** A declaration without specs panics exactly when it has no comment; with one it is an empty group. *)
Theorem C70_empty_partial : forall A kw comment (sc : A -> string) wr, decl_writeTo kw comment sc wr [] =
  if String.eqb comment "" then Panic index_oob else Ok (writeComment comment ++ kw ++ " (" ++ newline ++ ")" ++ newline)%string.
Proof. exact @empty_decl. Qed.
Print Assumptions C70_empty_partial.
