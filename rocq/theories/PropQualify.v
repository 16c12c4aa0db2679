(** Properties of qualification: what a file says before and after its contents are qualified
    against its imports.  Only statements, examples and [exact]. *)
From Verif Require Import Base GoPath Types SpecTypes Imports SpecImports SpecGo SpecRender Conv World SpecWorld SpecFile
  SpecDecl FileTheorems SpecQualify SpecShare SourceTheorems QualifyExamples IdiomProofs MethodTheorems Write SharedProofs.

(** The example: two packages named time, own package, methods, both files apart. *)
Definition qTime := mkSymbol (mkPackage "time" "time") "Duration".
Definition qOther := mkSymbol (mkPackage "x.y/time" "time") "Clock".
Definition qOwn := mkSymbol (mkPackage "a.b/m" "m") "T".
Definition qBuild : WM (TD := unit) unit :=
  do f <- NewGoFile "x.go" "a.b/m" "m" ;;
  do v <- NewVar ["d"] ;;
  do _ <- Value_SetType vars set_vars v (IsName (TSlice (TNamed qTime))) ;;
  do _ <- Value_Initialize vars set_vars v "%s(%v)" [ASymbol qOther; ATypeName (TMap (TPtr (TNamed qOwn)) (TNamed qOther))] ;;
  do _ <- AddVar f v ;;
  do a <- NewField "A" (IsName (TPtr (TNamed qOther))) ;;
  do t <- NewStructTypeSpec "T" [a] ;;
  do _ <- AddType f t ;;
  do e <- NewInterfaceEmbed qOther ;;
  do m <- NewInterfaceMethod "Get" ;;
  do _ <- Method_AddResult m "" (TNamed qOwn) ;;
  do i <- NewInterfaceTypeSpec "I" [e; m] ;;
  do _ <- AddType f i ;;
  do fn <- NewMethod (Some (mkReceiver "r" "T" true)) "M" ;;
  do _ <- Func_AddArg fn "c" (TNamed qOther) ;;
  do _ <- Func_Printlnf fn "%s.New(%s, %s, %v)"
            [APackage (mkPackage "x.y/time" "time"); AMethodRef (mkMethodRef qOwn "M"); AMethodRefPtr (mkMethodRef qOther "N"); AVar v] ;;
  do _ <- AddElement f (EFunc fn) ;;
  do g <- NewGoFile "y.go" "a.b/k" "k" ;;
  do gn <- NewFunc "G" ;;
  do _ <- Func_AddArg gn "" (TNamed qTime) ;;
  do _ <- Func_Printlnf gn "return %s" [AFunc fn] ;;
  AddElement g (EFunc gn).
Definition qW : World unit := exec_world qBuild.
Definition qText : string :=
  ("package m" ++ nl ++ nl ++ "import ""time""" ++ nl ++ "import time1 ""x.y/time""" ++ nl ++ nl ++
   "var d []time.Duration = time1.Clock(map[time1.Clock]*T)" ++ nl ++ nl ++
   "type T  struct {" ++ nl ++ "A *time1.Clock" ++ nl ++ "}" ++ nl ++ nl ++
   "type I  interface {" ++ nl ++ "time1.Clock" ++ nl ++ "Get() T" ++ nl ++ "}" ++ nl ++ nl ++
   "func (r *T) M(c time1.Clock) {" ++ nl ++ "time1.New(T.M, time1.Clock.N, d)" ++ nl ++ "}" ++ nl)%string.
Definition qW1 : World unit := snd (source exEnv 3 0 qW).
Example q_prepared : prepared path_Base "a.b/m" [] qW 0 (file0 qW).
Proof. by_prepared. Qed.
Example q_text : source exEnv 3 0 qW = (Ok qText, qW1).
Proof. vm_compute. reflexivity. Qed.

(** C39 *)
Theorem C39_references_partial : forall TD (env : Env TD) real own h fuel f w F s w1,
  prepared real own h w f F -> source env fuel f w = (Ok s, w1) ->
  exists F1, nth_error (files w1) f = Some F1 /\
  forall cb n k a r verb, part_of w f (IBlock cb) -> argument w cb n k = Some a -> refers_to w a = Some r ->
    verb = "s"%char \/ verb = "v"%char ->
    (forall sg, r <> RSignature sg) ->
    (forall s m, r = RMethod s m -> method_by_value a = true \/
       has_package s = true /\ ~ keeps_name (FImports F1) (SymPackage s)) ->
    exists a1, argument w1 cb n k = Some a1 /\
      written real own (ImportSpecs (FImports F1)) r (fmt_arg env w1 verb a1).
Proof. exact @prepared_references. Qed.
Print Assumptions C39_references_partial.
(** Missing from it: signatures, for which it is false. *)
Theorem C39_signature_refuted : forall env : Env unit,
  ~ (forall real own h fuel f (w : World unit) F s w1, prepared real own h w f F -> source env fuel f w = (Ok s, w1) ->
     exists F1, nth_error (files w1) f = Some F1 /\
     forall cb n k a sg verb, part_of w f (IBlock cb) -> argument w cb n k = Some a -> refers_to w a = Some (RSignature sg) ->
       verb = "s"%char \/ verb = "v"%char ->
       exists a1, argument w1 cb n k = Some a1 /\
         written real own (ImportSpecs (FImports F1)) (RSignature sg) (fmt_arg env w1 verb a1)).
Proof. exact signature_refuted. Qed.
Print Assumptions C39_signature_refuted.
(** and false of every signature: none is ever written as Go *)
Theorem C39_signature_never : forall TD (env : Env TD) real own h fuel f w F s w1,
  prepared real own h w f F -> source env fuel f w = (Ok s, w1) ->
  exists F1, nth_error (files w1) f = Some F1 /\
  forall cb n k a sg verb, part_of w f (IBlock cb) -> argument w cb n k = Some a -> refers_to w a = Some (RSignature sg) ->
    verb = "s"%char \/ verb = "v"%char ->
    exists a1, argument w1 cb n k = Some a1 /\ parse_signature (fmt_arg env w1 verb a1) = None.
Proof. exact @signatures_never. Qed.
Print Assumptions C39_signature_never.
Example C39_example : part_of qW 0 (IBlock 0) /\ argument qW 0 0 1 = Some (ATypeName (TMap (TPtr (TNamed qOwn)) (TNamed qOther))) /\
  refers_to qW (ATypeName (TMap (TPtr (TNamed qOwn)) (TNamed qOther))) = Some (RType (TMap (TPtr (TNamed qOwn)) (TNamed qOther))) /\
  option_map (fmt_arg exEnv qW1 "v"%char) (argument qW1 0 0 1) = Some "map[time1.Clock]*T" /\
  part_of qW 0 (IBlock 1) /\ argument qW 1 0 3 = Some (AVar 0) /\ refers_to qW (AVar 0) = Some (RName (mkSymbol (mkPackage "a.b/m" "m") "d")).
Proof.
  split; [eapply po_var_init with (i := 0); [by_var|check|check]|]. split; [check|]. split; [check|]. split; [check|].
  split; [by_body|]. split; check.
Qed.

(** C40 *)
Theorem C40_methods_refuted : forall env : Env unit,
  ~ (forall real own h fuel f (w : World unit) F s w1, prepared real own h w f F -> source env fuel f w = (Ok s, w1) ->
     exists F1, nth_error (files w1) f = Some F1 /\
     forall cb n k a t m verb, part_of w f (IBlock cb) -> argument w cb n k = Some a -> refers_to w a = Some (RMethod t m) ->
       verb = "s"%char \/ verb = "v"%char ->
       exists a1, argument w1 cb n k = Some a1 /\
         written real own (ImportSpecs (FImports F1)) (RMethod t m) (fmt_arg env w1 verb a1)).
Proof. exact method_refuted. Qed.
Print Assumptions C40_methods_refuted.
Theorem C40_methods_partial : forall TD (env : Env TD) real own h fuel f w F s w1,
  prepared real own h w f F -> source env fuel f w = (Ok s, w1) ->
  exists F1, nth_error (files w1) f = Some F1 /\
  forall cb n k a t m verb, part_of w f (IBlock cb) -> argument w cb n k = Some a -> refers_to w a = Some (RMethod t m) ->
    verb = "s"%char \/ verb = "v"%char ->
    method_by_value a = true \/ has_package t = true /\ ~ keeps_name (FImports F1) (SymPackage t) ->
    exists a1, argument w1 cb n k = Some a1 /\
      written real own (ImportSpecs (FImports F1)) (RMethod t m) (fmt_arg env w1 verb a1).
Proof. exact @prepared_methods. Qed.
Print Assumptions C40_methods_partial.
(** The condition of the partial theorem is exact (the text of a go/types object is outside the model). *)
Theorem C40_methods_exact : forall TD (env : Env TD) real own h fuel f w F s w1,
  prepared real own h w f F -> source env fuel f w = (Ok s, w1) ->
  exists F1, nth_error (files w1) f = Some F1 /\
  forall cb n k a t m verb, part_of w f (IBlock cb) -> argument w cb n k = Some a -> refers_to w a = Some (RMethod t m) ->
    (forall o, a <> AGoObject o) -> verb = "s"%char \/ verb = "v"%char ->
    exists a1, argument w1 cb n k = Some a1 /\
      (written real own (ImportSpecs (FImports F1)) (RMethod t m) (fmt_arg env w1 verb a1) <->
       method_by_value a = true \/ has_package t = true /\ ~ keeps_name (FImports F1) (SymPackage t)).
Proof. exact @methods_exact. Qed.
Print Assumptions C40_methods_exact.
(** a declared method whose package keeps its name, and one whose package gets another *)
Example C40_exact_example : prepared path_Base "a.b/m" [] meth_world 0 (file0 meth_world) /\
  refers_to meth_world (AFunc 0) = Some (RMethod (mkSymbol (mkPackage "x.y/n" "n") "T") "M") /\
  option_map (fmt_arg exEnv (snd (source exEnv 3 0 meth_world)) "s"%char) (argument (snd (source exEnv 3 0 meth_world)) 1 0 0) = Some "M" /\
  refers_to meth2_world (AFunc 0) = Some (RMethod (mkSymbol (mkPackage "x.y/n" "n") "T") "M") /\
  option_map (fmt_arg exEnv (snd (source exEnv 3 0 meth2_world)) "s"%char) (argument (snd (source exEnv 3 0 meth2_world)) 1 0 1) = Some "n1.T.M".
Proof. split; [by_prepared|]. repeat split; check. Qed.
Example C40_example : argument qW 1 0 2 = Some (AMethodRefPtr (mkMethodRef qOther "N")) /\
  refers_to qW (AMethodRefPtr (mkMethodRef qOther "N")) = Some (RMethod qOther "N") /\
  option_map (fmt_arg exEnv qW1 "s"%char) (argument qW1 1 0 2) = Some "time1.Clock.N".
Proof. repeat split; check. Qed.

(** C41 *)
Theorem C41_imports : forall TD (env : Env TD) own h fuel f w F s w1,
  nth_error (files w) f = Some F -> FImports F = run h (NewImportsFor own) -> no_templates w f ->
  source env fuel f w = (Ok s, w1) ->
  exists F1, nth_error (files w1) f = Some F1 /\
    forall path, In path (listed (FImports F1)) <->
      In path (listed (FImports F)) \/ path <> own /\ exists n, file_mentions w f (path, n).
Proof. exact @imports_exact. Qed.
Print Assumptions C41_imports.
Example C41_example : listed (FImports (file0 qW)) = [] /\ listed (FImports (file0 qW1)) = ["time"; "x.y/time"] /\
  file_mentions qW 0 ("time", "time") /\ file_mentions qW 0 ("a.b/m", "m").
Proof.
  split; [vm_compute; reflexivity|]. split; [vm_compute; reflexivity|]. split.
  - eapply fm_var with (i := 0); [by_var|check|cbn; auto].
  - eapply fm_arg with (cb := 1) (n := 0) (k := 3); [by_body|check|check|cbn; auto].
Qed.

(** C42 *)
Theorem C42_meaning_refuted : forall env : Env unit,
  ~ (forall real own h fuel f (w : World unit) F s w1 g0, prepared real own h w f F -> source env fuel f w = (Ok s, w1) ->
     file_meaning_with (path_qualifier own) w (block_text env w1) fuel F = Some g0 ->
     exists F1 g, nth_error (files w1) f = Some F1 /\ parse_file s = Some g /\
       map import_of (GImports g) = ImportSpecs (FImports F1) /\
       resolve_file real g = Some (mkGFile (GPackage g0) (GImports g) (GDecls g0))).
Proof. exact meaning_refuted. Qed.
Print Assumptions C42_meaning_refuted.
Theorem C42_import_refuted : forall env : Env unit,
  ~ (forall real own h fuel f (w : World unit) F s w1, prepared real own h w f F -> source env fuel f w = (Ok s, w1) ->
     exists F1, nth_error (files w1) f = Some F1 /\
     forall i v id T g G, part_of w f (IVar i) -> nth_error (vars w) i = Some v -> VSType v = IsSpec id ->
       nth_error (types w) id = Some T -> TSName T <> "" -> TSParent T = Some g -> nth_error (files w) g = Some G ->
       pkgPath (FImports G) <> own -> In (pkgPath (FImports G)) (listed (FImports F1))).
Proof. exact spec_import_refuted. Qed.
Print Assumptions C42_import_refuted.
(** Exactly when the text is right. *)
Theorem C42_named_spec_iff : forall TD (env : Env TD) (w : World TD) id T g G real own specs,
  nth_error (types w) id = Some T -> TSName T <> "" -> TSParent T = Some g -> nth_error (files w) g = Some G ->
  FPackageName G <> "" ->
  exists text, TypeNameOrSpec_text env w (IsSpec id) = (" " ++ text)%string /\
  (written_symbol real own specs (mkSymbol (package_of G) (TSName T)) text <->
   refers real own specs (FPackageName G) (pkgPath (FImports G))).
Proof. exact @spec_written. Qed.
Print Assumptions C42_named_spec_iff.
Example C42_example : nth_error (types far_world) 0 = Some (mkTypeSpec "" "T" false (TBasic KInt) [] [] (Some 1)) /\
  nth_error (files far_world) 1 = Some (file1 far_world) /\ FPackageName (file1 far_world) = "n" /\
  TypeNameOrSpec_text exEnv far_world (IsSpec 0) = " n.T".
Proof. repeat split; check. Qed.

(** C43 *)
Theorem C43_twice : forall TD (env : Env TD) own h fuel f w F s w1,
  nth_error (files w) f = Some F -> FImports F = run h (NewImportsFor own) -> no_templates w f ->
  source env fuel f w = (Ok s, w1) -> source env fuel f w1 = (Ok s, w1).
Proof. exact @source_twice. Qed.
Print Assumptions C43_twice.
Example C43_example : argument qW1 0 0 0 = Some (ASymbol (mkSymbol (mkPackage "x.y/time" "time1") "Clock")) /\
  no_templates qW 0.
Proof. split; [vm_compute; reflexivity|apply lines_only; vm_compute; reflexivity]. Qed.

(** C44 *)
Theorem C44_sharing_refuted : forall env : Env unit,
  ~ (forall real own h own' h' fuel f g (w : World unit) F G s w1 s' w2,
     prepared real own h w f F -> prepared real own' h' w g G -> f <> g ->
     source env fuel f w = (Ok s, w1) -> source env fuel g w1 = (Ok s', w2) ->
     exists G2, nth_error (files w2) g = Some G2 /\
     forall cb n k a y, part_of w g (IBlock cb) -> argument w cb n k = Some a -> refers_to w a = Some (RName y) ->
       exists a2, argument w2 cb n k = Some a2 /\
         written real own' (ImportSpecs (FImports G2)) (RName y) (fmt_arg env w2 "s"%char a2)).
Proof. exact sharing_refuted. Qed.
Print Assumptions C44_sharing_refuted.
Theorem C44_go_package_refuted : forall env : Env unit,
  ~ (forall real own h own' h' fuel f g (w : World unit) F G s w1 s' w2,
     prepared real own h w f F -> prepared real own' h' w g G -> f <> g ->
     source env fuel f w = (Ok s, w1) -> source env fuel g w1 = (Ok s', w2) ->
     exists G2, nth_error (files w2) g = Some G2 /\
     forall cb n k a p, part_of w g (IBlock cb) -> argument w cb n k = Some a -> refers_to w a = Some (RPackage p) ->
       exists a2, argument w2 cb n k = Some a2 /\
         written real own' (ImportSpecs (FImports G2)) (RPackage p) (fmt_arg env w2 "s"%char a2)).
Proof. exact go_package_refuted. Qed.
Print Assumptions C44_go_package_refuted.
Theorem C44_apart_partial : forall TD (env : Env TD) real own h own' h' fuel f g (w : World TD) F G s w1 s' w2,
  prepared real own h w f F -> prepared real own' h' w g G -> f <> g -> ~ shared w f g ->
  source env fuel f w = (Ok s, w1) -> source env fuel g w1 = (Ok s', w2) ->
  exists G2, nth_error (files w2) g = Some G2 /\
  (forall path, In path (listed (FImports G2)) <->
     In path (listed (FImports G)) \/ path <> own' /\ exists n, file_mentions w g (path, n)) /\
  (forall cb n k a r verb, part_of w g (IBlock cb) -> argument w cb n k = Some a -> refers_to w a = Some r ->
    verb = "s"%char \/ verb = "v"%char ->
    (forall sg, r <> RSignature sg) ->
    (forall s m, r = RMethod s m -> method_by_value a = true \/
       has_package s = true /\ ~ keeps_name (FImports G2) (SymPackage s)) ->
    exists a2, argument w2 cb n k = Some a2 /\
      written real own' (ImportSpecs (FImports G2)) r (fmt_arg env w2 verb a2)) /\
  (forall g0, no_named_specs w g -> file_meaning_with (path_qualifier own') w (block_text env w2) fuel G = Some g0 ->
    exists p, parse_file s' = Some p /\ map import_of (GImports p) = ImportSpecs (FImports G2) /\
      resolve_file real p = Some (mkGFile (GPackage g0) (GImports p) (GDecls g0))).
Proof. exact @prepared_apart. Qed.
Print Assumptions C44_apart_partial.
Example C44_example : prepared path_Base "a.b/k" [] qW 1 (file1 qW) /\ ~ shared qW 0 1 /\
  fst (source exEnv 3 1 qW1) = Ok ("package k" ++ nl ++ nl ++ "import ""a.b/m""" ++ nl ++ "import ""time""" ++ nl ++ nl ++
    "func G(time.Duration) {" ++ nl ++ "return M" ++ nl ++ "}" ++ nl)%string.
Proof.
  split; [by_prepared|]. split; [|vm_compute; reflexivity].
  apply labelled_apart with (lab := fun x => match x with IFunc 1 | IBlock 2 => 1 | _ => 0 end) (laba := fun a => if Nat.eqb a 2 then 1 else 0);
    [vm_compute; reflexivity|discriminate].
Qed.

(** Files that share declarations or code, in any number: the package names kept in the shared parts
    by the files written earlier are the real ones (or a file's own package, left without a name). *)
Theorem C44_shared_partial : forall TD (env : Env TD) real own h fuel l g (w w1 : World TD) G s w2,
  (forall f, In f l -> exists own h F, prepared real own h w f F) -> NoDup (l ++ [g]) -> prepared real own h w g G ->
  in_order env fuel l w w1 -> share_well real w w1 (l ++ [g]) -> source env fuel g w1 = (Ok s, w2) ->
  exists G2, nth_error (files w2) g = Some G2 /\
  (forall path, In path (listed (FImports G2)) <->
     In path (listed (FImports G)) \/ path <> own /\ exists n, file_mentions w g (path, n)) /\
  (forall cb n k a r verb, part_of w g (IBlock cb) -> argument w cb n k = Some a -> refers_to w a = Some r ->
    verb = "s"%char \/ verb = "v"%char ->
    (forall sg, r <> RSignature sg) ->
    (forall s m, r = RMethod s m -> method_by_value a = true \/
       has_package s = true /\ ~ keeps_name (FImports G2) (SymPackage s)) ->
    exists a2, argument w2 cb n k = Some a2 /\
      written real own (ImportSpecs (FImports G2)) r (fmt_arg env w2 verb a2)) /\
  (forall g0, no_named_specs w g -> file_meaning_with (path_qualifier own) w (block_text env w2) fuel G = Some g0 ->
    exists p, parse_file s = Some p /\ map import_of (GImports p) = ImportSpecs (FImports G2) /\
      resolve_file real p = Some (mkGFile (GPackage g0) (GImports p) (GDecls g0))).
Proof. exact @order_written. Qed.
Print Assumptions C44_shared_partial.
(** So does WriteGoFiles, if it returns no error. *)
Theorem C44_write_all_partial : forall TD (env : Env TD) X H E (format_Source : string -> string + E)
    (write : H -> string -> X -> done E * X) (close : H -> X -> done E * X) real own h outFn fuel l g r st st' G,
  (forall f, In f (l ++ g :: r) -> exists own h F, prepared real own h (world st) f F) -> NoDup (l ++ g :: r) ->
  prepared real own h (world st) g G ->
  WriteGoFiles env format_Source write close outFn fuel (l ++ g :: r) st = (Ret None, st') ->
  share_well real (world st) (world st') (l ++ g :: r) ->
  exists G2 s w2 hd formatted, nth_error (files (world st')) g = Some G2 /\ format_Source s = inl formatted /\
  In (EvWrite hd formatted Done) (trace st') /\
  (forall path, In path (listed (FImports G2)) <->
     In path (listed (FImports G)) \/ path <> own /\ exists n, file_mentions (world st) g (path, n)) /\
  (forall g0, no_named_specs (world st) g -> file_meaning_with (path_qualifier own) (world st) (block_text env w2) fuel G = Some g0 ->
    exists p, parse_file s = Some p /\ map import_of (GImports p) = ImportSpecs (FImports G2) /\
      resolve_file real p = Some (mkGFile (GPackage g0) (GImports p) (GDecls g0))).
Proof. exact @write_all. Qed.
Print Assumptions C44_write_all_partial.
(** Three files with one code block in common; it mentions the package of the second file, and in the third one of its
    packages needs an alias. *)
Definition sBuild : WM (TD := unit) unit :=
  do f <- NewGoFile "x.go" "a.b/m" "m" ;;
  do g <- NewGoFile "y.go" "a.b/k" "k" ;;
  do k <- NewGoFile "z.go" "a.b/n" "n" ;;
  do c <- Printlnf "%s(%s.Z, new(%v))"
            [ASymbol (mkSymbol (mkPackage "x/y" "") "Foo"); APackagePtr (mkPackage "x/z" "z"); ATypeName (TSlice (TNamed (mkSymbol (mkPackage "a.b/k" "k") "T")))] ;;
  do fn <- NewFunc "F" ;;
  do _ <- Func_AddCode fn c ;;
  do _ <- AddElement f (EFunc fn) ;;
  do gn <- NewFunc "G" ;;
  do _ <- Func_AddCode gn c ;;
  do _ <- AddElement g (EFunc gn) ;;
  do kn <- NewFunc "K" ;;
  do _ <- Func_Printlnf kn "%s()" [ASymbol (mkSymbol (mkPackage "other/y" "y") "Bar")] ;;
  do _ <- Func_AddCode kn c ;;
  AddElement k (EFunc kn).
Definition sW : World unit := exec_world sBuild.
Definition sW1 : World unit := snd (source exEnv 3 0 sW).
Definition sW2 : World unit := snd (source exEnv 3 1 sW1).
Definition s_file (n : nat) : GoFile := nth n (files sW) (file0 sW).
Example C44_shared_example :
  prepared path_Base "a.b/m" [] sW 0 (s_file 0) /\ prepared path_Base "a.b/k" [] sW 1 (s_file 1) /\ prepared path_Base "a.b/n" [] sW 2 (s_file 2) /\
  in_order exEnv 3 [0; 1] sW sW2 /\ share_well path_Base sW sW2 ([0; 1] ++ [2]) /\ shared_mentions sW 0 2 ("x/z", "z") /\
  map (fun s => fst s) [source exEnv 3 0 sW; source exEnv 3 1 sW1; source exEnv 3 2 sW2] =
  map Ok [
    "package m" ++ nl ++ nl ++ "import ""a.b/k""" ++ nl ++ "import y ""x/y""" ++ nl ++ "import ""x/z""" ++ nl ++ nl ++
      "func F() {" ++ nl ++ "y.Foo(z.Z, new([]k.T))" ++ nl ++ "}" ++ nl;
    "package k" ++ nl ++ nl ++ "import ""x/y""" ++ nl ++ "import ""x/z""" ++ nl ++ nl ++
      "func G() {" ++ nl ++ "y.Foo(z.Z, new([]T))" ++ nl ++ "}" ++ nl;
    "package n" ++ nl ++ nl ++ "import k ""a.b/k""" ++ nl ++ "import ""other/y""" ++ nl ++ "import y1 ""x/y""" ++ nl ++ "import ""x/z""" ++ nl ++ nl ++
      "func K() {" ++ nl ++ "y.Bar()" ++ nl ++ "y1.Foo(z.Z, new([]k.T))" ++ nl ++ "}" ++ nl]%string.
Proof.
  split; [by_prepared|]. split; [by_prepared|]. split; [by_prepared|].
  split. { econstructor; [vm_compute; reflexivity|]. econstructor; [vm_compute; reflexivity|]. constructor. }
  split.
  { apply FOP_cons; [apply Forall_cons; [|apply Forall_cons; [|apply Forall_nil]]|apply FOP_cons; [apply Forall_cons; [|apply Forall_nil]|apply FOP_cons; [apply Forall_nil|apply FOP_nil]]];
      intros F1 E1; vm_compute in E1; injection E1 as <-.
    - eapply (shares_check sW path_Base 0 1 "a.b/m" [CRegisterImport "x/y" ""; CRegisterImport "x/z" "z"; CRegisterImport "a.b/k" "k"]); vm_compute; reflexivity.
    - eapply (shares_check sW path_Base 0 2 "a.b/m" [CRegisterImport "x/y" ""; CRegisterImport "x/z" "z"; CRegisterImport "a.b/k" "k"]); vm_compute; reflexivity.
    - eapply (shares_check sW path_Base 1 2 "a.b/k" [CRegisterImport "x/y" "y"; CRegisterImport "x/z" "z"]); vm_compute; reflexivity. }
  split; [|vm_compute; reflexivity].
  right. exists 0. split; [|split].
  - exists 1. eexists. eexists. split; [by_body|]. split; [vm_compute; reflexivity|]. left. reflexivity.
  - exists 3. eexists. eexists. split; [by_body|]. split; [vm_compute; reflexivity|]. right. left. reflexivity.
  - exists [ASymbol (mkSymbol (mkPackage "x/y" "") "Foo"); APackagePtr (mkPackage "x/z" "z"); ATypeName (TSlice (TNamed (mkSymbol (mkPackage "a.b/k" "k") "T")))].
    eexists. eexists. split; [vm_compute; reflexivity|]. split; [right; left; reflexivity|]. split; [vm_compute; reflexivity|]. left. reflexivity.
Qed.

(** C60 *)
Theorem C60_others : forall TD (env : Env TD) own h fuel f w F s w1,
  nth_error (files w) f = Some F -> FImports F = run h (NewImportsFor own) -> no_templates w f ->
  source env fuel f w = (Ok s, w1) ->
  (forall g, g <> f -> nth_error (files w1) g = nth_error (files w) g) /\
  (exists F1, nth_error (files w1) f = Some F1 /\ FFileComment F1 = FFileComment F /\ FPackageComment F1 = FPackageComment F /\
     FCanonical F1 = FCanonical F /\ FPackageName F1 = FPackageName F /\ FName F1 = FName F /\
     FElements F1 = FElements F /\ pkgPath (FImports F1) = own) /\
  constDecls w1 = constDecls w /\ varDecls w1 = varDecls w /\ typeDecls w1 = typeDecls w /\
  blocks w1 = blocks w /\ templs w1 = templs w /\
  (forall i, ~ part_of w f (IConst i) -> nth_error (consts w1) i = nth_error (consts w) i) /\
  (forall i, ~ part_of w f (IVar i) -> nth_error (vars w1) i = nth_error (vars w) i) /\
  (forall i, ~ part_of w f (IType i) -> nth_error (types w1) i = nth_error (types w) i) /\
  (forall i, ~ part_of w f (IField i) -> nth_error (fields w1) i = nth_error (fields w) i) /\
  (forall i, ~ part_of w f (IElem i) -> nth_error (ielems w1) i = nth_error (ielems w) i) /\
  (forall i, ~ part_of w f (IFunc i) -> nth_error (funcs w1) i = nth_error (funcs w) i) /\
  (forall a, ~ uses_args w f a -> nth_error (argss w1) a = nth_error (argss w) a).
Proof. exact @others_unchanged. Qed.
Print Assumptions C60_others.
Example C60_example : ~ part_of qW 0 (IFunc 1) /\ ~ uses_args qW 0 2 /\ nth_error (funcs qW) 1 <> None /\ nth_error (argss qW) 2 <> None.
Proof.
  assert (L : labelled qW (fun x => match x with IFunc 1 | IBlock 2 => 1 | _ => 0 end) (fun a => if Nat.eqb a 2 then 1 else 0) = true) by (vm_compute; reflexivity).
  split; [|split; [|split; vm_compute; discriminate]].
  - intros P. apply (part_label _ _ _ L) in P. discriminate.
  - intros P. apply (args_label _ _ _ L) in P. discriminate.
Qed.

(** C61 *)
Theorem C61_package_refuted : forall env : Env unit,
  ~ (forall real own h fuel f (w : World unit) F s w1, prepared real own h w f F -> source env fuel f w = (Ok s, w1) ->
     exists F1, nth_error (files w1) f = Some F1 /\
     forall cb n k p name, part_of w f (IBlock cb) -> argument w cb n k = Some (APackage p) ->
       exists a1, argument w1 cb n k = Some a1 /\
         written_symbol real own (ImportSpecs (FImports F1)) (mkSymbol p name) (fmt_arg env w1 "s"%char a1 ++ "." ++ name)%string).
Proof. exact idiom_refuted. Qed.
Print Assumptions C61_package_refuted.
Theorem C61_package_partial : forall TD (env : Env TD) real own h fuel f w F s w1,
  prepared real own h w f F -> source env fuel f w = (Ok s, w1) ->
  exists F1, nth_error (files w1) f = Some F1 /\
  forall cb n k p name, part_of w f (IBlock cb) -> argument w cb n k = Some (APackage p) -> ImportPath p <> own ->
    exists a1, argument w1 cb n k = Some a1 /\
      written_symbol real own (ImportSpecs (FImports F1)) (mkSymbol p name) (fmt_arg env w1 "s"%char a1 ++ "." ++ name)%string.
Proof. exact @prepared_idiom. Qed.
Print Assumptions C61_package_partial.
Example C61_example : argument qW 1 0 0 = Some (APackage (mkPackage "x.y/time" "time")) /\
  option_map (fmt_arg exEnv qW1 "s"%char) (argument qW1 1 0 0) = Some "time1".
Proof. repeat split; check. Qed.

(** Exactly: for packages other than the file's own, in whatever form they are given. *)
Theorem C61_exact : forall TD (env : Env TD) real own h fuel f w F s w1,
  prepared real own h w f F -> source env fuel f w = (Ok s, w1) ->
  exists F1, nth_error (files w1) f = Some F1 /\
  forall cb n k a p name verb, part_of w f (IBlock cb) -> argument w cb n k = Some a -> refers_to w a = Some (RPackage p) ->
    verb = "s"%char \/ verb = "v"%char ->
    exists a1, argument w1 cb n k = Some a1 /\
      (written_symbol real own (ImportSpecs (FImports F1)) (mkSymbol p name) (fmt_arg env w1 verb a1 ++ "." ++ name)%string <->
       ImportPath p <> own) /\
      (ImportPath p = own -> fmt_arg env w1 verb a1 = "").
Proof. exact @prepared_idiom_exact. Qed.
Print Assumptions C61_exact.
Example C61_exact_example : prepared path_Base "a.b/m" [] idiom_world 0 (file0 idiom_world) /\
  refers_to idiom_world (APackage (mkPackage "a.b/m" "m")) = Some (RPackage (mkPackage "a.b/m" "m")) /\
  argument idiom_world 0 0 0 = Some (APackage (mkPackage "a.b/m" "m")) /\ part_of idiom_world 0 (IBlock 0) /\
  is_ok (fst (source exEnv 3 0 idiom_world)) = true.
Proof. split; [by_prepared|]. split; [check|]. split; [check|]. split; [by_body|check]. Qed.

(** C62 *)
Theorem C62_file_means : forall TD (env : Env TD) real own h fuel f w F s w1,
  prepared real own h w f F -> source env fuel f w = (Ok s, w1) -> forall g0, no_named_specs w f ->
  file_meaning_with (path_qualifier own) w (block_text env w1) fuel F = Some g0 ->
  exists F1 g, nth_error (files w1) f = Some F1 /\ parse_file s = Some g /\
    map import_of (GImports g) = ImportSpecs (FImports F1) /\
    resolve_file real g = Some (mkGFile (GPackage g0) (GImports g) (GDecls g0)).
Proof. exact @prepared_means. Qed.
Print Assumptions C62_file_means.
Definition qMeaning : gfile :=
  mkGFile "m" []
    [DVar false [(["d"], Some (GSlice (GName (Some "time") "Duration")),
                  Some [TIdent "time1"; TOp "."; TIdent "Clock"; TOp "("; TKw "map"; TOp "["; TIdent "time1"; TOp "."; TIdent "Clock";
                        TOp "]"; TOp "*"; TIdent "T"; TOp ")"])];
     DType false [("T", false, GStruct [(Some "A", GPtr (GName (Some "x.y/time") "Clock"), "")])];
     DType false [("I", false, GInterface [inr (Some "x.y/time", "Clock"); inl ("Get", [], [(None, false, GName None "T")])])];
     DFunc (Some (Some "r", true, "T")) "M" ([(Some "c", false, GName (Some "x.y/time") "Clock")], [])
       [TIdent "time1"; TOp "."; TIdent "New"; TOp "("; TIdent "T"; TOp "."; TIdent "M"; TOp ",";
        TIdent "time1"; TOp "."; TIdent "Clock"; TOp "."; TIdent "N"; TOp ","; TIdent "d"; TOp ")"; TOp ";"]].
Example C62_example : no_named_specs qW 0 /\
  file_meaning_with (path_qualifier "a.b/m") qW (block_text exEnv qW1) 3 (file0 qW) = Some qMeaning.
Proof. split; [apply no_named; vm_compute; reflexivity|vm_compute; reflexivity]. Qed.
