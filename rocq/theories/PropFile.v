(** Properties of model.go and code.go: files, declarations, comments, code blocks.  Only
    statements, examples and [exact]. *)
From Verif Require Import Base GoPath Types SpecTypes Imports SpecImports SpecGo SpecRender Conv Fmt World SpecWorld
  SpecFile SpecDecl SpecText SpecDeclText WorldProofs FileTheorems DeclTheorems DeclExact.

(** The example used below: a file with every kind of declaration. *)
Definition exTime := mkSymbol (mkPackage "time" "time") "Duration".
Definition exBuild : WM (TD := unit) nat :=
  do f <- NewGoFile "x.go" "a.b/m" "m" ;;
  do _ <- SetFileComment f ("Copyright" ++ newline ++ "2020") ;;
  do _ <- SetCanonical f "a.b/m" ;;
  do c1 <- NewConst ["A"] ;;
  do _ <- Value_Initialize consts set_consts c1 "iota" [] ;;
  do c2 <- NewConst ["B"] ;;
  do _ <- Value_SetComment consts set_consts c2 "second" ;;
  do d <- NewConstDecl [c1; c2] ;;
  do _ <- AddElement f (EConst d) ;;
  do v <- NewVar ["x"; "y"] ;;
  do _ <- Value_SetType vars set_vars v (IsName (TSlice (TNamed exTime))) ;;
  do _ <- AddVar f v ;;
  do t <- NewTypeSpec "T" (IsName (TStruct [mkField "A" (TMap (TBasic KInt) (TBasic KString)) "k"; mkField "" (TPtr (TNamed exTime)) ""])) ;;
  do _ <- AddType f t ;;
  do fn <- NewMethod (Some (mkReceiver "r" "T" true)) "M" ;;
  do _ <- Func_SetComment fn "M does." ;;
  do _ <- Func_AddArg fn "d" (TNamed exTime) ;;
  do _ <- Func_AddResult fn "" (TBasic KInt) ;;
  do _ <- Func_Printlnf fn "return %s(%d)" [ASymbol (mkSymbol (mkPackage "a.b/m" "m") "f"); AInt 3] ;;
  do _ <- AddElement f (EFunc fn) ;;
  do _ <- qualify_file exEnv 3 f ;;
  sret f.
Definition exW : World unit := exec_world exBuild.
Definition exF : GoFile := nth 0 (files exW) (mkFile (NewImportsFor "") "" "" "" "" "" []).
Definition exText : string :=
  ("// Copyright" ++ nl ++ "// 2020" ++ nl ++ nl ++ "package m // import ""a.b/m""" ++ nl ++ nl ++
   "import ""time""" ++ nl ++ nl ++
   "const (" ++ nl ++ "A = iota" ++ nl ++ "// second" ++ nl ++ "B" ++ nl ++ ")" ++ nl ++ nl ++
   "var x, y []time.Duration" ++ nl ++ nl ++
   "type T  struct {" ++ nl ++ "A map[string]int `k`" ++ nl ++ "*time.Duration" ++ nl ++ "}" ++ nl ++ nl ++
   "// M does." ++ nl ++ "func (r *T) M(d time.Duration) int {" ++ nl ++ "return f(3)" ++ nl ++ "}" ++ nl)%string.
Definition exMeaning : gfile :=
  mkGFile "m" [(None, "time")]
    [DConst true [(["A"], None, Some [TIdent "iota"]); (["B"], None, None)];
     DVar false [(["x"; "y"], Some (GSlice (GName (Some "time") "Duration")), None)];
     DType false [("T", false, GStruct [(Some "A", GMap (GName None "string") (GName None "int"), "k");
                                        (None, GPtr (GName (Some "time") "Duration"), "")])];
     DFunc (Some (Some "r", true, "T")) "M"
       ([(Some "d", false, GName (Some "time") "Duration")], [(None, false, GName None "int")])
       [TKw "return"; TIdent "f"; TOp "("; TInt "3"; TOp ")"; TOp ";"]].
Example ex_text : GoFile_writeTo exEnv 3 exW exF = Ok exText.
Proof. vm_compute. reflexivity. Qed.

(** C31 *)
Theorem C31_comments : forall c,
  (c = "" -> writeComment c = "") /\
  (c <> "" -> exists lines, lines_of c lines /\ writeComment c = comment_text lines) /\
  (forall rest, tokens (writeComment c ++ rest) = tokens rest).
Proof. exact writeComment_spec. Qed.
Print Assumptions C31_comments.
Example C31_example : lines_of ("a } \" ++ nl ++ nl ++ "// */ b")%string ["a } \"; ""; "// */ b"] /\
  writeComment ("a } \" ++ nl ++ nl ++ "// */ b")%string = ("// a } \" ++ nl ++ "// " ++ nl ++ "// // */ b" ++ nl)%string /\
  tokens (writeComment ("a } \" ++ nl ++ "b")%string ++ "x y")%string = Some [TIdent "x"; TIdent "y"; TOp ";"].
Proof.
  repeat split; try (vm_compute; reflexivity); try discriminate.
  repeat constructor; intros I; vm_compute in I; intuition discriminate.
Qed.

(** C32 *)
Theorem C32_file_names : forall TD name path pkg (w : World TD),
  (go_name name -> NewGoFile name path pkg w =
     (Ok (List.length (files w)),
      set_files (files w ++ [mkFile (NewImportsFor path) name "" "" pkg "" []]) w)) /\
  (~ go_name name -> exists m, NewGoFile name path pkg w = (Panic m, w)).
Proof. exact @NewGoFile_spec. Qed.
Print Assumptions C32_file_names.
Example C32_example : go_name "a.pb.go" /\ go_name ".go" /\ ~ go_name "a/b.go" /\ ~ go_name "x.goo".
Proof.
  split; [|split; [|split]].
  - split; [cbn; intuition discriminate|exists "a.pb"; reflexivity].
  - split; [cbn; intuition discriminate|exists ""; reflexivity].
  - intros [H _]. apply H. cbn. auto.
  - intros [_ (s & E)]. do 6 (destruct s as [|? s]; try discriminate E).
Qed.

(** C33: the text, comments included, and what it parses to. *)
Theorem C33_forms : forall TD (env : Env TD) w fuel e kw comment ms,
  members env w fuel e = Some (kw, comment, ms) ->
  FileElement_writeTo env fuel w e =
    if Nat.ltb 1 (List.length ms) || negb (String.eqb comment "")
    then W (writeComment comment ++ kw ++ " (" ++ newline)%string
         +++ concat_res (map (fun m => W (writeComment (fst m)) +++ snd m) ms) +++ W (")" ++ newline)%string
    else match ms with
         | [(c, t)] => W (writeComment c ++ kw ++ " ")%string +++ t
         | _ => Panic index_oob
         end.
Proof. exact @element_form. Qed.
Print Assumptions C33_forms.
Theorem C33_parses : forall TD (env : Env TD) w fuel e d,
  has_content w e = true -> element_meaning w (block_text env w) fuel e = Some d ->
  exists s ts, FileElement_writeTo env fuel w e = Ok s /\ tokens s = Some ts /\ ptop ts = Some (d, []).
Proof. exact @element_parses. Qed.
Print Assumptions C33_parses.
Example C33_example :
  members exEnv exW 3 (EConst 0) =
    Some ("const", "", [("", Ok ("A = iota" ++ nl)%string); ("second", Ok ("B" ++ nl)%string)]) /\
  has_content exW (EConst 0) = true /\
  element_meaning exW (block_text exEnv exW) 3 (EConst 0) = Some (nth 0 (GDecls exMeaning) (DVar true [])).
Proof. repeat split; vm_compute; reflexivity. Qed.

(** C34 *)
Theorem C34_value_symbols : forall TD (w : World TD) v f F,
  VParent v = Some f -> nth_error (files w) f = Some F ->
  (forall i n, nth_error (VNames v) i = Some n ->
     ValueSpec_SymbolAt v (Z.of_nat i) w = Ok (mkSymbol (package_of F) n)) /\
  (forall i, (i < 0 \/ Z.of_nat (List.length (VNames v)) <= i)%Z -> is_ok (ValueSpec_SymbolAt v i w) = false) /\
  (forall n, VNames v = [n] -> ValueSpec_ToSymbol v w = Ok (mkSymbol (package_of F) n)) /\
  (List.length (VNames v) <> 1 -> is_ok (ValueSpec_ToSymbol v w) = false) /\
  ValueSpec_String v w = Ok (join ", " (map (qualified (package_of F)) (VNames v))).
Proof. exact @value_symbols. Qed.
Print Assumptions C34_value_symbols.
Theorem C34_value_unattached : forall TD (w : World TD) v, VParent v = None ->
  (forall i, is_ok (ValueSpec_SymbolAt v i w) = false) /\ is_ok (ValueSpec_ToSymbol v w) = false /\
  ValueSpec_String v w = Ok (join ", " (VNames v)).
Proof. exact @value_unattached. Qed.
Print Assumptions C34_value_unattached.
Theorem C34_type_symbols : forall TD (w : World TD) env T,
  (TSName T = "" -> is_ok (TypeSpec_ToSymbol T w) = false /\ TypeSpec_ToTypeName T w = Ok (TSUnderlying T) /\
                    TypeSpec_String env T w = typeNameToString (isPrint env) (TSUnderlying T)) /\
  (TSName T <> "" -> TSParent T = None -> is_ok (TypeSpec_ToSymbol T w) = false /\
                     is_ok (TypeSpec_ToTypeName T w) = false /\ TypeSpec_String env T w = Ok (TSName T)) /\
  (forall f F, TSName T <> "" -> TSParent T = Some f -> nth_error (files w) f = Some F ->
     TypeSpec_ToSymbol T w = Ok (mkSymbol (package_of F) (TSName T)) /\
     TypeSpec_ToTypeName T w = Ok (NamedType (mkSymbol (package_of F) (TSName T))) /\
     TypeSpec_String env T w = Ok (qualified (package_of F) (TSName T))).
Proof. exact @type_symbols. Qed.
Print Assumptions C34_type_symbols.
Theorem C34_func_symbols : forall TD (w : World TD) fn,
  (FNParent fn = None -> is_ok (FuncSpec_ToSymbol fn w) = false /\ FuncSpec_String fn w = Ok (FNName fn)) /\
  (forall f F, FNParent fn = Some f -> nth_error (files w) f = Some F ->
     match FNReceiver fn with
     | None => FuncSpec_ToSymbol fn w = Ok (SomSymbol (mkSymbol (package_of F) (FNName fn))) /\
               FuncSpec_String fn w = Ok (qualified (package_of F) (FNName fn))
     | Some r => FuncSpec_ToSymbol fn w =
                   Ok (SomMethod (mkMethodRef (mkSymbol (package_of F) (RcvType r)) (FNName fn))) /\
                 FuncSpec_String fn w = Ok (FNName fn)
     end).
Proof. exact @func_symbols. Qed.
Print Assumptions C34_func_symbols.
Example C34_example : match nth_error (vars exW) 0 with
  | Some v => VParent v = Some 0 /\ ValueSpec_String v exW = Ok "m.x, m.y" /\
              ValueSpec_SymbolAt v 1 exW = Ok (mkSymbol (mkPackage "a.b/m" "m") "y")
  | None => False end.
Proof. vm_compute. auto. Qed.

(** C35 *)
Theorem C35_func_type : forall TD (w : World TD) fn,
  (FNReceiver fn = None -> FuncSpec_ToTypeName fn w = FuncTypeFromSig (FNSig fn)) /\
  (forall r, FNReceiver fn = Some r ->
     (FNParent fn = None -> is_ok (FuncSpec_ToTypeName fn w) = false) /\
     (forall f F, FNParent fn = Some f -> nth_error (files w) f = Some F ->
        FuncSpec_ToTypeName fn w =
        match FuncTypeFromSig (FNSig fn) with
        | Ok _ =>
            let named := TNamed (mkSymbol (package_of F) (RcvType r)) in
            Ok (TFunc (mkSig (mkArg (RcvName r) (if RcvIsPointer r then TPtr named else named) :: Args (FNSig fn))
                             (Results (FNSig fn)) (IsVariadic (FNSig fn))))
        | Panic m => Panic m
        end)).
Proof. exact @FuncSpec_ToTypeName_spec. Qed.
Print Assumptions C35_func_type.
Theorem C35_interface_method_type : forall TD (w : World TD) n s t T f F,
  nth_error (types w) t = Some T -> TSName T <> "" -> TSParent T = Some f -> nth_error (files w) f = Some F ->
  InterfaceMethod_ToMethodRef n (Some t) w = Ok (mkMethodRef (mkSymbol (package_of F) (TSName T)) n) /\
  InterfaceMethod_ToTypeName n s (Some t) w =
    match FuncTypeFromSig s with
    | Ok _ => Ok (TFunc (mkSig (mkArg "" (TNamed (mkSymbol (package_of F) (TSName T))) :: Args s)
                               (Results s) (IsVariadic s)))
    | Panic m => Panic m
    end.
Proof. exact @InterfaceMethod_ToTypeName_spec. Qed.
Print Assumptions C35_interface_method_type.
Theorem C35_unattached_method : forall TD (w : World TD) n s,
  is_ok (InterfaceMethod_ToMethodRef n None w) = false /\
  is_ok (InterfaceMethod_ToTypeName n s None w) = false.
Proof. exact @InterfaceMethod_unattached. Qed.
Print Assumptions C35_unattached_method.
Example C35_example : match nth_error (funcs exW) 0 with
  | Some fn => FuncSpec_ToTypeName fn exW =
      Ok (TFunc (mkSig [mkArg "r" (TPtr (TNamed (mkSymbol (mkPackage "a.b/m" "m") "T"))); mkArg "d" (TNamed exTime)]
                       [mkArg "" (TBasic KInt)] false))
  | None => False end.
Proof. vm_compute. auto. Qed.

(** C36 *)
Theorem C36_receiver_for_type : forall TD (w : World TD) name t, wf t = true ->
  NewReceiverForType name (IsName t) w =
    match t with
    | TNamed s => Ok (mkReceiver name (SymName s) false)
    | TPtr (TNamed s) => Ok (mkReceiver name (SymName s) true)
    | _ => Panic "cannot create a ReceiverSpec for an unnamed type"
    end /\
  NewPointerReceiverForType name (IsName t) w =
    match t with
    | TNamed s => Ok (mkReceiver name (SymName s) true)
    | _ => Panic "cannot create a pointer ReceiverSpec for an unnamed type"
    end.
Proof. exact @receivers_spec. Qed.
Print Assumptions C36_receiver_for_type.
Theorem C36_receiver_for_spec : forall TD (w : World TD) name id T, nth_error (types w) id = Some T ->
  (TSName T = "" -> is_ok (NewReceiverForType name (IsSpec id) w) = false /\
                    is_ok (NewPointerReceiverForType name (IsSpec id) w) = false) /\
  (TSName T <> "" -> NewReceiverForType name (IsSpec id) w = Ok (mkReceiver name (TSName T) false) /\
                     NewPointerReceiverForType name (IsSpec id) w = Ok (mkReceiver name (TSName T) true)).
Proof. exact @receivers_spec_spec. Qed.
Print Assumptions C36_receiver_for_spec.
(** Without a type there is no panic but a receiver without a type; nor does NewPointerReceiver
    check its argument, although NewReceiver does. *)
Theorem C36_nil_refuted : forall TD (w : World TD) name,
  NewReceiverForType name NoType w = Ok (mkReceiver name "" false) /\
  NewPointerReceiverForType name NoType w = Ok (mkReceiver name "" true) /\
  is_ok (NewReceiver name "") = false /\ NewPointerReceiver name "" = Ok (mkReceiver name "" true) /\
  (forall t, t <> "" -> NewReceiver name t = Ok (mkReceiver name t false) /\ NewPointerReceiver name t = Ok (mkReceiver name t true)).
Proof. exact @receivers_unchecked. Qed.
Print Assumptions C36_nil_refuted.
Example C36_example : NewReceiverForType "r" (IsSpec 0) exW = Ok (mkReceiver "r" "T" false) /\
  NewReceiverForType "r" (IsName (TPtr (TNamed exTime))) exW = Ok (mkReceiver "r" "Duration" true) /\
  wf (TPtr (TNamed exTime)) = true /\ is_ok (NewPointerReceiverForType "r" (IsName (TPtr (TNamed exTime))) exW) = false.
Proof. repeat split; vm_compute; reflexivity. Qed.

(** C37: in any world, whatever was qualified in between: the argument is a plain string. *)
Theorem C37_print_verbatim : forall TD (env : Env TD) w text,
  part_text env w (PFormat "%s" [AString text]) = Ok text /\
  part_text env w (PFormat ("%s" ++ newline) [AString text]) = Ok (text ++ newline)%string.
Proof. exact @print_text. Qed.
Print Assumptions C37_print_verbatim.
Example C37_example : part_text exEnv exW (PFormat "%s" [AString "100%d %!s(x)"]) = Ok "100%d %!s(x)" /\
  (CodeBlock_writeTo exEnv (exec_world (do cb <- NewCodeBlock ;; do _ <- CodeBlock_Print cb "%d" ;; CodeBlock_Println cb "%%")) 0 =
   Ok ("%d%%" ++ newline)%string).
Proof. split; vm_compute; reflexivity. Qed.
(** C38: any sequence of building calls, starting without blocks *)
Theorem C38_built_text : forall TD (env : Env TD) (h : list (building TD)) w m,
  represents w m -> all_in_range h m ->
  let w' := fold_left (fun w c => perform c w) h w in
  let m' := fold_left (fun m c => built c m) h m in
  forall cb, cb < List.length m' ->
    CodeBlock_writeTo env w' cb = concat_res (map (part_text env w') (nth cb m' [])).
Proof. exact @built_text. Qed.
Print Assumptions C38_built_text.
Definition exCalls : list (building unit) :=
  [BNew; BPrint 0 "100%s "; BNew; BPrintlnf 1 "x%d" [AInt 7]; BAddCode 0 1; BPrint 1 "later"; BPrintln 0 "%"].
Example C38_example :
  @represents unit empty_world [] /\ all_in_range exCalls [] /\
  CodeBlock_writeTo exEnv (fold_left (fun w c => perform c w) exCalls empty_world) 0 =
    Ok ("100%s x7" ++ nl ++ "%" ++ nl)%string.
Proof.
  split; [constructor|]. split; [|vm_compute; reflexivity].
  cbn. repeat split; lia.
Qed.

(** C45 fails for a tagged field whose type is an unnamed struct or interface. *)
Theorem C45_type_spec_refuted : forall env : Env unit,
  ~ (forall (w : World unit) name t fuel, ident name = true -> wf t = true -> text_ok t = true ->
       exists id T w' s, NewTypeSpec name (IsName t) w = (Ok id, w') /\ nth_error (types w') id = Some T /\
         TypeSpec_writeTo env (S fuel) w' T true = Ok s /\
         option_map ptypespec (tokens s) = Some (Some (name, false, denote t, [TOp ";"]))).
Proof. exact type_spec_refuted. Qed.
Print Assumptions C45_type_spec_refuted.
(** It holds for all other types. *)
Theorem C45_type_spec_partial : forall TD (env : Env TD) w name t alias fuel,
  ident name = true -> wf t = true -> decl_ok t = true ->
  exists id T w' s, (if alias : bool then NewTypeAlias else NewTypeSpec) name (IsName t) w = (Ok id, w') /\
    nth_error (types w') id = Some T /\
    TypeSpec_writeTo env (S fuel) w' T true = Ok s /\
    option_map ptypespec (tokens s) = Some (Some (name, alias, denote t, [TOp ";"])).
Proof. exact @NewTypeSpec_text. Qed.
Print Assumptions C45_type_spec_partial.
Definition exStruct : TypeName :=
  TStruct [mkField "A" (TStruct [mkField "B" (TBasic KInt) "t"]) ""; mkField "" (TNamed exTime) "u";
           mkField "C" (TInterface [mkMethod "M" (mkSig [] [mkArg "" (TBasic KBool)] false)] [exTime]) ""].
Example C45_example : ident "T" = true /\ wf exStruct = true /\ decl_ok exStruct = true.
Proof. repeat split; vm_compute; reflexivity. Qed.
(** Exactly when, for any type with usable names: the declaration is read back as made unless a
    field with a tag has an unnamed struct or interface as its type, or a part that is written on
    one line is an interface with embeds and methods or a bidirectional channel of receive-only
    channels. *)
Theorem C45_exact : forall TD (env : Env TD) w name t alias fuel,
  ident name = true -> wf t = true -> names_fine t = true ->
  exists id T w' s, (if alias : bool then NewTypeAlias else NewTypeSpec) name (IsName t) w = (Ok id, w') /\
    nth_error (types w') id = Some T /\ TypeSpec_writeTo env (S fuel) w' T true = Ok s /\
    (option_map ptypespec (tokens s) = Some (Some (name, alias, denote t, [TOp ";"])) <->
     tag_apart t = false /\ forall p, In p (line_parts t) -> both_of_recv p = false /\ both_kinds p = false).
Proof. exact @decl_exact. Qed.
Print Assumptions C45_exact.
(** What is read otherwise: another type, or no declaration that ends where the text ends. *)
Theorem C45_reading : forall TD (env : Env TD) w name t alias fuel,
  ident name = true -> wf t = true -> names_fine t = true ->
  exists id T w' s, (if alias : bool then NewTypeAlias else NewTypeSpec) name (IsName t) w = (Ok id, w') /\
    nth_error (types w') id = Some T /\ TypeSpec_writeTo env (S fuel) w' T true = Ok s /\
    if decl_readable t then option_map ptypespec (tokens s) = Some (Some (name, alias, denote (decl_read_as t), [TOp ";"]))
    else forall d, option_map ptypespec (tokens s) <> Some (Some (d, [TOp ";"])).
Proof. exact @decl_reading. Qed.
Print Assumptions C45_reading.
Definition exBoth : TypeName :=
  TInterface [mkMethod "M" (mkSig [] [mkArg "" (TBasic KBool)] false)] [mkSymbol (mkPackage "" "") "error"].
Definition exWritten (t : TypeName) : option (option (string * bool * gotype * list token)) :=
  match NewTypeSpec (TD := unit) "T" (IsName t) empty_world with
  | (Ok id, w') =>
      match nth_error (types w') id with
      | Some T => match TypeSpec_writeTo exEnv 3 w' T true with Ok s => option_map ptypespec (tokens s) | Panic _ => None end
      | None => None
      end
  | _ => None
  end.
(** the same interface as the type of a field, and in a slice; with a tag; a channel *)
Example C45_reading_example :
  forallb (fun t => wf t && names_fine t)
    [TStruct [mkField "C" exBoth ""]; TStruct [mkField "C" (TSlice exBoth) ""]; TStruct [mkField "C" exBoth "u"];
     TStruct [mkField "C" (TChan (TChan (TBasic KInt) 1) 3) "u"]] = true /\
  exWritten (TStruct [mkField "C" exBoth ""]) = Some (Some ("T", false, denote (TStruct [mkField "C" exBoth ""]), [TOp ";"])) /\
  decl_readable (TStruct [mkField "C" (TSlice exBoth) ""]) = true /\
  exWritten (TStruct [mkField "C" (TSlice exBoth) ""]) = Some (Some ("T", false,
    GStruct [(Some "C", GSlice (GInterface [inl ("errorM", [], [(None, false, GName None "bool")])]), "")], [TOp ";"])) /\
  decl_readable (TStruct [mkField "C" exBoth "u"]) = false /\ exWritten (TStruct [mkField "C" exBoth "u"]) = Some None /\
  exWritten (TStruct [mkField "C" (TChan (TChan (TBasic KInt) 1) 3) "u"]) = Some (Some ("T", false,
    GStruct [(Some "C", GChan DSend (GChan DBoth (GName None "int")), "u")], [TOp ";"])).
Proof. repeat split; vm_compute; reflexivity. Qed.

(** C59 *)
Theorem C59_file_parses : forall TD (env : Env TD) w fuel F g,
  file_meaning w (block_text env w) fuel F = Some g ->
  exists s, GoFile_writeTo env fuel w F = Ok s /\ parse_file s = Some g.
Proof. exact @file_text. Qed.
Print Assumptions C59_file_parses.
Example C59_example : file_meaning exW (block_text exEnv exW) 3 exF = Some exMeaning /\ parse_file exText = Some exMeaning.
Proof. split; vm_compute; reflexivity. Qed.
