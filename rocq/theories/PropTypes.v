(** Properties of types.go: constructors, accessors, text.  Only statements, examples and
    [exact]; proofs in TextTheorems.v and TypesTheorems.v, vocabulary in SpecTypes.v,
    SpecGo.v (Go's type grammar), SpecRender.v (what a TypeName stands for), SpecLit.v
    (Go string literals), SpecView.v and SpecText.v (what Go reads instead). *)
From Verif Require Import Base BaseFacts GoPath Utf8 Quote SpecLit Types SpecTypes Imports SpecImports
  SpecGo SpecRender SpecView LexProofs ParseProofs TextTheorems TypesTheorems SpecText TextExact.

Definition tySym (path pkg name : string) : Symbol := mkSymbol (mkPackage path pkg) name.
(** map[foo.K]func(a *foo.X, _ ...chan<- byte) (struct{N [3]rune `json:"n"`; error}, interface{M() int}) *)
Definition tyExample : TypeName :=
  TMap (TFunc (mkSig [mkArg "a" (TPtr (TNamed (tySym "b/foo" "foo" "X")));
                      mkArg "" (TSlice (TChan (TBasic KUint8) SendDir))]
                     [mkArg "" (TStruct [mkField "N" (TArray (TBasic KInt32) 3) "json:'n'";
                                         mkField "" (TNamed (tySym "" "" "error")) ""]);
                      mkArg "" (TInterface [mkMethod "M" (mkSig [] [mkArg "" (TBasic KInt)] false)] [])] true))
       (TNamed (tySym "c/foo" "foo" "K")).
Example tyExample_text : typeNameToString (fun _ => true) tyExample =
  Ok ("map[foo.K]func(a *foo.X, _ ...chan<- byte) (struct{N [3]rune `json:'n'`; error}, interface{M() int})").
Proof. vm_compute. reflexivity. Qed.

(** C12: the text of a qualified type, read by Go's grammar and with its qualifiers resolved
    through the import list the file finally has, is the original type with every package
    given by its import path. *)
Theorem C12_text_means_type : forall isPrint real own h t,
  forallb call_ok h = true -> (forall c, In c h -> honest real c) -> (forall c, In c h -> usable_requests c) ->
  wf t = true -> text_ok t = true ->
  honest real (CEnsureTypeImported t) -> usable_requests (CEnsureTypeImported t) ->
  exists t' c i' s, EnsureTypeImported t (run h (NewImportsFor own)) = (Ok (t', c), i') /\
    typeNameToString isPrint t' = Ok s /\
    exists g, parse_type s = Some g /\
    forall h', forallb call_ok h' = true -> (forall c, In c h' -> honest real c) ->
      resolve_type real (ImportSpecs (run h' i')) g = Some (denote_with (path_qualifier own) t).
Proof. exact text_means. Qed.
Print Assumptions C12_text_means_type.
Example C12_hypotheses : wf tyExample = true /\ text_ok tyExample = true /\
  honest path_Base (CEnsureTypeImported tyExample) /\ usable_requests (CEnsureTypeImported tyExample).
Proof.
  split; [reflexivity|]. split; [reflexivity|]. split.
  - intros p n H. repeat (destruct H as [H|H]; [injection H as <- <-; right; reflexivity|]). destruct H.
  - intros p n H. repeat (destruct H as [H|H]; [injection H as <- <-; reflexivity|]). destruct H.
Qed.
Example C12_text : match EnsureTypeImported tyExample (NewImportsFor "c/foo") with
  | (Ok (t, _), i) => (typeNameToString (fun _ => true) (TMap (tElem t) (tKey t)), ImportSpecs i)
  | _ => (Panic "", []) end =
  (Ok "map[K]func(a *foo.X, _ ...chan<- byte) (struct{N [3]rune `json:'n'`; error}, interface{M() int})",
   [mkImportSpec "" "b/foo"]).
Proof. vm_compute. reflexivity. Qed.

(** C15 *)
Theorem C15_constructors_accessors :
  (forall k t, BasicType k = Ok t -> k <> KUnsafePointer ->
     view_of t = mkView KindBasic zeroSymbol TNil TNil (-1) 0 k None None None None) /\
  (forall t, BasicType KUnsafePointer = Ok t ->
     view_of t = mkView KindNamed (mkSymbol (mkPackage "unsafe" "unsafe") "Pointer") TNil TNil (-1) 0 KInvalid None None None None) /\
  (forall s, view_of (NamedType s) = mkView KindNamed s TNil TNil (-1) 0 KInvalid None None None None) /\
  (forall e t, PointerType e = Ok t ->
     view_of t = mkView KindPtr zeroSymbol e TNil (-1) 0 KInvalid None None None None) /\
  (forall e t, SliceType e = Ok t ->
     view_of t = mkView KindSlice zeroSymbol e TNil (-1) 0 KInvalid None None None None) /\
  (forall e n t, ArrayType e n = Ok t ->
     view_of t = mkView KindArray zeroSymbol e TNil n 0 KInvalid None None None None) /\
  (forall k v t, MapType k v = Ok t ->
     view_of t = mkView KindMap zeroSymbol v k (-1) 0 KInvalid None None None None) /\
  (forall e d t, ChannelType e d = Ok t ->
     view_of t = mkView KindChan zeroSymbol e TNil (-1) (direction d) KInvalid None None None None) /\
  (forall s t, FuncTypeFromSig s = Ok t ->
     view_of t = mkView KindFunc zeroSymbol TNil TNil (-1) 0 KInvalid (Some s) None None None) /\
  (forall a r t, FuncType a r = Ok t ->
     view_of t = mkView KindFunc zeroSymbol TNil TNil (-1) 0 KInvalid (Some (mkSig a r false)) None None None) /\
  (forall a r t, FuncTypeVariadic a r = Ok t ->
     view_of t = mkView KindFunc zeroSymbol TNil TNil (-1) 0 KInvalid (Some (mkSig a r true)) None None None) /\
  (forall fs, view_of (StructType fs) = mkView KindStruct zeroSymbol TNil TNil (-1) 0 KInvalid None (Some fs) None None) /\
  (forall es ms, view_of (InterfaceType es ms) =
     mkView KindInterface zeroSymbol TNil TNil (-1) 0 KInvalid None None (Some ms) (Some es)).
Proof. exact views. Qed.
Print Assumptions C15_constructors_accessors.
Example C15_example : exists t, ChannelType (TBasic KInt) 0 = Ok t /\ tDir t = 3%Z /\ tElem t = TBasic KInt.
Proof. eexists. split; [reflexivity|]. split; reflexivity. Qed.

(** C16 *)
Theorem C16_constructors_reject :
  (forall k, is_ok (BasicType k) = false <->
     In k [KInvalid; KArray; KChan; KFunc; KInterface; KMap; KPtr; KSlice; KStruct]) /\
  (forall e, is_ok (PointerType e) = false <-> e = TNil) /\
  (forall e, is_ok (SliceType e) = false <-> e = TNil) /\
  (forall e n, is_ok (ArrayType e n) = false <-> e = TNil \/ (n < 0)%Z) /\
  (forall k v, is_ok (MapType k v) = false <-> k = TNil \/ v = TNil) /\
  (forall e d, is_ok (ChannelType e d) = false <-> e = TNil \/ ~ (0 <= d <= 3)%Z) /\
  (forall s, is_ok (FuncTypeFromSig s) = false <->
     (exists a, In a (Args s ++ Results s) /\ ArgTy a = TNil) \/
     (IsVariadic s = true /\ ~ exists l n e, Args s = l ++ [mkArg n (TSlice e)])).
Proof. exact rejects. Qed.
Print Assumptions C16_constructors_reject.
Example C16_example :
  is_ok (FuncTypeVariadic [mkArg "" (TBasic KInt)] []) = false /\
  is_ok (FuncTypeVariadic [mkArg "" (TSlice (TBasic KInt))] []) = true /\
  is_ok (ChannelType (TBasic KInt) 4) = false /\ is_ok (ArrayType (TBasic KInt) (-1)) = false.
Proof. repeat split. Qed.

(** C17 *)
Theorem C17_string_total : forall isPrint t, wf t = true -> exists s, typeNameToString isPrint t = Ok s.
Proof. exact String_total. Qed.
Print Assumptions C17_string_total.
Theorem C17_string_nested : forall isPrint t s, typeNameToString isPrint t = Ok s ->
  typeNameToString isPrint (TPtr t) = Ok ("*" ++ s)%string /\
  typeNameToString isPrint (TSlice t) = Ok ("[]" ++ s)%string /\
  (forall n, typeNameToString isPrint (TArray t n) = Ok ("[" ++ decZ n ++ "]" ++ s)%string) /\
  (forall k x, typeNameToString isPrint k = Ok x ->
     typeNameToString isPrint (TMap t k) = Ok ("map[" ++ x ++ "]" ++ s)%string) /\
  typeNameToString isPrint (TChan t BothDir) = Ok ("chan " ++ s)%string /\
  typeNameToString isPrint (TChan t SendDir) = Ok ("chan<- " ++ s)%string /\
  typeNameToString isPrint (TChan t RecvDir) = Ok ("<-chan " ++ s)%string /\
  typeNameToString isPrint (TFunc (mkSig [] [mkArg "" t] false)) = Ok ("func() " ++ s)%string /\
  (forall n, n <> "" ->
     typeNameToString isPrint (TFunc (mkSig [mkArg n t] [] false)) = Ok ("func(" ++ n ++ " " ++ s ++ ")")%string) /\
  (forall n, n <> "" ->
     typeNameToString isPrint (TFunc (mkSig [mkArg n (TSlice t)] [] true)) = Ok ("func(" ++ n ++ " ..." ++ s ++ ")")%string) /\
  (forall n, n <> "" ->
     typeNameToString isPrint (TStruct [mkField n t ""]) = Ok ("struct{" ++ n ++ " " ++ s ++ "}")%string) /\
  (forall n, n <> "" ->
     typeNameToString isPrint (TInterface [mkMethod n (mkSig [] [mkArg "" t] false)] []) =
       Ok ("interface{" ++ n ++ "() " ++ s ++ "}")%string).
Proof. exact nested. Qed.
Print Assumptions C17_string_nested.
Example C17_example : wf tyExample = true /\
  typeNameToString (fun _ => true) (TNamed (tySym "b/foo" "foo" "X")) = Ok "foo.X".
Proof. split; reflexivity. Qed.

(** C18 *)
Theorem C18_round_trip : forall isPrint t, wf t = true -> text_ok t = true ->
  exists s, typeNameToString isPrint t = Ok s /\ parse_type s = Some (denote t).
Proof. exact round_trip. Qed.
Print Assumptions C18_round_trip.
Theorem C18_same_text_same_type : forall isPrint t1 t2 s,
  wf t1 = true -> text_ok t1 = true -> no_shadow t1 = true ->
  wf t2 = true -> text_ok t2 = true -> no_shadow t2 = true ->
  typeNameToString isPrint t1 = Ok s -> typeNameToString isPrint t2 = Ok s -> erase t1 = erase t2.
Proof. exact same_text. Qed.
Print Assumptions C18_same_text_same_type.
Example C18_example : wf tyExample = true /\ text_ok tyExample = true /\ no_shadow tyExample = true /\
  parse_type "map[foo.K]func(a *foo.X, _ ...chan<- byte) (struct{N [3]rune `json:'n'`; error}, interface{M() int})" =
  Some (denote tyExample).
Proof. repeat split; vm_compute; reflexivity. Qed.

(** C19 *)
Theorem C19_signature_text : forall isPrint sg, wf_sig sg = true -> sig_text_ok sg = true ->
  exists s ps rs, signatureToBuffer isPrint sg = Ok s /\ parse_signature s = Some (ps, rs) /\
    all_or_nothing (map ArgName (Args sg)) ps /\ all_or_nothing (map ArgName (Results sg)) rs /\
    (forall k p, nth_error ps k = Some p ->
       (gp_dots p = true <-> IsVariadic sg = true /\ S k = List.length (Args sg))) /\
    (forall p, In p rs -> gp_dots p = false).
Proof. exact signature_text. Qed.
Print Assumptions C19_signature_text.
Theorem C19_result_parens : forall isPrint sg s, signatureToBuffer isPrint sg = Ok s ->
  exists a r, s = ("(" ++ a ++ ")" ++ r)%string /\
    (Results sg = [] /\ r = "" \/
     (exists t x, Results sg = [mkArg "" t] /\ typeNameToString isPrint t = Ok x /\ r = (" " ++ x)%string) \/
     ((2 <= List.length (Results sg) \/ exists n t, Results sg = [mkArg n t] /\ n <> "") /\
      exists x, r = (" (" ++ x ++ ")")%string)).
Proof. exact results_parens. Qed.
Print Assumptions C19_result_parens.
Definition sgExample : Signature :=
  mkSig [mkArg "a" (TBasic KInt); mkArg "" (TSlice (TBasic KString))]
        [mkArg "" (TNamed (tySym "" "" "error")); mkArg "n" (TBasic KInt)] true.
Example C19_example : wf_sig sgExample = true /\ sig_text_ok sgExample = true /\
  signatureToBuffer (fun _ => true) sgExample = Ok "(a int, _ ...string) (_ error, n int)".
Proof. repeat split. Qed.

(** C20 is false for a bidirectional channel of receive-only channels: its text is read as a
    send-only channel of bidirectional channels. *)
Theorem C20_channel_direction_refuted : forall isPrint,
  ~ forall e d, wf (TChan e d) = true -> text_ok e = true ->
      exists s, typeNameToString isPrint (TChan e d) = Ok s /\ parse_type s = Some (denote (TChan e d)).
Proof. exact chan_refuted. Qed.
Print Assumptions C20_channel_direction_refuted.
Theorem C20_chan_of_recv_chan_misread : forall isPrint e,
  wf e = true -> text_ok e = true -> recv_chan e = false ->
  exists s, typeNameToString isPrint (TChan (TChan e RecvDir) BothDir) = Ok s /\
    parse_type s = Some (GChan DSend (GChan DBoth (denote e))).
Proof. exact chan_of_recv. Qed.
Print Assumptions C20_chan_of_recv_chan_misread.
(** Every other combination of directions is kept. *)
Theorem C20_channel_direction_partial : forall isPrint e d, wf (TChan e d) = true -> text_ok e = true ->
  ~ (d = BothDir /\ tKind e = KindChan /\ tDir e = RecvDir) ->
  exists s, typeNameToString isPrint (TChan e d) = Ok s /\
    parse_type s = Some (GChan (denote_dir d) (denote e)).
Proof. exact chan_kept. Qed.
Print Assumptions C20_channel_direction_partial.
Example C20_example :
  typeNameToString (fun _ => true) (TChan (TChan (TBasic KInt) RecvDir) BothDir) = Ok "chan <-chan int" /\
  typeNameToString (fun _ => true) (TChan (TChan (TBasic KInt) BothDir) SendDir) = Ok "chan<- chan int" /\
  typeNameToString (fun _ => true) (TChan (TChan (TBasic KInt) RecvDir) SendDir) = Ok "chan<- <-chan int".
Proof. repeat split. Qed.
(** Exactly when, for channels anywhere in a type: [read_as] is what is read, and it is the type
    written unless a bidirectional channel of receive-only channels is a part of it. *)
Theorem C20_exact : forall isPrint t, wf t = true -> names_fine t = true ->
  (forall p, In p (parts t) -> both_kinds p = false) ->
  exists s, typeNameToString isPrint t = Ok s /\ parse_type s = Some (denote (read_as t)) /\
    (denote (read_as t) = denote t <-> forall p, In p (parts t) -> both_of_recv p = false).
Proof. exact chan_exact. Qed.
Print Assumptions C20_exact.
(** map[string]func(c chan (<-chan (<-chan int))) *)
Definition chExample : TypeName :=
  TMap (TFunc (mkSig [mkArg "c" (TChan (TChan (TChan (TBasic KInt) RecvDir) RecvDir) BothDir)] [] false)) (TBasic KString).
Example C20_exact_example : wf chExample = true /\ names_fine chExample = true /\
  forallb (fun p => negb (both_kinds p)) (parts chExample) = true /\
  typeNameToString (fun _ => true) chExample = Ok "map[string]func(c chan <-chan <-chan int)" /\
  denote (read_as chExample) = denote
    (TMap (TFunc (mkSig [mkArg "c" (TChan (TChan (TChan (TBasic KInt) BothDir) SendDir) SendDir)] [] false)) (TBasic KString)).
Proof. repeat split. Qed.

(** C21 is false: there is no separator between the last embed and the first method, so the
    text is no interface at all, or one with a single method of a made-up name. *)
Theorem C21_interface_both_refuted : forall isPrint,
  (exists e s, typeNameToString isPrint (InterfaceType [e] [mkMethod "Foo" (mkSig [] [] false)]) = Ok s /\
     sym_ok e = true /\ parse_type s = None) /\
  (exists e s, typeNameToString isPrint (InterfaceType [e] [mkMethod "Foo" (mkSig [] [] false)]) = Ok s /\
     sym_ok e = true /\ parse_type s = Some (GInterface [inl ("errorFoo", [], [])])).
Proof. exact interface_refuted. Qed.
Print Assumptions C21_interface_both_refuted.
Theorem C21_embed_glued_to_method : forall isPrint e n sg,
  typeNameToString isPrint (TInterface [mkMethod n sg] [mkSymbol zeroPackage e]) =
  typeNameToString isPrint (TInterface [mkMethod (e ++ n) sg] []).
Proof. exact glued. Qed.
Print Assumptions C21_embed_glued_to_method.
(** With only embeds or only methods the interface is rendered correctly. *)
Theorem C21_interface_one_kind_partial : forall isPrint es ms,
  wf (InterfaceType es ms) = true -> (es = [] \/ ms = []) ->
  forallb sym_ok es = true -> forallb (fun m => ident (MtdName m) && sig_text_ok (MtdSig m)) ms = true ->
  exists s, typeNameToString isPrint (InterfaceType es ms) = Ok s /\
    parse_type s = Some (GInterface
      (map (fun e => inr (qualifier e, SymName e)) es ++
       map (fun m => inl (MtdName m, fst (denote_sig (MtdSig m)), snd (denote_sig (MtdSig m)))) ms)).
Proof. exact interface_one_kind. Qed.
Print Assumptions C21_interface_one_kind_partial.
Example C21_example : typeNameToString (fun _ => true)
  (InterfaceType [] [mkMethod "Foo" sgExample; mkMethod "Bar" (mkSig [] [] false)]) =
  Ok "interface{Foo(a int, _ ...string) (_ error, n int); Bar()}" /\
  typeNameToString (fun _ => true) (InterfaceType [tySym "fmt" "fmt" "Stringer"; tySym "" "" "error"] []) =
  Ok "interface{fmt.Stringer; error}".
Proof. split; reflexivity. Qed.
(** Exactly when, for any type with usable names: it is read back as written unless some part of
    it is an interface with embeds and methods or a bidirectional channel of receive-only channels. *)
Theorem C21_exact : forall isPrint t, wf t = true -> names_fine t = true ->
  exists s, typeNameToString isPrint t = Ok s /\
    (parse_type s = Some (denote t) <->
     forall p, In p (parts t) -> both_of_recv p = false /\ both_kinds p = false).
Proof. exact text_exact. Qed.
Print Assumptions C21_exact.
(** What is read otherwise: the glued type if the last embed and the first method of every such
    interface make an identifier, and no type at all if one of them does not. *)
Theorem C21_reading : forall isPrint t, wf t = true -> names_fine t = true ->
  exists s, typeNameToString isPrint t = Ok s /\
    parse_type s = if readable t then Some (denote (read_as t)) else None.
Proof. exact text_reading. Qed.
Print Assumptions C21_reading.
Definition glExample (embed : Symbol) (method : string) : TypeName :=
  TStruct [mkField "f" (TInterface [mkMethod method (mkSig [] [] false); mkMethod "Z" sgExample] [tySym "" "" "A"; embed]) ""].
Example C21_reading_example :
  wf (glExample (tySym "" "" "f") "x") = true /\ names_fine (glExample (tySym "" "" "f") "x") = true /\
  readable (glExample (tySym "" "" "f") "x") = true /\
  typeNameToString (fun _ => true) (glExample (tySym "" "" "f") "x") =
    Ok "struct{f interface{A; fx(); Z(a int, _ ...string) (_ error, n int)}}" /\
  names_fine (glExample (tySym "" "" "f") "or") = true /\ readable (glExample (tySym "" "" "f") "or") = false /\
  names_fine (glExample (tySym "fmt" "fmt" "F") "G") = true /\ readable (glExample (tySym "fmt" "fmt" "F") "G") = false.
Proof. repeat split. Qed.

(** C22 *)
Theorem C22_tag_value : forall isPrint tag, literal_value (tag_literal isPrint tag) = Some tag.
Proof. exact tag_literal_value. Qed.
Print Assumptions C22_tag_value.
Example C22_example : tag_literal (fun _ => true) "json:'a'" = "`json:'a'`" /\
  tag_literal (fun _ => true) (bquote ++ String (byte_of 200) "z")%string = """`\xc8z""".
Proof. split; vm_compute; reflexivity. Qed.
