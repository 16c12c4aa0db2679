(** Properties of the conversions from go/types and reflect.  Only statements, examples and
    [exact]; proofs in ConvProofs.v and ConvExact.v, vocabulary in SpecConv.v. *)
From Verif Require Import Base Types Conv SpecConv ConvProofs ConvExact.

Definition cvPkg : Package := mkPackage "a/b" "bb".
(** func (r *bb.T) (int, ...map[string]<-chan bb.U) struct{bb.V `x`; W [2]unsafe.Pointer} *)
Definition cvType : GoType :=
  GTSignature (mkGoSig (Recv (mkVar "r" (GTPointer (GTNamed (Some cvPkg) "T"))))
    [mkVar "" (GTBasic BInt);
     mkVar "xs" (GTSlice (GTMap (GTBasic BString) (GTChan 2 (GTNamed (Some cvPkg) "U"))))]
    [mkVar "" (GTStruct [mkGoField "V" true (GTNamed (Some cvPkg) "V") "x";
                         mkGoField "W" false (GTArray (GTBasic BUnsafePointer) 2) ""])] true).

(** C23 *)
Theorem C23_go_type_faithful : forall t n, TypeNameForGoType t = Ok n -> same_go t n.
Proof. exact go_faithful. Qed.
Print Assumptions C23_go_type_faithful.
Theorem C23_go_type_accepted : forall t, is_ok (TypeNameForGoType t) = convertible t.
Proof. exact go_accepts. Qed.
Print Assumptions C23_go_type_accepted.
Theorem C23_go_signature_faithful : forall s x, signatureFromGoType s = Ok x -> same_sig same_go s x.
Proof. exact go_sig_faithful. Qed.
Print Assumptions C23_go_signature_faithful.
Example C23_example : convertible cvType = true /\
  match TypeNameForGoType cvType with Ok n => typeNameToString (fun _ => true) n | Panic m => Panic m end =
  Ok "func(r *bb.T, _ int, xs ...map[string]<-chan bb.U) struct{bb.V `x`; W [2]unsafe.Pointer}".
Proof. split; vm_compute; reflexivity. Qed.

(** C24 is false: a name without a package (error) makes the conversion panic.  By
    C23_go_type_accepted this is the only obstacle for a valid type. *)
Theorem C24_go_type_total_refuted :
  ~ (forall t, valid_go t = true -> exists n, TypeNameForGoType t = Ok n).
Proof. exact go_total_refuted. Qed.
Print Assumptions C24_go_type_total_refuted.
Example C24_example : valid_go (GTSignature (mkGoSig NoRecv [] [mkVar "" (GTNamed None "error")] false)) = true /\
  TypeNameForGoType (GTSignature (mkGoSig NoRecv [] [mkVar "" (GTNamed None "error")] false)) = Panic nil_deref.
Proof. split; reflexivity. Qed.

(** C25 *)
Theorem C25_reflect_faithful : forall t, rvalid t = true -> rplain t = true ->
  exists n, TypeNameForReflectType t = Ok n /\ rsame t n.
Proof. exact reflect_faithful. Qed.
Print Assumptions C25_reflect_faithful.
Definition cvR : RType :=
  RFunc (mkRSig [RPtr (RNamed KStruct "bytes" "Buffer");
                 RSlice (RStruct [mkRField "A" (RChan (RNamed KUint8 "" "uint8") 1) "t" false])] [] true).
Example C25_example : rvalid cvR = true /\ rplain cvR = true /\
  match TypeNameForReflectType cvR with Ok n => typeNameToString (fun _ => true) n | Panic m => Panic m end =
  Ok "func(*Buffer, ...struct{A <-chan byte `t`})".
Proof. repeat split; vm_compute; reflexivity. Qed.

(** C26 is false. *)
Theorem C26_reflect_total_refuted :
  ~ (forall t, rvalid t = true -> exists n, TypeNameForReflectType t = Ok n /\ rsame t n).
Proof. exact reflect_total_refuted. Qed.
Print Assumptions C26_reflect_total_refuted.
(** Every function type with results and every map type panics. *)
Theorem C26_results_panic : forall s, ROut s <> [] -> is_ok (TypeNameForReflectType (RFunc s)) = false.
Proof. exact reflect_results. Qed.
Print Assumptions C26_results_panic.
Theorem C26_map_panics : forall k e, is_ok (TypeNameForReflectType (RMap k e)) = false.
Proof. exact reflect_map. Qed.
Print Assumptions C26_map_panics.
(** A method with a result converts to a method with that result as its first argument and a
    nil result type; an embedded field becomes an ordinary one. *)
Theorem C26_method_result_refuted : exists t n,
  rvalid t = true /\ TypeNameForReflectType t = Ok n /\ ~ rsame t n /\
  tMethods n = Some [mkMethod "M" (mkSig [mkArg "" (TBasic KString)] [mkArg "" TNil] false)].
Proof. exact reflect_method_corrupt. Qed.
Print Assumptions C26_method_result_refuted.
Theorem C26_embedded_field_refuted : exists t n,
  rvalid t = true /\ TypeNameForReflectType t = Ok n /\ ~ rsame t n /\
  tFields n = Some [mkField "Buffer" (TNamed (mkSymbol (mkPackage "bytes" "") "Buffer")) ""].
Proof. exact reflect_embedded_lost. Qed.
Print Assumptions C26_embedded_field_refuted.
Example C26_example : ROut (mkRSig [RNamed KInt "" "int"] [RNamed KInt "" "int"] false) <> [] /\
  TypeNameForReflectType (RFunc (mkRSig [RNamed KInt "" "int"] [RNamed KInt "" "int"] false)) =
  Panic "cannot create a function type with a nil result type" /\
  TypeNameForReflectType (RFunc (mkRSig [] [RNamed KInt "" "int"] false)) = Panic index_oob.
Proof. split; [discriminate|split; reflexivity]. Qed.

(** Exactly which types are accepted, and exactly which of them keep their meaning. *)
Theorem C26_accepted_exact : forall t, rvalid t = true -> is_ok (TypeNameForReflectType t) = rtaken t.
Proof. exact reflect_taken. Qed.
Print Assumptions C26_accepted_exact.
Theorem C26_faithful_exact : forall t, rvalid t = true ->
  ((exists n, TypeNameForReflectType t = Ok n /\ rsame t n) <-> rplain t = true).
Proof. exact reflect_exact. Qed.
Print Assumptions C26_faithful_exact.
(** interface{ M(int) string } is accepted but not faithful; with two results it is not accepted;
    struct{ Buffer } is accepted but not faithful. *)
Definition cvInt : RType := RNamed KInt "" "int".
Definition cvOne : RType := RInterface [mkRMethod "M" (mkRSig [cvInt] [RNamed KString "" "string"] false)].
Definition cvTwo : RType := RInterface [mkRMethod "M" (mkRSig [cvInt] [cvInt; cvInt] false)].
Definition cvEmb : RType := RStruct [mkRField "Buffer" (RNamed KStruct "bytes" "Buffer") "" true].
Example C26_exact_example :
  map (fun t => (rvalid t, rtaken t, rplain t)) [cvOne; cvTwo; cvEmb; cvR] =
  [(true, true, false); (true, false, false); (true, true, false); (true, true, true)].
Proof. reflexivity. Qed.

(** C58: go/types objects. *)
Theorem C58_symbol_for_object : forall o,
  (forall p n, (o = GOOther (Some p) n \/ o = GOFunc (Some p) n None) ->
     SymbolForGoObject o = Ok (SomSymbol (mkSymbol p n))) /\
  (forall pkg n p m, (o = GOFunc pkg n (Some (GTNamed (Some p) m)) \/
                      o = GOFunc pkg n (Some (GTPointer (GTNamed (Some p) m)))) ->
     SymbolForGoObject o = Ok (SomMethod (mkMethodRef (mkSymbol p m) n))) /\
  (forall n, (o = GOOther None n \/ o = GOFunc None n None) -> is_ok (SymbolForGoObject o) = false).
Proof. exact symbol_for_object. Qed.
Print Assumptions C58_symbol_for_object.
Example C58_example : SymbolForGoObject (GOFunc (Some cvPkg) "M" (Some (GTPointer (GTNamed (Some cvPkg) "T")))) =
  Ok (SomMethod (mkMethodRef (mkSymbol cvPkg "T") "M")).
Proof. reflexivity. Qed.
