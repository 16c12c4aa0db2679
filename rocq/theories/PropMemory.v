(** Properties of TypeNames and signatures in memory: C74-C79.  Only statements, examples and [exact]. *)
From Verif Require Import Base GoPath Types SpecTypes SpecRender Imports SpecImports Memory SpecMemory MemoryTypes MemoryTheorems.

(** C74 *)
Theorem C74_type_kept : forall reg i m t T, denotes m t T -> exists n0, forall n, n0 <= n ->
  exists r m', mqualifyType n reg t (i, m) = (r, (snd (qualifyType reg T i), m')) /\ grown m m' /\
    (forall u U, denotes m u U -> denotes m' u U) /\
    match fst (qualifyType reg T i) with
    | Ok (T', changed) => exists t', r = Ok t' /\ denotes m' t' T' /\ (if changed then t' <> t else t' = t)
    | Panic e => r = Panic e
    end.
Proof. exact unchanged. Qed.
Print Assumptions C74_type_kept.
Theorem C74_signature_kept : forall reg i m p s, sig_denotes m p s -> exists n0, forall n, n0 <= n ->
  exists r m', mqualify_pointer n reg p (i, m) = (r, (snd (qualifySignature reg s i), m')) /\ grown m m' /\
    (forall u U, denotes m u U -> denotes m' u U) /\
    match fst (qualifySignature reg s i) with
    | Ok (s', changed) => exists q, r = Ok q /\ sig_denotes m' q s' /\ (if changed then q <> p else q = p)
    | Panic e => r = Panic e
    end.
Proof. exact unchanged_signature. Qed.
Print Assumptions C74_signature_kept.
(** struct { A int; B []x.B; C func(x.B) } and one array shared by two types *)
Definition xB (name : string) : Symbol := mkSymbol (mkPackage "b/x" name) "B".
Definition memQ : mem :=
  mkMem [ONamed (xB "x"); OSig (mkMSig (SArr 0 1) SNil false); OStruct (SArr 1 3); OStruct (SArr 1 1)]
        [[CArg "b" (MNamed 0)]; [CField "A" int_ ""; CField "B" (MSlice (MNamed 0)) ""; CField "C" (MFunc 1) ""]].
Definition tyQ (name : string) : TypeName :=
  TStruct [mkField "A" (TBasic KInt) ""; mkField "B" (TSlice (TNamed (xB name))) "";
           mkField "C" (TFunc (mkSig [mkArg "b" (TNamed (xB name))] [] false)) ""].
Example C74_example : denotes memQ (MStruct 2) (tyQ "x") /\ denotes memQ (MStruct 3) (TStruct [mkField "A" (TBasic KInt) ""]) /\
  fst (qualifyType true (tyQ "x") fileA) = Ok (tyQ "x1", true) /\
  (exists t m', fst (mqualifyType 6 true (MStruct 2) (fileA, memQ)) = Ok t /\ snd (snd (mqualifyType 6 true (MStruct 2) (fileA, memQ))) = m' /\
     denotes m' t (tyQ "x1") /\ denotes m' (MStruct 2) (tyQ "x")) /\
  fst (mqualifyType 6 true (MStruct 3) (fileA, memQ)) = Ok (MStruct 3).
Proof.
  split; [exists 4; reflexivity|]. split; [exists 4; reflexivity|]. split; [vm_compute; reflexivity|]. split.
  - eexists _, _. split; [vm_compute; reflexivity|]. split; [reflexivity|]. split; exists 4; vm_compute; reflexivity.
  - vm_compute. reflexivity.
Qed.

(** C75 *)
Theorem C75_signature_refuted : exists m t T p m', denotes m t T /\ mSignature t = Some p /\
  mAddArg no_room p "x" int_ m = (Ok tt, m') /\ denotes m' t (TFunc (mkSig [mkArg "x" (TBasic KInt)] [] false)) /\ ~ denotes m' t T.
Proof. exact signature_given_away. Qed.
Print Assumptions C75_signature_refuted.
Theorem C75_methods_refuted : exists m t T s m1 a o m2, denotes m t T /\ mMethods t m = (Ok s, m1) /\
  cells m1 s = Some [CMethod "M" o] /\ on_array (ms_args o) a /\ set_cell a 0 (CArg "x" str_) m1 = (Ok tt, m2) /\ ~ denotes m2 t T.
Proof. exact methods_shallow. Qed.
Print Assumptions C75_methods_refuted.
Theorem C75_constructor_refuted : exists m fs L t m1 a m2, lists (is_field m) m fs L /\ mStructType fs m = (Ok t, m1) /\ denotes m1 t (TStruct L) /\
  on_array fs a /\ set_cell a 0 (CField "B" int_ "") m1 = (Ok tt, m2) /\ ~ denotes m2 t (TStruct L).
Proof. exact constructor_retains. Qed.
Print Assumptions C75_constructor_refuted.
Theorem C75_fields_partial : forall m t L, denotes m t (TStruct L) ->
  exists s m1, mFields t m = (Ok s, m1) /\ grown m m1 /\ lists (is_field m1) m1 s L /\
    forall a m2, on_array s a -> written a m1 m2 -> forall u U, denotes m u U -> denotes m2 u U.
Proof. exact fields_copied. Qed.
Print Assumptions C75_fields_partial.
Theorem C75_methods_partial : forall m t M E, denotes m t (TInterface M E) ->
  exists s m1, mMethods t m = (Ok s, m1) /\ grown m m1 /\ lists (is_method m1) m1 s M /\
    forall a m2, on_array s a -> written a m1 m2 -> forall u U, denotes m u U -> denotes m2 u U.
Proof. exact methods_copied. Qed.
Print Assumptions C75_methods_partial.
Theorem C75_embeds_partial : forall m t M E, denotes m t (TInterface M E) ->
  exists s m1, mEmbeds t m = (Ok s, m1) /\ grown m m1 /\ cells m1 s = Some (map CSym E) /\
    forall a m2, on_array s a -> written a m1 m2 -> forall u U, denotes m u U -> denotes m2 u U.
Proof. exact embeds_copied. Qed.
Print Assumptions C75_embeds_partial.
Example C75_example : denotes memQ (MStruct 2) (tyQ "x") /\
  exists m1 m2, mFields (MStruct 2) memQ = (Ok (SArr 2 3), m1) /\ set_cell 2 0 (CField "Z" str_ "") m1 = (Ok tt, m2) /\ written 2 m1 m2 /\
    denotes m2 (MStruct 2) (tyQ "x").
Proof.
  split; [exists 4; reflexivity|]. eexists _, _. split; [reflexivity|]. split; [reflexivity|]. split; [|exists 4; reflexivity].
  split; [auto|]. intros [|[|[|b]]] l NE; cbn; auto. congruence.
Qed.

(** C76 *)
Theorem C76_function_refuted : exists m p t T m1, sig_denotes m p (mkSig [] [] false) /\
  mFuncSpec_ToTypeName None None p m = (Ok t, m) /\ denotes m t T /\ mAddArg no_room p "x" int_ m = (Ok tt, m1) /\ ~ denotes m1 t T.
Proof. exact function_type_shared. Qed.
Print Assumptions C76_function_refuted.
Theorem C76_cyclic_refuted : exists m p t m1, sig_denotes m p (mkSig [] [] false) /\
  mFuncSpec_ToTypeName None None p m = (Ok t, m) /\ mAddArg no_room p "" t m = (Ok tt, m1) /\
  (forall T, ~ denotes m1 t T) /\ forall n reg i, fst (mqualifyType n reg t (i, m1)) = Panic out_of_fuel.
Proof. exact function_type_cyclic. Qed.
Print Assumptions C76_cyclic_refuted.
Theorem C76_method_partial : forall extra nm ty ptr pkg p m s l, sig_denotes m p s -> sound m -> unshared m p ->
  match FuncTypeFromSig (mkSig (mkArg nm (receiver pkg ty ptr) :: Args s) (Results s) (IsVariadic s)) with
  | Panic e => exists m1, mFuncSpec_ToTypeName (Some (nm, ty, ptr)) (Some pkg) p m = (Panic e, m1) /\ grown m m1
  | Ok T => exists q m1 m2, mFuncSpec_ToTypeName (Some (nm, ty, ptr)) (Some pkg) p m = (Ok (MFunc q), m1) /\ grown m m1 /\
      denotes m1 (MFunc q) T /\ do_edits extra p l m1 = (Ok tt, m2) /\ denotes m2 (MFunc q) T
  end.
Proof. exact method_type_kept. Qed.
Print Assumptions C76_method_partial.
Theorem C76_interface_method_partial : forall extra rt RT p m s l,
  sig_denotes m p s -> sound m -> unshared m p -> denotes m rt RT -> ~ within m rt (MFunc p) ->
  match FuncTypeFromSig (mkSig (mkArg "" RT :: Args s) (Results s) (IsVariadic s)) with
  | Panic e => exists m1, mInterfaceMethod_ToTypeName (Some rt) p m = (Panic e, m1) /\ grown m m1
  | Ok T => exists q m1 m2 m3, mInterfaceMethod_ToTypeName (Some rt) p m = (Ok (MFunc q), m1) /\ grown m m1 /\
      denotes m1 (MFunc q) T /\ do_edits extra p l m1 = (Ok tt, m2) /\ denotes m2 (MFunc q) T /\
      do_edits extra q l m1 = (Ok tt, m3) /\ sig_denotes m3 p s
  end.
Proof. exact interface_method_type_kept. Qed.
Print Assumptions C76_interface_method_partial.
(** func(b x.B) and an interface type which takes it *)
Definition memM : mem :=
  mkMem [OSig (mkMSig (SArr 0 1) SNil false); ONamed (xB "x")] [[CArg "b" (MNamed 1); CArg "" MNil]].
Example C76_example : sig_denotes memM 0 (mkSig [mkArg "b" (TNamed (xB "x"))] [] false) /\ sound memM /\ unshared memM 0 /\
  denotes memM (MNamed 1) (TNamed (xB "x")) /\ ~ within memM (MNamed 1) (MFunc 0) /\
  FuncTypeFromSig (mkSig [mkArg "" (TNamed (xB "x")); mkArg "b" (TNamed (xB "x"))] [] false)
    = Ok (TFunc (mkSig [mkArg "" (TNamed (xB "x")); mkArg "b" (TNamed (xB "x"))] [] false)).
Proof.
  assert (SL : forall s, slice_in memM s -> s = SArr 0 1 \/ s = SNil).
  { intros s [(p & o & N & H)|(a & l & c & N & Hc & H)].
    - destruct p as [|[|p]]; cbn in N; try (destruct p; discriminate); injection N as <-; cbn in H; intuition.
    - destruct a as [|a]; cbn in N; [|destruct a; discriminate]. injection N as <-. destruct Hc as [<-|[<-|[]]]; destruct H. }
  split; [exists 1; eexists; split; reflexivity|]. split; [intros s H; destruct (SL s H) as [->| ->]; discriminate|]. split; [split|].
  - intros o a N. injection N as <-. cbn. auto.
  - intros op sp sq a N Hsp Hsq. injection N as <-. destruct Hsp as [<-|[<-|[]]], (SL sq Hsq) as [->| ->]; cbn; tauto || lia.
  - split; [exists 1; reflexivity|]. split; [|reflexivity]. intros W. inversion W as [|? ? ? D]; subst. inversion D.
Qed.

(** C77 *)
Theorem C77_copies_refuted : exists A B m mA mB, two_copies memF = (Ok (A, B), m) /\ A <> B /\
  mAddArg room A "x" int_ m = (Ok tt, mA) /\ mAddArg room B "y" str_ mA = (Ok tt, mB) /\
  sig_denotes mA A (mkSig (three_ints ++ [mkArg "x" (TBasic KInt)]) [] false) /\
  sig_denotes mB A (mkSig (three_ints ++ [mkArg "y" (TBasic KString)]) [] false).
Proof. exact copies_interfere. Qed.
Print Assumptions C77_copies_refuted.
Theorem C77_method_refuted : exists q m mA mB, its_type memF = (Ok (MFunc q), m) /\
  mAddResult room 0 "x" int_ m = (Ok tt, mA) /\ mAddResult room q "y" str_ mA = (Ok tt, mB) /\
  sig_denotes mA 0 (mkSig [] (three_ints ++ [mkArg "x" (TBasic KInt)]) false) /\
  sig_denotes mB 0 (mkSig [] (three_ints ++ [mkArg "y" (TBasic KString)]) false).
Proof. exact type_interferes. Qed.
Print Assumptions C77_method_refuted.
Theorem C77_edit_partial : forall extra p e m s T, sig_denotes m p s -> sound m -> unshared m p ->
  (match e with EAddArg _ t | EAddResult _ t => denotes m t T /\ ~ within m t (MFunc p) | ESetVariadic _ => True end) ->
  exists m', do_edit extra p e m = (Ok tt, m') /\
   sig_denotes m' p match e with
                    | EAddArg n _ => Signature_AddArg s n T
                    | EAddResult n _ => Signature_AddResult s n T
                    | ESetVariadic v => Signature_SetVariadic s v
                    end /\
   sound m' /\ unshared m' p /\ (forall u U, denotes m u U -> ~ within m u (MFunc p) -> denotes m' u U).
Proof. exact one_signature. Qed.
Print Assumptions C77_edit_partial.
Theorem C77_new : forall m, sound m -> exists p m', new_obj (OSig (mkMSig SNil SNil false)) m = (Ok p, m') /\ grown m m' /\
  sound m' /\ unshared m' p /\ sig_denotes m' p (mkSig [] [] false).
Proof. exact new_signature. Qed.
Print Assumptions C77_new.
(** the empty memory, a new signature, and additions to it *)
Example C77_example : sound (mkMem [] []) /\
  exists m, (do p <- new_obj (OSig (mkMSig SNil SNil false)) ;; do _ <- mAddArg room p "a" int_ ;; do _ <- mAddResult room p "" str_ ;; mSetVariadic p true)
              (mkMem [] []) = (Ok tt, m) /\
    sig_denotes m 0 (mkSig [mkArg "a" (TBasic KInt)] [mkArg "" (TBasic KString)] true).
Proof.
  split; [intros s [([|p] & o & N & _)|([|a] & l & c & N & _)]; discriminate|].
  eexists. split; [reflexivity|]. exists 1. eexists. split; reflexivity.
Qed.

(** C78 *)
Theorem C78_files_refuted : exists p t m1 iA iB t2 m2,
  mFuncSpec_ToTypeName None None p memX = (Ok t, memX) /\ denotes memX t (TFunc (mkSig [mkArg "b" (TNamed symB)] [] false)) /\
  mqualify_part 5 (PSig p) (fileA, memX) = (Ok (PSig p), (iA, m1)) /\
  mqualify_part 5 (PType t) (fileB, m1) = (Ok (PType t2), (iB, m2)) /\
  ImportSpecs iB = [mkImportSpec "" "b/x"] /\
  denotes m2 t2 (TFunc (mkSig [mkArg "b" (TNamed (mkSymbol (mkPackage "b/x" "x1") "B"))] [] false)) /\
  snd (snd (mqualify_part 5 (PType t) (fileB, memX))) = memX.
Proof. exact across_files. Qed.
Print Assumptions C78_files_refuted.
Theorem C78_one_file_partial : forall own h l lv m, Forall2 (means m) l lv -> forallb vpart_wf lv = true ->
  let i := run h (NewImportsFor own) in
  exists n0, forall n, n0 <= n -> exists lv' i' m' l', vqualify_all lv i = (Ok lv', i') /\ mqualify_parts n l (i, m) = (Ok l', (i', m')) /\
    Forall2 (means m') l' lv'.
Proof. exact one_file. Qed.
Print Assumptions C78_one_file_partial.
(** one function, its type before and after it, a struct with its type *)
Definition memP : mem :=
  mkMem [OSig (mkMSig (SArr 0 1) SNil false); ONamed symB; OStruct (SArr 1 1)] [[CArg "b" (MNamed 1)]; [CField "F" (MFunc 0) ""]].
Definition fnP (name : string) : Signature := mkSig [mkArg "b" (TNamed (xB name))] [] false.
Example C78_example :
  let l := [PType (MFunc 0); PSig 0; PType (MStruct 2); PPtr 0; PSig 0] in
  let lv name := [VType (TFunc (fnP name)); VSig (fnP name); VType (TStruct [mkField "F" (TFunc (fnP name)) ""]); VSig (fnP name); VSig (fnP name)] in
  Forall2 (means memP) l (lv "x") /\ forallb vpart_wf (lv "x") = true /\ fst (vqualify_all (lv "x") fileA) = Ok (lv "x1") /\
  exists l', fst (mqualify_parts 6 l (fileA, memP)) = Ok l' /\ l' <> l.
Proof.
  intros l lv. split; [|split; [reflexivity|split; [vm_compute; reflexivity|eexists; split; [vm_compute; reflexivity|discriminate]]]].
  repeat constructor; cbn [means]; try (exists 4; reflexivity); try (exists 4; eexists; split; reflexivity).
Qed.

(** C79 *)
Theorem C79_values : forall m t T k K (len dir : Z), denotes m t T -> denotes m k K ->
  same_value m (mPointerType t) (PointerType T) /\ same_value m (mSliceType t) (SliceType T) /\
  same_value m (mArrayType t len) (ArrayType T len) /\ same_value m (mMapType k t) (MapType K T) /\ same_value m (mChannelType t dir) (ChannelType T dir).
Proof. exact value_types. Qed.
Print Assumptions C79_values.
Theorem C79_named : forall m s, same_made m (mNamedType s m) (Ok (NamedType s)).
Proof. exact named_type. Qed.
Print Assumptions C79_named.
Theorem C79_struct : forall m fs L, lists (is_field m) m fs L -> same_made m (mStructType fs m) (Ok (StructType L)).
Proof. exact struct_type. Qed.
Print Assumptions C79_struct.
Theorem C79_interface : forall m es ms E M, cells m es = Some (map CSym E) -> lists (is_method m) m ms M ->
  same_made m (mInterfaceType es ms m) (Ok (InterfaceType E M)).
Proof. exact interface_type. Qed.
Print Assumptions C79_interface.
Theorem C79_func : forall m args results v A R, lists (is_arg m) m args A -> lists (is_arg m) m results R ->
  same_made m (mFuncType args results v m) (FuncTypeFromSig (mkSig A R v)).
Proof. exact func_type. Qed.
Print Assumptions C79_func.
Example C79_example : lists (is_field memQ) memQ (SArr 1 1) [mkField "A" (TBasic KInt) ""] /\
  lists (is_arg memQ) memQ (SArr 0 1) [mkArg "b" (TNamed (xB "x"))] /\
  same_value memQ (mPointerType MNil) (PointerType TNil) /\ mPointerType MNil <> Ok MNil /\
  (exists e, FuncTypeFromSig (mkSig [mkArg "b" (TNamed (xB "x"))] [] true) = Panic e /\ fst (mFuncType (SArr 0 1) SNil true memQ) = Panic e).
Proof.
  split; [eexists; split; [reflexivity|]; repeat constructor; eexists; split; [reflexivity|exists 2; reflexivity]|].
  split; [eexists; split; [reflexivity|]; repeat constructor; eexists; split; [reflexivity|exists 2; reflexivity]|].
  split; [reflexivity|]. split; [discriminate|]. eexists. split; reflexivity.
Qed.
