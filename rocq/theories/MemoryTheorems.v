(** The theorems about memory in the form used by [PropMemory], and the counterexamples. *)
From Verif Require Import Base GoPath Types SpecTypes SpecRender Imports SpecImports ImportsProofs ImportsTheorems
  Memory SpecMemory MemoryProofs MemoryQualify MemoryEdits MemoryTypes MemoryShare.

Theorem unchanged reg i m t T : denotes m t T -> exists n0, forall n, n0 <= n ->
  exists r m', mqualifyType n reg t (i, m) = (r, (snd (qualifyType reg T i), m')) /\ grown m m' /\
    (forall u U, denotes m u U -> denotes m' u U) /\
    match fst (qualifyType reg T i) with
    | Ok (T', changed) => exists t', r = Ok t' /\ denotes m' t' T' /\ (if changed then t' <> t else t' = t)
    | Panic e => r = Panic e
    end.
Proof.
  intros (n0 & V). exists n0. intros n LE.
  pose proof (qualify_sim reg n0 n everywhere m i t T LE (below_everywhere m) V) as R.
  destruct (qualifyType reg T i) as ([(T', ch)|e] & i'); cbn [fst snd].
  - destruct R as (m' & t' & R & G & V' & CH). exists (Ok t'), m'. split; [exact R|]. split; [exact G|]. split; [intros u U; now apply denotes_grown|].
    exists t'. split; [reflexivity|]. split; [exists n0; exact V'|]. destruct ch; tauto.
  - destruct R as (m' & R & G). exists (Panic e), m'. split; [exact R|]. split; [exact G|]. split; [intros u U; now apply denotes_grown|reflexivity].
Qed.
Theorem unchanged_signature reg i m p s : sig_denotes m p s -> exists n0, forall n, n0 <= n ->
  exists r m', mqualify_pointer n reg p (i, m) = (r, (snd (qualifySignature reg s i), m')) /\ grown m m' /\
    (forall u U, denotes m u U -> denotes m' u U) /\
    match fst (qualifySignature reg s i) with
    | Ok (s', changed) => exists q, r = Ok q /\ sig_denotes m' q s' /\ (if changed then q <> p else q = p)
    | Panic e => r = Panic e
    end.
Proof.
  intros (n0 & o & N & V). exists n0. intros n LE.
  pose proof (sig_sim reg n0 (mqualifyType n reg) (fun F m i t T => qualify_sim reg n0 n F m i t T LE) everywhere m i o s (below_everywhere m) V) as R.
  change (qualifySignature_ (qualifyType reg) s i) with (qualifySignature reg s i) in R.
  assert (GS : on_mem (get_sig p) (i, m) = (Ok o, (i, m))) by (unfold on_mem, get_sig; cbn [snd fst]; now rewrite N).
  destruct (qualifySignature reg s i) as ([(s', ch)|e] & i'); cbn [fst snd].
  - destruct R as (m' & r & R & G & RC). destruct ch.
    + destruct RC as (o' & -> & V'). set (m2 := mkMem (objs m' ++ [OSig o']) (arrays m')). assert (G2 : grown m' m2) by apply new_obj_grown.
      assert (GG : grown m m2) by (eapply grown_trans; eauto).
      exists (Ok (List.length (objs m'))), m2. split; [unfold mqualify_pointer; rewrite (sbind_ok _ _ _ _ _ GS), (sbind_ok _ _ _ _ _ R); reflexivity|].
      split; [exact GG|]. split; [intros u U; now apply denotes_grown|]. eexists. split; [reflexivity|]. split.
      * exists n0, o'. split; [apply nth_new|]. eapply sigs_vf; [apply grown_frame; exact G2|exact V'].
      * exact (fresh_obj _ _ _ (proj1 G _ _ N)).
    + destruct RC as (-> & ->). exists (Ok p), m'. split; [unfold mqualify_pointer; rewrite (sbind_ok _ _ _ _ _ GS), (sbind_ok _ _ _ _ _ R); reflexivity|].
      split; [exact G|]. split; [intros u U; now apply denotes_grown|]. exists p. split; [reflexivity|]. split; [|reflexivity].
      exists n0, o. split; [now apply G|]. eapply sigs_vf; [apply grown_frame; exact G|exact V].
  - destruct R as (m' & R & G). exists (Panic e), m'. split; [unfold mqualify_pointer; rewrite (sbind_ok _ _ _ _ _ GS), (sbind_panic _ _ _ _ _ R); reflexivity|].
    split; [exact G|]. split; [intros u U; now apply denotes_grown|reflexivity].
Qed.

(** ** Counterexamples *)
Definition int_ : mty := MBasic KInt.
Definition str_ : mty := MBasic KString.
Definition no_sig : msig := mkMSig SNil SNil false.
Definition no_room : nat -> nat := fun _ => 0.
(** a function without parameters *)
Definition memF : mem := mkMem [OSig no_sig] [].
Theorem signature_given_away : exists m t T p m', denotes m t T /\ mSignature t = Some p /\
  mAddArg no_room p "x" int_ m = (Ok tt, m') /\ denotes m' t (TFunc (mkSig [mkArg "x" (TBasic KInt)] [] false)) /\ ~ denotes m' t T.
Proof.
  exists memF, (MFunc 0), (TFunc (mkSig [] [] false)), 0. eexists. split; [exists 1; reflexivity|]. split; [reflexivity|]. split; [reflexivity|].
  assert (D : denotes (snd (mAddArg no_room 0 "x" int_ memF)) (MFunc 0) (TFunc (mkSig [mkArg "x" (TBasic KInt)] [] false))) by (exists 2; reflexivity).
  split; [exact D|]. intros D2. pose proof (denotes_once _ _ _ _ D D2). discriminate.
Qed.
(** an interface with a method *)
Definition memI : mem := mkMem [OInterface (SArr 1 1) SNil] [[CArg "x" int_]; [CMethod "M" (mkMSig (SArr 0 1) SNil false)]].
Theorem methods_shallow : exists m t T s m1 a o m2, denotes m t T /\ mMethods t m = (Ok s, m1) /\
  cells m1 s = Some [CMethod "M" o] /\ on_array (ms_args o) a /\ set_cell a 0 (CArg "x" str_) m1 = (Ok tt, m2) /\ ~ denotes m2 t T.
Proof.
  exists memI, (MInterface 0), (TInterface [mkMethod "M" (mkSig [mkArg "x" (TBasic KInt)] [] false)] []). eexists _, _, 0, _, _.
  split; [exists 2; reflexivity|]. split; [reflexivity|]. split; [reflexivity|]. split; [reflexivity|]. split; [reflexivity|]. intros D2.
  match type of D2 with denotes ?mm _ _ =>
    assert (D : denotes mm (MInterface 0) (TInterface [mkMethod "M" (mkSig [mkArg "x" (TBasic KString)] [] false)] [])) by (exists 2; reflexivity);
    pose proof (denotes_once _ _ _ _ D D2); discriminate end.
Qed.
Definition memS : mem := mkMem [] [[CField "A" int_ ""]].
Theorem constructor_retains : exists m fs L t m1 a m2, lists (is_field m) m fs L /\ mStructType fs m = (Ok t, m1) /\ denotes m1 t (TStruct L) /\
  on_array fs a /\ set_cell a 0 (CField "B" int_ "") m1 = (Ok tt, m2) /\ ~ denotes m2 t (TStruct L).
Proof.
  exists memS, (SArr 0 1), [mkField "A" (TBasic KInt) ""]. eexists _, _, 0, _. split.
  { exists [CField "A" int_ ""]. split; [reflexivity|]. repeat constructor. exists int_. split; [reflexivity|]. exists 1. reflexivity. }
  split; [reflexivity|]. split; [exists 2; reflexivity|]. split; [reflexivity|]. split; [reflexivity|]. intros D2.
  match type of D2 with denotes ?mm ?t _ =>
    assert (D : denotes mm t (TStruct [mkField "B" (TBasic KInt) ""])) by (exists 2; reflexivity);
    pose proof (denotes_once _ _ _ _ D D2); discriminate end.
Qed.

(** the type of a function and the function are one *)
Theorem function_type_shared : exists m p t T m1, sig_denotes m p (mkSig [] [] false) /\
  mFuncSpec_ToTypeName None None p m = (Ok t, m) /\ denotes m t T /\ mAddArg no_room p "x" int_ m = (Ok tt, m1) /\ ~ denotes m1 t T.
Proof.
  exists memF, 0, (MFunc 0), (TFunc (mkSig [] [] false)). eexists. split; [exists 0, no_sig; split; reflexivity|]. split; [reflexivity|].
  split; [exists 1; reflexivity|]. split; [reflexivity|]. intros D2.
  match type of D2 with denotes ?mm ?t _ =>
    assert (D : denotes mm t (TFunc (mkSig [mkArg "x" (TBasic KInt)] [] false))) by (exists 2; reflexivity);
    pose proof (denotes_once _ _ _ _ D D2); discriminate end.
Qed.
(** f.AddArg("", f.ToTypeName()) *)
Definition memC : mem := mkMem [OSig (mkMSig (SArr 0 1) SNil false)] [[CArg "" (MFunc 0)]].
Lemma cyclic_view : forall n, view everywhere n memC (MFunc 0) = None.
Proof. induction n as [|n IH]; [reflexivity|]. cbn [view nth_error objs memC]. unfold sig_view. cbn -[view]. now rewrite IH. Qed.
Lemma cyclic_qualify reg : forall n i, mqualifyType n reg (MFunc 0) (i, memC) = (Panic out_of_fuel, (i, memC)).
Proof.
  induction n as [|n IH]; intros i; [reflexivity|]. cbn [mqualifyType].
  assert (GS : on_mem (get_sig 0) (i, memC) = (Ok (mkMSig (SArr 0 1) SNil false), (i, memC))) by reflexivity. rewrite (sbind_ok _ _ _ _ _ GS).
  apply sbind_panic. unfold mqualifySignature. apply sbind_panic. unfold qualify_slice. cbn [ms_args].
  assert (GC : on_mem (get_cells (SArr 0 1)) (i, memC) = (Ok [CArg "" (MFunc 0)], (i, memC))) by reflexivity. rewrite (sbind_ok _ _ _ _ _ GC).
  cbn [cow]. apply sbind_panic. cbn [arg_cell]. now apply sbind_panic.
Qed.
Theorem function_type_cyclic : exists m p t m1, sig_denotes m p (mkSig [] [] false) /\
  mFuncSpec_ToTypeName None None p m = (Ok t, m) /\ mAddArg no_room p "" t m = (Ok tt, m1) /\
  (forall T, ~ denotes m1 t T) /\ forall n reg i, fst (mqualifyType n reg t (i, m1)) = Panic out_of_fuel.
Proof.
  exists memF, 0, (MFunc 0), memC. split; [exists 0, no_sig; split; reflexivity|]. split; [reflexivity|]. split; [reflexivity|]. split.
  - intros T (n & V). rewrite cyclic_view in V. discriminate.
  - intros n reg i. now rewrite cyclic_qualify.
Qed.

(** Two declarations made from one interface type, with room for one more argument in the array. *)
Definition room (n : nat) : nat := if Nat.eqb n 2 then 1 else 0.
Definition three : MEM unit := do _ <- mAddArg room 0 "a" int_ ;; do _ <- mAddArg room 0 "b" int_ ;; mAddArg room 0 "c" int_.
Definition two_copies : MEM (nat * nat) := do _ <- three ;; do a <- copy_sig 0 ;; do b <- copy_sig 0 ;; sret (a, b).
Definition three_ints : list ArgType := [mkArg "a" (TBasic KInt); mkArg "b" (TBasic KInt); mkArg "c" (TBasic KInt)].
Theorem copies_interfere : exists A B m mA mB, two_copies memF = (Ok (A, B), m) /\ A <> B /\
  mAddArg room A "x" int_ m = (Ok tt, mA) /\ mAddArg room B "y" str_ mA = (Ok tt, mB) /\
  sig_denotes mA A (mkSig (three_ints ++ [mkArg "x" (TBasic KInt)]) [] false) /\
  sig_denotes mB A (mkSig (three_ints ++ [mkArg "y" (TBasic KString)]) [] false).
Proof.
  exists 1, 2. eexists _, _, _. split; [vm_compute; reflexivity|]. split; [discriminate|]. split; [vm_compute; reflexivity|]. split; [vm_compute; reflexivity|].
  split; (exists 2; eexists; split; vm_compute; reflexivity).
Qed.
(** A method with three results and its type. *)
Definition three_results : MEM unit := do _ <- mAddResult room 0 "a" int_ ;; do _ <- mAddResult room 0 "b" int_ ;; mAddResult room 0 "c" int_.
Definition its_type : MEM mty := do _ <- three_results ;; mFuncSpec_ToTypeName (Some ("r", "R", false)) (Some (mkPackage "p" "p")) 0.
Theorem type_interferes : exists q m mA mB, its_type memF = (Ok (MFunc q), m) /\
  mAddResult room 0 "x" int_ m = (Ok tt, mA) /\ mAddResult room q "y" str_ mA = (Ok tt, mB) /\
  sig_denotes mA 0 (mkSig [] (three_ints ++ [mkArg "x" (TBasic KInt)]) false) /\
  sig_denotes mB 0 (mkSig [] (three_ints ++ [mkArg "y" (TBasic KString)]) false).
Proof.
  exists 2. eexists _, _, _. split; [vm_compute; reflexivity|]. split; [vm_compute; reflexivity|]. split; [vm_compute; reflexivity|].
  split; (exists 2; eexists; split; vm_compute; reflexivity).
Qed.

(** One function in one file, its type in another. *)
Definition symB : Symbol := mkSymbol (mkPackage "b/x" "x") "B".
Definition memX : mem := mkMem [OSig (mkMSig (SArr 0 1) SNil false); ONamed symB] [[CArg "b" (MNamed 1)]].
Definition fileA : Imports := run [CRegisterImport "a/x" "x"] (NewImportsFor "a").
Definition fileB : Imports := NewImportsFor "b".
Theorem across_files : exists p t m1 iA iB t2 m2,
  mFuncSpec_ToTypeName None None p memX = (Ok t, memX) /\ denotes memX t (TFunc (mkSig [mkArg "b" (TNamed symB)] [] false)) /\
  mqualify_part 5 (PSig p) (fileA, memX) = (Ok (PSig p), (iA, m1)) /\
  mqualify_part 5 (PType t) (fileB, m1) = (Ok (PType t2), (iB, m2)) /\
  ImportSpecs iB = [mkImportSpec "" "b/x"] /\
  denotes m2 t2 (TFunc (mkSig [mkArg "b" (TNamed (mkSymbol (mkPackage "b/x" "x1") "B"))] [] false)) /\
  snd (snd (mqualify_part 5 (PType t) (fileB, memX))) = memX.
Proof.
  exists 0, (MFunc 0). eexists _, _, _, _, _. split; [reflexivity|]. split; [exists 3; reflexivity|]. split; [vm_compute; reflexivity|]. split; [vm_compute; reflexivity|].
  split; [vm_compute; reflexivity|]. split; [exists 3; vm_compute; reflexivity|]. vm_compute. reflexivity.
Qed.

(** ** Summaries *)
Section Sum.
Variable extra : nat -> nat.
Theorem method_type_kept nm ty ptr pkg p m s l : sig_denotes m p s -> sound m -> unshared m p ->
  match FuncTypeFromSig (mkSig (mkArg nm (receiver pkg ty ptr) :: Args s) (Results s) (IsVariadic s)) with
  | Panic e => exists m1, mFuncSpec_ToTypeName (Some (nm, ty, ptr)) (Some pkg) p m = (Panic e, m1) /\ grown m m1
  | Ok T => exists q m1 m2, mFuncSpec_ToTypeName (Some (nm, ty, ptr)) (Some pkg) p m = (Ok (MFunc q), m1) /\ grown m m1 /\
      denotes m1 (MFunc q) T /\ do_edits extra p l m1 = (Ok tt, m2) /\ denotes m2 (MFunc q) T
  end.
Proof.
  intros D SO UN. pose proof (method_type nm ty ptr pkg p m s D SO) as H. destruct (FuncTypeFromSig _) as [T|e]; [|exact H].
  destruct H as (q & m1 & R & MD & DQ). destruct (made_snapshot extra m p m1 q s T l D UN MD DQ) as (m2 & E & D2).
  exists q, m1, m2. split; [exact R|]. split; [apply MD|]. split; [exact DQ|]. split; [exact E|exact D2].
Qed.
Theorem interface_method_type_kept rt RT p m s l : sig_denotes m p s -> sound m -> unshared m p -> denotes m rt RT -> ~ within m rt (MFunc p) ->
  match FuncTypeFromSig (mkSig (mkArg "" RT :: Args s) (Results s) (IsVariadic s)) with
  | Panic e => exists m1, mInterfaceMethod_ToTypeName (Some rt) p m = (Panic e, m1) /\ grown m m1
  | Ok T => exists q m1 m2 m3, mInterfaceMethod_ToTypeName (Some rt) p m = (Ok (MFunc q), m1) /\ grown m m1 /\
      denotes m1 (MFunc q) T /\ do_edits extra p l m1 = (Ok tt, m2) /\ denotes m2 (MFunc q) T /\
      do_edits extra q l m1 = (Ok tt, m3) /\ sig_denotes m3 p s
  end.
Proof.
  intros D SO UN DR NR. pose proof (interface_method_type rt RT p m s D SO DR NR) as H. destruct (FuncTypeFromSig _) as [T|e]; [|exact H].
  destruct H as (q & m1 & R & MD & DQ & UQ). destruct (made_snapshot extra m p m1 q s T l D UN MD DQ) as (m2 & E & D2).
  apply func_denotes in DQ as (sq & -> & DQ). destruct (sig_denotes_listing _ _ _ DQ) as (Lq & HLq).
  destruct (edits_keep extra q l m1 Lq HLq (md_sound _ _ _ _ MD) UQ) as (m3 & E3 & _ & _ & _ & K).
  exists q, m1, m2, m3. split; [exact R|]. split; [apply MD|]. split; [apply func_denotes; eauto|]. split; [exact E|]. split; [exact D2|]. split; [exact E3|].
  assert (DP : denotes m (MFunc p) (TFunc s)) by (apply func_denotes; eauto).
  assert (DP3 : denotes m3 (MFunc p) (TFunc s)).
  { apply K; [eapply denotes_grown; [apply MD|exact DP]|]. intros W. destruct DP as (n & V).
    pose proof (within_back _ _ _ _ (md_grown _ _ _ _ MD) W _ _ V) as W0. destruct (within_view _ _ _ W0 _ _ V) as ([|k] & U & _ & VU); [discriminate|].
    cbn [view] in VU. rewrite (md_new _ _ _ _ MD) in VU. discriminate. }
  apply func_denotes in DP3 as (s3 & E4 & DP3). now injection E4 as ->.
Qed.
Theorem one_signature p e m s T : sig_denotes m p s -> sound m -> unshared m p ->
  (match e with EAddArg _ t | EAddResult _ t => denotes m t T /\ ~ within m t (MFunc p) | ESetVariadic _ => True end) ->
  exists m', do_edit extra p e m = (Ok tt, m') /\
   sig_denotes m' p match e with
                    | EAddArg n _ => Signature_AddArg s n T
                    | EAddResult n _ => Signature_AddResult s n T
                    | ESetVariadic v => Signature_SetVariadic s v
                    end /\
   sound m' /\ unshared m' p /\ (forall u U, denotes m u U -> ~ within m u (MFunc p) -> denotes m' u U).
Proof.
  intros D SO UN HT. destruct (edit_refines extra p e m s T D SO UN HT) as (m' & E & EF & D'). exists m'. split; [exact E|]. split; [exact D'|].
  split; [apply EF|]. split; [apply EF|]. intros u U (n & V) NW. exists n. eapply effect_view; eauto.
Qed.
End Sum.
Theorem new_signature m : sound m -> exists p m', new_obj (OSig (mkMSig SNil SNil false)) m = (Ok p, m') /\ grown m m' /\
  sound m' /\ unshared m' p /\ sig_denotes m' p (mkSig [] [] false).
Proof.
  intros SO. eexists _, _. split; [reflexivity|]. split; [apply new_obj_grown|]. split; [|split; [split|]].
  - intros s Hs. apply obj_slice_in in Hs as [Hs|[<-|[<-|[]]]]; try discriminate. specialize (SO s Hs).
    destruct (cells m s) as [l|] eqn:C; [|congruence]. rewrite (cells_grown _ _ _ _ (new_obj_grown m _) C). discriminate.
  - intros o a N. cbn [objs] in N. rewrite nth_new in N. injection N as <-. intros [].
  - intros op sp sq a N Hsp _ Ha. cbn [objs] in N. rewrite nth_new in N. injection N as <-. destruct Hsp as [<-|[<-|[]]]; destruct Ha.
  - exists 0. eexists. split; [cbn [objs]; apply nth_new|reflexivity].
Qed.
Theorem one_file own h l lv m : Forall2 (means m) l lv -> forallb vpart_wf lv = true ->
  let i := run h (NewImportsFor own) in
  exists n0, forall n, n0 <= n -> exists lv' i' m' l', vqualify_all lv i = (Ok lv', i') /\ mqualify_parts n l (i, m) = (Ok l', (i', m')) /\
    Forall2 (means m') l' lv'.
Proof. intros H W i. apply shared_parts; auto. apply run_new_Inv. Qed.
