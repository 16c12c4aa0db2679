(** What template data says after it was qualified (C97). *)
From Coq Require Import NArith.
From Verif Require Import Base GoPath Types SpecTypes Imports SpecImports Conv World Template SpecTemplate SpecRender SpecQualify
  SpecTemplateText TemplateText TemplateOrder TemplateTheorems.

(** C97 *)
(** The references of the result, one by one, are printed as texts that mean, through the import
    list the template renders, what the references of the data meant. *)
Theorem C97_references : forall implements unsafe parent_of isPrint real own h h' d r i',
  forallb call_ok (h ++ h') = true -> (forall c, In c (h ++ h') -> honest real c) -> (forall c, In c (h ++ h') -> usable_requests c) ->
  (forall q, In q (data_requests unsafe parent_of (data d)) -> right_name real q /\ usable_name q) ->
  typed implements (data d) ->
  QualifyTemplateData implements unsafe parent_of (Some d) (run h (NewImportsFor own)) = (Ok r, i') ->
  keys_apart implements unsafe parent_of (name_in i') (data d) ->
  Forall2 (says isPrint parent_of real own (ImportSpecs (run h' i'))) (mentioned unsafe d) (mentioned_in unsafe r).
Proof. exact data_says. Qed.
Print Assumptions C97_references.
(** Where renamed keys of a map coincide entries get lost, but what is left still says what the
    data said. *)
Theorem C97_coinciding_keys : forall implements unsafe parent_of isPrint real own h h' d r i',
  forallb call_ok (h ++ h') = true -> (forall c, In c (h ++ h') -> honest real c) -> (forall c, In c (h ++ h') -> usable_requests c) ->
  (forall q, In q (data_requests unsafe parent_of (data d)) -> right_name real q /\ usable_name q) ->
  typed implements (data d) ->
  QualifyTemplateData implements unsafe parent_of (Some d) (run h (NewImportsFor own)) = (Ok r, i') ->
  forall b, In b (mentioned_in unsafe r) -> exists a, In a (mentioned unsafe d) /\
    says isPrint parent_of real own (ImportSpecs (run h' i')) a b.
Proof. exact data_says_all. Qed.
Print Assumptions C97_coinciding_keys.

(** struct { S Symbol; L []interface{}; M map[string]Symbol } *)
Definition tt_imp (_ : gty) (t : string) : bool := String.eqb t any || String.eqb t "gopoet.TypeName".
(** The constant 0 is declared in a file of c/x, no other spec in any file. *)
Definition tt_parent (s : spec) : res (option Package) :=
  match s with SConst 0 => Ok (Some (mkPackage "c/x" "x")) | _ => Ok None end.
Definition tt_ax := mkPackage "a/x" "x".
Definition tt_bx := mkPackage "b/x" "x".
Definition tt_sig (p : Package) : Signature := mkSig [mkArg "v" (TPtr (TNamed (mkSymbol p "T")))] [] false.
Definition tt_data : val :=
  VStruct "main.Data"
    [(true, VSymbol (mkSymbol tt_ax "A"));
     (true, VSlice "[]interface {}" (map data
        [VTypeName (TSlice (TNamed (mkSymbol tt_bx "T"))); VOther "int" 3; VGoType (GTSlice (GTNamed (Some tt_bx) "U"));
         VSignature (tt_sig tt_bx); VSpec (SConst 0) None; VGoPackage (Some tt_bx)]));
     (true, VMap "map[string]gopoet.Symbol" [(VOther "string" 0, VSymbol (mkSymbol tt_bx "V")); (VOther "string" 1, VSymbol (mkSymbol (mkPackage "m.n/own" "own") "W"))])].
Definition tt_run := QualifyTemplateData tt_imp true tt_parent (Some tt_data) (run [CRegisterImport "a/x" "x"] (NewImportsFor "m.n/own")).
Definition tt_result : option val := match fst tt_run with Ok r => r | Panic _ => None end.
Example C97_example :
  forallb call_ok ([CRegisterImport "a/x" "x"] ++ [CRegisterImport "d/x" ""]) = true /\
  (forall c, In c ([CRegisterImport "a/x" "x"] ++ [CRegisterImport "d/x" ""]) -> honest path_Base c /\ usable_requests c) /\
  (forall q, In q (data_requests true tt_parent (data tt_data)) -> right_name path_Base q /\ usable_name q) /\
  typed tt_imp (data tt_data) /\ fst tt_run = Ok tt_result /\
  keys_apart tt_imp true tt_parent (name_in (snd tt_run)) (data tt_data) /\
  map (printed (fun _ => true)) (mentioned_in true tt_result) =
    [Some (Ok "x.A"); Some (Ok "[]x1.T"); Some (Ok "[]x1.U"); None; None; Some (Ok "x1"); Some (Ok "x1.V"); Some (Ok "W")] /\
  nth_error (mentioned_in true tt_result) 3 = Some (VSignature (tt_sig (mkPackage "b/x" "x1"))) /\
  nth_error (mentioned_in true tt_result) 4 = Some (VSpec (SConst 0) (Some "x2")) /\
  ImportSpecs (run [CRegisterImport "d/x" ""] (snd tt_run)) =
    [mkImportSpec "" "a/x"; mkImportSpec "x1" "b/x"; mkImportSpec "x2" "c/x"; mkImportSpec "x3" "d/x"].
Proof.
  split; [reflexivity|]. split.
  { intros c [<-|[<-|[]]]; split; intros p n [[= <- <-]|[]]; auto. }
  split.
  { intros q IN. vm_compute in IN. repeat (destruct IN as [<-|IN]; [split; vm_compute; auto|]). destruct IN. }
  split; [cbn; repeat split; auto; repeat constructor; intros EQ; inversion EQ|]. split; [vm_compute; reflexivity|]. split.
  { generalize (name_in (snd tt_run)). intros nm. cbn [keys_apart data tt_data map fold_right fst snd]. repeat split.
    intros c es' R. inversion R as [|? ? ? ? ? ? ? ? ? K _ _ _ R2]; subst. inversion R2 as [|? ? ? ? ? ? ? ? ? K2 _ _ _ R3]; subst. inversion R3; subst.
    inversion K; subst. inversion K2; subst. repeat constructor; intros EQ; inversion EQ. }
  repeat split; vm_compute; reflexivity.
Qed.
