(** Properties of the calls on builder objects: C72, C73.  Only statements, examples and [exact]. *)
From Verif Require Import Base GoPath Types SpecTypes Imports SpecImports SpecGo SpecRender World SpecWorld SpecCalls CallsProofs FromSpec QualifyExamples.

(** C72 *)
Theorem C72_one_attribute : forall TD s (w : World TD) v, attr w (about s) = Some v ->
  exists w', perform s w = (Ok tt, w') /\ attr w' (about s) = Some (new_value s v) /\
    (forall k, k <> about s -> attr w' k = attr w k) /\ rest w' = rest w.
Proof. exact @effect. Qed.
Print Assumptions C72_one_attribute.
(** attributes and the rest are all there is *)
Theorem C72_all : forall TD (w w' : World TD), rest w = rest w' -> (forall k, attr w k = attr w' k) -> w = w'.
Proof. exact @all_of_it. Qed.
Print Assumptions C72_all.
Theorem C72_order : forall TD l l' (w : World TD),
  (forall s, In s l -> attr w (about s) <> None) -> (forall k, calls_about k l = calls_about k l') ->
  exists w', for_each perform l w = (Ok tt, w') /\ for_each perform l' w = (Ok tt, w').
Proof. exact @order_free. Qed.
Print Assumptions C72_order.
Definition exObjects : World unit :=
  snd ((do a <- NewField "A" (IsName (TBasic KInt)) ;; do b <- NewField "B" (IsName (TBasic KInt)) ;;
        do m <- NewInterfaceMethod "M" ;; sret tt) empty_world).
Definition exCalls1 : list setting :=
  [CallField 0 (FSetTag "t"); CallElem 0 (SAddArg "x" (TBasic KInt)); CallField 0 (FSetComment "first"); CallElem 0 (SSetVariadic true);
   CallElem 0 (SAddArg "y" (TSlice (TBasic KInt))); CallField 1 (FSetComment "b"); CallField 0 (FSetComment "c")].
Definition exCalls2 : list setting :=
  [CallElem 0 (SSetVariadic true); CallField 1 (FSetComment "b"); CallField 0 (FSetComment "first"); CallField 0 (FSetComment "c");
   CallElem 0 (SAddArg "x" (TBasic KInt)); CallElem 0 (SAddArg "y" (TSlice (TBasic KInt))); CallField 0 (FSetTag "t")].
Example C72_example :
  (forall s, In s exCalls1 -> attr exObjects (about s) <> None) /\ (forall k, calls_about k exCalls1 = calls_about k exCalls2) /\
  let w := snd (for_each perform exCalls2 exObjects) in
  attr w (AtField 0 FaComment) = Some (Text "c") /\ attr w (AtField 0 FaTag) = Some (Text "t") /\
  attr w (AtElem 0 SaArgs) = Some (Params [mkArg "x" (TBasic KInt); mkArg "y" (TSlice (TBasic KInt))]) /\
  attr exObjects (AtField 0 FaTag) = Some (Text "").
Proof.
  split.
  { intros s I. repeat (destruct I as [<-|I]; [vm_compute; discriminate|]). destruct I. }
  split; [|vm_compute; repeat split; reflexivity].
  intros k. unfold calls_about, exCalls1, exCalls2. cbn [filter about fabout sabout].
  repeat match goal with |- context [attribute_eq ?a ?b] => destruct (attribute_eq a b) end; try reflexivity; exfalso; congruence.
Qed.

(** C73 *)
Theorem C73_named : forall TD (w : World TD) name id T f F,
  nth_error (types w) id = Some T -> TSName T <> "" -> TSParent T = Some f -> nth_error (files w) f = Some F ->
  let t := IsName (TNamed (mkSymbol (package_of F) (TSName T))) in
  NewTypeSpec name (IsSpec id) w = NewTypeSpec name t w /\ NewTypeAlias name (IsSpec id) w = NewTypeAlias name t w.
Proof. exact @from_named_spec. Qed.
Print Assumptions C73_named.
Theorem C73_homeless : forall TD (w : World TD) name id T,
  nth_error (types w) id = Some T -> TSName T <> "" -> TSParent T = None ->
  exists m, NewTypeSpec name (IsSpec id) w = (Panic m, w) /\ NewTypeAlias name (IsSpec id) w = (Panic m, w).
Proof. exact @from_homeless_spec. Qed.
Print Assumptions C73_homeless.
Theorem C73_unnamed : forall TD (env : Env TD) (w : World TD) name (alias : bool) id T,
  nth_error (types w) id = Some T -> TSName T = "" ->
  exists w' T', (if alias then NewTypeAlias name (IsSpec id) w else NewTypeSpec name (IsSpec id) w) = (Ok (length (types w)), w') /\
    nth_error (types w') (length (types w)) = Some T' /\ TSName T' = name /\ TSComment T' = "" /\ TSParent T' = None /\
    (forall id', id' < length (types w) -> nth_error (types w') id' = nth_error (types w) id') /\
    set_types [] w' = set_types [] w /\
    forall fuel wl c, TypeSpec_writeTo env fuel wl T' c =
      match TypeSpec_writeUnderlying env fuel wl T with
      | Ok s => Ok (name ++ (if alias then " = " else " ") ++ s)%string
      | Panic m => Panic m
      end.
Proof. exact @from_unnamed_spec. Qed.
Print Assumptions C73_unnamed.
(** 0: unnamed struct, 1: the type S in a file, 2: the type R in no file *)
Definition exSpecs : World unit :=
  snd ((do f <- NewGoFile "t.go" "a.b/m" "m" ;; do a <- NewField "A" (IsName (TBasic KInt)) ;;
        do u <- NewStructTypeSpec "" [a] ;; do b <- NewField "B" (IsName (TBasic KString)) ;;
        do s <- NewStructTypeSpec "S" [b] ;; do _ <- AddType f s ;; NewTypeSpec "R" (IsName (TBasic KInt))) empty_world).
Example C73_example :
  match map (fun T => (TSName T, TSParent T)) (types exSpecs) with [("", None); ("S", Some 0); ("R", None)] => True | _ => False end /\
  (let (r, w) := NewTypeSpec "X" (IsSpec 0) exSpecs in
   match r, nth_error (types w) 3 with
   | Ok 3, Some T => TypeSpec_writeTo exEnv 5 w T true = Ok ("X  struct {" ++ newline ++ "A int" ++ newline ++ "}" ++ newline)%string
   | _, _ => False
   end) /\
  (let (r, w) := NewTypeAlias "X" (IsSpec 1) exSpecs in
   match r, nth_error (types w) 3 with
   | Ok 3, Some T => TypeSpec_writeTo exEnv 5 w T true = Ok ("X =  m.S" ++ newline)%string /\ TSStruct T = []
   | _, _ => False
   end).
Proof. vm_compute. repeat split. Qed.
