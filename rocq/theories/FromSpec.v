(** Types declared from other types' specs. *)
From Verif Require Import Base GoPath Types Imports World SpecWorld WorldProofs.

Section FromSpec.
Context {TD : Type}.
Notation World := (World TD).

Theorem from_named_spec : forall (w : World) name id T f F,
  nth_error (types w) id = Some T -> TSName T <> "" -> TSParent T = Some f -> nth_error (files w) f = Some F ->
  let t := IsName (TNamed (mkSymbol (package_of F) (TSName T))) in
  NewTypeSpec name (IsSpec id) w = NewTypeSpec name t w /\ NewTypeAlias name (IsSpec id) w = NewTypeAlias name t w.
Proof.
  intros w name id T f F N NM P NF t.
  assert (E : NewTypeSpec name (IsSpec id) w = NewTypeSpec name t w).
  { unfold t, NewTypeSpec, sbind, get. rewrite N. unfold TypeSpec_ToTypeName, TypeSpec_ToSymbol.
    apply String.eqb_neq in NM. rewrite NM. rewrite P. unfold file_package, rd. rewrite NF. reflexivity. }
  split; [exact E|]. unfold NewTypeAlias, sbind in *. now rewrite E.
Qed.
Theorem from_homeless_spec : forall (w : World) name id T,
  nth_error (types w) id = Some T -> TSName T <> "" -> TSParent T = None ->
  exists m, NewTypeSpec name (IsSpec id) w = (Panic m, w) /\ NewTypeAlias name (IsSpec id) w = (Panic m, w).
Proof.
  intros w name id T N NM P. apply String.eqb_neq in NM. eexists.
  unfold NewTypeAlias, NewTypeSpec, sbind, get. rewrite N. unfold TypeSpec_ToTypeName, TypeSpec_ToSymbol.
  rewrite NM, P. cbn. split; reflexivity.
Qed.
Theorem from_unnamed_spec : forall (env : Env TD) (w : World) name (alias : bool) id T,
  nth_error (types w) id = Some T -> TSName T = "" ->
  exists w' T', (if alias then NewTypeAlias name (IsSpec id) w else NewTypeSpec name (IsSpec id) w) = (Ok (length (types w)), w') /\
    nth_error (types w') (length (types w)) = Some T' /\ TSName T' = name /\ TSComment T' = "" /\ TSParent T' = None /\
    (forall id', id' < length (types w) -> nth_error (types w') id' = nth_error (types w) id') /\
    set_types [] w' = set_types [] w /\
    forall fuel wl c, TypeSpec_writeTo env fuel wl T' c =
      match TypeSpec_writeUnderlying env fuel wl T with
      | Ok s => Ok (name ++ (if alias then " = " else " ") ++ s)%string
      | Panic m => Panic m
      end.
Proof.
  intros env w name alias id T N NM.
  exists (set_types (types w ++ [mkTypeSpec "" name alias (TSUnderlying T) (TSStruct T) (TSInterface T) None]) w).
  exists (mkTypeSpec "" name alias (TSUnderlying T) (TSStruct T) (TSInterface T) None).
  assert (E : NewTypeSpec name (IsSpec id) w = (Ok (length (types w)),
    set_types (types w ++ [mkTypeSpec "" name false (TSUnderlying T) (TSStruct T) (TSInterface T) None]) w)).
  { unfold NewTypeSpec, sbind, get. rewrite N. unfold TypeSpec_ToTypeName. rewrite NM. reflexivity. }
  assert (NL : forall l (x : TypeSpec), nth_error (l ++ [x]) (length l) = Some x).
  { induction l; cbn; auto. }
  split; [|split; [|split; [|split; [|split; [|split; [|split]]]]]]; try reflexivity.
  - destruct alias; [|exact E]. unfold NewTypeAlias, sbind. rewrite E. unfold get. cbn [types set_types]. rewrite NL.
    unfold put. cbn [TSComment TSName TSUnderlying TSStruct TSInterface TSParent]. unfold set_types. cbn.
    assert (U : forall l (x y : TypeSpec), upd (length l) y (l ++ [x]) = l ++ [y]).
    { induction l; cbn; intros; auto. now rewrite IHl. }
    rewrite ?U. reflexivity.
  - apply NL.
  - intros id' L. cbn [types set_types]. now apply nth_error_app1.
  - intros fuel wl c. unfold TypeSpec_writeTo. cbn [TSComment TSName TSIsAlias].
    assert (EU : TypeSpec_writeUnderlying env fuel wl (mkTypeSpec "" name alias (TSUnderlying T) (TSStruct T) (TSInterface T) None)
                 = TypeSpec_writeUnderlying env fuel wl T) by (destruct fuel; reflexivity).
    rewrite EU. destruct c; cbn [writeComment]; destruct (TypeSpec_writeUnderlying env fuel wl T), alias; cbn; reflexivity.
Qed.
End FromSpec.
