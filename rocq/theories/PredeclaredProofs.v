(** Proofs about the variables for types: C94. *)
From Verif Require Import Base BaseFacts GoPath Types SpecTypes Imports SpecImports ImportsProofs ImportsTheorems Predeclared SpecPredeclared.

Lemma variables_ok v n : In (v, n) documented ->
  exists t, lookup v type_variables = Some (Ok t) /\ wf t = true /\
    (forall isPrint, exists s, typeNameToString isPrint t = Ok s /\ go_type_named s = go_type_named n) /\
    (forall i, EnsureTypeImported t i = (Ok (t, false), i)) /\ (forall i, QualifyType t i = (Ok (t, false), i)).
Proof.
  intros H. repeat (destruct H as [[= <- <-]|H]; [eexists; repeat split; try reflexivity; intros; eexists; split; reflexivity|]).
  destruct H.
Qed.
Lemma variables_same v n v' n' : In (v, n) documented -> In (v', n') documented ->
  (lookup v type_variables = lookup v' type_variables <-> go_type_named n = go_type_named n').
Proof.
  intros H H'.
  repeat (destruct H as [[= <- <-]|H];
    [repeat (destruct H' as [[= <- <-]|H']; [cbv; split; intros X; try reflexivity; discriminate|]); destruct H'|]).
  destruct H.
Qed.
Lemma unsafe_pointer own h : own <> "unsafe" ->
  exists t, lookup "UnsafePointerType" type_variables = Some (Ok t) /\
  let i := run h (NewImportsFor own) in
  exists t' c i' p, EnsureTypeImported t i = (Ok (t', c), i') /\
    (forall path, In path (listed i') <-> In path (listed i) \/ path = "unsafe") /\
    fst (PrefixForPackage "unsafe" i') = Ok p /\
    (forall isPrint, typeNameToString isPrint t' = Ok (p ++ "Pointer")%string).
Proof.
  intros N. exists UnsafePointerType. split; [reflexivity|]. cbv zeta.
  destruct (type_preserved own h UnsafePointerType eq_refl) as (g & c & i' & E & P).
  destruct (type_registers own h UnsafePointerType eq_refl) as (r & i2 & E2 & L & _). rewrite E in E2. injection E2 as <- <-.
  destruct (P (mkSymbol (mkPackage "unsafe" "unsafe") "Pointer")) as (_ & _ & p & Q & S); [left; reflexivity|].
  exists (map_symbols g UnsafePointerType), c, i', p. split; [exact E|]. split; [|split].
  - intros path. rewrite (L path). split; (intros [H|H]; [left; exact H|right]).
    + destruct H as (_ & s & [<-|[]] & _ & H). symmetry. exact H.
    + subst. split; [congruence|]. eexists. split; [left; reflexivity|]. split; reflexivity.
  - cbn [sym_path SymPackage ImportPath] in Q. rewrite Q. reflexivity.
  - intros isPrint. cbn [map_symbols UnsafePointerType NamedType typeNameToString]. f_equal. exact S.
Qed.
