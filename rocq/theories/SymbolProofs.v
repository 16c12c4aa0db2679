(** Which declarations can be referred to: parents of group members and of interface elements. *)
From Verif Require Import Base BaseFacts GoPath Types Imports Conv World SpecWorld SpecSymbol WorldProofs.

Definition elem_parent (e : InterfaceElement) : option nat :=
  match e with InterfaceEmbed _ _ p => p | InterfaceMethod _ _ _ p => p end.
Section Symbols.
Context {TD : Type}.
Notation World := (World TD).
Notation WM := (WM (TD := TD)).
Implicit Types w : World.

Lemma for_each_all {A} (g : A -> WM unit) (P : A -> World -> Prop) :
  (forall a w r w', g a w = (Ok r, w') -> P a w') -> (forall a b w r w', g b w = (Ok r, w') -> P a w -> P a w') ->
  forall l w r w', for_each g l w = (Ok r, w') -> (forall a, In a l -> P a w') /\ (forall a, P a w -> P a w').
Proof.
  intros H1 H2. induction l as [|b l IH]; intros w r w' E; cbn [for_each] in E.
  - injection E as _ <-. split; [intros a []|auto].
  - unfold sbind in E. destruct (g b w) as [[u|m] w1] eqn:G; [|discriminate]. destruct (IH _ _ _ E) as [I1 I2]. split.
    + intros a [<-|I]; [|auto]. apply I2. eapply H1; eauto.
    + intros a P0. apply I2. eapply H2; eauto.
Qed.
Lemma map_m_all {A B} (g : A -> WM B) (P : A -> World -> Prop) :
  (forall a w r w', g a w = (Ok r, w') -> P a w') -> (forall a b w r w', g b w = (Ok r, w') -> P a w -> P a w') ->
  forall l w r w', map_m g l w = (Ok r, w') -> (forall a, In a l -> P a w') /\ (forall a, P a w -> P a w').
Proof.
  intros H1 H2. induction l as [|b l IH]; intros w r w' E; cbn [map_m] in E.
  - injection E as _ <-. split; [intros a []|auto].
  - unfold sbind, sret in E. destruct (g b w) as [[u|m] w1] eqn:G; [|discriminate].
    destruct (map_m g l w1) as [[u'|m] w2] eqn:M; [|discriminate]. injection E as <- <-.
    destruct (IH _ _ _ M) as [I1 I2]. split.
    + intros a [<-|I]; [|auto]. apply I2. eapply H1; eauto.
    + intros a P0. apply I2. eapply H2; eauto.
Qed.

(** ** Interface elements *)
Definition marked (t : nat) (id : nat) w : Prop := exists e, nth_error (ielems w) id = Some e /\ elem_parent e = Some t.
Lemma setParent_marked t id w r w' : Elem_setParent t id w = (Ok r, w') -> marked t id w' /\ (forall a, marked t a w -> marked t a w').
Proof.
  unfold Elem_setParent, sbind, get, put. destruct (nth_error (ielems w) id) as [e|] eqn:N; [|discriminate].
  intros [= <- <-]. unfold marked. cbn [ielems set_ielems].
  assert (K : marked t id (set_ielems (upd id
    match e with InterfaceEmbed c s _ => InterfaceEmbed c s (Some t) | InterfaceMethod c n s _ => InterfaceMethod c n s (Some t) end (ielems w)) w)).
  { eexists. cbn. rewrite nth_upd_same by (apply nth_error_Some; congruence). split; [reflexivity|]. destruct e; reflexivity. }
  split; [exact K|]. intros a (e' & Na & P). destruct (Nat.eq_dec a id) as [->|D]; [exact K|].
  exists e'. rewrite nth_upd_other by auto. auto.
Qed.
Lemma interface_marked name es w t w' : NewInterfaceTypeSpec name es w = (Ok t, w') -> forall id, In id es -> marked t id w'.
Proof.
  unfold NewInterfaceTypeSpec. unfold sbind at 1. unfold alloc at 1. unfold sbind at 1.
  destruct (map_m _ es _) as [[els|m] w1] eqn:M; [|discriminate].
  unfold sbind, put, sret. intros [= <- <-].
  apply (map_m_all _ (marked (List.length (types w)))) in M.
  - destruct M as [M _]. intros id I. exact (M id I).
  - intros a w2 r w3. unfold sbind. destruct (Elem_setParent _ a w2) as [[u|m] w4] eqn:E; [|discriminate].
    unfold get. destruct (nth_error (ielems w4) a); [|discriminate]. intros [= <- <-]. apply setParent_marked in E as [E1 E2]; auto.
  - intros a b w2 r w3. unfold sbind. destruct (Elem_setParent _ b w2) as [[u|m] w4] eqn:E; [|discriminate].
    unfold get. destruct (nth_error (ielems w4) b); [|discriminate]. intros [= <- <-]. apply setParent_marked in E as [E1 E2]; auto.
Qed.
Lemma alloc_marked {A} t (g : A -> InterfaceElement) (l : list A) : (forall a, elem_parent (g a) = Some t) ->
  forall w ids w', map_m (fun a => alloc ielems set_ielems (g a)) l w = (Ok ids, w') ->
  (forall id, In id ids -> marked t id w') /\ (forall id, marked t id w -> marked t id w') /\ types w' = types w.
Proof.
  intros H. induction l as [|a l IH]; intros w ids w' E; cbn [map_m] in E.
  - injection E as <- <-. split; [intros id []|auto].
  - unfold sbind at 1 in E. unfold alloc at 1 in E. unfold sbind in E.
    destruct (map_m _ l _) as [[u|m] w1] eqn:M; [|discriminate]. injection E as <- <-.
    destruct (IH _ _ _ M) as (I1 & I2 & I3).
    split; [|split; [|rewrite I3; reflexivity]].
    + intros id [<-|I]; [|auto]. apply I2. exists (g a). cbn. rewrite nth_error_app2, Nat.sub_diag by lia. auto.
    + intros id (e & N & P). apply I2. exists e. cbn. rewrite nth_error_app1 by (apply nth_error_Some; congruence). auto.
Qed.
Lemma name_marked name n w t w' : NewTypeSpec name (IsName n) w = (Ok t, w') ->
  exists T, nth_error (types w') t = Some T /\ TSName T = name /\ forall id, In id (TSInterface T) -> marked t id w'.
Proof.
  assert (K : forall T, nth_error (types (set_types (types w ++ [T]) w)) (List.length (types w)) = Some T).
  { intros T. cbn. rewrite nth_error_app2, Nat.sub_diag by lia. reflexivity. }
  unfold NewTypeSpec. unfold sbind at 1. unfold alloc at 1. cbv beta iota zeta.
  destruct n as [|k|s|e|e|n e|k e|e d|sg|fs|ms es];
    try (unfold sret; intros [= <- <-]; eexists; split; [apply K|]; split; [reflexivity|]; intros id []).
  - unfold sbind. destruct (map_m _ fs _) as [[ids|m] w1] eqn:M; [|discriminate]. unfold put, sret. intros [= <- <-].
    assert (X : types w1 = types w ++ [mkTypeSpec "" name false (TStruct fs) [] [] None]).
    { change (types w ++ [_]) with (types (set_types (types w ++ [mkTypeSpec "" name false (TStruct fs) [] [] None]) w)).
      revert M. generalize (set_types (types w ++ [mkTypeSpec "" name false (TStruct fs) [] [] None]) w) as w0.
      generalize (List.length (types w)) as r. intros r. revert ids. clear. induction fs as [|f fs IH]; intros ids w0 M; cbn [map_m] in M.
      * injection M as _ <-. reflexivity.
      * unfold sbind at 1 in M. unfold alloc at 1 in M. unfold sbind in M. destruct (map_m _ fs _) as [[u|m] w2] eqn:M2; [|discriminate].
        injection M as _ <-. apply IH in M2. rewrite M2. reflexivity. }
    eexists. split; [cbn [types set_types]; apply nth_upd_same; rewrite X, app_length; cbn; lia|].
    split; [reflexivity|intros id []].
  - unfold sbind. destruct (map_m _ es _) as [[ids|m] w1] eqn:M; [|discriminate].
    destruct (map_m _ ms w1) as [[ids2|m] w2] eqn:M2; [|discriminate]. unfold put, sret. intros [= <- <-].
    apply (alloc_marked (List.length (types w)) (fun e => InterfaceEmbed "" e (Some (List.length (types w))))) in M; [|reflexivity].
    apply (alloc_marked (List.length (types w)) (fun m => InterfaceMethod "" (MtdName m) (MtdSig m) (Some (List.length (types w))))) in M2; [|reflexivity].
    destruct M as (A1 & _ & A3), M2 as (B1 & B2 & B3). exists (mkTypeSpec "" name false (TInterface ms es) [] (ids ++ ids2) None). split; [|split; [reflexivity|]].
    + cbn [types set_types]. apply nth_upd_same. rewrite B3, A3. cbn. rewrite app_length. cbn. lia.
    + cbn [TSInterface]. intros id I. apply in_app_or in I. destruct I as [I|I]; [apply A1, B2 in I|apply B1 in I]; exact I.
Qed.

(** ** Members of groups *)
Definition in_file (f : nat) (tab : World -> list ValueSpec) (id : nat) w : Prop :=
  exists v, nth_error (tab w) id = Some v /\ VParent v = Some f.
Definition type_in_file (f : nat) (id : nat) w : Prop := exists T, nth_error (types w) id = Some T /\ TSParent T = Some f.
(** all members of an element of a file *)
Definition members_in_file (f : nat) (e : FileElement) w : Prop :=
  match e with
  | EConst d => exists D, nth_error (constDecls w) d = Some D /\ forall id, In id (VDSpecs D) -> in_file f consts id w
  | EVar d => exists D, nth_error (varDecls w) d = Some D /\ forall id, In id (VDSpecs D) -> in_file f vars id w
  | EType d => exists D, nth_error (typeDecls w) d = Some D /\ forall id, In id (TDTypes D) -> type_in_file f id w
  | EFunc fn => exists F, nth_error (funcs w) fn = Some F /\ FNParent F = Some f
  end.
Lemma value_set (tab : World -> list ValueSpec) set f : (forall l w, tab (set l w) = l) ->
  forall id w r w', Value_setParent tab set f id w = (Ok r, w') -> in_file f tab id w' /\ (forall a, in_file f tab a w -> in_file f tab a w').
Proof.
  intros TS id w r w'. unfold Value_setParent, sbind, get, put. destruct (nth_error (tab w) id) as [v|] eqn:N; [|discriminate].
  intros [= <- <-]. unfold in_file. rewrite TS.
  assert (K : exists v0, nth_error (upd id (mkValue (VComment v) (VNames v) (VSType v) (VInit v) (Some f)) (tab w)) id = Some v0 /\ VParent v0 = Some f).
  { eexists. rewrite nth_upd_same by (apply nth_error_Some; congruence). split; reflexivity. }
  split; [exact K|]. intros a (e' & Na & P). destruct (Nat.eq_dec a id) as [->|D]; [exact K|].
  exists e'. rewrite nth_upd_other by auto. auto.
Qed.
Lemma type_set f id w r w' : Type_setParent f id w = (Ok r, w') -> type_in_file f id w' /\ (forall a, type_in_file f a w -> type_in_file f a w').
Proof.
  unfold Type_setParent, sbind, get, put. destruct (nth_error (types w) id) as [v|] eqn:N; [|discriminate].
  intros [= <- <-]. unfold type_in_file. cbn [types set_types].
  match goal with |- context [upd id ?v _] => assert (K : exists v0, nth_error (upd id v (types w)) id = Some v0 /\ TSParent v0 = Some f) end.
  { eexists. rewrite nth_upd_same by (apply nth_error_Some; congruence). split; reflexivity. }
  split; [exact K|]. intros a (e' & Na & P). destruct (Nat.eq_dec a id) as [->|D]; [exact K|].
  exists e'. rewrite nth_upd_other by auto. auto.
Qed.
Definition same_decls w w' : Prop := constDecls w' = constDecls w /\ varDecls w' = varDecls w /\ typeDecls w' = typeDecls w.
Lemma for_each_decls {A} (g : A -> WM unit) : (forall a w r w', g a w = (r, w') -> same_decls w w') ->
  forall l w r w', for_each g l w = (r, w') -> same_decls w w'.
Proof.
  intros H. induction l as [|a l IH]; intros w r w' E; cbn [for_each] in E.
  - injection E as _ <-. repeat split.
  - unfold sbind in E. destruct (g a w) as [[u|m] w1] eqn:G; apply H in G as (G1 & G2 & G3).
    + apply IH in E as (E1 & E2 & E3). repeat split; congruence.
    + injection E as _ <-. repeat split; auto.
Qed.
Lemma add_element_members f e w w' : AddElement f e w = (Ok tt, w') ->
  members_in_file f e w' /\ exists F, nth_error (files w') f = Some F /\ In e (FElements F).
Proof.
  unfold AddElement. unfold sbind at 1. destruct (setParent f e w) as [[u|m] w1] eqn:S; [|discriminate].
  unfold sbind, get. destruct (nth_error (files w1) f) as [F|] eqn:NF; [|discriminate]. unfold put. intros [= <-].
  split; cycle 1.
  { eexists. cbn [files set_files]. rewrite nth_upd_same by (apply nth_error_Some; congruence). split; [reflexivity|].
    cbn. apply in_or_app. right. left. reflexivity. }
  assert (M : members_in_file f e w1); [|destruct e; exact M]. clear NF F.
  destruct e as [d|d|d|fn]; cbn [setParent members_in_file] in *.
  - unfold sbind in S. unfold get at 1 in S. destruct (nth_error (constDecls w) d) as [D|] eqn:N; [|discriminate].
    assert (SD : same_decls w w1).
    { eapply for_each_decls; [|exact S]. intros a w2 r w3. unfold Value_setParent, sbind, get, put.
      destruct (nth_error (consts w2) a); intros [= _ <-]; repeat split. }
    destruct SD as (-> & _ & _). exists D. split; [exact N|].
    apply (for_each_all _ (in_file f consts)) in S; [tauto| |].
    + intros a w2 r w3 E. apply (value_set consts set_consts) in E as [E1 E2]; [auto|reflexivity].
    + intros a b w2 r w3 E. apply (value_set consts set_consts) in E as [E1 E2]; [auto|reflexivity].
  - unfold sbind in S. unfold get at 1 in S. destruct (nth_error (varDecls w) d) as [D|] eqn:N; [|discriminate].
    assert (SD : same_decls w w1).
    { eapply for_each_decls; [|exact S]. intros a w2 r w3. unfold Value_setParent, sbind, get, put.
      destruct (nth_error (vars w2) a); intros [= _ <-]; repeat split. }
    destruct SD as (_ & -> & _). exists D. split; [exact N|].
    apply (for_each_all _ (in_file f vars)) in S; [tauto| |].
    + intros a w2 r w3 E. apply (value_set vars set_vars) in E as [E1 E2]; [auto|reflexivity].
    + intros a b w2 r w3 E. apply (value_set vars set_vars) in E as [E1 E2]; [auto|reflexivity].
  - unfold sbind in S. unfold get at 1 in S. destruct (nth_error (typeDecls w) d) as [D|] eqn:N; [|discriminate].
    assert (SD : same_decls w w1).
    { eapply for_each_decls; [|exact S]. intros a w2 r w3. unfold Type_setParent, sbind, get, put.
      destruct (nth_error (types w2) a); intros [= _ <-]; repeat split. }
    destruct SD as (_ & _ & ->). exists D. split; [exact N|].
    apply (for_each_all _ (type_in_file f)) in S; [tauto| |].
    + intros a w2 r w3 E. apply type_set in E as [E1 E2]; auto.
    + intros a b w2 r w3 E. apply type_set in E as [E1 E2]; auto.
  - unfold Func_setParent, sbind, get, put in S. destruct (nth_error (funcs w) fn) as [F|] eqn:N; [|discriminate].
    injection S as _ <-. cbn [funcs set_funcs]. eexists. rewrite nth_upd_same by (apply nth_error_Some; congruence). split; reflexivity.
Qed.
Lemma added_referable f e w w' : AddElement f e w = (Ok tt, w') ->
  exists F, nth_error (files w') f = Some F /\ In e (FElements F) /\ referable w' F e.
Proof.
  intros E. apply add_element_members in E as (M & F & NF & I). exists F. split; [exact NF|]. split; [exact I|].
  assert (V : forall v, VParent v = Some f -> value_referable w' F v).
  { intros v P i n N. unfold ValueSpec_SymbolAt. rewrite P.
    assert (L : (Z.of_nat i <? 0)%Z = false) by (apply Z.ltb_ge; lia). rewrite L, Nat2Z.id, N. unfold file_package, rd. rewrite NF. reflexivity. }
  destruct e as [d|d|d|fn]; cbn [members_in_file referable] in *.
  - destruct M as (D & ND & M). exists D. split; [exact ND|]. intros id J. destruct (M id J) as (v & N & P). eauto.
  - destruct M as (D & ND & M). exists D. split; [exact ND|]. intros id J. destruct (M id J) as (v & N & P). eauto.
  - destruct M as (D & ND & M). exists D. split; [exact ND|]. intros id J. destruct (M id J) as (T & N & P). exists T. split; [exact N|].
    intros NN. unfold TypeSpec_ToSymbol. apply String.eqb_neq in NN. rewrite NN, P. unfold file_package, rd. rewrite NF. reflexivity.
  - destruct M as (T & N & P). exists T. split; [exact N|]. unfold FuncSpec_ToSymbol, file_package, rd. rewrite P, NF.
    destruct (FNReceiver T); reflexivity.
Qed.
Lemma method_ref w t T f F n : nth_error (types w) t = Some T -> TSName T <> "" -> TSParent T = Some f -> nth_error (files w) f = Some F ->
  InterfaceMethod_ToMethodRef n (Some t) w = Ok (mkMethodRef (mkSymbol (package_of F) (TSName T)) n).
Proof.
  intros N1 NN P N2. unfold InterfaceMethod_ToMethodRef, rd. rewrite N1. cbn. unfold TypeSpec_ToSymbol.
  apply String.eqb_neq in NN. rewrite NN, P. unfold file_package, rd. rewrite N2. reflexivity.
Qed.
(** Methods of an interface whose type has been added to a file *)
Lemma marked_refs w t T f F : nth_error (types w) t = Some T -> TSName T <> "" -> TSParent T = Some f -> nth_error (files w) f = Some F ->
  forall id, marked t id w -> elem_refers w (package_of F) (TSName T) id.
Proof.
  intros N1 NN P N2 id (e & N & EP). unfold elem_refers. rewrite N. destruct e as [c s p|c n s p]; [exact Logic.I|]. cbn in EP. subst p.
  eapply method_ref; eauto.
Qed.
Lemma add_type_file f t w w' : AddType f t w = (Ok tt, w') ->
  ielems w' = ielems w /\ exists T T' F, nth_error (types w) t = Some T /\ nth_error (types w') t = Some T' /\ nth_error (files w') f = Some F /\
    TSName T' = TSName T /\ TSInterface T' = TSInterface T /\ TSParent T' = Some f.
Proof.
  unfold AddType, NewTypeDecl, AddElement, setParent, Type_setParent, sbind, alloc, get. cbn [typeDecls set_typeDecls].
  rewrite nth_error_app2, Nat.sub_diag by lia. cbn [nth_error for_each TDTypes]. unfold sbind, get, put.
  cbn [types set_typeDecls]. destruct (nth_error (types w) t) as [T|] eqn:N; [|discriminate]. cbn [sret files set_types set_typeDecls].
  unfold sret. cbn [files set_types set_typeDecls].
  destruct (nth_error (files w) f) as [F|] eqn:NF; [|discriminate]. intros [= <-]. split; [reflexivity|].
  cbn [files types set_files set_types set_typeDecls]. exists T. eexists. eexists. split; [reflexivity|].
  rewrite !nth_upd_same by (apply nth_error_Some; congruence). split; [reflexivity|]. split; [reflexivity|]. cbn. auto.
Qed.
Lemma interface_methods_refer f t name (mk : WM nat) w w1 w' :
  (exists es, mk = NewInterfaceTypeSpec name es) \/ (exists n, mk = NewTypeSpec name (IsName n)) ->
  name <> "" -> mk w = (Ok t, w1) -> AddType f t w1 = (Ok tt, w') ->
  exists T F, nth_error (types w') t = Some T /\ nth_error (files w') f = Some F /\
    forall id, In id (TSInterface T) -> elem_refers w' (package_of F) name id.
Proof.
  intros MK NN E A. apply add_type_file in A as (IE & T & T' & F & N & N' & NF & TN & TI & TP). exists T', F.
  split; [exact N'|]. split; [exact NF|]. intros id J.
  assert (M : TSName T = name /\ forall id, In id (TSInterface T) -> marked t id w1).
  { destruct MK as [(es & ->)|(n & ->)].
    - assert (X := interface_marked _ _ _ _ _ E). revert E. unfold NewInterfaceTypeSpec. unfold sbind at 1. unfold alloc at 1. unfold sbind at 1.
      destruct (map_m _ es _) as [[els|m] w2] eqn:M; [|discriminate]. unfold sbind, put, sret. intros [= <- <-].
      cbn [types set_types] in N.
      destruct (Nat.lt_ge_cases (List.length (types w)) (List.length (types w2))) as [L|L].
      + rewrite nth_upd_same in N by auto. injection N as <-. split; [reflexivity|exact X].
      + exfalso. assert (length_upd : forall A i (v : A) l, List.length (upd i v l) = List.length l).
        { clear. intros A i v l. revert i. induction l as [|x l IH]; intros [|i]; cbn; auto. }
        assert (Z : nth_error (upd (List.length (types w)) (mkTypeSpec "" name false
          (InterfaceType (flat_map (fun e => match e with InterfaceEmbed _ s _ => [s] | _ => [] end) els)
             (flat_map (fun e => match e with InterfaceMethod _ n s _ => [mkMethod n s] | _ => [] end) els)) [] es None) (types w2)) (List.length (types w)) = None).
        { apply nth_error_None. rewrite length_upd. exact L. }
        congruence.
    - destruct (name_marked _ _ _ _ _ E) as (T2 & N2 & TN2 & X). rewrite N in N2. injection N2 as <-. auto. }
  destruct M as [M1 M2]. rewrite TI in J. rewrite <- M1, <- TN. eapply marked_refs; eauto; [congruence|].
  destruct (M2 id J) as (e & Ne & Pe). exists e. rewrite IE. auto.
Qed.
(** ** Declarations without specs *)
Lemma empty_decl {A} kw comment (sc : A -> string) wr : decl_writeTo kw comment sc wr [] =
  if String.eqb comment "" then Panic index_oob else Ok (writeComment comment ++ kw ++ " (" ++ newline ++ ")" ++ newline)%string.
Proof.
  unfold decl_writeTo. cbn [List.length Nat.ltb Nat.leb orb]. destruct (String.eqb comment ""); cbn [negb]; [reflexivity|].
  cbn [map concat_res]. unfold W. cbn. rewrite !append_assoc. reflexivity.
Qed.
End Symbols.

(** ** Packages by import path *)
Lemma has_slash a b : has_byte slash (a ++ "/" ++ b)%string = true.
Proof. induction a as [|c a IH]; [reflexivity|]. cbn [append has_byte] in *. rewrite IH. apply Bool.orb_true_r. Qed.
Lemma after_last_app a b : has_byte slash b = false -> after_last_slash (a ++ "/" ++ b)%string = b.
Proof.
  intros H. induction a as [|c a IH].
  - cbn. rewrite H. reflexivity.
  - change (String c a ++ "/" ++ b)%string with (String c (a ++ "/" ++ b)). cbn [after_last_slash]. rewrite has_slash. exact IH.
Qed.
Lemma after_last_none b : has_byte slash b = false -> after_last_slash b = b.
Proof. destruct b as [|c b]; [reflexivity|]. cbn. intros H. apply Bool.orb_false_iff in H as [H1 H2]. rewrite H1, H2. reflexivity. Qed.
Lemma strip_nonempty a b : b <> "" -> has_byte slash b = false -> strip_trailing_slashes (a ++ b)%string = (a ++ b)%string.
Proof.
  intros N H. assert (S : strip_trailing_slashes b = b).
  { clear N. induction b as [|c b IH]; [reflexivity|]. cbn in H. apply Bool.orb_false_iff in H as [H1 H2]. cbn.
    rewrite IH by auto. rewrite H1. destruct b; reflexivity. }
  induction a as [|c a IH]; [exact S|]. cbn. rewrite IH. destruct (a ++ b)%string eqn:E; [|reflexivity].
  destruct a; [cbn in E; congruence|discriminate].
Qed.
Lemma strip_slashes k : strip_trailing_slashes (slashes k) = "".
Proof. induction k as [|k IH]; [reflexivity|]. cbn [slashes strip_trailing_slashes]. rewrite IH. reflexivity. Qed.
Lemma strip_more s k : strip_trailing_slashes (s ++ slashes k)%string = strip_trailing_slashes s.
Proof. induction s as [|c s IH]; [apply strip_slashes|]. cbn [append strip_trailing_slashes]. rewrite IH. reflexivity. Qed.
Lemma path_base_last dir n k : n <> "" -> has_byte slash n = false ->
  path_Base (n ++ slashes k) = n /\ path_Base (dir ++ "/" ++ n ++ slashes k) = n.
Proof.
  intros N H. split.
  - unfold path_Base. destruct (String.eqb_spec (n ++ slashes k) "") as [E|_]; [destruct n; [contradiction|discriminate]|].
    rewrite strip_more. pose proof (strip_nonempty "" n N H) as X. cbn [append] in X. rewrite X, after_last_none by auto.
    destruct (String.eqb_spec n ""); [contradiction|reflexivity].
  - unfold path_Base. destruct (String.eqb_spec (dir ++ "/" ++ n ++ slashes k) "") as [E|_]; [destruct dir; discriminate|].
    replace (dir ++ "/" ++ n ++ slashes k)%string with ((dir ++ "/" ++ n) ++ slashes k)%string by (rewrite !append_assoc; reflexivity).
    rewrite strip_more. pose proof (strip_nonempty (dir ++ "/") n N H) as X. rewrite append_assoc in X. rewrite X, after_last_app by auto.
    destruct (String.eqb_spec n ""); [contradiction|reflexivity].
Qed.
Lemma new_package_name p n s :
  (exists k, (p = n ++ slashes k \/ exists dir, p = dir ++ "/" ++ n ++ slashes k)%string) -> n <> "" -> has_byte slash n = false ->
  NewPackage p = mkPackage p n /\ NewSymbol p s = mkSymbol (mkPackage p n) s.
Proof.
  intros (k & H) N NS. assert (B : path_Base p = n).
  { destruct H as [->|(dir & ->)]; [destruct (path_base_last "" n k N NS)|destruct (path_base_last dir n k N NS)]; auto. }
  unfold NewSymbol, NewPackage, Package_Symbol. rewrite B. auto.
Qed.
Lemma new_package_none k : NewPackage (slashes k) = mkPackage (slashes k) (if Nat.eqb k 0 then "." else "/").
Proof.
  destruct k as [|k]; [reflexivity|]. unfold NewPackage, path_Base. cbn [Nat.eqb].
  rewrite strip_slashes. reflexivity.
Qed.
