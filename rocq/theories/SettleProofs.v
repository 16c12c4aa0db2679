(** Qualification settles: the result of a successful call of one of the rewriting functions of
    imports.go is left alone by all later calls.  No assumption on the types: a nil component
    makes the call panic. *)
From Verif Require Import Base GoPath Types SpecTypes Imports SpecImports TypesFacts ImportsProofs ImportsTheorems.

Lemma fold_reg_sym_keep l i : Inv i ->
  Inv (fold_left reg_sym l i) /\ ext i (fold_left reg_sym l i).
Proof. intros H. rewrite fold_sym_requests. apply fold_reg_keep; auto. Qed.

Section Settles.
Context {A : Type}.
Variables (f : A -> IM (A * bool)) (syms : A -> list Symbol).
Definition settles (a : A) : Prop := forall i a' c i',
  Inv i -> f a i = (Ok (a', c), i') ->
  i' = fold_left reg_sym (syms a) i /\ (c = false -> a' = a) /\
  forall j, Inv j -> ext i' j -> f a' j = (Ok (a', false), j).
End Settles.

(** *** Lists *)
Section List.
Context {A : Type}.
Variables (f : A -> IM (A * bool)) (syms : A -> list Symbol).
Lemma settles_list l : Forall (settles f syms) l ->
  settles (map_changed f) (flat_map syms) l.
Proof.
  induction 1 as [|a r Ha Hr IH]; intros i l' c i' Hi E.
  - injection E as <- <- <-. cbn. repeat split; auto.
  - cbn [map_changed] in E. unfold sbind in E.
    destruct (f a i) as [[[a1 c1]|m] i1] eqn:Ea; [|discriminate].
    destruct (Ha i a1 c1 i1 Hi Ea) as (F1 & S1 & T1).
    destruct (fold_reg_sym_keep (syms a) i Hi) as [I1 X1]. rewrite <- F1 in I1, X1.
    destruct (map_changed f r i1) as [[[r1 c2]|m] i2] eqn:Er; [|discriminate].
    destruct (IH i1 r1 c2 i2 I1 Er) as (F2 & S2 & T2).
    destruct (fold_reg_sym_keep (flat_map syms r) i1 I1) as [I2 X2]. rewrite <- F2 in I2, X2.
    unfold sret in E. injection E as <- <- <-.
    assert (Z : (if c1 then a1 else a) = a1) by (destruct c1; auto; symmetry; auto).
    rewrite Z. split; [|split].
    + cbn [flat_map]. rewrite fold_left_app, <- F1, <- F2. auto.
    + intros C. apply orb_false_iff in C as [C1 C2]. rewrite S1, S2 by auto. auto.
    + intros j J X. cbn [map_changed]. unfold sbind. rewrite T1 by (auto; eapply ext_trans; eauto).
      rewrite T2 by auto. reflexivity.
Qed.
End List.

(** *** Pairs *)
Section Pair.
Context {A B : Type}.
Variables (f : A -> IM (A * bool)) (fs : A -> list Symbol) (g : B -> IM (B * bool)) (gs : B -> list Symbol).
Definition qpair (p : A * B) : IM ((A * B) * bool) :=
  do '(a', ca) <- f (fst p) ;; do '(b', cb) <- g (snd p) ;; sret ((a', b'), ca || cb).
Lemma settles_pair a b : settles f fs a -> settles g gs b ->
  settles qpair (fun p => fs (fst p) ++ gs (snd p)) (a, b).
Proof.
  intros Ha Hb i p c i' Hi E. unfold qpair, sbind, sret in E. cbn [fst snd] in *.
  destruct (f a i) as [[[k1 c1]|m] i1] eqn:Ek; [|discriminate].
  destruct (Ha i k1 c1 i1 Hi Ek) as (F1 & Z1 & S1).
  destruct (fold_reg_sym_keep (fs a) i Hi) as [I1 X1]. rewrite <- F1 in I1, X1.
  destruct (g b i1) as [[[e1 c2]|m] i2] eqn:Ee; [|discriminate].
  destruct (Hb i1 e1 c2 i2 I1 Ee) as (F2 & Z2 & S2).
  destruct (fold_reg_sym_keep (gs b) i1 I1) as [I2 X2]. rewrite <- F2 in I2, X2.
  injection E as <- <- <-. split; [|split].
  - rewrite fold_left_app, <- F1, <- F2. auto.
  - intros C. apply orb_false_iff in C as [C1 C2]. rewrite Z1, Z2 by auto. auto.
  - intros j J X. unfold qpair, sbind, sret. cbn [fst snd]. rewrite S1 by (auto; eapply ext_trans; eauto).
    rewrite S2 by auto. reflexivity.
Qed.
End Pair.

(** Rebuilding [k a'] with [mk] after a change; [mk] may normalise, but not what matters to [f]. *)
Section Wrap.
Context {A B : Type}.
Variables (f : A -> IM (A * bool)) (fs : A -> list Symbol) (F : B -> IM (B * bool)) (S_ : B -> list Symbol)
          (k : A -> B) (mk : A -> res B).
Lemma settles_wrap a :
  (forall x t j, mk x = Ok t -> f x j = (Ok (x, false), j) -> F t j = (Ok (t, false), j)) ->
  (forall x i, F (k x) i =
     (do '(a', c) <- f x ;;
      if c : bool then do b <- slift (mk a') ;; sret (b, true) else sret (k x, false)) i) ->
  S_ (k a) = fs a -> settles f fs a -> settles F S_ (k a).
Proof.
  intros MK Q SY H i t' c i' Hi E. rewrite Q in E. unfold sbind, sret, slift in E.
  destruct (f a i) as [[[a1 c1]|m] i1] eqn:Ea; [|discriminate].
  destruct (H i a1 c1 i1 Hi Ea) as (FF & Z & S). rewrite SY.
  destruct c1.
  - destruct (mk a1) eqn:M1; [|discriminate]. injection E as <- <- <-.
    repeat split; auto; try discriminate. intros j J X. eapply MK; eauto.
  - injection E as <- <- <-. repeat split; auto.
    intros j J X. rewrite Q. unfold sbind, sret. rewrite Z in S by auto. rewrite S by auto. auto.
Qed.
End Wrap.

(** *** Types *)
Notation settlesT := (settles (qualifyType true) symbols_of).

Lemma settles_args l : Forall (fun a => settlesT (ArgTy a)) l ->
  settles (qualifyArgs_ (qualifyType true)) (args_symbols symbols_of) l.
Proof.
  intros H. unfold qualifyArgs_, args_symbols. apply settles_list.
  eapply Forall_impl; [|exact H]. intros [n t] T i a' c i' Hi E. unfold sbind, sret in E. cbn in T.
  destruct (qualifyType true t i) as [[[t1 c1]|m] i1] eqn:Et; [|discriminate]. injection E as <- <- <-.
  destruct (T i t1 c1 i1 Hi Et) as (F & Z & S). repeat split; auto.
  - intros C. rewrite Z; auto.
  - intros j J X. unfold sbind, sret. rewrite S by auto. auto.
Qed.
Lemma settles_fields l : Forall (fun f => settlesT (FldType f)) l ->
  settles (qualifyFields_ (qualifyType true))
       (flat_map (fun x : FieldType => match x with mkField _ t _ => symbols_of t end)) l.
Proof.
  intros H. unfold qualifyFields_.
  apply (settles_list _ (fun x : FieldType => match x with mkField _ t _ => symbols_of t end)).
  eapply Forall_impl; [|exact H]. intros [n t tag] T i a' c i' Hi E. unfold sbind, sret in E. cbn in T.
  destruct (qualifyType true t i) as [[[t1 c1]|m] i1] eqn:Et; [|discriminate]. injection E as <- <- <-.
  destruct (T i t1 c1 i1 Hi Et) as (F & Z & S). repeat split; auto.
  - intros C. rewrite Z; auto.
  - intros j J X. unfold sbind, sret. rewrite S by auto. auto.
Qed.
Lemma settles_sig (s : Signature) : PSig (fun t => settlesT t) s ->
  settles (qualifySignature_ (qualifyType true)) sig_symbols s.
Proof.
  intros [HA HR]. apply settles_args in HA, HR. destruct s as [a r v]. cbn [Args Results] in *.
  refine (settles_wrap _ _ _ _ (fun p => mkSig (fst p) (snd p) v) (fun p => Ok (mkSig (fst p) (snd p) v)) (a, r)
            _ _ _ (settles_pair _ _ _ _ _ _ HA HR)); auto.
  - intros [x y] t j [= <-] E. cbn [qualifySignature_ fst snd]. unfold qpair, sbind, sret in E. cbn [fst snd] in E.
    unfold sbind, sret.
    destruct (qualifyArgs_ (qualifyType true) x j) as [[[k1 c1]|m] i1]; [|discriminate].
    destruct (qualifyArgs_ (qualifyType true) y i1) as [[[e1 c2]|m] i2]; [|discriminate].
    injection E as <- <- C <-. rewrite C. auto.
  - intros [x y] i. cbn [qualifySignature_ fst snd]. unfold qpair, sbind, sret, slift. cbn [fst snd].
    destruct (qualifyArgs_ (qualifyType true) x i) as [[[k1 c1]|m] i1]; auto.
    destruct (qualifyArgs_ (qualifyType true) y i1) as [[[e1 c2]|m] i2]; auto.
Qed.
Lemma settles_methods l : Forall (fun m => PSig (fun t => settlesT t) (MtdSig m)) l ->
  settles (qualifyMethods_ (qualifyType true))
       (flat_map (fun m : MethodType => match m with mkMethod _ s => sig_symbols_ symbols_of s end)) l.
Proof.
  intros H. unfold qualifyMethods_.
  apply (settles_list _ (fun m : MethodType => match m with mkMethod _ s => sig_symbols_ symbols_of s end)).
  eapply Forall_impl; [|exact H]. intros [n s] T i a' c i' Hi E. unfold sbind, sret in E.
  apply settles_sig in T. cbn [MtdSig] in T.
  destruct (qualifySignature_ (qualifyType true) s i) as [[[t1 c1]|m] i1] eqn:Et; [|discriminate].
  injection E as <- <- <-.
  destruct (T i t1 c1 i1 Hi Et) as (F & Z & S). repeat split; auto.
  - intros C. rewrite Z; auto.
  - intros j J X. unfold sbind, sret. rewrite S by auto. auto.
Qed.
Lemma qualify_settles s i s' i' : Inv i -> qualify s true i = (Ok s', i') ->
  i' = reg_sym i s /\ forall j, Inv j -> ext i' j -> qualify s' true j = (Ok s', j).
Proof.
  intros Hi E. destruct (qualify_reg s i Hi) as (i1 & E1 & I1 & X1 & K & _).
  rewrite E in E1. injection E1 as -> <-. split.
  - pose proof (g_fold _ _ _ _ _ (good_symbol s) eq_refl i Hi) as F. unfold sbind, sret in F. rewrite E in F. exact F.
  - intros j J X. rewrite qualify_known; auto.
    + rewrite rename_idem; auto. + apply known_rename; auto.
Qed.
Lemma settles_symbol s :
  settles (fun s => do nt <- qualify s true ;; sret (nt, negb (symbol_eqb nt s))) (fun s => [s]) s.
Proof.
  intros i a' c i' Hi E. unfold sbind, sret in E.
  destruct (qualify s true i) as [[s'|m] i1] eqn:Eq; [|discriminate]. injection E as <- <- <-.
  destruct (qualify_settles _ _ _ _ Hi Eq) as (F & S). repeat split; auto.
  - intros C. apply negb_false_iff in C. apply symbol_eqb_eq; auto.
  - intros j J X. unfold sbind, sret. rewrite S by auto.
    rewrite (proj2 (symbol_eqb_eq s' s')) by auto. reflexivity.
Qed.

Lemma FuncTypeFromSig_keeps s t : FuncTypeFromSig s = Ok t -> t = TFunc s.
Proof.
  unfold FuncTypeFromSig. repeat match goal with |- context [if ?b then _ else _] => destruct b end;
  repeat match goal with |- context [match ?x with _ => _ end] => destruct x end; congruence.
Qed.
Lemma settled_elem (k : TypeName -> TypeName) (mk : TypeName -> res TypeName) x j :
  (forall i, qualifyType true (k x) i =
     (do '(a', c) <- qualifyType true x ;;
      if c : bool then do b <- slift (mk a') ;; sret (b, true) else sret (k x, false)) i) ->
  qualifyType true x j = (Ok (x, false), j) -> qualifyType true (k x) j = (Ok (k x, false), j).
Proof. intros Q E. rewrite Q. unfold sbind. rewrite E. reflexivity. Qed.

Theorem settles_type t : settlesT t.
Proof.
  induction t as [ |k|s|e IH|e IH|e n IH|e k IHe IHk|e d IH|s IH|fs IH|ms es IH] using TypeName_ind'.
  - intros i t' c i' Hi E. discriminate E.
  - intros i t' c i' Hi E. injection E as <- <- <-. cbn. repeat split; auto.
  - refine (settles_wrap _ _ _ _ TNamed (fun s => Ok (NamedType s)) s _ _ _ (settles_symbol s)); auto.
    + intros x t j [= <-] E. cbn [qualifyType NamedType]. unfold sbind, sret in *.
      destruct (qualify x true j) as [[y|m] i1]; [|discriminate]. injection E as -> C <-. rewrite C. auto.
    + intros x i. cbn [qualifyType]. unfold sbind, sret, slift. destruct (qualify x true i) as [[y|m] i1]; auto.
  - refine (settles_wrap _ _ _ _ TPtr PointerType e _ _ _ IH); auto.
    intros x t j. unfold PointerType. destruct (is_nil x); [discriminate|]. intros [= <-]. apply (settled_elem TPtr PointerType); auto.
  - refine (settles_wrap _ _ _ _ TSlice SliceType e _ _ _ IH); auto.
    intros x t j. unfold SliceType. destruct (is_nil x); [discriminate|]. intros [= <-]. apply (settled_elem TSlice SliceType); auto.
  - refine (settles_wrap _ _ _ _ (fun e => TArray e n) (fun e => ArrayType e n) e _ _ _ IH); auto.
    intros x t j. unfold ArrayType. destruct (_ || _); [discriminate|]. intros [= <-].
    apply (settled_elem (fun e => TArray e n) (fun e => ArrayType e n)); auto.
  - refine (settles_wrap _ _ _ _ (fun p => TMap (snd p) (fst p)) (fun p => MapType (fst p) (snd p)) (k, e) _ _ _
              (settles_pair _ _ _ _ _ _ IHk IHe)); auto.
    + intros [x y] t j. unfold MapType. cbn [fst snd].
      destruct (_ || _); [discriminate|]. intros [= <-] E. cbn [qualifyType].
      unfold qpair, sbind, sret in *. cbn [fst snd] in E.
      destruct (qualifyType true x j) as [[[k1 c1]|m] i1]; [|discriminate].
      destruct (qualifyType true y i1) as [[[e1 c2]|m] i2]; [|discriminate].
      injection E as -> -> C ->. rewrite orb_comm, C. auto.
    + intros [x y] i. cbn [qualifyType fst snd]. unfold qpair, sbind, sret, slift. cbn [fst snd].
      destruct (qualifyType true x i) as [[[k1 c1]|m] i1]; auto.
      destruct (qualifyType true y i1) as [[[e1 c2]|m] i2]; auto. rewrite orb_comm. auto.
  - refine (settles_wrap _ _ _ _ (fun e => TChan e d) (fun e => ChannelType e d) e _ _ _ IH); auto.
    intros x t j. unfold ChannelType. destruct (_ || _); [discriminate|]. intros [= <-].
    set (dd := if (d =? 0)%Z then BothDir else d).
    apply (settled_elem (fun e => TChan e dd) (fun e => ChannelType e dd)); auto.
  - refine (settles_wrap _ _ _ _ TFunc FuncTypeFromSig s _ _ _ (settles_sig s IH)); auto.
    intros x t j M E. apply FuncTypeFromSig_keeps in M as ->. cbn [qualifyType].
    unfold sbind. rewrite E. auto.
  - refine (settles_wrap _ _ _ _ TStruct (fun l => Ok (StructType l)) fs _ _ _ (settles_fields fs IH)); auto.
    intros x t j [= <-] E. cbn [qualifyType StructType]. unfold sbind. rewrite E. auto.
  - apply settles_methods in IH.
    assert (FM : flat_map (fun s : Symbol => [s]) es = es) by (clear; induction es; cbn; congruence).
    assert (SE : settles (qualifySymbols true) (fun l => l) es).
    { intros i l' c i' Hi E.
      destruct (settles_list (fun s => do nt <- qualify s true ;; sret (nt, negb (symbol_eqb nt s))) (fun s => [s]) es)
        with (i := i) (a' := l') (c := c) (i' := i') as (F & S); auto.
      - apply Forall_forall. intros; apply settles_symbol.
      - rewrite FM in F. split; auto. }
    refine (settles_wrap _ _ _ _ (fun p => TInterface (snd p) (fst p)) (fun p => Ok (InterfaceType (fst p) (snd p))) (es, ms)
              _ _ _ (settles_pair _ _ _ _ _ _ SE IH)); auto.
    + intros [x y] t j [= <-] E. cbn [qualifyType InterfaceType fst snd].
      unfold qpair, sbind, sret in *. cbn [fst snd] in E.
      destruct (qualifySymbols true x j) as [[[k1 c1]|m] i1]; [|discriminate].
      destruct (qualifyMethods_ (qualifyType true) y i1) as [[[e1 c2]|m] i2]; [|discriminate].
      injection E as -> -> C ->. rewrite C. auto.
    + intros [x y] i. cbn [qualifyType fst snd]. unfold qpair, sbind, sret, slift. cbn [fst snd].
      destruct (qualifySymbols true x i) as [[[k1 c1]|m] i1]; auto.
      destruct (qualifyMethods_ (qualifyType true) y i1) as [[[e1 c2]|m] i2]; auto.
Qed.
Theorem settles_signature s : settles (qualifySignature true) sig_symbols s.
Proof. apply settles_sig. split; apply Forall_forall; intros; apply settles_type. Qed.
