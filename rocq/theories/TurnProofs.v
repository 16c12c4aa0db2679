(** What a successful qualification makes of the symbols of a type, without assumptions on the type. *)
From Verif Require Import Base GoPath Types SpecTypes Imports SpecImports TypesFacts ImportsProofs ImportsTheorems SettleProofs
  SpecGo SpecRender TextTheorems.

Section Turns.
Context {A : Type}.
Variables (f : A -> IM (A * bool)) (syms : A -> list Symbol).
Definition turns (a : A) : Prop := forall i a' c i',
  Inv i -> f a i = (Ok (a', c), i') ->
  syms a' = map (rename i') (syms a) /\ Forall (known i') (syms a).
End Turns.
Lemma known_all_ext i j l : ext i j -> Forall (known i) l -> Forall (known j) l /\ map (rename j) l = map (rename i) l.
Proof.
  intros X K. split; [eapply Forall_impl; [|exact K]; intros; eapply known_ext; eauto|].
  apply map_ext_in. intros s IN. rewrite Forall_forall in K. apply rename_ext; auto.
Qed.

Section List.
Context {A : Type}.
Variables (f : A -> IM (A * bool)) (syms : A -> list Symbol).
Lemma turns_list l : Forall (settles f syms) l -> Forall (turns f syms) l ->
  turns (map_changed f) (flat_map syms) l.
Proof.
  intros S T. induction l as [|a r IH]; intros i l' c i' Hi E.
  - injection E as <- <- <-. cbn. auto.
  - inversion S as [|? ? S1 S2]; subst. inversion T as [|? ? T1 T2]; subst. specialize (IH S2 T2).
    cbn [map_changed] in E. unfold sbind in E.
    destruct (f a i) as [[[a1 c1]|m] i1] eqn:Ea; [|discriminate].
    destruct (S1 i a1 c1 i1 Hi Ea) as (F1 & Z1 & _). destruct (T1 i a1 c1 i1 Hi Ea) as (M1 & K1).
    destruct (fold_reg_sym_keep (syms a) i Hi) as [I1 X1]. rewrite <- F1 in I1, X1.
    destruct (map_changed f r i1) as [[[r1 c2]|m] i2] eqn:Er; [|discriminate].
    destruct (settles_list f syms r S2 i1 r1 c2 i2 I1 Er) as (F2 & _).
    destruct (fold_reg_sym_keep (flat_map syms r) i1 I1) as [I2 X2]. rewrite <- F2 in I2, X2.
    destruct (IH i1 r1 c2 i2 I1 Er) as (M2 & K2). destruct (known_all_ext _ _ _ X2 K1) as [K1' N1].
    unfold sret in E. injection E as <- <- <-.
    assert (Z : (if c1 then a1 else a) = a1) by (destruct c1; auto; symmetry; auto).
    rewrite Z. cbn [flat_map]. rewrite map_app, M1, M2, N1. split; auto. apply Forall_app; auto.
Qed.
End List.

Section Pair.
Context {A B : Type}.
Variables (f : A -> IM (A * bool)) (fs : A -> list Symbol) (g : B -> IM (B * bool)) (gs : B -> list Symbol).
Lemma turns_pair a b : settles f fs a -> settles g gs b -> turns f fs a -> turns g gs b ->
  turns (qpair f g) (fun p => fs (fst p) ++ gs (snd p)) (a, b).
Proof.
  intros Sa Sb Ta Tb i p c i' Hi E. unfold qpair, sbind, sret in E. cbn [fst snd] in *.
  destruct (f a i) as [[[k1 c1]|m] i1] eqn:Ek; [|discriminate].
  destruct (Sa i k1 c1 i1 Hi Ek) as (F1 & _). destruct (Ta i k1 c1 i1 Hi Ek) as (M1 & K1).
  destruct (fold_reg_sym_keep (fs a) i Hi) as [I1 X1]. rewrite <- F1 in I1, X1.
  destruct (g b i1) as [[[e1 c2]|m] i2] eqn:Ee; [|discriminate].
  destruct (Sb i1 e1 c2 i2 I1 Ee) as (F2 & _). destruct (Tb i1 e1 c2 i2 I1 Ee) as (M2 & K2).
  destruct (fold_reg_sym_keep (gs b) i1 I1) as [I2 X2]. rewrite <- F2 in I2, X2.
  destruct (known_all_ext _ _ _ X2 K1) as [K1' N1].
  injection E as <- <- <-. cbn [fst snd]. rewrite map_app, M1, M2, N1. split; auto. apply Forall_app; auto.
Qed.
End Pair.

Section Wrap.
Context {A B : Type}.
Variables (f : A -> IM (A * bool)) (fs : A -> list Symbol) (F : B -> IM (B * bool)) (S_ : B -> list Symbol)
          (k : A -> B) (mk : A -> res B).
Lemma turns_wrap a :
  (forall x t, mk x = Ok t -> S_ t = fs x) ->
  (forall x i, F (k x) i =
     (do '(a', c) <- f x ;;
      if c : bool then do b <- slift (mk a') ;; sret (b, true) else sret (k x, false)) i) ->
  S_ (k a) = fs a -> settles f fs a -> turns f fs a -> turns F S_ (k a).
Proof.
  intros MK Q SY H T i t' c i' Hi E. rewrite Q in E. unfold sbind, sret, slift in E.
  destruct (f a i) as [[[a1 c1]|m] i1] eqn:Ea; [|discriminate].
  destruct (H i a1 c1 i1 Hi Ea) as (_ & Z & _). destruct (T i a1 c1 i1 Hi Ea) as (M & K). rewrite SY.
  destruct c1.
  - destruct (mk a1) eqn:M1; [|discriminate]. injection E as <- <- <-. rewrite (MK _ _ M1). auto.
  - injection E as <- <- <-. rewrite SY. rewrite Z in M by auto. auto.
Qed.
End Wrap.

Notation turnsT := (turns (qualifyType true) symbols_of).
Lemma settles_all l : Forall (fun a : ArgType => settles (qualifyType true) symbols_of (ArgTy a)) l.
Proof. apply Forall_forall. intros; apply settles_type. Qed.
Lemma turns_args l : Forall (fun a => turnsT (ArgTy a)) l ->
  turns (qualifyArgs_ (qualifyType true)) (args_symbols symbols_of) l.
Proof.
  intros H. unfold qualifyArgs_, args_symbols. apply turns_list.
  - apply Forall_forall. intros [n t] _ i a' c i' Hi E. unfold sbind, sret in E.
    destruct (qualifyType true t i) as [[[t1 c1]|m] i1] eqn:Et; [|discriminate]. injection E as <- <- <-.
    destruct (settles_type t i t1 c1 i1 Hi Et) as (F & Z & S). split; auto. split.
    + intros C. rewrite Z; auto. + intros j J X. unfold sbind, sret. rewrite S by auto. auto.
  - eapply Forall_impl; [|exact H]. intros [n t] T i a' c i' Hi E. unfold sbind, sret in E. cbn in T.
    destruct (qualifyType true t i) as [[[t1 c1]|m] i1] eqn:Et; [|discriminate]. injection E as <- <- <-.
    exact (T i t1 c1 i1 Hi Et).
Qed.
Lemma turns_fields l : Forall (fun f => turnsT (FldType f)) l ->
  turns (qualifyFields_ (qualifyType true))
       (flat_map (fun x : FieldType => match x with mkField _ t _ => symbols_of t end)) l.
Proof.
  intros H. unfold qualifyFields_.
  apply (turns_list _ (fun x : FieldType => match x with mkField _ t _ => symbols_of t end)).
  - apply Forall_forall. intros [n t tag] _ i a' c i' Hi E. unfold sbind, sret in E.
    destruct (qualifyType true t i) as [[[t1 c1]|m] i1] eqn:Et; [|discriminate]. injection E as <- <- <-.
    destruct (settles_type t i t1 c1 i1 Hi Et) as (F & Z & S). split; auto. split.
    + intros C. rewrite Z; auto. + intros j J X. unfold sbind, sret. rewrite S by auto. auto.
  - eapply Forall_impl; [|exact H]. intros [n t tag] T i a' c i' Hi E. unfold sbind, sret in E. cbn in T.
    destruct (qualifyType true t i) as [[[t1 c1]|m] i1] eqn:Et; [|discriminate]. injection E as <- <- <-.
    exact (T i t1 c1 i1 Hi Et).
Qed.
Lemma turns_sig (s : Signature) : PSig (fun t => turnsT t) s ->
  turns (qualifySignature_ (qualifyType true)) sig_symbols s.
Proof.
  intros [HA HR]. apply turns_args in HA, HR. destruct s as [a r v]. cbn [Args Results] in *.
  pose proof (settles_args a (settles_all a)) as SA. pose proof (settles_args r (settles_all r)) as SR.
  refine (turns_wrap _ _ _ _ (fun p => mkSig (fst p) (snd p) v) (fun p => Ok (mkSig (fst p) (snd p) v)) (a, r)
            _ _ _ (settles_pair _ _ _ _ _ _ SA SR) (turns_pair _ _ _ _ _ _ SA SR HA HR)); auto.
  - intros [x y] t [= <-]. reflexivity.
  - intros [x y] i. cbn [qualifySignature_ fst snd]. unfold qpair, sbind, sret, slift. cbn [fst snd].
    destruct (qualifyArgs_ (qualifyType true) x i) as [[[k1 c1]|m] i1]; auto.
    destruct (qualifyArgs_ (qualifyType true) y i1) as [[[e1 c2]|m] i2]; auto.
Qed.
Lemma turns_methods l : Forall (fun m => PSig (fun t => turnsT t) (MtdSig m)) l ->
  turns (qualifyMethods_ (qualifyType true))
       (flat_map (fun m : MethodType => match m with mkMethod _ s => sig_symbols_ symbols_of s end)) l.
Proof.
  intros H. unfold qualifyMethods_.
  apply (turns_list _ (fun m : MethodType => match m with mkMethod _ s => sig_symbols_ symbols_of s end)).
  - apply Forall_forall. intros [n s] _ i a' c i' Hi E. unfold sbind, sret in E.
    destruct (qualifySignature_ (qualifyType true) s i) as [[[t1 c1]|m] i1] eqn:Et; [|discriminate]. injection E as <- <- <-.
    destruct (settles_signature s i t1 c1 i1 Hi Et) as (F & Z & S). split; auto. split.
    + intros C. rewrite Z; auto. + intros j J X. unfold sbind, sret. unfold qualifySignature in S. rewrite S by auto. auto.
  - eapply Forall_impl; [|exact H]. intros [n s] T i a' c i' Hi E. unfold sbind, sret in E.
    apply turns_sig in T. cbn [MtdSig] in T.
    destruct (qualifySignature_ (qualifyType true) s i) as [[[t1 c1]|m] i1] eqn:Et; [|discriminate].
    injection E as <- <- <-. exact (T i t1 c1 i1 Hi Et).
Qed.
Lemma turns_symbol s :
  turns (fun s => do nt <- qualify s true ;; sret (nt, negb (symbol_eqb nt s))) (fun s => [s]) s.
Proof.
  intros i a' c i' Hi E. unfold sbind, sret in E.
  destruct (qualify s true i) as [[s'|m] i1] eqn:Eq; [|discriminate]. injection E as <- <- <-.
  destruct (qualify_reg s i Hi) as (i2 & E2 & _ & _ & K & _). rewrite Eq in E2. injection E2 as -> ->. cbn. auto.
Qed.
Theorem turns_type t : turnsT t.
Proof.
  induction t as [ |k|s|e IH|e IH|e n IH|e k IHe IHk|e d IH|s IH|fs IH|ms es IH] using TypeName_ind'.
  - intros i t' c i' Hi E. discriminate E.
  - intros i t' c i' Hi E. injection E as <- <- <-. cbn. auto.
  - refine (turns_wrap _ _ _ _ TNamed (fun s => Ok (NamedType s)) s _ _ _ (settles_symbol s) (turns_symbol s)); auto.
    + intros x t [= <-]. reflexivity.
    + intros x i. cbn [qualifyType]. unfold sbind, sret, slift. destruct (qualify x true i) as [[y|m] i1]; auto.
  - refine (turns_wrap _ _ _ _ TPtr PointerType e _ _ _ (settles_type e) IH); auto.
    intros x t. unfold PointerType. destruct (is_nil x); [discriminate|]. intros [= <-]. auto.
  - refine (turns_wrap _ _ _ _ TSlice SliceType e _ _ _ (settles_type e) IH); auto.
    intros x t. unfold SliceType. destruct (is_nil x); [discriminate|]. intros [= <-]. auto.
  - refine (turns_wrap _ _ _ _ (fun e => TArray e n) (fun e => ArrayType e n) e _ _ _ (settles_type e) IH); auto.
    intros x t. unfold ArrayType. destruct (_ || _); [discriminate|]. intros [= <-]. auto.
  - refine (turns_wrap _ _ _ _ (fun p => TMap (snd p) (fst p)) (fun p => MapType (fst p) (snd p)) (k, e) _ _ _
              (settles_pair _ _ _ _ _ _ (settles_type k) (settles_type e))
              (turns_pair _ _ _ _ _ _ (settles_type k) (settles_type e) IHk IHe)); auto.
    + intros [x y] t. unfold MapType. cbn [fst snd]. destruct (_ || _); [discriminate|]. intros [= <-]. auto.
    + intros [x y] i. cbn [qualifyType fst snd]. unfold qpair, sbind, sret, slift. cbn [fst snd].
      destruct (qualifyType true x i) as [[[k1 c1]|m] i1]; auto.
      destruct (qualifyType true y i1) as [[[e1 c2]|m] i2]; auto. rewrite orb_comm. auto.
  - refine (turns_wrap _ _ _ _ (fun e => TChan e d) (fun e => ChannelType e d) e _ _ _ (settles_type e) IH); auto.
    intros x t. unfold ChannelType. destruct (_ || _); [discriminate|]. intros [= <-]. auto.
  - assert (SS : settles (qualifySignature_ (qualifyType true)) sig_symbols s) by apply settles_signature.
    refine (turns_wrap _ _ _ _ TFunc FuncTypeFromSig s _ _ _ SS (turns_sig s IH)); auto.
    intros x t M. apply FuncTypeFromSig_keeps in M as ->. auto.
  - refine (turns_wrap _ _ _ _ TStruct (fun l => Ok (StructType l)) fs _ _ _
      (settles_fields fs (proj2 (Forall_forall _ _) (fun f _ => settles_type (FldType f)))) (turns_fields fs IH)); auto.
    intros x t [= <-]. auto.
  - apply turns_methods in IH.
    assert (FM : forall es, flat_map (fun s : Symbol => [s]) es = es) by (clear; induction es; cbn; congruence).
    assert (SE : settles (qualifySymbols true) (fun l => l) es).
    { intros i l' c i' Hi E.
      destruct (settles_list (fun s => do nt <- qualify s true ;; sret (nt, negb (symbol_eqb nt s))) (fun s => [s]) es)
        with (i := i) (a' := l') (c := c) (i' := i') as (F & S); auto.
      - apply Forall_forall. intros; apply settles_symbol.
      - rewrite FM in F. split; auto. }
    assert (TE : turns (qualifySymbols true) (fun l => l) es).
    { intros i l' c i' Hi E.
      destruct (turns_list (fun s => do nt <- qualify s true ;; sret (nt, negb (symbol_eqb nt s))) (fun s => [s]) es)
        with (i := i) (a' := l') (c := c) (i' := i') as (F & S); auto.
      - apply Forall_forall. intros; apply settles_symbol.
      - apply Forall_forall. intros; apply turns_symbol.
      - rewrite !FM in *. auto. }
    assert (SM : settles (qualifyMethods_ (qualifyType true))
       (flat_map (fun m : MethodType => match m with mkMethod _ s => sig_symbols_ symbols_of s end)) ms).
    { apply settles_methods, Forall_forall. intros m _. split; apply Forall_forall; intros; apply settles_type. }
    refine (turns_wrap _ _ _ _ (fun p => TInterface (snd p) (fst p)) (fun p => Ok (InterfaceType (fst p) (snd p))) (es, ms)
              _ _ _ (settles_pair _ _ _ _ _ _ SE SM) (turns_pair _ _ _ _ _ _ SE SM TE IH)); auto.
    + intros [x y] t [= <-]. reflexivity.
    + intros [x y] i. cbn [qualifyType fst snd]. unfold qpair, sbind, sret, slift. cbn [fst snd].
      destruct (qualifySymbols true x i) as [[[k1 c1]|m] i1]; auto.
      destruct (qualifyMethods_ (qualifyType true) y i1) as [[[e1 c2]|m] i2]; auto.
Qed.
Theorem turns_signature s : turns (qualifySignature true) sig_symbols s.
Proof. apply turns_sig. split; apply Forall_forall; intros; apply turns_type. Qed.

(** Its kind: a struct, an interface or something else. *)
Definition shape (t : TypeName) : nat := match t with TStruct _ => 1 | TInterface _ _ => 2 | _ => 0 end.
Lemma shape_kept t i t1 c i' : EnsureTypeImported t i = (Ok (t1, c), i') -> shape t1 = shape t.
Proof.
  unfold EnsureTypeImported.
  assert (M : forall (b : bool) (x : res TypeName) (j j' : Imports),
     (if b then (do n' <- slift x ;; sret (n', true)) j else (sret (t, false)) j) = (Ok (t1, c), j') ->
     (forall y, x = Ok y -> shape y = shape t) -> shape t1 = shape t).
  { intros [] x j j' E H; unfold sbind, sret, slift in E; [|congruence].
    destruct x as [y|]; [|discriminate]. injection E as <- _ _. auto. }
  destruct t as [|k|s|e|e|e n|e k|e d|s|fs|ms es]; cbn [qualifyType]; try unfold sbind at 1; intros E; try discriminate E.
  - injection E as <- _ _. reflexivity.
  - destruct (qualify s true i) as [[y|] i1]; [|discriminate]. destruct (negb _); injection E as <- _ _; reflexivity.
  - destruct (qualifyType true e i) as [[[y c1]|] i1]; [|discriminate]. apply (M c1 (PointerType y) i1 i').
    { destruct c1; exact E. }
    unfold PointerType. destruct (is_nil y); [discriminate|]. intros ? [= <-]. reflexivity.
  - destruct (qualifyType true e i) as [[[y c1]|] i1]; [|discriminate]. apply (M c1 (SliceType y) i1 i').
    { destruct c1; exact E. }
    unfold SliceType. destruct (is_nil y); [discriminate|]. intros ? [= <-]. reflexivity.
  - destruct (qualifyType true e i) as [[[y c1]|] i1]; [|discriminate]. apply (M c1 (ArrayType y n) i1 i').
    { destruct c1; exact E. }
    unfold ArrayType. destruct (is_nil y || _); [discriminate|]. intros ? [= <-]. reflexivity.
  - destruct (qualifyType true k i) as [[[y c1]|] i1]; [|discriminate]. unfold sbind at 1 in E.
    destruct (qualifyType true e i1) as [[[z c2]|] i2]; [|discriminate]. apply (M (c2 || c1) (MapType y z) i2 i').
    { destruct (c2 || c1); exact E. }
    unfold MapType. destruct (is_nil y || is_nil z); [discriminate|]. intros ? [= <-]. reflexivity.
  - destruct (qualifyType true e i) as [[[y c1]|] i1]; [|discriminate]. apply (M c1 (ChannelType y d) i1 i').
    { destruct c1; exact E. }
    unfold ChannelType. destruct (is_nil y || _); [discriminate|]. intros ? [= <-]. reflexivity.
  - destruct (qualifySignature_ (qualifyType true) s i) as [[[y c1]|] i1]; [|discriminate]. apply (M c1 (FuncTypeFromSig y) i1 i').
    { destruct c1; exact E. }
    intros ? X. apply FuncTypeFromSig_keeps in X as ->. reflexivity.
  - destruct (qualifyFields_ (qualifyType true) fs i) as [[[y []]|] i1]; [| |discriminate]; injection E as <- _ _; reflexivity.
  - destruct (qualifySymbols true es i) as [[[y c1]|] i1]; [|discriminate]. unfold sbind at 1 in E.
    destruct (qualifyMethods_ (qualifyType true) ms i1) as [[[z c2]|] i2]; [|discriminate].
    destruct (c1 || c2); injection E as <- _ _; reflexivity.
Qed.

(** A change of package names that keeps paths does not change what a type means. *)
Section Denote.
Variables (q : Symbol -> option string) (g : Symbol -> Symbol).
Definition kept (s : Symbol) : Prop := SymName (g s) = SymName s /\ q (g s) = q s.
Definition DK (t : TypeName) : Prop := Forall kept (symbols_of t) -> denote_with q (map_symbols g t) = denote_with q t.
Lemma kept_args named v : forall l, PArgs DK l -> Forall kept (args_symbols symbols_of l) ->
  dparams (denote_with q) named v (map_args (map_symbols g) l) = dparams (denote_with q) named v l.
Proof.
  induction l as [|[n t] l IH]; intros P S; auto.
  inversion P as [|? ? P1 P2]; subst. unfold args_symbols in S. cbn [flat_map] in S.
  apply Forall_app in S as [S1 S2]. specialize (P1 S1). cbn [ArgTy] in P1. specialize (IH P2 S2).
  cbn [map_args map dparams]. unfold map_args in IH. rewrite IH, P1. destruct l; auto.
Qed.
Lemma kept_denote : forall t, DK t.
Proof.
  induction t using TypeName_ind'; intros S; cbn [symbols_of] in S; cbn [map_symbols denote_with]; auto.
  - inversion S as [|? ? [N Q] _]; subst. rewrite N, Q. auto.
  - rewrite IHt by auto. auto.
  - rewrite IHt by auto. auto.
  - rewrite IHt by auto. auto.
  - apply Forall_app in S as [S1 S2]. rewrite IHt1, IHt2 by auto. auto.
  - rewrite IHt by auto. auto.
  - destruct s as [a r v]. cbn [sig_symbols_] in S. apply Forall_app in S as [S1 S2].
    destruct H as [PA PR]. cbn [Args Results] in *. cbn [map_sig denote_with]. rewrite !has_names_map, !kept_args; auto.
  - f_equal. rewrite map_map. apply map_ext_in. intros [n t tag] IN. rewrite Forall_forall in H. f_equal. f_equal.
    apply (H _ IN). cbn. apply Forall_forall. intros s IS. rewrite Forall_forall in S. apply S. apply in_flat_map. eexists. split; [exact IN|exact IS].
  - apply Forall_app in S as [S1 S2]. f_equal. f_equal.
    + rewrite map_map. apply map_ext_in. intros s IN. rewrite Forall_forall in S1. destruct (S1 s IN) as [N Q]. rewrite N, Q. auto.
    + rewrite map_map. apply map_ext_in. intros [n [a r v]] IN. rewrite Forall_forall in H. destruct (H _ IN) as [PA PR].
      assert (K : Forall kept (args_symbols symbols_of a ++ args_symbols symbols_of r)).
      { apply Forall_forall. intros s IS. rewrite Forall_forall in S2. apply S2. apply in_flat_map. eexists. split; [exact IN|exact IS]. }
      apply Forall_app in K as [KA KR]. cbn [MtdSig Args Results map_sig] in *. rewrite !has_names_map, !kept_args; auto.
Qed.
Lemma kept_sig s : Forall kept (sig_symbols s) -> denote_sig_with q (map_sig (map_symbols g) s) = denote_sig_with q s.
Proof.
  intros K. destruct s as [a r v]. unfold sig_symbols, sig_symbols_ in K. cbn [Args Results] in K. apply Forall_app in K as [KA KR].
  unfold denote_sig_with, map_sig. cbn [Args Results IsVariadic]. rewrite !has_names_map.
  assert (D : forall l, PArgs DK l) by (intros; apply Forall_forall; intros; apply kept_denote).
  rewrite !kept_args; auto.
Qed.
End Denote.
