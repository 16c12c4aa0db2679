(** Proofs about members: writing files changes nothing but the names of packages in them. *)
From Verif Require Import Base BaseFacts GoPath Types SpecTypes TypesFacts Imports SpecImports ImportsProofs ImportsTheorems SettleProofs Conv World WorldProofs SpecGo SpecRender
  SpecCalls SpecWorld SpecQualify ProgramFrame SpecProgram SpecMembers MemberFrame MemberCalls MemberProofs MemberTheorems MemberHistory.

(** ** A type that is qualified *)
Section Same.
Context {A V : Type}.
Variables (f : A -> IM (A * bool)) (v : A -> V).
Definition same (a : A) : Prop := forall i a' c i', f a i = (Ok (a', c), i') -> v a' = v a.
Lemma same_list l : Forall same l -> forall i l' c i', map_changed f l i = (Ok (l', c), i') -> map v l' = map v l.
Proof.
  induction 1 as [|a l S _ IH]; cbn [map_changed]; intros i l' c i' E; [injection E as <- _ _; reflexivity|].
  unfold sbind in E. destruct (f a i) as [[[a1 c1]|] i1] eqn:Ea; [|discriminate].
  destruct (map_changed f l i1) as [[[r1 c2]|] i2] eqn:Er; [|discriminate]. injection E as <- _ _.
  cbn [map]. rewrite (IH _ _ _ _ Er). f_equal. destruct c1; auto. exact (S _ _ _ _ Ea).
Qed.
End Same.
Section Wrap.
Context {A V B W : Type}.
Variables (f : A -> IM (A * bool)) (v : A -> V) (F : B -> IM (B * bool)) (z : B -> W) (k : A -> B) (mk : A -> res B).
Lemma same_wrap a :
  (forall x b, v x = v a -> mk x = Ok b -> z b = z (k a)) ->
  (forall i, F (k a) i =
     (do '(a', c) <- f a ;;
      if c : bool then do b <- slift (mk a') ;; sret (b, true) else sret (k a, false)) i) ->
  same f v a -> same F z (k a).
Proof.
  intros MK Q S i b c i' E. rewrite Q in E. unfold sbind, sret, slift in E.
  destruct (f a i) as [[[a1 c1]|] i1] eqn:Ea; [|discriminate]. pose proof (S _ _ _ _ Ea) as EV.
  destruct c1; [|injection E as <- _ _; reflexivity]. destruct (mk a1) eqn:M; [|discriminate]. injection E as <- _ _. eauto.
Qed.
End Wrap.
Lemma same_pair {A B V W} (f : A -> IM (A * bool)) (g : B -> IM (B * bool)) (v : A -> V) (z : B -> W) a b :
  same f v a -> same g z b -> same (qpair f g) (fun p => (v (fst p), z (snd p))) (a, b).
Proof.
  intros SA SB i p c i' E. unfold qpair, sbind, sret in E. cbn [fst snd] in *.
  destruct (f a i) as [[[a1 c1]|] i1] eqn:Ea; [|discriminate]. destruct (g b i1) as [[[b1 c2]|] i2] eqn:Eb; [|discriminate].
  injection E as <- _ _. cbn [fst snd]. f_equal; [eapply SA|eapply SB]; eauto.
Qed.
Definition sig_paths : Signature -> Signature := map_sig paths_of.
Definition field_paths (x : FieldType) : FieldType := match x with mkField n t tag => mkField n (paths_of t) tag end.
Definition method_paths (m : MethodType) : MethodType := match m with mkMethod n s => mkMethod n (sig_paths s) end.
Section Reg.
Variable reg : bool.
Notation sameT := (same (qualifyType reg) paths_of).
Lemma same_args l : Forall (fun a => sameT (ArgTy a)) l -> same (qualifyArgs_ (qualifyType reg)) (map_args paths_of) l.
Proof.
  intros H i l' c i' E. unfold qualifyArgs_ in E. unfold map_args. eapply same_list in E; [exact E|].
  eapply Forall_impl; [|exact H]. intros [n t] T j a' c1 j' E1. unfold sbind, sret in E1. cbn [ArgTy] in T.
  destruct (qualifyType reg t j) as [[[t1 c2]|] i1] eqn:Et; [|discriminate]. injection E1 as <- _ _. f_equal. eapply T; eauto.
Qed.
Lemma same_fields l : Forall (fun a => sameT (FldType a)) l -> same (qualifyFields_ (qualifyType reg)) (map field_paths) l.
Proof.
  intros H i l' c i' E. unfold qualifyFields_ in E. eapply same_list in E; [exact E|].
  eapply Forall_impl; [|exact H]. intros [n t tag] T j a' c1 j' E1. unfold sbind, sret in E1. cbn [FldType] in T.
  destruct (qualifyType reg t j) as [[[t1 c2]|] i1] eqn:Et; [|discriminate]. injection E1 as <- _ _. unfold field_paths. f_equal. eapply T; eauto.
Qed.
Lemma same_sig (s : Signature) : PSig (fun t => sameT t) s -> same (qualifySignature_ (qualifyType reg)) sig_paths s.
Proof.
  intros [HA HR]. apply same_args in HA, HR. destruct s as [a r b]. cbn [Args Results] in *. intros i s' c i' E.
  cbn [qualifySignature_] in E. unfold sbind, sret in E.
  destruct (qualifyArgs_ (qualifyType reg) a i) as [[[k1 c1]|m] i1] eqn:Ea; [|discriminate].
  destruct (qualifyArgs_ (qualifyType reg) r i1) as [[[e1 c2]|m] i2] eqn:Er; [|discriminate].
  destruct (c1 || c2); injection E as <- _ _; [|reflexivity]. unfold sig_paths, map_sig. f_equal; [eapply HA|eapply HR]; eauto.
Qed.
Lemma same_methods l : Forall (fun m => PSig (fun t => sameT t) (MtdSig m)) l -> same (qualifyMethods_ (qualifyType reg)) (map method_paths) l.
Proof.
  intros H i l' c i' E. unfold qualifyMethods_ in E. eapply same_list in E; [exact E|].
  eapply Forall_impl; [|exact H]. intros [n s] T j a' c1 j' E1. unfold sbind, sret in E1. cbn [MtdSig] in T. apply same_sig in T.
  destruct (qualifySignature_ (qualifyType reg) s j) as [[[t1 c2]|] i1] eqn:Et; [|discriminate]. injection E1 as <- _ _.
  unfold method_paths. f_equal. eapply T; eauto.
Qed.
Lemma same_name s i s' i' : qualify s reg i = (Ok s', i') -> by_path s' = by_path s.
Proof.
  unfold qualify. destruct (_ && _); [intros [= <- _]; reflexivity|]. unfold sbind, sret.
  destruct (prefixForPackage _ _ _ _) as [[n|] i1]; [|discriminate]. destruct (negb _); intros [= <- _]; reflexivity.
Qed.
Lemma same_names l : same (qualifySymbols reg) (map by_path) l.
Proof.
  intros i l' c i' E. unfold qualifySymbols in E. eapply same_list in E; [exact E|].
  apply Forall_forall. intros s _ j a' c1 j' E1. unfold sbind, sret in E1.
  destruct (qualify s reg j) as [[n|] i1] eqn:Eq; [|discriminate]. injection E1 as <- _ _. eapply same_name; eauto.
Qed.
Lemma same_type t : sameT t.
Proof.
  induction t as [ |k|s|e IH|e IH|e n IH|e k IHe IHk|e d IH|s IH|fs IH|ms es IH] using TypeName_ind'.
  - intros i t' c i' E. discriminate E.
  - intros i t' c i' E. injection E as <- _ _. reflexivity.
  - intros i t' c i' E. cbn [qualifyType] in E. unfold sbind, sret in E. destruct (qualify s reg i) as [[n|] i1] eqn:Eq; [|discriminate].
    apply same_name in Eq. destruct (negb _); injection E as <- _ _; [|reflexivity]. unfold NamedType. cbn [paths_of]. congruence.
  - refine (same_wrap _ paths_of _ paths_of TPtr PointerType e _ _ IH); [|reflexivity].
    intros x t EV. unfold PointerType. destruct (is_nil x); [discriminate|]. intros [= <-]. cbn [paths_of]. congruence.
  - refine (same_wrap _ paths_of _ paths_of TSlice SliceType e _ _ IH); [|reflexivity].
    intros x t EV. unfold SliceType. destruct (is_nil x); [discriminate|]. intros [= <-]. cbn [paths_of]. congruence.
  - refine (same_wrap _ paths_of _ paths_of (fun e => TArray e n) (fun e => ArrayType e n) e _ _ IH); [|reflexivity].
    intros x t EV. unfold ArrayType. destruct (_ || _); [discriminate|]. intros [= <-]. cbn [paths_of]. congruence.
  - refine (same_wrap _ _ _ paths_of (fun p => TMap (snd p) (fst p)) (fun p => MapType (fst p) (snd p)) (k, e) _ _
              (same_pair _ _ _ _ _ _ IHk IHe)).
    + intros [x y] t EV. cbn [fst snd] in EV. unfold MapType. cbn [fst snd]. destruct (_ || _); [discriminate|]. intros [= <-].
      injection EV as E1 E2. exact (f_equal2 TMap E2 E1).
    + intros i. cbn [qualifyType fst snd]. unfold qpair, sbind, sret, slift. cbn [fst snd].
      destruct (qualifyType reg k i) as [[[k1 c1]|m] i1]; auto.
      destruct (qualifyType reg e i1) as [[[e1 c2]|m] i2]; auto. rewrite orb_comm. auto.
  - refine (same_wrap _ paths_of _ paths_of (fun e => TChan e d) (fun e => ChannelType e d) e _ _ IH); [|reflexivity].
    intros x t EV. unfold ChannelType. cbv zeta. destruct (_ || _); [discriminate|]. intros [= <-]. cbn [paths_of]. rewrite EV. f_equal. destruct (d =? 0)%Z eqn:ED; [reflexivity|rewrite ED; reflexivity].
  - refine (same_wrap _ sig_paths _ paths_of TFunc FuncTypeFromSig s _ _ (same_sig s IH)); [|reflexivity].
    intros x t EV M. apply FuncTypeFromSig_keeps in M as ->. unfold sig_paths in EV. cbn [paths_of]. congruence.
  - refine (same_wrap _ _ _ paths_of TStruct (fun l => Ok (StructType l)) fs _ _ (same_fields fs IH)); [|reflexivity].
    intros x t EV [= <-]. exact (f_equal TStruct EV).
  - refine (same_wrap _ _ _ paths_of (fun p => TInterface (snd p) (fst p)) (fun p => Ok (InterfaceType (fst p) (snd p))) (es, ms) _ _
              (same_pair _ _ _ _ _ _ (same_names es) (same_methods ms IH))).
    + intros [x y] t EV [= <-]. cbn [fst snd] in EV. injection EV as E1 E2. exact (f_equal2 TInterface E2 E1).
    + intros i. cbn [qualifyType fst snd]. unfold qpair, sbind, sret, slift. cbn [fst snd].
      destruct (qualifySymbols reg es i) as [[[k1 c1]|m] i1]; auto.
      destruct (qualifyMethods_ (qualifyType reg) ms i1) as [[[e1 c2]|m] i2]; auto.
Qed.
Lemma same_signature s : same (qualifySignature reg) sig_paths s.
Proof. apply same_sig. split; apply Forall_forall; intros; apply same_type. Qed.
End Reg.

(** ** Members *)
Definition or_paths (t : TypeNameOrSpec) : TypeNameOrSpec := match t with IsName t => IsName (paths_of t) | _ => t end.
Definition pF (x : FieldSpec) := (FSName x, FSTag x, or_paths (FSType x)).
Definition pE (e : InterfaceElement) : InterfaceElement :=
  match e with InterfaceEmbed _ s _ => InterfaceEmbed "" (by_path s) None | InterfaceMethod _ n s _ => InterfaceMethod "" n (sig_paths s) None end.
Definition pT (T : TypeSpec) := (TSName T, paths_of (TSUnderlying T), TSStruct T, TSInterface T).
Section Writing.
Context {TD : Type}.
Notation World := (World TD).
Notation WM := (WM (TD := TD)).
Variable env : Env TD.
Definition every (i : nat) : Prop := True.
Record turned (w w' : World) : Prop := mkTurned
  { t_fields : sub pF every (World.fields w) (World.fields w'); t_ielems : sub pE every (ielems w) (ielems w');
    t_types : sub pT every (types w) (types w') }.
Lemma turned_refl w : turned w w.
Proof. split; apply sub_refl. Qed.
Lemma turned_trans a b c : turned a b -> turned b c -> turned a c.
Proof. intros [A B C] [A' B' C']. split; eapply sub_trans; eauto. Qed.
Inductive rule := Free | OfField (i : nat) (x : FieldSpec) | OfElem (i : nat) (e : InterfaceElement) | OfType (i : nat) (T : TypeSpec).
Definition obeys (w : World) (P : rule) : Prop :=
  match P with
  | Free => True
  | OfField i x => exists y, nth_error (World.fields w) i = Some y /\ pF y = pF x
  | OfElem i x => exists y, nth_error (ielems w) i = Some y /\ pE y = pE x
  | OfType i x => exists y, nth_error (types w) i = Some y /\ pT y = pT x
  end.
Definition turns (P : rule) {A} (m : WM A) : Prop := forall w, obeys w P -> turned w (snd (m w)).
Lemma turned_obeys w w' P : turned w w' -> obeys w P -> obeys w' P.
Proof.
  intros [A B C] O. destruct P as [|i x|i x|i x]; cbn in *; auto; destruct O as (y & E & V).
  - destruct (A i y Logic.I E) as (z & E' & V'). exists z. split; congruence.
  - destruct (B i y Logic.I E) as (z & E' & V'). exists z. split; congruence.
  - destruct (C i y Logic.I E) as (z & E' & V'). exists z. split; congruence.
Qed.
Lemma turns_bind P {A B} (m : WM A) (k : A -> WM B) : turns P m -> (forall a, turns P (k a)) -> turns P (do a <- m ;; k a).
Proof.
  intros H K w O. pose proof (H w O) as H'. unfold sbind. destruct (m w) as [[a|e] w1]; cbn [snd] in *; auto.
  eapply turned_trans; [exact H'|]. apply K. eapply turned_obeys; eauto.
Qed.
Lemma turns_free P {A} (m : WM A) : turns Free m -> turns P m.
Proof. intros H w _. apply H. exact Logic.I. Qed.
Lemma turns_still P {A} (m : WM A) :
  (forall w, World.fields (snd (m w)) = World.fields w /\ ielems (snd (m w)) = ielems w /\ types (snd (m w)) = types w) -> turns P m.
Proof. intros H w _. destruct (H w) as (A1 & A2 & A3). split; rewrite ?A1, ?A2, ?A3; apply sub_refl. Qed.
Lemma turns_ret P {A} (a : A) : turns P (sret a).
Proof. apply turns_still. auto. Qed.
Lemma turns_get P {A} (tab : World -> list A) i : turns P (get tab i).
Proof. apply turns_still. intros w. unfold get. destruct (nth_error (tab w) i); auto. Qed.
Lemma turns_each P {A} (g : A -> WM unit) l : (forall a, turns P (g a)) -> turns P (for_each g l).
Proof. intros H. induction l; cbn [for_each]; [apply turns_ret|apply turns_bind; auto]. Qed.
Lemma turns_imports P {A} f (m : IM A) : turns P (onImports f m).
Proof. apply turns_still. intros w. unfold onImports. destruct (nth_error (files w) f) as [F|]; auto. destruct (m (FImports F)); auto. Qed.
Lemma turns_tq P f d : turns P (fun w => onImports f (tq env w d) w).
Proof. apply turns_still. intros w. unfold onImports. destruct (nth_error (files w) f) as [F|]; auto. destruct (tq env w d (FImports F)); auto. Qed.
(** the result of a call on the imports *)
Lemma turns_result P {A B} f (m : IM A) (Q : A -> Prop) (k : A -> WM B) :
  (forall i a i', m i = (Ok a, i') -> Q a) -> (forall a, Q a -> turns P (k a)) -> turns P (do a <- onImports f m ;; k a).
Proof.
  intros MQ K w O. pose proof (turns_imports P f m w O) as H'. unfold sbind, onImports in *.
  destruct (nth_error (files w) f) as [F|]; [|exact H']. destruct (m (FImports F)) as [[a|] i'] eqn:E; [|exact H'].
  cbn [snd] in H'. eapply turned_trans; [exact H'|]. apply K; [eapply MQ; eauto|]. eapply turned_obeys; eauto.
Qed.
Lemma turns_type P {B} f t (k : TypeName * bool -> WM B) : (forall t' c, paths_of t' = paths_of t -> turns P (k (t', c))) ->
  turns P (do a <- onImports f (EnsureTypeImported t) ;; k a).
Proof.
  intros K. apply (turns_result P f _ (fun a => paths_of (fst a) = paths_of t)).
  - intros i [t' c] i' E. exact (same_type true t i t' c i' E).
  - intros [t' c] Q. apply K. exact Q.
Qed.
Lemma turns_signature P {B} f s (k : Signature * bool -> WM B) : (forall s' c, sig_paths s' = sig_paths s -> turns P (k (s', c))) ->
  turns P (do a <- onImports f (EnsureAllTypesImported s) ;; k a).
Proof.
  intros K. apply (turns_result P f _ (fun a => sig_paths (fst a) = sig_paths s)).
  - intros i [t' c] i' E. exact (same_signature true s i t' c i' E).
  - intros [t' c] Q. apply K. exact Q.
Qed.
Lemma turns_name P {B} f s (k : Symbol -> WM B) : (forall s', by_path s' = by_path s -> turns P (k s')) ->
  turns P (do a <- onImports f (EnsureImported s) ;; k a).
Proof.
  intros K. apply (turns_result P f _ (fun a => by_path a = by_path s)); auto.
  intros i s' i' E. exact (same_name true s i s' i' E).
Qed.
Lemma turns_get_field {B} i (k : FieldSpec -> WM B) : (forall x, turns (OfField i x) (k x)) -> turns Free (do x <- get World.fields i ;; k x).
Proof.
  intros H w _. unfold sbind, get. destruct (nth_error (World.fields w) i) as [x|] eqn:E; [|apply turned_refl]. apply H. cbn. eauto.
Qed.
Lemma turns_get_elem {B} i (k : InterfaceElement -> WM B) : (forall x, turns (OfElem i x) (k x)) -> turns Free (do x <- get ielems i ;; k x).
Proof.
  intros H w _. unfold sbind, get. destruct (nth_error (ielems w) i) as [x|] eqn:E; [|apply turned_refl]. apply H. cbn. eauto.
Qed.
Lemma turns_get_type {B} i (k : TypeSpec -> WM B) : (forall x, turns (OfType i x) (k x)) -> turns Free (do x <- get types i ;; k x).
Proof.
  intros H w _. unfold sbind, get. destruct (nth_error (types w) i) as [x|] eqn:E; [|apply turned_refl]. apply H. cbn. eauto.
Qed.
Lemma turns_put_field i x y : pF y = pF x -> turns (OfField i x) (put World.fields set_fields i y).
Proof. intros V w (z & E & VZ). split; cbn; try apply sub_refl. apply sub_upd. intros _ a Ea. congruence. Qed.
Lemma turns_put_elem i x y : pE y = pE x -> turns (OfElem i x) (put ielems set_ielems i y).
Proof. intros V w (z & E & VZ). split; cbn; try apply sub_refl. apply sub_upd. intros _ a Ea. congruence. Qed.
Lemma turns_put_type i x y : pT y = pT x -> turns (OfType i x) (put types set_types i y).
Proof. intros V w (z & E & VZ). split; cbn; try apply sub_refl. apply sub_upd. intros _ a Ea. congruence. Qed.

Ltac tu := repeat first
  [ match goal with |- forall _, _ => intro end
  | match goal with
    | |- turns _ (sret _) => apply turns_ret
    | |- turns _ (spanic _) => apply turns_still; repeat split; reflexivity
    | |- turns _ (slift _) => apply turns_still; repeat split; reflexivity
    | |- turns _ (from_res _) => apply turns_still; repeat split; reflexivity
    | |- turns _ (put World.fields _ _ _) => fail 1
    | |- turns _ (put ielems _ _ _) => fail 1
    | |- turns _ (put types _ _ _) => fail 1
    | |- turns _ (put _ _ _ _) => apply turns_still; repeat split; reflexivity
    | |- turns _ (onImports _ _) => apply turns_imports
    | |- turns _ (fun w => onImports _ (tq _ w _) w) => apply turns_tq
    | |- turns _ (get _ _) => apply turns_get
    | |- turns _ (for_each _ _) => apply turns_each
    | |- turns _ (sbind _ _) => apply turns_bind
    | |- turns _ (match ?x with _ => _ end) => destruct x
    end ].
Section One.
Variable f : nat.
Lemma turns_arg P a : turns P (Arg_qualify f a).
Proof. destruct a; cbn [Arg_qualify]; unfold qualify_method, qualify_sym_arg, qualify_package; tu. Qed.
Lemma turns_block P cb : turns P (CodeBlock_qualify env f cb).
Proof.
  unfold CodeBlock_qualify, codeElement_qualify, line_qualify, line_qualify_at, templ_qualify. repeat first [apply turns_arg|progress tu].
Qed.
Lemma turns_elem id : turns Free (InterfaceElement_qualify f id).
Proof.
  unfold InterfaceElement_qualify. apply turns_get_elem. intros [c s p|c n s p].
  - apply turns_name. intros s' E. apply turns_put_elem. cbn. congruence.
  - apply turns_signature. intros s' b E. apply turns_put_elem. cbn. congruence.
Qed.
Lemma turns_typespec fuel : forall id, turns Free (TypeSpec_qualify fuel f id).
Proof.
  induction fuel as [|fuel IH]; intros id; cbn [TypeSpec_qualify]; [tu|].
  apply turns_get_type. intros T. apply turns_type. intros u c E. apply turns_bind.
  - apply turns_put_type. unfold pT. cbn. congruence.
  - intros _. apply turns_free. apply turns_bind; [|intros _; apply turns_each, turns_elem].
    apply turns_each. intros fid. apply turns_get_field. intros x. destruct (FSType x) as [|t|ts] eqn:ET; [apply turns_ret| |apply turns_free, IH].
    apply turns_type. intros t' c' E'. apply turns_put_field. unfold pF. cbn. rewrite ET. cbn. congruence.
Qed.
Lemma turns_value tab set fuel id : (forall i v w, let w' := set (upd i v (tab w)) w in
    World.fields w' = World.fields w /\ ielems w' = ielems w /\ types w' = types w) ->
  turns Free (qualify_value env tab set fuel f id).
Proof.
  intros H. unfold qualify_value. apply turns_bind; [apply turns_get|]. intros v. apply turns_bind.
  - destruct (VSType v); [apply turns_ret| |apply turns_typespec]. apply turns_bind; [apply turns_imports|]. intros [t' c].
    apply turns_still. intros w. apply H.
  - intros _. destruct (VInit v); [apply turns_block|apply turns_ret].
Qed.
Lemma turns_element fuel e : turns Free (FileElement_qualify env fuel f e).
Proof.
  destruct e; cbn [FileElement_qualify]; (apply turns_bind; [apply turns_get|]; intros D).
  - apply turns_each. intros id. apply turns_value. intros; repeat split; reflexivity.
  - apply turns_each. intros id. apply turns_value. intros; repeat split; reflexivity.
  - apply turns_each. intros id. apply turns_typespec.
  - apply turns_bind; [apply turns_imports|]. intros [s c]. apply turns_bind; [tu|]. intros _. apply turns_block.
Qed.
Lemma turns_source fuel : turns Free (source env fuel f).
Proof.
  unfold source, qualify_file. apply turns_bind; [apply turns_bind; [apply turns_get|]; intros F; apply turns_each; intros e; apply turns_element|].
  intros _. apply turns_bind; [apply turns_get|]. intros F. apply turns_still. auto.
Qed.
End One.

(** ** What the members make up, after writing *)
Lemma member_turned (w w' : World) t t' u : turned w w' -> or_paths t' = or_paths t ->
  (forall ts S, t = IsSpec ts -> nth_error (types w) ts = Some S -> TSName S = ""%string) ->
  member_type w t = Some u -> exists u', member_type w' t' = Some u' /\ paths_of u' = paths_of u.
Proof.
  intros [_ _ KT] V N. destruct t as [|t|ts]; destruct t' as [|t'|ts']; cbn [or_paths] in V; try discriminate V; cbn [member_type].
  - intros [= <-]. eauto.
  - intros [= <-]. injection V as V. eauto.
  - injection V as ->. unfold obind. destruct (nth_error (types w) ts) as [S|] eqn:E; [|discriminate].
    destruct (KT ts S Logic.I E) as (S' & E' & VS). rewrite E'. unfold pT in VS. injection VS as -> VU _ _.
    rewrite (N ts S eq_refl E). cbn [String.eqb]. intros [= <-]. eauto.
Qed.
Lemma described_turned (w w' : World) T T' t : turned w w' -> pT T' = pT T ->
  ((exists fs, TSUnderlying T = TStruct fs) ->
   forall i x ts S, In i (TSStruct T) -> nth_error (World.fields w) i = Some x -> FSType x = IsSpec ts -> nth_error (types w) ts = Some S -> TSName S = ""%string) ->
  described w T = Some t -> paths_of t = paths_of (TSUnderlying T) ->
  exists t', described w' T' = Some t' /\ paths_of t' = paths_of (TSUnderlying T').
Proof.
  intros K V N D P. pose proof K as [KF KE KT]. unfold pT in V. injection V as EN EU ES EI. unfold described in *. rewrite ES, EI, EU, <- P. clear P.
  destruct (TSUnderlying T) eqn:U; destruct (TSUnderlying T') eqn:U'; cbn [paths_of] in EU; try discriminate EU;
    try (injection D as <-; eexists; split; [reflexivity|exact EU]).
  - unfold option_map in D. destruct (each _ (TSStruct T)) as [r|] eqn:E; [|discriminate]. injection D as <-. apply each_map in E.
    specialize (N (ex_intro _ _ eq_refl)).
    enough (X : exists r', each (fun id => obind (nth_error (World.fields w') id) (fun x =>
        option_map (fun t => mkField (FSName x) t (FSTag x)) (member_type w' (FSType x)))) (TSStruct T) = Some r' /\
        map field_paths r' = map field_paths r).
    { destruct X as (r' & -> & M). exists (TStruct r'). split; [reflexivity|]. exact (f_equal TStruct M). }
    clear -E N KF K. induction E as [|i b l r A _ IH]; [exists []; split; reflexivity|].
    destruct IH as (r' & E' & M'); [intros j x ts S IN; apply (N j x ts S); right; auto|].
    unfold obind in A. destruct (nth_error (World.fields w) i) as [x|] eqn:EX; [|discriminate].
    destruct (member_type w (FSType x)) as [u|] eqn:EM; [|discriminate]. cbn in A. injection A as <-.
    destruct (KF i x Logic.I EX) as (y & EY & VY). unfold pF in VY. injection VY as VN VG VT.
    destruct (member_turned w w' (FSType x) (FSType y) u K VT) as (u' & EM' & PU); auto.
    { intros ts S EQ ES. apply (N i x ts S); auto. left. auto. }
    cbn [each]. rewrite EY. cbn [obind]. rewrite EM'. cbn [option_map obind]. rewrite E'. cbn [obind]. eexists. split; [reflexivity|].
    cbn [map field_paths]. congruence.
  - unfold option_map in D. destruct (each _ (TSInterface T)) as [r|] eqn:E; [|discriminate]. injection D as <-. apply each_map in E.
    assert (X : exists r', each (nth_error (ielems w')) (TSInterface T) = Some r' /\ map pE r' = map pE r).
    { clear -E KE. induction E as [|i b l r A _ IH]; [exists []; split; reflexivity|]. destruct IH as (r' & E' & M').
      destruct (KE i b Logic.I A) as (y & EY & VY). cbn [each]. rewrite EY. cbn [obind]. rewrite E'. cbn [obind]. eexists. split; [reflexivity|].
      cbn [map]. congruence. }
    destruct X as (r' & -> & M). cbn [option_map]. eexists. split; [reflexivity|]. clear -M. revert r M.
    induction r' as [|a r' IH]; intros [|b r] M; try discriminate M; [reflexivity|]. cbn [map] in M. injection M as V M. specialize (IH r M).
    cbn [paths_of] in IH. injection IH as I1 I2.
    cbn [flat_map paths_of]. rewrite !map_app. destruct a, b; cbn [pE] in V; try discriminate V; cbn [map app].
    + assert (B : by_path type = by_path type0) by congruence. rewrite B, I1, I2. reflexivity.
    + assert (B : name = name0) by congruence. assert (G : sig_paths sig = sig_paths sig0) by congruence. unfold sig_paths in G.
      rewrite B, G, I1, I2. reflexivity.
Qed.
Lemma no_named_turned (w w' : World) id T t : nth_error (types w) id = Some T -> turned w w' -> described w T = Some t ->
  (exists fs, TSUnderlying T = TStruct fs) -> no_named_fields w id -> no_named_fields w' id.
Proof.
  intros E [KF KE KT] D (fs & U) N T' i x ts S E' IN EX EQ ES.
  destruct (KT id T Logic.I E) as (T2 & E2 & V2). rewrite E' in E2. injection E2 as <-. unfold pT in V2. injection V2 as _ _ VS _. rewrite VS in IN.
  unfold described in D. rewrite U in D. unfold option_map in D. destruct (each _ (TSStruct T)) as [r|] eqn:EE; [|discriminate].
  apply each_map in EE.
  assert (X : exists x0, nth_error (World.fields w) i = Some x0 /\ member_type w (FSType x0) <> None).
  { clear -EE IN. induction EE as [|a b l r A _ IH]; [destruct IN|]. destruct IN as [->|IN]; auto.
    unfold obind in A. destruct (nth_error (World.fields w) i) as [x0|]; [|discriminate]. exists x0. split; auto.
    destruct (member_type w (FSType x0)); discriminate. }
  destruct X as (x0 & EX0 & MT). destruct (KF i x0 Logic.I EX0) as (x1 & EX1 & VX). rewrite EX in EX1. injection EX1 as <-.
  unfold pF in VX. injection VX as _ _ VT. rewrite EQ in VT. destruct (FSType x0) as [|y|ts0] eqn:F0; cbn [or_paths] in VT; try discriminate VT.
  injection VT as <-. cbn [member_type] in MT. destruct (nth_error (types w) ts) as [S0|] eqn:ES0; [|cbn in MT; congruence].
  destruct (KT ts S0 Logic.I ES0) as (S1 & ES1 & VS1). rewrite ES in ES1. injection ES1 as <-.
  unfold pT in VS1. injection VS1 as -> _ _ _. eapply N; eauto.
Qed.

(** ** Programs *)
Definition held (v : list nat * list nat) (w : World) id : Prop :=
  exists T t, nth_error (types w) id = Some T /\ described w T = Some t /\ paths_of t = paths_of (TSUnderlying T) /\
    (TSStruct T, TSInterface T) = v /\ ((exists fs, TSUnderlying T = TStruct fs) -> no_named_fields w id).
Lemma held_call v c (w : World) id : held v w id -> ~ sets_member w id c -> held v (snd (do_call env c w)) id.
Proof.
  intros (T & t & E & D & P & V & N) S. set (w' := snd (do_call env c w)).
  destruct (match c with PWrite fuel f => Some (fuel, f) | _ => None end) as [[fuel f]|] eqn:C.
  - assert (EC : c = PWrite fuel f) by (destruct c; try discriminate; congruence). subst c.
    assert (K : turned w w').
    { unfold w'. cbn [do_call]. unfold ended. pose proof (turns_source f fuel w Logic.I) as X. destruct (source env fuel f w) as [[]]; exact X. }
    pose proof K as [_ _ KT]. destruct (KT id T Logic.I E) as (T' & E' & V').
    destruct (described_turned w w' T T' t K V') as (t' & D' & P'); auto.
    { intros ST i x ts U IN EX EQ EU. eapply (N ST); eauto. }
    exists T', t'. unfold pT in V'. injection V' as V1 V2 V3 V4. split; auto. split; auto. split; auto. split; [congruence|].
    intros (fs & U). assert (ST : exists fs, TSUnderlying T = TStruct fs).
    { rewrite U in V2. destruct (TSUnderlying T); try discriminate V2. eauto. }
    exact (no_named_turned w w' id T t E K D ST (N ST)).
  - assert (W : match c with PWrite _ _ => False | _ => True end) by (destruct c; auto; discriminate).
    pose proof (call_kept env c w id T E S W) as K. fold w' in K. pose proof K as [KF KE KT KM].
    destruct (KT id T) as (T' & E' & V'); [apply nth_error_Some; congruence|auto|].
    assert (EU : TSUnderlying T' = TSUnderlying T) by (unfold vT in V'; congruence).
    exists T', t. split; auto. split; [apply (described_moved false w w' T T' V' KF KE); auto|split; [congruence|split]].
    + intros ST i x u IN EX. apply (member_type_kept false _ _ w w' (FSType x) u K). intros ts U EQ EU'. exact (N ST T i x ts U E IN EX EQ EU').
    + unfold vT in V'. congruence.
    + intros ST. rewrite EU in ST. apply (no_named_kept w w' id T _ E K D ST (N ST)).
Qed.
Lemma agrees_by_path_kept p : forall (w : World) id, agrees_by_path w id -> no_named_fields w id -> (forall c, In c p -> ~ sets_member w id c) ->
  agrees_by_path (after env p w) id.
Proof.
  intros w id (T & t & E & D & P) N S. assert (H : held (TSStruct T, TSInterface T) w id) by (exists T, t; repeat split; auto). clear E D P N.
  enough (X : held (TSStruct T, TSInterface T) (after env p w) id) by (destruct X as (T' & t' & E & D & P & _); exists T', t'; auto).
  revert w H S. generalize (TSStruct T, TSInterface T) as v. clear T t. induction p as [|c p IH]; intros v w H S; [exact H|].
  cbn [after fold_left]. pose proof (held_call v c w id H (S c (or_introl eq_refl))) as H1.
  apply IH; auto. intros d IN (T2 & E2 & M). apply (S d (or_intror IN)).
  destruct H as (T & t & E & _ & _ & V & _). destruct H1 as (T1 & t1 & E1 & _ & _ & V1 & _). rewrite E1 in E2. injection E2 as <-.
  exists T. split; auto. rewrite <- V1 in V. injection V as -> ->. exact M.
Qed.
End Writing.
