(** Building type specs: what they contain. *)
From Verif Require Import Base BaseFacts GoPath Types SpecTypes Imports SpecImports SpecGo SpecRender World SpecWorld
  SpecFile SpecDecl WorldProofs DeclText DeclTheorems SpecBuild BuildProofs.

Lemma all2_impl {A B} (P Q : A -> B -> Prop) m : forall l,
  (forall a b, In b m -> In a l -> P a b -> Q a b) -> all2 P l m -> all2 Q l m.
Proof.
  induction m as [|b m IH]; intros [|a l] H; cbn; auto. intros [H1 H2]. split.
  - apply H; cbn; auto.
  - apply IH; auto. intros a' b' I J. apply H; cbn; auto.
Qed.
Lemma all2_app {A B} (P : A -> B -> Prop) m m' : forall l l', all2 P l m -> all2 P l' m' -> all2 P (l ++ l') (m ++ m').
Proof. induction m as [|b m IH]; intros [|a l] l' H K; cbn in *; try tauto; try discriminate. destruct H. split; auto. Qed.
Lemma all2_map_r {A B C} (P : A -> C -> Prop) (g : B -> C) m : forall l, all2 (fun a b => P a (g b)) l m -> all2 P l (map g m).
Proof. induction m as [|b m IH]; intros [|a l]; cbn; auto. intros [H K]. auto. Qed.

(** The types of methods of an interface type, and of fields, are given as TypeNames. *)
Fixpoint tdesc_induction (P : tdesc -> Prop) (H1 : forall t, P (DName t))
  (H2 : forall fs, Forall (fun f => P (snd f)) fs -> P (DStruct fs))
  (H3 : forall es, P (DInterface es)) (H4 : forall t, P t -> P (DSpec t)) (t : tdesc) {struct t} : P t :=
  match t with
  | DName t => H1 t
  | DStruct fs => H2 fs ((fix go (l : list (string * string * string * tdesc)) : Forall (fun f => P (snd f)) l := match l with
                         | [] => Forall_nil _
                         | f :: r => Forall_cons f (match f as f0 return P (snd f0) with (_, t) => tdesc_induction P H1 H2 H3 H4 t end) (go r) end) fs)
  | DInterface es => H3 es
  | DSpec t => H4 t (tdesc_induction P H1 H2 H3 H4 t)
  end.

Section Build.
Context {TD : Type}.
Notation World := (World TD).
Notation WM := (WM (TD := TD)).
Implicit Types w : World.

(** Objects keep their contents; parents and comments of types may be set. *)
Definition same_body (T T' : TypeSpec) : Prop :=
  TSUnderlying T' = TSUnderlying T /\ TSStruct T' = TSStruct T /\ TSInterface T' = TSInterface T.
Definition same_type (T T' : TypeSpec) : Prop :=
  TSName T' = TSName T /\ same_body T T'.
Definition keeps w w' : Prop :=
  (forall i T, nth_error (types w) i = Some T -> exists T', nth_error (types w') i = Some T' /\ same_type T T') /\
  (forall i F, nth_error (fields w) i = Some F -> exists p,
     nth_error (fields w') i = Some (mkFieldSpec (FSComment F) (FSName F) (FSTag F) (FSType F) p)) /\
  (forall i e, nth_error (ielems w) i = Some e -> exists p, nth_error (ielems w') i = Some
     match e with InterfaceEmbed c s _ => InterfaceEmbed c s p | InterfaceMethod c n s _ => InterfaceMethod c n s p end).
Lemma same_type_refl T : same_type T T. Proof. repeat split. Qed.
Lemma elem_keeps w w' id e : keeps w w' -> elem_is w id e -> elem_is w' id e.
Proof. intros (_ & _ & K) [p N]. apply K in N as [p' N]. exists p'. rewrite N. destruct e; reflexivity. Qed.
Lemma name_keeps w w' T T' n : keeps w w' -> same_body T T' -> name_contents w T n -> name_contents w' T' n.
Proof.
  intros K (_ & S1 & S2). unfold name_contents.
  destruct n; rewrite S1, S2; auto; intros [H1 H2]; (split; [exact H1|]); (eapply all2_impl; [|exact H2]); cbv beta.
  - intros id f _ _ (F & N & FC & FN & FT & FY). destruct K as (_ & K & _). apply K in N as [p N]. eexists. split; [exact N|].
    cbn. auto.
  - intros id e _ _. apply elem_keeps; auto.
Qed.
Lemma contents_keeps w w' t : keeps w w' -> forall T T', same_body T T' -> contents w T t -> contents w' T' t.
Proof.
  intros K. induction t as [n|fs F|es|t IH] using tdesc_induction; intros T T' S (U & H);
    (split; [destruct S as (S & _); congruence|]).
  - eapply name_keeps; eauto.
  - destruct S as (_ & S1 & S2). rewrite S1, S2. destruct H as [H1 H2]. split; [exact H1|].
    eapply all2_impl; [|exact H2]. intros id [[[c n] tag] t] I _ (FS & N & FC & FN & FT & FY).
    rewrite Forall_forall in F. specialize (F _ I). cbn [snd] in F.
    assert (N' := proj1 (proj2 K) _ _ N). destruct N' as [p N']. eexists. split; [exact N'|]. cbn.
    repeat (split; [assumption|]).
    destruct t; try exact FY; destruct FY as (i & T1 & X & NT & NM & CT); apply (proj1 K) in NT as (T1' & NT & ST);
      exists i, T1'; (split; [exact X|]); (split; [exact NT|]); (split; [destruct ST as [-> _]; exact NM|]); destruct ST as (_ & ST); apply (F T1 T1'); auto.
  - destruct S as (_ & S1 & S2). rewrite S1, S2. destruct H as [H1 H2]. split; [exact H1|].
    eapply all2_impl; [|exact H2]. intros id e _ _. apply elem_keeps; auto.
  - apply (IH T T'); auto.
Qed.
Lemma typed_keeps w w' x t : keeps w w' -> typed w x t -> typed w' x t.
Proof.
  intros K. destruct t; auto; intros (i & T1 & X & NT & NM & CT); assert (NT' := proj1 K _ _ NT); destruct NT' as (T1' & NT' & ST);
  exists i, T1'; (split; [exact X|]); (split; [exact NT'|]); (split; [destruct ST as [-> _]; exact NM|]); destruct ST as (_ & ST); eapply contents_keeps; eauto.
Qed.
Lemma field_keeps w w' id f : keeps w w' -> field_is w id f -> field_is w' id f.
Proof.
  intros K. destruct f as [[[c n] tag] t]. intros (F & N & FC & FN & FT & FY). apply (proj1 (proj2 K)) in N as [p N].
  eexists. split; [exact N|]. cbn. repeat (split; [assumption|]). eapply typed_keeps; eauto.
Qed.
Lemma contents_struct w T fs : contents w T (DStruct fs) <->
  TSUnderlying T = type_of (DStruct fs) /\ TSInterface T = [] /\ all2 (field_is w) (TSStruct T) fs.
Proof.
  cbn [contents]. split; intros (U & I & H); (split; [exact U|split; [exact I|]]); (eapply all2_impl; [|exact H]);
  intros id [[[c n] tag] t] _ _ X; exact X.
Qed.

Lemma contents_underlying w T t : contents w T t -> TSUnderlying T = type_of t.
Proof. destruct t; intros [H _]; exact H. Qed.

(** Types, fields and elements may be new, everything else is as before. *)
Definition upper w := (files w, constDecls w, varDecls w, typeDecls w, consts w, vars w, (funcs w, blocks w, argss w, templs w)).
Definition lower w w' : Prop :=
  upper w' = upper w /\ pre (types w) (types w') /\ pre (fields w) (fields w') /\ pre (ielems w) (ielems w').
Lemma lower_refl w : lower w w. Proof. repeat split; apply pre_refl. Qed.
Lemma lower_trans a b c : lower a b -> lower b c -> lower a c.
Proof. intros (U1 & A1 & A2 & A3) (U2 & B1 & B2 & B3). split; [congruence|]. repeat split; eapply pre_trans; eauto. Qed.
Lemma lower_keeps w w' : lower w w' -> keeps w w'.
Proof.
  intros (_ & P1 & P2 & P3). split; [|split].
  - intros i T N. exists T. split; [auto|apply same_type_refl].
  - intros i F N. exists (FSParent F). rewrite (P2 _ _ N). destruct F; reflexivity.
  - intros i e N. rewrite (P3 _ _ N). destruct e as [c s p|c n s p]; exists p; reflexivity.
Qed.
Lemma keeps_trans a b c : keeps a b -> keeps b c -> keeps a c.
Proof.
  intros (A1 & A2 & A3) (B1 & B2 & B3). split; [|split].
  - intros i T N. apply A1 in N as (T1 & N & S1). apply B1 in N as (T2 & N & S2). exists T2. split; auto.
    unfold same_type, same_body in *. intuition congruence.
  - intros i F N. apply A2 in N as (p & N). apply B2 in N as (p2 & N). exists p2. exact N.
  - intros i e N. apply A3 in N as (p & N). apply B3 in N as (p2 & N). exists p2. rewrite N. destruct e; reflexivity.
Qed.

(** ** Elements of interfaces *)
Lemma sig_fold_args l : forall s, fold_left (fun s '(n, t) => Signature_AddArg s n t) l s =
  mkSig (Args s ++ map (fun '(n, t) => mkArg n t) l) (Results s) (IsVariadic s).
Proof.
  induction l as [|[n t] l IH]; intros s; cbn [fold_left map]; [rewrite app_nil_r; destruct s; reflexivity|].
  rewrite IH. cbn [Args Results IsVariadic Signature_AddArg]. rewrite <- app_assoc. reflexivity.
Qed.
Lemma sig_fold_results l : forall s, fold_left (fun s '(n, t) => Signature_AddResult s n t) l s =
  mkSig (Args s) (Results s ++ map (fun '(n, t) => mkArg n t) l) (IsVariadic s).
Proof.
  induction l as [|[n t] l IH]; intros s; cbn [fold_left map]; [rewrite app_nil_r; destruct s; reflexivity|].
  rewrite IH. cbn [Args Results IsVariadic Signature_AddResult]. rewrite <- app_assoc. reflexivity.
Qed.
Lemma set_ielems_same w : set_ielems (ielems w) w = w. Proof. destruct w; reflexivity. Qed.
Lemma method_each (g : Signature -> string -> TypeName -> Signature) (l : list (string * TypeName)) : forall w pre0 c n s p,
  ielems w = pre0 ++ [InterfaceMethod c n s p] ->
  for_each (fun '(nm, t) => Method_onSignature (List.length pre0) (fun s => g s nm t)) l w =
    (Ok tt, set_ielems (pre0 ++ [InterfaceMethod c n (fold_left (fun s '(nm, t) => g s nm t) l s) p]) w).
Proof.
  induction l as [|[nm t] l IH]; intros w pre0 c n s p E; cbn [for_each fold_left].
  - rewrite <- E, set_ielems_same. reflexivity.
  - unfold sbind. unfold Method_onSignature at 1. unfold sbind, get. rewrite E, nth_last. unfold put. rewrite E, upd_last.
    erewrite IH by reflexivity. reflexivity.
Qed.
Lemma build_elem_ok e w : exists el p, build_elem e w = (Ok (List.length (ielems w)), set_ielems (ielems w ++ [el]) w) /\
  el = match e with IEmbed c s => InterfaceEmbed c s p | IMethod c n a r v => InterfaceMethod c n (sig_of a r v) p end.
Proof.
  destruct e as [c s|c n a r v]; cbn [build_elem].
  - do 2 eexists. split; [|reflexivity]. unfold NewInterfaceEmbed, Elem_SetComment, sbind, alloc, get, put, sret.
    cbn [ielems set_ielems]. rewrite nth_last. cbn [ielems set_ielems]. rewrite upd_last. reflexivity.
  - do 2 eexists. split; [|reflexivity]. unfold NewInterfaceMethod. unfold sbind at 1. unfold alloc.
    unfold sbind at 1. unfold Elem_SetComment. unfold sbind at 1. unfold get at 1. cbn [ielems set_ielems]. rewrite nth_last.
    unfold put at 1. cbn [ielems set_ielems]. rewrite upd_last. unfold Method_AddArg, Method_AddResult.
    unfold sbind at 1. erewrite (method_each Signature_AddArg a) by reflexivity.
    unfold sbind at 1. erewrite (method_each Signature_AddResult r) by reflexivity.
    unfold Method_SetVariadic, Method_onSignature, sbind, get, put, sret. cbn [ielems set_ielems]. rewrite nth_last.
    cbn [ielems set_ielems]. rewrite upd_last. rewrite sig_fold_args, sig_fold_results. reflexivity.
Qed.
Lemma set_ielems_lower w l : lower w (set_ielems (ielems w ++ l) w).
Proof. repeat split; try apply pre_refl. apply pre_app. Qed.
Lemma build_elems_ok es : forall w, exists ids w', map_m build_elem es w = (Ok ids, w') /\ lower w w' /\ all2 (elem_is w') ids es /\
  Forall (fun id => List.length (ielems w) <= id) ids /\ types w' = types w /\ fields w' = fields w.
Proof.
  induction es as [|e es IH]; intros w; cbn [map_m].
  - exists [], w. repeat split; try apply pre_refl. constructor.
  - destruct (build_elem_ok e w) as (el & p & E1 & Y). unfold sbind at 1. rewrite E1.
    set (w1 := set_ielems (ielems w ++ [el]) w).
    destruct (IH w1) as (ids & w2 & E2 & L2 & A2 & F2 & T2 & D2). unfold sbind. rewrite E2. unfold sret.
    exists (List.length (ielems w) :: ids), w2. split; [reflexivity|]. split; [eapply lower_trans; [apply set_ielems_lower|exact L2]|].
    split; [|split].
    + split; auto. exists p. rewrite <- Y. destruct L2 as (_ & _ & _ & P). apply P. unfold w1. cbn. apply nth_last.
    + constructor; auto. eapply Forall_impl; [|exact F2]. cbn. intros i. rewrite app_length. lia.
    + split; assumption.
Qed.

(** ** Type specs of structs and interfaces *)
Lemma upd_pre {A} i (v : A) l0 l : List.length l0 <= i -> pre l0 l -> pre l0 (upd i v l).
Proof.
  intros L P j x N. rewrite nth_upd_other; auto. apply nth_error_lt in N. lia.
Qed.
Lemma typed_type w x t T0 : typed w x t -> type_of t = T0 ->
  match x with
  | NoType => False
  | IsName t' => t' = T0
  | IsSpec ts => exists T, nth_error (types w) ts = Some T /\ TSName T = "" /\ TSUnderlying T = T0
  end.
Proof.
  destruct t; cbn [typed]; intros H E.
  - subst x. exact E.
  - destruct H as (i & T' & -> & N & NM & CT). exists T'. destruct CT as [U _]. repeat split; auto; congruence.
  - destruct H as (i & T' & -> & N & NM & CT). exists T'. destruct CT as [U _]. repeat split; auto; congruence.
  - destruct H as (i & T' & -> & N & NM & CT). exists T'. destruct CT as [U _]. repeat split; auto; congruence.
Qed.
Definition field_loop (ret : nat) : nat -> WM FieldType := fun id =>
      do _ <- Field_setParent ret id ;;
      do f <- get fields id ;;
      match FSType f with
      | NoType => sret (mkField (FSName f) TNil (FSTag f))
      | IsName t => sret (mkField (FSName f) t (FSTag f))
      | IsSpec ts =>
          do T <- get types ts ;;
          fun w => match TypeSpec_ToTypeName T w with
                   | Panic m => (Panic m, w)
                   | Ok t => (Ok (mkField (FSName f) t (FSTag f)), w)
                   end
      end.
Lemma set_fields_keeps w l : (forall i F, nth_error (fields w) i = Some F -> exists p,
     nth_error l i = Some (mkFieldSpec (FSComment F) (FSName F) (FSTag F) (FSType F) p)) -> keeps w (set_fields l w).
Proof.
  intros H. split; [|split]; cbn [types fields ielems set_fields].
  - intros i T N. exists T. split; [auto|apply same_type_refl].
  - exact H.
  - intros i e N. rewrite N. destruct e as [c s p|c n s p]; exists p; reflexivity.
Qed.
Lemma field_loop_ok ret n0 fs : forall ids w, all2 (field_is w) ids fs -> Forall (fun id => n0 <= id) ids ->
  exists l, map_m (field_loop ret) ids w =
    (Ok (map (fun '(_, n, tag, t) => mkField n (type_of t) tag) fs), set_fields l w) /\
    keeps w (set_fields l w) /\ (forall i, i < n0 -> nth_error l i = nth_error (fields w) i).
Proof.
  induction fs as [|[[[c n] tag] t] fs IH]; intros [|id ids] w A FA; cbn [all2] in A; try (discriminate A); try contradiction.
  - exists (fields w). cbn [map_m map]. split; [destruct w; reflexivity|]. split; [|auto].
    apply set_fields_keeps. intros i F N. exists (FSParent F). rewrite N. destruct F; reflexivity.
  - destruct A as [(F & N & FC & FN & FT & FY) A]. inversion FA as [|? ? L FA']; subst.
    cbn [map_m]. unfold sbind at 1. unfold field_loop at 1. unfold sbind at 1. unfold Field_setParent at 1. unfold sbind at 1.
    unfold get at 1. rewrite N. unfold put at 1.
    set (F' := mkFieldSpec (FSComment F) (FSName F) (FSTag F) (FSType F) (Some ret)).
    set (w1 := set_fields (upd id F' (fields w)) w).
    assert (K1 : keeps w w1).
    { apply set_fields_keeps. intros i G NG. destruct (Nat.eq_dec i id) as [->|D].
      - exists (Some ret). rewrite nth_upd_same by (eapply nth_error_lt; eauto). rewrite N in NG. injection NG as <-. reflexivity.
      - exists (FSParent G). rewrite nth_upd_other by auto. rewrite NG. destruct G; reflexivity. }
    assert (N1 : nth_error (fields w1) id = Some F') by (cbn; apply nth_upd_same; eapply nth_error_lt; eauto).
    unfold sbind at 1. unfold get at 1. rewrite N1.
    assert (A1 : all2 (field_is w1) ids fs).
    { eapply all2_impl; [|exact A]. intros a b _ _. apply field_keeps; auto. }
    destruct (IH ids w1 A1 FA') as (l & E & K & O).
    assert (Y := typed_type w1 (FSType F) t _ (typed_keeps _ _ _ _ K1 FY) eq_refl).
    exists l. split; [|split].
    + change (FSType F') with (FSType F). destruct (FSType F) as [|t'|ts]; [contradiction| |].
      * unfold sret at 1. unfold sbind. rewrite E. subst t'. reflexivity.
      * destruct Y as (T & NT & NM & U). unfold sbind at 1. unfold get at 1. rewrite NT. unfold TypeSpec_ToTypeName. rewrite NM. cbn [String.eqb].
        unfold sbind. rewrite E. rewrite U. reflexivity.
    + assert (KK := keeps_trans _ _ _ K1 K). exact KK.
    + intros i LI. rewrite O by auto. cbn. apply nth_upd_other. lia.
Qed.
Lemma struct_spec_ok name ids fs w0 w : lower w0 w -> all2 (field_is w) ids fs -> Forall (fun id => List.length (fields w0) <= id) ids ->
  exists w' T, NewStructTypeSpec name ids w = (Ok (List.length (types w)), w') /\ lower w0 w' /\ keeps w w' /\
    types w' = types w ++ [T] /\ TSName T = name /\ TSIsAlias T = false /\ TSParent T = None /\ TSComment T = "" /\ contents w' T (DStruct fs).
Proof.
  intros (U0 & P1 & P2 & P3) A FA. unfold NewStructTypeSpec. fold (field_loop (List.length (types w))).
  unfold sbind at 1. unfold alloc at 1.
  set (T0 := mkTypeSpec "" name false TNil ids [] None). set (w1 := set_types (types w ++ [T0]) w).
  assert (L1 : lower w w1) by (repeat split; try apply pre_refl; apply pre_app).
  assert (A1 : all2 (field_is w1) ids fs).
  { eapply all2_impl; [|exact A]. intros a b _ _. apply field_keeps. apply lower_keeps; auto. }
  destruct (field_loop_ok (List.length (types w)) _ fs ids w1 A1 FA) as (l & E & K & O).
  unfold sbind. change (map_m _ ids w1) with (map_m (field_loop (List.length (types w))) ids w1). rewrite E. unfold put, sret.
  cbn [types set_types set_fields w1]. rewrite upd_last.
  set (T := mkTypeSpec "" name false (StructType _) ids [] None).
  eexists. exists T. split; [reflexivity|].
  assert (KW : keeps w (set_types (types w ++ [T]) (set_fields l w1))).
  { destruct K as (_ & K2 & _). split; [|split]; cbn [types fields ielems set_types set_fields w1].
    - intros i X N. exists X. split; [apply pre_app; auto|apply same_type_refl].
    - intros i F N. destruct (K2 i F N) as [p N']. exists p. exact N'.
    - intros i e N. rewrite N. destruct e as [c s p|c n s p]; exists p; reflexivity. }
  split; [|split; [exact KW|split; [reflexivity|]]].
  - split; [exact U0|]. cbn [types fields ielems set_types set_fields w1]. split; [eapply pre_trans; [exact P1|apply pre_app]|]. split; [|exact P3].
    intros i x N. rewrite O by (eapply nth_error_lt; eauto). auto.
  - do 4 (split; [reflexivity|]). apply contents_struct. split; [reflexivity|]. split; [reflexivity|].
    eapply all2_impl; [|exact A]. intros a b _ _. apply field_keeps. exact KW.
Qed.
Definition elem_loop (ret : nat) : nat -> WM InterfaceElement := fun id => do _ <- Elem_setParent ret id ;; get ielems id.
Lemma set_ielems_keeps w l : (forall i e, nth_error (ielems w) i = Some e -> exists p, nth_error l i = Some
     match e with InterfaceEmbed c s _ => InterfaceEmbed c s p | InterfaceMethod c n s _ => InterfaceMethod c n s p end) ->
  keeps w (set_ielems l w).
Proof.
  intros H. split; [|split]; cbn [types fields ielems set_ielems].
  - intros i T N. exists T. split; [auto|apply same_type_refl].
  - intros i F N. exists (FSParent F). rewrite N. destruct F; reflexivity.
  - exact H.
Qed.
Lemma elem_loop_ok ret n0 es : forall ids w, all2 (elem_is w) ids es -> Forall (fun id => n0 <= id) ids ->
  exists l els, map_m (elem_loop ret) ids w = (Ok els, set_ielems l w) /\
    flat_map (fun e => match e with InterfaceEmbed _ s _ => [s] | _ => [] end) els = embeds_of es /\
    flat_map (fun e => match e with InterfaceMethod _ n s _ => [mkMethod n s] | _ => [] end) els = methods_of es /\
    keeps w (set_ielems l w) /\ (forall i, i < n0 -> nth_error l i = nth_error (ielems w) i).
Proof.
  induction es as [|e es IH]; intros [|id ids] w A FA; cbn [all2] in A; try (discriminate A); try contradiction.
  - exists (ielems w), []. cbn [map_m]. split; [destruct w; reflexivity|]. do 2 (split; [reflexivity|]). split; [|auto].
    apply set_ielems_keeps. intros i [c s p|c n s p] N; exists p; exact N.
  - destruct A as [[p N] A]. inversion FA as [|? ? L FA']; subst.
    cbn [map_m]. unfold sbind at 1. unfold elem_loop at 1. unfold sbind at 1. unfold Elem_setParent at 1. unfold sbind at 1.
    unfold get at 1. rewrite N. unfold put at 1.
    match goal with |- context [upd id ?v (ielems w)] => set (e' := v) end.
    set (w1 := set_ielems (upd id e' (ielems w)) w).
    assert (K1 : keeps w w1).
    { apply set_ielems_keeps. intros i G NG. destruct (Nat.eq_dec i id) as [->|D].
      - exists (Some ret). rewrite nth_upd_same by (eapply nth_error_lt; eauto). rewrite N in NG. injection NG as <-.
        unfold e'. destruct e; reflexivity.
      - rewrite nth_upd_other by auto. rewrite NG. destruct G as [c s q|c n s q]; exists q; reflexivity. }
    assert (N1 : nth_error (ielems w1) id = Some e') by (cbn; apply nth_upd_same; eapply nth_error_lt; eauto).
    unfold get at 1. rewrite N1.
    assert (A1 : all2 (elem_is w1) ids es).
    { eapply all2_impl; [|exact A]. intros a b _ _. apply elem_keeps; auto. }
    destruct (IH ids w1 A1 FA') as (l & els & E & X1 & X2 & K & O).
    exists l, (e' :: els). unfold sbind. rewrite E. split; [reflexivity|].
    cbn [flat_map]. rewrite X1, X2. unfold embeds_of, methods_of. cbn [flat_map].
    split; [destruct e; reflexivity|]. split; [destruct e; reflexivity|]. split.
    + assert (KK := keeps_trans _ _ _ K1 K). exact KK.
    + intros i LI. rewrite O by auto. cbn. apply nth_upd_other. lia.
Qed.
Lemma interface_spec_ok name ids es w0 w : lower w0 w -> all2 (elem_is w) ids es -> Forall (fun id => List.length (ielems w0) <= id) ids ->
  exists w' T, NewInterfaceTypeSpec name ids w = (Ok (List.length (types w)), w') /\ lower w0 w' /\ keeps w w' /\
    types w' = types w ++ [T] /\ TSName T = name /\ TSIsAlias T = false /\ TSParent T = None /\ TSComment T = "" /\ contents w' T (DInterface es).
Proof.
  intros (U0 & P1 & P2 & P3) A FA. unfold NewInterfaceTypeSpec. fold (elem_loop (List.length (types w))).
  unfold sbind at 1. unfold alloc at 1.
  set (T0 := mkTypeSpec "" name false TNil [] ids None). set (w1 := set_types (types w ++ [T0]) w).
  assert (L1 : lower w w1) by (repeat split; try apply pre_refl; apply pre_app).
  assert (A1 : all2 (elem_is w1) ids es).
  { eapply all2_impl; [|exact A]. intros a b _ _. apply elem_keeps. apply lower_keeps; auto. }
  destruct (elem_loop_ok (List.length (types w)) _ es ids w1 A1 FA) as (l & els & E & X1 & X2 & K & O).
  unfold sbind. change (map_m _ ids w1) with (map_m (elem_loop (List.length (types w))) ids w1). rewrite E. unfold put, sret.
  cbn [types set_types set_ielems w1]. rewrite upd_last, X1, X2.
  set (T := mkTypeSpec "" name false (InterfaceType _ _) [] ids None).
  eexists. exists T. split; [reflexivity|].
  assert (KW : keeps w (set_types (types w ++ [T]) (set_ielems l w1))).
  { destruct K as (_ & _ & K3). split; [|split]; cbn [types fields ielems set_types set_ielems w1].
    - intros i X N. exists X. split; [apply pre_app; auto|apply same_type_refl].
    - intros i F N. exists (FSParent F). rewrite N. destruct F; reflexivity.
    - intros i e N. exact (K3 i e N). }
  split; [|split; [exact KW|split; [reflexivity|]]].
  - split; [exact U0|]. cbn [types fields ielems set_types set_ielems w1]. split; [eapply pre_trans; [exact P1|apply pre_app]|]. split; [exact P2|].
    intros i x N. rewrite O by (eapply nth_error_lt; eauto). auto.
  - do 4 (split; [reflexivity|]). split; [reflexivity|]. split; [reflexivity|].
    eapply all2_impl; [|exact A]. intros a b _ _. apply elem_keeps. exact KW.
Qed.

Lemma set_types_lower w l : lower w (set_types (types w ++ l) w).
Proof. repeat split; try apply pre_refl. apply pre_app. Qed.
Lemma all2_seq {A B} (P : nat -> B -> Prop) (g : B -> A) (l : list B) : forall (pr po : list A),
  (forall i b, In b l -> nth_error (pr ++ map g l ++ po) i = Some (g b) -> P i b) -> all2 P (seq (List.length pr) (List.length l)) l.
Proof.
  induction l as [|b l IH]; intros pr po H; [reflexivity|]. cbn [List.length seq all2]. split.
  - apply H; [left; reflexivity|]. rewrite nth_error_app2 by lia. rewrite Nat.sub_diag. reflexivity.
  - specialize (IH (pr ++ [g b]) po). rewrite app_length in IH. cbn [List.length] in IH. rewrite Nat.add_1_r in IH. apply IH.
    intros i b' I N. apply H; [right; exact I|]. rewrite <- app_assoc in N. exact N.
Qed.
Lemma type_spec_ok name t x w : typed w x t -> exists w' T, NewTypeSpec name x w = (Ok (List.length (types w)), w') /\
  lower w w' /\ types w' = types w ++ [T] /\
  TSName T = name /\ TSIsAlias T = false /\ TSParent T = None /\ TSComment T = "" /\ contents w' T t.
Proof.
  intros Y.
  assert (SP : forall i T', x = IsSpec i -> nth_error (types w) i = Some T' -> TSName T' = "" -> contents w T' t ->
     exists w' T, NewTypeSpec name x w = (Ok (List.length (types w)), w') /\ lower w w' /\ types w' = types w ++ [T] /\
       TSName T = name /\ TSIsAlias T = false /\ TSParent T = None /\ TSComment T = "" /\ contents w' T t).
  { intros i T' -> N NM C. unfold NewTypeSpec, sbind, get. rewrite N. unfold TypeSpec_ToTypeName. rewrite NM. cbn [String.eqb].
    unfold alloc. eexists. eexists. split; [reflexivity|]. split; [apply set_types_lower|]. split; [reflexivity|].
    do 4 (split; [reflexivity|]). eapply contents_keeps; [apply lower_keeps, set_types_lower| |exact C]. repeat split. }
  destruct t as [n|fs|es|t]; [|destruct Y as (i & T' & X & N & NM & C); eapply SP; eauto..].
  cbn [typed] in Y. subst x. unfold NewTypeSpec. unfold sbind at 1. unfold alloc at 1. clear SP.
  set (w1 := set_types (types w ++ [mkTypeSpec "" name false n [] [] None]) w).
  destruct n as [|k|s|e|e|e n|e k|e d|sg|fs|ms es];
    try (eexists; eexists; split; [reflexivity|]; split; [apply set_types_lower|]; split; [reflexivity|];
         do 4 (split; [reflexivity|]); split; [reflexivity|]; split; reflexivity).
  - set (gf := fun f : FieldType => mkFieldSpec "" (FldName f) (FldTag f)
                 (match FldType f with TNil => NoType | ft => IsName ft end) (Some (List.length (types w)))).
    unfold sbind at 1. rewrite (map_m_alloc fields set_fields gf fs) by (intros; try reflexivity; destruct w0; reflexivity).
    unfold sbind, put, sret. cbn [types set_types set_fields w1]. rewrite upd_last.
    eexists. eexists. split; [reflexivity|]. cbn [types set_types set_fields w1 fields]. split.
    { split; [reflexivity|]. split; [apply pre_app|]. split; [apply pre_app|apply pre_refl]. }
    split; [reflexivity|]. do 4 (split; [reflexivity|]). split; [reflexivity|]. split; [reflexivity|].
    cbn [TSStruct]. apply (all2_seq _ gf fs (fields w) []). intros i f _ N. rewrite app_nil_r in N. exists (gf f). split; [exact N|]. repeat split.
  - set (ge := fun e : Symbol => InterfaceEmbed "" e (Some (List.length (types w)))).
    set (gm := fun m : MethodType => InterfaceMethod "" (MtdName m) (MtdSig m) (Some (List.length (types w)))).
    unfold sbind at 1. rewrite (map_m_alloc ielems set_ielems ge es) by (intros; try reflexivity; destruct w0; reflexivity).
    unfold sbind at 1. rewrite (map_m_alloc ielems set_ielems gm ms) by (intros; try reflexivity; destruct w0; reflexivity).
    unfold sbind, put, sret. cbn [types set_types set_ielems w1]. rewrite upd_last.
    eexists. eexists. split; [reflexivity|]. cbn [types set_types set_ielems w1 ielems]. split.
    { split; [reflexivity|]. split; [apply pre_app|]. split; [apply pre_refl|]. cbn [ielems set_ielems set_types].
      rewrite <- app_assoc. apply pre_app. }
    split; [reflexivity|]. do 4 (split; [reflexivity|]). split; [reflexivity|]. split; [reflexivity|].
    cbn [TSInterface]. apply all2_app.
    + apply (all2_map_r (fun id e => elem_is _ id e) (IEmbed "")). apply (all2_seq _ ge es (ielems w) (map gm ms)).
      intros i e _ N. exists (Some (List.length (types w))). cbn [ielems set_ielems set_types]. rewrite <- app_assoc. exact N.
    + match goal with |- all2 _ _ (map ?g _) => apply (all2_map_r (fun id e => elem_is _ id e) g) end.
      cbn [ielems set_ielems set_types]. apply (all2_seq _ gm ms (ielems w ++ map ge es) []).
      intros i [n [a r v]] _ N. rewrite app_nil_r in N. exists (Some (List.length (types w))). cbn [ielems set_ielems set_types].
      rewrite N. unfold gm. cbn [MtdName MtdSig Args Results IsVariadic]. unfold sig_of. rewrite !map_map. do 3 f_equal; symmetry;
      erewrite map_ext; [apply map_id| |apply map_id|]; intros []; reflexivity.
Qed.

(** ** Whole types *)
Lemma build_field_ok c n tag t x w : typed w x t -> exists F,
  build_field c n tag x w = (Ok (List.length (fields w)), set_fields (fields w ++ [F]) w) /\
  lower w (set_fields (fields w ++ [F]) w) /\ field_is (set_fields (fields w ++ [F]) w) (List.length (fields w)) (c, n, tag, t).
Proof.
  intros Y. exists (mkFieldSpec c n tag x None).
  assert (L : lower w (set_fields (fields w ++ [mkFieldSpec c n tag x None]) w)) by (repeat split; try apply pre_refl; apply pre_app).
  split; [|split; [exact L|]].
  - unfold build_field, NewField, Field_SetComment, Field_SetTag, sbind, alloc, get, put, sret.
    cbn [fields set_fields]. rewrite nth_last. cbn [fields set_fields]. rewrite upd_last, nth_last. cbn [fields set_fields]. rewrite upd_last. reflexivity.
  - eexists. split; [apply nth_last|]. do 3 (split; [reflexivity|]). eapply typed_keeps; [apply lower_keeps; exact L|exact Y].
Qed.
Definition type_built (t : tdesc) : Prop := forall w, exists x w', build_type t w = (Ok x, w') /\ lower w w' /\ typed w' x t.
Lemma build_fields_ok fs : Forall (fun f => type_built (snd f)) fs -> forall w,
  exists ids w', build_fields fs w = (Ok ids, w') /\ lower w w' /\ all2 (field_is w') ids fs /\
    Forall (fun id => List.length (fields w) <= id) ids.
Proof.
  induction fs as [|[[[c n] tag] t] fs IH]; intros F w; cbn [build_fields].
  - exists [], w. split; [reflexivity|]. split; [apply lower_refl|]. split; [reflexivity|constructor].
  - inversion F as [|? ? Ft Ff]; subst. destruct (Ft w) as (x & w1 & E1 & L1 & Y1). cbn [snd] in *. unfold sbind at 1. rewrite E1.
    destruct (build_field_ok c n tag t x w1 Y1) as (FS & E2 & L2 & Y2). unfold sbind at 1. rewrite E2.
    destruct (IH Ff (set_fields (fields w1 ++ [FS]) w1)) as (ids & w3 & E3 & L3 & A3 & F3). unfold sbind. rewrite E3.
    assert (LE : List.length (fields w) <= List.length (fields w1)) by (apply pre_length; apply L1).
    exists (List.length (fields w1) :: ids), w3. split; [reflexivity|]. split; [eapply lower_trans; [exact L1|eapply lower_trans; eauto]|].
    split; [split; [|exact A3]|].
    + eapply field_keeps; [apply lower_keeps; exact L3|exact Y2].
    + constructor; [exact LE|]. eapply Forall_impl; [|exact F3]. cbn. intros i. rewrite app_length. lia.
Qed.
Lemma build_type_struct fs w : build_type (DStruct fs) w =
  sbind (build_fields fs) (fun ids => sbind (NewStructTypeSpec "" ids) (fun id => sret (IsSpec id))) w.
Proof.
  cbn [build_type]. unfold sbind at 1.
  match goal with |- (let (_, _) := ?f fs w in _) = _ => assert (E : forall l w, f l w = build_fields l w) end.
  { clear. induction l as [|[[[c n] tag] t] l IH]; intros w; [reflexivity|]. cbn [build_fields].
    unfold sbind. destruct (build_type t w) as [[x|m] w1]; [|reflexivity].
    destruct (build_field c n tag x w1) as [[id|m] w2]; [|reflexivity]. rewrite IH. reflexivity. }
  rewrite E. reflexivity.
Qed.
Lemma build_type_ok t : type_built t.
Proof.
  induction t as [n|fs F|es|t IH] using tdesc_induction; intros w.
  - exists (IsName n), w. split; [reflexivity|]. split; [apply lower_refl|reflexivity].
  - destruct (build_fields_ok fs F w) as (ids & w1 & E1 & L1 & A1 & F1).
    destruct (struct_spec_ok "" ids fs w w1 L1 A1 F1) as (w2 & T & E2 & L2 & K2 & TT & NM & _ & _ & _ & C).
    exists (IsSpec (List.length (types w1))), w2. split; [|split; [exact L2|]].
    + rewrite build_type_struct. unfold sbind. rewrite E1, E2. reflexivity.
    + exists (List.length (types w1)), T. split; [reflexivity|]. rewrite TT. split; [apply nth_last|]. auto.
  - destruct (build_elems_ok es w) as (ids & w1 & E1 & L1 & A1 & F1 & _ & _).
    destruct (interface_spec_ok "" ids es w w1 L1 A1 F1) as (w2 & T & E2 & L2 & K2 & TT & NM & _ & _ & _ & C).
    exists (IsSpec (List.length (types w1))), w2. split; [|split; [exact L2|]].
    + cbn [build_type]. unfold sbind. rewrite E1, E2. reflexivity.
    + exists (List.length (types w1)), T. split; [reflexivity|]. rewrite TT. split; [apply nth_last|]. auto.
  - destruct (IH w) as (x & w1 & E1 & L1 & Y1). destruct (type_spec_ok "" t x w1 Y1) as (w2 & T & E2 & L2 & TT & NM & _ & _ & _ & C).
    exists (IsSpec (List.length (types w1))), w2. split; [|split; [eapply lower_trans; eauto|]].
    + cbn [build_type]. unfold sbind. rewrite E1, E2. reflexivity.
    + exists (List.length (types w1)), T. split; [reflexivity|]. rewrite TT. split; [apply nth_last|]. split; [exact NM|].
      split; [apply (contents_underlying _ _ _ C)|exact C].
Qed.
Lemma build_typespec_ok d w : exists id w' T, build_typespec d w = (Ok id, w') /\ lower w w' /\
  List.length (types w) <= id /\ nth_error (types w') id = Some T /\ TSParent T = None /\ type_is w' T d.
Proof.
  assert (X : exists w1 w2 T, lower w w1 /\ lower w w2 /\ types w2 = types w1 ++ [T] /\ TSName T = tsName d /\
    TSIsAlias T = body_alias (tsBody d) /\ TSParent T = None /\ contents w2 T (body_type (tsBody d)) /\
    match tsBody d with
           | BodyStruct fs => do ids <- build_fields fs ;; NewStructTypeSpec (tsName d) ids
           | BodyInterface es => do ids <- map_m build_elem es ;; NewInterfaceTypeSpec (tsName d) ids
           | BodyType b => do x <- build_type b ;; NewTypeSpec (tsName d) x
           | BodyAlias b => do x <- build_type b ;; NewTypeAlias (tsName d) x
           end w = (Ok (List.length (types w1)), w2)).
  { destruct (tsBody d) as [fs|es|t|t]; cbn [body_type body_alias].
    - assert (F : Forall (fun f => type_built (snd f)) fs) by (apply Forall_forall; intros; apply build_type_ok).
      destruct (build_fields_ok fs F w) as (ids & w1 & E1 & L1 & A1 & F1).
      destruct (struct_spec_ok (tsName d) ids fs w w1 L1 A1 F1) as (w2 & T & E2 & L2 & K2 & TT & NM & AL & PA & CM & C).
      exists w1, w2, T. unfold sbind. rewrite E1, E2. auto 10.
    - destruct (build_elems_ok es w) as (ids & w1 & E1 & L1 & A1 & F1 & _ & _).
      destruct (interface_spec_ok (tsName d) ids es w w1 L1 A1 F1) as (w2 & T & E2 & L2 & K2 & TT & NM & AL & PA & CM & C).
      exists w1, w2, T. unfold sbind. rewrite E1, E2. auto 10.
    - destruct (build_type_ok t w) as (x & w1 & E1 & L1 & Y1).
      destruct (type_spec_ok (tsName d) t x w1 Y1) as (w2 & T & E2 & L2 & TT & NM & AL & PA & CM & C).
      exists w1, w2, T. unfold sbind. rewrite E1, E2. split; [auto|]. split; [eapply lower_trans; eauto|auto 10].
    - destruct (build_type_ok t w) as (x & w1 & E1 & L1 & Y1).
      destruct (type_spec_ok (tsName d) t x w1 Y1) as (w2 & T & E2 & L2 & TT & NM & AL & PA & CM & C).
      set (T' := mkTypeSpec (TSComment T) (TSName T) true (TSUnderlying T) (TSStruct T) (TSInterface T) (TSParent T)).
      set (w3 := set_types (types w1 ++ [T']) w2).
      exists w1, w3, T'. split; [exact L1|].
      assert (L3 : lower w1 w3).
      { destruct L2 as (U & P1 & P2 & P3). split; [exact U|]. split; [apply pre_app|]. split; [exact P2|exact P3]. }
      split; [eapply lower_trans; eauto|].
      do 2 (split; [auto|]). split; [reflexivity|]. split; [auto|]. split.
      + refine (contents_keeps w2 _ _ _ T _ _ C); [|split; [|split]; reflexivity].
        split; [|split]; cbn [types fields ielems set_types w3].
        * intros i X N. rewrite TT in N. destruct (Nat.lt_ge_cases i (List.length (types w1))) as [LT|GE].
          -- rewrite nth_error_app1 in * by auto. exists X. split; [auto|apply same_type_refl].
          -- exists T'. rewrite nth_error_app2 in * by auto. destruct (i - List.length (types w1)) as [|j]; [|destruct j; discriminate].
             cbn in *. injection N as <-. split; [reflexivity|]. repeat split.
        * intros i X N. exists (FSParent X). rewrite N. destruct X; reflexivity.
        * intros i X N. rewrite N. destruct X as [c s p|c n s p]; exists p; reflexivity.
      + unfold sbind. rewrite E1. unfold NewTypeAlias, sbind. rewrite E2. unfold get. rewrite TT, nth_last. unfold put, sret.
        rewrite TT, upd_last. reflexivity. }
  destruct X as (w1 & w2 & T & L1 & L2 & TT & NM & AL & PA & C & E).
  unfold build_typespec. unfold sbind at 1. rewrite E. unfold Type_SetComment, sbind, get, put, sret. rewrite TT, nth_last.
  rewrite ?TT, upd_last. set (T' := mkTypeSpec (tsComment d) _ _ _ _ _ _).
  exists (List.length (types w1)), (set_types (types w1 ++ [T']) w2), T'.
  split; [reflexivity|]. split.
  { destruct L2 as (U & P1 & P2 & P3). split; [exact U|]. split; [|split; assumption].
    destruct L1 as (_ & P & _). eapply pre_trans; [exact P|apply pre_app]. }
  split; [apply pre_length; apply L1|]. split; [apply nth_last|]. split; [exact PA|]. split; [exact NM|]. split; [reflexivity|].
  split; [exact AL|]. refine (contents_keeps w2 _ _ _ T _ _ C); [|split; [|split]; reflexivity].
  split; [|split]; cbn [types fields ielems set_types].
  - intros i X N. rewrite TT in N. destruct (Nat.lt_ge_cases i (List.length (types w1))) as [LT|GE].
    + rewrite nth_error_app1 in * by auto. exists X. split; [auto|apply same_type_refl].
    + exists T'. rewrite nth_error_app2 in * by auto. destruct (i - List.length (types w1)) as [|j]; [|destruct j; discriminate].
      cbn in *. injection N as <-. split; [reflexivity|]. repeat split.
  - intros i X N. exists (FSParent X). rewrite N. destruct X; reflexivity.
  - intros i X N. rewrite N. destruct X as [c s p|c n s p]; exists p; reflexivity.
Qed.

(** ** What built types stand for *)
Lemma all_some_all2 {A B C} (R : A -> B -> Prop) (f : A -> option C) (g : B -> option C) m : forall l ys,
  all2 R l m -> (forall a b y, In b m -> R a b -> g b = Some y -> f a = Some y) ->
  all_some (map g m) = Some ys -> all_some (map f l) = Some ys.
Proof.
  induction m as [|b m IH]; intros [|a l] ys H K; cbn [all2 map all_some] in *; try discriminate; try contradiction; auto.
  destruct H as [H1 H2]. destruct (g b) as [y|] eqn:G; [|discriminate].
  rewrite (K a b y) by (auto; left; reflexivity). cbn [obind].
  destruct (all_some (map g m)) as [r|] eqn:GR; [|discriminate]. rewrite (IH l r) by (auto; intros; eapply K; eauto; right; auto). auto.
Qed.
Lemma all_some_app {A} (a b : list (option A)) x y : all_some a = Some x -> all_some b = Some y -> all_some (a ++ b) = Some (x ++ y).
Proof.
  revert x. induction a as [|[e|] a IH]; intros x; cbn [all_some app obind]; try discriminate.
  - intros [= <-] ->. reflexivity.
  - destruct (all_some a) as [z|]; cbn [obind]; [|discriminate]. intros [= <-] H. rewrite (IH z) by auto. reflexivity.
Qed.
Variable q : Symbol -> option string.
Lemma elem_meaning_ok w id e g : elem_is w id e -> idesc_meaning q e = Some g ->
  obind (nth_error (ielems w) id) (elem_meaning_with q) = Some g.
Proof. intros [p N]. rewrite N. destruct e as [c s|c n a r v]; cbn [idesc_meaning obind elem_meaning_with]; auto. Qed.
Lemma name_meaning w T n fuel : TSUnderlying T = n -> name_contents w T n -> wf n = true -> decl_ok n = true ->
  spec_meaning_with q w (S fuel) T = Some (denote_with q n).
Proof.
  intros U C WF OK. cbn [spec_meaning_with]. rewrite U.
  destruct n as [|k|s|e|e|e n|e k|e d|sg|fs|ms es]; try discriminate WF;
    try (match type of OK with decl_ok ?t = _ => change (text_ok t = true) in OK end; rewrite WF, OK; reflexivity).
  - destruct C as [_ C]. erewrite all_some_all2; [|exact C| |apply (all_some_map _ (fun f => (opt_name (FldName f), denote_with q (FldType f), FldTag f))); intros; reflexivity].
    + cbn [option_map denote_with]. do 2 f_equal. apply map_ext. intros [n ft tag]. reflexivity.
    + intros id f y I (F & N & FC & FN & FT & FY) E. injection E as <-. rewrite N. cbn [obind]. rewrite FY.
      cbn [wf] in WF. cbn [decl_ok] in OK. rewrite forallb_forall in WF, OK.
      specialize (WF f I). specialize (OK f I). apply andb_true_iff in OK as [OK TG]. apply andb_true_iff in OK as [NM DO].
      rewrite FN, FT. clear F N FC FN FT FY.
      destruct f as [n ft tag]. cbn [FldName FldType FldTag] in *.
      destruct ft; try discriminate WF; rewrite WF, DO; cbn [andb obind]; rewrite TG, andb_true_r;
      (destruct (String.eqb n ""); [|rewrite NM; reflexivity]);
      cbn [embeddable type_name] in NM; try discriminate NM; try reflexivity.
      match goal with E : TypeName |- _ => destruct E; try discriminate NM; reflexivity end.
  - destruct C as [_ C].
    cbn [decl_ok] in OK. apply andb_true_iff in OK as [OE OM]. rewrite forallb_forall in OE, OM.
    cbn [wf] in WF. rewrite forallb_forall in WF.
    erewrite all_some_all2; [|exact C|intros a b y _; apply elem_meaning_ok|].
    2:{ rewrite map_app, !map_map. apply all_some_app.
        - apply (all_some_map _ (fun e => inr (q e, SymName e))). intros e I. cbn [idesc_meaning]. rewrite (OE e I). reflexivity.
        - apply (all_some_map _ (fun m => inl (MtdName m, fst (denote_sig_with q (MtdSig m)), snd (denote_sig_with q (MtdSig m))))).
          intros m I. specialize (OM m I). apply andb_true_iff in OM as [O1 O2]. specialize (WF m I).
          destruct m as [n [a r v]]. cbn [MtdSig MtdName Args Results IsVariadic] in *. unfold idesc_meaning, sig_of. rewrite !map_map.
          assert (ID : forall l : list ArgType, map (fun x => mkArg (ArgName x) (ArgTy x)) l = l).
          { intros l. rewrite <- (map_id l) at 2. apply map_ext. intros []. reflexivity. }
          rewrite !ID. rewrite O1, O2. unfold wf_sig. cbn [Args Results IsVariadic].
          apply andb_true_iff in WF as [W1 W2]. apply andb_true_iff in W2 as [W2 W3]. rewrite W1, W2, W3. reflexivity. }
    cbn [option_map denote_with]. do 2 f_equal. f_equal. apply map_ext. intros [n [a r v]]. reflexivity.
Qed.
Lemma depth_in (f : string * string * string * tdesc) fs n : S (fold_right Nat.max 0 (map (fun '(_, _, _, t) => depth t) fs)) <= S n ->
  In f fs -> depth (snd f) <= n.
Proof.
  intros H. apply le_S_n in H. revert H. induction fs as [|[[[c m] tag] t] fs IH]; intros H []; cbn [map fold_right] in H.
  - subst f. cbn. lia.
  - apply IH; auto. lia.
Qed.
Lemma contents_meaning w t : forall T fuel g, contents w T t -> tdesc_meaning q t = Some g -> depth t <= fuel ->
  spec_meaning_with q w fuel T = Some g.
Proof.
  induction t as [n|fs F|es|t IH] using tdesc_induction; intros T fuel g C M L.
  - cbn [depth] in L. destruct fuel as [|fuel]; [lia|]. destruct C as [U C]. cbn [tdesc_meaning] in M.
    destruct (wf n && decl_ok n) eqn:B; [|discriminate]. injection M as <-. apply andb_true_iff in B as [B1 B2].
    apply name_meaning; auto.
  - destruct fuel as [|fuel]; [cbn in L; lia|]. apply contents_struct in C as (U & _ & C).
    cbn [spec_meaning_with]. rewrite U. cbn [type_of]. cbn [tdesc_meaning] in M.
    destruct (all_some _) as [gs|] eqn:G in M; [|discriminate].
    erewrite all_some_all2; [exact M|exact C| |exact G].
    intros id [[[c n] tag] t] y I (FS & N & FC & FN & FT & FY) E. rewrite N. cbn [obind]. cbv beta iota in E.
    destruct (tdesc_meaning q t) as [gt|] eqn:MT; [|discriminate]. cbn [obind] in E. rewrite FN, FT.
    rewrite Forall_forall in F. specialize (F _ I). assert (D := depth_in _ _ _ L I). cbn [snd] in F, D.
    assert (SP : (exists i T', FSType FS = IsSpec i /\ nth_error (types w) i = Some T' /\ TSName T' = "" /\ contents w T' t) ->
      match FSType FS with
      | NoType => None
      | IsName t => if wf t && decl_ok t then Some (denote_with q t, multi_line t) else None
      | IsSpec ts =>
          obind (nth_error (types w) ts) (fun T' =>
          if String.eqb (TSName T') ""
          then option_map (fun g => (g, true)) (spec_meaning_with q w fuel T')
          else option_map (fun g => (g, false)) (named_spec_with q w T'))
      end = Some (gt, true)).
    { intros (i & T' & -> & NT & NM & CT). rewrite NT. cbn [obind]. rewrite NM. cbn [String.eqb].
      rewrite (F T' fuel gt); auto. }
    destruct t as [nm|fs'|es|t]; [|rewrite (SP FY); exact E..].
    cbn [typed] in FY. rewrite FY. cbn [tdesc_meaning] in MT. destruct (wf nm && decl_ok nm); [|discriminate].
    injection MT as <-. exact E.
  - cbn [depth] in L. destruct fuel as [|fuel]; [lia|]. destruct C as (U & _ & C). cbn [spec_meaning_with]. rewrite U. cbn [type_of].
    cbn [tdesc_meaning] in M. destruct (all_some _) as [gs|] eqn:G in M; [|discriminate].
    erewrite all_some_all2; [exact M|exact C| |exact G]. intros id e y _. apply elem_meaning_ok.
  - destruct C as [_ C]. apply IH; auto.
Qed.
Lemma type_is_meaning w T d fuel r : type_is w T d -> tsdesc_meaning q d = Some r -> tbody_depth (tsBody d) <= fuel ->
  typespec_meaning_with q w fuel T = Some r.
Proof.
  intros (NM & _ & AL & C) M D. unfold typespec_meaning_with. unfold tsdesc_meaning in M. rewrite NM, AL.
  destruct (ident (tsName d)); [|discriminate].
  assert (X : exists g, tbody_meaning q (tsBody d) = Some (body_alias (tsBody d), g) /\ tdesc_meaning q (body_type (tsBody d)) = Some g).
  { destruct (tbody_meaning q (tsBody d)) as [[a g]|] eqn:B; [|discriminate]. exists g.
    unfold tbody_meaning in B. destruct (tsBody d); cbn [body_alias body_type];
    (destruct (tdesc_meaning q _) in *; [|discriminate]); cbn [option_map] in B; injection B as <- <-; auto. }
  destruct X as (g & B & MT). rewrite B in M. cbn [option_map] in M. injection M as <-.
  rewrite (contents_meaning w _ T fuel g C MT); [reflexivity|]. destruct (tsBody d); exact D.
Qed.
End Build.
