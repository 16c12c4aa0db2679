(** Building values, functions, declarations and files: what they contain. *)
From Verif Require Import Base BaseFacts GoPath Types SpecTypes Imports SpecImports SpecGo SpecRender World SpecWorld
  SpecFile SpecDecl WorldProofs DeclText DeclTheorems SpecBuild BuildProofs BuildTypes.

Lemma Forall2_weaken {A B} (P Q : A -> B -> Prop) l m : (forall a b, P a b -> Q a b) -> Forall2 P l m -> Forall2 Q l m.
Proof. intros H. induction 1; constructor; auto. Qed.

Section Build.
Context {TD : Type}.
Notation World := (World TD).
Notation WM := (WM (TD := TD)).
Notation parts := (list (list (part TD))).
Implicit Types w : World.

Lemma grown_refl w : grown w w.
Proof. repeat split; apply pre_refl. Qed.
Lemma grown_trans (a b c : World) : grown a b -> grown b c -> grown a c.
Proof.
  intros ((A1 & A2 & A3) & (A4 & A5 & A6) & (A7 & A8 & A9)) ((B1 & B2 & B3) & (B4 & B5 & B6) & (B7 & B8 & B9)).
  repeat split; eapply pre_trans; eauto.
Qed.
Lemma lower_grown w w' : lower w w' -> grown w w'.
Proof. intros (U & P1 & P2 & P3). unfold upper in U. injection U as E1 E2 E3 E4 E5 E6 E7 E8 E9 E10.
  repeat split; auto; first [rewrite E1|rewrite E2|rewrite E3|rewrite E4|rewrite E5|rewrite E6|rewrite E7]; apply pre_refl. Qed.
Lemma tabs_grown w w' : tabs w' = tabs w -> grown w w'.
Proof.
  intros U. unfold tabs in U. injection U as E1 E2 E3 E4 E5 E6 E7 E8 E9 E10.
  unfold grown. rewrite E2, E3, E4, E5, E6, E7, E8, E9, E10. repeat split; apply pre_refl.
Qed.
Lemma grown_keeps w w' : grown w w' -> keeps w w'.
Proof.
  intros (_ & _ & P1 & P2 & P3). split; [|split].
  - intros i T N. exists T. split; [auto|apply same_type_refl].
  - intros i F N. exists (FSParent F). rewrite (P2 _ _ N). destruct F; reflexivity.
  - intros i e N. rewrite (P3 _ _ N). destruct e as [c s p|c n s p]; exists p; reflexivity.
Qed.
Lemma represents_same w w' (m : parts) : blocks w' = blocks w -> argss w' = argss w -> templs w' = templs w ->
  represents w m -> represents w' m.
Proof.
  intros B A T. unfold represents. rewrite B. apply Forall2_weaken. intros b ps. apply Forall2_weaken.
  intros e p. apply element_part_grow; rewrite ?A, ?T; auto.
Qed.
Lemma lower_represents w w' (m : parts) : lower w w' -> represents w m -> represents w' m.
Proof. intros (U & _). unfold upper in U. apply represents_same; congruence. Qed.

Lemma same_keeps w w' : types w' = types w -> fields w' = fields w -> ielems w' = ielems w -> keeps w w'.
Proof.
  intros E1 E2 E3. split; [|split]; rewrite ?E1, ?E2, ?E3.
  - intros i T N. exists T. split; [auto|apply same_type_refl].
  - intros i F N. exists (FSParent F). rewrite N. destruct F; reflexivity.
  - intros i e N. rewrite N. destruct e as [c s p|c n s p]; exists p; reflexivity.
Qed.

(** ** Consts and vars *)
Lemma value_keeps w w' V V' v : keeps w w' -> VComment V' = VComment V -> VNames V' = VNames V -> VInit V' = VInit V ->
  VSType V' = VSType V -> value_is w V v -> value_is w' V' v.
Proof.
  intros K A B C D (H1 & H2 & H3 & H4). unfold value_is. rewrite A, B, C, D. repeat (split; [assumption|]).
  destruct (vType v); auto. eapply typed_keeps; eauto.
Qed.
Definition init_is (m : parts) (v : vdesc (list (chunk TD))) (v' : vdesc nat) : Prop :=
  match vInit v, vInit v' with None, None => True | Some l, Some cb => block_is m l cb | _, _ => False end.
Lemma init_pre m m' v v' : pre m m' -> init_is m v v' -> init_is m' v v'.
Proof. unfold init_is, block_is. destruct (vInit v), (vInit v'); auto. Qed.

Section Values.
Variables (new : list string -> WM nat) (tab : World -> list ValueSpec) (set : list ValueSpec -> World -> World).
Definition lens : Prop :=
  (forall ns w, new ns w = (Ok (List.length (tab w)), set (tab w ++ [mkValue "" ns NoType None None]) w)) /\
  (forall l w, tab (set l w) = l) /\
  (forall l w w0, grown w0 w -> pre (tab w0) l -> grown w0 (set l w)) /\
  (forall w w', lower w w' -> tab w' = tab w) /\ (forall w w', tabs w' = tabs w -> tab w' = tab w) /\
  (forall l w, files (set l w) = files w) /\
  (forall l w, types (set l w) = types w /\ fields (set l w) = fields w /\ ielems (set l w) = ielems w) /\
  (forall l w, blocks (set l w) = blocks w /\ argss (set l w) = argss w /\ templs (set l w) = templs w) /\
  (forall l l' w, set l (set l' w) = set l w) /\ (forall w, set (tab w) w = w).
Hypothesis L : lens.
Let Lnew := proj1 L.
Let Ltab := proj1 (proj2 L).
Let Lgrown := proj1 (proj2 (proj2 L)).
Let Llower := proj1 (proj2 (proj2 (proj2 L))).
Let Ltabs := proj1 (proj2 (proj2 (proj2 (proj2 L)))).
Let Lfiles := proj1 (proj2 (proj2 (proj2 (proj2 (proj2 L))))).
Let Ltypes := proj1 (proj2 (proj2 (proj2 (proj2 (proj2 (proj2 L)))))).
Let Lblocks := proj1 (proj2 (proj2 (proj2 (proj2 (proj2 (proj2 (proj2 L))))))).
Let Lset := proj1 (proj2 (proj2 (proj2 (proj2 (proj2 (proj2 (proj2 (proj2 L)))))))).
Let Lsame := proj2 (proj2 (proj2 (proj2 (proj2 (proj2 (proj2 (proj2 (proj2 L)))))))).
Lemma set_keeps l w : keeps w (set l w).
Proof.
  destruct (Ltypes l w) as (E1 & E2 & E3). apply same_keeps; auto.
Qed.
Lemma set_represents l w (m : parts) : represents w m -> represents (set l w) m.
Proof. destruct (Lblocks l w) as (E1 & E2 & E3). apply represents_same; auto. Qed.
Lemma change_last (g : ValueSpec -> ValueSpec) w t V : tab w = t ++ [V] ->
  (do v <- get tab (List.length t) ;; put tab set (List.length t) (g v)) w = (Ok tt, set (t ++ [g V]) w).
Proof.
  intros E. unfold sbind, get, put. rewrite E, nth_last. rewrite E, upd_last. reflexivity.
Qed.
Definition untyped (v : vdesc nat) := vmap (fun _ => tt) v.
Lemma build_value_ok v w (m : parts) : represents w m -> exists v' w' m' V,
  build_value new tab set v w = (Ok (List.length (tab w), v'), w') /\
  files w' = files w /\ grown w w' /\ represents w' m' /\ pre m m' /\
  tab w' = tab w ++ [V] /\ VParent V = None /\ value_is w' V v' /\ init_is m' v v' /\
  vmap (fun _ => tt) v' = vmap (fun _ => tt) v.
Proof.
  intros R. unfold build_value. unfold sbind at 1. rewrite Lnew.
  set (t0 := tab w). set (V0 := mkValue "" (vNames v) NoType None None). set (w1 := set (t0 ++ [V0]) w).
  assert (P : forall V, pre (tab w) (t0 ++ [V])) by (intros; apply pre_app).
  unfold sbind at 1. unfold Value_SetComment.
  rewrite (change_last (fun v0 => mkValue (vComment v) (VNames v0) (VSType v0) (VInit v0) (VParent v0)) w1 t0 V0) by (apply Ltab).
  cbv beta. set (V1 := mkValue (vComment v) _ _ _ _). unfold w1. rewrite Lset. set (w2 := set (t0 ++ [V1]) w).
  assert (G2 : grown w w2) by (apply Lgrown; [apply grown_refl|apply P]).
  assert (R2 : represents w2 m) by (apply set_represents; auto).
  (* the type *)
  assert (TY : exists w3 V2, match vType v with None => sret tt | Some t => do x <- build_type t ;; Value_SetType tab set (List.length t0) x end w2 = (Ok tt, w3) /\
     files w3 = files w /\ grown w w3 /\ represents w3 m /\ tab w3 = t0 ++ [V2] /\ VComment V2 = vComment v /\ VNames V2 = vNames v /\
     VInit V2 = None /\ VParent V2 = None /\ match vType v with None => VSType V2 = NoType | Some t => typed w3 (VSType V2) t end).
  { destruct (vType v) as [t|].
    - destruct (build_type_ok t w2) as (x & w3 & E & LO & Y). unfold sbind at 1. rewrite E.
      assert (T3 : tab w3 = t0 ++ [V1]) by (rewrite (Llower _ _ LO); apply Ltab).
      exists (set (t0 ++ [mkValue (VComment V1) (VNames V1) x (VInit V1) (VParent V1)]) w3). eexists.
      split; [unfold Value_SetType, sbind, get, put; rewrite T3, nth_last; rewrite T3, upd_last; reflexivity|].
      split; [rewrite Lfiles; destruct LO as [U _]; unfold upper in U; injection U as U _ _ _ _ _ _ _ _ _; rewrite U; apply Lfiles|].
      split; [apply Lgrown; [eapply grown_trans; [exact G2|apply lower_grown; auto]|apply P]|].
      split; [apply set_represents; eapply lower_represents; eauto|]. split; [apply Ltab|].
      do 4 (split; [reflexivity|]). eapply typed_keeps; [apply set_keeps|exact Y].
    - exists w2, V1. split; [reflexivity|]. split; [apply Lfiles|]. split; [exact G2|]. split; [exact R2|]. split; [apply Ltab|].
      repeat split. }
  destruct TY as (w3 & V2 & E3 & F3 & G3 & R3 & T3 & C3 & N3 & I3 & PA3 & Y3). unfold sbind at 1. rewrite E3.
  (* the initial value *)
  destruct (vInit v) as [l|] eqn:VI.
  2:{ exists (mkV (vComment v) (vNames v) (vType v) None), w3, m, V2. split; [reflexivity|].
      split; [exact F3|]. split; [exact G3|]. split; [exact R3|]. split; [apply pre_refl|]. split; [exact T3|]. split; [exact PA3|].
      split; [split; [auto|]; split; [auto|]; split; [auto|]; exact Y3|].
      split; [unfold init_is; rewrite VI; exact I|]. unfold vmap. rewrite VI. reflexivity. }
  destruct (new_block_ok l w3 m R3) as (w4 & m4 & b & E4 & TB & R4 & N4 & P4 & _).
  assert (T4 : tab w4 = t0 ++ [V2]) by (rewrite (Ltabs _ _ TB); exact T3).
  set (V3 := mkValue (VComment V2) (VNames V2) (VSType V2) (Some b) (VParent V2)). set (w5 := set (t0 ++ [V3]) w4).
  assert (E5 : match l with
          | [KPrintf f a] =>
              do _ <- Value_Initialize tab set (List.length t0) f a ;;
              do s <- get tab (List.length t0) ;; sret (VInit s)
          | l => do cb <- new_block l ;; do _ <- Value_SetInitializer tab set (List.length t0) (Some cb) ;; sret (Some cb)
          end w3 = (Ok (Some b), w5)).
  { assert (EG : (do cb <- new_block l ;; do _ <- Value_SetInitializer tab set (List.length t0) (Some cb) ;; sret (Some cb)) w3 = (Ok (Some b), w5)).
    { unfold sbind at 1. rewrite E4. unfold sbind at 1. unfold Value_SetInitializer.
      rewrite (change_last (fun v0 => mkValue (VComment v0) (VNames v0) (VSType v0) (Some b) (VParent v0)) w4 t0 V2) by auto. reflexivity. }
    destruct l as [|c [|c2 l]]; [exact EG| |destruct c; exact EG]. destruct c; try exact EG.
    cbn [new_block] in E4. unfold Value_Initialize. unfold sbind at 1. unfold sbind at 1. rewrite E4.
    unfold Value_SetInitializer. unfold sbind at 1. unfold get at 1. rewrite T4, nth_last. unfold put. rewrite T4, upd_last.
    unfold sbind, get. rewrite Ltab, nth_last. reflexivity. }
  unfold sbind at 1. 
  assert (E5' : match l with
          | [KPrintf f a] =>
              do _ <- Value_Initialize tab set (List.length t0) f a ;;
              do s <- get tab (List.length t0) ;; sret (VInit s)
          | _ => do cb <- new_block l ;; do _ <- Value_SetInitializer tab set (List.length t0) (Some cb) ;; sret (Some cb)
          end w3 = (Ok (Some b), w5)) by (destruct l as [|[] []]; exact E5). rewrite E5'.
  exists (mkV (vComment v) (vNames v) (vType v) (Some b)), w5, m4, V3. split; [reflexivity|].
  split; [unfold w5; rewrite Lfiles; unfold tabs in TB; congruence|].
  split; [apply Lgrown; [eapply grown_trans; [exact G3|apply tabs_grown; auto]|apply P]|].
  split; [apply set_represents; auto|]. split; [exact P4|]. split; [apply Ltab|]. split; [exact PA3|].
  split.
  { split; [auto|]. split; [auto|]. split; [reflexivity|]. cbn [vType VSType V3]. destruct (vType v); [|exact Y3].
    eapply typed_keeps; [|exact Y3]. eapply keeps_trans; [apply grown_keeps, tabs_grown; exact TB|apply set_keeps]. }
  split; [unfold init_is; rewrite VI; exact N4|]. unfold vmap. rewrite VI. reflexivity.
Qed.
Lemma map_m_cons {S A B} (f : A -> ST S B) a l : map_m f (a :: l) = (do b <- f a ;; do r <- map_m f l ;; sret (b :: r)).
Proof. reflexivity. Qed.
Lemma values_keeps w w' Vs vs : keeps w w' -> Forall2 (value_is w) Vs vs -> Forall2 (value_is w') Vs vs.
Proof. intros K. apply Forall2_weaken. intros V v. apply value_keeps; auto. Qed.
Lemma build_values_ok l : forall w (m : parts), represents w m -> exists vs w' m' Vs,
  build_values new tab set l w = (Ok (seq (List.length (tab w)) (List.length Vs), vs), w') /\
  files w' = files w /\ grown w w' /\ represents w' m' /\ pre m m' /\
  tab w' = tab w ++ Vs /\ Forall (fun V => VParent V = None) Vs /\ Forall2 (value_is w') Vs vs /\ Forall2 (init_is m') l vs /\
  map (vmap (fun _ => tt)) vs = map (vmap (fun _ => tt)) l.
Proof.
  unfold build_values. induction l as [|v l IH]; intros w m R.
  - exists [], w, m, []. split; [reflexivity|]. split; [reflexivity|]. split; [apply grown_refl|]. split; [exact R|].
    split; [apply pre_refl|]. split; [symmetry; apply app_nil_r|]. repeat split; constructor.
  - destruct (build_value_ok v w m R) as (v' & w1 & m1 & V & E1 & F1 & G1 & R1 & P1 & T1 & PA1 & VI1 & II1 & VM1).
    destruct (IH w1 m1 R1) as (vs & w2 & m2 & Vs & E2 & F2 & G2 & R2 & P2 & T2 & PA2 & VI2 & II2 & VM2).
    exists (v' :: vs), w2, m2, (V :: Vs). rewrite map_m_cons. unfold sbind at 1. unfold sbind at 1. rewrite E1.
    unfold sbind at 1 in E2. unfold sbind at 1. destruct (map_m (build_value new tab set) l w1) as [[r|?] w2'] eqn:EM; [|discriminate].
    unfold sret in *. injection E2 as E2a E2b E2c. subst w2'. split.
    { cbn [map fst snd List.length seq]. rewrite E2a, E2b, T1, app_length. cbn [List.length]. rewrite Nat.add_1_r. reflexivity. }
    split; [congruence|]. split; [eapply grown_trans; eauto|]. split; [exact R2|]. split; [eapply pre_trans; eauto|].
    split; [rewrite T2, T1, <- app_assoc; reflexivity|]. split; [constructor; auto|].
    split; [constructor; auto; eapply value_keeps; [apply grown_keeps; exact G2|..]; eauto|].
    split; [constructor; auto; eapply init_pre; eauto|]. cbn [map]. congruence.
Qed.
Definition owned f (V : ValueSpec) : ValueSpec := mkValue (VComment V) (VNames V) (VSType V) (VInit V) (Some f).
Lemma parents_ok f Vs : forall w t, tab w = t ++ Vs ->
  for_each (Value_setParent tab set f) (seq (List.length t) (List.length Vs)) w = (Ok tt, set (t ++ map (owned f) Vs) w).
Proof.
  induction Vs as [|V Vs IH]; intros w t T; [cbn [List.length seq for_each map]; rewrite <- T, Lsame; reflexivity|].
  cbn [List.length seq for_each]. unfold Value_setParent at 1. unfold sbind at 1. unfold sbind, get, put. rewrite T.
  rewrite nth_error_app2 by lia. rewrite Nat.sub_diag. cbn [nth_error]. rewrite T.
  assert (U : upd (List.length t) (owned f V) (t ++ V :: Vs) = (t ++ [owned f V]) ++ Vs).
  { clear. induction t; cbn; congruence. }
  unfold owned in U at 1. rewrite U. specialize (IH (set ((t ++ [owned f V]) ++ Vs) w) (t ++ [owned f V])).
  rewrite app_length in IH. cbn [List.length] in IH. rewrite Nat.add_1_r in IH.
  rewrite IH by apply Ltab. rewrite Lset. cbn [map]. rewrite <- app_assoc. reflexivity.
Qed.
Lemma lookup_app {A} (Vs : list A) : forall t u, lookup_all ((t ++ Vs) ++ u) (seq (List.length t) (List.length Vs)) = Some Vs.
Proof.
  unfold lookup_all. induction Vs as [|V Vs IH]; intros t u; [reflexivity|]. cbn [List.length seq map all_some].
  rewrite <- app_assoc. rewrite nth_error_app2 by lia. rewrite Nat.sub_diag. cbn [nth_error app obind].
  specialize (IH (t ++ [V]) u). rewrite app_length in IH. cbn [List.length] in IH. rewrite Nat.add_1_r, <- !app_assoc in IH.
  cbn [app] in IH. rewrite IH. reflexivity.
Qed.
End Values.
Lemma lens_consts : lens NewConst consts set_consts.
Proof.
  unfold lens. repeat split; auto; try (intros; destruct w; reflexivity);
  try (destruct H as ((A1 & A2 & A3) & (A4 & A5 & A6) & (A7 & A8 & A9)); auto; fail).
  - intros w w' (U & _). unfold upper in U. congruence.
  - intros w w' U. unfold tabs in U. congruence.
Qed.
Lemma lens_vars : lens NewVar vars set_vars.
Proof.
  unfold lens. repeat split; auto; try (intros; destruct w; reflexivity);
  try (destruct H as ((A1 & A2 & A3) & (A4 & A5 & A6) & (A7 & A8 & A9)); auto; fail).
  - intros w w' (U & _). unfold upper in U. congruence.
  - intros w w' U. unfold tabs in U. congruence.
Qed.

(** ** Elements of files *)
Definition with_element (F : GoFile) (e : FileElement) : GoFile :=
  mkFile (FImports F) (FName F) (FFileComment F) (FPackageComment F) (FPackageName F) (FCanonical F) (FElements F ++ [e]).
Definition element_built f F (e : edesc (list (chunk TD))) w (m : parts) : Prop := exists e' el w' m',
  build_element f e w = (Ok e', w') /\ files w' = upd f (with_element F el) (files w) /\ grown w w' /\
  represents w' m' /\ pre m m' /\ element_is f w' el e' /\ Forall2 (block_is m') (ecodes e) (ecodes e') /\
  emap (fun _ => tt) e' = emap (fun _ => tt) e.
Lemma Forall2_map_l {A B C} (P : C -> B -> Prop) (g : A -> C) l m : Forall2 (fun a b => P (g a) b) l m -> Forall2 P (map g l) m.
Proof. induction 1; constructor; auto. Qed.
Lemma inits_blocks (m : parts) l l' : Forall2 (init_is m) l l' -> Forall2 (block_is m) (flat_map vcodes l) (flat_map vcodes l').
Proof.
  induction 1 as [|v v' l l' H _ IH]; cbn [flat_map]; [constructor|]. unfold init_is in H. unfold vcodes at 1 3.
  destruct (vInit v), (vInit v'); try contradiction; cbn [app]; auto.
Qed.

(** ** Groups of Const declarations *)
Lemma const_specs d ids : forall w D, nth_error (constDecls w) d = Some D -> for_each (ConstDecl_AddConst d) ids w =
  (Ok tt, set_constDecls (upd d (mkValueDecl (VDComment D) (VDSpecs D ++ ids)) (constDecls w)) w).
Proof.
  induction ids as [|i ids IH]; intros w D N; cbn [for_each].
  - rewrite app_nil_r. destruct D as [dc ds]. cbn [VDComment VDSpecs]. rewrite upd_same by auto. destruct w; reflexivity.
  - unfold sbind at 1. unfold ConstDecl_AddConst at 1. unfold sbind, get, put. rewrite N.
    erewrite IH by (cbn [constDecls set_constDecls]; apply nth_upd_same; eapply nth_error_lt; eauto).
    cbn [constDecls set_constDecls VDComment VDSpecs]. rewrite upd_upd, <- app_assoc. reflexivity.
Qed.
Lemma add_const_group f F d c t Vs w : nth_error (files w) f = Some F ->
  nth_error (constDecls w) d = Some (mkValueDecl c (seq (List.length t) (List.length Vs))) -> consts w = t ++ Vs ->
  AddElement f (EConst d) w = (Ok tt, set_files (upd f (with_element F (EConst d)) (files w)) (set_consts (t ++ map (owned f) Vs) w)).
Proof.
  intros NF ND T. unfold AddElement. unfold sbind at 1. cbn [setParent]. unfold sbind at 1. unfold get at 1. rewrite ND. cbn [VDSpecs].
  rewrite (parents_ok NewConst consts set_consts lens_consts f Vs w t T). unfold sbind, get, put.
  change (files (set_consts _ w)) with (files w). rewrite NF. reflexivity.
Qed.
Lemma const_group_is f F d c t Vs vs w0 w : grown w0 w -> nth_error (files w) f = Some F ->
  nth_error (constDecls w) d = Some (mkValueDecl c (seq (List.length t) (List.length Vs))) ->
  consts w = t ++ Vs -> pre (consts w0) t -> Forall2 (value_is w) Vs vs ->
  exists w', AddElement f (EConst d) w = (Ok tt, w') /\ files w' = upd f (with_element F (EConst d)) (files w) /\
    grown w0 w' /\ (forall m : parts, represents w m -> represents w' m) /\
    exists D, nth_error (constDecls w') d = Some D /\ values_are f w' (consts w') D c vs.
Proof.
  intros G NF ND T P A. rewrite (add_const_group f F d c t Vs w NF ND T). eexists. split; [reflexivity|]. split; [reflexivity|].
  set (w' := set_files _ _).
  assert (K : keeps w w') by (apply same_keeps; reflexivity).
  split; [|split].
  - destruct G as (A1 & (A4 & A5 & A6) & A7). split; [exact A1|]. split; [|exact A7]. split; [|split]; try assumption;
    cbn; eapply pre_trans; [exact P|apply pre_app].
  - intros m. apply represents_same; reflexivity.
  - eexists. split; [exact ND|]. split; [reflexivity|]. exists (map (owned f) Vs). split.
    + cbn [VDSpecs]. rewrite <- (map_length (owned f) Vs). rewrite <- (lookup_app (map (owned f) Vs) t []).
      rewrite app_nil_r. reflexivity.
    + apply Forall2_map_l. eapply Forall2_weaken; [|exact A]. intros V v H. split; [|reflexivity].
      eapply value_keeps; [exact K|..|exact H]; reflexivity.
Qed.
Lemma const_group_built f F c l m0 w (m : parts) : represents w m -> nth_error (files w) f = Some F ->
  element_built f F (DConsts c l m0) w m.
Proof.
  intros R NF.
  destruct (build_values_ok NewConst consts set_consts lens_consts l w m R) as (l' & w1 & m1 & Vs1 & E1 & F1 & G1 & R1 & P1 & T1 & _ & A1 & I1 & M1).
  set (ids1 := seq (List.length (consts w)) (List.length Vs1)) in *.
  set (d := List.length (constDecls w1)). set (w2 := set_constDecls (constDecls w1 ++ [mkValueDecl "" ids1]) w1).
  assert (G2 : grown w1 w2).
  { unfold w2. repeat split; try apply pre_refl. cbn. apply pre_app. }
  assert (R2 : represents w2 m1) by (eapply represents_same; [..|exact R1]; reflexivity).
  destruct (build_values_ok NewConst consts set_consts lens_consts m0 w2 m1 R2) as (m' & w3 & m3 & Vs3 & E3 & F3 & G3 & R3 & P3 & T3 & _ & A3 & I3 & M3).
  assert (N3 : nth_error (constDecls w3) d = Some (mkValueDecl "" ids1)).
  { apply G3. cbn. apply nth_last. }
  set (ids3 := seq (List.length (consts w2)) (List.length Vs3)) in *.
  set (w4 := set_constDecls (upd d (mkValueDecl c (ids1 ++ ids3)) (constDecls w3)) w3).
  assert (LD : List.length (constDecls w) <= d) by (apply pre_length, G1).
  assert (G4 : grown w w4).
  { assert (X := grown_trans _ _ _ G1 (grown_trans _ _ _ G2 G3)). destruct X as ((B1 & B2 & B3) & B4 & B5).
    split; [|split; assumption]. split; [|split]; try assumption; apply upd_pre; auto. }
  assert (K34 : keeps w3 w4) by (apply same_keeps; reflexivity).
  assert (K14 : keeps w1 w4) by (eapply keeps_trans; [apply grown_keeps, (grown_trans _ _ _ G2 G3)|exact K34]).
  assert (T4 : consts w4 = consts w ++ Vs1 ++ Vs3).
  { change (consts w4) with (consts w3). rewrite T3. change (consts w2) with (consts w1). rewrite T1, <- app_assoc. reflexivity. }
  assert (IDS : ids1 ++ ids3 = seq (List.length (consts w)) (List.length (Vs1 ++ Vs3))).
  { unfold ids1, ids3. change (consts w2) with (consts w1). rewrite T1, !app_length, seq_app. reflexivity. }
  assert (N4 : nth_error (constDecls w4) d = Some (mkValueDecl c (seq (List.length (consts w)) (List.length (Vs1 ++ Vs3))))).
  { rewrite <- IDS. cbn. apply nth_upd_same. eapply nth_error_lt; eauto. }
  assert (NF4 : nth_error (files w4) f = Some F) by (change (files w4) with (files w3); rewrite F3; change (files w2) with (files w1); congruence).
  assert (A4 : Forall2 (value_is w4) (Vs1 ++ Vs3) (l' ++ m')).
  { apply Forall2_app; [eapply values_keeps; [exact K14|exact A1]|eapply values_keeps; [exact K34|exact A3]]. }
  destruct (const_group_is f F d c (consts w) (Vs1 ++ Vs3) (l' ++ m') w w4 G4 NF4 N4 T4 (pre_refl _) A4) as (w5 & E5 & F5 & G5 & R5 & D5).
  exists (DConsts c l' m'), (EConst d), w5, m3. split; [|split; [|split; [exact G5|split; [|split; [|split; [exact D5|split]]]]]].
  - cbn [build_element]. unfold sbind at 1. rewrite E1. cbv beta iota. unfold NewConstDecl. unfold sbind at 1. unfold alloc at 1.
    change (List.length (constDecls w1)) with d. change (set_constDecls (constDecls w1 ++ [_]) w1) with w2.
    unfold sbind at 1. rewrite E3. cbv beta iota. unfold sbind at 1. rewrite (const_specs d ids3 w3 _ N3). cbn [VDComment VDSpecs].
    unfold sbind at 1. unfold ConstDecl_SetComment. unfold sbind at 1. unfold get at 1. cbn [constDecls set_constDecls].
    rewrite nth_upd_same by (eapply nth_error_lt; eauto). unfold put. cbn [VDSpecs]. cbn [constDecls set_constDecls]. rewrite upd_upd.
    change (set_constDecls _ (set_constDecls _ w3)) with w4. unfold sbind. rewrite E5. reflexivity.
  - rewrite F5. change (files w4) with (files w3). rewrite F3. change (files w2) with (files w1). rewrite F1. reflexivity.
  - apply R5. eapply represents_same; [..|exact R3]; reflexivity.
  - eapply pre_trans; eauto.
  - apply (inits_blocks m3). apply Forall2_app; [|exact I3]. eapply Forall2_weaken; [|exact I1]. intros ? ?. apply init_pre; auto.
  - cbn [emap]. rewrite M1, M3. reflexivity.
Qed.
Lemma one_const_built f F v w (m : parts) : represents w m -> nth_error (files w) f = Some F -> element_built f F (DOneConst v) w m.
Proof.
  intros R NF.
  destruct (build_value_ok NewConst consts set_consts lens_consts v w m R) as (v' & w1 & m1 & V & E1 & F1 & G1 & R1 & P1 & T1 & _ & A1 & I1 & M1).
  set (d := List.length (constDecls w1)). set (w2 := set_constDecls (constDecls w1 ++ [mkValueDecl "" [List.length (consts w)]]) w1).
  assert (G2 : grown w1 w2) by (unfold w2; repeat split; try apply pre_refl; cbn; apply pre_app).
  destruct (const_group_is f F d "" (consts w) [V] [v'] w w2) as (w5 & E5 & F5 & G5 & R5 & D5); auto.
  { eapply grown_trans; eauto. }
  { change (files w2) with (files w1). congruence. }
  { cbn. apply nth_last. }
  { apply pre_refl. }
  { constructor; [|constructor]. eapply value_keeps; [apply grown_keeps; exact G2|..|exact A1]; reflexivity. }
  exists (DOneConst v'), (EConst d), w5, m1. split; [|split; [|split; [exact G5|split; [|split; [exact P1|split; [exact D5|split]]]]]].
  - cbn [build_element]. unfold sbind at 1. rewrite E1. cbv beta iota. unfold AddConst, NewConstDecl. unfold sbind at 1. unfold sbind at 1. unfold alloc at 1.
    change (List.length (constDecls w1)) with d. change (set_constDecls (constDecls w1 ++ [_]) w1) with w2. rewrite E5. reflexivity.
  - rewrite F5. change (files w2) with (files w1). rewrite F1. reflexivity.
  - apply R5. eapply represents_same; [..|exact R1]; reflexivity.
  - assert (X := inits_blocks m1 [v] [v'] ltac:(constructor; auto)). cbn [flat_map] in X. rewrite !app_nil_r in X. exact X.
  - cbn [emap]. congruence.
Qed.

(** ** Groups of Var declarations *)
Lemma var_specs d ids : forall w D, nth_error (varDecls w) d = Some D -> for_each (VarDecl_AddVar d) ids w =
  (Ok tt, set_varDecls (upd d (mkValueDecl (VDComment D) (VDSpecs D ++ ids)) (varDecls w)) w).
Proof.
  induction ids as [|i ids IH]; intros w D N; cbn [for_each].
  - rewrite app_nil_r. destruct D as [dc ds]. cbn [VDComment VDSpecs]. rewrite upd_same by auto. destruct w; reflexivity.
  - unfold sbind at 1. unfold VarDecl_AddVar at 1. unfold sbind, get, put. rewrite N.
    erewrite IH by (cbn [varDecls set_varDecls]; apply nth_upd_same; eapply nth_error_lt; eauto).
    cbn [varDecls set_varDecls VDComment VDSpecs]. rewrite upd_upd, <- app_assoc. reflexivity.
Qed.
Lemma add_var_group f F d c t Vs w : nth_error (files w) f = Some F ->
  nth_error (varDecls w) d = Some (mkValueDecl c (seq (List.length t) (List.length Vs))) -> vars w = t ++ Vs ->
  AddElement f (EVar d) w = (Ok tt, set_files (upd f (with_element F (EVar d)) (files w)) (set_vars (t ++ map (owned f) Vs) w)).
Proof.
  intros NF ND T. unfold AddElement. unfold sbind at 1. cbn [setParent]. unfold sbind at 1. unfold get at 1. rewrite ND. cbn [VDSpecs].
  rewrite (parents_ok NewVar vars set_vars lens_vars f Vs w t T). unfold sbind, get, put.
  change (files (set_vars _ w)) with (files w). rewrite NF. reflexivity.
Qed.
Lemma var_group_is f F d c t Vs vs w0 w : grown w0 w -> nth_error (files w) f = Some F ->
  nth_error (varDecls w) d = Some (mkValueDecl c (seq (List.length t) (List.length Vs))) ->
  vars w = t ++ Vs -> pre (vars w0) t -> Forall2 (value_is w) Vs vs ->
  exists w', AddElement f (EVar d) w = (Ok tt, w') /\ files w' = upd f (with_element F (EVar d)) (files w) /\
    grown w0 w' /\ (forall m : parts, represents w m -> represents w' m) /\
    exists D, nth_error (varDecls w') d = Some D /\ values_are f w' (vars w') D c vs.
Proof.
  intros G NF ND T P A. rewrite (add_var_group f F d c t Vs w NF ND T). eexists. split; [reflexivity|]. split; [reflexivity|].
  set (w' := set_files _ _).
  assert (K : keeps w w') by (apply same_keeps; reflexivity).
  split; [|split].
  - destruct G as (A1 & (A4 & A5 & A6) & A7). split; [exact A1|]. split; [|exact A7]. split; [|split]; try assumption;
    cbn; eapply pre_trans; [exact P|apply pre_app].
  - intros m. apply represents_same; reflexivity.
  - eexists. split; [exact ND|]. split; [reflexivity|]. exists (map (owned f) Vs). split.
    + cbn [VDSpecs]. rewrite <- (map_length (owned f) Vs). rewrite <- (lookup_app (map (owned f) Vs) t []).
      rewrite app_nil_r. reflexivity.
    + apply Forall2_map_l. eapply Forall2_weaken; [|exact A]. intros V v H. split; [|reflexivity].
      eapply value_keeps; [exact K|..|exact H]; reflexivity.
Qed.
Lemma var_group_built f F c l m0 w (m : parts) : represents w m -> nth_error (files w) f = Some F ->
  element_built f F (DVars c l m0) w m.
Proof.
  intros R NF.
  destruct (build_values_ok NewVar vars set_vars lens_vars l w m R) as (l' & w1 & m1 & Vs1 & E1 & F1 & G1 & R1 & P1 & T1 & _ & A1 & I1 & M1).
  set (ids1 := seq (List.length (vars w)) (List.length Vs1)) in *.
  set (d := List.length (varDecls w1)). set (w2 := set_varDecls (varDecls w1 ++ [mkValueDecl "" ids1]) w1).
  assert (G2 : grown w1 w2).
  { unfold w2. repeat split; try apply pre_refl. cbn. apply pre_app. }
  assert (R2 : represents w2 m1) by (eapply represents_same; [..|exact R1]; reflexivity).
  destruct (build_values_ok NewVar vars set_vars lens_vars m0 w2 m1 R2) as (m' & w3 & m3 & Vs3 & E3 & F3 & G3 & R3 & P3 & T3 & _ & A3 & I3 & M3).
  assert (N3 : nth_error (varDecls w3) d = Some (mkValueDecl "" ids1)).
  { apply G3. cbn. apply nth_last. }
  set (ids3 := seq (List.length (vars w2)) (List.length Vs3)) in *.
  set (w4 := set_varDecls (upd d (mkValueDecl c (ids1 ++ ids3)) (varDecls w3)) w3).
  assert (LD : List.length (varDecls w) <= d) by (apply pre_length, G1).
  assert (G4 : grown w w4).
  { assert (X := grown_trans _ _ _ G1 (grown_trans _ _ _ G2 G3)). destruct X as ((B1 & B2 & B3) & B4 & B5).
    split; [|split; assumption]. split; [|split]; try assumption; apply upd_pre; auto. }
  assert (K34 : keeps w3 w4) by (apply same_keeps; reflexivity).
  assert (K14 : keeps w1 w4) by (eapply keeps_trans; [apply grown_keeps, (grown_trans _ _ _ G2 G3)|exact K34]).
  assert (T4 : vars w4 = vars w ++ Vs1 ++ Vs3).
  { change (vars w4) with (vars w3). rewrite T3. change (vars w2) with (vars w1). rewrite T1, <- app_assoc. reflexivity. }
  assert (IDS : ids1 ++ ids3 = seq (List.length (vars w)) (List.length (Vs1 ++ Vs3))).
  { unfold ids1, ids3. change (vars w2) with (vars w1). rewrite T1, !app_length, seq_app. reflexivity. }
  assert (N4 : nth_error (varDecls w4) d = Some (mkValueDecl c (seq (List.length (vars w)) (List.length (Vs1 ++ Vs3))))).
  { rewrite <- IDS. cbn. apply nth_upd_same. eapply nth_error_lt; eauto. }
  assert (NF4 : nth_error (files w4) f = Some F) by (change (files w4) with (files w3); rewrite F3; change (files w2) with (files w1); congruence).
  assert (A4 : Forall2 (value_is w4) (Vs1 ++ Vs3) (l' ++ m')).
  { apply Forall2_app; [eapply values_keeps; [exact K14|exact A1]|eapply values_keeps; [exact K34|exact A3]]. }
  destruct (var_group_is f F d c (vars w) (Vs1 ++ Vs3) (l' ++ m') w w4 G4 NF4 N4 T4 (pre_refl _) A4) as (w5 & E5 & F5 & G5 & R5 & D5).
  exists (DVars c l' m'), (EVar d), w5, m3. split; [|split; [|split; [exact G5|split; [|split; [|split; [exact D5|split]]]]]].
  - cbn [build_element]. unfold sbind at 1. rewrite E1. cbv beta iota. unfold NewVarDecl. unfold sbind at 1. unfold alloc at 1.
    change (List.length (varDecls w1)) with d. change (set_varDecls (varDecls w1 ++ [_]) w1) with w2.
    unfold sbind at 1. rewrite E3. cbv beta iota. unfold sbind at 1. rewrite (var_specs d ids3 w3 _ N3). cbn [VDComment VDSpecs].
    unfold sbind at 1. unfold VarDecl_SetComment. unfold sbind at 1. unfold get at 1. cbn [varDecls set_varDecls].
    rewrite nth_upd_same by (eapply nth_error_lt; eauto). unfold put. cbn [VDSpecs]. cbn [varDecls set_varDecls]. rewrite upd_upd.
    change (set_varDecls _ (set_varDecls _ w3)) with w4. unfold sbind. rewrite E5. reflexivity.
  - rewrite F5. change (files w4) with (files w3). rewrite F3. change (files w2) with (files w1). rewrite F1. reflexivity.
  - apply R5. eapply represents_same; [..|exact R3]; reflexivity.
  - eapply pre_trans; eauto.
  - apply (inits_blocks m3). apply Forall2_app; [|exact I3]. eapply Forall2_weaken; [|exact I1]. intros ? ?. apply init_pre; auto.
  - cbn [emap]. rewrite M1, M3. reflexivity.
Qed.
Lemma one_var_built f F v w (m : parts) : represents w m -> nth_error (files w) f = Some F -> element_built f F (DOneVar v) w m.
Proof.
  intros R NF.
  destruct (build_value_ok NewVar vars set_vars lens_vars v w m R) as (v' & w1 & m1 & V & E1 & F1 & G1 & R1 & P1 & T1 & _ & A1 & I1 & M1).
  set (d := List.length (varDecls w1)). set (w2 := set_varDecls (varDecls w1 ++ [mkValueDecl "" [List.length (vars w)]]) w1).
  assert (G2 : grown w1 w2) by (unfold w2; repeat split; try apply pre_refl; cbn; apply pre_app).
  destruct (var_group_is f F d "" (vars w) [V] [v'] w w2) as (w5 & E5 & F5 & G5 & R5 & D5); auto.
  { eapply grown_trans; eauto. }
  { change (files w2) with (files w1). congruence. }
  { cbn. apply nth_last. }
  { apply pre_refl. }
  { constructor; [|constructor]. eapply value_keeps; [apply grown_keeps; exact G2|..|exact A1]; reflexivity. }
  exists (DOneVar v'), (EVar d), w5, m1. split; [|split; [|split; [exact G5|split; [|split; [exact P1|split; [exact D5|split]]]]]].
  - cbn [build_element]. unfold sbind at 1. rewrite E1. cbv beta iota. unfold AddVar, NewVarDecl. unfold sbind at 1. unfold sbind at 1. unfold alloc at 1.
    change (List.length (varDecls w1)) with d. change (set_varDecls (varDecls w1 ++ [_]) w1) with w2. rewrite E5. reflexivity.
  - rewrite F5. change (files w2) with (files w1). rewrite F1. reflexivity.
  - apply R5. eapply represents_same; [..|exact R1]; reflexivity.
  - assert (X := inits_blocks m1 [v] [v'] ltac:(constructor; auto)). cbn [flat_map] in X. rewrite !app_nil_r in X. exact X.
  - cbn [emap]. congruence.
Qed.

(** ** Groups of type declarations *)
Lemma type_specs d ids : forall w D, nth_error (typeDecls w) d = Some D -> for_each (TypeDecl_AddType d) ids w =
  (Ok tt, set_typeDecls (upd d (mkTypeDecl (TDComment D) (TDTypes D ++ ids)) (typeDecls w)) w).
Proof.
  induction ids as [|i ids IH]; intros w D N; cbn [for_each].
  - rewrite app_nil_r. destruct D as [dc ds]. cbn [TDComment TDTypes]. rewrite upd_same by auto. destruct w; reflexivity.
  - unfold sbind at 1. unfold TypeDecl_AddType at 1. unfold sbind, get, put. rewrite N.
    erewrite IH by (cbn [typeDecls set_typeDecls]; apply nth_upd_same; eapply nth_error_lt; eauto).
    cbn [typeDecls set_typeDecls TDComment TDTypes]. rewrite upd_upd, <- app_assoc. reflexivity.
Qed.
Definition towned f (T : TypeSpec) : TypeSpec :=
  mkTypeSpec (TSComment T) (TSName T) (TSIsAlias T) (TSUnderlying T) (TSStruct T) (TSInterface T) (Some f).
(** The ids of types, what they are, and that they are new. *)
Definition type_at n0 w (id : nat) (t : tsdesc) : Prop := n0 <= id /\ exists T, nth_error (types w) id = Some T /\ type_is w T t.
Lemma type_is_keeps w w' T T' t : keeps w w' -> same_body T T' -> TSName T' = TSName T -> TSComment T' = TSComment T ->
  TSIsAlias T' = TSIsAlias T -> type_is w T t -> type_is w' T' t.
Proof.
  intros K B N C A (H1 & H2 & H3 & H4). unfold type_is. rewrite N, C, A. repeat (split; [assumption|]). eapply contents_keeps; eauto.
Qed.
Lemma same_body_refl T : same_body T T. Proof. repeat split. Qed.
Lemma type_at_grown n0 w w' id t : grown w w' -> type_at n0 w id t -> type_at n0 w' id t.
Proof.
  intros G (L & T & N & Y). split; auto. exists T. split; [apply G; auto|].
  eapply type_is_keeps; [apply grown_keeps; exact G|..|exact Y]; auto. apply same_body_refl.
Qed.
Lemma build_types_ok l : forall w n0, n0 <= List.length (types w) -> exists ids w', map_m build_typespec l w = (Ok ids, w') /\
  lower w w' /\ Forall2 (type_at n0 w') ids l.
Proof.
  induction l as [|t l IH]; intros w n0 L; cbn [map_m].
  - exists [], w. split; [reflexivity|]. split; [apply lower_refl|constructor].
  - destruct (build_typespec_ok t w) as (id & w1 & T & E1 & L1 & LE & N1 & PA & Y1). unfold sbind at 1. rewrite E1.
    assert (LL : List.length (types w) <= List.length (types w1)) by (apply pre_length, L1).
    destruct (IH w1 n0) as (ids & w2 & E2 & L2 & A2); [lia|]. unfold sbind. rewrite E2.
    exists (id :: ids), w2. split; [reflexivity|]. split; [eapply lower_trans; eauto|]. constructor; auto.
    apply (type_at_grown n0 w1); [apply lower_grown; auto|]. split; [lia|]. eauto.
Qed.
Lemma type_parents f ids : forall w, Forall (fun id => id < List.length (types w)) ids -> exists l,
  for_each (Type_setParent f) ids w = (Ok tt, set_types l w) /\
  forall i T, nth_error (types w) i = Some T -> nth_error l i = Some (if in_dec Nat.eq_dec i ids then towned f T else T).
Proof.
  induction ids as [|id ids IH]; intros w FA; cbn [for_each].
  - exists (types w). split; [destruct w; reflexivity|]. intros i T N. exact N.
  - inversion FA as [|? ? H FA']; subst. destruct (nth_error (types w) id) as [T|] eqn:N; [|apply nth_error_None in N; lia].
    unfold sbind at 1. unfold Type_setParent at 1. unfold sbind, get, put. rewrite N.
    set (w1 := set_types (upd id _ (types w)) w).
    assert (N1 : nth_error (types w1) id = Some (towned f T)) by (cbn; apply nth_upd_same; auto).
    destruct (IH w1) as (l & E & X).
    { eapply Forall_impl; [|exact FA']. intros i. unfold w1. cbn. rewrite upd_length. auto. }
    exists l. split; [rewrite E; reflexivity|]. intros i T' N'. destruct (Nat.eq_dec i id) as [->|D].
    + rewrite (X _ _ N1). assert (T' = T) by congruence. subst T'.
      destruct (in_dec Nat.eq_dec id (id :: ids)) as [_|C]; [|exfalso; apply C; left; reflexivity].
      destruct (in_dec Nat.eq_dec id ids); reflexivity.
    + rewrite (X i T') by (cbn; rewrite nth_upd_other; auto).
      destruct (in_dec Nat.eq_dec i ids) as [I1|I1], (in_dec Nat.eq_dec i (id :: ids)) as [I2|I2]; auto.
      * exfalso. apply I2. right. exact I1.
      * exfalso. destruct I2 as [->|I2]; auto.
Qed.
Lemma type_group_is f F d c ids ts w0 w : grown w0 w -> nth_error (files w) f = Some F ->
  nth_error (typeDecls w) d = Some (mkTypeDecl c ids) ->
  Forall2 (type_at (List.length (types w0)) w) ids ts ->
  exists w', AddElement f (EType d) w = (Ok tt, w') /\ files w' = upd f (with_element F (EType d)) (files w) /\
    grown w0 w' /\ (forall m : parts, represents w m -> represents w' m) /\
    exists D, nth_error (typeDecls w') d = Some D /\ types_are f w' D c ts.
Proof.
  intros G NF ND A.
  assert (FA : Forall (fun id => id < List.length (types w)) ids).
  { clear - A. induction A as [|id t ids ts (L & T & N & _) _ IH]; constructor; auto. eapply nth_error_lt; eauto. }
  destruct (type_parents f ids w FA) as (l & E & X).
  set (w' := set_files (upd f (with_element F (EType d)) (files w)) (set_types l w)).
  exists w'. split; [|split; [reflexivity|]].
  { unfold AddElement. unfold sbind at 1. cbn [setParent]. unfold sbind at 1. unfold get at 1. rewrite ND. cbn [TDTypes]. rewrite E.
    unfold sbind, get, put. change (files (set_types l w)) with (files w). rewrite NF. reflexivity. }
  assert (K : keeps w w').
  { split; [|split]; cbn [types fields ielems w' set_files set_types].
    - intros i T N. rewrite (X _ _ N). eexists. split; [reflexivity|]. destruct (in_dec Nat.eq_dec i ids); repeat split.
    - intros i Y N. exists (FSParent Y). rewrite N. destruct Y; reflexivity.
    - intros i e N. rewrite N. destruct e as [? ? p|? ? ? p]; exists p; reflexivity. }
  split; [|split].
  - destruct G as (A1 & A4 & (A7 & A8 & A9)). split; [exact A1|]. split; [exact A4|]. split; [|split; assumption].
    intros i T N. cbn. rewrite (X i T) by auto. destruct (in_dec Nat.eq_dec i ids) as [I1|]; [|reflexivity]. exfalso.
    apply nth_error_lt in N. clear - N I1 A. induction A as [|id t ids ts (L & _) _ IH]; [destruct I1|]. destruct I1 as [->|I1]; [lia|auto].
  - intros m. apply represents_same; reflexivity.
  - eexists. split; [exact ND|]. split; [reflexivity|]. cbn [TDTypes]. change (types w') with l.
    assert (Y : forall ids' ts', incl ids' ids -> Forall2 (type_at (List.length (types w0)) w) ids' ts' ->
      exists Ts, lookup_all l ids' = Some Ts /\ Forall2 (fun T t => type_is w' T t /\ TSParent T = Some f) Ts ts').
    { intros ids' ts' IN A'. induction A' as [|id t ids' ts' (_ & T & N & Y) _ IH]; [exists []; split; [reflexivity|constructor]|].
      destruct IH as (Ts & LA & F2); [intros i J; apply IN; right; auto|].
      exists (towned f T :: Ts). unfold lookup_all in *. cbn [map all_some]. rewrite (X _ _ N).
      destruct (in_dec Nat.eq_dec id ids) as [_|C]; [|exfalso; apply C, IN; left; reflexivity].
      cbn [obind]. rewrite LA. split; [reflexivity|]. constructor; auto. split; [|reflexivity].
      eapply type_is_keeps; [exact K|..|exact Y]; auto. repeat split. }
    apply Y; auto. apply incl_refl.
Qed.
Lemma type_group_built f F c l m0 w (m : parts) : represents w m -> nth_error (files w) f = Some F ->
  element_built f F (DTypes c l m0) w m.
Proof.
  intros R NF.
  destruct (build_types_ok l w (List.length (types w)) (le_n _)) as (ids1 & w1 & E1 & L1 & A1).
  assert (F1 : files w1 = files w) by (destruct L1 as [U _]; unfold upper in U; congruence).
  set (d := List.length (typeDecls w1)). set (w2 := set_typeDecls (typeDecls w1 ++ [mkTypeDecl "" ids1]) w1).
  assert (G2 : grown w1 w2) by (unfold w2; repeat split; try apply pre_refl; cbn; apply pre_app).
  destruct (build_types_ok m0 w2 (List.length (types w))) as (ids3 & w3 & E3 & L3 & A3); [cbn; apply pre_length, L1|].
  assert (F3 : files w3 = files w2) by (destruct L3 as [U _]; unfold upper in U; congruence).
  assert (G3 := lower_grown _ _ L3).
  assert (N3 : nth_error (typeDecls w3) d = Some (mkTypeDecl "" ids1)) by (apply G3; cbn; apply nth_last).
  set (w4 := set_typeDecls (upd d (mkTypeDecl c (ids1 ++ ids3)) (typeDecls w3)) w3).
  assert (LD : List.length (typeDecls w) <= d) by (apply pre_length, (lower_grown _ _ L1)).
  assert (G4 : grown w w4).
  { assert (X := grown_trans _ _ _ (lower_grown _ _ L1) (grown_trans _ _ _ G2 G3)). destruct X as ((B1 & B2 & B3) & B4 & B5).
    split; [|split; assumption]. split; [|split]; try assumption; apply upd_pre; auto. }
  assert (A4 : Forall2 (type_at (List.length (types w)) w4) (ids1 ++ ids3) (l ++ m0)).
  { assert (ST : forall id t, type_at (List.length (types w)) w3 id t -> type_at (List.length (types w)) w4 id t).
    { intros id t (L & T & N & Y). split; auto. exists T. split; auto.
      eapply type_is_keeps; [apply (same_keeps w3 w4); reflexivity|..|exact Y]; auto. apply same_body_refl. }
    apply Forall2_app; (eapply Forall2_weaken; [exact ST|]); [|exact A3].
    eapply Forall2_weaken; [|exact A1]. intros id t. apply type_at_grown. eapply grown_trans; eauto. }
  destruct (type_group_is f F d c (ids1 ++ ids3) (l ++ m0) w w4) as (w5 & E5 & F5 & G5 & R5 & D5); auto.
  { change (files w4) with (files w3). rewrite F3. change (files w2) with (files w1). congruence. }
  { cbn. apply nth_upd_same. eapply nth_error_lt; eauto. }
  exists (DTypes c l m0), (EType d), w5, m. split; [|split; [|split; [exact G5|split; [|split; [apply pre_refl|split; [exact D5|split]]]]]].
  - cbn [build_element]. unfold sbind at 1. rewrite E1. unfold NewTypeDecl. unfold sbind at 1. unfold alloc at 1.
    change (List.length (typeDecls w1)) with d. change (set_typeDecls (typeDecls w1 ++ [_]) w1) with w2.
    unfold sbind at 1. rewrite E3. unfold sbind at 1. rewrite (type_specs d ids3 w3 _ N3). cbn [TDComment TDTypes].
    unfold sbind at 1. unfold TypeDecl_SetComment. unfold sbind at 1. unfold get at 1. cbn [typeDecls set_typeDecls].
    rewrite nth_upd_same by (eapply nth_error_lt; eauto). unfold put. cbn [TDTypes]. cbn [typeDecls set_typeDecls]. rewrite upd_upd.
    change (set_typeDecls _ (set_typeDecls _ w3)) with w4. unfold sbind. rewrite E5. reflexivity.
  - rewrite F5. change (files w4) with (files w3). rewrite F3. change (files w2) with (files w1). rewrite F1. reflexivity.
  - apply R5. assert (R3 : represents w3 m).
    { eapply lower_represents; [exact L3|]. eapply represents_same; [..|eapply lower_represents; [exact L1|exact R]]; reflexivity. }
    eapply represents_same; [..|exact R3]; reflexivity.
  - constructor.
  - reflexivity.
Qed.
Lemma one_type_built f F t w (m : parts) : represents w m -> nth_error (files w) f = Some F -> element_built f F (DOneType t) w m.
Proof.
  intros R NF.
  destruct (build_typespec_ok t w) as (id & w1 & T & E1 & L1 & LE & N1 & PA & Y1).
  assert (F1 : files w1 = files w) by (destruct L1 as [U _]; unfold upper in U; congruence).
  set (d := List.length (typeDecls w1)). set (w2 := set_typeDecls (typeDecls w1 ++ [mkTypeDecl "" [id]]) w1).
  assert (G2 : grown w1 w2) by (unfold w2; repeat split; try apply pre_refl; cbn; apply pre_app).
  destruct (type_group_is f F d "" [id] [t] w w2) as (w5 & E5 & F5 & G5 & R5 & D5); auto.
  { eapply grown_trans; [apply lower_grown; eauto|eauto]. }
  { change (files w2) with (files w1). congruence. }
  { cbn. apply nth_last. }
  { constructor; [|constructor]. eapply type_at_grown; [exact G2|]. split; eauto. }
  exists (DOneType t), (EType d), w5, m. split; [|split; [|split; [exact G5|split; [|split; [apply pre_refl|split; [exact D5|split]]]]]].
  - cbn [build_element]. unfold sbind at 1. rewrite E1. unfold AddType, NewTypeDecl. unfold sbind at 1. unfold sbind at 1. unfold alloc at 1.
    change (List.length (typeDecls w1)) with d. change (set_typeDecls (typeDecls w1 ++ [_]) w1) with w2. rewrite E5. reflexivity.
  - rewrite F5. change (files w2) with (files w1). rewrite F1. reflexivity.
  - apply R5. eapply represents_same; [..|eapply lower_represents; [exact L1|exact R]]; reflexivity.
  - constructor.
  - reflexivity.
Qed.

(** ** Functions *)
Lemma funcs_same w : set_funcs (funcs w) w = w. Proof. destruct w; reflexivity. Qed.
Lemma func_each (g : Signature -> string -> TypeName -> Signature) (l : list (string * TypeName)) : forall w p F,
  funcs w = p ++ [F] ->
  for_each (fun '(nm, t) => Func_onSignature (List.length p) (fun s => g s nm t)) l w =
    (Ok tt, set_funcs (p ++ [mkFunc (FNComment F) (FNName F) (FNReceiver F) (fold_left (fun s '(nm, t) => g s nm t) l (FNSig F))
       (FNBody F) (FNParent F)]) w).
Proof.
  induction l as [|[nm t] l IH]; intros w p F E; cbn [for_each fold_left].
  - destruct F. cbn. rewrite <- E, funcs_same. reflexivity.
  - unfold sbind. unfold Func_onSignature at 1. unfold sbind, get. rewrite E, nth_last. unfold put. rewrite E, upd_last.
    erewrite IH by reflexivity. reflexivity.
Qed.
Lemma build_func_method (fn : fndesc (list (chunk TD))) : build_func fn =
  (do id <- NewMethod (fnReceiver fn) (fnName fn) ;;
   do _ <- Func_SetComment id (fnComment fn) ;;
   do _ <- for_each (fun '(n, t) => Func_AddArg id n t) (fnArgs fn) ;;
   do _ <- for_each (fun '(n, t) => Func_AddResult id n t) (fnResults fn) ;;
   do _ <- Func_SetVariadic id (fnVariadic fn) ;;
   do _ <- for_each (func_chunk id) (fnCode fn) ;;
   do F <- get funcs id ;;
   sret (id, mkFn (fnComment fn) (fnReceiver fn) (fnName fn) (fnArgs fn) (fnResults fn) (fnVariadic fn) (FNBody F))).
Proof. unfold build_func, NewFunc. destruct (fnReceiver fn); reflexivity. Qed.
Lemma func_built f F fn w (m : parts) : represents w m -> nth_error (files w) f = Some F -> element_built f F (DFunction fn) w m.
Proof.
  intros R NF.
  destruct (newblock_ok w m R) as (w1 & E1 & T1 & R1).
  set (b := List.length m) in *. set (p := funcs w1). set (id := List.length p).
  set (F0 := mkFunc "" (fnName fn) (fnReceiver fn) (mkSig [] [] false) b None).
  set (sg := sig_of (fnArgs fn) (fnResults fn) (fnVariadic fn)).
  set (F1 := mkFunc (fnComment fn) (fnName fn) (fnReceiver fn) sg b None).
  set (w2 := set_funcs (p ++ [F1]) w1).
  assert (R2 : represents w2 (m ++ [[]])) by (eapply represents_same; [..|exact R1]; reflexivity).
  assert (N2 : nth_error (funcs w2) id = Some F1) by (cbn; apply nth_last).
  destruct (func_code_ok id F1 (fnCode fn) w2 (m ++ [[]]) R2 N2) as (w3 & m3 & E3 & T3 & R3 & C3 & O3).
  { cbn [FNBody F1]. rewrite app_length. cbn. unfold b. lia. }
  cbn [FNBody F1] in C3, O3. unfold b in C3 at 2. rewrite app_nth2 in C3 by lia. rewrite Nat.sub_diag in C3. cbn [nth app] in C3.
  assert (FU3 : funcs w3 = p ++ [F1]) by (unfold tabs in T3; cbn in T3; congruence).
  assert (FI3 : files w3 = files w) by (unfold tabs in T1, T3; cbn in T3; congruence).
  assert (PW : p = funcs w) by (unfold tabs in T1; unfold p; congruence).
  set (F2 := mkFunc (fnComment fn) (fnName fn) (fnReceiver fn) sg b (Some f)).
  set (w4 := set_files (upd f (with_element F (EFunc id)) (files w3)) (set_funcs (p ++ [F2]) w3)).
  exists (DFunction (mkFn (fnComment fn) (fnReceiver fn) (fnName fn) (fnArgs fn) (fnResults fn) (fnVariadic fn) b)), (EFunc id), w4, m3.
  split; [|split; [|split; [|split; [|split; [|split; [|split]]]]]].
  - cbn [build_element]. unfold sbind at 1. rewrite build_func_method. unfold NewMethod. unfold sbind at 1. unfold sbind at 1. rewrite E1.
    unfold alloc at 1. fold p id F0. unfold sbind at 1. unfold Func_SetComment. unfold sbind at 1. unfold get at 1.
    cbn [funcs set_funcs]. unfold id. rewrite nth_last. unfold put at 1. cbn [funcs set_funcs]. rewrite upd_last. fold id.
    unfold Func_AddArg, Func_AddResult. unfold sbind at 1. unfold id.
    erewrite (func_each Signature_AddArg) by reflexivity. cbn [FNComment FNName FNReceiver FNSig FNBody FNParent F0].
    unfold sbind at 1. erewrite (func_each Signature_AddResult) by reflexivity. cbn [FNComment FNName FNReceiver FNSig FNBody FNParent].
    unfold sbind at 1. unfold Func_SetVariadic, Func_onSignature. unfold sbind at 1. unfold get at 1. cbn [funcs set_funcs]. unfold id. rewrite nth_last.
    unfold put at 1. cbn [funcs set_funcs FNComment FNName FNReceiver FNSig FNBody FNParent]. rewrite upd_last. fold id.
    rewrite sig_fold_args, sig_fold_results. cbn [Args Results IsVariadic app Signature_SetVariadic].
    match goal with |- context [set_funcs ?l (set_funcs ?a ?x)] => change (set_funcs l (set_funcs a x)) with w2 end.
    unfold sbind at 1. rewrite E3. unfold sbind at 1. unfold get at 1. rewrite FU3. unfold id. rewrite nth_last. fold id.
    unfold sret at 1. cbn [FNBody F1]. unfold sbind at 1. unfold AddElement. unfold sbind at 1. cbn [setParent]. unfold Func_setParent, sbind, get, put.
    rewrite FU3. unfold id. rewrite nth_last. rewrite FU3, upd_last. fold id. cbn [files set_funcs]. rewrite FI3, NF.
    reflexivity.
  - cbn. rewrite FI3. reflexivity.
  - assert (G : grown w w3).
    { eapply grown_trans; [apply (tabs_grown w w1); auto|]. eapply grown_trans; [|apply (tabs_grown w2 w3); auto].
      unfold w2. repeat split; try apply pre_refl. cbn. apply pre_app. }
    destruct G as (A1 & (A4 & A5 & A6) & A7). split; [exact A1|]. split; [|exact A7]. split; [exact A4|]. split; [exact A5|].
    cbn. rewrite PW. apply pre_app.
  - eapply represents_same; [..|exact R3]; reflexivity.
  - intros i x N. apply O3; [apply nth_error_lt in N; unfold b; lia|]. apply pre_app; auto.
  - exists F2. split; [cbn; apply nth_last|]. split; [|reflexivity]. repeat split.
  - cbn [ecodes fnCode]. constructor; [|constructor]. exact C3.
  - reflexivity.
Qed.
Lemma build_element_ok f F e w (m : parts) : represents w m -> nth_error (files w) f = Some F -> element_built f F e w m.
Proof.
  destruct e; [apply const_group_built|apply one_const_built|apply var_group_built|apply one_var_built|
    apply type_group_built|apply one_type_built|apply func_built].
Qed.

(** ** Files *)
Lemma lookup_pre {A} (t t' : list A) ids l : pre t t' -> lookup_all t ids = Some l -> lookup_all t' ids = Some l.
Proof.
  intros P. unfold lookup_all. revert l. induction ids as [|i ids IH]; intros l; cbn [map all_some]; auto.
  destruct (nth_error t i) as [x|] eqn:N; [|discriminate]. rewrite (P _ _ N). cbn [obind].
  destruct (all_some (map (nth_error t) ids)) as [r|]; [|discriminate]. rewrite (IH r eq_refl). auto.
Qed.
Lemma values_are_grown f w w' t t' D c vs : grown w w' -> pre t t' -> values_are f w t D c vs -> values_are f w' t' D c vs.
Proof.
  intros G P (C & Vs & L & A). split; auto. exists Vs. split; [eapply lookup_pre; eauto|].
  eapply Forall2_weaken; [|exact A]. intros V v [H1 H2]. split; auto.
  eapply value_keeps; [apply grown_keeps; exact G|..|exact H1]; reflexivity.
Qed.
Lemma types_are_grown f w w' D c ts : grown w w' -> types_are f w D c ts -> types_are f w' D c ts.
Proof.
  intros G (C & Ts & L & A). split; auto. exists Ts. split; [eapply lookup_pre; [apply G|exact L]|].
  eapply Forall2_weaken; [|exact A]. intros T t [H1 H2]. split; auto.
  eapply type_is_keeps; [apply grown_keeps; exact G|..|exact H1]; auto. apply same_body_refl.
Qed.
Lemma element_is_grown f w w' e d : grown w w' -> element_is f w e d -> element_is f w' e d.
Proof.
  intros G. destruct e as [i|i|i|i]; intros (D & N & H); exists D; (split; [apply G; exact N|]); destruct d; auto;
  first [eapply values_are_grown; [exact G|apply G|exact H]|eapply types_are_grown; [exact G|exact H]].
Qed.
Definition with_elements (F : GoFile) (es : list FileElement) : GoFile :=
  mkFile (FImports F) (FName F) (FFileComment F) (FPackageComment F) (FPackageName F) (FCanonical F) (FElements F ++ es).
Lemma build_elements_ok f es : forall w (m : parts) F, represents w m -> nth_error (files w) f = Some F ->
  exists es' els w' m', map_m (build_element f) es w = (Ok es', w') /\ files w' = upd f (with_elements F els) (files w) /\
    grown w w' /\ represents w' m' /\ pre m m' /\ Forall2 (element_is f w') els es' /\
    Forall2 (block_is m') (flat_map ecodes es) (flat_map ecodes es') /\ map (emap (fun _ => tt)) es' = map (emap (fun _ => tt)) es.
Proof.
  induction es as [|e es IH]; intros w m F R NF.
  - exists [], [], w, m. split; [reflexivity|]. split.
    { symmetry. apply upd_same. rewrite NF. f_equal. unfold with_elements. rewrite app_nil_r. destruct F; reflexivity. }
    split; [apply grown_refl|]. split; [exact R|]. split; [apply pre_refl|]. repeat split; constructor.
  - destruct (build_element_ok f F e w m R NF) as (e' & el & w1 & m1 & E1 & F1 & G1 & R1 & P1 & A1 & B1 & M1).
    assert (LF := nth_error_lt _ _ _ NF).
    assert (NF1 : nth_error (files w1) f = Some (with_element F el)) by (rewrite F1; apply nth_upd_same; auto).
    destruct (IH w1 m1 _ R1 NF1) as (es' & els & w2 & m2 & E2 & F2 & G2 & R2 & P2 & A2 & B2 & M2).
    exists (e' :: es'), (el :: els), w2, m2. rewrite map_m_cons. unfold sbind at 1. rewrite E1. unfold sbind. rewrite E2.
    split; [reflexivity|]. split.
    { rewrite F2, F1, upd_upd. unfold with_elements, with_element. cbn. rewrite <- app_assoc. reflexivity. }
    split; [eapply grown_trans; eauto|]. split; [exact R2|]. split; [eapply pre_trans; eauto|].
    split; [constructor; auto; eapply element_is_grown; eauto|]. split.
    + cbn [flat_map]. apply Forall2_app; [|exact B2]. eapply Forall2_weaken; [|exact B1]. intros l cb. apply P2.
    + cbn [map]. congruence.
Qed.
Lemma build_file_ok d w (m : parts) : represents w m -> go_name (fdName d) ->
  exists d' w' m', build_file d w = (Ok (List.length (files w), d'), w') /\
    pre (files w) (files w') /\ grown w w' /\ represents w' m' /\ pre m m' /\ file_is w' (List.length (files w)) d' /\
    Forall2 (block_is m') (codes d) (codes d') /\ same_but_code d d' /\
    (forall F, nth_error (files w') (List.length (files w)) = Some F -> FImports F = NewImportsFor (fdPath d)).
Proof.
  intros R GN. set (f := List.length (files w)).
  set (F := mkFile (NewImportsFor (fdPath d)) (fdName d) (fdFileComment d) (fdPackageComment d) (fdPackage d) (fdCanonical d) []).
  set (w1 := set_files (files w ++ [F]) w).
  assert (N1 : nth_error (files w1) f = Some F) by (cbn; apply nth_last).
  assert (R1 : represents w1 m) by (eapply represents_same; [..|exact R]; reflexivity).
  destruct (build_elements_ok f (fdElements d) w1 m F R1 N1) as (es' & els & w2 & m2 & E2 & F2 & G2 & R2 & P2 & A2 & B2 & M2).
  exists (mkFD (fdName d) (fdPath d) (fdPackage d) (fdFileComment d) (fdPackageComment d) (fdCanonical d) es'), w2, m2.
  split; [|split; [|split; [|split; [exact R2|split; [exact P2|split; [|split; [exact B2|split]]]]]]].
  - unfold build_file. unfold sbind at 1. rewrite (proj1 (NewGoFile_spec _ _ _ w) GN). fold f.
    do 3 (unfold sbind at 1; first [unfold SetFileComment at 1|unfold SetPackageComment at 1|unfold SetCanonical at 1];
          unfold sbind at 1; unfold get at 1; cbn [files set_files]; unfold f; rewrite nth_last; fold f;
          unfold put at 1; cbn [files set_files]; unfold f; rewrite upd_last; fold f;
          cbn [FImports FName FFileComment FPackageComment FPackageName FCanonical FElements]).
    match goal with |- context [set_files ?l (set_files ?a ?x)] => change (set_files l (set_files a x)) with w1 end.
    unfold sbind. rewrite E2. reflexivity.
  - rewrite F2. apply upd_pre; [unfold f; lia|]. cbn. apply pre_app.
  - eapply grown_trans; [|exact G2]. unfold w1. repeat split; apply pre_refl.
  - exists (with_elements F els). split; [rewrite F2; apply nth_upd_same; eapply nth_error_lt; eauto|].
    do 7 (split; [reflexivity|]). exact A2.
  - unfold same_but_code, fmap. cbn. f_equal. symmetry. exact M2.
  - intros F0. fold f. rewrite F2, nth_upd_same by (eapply nth_error_lt; eauto). intros [= <-]. reflexivity.
Qed.

(** What a file that is as described stands for *)
Variables (q : Symbol -> option string) (code : nat -> option string).
Lemma forall2_meaning {A B C} (f : A -> option C) (g : B -> option C) l m ys :
  Forall2 (fun a b => forall y, g b = Some y -> f a = Some y) l m -> all_some (map g m) = Some ys -> all_some (map f l) = Some ys.
Proof.
  intros H. revert ys. induction H as [|a b l m H _ IH]; intros ys; cbn [map all_some]; auto.
  destruct (g b) as [y|]; [|discriminate]. rewrite (H y eq_refl). cbn [obind].
  destruct (all_some (map g m)) as [r|]; [|discriminate]. rewrite (IH r eq_refl). auto.
Qed.
Lemma value_is_meaning w V v const g : value_is w V v -> vdesc_meaning q code const v = Some g ->
  gvalue_meaning_with q w code const V = Some g.
Proof.
  intros (_ & N & I & Y) M. unfold gvalue_meaning_with, value_meaning_with. unfold vdesc_meaning in M. rewrite N, I.
  destruct (negb _ && _); [|discriminate].
  assert (X : value_type_with q w (VSType V) = match vType v with
          | None => Some None
          | Some t => if wf (type_of t) && text_ok (type_of t) then Some (Some (denote_with q (type_of t))) else None
          end).
  { destruct (vType v) as [t|]; [|rewrite Y; reflexivity]. assert (Z := typed_type w _ t _ Y eq_refl).
    destruct (VSType V) as [|n|i]; [contradiction|subst n; reflexivity|]. destruct Z as (T & NT & NM & U).
    cbn [value_type_with]. rewrite NT. cbn [obind]. rewrite NM. cbn [String.eqb]. rewrite U. reflexivity. }
  rewrite X. destruct (match vType v with None => Some None | Some t => _ end) as [ty|]; [|discriminate]. cbn [option_map obind] in *.
  exact M.
Qed.
Lemma lookup_length {A} (t : list A) ids : forall l, lookup_all t ids = Some l -> List.length ids = List.length l.
Proof.
  unfold lookup_all. induction ids as [|i ids IH]; intros l; cbn [map all_some]; [intros [= <-]; reflexivity|].
  destruct (nth_error t i); [|discriminate]. cbn [obind]. destruct (all_some _) as [r|]; [|discriminate]. intros [= <-]. cbn. f_equal. auto.
Qed.
Lemma edepth_group l t : In t l -> tbody_depth (tsBody t) <= fold_right Nat.max 0 (map (fun t => tbody_depth (tsBody t)) l).
Proof. induction l as [|a l IH]; intros []; cbn [map fold_right]; [subst; lia|]. specialize (IH H). lia. Qed.
Lemma grouped_length {A B} c (l : list A) (l' : list B) : List.length l = List.length l' -> grouped c l = grouped c l'.
Proof. intros H. unfold grouped. rewrite H. reflexivity. Qed.
Lemma values_meaning f w tab D c vs const k g : values_are f w tab D c vs ->
  group_meaning (vdesc_meaning q code const) k c vs = Some g ->
  (obind (lookup_all tab (VDSpecs D)) (fun l => obind (all_some (map (gvalue_meaning_with q w code const) l)) (fun ms =>
     Some (k (grouped (VDComment D) l) ms))) = Some g) /\
  negb (Nat.eqb (List.length (VDSpecs D)) 0) || negb (String.eqb (VDComment D) "") = true.
Proof.
  intros (C & Vs & L & A) M. unfold group_meaning in M. assert (LV := Forall2_len _ _ _ A).
  rewrite (lookup_length _ _ _ L), C, LV. destruct (negb _ || _) eqn:NE; [|discriminate]. split; [|reflexivity].
  rewrite L. cbn [obind]. destruct (all_some (map (vdesc_meaning q code const) vs)) as [ms|] eqn:AM; [|discriminate].
  rewrite (forall2_meaning _ (vdesc_meaning q code const) Vs vs ms); [cbn [obind]; rewrite (grouped_length c Vs vs LV); exact M| |exact AM].
  eapply Forall2_weaken; [|exact A]. intros V v [H _] y. apply value_is_meaning; auto.
Qed.
Lemma types_meaning f w D c ts fuel g : types_are f w D c ts ->
  fold_right Nat.max 0 (map (fun t => tbody_depth (tsBody t)) ts) <= fuel ->
  group_meaning (tsdesc_meaning q) DType c ts = Some g ->
  (obind (lookup_all (types w) (TDTypes D)) (fun l => obind (all_some (map (typespec_meaning_with q w fuel) l)) (fun ms =>
     Some (DType (grouped (TDComment D) l) ms))) = Some g) /\
  negb (Nat.eqb (List.length (TDTypes D)) 0) || negb (String.eqb (TDComment D) "") = true.
Proof.
  intros (C & Ts & L & A) DE M. unfold group_meaning in M. assert (LV := Forall2_len _ _ _ A).
  rewrite (lookup_length _ _ _ L), C, LV. destruct (negb _ || _) eqn:NE; [|discriminate]. split; [|reflexivity].
  rewrite L. cbn [obind]. destruct (all_some (map (tsdesc_meaning q) ts)) as [ms|] eqn:AM; [|discriminate].
  rewrite (forall2_meaning _ (tsdesc_meaning q) Ts ts ms); [cbn [obind]; rewrite (grouped_length c Ts ts LV); exact M| |exact AM].
  assert (IN : forall t, In t ts -> tbody_depth (tsBody t) <= fuel) by (intros t I; assert (X := edepth_group ts t I); lia).
  clear - A IN. induction A as [|T t Ts ts [H _] _ IH]; constructor.
  - intros y Y. eapply type_is_meaning; eauto. apply IN. left. reflexivity.
  - apply IH. intros t' I. apply IN. right. exact I.
Qed.
Lemma func_is_meaning F d g : func_is F d -> fndesc_meaning q code d = Some g ->
  obind (func_meaning_with q F) (fun '(rc, n, s) => obind (body_meaning code (FNBody F)) (fun b => Some (DFunc rc n s b))) = Some g.
Proof.
  intros (_ & N & RC & SG & B) M. unfold func_meaning_with. unfold fndesc_meaning in M. rewrite N, RC, SG, B.
  destruct (ident (fnName d) && wf_sig _ && sig_text_ok _); [|discriminate]. cbn [andb] in M.
  destruct (fnReceiver d) as [r|].
  - destruct ((_ || _) && _); [|discriminate]. exact M.
  - exact M.
Qed.
Lemma element_is_meaning f w e d fuel g : element_is f w e d -> edesc_depth d <= fuel -> edesc_meaning q code d = Some g ->
  element_meaning_with q w code fuel e = Some g /\ has_content w e = true.
Proof.
  intros H DE M. destruct e as [i|i|i|i]; destruct H as (D & N & H); destruct d; try contradiction;
    cbn [element_meaning_with has_content edesc_meaning edesc_depth] in *; rewrite N; cbn [obind].
  - eapply values_meaning; eauto.
  - eapply values_meaning; [exact H|]. unfold group_meaning. cbn [List.length Nat.eqb negb orb map all_some].
    destruct (vdesc_meaning q code true v); [|discriminate]. exact M.
  - eapply values_meaning; eauto.
  - eapply values_meaning; [exact H|]. unfold group_meaning. cbn [List.length Nat.eqb negb orb map all_some].
    destruct (vdesc_meaning q code false v); [|discriminate]. exact M.
  - eapply types_meaning; eauto.
  - eapply types_meaning; [exact H|cbn; lia|]. unfold group_meaning. cbn [List.length Nat.eqb negb orb map all_some].
    destruct (tsdesc_meaning q t); [|discriminate]. exact M.
  - destruct H as [H _]. split; [|reflexivity]. eapply func_is_meaning; eauto.
Qed.
Lemma file_is_meaning w f d fuel g F : file_is w f d -> nth_error (files w) f = Some F -> filedesc_depth d <= fuel ->
  filedesc_meaning q code d = Some g -> file_meaning_with q w code fuel F = Some g.
Proof.
  intros (F' & N & _ & _ & IS & PN & _ & _ & _ & A) NF DE M. assert (F' = F) by congruence. subst F'.
  unfold file_meaning_with. unfold filedesc_meaning in M. rewrite PN, IS. destruct (ident (fdPackage d)); [|discriminate].
  destruct (all_some (map (edesc_meaning q code) (fdElements d))) as [gs|] eqn:G; [|discriminate].
  unfold filedesc_depth in DE. cbn [map all_some obind andb].
  assert (X : forallb (has_content w) (FElements F) = true /\ all_some (map (element_meaning_with q w code fuel) (FElements F)) = Some gs).
  { clear - A G DE. revert gs G DE. induction A as [|e d0 es ds H _ IH]; intros gs; cbn [map all_some forallb fold_right].
    - auto.
    - destruct (edesc_meaning q code d0) as [y|] eqn:Y; [|discriminate]. cbn [obind].
      destruct (all_some (map (edesc_meaning q code) ds)) as [r|]; [|discriminate]. cbn [obind]. intros G DE.
      destruct (element_is_meaning f w e d0 fuel y H) as [X1 X2]; auto; [lia|]. rewrite X1, X2.
      destruct (IH r eq_refl) as [X3 X4]; [lia|]. rewrite X3, X4. cbn. auto. }
  destruct X as [-> ->]. exact M.
Qed.
End Build.
