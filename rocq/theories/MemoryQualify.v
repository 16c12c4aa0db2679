(** Qualification in memory follows qualification of values and writes to nothing that was there. *)
From Verif Require Import Base GoPath Types SpecTypes SpecRender Imports Memory SpecMemory MemoryProofs.

Definition plus (a : nat) (F : nat -> bool) : nat -> bool := fun b => Nat.eqb a b || F b.
(** the masked arrays exist *)
Definition below (F : nat -> bool) (m : mem) : Prop := forall a, F a = true -> nth_error (arrays m) a <> None.
Lemma below_grown F m m' : grown m m' -> below F m -> below F m'.
Proof.
  intros (_ & G) B a E. specialize (B a E). destruct (nth_error (arrays m) a) eqn:N; [|congruence].
  rewrite (G _ _ N). discriminate.
Qed.
(** only array [a] may have changed *)
Definition grown_but (a : nat) (m m' : mem) : Prop :=
  (forall p o, nth_error (objs m) p = Some o -> nth_error (objs m') p = Some o) /\
  (forall b l, b <> a -> nth_error (arrays m) b = Some l -> nth_error (arrays m') b = Some l).
Lemma grown_but_frame a F m m' : grown_but a m m' -> frame (plus a F) (plus a F) m m'.
Proof.
  intros (A & B). split; auto. intros b l E N. split; auto. apply B; auto.
  unfold plus in E. apply orb_false_iff in E as (E & _). apply Nat.eqb_neq in E. auto.
Qed.
Lemma grown_grown_but a m m' : grown m m' -> grown_but a m m'.
Proof. intros (A & B). split; auto. Qed.
Lemma grown_but_trans a m1 m2 m3 : grown_but a m1 m2 -> grown_but a m2 m3 -> grown_but a m1 m3.
Proof. intros (A & B) (C & D). split; auto. Qed.
Lemma grown_around a m0 m m' : nth_error (arrays m0) a = None -> grown m0 m -> grown_but a m m' -> grown m0 m'.
Proof.
  intros N (A & B) (C & D). split; auto. intros b l H. apply D; auto. congruence.
Qed.

Lemma all_view_app {B} (f : cell -> option B) l k :
  all_view f (l ++ k) = obind (all_view f l) (fun a => option_map (app a) (all_view f k)).
Proof.
  induction l as [|c r IH]; cbn.
  - destruct (all_view f k); reflexivity.
  - rewrite IH. destruct (f c); cbn; [|reflexivity]. destruct (all_view f r); cbn; [|reflexivity].
    destruct (all_view f k); reflexivity.
Qed.
Lemma all_view_length {B} (f : cell -> option B) l : forall L, all_view f l = Some L -> List.length L = List.length l.
Proof.
  induction l as [|c r IH]; cbn; intros L H; [now injection H as <-|].
  destruct (f c); [|discriminate]. cbn in H. destruct (all_view f r); [|discriminate]. injection H as <-. cbn. now rewrite (IH _ eq_refl).
Qed.
Lemma sbind_ok {S A B} (x : ST S A) (f : A -> ST S B) s a s' : x s = (Ok a, s') -> sbind x f s = f a s'.
Proof. intros H. unfold sbind. now rewrite H. Qed.
Lemma sbind_panic {S A B} (x : ST S A) (f : A -> ST S B) s e s' : x s = (Panic e, s') -> sbind x f s = (Panic e, s').
Proof. intros H. unfold sbind. now rewrite H. Qed.

(** ** The loops *)
Section Loop.
Context {B : Type}.
Variable vw : (nat -> bool) -> mem -> cell -> option B.
Hypothesis vw_frame : forall F F' m m', frame F F' m m' -> forall c b, vw F m c = Some b -> vw F' m' c = Some b.
Variable g : B -> IM (B * bool).
Variable f : cell -> QM (option cell).
Hypothesis f_sim : forall F m i c b, below F m -> vw F m c = Some b ->
  match g b i with
  | (Panic e, i') => exists m', f c (i, m) = (Panic e, (i', m')) /\ grown m m'
  | (Ok (b', ch), i') => exists m' r, f c (i, m) = (Ok r, (i', m')) /\ grown m m' /\
      if ch : bool then exists c', r = Some c' /\ vw F m' c' = Some b' else r = None
  end.
Lemma views_frame F F' m m' l L : frame F F' m m' -> all_view (vw F m) l = Some L -> all_view (vw F' m') l = Some L.
Proof. intros FR. apply all_view_impl. intros c b. now apply vw_frame. Qed.

Lemma cow_copied (s : slice) (F : nat -> bool) (a : nat) : forall l bl pre bpre m i,
  below F m -> nth_error (arrays m) a = Some (pre ++ l) -> s_len s = List.length (pre ++ l) ->
  all_view (vw (plus a F) m) pre = Some bpre -> all_view (vw (plus a F) m) l = Some bl ->
  match map_changed g bl i with
  | (Panic e, i') => exists m', cow f s l (List.length pre) (Some a) (i, m) = (Panic e, (i', m')) /\ grown_but a m m'
  | (Ok (bl', ch), i') => exists m' l', cow f s l (List.length pre) (Some a) (i, m) = (Ok (SArr a (s_len s)), (i', m')) /\
      grown_but a m m' /\ nth_error (arrays m') a = Some l' /\ List.length l' = s_len s /\
      all_view (vw (plus a F) m') l' = Some (bpre ++ bl')
  end.
Proof.
  induction l as [|c r IH]; intros bl pre bpre m i BE N LEN VP VL.
  - cbn in VL. injection VL as <-. cbn [map_changed cow sret]. exists m, pre. rewrite app_nil_r in *.
    split; [reflexivity|]. split; [apply grown_grown_but, grown_refl|]. repeat split; auto.
  - cbn in VL. destruct (vw (plus a F) m c) as [b|] eqn:VC; [|discriminate]. cbn in VL.
    destruct (all_view (vw (plus a F) m) r) as [br|] eqn:VR; [|discriminate]. injection VL as <-.
    assert (BA : below (plus a F) m).
    { intros x E. unfold plus in E. apply orb_prop in E as [E|E]; [|now apply BE]. apply Nat.eqb_eq in E as <-. congruence. }
    pose proof (f_sim _ m i c b BA VC) as HF. cbn [map_changed cow].
    destruct (g b i) as [[[b' ch]|e] i1] eqn:G.
    2: { destruct HF as (m' & E & GR). rewrite (sbind_panic (g b) _ _ _ _ G). exists m'. rewrite (sbind_panic _ _ _ _ _ E).
         split; [reflexivity|]. now apply grown_grown_but. }
    destruct HF as (m1 & rr & E & GR & CH). rewrite (sbind_ok (g b) _ _ _ _ G). rewrite (sbind_ok _ _ _ _ _ E).
    assert (N1 : nth_error (arrays m1) a = Some (pre ++ c :: r)) by (apply GR; auto).
    assert (B1 : below F m1) by (eapply below_grown; eauto).
    pose proof (grown_frame (plus a F) _ _ GR) as FR1.
    assert (NEXT : forall c2 m2 bb, grown_but a m1 m2 -> nth_error (arrays m2) a = Some (pre ++ c2 :: r) ->
      vw (plus a F) m2 c2 = Some bb ->
      match (do '(r', cr) <- map_changed g br ;; sret (bb :: r', ch || cr)) i1 with
      | (Panic e, i') => exists m', cow f s r (S (List.length pre)) (Some a) (i1, m2) = (Panic e, (i', m')) /\ grown_but a m m'
      | (Ok (bl', _), i') => exists m' l', cow f s r (S (List.length pre)) (Some a) (i1, m2) = (Ok (SArr a (s_len s)), (i', m')) /\
          grown_but a m m' /\ nth_error (arrays m') a = Some l' /\ List.length l' = s_len s /\
          all_view (vw (plus a F) m') l' = Some (bpre ++ bl')
      end).
    { intros c2 m2 bb G2 N2 V2.
      assert (FR2 : frame (plus a F) (plus a F) m m2).
      { apply grown_but_frame. eapply grown_but_trans; [apply grown_grown_but; exact GR|exact G2]. }
      assert (NB : below F m2).
      { intros x Ex. specialize (B1 x Ex). destruct (Nat.eq_dec x a) as [->|NE]; [congruence|].
        destruct (nth_error (arrays m1) x) eqn:Nx; [|congruence]. destruct G2 as (_ & G2). rewrite (G2 _ _ NE Nx). discriminate. }
      specialize (IH br (pre ++ [c2]) (bpre ++ [bb]) m2 i1 NB).
      rewrite <- app_assoc in IH. cbn [app] in IH. specialize (IH N2).
      assert (L2 : s_len s = List.length (pre ++ c2 :: r)) by (rewrite LEN, !app_length; reflexivity).
      specialize (IH L2).
      assert (VP2 : all_view (vw (plus a F) m2) (pre ++ [c2]) = Some (bpre ++ [bb])).
      { rewrite all_view_app. rewrite (views_frame _ _ _ _ _ _ FR2 VP). cbn. now rewrite V2. }
      specialize (IH VP2 (views_frame _ _ _ _ _ _ FR2 VR)).
      rewrite app_length in IH. cbn [List.length] in IH. rewrite Nat.add_1_r in IH.
      unfold sbind at 1. destruct (map_changed g br i1) as [[[bl' cr]|e] i2].
      - cbn. destruct IH as (m' & l' & EC & GB & NA & LN & VW). exists m', l'. split; [exact EC|].
        split; [eapply grown_but_trans; [apply grown_grown_but; exact GR|]; eapply grown_but_trans; eauto|].
        split; [exact NA|]. split; [exact LN|]. now rewrite <- app_assoc in VW.
      - destruct IH as (m' & EC & GB). exists m'. split; [exact EC|].
        eapply grown_but_trans; [apply grown_grown_but; exact GR|]. eapply grown_but_trans; eauto. }
    destruct ch.
    + destruct CH as (c' & -> & VC'). cbn [sbind sret].
      set (m2 := mkMem (objs m1) (replace a (replace (List.length pre) c' (nth a (arrays m1) [])) (arrays m1))).
      assert (G2 : grown_but a m1 m2).
      { split; auto. intros x l NE Nx. unfold m2. cbn. now rewrite replace_other. }
      assert (N2 : nth_error (arrays m2) a = Some (pre ++ c' :: r)).
      { unfold m2. cbn. rewrite replace_nth by (apply nth_error_Some; congruence).
        rewrite (nth_error_nth' _ _ _ _ N1). now rewrite replace_at. }
      assert (V2 : vw (plus a F) m2 c' = Some b').
      { eapply vw_frame; [apply grown_but_frame; exact G2|exact VC']. }
      specialize (NEXT c' m2 b' G2 N2 V2).
      unfold sbind at 2. unfold sbind at 2. cbn. fold m2. exact NEXT.
    + subst rr. apply (NEXT c m1 b); [apply grown_grown_but, grown_refl|exact N1|].
      eapply vw_frame; [exact FR1|exact VC].
Qed.
Lemma cow_start (s : slice) (F : nat -> bool) : forall l bl pre bpre m i,
  below F m -> open_cells F m s = Some (pre ++ l) ->
  all_view (vw F m) pre = Some bpre -> all_view (vw F m) l = Some bl ->
  match map_changed g bl i with
  | (Panic e, i') => exists m', cow f s l (List.length pre) None (i, m) = (Panic e, (i', m')) /\ grown m m'
  | (Ok (bl', ch), i') => exists m' s', cow f s l (List.length pre) None (i, m) = (Ok s', (i', m')) /\ grown m m' /\
      if ch : bool then sameSlice s' s = false /\ obind (open_cells F m' s') (all_view (vw F m')) = Some (bpre ++ bl') else s' = s /\ bl' = bl
  end.
Proof.
  induction l as [|c r IH]; intros bl pre bpre m i BE OP VP VL.
  - cbn in VL. injection VL as <-. cbn [map_changed cow sret]. exists m, s. repeat split; auto; apply grown_refl.
  - cbn in VL. destruct (vw F m c) as [b|] eqn:VC; [|discriminate]. cbn in VL.
    destruct (all_view (vw F m) r) as [br|] eqn:VR; [|discriminate]. injection VL as <-.
    pose proof (f_sim _ m i c b BE VC) as HF. cbn [map_changed cow].
    destruct (g b i) as [[[b' ch]|e] i1] eqn:G.
    2: { destruct HF as (m' & E & GR). rewrite (sbind_panic (g b) _ _ _ _ G). exists m'. rewrite (sbind_panic _ _ _ _ _ E). auto. }
    destruct HF as (m1 & rr & E & GR & CH). rewrite (sbind_ok (g b) _ _ _ _ G). rewrite (sbind_ok _ _ _ _ _ E).
    pose proof (grown_frame F _ _ GR) as FR1. assert (B1 : below F m1) by (eapply below_grown; eauto).
    pose proof (open_frame _ _ _ _ FR1 _ _ OP) as OP1.
    destruct ch.
    + destruct CH as (c' & -> & VC').
      destruct s as [|a0 n0]; [cbn in OP; destruct pre; discriminate|].
      assert (C1 : cells m1 (SArr a0 n0) = Some (pre ++ c :: r) /\ F a0 = false).
      { cbn [open_cells] in OP1. destruct (F a0); [discriminate|auto]. }
      destruct C1 as (C1 & FA).
      set (a := List.length (arrays m1)).
      set (m2 := mkMem (objs m1) (arrays m1 ++ [pre ++ c :: r])).
      set (m3 := mkMem (objs m1) (replace a (replace (List.length pre) c' (nth a (arrays m2) [])) (arrays m2))).
      assert (G2 : grown m1 m2) by (split; auto; intros x y; apply nth_old).
      assert (N2 : nth_error (arrays m2) a = Some (pre ++ c :: r)) by apply nth_new.
      assert (G3 : grown_but a m2 m3).
      { split; auto. intros x y NE Nx. unfold m3. cbn [arrays]. now rewrite replace_other. }
      assert (N3 : nth_error (arrays m3) a = Some (pre ++ c' :: r)).
      { unfold m3. cbn [arrays]. rewrite replace_nth by (apply nth_error_Some; rewrite N2; discriminate).
        rewrite (nth_error_nth' _ _ _ _ N2). now rewrite replace_at. }
      assert (NA : nth_error (arrays m1) a = None) by apply nth_none.
      assert (G13 : grown m1 m3) by (eapply grown_around; eauto).
      assert (FRn : frame F (plus a F) m1 m1).
      { split; auto. intros x y Fx Nx. split; auto. unfold plus. rewrite Fx, orb_false_r. apply Nat.eqb_neq. congruence. }
      assert (FR3 : frame F (plus a F) m1 m3).
      { split; [apply G13|]. intros x y Fx Nx. split; [apply (proj2 FRn x y Fx Nx)|]. now apply G13. }
      assert (FRm : frame F (plus a F) m m3).
      { split; [intros p o Hp; apply FR3, FR1, Hp|]. intros x y Fx Nx. destruct (proj2 FR1 x y Fx Nx) as (_ & Nx1). now apply FR3. }
      assert (B3 : below F m3) by (eapply below_grown; [exact G13|exact B1]).
      assert (LEN : s_len (SArr a0 n0) = List.length (pre ++ c' :: r)).
      { cbn [s_len]. cbn [cells] in C1. destruct (nth_error (arrays m1) a0) as [l0|]; [|discriminate].
        destruct (Nat.leb n0 (List.length l0)) eqn:LE; [|discriminate]. injection C1 as C1. apply Nat.leb_le in LE.
        transitivity (List.length (pre ++ c :: r)); [|rewrite !app_length; reflexivity].
        rewrite <- C1, firstn_length. lia. }
      assert (VP3 : all_view (vw (plus a F) m3) (pre ++ [c']) = Some (bpre ++ [b'])).
      { rewrite all_view_app, (views_frame _ _ _ _ _ _ FRm VP). cbn.
        now rewrite (vw_frame _ _ _ _ FR3 _ _ VC'). }
      pose proof (cow_copied (SArr a0 n0) F a r br (pre ++ [c']) (bpre ++ [b']) m3 i1 B3) as CC.
      rewrite <- !app_assoc in CC. cbn [app] in CC.
      specialize (CC N3 LEN VP3 (views_frame _ _ _ _ _ _ FRm VR)).
      rewrite app_length in CC. cbn [List.length] in CC. rewrite Nat.add_1_r in CC.
      assert (RUN : forall k : nat -> QM slice,
        (do a1 <- on_mem (do old <- get_cells (SArr a0 n0) ;; new_array old) ;;
         do _ <- on_mem (set_cell a1 (List.length pre) c') ;; k a1) (i1, m1) = k a (i1, m3)).
      { intros k. unfold sbind at 1, on_mem at 1. cbn [snd fst]. unfold sbind at 1, get_cells. rewrite C1. unfold new_array.
        unfold sbind at 1, on_mem, set_cell. cbn [snd fst]. reflexivity. }
      rewrite (RUN (fun a1 => cow f (SArr a0 n0) r (S (List.length pre)) (Some a1))).
      unfold sbind at 1. destruct (map_changed g br i1) as [[[bl' cr]|e] i2].
      * cbn [sret orb]. destruct CC as (m' & l' & EC & GB & NA' & LN & VW). exists m', (SArr a n0).
        split; [exact EC|]. assert (GG : grown m1 m') by (eapply grown_around; [exact NA|exact G13|exact GB]).
        split; [eapply grown_trans; eauto|]. split.
        { cbn. apply andb_false_iff. left. apply Nat.eqb_neq. intros ->. cbn [cells] in C1. rewrite NA in C1. discriminate. }
        cbn [open_cells]. destruct (F a) eqn:FAa; [exfalso; apply (B1 a FAa); exact NA|].
        cbn [cells]. rewrite NA'. cbn [s_len] in LN. rewrite LN, Nat.leb_refl, firstn_all2 by lia. cbn [obind].
        rewrite <- app_assoc in VW. cbn [app] in VW.
        eapply views_frame; [|exact VW]. split; auto. intros x y Fx Nx. split; auto.
        unfold plus in Fx. apply orb_false_iff in Fx. apply Fx.
      * destruct CC as (m' & EC & GB). exists m'. split; [exact EC|].
        eapply grown_trans; [exact GR|]. eapply grown_around; [exact NA|exact G13|exact GB].
    + subst rr. specialize (IH br (pre ++ [c]) (bpre ++ [b]) m1 i1 B1). rewrite <- app_assoc in IH. cbn [app] in IH.
      specialize (IH OP1).
      assert (VP1 : all_view (vw F m1) (pre ++ [c]) = Some (bpre ++ [b])).
      { rewrite all_view_app, (views_frame _ _ _ _ _ _ FR1 VP). cbn. now rewrite (vw_frame _ _ _ _ FR1 _ _ VC). }
      specialize (IH VP1 (views_frame _ _ _ _ _ _ FR1 VR)).
      rewrite app_length in IH. cbn [List.length] in IH. rewrite Nat.add_1_r in IH.
      unfold sbind at 1. destruct (map_changed g br i1) as [[[bl' cr]|e] i2].
      * cbn [sret orb]. destruct IH as (m' & s' & EC & GG & R). exists m', s'. split; [exact EC|].
        split; [eapply grown_trans; eauto|]. destruct cr.
        -- destruct R as (R1 & R2). split; auto. now rewrite <- app_assoc in R2.
        -- destruct R as (-> & ->). auto.
      * destruct IH as (m' & EC & GG). exists m'. split; [exact EC|]. eapply grown_trans; eauto.
Qed.
Lemma slice_sim s F bl m i : below F m -> obind (open_cells F m s) (all_view (vw F m)) = Some bl ->
  match map_changed g bl i with
  | (Panic e, i') => exists m', qualify_slice f s (i, m) = (Panic e, (i', m')) /\ grown m m'
  | (Ok (bl', ch), i') => exists m' s', qualify_slice f s (i, m) = (Ok s', (i', m')) /\ grown m m' /\
      sameSlice s' s = negb ch /\ obind (open_cells F m' s') (all_view (vw F m')) = Some bl' /\ (ch = false -> s' = s /\ bl' = bl)
  end.
Proof.
  intros BE H. unfold obind in H. destruct (open_cells F m s) as [l|] eqn:OP; [|discriminate].
  pose proof (cow_start s F l bl [] [] m i BE OP eq_refl H) as C. cbn [List.length app] in C.
  assert (CE : cells m s = Some l). { destruct s; cbn [open_cells cells] in *; auto. destruct (F a); [discriminate|auto]. }
  assert (RUN : qualify_slice f s (i, m) = cow f s l 0 None (i, m)).
  { unfold qualify_slice, sbind, on_mem, get_cells. cbn [snd fst]. now rewrite CE. }
  rewrite RUN. destruct (map_changed g bl i) as [[[bl' ch]|e] i'].
  - destruct C as (m' & s' & E & GR & R). exists m', s'. split; [exact E|]. split; [exact GR|]. destruct ch.
    + destruct R as (R1 & R2). repeat split; auto; discriminate.
    + destruct R as (-> & ->). split.
      * destruct s; cbn; auto. now rewrite !Nat.eqb_refl.
      * split; [|auto]. rewrite (open_frame _ _ _ _ (grown_frame F _ _ GR) _ _ OP).
        cbn [obind]. eapply views_frame; [apply grown_frame; exact GR|exact H].
  - exact C.
Qed.
End Loop.

(** ** Types *)
Lemma view_nil F n m t T : view F n m t = Some T -> is_nil T = m_nil t.
Proof.
  destruct n; [discriminate|]. destruct t; cbn; intros H; unfold obind, option_map in H;
  repeat match goal with H : context [match ?x with _ => _ end] |- _ => destruct x; try discriminate H end;
  injection H as <-; reflexivity.
Qed.
Lemma view_slice F n m t T : view F n m t = Some T -> TypeKind_beq (tKind T) KindSlice = m_slice t.
Proof.
  destruct n; [discriminate|]. destruct t; cbn; intros H; unfold obind, option_map in H;
  repeat match goal with H : context [match ?x with _ => _ end] |- _ => destruct x; try discriminate H end;
  injection H as <-; reflexivity.
Qed.
Lemma args_nil F n m l L : all_view (arg_view (view F n m)) l = Some L ->
  existsb (fun a => is_nil (ArgTy a)) L = existsb cell_nil l.
Proof.
  revert L. induction l as [|c r IH]; intros L H; [now injection H as <-|]. cbn in H.
  destruct c; cbn in H; try discriminate. destruct (view F n m t) eqn:V; [|discriminate]. cbn in H.
  destruct (all_view _ r); [|discriminate]. injection H as <-. cbn. now rewrite (view_nil _ _ _ _ _ V), (IH _ eq_refl).
Qed.
Lemma args_last F n m l L : all_view (arg_view (view F n m)) l = Some L ->
  match last_arg L with None => true | Some a => negb (TypeKind_beq (tKind (ArgTy a)) KindSlice) end =
  match last (map Some l) None with None => true | Some c => negb (cell_slice c) end.
Proof.
  unfold last_arg. revert L. induction l as [|c r IH]; intros L H; [now injection H as <-|]. cbn in H.
  destruct c; cbn in H; try discriminate. destruct (view F n m t) eqn:V; [|discriminate]. cbn in H.
  destruct (all_view _ r) eqn:VR; [|discriminate]. injection H as <-. specialize (IH _ eq_refl).
  pose proof (all_view_length _ _ _ VR) as LN.
  destruct r as [|c2 r2], l as [|x2 l2]; try discriminate LN.
  - cbn. now rewrite (view_slice _ _ _ _ _ V).
  - exact IH.
Qed.
Lemma open_is_cells F m s l : open_cells F m s = Some l -> cells m s = Some l.
Proof. destruct s; cbn [open_cells cells]; auto. destruct (F a); [discriminate|auto]. Qed.
Lemma from_sig_sim F n m p o s : nth_error (objs m) p = Some (OSig o) -> sig_view F (view F n m) m o = Some s ->
  mFuncTypeFromSig p m = (match FuncTypeFromSig s with Ok _ => Ok (MFunc p) | Panic e => Panic e end, m).
Proof.
  intros N H. unfold sig_view, obind in H.
  destruct (open_cells F m (ms_args o)) as [la|] eqn:OA; [|discriminate].
  destruct (all_view _ la) as [LA|] eqn:VA; [|discriminate].
  destruct (open_cells F m (ms_results o)) as [lr|] eqn:OR; [|discriminate].
  destruct (all_view (arg_view (view F n m)) lr) as [LR|] eqn:VR; [|discriminate]. injection H as <-.
  unfold mFuncTypeFromSig, FuncTypeFromSig, sbind, get_sig, get_cells. rewrite N. cbn [Args Results IsVariadic].
  rewrite (open_is_cells _ _ _ _ OA), (args_nil _ _ _ _ _ VA). destruct (existsb cell_nil la); [reflexivity|].
  rewrite (open_is_cells _ _ _ _ OR), (args_nil _ _ _ _ _ VR). destruct (existsb cell_nil lr); [reflexivity|].
  rewrite (args_last _ _ _ _ _ VA). destruct (_ && _); reflexivity.
Qed.
Lemma new_obj_grown m o : grown m (mkMem (objs m ++ [o]) (arrays m)).
Proof. split; auto. intros p x. apply nth_old. Qed.
Lemma new_array_grown m l : grown m (mkMem (objs m) (arrays m ++ [l])).
Proof. split; auto. intros p x. apply nth_old. Qed.
Lemma fresh_obj m p o : nth_error (objs m) p = Some o -> List.length (objs m) <> p.
Proof. intros H <-. now rewrite nth_none in H. Qed.

Section Level.
Variable reg : bool.
Variable n : nat.
Variable rec : mty -> QM mty.
Hypothesis rec_sim : forall F m i t T, below F m -> view F n m t = Some T ->
  match qualifyType reg T i with
  | (Panic e, i') => exists m', rec t (i, m) = (Panic e, (i', m')) /\ grown m m'
  | (Ok (T', ch), i') => exists m' t', rec t (i, m) = (Ok t', (i', m')) /\ grown m m' /\ view F n m' t' = Some T' /\
      if ch : bool then t' <> t else t' = t /\ T' = T
  end.
Lemma arg_sim F m i c b : below F m -> arg_view (view F n m) c = Some b ->
  match (match b with mkArg name t => do '(nt, c) <- qualifyType reg t ;; sret (mkArg name nt, c) end) i with
  | (Panic e, i') => exists m', arg_cell rec c (i, m) = (Panic e, (i', m')) /\ grown m m'
  | (Ok (b', ch), i') => exists m' r, arg_cell rec c (i, m) = (Ok r, (i', m')) /\ grown m m' /\
      if ch : bool then exists c', r = Some c' /\ arg_view (view F n m') c' = Some b' else r = None
  end.
Proof.
  intros B H. destruct c as [nm t| | |]; try discriminate. cbn in H. destruct (view F n m t) as [T|] eqn:V; [|discriminate].
  injection H as <-. pose proof (rec_sim F m i t T B V) as R. cbn [arg_cell]. unfold sbind.
  destruct (qualifyType reg T i) as [[[T' ch]|e] i'].
  - destruct R as (m' & t' & -> & G & V' & CH). cbn [sret]. destruct ch.
    + eexists _, _. split; [reflexivity|]. split; [exact G|]. destruct (mty_eq t' t); [contradiction|].
      eexists. split; [reflexivity|]. cbn. now rewrite V'.
    + destruct CH as (-> & ->). eexists _, _. split; [reflexivity|]. split; [exact G|]. now destruct (mty_eq t t).
  - destruct R as (m' & -> & G). eauto.
Qed.
Lemma field_sim F m i c b : below F m -> field_view (view F n m) c = Some b ->
  match (match b with mkField name t tag => do '(nt, c) <- qualifyType reg t ;; sret (mkField name nt tag, c) end) i with
  | (Panic e, i') => exists m', field_cell rec c (i, m) = (Panic e, (i', m')) /\ grown m m'
  | (Ok (b', ch), i') => exists m' r, field_cell rec c (i, m) = (Ok r, (i', m')) /\ grown m m' /\
      if ch : bool then exists c', r = Some c' /\ field_view (view F n m') c' = Some b' else r = None
  end.
Proof.
  intros B H. destruct c as [|nm t tag| |]; try discriminate. cbn in H. destruct (view F n m t) as [T|] eqn:V; [|discriminate].
  injection H as <-. pose proof (rec_sim F m i t T B V) as R. cbn [field_cell]. unfold sbind.
  destruct (qualifyType reg T i) as [[[T' ch]|e] i'].
  - destruct R as (m' & t' & -> & G & V' & CH). cbn [sret]. destruct ch.
    + eexists _, _. split; [reflexivity|]. split; [exact G|]. destruct (mty_eq t' t); [contradiction|].
      eexists. split; [reflexivity|]. cbn. now rewrite V'.
    + destruct CH as (-> & ->). eexists _, _. split; [reflexivity|]. split; [exact G|]. now destruct (mty_eq t t).
  - destruct R as (m' & -> & G). eauto.
Qed.
Lemma sym_sim (F : nat -> bool) m i c b : below F m -> sym_view c = Some b ->
  match (do nt <- qualify b reg ;; sret (nt, negb (symbol_eqb nt b))) i with
  | (Panic e, i') => exists m', sym_cell reg c (i, m) = (Panic e, (i', m')) /\ grown m m'
  | (Ok (b', ch), i') => exists m' r, sym_cell reg c (i, m) = (Ok r, (i', m')) /\ grown m m' /\
      if ch : bool then exists c', r = Some c' /\ sym_view c' = Some b' else r = None
  end.
Proof.
  intros _ H. destruct c as [| | |s]; try discriminate. injection H as <-. cbn [sym_cell]. unfold sbind, on_imp. cbn [fst snd].
  destruct (qualify s reg i) as [[nt|e] i']; cbn [sret].
  - destruct (symbol_eqb nt s); cbn [negb]; eexists _, _; (split; [reflexivity|]; split; [apply grown_refl|]); eauto.
  - eexists. split; [reflexivity|apply grown_refl].
Qed.
Lemma args_vf : forall F F' m m', frame F F' m m' -> forall c b, arg_view (view F n m) c = Some b -> arg_view (view F' n m') c = Some b.
Proof. intros F F' m m' FR c b. apply arg_frame. intros t T. now apply view_frame. Qed.
Lemma fields_vf : forall F F' m m', frame F F' m m' -> forall c b, field_view (view F n m) c = Some b -> field_view (view F' n m') c = Some b.
Proof. intros F F' m m' FR c b. apply field_frame. intros t T. now apply view_frame. Qed.
Lemma sigs_vf : forall F F' m m', frame F F' m m' -> forall c b, sig_view F (view F n m) m c = Some b -> sig_view F' (view F' n m') m' c = Some b.
Proof. intros F F' m m' FR c b. apply sig_frame; auto. intros t T. now apply view_frame. Qed.
Lemma methods_vf : forall F F' m m', frame F F' m m' -> forall c b, method_view F (view F n m) m c = Some b -> method_view F' (view F' n m') m' c = Some b.
Proof. intros F F' m m' FR c b. apply method_frame; auto. intros t T. now apply view_frame. Qed.

Lemma sig_sim F m i o s : below F m -> sig_view F (view F n m) m o = Some s ->
  match qualifySignature_ (qualifyType reg) s i with
  | (Panic e, i') => exists m', mqualifySignature rec o (i, m) = (Panic e, (i', m')) /\ grown m m'
  | (Ok (s', ch), i') => exists m' r, mqualifySignature rec o (i, m) = (Ok r, (i', m')) /\ grown m m' /\
      if ch : bool then exists o', r = Some o' /\ sig_view F (view F n m') m' o' = Some s' else r = None /\ s' = s
  end.
Proof.
  intros B H. unfold sig_view in H.
  destruct (obind (open_cells F m (ms_args o)) (all_view (arg_view (view F n m)))) as [LA|] eqn:VA; [|discriminate].
  destruct (obind (open_cells F m (ms_results o)) (all_view (arg_view (view F n m)))) as [LR|] eqn:VR; [|discriminate].
  cbn [obind] in H. injection H as <-. cbn [qualifySignature_]. unfold qualifyArgs_, mqualifySignature.
  pose proof (slice_sim (fun F m => arg_view (view F n m)) args_vf _ _ arg_sim _ F _ m i B VA) as S1.
  unfold sbind at 1.
  destruct (map_changed _ LA i) as [[[LA' ca]|e] i1].
  2: { destruct S1 as (m1 & E1 & G1). rewrite (sbind_panic _ _ _ _ _ E1). eauto. }
  destruct S1 as (m1 & a' & E1 & G1 & SA & VA' & CA). rewrite (sbind_ok _ _ _ _ _ E1).
  assert (VR1 : obind (open_cells F m1 (ms_results o)) (all_view (arg_view (view F n m1))) = Some LR).
  { revert VR. apply slice_frame; [now apply grown_frame|]. now apply args_vf, grown_frame. }
  pose proof (slice_sim (fun F m => arg_view (view F n m)) args_vf _ _ arg_sim _ F _ m1 i1 (below_grown _ _ _ G1 B) VR1) as S2.
  unfold sbind at 1.
  destruct (map_changed _ LR i1) as [[[LR' cr]|e] i2].
  2: { destruct S2 as (m2 & E2 & G2). rewrite (sbind_panic _ _ _ _ _ E2). eexists. split; [reflexivity|]. eapply grown_trans; eauto. }
  destruct S2 as (m2 & r' & E2 & G2 & SR & VR' & CR). rewrite (sbind_ok _ _ _ _ _ E2).
  assert (G : grown m m2) by (eapply grown_trans; eauto).
  rewrite SA, SR, !negb_involutive. destruct (ca || cr) eqn:CC; cbn [sret].
  - eexists _, _. split; [reflexivity|]. split; [exact G|]. eexists. split; [reflexivity|].
    unfold sig_view. cbn [ms_args ms_results ms_variadic]. rewrite VR'.
    assert (VA2 : obind (open_cells F m2 a') (all_view (arg_view (view F n m2))) = Some LA').
    { revert VA'. apply slice_frame; [now apply grown_frame|]. now apply args_vf, grown_frame. }
    rewrite VA2. reflexivity.
  - eexists _, _. split; [reflexivity|]. split; [exact G|]. split; reflexivity.
Qed.
Lemma method_sim F m i c b : below F m -> method_view F (view F n m) m c = Some b ->
  match (match b with mkMethod name sig => do '(ns, c) <- qualifySignature_ (qualifyType reg) sig ;; sret (mkMethod name ns, c) end) i with
  | (Panic e, i') => exists m', method_cell rec c (i, m) = (Panic e, (i', m')) /\ grown m m'
  | (Ok (b', ch), i') => exists m' r, method_cell rec c (i, m) = (Ok r, (i', m')) /\ grown m m' /\
      if ch : bool then exists c', r = Some c' /\ method_view F (view F n m') m' c' = Some b' else r = None
  end.
Proof.
  intros B H. destruct c as [| |nm o|]; try discriminate. cbn in H. destruct (sig_view F (view F n m) m o) as [s|] eqn:V; [|discriminate].
  injection H as <-. pose proof (sig_sim F m i o s B V) as R. cbn [method_cell]. unfold sbind.
  destruct (qualifySignature_ (qualifyType reg) s i) as [[[s' ch]|e] i'].
  - destruct R as (m' & r & -> & G & CH). cbn [sret]. destruct ch.
    + destruct CH as (o' & -> & V'). eexists _, _. split; [reflexivity|]. split; [exact G|].
      eexists. split; [reflexivity|]. cbn. now rewrite V'.
    + destruct CH as (-> & ->). eexists _, _. split; [reflexivity|]. split; [exact G|]. reflexivity.
  - destruct R as (m' & -> & G). eauto.
Qed.
End Level.

(** copying a slice *)
Lemma copy_slice {B} (vw : (nat -> bool) -> mem -> cell -> option B)
  (vf : forall F F' m m', frame F F' m m' -> forall c b, vw F m c = Some b -> vw F' m' c = Some b) F m s L :
  below F m -> obind (open_cells F m s) (all_view (vw F m)) = Some L ->
  exists m' s', (do l <- get_cells s ;; new_slice l) m = (Ok s', m') /\ grown m m' /\
    obind (open_cells F m' s') (all_view (vw F m')) = Some L.
Proof.
  intros B' H. destruct (open_cells F m s) as [l|] eqn:OP; [|discriminate]. cbn [obind] in H.
  unfold sbind, get_cells. rewrite (open_is_cells _ _ _ _ OP). unfold new_slice, sbind, new_array, sret.
  eexists _, _. split; [reflexivity|]. split; [apply new_array_grown|].
  cbn [open_cells]. destruct (F (List.length (arrays m))) eqn:FA.
  { exfalso. apply (B' _ FA). apply nth_none. }
  cbn [cells arrays]. rewrite nth_new, Nat.leb_refl, firstn_all. cbn [obind].
  eapply (views_frame vw vf); [|exact H]. apply grown_frame, new_array_grown.
Qed.

Lemma qualify_sim reg : forall n k F m i t T, n <= k -> below F m -> view F n m t = Some T ->
  match qualifyType reg T i with
  | (Panic e, i') => exists m', mqualifyType k reg t (i, m) = (Panic e, (i', m')) /\ grown m m'
  | (Ok (T', ch), i') => exists m' t', mqualifyType k reg t (i, m) = (Ok t', (i', m')) /\ grown m m' /\ view F n m' t' = Some T' /\
      if ch : bool then t' <> t else t' = t /\ T' = T
  end.
Proof.
  induction n as [|n IHn]; intros fuel F m i t T LE B V; [discriminate|]. destruct fuel as [|fuel]; [lia|].
  assert (IH := fun F m i t T => IHn fuel F m i t T (le_S_n _ _ LE)). clear IHn.
  assert (KEEP : forall m', grown m m' -> view F (S n) m' t = Some T).
  { intros m' G. revert V. apply view_frame. now apply grown_frame. }
  cbn [mqualifyType]. cbn [view] in V. destruct t as [|k|e|e|e len|e k|e d|p|p|p|p].
  - injection V as <-. cbn. eexists. split; [reflexivity|apply grown_refl].
  - injection V as <-. cbn. eexists _, _. split; [reflexivity|]. split; [apply grown_refl|]. auto.
  - destruct (view F n m e) as [E|] eqn:VE; [|discriminate]. injection V as <-. cbn [qualifyType].
    pose proof (IH F m i e E B VE) as R. unfold sbind at 1.
    destruct (qualifyType reg E i) as [[[E' ch]|er] i'].
    2: { destruct R as (m' & R & G). rewrite (sbind_panic _ _ _ _ _ R). eauto. }
    destruct R as (m' & e' & R & G & V' & CH). rewrite (sbind_ok _ _ _ _ _ R). destruct ch.
    + destruct (mty_eq e' e); [contradiction|]. unfold PointerType, mPointerType, sbind, slift. rewrite (view_nil _ _ _ _ _ V').
      destruct (m_nil e'); cbn; [eauto|]. eexists _, _. split; [reflexivity|]. split; [exact G|]. rewrite V'. split; [reflexivity|]. congruence.
    + destruct CH as (-> & ->). destruct (mty_eq e e); [|contradiction]. eexists _, _. split; [reflexivity|]. split; [exact G|]. auto.
  - destruct (view F n m e) as [E|] eqn:VE; [|discriminate]. injection V as <-. cbn [qualifyType].
    pose proof (IH F m i e E B VE) as R. unfold sbind at 1.
    destruct (qualifyType reg E i) as [[[E' ch]|er] i'].
    2: { destruct R as (m' & R & G). rewrite (sbind_panic _ _ _ _ _ R). eauto. }
    destruct R as (m' & e' & R & G & V' & CH). rewrite (sbind_ok _ _ _ _ _ R). destruct ch.
    + destruct (mty_eq e' e); [contradiction|]. unfold SliceType, mSliceType, sbind, slift. rewrite (view_nil _ _ _ _ _ V').
      destruct (m_nil e'); cbn; [eauto|]. eexists _, _. split; [reflexivity|]. split; [exact G|]. rewrite V'. split; [reflexivity|]. congruence.
    + destruct CH as (-> & ->). destruct (mty_eq e e); [|contradiction]. eexists _, _. split; [reflexivity|]. split; [exact G|]. auto.
  - destruct (view F n m e) as [E|] eqn:VE; [|discriminate]. injection V as <-. cbn [qualifyType].
    pose proof (IH F m i e E B VE) as R. unfold sbind at 1.
    destruct (qualifyType reg E i) as [[[E' ch]|er] i'].
    2: { destruct R as (m' & R & G). rewrite (sbind_panic _ _ _ _ _ R). eauto. }
    destruct R as (m' & e' & R & G & V' & CH). rewrite (sbind_ok _ _ _ _ _ R). destruct ch.
    + destruct (mty_eq e' e); [contradiction|]. unfold ArrayType, mArrayType, sbind, slift. rewrite (view_nil _ _ _ _ _ V').
      destruct (m_nil e' || _)%bool; cbn; [eauto|]. eexists _, _. split; [reflexivity|]. split; [exact G|]. rewrite V'. split; [reflexivity|]. congruence.
    + destruct CH as (-> & ->). destruct (mty_eq e e); [|contradiction]. eexists _, _. split; [reflexivity|]. split; [exact G|]. auto.
  - destruct (view F n m e) as [E|] eqn:VE; [|discriminate]. cbn [obind] in V.
    destruct (view F n m k) as [K|] eqn:VK; [|discriminate]. injection V as <-. cbn [qualifyType].
    pose proof (IH F m i k K B VK) as R. unfold sbind at 1.
    destruct (qualifyType reg K i) as [[[K' ck]|er] i'].
    2: { destruct R as (m' & R & G). rewrite (sbind_panic _ _ _ _ _ R). eauto. }
    destruct R as (m' & k' & R & G & V' & CH). rewrite (sbind_ok _ _ _ _ _ R).
    assert (VE1 : view F n m' e = Some E) by (revert VE; apply view_frame; now apply grown_frame).
    pose proof (IH F m' i' e E (below_grown _ _ _ G B) VE1) as R2. unfold sbind at 1.
    destruct (qualifyType reg E i') as [[[E' ce]|er] i2].
    2: { destruct R2 as (m2 & R2 & G2). rewrite (sbind_panic _ _ _ _ _ R2). eexists. split; [reflexivity|]. eapply grown_trans; eauto. }
    destruct R2 as (m2 & e' & R2 & G2 & V2 & CH2). rewrite (sbind_ok _ _ _ _ _ R2).
    assert (GG : grown m m2) by (eapply grown_trans; eauto).
    assert (VK2 : view F n m2 k' = Some K') by (revert V'; apply view_frame; now apply grown_frame).
    assert (MK : MMap e' k' <> MMap e k ->
      match (do n' <- slift (MapType K' E') ;; sret (n', true)) i2 with
      | (Ok (T', ch), i'0) => exists (m'0 : mem) (t' : mty), slift (mMapType k' e') (i2, m2) = (Ok t', (i'0, m'0)) /\ grown m m'0 /\
          view F (S n) m'0 t' = Some T' /\ (if ch : bool then t' <> MMap e k else t' = MMap e k /\ T' = TMap E K)
      | (Panic e0, i'0) => exists m'0 : mem, slift (mMapType k' e') (i2, m2) = (Panic e0, (i'0, m'0)) /\ grown m m'0
      end).
    { intros NE. unfold MapType, mMapType, sbind, slift. rewrite (view_nil _ _ _ _ _ VK2), (view_nil _ _ _ _ _ V2).
      destruct (m_nil k' || m_nil e'); cbn [sret]; [eauto|]. eexists _, _. split; [reflexivity|]. split; [exact GG|].
      cbn [view]. rewrite V2, VK2. split; [reflexivity|exact NE]. }
    destruct ce.
    + destruct (mty_eq e' e); [contradiction|]. cbn [orb]. apply MK. congruence.
    + destruct CH2 as (-> & ->). destruct (mty_eq e e); [|contradiction]. cbn [orb]. destruct ck.
      * destruct (mty_eq k' k); [contradiction|]. apply MK. congruence.
      * destruct CH as (-> & ->). destruct (mty_eq k k); [|contradiction].
        eexists _, _. split; [reflexivity|]. split; [exact GG|]. auto.
  - destruct (view F n m e) as [E|] eqn:VE; [|discriminate]. injection V as <-. cbn [qualifyType].
    pose proof (IH F m i e E B VE) as R. unfold sbind at 1.
    destruct (qualifyType reg E i) as [[[E' ch]|er] i'].
    2: { destruct R as (m' & R & G). rewrite (sbind_panic _ _ _ _ _ R). eauto. }
    destruct R as (m' & e' & R & G & V' & CH). rewrite (sbind_ok _ _ _ _ _ R). destruct ch.
    + destruct (mty_eq e' e); [contradiction|]. unfold ChannelType, mChannelType, sbind, slift. rewrite (view_nil _ _ _ _ _ V').
      destruct (m_nil e' || _)%bool; cbn; [eauto|]. eexists _, _. split; [reflexivity|]. split; [exact G|]. rewrite V'. split; [reflexivity|]. congruence.
    + destruct CH as (-> & ->). destruct (mty_eq e e); [|contradiction]. eexists _, _. split; [reflexivity|]. split; [exact G|]. auto.
  - destruct (nth_error (objs m) p) as [[s| | |]|] eqn:N; try discriminate. injection V as <-. cbn [qualifyType].
    match goal with |- context [sbind (on_mem ?x) _ (i, m)] => assert (GS : on_mem x (i, m) = (Ok s, (i, m))) end.
    { unfold on_mem. cbn [snd fst]. now rewrite N. }
    rewrite (sbind_ok _ _ _ _ _ GS).
    unfold sbind, on_imp. cbn [snd fst]. destruct (qualify s reg i) as [[ns|er] i'].
    + destruct (symbol_eqb ns s); cbn [negb sret].
      * eexists _, _. split; [reflexivity|]. split; [apply grown_refl|]. split; [apply KEEP, grown_refl|auto].
      * unfold on_mem, mNamedType, sbind, new_obj, sret. cbn [snd fst].
        eexists _, _. split; [reflexivity|]. split; [apply new_obj_grown|]. cbn [view objs].
        rewrite nth_new. split; [reflexivity|]. intros EQ. injection EQ as EQ. exact (fresh_obj _ _ _ N EQ).
    + eexists. split; [reflexivity|apply grown_refl].
  - destruct (nth_error (objs m) p) as [[|o| |]|] eqn:N; try discriminate.
    destruct (sig_view F (view F n m) m o) as [s|] eqn:VS; [|discriminate]. injection V as <-. cbn [qualifyType].
    pose proof (sig_sim reg n (mqualifyType fuel reg) IH F m i o s B VS) as R.
    assert (GS : on_mem (get_sig p) (i, m) = (Ok o, (i, m))) by (unfold on_mem, get_sig; cbn [snd fst]; now rewrite N).
    rewrite (sbind_ok _ _ _ _ _ GS). unfold sbind at 1.
    destruct (qualifySignature_ (qualifyType reg) s i) as [[[s' ch]|er] i'].
    2: { destruct R as (m' & R & G). rewrite (sbind_panic _ _ _ _ _ R). eauto. }
    destruct R as (m' & r & R & G & CH). rewrite (sbind_ok _ _ _ _ _ R). destruct ch.
    + destruct CH as (o' & -> & V').
      set (m2 := mkMem (objs m' ++ [OSig o']) (arrays m')).
      assert (G2 : grown m' m2) by apply new_obj_grown.
      assert (N2 : nth_error (objs m2) (List.length (objs m')) = Some (OSig o')) by apply nth_new.
      pose proof (sigs_vf n _ _ _ _ (grown_frame F _ _ G2) _ _ V') as V2.
      pose proof (from_sig_sim _ _ _ _ _ _ N2 V2) as RF.
      assert (RO : on_mem (do q <- new_obj (OSig o') ;; mFuncTypeFromSig q) (i', m') =
        (match FuncTypeFromSig s' with Ok _ => Ok (MFunc (List.length (objs m'))) | Panic e => Panic e end, (i', m2))).
      { unfold on_mem, sbind, new_obj. cbn [snd fst]. fold m2. now rewrite RF. }
      rewrite RO. unfold sbind, slift.
      assert (GG : grown m m2) by (eapply grown_trans; eauto).
      assert (FS : forall T', FuncTypeFromSig s' = Ok T' -> T' = TFunc s').
      { unfold FuncTypeFromSig. intros T'. repeat match goal with |- context [if ?x then _ else _] => destruct x end; congruence. }
      destruct (FuncTypeFromSig s') as [T'|er] eqn:FT; cbn [sret].
      * rewrite (FS _ eq_refl). eexists _, _. split; [reflexivity|]. split; [exact GG|]. cbn [view]. rewrite N2, V2.
        split; [reflexivity|]. intros EQ. injection EQ as EQ. destruct G as (G & _). apply G in N. exact (fresh_obj _ _ _ N EQ).
      * eexists. split; [reflexivity|exact GG].
    + destruct CH as (-> & ->). eexists _, _. split; [reflexivity|]. split; [exact G|]. split; auto.
  - destruct (nth_error (objs m) p) as [[| |fs|]|] eqn:N; try discriminate.
    destruct (obind (open_cells F m fs) (all_view (field_view (view F n m)))) as [L|] eqn:VF; [|discriminate].
    injection V as <-. cbn [qualifyType]. unfold qualifyFields_.
    destruct (copy_slice (fun F m => field_view (view F n m)) (fields_vf n) _ _ _ _ B VF) as (m1 & s1 & E1 & G1 & V1).
    assert (R1 : on_mem (mFields (MStruct p)) (i, m) = (Ok s1, (i, m1))) by (unfold on_mem, mFields; cbn [snd fst]; now rewrite N, E1).
    rewrite (sbind_ok _ _ _ _ _ R1).
    pose proof (slice_sim (fun F m => field_view (view F n m)) (fields_vf n) _ _ (field_sim reg n _ IH) _ F _ m1 i (below_grown _ _ _ G1 B) V1) as R.
    unfold sbind at 1. destruct (map_changed _ L i) as [[[L' ch]|er] i'].
    2: { destruct R as (m' & R & G). rewrite (sbind_panic _ _ _ _ _ R). eexists. split; [reflexivity|]. eapply grown_trans; eauto. }
    destruct R as (m' & s' & R & G & SS & V' & CH). rewrite (sbind_ok _ _ _ _ _ R), SS.
    assert (GG : grown m m') by (eapply grown_trans; eauto). destruct ch; cbn [negb sret].
    + unfold on_mem, mStructType, sbind, new_obj, sret. cbn [snd fst].
      set (m2 := mkMem (objs m' ++ [OStruct s']) (arrays m')). assert (G2 : grown m' m2) by apply new_obj_grown.
      eexists _, _. split; [reflexivity|]. split; [eapply grown_trans; eauto|]. cbn [view]. unfold m2 at 1. cbn [objs]. rewrite nth_new.
      assert (V2 : obind (open_cells F m2 s') (all_view (field_view (view F n m2))) = Some L').
      { revert V'. apply slice_frame; [now apply grown_frame|]. now apply fields_vf, grown_frame. }
      rewrite V2. split; [reflexivity|]. intros EQ. injection EQ as EQ. destruct GG as (GG & _). apply GG in N. exact (fresh_obj _ _ _ N EQ).
    + eexists _, _. split; [reflexivity|]. split; [exact GG|]. split; auto.
  - destruct (nth_error (objs m) p) as [[| | |ms es]|] eqn:N; try discriminate.
    destruct (obind (open_cells F m ms) (all_view (method_view F (view F n m) m))) as [M|] eqn:VM; [|discriminate]. cbn [obind] in V.
    destruct (obind (open_cells F m es) (all_view sym_view)) as [E|] eqn:VE; [|discriminate].
    injection V as <-. cbn [qualifyType]. unfold qualifySymbols, qualifyMethods_.
    assert (syms_vf : forall F F' m m', frame F F' m m' -> forall c b, sym_view c = Some b -> sym_view c = Some b) by auto.
    destruct (copy_slice (fun _ _ => sym_view) syms_vf _ _ _ _ B VE) as (m1 & s1 & E1 & G1 & V1).
    assert (R1 : on_mem (mEmbeds (MInterface p)) (i, m) = (Ok s1, (i, m1))) by (unfold on_mem, mEmbeds; cbn [snd fst]; now rewrite N, E1).
    rewrite (sbind_ok _ _ _ _ _ R1).
    pose proof (slice_sim (fun _ _ => sym_view) syms_vf _ _ (sym_sim reg) _ F _ m1 i (below_grown _ _ _ G1 B) V1) as R.
    unfold sbind at 1. destruct (map_changed _ E i) as [[[E' ce]|er] i1].
    2: { destruct R as (m' & R & G). rewrite (sbind_panic _ _ _ _ _ R). eexists. split; [reflexivity|]. eapply grown_trans; eauto. }
    destruct R as (m2 & s2 & R & G2 & SS & V2 & CH). rewrite (sbind_ok _ _ _ _ _ R).
    assert (G12 : grown m m2) by (eapply grown_trans; eauto).
    assert (N2 : nth_error (objs m2) p = Some (OInterface ms es)) by (now apply G12).
    assert (VM2 : obind (open_cells F m2 ms) (all_view (method_view F (view F n m2) m2)) = Some M).
    { revert VM. apply slice_frame; [now apply grown_frame|]. now apply methods_vf, grown_frame. }
    assert (B2 : below F m2) by (eapply below_grown; eauto).
    destruct (copy_slice (fun F m => method_view F (view F n m) m) (methods_vf n) _ _ _ _ B2 VM2) as (m3 & s3 & E3 & G3 & V3).
    assert (R3 : on_mem (mMethods (MInterface p)) (i1, m2) = (Ok s3, (i1, m3))) by (unfold on_mem, mMethods; cbn [snd fst]; now rewrite N2, E3).
    rewrite (sbind_ok _ _ _ _ _ R3).
    pose proof (slice_sim (fun F m => method_view F (view F n m) m) (methods_vf n) _ _ (method_sim reg n _ IH) _ F _ m3 i1 (below_grown _ _ _ G3 B2) V3) as R4.
    unfold sbind at 1. destruct (map_changed _ M i1) as [[[M' cm]|er] i2].
    2: { destruct R4 as (m' & R4 & G). rewrite (sbind_panic _ _ _ _ _ R4). eexists. split; [reflexivity|].
         eapply grown_trans; [exact G12|]. eapply grown_trans; eauto. }
    destruct R4 as (m4 & s4 & R4 & G4 & SS4 & V4 & CH4). rewrite (sbind_ok _ _ _ _ _ R4), SS, SS4.
    assert (G24 : grown m2 m4) by (eapply grown_trans; eauto).
    assert (GG : grown m m4) by (eapply grown_trans; [exact G12|exact G24]).
    rewrite <- negb_orb. destruct (ce || cm); cbn [negb sret].
    + unfold on_mem, mInterfaceType, sbind, new_obj, sret. cbn [snd fst].
      set (m5 := mkMem (objs m4 ++ [OInterface s4 s2]) (arrays m4)). assert (G5 : grown m4 m5) by apply new_obj_grown.
      eexists _, _. split; [reflexivity|]. split; [eapply grown_trans; eauto|]. cbn [view]. unfold m5 at 1. cbn [objs]. rewrite nth_new.
      assert (V5 : obind (open_cells F m5 s4) (all_view (method_view F (view F n m5) m5)) = Some M').
      { revert V4. apply slice_frame; [now apply grown_frame|]. now apply methods_vf, grown_frame. }
      assert (V6 : obind (open_cells F m5 s2) (all_view sym_view) = Some E').
      { revert V2. apply slice_frame; [|auto]. apply grown_frame. eapply grown_trans; eauto. }
      rewrite V5. cbn [obind]. rewrite V6. split; [reflexivity|].
      intros EQ. injection EQ as EQ. destruct GG as (GG & _). apply GG in N. exact (fresh_obj _ _ _ N EQ).
    + eexists _, _. split; [reflexivity|]. split; [exact GG|]. split; auto.
Qed.
