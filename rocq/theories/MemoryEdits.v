(** Changing signatures in memory. *)
From Verif Require Import Base GoPath Types SpecTypes SpecRender Imports Memory SpecMemory MemoryProofs MemoryQualify.

Lemma firstn_replace {A} k n (c : A) l : k <= n -> firstn k (replace n c l) = firstn k l.
Proof. revert k n. induction l as [|x r IH]; intros [|k] [|n] H; cbn; auto; try lia. f_equal. apply IH. lia. Qed.
Lemma firstn_replace_S {A} n (c : A) l : n < List.length l -> firstn (S n) (replace n c l) = firstn n l ++ [c].
Proof.
  revert n. induction l as [|x r IH]; intros n H; [cbn in H; lia|]. destruct n as [|n]; [reflexivity|].
  cbn in H |- *. f_equal. apply (IH n). lia.
Qed.
Lemma cells_grown m m' s l : grown m m' -> cells m s = Some l -> cells m' s = Some l.
Proof.
  intros (_ & G). destruct s as [|a n]; cbn [cells]; auto. destruct (nth_error (arrays m) a) eqn:N; [|discriminate].
  now rewrite (G _ _ N).
Qed.
Lemma cells_array m s l a : cells m s = Some l -> on_array s a -> nth_error (arrays m) a <> None.
Proof. destruct s as [|b n]; cbn; [contradiction|]. intros H <-. destruct (nth_error (arrays m) b); congruence. Qed.
Lemma cells_len m s l : cells m s = Some l -> s_len s = List.length l.
Proof.
  destruct s as [|b n]; cbn; [now injection 1 as <-|]. destruct (nth_error (arrays m) b); [|discriminate].
  destruct (Nat.leb n (List.length l0)) eqn:E; [|discriminate]. injection 1 as <-. apply Nat.leb_le in E. rewrite firstn_length. lia.
Qed.

Section Edits.
Variable extra : nat -> nat.
Lemma append_effect s c m l : cells m s = Some l ->
  exists s' m', append_cell extra s c m = (Ok s', m') /\ objs m' = objs m /\ cells m' s' = Some (l ++ [c]) /\
    (forall s2 l2, cells m s2 = Some l2 -> (forall a, on_array s a -> on_array s2 a -> s_len s2 <= s_len s) -> cells m' s2 = Some l2) /\
    (forall a, on_array s' a -> on_array s a /\ s_len s' = S (s_len s) \/ nth_error (arrays m) a = None).
Proof.
  intros C.
  assert (MOVED : forall l, exists s' m',
    (do a <- new_array (l ++ [c] ++ repeat (CArg "" MNil) (extra (List.length l))) ;; sret (SArr a (S (List.length l)))) m = (Ok s', m') /\
    objs m' = objs m /\ cells m' s' = Some (l ++ [c]) /\ grown m m' /\ (forall a, on_array s' a -> nth_error (arrays m) a = None)).
  { intros k. unfold sbind, new_array, sret. eexists _, _. split; [reflexivity|]. split; [reflexivity|]. split.
    - cbn [cells arrays]. rewrite nth_new, !app_length. cbn [List.length]. rewrite (proj2 (Nat.leb_le _ _)) by lia.
      rewrite app_assoc. rewrite firstn_app.
      assert (LE : S (List.length k) = List.length (k ++ [c])) by (rewrite app_length; cbn; lia).
      rewrite LE, firstn_all, Nat.sub_diag, firstn_O, app_nil_r. reflexivity.
    - split; [apply new_array_grown|]. intros a E. cbn in E. subst a. apply nth_none. }
  destruct s as [|a n].
  - cbn in C. injection C as <-. destruct (MOVED []) as (s' & m' & E & O & CE & G & FR).
    exists s', m'. split; [exact E|]. split; [exact O|]. split; [exact CE|]. split; [|intros; right; auto].
    intros s2 l2 C2 _. eapply cells_grown; eauto.
  - pose proof (cells_len _ _ _ C) as LN. cbn [s_len] in LN. cbn [cells] in C. cbn [append_cell].
    destruct (nth_error (arrays m) a) as [k|] eqn:N; [|discriminate].
    destruct (Nat.leb n (List.length k)) eqn:LE; [|discriminate]. injection C as <-.
    destruct (Nat.ltb n (List.length k)) eqn:LT.
    + apply Nat.ltb_lt in LT. unfold sbind, set_cell, sret. eexists _, _. split; [reflexivity|]. split; [reflexivity|].
      assert (LA : a < List.length (arrays m)) by (apply nth_error_Some; congruence).
      split; [|split].
      * cbn [cells arrays]. rewrite replace_nth by exact LA. rewrite (nth_error_nth' _ _ _ _ N), replace_length.
        rewrite (proj2 (Nat.leb_le _ _)) by lia. f_equal. now apply firstn_replace_S.
      * intros s2 l2 C2 H. destruct s2 as [|b n2]; [exact C2|]. cbn [cells arrays] in *.
        destruct (Nat.eq_dec b a) as [->|NE].
        -- rewrite replace_nth by exact LA. rewrite (nth_error_nth' _ _ _ _ N), replace_length. rewrite N in C2.
           destruct (Nat.leb n2 (List.length k)); [|discriminate]. injection C2 as <-. f_equal. apply firstn_replace. apply (H a); reflexivity.
        -- now rewrite replace_other.
      * intros b E. left. cbn in E |- *. auto.
    + destruct (MOVED (firstn n k)) as (s' & m' & E & O & CE & G & FR).
      exists s', m'. split; [exact E|]. split; [exact O|]. split; [exact CE|]. split; [|intros; right; auto].
      intros s2 l2 C2 _. eapply cells_grown; eauto.
Qed.

Lemma set_obj_same m p o o' : nth_error (objs m) p = Some o -> nth_error (replace p o' (objs m)) p = Some o'.
Proof. intros H. apply replace_nth. apply nth_error_Some. congruence. Qed.

Lemma listing_parts m p A R v : listing m p = Some (A, R, v) <->
  exists o, nth_error (objs m) p = Some (OSig o) /\ cells m (ms_args o) = Some A /\ cells m (ms_results o) = Some R /\ v = ms_variadic o.
Proof.
  unfold listing. split.
  - intros H. destruct (nth_error (objs m) p) as [[|o| |]|]; try discriminate. exists o. split; [reflexivity|].
    destruct (cells m (ms_args o)) as [A0|]; [|discriminate]. cbn [obind] in H. destruct (cells m (ms_results o)) as [R0|]; [|discriminate].
    cbn [obind] in H. injection H as -> -> <-. auto.
  - intros (o & N & CA & CR & ->). rewrite N, CA. cbn [obind]. now rewrite CR.
Qed.
Lemma cells_objs o1 o2 a s : cells (mkMem o1 a) s = cells (mkMem o2 a) s.
Proof. now destruct s. Qed.
Lemma in_replace {A} i (v : A) l x : In x (replace i v l) -> x = v \/ In x l.
Proof. revert i. induction l as [|y r IH]; intros [|i] H; cbn in *; [tauto|tauto|intuition|]. destruct H as [->|H]; auto. destruct (IH i H); auto. Qed.
Lemma in_firstn {A} n (x : A) l : In x (firstn n l) -> In x l.
Proof. intros H. rewrite <- (firstn_skipn n l). apply in_or_app. now left. Qed.
(** The slices after an append. *)
Lemma append_slices s c m s' m' sq : cell_slices c = [] -> append_cell extra s c m = (Ok s', m') -> slice_in m' sq -> slice_in m sq.
Proof.
  intros NC E [(p & o & N & Hin)|(a & l & c0 & N & Hc & Hin)].
  - assert (O : objs m' = objs m).
    { destruct s as [|a n]; cbn [append_cell] in E; [unfold sbind, new_array, sret in E; now injection E as <- <-|].
      destruct (nth_error (arrays m) a); [|discriminate]. destruct (Nat.ltb n (List.length l)); unfold sbind, set_cell, new_array, sret in E; now injection E as <- <-. }
    rewrite O in N. left. exists p, o. auto.
  - right.
    assert (MOVED : forall k k0 s1 m1, (do a <- new_array (k ++ [c] ++ repeat (CArg "" MNil) (extra (List.length k))) ;; sret (SArr a (S (List.length k)))) m = (Ok s1, m1) ->
      nth_error (arrays m1) a = Some l -> (forall x, In x k -> In x k0) -> (k0 = [] \/ exists b, nth_error (arrays m) b = Some k0) ->
      exists a l c, nth_error (arrays m) a = Some l /\ In c l /\ In sq (cell_slices c)).
    { intros k k0 s1 m1 E1 N1 SUB WH. unfold sbind, new_array, sret in E1. injection E1 as <- <-. cbn [arrays] in N1.
      destruct (Nat.lt_ge_cases a (List.length (arrays m))) as [L|L].
      - rewrite nth_error_app1 in N1 by exact L. exists a, l, c0. auto.
      - rewrite nth_error_app2 in N1 by exact L. destruct (a - List.length (arrays m)) as [|[|?]]; cbn in N1; try discriminate. injection N1 as <-.
        apply in_app_or in Hc as [Hc|[<-|Hc]].
        + destruct WH as [->|(b & WH)]; [destruct (SUB _ Hc)|]. exists b, k0, c0. auto.
        + rewrite NC in Hin. destruct Hin.
        + apply repeat_spec in Hc. subst c0. destruct Hin. }
    destruct s as [|b n]; cbn [append_cell] in E.
    + eapply (MOVED [] []); eauto.
    + destruct (nth_error (arrays m) b) as [k|] eqn:Nb; [|discriminate]. destruct (Nat.ltb n (List.length k)).
      * unfold sbind, set_cell, sret in E. injection E as <- <-. cbn [arrays] in N. rewrite (nth_error_nth' _ _ _ _ Nb) in N.
        destruct (Nat.eq_dec a b) as [->|NE].
        -- rewrite replace_nth in N by (apply nth_error_Some; congruence). injection N as <-. apply in_replace in Hc as [->|Hc]; [rewrite NC in Hin; destruct Hin|].
           exists b, k, c0. auto.
        -- rewrite replace_other in N by auto. exists a, l, c0. auto.
      * eapply (MOVED (firstn n k) k); eauto. intros x. apply in_firstn.
Qed.
Lemma replaced_slices m p o sq : slice_in (mkMem (replace p o (objs m)) (arrays m)) sq -> slice_in m sq \/ In sq (obj_slices o).
Proof.
  intros [(q & oq & N & Hin)|(a & l & c0 & N & Hc & Hin)]; cbn [objs arrays] in N.
  - destruct (Nat.lt_ge_cases p (List.length (objs m))) as [L|L].
    + destruct (Nat.eq_dec q p) as [->|NE]; [rewrite replace_nth in N by exact L; injection N as <-; auto|].
      rewrite replace_other in N by auto. left. left. exists q, oq. auto.
    + assert (RO : forall A i (v : A) l, List.length l <= i -> replace i v l = l).
      { intros A i v l. revert i. induction l; intros [|i] LE; cbn in *; auto; [lia|]. f_equal. apply IHl. lia. }
      rewrite RO in N by exact L. left. left. exists q, oq. auto.
  - left. right. exists a, l, c0. auto.
Qed.

(** What one call does. *)
Record effect (p : nat) (m m' : mem) : Prop := mkEffect {
  e_self : exists o, nth_error (objs m) p = Some (OSig o);
  e_objs : forall q o, q <> p -> nth_error (objs m) q = Some o -> nth_error (objs m') q = Some o;
  e_cells : forall s l, slice_in m s -> cells m s = Some l -> cells m' s = Some l;
  e_sound : sound m';
  e_unshared : unshared m' p
}.
Lemma edit_effect p e m L : listing m p = Some L -> sound m -> unshared m p ->
  exists m', do_edit extra p e m = (Ok tt, m') /\ listing m' p = Some (edited e L) /\ effect p m m'.
Proof.
  intros HL SO (AP & UN). destruct L as ((A & R) & v). apply listing_parts in HL as (o & N & CA & CR & ->).
  assert (HA : slice_in m (ms_args o)) by (left; exists p, (OSig o); cbn; auto).
  assert (HR : slice_in m (ms_results o)) by (left; exists p, (OSig o); cbn; auto).
  assert (APP : forall s l c s' m1 (first : bool), (if first then s = ms_args o else s = ms_results o) -> cells m s = Some l -> append_cell extra s c m = (Ok s', m1) ->
    objs m1 = objs m -> cells m1 s' = Some (l ++ [c]) -> cell_slices c = [] ->
    (forall s2 l2, cells m s2 = Some l2 -> (forall a, on_array s a -> on_array s2 a -> s_len s2 <= s_len s) -> cells m1 s2 = Some l2) ->
    (forall a, on_array s' a -> on_array s a /\ s_len s' = S (s_len s) \/ nth_error (arrays m) a = None) ->
    let o' := if first then mkMSig s' (ms_results o) (ms_variadic o) else mkMSig (ms_args o) s' (ms_variadic o) in
    effect p m (mkMem (replace p (OSig o') (objs m)) (arrays m1)) /\
    (forall s2 l2, slice_in m s2 -> cells m s2 = Some l2 -> cells (mkMem (replace p (OSig o') (objs m)) (arrays m1)) s2 = Some l2)).
  { intros s l c s' m1 first HS Cs E O Cs' NC KEEP NEW o'.
    assert (IS : In s [ms_args o; ms_results o]) by (destruct first; subst s; cbn; auto).
    assert (K2 : forall s2 l2, slice_in m s2 -> cells m s2 = Some l2 -> cells (mkMem (replace p (OSig o') (objs m)) (arrays m1)) s2 = Some l2).
    { intros s2 l2 Hs2 C2. rewrite (cells_objs _ (objs m1)). replace (mkMem (objs m1) (arrays m1)) with m1 by now destruct m1.
      apply KEEP; auto. intros a Ha Hb. eapply UN; eauto. }
    assert (C' : cells (mkMem (replace p (OSig o') (objs m)) (arrays m1)) s' = Some (l ++ [c])).
    { rewrite (cells_objs _ (objs m1)). now replace (mkMem (objs m1) (arrays m1)) with m1 by now destruct m1. }
    assert (SL : forall sq, slice_in (mkMem (replace p (OSig o') (objs m)) (arrays m1)) sq -> slice_in m sq \/ sq = s').
    { intros sq Hq. destruct (replaced_slices m1 p (OSig o') sq) as [H|H]; [rewrite O; exact Hq|left; eapply append_slices; eauto|].
      unfold o' in H. destruct first; cbn in H; destruct H as [<-|[<-|[]]]; auto. }
    split; [|exact K2]. constructor.
    - eauto.
    - intros q oq NE Nq. cbn [objs]. now rewrite replace_other.
    - exact K2.
    - intros sq Hq. destruct (SL sq Hq) as [H| ->]; [|congruence]. specialize (SO sq H). destruct (cells m sq) as [l2|] eqn:C2; [|congruence].
      rewrite (K2 _ _ H C2). discriminate.
    - split.
      + intros o2 a H2 Ha Hr. cbn [objs] in H2. rewrite (set_obj_same _ _ _ _ N) in H2. injection H2 as <-. unfold o' in *. destruct first; cbn [ms_args ms_results] in *.
        * subst s. destruct (NEW a Ha) as [(Hs & _)|Hf]; [exact (AP _ a N Hs Hr)|exact (cells_array _ _ _ _ CR Hr Hf)].
        * subst s. destruct (NEW a Hr) as [(Hs & _)|Hf]; [exact (AP _ a N Ha Hs)|exact (cells_array _ _ _ _ CA Ha Hf)].
      + intros op sp sq a H2 Hsp Hsq H3 H4. cbn [objs] in H2. rewrite (set_obj_same _ _ _ _ N) in H2. injection H2 as <-.
        assert (WH : sp = s' \/ (In sp [ms_args o; ms_results o] /\ ~ on_array s' a)).
        { unfold o' in Hsp. destruct first; cbn [ms_args ms_results In] in Hsp; subst s.
          - destruct Hsp as [<-|[<-|[]]]; auto. right. split; [cbn; auto|]. intros Hx. destruct (NEW a Hx) as [(Hs & _)|Hf]; [exact (AP _ a N Hs H3)|exact (cells_array _ _ _ _ CR H3 Hf)].
          - destruct Hsp as [<-|[<-|[]]]; auto. right. split; [cbn; auto|]. intros Hx. destruct (NEW a Hx) as [(Hs & _)|Hf]; [exact (AP _ a N H3 Hs)|exact (cells_array _ _ _ _ CA H3 Hf)]. }
        destruct (SL sq Hsq) as [H| ->].
        * destruct WH as [->|(WH & _)]; [|eapply UN; eauto]. destruct (NEW a H3) as [(Hs & ->)|Hf].
          -- pose proof (UN _ _ _ a N IS H Hs H4). lia.
          -- exfalso. specialize (SO sq H). destruct (cells m sq) as [l2|] eqn:C2; [|congruence]. exact (cells_array _ _ _ _ C2 H4 Hf).
        * destruct WH as [->|(_ & WH)]; [lia|contradiction]. }
  destruct e as [nm t|nm t|v]; cbn [do_edit edited].
  - destruct (append_effect (ms_args o) (CArg nm t) m A CA) as (s' & m1 & E & O & CE & KEEP & NEW).
    unfold mAddArg, sbind, get_sig. rewrite N, E. unfold set_obj. rewrite O. eexists. split; [reflexivity|].
    destruct (APP _ _ _ s' m1 true eq_refl CA E O CE eq_refl KEEP NEW) as (EF & K2). split; [|exact EF].
    apply listing_parts. eexists. split; [cbn [objs]; exact (set_obj_same _ _ _ _ N)|]. cbn [ms_args ms_results ms_variadic].
    split; [|split; [|reflexivity]].
    + rewrite (cells_objs _ (objs m1)). now replace (mkMem (objs m1) (arrays m1)) with m1 by now destruct m1.
    + now apply K2.
  - destruct (append_effect (ms_results o) (CArg nm t) m R CR) as (s' & m1 & E & O & CE & KEEP & NEW).
    unfold mAddResult, sbind, get_sig. rewrite N, E. unfold set_obj. rewrite O. eexists. split; [reflexivity|].
    destruct (APP _ _ _ s' m1 false eq_refl CR E O CE eq_refl KEEP NEW) as (EF & K2). split; [|exact EF].
    apply listing_parts. eexists. split; [cbn [objs]; exact (set_obj_same _ _ _ _ N)|]. cbn [ms_args ms_results ms_variadic].
    split; [|split; [|reflexivity]].
    + now apply K2.
    + rewrite (cells_objs _ (objs m1)). now replace (mkMem (objs m1) (arrays m1)) with m1 by now destruct m1.
  - unfold mSetVariadic, sbind, get_sig. rewrite N. unfold set_obj. eexists. split; [reflexivity|].
    assert (SL : forall sq, slice_in (mkMem (replace p (OSig (mkMSig (ms_args o) (ms_results o) v)) (objs m)) (arrays m)) sq -> slice_in m sq).
    { intros sq Hq. apply replaced_slices in Hq as [H|[<-|[<-|[]]]]; auto. }
    assert (K2 : forall s l, cells m s = Some l -> cells (mkMem (replace p (OSig (mkMSig (ms_args o) (ms_results o) v)) (objs m)) (arrays m)) s = Some l).
    { intros s l H. rewrite (cells_objs _ (objs m)). now replace (mkMem (objs m) (arrays m)) with m by now destruct m. }
    split.
    + apply listing_parts. eexists. split; [cbn [objs]; exact (set_obj_same _ _ _ _ N)|]. cbn [ms_args ms_results ms_variadic]. auto.
    + constructor.
      * eauto.
      * intros q oq NE Nq. cbn [objs]. now rewrite replace_other.
      * auto.
      * intros sq Hq. apply SL in Hq. specialize (SO sq Hq). destruct (cells m sq) eqn:C; [|congruence]. rewrite (K2 _ _ C). discriminate.
      * split.
        -- intros o2 a H2. cbn [objs] in H2. rewrite (set_obj_same _ _ _ _ N) in H2. injection H2 as <-. exact (AP _ a N).
        -- intros op sp sq a H2 Hsp Hsq. cbn [objs] in H2. rewrite (set_obj_same _ _ _ _ N) in H2. injection H2 as <-. cbn [ms_args ms_results] in Hsp.
           apply SL in Hsq. eapply UN; eauto.
Qed.

(** Types that do not contain the signature keep their meaning. *)
Lemma all_view_in {B} (f g : cell -> option B) l : forall L, (forall c b, In c l -> f c = Some b -> g c = Some b) -> all_view f l = Some L -> all_view g l = Some L.
Proof.
  induction l as [|c r IH]; intros L H E; cbn in *; auto. destruct (f c) as [b|] eqn:Fc; [|discriminate]. cbn in E.
  destruct (all_view f r) as [L'|] eqn:Er; [|discriminate]. rewrite (H c b (or_introl eq_refl) Fc). cbn.
  rewrite (IH L' (fun c b Hin => H c b (or_intror Hin)) eq_refl). exact E.
Qed.
Lemma open_everywhere m s : open_cells everywhere m s = cells m s.
Proof. now destruct s. Qed.
Lemma cells_in m s l c : cells m s = Some l -> In c l -> exists a k, nth_error (arrays m) a = Some k /\ In c k.
Proof.
  destruct s as [|a n]; cbn [cells]; [injection 1 as <-; contradiction|]. destruct (nth_error (arrays m) a) as [k|] eqn:N; [|discriminate].
  destruct (Nat.leb n (List.length k)); [|discriminate]. injection 1 as <-. intros H. exists a, k. split; auto. now apply in_firstn in H.
Qed.
Lemma effect_view p m m' : effect p m m' -> forall n t T, view everywhere n m t = Some T -> ~ within m t (MFunc p) -> view everywhere n m' t = Some T.
Proof.
  intros EF. induction n as [|n IH]; intros t T H NW; [discriminate|].
  assert (SUB : forall v, direct m t v -> forall V, view everywhere n m v = Some V -> view everywhere n m' v = Some V).
  { intros v D V HV. apply IH; auto. intros W. apply NW. eapply w_part; eauto. }
  assert (SL : forall {B} (f g : cell -> option B) s L, slice_in m s -> (forall l c b, cells m s = Some l -> In c l -> f c = Some b -> g c = Some b) ->
    obind (open_cells everywhere m s) (all_view f) = Some L -> obind (open_cells everywhere m' s) (all_view g) = Some L).
  { intros B f g s L HS HC E. rewrite open_everywhere in *. destruct (cells m s) as [l|] eqn:C; [|discriminate].
    rewrite (e_cells _ _ _ EF _ _ HS C). cbn [obind] in *. revert E. apply all_view_in. eauto. }
  assert (SG : forall o s, slice_in m (ms_args o) -> slice_in m (ms_results o) ->
    (forall s l c u, In s [ms_args o; ms_results o] -> cells m s = Some l -> In c l -> cell_type c = Some u -> direct m t u) ->
    sig_view everywhere (view everywhere n m) m o = Some s -> sig_view everywhere (view everywhere n m') m' o = Some s).
  { intros o s HA HR HD E. unfold sig_view in *.
    assert (AV : forall s l c b, In s [ms_args o; ms_results o] -> cells m s = Some l -> In c l -> arg_view (view everywhere n m) c = Some b -> arg_view (view everywhere n m') c = Some b).
    { intros s0 l c b Hs C Hc E0. destruct c as [nm u| | |]; try discriminate. cbn in *. destruct (view everywhere n m u) as [V|] eqn:EV; [|discriminate].
      rewrite (SUB u (HD _ _ _ u Hs C Hc eq_refl) V EV). exact E0. }
    destruct (obind (open_cells everywhere m (ms_args o)) _) as [LA|] eqn:EA; [|discriminate]. cbn [obind] in E.
    rewrite (SL _ _ (arg_view (view everywhere n m')) _ _ HA (fun l c b => AV _ l c b (or_introl eq_refl)) EA). cbn [obind].
    destruct (obind (open_cells everywhere m (ms_results o)) _) as [LR|] eqn:ER; [|discriminate]. cbn [obind] in E.
    rewrite (SL _ _ (arg_view (view everywhere n m')) _ _ HR (fun l c b => AV _ l c b (or_intror (or_introl eq_refl))) ER). exact E. }
  assert (NP : t <> MFunc p) by (intros ->; apply NW; constructor).
  destruct t; cbn [view] in *; auto.
  - destruct (view everywhere n m t) eqn:E; [|discriminate]. now rewrite (SUB t (d_ptr _ _) _ E).
  - destruct (view everywhere n m t) eqn:E; [|discriminate]. now rewrite (SUB t (d_slice _ _) _ E).
  - destruct (view everywhere n m t) eqn:E; [|discriminate]. now rewrite (SUB t (d_array _ _ _) _ E).
  - destruct (view everywhere n m t1) eqn:E1; [|discriminate]. cbn [obind] in *. destruct (view everywhere n m t2) eqn:E2; [|discriminate].
    rewrite (SUB t1 (d_elem _ _ _) _ E1). cbn [obind]. now rewrite (SUB t2 (d_key _ _ _) _ E2).
  - destruct (view everywhere n m t) eqn:E; [|discriminate]. now rewrite (SUB t (d_chan _ _ _) _ E).
  - destruct (nth_error (objs m) p0) as [[s| | |]|] eqn:N; try discriminate.
    assert (NE : p0 <> p) by (intros ->; destruct (e_self _ _ _ EF); congruence). now rewrite (e_objs _ _ _ EF _ _ NE N).
  - assert (NE : p0 <> p) by congruence. destruct (nth_error (objs m) p0) as [[|o| |]|] eqn:N; try discriminate.
    rewrite (e_objs _ _ _ EF _ _ NE N). destruct (sig_view everywhere (view everywhere n m) m o) as [s|] eqn:E; [|discriminate].
    rewrite (SG o s); auto; [left; exists p0, (OSig o); cbn; auto|left; exists p0, (OSig o); cbn; auto|].
    intros. eapply d_func; eauto.
  - destruct (nth_error (objs m) p0) as [[| |fs|]|] eqn:N; try discriminate.
    assert (NE : p0 <> p) by (intros ->; destruct (e_self _ _ _ EF); congruence). rewrite (e_objs _ _ _ EF _ _ NE N).
    destruct (obind (open_cells everywhere m fs) _) as [L|] eqn:E; [|discriminate].
    rewrite (SL _ (field_view (view everywhere n m)) (field_view (view everywhere n m')) fs L); auto; [left; exists p0, (OStruct fs); cbn; auto|].
    intros l c b C Hc E0. destruct c as [|nm u tag| |]; try discriminate. cbn in *. destruct (view everywhere n m u) as [V|] eqn:EV; [|discriminate].
    now rewrite (SUB u (d_field _ _ _ _ _ _ _ N C Hc) V EV).
  - destruct (nth_error (objs m) p0) as [[| | |ms es]|] eqn:N; try discriminate.
    assert (NE : p0 <> p) by (intros ->; destruct (e_self _ _ _ EF); congruence). rewrite (e_objs _ _ _ EF _ _ NE N).
    destruct (obind (open_cells everywhere m ms) _) as [LM|] eqn:EM; [|discriminate]. cbn [obind] in H.
    destruct (obind (open_cells everywhere m es) _) as [LE|] eqn:EE; [|discriminate].
    rewrite (SL _ (method_view everywhere (view everywhere n m) m) (method_view everywhere (view everywhere n m') m') ms LM); [cbn [obind]| | |exact EM].
    + rewrite (SL _ sym_view sym_view es LE); auto. left. exists p0, (OInterface ms es). cbn. auto.
    + left. exists p0, (OInterface ms es). cbn. auto.
    + intros l c b C Hc E0. destruct c as [| |nm o|]; try discriminate. cbn [method_view] in *.
      destruct (sig_view everywhere (view everywhere n m) m o) as [s|] eqn:ES; [|discriminate].
      destruct (cells_in _ _ _ _ C Hc) as (a & k & Na & Hk).
      rewrite (SG o s); auto; [right; exists a, k, (CMethod nm o); cbn; auto|right; exists a, k, (CMethod nm o); cbn; auto|].
      intros. eapply d_method; eauto.
Qed.
Lemma args_mono F m n k l L : n <= k -> all_view (arg_view (view F n m)) l = Some L -> all_view (arg_view (view F k m)) l = Some L.
Proof. intros LE. apply all_view_impl. intros c b. apply arg_frame. intros t T. now apply view_mono. Qed.
Lemma args_later m1 m2 n l : (forall c u U, In c l -> cell_type c = Some u -> denotes m1 u U -> denotes m2 u U) ->
  forall L, all_view (arg_view (view everywhere n m1)) l = Some L -> exists k, all_view (arg_view (view everywhere k m2)) l = Some L.
Proof.
  induction l as [|c r IH]; intros H L E; [exists 0; exact E|]. cbn in E. destruct (arg_view (view everywhere n m1) c) as [b|] eqn:Fc; [|discriminate].
  cbn in E. destruct (all_view _ r) as [L'|] eqn:Er; [|discriminate]. injection E as <-.
  destruct (IH (fun c u U Hin => H c u U (or_intror Hin)) L' eq_refl) as (k & Hk).
  destruct c as [nm t| | |]; try discriminate. cbn in Fc. destruct (view everywhere n m1 t) as [T|] eqn:V; [|discriminate]. injection Fc as <-.
  destruct (H _ t T (or_introl eq_refl) eq_refl (ex_intro _ n V)) as (k2 & V2).
  exists (Nat.max k k2). cbn. rewrite (view_mono _ _ _ _ _ _ (Nat.le_max_r k k2) V2). cbn.
  now rewrite (args_mono _ _ _ _ _ _ (Nat.le_max_l k k2) Hk).
Qed.
Lemma sig_denotes_iff m p s : sig_denotes m p s <-> exists n A R v LA LR, listing m p = Some (A, R, v) /\
  all_view (arg_view (view everywhere n m)) A = Some LA /\ all_view (arg_view (view everywhere n m)) R = Some LR /\ s = mkSig LA LR v.
Proof.
  unfold sig_denotes, listing, sig_view. split.
  - intros (n & o & N & H). rewrite N, !open_everywhere in *. destruct (cells m (ms_args o)) as [A|]; [|discriminate]. cbn [obind] in H.
    destruct (all_view _ A) as [LA|] eqn:VA; [|discriminate]. cbn [obind] in H. destruct (cells m (ms_results o)) as [R|]; [|discriminate].
    cbn [obind] in H. destruct (all_view _ R) as [LR|] eqn:VR; [|discriminate]. injection H as <-. exists n, A, R, (ms_variadic o), LA, LR. auto.
  - intros (n & A & R & v & LA & LR & H & VA & VR & ->). destruct (nth_error (objs m) p) as [[|o| |]|] eqn:N; try discriminate.
    exists n, o. split; [reflexivity|]. rewrite !open_everywhere. destruct (cells m (ms_args o)) as [A0|]; [|discriminate]. cbn [obind] in H |- *.
    destruct (cells m (ms_results o)) as [R0|]; [|discriminate]. cbn [obind] in H |- *. injection H as -> -> <-.
    rewrite VA. cbn [obind]. rewrite VR. reflexivity.
Qed.
Lemma func_denotes m p T : denotes m (MFunc p) T <-> exists s, T = TFunc s /\ sig_denotes m p s.
Proof.
  unfold denotes, sig_denotes. split.
  - intros ([|n] & H); [discriminate|]. cbn [view] in H. destruct (nth_error (objs m) p) as [[|o| |]|] eqn:N; try discriminate.
    destruct (sig_view _ _ m o) as [s|] eqn:V; [|discriminate]. injection H as <-. exists s. split; auto. exists n, o. auto.
  - intros (s & -> & n & o & N & V). exists (S n). cbn [view]. rewrite N, V. reflexivity.
Qed.
(** With the lists, what they stand for, as long as the types listed keep their meaning. *)
Lemma same_listing_denotes m1 m2 q A R v T : listing m1 q = Some (A, R, v) -> listing m2 q = Some (A, R, v) ->
  (forall c u U, In c (A ++ R) -> cell_type c = Some u -> denotes m1 u U -> denotes m2 u U) ->
  denotes m1 (MFunc q) T -> denotes m2 (MFunc q) T.
Proof.
  intros L1 L2 H D. apply func_denotes in D as (s & -> & D). apply sig_denotes_iff in D as (n & A' & R' & v' & LA & LR & L1' & VA & VR & ->).
  rewrite L1 in L1'. injection L1' as <- <- <-.
  destruct (args_later m1 m2 n A (fun c u U Hin => H c u U (in_or_app _ _ _ (or_introl Hin))) _ VA) as (k1 & V1).
  destruct (args_later m1 m2 n R (fun c u U Hin => H c u U (in_or_app _ _ _ (or_intror Hin))) _ VR) as (k2 & V2).
  apply func_denotes. eexists. split; [reflexivity|]. apply sig_denotes_iff. exists (Nat.max k1 k2), A, R, v, LA, LR.
  split; [exact L2|]. split; [eapply args_mono; [|exact V1]; lia|]. split; [eapply args_mono; [|exact V2]; lia|reflexivity].
Qed.
(** What can be read is not cyclic. *)
Lemma all_view_one {B} (f : cell -> option B) l : forall L c, all_view f l = Some L -> In c l -> exists b, f c = Some b.
Proof.
  induction l as [|x r IH]; intros L c E Hin; [destruct Hin|]. cbn in E. destruct (f x) as [b|] eqn:Fx; [|discriminate]. cbn in E.
  destruct (all_view f r) as [L'|] eqn:Er; [|discriminate]. destruct Hin as [<-|Hin]; [eauto|]. eapply IH; eauto.
Qed.
Lemma sig_view_one V m o s sl l c u : sig_view everywhere V m o = Some s -> In sl [ms_args o; ms_results o] -> cells m sl = Some l -> In c l ->
  cell_type c = Some u -> exists U, V u = Some U.
Proof.
  unfold sig_view. rewrite !open_everywhere. intros H Hs C Hc Hu.
  destruct (cells m (ms_args o)) as [A|] eqn:CA; [|discriminate]. cbn [obind] in H. destruct (all_view (arg_view V) A) as [LA|] eqn:EA; [|discriminate]. cbn [obind] in H.
  destruct (cells m (ms_results o)) as [R|] eqn:CR; [|discriminate]. cbn [obind] in H. destruct (all_view (arg_view V) R) as [LR|] eqn:ER; [|discriminate].
  assert (X : exists b, arg_view V c = Some b).
  { destruct Hs as [<-|[<-|[]]].
    - rewrite CA in C. injection C as ->. exact (all_view_one _ _ _ _ EA Hc).
    - rewrite CR in C. injection C as ->. exact (all_view_one _ _ _ _ ER Hc). }
  destruct X as (b & X). destruct c as [nm t| | |]; try discriminate. cbn in Hu, X. injection Hu as ->. destruct (V u); [eauto|discriminate].
Qed.
Lemma direct_view m t u : direct m t u -> forall n T, view everywhere (S n) m t = Some T -> exists U, view everywhere n m u = Some U.
Proof.
  intros D n T H. destruct D; cbn [view] in H.
  - destruct (view everywhere n m e); [eauto|discriminate].
  - destruct (view everywhere n m e); [eauto|discriminate].
  - destruct (view everywhere n m e); [eauto|discriminate].
  - destruct (view everywhere n m e); [eauto|discriminate].
  - destruct (view everywhere n m e); [|discriminate]. cbn [obind] in H. destruct (view everywhere n m k); [eauto|discriminate].
  - destruct (view everywhere n m e); [eauto|discriminate].
  - rewrite H0 in H. destruct (sig_view everywhere (view everywhere n m) m o) as [sg|] eqn:E; [|discriminate]. eapply sig_view_one; eauto.
  - rewrite H0 in H. rewrite open_everywhere, H1 in H. cbn [obind] in H. destruct (all_view _ l) as [L|] eqn:E; [|discriminate].
    destruct (all_view_one _ _ _ _ E H2) as (b & X). cbn in X. destruct (view everywhere n m u); [eauto|discriminate].
  - rewrite H0 in H. rewrite !open_everywhere, H1 in H. cbn [obind] in H. destruct (all_view _ l) as [L|] eqn:E; [|discriminate].
    destruct (all_view_one _ _ _ _ E H2) as (b & X). cbn [method_view] in X. destruct (sig_view everywhere (view everywhere n m) m o) as [sg|] eqn:EO; [|discriminate].
    eapply sig_view_one; eauto.
Qed.
Lemma within_view m t u : within m t u -> forall n T, view everywhere n m t = Some T -> exists k U, k <= n /\ view everywhere k m u = Some U.
Proof.
  induction 1 as [t|t v u D W IH]; intros n T H; [eauto|]. destruct n as [|n]; [discriminate|].
  destruct (direct_view _ _ _ D _ _ H) as (V & HV). destruct (IH _ _ HV) as (k & U & L & HU). exists k, U. split; auto.
Qed.
Lemma not_cyclic m t u : direct m t u -> within m u t -> forall n T, view everywhere n m t = Some T -> False.
Proof.
  intros D W n. induction n as [n IH] using lt_wf_ind. intros T H. destruct n as [|n]; [discriminate|].
  destruct (direct_view _ _ _ D _ _ H) as (V & HV). destruct (within_view _ _ _ W _ _ HV) as (k & U & L & HU). apply (IH k ltac:(lia) U HU).
Qed.
(** AddArg, AddResult and SetVariadic in memory are those of [Types.v]. *)
Lemma edit_refines p e m s T : sig_denotes m p s -> sound m -> unshared m p ->
  (match e with EAddArg _ t | EAddResult _ t => denotes m t T /\ ~ within m t (MFunc p) | _ => True end) ->
  exists m', do_edit extra p e m = (Ok tt, m') /\ effect p m m' /\
   sig_denotes m' p match e with EAddArg n _ => Signature_AddArg s n T | EAddResult n _ => Signature_AddResult s n T | ESetVariadic v => Signature_SetVariadic s v end.
Proof.
  intros D SO UN HT'. pose proof D as D0. apply sig_denotes_iff in D as (n & A & R & v & LA & LR & L1 & VA & VR & ->).
  destruct (edit_effect p e m _ L1 SO UN) as (m' & E & L2 & EF). exists m'. split; [exact E|]. split; [exact EF|].
  assert (HT : match e with EAddArg _ t | EAddResult _ t => denotes m t T | _ => True end) by (destruct e; tauto).
  assert (K : forall A' R' v' c u U, listing m' p = Some (A', R', v') -> In c (A' ++ R') -> cell_type c = Some u -> denotes m u U -> denotes m' u U).
  { intros A' R' v' c u U H Hc Hu (k & Hk). exists k. eapply effect_view; eauto. rewrite L2 in H.
    assert (OLD : In c (A ++ R) -> ~ within m u (MFunc p)).
    { intros Hin W. apply listing_parts in L1 as (o & N & CA & CR & _). assert (DD : direct m (MFunc p) u).
      { apply in_app_or in Hin as [Hin|Hin]; [eapply (d_func m p o (ms_args o)); eauto; cbn; auto|eapply (d_func m p o (ms_results o)); eauto; cbn; auto]. }
      assert (D1 : denotes m (MFunc p) (TFunc (mkSig LA LR v))) by (apply func_denotes; eauto). destruct D1 as (k1 & D1).
      exact (not_cyclic _ _ _ DD W _ _ D1). }
    destruct e; cbn [edited] in H; injection H as <- <- <-.
    - rewrite !in_app_iff in Hc. cbn in Hc. destruct Hc as [[Hc|[<-|[]]]|Hc]; [apply OLD, in_or_app; auto| |apply OLD, in_or_app; auto].
      cbn in Hu. injection Hu as <-. apply HT'.
    - rewrite !in_app_iff in Hc. cbn in Hc. destruct Hc as [Hc|[Hc|[<-|[]]]]; [apply OLD, in_or_app; auto|apply OLD, in_or_app; auto|].
      cbn in Hu. injection Hu as <-. apply HT'.
    - auto. }
  assert (X : forall c, (forall u U, cell_type c = Some u -> denotes m u U -> denotes m' u U) -> forall nm t, c = CArg nm t -> denotes m t T ->
    exists k, all_view (arg_view (view everywhere k m')) [c] = Some [mkArg nm T]).
  { intros c HC nm t -> Ht. destruct (HC t T eq_refl Ht) as (k & V). exists k. cbn. now rewrite V. }
  apply sig_denotes_iff. destruct e as [nm t|nm t|v']; cbn [edited] in L2; unfold Signature_AddArg, Signature_AddResult, Signature_SetVariadic; cbn [Args Results IsVariadic].
  - assert (K1 := fun c u U => K _ _ _ c u U L2).
    destruct (args_later m m' n A (fun c u U Hin => K1 c u U ltac:(rewrite !in_app_iff; auto)) _ VA) as (k1 & V1).
    destruct (args_later m m' n R (fun c u U Hin => K1 c u U ltac:(rewrite !in_app_iff; auto)) _ VR) as (k2 & V2).
    destruct (X (CArg nm t) (fun u U => K1 _ u U ltac:(rewrite !in_app_iff; cbn; auto)) nm t eq_refl HT) as (k3 & V3).
    exists (Nat.max k1 (Nat.max k2 k3)). eexists _, _, _, _, _. split; [exact L2|]. split; [|split; [|reflexivity]].
    + rewrite all_view_app. rewrite (args_mono _ _ k1 (Nat.max k1 (Nat.max k2 k3)) _ _ ltac:(lia) V1). cbn [obind].
      rewrite (args_mono _ _ k3 (Nat.max k1 (Nat.max k2 k3)) _ _ ltac:(lia) V3). reflexivity.
    + eapply args_mono; [|exact V2]; lia.
  - assert (K1 := fun c u U => K _ _ _ c u U L2).
    destruct (args_later m m' n A (fun c u U Hin => K1 c u U ltac:(rewrite !in_app_iff; auto)) _ VA) as (k1 & V1).
    destruct (args_later m m' n R (fun c u U Hin => K1 c u U ltac:(rewrite !in_app_iff; auto)) _ VR) as (k2 & V2).
    destruct (X (CArg nm t) (fun u U => K1 _ u U ltac:(rewrite !in_app_iff; cbn; auto)) nm t eq_refl HT) as (k3 & V3).
    exists (Nat.max k1 (Nat.max k2 k3)). eexists _, _, _, _, _. split; [exact L2|]. split; [|split; [|reflexivity]].
    + eapply args_mono; [|exact V1]; lia.
    + rewrite all_view_app. rewrite (args_mono _ _ k2 (Nat.max k1 (Nat.max k2 k3)) _ _ ltac:(lia) V2). cbn [obind].
      rewrite (args_mono _ _ k3 (Nat.max k1 (Nat.max k2 k3)) _ _ ltac:(lia) V3). reflexivity.
  - assert (K1 := fun c u U => K _ _ _ c u U L2).
    destruct (args_later m m' n A (fun c u U Hin => K1 c u U ltac:(rewrite !in_app_iff; auto)) _ VA) as (k1 & V1).
    destruct (args_later m m' n R (fun c u U Hin => K1 c u U ltac:(rewrite !in_app_iff; auto)) _ VR) as (k2 & V2).
    exists (Nat.max k1 k2). eexists _, _, _, _, _. split; [exact L2|].
    split; [eapply args_mono; [|exact V1]; lia|]. split; [eapply args_mono; [|exact V2]; lia|reflexivity].
Qed.
End Edits.
