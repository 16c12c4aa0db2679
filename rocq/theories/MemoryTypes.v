(** Types made from functions and methods; copies of members. *)
From Verif Require Import Base GoPath Types SpecTypes SpecRender Imports Memory SpecMemory MemoryProofs MemoryQualify MemoryEdits.

Lemma obj_slice_in m o s : slice_in (mkMem (objs m ++ [o]) (arrays m)) s -> slice_in m s \/ In s (obj_slices o).
Proof.
  intros [(p & x & N & H)|(a & l & c & N & Hc & H)]; cbn [objs arrays] in N.
  - destruct (Nat.lt_ge_cases p (List.length (objs m))) as [L|L].
    + rewrite nth_error_app1 in N by exact L. left. left. exists p, x. auto.
    + rewrite nth_error_app2 in N by exact L. destruct (p - List.length (objs m)) as [|[|?]]; cbn in N; try discriminate. injection N as <-. auto.
  - left. right. exists a, l, c. auto.
Qed.
Lemma array_slice_in m k s : (forall c, In c k -> cell_slices c = []) -> slice_in (mkMem (objs m) (arrays m ++ [k])) s -> slice_in m s.
Proof.
  intros HK [(p & x & N & H)|(a & l & c & N & Hc & H)]; cbn [objs arrays] in N.
  - left. exists p, x. auto.
  - destruct (Nat.lt_ge_cases a (List.length (arrays m))) as [L|L].
    + rewrite nth_error_app1 in N by exact L. right. exists a, l, c. auto.
    + rewrite nth_error_app2 in N by exact L. destruct (a - List.length (arrays m)) as [|[|?]]; cbn in N; try discriminate. injection N as <-.
      rewrite (HK c Hc) in H. destruct H.
Qed.
Lemma args_no_slices F n m l L : all_view (arg_view (view F n m)) l = Some L -> forall c, In c l -> cell_slices c = [].
Proof. intros H c Hc. destruct (all_view_one _ _ _ _ H Hc) as (b & E). destruct c; try discriminate. reflexivity. Qed.
(** Growing by slices that are there already or on new arrays. *)
Definition fresh_slices (m m1 : mem) : Prop :=
  forall s, slice_in m1 s -> slice_in m s \/ forall a, on_array s a -> nth_error (arrays m) a = None.
Lemma grown_unshared m m1 p o : grown m m1 -> nth_error (objs m) p = Some (OSig o) -> sound m -> fresh_slices m m1 -> unshared m p -> unshared m1 p.
Proof.
  intros G N SO FR (AP & UN). split.
  - intros o2 a H. rewrite (proj1 G _ _ N) in H. injection H as <-. exact (AP _ a N).
  - intros op sp sq a H Hsp Hsq H3 H4. rewrite (proj1 G _ _ N) in H. injection H as <-. destruct (FR sq Hsq) as [H|H]; [eapply UN; eauto|].
    exfalso. assert (HS : slice_in m sp) by (left; exists p, (OSig o); auto). specialize (SO sp HS). destruct (cells m sp) as [l|] eqn:C; [|congruence].
    exact (cells_array _ _ _ _ C H3 (H a H4)).
Qed.
Lemma new_cells m l : cells (mkMem (objs m) (arrays m ++ [l])) (SArr (List.length (arrays m)) (List.length l)) = Some l.
Proof. cbn [cells arrays]. now rewrite nth_new, Nat.leb_refl, firstn_all. Qed.

(** What could be read keeps its parts. *)
Lemma direct_back m m1 t u : grown m m1 -> direct m1 t u -> forall n T, view everywhere n m t = Some T -> direct m t u.
Proof.
  intros G D [|n] T H; [discriminate|]. pose proof (cells_grown m m1) as CG. destruct D; cbn [view] in H; try constructor.
  - destruct (nth_error (objs m) p) as [[|o0| |]|] eqn:N; try discriminate. rewrite (proj1 G _ _ N) in H0. injection H0 as <-.
    destruct (sig_view everywhere (view everywhere n m) m o0) as [sg|] eqn:E; [|discriminate]. unfold sig_view in E. rewrite !open_everywhere in E.
    destruct (cells m (ms_args o0)) as [A|] eqn:CA; [|discriminate]. cbn [obind] in E. destruct (all_view _ A); [|discriminate]. cbn [obind] in E.
    destruct (cells m (ms_results o0)) as [R|] eqn:CR; [|discriminate].
    destruct H1 as [<-|[<-|[]]].
    + rewrite (CG _ _ G CA) in H2. injection H2 as <-. eapply (d_func m p o0 (ms_args o0)); eauto. cbn. auto.
    + rewrite (CG _ _ G CR) in H2. injection H2 as <-. eapply (d_func m p o0 (ms_results o0)); eauto. cbn. auto.
  - destruct (nth_error (objs m) p) as [[| |f0|]|] eqn:N; try discriminate. rewrite (proj1 G _ _ N) in H0. injection H0 as <-.
    rewrite open_everywhere in H. destruct (cells m f0) as [l0|] eqn:C; [|discriminate]. rewrite (CG _ _ G C) in H1. injection H1 as <-.
    eapply d_field; eauto.
  - destruct (nth_error (objs m) p) as [[| | |ms0 es0]|] eqn:N; try discriminate. rewrite (proj1 G _ _ N) in H0. injection H0 as <- <-.
    rewrite !open_everywhere in H. destruct (cells m ms0) as [l0|] eqn:C; [|discriminate]. rewrite (CG _ _ G C) in H1. injection H1 as <-. cbn [obind] in H.
    destruct (all_view (method_view everywhere (view everywhere n m) m) l0) as [L|] eqn:AV; [|discriminate].
    destruct (all_view_one _ _ _ _ AV H2) as (b & X). cbn [method_view] in X. destruct (sig_view everywhere (view everywhere n m) m o) as [sg|] eqn:E; [|discriminate].
    unfold sig_view in E. rewrite !open_everywhere in E.
    destruct (cells m (ms_args o)) as [A|] eqn:CA; [|discriminate]. cbn [obind] in E. destruct (all_view _ A); [|discriminate]. cbn [obind] in E.
    destruct (cells m (ms_results o)) as [R|] eqn:CR; [|discriminate].
    destruct H3 as [<-|[<-|[]]].
    + rewrite (CG _ _ G CA) in H4. injection H4 as <-. eapply (d_method m p ms0 es0 l0 n0 o (ms_args o)); eauto. cbn. auto.
    + rewrite (CG _ _ G CR) in H4. injection H4 as <-. eapply (d_method m p ms0 es0 l0 n0 o (ms_results o)); eauto. cbn. auto.
Qed.
Lemma within_back m m1 t u : grown m m1 -> within m1 t u -> forall n T, view everywhere n m t = Some T -> within m t u.
Proof.
  intros G W. induction W as [t|t v u D W IH]; intros n T H; [constructor|]. pose proof (direct_back _ _ _ _ G D _ _ H) as D0.
  destruct n as [|n]; [discriminate|]. destruct (direct_view _ _ _ D0 _ _ H) as (V & HV). eapply w_part; eauto.
Qed.
Lemma new_apart m m1 p q s rt : grown m m1 -> sig_denotes m p s -> q <> p ->
  (forall u, direct m1 (MFunc q) u -> direct m (MFunc p) u \/ u = rt) -> ~ within m1 rt (MFunc p) -> ~ within m1 (MFunc q) (MFunc p).
Proof.
  intros G D NE PARTS NR W. assert (D1 : denotes m (MFunc p) (TFunc s)) by (apply func_denotes; eauto). destruct D1 as (k & D1).
  inversion W as [|t v u DD WW]; subst; [congruence|]. destruct (PARTS v DD) as [H| ->]; [|auto].
  destruct k as [|k]; [discriminate|]. destruct (direct_view _ _ _ H _ _ D1) as (V & HV).
  exact (not_cyclic _ _ _ H (within_back _ _ _ _ G WW _ _ HV) _ _ D1).
Qed.

(** What a call to make a function type from signature [p] leaves behind. *)
Record made (m : mem) (p : nat) (m1 : mem) (q : nat) : Prop := mkMade {
  md_grown : grown m m1;
  md_sound : sound m1;
  md_new : nth_error (objs m) q = None;
  md_apart : ~ within m1 (MFunc q) (MFunc p);
  md_kept : unshared m p -> unshared m1 p
}.
Lemma method_type nm ty ptr pkg p m s : sig_denotes m p s -> sound m ->
  match FuncTypeFromSig (mkSig (mkArg nm (receiver pkg ty ptr) :: Args s) (Results s) (IsVariadic s)) with
  | Panic e => exists m1, mFuncSpec_ToTypeName (Some (nm, ty, ptr)) (Some pkg) p m = (Panic e, m1) /\ grown m m1
  | Ok T => exists q m1, mFuncSpec_ToTypeName (Some (nm, ty, ptr)) (Some pkg) p m = (Ok (MFunc q), m1) /\ made m p m1 q /\ denotes m1 (MFunc q) T
  end.
Proof.
  intros D0 SO. pose proof D0 as (n & o & N & V). set (TS := mkSig _ _ _).
  set (mA := mkMem (objs m ++ [ONamed (mkSymbol pkg ty)]) (arrays m)).
  assert (GA : grown m mA) by apply new_obj_grown.
  assert (NA : nth_error (objs mA) (List.length (objs m)) = Some (ONamed (mkSymbol pkg ty))) by apply nth_new.
  set (rt := if ptr then MPtr (MNamed (List.length (objs m))) else MNamed (List.length (objs m))).
  assert (E1 : slift (S:=mem) (if ptr then mPointerType (MNamed (List.length (objs m))) else Ok (MNamed (List.length (objs m)))) mA = (Ok rt, mA)) by (now destruct ptr).
  unfold sig_view in V. rewrite !open_everywhere in V.
  destruct (cells m (ms_args o)) as [A|] eqn:CA; [|discriminate]. cbn [obind] in V. destruct (all_view _ A) as [LA|] eqn:VA; [|discriminate]. cbn [obind] in V.
  destruct (cells m (ms_results o)) as [R|] eqn:CR; [|discriminate]. cbn [obind] in V. destruct (all_view (arg_view (view everywhere n m)) R) as [LR|] eqn:VR; [|discriminate].
  injection V as <-. cbn [Args Results IsVariadic] in TS.
  set (k := CArg nm rt :: A). set (mB := mkMem (objs mA) (arrays mA ++ [k])).
  assert (GB : grown mA mB) by apply new_array_grown.
  set (oq := mkMSig (SArr (List.length (arrays mA)) (List.length k)) (ms_results o) (ms_variadic o)).
  set (mC := mkMem (objs mB ++ [OSig oq]) (arrays mB)). assert (GC : grown mB mC) by apply new_obj_grown.
  assert (RUN : mFuncSpec_ToTypeName (Some (nm, ty, ptr)) (Some pkg) p m = mFuncTypeFromSig (List.length (objs mA)) mC).
  { cbn [mFuncSpec_ToTypeName]. unfold mNamedType, sbind, new_obj, sret. fold mA. rewrite E1. unfold get_sig at 1. rewrite (proj1 GA _ _ N).
    unfold get_cells at 1. rewrite (cells_grown _ _ _ _ GA CA). unfold new_slice, sbind, new_array, sret. reflexivity. }
  rewrite RUN.
  set (q := List.length (objs mA)). assert (Nq : nth_error (objs mC) q = Some (OSig oq)) by apply nth_new.
  assert (G : grown m mC) by (eapply grown_trans; [exact GA|eapply grown_trans; [exact GB|exact GC]]).
  assert (NO : forall c, In c k -> cell_slices c = []).
  { intros c [<-|Hc]; [reflexivity|]. exact (args_no_slices _ _ _ _ _ VA c Hc). }
  assert (CB : cells mC (ms_args oq) = Some k) by exact (cells_grown _ _ _ _ GC (new_cells mA k)).
  assert (FRS : forall s, slice_in mC s -> slice_in m s \/ s = ms_args oq).
  { intros s Hs. unfold mC in Hs. apply obj_slice_in in Hs as [Hs|[<-|[<-|[]]]]; [|auto|].
    - apply array_slice_in in Hs; [|exact NO]. apply obj_slice_in in Hs as [Hs|[]]. auto.
    - left. left. exists p, (OSig o). cbn. auto. }
  assert (QN : nth_error (objs m) q = None) by (apply nth_error_None; unfold q, mA; cbn [objs]; rewrite app_length; cbn; lia).
  assert (MD : made m p mC q).
  { constructor; [exact G| | | |].
    - intros s Hs. destruct (FRS s Hs) as [H| ->]; [|rewrite CB; discriminate]. specialize (SO s H). destruct (cells m s) as [l|] eqn:C; [|congruence].
      rewrite (cells_grown _ _ _ _ G C). discriminate.
    - exact QN.
    - eapply (new_apart m mC p q _ rt G); [exact D0|congruence| |].
      + intros u DD. inversion DD; subst. rewrite Nq in H0. injection H0 as <-. destruct H1 as [<-|[<-|[]]].
        * rewrite CB in H2. injection H2 as <-. destruct H3 as [<-|H3]; [cbn in H4; injection H4 as <-; auto|].
          left. eapply (d_func m p o (ms_args o)); eauto. cbn. auto.
        * unfold oq in H2. cbn [ms_results] in H2. rewrite (cells_grown _ _ _ _ G CR) in H2. injection H2 as <-.
          left. eapply (d_func m p o (ms_results o)); eauto. cbn. auto.
      + unfold rt. intros W. clear -W. destruct ptr; inversion W as [|? ? ? D1 W1]; subst; inversion D1; subst. inversion W1 as [|? ? ? D2 W2]; subst. inversion D2.
    - intros UN. eapply grown_unshared; eauto. intros s Hs. destruct (FRS s Hs) as [H| ->]; auto. right. intros a <-. apply nth_none. }
  assert (VRT : view everywhere (S (S n)) mC rt = Some (receiver pkg ty ptr)).
  { assert (NC : nth_error (objs mC) (List.length (objs m)) = Some (ONamed (mkSymbol pkg ty))) by (apply GC, GB; exact NA).
    unfold rt, receiver. destruct ptr; cbn [view]; now rewrite NC. }
  assert (VQ : sig_view everywhere (view everywhere (S (S n)) mC) mC oq = Some TS).
  { assert (UP : forall l L, all_view (arg_view (view everywhere n m)) l = Some L -> all_view (arg_view (view everywhere (S (S n)) mC)) l = Some L).
    { intros l L. apply all_view_impl. intros c b E. destruct c as [x u| | |]; try discriminate. cbn [arg_view] in *.
      destruct (view everywhere n m u) as [U|] eqn:EU; [|discriminate]. apply (view_frame _ _ _ _ (grown_frame everywhere _ _ G)) in EU.
      apply (view_mono _ _ n (S (S n))) in EU; [|lia]. now rewrite EU. }
    unfold sig_view. rewrite !open_everywhere, CB. unfold k at 1. unfold oq at 1. cbn [ms_results]. rewrite (cells_grown _ _ _ _ G CR).
    change (obind (Some (CArg nm rt :: A)) ?f) with (f (CArg nm rt :: A)). change (obind (Some R) ?f) with (f R).
    change (all_view ?f (CArg nm rt :: A)) with (obind (f (CArg nm rt)) (fun b => option_map (cons b) (all_view f A))).
    unfold arg_view at 1. rewrite VRT, (UP _ _ VA), (UP _ _ VR). reflexivity. }
  pose proof (from_sig_sim everywhere _ mC q oq TS Nq VQ) as FS. destruct (FuncTypeFromSig TS) as [T|e] eqn:ET.
  - exists q, mC. split; [exact FS|]. split; [exact MD|]. apply func_denotes. exists TS. split; [|exists (S (S n)), oq; auto].
    unfold FuncTypeFromSig in ET. repeat match type of ET with (if ?b then _ else _) = _ => destruct b; [discriminate|] end. now injection ET.
  - exists mC. auto.
Qed.
Lemma interface_method_type rt RT p m s : sig_denotes m p s -> sound m -> denotes m rt RT -> ~ within m rt (MFunc p) ->
  match FuncTypeFromSig (mkSig (mkArg "" RT :: Args s) (Results s) (IsVariadic s)) with
  | Panic e => exists m1, mInterfaceMethod_ToTypeName (Some rt) p m = (Panic e, m1) /\ grown m m1
  | Ok T => exists q m1, mInterfaceMethod_ToTypeName (Some rt) p m = (Ok (MFunc q), m1) /\ made m p m1 q /\ denotes m1 (MFunc q) T /\ unshared m1 q
  end.
Proof.
  intros D0 SO (n2 & VRT0) NRT. pose proof D0 as (n & o & N & V). set (TS := mkSig _ _ _).
  unfold sig_view in V. rewrite !open_everywhere in V.
  destruct (cells m (ms_args o)) as [A|] eqn:CA; [|discriminate]. cbn [obind] in V. destruct (all_view _ A) as [LA|] eqn:VA; [|discriminate]. cbn [obind] in V.
  destruct (cells m (ms_results o)) as [R|] eqn:CR; [|discriminate]. cbn [obind] in V. destruct (all_view (arg_view (view everywhere n m)) R) as [LR|] eqn:VR; [|discriminate].
  injection V as <-. cbn [Args Results IsVariadic] in TS.
  set (k := CArg "" rt :: A). set (mA := mkMem (objs m) (arrays m ++ [k])). assert (GA : grown m mA) by apply new_array_grown.
  set (mB := mkMem (objs mA) (arrays mA ++ [R])). assert (GB : grown mA mB) by apply new_array_grown.
  set (oq := mkMSig (SArr (List.length (arrays m)) (List.length k)) (SArr (List.length (arrays mA)) (List.length R)) (ms_variadic o)).
  set (mC := mkMem (objs mB ++ [OSig oq]) (arrays mB)). assert (GC : grown mB mC) by apply new_obj_grown.
  assert (RUN : mInterfaceMethod_ToTypeName (Some rt) p m = mFuncTypeFromSig (List.length (objs mB)) mC).
  { cbn [mInterfaceMethod_ToTypeName]. unfold sbind. unfold get_sig at 1. rewrite N. unfold get_cells at 1. rewrite CA.
    unfold new_slice, sbind, new_array, sret, new_obj. fold k. fold mA. unfold get_cells at 1. rewrite (cells_grown _ _ _ _ GA CR). reflexivity. }
  rewrite RUN.
  set (q := List.length (objs mB)). assert (Nq : nth_error (objs mC) q = Some (OSig oq)) by apply nth_new.
  assert (G : grown m mC) by (eapply grown_trans; [exact GA|eapply grown_trans; [exact GB|exact GC]]).
  assert (CB : cells mC (ms_args oq) = Some k) by exact (cells_grown _ _ _ _ GC (cells_grown _ _ _ _ GB (new_cells m k))).
  assert (CB2 : cells mC (ms_results oq) = Some R) by exact (cells_grown _ _ _ _ GC (new_cells mA R)).
  assert (FRS : forall s, slice_in mC s -> slice_in m s \/ In s [ms_args oq; ms_results oq]).
  { intros s Hs. unfold mC in Hs. apply obj_slice_in in Hs as [Hs|Hs]; [|auto]. left.
    apply array_slice_in in Hs; [|exact (args_no_slices _ _ _ _ _ VR)]. apply array_slice_in in Hs; [auto|]. intros c [<-|Hc]; [reflexivity|].
    exact (args_no_slices _ _ _ _ _ VA c Hc). }
  assert (QN : nth_error (objs m) q = None) by apply nth_none.
  assert (N1 : nth_error (arrays m) (List.length (arrays m)) = None) by apply nth_none.
  assert (N2 : nth_error (arrays m) (List.length (arrays mA)) = None) by (apply nth_error_None; unfold mA; cbn [arrays]; rewrite app_length; cbn; lia).
  assert (NEW : forall s a, In s [ms_args oq; ms_results oq] -> on_array s a -> nth_error (arrays m) a = None).
  { intros s a [<-|[<-|[]]] <-; auto. }
  assert (MD : made m p mC q).
  { constructor; [exact G| | | |].
    - intros s Hs. destruct (FRS s Hs) as [H|[<-|[<-|[]]]]; [|rewrite CB; discriminate|rewrite CB2; discriminate]. specialize (SO s H). destruct (cells m s) as [l|] eqn:C; [|congruence].
      rewrite (cells_grown _ _ _ _ G C). discriminate.
    - exact QN.
    - eapply (new_apart m mC p q _ rt G); [exact D0|congruence| |].
      + intros u DD. inversion DD; subst. rewrite Nq in H0. injection H0 as <-. destruct H1 as [<-|[<-|[]]].
        * rewrite CB in H2. injection H2 as <-. destruct H3 as [<-|H3]; [cbn in H4; injection H4 as <-; auto|].
          left. eapply (d_func m p o (ms_args o)); eauto. cbn. auto.
        * rewrite CB2 in H2. injection H2 as <-. left. eapply (d_func m p o (ms_results o)); eauto. cbn. auto.
      + intros W. exact (NRT (within_back _ _ _ _ G W _ _ VRT0)).
    - intros UN. eapply grown_unshared; eauto. intros s Hs. destruct (FRS s Hs) as [H|H]; eauto. }
  assert (UQ : unshared mC q).
  { assert (DIFF : List.length (arrays m) <> List.length (arrays mA)) by (unfold mA; cbn [arrays]; rewrite app_length; cbn; lia). split.
    - intros o2 a H2. rewrite Nq in H2. injection H2 as <-. unfold oq. cbn [ms_args ms_results on_array]. intros <- E. now apply DIFF.
    - intros op sp sq a H2 Hsp Hsq H3 H4. rewrite Nq in H2. injection H2 as <-. destruct (FRS sq Hsq) as [H|H].
      + exfalso. specialize (SO sq H). destruct (cells m sq) as [l|] eqn:C; [|congruence]. exact (cells_array _ _ _ _ C H4 (NEW _ _ Hsp H3)).
      + destruct Hsp as [<-|[<-|[]]], H as [<-|[<-|[]]]; cbn in *; lia. }
  set (K := Nat.max n n2).
  assert (VRT : view everywhere K mC rt = Some RT).
  { apply (view_frame _ _ _ _ (grown_frame everywhere _ _ G)). eapply view_mono; [|exact VRT0]. apply Nat.le_max_r. }
  assert (VQ : sig_view everywhere (view everywhere K mC) mC oq = Some TS).
  { assert (UP : forall l L, all_view (arg_view (view everywhere n m)) l = Some L -> all_view (arg_view (view everywhere K mC)) l = Some L).
    { intros l L. apply all_view_impl. intros c b E. destruct c as [x u| | |]; try discriminate. cbn [arg_view] in *.
      destruct (view everywhere n m u) as [U|] eqn:EU; [|discriminate]. apply (view_frame _ _ _ _ (grown_frame everywhere _ _ G)) in EU.
      apply (view_mono _ _ n K) in EU; [|apply Nat.le_max_l]. now rewrite EU. }
    unfold sig_view. rewrite !open_everywhere, CB, CB2. unfold k at 1.
    change (obind (Some (CArg "" rt :: A)) ?f) with (f (CArg "" rt :: A)). change (obind (Some R) ?f) with (f R).
    change (all_view ?f (CArg "" rt :: A)) with (obind (f (CArg "" rt)) (fun b => option_map (cons b) (all_view f A))).
    unfold arg_view at 1. rewrite VRT, (UP _ _ VA), (UP _ _ VR). reflexivity. }
  pose proof (from_sig_sim everywhere _ mC q oq TS Nq VQ) as FS. destruct (FuncTypeFromSig TS) as [T|e] eqn:ET.
  - exists q, mC. split; [exact FS|]. split; [exact MD|]. split; [|exact UQ]. apply func_denotes. exists TS. split; [|exists K, oq; auto].
    unfold FuncTypeFromSig in ET. repeat match type of ET with (if ?b then _ else _) = _ => destruct b; [discriminate|] end. now injection ET.
  - exists mC. auto.
Qed.
(** ** Later changes to the signature *)
Lemma effect_direct p m m' t u : effect p m m' -> t <> MFunc p -> direct m' t u -> forall n T, view everywhere n m t = Some T -> direct m t u.
Proof.
  intros EF NE D [|n] T H; [discriminate|].
  assert (OB : forall q o, nth_error (objs m) q = Some o -> (forall s, o <> OSig s) \/ q <> p -> nth_error (objs m') q = Some o).
  { intros q o N X. apply (e_objs _ _ _ EF); auto. intros ->. destruct (e_self _ _ _ EF) as (o' & E). destruct X as [X|X]; [|congruence].
    apply (X o'). congruence. }
  pose proof (e_cells _ _ _ EF) as CG. destruct D; cbn [view] in H; try constructor.
  - destruct (nth_error (objs m) p0) as [[|o0| |]|] eqn:N; try discriminate. rewrite (OB _ _ N) in H0 by (right; congruence). injection H0 as <-.
    destruct (sig_view everywhere (view everywhere n m) m o0) as [sg|] eqn:E; [|discriminate]. unfold sig_view in E. rewrite !open_everywhere in E.
    destruct (cells m (ms_args o0)) as [A|] eqn:CA; [|discriminate]. cbn [obind] in E. destruct (all_view _ A); [|discriminate]. cbn [obind] in E.
    destruct (cells m (ms_results o0)) as [R|] eqn:CR; [|discriminate].
    assert (SA : slice_in m (ms_args o0)) by (left; exists p0, (OSig o0); cbn; auto).
    assert (SR : slice_in m (ms_results o0)) by (left; exists p0, (OSig o0); cbn; auto).
    destruct H1 as [<-|[<-|[]]].
    + rewrite (CG _ _ SA CA) in H2. injection H2 as <-. eapply (d_func m p0 o0 (ms_args o0)); eauto. cbn. auto.
    + rewrite (CG _ _ SR CR) in H2. injection H2 as <-. eapply (d_func m p0 o0 (ms_results o0)); eauto. cbn. auto.
  - destruct (nth_error (objs m) p0) as [[| |f0|]|] eqn:N; try discriminate. rewrite (OB _ _ N) in H0 by (left; discriminate). injection H0 as <-.
    rewrite open_everywhere in H. destruct (cells m f0) as [l0|] eqn:C; [|discriminate].
    assert (SF : slice_in m f0) by (left; exists p0, (OStruct f0); cbn; auto). rewrite (CG _ _ SF C) in H1. injection H1 as <-.
    eapply d_field; eauto.
  - destruct (nth_error (objs m) p0) as [[| | |ms0 es0]|] eqn:N; try discriminate. rewrite (OB _ _ N) in H0 by (left; discriminate). injection H0 as <- <-.
    rewrite !open_everywhere in H. destruct (cells m ms0) as [l0|] eqn:C; [|discriminate].
    assert (SM : slice_in m ms0) by (left; exists p0, (OInterface ms0 es0); cbn; auto). rewrite (CG _ _ SM C) in H1. injection H1 as <-. cbn [obind] in H.
    destruct (all_view (method_view everywhere (view everywhere n m) m) l0) as [L|] eqn:AV; [|discriminate].
    destruct (all_view_one _ _ _ _ AV H2) as (b & X). cbn [method_view] in X. destruct (sig_view everywhere (view everywhere n m) m o) as [sg|] eqn:E; [|discriminate].
    unfold sig_view in E. rewrite !open_everywhere in E.
    destruct (cells m (ms_args o)) as [A|] eqn:CA; [|discriminate]. cbn [obind] in E. destruct (all_view _ A); [|discriminate]. cbn [obind] in E.
    destruct (cells m (ms_results o)) as [R|] eqn:CR; [|discriminate]. destruct (cells_in _ _ _ _ C H2) as (a & k & Na & Hk).
    assert (SA : slice_in m (ms_args o)) by (right; exists a, k, (CMethod n0 o); cbn; auto).
    assert (SR : slice_in m (ms_results o)) by (right; exists a, k, (CMethod n0 o); cbn; auto).
    destruct H3 as [<-|[<-|[]]].
    + rewrite (CG _ _ SA CA) in H4. injection H4 as <-. eapply (d_method m p0 ms0 es0 l0 n0 o (ms_args o)); eauto. cbn. auto.
    + rewrite (CG _ _ SR CR) in H4. injection H4 as <-. eapply (d_method m p0 ms0 es0 l0 n0 o (ms_results o)); eauto. cbn. auto.
Qed.
Lemma effect_within p m m' t u : effect p m m' -> within m' t u -> forall n T, view everywhere n m t = Some T -> ~ within m t (MFunc p) -> within m t u.
Proof.
  intros EF W. induction W as [t|t v u D W IH]; intros n T H NW; [constructor|].
  assert (D0 : direct m t v) by (eapply effect_direct; eauto; intros ->; apply NW; constructor).
  destruct n as [|n]; [discriminate|]. destruct (direct_view _ _ _ D0 _ _ H) as (V & HV). eapply w_part; [exact D0|]. eapply IH; [exact HV|].
  intros X. apply NW. eapply w_part; eauto.
Qed.
Section Later.
Variable extra : nat -> nat.
Lemma edits_keep p : forall l m L, listing m p = Some L -> sound m -> unshared m p ->
  exists m', do_edits extra p l m = (Ok tt, m') /\ listing m' p = Some (fold_left (fun L e => edited e L) l L) /\ sound m' /\ unshared m' p /\
    forall t T, denotes m t T -> ~ within m t (MFunc p) -> denotes m' t T.
Proof.
  induction l as [|e r IH]; intros m L HL SO UN; cbn [do_edits fold_left].
  - exists m. repeat split; auto; apply UN.
  - destruct (edit_effect extra p e m L HL SO UN) as (m1 & E & L1 & EF).
    destruct (IH m1 _ L1 (e_sound _ _ _ EF) (e_unshared _ _ _ EF)) as (m2 & E2 & L2 & SO2 & UN2 & K2). exists m2. rewrite (sbind_ok _ _ _ _ _ E).
    split; [exact E2|]. split; [exact L2|]. split; [exact SO2|]. split; [exact UN2|]. intros t T (n & V) NW. apply K2.
    + exists n. eapply effect_view; eauto.
    + intros W. apply NW. eapply effect_within; eauto.
Qed.
Lemma sig_denotes_listing m p s : sig_denotes m p s -> exists L, listing m p = Some L.
Proof. intros H. apply sig_denotes_iff in H as (n & A & R & v & LA & LR & H & _). eauto. Qed.
Lemma listing_grown m m1 p L : grown m m1 -> listing m p = Some L -> listing m1 p = Some L.
Proof.
  intros G. destruct L as ((A & R) & v). intros H. apply listing_parts in H as (o & N & CA & CR & ->). apply listing_parts. exists o.
  split; [now apply G|]. split; [eapply cells_grown; eauto|]. split; [eapply cells_grown; eauto|reflexivity].
Qed.
(** The type of a method does not change with the method. *)
Lemma made_snapshot m p m1 q s T l : sig_denotes m p s -> unshared m p -> made m p m1 q -> denotes m1 (MFunc q) T ->
  exists m2, do_edits extra p l m1 = (Ok tt, m2) /\ denotes m2 (MFunc q) T.
Proof.
  intros D UN MD DQ. destruct (sig_denotes_listing _ _ _ D) as (L & HL). pose proof (listing_grown _ _ _ _ (md_grown _ _ _ _ MD) HL) as HL1.
  destruct (edits_keep p l m1 L HL1 (md_sound _ _ _ _ MD) (md_kept _ _ _ _ MD UN)) as (m2 & E & _ & _ & _ & K). exists m2. split; [exact E|].
  apply K; auto. apply MD.
Qed.
End Later.

(** ** Copies of fields, methods and embedded interfaces *)
Lemma copy_kept m a m1 m2 u U : grown m m1 -> nth_error (arrays m) a = None -> written a m1 m2 -> denotes m u U -> denotes m2 u U.
Proof.
  intros G NA (WO & WA) (n & V).
  assert (F1 : frame everywhere (Nat.eqb a) m m).
  { split; auto. intros b l _ Nb. split; [|exact Nb]. apply Nat.eqb_neq. congruence. }
  assert (F2 : frame (Nat.eqb a) everywhere m1 m2).
  { split; auto. intros b l Hb Nb. split; [reflexivity|]. apply Nat.eqb_neq in Hb. apply WA; auto. }
  exists n. apply (view_frame _ _ _ _ F2). apply (view_frame _ _ _ _ (grown_frame _ _ _ G)). apply (view_frame _ _ _ _ F1). exact V.
Qed.
Lemma copy_run (s : slice) m l : cells m s = Some l ->
  exists m1, (do k <- get_cells s ;; new_slice k) m = (Ok (SArr (List.length (arrays m)) (List.length l)), m1) /\ grown m m1 /\
    cells m1 (SArr (List.length (arrays m)) (List.length l)) = Some l.
Proof.
  intros C. unfold sbind, get_cells. rewrite C. unfold new_slice, sbind, new_array, sret. eexists. split; [reflexivity|]. split; [apply new_array_grown|].
  apply new_cells.
Qed.
Lemma all_view_each {B} (f : cell -> option B) (P : cell -> B -> Prop) : (forall c b, f c = Some b -> P c b) ->
  forall l L, all_view f l = Some L -> Forall2 P l L.
Proof.
  intros H. induction l as [|c r IH]; intros L E; cbn in E; [injection E as <-; constructor|]. destruct (f c) as [b|] eqn:Fc; [|discriminate]. cbn in E.
  destruct (all_view f r) as [L'|] eqn:Er; [|discriminate]. injection E as <-. constructor; auto.
Qed.
Lemma arg_is n m c a : arg_view (view everywhere n m) c = Some a -> is_arg m c a.
Proof. destruct c as [x u| | |]; cbn; try discriminate. destruct (view everywhere n m u) as [U|] eqn:E; [|discriminate]. injection 1 as <-. exists u. split; auto. exists n. auto. Qed.
Lemma field_is n m c f : field_view (view everywhere n m) c = Some f -> is_field m c f.
Proof. destruct c as [|x u t| |]; cbn; try discriminate. destruct (view everywhere n m u) as [U|] eqn:E; [|discriminate]. injection 1 as <-. exists u. split; auto. exists n. auto. Qed.
Lemma method_is n m c f : method_view everywhere (view everywhere n m) m c = Some f -> is_method m c f.
Proof.
  destruct c as [| |x o|]; cbn [method_view]; try discriminate. destruct (sig_view everywhere (view everywhere n m) m o) as [sg|] eqn:E; [|discriminate]. injection 1 as <-.
  unfold sig_view in E. rewrite !open_everywhere in E.
  destruct (cells m (ms_args o)) as [A|] eqn:CA; [|discriminate]. cbn [obind] in E. destruct (all_view _ A) as [LA|] eqn:VA; [|discriminate]. cbn [obind] in E.
  destruct (cells m (ms_results o)) as [R|] eqn:CR; [|discriminate]. cbn [obind] in E. destruct (all_view _ R) as [LR|] eqn:VR; [|discriminate]. injection E as <-.
  exists o, A, R. cbn [MtdName MtdSig Args Results IsVariadic]. repeat split; auto; eapply all_view_each; eauto; intros c b; apply arg_is.
Qed.
(** enough depth for all *)
Lemma all_deep {B} (P : nat -> cell -> option B) (Q : cell -> B -> Prop) : (forall n k c b, n <= k -> P n c = Some b -> P k c = Some b) ->
  (forall c b, Q c b -> exists n, P n c = Some b) -> forall l L, Forall2 Q l L -> exists n, all_view (P n) l = Some L.
Proof.
  intros MO H l L F. induction F as [|c b l L Hc F (n & IH)]; [exists 0; reflexivity|]. destruct (H _ _ Hc) as (k & Hk).
  exists (Nat.max n k). cbn. rewrite (MO k _ _ _ (Nat.le_max_r n k) Hk). cbn.
  assert (E : all_view (P (Nat.max n k)) l = Some L) by (revert IH; apply all_view_impl; intros; eapply MO; [|eassumption]; apply Nat.le_max_l). now rewrite E.
Qed.
Lemma arg_of m c a : is_arg m c a -> exists n, arg_view (view everywhere n m) c = Some a.
Proof. intros (u & -> & n & V). exists n. cbn. rewrite V. now destruct a. Qed.
Lemma field_of m c a : is_field m c a -> exists n, field_view (view everywhere n m) c = Some a.
Proof. intros (u & -> & n & V). exists n. cbn. rewrite V. now destruct a. Qed.
Lemma arg_up m n k c b : n <= k -> arg_view (view everywhere n m) c = Some b -> arg_view (view everywhere k m) c = Some b.
Proof. intros L. apply arg_frame. intros t T. now apply view_mono. Qed.
Lemma field_up m n k c b : n <= k -> field_view (view everywhere n m) c = Some b -> field_view (view everywhere k m) c = Some b.
Proof. intros L. apply field_frame. intros t T. now apply view_mono. Qed.
Lemma method_up m n k c b : n <= k -> method_view everywhere (view everywhere n m) m c = Some b -> method_view everywhere (view everywhere k m) m c = Some b.
Proof. intros L. apply method_frame; [apply frame_refl|]. intros t T. now apply view_mono. Qed.
Lemma sig_of m o A R LA LR : cells m (ms_args o) = Some A -> Forall2 (is_arg m) A LA -> cells m (ms_results o) = Some R -> Forall2 (is_arg m) R LR ->
  exists n, sig_view everywhere (view everywhere n m) m o = Some (mkSig LA LR (ms_variadic o)).
Proof.
  intros CA FA CR FR. destruct (all_deep _ _ (arg_up m) (arg_of m) _ _ FA) as (n1 & H1). destruct (all_deep _ _ (arg_up m) (arg_of m) _ _ FR) as (n2 & H2).
  exists (Nat.max n1 n2). unfold sig_view. rewrite !open_everywhere, CA, CR. cbn [obind].
  rewrite (args_mono _ _ _ _ _ _ (Nat.le_max_l n1 n2) H1). cbn [obind]. now rewrite (args_mono _ _ _ _ _ _ (Nat.le_max_r n1 n2) H2).
Qed.
Lemma method_of m c M : is_method m c M -> exists n, method_view everywhere (view everywhere n m) m c = Some M.
Proof.
  intros (o & A & R & -> & CA & FA & CR & FR & V). destruct (sig_of _ _ _ _ _ _ CA FA CR FR) as (n & H). exists n. cbn [method_view]. rewrite H, V.
  destruct M as [x [? ? ?]]. reflexivity.
Qed.
Lemma is_arg_grown m m1 c a : grown m m1 -> is_arg m c a -> is_arg m1 c a.
Proof. intros G (u & -> & D). exists u. split; auto. eapply denotes_grown; eauto. Qed.
Lemma is_field_grown m m1 c a : grown m m1 -> is_field m c a -> is_field m1 c a.
Proof. intros G (u & -> & D). exists u. split; auto. eapply denotes_grown; eauto. Qed.
Lemma forall2_impl {A B} (P Q : A -> B -> Prop) : (forall a b, P a b -> Q a b) -> forall l r, Forall2 P l r -> Forall2 Q l r.
Proof. intros H l r F. induction F; auto. Qed.
Lemma is_method_grown m m1 c a : grown m m1 -> is_method m c a -> is_method m1 c a.
Proof.
  intros G (o & A & R & -> & CA & FA & CR & FR & V). exists o, A, R. split; auto. split; [eapply cells_grown; eauto|].
  split; [revert FA; apply forall2_impl; intros; eapply is_arg_grown; eauto|]. split; [eapply cells_grown; eauto|].
  split; [revert FR; apply forall2_impl; intros; eapply is_arg_grown; eauto|exact V].
Qed.
(** Fields, Methods, Embeds *)
Definition independent (m m1 : mem) (s : slice) : Prop :=
  forall a m2, on_array s a -> written a m1 m2 -> forall u U, denotes m u U -> denotes m2 u U.
Lemma fields_copied m t L : denotes m t (TStruct L) ->
  exists s m1, mFields t m = (Ok s, m1) /\ grown m m1 /\ lists (is_field m1) m1 s L /\ independent m m1 s.
Proof.
  intros ([|n] & V); [discriminate|]. destruct t; cbn [view] in V; unfold option_map, obind in V;
    try (repeat match type of V with context [match ?x with _ => _ end] => destruct x; try discriminate V end; discriminate V).
  destruct (nth_error (objs m) p) as [[| |fs|]|] eqn:N; try discriminate. rewrite open_everywhere in V.
  destruct (cells m fs) as [l|] eqn:C; [|discriminate]. destruct (all_view _ l) as [L0|] eqn:AV; [|discriminate]. injection V as ->.
  destruct (copy_run fs m l C) as (m1 & R & G & C1). exists (SArr (List.length (arrays m)) (List.length l)), m1.
  cbn [mFields]. rewrite N. split; [exact R|]. split; [exact G|]. split.
  - exists l. split; [exact C1|]. eapply forall2_impl; [|eapply all_view_each; [|exact AV]; intros c b; apply field_is]. intros a b. now apply is_field_grown.
  - intros a m2 <- W u U. eapply copy_kept; eauto. apply nth_none.
Qed.
Lemma methods_copied m t M E : denotes m t (TInterface M E) ->
  exists s m1, mMethods t m = (Ok s, m1) /\ grown m m1 /\ lists (is_method m1) m1 s M /\ independent m m1 s.
Proof.
  intros ([|n] & V); [discriminate|]. destruct t; cbn [view] in V; unfold option_map, obind in V;
    try (repeat match type of V with context [match ?x with _ => _ end] => destruct x; try discriminate V end; discriminate V).
  destruct (nth_error (objs m) p) as [[| | |ms es]|] eqn:N; try discriminate. rewrite !open_everywhere in V.
  destruct (cells m ms) as [l|] eqn:C; [|discriminate]. destruct (all_view _ l) as [L0|] eqn:AV; [|discriminate].
  destruct (cells m es) as [le|] eqn:CE; [|discriminate]. destruct (all_view _ le) as [LE|] eqn:AE; [|discriminate]. injection V as -> ->.
  destruct (copy_run ms m l C) as (m1 & R & G & C1). exists (SArr (List.length (arrays m)) (List.length l)), m1.
  cbn [mMethods]. rewrite N. split; [exact R|]. split; [exact G|]. split.
  - exists l. split; [exact C1|]. eapply forall2_impl; [|eapply all_view_each; [|exact AV]; intros c b; apply method_is]. intros a b. now apply is_method_grown.
  - intros a m2 <- W u U. eapply copy_kept; eauto. apply nth_none.
Qed.
Lemma embeds_copied m t M E : denotes m t (TInterface M E) ->
  exists s m1, mEmbeds t m = (Ok s, m1) /\ grown m m1 /\ cells m1 s = Some (map CSym E) /\ independent m m1 s.
Proof.
  intros ([|n] & V); [discriminate|]. destruct t; cbn [view] in V; unfold option_map, obind in V;
    try (repeat match type of V with context [match ?x with _ => _ end] => destruct x; try discriminate V end; discriminate V).
  destruct (nth_error (objs m) p) as [[| | |ms es]|] eqn:N; try discriminate. rewrite !open_everywhere in V.
  destruct (cells m ms) as [l|] eqn:C; [|discriminate]. destruct (all_view _ l) as [L0|] eqn:AV; [|discriminate].
  destruct (cells m es) as [le|] eqn:CE; [|discriminate]. destruct (all_view _ le) as [LE|] eqn:AE; [|discriminate]. injection V as -> ->.
  destruct (copy_run es m le CE) as (m1 & R & G & C1). exists (SArr (List.length (arrays m)) (List.length le)), m1.
  cbn [mEmbeds]. rewrite N. split; [exact R|]. split; [exact G|]. split.
  - rewrite C1. f_equal. clear -AE. revert E AE. induction le as [|c r IH]; intros E H; cbn in H; [injection H as <-; reflexivity|].
    destruct c; try discriminate. cbn in H. destruct (all_view sym_view r) as [E'|]; [|discriminate]. injection H as <-. cbn. f_equal. now apply IH.
  - intros a m2 <- W u U. eapply copy_kept; eauto. apply nth_none.
Qed.
(** Constructors *)
Lemma nil_iff m t T : denotes m t T -> m_nil t = is_nil T.
Proof.
  intros ([|n] & V); [discriminate|]. destruct t; cbn [view] in V; unfold option_map, obind in V;
    repeat match type of V with context [match ?x with _ => _ end] => destruct x; try discriminate V end; injection V as <-; reflexivity.
Qed.
Lemma value_types m t T k K (len dir : Z) : denotes m t T -> denotes m k K ->
  same_value m (mPointerType t) (PointerType T) /\ same_value m (mSliceType t) (SliceType T) /\
  same_value m (mArrayType t len) (ArrayType T len) /\ same_value m (mMapType k t) (MapType K T) /\ same_value m (mChannelType t dir) (ChannelType T dir).
Proof.
  intros D DK. unfold mPointerType, mSliceType, mArrayType, mMapType, mChannelType, PointerType, SliceType, ArrayType, MapType, ChannelType.
  rewrite (nil_iff _ _ _ D), (nil_iff _ _ _ DK). destruct D as (n & V), DK as (n2 & V2).
  assert (ONE : forall f F, (forall j, view everywhere (S j) m (f t) = option_map F (view everywhere j m t)) -> denotes m (f t) (F T)).
  { intros f F H. exists (S n). now rewrite H, V. }
  split; [destruct (is_nil T); [reflexivity|now apply (ONE MPtr TPtr)]|].
  split; [destruct (is_nil T); [reflexivity|now apply (ONE MSlice TSlice)]|].
  repeat split; match goal with |- same_value _ (if ?b then _ else _) _ => destruct b; [reflexivity|]; cbn [same_value] end.
  - now apply (ONE (fun t => MArray t len) (fun T => TArray T len)).
  - exists (S (Nat.max n n2)). cbn [view]. rewrite (view_mono _ _ _ _ _ _ (Nat.le_max_l n n2) V). cbn [obind].
    now rewrite (view_mono _ _ _ _ _ _ (Nat.le_max_r n n2) V2).
  - now apply (ONE (fun t => MChan t _) (fun T => TChan T _)).
Qed.
Lemma named_type m s : same_made m (mNamedType s m) (Ok (NamedType s)).
Proof.
  split; [apply new_obj_grown|]. exists 1. cbn [view fst snd mNamedType sbind new_obj sret]. cbn [objs]. now rewrite nth_new.
Qed.
Lemma struct_type m fs L : lists (is_field m) m fs L -> same_made m (mStructType fs m) (Ok (StructType L)).
Proof.
  intros (l & C & F). split; [apply new_obj_grown|]. cbn [fst snd mStructType sbind new_obj sret same_value StructType].
  set (m1 := mkMem (objs m ++ [OStruct fs]) (arrays m)). assert (G : grown m m1) by apply new_obj_grown.
  assert (F1 : Forall2 (is_field m1) l L) by (revert F; apply forall2_impl; intros; eapply is_field_grown; eauto).
  destruct (all_deep _ _ (field_up m1) (field_of m1) _ _ F1) as (n & H).
  change (all_view (field_view (view everywhere n m1)) l = Some L) in H. exists (S n). cbn [view]. unfold m1 at 1. cbn [objs]. rewrite nth_new, open_everywhere.
  rewrite (cells_grown _ _ _ _ G C). cbn [obind]. now rewrite H.
Qed.
Lemma syms_view E : all_view sym_view (map CSym E) = Some E.
Proof. induction E as [|s r IH]; cbn; auto. now rewrite IH. Qed.
Lemma interface_type m es ms E M : cells m es = Some (map CSym E) -> lists (is_method m) m ms M -> same_made m (mInterfaceType es ms m) (Ok (InterfaceType E M)).
Proof.
  intros CE (l & C & F). split; [apply new_obj_grown|]. cbn [fst snd mInterfaceType sbind new_obj sret same_value InterfaceType].
  set (m1 := mkMem (objs m ++ [OInterface ms es]) (arrays m)). assert (G : grown m m1) by apply new_obj_grown.
  assert (F1 : Forall2 (is_method m1) l M) by (revert F; apply forall2_impl; intros; eapply is_method_grown; eauto).
  destruct (all_deep _ _ (method_up m1) (method_of m1) _ _ F1) as (n & H).
  change (all_view (method_view everywhere (view everywhere n m1) m1) l = Some M) in H. exists (S n). cbn [view]. unfold m1 at 1. cbn [objs]. rewrite nth_new, !open_everywhere.
  rewrite (cells_grown _ _ _ _ G C). cbn [obind]. rewrite H. cbn [obind]. rewrite (cells_grown _ _ _ _ G CE). cbn [obind]. now rewrite syms_view.
Qed.
Lemma func_type m args results v A R : lists (is_arg m) m args A -> lists (is_arg m) m results R ->
  same_made m (mFuncType args results v m) (FuncTypeFromSig (mkSig A R v)).
Proof.
  intros (la & CA & FA) (lr & CR & FR). unfold mFuncType, sbind, new_obj. set (o := mkMSig args results v).
  set (m1 := mkMem (objs m ++ [OSig o]) (arrays m)). assert (G : grown m m1) by apply new_obj_grown.
  assert (FA1 : Forall2 (is_arg m1) la A) by (revert FA; apply forall2_impl; intros; eapply is_arg_grown; eauto).
  assert (FR1 : Forall2 (is_arg m1) lr R) by (revert FR; apply forall2_impl; intros; eapply is_arg_grown; eauto).
  destruct (sig_of m1 o la lr A R (cells_grown _ _ _ _ G CA) FA1 (cells_grown _ _ _ _ G CR) FR1) as (n & H).
  assert (Nq : nth_error (objs m1) (List.length (objs m)) = Some (OSig o)) by apply nth_new.
  rewrite (from_sig_sim everywhere _ m1 _ o _ Nq H). split; [exact G|]. cbn [fst snd]. destruct (FuncTypeFromSig _) as [T|e] eqn:ET; cbn [same_value]; [|reflexivity].
  apply func_denotes. eexists. split; [|exists n, o; split; [exact Nq|exact H]].
  unfold FuncTypeFromSig in ET. repeat match type of ET with (if ?b then _ else _) = _ => destruct b; [discriminate|] end. now injection ET.
Qed.
