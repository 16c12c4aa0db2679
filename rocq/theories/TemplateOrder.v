(** Template data: independence of the order of map entries. *)
From Coq Require Import Permutation.
From Verif Require Import Base BaseFacts GoPath Types SpecTypes TypesFacts Imports SpecImports ImportsProofs ImportsTheorems Conv World
  Template SpecTemplate TemplateProofs TemplateRuns.

(** ** The relation *)
Lemma Forall2_refl {A} (R : A -> A -> Prop) (H : forall a, R a a) l : Forall2 R l l.
Proof. induction l; constructor; auto. Qed.
Lemma sh_iface_inv t d w : shuffled (VIface t (Some d)) w -> exists d', w = VIface t (Some d') /\ shuffled d d'.
Proof. inversion 1; subst; eauto using sh_same. Qed.
Lemma sh_struct_inv t fs w : shuffled (VStruct t fs) w -> exists fs', w = VStruct t fs' /\
  Forall2 (fun f g => fst g = fst f /\ shuffled (snd f) (snd g)) fs fs'.
Proof. inversion 1; subst; eexists; split; eauto. apply Forall2_refl. intros; split; auto using sh_same. Qed.
Lemma sh_ptr_inv e x w : shuffled (VPtr e (Some x)) w -> exists x', w = VPtr e (Some x') /\ shuffled x x'.
Proof. inversion 1; subst; eauto using sh_same. Qed.
Lemma sh_slice_inv t l w : shuffled (VSlice t l) w -> exists l', w = VSlice t l' /\ Forall2 shuffled l l'.
Proof. inversion 1; subst; eexists; split; eauto. apply Forall2_refl, sh_same. Qed.
Lemma sh_array_inv t l w : shuffled (VArray t l) w -> exists l', w = VArray t l' /\ Forall2 shuffled l l'.
Proof. inversion 1; subst; eexists; split; eauto. apply Forall2_refl, sh_same. Qed.
Definition sh_entry (e f : val * val) : Prop := shuffled (fst e) (fst f) /\ shuffled (snd e) (snd f).
Lemma sh_map_inv t es w : shuffled (VMap t es) w -> exists es1 es', w = VMap t es' /\ Permutation es es1 /\ Forall2 sh_entry es1 es'.
Proof.
  inversion 1; subst; eexists _, _; split; eauto. split; [apply Permutation_refl|]. apply Forall2_refl. intros; split; apply sh_same.
Qed.
Lemma sh_typeof v w : shuffled v w -> typeof w = typeof v.
Proof. inversion 1; auto. Qed.
Lemma sh_is_iface v w : shuffled v w -> is_iface w = is_iface v.
Proof. inversion 1; auto. Qed.
Lemma sh_box x y x' y' : shuffled x y -> shuffled x' y' -> shuffled (box x x') (box y y').
Proof.
  intros H H'. destruct (is_iface x) eqn:F.
  - destruct x as [t d| | | | | | | | | | | | | | | | | |]; try discriminate.
    assert (Y : exists d', y = VIface t d') by (inversion H; eauto). destruct Y as (d' & ->). cbn [box].
    destruct (is_iface x') eqn:F'.
    + destruct x' as [t' [e|]| | | | | | | | | | | | | | | | | |]; try discriminate.
      * apply sh_iface_inv in H' as (e' & -> & H'). constructor; auto.
      * inversion H'; subst; apply sh_same.
    + assert (G : is_iface y' = false) by (rewrite (sh_is_iface _ _ H'); auto).
      destruct x'; try discriminate; destruct y'; try discriminate; constructor; auto.
  - rewrite box_other by auto. rewrite box_other by (rewrite (sh_is_iface _ _ H); auto). auto.
Qed.
Lemma sh_leaf v w : shuffled v w -> (forall t d, v <> VIface t (Some d)) -> (forall t fs, v <> VStruct t fs) -> (forall e x, v <> VPtr e (Some x)) ->
  (forall t l, v <> VSlice t l) -> (forall t l, v <> VArray t l) -> (forall t l, v <> VMap t l) -> w = v.
Proof. inversion 1; subst; auto; intros; exfalso; eauto; congruence. Qed.

(** ** Keys *)
Definition all_keys : list val -> list val -> bool :=
  fix all (l m : list val) : bool :=
    match l, m with [], [] => true | x :: l', y :: m' => same_key x y && all l' m' | _, _ => false end.
Definition all_fields : list (bool * val) -> list (bool * val) -> bool :=
  fix go (l m : list (bool * val)) : bool :=
    match l, m with [], [] => true | (_, x) :: l', (_, y) :: m' => same_key x y && go l' m' | _, _ => false end.
Lemma key_struct t l u m : same_key (VStruct t l) (VStruct u m) = String.eqb t u && all_fields l m.
Proof. reflexivity. Qed.
Lemma key_array t l u m : same_key (VArray t l) (VArray u m) = String.eqb t u && all_keys l m.
Proof. reflexivity. Qed.
Lemma gty_eqb_sym a : forall b, gty_eqb a b = gty_eqb b a.
Proof. induction a; intros []; cbn; auto using String.eqb_sym. Qed.
Lemma package_eqb_sym a b : package_eqb a b = package_eqb b a.
Proof. unfold package_eqb. f_equal; apply String.eqb_sym. Qed.
Lemma Kind_beq_sym a b : Kind_beq a b = Kind_beq b a.
Proof. destruct a, b; reflexivity. Qed.
Lemma same_type_sym t : forall u, same_type t u = same_type u t.
Proof.
  induction t; intros []; cbn; auto using Kind_beq_sym; f_equal; auto using Z.eqb_sym.
Qed.
Lemma same_key_sym a : forall b, same_key a b = same_key b a.
Proof.
  induction a as [t|t d IH|t fs IH|e|e x IH|t l IH|t l IH|t es IH|p|s|m|s|s r|e|im|n|r|g|o|p|t n] using val_ind'; intros b;
    try (destruct b as [t' [d'|]|t' fs'|e' [x'|]|t' l'|t' l'|t' es'|p'|s'|m'|s'|s' r'|e'|im'|n'|r'|g'|o'|p'|t' n']; reflexivity || idtac).
  - apply IH.
  - rewrite !key_struct. f_equal; [apply String.eqb_sym|]. revert fs'. induction IH as [|[ex x] fs H _ IHf]; intros [|[ex' y] gs]; cbn; auto.
    cbn [snd] in H. rewrite H, IHf. auto.
  - cbn. apply gty_eqb_sym.
  - rewrite !key_array. f_equal; [apply String.eqb_sym|]. revert l'. induction IH as [|x fs H _ IHf]; intros [|y gs]; cbn; auto.
    rewrite H, IHf. auto.
  - cbn. apply package_eqb_sym.
  - cbn. apply symbol_eqb_sym.
  - cbn. f_equal; [apply symbol_eqb_sym|apply String.eqb_sym].
  - cbn. apply same_type_sym.
  - cbn. f_equal; [apply String.eqb_sym|apply Nat.eqb_sym].
Qed.
Lemma sh_key a : forall b a' b', shuffled a a' -> shuffled b b' -> same_key a' b' = same_key a b.
Proof.
  induction a as [t|t d IH|t fs IH|e|e x IH|t l IH|t l IH|t es IH|p|s|m|s|s r|e|im|n|r|g|o|p|t n] using val_ind'; intros b a' b' Ha Hb;
    try (apply sh_leaf in Ha; [|congruence..]; subst a';
         destruct b as [t' [d'|]|t' fs'|e' [x'|]|t' l'|t' l'|t' es'|p'|s'|m'|s'|s' r'|e'|im'|n'|r'|g'|o'|p'|t' n']; inversion Hb; subst; reflexivity).
  - apply sh_iface_inv in Ha as (d2 & -> & Ha).
    destruct b as [t' [d'|]|t' fs'|e' [x'|]|t' l'|t' l'|t' es'|p'|s'|m'|s'|s' r'|e'|im'|n'|r'|g'|o'|p'|t' n']; try (inversion Hb; subst; reflexivity).
    apply sh_iface_inv in Hb as (d3 & -> & Hb). cbn [same_key]. apply IH; auto.
  - apply sh_struct_inv in Ha as (fs2 & -> & Ha).
    destruct b as [t' [d'|]|t' fs'|e' [x'|]|t' l'|t' l'|t' es'|p'|s'|m'|s'|s' r'|e'|im'|n'|r'|g'|o'|p'|t' n']; try (inversion Hb; subst; reflexivity).
    apply sh_struct_inv in Hb as (fs3 & -> & Hb). rewrite !key_struct. f_equal. revert fs' fs2 fs3 Ha Hb.
    induction IH as [|[ex x] fs H _ IHf]; intros fs' fs2 fs3 Ha Hb; inversion Ha; subst; inversion Hb; subst; auto.
    + destruct y as [ey y]. auto.
    + destruct y as [ey y], x0 as [e0 x0], y0 as [e3 y0]. cbn [fst snd] in *. cbn [all_fields]. destruct H2, H0.
      rewrite (H x0 y y0) by tauto. f_equal. apply IHf; auto.
  - apply sh_ptr_inv in Ha as (d2 & -> & Ha).
    destruct b as [t' [d'|]|t' fs'|e' [x'|]|t' l'|t' l'|t' es'|p'|s'|m'|s'|s' r'|e'|im'|n'|r'|g'|o'|p'|t' n']; inversion Hb; subst; reflexivity.
  - apply sh_slice_inv in Ha as (d2 & -> & Ha).
    destruct b as [t' [d'|]|t' fs'|e' [x'|]|t' l'|t' l'|t' es'|p'|s'|m'|s'|s' r'|e'|im'|n'|r'|g'|o'|p'|t' n']; inversion Hb; subst; reflexivity.
  - apply sh_array_inv in Ha as (fs2 & -> & Ha).
    destruct b as [t' [d'|]|t' fs'|e' [x'|]|t' l'|t' l'|t' es'|p'|s'|m'|s'|s' r'|e'|im'|n'|r'|g'|o'|p'|t' n']; try (inversion Hb; subst; reflexivity).
    apply sh_array_inv in Hb as (fs3 & -> & Hb). rewrite !key_array. f_equal. revert l' fs2 fs3 Ha Hb.
    induction IH as [|x fs H _ IHf]; intros fs' fs2 fs3 Ha Hb; inversion Ha; subst; inversion Hb; subst; auto.
    cbn [all_keys]. rewrite (H x0 y y0) by auto. f_equal. apply IHf; auto.
  - apply sh_map_inv in Ha as (d2 & d3 & -> & Ha).
    destruct b as [t' [d'|]|t' fs'|e' [x'|]|t' l'|t' l'|t' es'|p'|s'|m'|s'|s' r'|e'|im'|n'|r'|g'|o'|p'|t' n']; inversion Hb; subst; reflexivity.
Qed.
Definition apart (l : list (val * val)) : Prop := ForallOrdPairs (fun a b : val * val => same_key (fst b) (fst a) = false) l.
Lemma apart_perm l m : Permutation l m -> apart l -> apart m.
Proof.
  unfold apart. induction 1 as [|x l m P IH|x y l|l m n P1 IH1 P2 IH2]; intros A; auto.
  - inversion A; subst. constructor; auto. eapply Permutation_Forall; eauto.
  - inversion A; subst. inversion H2; subst. inversion H1; subst. constructor; constructor; auto. rewrite same_key_sym; auto.
Qed.
Lemma apart_shuffled l m : Forall2 sh_entry l m -> apart l -> apart m.
Proof.
  unfold apart. induction 1 as [|e f l m [Hk Hx] F IH]; intros A; [constructor|]. inversion A; subst. constructor; auto.
  clear - Hk F H1. induction F as [|a b l m [Hk' _] F IH]; constructor; inversion H1; subst; auto.
  rewrite (sh_key (fst a) (fst e)); auto.
Qed.
Lemma apart_entries l : forall m, apart (m ++ l) -> entries_in l m = m ++ l.
Proof.
  induction l as [|[k x] l IH]; intros m A; cbn [entries_in fold_left]; [now rewrite app_nil_r|].
  unfold entries_in. cbn [fold_left fst snd]. rewrite set_entry_new.
  - change ((k, x) :: l) with ([(k, x)] ++ l). rewrite app_assoc. apply IH. rewrite <- app_assoc. exact A.
  - apply ordered_app in A. exact A.
Qed.

Section Order.
Variable implements : gty -> string -> bool.
Variable unsafe : bool.
Variable parent_of : spec -> res (option Package).
Notation typed := (typed implements).
Notation reqs := (data_requests unsafe parent_of).
Notation keys_apart := (keys_apart implements unsafe parent_of).
Notation walk := (qualifyTemplateData implements unsafe parent_of).
Notation fits := (assignable implements).
Definition knows (i : Imports) (l : list (string * string)) : Prop := forall p n, In (p, n) l -> prefix_name i p <> None.
Lemma knows_flat {A} i (f : A -> list (string * string)) l a : knows i (flat_map f l) -> In a l -> knows i (f a).
Proof. intros K H p n X. eapply K. apply in_flat_map. eauto. Qed.
Lemma knows_app i l m : knows i (l ++ m) -> knows i l /\ knows i m.
Proof. intros K. split; intros p n X; eapply K; apply in_app_iff; eauto. Qed.
Lemma known_state addr v i v' c i' : typed v -> Inv i -> knows i (reqs v) -> walk addr v i = (Ok (v', c), i') -> i' = i.
Proof.
  intros T Hi K E. rewrite (d_after _ _ _ _ _ _ _ _ (walk_does implements unsafe parent_of v addr T i v' c i' Hi E)).
  apply after_known; auto.
Qed.

(** [y] runs as [x] does in state [i]. *)
Definition follows (rec : val -> IM (val * bool)) (i : Imports) (x y : val) : Prop :=
  shuffled x y /\ forall x' c i', rec x i = (Ok (x', c), i') -> i' = i /\ exists y', rec y i = (Ok (y', c), i) /\ shuffled x' y'.
Lemma sh_store x x' y y' z : shuffled x y -> shuffled x' y' -> store implements x x' = Ok z ->
  exists z', store implements y y' = Ok z' /\ shuffled z z'.
Proof.
  intros H H'. unfold store. rewrite (sh_typeof _ _ H), (sh_typeof _ _ H'). destruct (fits _ _); [|discriminate]. intros [= <-].
  eexists. split; [reflexivity|]. apply sh_box; auto.
Qed.
Lemma sh_elems rec ok i l m : Forall2 (follows rec i) l m -> forall b l' s i',
  elems_loop implements rec ok l b i = (Ok (l', s), i') -> exists m',
  elems_loop implements rec ok m b i = (Ok (m', s), i) /\ Forall2 shuffled l' m'.
Proof.
  induction 1 as [|x y l m [Sh F] _ IH]; intros b l' s i' E; cbn [elems_loop] in *.
  - injection E as <- <- <-. exists []. split; auto.
  - unfold sbind, slift, sret in *. destruct (rec x i) as [[[x' c]|e] i1] eqn:R; [|discriminate].
    destruct (F _ _ _ eq_refl) as (-> & y' & Ry & Sy). rewrite Ry. destruct (b || c).
    + destruct (if b then Ok tt else ok) as [[]|]; [|discriminate].
      destruct (store implements x x') as [z|] eqn:St; [|discriminate]. destruct (sh_store _ _ _ _ _ Sh Sy St) as (z' & -> & Sz).
      destruct (elems_loop implements rec ok l true i) as [[[r t]|e] i2] eqn:El; [|discriminate]. injection E as <- <- <-.
      destruct (IH _ _ _ _ El) as (m' & -> & Sm). eauto.
    + destruct (elems_loop implements rec ok l false i) as [[[r t]|e] i2] eqn:El; [|discriminate]. injection E as <- <- <-.
      destruct (IH _ _ _ _ El) as (m' & -> & Sm). eauto.
Qed.
Lemma sh_fields rec addr i l m :
  Forall2 (fun f g => fst g = fst f /\ shuffled (snd f) (snd g) /\ (fst f = true \/ unsafe = true -> follows rec i (snd f) (snd g))) l m -> forall e b l' s i',
  fields_loop implements unsafe rec addr e l b i = (Ok (l', s), i') -> exists m',
  fields_loop implements unsafe rec addr e m b i = (Ok (m', s), i) /\ Forall2 (fun f g => fst g = fst f /\ shuffled (snd f) (snd g)) l' m'.
Proof.
  induction 1 as [|[ex x] [ey y] l m [Eq [Sh F]] _ IH]; intros e b l' s i' E; cbn [fields_loop] in *.
  - injection E as <- <- <-. exists []. split; auto.
  - cbn [fst snd] in Eq, F, Sh. subst ey. unfold sbind, slift, sret in *.
    destruct (getField_qualify unsafe rec addr ex x i) as [[[x' c]|e0] i1] eqn:R; [|discriminate].
    assert (G : i1 = i /\ exists y', getField_qualify unsafe rec addr ex y i = (Ok (y', c), i) /\ shuffled x' y').
    { unfold getField_qualify in *. destruct ex; [apply (F (or_introl eq_refl)); auto|]. destruct unsafe.
      - destruct addr; [|discriminate]. apply (F (or_intror eq_refl)); auto.
      - injection R as <- <- <-. split; auto. exists y. split; auto. }
    destruct G as (-> & y' & Ry & Sy). rewrite Ry. destruct (b || c).
    + destruct (if (b || e) && ex then Ok tt else Panic p_readonly) as [[]|]; [|discriminate].
      destruct (store implements x x') as [z|] eqn:St; [|discriminate].
      destruct (sh_store _ _ _ _ _ Sh Sy St) as (z' & -> & Sz).
      destruct (fields_loop implements unsafe rec addr (e && ex) l true i) as [[[r t]|e0] i2] eqn:El; [|discriminate]. injection E as <- <- <-.
      destruct (IH _ _ _ _ _ El) as (m' & -> & Sm). eauto.
    + destruct (fields_loop implements unsafe rec addr (e && ex) l false i) as [[[r t]|e0] i2] eqn:El; [|discriminate]. injection E as <- <- <-.
      destruct (IH _ _ _ _ _ El) as (m' & -> & Sm). eauto.
Qed.

(** Outcomes of map entries *)
Definition outcome (rec : val -> IM (val * bool)) (i : Imports) (e : val * val) (r : (val * val) * bool) : Prop :=
  exists k' ck x' cx, rec (fst e) i = (Ok (k', ck), i) /\ rec (snd e) i = (Ok (x', cx), i) /\
    fits (typeof k') (typeof (fst e)) = true /\ fits (typeof x') (typeof (snd e)) = true /\
    fst r = (box (fst e) k', box (snd e) x') /\ snd r = ck || cx /\ (snd r = false -> fst r = e).
Definition steady (rec : val -> IM (val * bool)) (i : Imports) (x : val) : Prop :=
  forall x' c i', rec x i = (Ok (x', c), i') -> i' = i /\ (c = false -> fits (typeof x') (typeof x) = true /\ box x x' = x).
Lemma fits_store x x' y : store implements x x' = Ok y -> fits (typeof x') (typeof x) = true.
Proof. unfold store. destruct (fits _ _); auto. discriminate. Qed.
Lemma map_outcomes rec i es : Forall (fun e => steady rec i (fst e) /\ steady rec i (snd e)) es -> forall m b m' s i',
  map_loop implements rec es m b i = (Ok (m', s), i') -> i' = i /\ exists rs, Forall2 (outcome rec i) es rs.
Proof.
  induction 1 as [|[k x] es [Sk Sx] _ IH]; intros m b m' s i' E; cbn [map_loop] in E.
  - injection E as <- <- <-. eauto.
  - cbn [fst snd] in *. unfold sbind, slift in E. destruct (rec k i) as [[[k' ck]|e] i1] eqn:Rk; [|discriminate].
    destruct (Sk _ _ _ Rk) as [-> Fk]. destruct (rec x i) as [[[x' cx]|e] i1] eqn:Rx; [|discriminate]. destruct (Sx _ _ _ Rx) as [-> Fx].
    assert (G : fits (typeof k') (typeof k) = true -> fits (typeof x') (typeof x) = true -> forall rs, Forall2 (outcome rec i) es rs ->
      exists rs, Forall2 (outcome rec i) ((k, x) :: es) rs).
    { intros F1 F2 rs R. exists (((box k k', box x x'), ck || cx) :: rs). constructor; auto. exists k', ck, x', cx. cbn [fst snd].
      repeat (split; [auto|]). intros C. apply orb_false_iff in C as [-> ->]. destruct (Fk eq_refl) as [_ ->], (Fx eq_refl) as [_ ->]; auto. }
    destruct (b || ck || cx) eqn:B.
    + destruct (store implements k k') eqn:St1; [|discriminate]. destruct (store implements x x') eqn:St2; [|discriminate].
      apply fits_store in St1, St2. destruct (IH _ _ _ _ _ E) as (-> & rs & R). split; eauto.
    + apply orb_false_iff in B as [B ->]. apply orb_false_iff in B as [-> ->]. destruct (IH _ _ _ _ _ E) as (-> & rs & R). split; auto.
      eapply G; eauto; [apply Fk|apply Fx]; auto.
Qed.
Lemma outcomes_map rec i es rs : Forall2 (outcome rec i) es rs -> forall m b, (b = false -> apart (m ++ es)) ->
  map_loop implements rec es m b i =
    (Ok (if b || existsb snd rs then entries_in (map fst rs) m else m ++ es, b || existsb snd rs), i).
Proof.
  induction 1 as [|[k x] [[k2 x2] c] es rs O _ IH]; intros m b A; cbn [map_loop].
  - cbn [existsb map]. rewrite orb_false_r, app_nil_r. destruct b; auto.
  - destruct O as (k' & ck & x' & cx & Rk & Rx & Fk & Fx & [= -> ->] & Ec & Sm). cbn [fst snd] in *. subst c. unfold sbind, slift.
    rewrite Rk, Rx. cbn [existsb map fst snd]. destruct (b || ck || cx) eqn:B.
    + unfold store. rewrite Fk, Fx. rewrite IH by discriminate. cbn [orb].
      assert (B' : b || (ck || cx || existsb snd rs) = true).
      { destruct b, ck, cx; cbn in *; auto; discriminate. }
      rewrite B'. reflexivity.
    + apply orb_false_iff in B as [B ->]. apply orb_false_iff in B as [-> ->]. cbn [orb] in *. specialize (A eq_refl).
      injection (Sm eq_refl) as -> ->. rewrite IH by (intros _; rewrite <- app_assoc; exact A). cbn [orb].
      destruct (existsb snd rs).
      * unfold entries_in. cbn [fold_left fst snd]. rewrite set_entry_new; auto. apply ordered_app in A. exact A.
      * rewrite <- app_assoc. auto.
Qed.
Lemma outcomes_renamed addr i es rs : Inv i -> Forall (fun e => typed (fst e) /\ typed (snd e)) es -> Forall2 (outcome (walk addr) i) es rs ->
  renamed_entries implements unsafe parent_of (name_in i) (existsb snd rs) es (map fst rs).
Proof.
  intros Hi T. induction 1 as [|[k x] [[k2 x2] c] es rs O _ IH]; [constructor|]. inversion T as [|? ? [Tk Tx] T']; subst. cbn [fst snd] in *.
  destruct O as (k' & ck & x' & cx & Rk & Rx & Fk & Fx & [= -> ->] & Ec & Sm). cbn [fst snd] in *. subst c. cbn [existsb map fst snd].
  pose proof (walk_does implements unsafe parent_of k addr Tk i k' ck i Hi Rk) as Dk.
  pose proof (walk_does implements unsafe parent_of x addr Tx i x' cx i Hi Rx) as Dx.
  destruct (store_fits implements _ _ Fk) as (y1 & S1). destruct (store_fits implements _ _ Fx) as (y2 & S2).
  apply store_Ok in S1 as [-> S1], S2 as [-> S2].
  constructor; auto; [apply (d_renamed _ _ _ _ _ _ _ _ Dk)|apply (d_renamed _ _ _ _ _ _ _ _ Dx)]; auto; apply ext_refl.
Qed.
Lemma existsb_perm {A} (f : A -> bool) l m : Permutation l m -> existsb f l = existsb f m.
Proof.
  induction 1; cbn; auto; try congruence. rewrite !orb_assoc. f_equal. apply orb_comm.
Qed.

Lemma walk_shuffled v : forall addr i v' c i' w, typed v -> Inv i -> knows i (reqs v) -> keys_apart (name_in i) v -> shuffled v w ->
  walk addr v i = (Ok (v', c), i') -> exists w', walk addr w i = (Ok (w', c), i) /\ shuffled v' w' /\ (c = false -> box w w' = w).
Proof.
  induction v as [t|t d IH|t fs IH|e|e x IH|t l IH|t l IH|t es IH|p|s|m|s|s r|e|im|n|r|g|o|p|t n] using val_ind';
    intros addr i v' c i' w T Hi K A Sh E; pose proof (known_state addr _ i v' c i' T Hi K E) as Ei; subst i';
    try (apply sh_leaf in Sh; [|congruence..]; subst w; exists v'; split; [exact E|split; [apply sh_same|intros ->; eapply d_same; [eapply walk_does; eauto|reflexivity]]]).
  - apply sh_iface_inv in Sh as (d' & -> & Sh). cbn [qualifyTemplateData] in *. destruct T as (Imp & Nd & T).
    destruct (replacement implements t (VIface t (Some d)) d) as [m|] eqn:Re.
    + assert (d' = d).
      { inversion Sh; subst; auto; discriminate Re. }
      subst d'. rewrite Re. exists v'. split; [exact E|]. split; [apply sh_same|]. intros ->.
      eapply (d_same implements unsafe parent_of (VIface t (Some d)) v' false i i); [|reflexivity]. apply (walk_does implements unsafe parent_of _ addr); auto.
      { split; auto. } cbn [qualifyTemplateData]. rewrite Re. exact E.
    + assert (At : as_type d = None) by (destruct d; auto; discriminate Re).
      assert (De : denotes d = None) by (destruct d; auto; discriminate Re).
      assert (At' : as_type d' = None) by (inversion Sh; subst; auto).
      assert (De' : denotes d' = None) by (inversion Sh; subst; auto).
      rewrite (replacement_none implements t _ d' De' At'). rewrite At, De in T. cbn [data_requests] in K. rewrite At, De in K.
      destruct (IH false i v' c i d' T Hi K A Sh E) as (w' & Ew & Sw & B). exists w'. split; auto. split; auto. intros C. specialize (B C).
      assert (Nd' : is_iface d' = false) by (rewrite (sh_is_iface _ _ Sh); auto). rewrite box_other in B by auto. subst w'. apply box_new; auto.
  - apply sh_struct_inv in Sh as (fs2 & -> & Sh). cbn [qualifyTemplateData] in *. unfold sbind, sret in *.
    destruct (fields_loop _ _ _ _ _ _ _ i) as [[[l' s]|m] i1] eqn:El; [|discriminate].
    apply Forall_typed_fields in T. cbn [SpecTemplate.keys_apart] in A. apply all_Forall in A. cbn [data_requests] in K.
    apply sh_fields with (m := fs2) in El.
    + destruct El as (m' & -> & Sm). destruct s; injection E as <- <- _; eexists; (split; [reflexivity|]); (split; [constructor; auto|]); auto; discriminate.
    + assert (KK : Forall (fun f : bool * val => fst f || unsafe = true -> knows i (reqs (snd f))) fs).
      { apply Forall_forall. intros f F V. pose proof (knows_flat i _ fs f K F) as G. cbn beta in G. rewrite V in G. exact G. }
      clear - IH T A KK Sh Hi. induction Sh as [|[ex x] [ey y] fs fs2 [Eq Sh] _ IHs]; constructor;
        inversion IH; subst; inversion T; subst; inversion A; subst; inversion KK; subst; auto.
      cbn [fst snd] in *. subst. split; auto. split; auto. intros V. apply orb_true_iff in V. split; auto.
      intros x' c j Ex. pose proof (known_state addr x i x' c j ltac:(auto) Hi ltac:(auto) Ex) as Ej. subst j. split; auto.
      edestruct H1 as (y' & ? & ? & _); eauto.
  - apply sh_ptr_inv in Sh as (x2 & -> & Sh). cbn [qualifyTemplateData] in *. unfold sbind, sret in *. destruct T as [Te T].
    destruct (walk true x i) as [[[x' s]|m] i1] eqn:Ex; [|discriminate].
    destruct (IH true i x' s i1 x2 T Hi K A Sh Ex) as (y' & Ey & Sy & _). rewrite Ey.
    destruct s; injection E as <- <- _; eexists; (split; [reflexivity|]); rewrite ?(sh_typeof _ _ Sy); (split; [constructor; auto|]); auto; discriminate.
  - apply sh_slice_inv in Sh as (l2 & -> & Sh). cbn [qualifyTemplateData] in *. unfold sbind, sret in *.
    destruct (elems_loop _ _ _ _ _ i) as [[[l' s]|m] i1] eqn:El; [|discriminate].
    apply Forall_typed in T. cbn [SpecTemplate.keys_apart] in A. apply all_Forall in A. cbn [data_requests] in K.
    apply sh_elems with (m := l2) in El.
    + destruct El as (m' & -> & Sm). destruct s; injection E as <- <- _; eexists; (split; [reflexivity|]); (split; [constructor; auto|]); auto; discriminate.
    + assert (KK : Forall (fun f => knows i (reqs f)) l) by (apply Forall_forall; intros f F; exact (knows_flat i _ l f K F)).
      clear - IH T A KK Sh Hi. induction Sh as [|x y fs fs2 Sh _ IHs]; constructor;
        inversion IH; subst; inversion T; subst; inversion A; subst; inversion KK; subst; auto.
      split; auto. intros x' c j Ex. pose proof (known_state true x i x' c j ltac:(auto) Hi ltac:(auto) Ex) as Ej. subst j. split; auto.
      edestruct H1 as (y' & ? & ? & _); eauto.
  - apply sh_array_inv in Sh as (l2 & -> & Sh). cbn [qualifyTemplateData] in *. unfold sbind, sret in *.
    destruct (elems_loop _ _ _ _ _ i) as [[[l' s]|m] i1] eqn:El; [|discriminate].
    apply Forall_typed in T. cbn [SpecTemplate.keys_apart] in A. apply all_Forall in A. cbn [data_requests] in K.
    apply sh_elems with (m := l2) in El.
    + destruct El as (m' & -> & Sm). destruct s; injection E as <- <- _; eexists; (split; [reflexivity|]); (split; [constructor; auto|]); auto; discriminate.
    + assert (KK : Forall (fun f => knows i (reqs f)) l) by (apply Forall_forall; intros f F; exact (knows_flat i _ l f K F)).
      clear - IH T A KK Sh Hi. induction Sh as [|x y fs fs2 Sh _ IHs]; constructor;
        inversion IH; subst; inversion T; subst; inversion A; subst; inversion KK; subst; auto.
      split; auto. intros x' c j Ex. pose proof (known_state addr x i x' c j ltac:(auto) Hi ltac:(auto) Ex) as Ej. subst j. split; auto.
      edestruct H1 as (y' & ? & ? & _); eauto.
  - apply sh_map_inv in Sh as (es1 & es2 & -> & P & Sh). cbn [qualifyTemplateData] in *. unfold sbind, sret in *.
    destruct (map_loop implements (walk false) es [] false i) as [[[l' s]|m] i1] eqn:El; [|discriminate].
    destruct T as [T O]. apply keys_differ in O. apply Forall_typed_entries in T. destruct A as [Ak A]. apply all_Forall2 in A. cbn [data_requests] in K.
    assert (KK : forall e, In e es -> knows i (reqs (fst e)) /\ knows i (reqs (snd e))).
    { intros e H. apply knows_app. exact (knows_flat i _ es e K H). }
    rewrite Forall_forall in IH, A.
    assert (TT := T). rewrite Forall_forall in T.
    assert (St : Forall (fun e => steady (walk false) i (fst e) /\ steady (walk false) i (snd e)) es).
    { apply Forall_forall. intros e H. destruct (T e H) as [T1 T2]. destruct (KK e H) as [K1 K2].
      split; intros x' cx j Ex.
      - split; [exact (known_state false _ i _ _ _ T1 Hi K1 Ex)|]. intros ->. split; [eapply same_fits; eauto|].
        eapply d_same; [eapply walk_does; eauto|reflexivity].
      - split; [exact (known_state false _ i _ _ _ T2 Hi K2 Ex)|]. intros ->. split; [eapply same_fits; eauto|].
        eapply d_same; [eapply walk_does; eauto|reflexivity]. }
    destruct (map_outcomes _ _ _ St _ _ _ _ _ El) as (-> & rs & R).
    rewrite (outcomes_map _ _ _ _ R [] false (fun _ => O)) in El. cbn [orb app] in El. injection El as <- <-.
    pose proof (proj1 (keys_differ _) (Ak _ _ (outcomes_renamed false i es rs Hi TT R))) as Ar.
    destruct (Permutation_Forall2 P R) as (rs1 & Pr & R1).
    assert (G : exists rs2, Forall2 (outcome (walk false) i) es2 rs2 /\ Forall2 (fun r q => sh_entry (fst r) (fst q) /\ snd q = snd r) rs1 rs2).
    { assert (In1 : forall e, In e es1 -> In e es) by (intros e H; eapply Permutation_in; [apply Permutation_sym; exact P|exact H]).
      clear - IH T A KK Sh R1 In1 Hi. revert rs1 R1. induction Sh as [|[k x] [k2 x2] es1 es2 [Sk Sx] _ IHs]; intros rs1 R1; inversion R1; subst.
      - exists []. split; constructor.
      - destruct (IHs (fun e H => In1 e (or_intror H)) _ H3) as (rs2 & O2 & S2).
        specialize (In1 (k, x) (or_introl eq_refl)). destruct (IH _ In1) as [IH1 IH2]. destruct (T _ In1) as [T1 T2]. destruct (KK _ In1) as [K1 K2].
        destruct (A _ In1) as [A1 A2]. destruct H1 as (k' & ck & x' & cx & Rk & Rx & Fk & Fx & E1 & E2 & E3). cbn [fst snd] in *.
        destruct (IH1 false i k' ck i k2 T1 Hi K1 A1 Sk Rk) as (k2' & Rk2 & Sk2 & B1).
        destruct (IH2 false i x' cx i x2 T2 Hi K2 A2 Sx Rx) as (x2' & Rx2 & Sx2 & B2).
        exists ((box k2 k2', box x2 x2', ck || cx) :: rs2). split; constructor; auto.
        + exists k2', ck, x2', cx. cbn [fst snd]. split; auto. split; auto.
          rewrite (sh_typeof _ _ Sk), (sh_typeof _ _ Sk2), (sh_typeof _ _ Sx), (sh_typeof _ _ Sx2). split; auto. split; auto. split; auto. split; auto.
          intros C. apply orb_false_iff in C as [-> ->].
          rewrite B1, B2 by auto. auto.
        + split; [|cbn [snd]; auto]. rewrite E1. split; cbn [fst snd]; apply sh_box; auto. }
    destruct G as (rs2 & R2 & S2).
    assert (Ap : apart es2) by (eapply apart_shuffled; [exact Sh|]; eapply apart_perm; [exact P|exact O]).
    rewrite (outcomes_map _ _ _ _ R2 [] false (fun _ => Ap)). cbn [orb app].
    assert (Ex : existsb snd rs2 = existsb snd rs).
    { rewrite (existsb_perm snd _ _ Pr). clear - S2. induction S2 as [|r q rs1 rs2 [_ Eq] _ IHs]; cbn; auto. rewrite Eq, IHs. auto. }
    rewrite Ex.
    assert (Sf : Forall2 sh_entry (map fst rs1) (map fst rs2)).
    { clear - S2. induction S2 as [|r q rs1 rs2 [H _] _ IHs]; constructor; auto. }
    destruct (existsb snd rs); injection E as <- <-; eexists; (split; [reflexivity|]); (split; [|auto; discriminate]).
    + rewrite (apart_entries (map fst rs) []) by exact Ar.
      rewrite (apart_entries (map fst rs2) []).
      * eapply sh_map; [apply Permutation_map; exact Pr|exact Sf].
      * eapply apart_shuffled; [exact Sf|]. eapply apart_perm; [apply Permutation_map; exact Pr|exact Ar].
    + eapply sh_map; eauto.
Qed.
End Order.
