(** Proofs about qualified template data. *)
From Verif Require Import Base BaseFacts GoPath Types SpecTypes TypesFacts Imports SpecImports ImportsProofs ImportsTheorems Conv World
  SettleProofs QualifyProofs Template SpecTemplate.

(** ** Induction on data *)
Section Ind.
Variable P : val -> Prop.
Hypothesis Hiface0 : forall t, P (VIface t None).
Hypothesis Hiface : forall t d, P d -> P (VIface t (Some d)).
Hypothesis Hstruct : forall t fs, Forall (fun f => P (snd f)) fs -> P (VStruct t fs).
Hypothesis Hptr0 : forall e, P (VPtr e None).
Hypothesis Hptr : forall e x, P x -> P (VPtr e (Some x)).
Hypothesis Hslice : forall t l, Forall P l -> P (VSlice t l).
Hypothesis Harray : forall t l, Forall P l -> P (VArray t l).
Hypothesis Hmap : forall t es, Forall (fun e => P (fst e) /\ P (snd e)) es -> P (VMap t es).
Hypothesis Hpackage : forall p, P (VPackage p).
Hypothesis Hsymbol : forall s, P (VSymbol s).
Hypothesis Hmethod : forall m, P (VMethodRef m).
Hypothesis Hsignature : forall s, P (VSignature s).
Hypothesis Hspec : forall s r, P (VSpec s r).
Hypothesis Helem : forall e, P (VElem e).
Hypothesis Himports : forall i, P (VImports i).
Hypothesis Htypename : forall t, P (VTypeName t).
Hypothesis Hreflect : forall t, P (VReflectType t).
Hypothesis Hgotype : forall t, P (VGoType t).
Hypothesis Hgoobject : forall t, P (VGoObject t).
Hypothesis Hgopackage : forall t, P (VGoPackage t).
Hypothesis Hother : forall t n, P (VOther t n).
Fixpoint val_ind' (v : val) : P v :=
  match v with
  | VIface t None => Hiface0 t
  | VIface t (Some d) => Hiface t d (val_ind' d)
  | VStruct t fs => Hstruct t fs ((fix go l : Forall (fun f => P (snd f)) l :=
      match l with [] => Forall_nil _ | f :: r => Forall_cons f (val_ind' (snd f)) (go r) end) fs)
  | VPtr e None => Hptr0 e
  | VPtr e (Some x) => Hptr e x (val_ind' x)
  | VSlice t l => Hslice t l ((fix go l : Forall P l :=
      match l with [] => Forall_nil _ | x :: r => Forall_cons x (val_ind' x) (go r) end) l)
  | VArray t l => Harray t l ((fix go l : Forall P l :=
      match l with [] => Forall_nil _ | x :: r => Forall_cons x (val_ind' x) (go r) end) l)
  | VMap t es => Hmap t es ((fix go l : Forall (fun e => P (fst e) /\ P (snd e)) l :=
      match l with [] => Forall_nil _ | e :: r => Forall_cons e (conj (val_ind' (fst e)) (val_ind' (snd e))) (go r) end) es)
  | VPackage p => Hpackage p
  | VSymbol s => Hsymbol s
  | VMethodRef m => Hmethod m
  | VSignature s => Hsignature s
  | VSpec s r => Hspec s r
  | VElem e => Helem e
  | VImports i => Himports i
  | VTypeName t => Htypename t
  | VReflectType t => Hreflect t
  | VGoType t => Hgotype t
  | VGoObject t => Hgoobject t
  | VGoPackage t => Hgopackage t
  | VOther t n => Hother t n
  end.
End Ind.

(** ** Map keys *)
Lemma same_type_spec t : forall u, same_type t u = true <-> u = t /\ pointer_free t.
Proof.
  induction t; intros [] ; cbn [same_type pointer_free]; try (split; [discriminate|intros [E _]; discriminate E || tauto]);
    try (split; [discriminate|tauto]); rewrite ?andb_true_iff, ?Z.eqb_eq.
  - tauto.
  - split; [intros H; apply internal_Kind_dec_bl in H; subst; auto|]. intros [[= ->] _]. apply internal_Kind_dec_lb. reflexivity.
  - rewrite IHt. split; [intros [-> P]; auto|intros [[= ->] P]; auto].
  - rewrite IHt. split; [intros [-> P]; auto|intros [[= ->] P]; auto].
  - rewrite IHt. split; [intros [[-> P] ->]; auto|intros [[= -> ->] P]; auto].
  - rewrite IHt1, IHt2. split; [intros [[-> P] [-> Q]]; auto|intros [[= -> ->] [P Q]]; auto].
  - rewrite IHt. split; [intros [[-> P] ->]; auto|intros [[= -> ->] P]; auto].
Qed.
Lemma gty_eqb_eq a : forall b, gty_eqb a b = true <-> a = b.
Proof.
  induction a as [s|a IH|s]; intros [t|b|t]; cbn; try (split; discriminate); rewrite ?String.eqb_eq.
  - split; [intros ->; auto|intros [= ->]; auto].
  - rewrite IH. split; [intros ->; auto|intros [= ->]; auto].
  - split; [intros ->; auto|intros [= ->]; auto].
Qed.
Lemma package_eqb_eq p q : package_eqb p q = true <-> p = q.
Proof. destruct p, q. unfold package_eqb. cbn. rewrite andb_true_iff, !String.eqb_eq. split; [intros [-> ->]; auto|intros [= -> ->]; auto]. Qed.
Lemma same_key_spec a : forall b, same_key a b = true <-> go_equal a b.
Proof.
  assert (D : forall b c : bool, (b = true <-> c = true) -> b = c) by (intros [] []; intuition congruence).
  induction a as [t|t d IH|t fs IH|e|e x IH|t l IH|t l IH|t es IH|p|s|m|s|s r|e|im|n|r|g|o|p|t n] using val_ind'; intros b;
    destruct b as [t' [d'|]|t' fs'|e' [x'|]|t' l'|t' l'|t' es'|p'|s'|m'|s'|s' r'|e'|im'|n'|r'|g'|o'|p'|t' n'];
    try (split; [discriminate|inversion 1]; fail).
  - split; constructor.
  - cbn [same_key]. rewrite IH. split; [constructor; auto|inversion 1; auto].
  - cbn [same_key]. rewrite andb_true_iff, String.eqb_eq.
    assert (F : forall m, (fix go (l m : list (bool * val)) : bool :=
         match l, m with
         | [], [] => true
         | (_, x) :: l', (_, y) :: m' => same_key x y && go l' m'
         | _, _ => false
         end) fs m = true <-> Forall2 (fun a b => go_equal (snd a) (snd b)) fs m).
    { induction IH as [|[ex x] l H _ IHl]; intros [|[ey y] m]; try (split; [discriminate|inversion 1]; fail); [split; constructor|].
      cbn [snd] in H. rewrite andb_true_iff, H, IHl. split; [intros [A B]; constructor; auto|inversion 1; auto]. }
    rewrite F. split; [intros [-> X]; constructor; auto|inversion 1; auto].
  - cbn. rewrite gty_eqb_eq. split; [intros ->; constructor|inversion 1; auto].
  - cbn [same_key]. rewrite andb_true_iff, String.eqb_eq.
    assert (F : forall m, (fix all (l m : list val) : bool :=
         match l, m with
         | [], [] => true
         | x :: l', y :: m' => same_key x y && all l' m'
         | _, _ => false
         end) l m = true <-> Forall2 go_equal l m).
    { induction IH as [|x l H _ IHl]; intros [|y m]; try (split; [discriminate|inversion 1]; fail); [split; constructor|].
      rewrite andb_true_iff, H, IHl. split; [intros [A B]; constructor; auto|inversion 1; auto]. }
    rewrite F. split; [intros [-> X]; constructor; auto|inversion 1; auto].
  - cbn. rewrite package_eqb_eq. split; [intros ->; constructor|inversion 1; auto].
  - cbn. rewrite symbol_eqb_eq. split; [intros ->; constructor|inversion 1; auto].
  - cbn. destruct m as [mt mn], m' as [mt' mn']. cbn. rewrite andb_true_iff, symbol_eqb_eq, String.eqb_eq. split; [intros [-> ->]; constructor|inversion 1; auto].
  - cbn. rewrite same_type_spec. split; [intros [-> P]; constructor; auto|inversion 1; auto].
  - cbn. rewrite andb_true_iff, String.eqb_eq, Nat.eqb_eq. split; [intros [-> ->]; constructor|inversion 1; auto].
Qed.
Lemma not_same_key a b : same_key a b = false <-> ~ go_equal a b.
Proof. rewrite <- same_key_spec. destruct (same_key a b); intuition congruence. Qed.
Lemma keys_differ l : ForallOrdPairs (fun a b => ~ go_equal (fst b) (fst a)) l <-> ForallOrdPairs (fun a b : val * val => same_key (fst b) (fst a) = false) l.
Proof.
  split; induction 1 as [|a l F _ IH]; constructor; auto; (eapply Forall_impl; [|exact F]); cbn; intros b; apply not_same_key.
Qed.
Lemma set_entry_spec k v m : with_entry k v m (set_entry k v m).
Proof.
  induction m as [|[k' v'] m IH]; cbn [set_entry]; [left; auto|]. destruct (same_key k k') eqn:E.
  - right. exists [], k', v', m. apply same_key_spec in E. auto.
  - apply not_same_key in E. destruct IH as [[F ->]|(m1 & k1 & v1 & m2 & -> & F & G & ->)].
    + left. split; [constructor; auto|reflexivity].
    + right. exists ((k', v') :: m1), k1, v1, m2. split; [reflexivity|]. split; [constructor; auto|]. auto.
Qed.

(** ** Names *)
Lemma substring_append a b : substring 0 (String.length a) (a ++ b) = a.
Proof. induction a as [|c a IH]; cbn [String.length append substring]; [destruct b; auto|]. now rewrite IH. Qed.
Lemma length_append a b : String.length (a ++ b) = String.length a + String.length b.
Proof. induction a; cbn [String.length append]; auto. rewrite IHa; auto. Qed.
Lemma name_in_prefix i path n : Inv i -> prefix_name i path = Some n -> name_in i path = n.
Proof.
  intros Hi P. unfold name_in, PrefixForPackage. rewrite (prefix_known i path "" false n Hi P). cbn [fst].
  unfold with_dot. destruct (String.eqb_spec n "") as [->|N]; auto.
  rewrite length_append. cbn [String.length]. rewrite Nat.add_sub. apply substring_append.
Qed.
Lemma sym_as_rename i s : Inv i -> known i s -> sym_as (name_in i) s = rename i s.
Proof.
  intros Hi K. unfold sym_as, rename, pkg_as. destruct (has_package s) eqn:H; auto. specialize (K H).
  unfold sym_path in *. destruct (prefix_name i (ImportPath (SymPackage s))) as [n|] eqn:P; [|congruence].
  rewrite (name_in_prefix _ _ _ Hi P). auto.
Qed.
Lemma type_as_rename i t : Inv i -> all_known symbols_of i t -> type_as (name_in i) t = map_symbols (rename i) t.
Proof.
  intros Hi K. apply (g_cong _ _ _ _ _ (ImportsProofs.good_type t)). intros s H. apply sym_as_rename; auto.
Qed.
Lemma sig_as_rename i t : Inv i -> all_known sig_symbols i t -> sig_as (name_in i) t = map_sig (map_symbols (rename i)) t.
Proof.
  intros Hi K. unfold sig_as, type_as. apply (g_cong _ _ _ _ _ (ImportsProofs.good_signature t)). intros s H. apply sym_as_rename; auto.
Qed.

(** ** References *)
Definition after (l : list (string * string)) (i : Imports) : Imports := fold_left reg_pair l i.
Lemma after_app l m i : after (l ++ m) i = after m (after l i).
Proof. apply fold_left_app. Qed.
Lemma after_Inv l i : Inv i -> Inv (after l i).
Proof. intros; apply fold_reg_keep; auto. Qed.
Lemma after_ext l i : Inv i -> ext i (after l i).
Proof. intros; apply fold_reg_keep; auto. Qed.

Lemma leaf_package p i : Inv i -> exists n,
  registerPackage p i = (Ok n, after [(ImportPath p, PkgName p)] i) /\
  forall j, Inv j -> ext (after [(ImportPath p, PkgName p)] i) j ->
    n = name_in j (ImportPath p) /\ forall q, registerPackage (mkPackage (ImportPath p) q) j = (Ok n, j).
Proof.
  intros Hi. destruct (registerPackage p i) as [r i'] eqn:E.
  assert (exists n, r = Ok n) as [n ->].
  { unfold registerPackage, RegisterImportForPackage, RegisterImport, sbind, sret in E.
    destruct (prefix_reg i (ImportPath p) (PkgName p) Hi) as (k & i1 & E1 & _). rewrite E1 in E. injection E as <- _. eauto. }
  destruct (registerPackage_settles p i n i' Hi E) as [F S]. exists n. unfold after. rewrite <- F. split; auto.
  intros j J X. split; [|intros q; auto].
  unfold registerPackage, RegisterImportForPackage, RegisterImport, sbind, sret in E.
  destruct (prefix_reg i (ImportPath p) (PkgName p) Hi) as (k & i1 & E1 & I1 & X1 & P & _). rewrite E1, strip_with_dot in E.
  injection E as <- <-. symmetry. apply name_in_prefix; auto. eapply prefix_name_ext; eauto.
Qed.
Lemma leaf_symbol s i : Inv i -> exists s',
  EnsureImported s i = (Ok s', after (sym_requests [s]) i) /\
  forall j, Inv j -> ext (after (sym_requests [s]) i) j -> s' = sym_as (name_in j) s /\ EnsureImported s' j = (Ok s', j).
Proof.
  intros Hi. destruct (qualify_reg s i Hi) as (i' & E & I' & X' & K & _).
  destruct (qualify_settles' s i _ i' Hi E) as [F S]. exists (rename i' s). unfold after. rewrite <- F. split; auto.
  intros j J X. split; auto. rewrite sym_as_rename by (auto; eapply known_ext; eauto). symmetry. apply rename_ext; auto.
Qed.
Lemma leaf_type n i : Inv i -> wf n = true -> exists n' c,
  EnsureTypeImported n i = (Ok (n', c), after (sym_requests (symbols_of n)) i) /\ tells c n n' /\
  forall j, Inv j -> ext (after (sym_requests (symbols_of n)) i) j ->
    n' = type_as (name_in j) n /\ EnsureTypeImported n' j = (Ok (n', false), j).
Proof.
  intros Hi V. destruct (g_reg _ _ _ _ _ (ImportsProofs.good_type n) V i Hi) as (c & i' & E & C & K & _).
  destruct (settles_type n i _ c i' Hi E) as (F & _ & S). rewrite fold_sym_requests in F.
  exists (map_symbols (rename i') n), c. unfold after. rewrite <- F. split; auto. split; [exact C|].
  intros j J X. split; [|apply S; auto].
  rewrite type_as_rename; auto.
  - apply (g_cong _ _ _ _ _ (ImportsProofs.good_type n)). intros s H. symmetry. apply rename_ext; auto.
  - intros s H. eapply known_ext; eauto.
Qed.
Lemma leaf_signature s i : Inv i -> wf_sig s = true -> exists s' c,
  EnsureAllTypesImported s i = (Ok (s', c), after (sym_requests (sig_symbols s)) i) /\ tells c s s' /\
  forall j, Inv j -> ext (after (sym_requests (sig_symbols s)) i) j ->
    s' = sig_as (name_in j) s /\ EnsureAllTypesImported s' j = (Ok (s', false), j).
Proof.
  intros Hi V. destruct (g_reg _ _ _ _ _ (ImportsProofs.good_signature s) V i Hi) as (c & i' & E & C & K & _).
  destruct (settles_signature s i _ c i' Hi E) as (F & _ & S). rewrite fold_sym_requests in F.
  exists (map_sig (map_symbols (rename i')) s), c. unfold after. rewrite <- F. split; auto. split; [exact C|].
  intros j J X. split; [|apply S; auto].
  rewrite sig_as_rename; auto.
  - apply (g_cong _ _ _ _ _ (ImportsProofs.good_signature s)). intros x H. symmetry. apply rename_ext; auto.
  - intros x H. eapply known_ext; eauto.
Qed.

Lemma tells_symbol s s' : tells (negb (symbol_eqb s' s)) s s'.
Proof.
  unfold tells. destruct (symbol_eqb s' s) eqn:E; cbn [negb].
  - now apply symbol_eqb_eq.
  - intros ->. rewrite (proj2 (symbol_eqb_eq s s)) in E; auto. discriminate.
Qed.
Lemma tells_package p n : tells (negb (String.eqb n (PkgName p))) p (mkPackage (ImportPath p) n).
Proof.
  destruct p as [a b]. cbn [PkgName ImportPath]. unfold tells. destruct (String.eqb_spec n b) as [->|N]; cbn [negb]; auto. congruence.
Qed.
Lemma symbol_eqb_sym a b : symbol_eqb a b = symbol_eqb b a.
Proof. destruct (symbol_eqb a b) eqn:E; symmetry; [apply symbol_eqb_eq in E as ->; apply symbol_eqb_eq; auto|].
  destruct (symbol_eqb b a) eqn:F; auto. apply symbol_eqb_eq in F as ->. rewrite (proj2 (symbol_eqb_eq a a)) in E; auto. Qed.

(** ** Slots *)
Lemma gty_eqb_refl a : gty_eqb a a = true.
Proof. now apply gty_eqb_eq. Qed.
Lemma typeof_iface v s : typeof v = GIface s -> is_iface v = true.
Proof. destruct v as [| | | | | | | | | |[]|[]| |[]| | | | |]; cbn; auto; discriminate. Qed.
Lemma box_other v w : is_iface v = false -> box v w = w.
Proof. destruct v; auto; discriminate. Qed.
Lemma box_self v : box v v = v.
Proof. destruct v; auto. Qed.
Lemma box_held v w : is_iface v = false \/ is_iface w = false -> is_iface w = false -> held (box v w) = w.
Proof. intros _ N. destruct v; cbn; destruct w; cbn in *; auto; discriminate. Qed.

Section Proofs.
Variable implements : gty -> string -> bool.
Variable unsafe : bool.
Variable parent_of : spec -> res (option Package).
Notation typed := (typed implements).
Notation reqs := (data_requests unsafe parent_of).
Notation renamed := (renamed implements unsafe parent_of).
Notation renamed_all := (renamed_all implements unsafe parent_of).
Notation renamed_fields := (renamed_fields implements unsafe parent_of).
Notation renamed_entries := (renamed_entries implements unsafe parent_of).
Notation store := (store implements).
Notation walk := (qualifyTemplateData implements unsafe parent_of).

Lemma store_Ok x x' y : store x x' = Ok y -> y = box x x' /\ typeof y = typeof x.
Proof.
  unfold Template.store, assignable. destruct (_ || _) eqn:A; [|discriminate]. intros [= <-]. split; auto.
  apply orb_true_iff in A as [A|A].
  - apply gty_eqb_eq in A. destruct x; auto. cbn [box]. destruct x'; auto.
  - destruct (typeof x) as [| |s] eqn:T; try discriminate. pose proof (typeof_iface x s T) as F.
    destruct x; try discriminate. cbn [box]. destruct x'; auto.
Qed.

(** ** What a walk that returns has done *)
Record did (x x' : val) (c : bool) (i i' : Imports) : Prop := mkDid
  { d_after : i' = after (reqs x) i;
    d_same : c = false -> box x x' = x;
    d_new : c = true -> is_iface x' = false;
    d_iface : is_iface x = false -> is_iface x' = false;
    d_renamed : forall j, Inv j -> ext i' j -> renamed (name_in j) c x (box x x') }.
Definition does (rec : val -> IM (val * bool)) (x : val) : Prop :=
  forall i x' c i', Inv i -> rec x i = (Ok (x', c), i') -> did x x' c i i'.

Lemma does_elems rec ok l : Forall (does rec) l -> forall started i l' s i', Inv i ->
  elems_loop implements rec ok l started i = (Ok (l', s), i') ->
  i' = after (flat_map reqs l) i /\ exists cs, s = started || cs /\ (cs = false -> l' = l) /\
  forall j, Inv j -> ext i' j -> renamed_all (name_in j) cs l l'.
Proof.
  induction 1 as [|x l D _ IH]; intros started i l' s i' Hi E; cbn [elems_loop] in E.
  - injection E as <- <- <-. split; auto. exists false. rewrite orb_false_r. repeat split; auto. intros. constructor.
  - unfold sbind, slift, sret in E. destruct (rec x i) as [[[x' c]|e] i1] eqn:R; [|discriminate].
    pose proof (D i x' c i1 Hi R) as [A S N _ Q].
    assert (I1 : Inv i1) by (rewrite A; apply after_Inv; auto).
    assert (G : forall b (r : list val) (s1 : bool), elems_loop implements rec ok l b i1 = (Ok (r, s1), i') ->
        i' = after (flat_map reqs (x :: l)) i /\
        exists cs, s1 = b || cs /\ (cs = false -> r = l) /\
        forall y, typeof y = typeof x -> y = box x x' ->
          forall j, Inv j -> ext i' j -> renamed_all (name_in j) (c || cs) (x :: l) (y :: r)).
    { intros b r s1 E1. destruct (IH b i1 r s1 i' I1 E1) as (A' & cs & Es & Sm & Q'). cbn [flat_map]. rewrite after_app, <- A.
      split; auto. exists cs. split; auto. split; auto. intros y T -> j J X. constructor; auto. apply Q; auto.
      eapply ext_trans; [|exact X]. rewrite A'. apply after_ext; auto. }
    destruct (started || c) eqn:SC.
    + destruct (if started then Ok tt else ok) as [[]|]; [|discriminate].
      destruct (Template.store implements x x') as [y|] eqn:St; [|discriminate]. apply store_Ok in St as [-> T].
      destruct (elems_loop implements rec ok l true i1) as [[[r b]|e] i2] eqn:El; [|discriminate]. injection E as <- <- <-.
      destruct (G true r b El) as (A' & cs & _ & Sm & Q'). split; auto. exists (c || cs). split.
      { rewrite orb_assoc, SC. auto. }
      split; [|intros; apply Q'; auto]. intros C. apply orb_false_iff in C as [-> ->]. rewrite S, Sm; auto.
    + apply orb_false_iff in SC as [-> ->].
      destruct (elems_loop implements rec ok l false i1) as [[[r b]|e] i2] eqn:El; [|discriminate]. injection E as <- <- <-.
      destruct (G false r b El) as (A' & cs & -> & Sm & Q'). split; auto. exists cs. repeat split; auto.
      { intros C. rewrite Sm; auto. }
      intros j J X. apply (Q' x); auto. rewrite S; auto.
Qed.
Lemma does_fields rec addr l : (forall x, In x l -> does rec (snd x)) -> forall earlier started i l' s i', Inv i ->
  fields_loop implements unsafe rec addr earlier l started i = (Ok (l', s), i') ->
  i' = after (flat_map (fun f => if fst f || unsafe then reqs (snd f) else []) l) i /\
  exists cs, s = started || cs /\ (cs = false -> l' = l) /\
  forall j, Inv j -> ext i' j -> renamed_fields (name_in j) cs l l'.
Proof.
  induction l as [|[ex x] l IH]; intros D earlier started i l' s i' Hi E; cbn [fields_loop] in E.
  - injection E as <- <- <-. split; auto. exists false. rewrite orb_false_r. repeat split; auto. intros. constructor.
  - unfold sbind, slift, sret in E. destruct (getField_qualify unsafe rec addr ex x i) as [[[x' c]|e] i1] eqn:R; [|discriminate].
    assert (HD : i1 = after (if ex || unsafe then reqs x else []) i /\ (c = false -> box x x' = x)).
    { unfold getField_qualify in R. destruct (ex || unsafe) eqn:V.
      - assert (R' : rec x i = (Ok (x', c), i1)).
        { destruct ex; auto. destruct unsafe; [|discriminate]. destruct addr; auto. discriminate. }
        destruct (D (ex, x) (or_introl eq_refl) i x' c i1 Hi R') as [A S N _ Q]. auto.
      - apply orb_false_iff in V as [-> ->]. injection R as <- <- <-. split; auto. intros; apply box_self. }
    destruct HD as (A & S).
    assert (I1 : Inv i1) by (rewrite A; apply after_Inv; auto).
    assert (G : forall e b (r : list (bool * val)) (s1 : bool), fields_loop implements unsafe rec addr e l b i1 = (Ok (r, s1), i') ->
        i' = after (flat_map (fun f => if fst f || unsafe then reqs (snd f) else []) ((ex, x) :: l)) i /\
        exists cs, s1 = b || cs /\ (cs = false -> r = l) /\
        forall y, typeof y = typeof x -> y = box x x' ->
          forall j, Inv j -> ext i' j -> renamed_fields (name_in j) (c || cs) ((ex, x) :: l) ((ex, y) :: r)).
    { intros e b r s1 E1. destruct (IH (fun f H => D f (or_intror H)) e b i1 r s1 i' I1 E1) as (A' & cs & Es & Sm & Q').
      cbn [flat_map fst snd]. rewrite after_app, <- A. split; auto. exists cs. split; auto. split; auto. intros y T -> j J X.
      assert (X1 : ext i1 i') by (rewrite A'; apply after_ext; auto).
      unfold getField_qualify in R. destruct (ex || unsafe) eqn:V.
      - assert (R' : rec x i = (Ok (x', c), i1)).
        { destruct ex; auto. destruct unsafe; [|discriminate]. destruct addr; auto. discriminate. }
        destruct (D (ex, x) (or_introl eq_refl) i x' c i1 Hi R') as [_ _ _ _ Q2]. constructor; auto.
        + now apply orb_true_iff.
        + apply Q2; auto. eapply ext_trans; eauto.
      - apply orb_false_iff in V as [-> ->]. injection R as <- <- <-. rewrite box_self. cbn [orb]. constructor; auto. }
    destruct (started || c) eqn:SC.
    + destruct (if (started || earlier) && ex then Ok tt else Panic p_readonly) as [[]|]; [|discriminate].
      destruct (Template.store implements x x') as [y|] eqn:St; [|discriminate]. apply store_Ok in St as [-> T].
      destruct (fields_loop implements unsafe rec addr (earlier && ex) l true i1) as [[[r b]|e] i2] eqn:El; [|discriminate].
      injection E as <- <- <-.
      destruct (G _ true r b El) as (A' & cs & _ & Sm & Q'). split; auto. exists (c || cs). split.
      { rewrite orb_assoc, SC. auto. }
      split; [|intros; apply Q'; auto]. intros C. apply orb_false_iff in C as [-> ->]. rewrite S, Sm; auto.
    + apply orb_false_iff in SC as [-> ->].
      destruct (fields_loop implements unsafe rec addr (earlier && ex) l false i1) as [[[r b]|e] i2] eqn:El; [|discriminate].
      injection E as <- <- <-.
      destruct (G _ false r b El) as (A' & cs & -> & Sm & Q'). split; auto. exists cs. repeat split; auto.
      { intros C. rewrite Sm; auto. }
      intros j J X. apply (Q' x); auto. rewrite S; auto.
Qed.

Lemma set_entry_new k x m : Forall (fun e => same_key k (fst e) = false) m -> set_entry k x m = m ++ [(k, x)].
Proof. induction 1 as [|[k' x'] m H _ IH]; cbn [set_entry app]; auto. cbn [fst] in H. rewrite H, IH. auto. Qed.
Lemma ordered_app {A} (R : A -> A -> Prop) m x l : ForallOrdPairs R (m ++ x :: l) -> Forall (fun a => R a x) m.
Proof.
  induction m as [|a m IH]; cbn [app]; intros F; constructor; inversion F as [|? ? H G]; subst; auto.
  rewrite Forall_app in H. destruct H as [_ H]. now inversion H.
Qed.
Definition entries_in (l m : list (val * val)) : list (val * val) := fold_left (fun m e => set_entry (fst e) (snd e) m) l m.
Lemma does_map rec l : Forall (fun e => does rec (fst e) /\ does rec (snd e)) l -> forall m started i m' s i', Inv i ->
  (started = false -> ForallOrdPairs (fun a b : val * val => same_key (fst b) (fst a) = false) (m ++ l)) ->
  map_loop implements rec l m started i = (Ok (m', s), i') ->
  i' = after (flat_map (fun e => reqs (fst e) ++ reqs (snd e)) l) i /\
  exists cs l', s = started || cs /\ (cs = false -> l' = l) /\ m' = (if s then entries_in l' m else m ++ l) /\
  forall j, Inv j -> ext i' j -> renamed_entries (name_in j) cs l l'.
Proof.
  induction 1 as [|[k x] l [Dk Dx] _ IH]; intros m started i m' s i' Hi O E; cbn [map_loop] in E.
  - injection E as <- <- <-. split; auto. exists false, []. rewrite orb_false_r, app_nil_r. repeat split; auto.
    + destruct started; auto.
    + intros. constructor.
  - cbn [fst snd] in Dk, Dx. unfold sbind, slift in E. destruct (rec k i) as [[[k' ck]|e] i1] eqn:Rk; [|discriminate].
    pose proof (Dk i k' ck i1 Hi Rk) as [Ak Sk _ _ Qk].
    assert (I1 : Inv i1) by (rewrite Ak; apply after_Inv; auto).
    destruct (rec x i1) as [[[x' cx]|e] i2] eqn:Rx; [|discriminate].
    pose proof (Dx i1 x' cx i2 I1 Rx) as [Ax Sx _ _ Qx].
    assert (I2 : Inv i2) by (rewrite Ax; apply after_Inv; auto).
    assert (G : forall b m1, (b = false -> ForallOrdPairs (fun a b => same_key (fst b) (fst a) = false) (m1 ++ l)) ->
      map_loop implements rec l m1 b i2 = (Ok (m', s), i') ->
      i' = after (flat_map (fun e => reqs (fst e) ++ reqs (snd e)) ((k, x) :: l)) i /\
      exists cs l', s = b || cs /\ (cs = false -> l' = l) /\ m' = (if s then entries_in l' m1 else m1 ++ l) /\
      (typeof (box k k') = typeof k -> typeof (box x x') = typeof x -> forall j, Inv j -> ext i' j ->
         renamed_entries (name_in j) (ck || cx || cs) ((k, x) :: l) ((box k k', box x x') :: l'))).
    { intros b m1 Ob E1. destruct (IH m1 b i2 m' s i' I2 Ob E1) as (A' & cs & l' & Es & Sm & Em & Q').
      cbn [flat_map fst snd]. rewrite !after_app, <- Ak, <- Ax. split; auto. exists cs, l'. repeat split; auto.
      intros Tk Tx j J X. assert (X2 : ext i2 j) by (eapply ext_trans; [|exact X]; rewrite A'; apply after_ext; auto).
      constructor; auto. apply Qk; auto. eapply ext_trans; [|exact X2]. rewrite Ax. apply after_ext; auto. }
    destruct (started || ck || cx) eqn:SC.
    + destruct (Template.store implements k k') as [k''|] eqn:Stk; [|discriminate]. apply store_Ok in Stk as [-> Tk].
      destruct (Template.store implements x x') as [x''|] eqn:Stx; [|discriminate]. apply store_Ok in Stx as [-> Tx].
      destruct (G true _ ltac:(discriminate) E) as (A' & cs & l' & -> & Sm & Em & Q'). split; auto.
      exists (ck || cx || cs), ((box k k', box x x') :: l'). split; [|split; [|split]].
      * rewrite !orb_assoc, SC. auto.
      * intros C. apply orb_false_iff in C as [C ->]. apply orb_false_iff in C as [-> ->]. rewrite Sk, Sx, Sm; auto.
      * exact Em.
      * apply Q'; auto.
    + apply orb_false_iff in SC as [SC ->]. apply orb_false_iff in SC as [-> ->].
      destruct (G false (m ++ [(k, x)])) as (A' & cs & l' & -> & Sm & Em & Q'); auto.
      { intros _. rewrite <- app_assoc. apply O; auto. }
      split; auto. rewrite Sk, Sx in Q' by auto. exists cs, ((k, x) :: l'). repeat split; auto.
      * intros C. rewrite Sm; auto.
      * rewrite Em. cbn [orb]. destruct cs; [|now rewrite <- app_assoc]. unfold entries_in. cbn [fold_left fst snd].
        rewrite set_entry_new; auto. apply ordered_app with (l := l) (x := (k, x)) in O; auto.
Qed.

(** ** The walk *)
Lemma replacement_ref t old d r i : Inv i -> denotes d = Some (Ok r) -> ref_wf r -> exists m r' c,
  replacement implements t old d = Some m /\
  m i = (Ok (if c && implements (typeof (shown r')) t then (shown r', true) else (old, false)), after (ref_requests r) i) /\
  tells c r r' /\ forall j, Inv j -> ext (after (ref_requests r) i) j -> r' = ref_as (name_in j) r.
Proof.
  intros Hi D V.
  destruct d; cbn [denotes] in D; try discriminate D; cbn [replacement]; unfold rbind in D.
  - destruct (TypeNameForReflectType t0) as [n|] eqn:C; [|discriminate]. injection D as <-. cbn [ref_wf] in V.
    destruct (leaf_type n i Hi V) as (n' & c & E & Ch & Q). eexists _, (RefType n'), c. split; [reflexivity|]. split.
    { unfold sbind, slift. rewrite E. reflexivity. }
    split. { destruct c; cbn in *; congruence. }
    intros j J X. destruct (Q j J X) as [-> _]. auto.
  - destruct (TypeNameForGoType t0) as [n|] eqn:C; [|discriminate]. injection D as <-. cbn [ref_wf] in V.
    destruct (leaf_type n i Hi V) as (n' & c & E & Ch & Q). eexists _, (RefType n'), c. split; [reflexivity|]. split.
    { unfold sbind, slift. rewrite E. reflexivity. }
    split. { destruct c; cbn in *; congruence. }
    intros j J X. destruct (Q j J X) as [-> _]. auto.
  - destruct (SymbolForGoObject o) as [[s|m]|] eqn:C; [| |discriminate]; injection D as <-.
    + destruct (leaf_symbol s i Hi) as (s' & E & Q). eexists _, (RefSym s'), (negb (symbol_eqb s' s)). split; [reflexivity|]. split.
      { unfold sbind, slift. rewrite E. reflexivity. }
      split. { pose proof (tells_symbol s s') as Ch. destruct (negb _); cbn in *; congruence. }
      intros j J X. destruct (Q j J X) as [-> _]. auto.
    + destruct (leaf_symbol (MRType m) i Hi) as (s' & E & Q).
      eexists _, (RefMeth (mkMethodRef s' (MRMethod m))), (negb (symbol_eqb s' (MRType m))). split; [reflexivity|]. split.
      { unfold sbind, slift. rewrite E. reflexivity. }
      split.
      { pose proof (tells_symbol (MRType m) s') as Ch. destruct m as [ty nm]. cbn [MRType MRMethod] in *.
        destruct (negb _); cbn in *; congruence. }
      intros j J X. destruct (Q j J X) as [-> _]. auto.
  - destruct (PackageForGoType p) as [q|] eqn:C; [|discriminate]. injection D as <-.
    destruct (leaf_package q i Hi) as (n & E & Q).
    eexists _, (RefPkg (mkPackage (ImportPath q) n)), (negb (String.eqb n (PkgName q))). split; [reflexivity|]. split.
    { unfold sbind, slift. rewrite E. reflexivity. }
    split. { pose proof (tells_package q n) as Ch. destruct (negb _); cbn in *; congruence. }
    intros j J X. destruct (Q j J X) as [-> _]. auto.
Qed.
Lemma replacement_panic t old d e i : denotes d = Some (Panic e) -> exists m,
  replacement implements t old d = Some m /\ m i = (Panic e, i).
Proof.
  intros D. destruct d; cbn [denotes] in D; try discriminate D; cbn [replacement]; unfold rbind in D; eexists; (split; [reflexivity|]);
    unfold sbind, slift; match type of D with context [match ?c with _ => _ end] => destruct c; [discriminate|] end; congruence.
Qed.
Lemma replacement_none t old d : denotes d = None -> as_type d = None -> replacement implements t old d = None.
Proof. destruct d; cbn; auto; discriminate. Qed.
Lemma denotes_not_type d r : denotes d = Some r -> as_type d = None.
Proof. destruct d; cbn; auto; discriminate. Qed.
Lemma shown_not_iface r : is_iface (shown r) = false.
Proof. destruct r; auto. Qed.
Lemma box_new t d v : is_iface v = false -> box (VIface t d) v = VIface t (Some v).
Proof. destruct v; auto; discriminate. Qed.

Lemma all_Forall {A} (Q : A -> Prop) l : fold_right (fun x P => Q x /\ P) True l -> Forall Q l.
Proof. induction l; cbn; intros H; constructor; tauto. Qed.
Lemma all_Forall2 {A} (Q1 Q2 : A -> Prop) l : fold_right (fun x P => Q1 x /\ Q2 x /\ P) True l -> Forall (fun x => Q1 x /\ Q2 x) l.
Proof. induction l; cbn; intros H; constructor; tauto. Qed.
Lemma Forall_typed l : fold_right (fun x P => typed x /\ P) True l -> Forall typed l.
Proof. induction l; cbn; intros H; constructor; tauto. Qed.
Lemma Forall_typed_fields (l : list (bool * val)) : fold_right (fun f P => typed (snd f) /\ P) True l -> Forall (fun f => typed (snd f)) l.
Proof. induction l; cbn; intros H; constructor; tauto. Qed.
Lemma Forall_typed_entries (l : list (val * val)) :
  fold_right (fun e P => typed (fst e) /\ typed (snd e) /\ P) True l -> Forall (fun e => typed (fst e) /\ typed (snd e)) l.
Proof. induction l; cbn; intros H; constructor; tauto. Qed.
Lemma Forall_apply {A} (P Q R : A -> Prop) l : (forall a, P a -> Q a -> R a) -> Forall P l -> Forall Q l -> Forall R l.
Proof. intros H FP FQ. rewrite Forall_forall in *. auto. Qed.

Lemma walk_does v : forall addr, typed v -> does (walk addr) v.
Proof.
  induction v as [t|t d IH|t fs IH|e|e x IH|t l IH|t l IH|t es IH|p|s|m|s|s r|e|im|n|r|g|o|p|t n] using val_ind';
    intros addr T i v' c i' Hi E; cbn [qualifyTemplateData] in E; try contradiction.
  - injection E as <- <- <-. constructor; auto; try discriminate. intros. constructor.
  - destruct T as (Imp & Nd & T).
    destruct (as_type d) as [n|] eqn:At.
    { destruct d; try discriminate At. injection At as ->. cbn [replacement] in E.
      destruct (leaf_type n i Hi T) as (n' & c' & En & Ch & Q). unfold sbind, replace, sret in E. rewrite En in E.
      destruct c'; cbn [andb] in E.
      + assert (Tn : typename_gty n' = typename_gty n).
        { destruct (Q (after (sym_requests (symbols_of n)) i)) as [-> _]; [apply after_Inv; auto|apply ext_refl|]. destruct n; auto. }
        cbn [typeof] in E, Imp. rewrite Tn, Imp in E. injection E as <- <- <-. constructor; auto; try discriminate.
        intros j J X. cbn [box]. destruct (Q j J X) as [-> _]. constructor. exact Ch.
      + injection E as <- <- <-. constructor; auto; try discriminate.
        intros j J X. cbn [box]. cbn [tells] in Ch. destruct (Q j J X) as [Ex _]. subst n'.
        pose proof (rn_type implements unsafe parent_of (name_in j) false t n (eq_sym Ex)) as G. rewrite <- Ex in G. exact G. }
    destruct (denotes d) as [[r|m]|] eqn:De.
    + destruct (replacement_ref t (VIface t (Some d)) d r i Hi De T) as (m & r' & c' & Em & Er & Ch & Q).
      rewrite Em, Er in E. destruct (c' && implements (typeof (shown r')) t) eqn:B.
      * apply andb_true_iff in B as [-> B]. injection E as <- <- <-. constructor; try discriminate.
        -- cbn [data_requests]. rewrite At, De. auto.
        -- intros _. apply shown_not_iface.
        -- intros j J X. rewrite box_new by apply shown_not_iface. rewrite (Q j J X) in B, Ch |- *. constructor; auto.
      * injection E as <- <- <-. constructor; try discriminate.
        -- cbn [data_requests]. rewrite At, De. auto.
        -- auto.
        -- intros j J X. cbn [box]. apply rn_kept with (r := r); auto.
           rewrite (Q j J X) in B, Ch. destruct c'; cbn [andb tells] in *; auto.
    + destruct (replacement_panic t (VIface t (Some d)) d m i De) as (m' & Em & Ep). rewrite Em, Ep in E. discriminate.
    + rewrite (replacement_none _ _ _ De At) in E. destruct (IH false T i v' c i' Hi E) as [A S N F Q]. constructor; try discriminate.
      * cbn [data_requests]. rewrite At, De. auto.
      * intros C. specialize (S C). specialize (F Nd). rewrite box_new by auto. rewrite box_other in S by auto. congruence.
      * auto.
      * intros j J X. rewrite box_new by auto. specialize (Q j J X). rewrite box_other in Q by auto. constructor; auto.
  - unfold sbind, sret in E. destruct (fields_loop _ _ _ _ _ _ _ i) as [[[l' s]|m] i1] eqn:El; [|discriminate].
    cbn [typed] in T. apply Forall_typed_fields in T.
    apply does_fields in El as (A & cs & Es & Sm & Q); auto.
    2: { intros f H. rewrite Forall_forall in IH, T. apply IH; auto. }
    cbn [orb] in Es. subst s.
    destruct cs; injection E as <- <- <-; constructor; auto; try discriminate.
    + intros j J X. constructor; auto.
    + intros j J X. cbn [box]. specialize (Q j J X). rewrite Sm in Q by auto. constructor; auto.
  - injection E as <- <- <-. constructor; auto; try discriminate. intros. constructor.
  - unfold sbind, sret in E. destruct (walk true x i) as [[[x' s]|m] i1] eqn:Ex; [|discriminate]. destruct T as [Te T].
    destruct (IH true T i x' s i1 Hi Ex) as [A S N F Q].
    destruct s; injection E as <- <- <-; constructor; auto; try discriminate.
    + intros j J X. cbn [box]. specialize (Q j J X). apply rn_ptr with (e := e) in Q.
      rewrite box_held in Q by auto. exact Q.
    + intros j J X. cbn [box]. specialize (Q j J X). rewrite S in Q by auto. constructor; auto.
  - unfold sbind, sret in E. destruct (elems_loop _ _ _ _ _ i) as [[[l' s]|m] i1] eqn:El; [|discriminate].
    apply Forall_typed in T.
    apply does_elems in El as (A & cs & Es & Sm & Q); auto.
    2: { eapply Forall_apply; [|exact IH|exact T]. intros; apply H; auto. }
    cbn [orb] in Es. subst s.
    destruct cs; injection E as <- <- <-; constructor; auto; try discriminate.
    + intros j J X. constructor; auto.
    + intros j J X. cbn [box]. specialize (Q j J X). rewrite Sm in Q by auto. constructor; auto.
  - unfold sbind, sret in E. destruct (elems_loop _ _ _ _ _ i) as [[[l' s]|m] i1] eqn:El; [|discriminate].
    apply Forall_typed in T.
    apply does_elems in El as (A & cs & Es & Sm & Q); auto.
    2: { eapply Forall_apply; [|exact IH|exact T]. intros; apply H; auto. }
    cbn [orb] in Es. subst s.
    destruct cs; injection E as <- <- <-; constructor; auto; try discriminate.
    + intros j J X. constructor; auto.
    + intros j J X. cbn [box]. specialize (Q j J X). rewrite Sm in Q by auto. constructor; auto.
  - unfold sbind, sret in E. destruct (map_loop _ _ _ _ _ i) as [[[l' s]|m] i1] eqn:El; [|discriminate].
    destruct T as [T O]. apply keys_differ in O. apply Forall_typed_entries in T.
    apply does_map in El as (A & cs & l2 & Es & Sm & Em & Q); auto.
    2: { eapply Forall_apply; [|exact IH|exact T]. intros a [H1 H2] [T1 T2]. split; auto. }
    cbn [orb] in Es. subst s.
    destruct cs; injection E as <- <- <-; constructor; auto; try discriminate.
    + intros j J X. cbn [box]. rewrite Em. apply rn_map. auto.
    + intros j J X. cbn [box]. specialize (Q j J X). rewrite Sm in Q by auto. apply rn_map_same; auto.
  - destruct (leaf_package p i Hi) as (n & Er & Q). unfold sbind, sret in E. rewrite Er in E.
    pose proof (tells_package p n) as Ch.
    destruct (negb (String.eqb n (PkgName p))) eqn:B; injection E as <- <- <-; constructor; auto; try discriminate;
      intros j J X; destruct (Q j J X) as [Ex _]; subst n; cbn [box].
    + apply (rn_package _ _ _ _ true p Ch).
    + cbn [tells] in Ch. pose proof (rn_package implements unsafe parent_of (name_in j) false p Ch) as G. unfold pkg_as in G. rewrite Ch in G. exact G.
  - destruct (leaf_symbol s i Hi) as (s' & Er & Q). unfold sbind, sret in E. rewrite Er in E.
    pose proof (tells_symbol s s') as Ch.
    destruct (negb (symbol_eqb s' s)) eqn:B; injection E as <- <- <-; constructor; auto; try discriminate;
      intros j J X; destruct (Q j J X) as [Ex _]; subst s'; cbn [box].
    + apply (rn_symbol _ _ _ _ true s Ch).
    + cbn [tells] in Ch. pose proof (rn_symbol implements unsafe parent_of (name_in j) false s Ch) as G. rewrite Ch in G. exact G.
  - destruct (leaf_symbol (MRType m) i Hi) as (s' & Er & Q). unfold sbind, sret in E. rewrite Er in E.
    pose proof (tells_symbol (MRType m) s') as Ch.
    destruct (negb (symbol_eqb s' (MRType m))) eqn:B; injection E as <- <- <-; constructor; auto; try discriminate;
      intros j J X; destruct (Q j J X) as [Ex _]; subst s'; cbn [box].
    + apply (rn_method _ _ _ _ true m Ch).
    + cbn [tells] in Ch. pose proof (rn_method implements unsafe parent_of (name_in j) false m Ch) as G. rewrite Ch in G. destruct m; exact G.
  - destruct (leaf_signature s i Hi T) as (s' & c' & Er & Ch & Q). unfold sbind, sret in E. rewrite Er in E.
    destruct c'; injection E as <- <- <-; constructor; auto; try discriminate;
      intros j J X; destruct (Q j J X) as [Ex _]; subst s'; cbn [box].
    + apply (rn_signature _ _ _ _ true s Ch).
    + cbn [tells] in Ch. pose proof (rn_signature implements unsafe parent_of (name_in j) false s Ch) as G. rewrite Ch in G. exact G.
  - unfold sbind, slift, sret in E. destruct (spec_parent parent_of s r) as [[p|]|m] eqn:Sp; [| |discriminate].
    + destruct (leaf_package p i Hi) as (n & Er & Q). rewrite Er in E.
      destruct (String.eqb_spec n (PkgName p)) as [Hn|Hn]; cbn [negb] in E; injection E as <- <- <-; constructor; auto; try discriminate;
        try (cbn [data_requests]; rewrite Sp; reflexivity);
        intros j J X; destruct (Q j J X) as [Ex _]; rewrite Ex in Hn; cbn [box].
      * eapply rn_spec_same; eauto.
      * rewrite Ex. eapply rn_spec; eauto.
    + injection E as <- <- <-; constructor; auto; try discriminate.
      * cbn [data_requests]; rewrite Sp; reflexivity.
      * intros. eapply rn_spec_none; eauto.
  - destruct e as [cm s p|cm n s p]; unfold sbind, sret in E.
    + destruct (leaf_symbol s i Hi) as (s' & Er & Q). rewrite Er in E.
      pose proof (tells_symbol s s') as Ch. rewrite symbol_eqb_sym in E.
      destruct (negb (symbol_eqb s' s)) eqn:B; injection E as <- <- <-; constructor; auto; try discriminate;
        intros j J X; destruct (Q j J X) as [Ex _]; subst s'; cbn [box].
      * apply (rn_embed _ _ _ _ true cm s p Ch).
      * cbn [tells] in Ch. pose proof (rn_embed implements unsafe parent_of (name_in j) false cm s p Ch) as G. rewrite Ch in G. exact G.
    + destruct (leaf_signature s i Hi T) as (s' & c' & Er & Ch & Q). rewrite Er in E.
      destruct c'; injection E as <- <- <-; constructor; auto; try discriminate;
        intros j J X; destruct (Q j J X) as [Ex _]; subst s'; cbn [box].
      * apply (rn_imethod _ _ _ _ true cm n s p Ch).
      * cbn [tells] in Ch. pose proof (rn_imethod implements unsafe parent_of (name_in j) false cm n s p Ch) as G. rewrite Ch in G. exact G.
  - injection E as <- <- <-. constructor; auto; try discriminate. intros. constructor.
  - injection E as <- <- <-. constructor; auto; try discriminate. intros. constructor.
Qed.

(** ** Data that stays as it is *)
Definition stays (rec : val -> IM (val * bool)) (j : Imports) (x : val) : Prop := exists x', rec x j = (Ok (x', false), j).
Lemma stays_elems rec ok l j : Forall (stays rec j) l -> elems_loop implements rec ok l false j = (Ok (l, false), j).
Proof.
  induction 1 as [|x l (x' & E) _ IH]; cbn [elems_loop]; auto. unfold sbind. rewrite E. cbn [orb]. rewrite IH. auto.
Qed.
Lemma stays_fields rec addr l j :
  Forall (fun f => fst f = true \/ unsafe = true -> (fst f = false -> addr = true) /\ stays rec j (snd f)) l -> forall earlier,
  fields_loop implements unsafe rec addr earlier l false j = (Ok (l, false), j).
Proof.
  induction 1 as [|[ex x] l H _ IH]; intros earlier; cbn [fields_loop]; auto. unfold sbind, getField_qualify. cbn [fst snd] in H.
  destruct ex.
  - destruct H as (_ & x' & E); auto. rewrite E. cbn [orb]. rewrite IH. auto.
  - destruct unsafe.
    + destruct H as (A & x' & E); auto. rewrite (A eq_refl) in *. rewrite E. cbn [orb]. rewrite IH. auto.
    + cbn [sret orb]. rewrite IH. auto.
Qed.
Lemma stays_map rec l j : Forall (fun e => stays rec j (fst e) /\ stays rec j (snd e)) l -> forall m,
  map_loop implements rec l m false j = (Ok (m ++ l, false), j).
Proof.
  induction 1 as [|[k x] l [(k' & Ek) (x' & Ex)] _ IH]; intros m; cbn [map_loop]; [now rewrite app_nil_r|].
  cbn [fst snd] in *. unfold sbind. rewrite Ek, Ex. cbn [orb]. rewrite IH, <- app_assoc. auto.
Qed.

Definition settled (i : Imports) (l : list (string * string)) : Prop := forall p n, In (p, n) l -> prefix_name i p = Some n.
Lemma settled_app i l m : settled i (l ++ m) <-> settled i l /\ settled i m.
Proof.
  unfold settled. split.
  - intros H. split; intros p n X; apply H; apply in_app_iff; auto.
  - intros [H1 H2] p n X. apply in_app_iff in X as [X|X]; auto.
Qed.
Lemma settled_flat {A} i (f : A -> list (string * string)) l : settled i (flat_map f l) -> Forall (fun a => settled i (f a)) l.
Proof. induction l as [|a l IH]; cbn [flat_map]; intros H; constructor; apply settled_app in H as [H1 H2]; auto. Qed.
Lemma settled_symbol i s : Inv i -> settled i (sym_requests [s]) -> known i s /\ rename i s = s.
Proof.
  intros Hi S. unfold known, rename, sym_requests in *. cbn [filter map] in S. destruct (has_package s) eqn:H.
  - cbn [map] in S. specialize (S _ _ (or_introl eq_refl)). rewrite S. split; [discriminate|]. destruct s as [[a b] c]; auto.
  - split; auto. discriminate.
Qed.
Lemma settled_symbols i l : Inv i -> settled i (sym_requests l) -> forall s, In s l -> known i s /\ rename i s = s.
Proof.
  intros Hi S s H. apply settled_symbol; auto. intros p n X. apply S. unfold sym_requests in *. apply in_map_iff in X as (x & Ex & X).
  apply filter_In in X as [[->|[]] X]. apply in_map_iff. exists x. split; auto. apply filter_In; auto.
Qed.
Lemma still_symbol i s : Inv i -> settled i (sym_requests [s]) -> EnsureImported s i = (Ok s, i).
Proof.
  intros Hi S. destruct (settled_symbol i s Hi S) as [K R]. unfold EnsureImported. rewrite qualify_known, R; auto.
Qed.
Lemma still_package i p : Inv i -> settled i [(ImportPath p, PkgName p)] -> registerPackage p i = (Ok (PkgName p), i).
Proof.
  intros Hi S. specialize (S _ _ (or_introl eq_refl)). unfold registerPackage, RegisterImportForPackage, RegisterImport, sbind.
  rewrite (prefix_known _ _ _ _ _ Hi S), strip_with_dot. auto.
Qed.
Lemma still_type i n : Inv i -> wf n = true -> settled i (sym_requests (symbols_of n)) -> EnsureTypeImported n i = (Ok (n, false), i).
Proof.
  intros Hi V S. pose proof (settled_symbols _ _ Hi S) as K.
  destruct (g_known _ _ _ _ _ (ImportsProofs.good_type n) V true i Hi) as (c & E & C).
  { intros s H. apply K; auto. }
  rewrite (g_id _ _ _ _ _ (ImportsProofs.good_type n)) in E, C by (intros s H; apply K; auto).
  unfold EnsureTypeImported. rewrite E. destruct c; auto. exfalso. apply C; auto.
Qed.
Lemma still_signature i n : Inv i -> wf_sig n = true -> settled i (sym_requests (sig_symbols n)) ->
  EnsureAllTypesImported n i = (Ok (n, false), i).
Proof.
  intros Hi V S. pose proof (settled_symbols _ _ Hi S) as K.
  destruct (g_known _ _ _ _ _ (ImportsProofs.good_signature n) V true i Hi) as (c & E & C).
  { intros s H. apply K; auto. }
  rewrite (g_id _ _ _ _ _ (ImportsProofs.good_signature n)) in E, C by (intros s H; apply K; auto).
  unfold EnsureAllTypesImported. rewrite E. destruct c; auto. exfalso. apply C; auto.
Qed.
Lemma symbol_eqb_refl s : symbol_eqb s s = true.
Proof. now apply symbol_eqb_eq. Qed.

(** Settled references. *)
Definition ref_stays (j : Imports) (r : reference) : Prop :=
  match r with
  | RefType n => EnsureTypeImported n j = (Ok (n, false), j)
  | RefSym s => EnsureImported s j = (Ok s, j)
  | RefMeth m => EnsureImported (MRType m) j = (Ok (MRType m), j)
  | RefPkg p => registerPackage p j = (Ok (PkgName p), j)
  end.
Lemma still_ref i r : Inv i -> ref_wf r -> settled i (ref_requests r) -> ref_stays i r.
Proof.
  destruct r; cbn [ref_wf ref_requests ref_stays]; intros; auto using still_symbol, still_package, still_type.
Qed.
Lemma replacement_stays t old d r j : denotes d = Some (Ok r) -> ref_stays j r -> exists m,
  replacement implements t old d = Some m /\ m j = (Ok (old, false), j).
Proof.
  intros D S. destruct d; cbn [denotes] in D; try discriminate D; cbn [replacement]; unfold rbind in D.
  - destruct (TypeNameForReflectType t0) as [n|]; [|discriminate]. injection D as <-. eexists. split; [reflexivity|].
    unfold sbind, slift. rewrite S. reflexivity.
  - destruct (TypeNameForGoType t0) as [n|]; [|discriminate]. injection D as <-. eexists. split; [reflexivity|].
    unfold sbind, slift. rewrite S. reflexivity.
  - destruct (SymbolForGoObject o) as [[s|m]|]; [| |discriminate]; injection D as <-; cbn [ref_stays] in S; eexists; (split; [reflexivity|]);
      unfold sbind, slift; rewrite S, symbol_eqb_refl; reflexivity.
  - destruct (PackageForGoType p) as [q|]; [|discriminate]. injection D as <-. cbn [ref_stays] in S. eexists. split; [reflexivity|].
    unfold sbind, slift. rewrite S, String.eqb_refl. reflexivity.
Qed.
Lemma shown_stays t r j addr : ref_stays j r -> stays (walk addr) j (VIface t (Some (shown r))).
Proof.
  destruct r as [n|s|m|p]; cbn [ref_stays shown]; intros S; unfold stays; cbn [qualifyTemplateData replacement]; unfold sbind, replace, sret;
    rewrite S; cbn [andb]; rewrite ?symbol_eqb_refl, ?String.eqb_refl; cbn [negb]; eauto.
Qed.

Notation readable := (readable unsafe parent_of).
Notation storable := (storable unsafe parent_of).
Lemma walk_settled v : forall addr i, typed v -> readable addr v -> Inv i -> settled i (reqs v) -> stays (walk addr) i v.
Proof.
  induction v as [t|t d IH|t fs IH|e|e x IH|t l IH|t l IH|t es IH|p|s|m|s|s r|e|im|n|r|g|o|p|t n] using val_ind';
    intros addr i T R Hi S; unfold stays; cbn [qualifyTemplateData]; try contradiction.
  - eexists; reflexivity.
  - destruct T as (Imp & Nd & T). cbn [data_requests SpecTemplate.readable] in S, R.
    destruct (as_type d) as [n|] eqn:At.
    { destruct d; try discriminate At. injection At as ->. cbn [replacement]. unfold sbind, replace, sret.
      rewrite still_type; auto. cbn [andb]. eauto. }
    destruct (denotes d) as [r|] eqn:De.
    + destruct R as (x & ->). destruct (replacement_stays t (VIface t (Some d)) d x i De) as (m & Em & E).
      { apply still_ref; auto. }
      rewrite Em, E. eauto.
    + rewrite (replacement_none _ _ _ De At). apply IH; auto.
  - apply Forall_typed_fields in T. cbn [data_requests] in S. apply settled_flat in S. unfold sbind.
    rewrite stays_fields; [eexists; reflexivity|]. cbn [SpecTemplate.readable] in R.
    apply all_Forall2 in R. rewrite Forall_forall in *. intros f F. destruct (R f F) as [R1 R2].
    intros V. split; [destruct V; [congruence|]; auto|]. apply IH; auto.
    assert (B : fst f || unsafe = true) by (apply orb_true_iff; tauto). specialize (S f F). cbn beta in S. rewrite B in S. auto.
  - eexists; reflexivity.
  - destruct T as [Te T]. unfold sbind. destruct (IH true i T R Hi S) as (x' & E). rewrite E. eexists; reflexivity.
  - apply Forall_typed in T. cbn [data_requests] in S. apply settled_flat in S. unfold sbind.
    rewrite stays_elems; [eexists; reflexivity|]. cbn [SpecTemplate.readable] in R.
    apply all_Forall in R. rewrite Forall_forall in *. intros x F. apply IH; auto.
  - apply Forall_typed in T. cbn [data_requests] in S. apply settled_flat in S. unfold sbind.
    rewrite stays_elems; [eexists; reflexivity|]. cbn [SpecTemplate.readable] in R.
    apply all_Forall in R. rewrite Forall_forall in *. intros x F. apply IH; auto.
  - destruct T as [T _]. apply Forall_typed_entries in T. cbn [data_requests] in S. apply settled_flat in S. unfold sbind.
    rewrite stays_map; [eexists; reflexivity|]. cbn [SpecTemplate.readable] in R.
    apply all_Forall2 in R. rewrite Forall_forall in *. intros f F. destruct (R f F), (IH f F), (T f F). specialize (S f F). cbn beta in S.
    apply settled_app in S as [S1 S2]. split; auto.
  - unfold sbind. rewrite still_package, String.eqb_refl by auto. eexists; reflexivity.
  - unfold sbind. rewrite still_symbol, symbol_eqb_refl by auto. eexists; reflexivity.
  - unfold sbind. rewrite still_symbol, symbol_eqb_refl by auto. eexists; reflexivity.
  - unfold sbind. rewrite still_signature by auto. eexists; reflexivity.
  - destruct R as (p & Sp). cbn [data_requests] in S. rewrite Sp in S |- *. unfold sbind, slift. destruct p as [p|]; [|eexists; reflexivity].
    rewrite still_package, String.eqb_refl by auto. eexists; reflexivity.
  - destruct e as [cm s p|cm n s p]; unfold sbind.
    + rewrite still_symbol, symbol_eqb_refl by auto. eexists; reflexivity.
    + rewrite still_signature by auto. eexists; reflexivity.
  - eexists; reflexivity.
  - eexists; reflexivity.
Qed.
End Proofs.
