(** Proofs about imports.go: the invariant of [Imports], monotonicity of every operation and
    the exact effect of qualification on symbols, types and signatures. *)
From Coq Require Import Permutation Sorted.
From Verif Require Import Base BaseFacts GoPath Utf8 Quote Types SpecTypes TypesFacts Imports.

(** ** path.Base never returns the empty string *)
Lemma path_Base_nonempty p : path_Base p <> "".
Proof.
  unfold path_Base. destruct (String.eqb p ""); [discriminate|]. cbv zeta.
  destruct (String.eqb_spec (after_last_slash (strip_trailing_slashes p)) "") as [E|N];
    [discriminate | exact N].
Qed.

(** ** The invariant *)
Record Inv (i : Imports) : Prop := mkInv
  { inv_nodup_paths : NoDup (keys (importsByPath i));
    inv_nodup_names : NoDup (keys (pathsByName i));
    inv_fwd : forall path d, lookup path (importsByPath i) = Some d ->
                lookup (packageName d) (pathsByName i) = Some path;
    inv_bwd : forall name path, lookup name (pathsByName i) = Some path ->
                exists d, lookup path (importsByPath i) = Some d /\ packageName d = name;
    inv_own : lookup (pkgPath i) (importsByPath i) = None;
    inv_name : forall path d, lookup path (importsByPath i) = Some d -> packageName d <> "" }.

(** Later states: nothing registered is ever changed or removed. *)
Definition ext (i j : Imports) : Prop :=
  pkgPath j = pkgPath i /\
  forall path d, lookup path (importsByPath i) = Some d -> lookup path (importsByPath j) = Some d.

Lemma ext_refl i : ext i i.
Proof. split; auto. Qed.
Lemma ext_trans i j k : ext i j -> ext j k -> ext i k.
Proof. intros [E1 H1] [E2 H2]. split; [congruence|auto]. Qed.

Lemma Inv_new p : Inv (NewImportsFor p).
Proof. split; simpl; try constructor; try discriminate; auto. Qed.

(** ** The search for a free name *)
Definition cand (base : string) (k : N) : string :=
  if (k =? 0)%N then base else (base ++ dec k)%string.
Lemma cand_inj base a b : cand base a = cand base b -> a = b.
Proof.
  unfold cand. destruct (N.eqb_spec a 0), (N.eqb_spec b 0); intros H; try lia.
  - subst a. apply append_self in H. exfalso; eapply dec_nonempty; eauto.
  - subst b. symmetry in H. apply append_self in H. exfalso; eapply dec_nonempty; eauto.
  - apply append_inj_l in H. apply dec_inj in H. auto.
Qed.

Lemma choose_name_Ok fuel taken base : forall k p,
  choose_name fuel taken base (cand base k) (k + 1) = Ok p ->
  exists n, p = cand base n /\ (k <= n)%N /\ lookup p taken = None /\
            forall j, (k <= j < n)%N -> lookup (cand base j) taken <> None.
Proof.
  induction fuel as [|fuel IH]; simpl; [discriminate|].
  intros k p. destruct (lookup (cand base k) taken) eqn:L.
  - intros H. assert (E : (base ++ dec (k + 1))%string = cand base (k + 1)).
    { unfold cand. destruct (N.eqb_spec (k+1) 0); [lia|auto]. }
    rewrite E in H. destruct (IH _ _ H) as (n & -> & Hn & Hl & Hm).
    exists n. split; auto. split; [lia|]. split; auto.
    intros j Hj. destruct (N.eq_dec j k) as [->|]; [congruence|]. apply Hm; lia.
  - intros [= <-]. exists k. split; auto. split; [lia|]. split; auto. intros; lia.
Qed.

Lemma choose_name_total fuel taken base : forall k,
  (forall m, choose_name fuel taken base (cand base k) (k + 1) = Panic m ->
    exists l, NoDup l /\ List.length l = fuel /\
      forall x, In x l -> In x (keys taken) /\ exists j, (k <= j)%N /\ x = cand base j).
Proof.
  induction fuel as [|fuel IH]; simpl; intros k m H.
  - exists []. split; [constructor|]. split; auto. intros x [].
  - destruct (lookup (cand base k) taken) eqn:L; [|discriminate].
    assert (E : (base ++ dec (k + 1))%string = cand base (k + 1)).
    { unfold cand. destruct (N.eqb_spec (k+1) 0); [lia|auto]. }
    rewrite E in H. destruct (IH _ _ H) as (l & ND & Len & Hl).
    exists (cand base k :: l). split; [|split].
    + constructor; auto. intros I. apply Hl in I as [_ (j & Hj & Ej)].
      apply cand_inj in Ej. lia.
    + simpl; congruence.
    + intros x [<-|I].
      * split; [eapply lookup_Some_key; eauto|]. exists k; split; auto; lia.
      * apply Hl in I as [I (j & Hj & ->)]. split; auto. exists j; split; auto; lia.
Qed.

Lemma choose_name_spec taken base :
  exists n, choose_name (S (List.length taken)) taken base base 1 = Ok (cand base n) /\
            lookup (cand base n) taken = None /\
            forall j, (j < n)%N -> lookup (cand base j) taken <> None.
Proof.
  change base with (cand base 0) at 2. change 1%N with (0 + 1)%N at 1.
  destruct (choose_name _ taken base (cand base 0) (0+1)) as [p|m] eqn:E.
  - apply choose_name_Ok in E as (n & -> & _ & L & M). exists n. split; auto. split; auto.
    intros j Hj. apply M. lia.
  - exfalso. apply choose_name_total in E as (l & ND & Len & Hl).
    assert (I : incl l (keys taken)) by (intros x Hx; apply Hl in Hx; tauto).
    pose proof (NoDup_incl_length ND I) as LL. unfold keys in LL. rewrite map_length in LL. lia.
Qed.

(** ** prefixForPackage *)
Definition prefix_name (i : Imports) (path : string) : option string :=
  if String.eqb path (pkgPath i) then Some ""
  else option_map packageName (lookup path (importsByPath i)).
Definition with_dot (n : string) : string := if String.eqb n "" then "" else (n ++ ".")%string.
Definition base_name (path name : string) : string :=
  if String.eqb name "" then path_Base path else name.

Lemma base_name_nonempty path name : base_name path name <> "".
Proof. unfold base_name. destruct (String.eqb_spec name ""); auto. apply path_Base_nonempty. Qed.
Lemma cand_nonempty base n : base <> "" -> cand base n <> "".
Proof.
  unfold cand. destruct (n =? 0)%N; auto. destruct base; [congruence|]. simpl; discriminate.
Qed.

Lemma prefix_name_ext i j path n : ext i j -> prefix_name i path = Some n -> prefix_name j path = Some n.
Proof.
  intros [E H]. unfold prefix_name. rewrite E.
  destruct (String.eqb path (pkgPath i)); auto.
  destruct (lookup path (importsByPath i)) eqn:L; simpl; [|discriminate].
  rewrite (H _ _ L). auto.
Qed.

Lemma prefix_known i path name reg n : Inv i ->
  prefix_name i path = Some n -> prefixForPackage path name reg i = (Ok (with_dot n), i).
Proof.
  intros I. unfold prefix_name, prefixForPackage.
  destruct (String.eqb path (pkgPath i)); [intros [= <-]; auto|].
  destruct (lookup path (importsByPath i)) eqn:L; simpl; [|discriminate].
  intros [= <-]. unfold with_dot. 
  destruct (String.eqb_spec (packageName i0) "") as [E|]; auto.
  exfalso. eapply inv_name; eauto.
Qed.
Lemma prefix_unknown_false i path name :
  prefix_name i path = None -> exists m, prefixForPackage path name false i = (Panic m, i).
Proof.
  unfold prefix_name, prefixForPackage.
  destruct (String.eqb path (pkgPath i)); [discriminate|].
  destruct (lookup path (importsByPath i)); simpl; [discriminate|]. eauto.
Qed.

(** The state after registering the unknown [path]. *)
Lemma prefix_new i path name : Inv i -> prefix_name i path = None ->
  exists n i', 
    prefixForPackage path name true i = (Ok (cand (base_name path name) n ++ ".")%string, i') /\
    lookup (cand (base_name path name) n) (pathsByName i) = None /\
    (forall j, (j < n)%N -> lookup (cand (base_name path name) j) (pathsByName i) <> None) /\
    i' = mkImports (pkgPath i)
           (insert path (mkImportDef (cand (base_name path name) n)
                           (negb (String.eqb (cand (base_name path name) n) name))) (importsByPath i))
           (insert (cand (base_name path name) n) path (pathsByName i)) /\
    Inv i' /\ ext i i'.
Proof.
  intros I. unfold prefix_name, prefixForPackage.
  destruct (String.eqb_spec path (pkgPath i)) as [|NP]; [discriminate|].
  destruct (lookup path (importsByPath i)) eqn:L; cbn [option_map negb]; [discriminate|]. intros _.
  cbv zeta. fold (base_name path name). set (base := base_name path name).
  destruct (choose_name_spec (pathsByName i) base) as (n & E & Free & Min).
  rewrite E. exists n. eexists. split; [reflexivity|]. split; auto. split; auto. split; auto.
  split.
  - split; cbn [pkgPath importsByPath pathsByName].
    + apply (@keys_insert_NoDup importDef). apply inv_nodup_paths; auto.
    + apply (@keys_insert_NoDup string). apply inv_nodup_names; auto.
    + intros p d. destruct (String.eqb_spec p path) as [->|N].
      * rewrite lookup_insert_same. intros [= <-]; simpl. apply lookup_insert_same.
      * rewrite lookup_insert_other by auto. intros Hp.
        pose proof (inv_fwd _ I _ _ Hp) as F.
        rewrite lookup_insert_other; auto. intros E'. congruence.
    + intros nm p. destruct (String.eqb_spec nm (cand base n)) as [->|N].
      * rewrite lookup_insert_same. intros [= <-]. eexists. rewrite lookup_insert_same; eauto.
      * rewrite lookup_insert_other by auto. intros Hp.
        destruct (inv_bwd _ I _ _ Hp) as (d & Hd & En). exists d. split; auto.
        rewrite lookup_insert_other; auto. intros ->. congruence.
    + rewrite lookup_insert_other by auto. apply inv_own; auto.
    + intros p d. destruct (String.eqb_spec p path) as [->|N].
      * rewrite lookup_insert_same. intros [= <-]; simpl. apply cand_nonempty, base_name_nonempty.
      * rewrite lookup_insert_other by auto. apply inv_name; auto.
  - split; auto. cbn [pkgPath importsByPath pathsByName]. intros p d Hp. rewrite lookup_insert_other; auto. intros ->. congruence.
Qed.

(** Registering in general. *)
Lemma prefix_reg i path name : Inv i ->
  exists n i', prefixForPackage path name true i = (Ok (with_dot n), i') /\
    Inv i' /\ ext i i' /\ prefix_name i' path = Some n /\
    (forall p, lookup p (importsByPath i') <> None <->
               lookup p (importsByPath i) <> None \/ (p = path /\ path <> pkgPath i)).
Proof.
  intros I. destruct (prefix_name i path) as [n|] eqn:P.
  - exists n, i. rewrite (prefix_known _ _ _ _ _ I P). split; auto. split; auto.
    split; [apply ext_refl|]. split; auto. intros p. split; auto. intros [H|[-> N]]; auto.
    unfold prefix_name in P. destruct (String.eqb_spec path (pkgPath i)); [congruence|].
    destruct (lookup path (importsByPath i)); [congruence|discriminate].
  - destruct (prefix_new i path name I P) as (n & i' & E & Free & Min & -> & I' & X).
    set (c := cand (base_name path name) n) in *.
    exists c. eexists. split.
    { rewrite E. unfold with_dot. destruct (String.eqb_spec c "") as [Z|]; [|reflexivity].
      exfalso. revert Z. apply cand_nonempty, base_name_nonempty. }
    split; auto. split; auto.
    assert (NP : path <> pkgPath i).
    { intros ->. unfold prefix_name in P. rewrite String.eqb_refl in P. discriminate. }
    split.
    + unfold prefix_name; cbn [pkgPath importsByPath pathsByName].
      destruct (String.eqb_spec path (pkgPath i)); [congruence|].
      rewrite lookup_insert_same. auto.
    + intros p; cbn [pkgPath importsByPath pathsByName]. destruct (String.eqb_spec p path) as [->|N].
      * rewrite lookup_insert_same. split; [auto|discriminate].
      * rewrite lookup_insert_other by auto. tauto.
Qed.

Lemma strip_with_dot n : strip_dot (with_dot n) = n.
Proof.
  unfold strip_dot, with_dot. destruct (String.eqb_spec n "") as [->|N]; auto.
  rewrite last_byte_append, Ascii.eqb_refl, drop_last_append. auto.
Qed.

(** ** Renaming of symbols *)
Definition known (i : Imports) (s : Symbol) : Prop :=
  has_package s = true -> prefix_name i (sym_path s) <> None.
Definition rename (i : Imports) (s : Symbol) : Symbol :=
  if has_package s then
    match prefix_name i (sym_path s) with
    | Some n => mkSymbol (mkPackage (sym_path s) n) (SymName s)
    | None => s
    end
  else s.

Lemma known_ext i j s : ext i j -> known i s -> known j s.
Proof.
  intros X K H. specialize (K H). destruct (prefix_name i (sym_path s)) eqn:P; [|congruence].
  rewrite (prefix_name_ext _ _ _ _ X P). discriminate.
Qed.
Lemma rename_ext i j s : ext i j -> known i s -> rename j s = rename i s.
Proof.
  intros X K. unfold rename. destruct (has_package s) eqn:H; auto.
  specialize (K H). destruct (prefix_name i (sym_path s)) eqn:P; [|congruence].
  rewrite (prefix_name_ext _ _ _ _ X P). auto.
Qed.
Lemma prefix_name_nonempty i path : Inv i -> prefix_name i path = Some "" -> path = pkgPath i.
Proof.
  intros I. unfold prefix_name. destruct (String.eqb_spec path (pkgPath i)); auto.
  destruct (lookup path (importsByPath i)) eqn:L; simpl; [|discriminate].
  intros [= E]. exfalso. eapply inv_name; eauto.
Qed.
Lemma rename_path i s : sym_path (rename i s) = sym_path s.
Proof. unfold rename. destruct (has_package s); auto. destruct (prefix_name i (sym_path s)); auto. Qed.
Lemma rename_name i s : SymName (rename i s) = SymName s.
Proof. unfold rename. destruct (has_package s); auto. destruct (prefix_name i (sym_path s)); auto. Qed.
Lemma known_rename i j s : known i s -> ext i j -> known j (rename i s).
Proof.
  intros K X H. rewrite rename_path.
  assert (HP : has_package s = true).
  { unfold rename in H. destruct (has_package s) eqn:HP; auto. congruence. }
  apply (known_ext _ _ _ X K HP).
Qed.
Lemma rename_idem i j s : known i s -> ext i j -> rename j (rename i s) = rename i s.
Proof.
  intros K X. unfold rename at 1. destruct (has_package (rename i s)) eqn:H; auto.
  rewrite rename_path, rename_name. unfold rename in *.
  destruct (has_package s) eqn:HP; [|congruence].
  specialize (K HP). destruct (prefix_name i (sym_path s)) as [n|] eqn:P; [|congruence].
  rewrite (prefix_name_ext _ _ _ _ X P). auto.
Qed.

(** The registration performed for one symbol. *)
Definition reg_sym (i : Imports) (s : Symbol) : Imports :=
  if has_package s then snd (RegisterImport (sym_path s) (PkgName (SymPackage s)) i) else i.

(** ** The rewriting functions, uniformly *)
(** [c] tells whether [x] differs from [y]. *)
Definition changed {A} (c : bool) (x y : A) : Prop := if c then x <> y else x = y.

Section Good.
Context {A : Type}.
Variables (f : bool -> A -> IM (A * bool)) (syms : A -> list Symbol)
          (mp : (Symbol -> Symbol) -> A -> A).

Definition all_known (i : Imports) (a : A) : Prop := forall s, In s (syms a) -> known i s.

Record good (ok : bool) (a : A) : Prop := mkGood
  { g_keep : forall reg i, Inv i -> Inv (snd (f reg a i)) /\ ext i (snd (f reg a i));
    g_look : forall i, snd (f false a i) = i;
    g_same : forall reg i a' i', f reg a i = (Ok (a', false), i') -> a' = a;
    g_reg : ok = true -> forall i, Inv i -> exists c i',
        f true a i = (Ok (mp (rename i') a, c), i') /\
        changed c (mp (rename i') a) a /\ all_known i' a /\
        forall p, lookup p (importsByPath i') <> None <->
          lookup p (importsByPath i) <> None \/
          (p <> pkgPath i /\ exists s, In s (syms a) /\ has_package s = true /\ sym_path s = p);
    g_fold : ok = true -> forall i, Inv i -> snd (f true a i) = fold_left reg_sym (syms a) i;
    g_known : ok = true -> forall reg i, Inv i -> all_known i a -> exists c,
        f reg a i = (Ok (mp (rename i) a, c), i) /\ changed c (mp (rename i) a) a;
    g_unknown : forall i, Inv i -> ~ all_known i a -> exists m, f false a i = (Panic m, i);
    g_cong : forall g h, (forall s, In s (syms a) -> g s = h s) -> mp g a = mp h a;
    g_id : forall g, (forall s, In s (syms a) -> g s = s) -> mp g a = a;
    g_syms : forall g, syms (mp g a) = map g (syms a) }.
End Good.

Lemma qualify_known s reg i : Inv i -> known i s -> qualify s reg i = (Ok (rename i s), i).
Proof.
  intros I K. unfold qualify, rename, known, has_package, sym_path, sret, sbind in *.
  destruct (String.eqb (PkgName (SymPackage s)) "" && String.eqb (ImportPath (SymPackage s)) "") eqn:Z; auto.
  simpl in *. specialize (K eq_refl).
  destruct (prefix_name i (ImportPath (SymPackage s))) as [n|] eqn:P; [|congruence].
  rewrite (prefix_known _ _ _ _ _ I P), strip_with_dot.
  destruct (String.eqb_spec n (PkgName (SymPackage s))) as [->|]; simpl; auto.
  destruct s as [[p q] r]; auto.
Qed.

Lemma qualify_unknown s i : Inv i -> ~ known i s -> exists m, qualify s false i = (Panic m, i).
Proof.
  intros I K. unfold qualify, known, has_package, sym_path, sret, sbind in *.
  destruct (String.eqb (PkgName (SymPackage s)) "" && String.eqb (ImportPath (SymPackage s)) "") eqn:Z.
  { exfalso. apply K. discriminate. }
  simpl in *. destruct (prefix_name i (ImportPath (SymPackage s))) as [n|] eqn:P.
  { exfalso. apply K. discriminate. }
  destruct (prefix_unknown_false _ _ (PkgName (SymPackage s)) P) as (m & E). rewrite E. eauto.
Qed.

Lemma qualify_reg s i : Inv i -> exists i',
  qualify s true i = (Ok (rename i' s), i') /\ Inv i' /\ ext i i' /\ known i' s /\
  forall p, lookup p (importsByPath i') <> None <->
    lookup p (importsByPath i) <> None \/
    (p <> pkgPath i /\ has_package s = true /\ sym_path s = p).
Proof.
  intros I. destruct (has_package s) eqn:H.
  - destruct (prefix_reg i (sym_path s) (PkgName (SymPackage s)) I) as (n & i' & E & I' & X & P & Q).
    exists i'. split; [|split; [auto|split; [auto|split]]].
    + unfold qualify, rename. rewrite H, P. unfold has_package in H. apply negb_true_iff in H.
      rewrite H. unfold sbind. unfold sym_path in *. rewrite E, strip_with_dot.
      destruct (String.eqb_spec n (PkgName (SymPackage s))) as [->|]; simpl; auto.
      unfold sret. destruct s as [[pp q] r]; auto.
    + intros _. congruence.
    + intros p. rewrite Q. split; intros [L|R]; auto; right; [destruct R as [-> R]|destruct R as (R & _ & <-)]; auto.
  - exists i. split; [|split; [auto|split; [apply ext_refl|split]]].
    + unfold qualify, rename. rewrite H. unfold has_package in H. apply negb_false_iff in H. rewrite H.
      reflexivity.
    + intros K; congruence.
    + intros p. split; auto. intros [L|(_ & K & _)]; [auto|congruence].
Qed.

Lemma qualify_look s i : snd (qualify s false i) = i.
Proof.
  unfold qualify, sret, sbind, prefixForPackage.
  destruct (_ && _); auto.
  destruct (String.eqb _ (pkgPath i)); simpl; [destruct (negb _); auto|].
  destruct (lookup _ _); simpl; auto. destruct (negb _); auto.
Qed.
Lemma qualify_keep s reg i : Inv i -> Inv (snd (qualify s reg i)) /\ ext i (snd (qualify s reg i)).
Proof.
  intros I. destruct reg.
  - destruct (qualify_reg s i I) as (i' & E & I' & X & _). rewrite E; auto.
  - rewrite qualify_look. split; auto. apply ext_refl.
Qed.

Lemma all_known_dec {A} (syms : A -> list Symbol) (i : Imports) (a : A) : all_known syms i a \/ ~ all_known syms i a.
Proof.
  unfold all_known. induction (syms a) as [|s r IH]; [left; intros s []|].
  assert (K : known i s \/ ~ known i s).
  { unfold known. destruct (has_package s), (prefix_name i (sym_path s)); intuition congruence. }
  destruct K as [K|K]; [|right; intros H; apply K, H; left; auto].
  destruct IH as [IH|IH]; [left; intros x [<-|I]; auto | right; intros H; apply IH; intros; apply H; right; auto].
Qed.

(** *** Lists *)
Section GoodList.
Context {A : Type}.
Variables (f : bool -> A -> IM (A * bool)) (syms : A -> list Symbol)
          (mp : (Symbol -> Symbol) -> A -> A) (okA : A -> bool).

Lemma changed_cons (c cr : bool) (x y : A) (r s : list A) :
  changed c x y -> changed cr r s ->
  (if c then x else y) :: r = x :: r /\ changed (c || cr) (x :: r) (y :: s).
Proof.
  unfold changed. destruct c, cr; simpl; intros H1 H2; split; try congruence; intros [=]; auto.
Qed.

Lemma good_list l : Forall (fun a => good f syms mp (okA a) a) l ->
  good (fun reg => map_changed (f reg)) (flat_map syms) (fun g => map (mp g)) (forallb okA l) l.
Proof.
  induction 1 as [|a r Ga Hr G].
  - split; simpl; auto.
    + intros reg i I. split; auto. apply ext_refl.
    + intros reg i l' i' [=]; auto.
    + intros _ i I. exists false, i. split; [|split; [|split]]; try reflexivity.
      { intros s []. }
      intros p; split; auto. intros [H|(_ & s & [] & _)]; auto.
    + intros _ reg i I _. exists false. split; reflexivity.
    + intros i I H. exfalso. apply H. intros s [].
  - split.
    + intros reg i I. simpl. unfold sbind, sret.
      destruct (g_keep _ _ _ _ _ Ga reg i I) as [I1 X1].
      destruct (f reg a i) as [[[a' c]|m] i1]; simpl in *; auto.
      destruct (g_keep _ _ _ _ _ G reg i1 I1) as [I2 X2].
      destruct (map_changed (f reg) r i1) as [[[r' cr]|m] i2]; simpl in *; split; auto; eapply ext_trans; eauto.
    + intros i. simpl. unfold sbind, sret.
      pose proof (g_look _ _ _ _ _ Ga i) as L1.
      destruct (f false a i) as [[[a' c]|m] i1]; simpl in *; subst; auto.
      pose proof (g_look _ _ _ _ _ G i) as L2.
      destruct (map_changed (f false) r i) as [[[r' cr]|m] i2]; simpl in *; auto.
    + intros reg i l' i'. simpl. unfold sbind, sret.
      destruct (f reg a i) as [[[a' c]|m] i1]; [|discriminate].
      destruct (map_changed (f reg) r i1) as [[[r' cr]|m] i2] eqn:E2; [|discriminate].
      destruct c, cr; simpl; intros [=]. subst. f_equal. eapply (g_same _ _ _ _ _ G); eauto.
    + simpl. intros OK i I. apply andb_true_iff in OK as [Oa Or].
      destruct (g_reg _ _ _ _ _ Ga Oa i I) as (c & i1 & E1 & C1 & K1 & P1).
      destruct (g_keep _ _ _ _ _ Ga true i I) as [I1 X1]. rewrite E1 in I1, X1. simpl in I1, X1.
      destruct (g_reg _ _ _ _ _ G Or i1 I1) as (cr & i2 & E2 & C2 & K2 & P2).
      destruct (g_keep _ _ _ _ _ G true i1 I1) as [I2 X2]. rewrite E2 in I2, X2. simpl in I2, X2.
      unfold sbind, sret. rewrite E1, E2.
      assert (R : mp (rename i2) a = mp (rename i1) a).
      { apply (g_cong _ _ _ _ _ Ga). intros s Hs. apply rename_ext; auto. }
      destruct (changed_cons _ _ _ _ _ _ C1 C2) as [EQ CC].
      exists (c || cr), i2. rewrite R. split; [rewrite EQ; reflexivity|]. split; [exact CC|].
      split.
      * intros s Hs. apply in_app_or in Hs as [Hs|Hs]; [eapply known_ext; eauto | auto].
      * intros p. rewrite P2, P1. destruct X1 as [-> _]. split.
        -- intros [[H|(N & s & Hs & Q)]|(N & s & Hs & Q)]; auto; right; split; auto;
             exists s; split; auto; apply in_or_app; auto.
        -- intros [H|(N & s & Hs & Q)]; auto. apply in_app_or in Hs as [Hs|Hs]; eauto 6.
    + simpl. intros OK i I. apply andb_true_iff in OK as [Oa Or].
      destruct (g_reg _ _ _ _ _ Ga Oa i I) as (c & i1 & E1 & _).
      destruct (g_keep _ _ _ _ _ Ga true i I) as [I1 _]. rewrite E1 in I1. simpl in I1.
      destruct (g_reg _ _ _ _ _ G Or i1 I1) as (cr & i2 & E2 & _).
      pose proof (g_fold _ _ _ _ _ Ga Oa i I) as F1. pose proof (g_fold _ _ _ _ _ G Or i1 I1) as F2.
      cbv beta in F1, F2. unfold sbind, sret. rewrite E1 in F1 |- *. rewrite E2 in F2 |- *. simpl in *.
      rewrite fold_left_app, <- F1. exact F2.
    + simpl. intros OK reg i I K. apply andb_true_iff in OK as [Oa Or].
      destruct (g_known _ _ _ _ _ Ga Oa reg i I) as (c & E1 & C1).
      { intros s Hs. apply K, in_or_app; auto. }
      destruct (g_known _ _ _ _ _ G Or reg i I) as (cr & E2 & C2).
      { intros s Hs. apply K, in_or_app; auto. }
      unfold sbind, sret. rewrite E1, E2.
      destruct (changed_cons _ _ _ _ _ _ C1 C2) as [EQ CC].
      exists (c || cr). rewrite EQ. auto.
    + simpl. intros i I K. unfold sbind, sret.
      destruct (all_known_dec syms i a) as [Ka|Ka].
      * pose proof (g_look _ _ _ _ _ Ga i) as L.
        destruct (f false a i) as [[[a' c]|m] i1]; simpl in L; subst i1; eauto.
        destruct (g_unknown _ _ _ _ _ G i I) as (m & E).
        { intros Kr. apply K. intros s Hs. apply in_app_or in Hs as [Hs|Hs]; auto. }
        rewrite E. eauto.
      * destruct (g_unknown _ _ _ _ _ Ga i I Ka) as (m & E). rewrite E. eauto.
    + simpl. intros g h H. f_equal.
      * apply (g_cong _ _ _ _ _ Ga). intros; apply H, in_or_app; auto.
      * apply (g_cong _ _ _ _ _ G). intros; apply H, in_or_app; auto.
    + simpl. intros g H. f_equal.
      * apply (g_id _ _ _ _ _ Ga). intros; apply H, in_or_app; auto.
      * apply (g_id _ _ _ _ _ G). intros; apply H, in_or_app; auto.
    + simpl. intros g. rewrite map_app, (g_syms _ _ _ _ _ Ga).
      rewrite <- (g_syms _ _ _ _ _ G). auto.
Qed.
End GoodList.

(** *** Pairs: [f a] then [g b] *)
Section GoodPair.
Context {A B : Type}.
Variables (f : bool -> A -> IM (A * bool)) (fs : A -> list Symbol) (fm : (Symbol -> Symbol) -> A -> A).
Variables (g : bool -> B -> IM (B * bool)) (gs : B -> list Symbol) (gm : (Symbol -> Symbol) -> B -> B).
Definition fpair (reg : bool) (p : A * B) : IM ((A * B) * bool) :=
  do '(a', ca) <- f reg (fst p) ;; do '(b', cb) <- g reg (snd p) ;; sret ((a', b'), ca || cb).
Definition spair (p : A * B) : list Symbol := fs (fst p) ++ gs (snd p).
Definition mpair (h : Symbol -> Symbol) (p : A * B) : A * B := (fm h (fst p), gm h (snd p)).

Lemma changed_pair (c d : bool) (x y : A) (r s : B) :
  changed c x y -> changed d r s -> changed (c || d) (x, r) (y, s).
Proof. unfold changed. destruct c, d; simpl; intros H1 H2; try congruence; intros [=]; auto. Qed.

Lemma good_pair oka okb a b : good f fs fm oka a -> good g gs gm okb b ->
  good fpair spair mpair (oka && okb) (a, b).
Proof.
  intros Ga G. split; unfold fpair, spair, mpair; simpl.
    + intros reg i I. unfold sbind, sret.
      destruct (g_keep _ _ _ _ _ Ga reg i I) as [I1 X1].
      destruct (f reg a i) as [[[a' c]|m] i1]; simpl in *; auto.
      destruct (g_keep _ _ _ _ _ G reg i1 I1) as [I2 X2].
      destruct (g reg b i1) as [[[r' cr]|m] i2]; simpl in *; split; auto; eapply ext_trans; eauto.
    + intros i. simpl. unfold sbind, sret.
      pose proof (g_look _ _ _ _ _ Ga i) as L1.
      destruct (f false a i) as [[[a' c]|m] i1]; simpl in *; subst; auto.
      pose proof (g_look _ _ _ _ _ G i) as L2.
      destruct (g false b i) as [[[r' cr]|m] i2]; simpl in *; auto.
    + intros reg i l' i'. unfold sbind, sret.
      destruct (f reg a i) as [[[a' c]|m] i1] eqn:E1; [|discriminate].
      destruct (g reg b i1) as [[[r' cr]|m] i2] eqn:E2; [|discriminate].
      destruct c, cr; simpl; intros [=]. subst. f_equal.
      * eapply (g_same _ _ _ _ _ Ga); eauto. * eapply (g_same _ _ _ _ _ G); eauto.
    + simpl. intros OK i I. apply andb_true_iff in OK as [Oa Or].
      destruct (g_reg _ _ _ _ _ Ga Oa i I) as (c & i1 & E1 & C1 & K1 & P1).
      destruct (g_keep _ _ _ _ _ Ga true i I) as [I1 X1]. rewrite E1 in I1, X1. simpl in I1, X1.
      destruct (g_reg _ _ _ _ _ G Or i1 I1) as (cr & i2 & E2 & C2 & K2 & P2).
      destruct (g_keep _ _ _ _ _ G true i1 I1) as [I2 X2]. rewrite E2 in I2, X2. simpl in I2, X2.
      unfold sbind, sret. rewrite E1, E2.
      assert (R : fm (rename i2) a = fm (rename i1) a).
      { apply (g_cong _ _ _ _ _ Ga). intros s Hs. apply rename_ext; auto. }
      exists (c || cr), i2. rewrite R. split; [reflexivity|].
      split; [apply changed_pair; auto|].
      split.
      * intros s Hs. apply in_app_or in Hs as [Hs|Hs]; [eapply known_ext; eauto | auto].
      * intros p. rewrite P2, P1. destruct X1 as [-> _]. split.
        -- intros [[H|(N & s & Hs & Q)]|(N & s & Hs & Q)]; auto; right; split; auto;
             exists s; split; auto; apply in_or_app; auto.
        -- intros [H|(N & s & Hs & Q)]; auto. apply in_app_or in Hs as [Hs|Hs]; eauto 6.
    + simpl. intros OK i I. apply andb_true_iff in OK as [Oa Or].
      destruct (g_reg _ _ _ _ _ Ga Oa i I) as (c & i1 & E1 & _).
      destruct (g_keep _ _ _ _ _ Ga true i I) as [I1 _]. rewrite E1 in I1. simpl in I1.
      destruct (g_reg _ _ _ _ _ G Or i1 I1) as (cr & i2 & E2 & _).
      pose proof (g_fold _ _ _ _ _ Ga Oa i I) as F1. pose proof (g_fold _ _ _ _ _ G Or i1 I1) as F2.
      cbv beta in F1, F2. unfold sbind, sret. rewrite E1 in F1 |- *. rewrite E2 in F2 |- *. simpl in *.
      rewrite fold_left_app, <- F1. exact F2.
    + simpl. intros OK reg i I K. apply andb_true_iff in OK as [Oa Or].
      destruct (g_known _ _ _ _ _ Ga Oa reg i I) as (c & E1 & C1).
      { intros s Hs. apply K, in_or_app; auto. }
      destruct (g_known _ _ _ _ _ G Or reg i I) as (cr & E2 & C2).
      { intros s Hs. apply K, in_or_app; auto. }
      unfold sbind, sret. rewrite E1, E2.
      exists (c || cr). split; auto. apply changed_pair; auto.
    + simpl. intros i I K. unfold sbind, sret.
      destruct (all_known_dec fs i a) as [Ka|Ka].
      * pose proof (g_look _ _ _ _ _ Ga i) as L.
        destruct (f false a i) as [[[a' c]|m] i1]; simpl in L; subst i1; eauto.
        destruct (g_unknown _ _ _ _ _ G i I) as (m & E).
        { intros Kr. apply K. intros s Hs. apply in_app_or in Hs as [Hs|Hs]; auto. }
        rewrite E. eauto.
      * destruct (g_unknown _ _ _ _ _ Ga i I Ka) as (m & E). rewrite E. eauto.
    + simpl. intros h k H. f_equal.
      * apply (g_cong _ _ _ _ _ Ga). intros; apply H, in_or_app; auto.
      * apply (g_cong _ _ _ _ _ G). intros; apply H, in_or_app; auto.
    + simpl. intros h H. f_equal.
      * apply (g_id _ _ _ _ _ Ga). intros; apply H, in_or_app; auto.
      * apply (g_id _ _ _ _ _ G). intros; apply H, in_or_app; auto.
    + simpl. intros h. rewrite map_app, (g_syms _ _ _ _ _ Ga), (g_syms _ _ _ _ _ G). auto.
Qed.
End GoodPair.

(** *** Wrapping: rebuild [k a'] with the constructor [mk] if something changed *)
Section GoodWrap.
Context {A B : Type}.
Variables (f : bool -> A -> IM (A * bool)) (fs : A -> list Symbol) (fm : (Symbol -> Symbol) -> A -> A).
Variables (F : bool -> B -> IM (B * bool)) (S_ : B -> list Symbol) (M : (Symbol -> Symbol) -> B -> B).
Variables (k : A -> B) (mk : A -> res B).

Lemma good_wrap ok0 ok a :
  good f fs fm ok0 a ->
  (ok = true -> ok0 = true /\ forall h, mk (fm h a) = Ok (k (fm h a))) ->
  (forall x y, k x = k y -> x = y) ->
  (forall h, S_ (k (fm h a)) = fs (fm h a)) -> S_ (k a) = fs a ->
  (forall h, M h (k a) = k (fm h a)) ->
  (forall reg i, F reg (k a) i =
     (do '(a', c) <- f reg a ;;
      if c : bool then do b <- slift (mk a') ;; sret (b, true) else sret (k a, false)) i) ->
  good F S_ M ok (k a).
Proof.
  intros G OK Kinj HS HS0 HM HF. split.
  - intros reg i I. rewrite HF. unfold sbind, sret, slift.
    destruct (g_keep _ _ _ _ _ G reg i I) as [I1 X1].
    destruct (f reg a i) as [[[a' c]|m] i1]; simpl in *; auto.
    destruct c; simpl; auto. destruct (mk a'); auto.
  - intros i. rewrite HF. unfold sbind, sret, slift.
    pose proof (g_look _ _ _ _ _ G i) as L1.
    destruct (f false a i) as [[[a' c]|m] i1]; simpl in *; subst; auto.
    destruct c; simpl; auto. destruct (mk a'); auto.
  - intros reg i b i'. rewrite HF. unfold sbind, sret, slift.
    destruct (f reg a i) as [[[a' c]|m] i1]; [|discriminate].
    destruct c; [destruct (mk a'); discriminate|]. intros [=]; auto.
  - intros O i I. destruct (OK O) as [O0 Hmk].
    destruct (g_reg _ _ _ _ _ G O0 i I) as (c & i1 & E1 & C1 & K1 & P1).
    exists c, i1. rewrite HF. unfold sbind, sret, slift. rewrite E1, HM.
    split; [|split; [|split]].
    + destruct c; simpl; [rewrite Hmk; auto|]. simpl in C1. congruence.
    + destruct c; simpl in *; [intros E; auto | congruence].
    + intros s. rewrite HS0. apply K1.
    + intros p. rewrite HS0. apply P1.
  - intros O i I. destruct (OK O) as [O0 Hmk].
    pose proof (g_fold _ _ _ _ _ G O0 i I) as F1.
    rewrite HF, HS0, <- F1. unfold sbind, sret, slift.
    destruct (f true a i) as [[[a' c]|m] i1]; auto. destruct c; auto. destruct (mk a'); auto.
  - intros O reg i I K. destruct (OK O) as [O0 Hmk].
    destruct (g_known _ _ _ _ _ G O0 reg i I) as (c & E1 & C1).
    { intros s. rewrite <- HS0. apply K. }
    exists c. rewrite HF. unfold sbind, sret, slift. rewrite E1, HM.
    split.
    + destruct c; simpl; [rewrite Hmk; auto|]. simpl in C1. congruence.
    + destruct c; simpl in *; [intros E; auto | congruence].
  - intros i I K. destruct (g_unknown _ _ _ _ _ G i I) as (m & E).
    { intros K'. apply K. intros s. rewrite HS0. apply K'. }
    rewrite HF. unfold sbind. rewrite E. eauto.
  - intros h h' E. rewrite !HM. f_equal. apply (g_cong _ _ _ _ _ G). intros s. rewrite <- HS0. apply E.
  - intros h E. rewrite HM. f_equal. apply (g_id _ _ _ _ _ G). intros s. rewrite <- HS0. apply E.
  - intros h. rewrite HM, HS, HS0. apply (g_syms _ _ _ _ _ G).
Qed.
End GoodWrap.

(** *** Leaves *)
Lemma good_symbol s :
  good (fun reg s => do nt <- qualify s reg ;; sret (nt, negb (symbol_eqb nt s)))
       (fun s => [s]) (fun h => h) true s.
Proof.
  assert (CH : forall x y, changed (negb (symbol_eqb x y)) x y).
  { intros x y. unfold changed. destruct (symbol_eqb x y) eqn:E; simpl.
    - apply symbol_eqb_eq; auto. - apply symbol_eqb_neq; auto. }
  split; unfold sbind, sret.
  - intros reg i I. pose proof (qualify_keep s reg i I) as H.
    destruct (qualify s reg i) as [[n|m] i']; auto.
  - intros i. pose proof (qualify_look s i) as H. destruct (qualify s false i) as [[n|m] i']; auto.
  - intros reg i a' i'. destruct (qualify s reg i) as [[n|m] i1]; [|discriminate].
    intros [= -> H _]. apply negb_false_iff, symbol_eqb_eq in H. auto.
  - intros _ i I. destruct (qualify_reg s i I) as (i' & E & I' & X & K & P).
    rewrite E. do 2 eexists. split; [reflexivity|]. split; auto. split.
    { intros x [<-|[]]; auto. }
    intros p. rewrite P. split; intros [L|R]; auto.
    + destruct R as (N & H & <-). right. split; auto. exists s; simpl; auto.
    + destruct R as (N & x & [<-|[]] & H & <-). auto.
  - intros _ i I. simpl. unfold reg_sym, RegisterImport.
    unfold qualify, has_package, sbind, sret.
    destruct (String.eqb (PkgName (SymPackage s)) "" && String.eqb (ImportPath (SymPackage s)) ""); auto.
    simpl. unfold sym_path.
    destruct (prefixForPackage (ImportPath (SymPackage s)) (PkgName (SymPackage s)) true i) as [[n|m] i1]; auto.
    destruct (negb (String.eqb (strip_dot n) (PkgName (SymPackage s)))); auto.
  - intros _ reg i I K. rewrite qualify_known; auto; [|apply K; left; auto].
    eexists. split; [reflexivity|]. auto.
  - intros i I K. destruct (qualify_unknown s i I) as (m & E).
    { intros H. apply K. intros x [<-|[]]; auto. }
    rewrite E. eauto.
  - intros g h H. apply H. left; auto.
  - intros g H. apply H. left; auto.
  - reflexivity.
Qed.

(** ** Types *)
Notation goodT := (good qualifyType symbols_of map_symbols).

Lemma good_args l : Forall (fun a => goodT (wf (ArgTy a)) (ArgTy a)) l ->
  good (fun reg => qualifyArgs_ (qualifyType reg)) (args_symbols symbols_of)
       (fun h => map_args (map_symbols h)) (forallb (fun a => wf (ArgTy a)) l) l.
Proof.
  intros H.
  apply (good_list (fun reg (a : ArgType) => match a with
                        | mkArg name t => do '(nt, c) <- qualifyType reg t ;; sret (mkArg name nt, c)
                        end) (fun a => match a with mkArg _ t => symbols_of t end)
           (fun h a => match a with mkArg n t => mkArg n (map_symbols h t) end)
           (fun a => wf (ArgTy a))).
  eapply Forall_impl; [|exact H]. intros [n t] G. simpl in *.
  apply (good_wrap qualifyType symbols_of map_symbols _ _ _ (mkArg n) (fun t => Ok (mkArg n t)) (wf t));
    auto.
  - intros x y [=]; auto.
  - intros reg i. unfold sbind, sret, slift.
    destruct (qualifyType reg t i) as [[[t' c]|m] i'] eqn:E; auto.
    destruct c; auto. rewrite (g_same _ _ _ _ _ G _ _ _ _ E). auto.
Qed.

Lemma good_fields l : Forall (fun f => goodT (wf (FldType f)) (FldType f)) l ->
  good (fun reg => qualifyFields_ (qualifyType reg))
       (flat_map (fun x : FieldType => match x with mkField _ t _ => symbols_of t end))
       (fun h => map (fun x : FieldType => match x with mkField n t tag => mkField n (map_symbols h t) tag end))
       (forallb (fun f => wf (FldType f)) l) l.
Proof.
  intros H.
  apply (good_list (fun reg (a : FieldType) => match a with
                        | mkField name t tag => do '(nt, c) <- qualifyType reg t ;; sret (mkField name nt tag, c)
                        end) (fun a => match a with mkField _ t _ => symbols_of t end)
           (fun h a => match a with mkField n t tag => mkField n (map_symbols h t) tag end)
           (fun a => wf (FldType a))).
  eapply Forall_impl; [|exact H]. intros [n t tag] G. simpl in *.
  apply (good_wrap qualifyType symbols_of map_symbols _ _ _ (fun t => mkField n t tag)
           (fun t => Ok (mkField n t tag)) (wf t)); auto.
  - intros x y [=]; auto.
  - intros reg i. unfold sbind, sret, slift.
    destruct (qualifyType reg t i) as [[[t' c]|m] i'] eqn:E; auto.
    destruct c; auto. rewrite (g_same _ _ _ _ _ G _ _ _ _ E). auto.
Qed.

Lemma wf_sig_unfold s : wf_sig s = variadic_ok s &&
  (forallb (fun a => wf (ArgTy a)) (Args s) && forallb (fun a => wf (ArgTy a)) (Results s)).
Proof. unfold wf_sig. rewrite andb_assoc. auto. Qed.

Lemma good_sig (s : Signature) : PSig (fun t => goodT (wf t) t) s ->
  good (fun reg => qualifySignature_ (qualifyType reg)) sig_symbols
       (fun h => map_sig (map_symbols h)) (wf_sig s) s.
Proof.
  intros [HA HR]. apply good_args in HA. apply good_args in HR.
  pose proof (good_pair _ _ _ _ _ _ _ _ _ _ HA HR) as GP.
  destruct s as [args results v]. simpl in *.
  apply (good_wrap _ _ _ _ _ _ (fun p => mkSig (fst p) (snd p) v)
           (fun p => Ok (mkSig (fst p) (snd p) v)) _ _ (args, results) GP); auto.
  - rewrite wf_sig_unfold. simpl. intros H. apply andb_true_iff in H as [_ H]. auto.
  - intros [a b] [c d]; simpl; intros [=]; subst; auto.
  - intros reg i. unfold fpair, qualifySignature_, sbind, sret, slift. simpl.
    destruct (qualifyArgs_ (qualifyType reg) args i) as [[[t' c]|m] i'] eqn:E; auto.
    destruct (qualifyArgs_ (qualifyType reg) results i') as [[[t2 c2]|m] i2] eqn:E2; auto.
Qed.

Lemma good_methods l : Forall (fun m => PSig (fun t => goodT (wf t) t) (MtdSig m)) l ->
  good (fun reg => qualifyMethods_ (qualifyType reg))
       (flat_map (fun m : MethodType => match m with mkMethod _ s => sig_symbols_ symbols_of s end))
       (fun h => map (fun m : MethodType => match m with mkMethod n s => mkMethod n (map_sig (map_symbols h) s) end))
       (forallb (fun m => wf_sig (MtdSig m)) l) l.
Proof.
  intros H.
  apply (good_list (fun reg (a : MethodType) => match a with
                        | mkMethod name s => do '(nt, c) <- qualifySignature_ (qualifyType reg) s ;; sret (mkMethod name nt, c)
                        end) (fun a => match a with mkMethod _ s => sig_symbols_ symbols_of s end)
           (fun h a => match a with mkMethod n s => mkMethod n (map_sig (map_symbols h) s) end)
           (fun a => wf_sig (MtdSig a))).
  eapply Forall_impl; [|exact H]. intros [n s] G. cbn [MtdSig] in *. apply good_sig in G.
  apply (good_wrap _ _ _ _ _ _ (fun t => mkMethod n t)
           (fun t => Ok (mkMethod n t)) (wf_sig s) _ s G); auto.
  - intros x y [=]; auto.
  - intros reg i. unfold sbind, sret, slift.
    destruct (qualifySignature_ (qualifyType reg) s i) as [[[t' c]|m] i'] eqn:E; auto.
    destruct c; auto. rewrite (g_same _ _ _ _ _ G _ _ _ _ E). auto.
Qed.

Lemma wf_TFunc s : wf (TFunc s) = wf_sig s.
Proof. rewrite wf_sig_unfold. destruct s; auto. Qed.
Lemma wf_TInterface ms es : wf (TInterface ms es) = forallb (fun m => wf_sig (MtdSig m)) ms.
Proof.
  simpl. induction ms as [|[n s] r IH]; simpl; auto. rewrite IH. f_equal.
  rewrite wf_sig_unfold. destruct s; auto.
Qed.

Lemma map_symbols_nil h t : is_nil (map_symbols h t) = is_nil t.
Proof. destruct t; auto. Qed.
Lemma wf_not_nil t : wf t = true -> is_nil t = false.
Proof. destruct t; auto; discriminate. Qed.
Lemma map_symbols_kind h t : tKind (map_symbols h t) = tKind t.
Proof. destruct t; auto. Qed.

Lemma map_args_map {T} (g : T -> T) l : map_args g l = map (fun a => mkArg (ArgName a) (g (ArgTy a))) l.
Proof. unfold map_args. apply map_ext. intros []; auto. Qed.

Lemma last_arg_rev {T} (l : list (ArgType_ T)) :
  last_arg l = match rev l with [] => None | a :: _ => Some a end.
Proof.
  unfold last_arg. destruct l as [|a l'] using rev_ind; auto.
  rewrite map_app, rev_app_distr. simpl. rewrite last_last. auto.
Qed.

Lemma FuncTypeFromSig_ok s :
  (forall a, In a (Args s) -> is_nil (ArgTy a) = false) ->
  (forall a, In a (Results s) -> is_nil (ArgTy a) = false) ->
  variadic_ok s = true -> FuncTypeFromSig s = Ok (TFunc s).
Proof.
  intros HA HR V. unfold FuncTypeFromSig.
  assert (E : forall l : list ArgType, (forall a, In a l -> is_nil (ArgTy a) = false) ->
                existsb (fun a => is_nil (ArgTy a)) l = false).
  { intros l H. apply not_true_iff_false. intros E. apply existsb_exists in E as (a & I & N).
    rewrite H in N; auto. discriminate. }
  rewrite E, E by auto. unfold variadic_ok in V. rewrite last_arg_rev.
  destruct (IsVariadic s); simpl in *; auto.
  destruct (rev (Args s)) as [|a r]; [discriminate|]. destruct (ArgTy a); try discriminate; auto.
Qed.

Lemma variadic_ok_map h s : variadic_ok (map_sig (map_symbols h) s) = variadic_ok s.
Proof.
  destruct s as [a r v]. unfold variadic_ok; simpl. rewrite map_args_map, <- map_rev.
  destruct (rev a) as [|x l]; simpl; auto. destruct (ArgTy x); auto.
Qed.

Lemma good_type t : goodT (wf t) t.
Proof.
  induction t as [ |k|s|e IH|e IH|e n IH|e k IHe IHk|e d IH|s IH|fs IH|ms es IH] using TypeName_ind'.
  - split; simpl; unfold spanic; auto; try discriminate.
    + intros reg i I. split; auto. apply ext_refl.
    + intros i I H. exfalso. apply H. intros s [].
  - split; simpl; unfold sret; auto.
    + intros reg i I. split; auto. apply ext_refl.
    + intros reg i t' i' [=]; auto.
    + intros _ i I. exists false, i. split; [|split; [|split]]; try reflexivity.
      { intros s []. }
      intros p; split; auto. intros [H|(_ & s & [] & _)]; auto.
    + intros _ reg i I _. exists false. split; reflexivity.
    + intros i I H. exfalso. apply H. intros s [].
  - apply (good_wrap _ _ _ _ _ _ TNamed (fun s => Ok (TNamed s)) true _ s (good_symbol s)); auto.
    + intros x y [=]; auto.
    + intros reg i. simpl. unfold sbind, sret, slift. destruct (qualify s reg i) as [[n|m] i']; auto.
  - apply (good_wrap _ _ _ _ _ _ TPtr PointerType (wf e) _ e IH); auto.
    + simpl. intros H. split; auto. intros h. unfold PointerType. rewrite map_symbols_nil, wf_not_nil; auto.
    + intros x y [=]; auto.
  - apply (good_wrap _ _ _ _ _ _ TSlice SliceType (wf e) _ e IH); auto.
    + simpl. intros H. split; auto. intros h. unfold SliceType. rewrite map_symbols_nil, wf_not_nil; auto.
    + intros x y [=]; auto.
  - apply (good_wrap _ _ _ _ _ _ (fun e => TArray e n) (fun e => ArrayType e n) (wf e) _ e IH); auto.
    + simpl. intros H. apply andb_true_iff in H as [Hn H]. split; auto. intros h. unfold ArrayType.
      rewrite map_symbols_nil, wf_not_nil by auto.
      replace (n <? 0)%Z with false; auto. symmetry. apply Z.ltb_ge. apply Z.leb_le in Hn. auto.
    + intros x y [=]; auto.
  - pose proof (good_pair _ _ _ _ _ _ _ _ _ _ IHk IHe) as GP.
    apply (good_wrap _ _ _ _ _ _ (fun p => TMap (snd p) (fst p)) (fun p => MapType (fst p) (snd p)) _ _ (k, e) GP); auto.
    + simpl. intros H. apply andb_true_iff in H as [He Hk]. rewrite He, Hk. split; auto.
      intros h. unfold MapType. rewrite !map_symbols_nil, !wf_not_nil by auto. auto.
    + intros [a b] [c d]; simpl; intros [=]; subst; auto.
    + intros reg i. unfold fpair. simpl. unfold sbind, sret, slift.
      destruct (qualifyType reg k i) as [[[t' c]|m] i'] eqn:E; auto.
      destruct (qualifyType reg e i') as [[[t2 c2]|m] i2] eqn:E2; auto.
      rewrite (orb_comm c2 c). destruct (c || c2); auto.
  - apply (good_wrap _ _ _ _ _ _ (fun e => TChan e d) (fun e => ChannelType e d) (wf e) _ e IH); auto.
    + simpl. intros H. apply andb_true_iff in H as [Hd H]. split; auto. intros h. unfold ChannelType.
      rewrite map_symbols_nil, wf_not_nil by auto.
      assert (D : d = 1%Z \/ d = 2%Z \/ d = 3%Z).
      { apply andb_true_iff in Hd as [H1 H2]. apply Z.leb_le in H1, H2. lia. }
      destruct D as [->|[->| ->]]; auto.
    + intros x y [=]; auto.
  - rewrite wf_TFunc. apply good_sig in IH.
    apply (good_wrap _ _ _ _ _ _ TFunc FuncTypeFromSig (wf_sig s) _ s IH); auto.
    + intros H. split; auto. intros h. rewrite wf_sig_unfold in H.
      apply andb_true_iff in H as [V H]. apply andb_true_iff in H as [HA HR].
      apply FuncTypeFromSig_ok.
      * destruct s as [a r v]; simpl in *. intros x. rewrite map_args_map, in_map_iff.
        intros (y & <- & Iy). simpl. rewrite map_symbols_nil. apply wf_not_nil.
        rewrite forallb_forall in HA. auto.
      * destruct s as [a r v]; simpl in *. intros x. rewrite map_args_map, in_map_iff.
        intros (y & <- & Iy). simpl. rewrite map_symbols_nil. apply wf_not_nil.
        rewrite forallb_forall in HR. auto.
      * rewrite variadic_ok_map; auto.
    + intros x y [=]; auto.
  - apply good_fields in IH.
    apply (good_wrap _ _ _ _ _ _ TStruct (fun x => Ok (TStruct x)) _ _ fs IH); auto.
    intros x y [=]; auto.
  - apply good_methods in IH. rewrite wf_TInterface.
    pose proof (good_list _ _ _ (fun _ => true) es (proj2 (Forall_forall _ _) (fun s _ => good_symbol s))) as GE.
    pose proof (good_pair _ _ _ _ _ _ _ _ _ _ GE IH) as GP.
    assert (FM : forall l : list Symbol, flat_map (fun s => [s]) l = l).
    { induction l as [|x l IHl]; simpl; congruence. }
    apply (good_wrap _ _ _ _ _ _ (fun p => TInterface (snd p) (fst p))
             (fun p => Ok (TInterface (snd p) (fst p))) _ _ (es, ms) GP); auto.
    + intros H. split; auto. rewrite H, andb_true_r. clear. induction es; auto.
    + intros [a b] [c d]; simpl; intros [=]; subst; auto.
    + intros h. unfold spair, mpair. cbn [fst snd symbols_of]. rewrite FM. auto.
    + unfold spair. cbn [fst snd symbols_of]. rewrite FM. auto.
    + intros reg i. unfold fpair. simpl. unfold qualifySymbols, sbind, sret, slift.
      match goal with |- context [map_changed ?F es i] => destruct (map_changed F es i) as [[[t' c]|m] i'] eqn:E; auto end.
      destruct (qualifyMethods_ (qualifyType reg) ms i') as [[[t2 c2]|m] i2] eqn:E2; auto.
Qed.

Lemma good_signature s :
  good (fun reg => qualifySignature reg) sig_symbols (fun h => map_sig (map_symbols h)) (wf_sig s) s.
Proof.
  apply good_sig. split; apply Forall_forall; intros; apply good_type.
Qed.

Lemma forallb_map_args h (l : list ArgType) :
  Forall (fun a => wf (map_symbols h (ArgTy a)) = wf (ArgTy a)) l ->
  forallb (fun a => wf (ArgTy a)) (map_args (map_symbols h) l) = forallb (fun a => wf (ArgTy a)) l.
Proof. rewrite map_args_map. induction 1; simpl; congruence. Qed.
Lemma wf_sig_map h s : PSig (fun t => wf (map_symbols h t) = wf t) s ->
  wf_sig (map_sig (map_symbols h) s) = wf_sig s.
Proof.
  intros [HA HR]. rewrite !wf_sig_unfold, variadic_ok_map. destruct s as [a r v]; simpl in *.
  rewrite !forallb_map_args; auto.
Qed.
Lemma wf_map h t : wf (map_symbols h t) = wf t.
Proof.
  induction t as [ |k|s|e IH|e IH|e n IH|e k IHe IHk|e d IH|s IH|fs IH|ms es IH] using TypeName_ind';
    simpl map_symbols; try (simpl; congruence).
  - rewrite !wf_TFunc. apply wf_sig_map; auto.
  - simpl. induction IH as [|[n t tag] r H F IHr]; simpl in *; congruence.
  - rewrite !wf_TInterface. induction IH as [|[n s] r H F IHr]; simpl in *; auto.
    rewrite wf_sig_map, IHr; auto.
Qed.
