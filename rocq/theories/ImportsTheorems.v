(** The theorems behind the import properties (stated again in PropImports.v). *)
From Coq Require Import Permutation Sorted.
From Verif Require Import Base BaseFacts GoPath Utf8 Quote Types SpecTypes TypesFacts Imports
  SpecImports ImportsProofs.

Definition path_lt (a b : ImportSpec) : Prop := str_lt (SpecPath a) (SpecPath b).

(** ** Every reachable state satisfies the invariant *)
Lemma exec_keep c i : Inv i -> Inv (exec c i) /\ ext i (exec c i).
Proof.
  intros I.
  assert (P : forall path name reg, Inv (snd (prefixForPackage path name reg i)) /\
                ext i (snd (prefixForPackage path name reg i))).
  { intros path name [].
    - destruct (prefix_reg i path name I) as (n & i' & E & I' & X & _). rewrite E. auto.
    - destruct (prefix_name i path) as [n|] eqn:P.
      + rewrite (prefix_known _ _ _ _ _ I P). split; auto. apply ext_refl.
      + destruct (prefix_unknown_false _ _ name P) as (m & E). rewrite E. split; auto. apply ext_refl. }
  destruct c; simpl; try apply P.
  - apply qualify_keep; auto.
  - apply qualify_keep; auto.
  - apply (g_keep _ _ _ _ _ (good_type t)); auto.
  - apply (g_keep _ _ _ _ _ (good_type t)); auto.
  - apply (g_keep _ _ _ _ _ (good_signature s)); auto.
  - apply (g_keep _ _ _ _ _ (good_signature s)); auto.
  - split; auto. apply ext_refl.
Qed.
Lemma run_keep h : forall i, Inv i -> Inv (run h i) /\ ext i (run h i).
Proof.
  induction h as [|c h IH]; simpl; intros i I; [split; auto; apply ext_refl|].
  destruct (exec_keep c i I) as [I' X]. destruct (IH _ I') as [I2 X2].
  split; auto. eapply ext_trans; eauto.
Qed.
Lemma run_new_Inv own h : Inv (run h (NewImportsFor own)).
Proof. apply run_keep, Inv_new. Qed.
Lemma run_new_own own h : pkgPath (run h (NewImportsFor own)) = own.
Proof. destruct (run_keep h _ (Inv_new own)) as [_ [E _]]. exact E. Qed.

(** ** PrefixForPackage in terms of prefix_name *)
Lemma PrefixForPackage_iff i path p : Inv i ->
  (fst (PrefixForPackage path i) = Ok p <->
   exists n, prefix_name i path = Some n /\ p = with_dot n).
Proof.
  intros I. unfold PrefixForPackage. destruct (prefix_name i path) as [n|] eqn:P.
  - rewrite (prefix_known _ _ _ _ _ I P). simpl. split.
    + intros [= <-]. eauto. + intros (n' & [= <-] & ->). auto.
  - destruct (prefix_unknown_false _ _ "" P) as (m & E). rewrite E. simpl.
    split; [discriminate|]. intros (n & H & _). discriminate.
Qed.
Lemma PrefixForPackage_state i path : snd (PrefixForPackage path i) = i.
Proof.
  unfold PrefixForPackage, prefixForPackage. destruct (String.eqb path (pkgPath i)); auto.
  destruct (lookup path (importsByPath i)); auto.
Qed.
Lemma with_dot_inj a b : with_dot a = with_dot b -> a = b.
Proof. intros H. rewrite <- (strip_with_dot a), <- (strip_with_dot b), H. auto. Qed.

Lemma prefix_name_inj i a b n : Inv i -> prefix_name i a = Some n -> prefix_name i b = Some n -> a = b.
Proof.
  intros I Ha Hb. destruct n as [|c n].
  - apply prefix_name_nonempty in Ha, Hb; auto. congruence.
  - unfold prefix_name in *.
    destruct (String.eqb a (pkgPath i)); [discriminate|].
    destruct (String.eqb b (pkgPath i)); [discriminate|].
    destruct (lookup a (importsByPath i)) eqn:La; simpl in Ha; [|discriminate].
    destruct (lookup b (importsByPath i)) eqn:Lb; simpl in Hb; [|discriminate].
    pose proof (inv_fwd _ I _ _ La) as Fa. pose proof (inv_fwd _ I _ _ Lb) as Fb. congruence.
Qed.

Lemma unique_prefix own h a b p :
  let i := run h (NewImportsFor own) in
  fst (PrefixForPackage a i) = Ok p -> fst (PrefixForPackage b i) = Ok p -> a = b.
Proof.
  intros i Ha Hb. assert (I : Inv i) by apply run_new_Inv.
  apply PrefixForPackage_iff in Ha as (n & Ha & ->); auto.
  apply PrefixForPackage_iff in Hb as (m & Hb & E); auto.
  apply with_dot_inj in E. subst m. eapply prefix_name_inj; eauto.
Qed.

Lemma stable_prefix own h path name p i1 h' name' :
  let i := run h (NewImportsFor own) in
  RegisterImport path name i = (Ok p, i1) ->
  let j := run h' i1 in
  RegisterImport path name' j = (Ok p, j) /\ PrefixForPackage path j = (Ok p, j).
Proof.
  intros i E j. assert (I : Inv i) by apply run_new_Inv.
  destruct (prefix_reg i path name I) as (n & i' & E' & I' & X & P & _).
  unfold RegisterImport in E. rewrite E in E'. injection E' as -> ->.
  destruct (run_keep h' _ I') as [Ij Xj].
  pose proof (prefix_name_ext _ _ _ _ Xj P) as Pj.
  split; apply prefix_known; auto.
Qed.

(** ** ImportSpecs *)
Lemma insert_spec_perm x l : Permutation (x :: l) (insert_spec x l).
Proof.
  induction l as [|y r IH]; simpl; auto. destruct (spec_ltb y x); auto.
  eapply perm_trans; [apply perm_swap|]. constructor. auto.
Qed.
Lemma sort_specs_perm l : Permutation l (sort_specs l).
Proof.
  induction l as [|x r IH]; simpl; auto.
  eapply perm_trans; [|apply insert_spec_perm]. constructor; auto.
Qed.
Lemma insert_spec_sorted x l :
  StronglySorted path_lt l -> ~ In (SpecPath x) (map SpecPath l) ->
  StronglySorted path_lt (insert_spec x l).
Proof.
  induction 1 as [|y r S IH F]; simpl; intros N.
  - constructor; auto. constructor.
  - destruct (spec_ltb y x) eqn:L.
    + constructor.
      * apply IH. tauto.
      * apply Forall_forall. intros z Hz.
        apply (Permutation_in _ (Permutation_sym (insert_spec_perm x r))) in Hz as [<-|Hz]; auto.
        rewrite Forall_forall in F. auto.
    + assert (XY : path_lt x y).
      { destruct (ltb_total (SpecPath y) (SpecPath x)) as [E|E]; auto. exfalso. apply N; auto. }
      constructor; [constructor; auto|]. constructor; auto.
      eapply Forall_impl; [|exact F]. intros z Hz. eapply ltb_trans; eauto.
Qed.
Lemma sort_specs_sorted l : NoDup (map SpecPath l) -> StronglySorted path_lt (sort_specs l).
Proof.
  induction l as [|x r IH]; simpl; intros ND; [constructor|]. inversion ND; subst.
  apply insert_spec_sorted; auto. intros I. apply H1.
  eapply Permutation_in; [|exact I]. apply Permutation_map, Permutation_sym, sort_specs_perm.
Qed.
Lemma sorted_unique l : forall l', StronglySorted path_lt l -> StronglySorted path_lt l' ->
  Permutation l l' -> l = l'.
Proof.
  induction l as [|x r IH]; intros l' S S' P.
  - apply Permutation_nil in P. auto.
  - destruct l' as [|y r']; [apply Permutation_sym, Permutation_nil in P; discriminate|].
    inversion S; inversion S'; subst.
    assert (E : x = y).
    { assert (Ix : In x (y :: r')) by (eapply Permutation_in; eauto; left; auto).
      assert (Iy : In y (x :: r)) by (eapply Permutation_in; [apply Permutation_sym; eauto|left; auto]).
      destruct Ix as [->|Ix]; auto. destruct Iy as [->|Iy]; auto.
      rewrite Forall_forall in *. specialize (H2 _ Iy). specialize (H6 _ Ix).
      assert (B : str_lt (SpecPath x) (SpecPath x)) by (eapply ltb_trans; eauto).
      unfold str_lt in B. rewrite ltb_irrefl in B. discriminate. }
    subst y. f_equal. apply IH; auto. eapply Permutation_cons_inv; eauto.
Qed.
Lemma map_spec_path m : map SpecPath (map spec_of_entry m) = keys m.
Proof. unfold keys. rewrite map_map. apply map_ext. intros [k d]; auto. Qed.

Lemma ImportSpecs_any_order i order : Inv i -> Permutation order (importsByPath i) ->
  ImportSpecs_in_order order = ImportSpecs i.
Proof.
  intros I P. unfold ImportSpecs, ImportSpecs_in_order.
  assert (P2 : Permutation (map spec_of_entry order) (map spec_of_entry (importsByPath i)))
    by (apply Permutation_map; auto).
  assert (ND : NoDup (map SpecPath (map spec_of_entry (importsByPath i)))).
  { rewrite map_spec_path. apply inv_nodup_paths; auto. }
  apply sorted_unique.
  - apply sort_specs_sorted. eapply Permutation_NoDup; [|exact ND].
    apply Permutation_map, Permutation_sym; auto.
  - apply sort_specs_sorted; auto.
  - eapply perm_trans; [apply Permutation_sym, sort_specs_perm|].
    eapply perm_trans; [exact P2|apply sort_specs_perm].
Qed.
Lemma ImportSpecs_sorted i : Inv i -> StronglySorted path_lt (ImportSpecs i).
Proof.
  intros I. apply sort_specs_sorted. rewrite map_spec_path. apply inv_nodup_paths; auto.
Qed.
Lemma In_ImportSpecs i s : In s (ImportSpecs i) <-> In s (map spec_of_entry (importsByPath i)).
Proof.
  unfold ImportSpecs, ImportSpecs_in_order. split; intros H.
  - eapply Permutation_in; [apply Permutation_sym, sort_specs_perm|exact H].
  - eapply Permutation_in; [apply sort_specs_perm|exact H].
Qed.
Lemma In_listed i path : In path (listed i) <-> lookup path (importsByPath i) <> None.
Proof.
  unfold listed. rewrite in_map_iff. split.
  - intros (s & <- & H). rewrite In_ImportSpecs, in_map_iff in H. destruct H as ([k d] & <- & H).
    simpl. intros L. apply lookup_None in L. apply L. apply in_map_iff. exists (k, d); auto.
  - intros H. destruct (lookup path (importsByPath i)) as [d|] eqn:L; [|congruence].
    apply lookup_In in L. exists (spec_of_entry (path, d)). split; auto.
    apply In_ImportSpecs. apply in_map; auto.
Qed.
Lemma listed_prefix i path : Inv i ->
  (In path (listed i) <-> path <> pkgPath i /\ exists p, PrefixForPackage path i = (Ok p, i)).
Proof.
  intros I. rewrite In_listed. split.
  - intros H. split.
    + intros ->. apply H, inv_own; auto.
    + destruct (lookup path (importsByPath i)) as [d|] eqn:L; [|congruence].
      assert (P : prefix_name i path = Some (packageName d)).
      { unfold prefix_name. destruct (String.eqb_spec path (pkgPath i)) as [->|].
        - rewrite inv_own in L by auto. discriminate. - rewrite L; auto. }
      exists (with_dot (packageName d)). apply prefix_known; auto.
  - intros (N & p & E). assert (E' : fst (PrefixForPackage path i) = Ok p) by (rewrite E; auto).
    apply PrefixForPackage_iff in E' as (n & P & _); auto. unfold prefix_name in P.
    destruct (String.eqb_spec path (pkgPath i)); [congruence|].
    destruct (lookup path (importsByPath i)); [discriminate|discriminate P].
Qed.

Lemma known_listed i s : Inv i -> (known i s <->
  (has_package s = true -> sym_path s = pkgPath i \/ In (sym_path s) (listed i))).
Proof.
  intros I. unfold known. split; intros H HP; specialize (H HP).
  - unfold prefix_name in H. destruct (String.eqb_spec (sym_path s) (pkgPath i)); auto.
    right. apply In_listed. destruct (lookup (sym_path s) (importsByPath i)); [congruence|]. exfalso; apply H; auto.
  - unfold prefix_name. destruct (String.eqb_spec (sym_path s) (pkgPath i)); [discriminate|].
    destruct H as [H|H]; [congruence|]. apply In_listed in H.
    destruct (lookup (sym_path s) (importsByPath i)); [discriminate|congruence].
Qed.

(** ** Lookup-only operations *)
Section LookupOnly.
Context {A : Type}.
Variables (f : bool -> A -> IM (A * bool)) (syms : A -> list Symbol) (mp : (Symbol -> Symbol) -> A -> A).

Lemma lookup_only ok a i : good f syms mp ok a -> ok = true -> Inv i ->
  snd (f false a i) = i /\
  (is_ok (fst (f false a i)) = true <->
     forall path, mentions (syms a) path -> path = pkgPath i \/ In path (listed i)) /\
  (is_ok (fst (f false a i)) = true -> f true a i = f false a i).
Proof.
  intros G OK I. split; [apply (g_look _ _ _ _ _ G)|].
  assert (KM : all_known syms i a <->
    forall path, mentions (syms a) path -> path = pkgPath i \/ In path (listed i)).
  { split.
    - intros K path (s & Hs & HP & <-). apply known_listed; auto.
    - intros H s Hs. apply known_listed; auto. intros HP. apply H. exists s; auto. }
  rewrite <- KM. destruct (all_known_dec syms i a) as [K|K].
  - destruct (g_known _ _ _ _ _ G OK false i I K) as (c & E & C).
    destruct (g_known _ _ _ _ _ G OK true i I K) as (c' & E' & C').
    rewrite E, E'. simpl. split; [tauto|]. intros _. do 3 f_equal.
    destruct c, c'; simpl in *; congruence.
  - destruct (g_unknown _ _ _ _ _ G i I K) as (m & E). rewrite E. simpl. split; [|discriminate].
    split; [discriminate|tauto].
Qed.

(** ** Registration *)
Lemma registers_exactly ok a i : good f syms mp ok a -> ok = true -> Inv i ->
  exists r i', f true a i = (Ok r, i') /\
    (forall path, In path (listed i') <->
       In path (listed i) \/ (path <> pkgPath i /\ mentions (syms a) path)) /\
    (forall path p, fst (PrefixForPackage path i) = Ok p -> fst (PrefixForPackage path i') = Ok p).
Proof.
  intros G OK I. destruct (g_reg _ _ _ _ _ G OK i I) as (c & i' & E & C & K & P).
  destruct (g_keep _ _ _ _ _ G true i I) as [I' X]. rewrite E in I', X. simpl in I', X.
  do 2 eexists. split; [exact E|]. split.
  - intros path. rewrite !In_listed, P. unfold mentions. firstorder.
  - intros path p H. apply PrefixForPackage_iff in H as (n & H & ->); auto.
    apply PrefixForPackage_iff; auto. exists n; split; auto. eapply prefix_name_ext; eauto.
Qed.

(** ** The result *)
Lemma prefixes_right i s n : prefix_name i (sym_path s) = Some n -> has_package s = true ->
  Symbol_String (rename i s) = (with_dot n ++ SymName s)%string.
Proof.
  intros P H. unfold rename. rewrite H, P. unfold Symbol_String, with_dot. simpl.
  destruct (String.eqb n ""); simpl; auto. rewrite append_assoc. auto.
Qed.

Lemma result_right ok a i : good f syms mp ok a -> ok = true -> Inv i ->
  exists g c i', f true a i = (Ok (mp g a, c), i') /\ Inv i' /\ ext i i' /\
    (if c : bool then mp g a <> a else mp g a = a) /\
    (forall s, In s (syms a) ->
       SymName (g s) = SymName s /\ sym_path (g s) = sym_path s /\
       if has_package s
       then exists p, PrefixForPackage (sym_path s) i' = (Ok p, i') /\
                      Symbol_String (g s) = (p ++ SymName s)%string
       else g s = s).
Proof.
  intros G OK I. destruct (g_reg _ _ _ _ _ G OK i I) as (c & i' & E & C & K & P).
  destruct (g_keep _ _ _ _ _ G true i I) as [I' X]. rewrite E in I', X. simpl in I', X.
  exists (rename i'), c, i'. split; [exact E|]. split; auto. split; auto. split; auto.
  intros s Hs. rewrite rename_name, rename_path. split; auto. split; auto.
  destruct (has_package s) eqn:HP.
  - specialize (K s Hs HP). destruct (prefix_name i' (sym_path s)) as [n|] eqn:Pn; [|congruence].
    exists (with_dot n). split; [apply prefix_known; auto|]. apply prefixes_right; auto.
  - unfold rename. rewrite HP. auto.
Qed.

Lemma idempotent ok a i r i' h : good f syms mp ok a -> ok = true ->
  (forall g, good f syms mp true (mp g a)) -> Inv i ->
  f true a i = (Ok r, i') -> let j := run h i' in
  f true (fst r) j = (Ok (fst r, false), j) /\ f false (fst r) j = (Ok (fst r, false), j).
Proof.
  intros G OK GM I E j. destruct (g_reg _ _ _ _ _ G OK i I) as (c & i1 & E1 & C & K & P).
  rewrite E in E1. injection E1 as -> <-. simpl.
  destruct (g_keep _ _ _ _ _ G true i I) as [I' X]. rewrite E in I', X. simpl in I', X.
  destruct (run_keep h _ I') as [Ij Xj]. fold j in Ij, Xj.
  pose proof (GM (rename i')) as G2.
  assert (ID : forall s, In s (syms (mp (rename i') a)) -> known j s /\ rename j s = s).
  { intros s. rewrite (g_syms _ _ _ _ _ G), in_map_iff. intros (x & <- & Hx).
    split; [apply known_rename | apply rename_idem]; auto. }
  assert (M : mp (rename j) (mp (rename i') a) = mp (rename i') a).
  { apply (g_id _ _ _ _ _ G2). intros s Hs. apply ID; auto. }
  assert (Kj : all_known syms j (mp (rename i') a)) by (intros s Hs; apply ID; auto).
  split.
  - destruct (g_known _ _ _ _ _ G2 eq_refl true j Ij Kj) as (c2 & E2 & C2).
    rewrite E2, M in *. destruct c2; auto. exfalso; apply C2; auto.
  - destruct (g_known _ _ _ _ _ G2 eq_refl false j Ij Kj) as (c2 & E2 & C2).
    rewrite E2, M in *. destruct c2; auto. exfalso; apply C2; auto.
Qed.
End LookupOnly.

(** ** Histories as sequences of registrations *)
Definition reg_pair (i : Imports) (r : string * string) : Imports :=
  snd (RegisterImport (fst r) (snd r) i).
Lemma fold_sym_requests l : forall i,
  fold_left reg_sym l i = fold_left reg_pair (sym_requests l) i.
Proof.
  induction l as [|s r IH]; intros i; auto. unfold sym_requests. simpl. unfold reg_sym at 2.
  rewrite IH. destruct (has_package s); auto.
Qed.
Lemma exec_requests c i : call_ok c = true -> Inv i -> exec c i = fold_left reg_pair (requests c) i.
Proof.
  intros OK I. destruct c; simpl in *; auto.
  - apply PrefixForPackage_state.
  - pose proof (g_fold _ _ _ _ _ (good_symbol s) eq_refl i I) as F. simpl in F.
    rewrite <- (fold_sym_requests [s]). simpl. rewrite <- F. unfold EnsureImported, sbind, sret.
    destruct (qualify s true i) as [[n|m] i']; auto.
  - apply qualify_look.
  - rewrite <- fold_sym_requests. apply (g_fold _ _ _ _ _ (good_type t)); auto.
  - apply (g_look _ _ _ _ _ (good_type t)).
  - rewrite <- fold_sym_requests. apply (g_fold _ _ _ _ _ (good_signature s)); auto.
  - apply (g_look _ _ _ _ _ (good_signature s)).
Qed.
Lemma run_requests h : forall i, forallb call_ok h = true -> Inv i ->
  run h i = fold_left reg_pair (flat_map requests h) i.
Proof.
  induction h as [|c h IH]; intros i OK I; auto. simpl in OK. apply andb_true_iff in OK as [Oc Oh].
  simpl. rewrite fold_left_app, <- exec_requests by auto.
  apply IH; auto. apply exec_keep; auto.
Qed.
Lemma fold_reg_keep l : forall i, Inv i -> Inv (fold_left reg_pair l i) /\ ext i (fold_left reg_pair l i).
Proof.
  induction l as [|r l IH]; simpl; intros i I; [split; auto; apply ext_refl|].
  destruct (prefix_reg i (fst r) (snd r) I) as (n & i' & E & I' & X & _).
  unfold reg_pair at 2 4, RegisterImport. rewrite E. simpl.
  destruct (IH _ I') as [I2 X2]. split; auto. eapply ext_trans; eauto.
Qed.
Lemma first_request_entry path name l : forall i, Inv i -> path <> pkgPath i ->
  lookup path (importsByPath i) = None -> first_request path l = Some name ->
  exists d, lookup path (importsByPath (fold_left reg_pair l i)) = Some d /\
            isAlias d = negb (String.eqb (packageName d) name).
Proof.
  induction l as [|[p n] l IH]; simpl; intros i I N L F; [discriminate|].
  unfold reg_pair at 2, RegisterImport. simpl.
  destruct (String.eqb_spec p path) as [->|NE].
  - injection F as ->.
    assert (P : prefix_name i path = None).
    { unfold prefix_name. destruct (String.eqb_spec path (pkgPath i)); [congruence|]. rewrite L; auto. }
    destruct (prefix_new i path name I P) as (k & i' & E & _ & _ & -> & I' & X).
    rewrite E. cbn [snd]. destruct (fold_reg_keep l _ I') as [_ [_ X2]].
    eexists. split; [apply X2; cbn [importsByPath]; apply lookup_insert_same|]. reflexivity.
  - destruct (prefix_reg i p n I) as (k & i' & E & I' & X & P & Q). rewrite E. simpl.
    apply IH; auto.
    + destruct X as [-> _]; auto.
    + destruct (lookup path (importsByPath i')) eqn:L'; auto. exfalso.
      assert (H : lookup path (importsByPath i') <> None) by congruence.
      apply Q in H as [H|[H _]]; congruence.
Qed.
Lemma first_request_listed path l : forall i, Inv i ->
  lookup path (importsByPath i) = None -> lookup path (importsByPath (fold_left reg_pair l i)) <> None ->
  exists name, first_request path l = Some name /\ In (path, name) l.
Proof.
  induction l as [|[p n] l IH]; simpl; intros i I L F; [congruence|].
  destruct (String.eqb_spec p path) as [->|NE]; [exists n; auto|].
  unfold reg_pair at 2, RegisterImport in F. simpl in F.
  destruct (prefix_reg i p n I) as (k & i' & E & I' & X & P & Q). rewrite E in F. simpl in F.
  destruct (IH i') as (name & F1 & F2); eauto.
  destruct (lookup path (importsByPath i')) eqn:L'; auto. exfalso.
  assert (H : lookup path (importsByPath i') <> None) by congruence.
  apply Q in H as [H|[H _]]; congruence.
Qed.

Lemma alias_flag own h path name :
  forallb call_ok h = true -> path <> own ->
  first_request path (flat_map requests h) = Some name ->
  let i := run h (NewImportsFor own) in
  exists n, n <> "" /\ PrefixForPackage path i = (Ok (n ++ ".")%string, i) /\
    In (mkImportSpec (if String.eqb n name then "" else n) path) (ImportSpecs i).
Proof.
  intros OK N F i.
  assert (I : Inv i) by apply run_new_Inv. assert (O : pkgPath i = own) by apply run_new_own.
  unfold i in *. rewrite (run_requests h _ OK (Inv_new own)) in *.
  destruct (first_request_entry path name _ (NewImportsFor own) (Inv_new own) N eq_refl F) as (d & L & A).
  exists (packageName d). split; [eapply inv_name; eauto|]. split.
  - unfold PrefixForPackage.
    rewrite (prefix_known _ _ _ _ (packageName d) I).
    + unfold with_dot. destruct (String.eqb_spec (packageName d) ""); auto.
      exfalso. eapply inv_name; eauto.
    + unfold prefix_name. rewrite O. destruct (String.eqb_spec path own); [congruence|].
      rewrite L; auto.
  - apply In_ImportSpecs, in_map_iff. exists (path, d). split; [|apply lookup_In; auto].
    unfold spec_of_entry. simpl. rewrite A. destruct (String.eqb (packageName d) name); auto.
Qed.
Lemma listed_requested own h path :
  forallb call_ok h = true -> In path (listed (run h (NewImportsFor own))) ->
  exists name, first_request path (flat_map requests h) = Some name.
Proof.
  intros OK H. rewrite In_listed, (run_requests h _ OK (Inv_new own)) in H.
  destruct (first_request_listed path _ (NewImportsFor own) (Inv_new own) eq_refl H) as (n & E & _).
  eauto.
Qed.

(** ** The least free candidate *)
Lemma cand_candidate base k : cand base k = candidate base k.
Proof. unfold cand, candidate. destruct k; auto. Qed.
Lemma free_name_iff i name : Inv i -> name <> "" ->
  (free_name i name <-> lookup name (pathsByName i) = None).
Proof.
  intros I N. unfold free_name. split.
  - intros H. destruct (lookup name (pathsByName i)) as [path|] eqn:L; auto. exfalso.
    destruct (inv_bwd _ I _ _ L) as (d & Ld & <-). apply (H path).
    apply PrefixForPackage_iff; auto. exists (packageName d). split.
    + unfold prefix_name. destruct (String.eqb_spec path (pkgPath i)) as [->|].
      * rewrite inv_own in Ld by auto. discriminate.
      * rewrite Ld; auto.
    + unfold with_dot. destruct (String.eqb_spec (packageName d) ""); congruence.
  - intros L path H. apply PrefixForPackage_iff in H as (n & P & E); auto.
    assert (n = name).
    { unfold with_dot in E. destruct (String.eqb_spec n "").
      - destruct name; discriminate.
      - apply append_inj_r in E. auto. }
    subst n. unfold prefix_name in P. destruct (String.eqb path (pkgPath i)); [congruence|].
    destruct (lookup path (importsByPath i)) eqn:Lp; simpl in P; [|discriminate].
    injection P as P. pose proof (inv_fwd _ I _ _ Lp). congruence.
Qed.

Lemma least_free own h path name :
  let i := run h (NewImportsFor own) in
  path <> own -> ~ In path (listed i) ->
  let base := if String.eqb name "" then path_Base path else name in
  exists k i', RegisterImport path name i = (Ok (candidate base k ++ ".")%string, i') /\
    free_name i (candidate base k) /\
    (forall j, (j < k)%N -> ~ free_name i (candidate base j)) /\
    (forall q, In q (listed i') <-> In q (listed i) \/ q = path) /\
    (forall q p, fst (PrefixForPackage q i) = Ok p -> fst (PrefixForPackage q i') = Ok p).
Proof.
  intros i N NL base. assert (I : Inv i) by apply run_new_Inv.
  assert (O : pkgPath i = own) by apply run_new_own.
  assert (P : prefix_name i path = None).
  { unfold prefix_name. rewrite O. destruct (String.eqb_spec path own); [congruence|].
    rewrite In_listed in NL. destruct (lookup path (importsByPath i)); auto. exfalso; apply NL; discriminate. }
  destruct (prefix_new i path name I P) as (k & i' & E & F & M & -> & I' & X).
  change (base_name path name) with base in *.
  assert (NB : base <> "") by apply base_name_nonempty.
  exists k. eexists. rewrite <- !cand_candidate. split; [exact E|]. split; [|split; [|split]].
  - apply free_name_iff; auto. apply cand_nonempty; auto.
  - intros j Hj. rewrite <- cand_candidate, free_name_iff; auto. apply cand_nonempty; auto.
  - intros q. rewrite !In_listed. cbn [importsByPath]. destruct (String.eqb_spec q path) as [->|NQ].
    + rewrite lookup_insert_same. split; auto. discriminate.
    + rewrite lookup_insert_other by auto. tauto.
  - intros q p H. apply PrefixForPackage_iff in H as (n & H & ->); auto.
    apply PrefixForPackage_iff; auto. exists n; split; auto. eapply prefix_name_ext; eauto.
Qed.

(** ** Resolution of qualifiers through the import list *)
Lemma resolve_prefix real own h path :
  forallb call_ok h = true -> (forall c, In c h -> honest real c) ->
  let i := run h (NewImportsFor own) in
  In path (listed i) ->
  exists n, PrefixForPackage path i = (Ok (n ++ ".")%string, i) /\ n <> "" /\
    forall q, resolves real (ImportSpecs i) n q <-> q = path.
Proof.
  intros OK HON i L.
  assert (I : Inv i) by apply run_new_Inv. assert (O : pkgPath i = own) by apply run_new_own.
  assert (NOWN : forall q, In q (listed i) -> q <> own).
  { intros q Hq. apply listed_prefix in Hq as [Hq _]; auto. congruence. }
  assert (ALL : forall q, In q (listed i) -> exists n, n <> "" /\
            PrefixForPackage q i = (Ok (n ++ ".")%string, i) /\
            exists s, In s (ImportSpecs i) /\ SpecPath s = q /\ effective_name real s = n).
  { intros q Hq. destruct (listed_requested own h q OK Hq) as (nm & F).
    destruct (alias_flag own h q nm OK (NOWN q Hq) F) as (n & Nn & P & S). fold i in P, S.
    exists n. split; auto. split; auto. eexists. split; [exact S|]. split; auto.
    unfold effective_name. simpl. destruct (String.eqb_spec n nm) as [->|NE].
    - simpl. assert (HI : In (q, nm) (flat_map requests h)).
      { clear -F. induction (flat_map requests h) as [|[p x] r IH]; simpl in *; [discriminate|].
        destruct (String.eqb_spec p q) as [->|]; [injection F as ->; auto|auto]. }
      apply in_flat_map in HI as (c & Hc & Hr). destruct (HON c Hc _ _ Hr); congruence.
    - destruct (String.eqb_spec n ""); congruence. }
  assert (UNIQ : forall s s', In s (ImportSpecs i) -> In s' (ImportSpecs i) -> SpecPath s = SpecPath s' -> s = s').
  { intros s s' H H' E. rewrite In_ImportSpecs, in_map_iff in H, H'.
    destruct H as ([k d] & <- & H), H' as ([k' d'] & <- & H'). simpl in E. subst k'.
    apply In_lookup in H; [|apply inv_nodup_paths; auto].
    apply In_lookup in H'; [|apply inv_nodup_paths; auto]. congruence. }
  destruct (ALL path L) as (n & Nn & P & s & Hs & Ps & Es).
  exists n. split; auto. split; auto. intros q. split.
  - intros (s' & Hs' & Es' & Ps'). 
    assert (Lq : In q (listed i)) by (unfold listed; rewrite <- Ps'; apply in_map; auto).
    destruct (ALL q Lq) as (n' & Nn' & P' & s2 & Hs2 & Ps2 & Es2).
    assert (s2 = s') by (apply UNIQ; congruence). subst s2.
    assert (n' = n) by congruence. subst n'.
    refine (unique_prefix own h q path (n ++ ".")%string _ _).
    + change (fst (PrefixForPackage q i) = Ok (n ++ ".")%string). rewrite P'. cbn [fst]. congruence.
    + change (fst (PrefixForPackage path i) = Ok (n ++ ".")%string). rewrite P. auto.
  - intros ->. exists s. auto.
Qed.

(** ** Legality of aliases *)
Fixpoint all_digits (s : string) : bool :=
  match s with EmptyString => true | String c r => is_digit_byte c && all_digits r end.
Lemma dec_digits n : all_digits (dec n) = true.
Proof.
  unfold dec. assert (H : forall u, all_digits (DecimalString.NilEmpty.string_of_uint u) = true).
  { induction u; simpl; auto. }
  destruct (N.to_uint n); simpl; auto; apply H.
Qed.
Lemma all_ident_app a b : all_ident_bytes (a ++ b) = all_ident_bytes a && all_ident_bytes b.
Proof. induction a; simpl; auto. rewrite IHa, andb_assoc; auto. Qed.
Lemma digits_ident s : all_digits s = true -> all_ident_bytes s = true.
Proof.
  induction s; simpl; auto. rewrite !andb_true_iff. intros [H1 H2]. rewrite H1, orb_true_r. auto.
Qed.
Lemma last_byte_app a b : b <> "" -> last_byte (a ++ b) = last_byte b.
Proof.
  intros N. induction a as [|c a IH]; simpl; auto. rewrite IH.
  destruct (a ++ b)%string eqn:E; auto. destruct a, b; simpl in E; congruence.
Qed.
Lemma last_digit s : s <> "" -> all_digits s = true -> exists c, last_byte s = Some c /\ is_digit_byte c = true.
Proof.
  induction s as [|c s IH]; [congruence|]. intros _. cbn [all_digits]. rewrite andb_true_iff.
  intros [H1 H2]. destruct s; [exists c; auto|]. apply IH; auto. discriminate.
Qed.
Lemma candidate_usable base k : usable_alias base = true -> usable_alias (candidate base k) = true.
Proof.
  intros H. rewrite <- cand_candidate. unfold cand. destruct (N.eqb_spec k 0); auto.
  unfold usable_alias in *. apply andb_true_iff in H as [H U]. apply andb_true_iff in H as [L K].
  destruct (last_digit _ (dec_nonempty k) (dec_digits k)) as (c & Lc & Dc).
  rewrite <- (last_byte_app base) in Lc by apply dec_nonempty.
  apply andb_true_iff. split; [apply andb_true_iff; split|].
  - destruct base as [|b base]; [discriminate|]. simpl in *. apply andb_true_iff in L as [L1 L2].
    rewrite L1, all_ident_app, L2. simpl. apply digits_ident, dec_digits.
  - apply negb_true_iff. apply not_true_iff_false. unfold is_keyword. rewrite existsb_exists.
    intros (x & Hx & E). apply String.eqb_eq in E. rewrite E in Lc.
    repeat (destruct Hx as [<-|Hx]; [injection Lc as <-; discriminate Dc|]). destruct Hx.
  - apply negb_true_iff, String.eqb_neq. intros E. rewrite E in Lc. injection Lc as <-. discriminate.
Qed.

Lemma alias_usable own h path name :
  let i := run h (NewImportsFor own) in
  path <> own -> ~ In path (listed i) ->
  usable_alias (if String.eqb name "" then path_Base path else name) = true ->
  exists n i', RegisterImport path name i = (Ok (n ++ ".")%string, i') /\ usable_alias n = true.
Proof.
  intros i N NL U. destruct (least_free own h path name N NL) as (k & i' & E & _).
  do 2 eexists. split; [exact E|]. apply candidate_usable; auto.
Qed.

(** ** Qualified types refer to the right packages *)
Lemma run_app h1 h2 i : run (h1 ++ h2) i = run h2 (run h1 i).
Proof. unfold run. apply fold_left_app. Qed.

Lemma type_refers real own h t :
  forallb call_ok h = true -> (forall c, In c h -> honest real c) ->
  wf t = true -> honest real (CEnsureTypeImported t) ->
  exists g c i', EnsureTypeImported t (run h (NewImportsFor own)) = (Ok (map_symbols g t, c), i') /\
    forall h', forallb call_ok h' = true -> (forall c, In c h' -> honest real c) ->
    forall s, In s (symbols_of t) ->
      SymName (g s) = SymName s /\
      (has_package s = true ->
         refers real own (ImportSpecs (run h' i')) (PkgName (SymPackage (g s))) (sym_path s)) /\
      (has_package s = false -> g s = s).
Proof.
  intros OK HON W HT. set (i := run h (NewImportsFor own)).
  assert (I : Inv i) by apply run_new_Inv.
  destruct (g_reg _ _ _ _ _ (good_type t) W i I) as (c & i' & E & C & K & P).
  destruct (g_keep _ _ _ _ _ (good_type t) true i I) as [I' X]. rewrite E in I', X. simpl in I', X.
  exists (rename i'), c, i'. split; [exact E|]. intros h' OK' HON' s Hs. split; [apply rename_name|].
  split; [|intros HP; unfold rename; rewrite HP; auto].
  intros HP. destruct (run_keep h' _ I') as [Ij Xj]. set (j := run h' i') in *.
  assert (EJ : j = run (h ++ CEnsureTypeImported t :: h') (NewImportsFor own)).
  { rewrite run_app. simpl. fold i. unfold EnsureTypeImported. rewrite E. auto. }
  rewrite <- (rename_ext _ _ _ Xj (K s Hs)).
  pose proof (known_ext _ _ _ Xj (K s Hs) HP) as Kj.
  unfold rename. rewrite HP.
  destruct (prefix_name j (sym_path s)) as [n|] eqn:Pn; [|congruence]. cbn [SymPackage PkgName].
  unfold refers. destruct (String.eqb_spec n "") as [->|Nn].
  - apply prefix_name_nonempty in Pn; auto. rewrite Pn, EJ. apply run_new_own.
  - assert (L : In (sym_path s) (listed j)).
    { apply In_listed. unfold prefix_name in Pn.
      destruct (String.eqb (sym_path s) (pkgPath j)); [congruence|].
      destruct (lookup (sym_path s) (importsByPath j)); [discriminate|discriminate Pn]. }
    rewrite EJ in L.
    destruct (resolve_prefix real own (h ++ CEnsureTypeImported t :: h') (sym_path s)) as (m & Pm & Nm & R); auto.
    + rewrite forallb_app. simpl. rewrite OK, W, OK'. auto.
    + intros x Hx. apply in_app_or in Hx as [Hx|[<-|Hx]]; auto.
    + rewrite <- EJ in *. unfold PrefixForPackage in Pm. rewrite (prefix_known _ _ _ _ _ Ij Pn) in Pm.
      injection Pm as Pm. unfold with_dot in Pm. destruct (String.eqb_spec n ""); [congruence|].
      apply append_inj_r in Pm. subst m. exact R.
Qed.

Lemma requalify_partial real ownA hA ownB hB t tA c A' :
  forallb call_ok hB = true -> (forall c, In c hB -> honest real c) ->
  wf t = true ->
  EnsureTypeImported t (run hA (NewImportsFor ownA)) = (Ok (tA, c), A') ->
  (forall path, mentions (symbols_of t) path -> path <> ownA /\
     fst (PrefixForPackage path A') = Ok (real path ++ ".")%string) ->
  exists g c' B', EnsureTypeImported tA (run hB (NewImportsFor ownB)) = (Ok (map_symbols g t, c'), B') /\
    forall s, In s (symbols_of t) -> SymName (g s) = SymName s /\
      (has_package s = true ->
         refers real ownB (ImportSpecs B') (PkgName (SymPackage (g s))) (sym_path s)).
Proof.
  intros OK HON W EA HA. set (iA := run hA (NewImportsFor ownA)) in *.
  assert (IA : Inv iA) by apply run_new_Inv.
  destruct (g_reg _ _ _ _ _ (good_type t) W iA IA) as (cA & i' & E & C & K & P).
  destruct (g_keep _ _ _ _ _ (good_type t) true iA IA) as [I' X]. rewrite E in I', X. simpl in I', X.
  unfold EnsureTypeImported in EA. rewrite EA in E. injection E as -> -> ->.
  assert (SY : forall s, In s (symbols_of t) -> has_package s = true ->
             rename i' s = mkSymbol (mkPackage (sym_path s) (real (sym_path s))) (SymName s)).
  { intros s Hs HP. destruct (HA (sym_path s)) as [N1 N2]; [exists s; auto|].
    apply PrefixForPackage_iff in N2 as (n & Pn & En); auto.
    unfold rename. rewrite HP, Pn. do 2 f_equal. symmetry.
    unfold with_dot in En. destruct (String.eqb_spec n "") as [->|].
    - destruct (real (sym_path s)); discriminate.
    - apply append_inj_r in En. auto. }
  destruct (type_refers real ownB hB (map_symbols (rename i') t)) as (g & c' & B' & EB & R); auto.
  - rewrite wf_map; auto.
  - intros p n. simpl. unfold sym_requests. rewrite in_map_iff. intros (s & [= <- <-] & Hs).
    apply filter_In in Hs as [Hs HP]. rewrite (g_syms _ _ _ _ _ (good_type t)), in_map_iff in Hs.
    destruct Hs as (x & <- & Hx). right.
    assert (HPx : has_package x = true).
    { unfold rename in HP. destruct (has_package x) eqn:HX; auto. congruence. }
    rewrite SY by auto. auto.
  - exists (fun s => g (rename i' s)), c', B'. split.
    + rewrite EB. do 3 f_equal.
      clear. induction t as [ |k|s|e IH|e IH|e n IH|e k IHe IHk|e d IH|s IH|fs IH|ms es IH] using TypeName_ind';
        simpl; try congruence.
      * f_equal. destruct s as [a r v]. destruct IH as [HA HR]. simpl in *. rewrite !map_args_map.
        unfold PArgs in *. rewrite Forall_forall in HA, HR.
        f_equal; rewrite map_map; apply map_ext_in; intros x Hx; simpl; f_equal; auto.
      * f_equal. rewrite map_map. apply map_ext_in. intros [n t tag] Hx. simpl. f_equal.
        rewrite Forall_forall in IH. apply (IH _ Hx).
      * f_equal; [|rewrite map_map; auto]. rewrite map_map. apply map_ext_in. intros [n s] Hx. simpl. f_equal.
        rewrite Forall_forall in IH. specialize (IH _ Hx) as [HA HR]. destruct s as [a r v]. simpl in *.
        rewrite !map_args_map. unfold PArgs in *. rewrite Forall_forall in HA, HR.
        f_equal; rewrite map_map; apply map_ext_in; intros x Hxx; simpl; f_equal; auto.
    + intros s Hs. destruct (R [] eq_refl ltac:(intros ? []) (rename i' s)) as (R1 & R2 & R3).
      { rewrite (g_syms _ _ _ _ _ (good_type t)). apply in_map; auto. }
      split; [rewrite R1; apply rename_name|].
      intros HP. rewrite rename_path in R2. apply R2. rewrite SY by auto.
      unfold has_package. simpl. destruct (HA (sym_path s)) as [N1 N2]; [exists s; auto|].
      destruct (String.eqb_spec (real (sym_path s)) "") as [E0|]; auto. exfalso.
      rewrite E0 in N2. simpl in N2. apply PrefixForPackage_iff in N2 as (n & Pn & En); auto.
      unfold with_dot in En. destruct (String.eqb_spec n "") as [->|Nn]; [discriminate|].
      destruct n; [congruence|]. destruct n; discriminate.
Qed.

(** ** Packaged statements *)
Lemma self_import own h name :
  let i := run h (NewImportsFor own) in
  RegisterImport own name i = (Ok "", i) /\ PrefixForPackage own i = (Ok "", i) /\
  ~ In own (listed i) /\
  forall s, SymPackage s = mkPackage own name -> has_package s = true ->
    EnsureImported s i = (Ok (mkSymbol (mkPackage own "") (SymName s)), i).
Proof.
  intros i. assert (I : Inv i) by apply run_new_Inv. assert (O : pkgPath i = own) by apply run_new_own.
  assert (P : prefix_name i own = Some "").
  { unfold prefix_name. rewrite O, String.eqb_refl. auto. }
  split; [|split; [|split]].
  - apply (prefix_known _ _ _ _ "" I P).
  - apply (prefix_known _ _ _ _ "" I P).
  - rewrite In_listed. intros H. apply H. rewrite <- O. apply inv_own; auto.
  - intros s E HP. unfold EnsureImported.
    assert (SP : sym_path s = own) by (unfold sym_path; rewrite E; auto).
    rewrite qualify_known; auto.
    + unfold rename. rewrite HP, SP, P. auto.
    + intros _. rewrite SP, P. discriminate.
Qed.

Lemma qualify_sym_pair s i reg :
  qualify s reg i = match (do nt <- qualify s reg ;; sret (nt, negb (symbol_eqb nt s))) i with
                    | (Ok (n, _), i') => (Ok n, i')
                    | (Panic m, i') => (Panic m, i')
                    end.
Proof. unfold sbind, sret. destruct (qualify s reg i) as [[n|m] i']; auto. Qed.

Lemma lookup_only_all own h :
  let i := run h (NewImportsFor own) in
  (forall path,
     snd (PrefixForPackage path i) = i /\
     (is_ok (fst (PrefixForPackage path i)) = true <-> path = own \/ In path (listed i)) /\
     (is_ok (fst (PrefixForPackage path i)) = true ->
        forall name, RegisterImport path name i = PrefixForPackage path i)) /\
  (forall s,
     snd (Qualify s i) = i /\
     (is_ok (fst (Qualify s i)) = true <->
        forall path, mentions [s] path -> path = own \/ In path (listed i)) /\
     (is_ok (fst (Qualify s i)) = true -> EnsureImported s i = Qualify s i)) /\
  (forall t, wf t = true ->
     snd (QualifyType t i) = i /\
     (is_ok (fst (QualifyType t i)) = true <->
        forall path, mentions (symbols_of t) path -> path = own \/ In path (listed i)) /\
     (is_ok (fst (QualifyType t i)) = true -> EnsureTypeImported t i = QualifyType t i)) /\
  (forall s, wf_sig s = true ->
     snd (QualifySignature s i) = i /\
     (is_ok (fst (QualifySignature s i)) = true <->
        forall path, mentions (sig_symbols s) path -> path = own \/ In path (listed i)) /\
     (is_ok (fst (QualifySignature s i)) = true ->
        EnsureAllTypesImported s i = QualifySignature s i)).
Proof.
  intros i. assert (I : Inv i) by apply run_new_Inv. assert (O : pkgPath i = own) by apply run_new_own.
  split; [|split; [|split]].
  - intros path. split; [apply PrefixForPackage_state|].
    unfold PrefixForPackage, RegisterImport. destruct (prefix_name i path) as [n|] eqn:P.
    + rewrite (prefix_known _ _ _ _ _ I P). simpl. split.
      * split; auto. intros _. unfold prefix_name in P. rewrite O in P.
        destruct (String.eqb_spec path own); auto. right. apply In_listed.
        destruct (lookup path (importsByPath i)); [discriminate|discriminate P].
      * intros _ name. apply (prefix_known _ _ _ _ _ I P).
    + destruct (prefix_unknown_false _ _ "" P) as (m & E). rewrite E. simpl. split; [|discriminate].
      split; [discriminate|]. intros H. exfalso. unfold prefix_name in P. rewrite O in P.
      destruct (String.eqb_spec path own); [discriminate|].
      destruct H as [H|H]; [congruence|]. apply In_listed in H.
      destruct (lookup path (importsByPath i)); [discriminate P|congruence].
  - intros s. destruct (lookup_only _ _ _ true s i (good_symbol s) eq_refl I) as (H1 & H2 & H3).
    rewrite O in H2. unfold Qualify, EnsureImported. rewrite (qualify_sym_pair s i false), (qualify_sym_pair s i true).
    cbv beta in *. revert H1 H2 H3.
    destruct ((do nt <- qualify s false;; sret (nt, negb (symbol_eqb nt s))) i) as [[[n c]|m] i']; simpl.
    + intros H1 H2 H3. split; auto. split; auto. intros _. rewrite H3; auto.
    + intros H1 H2 H3. split; auto. split; auto. discriminate.
  - intros t W. pose proof (lookup_only _ _ _ (wf t) t i (good_type t) W I) as H. rewrite O in H. exact H.
  - intros s W. pose proof (lookup_only _ _ _ (wf_sig s) s i (good_signature s) W I) as H. rewrite O in H. exact H.
Qed.

Lemma import_specs own h :
  let i := run h (NewImportsFor own) in
  (forall order, Permutation order (importsByPath i) -> ImportSpecs_in_order order = ImportSpecs i) /\
  StronglySorted (fun a b => String.ltb (SpecPath a) (SpecPath b) = true) (ImportSpecs i) /\
  NoDup (listed i) /\
  (forall path, In path (listed i) <-> path <> own /\ exists p, PrefixForPackage path i = (Ok p, i)).
Proof.
  intros i. assert (I : Inv i) by apply run_new_Inv. assert (O : pkgPath i = own) by apply run_new_own.
  split; [|split; [|split]].
  - intros order P. apply ImportSpecs_any_order; auto.
  - apply ImportSpecs_sorted; auto.
  - unfold listed. eapply Permutation_NoDup; [apply Permutation_map, sort_specs_perm|].
    rewrite map_spec_path. apply inv_nodup_paths; auto.
  - intros path. rewrite <- O. apply listed_prefix; auto.
Qed.

Lemma ensure_imported own h s :
  let i := run h (NewImportsFor own) in
  exists s' i', EnsureImported s i = (Ok s', i') /\
    SymName s' = SymName s /\ sym_path s' = sym_path s /\
    if has_package s
    then exists p, PrefixForPackage (sym_path s) i' = (Ok p, i') /\
                   (sym_path s = own <-> p = "") /\
                   Symbol_String s' = (p ++ SymName s)%string
    else s' = s /\ i' = i.
Proof.
  intros i. assert (I : Inv i) by apply run_new_Inv. assert (O : pkgPath i = own) by apply run_new_own.
  destruct (has_package s) eqn:HP.
  - destruct (qualify_reg s i I) as (i' & E & I' & X & K & P).
    exists (rename i' s), i'. split; [exact E|]. rewrite rename_name, rename_path. split; auto. split; auto.
    specialize (K HP). destruct (prefix_name i' (sym_path s)) as [n|] eqn:Pn; [|congruence].
    exists (with_dot n). split; [apply prefix_known; auto|]. split; [|apply prefixes_right; auto].
    destruct X as [X _]. split.
    + intros E'. unfold prefix_name in Pn. rewrite X, O, E', String.eqb_refl in Pn. injection Pn as <-. auto.
    + unfold with_dot. destruct (String.eqb_spec n "") as [->|N].
      * intros _. apply prefix_name_nonempty in Pn; auto. congruence.
      * intros E'. destruct n; discriminate.
  - exists s, i. split; [|auto]. unfold EnsureImported. rewrite qualify_known; auto.
    + unfold rename. rewrite HP. auto.
    + intros H. congruence.
Qed.

Lemma type_preserved own h t : wf t = true ->
  let i := run h (NewImportsFor own) in
  exists g c i', EnsureTypeImported t i = (Ok (map_symbols g t, c), i') /\
    forall s, In s (symbols_of t) ->
      SymName (g s) = SymName s /\ sym_path (g s) = sym_path s /\
      if has_package s
      then exists p, PrefixForPackage (sym_path s) i' = (Ok p, i') /\
                     Symbol_String (g s) = (p ++ SymName s)%string
      else g s = s.
Proof.
  intros W i. destruct (result_right _ _ _ _ t i (good_type t) W (run_new_Inv own h))
    as (g & c & i' & E & _ & _ & _ & R).
  exists g, c, i'. auto.
Qed.
Lemma signature_preserved own h t : wf_sig t = true ->
  let i := run h (NewImportsFor own) in
  exists g c i', EnsureAllTypesImported t i = (Ok (map_sig (map_symbols g) t, c), i') /\
    forall s, In s (sig_symbols t) ->
      SymName (g s) = SymName s /\ sym_path (g s) = sym_path s /\
      if has_package s
      then exists p, PrefixForPackage (sym_path s) i' = (Ok p, i') /\
                     Symbol_String (g s) = (p ++ SymName s)%string
      else g s = s.
Proof.
  intros W i. destruct (result_right _ _ _ _ t i (good_signature t) W (run_new_Inv own h))
    as (g & c & i' & E & _ & _ & _ & R).
  exists g, c, i'. auto.
Qed.
Lemma type_registers own h t : wf t = true ->
  let i := run h (NewImportsFor own) in
  exists r i', EnsureTypeImported t i = (Ok r, i') /\
    (forall path, In path (listed i') <->
       In path (listed i) \/ (path <> own /\ mentions (symbols_of t) path)) /\
    (forall path p, fst (PrefixForPackage path i) = Ok p -> fst (PrefixForPackage path i') = Ok p).
Proof.
  intros W i. pose proof (registers_exactly _ _ _ _ t i (good_type t) W (run_new_Inv own h)) as H.
  assert (O : pkgPath i = own) by apply run_new_own. rewrite O in H. exact H.
Qed.
Lemma history_is_requests own h : forallb call_ok h = true ->
  run h (NewImportsFor own) =
  run (map (fun r => CRegisterImport (fst r) (snd r)) (flat_map requests h)) (NewImportsFor own).
Proof.
  intros OK. rewrite (run_requests h _ OK (Inv_new own)). unfold run.
  generalize (NewImportsFor own). induction (flat_map requests h) as [|r l IH]; intros i; simpl; auto.
Qed.
Lemma type_idempotent own h t t' c i' h' : wf t = true ->
  EnsureTypeImported t (run h (NewImportsFor own)) = (Ok (t', c), i') ->
  let j := run h' i' in
  EnsureTypeImported t' j = (Ok (t', false), j) /\ QualifyType t' j = (Ok (t', false), j).
Proof.
  intros W E. refine (idempotent _ _ _ _ t _ (t', c) i' h' (good_type t) W _ (run_new_Inv own h) E).
  intros g. rewrite <- W, <- (wf_map g t). apply good_type.
Qed.
Lemma type_new_iff own h t t' c i' : wf t = true ->
  EnsureTypeImported t (run h (NewImportsFor own)) = (Ok (t', c), i') ->
  (c = false <-> t' = t).
Proof.
  intros W E. destruct (result_right _ _ _ _ t _ (good_type t) W (run_new_Inv own h))
    as (g & c' & i2 & E' & _ & _ & C & _).
  unfold EnsureTypeImported in E. rewrite E in E'. injection E' as -> -> ->.
  destruct c'; split; congruence.
Qed.

Lemma alias_legal_refuted :
  ~ (forall own h path,
       let i := run h (NewImportsFor own) in
       path <> own -> ~ In path (listed i) ->
       exists n i', RegisterImport path "" i = (Ok (n ++ ".")%string, i') /\ usable_alias n = true).
Proof.
  intros H. destruct (H "x" [] "gopkg.in/yaml.v2") as (n & i' & E & U).
  - discriminate.
  - intros [].
  - vm_compute in E. injection E as E _. change "yaml.v2." with ("yaml.v2" ++ ".")%string in E.
    apply append_inj_r in E. subst n. discriminate U.
Qed.

Lemma requalify_refuted :
  ~ (forall real ownA hA ownB hB t tA c A',
       forallb call_ok hA = true -> (forall c, In c hA -> honest real c) ->
       forallb call_ok hB = true -> (forall c, In c hB -> honest real c) ->
       wf t = true -> honest real (CEnsureTypeImported t) ->
       EnsureTypeImported t (run hA (NewImportsFor ownA)) = (Ok (tA, c), A') ->
       exists g c' B',
         EnsureTypeImported tA (run hB (NewImportsFor ownB)) = (Ok (map_symbols g t, c'), B') /\
         forall s, In s (symbols_of t) -> SymName (g s) = SymName s /\
           (has_package s = true ->
              refers real ownB (ImportSpecs B') (PkgName (SymPackage (g s))) (sym_path s))).
Proof.
  intros H. set (s := mkSymbol (mkPackage "b/foo" "foo") "X").
  edestruct (H (fun _ => "foo") "m" [CRegisterImport "a/foo" "foo"] "n" [] (TNamed s))
    as (g & c' & B' & E & R).
  - reflexivity.
  - intros c [<-|[]] p n [[= <- <-]|[]]; auto.
  - reflexivity.
  - intros c [].
  - reflexivity.
  - intros p n [[= <- <-]|[]]; auto.
  - vm_compute. reflexivity.
  - vm_compute in E. injection E as Eg _ <-. destruct (R s (or_introl eq_refl)) as [_ R2].
    specialize (R2 eq_refl). fold s in Eg. unfold s in *. rewrite <- Eg in R2.
    unfold refers in R2. simpl in R2. destruct (proj2 (R2 "b/foo") eq_refl) as (sp & Hsp & En & _).
    vm_compute in Hsp. destruct Hsp as [<-|[]]. vm_compute in En. discriminate En.
Qed.
