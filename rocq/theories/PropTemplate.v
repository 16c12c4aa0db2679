(** Properties of qualified template data (C52-C57). *)
From Verif Require Import Base GoPath Types SpecTypes Imports SpecImports Conv World SpecWorld Write SpecWrite
  HeaderProofs PathProofs WriteProofs PlaceProofs Template SpecTemplate TemplateProofs TemplateRuns TemplateOrder TemplateTheorems TemplateTwice TemplateExact.

(** Keys of the examples. *)
Ltac differ := repeat split; auto; repeat constructor; intros EQ; inversion EQ.
(** The examples: nothing implements an interface with methods but gopoet's types and the
    data's own; specs are not in files, except where said. *)
Definition imp (_ : gty) (t : string) : bool := String.eqb t any || String.eqb t "gopoet.TypeName".
Definition no_parent (_ : spec) : res (option Package) := Ok None.
Definition ax := mkPackage "a/x" "x".
Definition bx := mkPackage "b/x" "x".
Definition list_of (l : list val) : val := VSlice "[]interface {}" (map data l).
(** struct { S Symbol; L []interface{}; P *Package; M map[string]Symbol } *)
Definition sample_as (a b : Package) : val :=
  VStruct "main.Data"
    [(true, VSymbol (mkSymbol a "A"));
     (true, list_of [VTypeName (TSlice (TNamed (mkSymbol b "T"))); VOther "int" 3; VSymbol (mkSymbol b "B")]);
     (true, VPtr (GName "gopoet.Package") (Some (VPackage b)));
     (true, VMap "map[string]gopoet.Symbol" [(VOther "string" 0, VSymbol (mkSymbol b "V")); (VOther "string" 1, VSymbol (mkSymbol a "W"))])].
Definition sample : val := sample_as ax bx.
Definition fresh := NewImportsFor "own".
Definition known_h := [CRegisterImport "a/x" "x"; CRegisterImport "b/x" "x"].
Definition known_i := run known_h fresh.
Definition bsym := mkSymbol bx "B".
Definition bsym1 := mkSymbol (mkPackage "b/x" "x1") "B".
Definition pointed : val := VPtr (GIface any) (Some (data (VSymbol bsym))).
Definition sample_keys (a b : val) : val :=
  VMap "map[string]gopoet.Package" [(VOther "string" 0, a); (VOther "string" 1, b)].

(** C52 *)
(** A struct with an unexported field, such as a time.Time, panics. *)
Theorem C52_refuted : exists d, typed imp (data d) /\ data_requests true no_parent (data d) = [] /\
  forall own h, fst (QualifyTemplateData imp true no_parent (Some d) (run h (NewImportsFor own))) = Panic p_unaddressable.
Proof. exists (VStruct "time.Time" [(false, VOther "uint64" 0)]). repeat split. Qed.
Print Assumptions C52_refuted.
(** What holds: data that reflect can read, all of whose references carry the names the file
    writes, comes back as it is and nothing is registered. *)
Theorem C52_unchanged_partial : forall implements unsafe parent_of own h d, let i := run h (NewImportsFor own) in
  typed implements (data d) -> readable unsafe parent_of true (data d) ->
  (forall p n, In (p, n) (data_requests unsafe parent_of (data d)) -> written_as i p n) ->
  QualifyTemplateData implements unsafe parent_of (Some d) i = (Ok (Some d), i).
Proof. exact unchanged_data. Qed.
Print Assumptions C52_unchanged_partial.
Theorem C52_nil : forall implements unsafe parent_of i, QualifyTemplateData implements unsafe parent_of None i = (Ok None, i).
Proof. exact nil_data. Qed.
Print Assumptions C52_nil.
Example C52_example :
  let d := VStruct "main.Data" [(true, VSymbol (mkSymbol ax "A")); (true, list_of [VSymbol bsym1; VOther "int" 3])] in
  typed imp (data d) /\ readable true no_parent true (data d) /\
  (forall p n, In (p, n) (data_requests true no_parent (data d)) -> written_as known_i p n) /\
  data_requests true no_parent (data d) = [("a/x", "x"); ("b/x", "x1")].
Proof.
  split; [cbn; intuition congruence|]. split; [cbn; intuition congruence|]. split; [|reflexivity].
  cbn [data_requests flat_map In]. intros p n H. cbn in H.
  destruct H as [H|[H|[]]]; injection H as <- <-; vm_compute; reflexivity.
Qed.

(** Exactly: the data comes back as it is when it can be walked and nothing in it is moved,
    [names] being those the file has once everything the data mentions is registered. *)
Theorem C52_exact : forall implements unsafe parent_of own h d, let i := run h (NewImportsFor own) in
  let names := name_in (run (registrations (data_requests unsafe parent_of (data d))) i) in
  typed implements (data d) ->
  (fst (QualifyTemplateData implements unsafe parent_of (Some d) i) = Ok (Some d) <->
   walkable implements unsafe parent_of names true (data d) /\ ~ moved implements unsafe parent_of names (data d)).
Proof. exact unchanged_exact. Qed.
Print Assumptions C52_exact.
(** struct { S Symbol; x int } behind a pointer *)
Definition mixed_of (p : Package) : val :=
  VPtr (GName "main.Mixed") (Some (VStruct "main.Mixed" [(true, VSymbol (mkSymbol p "S")); (false, VOther "int" 0)])).
Definition names_for (d : val) : string -> string :=
  name_in (run (registrations (data_requests true no_parent (data d))) known_i).
Example C52_exact_example : typed imp (data (mixed_of ax)) /\
  walkable imp true no_parent (names_for (mixed_of ax)) true (data (mixed_of ax)) /\
  ~ moved imp true no_parent (names_for (mixed_of ax)) (data (mixed_of ax)) /\
  moved imp true no_parent (names_for (mixed_of bx)) (data (mixed_of bx)).
Proof.
  assert (A : names_for (mixed_of ax) "a/x" = "x") by reflexivity.
  assert (B : names_for (mixed_of bx) "b/x" = "x1") by reflexivity.
  revert A B. generalize (names_for (mixed_of ax)) (names_for (mixed_of bx)). intros f g A B.
  assert (N : ~ moved imp true no_parent f (data (mixed_of ax))).
  { cbn. unfold sym_as, pkg_as. cbn. rewrite A. intuition congruence. }
  split; [cbn; repeat split; auto|]. split; [|split; [exact N|]].
  - cbn. split; [|intros M; destruct (N M)]. unfold replaceable. cbn. unfold sym_as, pkg_as. cbn. rewrite A. intuition congruence.
  - cbn. unfold sym_as, pkg_as. cbn. rewrite B. left. split; auto. discriminate.
Qed.

(** C53 *)
(** A pointer to an interface becomes a pointer to what the interface holds. *)
Theorem C53_shape_refuted : exists d d', typed imp (data d) /\ denotes d = None /\
  QualifyTemplateData imp true no_parent (Some d) known_i = (Ok (Some d'), known_i) /\ typeof d' <> typeof d.
Proof.
  exists pointed, (VPtr (GName "gopoet.Symbol") (Some (VSymbol bsym1))).
  split; [cbn; intuition|]. split; [reflexivity|]. split; [vm_compute; reflexivity|discriminate].
Qed.
Print Assumptions C53_shape_refuted.
(** What holds: the packages of the data are registered in the order of the walk, and in the
    result every reference carries the name under which its package is then known. *)
Theorem C53_renamed_partial : forall implements unsafe parent_of own h d r i', let i := run h (NewImportsFor own) in
  typed implements (data d) -> QualifyTemplateData implements unsafe parent_of (Some d) i = (Ok r, i') ->
  i' = run (registrations (data_requests unsafe parent_of (data d))) i /\
  exists c, renamed implements unsafe parent_of (name_in i') c (data d) (VIface any r).
Proof. exact renamed_data. Qed.
Print Assumptions C53_renamed_partial.
Theorem C53_registered : forall implements unsafe parent_of own h d r i' p n, let i := run h (NewImportsFor own) in
  typed implements (data d) -> QualifyTemplateData implements unsafe parent_of (Some d) i = (Ok r, i') ->
  In (p, n) (data_requests unsafe parent_of (data d)) -> written_as i' p (name_in i' p).
Proof. exact names_registered. Qed.
Print Assumptions C53_registered.
(** Without pointers to interfaces the result has the type of the data, unless the data itself
    is a go/types or reflect value. *)
Theorem C53_type_partial : forall implements unsafe parent_of own h d r i', let i := run h (NewImportsFor own) in
  typed implements (data d) -> QualifyTemplateData implements unsafe parent_of (Some d) i = (Ok r, i') ->
  plain_pointers d -> denotes d = None -> exists d', r = Some d' /\ typeof d' = typeof d.
Proof. exact type_kept. Qed.
Print Assumptions C53_type_partial.
Lemma sample_typed : typed imp (data sample).
Proof. cbn. differ. Qed.
Example C53_example :
  typed imp (data sample) /\ plain_pointers sample /\ denotes sample = None /\
  fst (QualifyTemplateData imp true no_parent (Some sample) fresh) = Ok (Some (sample_as ax (mkPackage "b/x" "x1"))) /\
  data_requests true no_parent (data sample) =
    [("a/x", "x"); ("b/x", "x"); ("b/x", "x"); ("b/x", "x"); ("b/x", "x"); ("a/x", "x")].
Proof. split; [exact sample_typed|]. repeat split; vm_compute; reflexivity. Qed.

(** Exactly which type the result has: pointers to interfaces in which something is renamed become
    pointers to what is in the interface, and go/types values become what they stand for. *)
Theorem C53_type_exact : forall implements unsafe parent_of own h d d' i', let i := run h (NewImportsFor own) in
  let names := name_in (run (registrations (data_requests unsafe parent_of (data d))) i) in
  typed implements (data d) -> QualifyTemplateData implements unsafe parent_of (Some d) i = (Ok (Some d'), i') ->
  (moved implements unsafe parent_of names (data d) -> typeof d' = moved_type names (data d)) /\
  (~ moved implements unsafe parent_of names (data d) -> d' = d).
Proof. exact type_exact. Qed.
Print Assumptions C53_type_exact.
Example C53_type_exact_example : typed imp (data pointed) /\ moved imp true no_parent (names_for pointed) (data pointed) /\
  typeof pointed = GPtr (GIface any) /\ moved_type (names_for pointed) (data pointed) = GPtr (GName "gopoet.Symbol").
Proof. split; [cbn; repeat split; auto|]. split; [intros H; vm_compute in H; discriminate H|]. split; reflexivity. Qed.

(** C54 *)
Theorem C54_refuted :
  let Q d := fst (QualifyTemplateData imp true no_parent (Some d) known_i) in
  let array := VArray "[1]gopoet.Symbol" [VSymbol bsym] in
  let hidden := VStruct "main.Hidden" [(false, VOther "int" 0)] in
  let mixed := VPtr (GName "main.Mixed") (Some (VStruct "main.Mixed" [(true, VSymbol bsym); (false, VOther "int" 0)])) in
  let pointers := VSlice "[]*interface {}" [pointed] in
  Forall (fun d => typed imp (data d)) [array; hidden; mixed; pointers] /\
  Q array = Panic p_slice /\ Q hidden = Panic p_unaddressable /\ Q mixed = Panic p_readonly /\ Q pointers = Panic p_assign.
Proof. cbv zeta. split; [repeat constructor|]. repeat split; vm_compute; reflexivity. Qed.
Print Assumptions C54_refuted.
(** What holds: data whose unexported fields are behind pointers, and whose references are in
    structs without unexported fields, in addressable arrays and not behind pointers to interfaces. *)
Theorem C54_no_panic_partial : forall implements unsafe parent_of own h d, let i := run h (NewImportsFor own) in
  typed implements (data d) -> readable unsafe parent_of true (data d) -> storable unsafe parent_of true (data d) ->
  exists r i', QualifyTemplateData implements unsafe parent_of (Some d) i = (Ok r, i').
Proof. exact no_panic. Qed.
Print Assumptions C54_no_panic_partial.
Example C54_example :
  let d := VStruct "main.All"
    [(true, sample);
     (true, VPtr (GName "[1]gopoet.Symbol") (Some (VArray "[1]gopoet.Symbol" [VSymbol bsym])));
     (true, VPtr (GName "main.Hidden") (Some (VStruct "main.Hidden" [(false, VOther "int" 0)])))] in
  typed imp (data d) /\ readable true no_parent true (data d) /\ storable true no_parent true (data d).
Proof.
  split; [cbn; differ|]. split; cbn; intuition (auto; try discriminate); try (right; repeat constructor).
Qed.

(** Exactly: *)
Theorem C54_exact : forall implements unsafe parent_of own h d, let i := run h (NewImportsFor own) in
  let names := name_in (run (registrations (data_requests unsafe parent_of (data d))) i) in
  typed implements (data d) ->
  (is_ok (fst (QualifyTemplateData implements unsafe parent_of (Some d) i)) = true <->
   walkable implements unsafe parent_of names true (data d)).
Proof. exact panics_exact. Qed.
Print Assumptions C54_exact.
(** [mixed_of ax] is walkable (C52_exact_example); [mixed_of bx] is not, for S is renamed. *)
Example C54_exact_example : typed imp (data (mixed_of bx)) /\
  ~ walkable imp true no_parent (names_for (mixed_of bx)) true (data (mixed_of bx)).
Proof.
  split; [cbn; repeat split; auto|]. assert (B : names_for (mixed_of bx) "b/x" = "x1") by reflexivity.
  revert B. generalize (names_for (mixed_of bx)). intros g B W. cbn in W. destruct W as [_ W].
  assert (F : Forall (fun f : bool * val => fst f = true) [(true, VSymbol (mkSymbol bx "S")); (false, VOther "int" 0)]).
  { apply W. unfold sym_as, pkg_as. cbn. rewrite B. left. split; auto. discriminate. }
  inversion F as [|? ? _ F2]. inversion F2. discriminate.
Qed.

(** C55 *)
(** The order of a map decides which package gets the alias. *)
Theorem C55_order_refuted : exists d w, typed imp (data d) /\ typed imp (data w) /\ shuffled d w /\
  keys_apart imp true no_parent (name_in (snd (QualifyTemplateData imp true no_parent (Some d) fresh))) (data d) /\
  fst (PrefixForPackage "a/x" (snd (QualifyTemplateData imp true no_parent (Some d) fresh))) = Ok "x." /\
  fst (PrefixForPackage "a/x" (snd (QualifyTemplateData imp true no_parent (Some w) fresh))) = Ok "x1.".
Proof.
  exists (VMap "map[string]gopoet.Package" [(VOther "string" 0, VPackage ax); (VOther "string" 1, VPackage bx)]),
         (VMap "map[string]gopoet.Package" [(VOther "string" 1, VPackage bx); (VOther "string" 0, VPackage ax)]).
  split; [cbn; differ|]. split; [cbn; differ|].
  split. { eapply sh_map; [apply Permutation.perm_swap|]. repeat constructor. }
  split; [|split; vm_compute; reflexivity].
  cbn [keys_apart data]. split; [|cbn; tauto]. intros c es' R.
  inversion R as [|? ? ? ? ? ? ? ? ? K _ _ _ R2]; subst. inversion R2 as [|? ? ? ? ? ? ? ? ? K2 _ _ _ R3]; subst. inversion R3; subst.
  inversion K; subst. inversion K2; subst. differ.
Qed.
Print Assumptions C55_order_refuted.
(** Two keys for one package become one: an entry is lost. *)
Theorem C55_lost_refuted : exists es es', typed imp (data (VMap "map[gopoet.Package]int" es)) /\
  fst (QualifyTemplateData imp true no_parent (Some (VMap "map[gopoet.Package]int" es)) fresh) =
    Ok (Some (VMap "map[gopoet.Package]int" es')) /\ length es' < length es.
Proof.
  exists [(VPackage ax, VOther "int" 0); (VPackage (mkPackage "a/x" "y"), VOther "int" 1)], [(VPackage ax, VOther "int" 1)].
  split; [cbn; differ|]. split; [vm_compute; reflexivity|repeat constructor].
Qed.
Print Assumptions C55_lost_refuted.
(** Which keys those are: Go's == decides, and a new entry takes the place of one with an equal key. *)
Theorem C55_keys : forall k v m, (forall k', same_key k k' = true <-> go_equal k k') /\ with_entry k v m (set_entry k v m).
Proof. intros k v m. exact (conj (same_key_spec k) (set_entry_spec k v m)). Qed.
Print Assumptions C55_keys.
Example C55_keys_example : go_equal (VIface "interface {}" (Some (VTypeName (TSlice (TBasic KInt))))) (VIface "interface {}" (Some (VTypeName (TSlice (TBasic KInt))))) /\
  ~ go_equal (VTypeName (TNamed (mkSymbol ax "T"))) (VTypeName (TNamed (mkSymbol ax "T"))).
Proof. split; [repeat constructor|]. intros E. inversion E. contradiction. Qed.
(** What holds: once the packages of the data are known, and if no two keys of a map become
    one, every order gives the same result up to the order of maps. *)
Theorem C55_order_partial : forall implements unsafe parent_of own h d w r i', let i := run h (NewImportsFor own) in
  typed implements (data d) -> keys_apart implements unsafe parent_of (name_in i) (data d) ->
  (forall p n, In (p, n) (data_requests unsafe parent_of (data d)) -> exists x, fst (PrefixForPackage p i) = Ok x) ->
  shuffled d w -> QualifyTemplateData implements unsafe parent_of (Some d) i = (Ok r, i') ->
  i' = i /\ exists d' w', r = Some d' /\ QualifyTemplateData implements unsafe parent_of (Some w) i = (Ok (Some w'), i) /\ shuffled d' w'.
Proof. exact any_order. Qed.
Print Assumptions C55_order_partial.
Example C55_example :
  let d := sample_keys (VPackage ax) (VPackage bx) in
  let w := VMap "map[string]gopoet.Package" [(VOther "string" 1, VPackage bx); (VOther "string" 0, VPackage ax)] in
  typed imp (data d) /\ keys_apart imp true no_parent (name_in known_i) (data d) /\
  (forall p n, In (p, n) (data_requests true no_parent (data d)) -> exists x, fst (PrefixForPackage p known_i) = Ok x) /\
  shuffled d w /\
  QualifyTemplateData imp true no_parent (Some d) known_i =
    (Ok (Some (sample_keys (VPackage ax) (VPackage (mkPackage "b/x" "x1")))), known_i).
Proof.
  split; [cbn; differ|]. split.
  { cbn [keys_apart data sample_keys]. split; [|cbn; tauto]. intros c es' R.
    inversion R as [|? ? ? ? ? ? ? ? ? K _ _ _ R2]; subst. inversion R2 as [|? ? ? ? ? ? ? ? ? K2 _ _ _ R3]; subst. inversion R3; subst.
    inversion K; subst. inversion K2; subst. differ. }
  split. { intros p n H. cbn in H. destruct H as [H|[H|[]]]; injection H as <- <-; eexists; vm_compute; reflexivity. }
  split; [|vm_compute; reflexivity]. eapply sh_map; [apply Permutation.perm_swap|]. repeat constructor.
Qed.

(** C56 *)
(** The package is imported, but the value stays what it was: printing it gives whatever
    go/types or reflect give, with the full import path or the package name. *)
Theorem C56_refuted :
  let Q d := fst (QualifyTemplateData imp true no_parent (Some d) fresh) in
  Forall (fun d => Q d = Ok (Some d))
    [VGoType (GTNamed (Some ax) "T"); VGoObject (GOOther (Some ax) "T"); VGoPackage (Some ax); VReflectType (RNamed KStruct "own" "T")].
Proof. repeat constructor. Qed.
Print Assumptions C56_refuted.
(** What holds: exactly the values with another name than the package's own are replaced, by
    the reference with that name; its packages are registered either way. *)
Theorem C56_replaced_partial : forall implements unsafe parent_of own h d x, let i := run h (NewImportsFor own) in
  denotes d = Some (Ok x) -> ref_wf x -> exists i',
  i' = run (registrations (ref_requests x)) i /\
  ((ref_as (name_in i') x = x /\ QualifyTemplateData implements unsafe parent_of (Some d) i = (Ok (Some d), i')) \/
   (ref_as (name_in i') x <> x /\
    QualifyTemplateData implements unsafe parent_of (Some d) i =
      (Ok (Some (if implements (typeof (shown (ref_as (name_in i') x))) any then shown (ref_as (name_in i') x) else d)), i'))).
Proof. exact external. Qed.
Print Assumptions C56_replaced_partial.
Example C56_example :
  denotes (VGoType (GTSlice (GTNamed (Some bx) "T"))) = Some (Ok (RefType (TSlice (TNamed (mkSymbol bx "T"))))) /\
  ref_wf (RefType (TSlice (TNamed (mkSymbol bx "T")))) /\
  QualifyTemplateData imp true no_parent (Some (VGoType (GTSlice (GTNamed (Some bx) "T")))) known_i =
    (Ok (Some (VTypeName (TSlice (TNamed (mkSymbol (mkPackage "b/x" "x1") "T"))))), known_i) /\
  fst (QualifyTemplateData imp true no_parent (Some (VReflectType (RNamed KStruct "a/x" "T"))) fresh) =
    Ok (Some (VTypeName (TNamed (mkSymbol ax "T")))).
Proof. repeat split; vm_compute; reflexivity. Qed.

(** C57 *)
(** A spec whose file's package has an alias is renamed again, and an import of the empty
    path is added. *)
Definition spec_ptr (renamed : option string) : val := VPtr (GName "gopoet.TypeSpec") (Some (VSpec (SType 0) renamed)).
Theorem C57_refuted : exists parent_of d r1 r2 i2, typed imp (data d) /\
  QualifyTemplateData imp true parent_of (Some d) known_i = (Ok r1, known_i) /\
  QualifyTemplateData imp true parent_of r1 known_i = (Ok r2, i2) /\ r2 <> r1 /\
  fst (PrefixForPackage "" i2) <> fst (PrefixForPackage "" known_i).
Proof.
  exists (fun _ => Ok (Some bx)), (spec_ptr None), (Some (spec_ptr (Some "x1"))), (Some (spec_ptr (Some "x11"))).
  eexists. split; [cbn; auto|]. split; [vm_compute; reflexivity|]. split; [vm_compute; reflexivity|].
  split; [discriminate|]. vm_compute. discriminate.
Qed.
Print Assumptions C57_refuted.
(** What holds: without renamed specs and pointers to interfaces a second pass, whatever was
    registered in between, changes neither the data nor the imports. *)
Theorem C57_twice_partial : forall implements unsafe parent_of own h d r i', let i := run h (NewImportsFor own) in
  typed implements (data d) -> QualifyTemplateData implements unsafe parent_of (Some d) i = (Ok r, i') ->
  forall h', let j := run h' i' in simple unsafe parent_of (name_in j) (data d) ->
  QualifyTemplateData implements unsafe parent_of r j = (Ok r, j).
Proof. exact twice. Qed.
Print Assumptions C57_twice_partial.
Example C57_example : typed imp (data sample) /\
  let i' := snd (QualifyTemplateData imp true no_parent (Some sample) fresh) in
  let j := run [CRegisterImport "c/x" "x"] i' in
  simple true no_parent (name_in j) (data sample) /\
  QualifyTemplateData imp true no_parent (Some (sample_as ax (mkPackage "b/x" "x1"))) j =
    (Ok (Some (sample_as ax (mkPackage "b/x" "x1"))), j).
Proof. split; [exact sample_typed|]. cbv zeta. split; [cbn; tauto|vm_compute; reflexivity]. Qed.
(** The condition is exact, for data without pointers to interfaces whose renamed map keys are
    different keys: a second pass changes nothing exactly if no spec of a package with an import
    path was renamed. *)
Theorem C57_exact : forall implements unsafe parent_of own h d r i', let i := run h (NewImportsFor own) in
  typed implements (data d) -> QualifyTemplateData implements unsafe parent_of (Some d) i = (Ok r, i') ->
  forall h', let j := run h' i' in
  plain_pointers (data d) -> keys_apart implements unsafe parent_of (name_in j) (data d) ->
  (QualifyTemplateData implements unsafe parent_of r j = (Ok r, j) <-> simple unsafe parent_of (name_in j) (data d)).
Proof. exact twice_exact. Qed.
Print Assumptions C57_exact.
(** A renamed spec of a package with import path, and one of a package without. *)
Example C57_exact_example :
  (let parent_of := fun _ : spec => Ok (Some bx) in
   typed imp (data (spec_ptr None)) /\ plain_pointers (data (spec_ptr None)) /\
   keys_apart imp true parent_of (name_in known_i) (data (spec_ptr None)) /\
   fst (QualifyTemplateData imp true parent_of (Some (spec_ptr None)) known_i) = Ok (Some (spec_ptr (Some "x1"))) /\
   ~ simple true parent_of (name_in (snd (QualifyTemplateData imp true parent_of (Some (spec_ptr None)) known_i))) (data (spec_ptr None))) /\
  (let parent_of := fun _ : spec => Ok (Some (mkPackage "" "x")) in
   fst (QualifyTemplateData imp true parent_of (Some (spec_ptr None)) known_i) = Ok (Some (spec_ptr (Some "x2"))) /\
   simple true parent_of (name_in (snd (QualifyTemplateData imp true parent_of (Some (spec_ptr None)) known_i))) (data (spec_ptr None))).
Proof.
  cbv zeta. split.
  - split; [cbn; auto|]. split; [cbn; auto|]. split; [cbn; auto|]. split; [vm_compute; reflexivity|].
    intros [_ H]. destruct (H bx eq_refl) as [C|C]; vm_compute in C; discriminate.
  - split; [vm_compute; reflexivity|]. split; [reflexivity|]. intros p [= <-]. right. reflexivity.
Qed.

(** C49 for files with such templates: the assumption on templates holds. *)
Theorem C49_templates : forall implements unsafe isPrint verb other texec w d i,
  pkgPath (snd (tq (template_env implements unsafe isPrint verb other texec) w d i)) = pkgPath i.
Proof. exact template_keeps. Qed.
Print Assumptions C49_templates.
Example C49_templates_example :
  pkgPath (snd (tq (template_env imp true (fun _ => true) (fun _ _ _ => "") (fun _ _ _ => "") (fun _ _ _ => Ok "")) (mkWorld [] [] [] [] [] [] [] [] [] [] [] [] []) (Some sample) fresh)) = "own".
Proof. vm_compute. reflexivity. Qed.
