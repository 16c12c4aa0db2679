(** Properties of template data in memory (C102-C105). *)
From Verif Require Import Base GoPath Types SpecTypes Imports SpecImports Conv World Template SpecTemplate TemplateMemory SpecTemplateMemory
  TemplateMemoryProofs TemplateMemoryTree TemplateMemoryKept SpecTemplateShared TemplateMemoryShared.

(** The examples. *)
Definition fits (_ : gty) (t : string) : bool := String.eqb t any.
Definition no_file (_ : spec) : res (option Package) := Ok None.
Definition known := run [CRegisterImport "a/x" "x"; CRegisterImport "b/x" "x"] (NewImportsFor "own").
Definition in_b (name : string) := VSymbol (mkSymbol (mkPackage "b/x" name) "B").
Definition symbol_t := GName "gopoet.Symbol".

(** C102 *)
(** type Node struct { Next *Node }; n.Next = n.  The stack grows without end. *)
Definition node := HStruct "main.Node" [(true, HPtr (GName "main.Node") (Some (0, [])))].
Definition cycle := mkHMem [node] [].
Theorem C102_refuted : exists m d, memory_safe m /\ refers_well m d /\
  forall implements unsafe parent_of fuel i, QualifyMemory implements unsafe parent_of fuel (Some d) m i = None.
Proof.
  exists cycle, node. split; [|split].
  - split; repeat constructor. exists node. reflexivity.
  - split; [exists node; reflexivity|exact Logic.I].
  - intros implements unsafe parent_of fuel i. unfold QualifyMemory, hbind.
    assert (H : forall f, (forall addr, qualifyMemory implements unsafe parent_of f addr node cycle i = None) /\
      (forall addr, qualifyMemory implements unsafe parent_of f addr (HPtr (GName "main.Node") (Some (0, []))) cycle i = None)).
    { induction f as [|f [IH1 IH2]]; [split; reflexivity|]. split; intros addr; cbn [qualifyMemory].
      - unfold node at 1. cbn [hfields_loop hgetField]. unfold hbind. rewrite IH2. reflexivity.
      - unfold hbind. cbn [hload load cycle hcells nth_error fst snd inside opt_res]. unfold hload. cbn. fold cycle. rewrite IH1. reflexivity. }
    destruct fuel as [|fuel]; [reflexivity|]. cbn [qualifyMemory]. unfold node at 1. fold node. rewrite (proj1 (H fuel)). reflexivity.
Qed.
Print Assumptions C102_refuted.
(** What holds: data that is a finite tree is walked to the end, and only of such data there is a
    result.  How much fuel is left does not matter. *)
Theorem C102_ends_partial : forall implements unsafe parent_of d t m, stands_for unsafe m d t ->
  exists N, forall fuel i, N <= fuel -> QualifyMemory implements unsafe parent_of fuel (Some d) m i <> None.
Proof. exact finite_ends. Qed.
Print Assumptions C102_ends_partial.
Theorem C102_returns_partial : forall implements unsafe parent_of fuel d m i r m' i', memory_safe m -> refers_well m d ->
  QualifyMemory implements unsafe parent_of fuel (Some d) m i = Some (Ok r, m', i') -> exists t, stands_for unsafe m d t.
Proof. exact returns_finite. Qed.
Print Assumptions C102_returns_partial.
Theorem C102_fuel : forall implements unsafe parent_of fuel fuel' d, fuel <= fuel' ->
  forall m i r, QualifyMemory implements unsafe parent_of fuel d m i = Some r -> QualifyMemory implements unsafe parent_of fuel' d m i = Some r.
Proof. exact fuel_more. Qed.
Print Assumptions C102_fuel.
(** []*gopoet.Symbol{&s, &s}, and a list of two nodes *)
Definition twin_m := mkHMem [HLeaf (in_b "x"); HArray "" [HPtr symbol_t (Some (0, [])); HPtr symbol_t (Some (0, []))]] [].
Definition twins := HSlice "[]*gopoet.Symbol" (1, []) 0 2.
Definition twin_tree := VSlice "[]*gopoet.Symbol" [VPtr symbol_t (Some (in_b "x")); VPtr symbol_t (Some (in_b "x"))].
Lemma twins_tree u : stands_for u twin_m twins twin_tree.
Proof.
  eapply sf_slice; [reflexivity|]. repeat (constructor; [eapply sf_ptr; [reflexivity|constructor; reflexivity]|]). constructor.
Qed.
Example C102_example : memory_safe twin_m /\ refers_well twin_m twins /\ stands_for true twin_m twins twin_tree /\
  exists m', QualifyMemory fits true no_file 4 (Some twins) twin_m known = Some (Ok (Some (HSlice "[]*gopoet.Symbol" (3, []) 0 2)), m', known).
Proof.
  split.
  { split; repeat constructor; eexists; reflexivity. }
  split; [eexists; reflexivity|]. split; [apply twins_tree|]. eexists. vm_compute. reflexivity.
Qed.

(** C103 *)
(** Nothing that was allocated is written to, whether there is a result or a panic, and whatever
    stood for a tree still does. *)
Theorem C103_untouched : forall implements unsafe parent_of fuel d m i r m' i',
  QualifyMemory implements unsafe parent_of fuel d m i = Some (r, m', i') ->
  untouched m m' /\ forall u v t, stands_for u m v t -> stands_for u m' v t.
Proof.
  exact (fun implements unsafe parent_of fuel d m i r m' i' E =>
    conj (never_written implements unsafe parent_of fuel d m i r m' i' E) (untouched_stands implements unsafe parent_of fuel d m i r m' i' E)).
Qed.
Print Assumptions C103_untouched.
(** The data of C102_example before and after. *)
Example C103_example : exists r m', QualifyMemory fits true no_file 4 (Some twins) twin_m known = Some (Ok r, m', known) /\
  firstn 2 (hcells m') = hcells twin_m /\ 2 < List.length (hcells m').
Proof. do 2 eexists. split; [vm_compute; reflexivity|]. split; [reflexivity|]. cbn. auto. Qed.

(** C104 *)
(** Keys of a map that become equal although they hold pointers. *)
Definition key (name : string) := HStruct "main.Key" [(true, HPtr (GName "int") (Some (0, []))); (true, HLeaf (in_b name))].
Definition key_tree (name : string) := VStruct "main.Key" [(true, VPtr (GName "int") (Some (VOther "int" 0))); (true, in_b name)].
Definition keyed_m := mkHMem [HLeaf (VOther "int" 0)] [[(key "x", HLeaf (VOther "int" 1)); (key "y", HLeaf (VOther "int" 2))]].
Definition keyed := HMap "map[main.Key]int" (Some 0).
Definition keyed_tree := VMap "map[main.Key]int" [(key_tree "x", VOther "int" 1); (key_tree "y", VOther "int" 2)].
Theorem C104_refuted : exists m d t o o' m', stands_for true m d t /\ typed fits (data t) /\
  QualifyTemplateData fits true no_file (Some t) known = (Ok o, known) /\
  QualifyMemory fits true no_file 5 (Some d) m known = Some (Ok o', m', known) /\
  ~ stand_for_data true m' o' o.
Proof.
  exists keyed_m, keyed, keyed_tree. do 3 eexists. split.
  { eapply sf_map; [reflexivity|]. repeat first [constructor | eapply sf_ptr; [reflexivity|]]; left; reflexivity. }
  split.
  { cbn. repeat split; auto; repeat constructor; intros EQ; inversion EQ as [| |? ? ? F| | | | | | |]; inversion F as [|? ? ? ? F1]; inversion F1. }
  split; [vm_compute; reflexivity|]. split; [vm_compute; reflexivity|].
  intros S. cbn [stand_for_data] in S. inversion S as [| | | | | | | | |? ? ? ? E SE]. cbn in E. injection E as <-.
  inversion SE as [|? ? ? ? ? ? _ _ SE1]. inversion SE1.
Qed.
Print Assumptions C104_refuted.
(** What holds: with map keys without pointers, the result is what qualifying the tree gives,
    the imports and panics too; so sharing does not matter. *)
Theorem C104_tree_partial : forall implements unsafe parent_of d t m, stands_for unsafe m d t -> plain_keys t ->
  exists N, forall fuel i, N <= fuel ->
  match QualifyTemplateData implements unsafe parent_of (Some t) i with
  | (Ok o, i') => exists o' m', QualifyMemory implements unsafe parent_of fuel (Some d) m i = Some (Ok o', m', i') /\ stand_for_data unsafe m' o' o
  | (Panic e, i') => exists m', QualifyMemory implements unsafe parent_of fuel (Some d) m i = Some (Panic e, m', i')
  end.
Proof. exact data_as_tree. Qed.
Print Assumptions C104_tree_partial.
(** So panics are as in C54_exact. *)
Theorem C104_panics_partial : forall implements unsafe parent_of own h d t m, let i := run h (NewImportsFor own) in
  let names := name_in (run (registrations (data_requests unsafe parent_of (data t))) i) in
  stands_for unsafe m d t -> plain_keys t -> typed implements (data t) ->
  exists N, forall fuel, N <= fuel ->
  ((exists o m' i', QualifyMemory implements unsafe parent_of fuel (Some d) m i = Some (Ok o, m', i')) <->
   walkable implements unsafe parent_of names true (data t)).
Proof. exact memory_panics. Qed.
Print Assumptions C104_panics_partial.
(** A map with the symbols of C102_example, and an unexported field. *)
Definition mixed_m := mkHMem (hcells twin_m ++ [HStruct "main.M" [(true, HLeaf (in_b "x")); (false, HLeaf (VOther "int" 0))]])
  [[(HLeaf (in_b "x"), twins); (HLeaf (in_b "x1"), HSlice "[]*gopoet.Symbol" (1, []) 1 1)]].
Example C104_example :
  let d := HMap "map[gopoet.Symbol][]*gopoet.Symbol" (Some 0) in
  let t := VMap "map[gopoet.Symbol][]*gopoet.Symbol" [(in_b "x", twin_tree); (in_b "x1", VSlice "[]*gopoet.Symbol" [VPtr symbol_t (Some (in_b "x"))])] in
  let d2 := HPtr (GName "main.M") (Some (2, [])) in
  let t2 := VPtr (GName "main.M") (Some (VStruct "main.M" [(true, in_b "x"); (false, VOther "int" 0)])) in
  stands_for true mixed_m d t /\ plain_keys t /\ typed fits (data t) /\
  fst (QualifyTemplateData fits true no_file (Some t) known) =
    Ok (Some (VMap "map[gopoet.Symbol][]*gopoet.Symbol" [(in_b "x1", VSlice "[]*gopoet.Symbol" [VPtr symbol_t (Some (in_b "x1"))])])) /\
  stands_for true mixed_m d2 t2 /\ plain_keys t2 /\ fst (QualifyTemplateData fits true no_file (Some t2) known) = Panic p_readonly.
Proof.
  cbv zeta. split.
  { eapply sf_map; [reflexivity|]. repeat first [constructor; reflexivity | eapply sf_ptr; [reflexivity|] | eapply sf_slice; [reflexivity|] | constructor]. }
  split; [cbn; repeat split; repeat constructor; intros EQ; inversion EQ|].
  split; [cbn; repeat split; auto; repeat constructor; intros EQ; inversion EQ|].
  split; [vm_compute; reflexivity|]. split.
  { eapply sf_ptr; [reflexivity|]. constructor. apply sff_read; [auto|constructor; auto|]. apply sff_read; [auto|constructor; auto|]. constructor. }
  split; [cbn; auto|vm_compute; reflexivity].
Qed.

(** C105 *)
(** Pointers that were equal are different afterwards. *)
Theorem C105_refuted : exists p q m', QualifyMemory fits true no_file 4 (Some twins) twin_m known =
    Some (Ok (Some (HSlice "[]*gopoet.Symbol" (3, []) 0 2)), m', known) /\
  slice_elems twin_m (1, []) 0 2 = Some [HPtr symbol_t (Some (0, [])); HPtr symbol_t (Some (0, []))] /\
  slice_elems m' (3, []) 0 2 = Some [HPtr symbol_t (Some p); HPtr symbol_t (Some q)] /\ p <> q.
Proof. do 3 eexists. split; [vm_compute; reflexivity|]. split; [reflexivity|]. split; [vm_compute; reflexivity|]. discriminate. Qed.
Print Assumptions C105_refuted.
(** What holds: data in which nothing gets another name is itself the result, and no memory is
    allocated. *)
Theorem C105_kept_partial : forall implements unsafe parent_of own h d t m, let i := run h (NewImportsFor own) in
  let names := name_in (run (registrations (data_requests unsafe parent_of (data t))) i) in
  stands_for unsafe m d t -> plain_keys t -> typed implements (data t) -> is_hiface d = false ->
  walkable implements unsafe parent_of names true (data t) -> ~ moved implements unsafe parent_of names (data t) ->
  exists N, forall fuel, N <= fuel ->
  QualifyMemory implements unsafe parent_of fuel (Some d) m i = Some (Ok (Some d), m, run (registrations (data_requests unsafe parent_of (data t))) i).
Proof. exact memory_kept. Qed.
Print Assumptions C105_kept_partial.
Definition kept_m := mkHMem [HLeaf (in_b "x1"); HArray "" [HPtr symbol_t (Some (0, [])); HPtr symbol_t (Some (0, []))]] [].
Definition kept_tree := VSlice "[]*gopoet.Symbol" [VPtr symbol_t (Some (in_b "x1")); VPtr symbol_t (Some (in_b "x1"))].
Example C105_example :
  let names := name_in (run (registrations (data_requests true no_file (data kept_tree))) known) in
  stands_for true kept_m twins kept_tree /\ plain_keys kept_tree /\ typed fits (data kept_tree) /\
  walkable fits true no_file names true (data kept_tree) /\ ~ moved fits true no_file names (data kept_tree) /\
  QualifyMemory fits true no_file 4 (Some twins) kept_m known = Some (Ok (Some twins), kept_m, known).
Proof.
  cbv zeta. split.
  { eapply sf_slice; [reflexivity|]. repeat (constructor; [eapply sf_ptr; [reflexivity|constructor; reflexivity]|]). constructor. }
  split; [cbn; auto|]. split; [cbn; repeat split; auto|].
  assert (B : name_in (run (registrations (data_requests true no_file (data kept_tree))) known) "b/x" = "x1") by reflexivity.
  revert B. generalize (name_in (run (registrations (data_requests true no_file (data kept_tree))) known)). intros g B.
  split; [|split; [|vm_compute; reflexivity]].
  - cbn. unfold sym_as, pkg_as. cbn. repeat split; intros; tauto.
  - cbn. unfold sym_as, pkg_as. cbn. rewrite B. intuition.
Qed.

(** What holds of other data: every part in which nothing gets another name is in the result
    itself, with the memory it refers to; all else is in new memory, and each new variable, array
    or map is referred to from one place only. *)
Theorem C105_shared_partial : forall implements unsafe parent_of own h d t m fuel o m' i', let i := run h (NewImportsFor own) in
  let names := name_in (run (registrations (data_requests unsafe parent_of (data t))) i) in
  stands_for unsafe m d t -> plain_keys t -> typed implements (data t) ->
  QualifyMemory implements unsafe parent_of fuel (Some d) m i = Some (Ok o, m', i') ->
  exists d' A, o = Some d' /\ NoDup A /\ part implements unsafe parent_of names m m' (HIface any (Some d)) (HIface any (Some d')) A.
Proof. exact memory_shared. Qed.
Print Assumptions C105_shared_partial.
(** Pointers to a symbol that is renamed, to one that is not, and twice more. *)
Definition in_a := VSymbol (mkSymbol (mkPackage "a/x" "x") "A").
Definition sym_ptr (n : nat) := HPtr symbol_t (Some (n, [])).
Definition four_m := mkHMem [HLeaf (in_b "x"); HLeaf in_a; HArray "" [sym_ptr 0; sym_ptr 1; sym_ptr 0; sym_ptr 1]] [].
Definition four := HSlice "[]*gopoet.Symbol" (2, []) 0 4.
Definition four_tree := VSlice "[]*gopoet.Symbol" [VPtr symbol_t (Some (in_b "x")); VPtr symbol_t (Some in_a); VPtr symbol_t (Some (in_b "x")); VPtr symbol_t (Some in_a)].
Example C105_shared_example : stands_for true four_m four four_tree /\ plain_keys four_tree /\ typed fits (data four_tree) /\
  exists m', QualifyMemory fits true no_file 4 (Some four) four_m known = Some (Ok (Some (HSlice "[]*gopoet.Symbol" (4, []) 0 4)), m', known) /\
    load m' (4, []) = Some (HArray "" [sym_ptr 3; sym_ptr 1; sym_ptr 5; sym_ptr 1]) /\
    load m' (3, []) = Some (HLeaf (in_b "x1")) /\ load m' (5, []) = Some (HLeaf (in_b "x1")).
Proof.
  split.
  { eapply sf_slice; [reflexivity|]. repeat (constructor; [eapply sf_ptr; [reflexivity|constructor; reflexivity]|]). constructor. }
  split; [cbn; auto|]. split; [cbn; repeat split; auto|]. eexists. split; [vm_compute; reflexivity|]. auto.
Qed.
