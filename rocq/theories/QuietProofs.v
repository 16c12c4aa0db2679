(** Qualifying a file again when all it contains is qualified: nothing happens, whatever the data
    of the templates are. *)
From Verif Require Import Base GoPath Types SpecTypes TypesFacts Imports SpecImports ImportsProofs ImportsTheorems
  SettleProofs SpecGo SpecRender Conv Fmt World SpecFile SpecDecl SpecWorld SpecQualify WorldProofs QualifyProofs.

Section Quiet.
Context {TD1 TD2 : Type}.
Variables (e1 : Env TD1) (e2 : Env TD2) (f : nat) (Pl : loc -> Prop).
Notation AnyR := (fun _ : string * string => True).
(** The same world, with other data. *)
Variables (a : World TD1) (T2 : list (nat * TD2)).
Definition other_data : World TD2 :=
  mkWorld (files a) (constDecls a) (varDecls a) (typeDecls a) (consts a) (vars a) (types a) (World.fields a) (ielems a) (funcs a)
    (blocks a) (argss a) T2.
Notation b := other_data.
Hypothesis TN : map fst T2 = map fst (templs a).
Hypothesis J1 : J e1 f AnyR Pl a.
Hypothesis J2 : J e2 f AnyR Pl b.
Hypothesis D1 : forall l, Pl l -> done e1 f l a.
Hypothesis D2 : forall l, Pl l -> done e2 f l b.
Definition rel (m1 : WM (TD := TD1) unit) (m2 : WM (TD := TD2) unit) (P : World TD1 -> list loc) : Prop :=
  (forall l, In l (P (skel a)) -> Pl l) -> exists r, m1 a = (r, a) /\ m2 b = (r, b).
Lemma rel_ext m1 m1' m2 m2' P : m1 a = m1' a -> m2 b = m2' b -> rel m1' m2' P -> rel m1 m2 P.
Proof. intros A B H PL. rewrite A, B. auto. Qed.
Lemma rel_ret : rel (sret tt) (sret tt) (fun _ => []).
Proof. intros _. exists (Ok tt). auto. Qed.
Lemma rel_panic e P : rel (fun w => (Panic e, w)) (fun w => (Panic e, w)) P.
Proof. intros _. exists (Panic e). auto. Qed.
Lemma rel_visit l : rel (visit e1 f l) (visit e2 f l) (fun _ => [l]).
Proof.
  intros PL. exists (Ok tt). assert (P : Pl l) by (apply PL; left; auto).
  rewrite (visit_done e1 f AnyR Pl l a), (visit_done e2 f AnyR Pl l b); auto.
Qed.
Lemma rel_seq m1 m2 k1 k2 P Q : rel m1 m2 P -> rel k1 k2 Q -> rel (do _ <- m1 ;; k1) (do _ <- m2 ;; k2) (fun sk => P sk ++ Q sk).
Proof.
  intros M K PL. destruct M as (r & A & B); [intros l IN; apply PL, in_or_app; auto|]. unfold sbind. rewrite A, B.
  destruct r as [[]|e]; [|exists (Panic e); auto]. apply K. intros l IN. apply PL, in_or_app. auto.
Qed.
Lemma rel_for {A} (g1 : A -> WM unit) g2 P (l : list A) : (forall x, rel (g1 x) (g2 x) (P x)) ->
  rel (for_each g1 l) (for_each g2 l) (fun sk => flat_map (fun x => P x sk) l).
Proof. intros G. induction l as [|x l IH]; cbn [for_each flat_map]; [apply rel_ret|]. apply rel_seq; auto. Qed.
Lemma rel_get {A} (t1 : World TD1 -> list A) (t2 : World TD2 -> list A) i (k1 : A -> WM unit) k2 P : t2 (skel b) = t1 (skel a) ->
  (forall x, rel (k1 x) (k2 x) (P x)) ->
  rel (do x <- getsk t1 i ;; k1 x) (do x <- getsk t2 i ;; k2 x)
      (fun sk => match nth_error (t1 sk) i with Some x => P x sk | None => [] end).
Proof.
  intros E G PL. unfold sbind, getsk. rewrite E. destruct (nth_error (t1 (skel a)) i) as [x|] eqn:N; [|exists (Panic nil_deref); auto].
  apply G. auto.
Qed.
Lemma rel_weak m1 m2 P Q : (forall l, In l (P (skel a)) -> In l (Q (skel a))) -> rel m1 m2 P -> rel m1 m2 Q.
Proof. intros H R PL. apply R. auto. Qed.

Lemma rel_line args : rel (line_qualify f args) (line_qualify f args) (plan_line args).
Proof.
  eapply rel_ext; [apply line_eq|apply line_eq|].
  apply (rel_get argss argss args (fun l => for_each (line_qualify_at f args) (seq 0 (List.length l)))
     (fun l => for_each (line_qualify_at f args) (seq 0 (List.length l)))
     (fun l sk => map (LArg args) (seq 0 (List.length l)))); [reflexivity|].
  intros l. eapply rel_weak; [|apply (rel_for _ _ (fun i sk => match nth_error (argss sk) args with Some _ => [LArg args i] | None => [] end)); intros i].
  - intros x. cbn. rewrite in_map_iff, in_flat_map. intros (k & IN & H). exists k.
    destruct (nth_error _ args); cbn in H; destruct H; [auto|contradiction].
  - eapply rel_ext; [apply (line_at_eq e1 f AnyR Pl); auto|apply (line_at_eq e2 f AnyR Pl); auto|].
    apply (rel_get argss argss args (fun _ => visit e1 f (LArg args i)) (fun _ => visit e2 f (LArg args i)) (fun _ _ => [LArg args i])); [reflexivity|].
    intros _. apply rel_visit.
Qed.
Lemma rel_templ t : rel (templ_qualify e1 f t) (templ_qualify e2 f t) (fun _ => [LTempl t]).
Proof.
  intros PL. assert (P : Pl (LTempl t)) by (apply PL; left; auto).
  rewrite (templ_eq e1 f AnyR Pl), (templ_eq e2 f AnyR Pl) by auto. unfold tnames. cbn [templs other_data]. rewrite TN.
  destruct (nth_error (map fst (templs a)) t); [|exists (Panic nil_deref); auto]. apply rel_visit. auto.
Qed.
Lemma rel_block cb : rel (CodeBlock_qualify e1 f cb) (CodeBlock_qualify e2 f cb) (plan_block cb).
Proof.
  apply (rel_get blocks blocks cb (fun c => for_each (codeElement_qualify e1 f) c) (fun c => for_each (codeElement_qualify e2 f) c)
    (fun c sk => flat_map (fun e => plan_code e sk) c)); [reflexivity|].
  intros c. apply rel_for. intros [fm args|t]; [apply rel_line|apply rel_templ].
Qed.
Lemma rel_elem i : rel (InterfaceElement_qualify f i) (InterfaceElement_qualify f i) (plan_elem i).
Proof.
  eapply rel_ext; [apply (elem_eq e1 f AnyR Pl); auto|apply (elem_eq e2 f AnyR Pl); auto|].
  apply (rel_get ielems ielems i (fun _ => visit e1 f (LElem i)) (fun _ => visit e2 f (LElem i)) (fun _ _ => [LElem i])); [reflexivity|].
  intros _. apply rel_visit.
Qed.
Lemma rel_type fuel : forall i, rel (TypeSpec_qualify fuel f i) (TypeSpec_qualify fuel f i) (plan_type fuel i).
Proof.
  induction fuel as [|fuel IH]; intros i; [intros _; eexists; split; reflexivity|]. cbn [plan_type].
  assert (GF : forall fid, rel (field_step f fuel fid) (field_step f fuel fid) (fun sk =>
            match nth_error (World.fields sk) fid with
            | None => []
            | Some fs => match FSType fs with NoType => [] | IsName _ => [LField fid] | IsSpec ts => plan_type fuel ts sk end
            end)).
  { intros fid. eapply rel_ext; [apply (field_eq e1 f AnyR Pl); auto|apply (field_eq e2 f AnyR Pl); auto|].
    apply (rel_get World.fields World.fields fid
       (fun fs => match FSType fs with NoType => sret tt | IsName _ => visit e1 f (LField fid) | IsSpec ts => TypeSpec_qualify fuel f ts end)
       (fun fs => match FSType fs with NoType => sret tt | IsName _ => visit e2 f (LField fid) | IsSpec ts => TypeSpec_qualify fuel f ts end)
       (fun fs sk => match FSType fs with NoType => [] | IsName _ => [LField fid] | IsSpec ts => plan_type fuel ts sk end)); [reflexivity|].
    intros fs. destruct (FSType fs); [apply rel_ret|apply rel_visit|apply IH]. }
  eapply rel_ext; [apply (type_eq e1 f AnyR Pl); auto|apply (type_eq e2 f AnyR Pl); auto|].
  apply (rel_get types types i
    (fun T => do _ <- visit e1 f (LType i) ;; do _ <- for_each (field_step f fuel) (TSStruct T) ;; for_each (InterfaceElement_qualify f) (TSInterface T))
    (fun T => do _ <- visit e2 f (LType i) ;; do _ <- for_each (field_step f fuel) (TSStruct T) ;; for_each (InterfaceElement_qualify f) (TSInterface T))
    (fun T sk => [LType i] ++
          flat_map (fun fid =>
            match nth_error (World.fields sk) fid with
            | None => []
            | Some fs => match FSType fs with NoType => [] | IsName _ => [LField fid] | IsSpec ts => plan_type fuel ts sk end
            end) (TSStruct T) ++
          flat_map (fun e => plan_elem e sk) (TSInterface T))); [reflexivity|].
  intros T. apply (rel_seq _ _ _ _ (fun _ => [LType i])); [apply rel_visit|]. apply rel_seq; apply rel_for; auto. intros e. apply rel_elem.
Qed.
Section Value.
Variables (tab1 : World TD1 -> list ValueSpec) (set1 : list ValueSpec -> World TD1 -> World TD1).
Variables (tab2 : World TD2 -> list ValueSpec) (set2 : list ValueSpec -> World TD2 -> World TD2) (L : nat -> loc).
Hypothesis TAB : tab2 (skel b) = tab1 (skel a).
Hypothesis TS1 : forall w, tab1 (skel w) = map er_value (tab1 w).
Hypothesis CO1 : forall i w, cont w (L i) = obind (nth_error (tab1 w) i) (fun v => tos_content (VSType v)).
Hypothesis SC1 : forall i w t, set_cont (L i) (CT t) w = set1 (upd_with i (fun v => with_vtype v (IsName t)) (tab1 w)) w.
Hypothesis RE1 : forall j w, tab1 (reimp f j w) = tab1 w.
Hypothesis TS2 : forall w, tab2 (skel w) = map er_value (tab2 w).
Hypothesis CO2 : forall i w, cont w (L i) = obind (nth_error (tab2 w) i) (fun v => tos_content (VSType v)).
Hypothesis SC2 : forall i w t, set_cont (L i) (CT t) w = set2 (upd_with i (fun v => with_vtype v (IsName t)) (tab2 w)) w.
Hypothesis RE2 : forall j w, tab2 (reimp f j w) = tab2 w.
Lemma rel_value fuel i : rel (qualify_value e1 tab1 set1 fuel f i) (qualify_value e2 tab2 set2 fuel f i) (plan_value tab1 L fuel i).
Proof.
  eapply rel_ext; [apply (value_eq e1 f AnyR Pl) with (L := L); auto|apply (value_eq e2 f AnyR Pl) with (L := L); auto|].
  apply (rel_get tab1 tab2 i
    (fun v => do _ <- match VSType v with NoType => sret tt | IsName _ => visit e1 f (L i) | IsSpec ts => TypeSpec_qualify fuel f ts end ;;
              match VInit v with None => sret tt | Some cb => CodeBlock_qualify e1 f cb end)
    (fun v => do _ <- match VSType v with NoType => sret tt | IsName _ => visit e2 f (L i) | IsSpec ts => TypeSpec_qualify fuel f ts end ;;
              match VInit v with None => sret tt | Some cb => CodeBlock_qualify e2 f cb end)
    (fun v sk => match VSType v with NoType => [] | IsName _ => [L i] | IsSpec ts => plan_type fuel ts sk end ++
                 match VInit v with None => [] | Some cb => plan_block cb sk end)); [exact TAB|].
  intros v. apply (rel_seq _ _ _ _ (fun sk => match VSType v with NoType => [] | IsName _ => [L i] | IsSpec ts => plan_type fuel ts sk end)
               (fun sk => match VInit v with None => [] | Some cb => plan_block cb sk end)).
  - destruct (VSType v); [apply rel_ret|apply rel_visit|apply rel_type].
  - destruct (VInit v); [apply rel_block|apply rel_ret].
Qed.
End Value.
Lemma rel_element fuel e : rel (FileElement_qualify e1 fuel f e) (FileElement_qualify e2 fuel f e) (plan_element fuel e).
Proof.
  destruct e as [d|d|d|i]; cbn [plan_element].
  - apply (rel_get constDecls constDecls d (fun D => for_each (qualify_value e1 consts set_consts fuel f) (VDSpecs D))
      (fun D => for_each (qualify_value e2 consts set_consts fuel f) (VDSpecs D))
      (fun D sk => flat_map (fun i => plan_value consts LConst fuel i sk) (VDSpecs D))); [reflexivity|].
    intros D. apply rel_for. intros i. apply rel_value; auto.
  - apply (rel_get varDecls varDecls d (fun D => for_each (qualify_value e1 vars set_vars fuel f) (VDSpecs D))
      (fun D => for_each (qualify_value e2 vars set_vars fuel f) (VDSpecs D))
      (fun D sk => flat_map (fun i => plan_value vars LVar fuel i sk) (VDSpecs D))); [reflexivity|].
    intros D. apply rel_for. intros i. apply rel_value; auto.
  - apply (rel_get typeDecls typeDecls d (fun D => for_each (TypeSpec_qualify fuel f) (TDTypes D))
      (fun D => for_each (TypeSpec_qualify fuel f) (TDTypes D))
      (fun D sk => flat_map (fun i => plan_type fuel i sk) (TDTypes D))); [reflexivity|].
    intros D. apply rel_for. intros i. apply rel_type.
  - eapply rel_ext; [apply (func_eq e1 f AnyR Pl fuel); auto|apply (func_eq e2 f AnyR Pl fuel); auto|].
    apply (rel_get funcs funcs i (fun F => do _ <- visit e1 f (LFunc i) ;; CodeBlock_qualify e1 f (FNBody F))
      (fun F => do _ <- visit e2 f (LFunc i) ;; CodeBlock_qualify e2 f (FNBody F))
      (fun F sk => [LFunc i] ++ plan_block (FNBody F) sk)); [reflexivity|].
    intros F. apply (rel_seq _ _ _ _ (fun _ => [LFunc i])); [apply rel_visit|apply rel_block].
Qed.
Theorem rel_file fuel : rel (qualify_file e1 fuel f) (qualify_file e2 fuel f) (plan_file f fuel).
Proof.
  eapply rel_ext; [apply file_eq|apply file_eq|].
  apply (rel_get files files f (fun F => for_each (FileElement_qualify e1 fuel f) (FElements F))
    (fun F => for_each (FileElement_qualify e2 fuel f) (FElements F))
    (fun F sk => flat_map (fun e => plan_element fuel e sk) (FElements F))); [reflexivity|].
  intros F. apply rel_for. intros e. apply rel_element.
Qed.
End Quiet.
