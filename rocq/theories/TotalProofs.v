(** Writing complete files succeeds. *)
From Verif Require Import Base GoPath Types SpecTypes TypesFacts Imports SpecImports ImportsProofs ImportsTheorems
  SettleProofs SpecGo SpecRender Conv Fmt World SpecFile SpecDecl SpecWorld SpecQualify WorldProofs QualifyProofs QualifyTheorems
  TextTheorems SourceTheorems SpecTotal.

Section Q.
Context {TD : Type}.
Notation World := (World TD).
Variable env : Env TD.
Variable f : nat.
Notation AnyR := (fun _ : string * string => True).
Variable Pl : loc -> Prop.
(** The names of the templates; template data on which qualification succeeds and settles. *)
Variable TN : list nat.
Definition okd (w : World) (i : Imports) (d : TD) : Prop := forall j, Inv j -> ext i j ->
  exists d' j', tq env w d j = (Ok d', j') /\ ext j j' /\ forall k, Inv k -> ext j' k -> tq env w d' k = (Ok d', k).
Notation J := (J env f AnyR Pl).
Notation le := (le env f AnyR).
Notation imp := (imp f).
Notation good := (QualifyProofs.good env f AnyR Pl).
Notation visit := (visit env f).
Notation act := (act env).

(** ** Contents on which qualification succeeds *)
Definition okt (t : target) : Prop :=
  match t with TgSig s => wf_sig s = true | TgType t => wf t = true | _ => True end.
Definition okc (w : World) (i : Imports) (x : content) : Prop :=
  match x with
  | CT t => wf t = true
  | CS s => wf_sig s = true
  | CY _ => True
  | CA a => exists t, arg_target w a = Ok t /\ okt t
  | CD d => okd (skel w) i d
  end.
Lemma wf_sig_map' h s : wf_sig (map_sig (map_symbols h) s) = wf_sig s.
Proof. apply wf_sig_map. split; apply Forall_forall; intros; apply wf_map. Qed.
Lemma type_ok t i : Inv i -> wf t = true -> exists t' c i', EnsureTypeImported t i = (Ok (t', c), i') /\ wf t' = true.
Proof.
  intros I W. destruct (result_right _ _ _ _ t i (ImportsProofs.good_type t) W I) as (g & c & i' & E & _).
  exists (map_symbols g t), c, i'. split; [exact E|]. rewrite wf_map. exact W.
Qed.
Lemma sig_ok t i : Inv i -> wf_sig t = true -> exists t' c i', EnsureAllTypesImported t i = (Ok (t', c), i') /\ wf_sig t' = true.
Proof.
  intros I W. destruct (result_right _ _ _ _ t i (good_signature t) W I) as (g & c & i' & E & _).
  exists (map_sig (map_symbols g) t), c, i'. split; [exact E|]. rewrite wf_sig_map'. exact W.
Qed.
Lemma sym_ok' s i : Inv i -> exists s' i', EnsureImported s i = (Ok s', i').
Proof.
  intros I. destruct (qualify_reg s i I) as (i' & E & _). exists (rename i' s), i'. exact E.
Qed.
Lemma pkg_ok p i : Inv i -> exists n i', registerPackage p i = (Ok n, i').
Proof.
  intros I. unfold registerPackage, RegisterImportForPackage, RegisterImport, sbind, sret.
  destruct (prefix_reg i (ImportPath p) (PkgName p) I) as (k & i1 & E1 & _). rewrite E1. eauto.
Qed.
Lemma target_ok a t i : Inv i -> okt t ->
  exists a' i', target_act a t i = (Ok a', i') /\
    (a' = a \/ exists t', (forall w : World, arg_target w a' = Ok t') /\ okt t').
Proof.
  intros Hi O. destruct t as [p|s|m|s|t|p|]; cbn [target_act okt] in *; unfold sbind, sret.
  - destruct (pkg_ok p i Hi) as (n & i' & ->). destruct (negb _); do 2 eexists; (split; [reflexivity|]); [right|left; auto].
    eexists; split; [reflexivity|exact I].
  - destruct (sym_ok' s i Hi) as (s' & i' & ->). do 2 eexists. split; [reflexivity|]. right. eexists; split; [reflexivity|exact I].
  - destruct (sym_ok' (MRType m) i Hi) as (s' & i' & ->). destruct (negb _); do 2 eexists; (split; [reflexivity|]); [right|left; auto].
    eexists; split; [reflexivity|exact I].
  - destruct (sig_ok s i Hi O) as (s' & c & i' & -> & W). do 2 eexists. split; [reflexivity|]. right. eexists; split; [reflexivity|exact W].
  - destruct (type_ok t i Hi O) as (s' & c & i' & -> & W). do 2 eexists. split; [reflexivity|]. right. eexists; split; [reflexivity|exact W].
  - destruct (pkg_ok p i Hi) as (n & i' & ->). do 2 eexists; (split; [reflexivity|]). right.
    eexists; split; [reflexivity|exact I].
  - do 2 eexists. split; [reflexivity|]. left; auto.
Qed.
Lemma act_ok w x i0 i : Inv i -> ext i0 i -> okc w i0 x -> exists y i', act w x i = (Ok y, i') /\ okc w i' y.
Proof.
  intros Hi X O. destruct x as [t|s|s|a|d]; cbn [act okc] in *; unfold sbind, sret, slift.
  - destruct (type_ok t i Hi O) as (t' & c & i' & -> & W). eexists _, _. split; [reflexivity|exact W].
  - destruct (sig_ok s i Hi O) as (t' & c & i' & -> & W). eexists _, _. split; [reflexivity|exact W].
  - destruct (sym_ok' s i Hi) as (t' & i' & ->). eexists _, _. split; [reflexivity|exact I].
  - destruct O as (t & E & O). rewrite E. destruct (target_ok a t i Hi O) as (a' & i' & -> & H); eauto.
    eexists _, _. split; [reflexivity|]. cbn [okc]. destruct H as [->|(t' & A & O')]; eauto.
  - destruct (O i Hi X) as (d' & i' & -> & E & W). eexists _, _. split; [reflexivity|]. intros j Hj XJ.
    exists d', j. split; [apply W; auto|]. split; [apply ext_refl|]. intros k Hk XK. apply W; auto. eapply ext_trans; eauto.
Qed.
Lemma okc_skel w w' i j x : skel w' = skel w -> ext i j -> okc w i x -> okc w' j x.
Proof.
  intros E X. destruct x as [t|s|s|a|d]; cbn [okc]; auto.
  - rewrite <- (arg_target_skel w), <- (arg_target_skel w'), E. auto.
  - rewrite E. intros H k Hk XK. apply H; auto. eapply ext_trans; eauto.
Qed.
Definition okl (w : World) (l : loc) : Prop := forall x, cont w l = Some x -> okc w (imp w) x.
Lemma okl_le w w' l : J w -> le w w' -> okl w l -> okl w' l.
Proof.
  intros Jw L O y E. pose proof (le_cont _ _ _ _ _ L l) as C. rewrite E in C. destruct (cont w l) as [x|] eqn:X; [|contradiction].
  specialize (O x X). pose proof (le_skel _ _ _ _ _ L) as SK.
  assert (XI : ext (imp w) (imp w')) by (eapply steps_ext; [apply (le_imp _ _ _ _ _ L)|apply (j_inv _ _ _ _ _ Jw)]).
  destruct C as [->|(rs & j & j' & AK & A & B & G)]; [eapply okc_skel; eauto|].
  assert (Ij : Inv j) by (eapply steps_Inv; [exact A|apply (j_inv _ _ _ _ _ Jw)]).
  assert (XJ : ext (imp w) j) by (eapply steps_ext; [exact A|apply (j_inv _ _ _ _ _ Jw)]).
  destruct (act_ok w x (imp w) j Ij XJ O) as (z & i' & E2 & OZ).
  rewrite E2 in B. injection B as -> ->. eapply okc_skel; [exact SK| |exact OZ].
  eapply steps_ext; [exact G|]. destruct (act_settles env w x rs j y j' Ij AK E2) as (FF & _ & _). rewrite FF. apply fold_reg_keep; auto.
Qed.
(** If [lazy], running out of fuel is accepted too. *)
Variable lazy : bool.
Definition ends (m : WM (TD := TD) unit) (w : World) : Prop :=
  exists w1, m w = (Ok tt, w1) \/ lazy = true /\ m w = (Panic out_of_fuel, w1).
(** [m] succeeds if what it visits is in order and the skeleton satisfies [C] *)
Definition tot (m : WM (TD := TD) unit) (P : World -> list loc) (C : World -> Prop) : Prop := forall w,
  J w -> tnames w = TN -> C (skel w) -> (forall l, In l (P (skel w)) -> Pl l /\ okl w l) -> ends m w.
Lemma tot_ext m m' P C : (forall w, J w -> m w = m' w) -> tot m' P C -> tot m P C.
Proof. intros E T w Jw TW Cw H. unfold ends. rewrite E by auto. apply T; auto. Qed.
Lemma tot_weak m P (C : World -> Prop) P' (C' : World -> Prop) : (forall sk, C' sk -> C sk) -> (forall sk l, In l (P sk) -> In l (P' sk)) -> tot m P C -> tot m P' C'.
Proof. intros HC HP T w Jw TW Cw H. apply T; auto. Qed.
Lemma tot_ret P C : tot (sret tt) P C.
Proof. intros w _ _ _ _. exists w. left. reflexivity. Qed.
Lemma tot_visit l C : tot (visit l) (fun _ => [l]) C.
Proof.
  intros w Jw _ _ H. destruct (H l (or_introl eq_refl)) as [_ O]. unfold ends, visit. destruct (cont w l) as [x|] eqn:E; eauto.
  destruct (act_ok w x (imp w) (imp w) (j_inv _ _ _ _ _ Jw) (ext_refl _) (O x E)) as (y & i' & -> & _). eauto.
Qed.
Lemma tot_seq m k P Q C D : good m P -> tot m P C -> tot k Q D ->
  tot (do _ <- m ;; k) (fun sk => P sk ++ Q sk) (fun sk => C sk /\ D sk).
Proof.
  intros G M K w Jw TW [Cw Dw] H.
  destruct (M w Jw TW Cw) as (w1 & [E|[Z E]]); [intros l IN; apply H, in_or_app; auto| |].
  2: { exists w1. right. split; auto. unfold sbind. rewrite E. reflexivity. }
  destruct (G w w1 Jw) as (L & _); auto. { intros l IN. apply H, in_or_app; auto. }
  unfold ends, sbind. rewrite E. apply K.
  - eapply J_le; eauto.
  - rewrite (le_tnames _ _ _ _ _ L). auto.
  - rewrite (le_skel _ _ _ _ _ L). auto.
  - intros l IN. rewrite (le_skel _ _ _ _ _ L) in IN. destruct (H l) as [N O]; [apply in_or_app; auto|].
    split; auto. eapply okl_le; eauto.
Qed.
Lemma tot_for {A} (g : A -> WM (TD := TD) unit) P C (l : list A) : (forall a, good (g a) (P a)) -> (forall a, In a l -> tot (g a) (P a) (C a)) ->
  tot (for_each g l) (fun sk => flat_map (fun a => P a sk) l) (fun sk => forall a, In a l -> C a sk).
Proof.
  intros G T. induction l as [|a l IH]; cbn [for_each flat_map]; [apply tot_ret|].
  eapply tot_weak; [| |apply (tot_seq _ _ (P a) (fun sk => flat_map (fun a => P a sk) l) (C a) (fun sk => forall a, In a l -> C a sk))];
    auto.
  - intros sk H. split; [apply H; left; auto|]. intros b I. apply H; right; auto.
  - apply T. left; auto.
  - apply IH. intros b I. apply T. right; auto.
Qed.
Lemma tot_get {A} (tab : World -> list A) i (k : A -> WM (TD := TD) unit) P C : (forall a, tot (k a) (P a) (C a)) ->
  tot (do a <- getsk tab i ;; k a) (fun sk => match nth_error (tab sk) i with Some a => P a sk | None => [] end)
      (fun sk => match nth_error (tab sk) i with Some a => C a sk | None => False end).
Proof.
  intros T w Jw TW Cw H. unfold ends, sbind, getsk. destruct (nth_error (tab (skel w)) i) as [a|]; [|contradiction]. apply T; auto.
Qed.

(** ** What must be there *)
Definition there {A} (tab : World -> list A) (i : nat) (sk : World) : Prop :=
  match nth_error (tab sk) i with Some _ => True | None => False end.
Definition line_there (e : codeElement) (sk : World) : Prop :=
  match e with Line _ args => there argss args sk | Templ t => nth_error TN t <> None end.
Definition block_there cb (sk : World) : Prop :=
  match nth_error (blocks sk) cb with Some b => forall e, In e b -> line_there e sk | None => False end.
Lemma tot_line args : tot (line_qualify f args) (plan_line args) (there argss args).
Proof.
  eapply tot_ext; [intros w Jw; apply line_eq|].
  eapply tot_weak; [| |apply (tot_get argss args (fun l => for_each (line_qualify_at f args) (seq 0 (List.length l)))
     (fun l sk => flat_map (fun k => match nth_error (argss sk) args with Some _ => [LArg args k] | None => [] end) (seq 0 (List.length l)))
     (fun l sk => forall k, In k (seq 0 (List.length l)) -> there argss args sk))].
  - intros sk H. unfold there in *. destruct (nth_error (argss sk) args); auto.
  - intros sk l. unfold plan_line. destruct (nth_error (argss sk) args) as [x|] eqn:E; [|tauto].
    rewrite in_map_iff, in_flat_map. intros (k & IN & [<-|[]]). exists k. auto.
  - intros l. apply tot_for; [intros k; apply good_line_at|]. intros k _.
    eapply tot_ext; [intros w Jw; exact (line_at_eq env f AnyR Pl _ _ w Jw)|].
    apply (tot_get argss args (fun _ => visit (LArg args k)) (fun _ _ => [LArg args k]) (fun _ _ => True)). intros _. apply tot_visit.
Qed.
Lemma tot_block cb : tot (CodeBlock_qualify env f cb) (plan_block cb) (block_there cb).
Proof.
  apply (tot_get blocks cb (fun b => for_each (codeElement_qualify env f) b) (fun b sk => flat_map (fun e => plan_code e sk) b)
    (fun b sk => forall e, In e b -> line_there e sk)).
  intros b. apply tot_for; [intros e; apply good_code|]. intros [fm args|t] _; cbn [codeElement_qualify plan_code line_there].
  - apply tot_line.
  - intros w Jw TW T H. unfold ends. rewrite (templ_eq env f AnyR Pl); [|exact Jw|apply H; left; auto]. rewrite TW.
    destruct (nth_error TN t) eqn:TE; [|destruct (T TE)].
    apply (tot_visit (LTempl t) (fun _ => True) w Jw TW Logic.I). exact H.
Qed.
Lemma tot_elem i : tot (InterfaceElement_qualify f i) (plan_elem i) (there ielems i).
Proof.
  eapply tot_ext; [intros w Jw; exact (elem_eq env f AnyR Pl _ w Jw)|].
  apply (tot_get ielems i (fun _ => visit (LElem i)) (fun _ _ => [LElem i]) (fun _ _ => True)). intros _. apply tot_visit.
Qed.
Definition plan_field (fuel fid : nat) (sk : World) : list loc :=
  match nth_error (fields sk) fid with
  | None => []
  | Some fs => match FSType fs with
               | NoType => []
               | IsName _ => [LField fid]
               | IsSpec ts => plan_type fuel ts sk
               end
  end.
Fixpoint type_there (fuel i : nat) (sk : World) : Prop :=
  match fuel with
  | O => lazy = true
  | S fuel' =>
      match nth_error (types sk) i with
      | None => False
      | Some T =>
          (forall fid, In fid (TSStruct T) ->
           match nth_error (fields sk) fid with
           | Some fs => match FSType fs with IsSpec ts => type_there fuel' ts sk | _ => True end
           | None => False
           end) /\
          (forall e, In e (TSInterface T) -> there ielems e sk)
      end
  end.
Lemma tot_type fuel : forall i, tot (TypeSpec_qualify fuel f i) (plan_type fuel i) (type_there fuel i).
Proof.
  induction fuel as [|fuel IH]; intros i.
  { intros w _ _ Z _. exists w. right. split; [exact Z|reflexivity]. }
  eapply tot_ext; [intros w Jw; exact (type_eq env f AnyR Pl _ _ w Jw)|].
  apply (tot_get types i (fun T => do _ <- visit (LType i) ;; do _ <- for_each (field_step f fuel) (TSStruct T) ;;
     for_each (InterfaceElement_qualify f) (TSInterface T))
    (fun T sk => [LType i] ++ flat_map (fun fid => plan_field fuel fid sk) (TSStruct T) ++ flat_map (fun e => plan_elem e sk) (TSInterface T))
    (fun T sk => (forall fid, In fid (TSStruct T) ->
           match nth_error (fields sk) fid with
           | Some fs => match FSType fs with IsSpec ts => type_there fuel ts sk | _ => True end
           | None => False
           end) /\
          (forall e, In e (TSInterface T) -> there ielems e sk))).
  intros T.
  assert (GF : forall fid, good (field_step f fuel fid) (plan_field fuel fid)).
  { intros fid. eapply good_ext; [intros w Jw; exact (field_eq env f AnyR Pl _ _ w Jw)|].
    apply (good_get env f _ _ fields fid (fun fs => match FSType fs with NoType => sret tt | IsName _ => visit (LField fid) | IsSpec ts => TypeSpec_qualify fuel f ts end)
       (fun fs sk => match FSType fs with NoType => [] | IsName _ => [LField fid] | IsSpec ts => plan_type fuel ts sk end)).
    intros fs. destruct (FSType fs); [apply good_ret|apply good_visit|apply good_type]. }
  eapply tot_weak; [| |apply (tot_seq _ _ (fun _ => [LType i])
     (fun sk => flat_map (fun fid => plan_field fuel fid sk) (TSStruct T) ++ flat_map (fun e => plan_elem e sk) (TSInterface T))
     (fun _ => True)); [apply good_visit|apply tot_visit|apply tot_seq; [apply good_for; exact GF| |]]].
  - intros sk [H1 H2]. split; [exact I|]. split; [exact H1|exact H2].
  - intros sk l. auto.
  - apply tot_for; [exact GF|]. intros fid _. eapply tot_ext; [intros w Jw; exact (field_eq env f AnyR Pl _ _ w Jw)|].
    apply (tot_get fields fid (fun fs => match FSType fs with NoType => sret tt | IsName _ => visit (LField fid) | IsSpec ts => TypeSpec_qualify fuel f ts end)
       (fun fs sk => match FSType fs with NoType => [] | IsName _ => [LField fid] | IsSpec ts => plan_type fuel ts sk end)
       (fun fs sk => match FSType fs with IsSpec ts => type_there fuel ts sk | _ => True end)).
    intros fs. destruct (FSType fs); [apply tot_ret|apply tot_visit|apply IH].
  - apply tot_for; [intros e; apply good_elem|]. intros e _. apply tot_elem.
Qed.
Section Value.
Variables (tab : World -> list ValueSpec) (set : list ValueSpec -> World -> World) (L : nat -> loc).
Hypothesis TS : forall w, tab (skel w) = map er_value (tab w).
Hypothesis CO : forall i w, cont w (L i) = obind (nth_error (tab w) i) (fun v => tos_content (VSType v)).
Hypothesis SC : forall i w t, set_cont (L i) (CT t) w = set (upd_with i (fun v => with_vtype v (IsName t)) (tab w)) w.
Hypothesis RE : forall j w, tab (reimp f j w) = tab w.
Definition value_there fuel i (sk : World) : Prop :=
  match nth_error (tab sk) i with
  | None => False
  | Some v => match VSType v with IsSpec ts => type_there fuel ts sk | _ => True end /\
              match VInit v with Some cb => block_there cb sk | None => True end
  end.
Lemma tot_value fuel i : tot (qualify_value env tab set fuel f i) (plan_value tab L fuel i) (value_there fuel i).
Proof.
  eapply tot_ext; [intros w Jw; exact (value_eq env f AnyR Pl tab set L TS CO SC RE fuel i w Jw)|].
  apply (tot_get tab i (fun v => do _ <- match VSType v with NoType => sret tt | IsName _ => visit (L i) | IsSpec ts => TypeSpec_qualify fuel f ts end ;;
              match VInit v with None => sret tt | Some cb => CodeBlock_qualify env f cb end)
        (fun v sk => match VSType v with NoType => [] | IsName _ => [L i] | IsSpec ts => plan_type fuel ts sk end ++
                     match VInit v with None => [] | Some cb => plan_block cb sk end)
        (fun v sk => match VSType v with IsSpec ts => type_there fuel ts sk | _ => True end /\
              match VInit v with Some cb => block_there cb sk | None => True end)).
  intros v.
  apply (tot_seq _ _ (fun sk => match VSType v with NoType => [] | IsName _ => [L i] | IsSpec ts => plan_type fuel ts sk end)
               (fun sk => match VInit v with None => [] | Some cb => plan_block cb sk end)
         (fun sk => match VSType v with IsSpec ts => type_there fuel ts sk | _ => True end)
         (fun sk => match VInit v with Some cb => block_there cb sk | None => True end)).
  - destruct (VSType v); [apply good_ret|apply good_visit|apply good_type].
  - destruct (VSType v); [apply tot_ret|apply tot_visit|apply tot_type].
  - destruct (VInit v); [apply tot_block|apply tot_ret].
Qed.
End Value.
Definition elem_there fuel (e : FileElement) (sk : World) : Prop :=
  match e with
  | EConst d => match nth_error (constDecls sk) d with
                | Some D => forall i, In i (VDSpecs D) -> value_there consts fuel i sk | None => False end
  | EVar d => match nth_error (varDecls sk) d with
              | Some D => forall i, In i (VDSpecs D) -> value_there vars fuel i sk | None => False end
  | EType d => match nth_error (typeDecls sk) d with
               | Some D => forall i, In i (TDTypes D) -> type_there fuel i sk | None => False end
  | EFunc i => match nth_error (funcs sk) i with Some F => block_there (FNBody F) sk | None => False end
  end.
Lemma tot_element fuel e : tot (FileElement_qualify env fuel f e) (plan_element fuel e) (elem_there fuel e).
Proof.
  destruct e as [d|d|d|i]; cbn [FileElement_qualify].
  - apply (tot_get constDecls d (fun D => for_each (qualify_value env consts set_consts fuel f) (VDSpecs D))
            (fun D sk => flat_map (fun i => plan_value consts LConst fuel i sk) (VDSpecs D))
            (fun D sk => forall i, In i (VDSpecs D) -> value_there consts fuel i sk)).
    intros D. apply tot_for; [intros i; apply good_value; auto|]. intros i _. apply tot_value; auto.
  - apply (tot_get varDecls d (fun D => for_each (qualify_value env vars set_vars fuel f) (VDSpecs D))
            (fun D sk => flat_map (fun i => plan_value vars LVar fuel i sk) (VDSpecs D))
            (fun D sk => forall i, In i (VDSpecs D) -> value_there vars fuel i sk)).
    intros D. apply tot_for; [intros i; apply good_value; auto|]. intros i _. apply tot_value; auto.
  - apply (tot_get typeDecls d (fun D => for_each (TypeSpec_qualify fuel f) (TDTypes D))
            (fun D sk => flat_map (fun i => plan_type fuel i sk) (TDTypes D))
            (fun D sk => forall i, In i (TDTypes D) -> type_there fuel i sk)).
    intros D. apply tot_for; [intros i; apply good_type|]. intros i _. apply tot_type.
  - eapply tot_ext; [intros w Jw; exact (func_eq env f AnyR Pl fuel i w Jw)|].
    apply (tot_get funcs i (fun F => do _ <- visit (LFunc i) ;; CodeBlock_qualify env f (FNBody F))
             (fun F sk => [LFunc i] ++ plan_block (FNBody F) sk) (fun F sk => block_there (FNBody F) sk)).
    intros F. eapply tot_weak; [| |apply (tot_seq _ _ (fun _ => [LFunc i]) (plan_block (FNBody F)) (fun _ => True) (block_there (FNBody F)))];
      [cbn; auto|cbn; auto|apply good_visit|apply tot_visit|apply tot_block].
Qed.
Definition file_there fuel (sk : World) : Prop :=
  match nth_error (files sk) f with Some F => forall e, In e (FElements F) -> elem_there fuel e sk | None => False end.
Lemma tot_file fuel : tot (qualify_file env fuel f) (plan_file f fuel) (file_there fuel).
Proof.
  eapply tot_ext; [intros w Jw; apply file_eq|].
  apply (tot_get files f (fun F => for_each (FileElement_qualify env fuel f) (FElements F))
           (fun F sk => flat_map (fun e => plan_element fuel e sk) (FElements F))
           (fun F sk => forall e, In e (FElements F) -> elem_there fuel e sk)).
  intros F. apply tot_for; [intros e; apply good_element; auto|]. intros e _. apply tot_element.
Qed.
End Q.
