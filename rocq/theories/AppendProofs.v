(** The text of the elements of a file does not depend on the elements after them. *)
From Verif Require Import Base BaseFacts GoPath Utf8 Types SpecTypes Imports SpecImports ImportsProofs ImportsTheorems SpecLit Conv Fmt World WorldProofs
  SpecGo SpecRender SpecQualify QualifyProofs QualifyTheorems SourceProofs SourceTheorems SpecFormat FormatProofs SpecCode SpecAppend.

Section Cut.
Context {TD : Type}.
Notation World := (World TD).
Variable env : Env TD.
Variables f k : nat.
Variable R : string * string -> Prop.
Variable Pl : loc -> Prop.
Hypothesis NT : forall t, ~ Pl (LTempl t).
Notation J := (J env f R Pl).
Notation le := (le env f R).
Notation act := (act env).
Notation imp := (imp f).
Notation reimp := (reimp f).
Notation good := (good env f R Pl).
Definition recut (w : World) : World := set_files (upd_with f (first_elements k) (files w)) w.
Lemma cut_recut w : cut f k w = recut w.
Proof. unfold cut, recut, upd_with. destruct (nth_error (files w) f) eqn:E; auto. destruct w; auto. Qed.

Lemma recut_file w g : nth_error (files (recut w)) g =
  if Nat.eqb f g then option_map (first_elements k) (nth_error (files w) g) else nth_error (files w) g.
Proof. unfold recut. cbn [set_files files]. apply nth_upd_with. Qed.
Lemma recut_package i w : file_package i (recut w) = file_package i w.
Proof.
  unfold file_package, rd. rewrite recut_file. destruct (Nat.eqb f i); auto.
  destruct (nth_error (files w) i); auto.
Qed.
Lemma recut_imp w : imp (recut w) = imp w.
Proof. unfold QualifyProofs.imp. rewrite recut_file, Nat.eqb_refl. destruct (nth_error (files w) f); auto. Qed.
Lemma recut_cont w l : cont (recut w) l = cont w l.
Proof. destruct l; reflexivity. Qed.
Lemma upd_with_comm {A} i (g h : A -> A) l : (forall a, g (h a) = h (g a)) ->
  upd_with i g (upd_with i h l) = upd_with i h (upd_with i g l).
Proof.
  intros C. revert i. induction l as [|x l IH]; intros [|i]; try reflexivity; unfold upd_with in *; cbn.
  - rewrite C. auto.
  - specialize (IH i). destruct (nth_error l i) as [a|] eqn:E; cbn; [|rewrite E; auto].
    destruct (nth_error (upd i (h a) l) i) as [b|], (nth_error (upd i (g a) l) i) as [c|]; cbn; congruence.
Qed.
Lemma recut_reimp i w : reimp i (recut w) = recut (reimp i w).
Proof.
  unfold QualifyProofs.reimp, recut, set_files.
  cbn [files constDecls varDecls typeDecls consts vars types fields ielems funcs blocks argss templs]. f_equal.
  apply upd_with_comm. intros F. reflexivity.
Qed.
Lemma recut_set l x w : set_cont l x (recut w) = recut (set_cont l x w).
Proof. destruct l, x; reflexivity. Qed.
Lemma recut_SymbolAt v n w : ValueSpec_SymbolAt v n (recut w) = ValueSpec_SymbolAt v n w.
Proof. unfold ValueSpec_SymbolAt. destruct (if (n <? 0)%Z then None else nth_error (VNames v) (Z.to_nat n)); auto. destruct (VParent v); auto. rewrite recut_package. auto. Qed.
Lemma recut_TypeSymbol T w : TypeSpec_ToSymbol T (recut w) = TypeSpec_ToSymbol T w.
Proof. unfold TypeSpec_ToSymbol. destruct (String.eqb (TSName T) ""); auto. destruct (TSParent T); auto. rewrite recut_package. auto. Qed.
Lemma recut_target w a : arg_target (recut w) a = arg_target w a.
Proof.
  destruct a; cbn [arg_target]; auto.
  - change (rd consts id (recut w)) with (rd consts id w). destruct (rd consts id w) as [v|]; auto. cbn [rbind].
    unfold ValueSpec_ToSymbol. rewrite recut_SymbolAt. auto.
  - change (rd vars id (recut w)) with (rd vars id w). destruct (rd vars id w) as [v|]; auto. cbn [rbind].
    unfold ValueSpec_ToSymbol. rewrite recut_SymbolAt. auto.
  - change (rd types id (recut w)) with (rd types id w). destruct (rd types id w) as [v|]; auto. cbn [rbind].
    rewrite recut_TypeSymbol. auto.
  - change (rd ielems id (recut w)) with (rd ielems id w). destruct (rd ielems id w) as [[c s p|c n s p]|]; auto. cbn [rbind].
    unfold InterfaceMethod_ToMethodRef. destruct p as [p|]; auto.
    change (rd types p (recut w)) with (rd types p w). destruct (rd types p w) as [T|]; auto. cbn [rbind].
    rewrite recut_TypeSymbol. auto.
  - change (rd funcs id (recut w)) with (rd funcs id w). destruct (rd funcs id w) as [v|]; auto. cbn [rbind].
    unfold FuncSpec_ToSymbol. destruct (FNParent v); auto. rewrite recut_package. auto.
Qed.
Definition no_data (x : @content TD) : Prop := match x with CD _ => False | _ => True end.
Lemma recut_act w x : no_data x -> act (recut w) x = act w x.
Proof. destruct x; intros N; [..|destruct N]; auto. cbn [QualifyProofs.act]. rewrite recut_target. auto. Qed.
Lemma Pl_data w l x : Pl l -> cont w l = Some x -> no_data x.
Proof.
  destruct x; cbn; auto. intros P C. destruct (cont_data w l d C) as (t & tm & -> & _). eapply NT; eauto.
Qed.
Lemma recut_asks w x rs : no_data x -> asks env w x rs -> asks env (recut w) x rs.
Proof.
  destruct x; intros N; [..|destruct N]; cbn [asks creq]; auto. intros ->. rewrite recut_target. auto.
Qed.
Lemma recut_stable w i x : no_data x -> stable env w i x -> stable env (recut w) i x.
Proof.
  intros N [S C]. split.
  - intros j I1 X. rewrite recut_act by auto. auto.
  - destruct x; auto. destruct N.
Qed.
Lemma recut_J w : J w -> J (recut w).
Proof.
  intros [JF JI JC]. split.
  - rewrite recut_file, Nat.eqb_refl. destruct (nth_error (files w) f); cbn; congruence.
  - rewrite recut_imp. auto.
  - intros l x P C. rewrite recut_cont in C. pose proof (Pl_data w l x P C) as N. rewrite recut_imp.
    destruct (JC l x P C) as [(rs & A & B)|S]; [left; exists rs; split; auto; apply recut_asks; auto|right; apply recut_stable; auto].
Qed.

(** ** The same in the world that is cut *)
Definition follows (m : WM unit) (P : World -> list loc) : Prop := forall w w1,
  J w -> (forall l, In l (P (skel w)) -> Pl l) -> m w = (Ok tt, w1) -> m (recut w) = (Ok tt, recut w1).
Definition both m P := good m P /\ follows m P.
Lemma both_ext m m' P : (forall w, J w -> m w = m' w) -> both m' P -> both m P.
Proof.
  intros E [G H]. split; [eapply good_ext; eauto|]. intros w w1 Jw PL X. rewrite E in X by auto.
  rewrite E by (apply recut_J; auto). eapply H; eauto.
Qed.
Lemma both_weak m P Q : (forall sk l, In l (Q sk) <-> In l (P sk)) -> both m P -> both m Q.
Proof.
  intros H [G X]. split; [eapply good_weak; eauto|]. intros w w1 Jw PL E. eapply X; eauto. intros l IN. apply PL, H, IN.
Qed.
Lemma both_ret : both (sret tt) (fun _ => []).
Proof. split; [apply good_ret|]. intros w w1 _ _ [= <-]. reflexivity. Qed.
Lemma both_visit l : both (visit env f l) (fun _ => [l]).
Proof.
  split; [apply good_visit|]. intros w w1 Jw PL E. unfold visit in *. rewrite recut_cont.
  destruct (cont w l) as [x|] eqn:C; [|injection E as <-; auto].
  assert (N : no_data x) by (eapply Pl_data; eauto; apply PL; left; auto).
  rewrite recut_act, recut_imp by auto. destruct (act w x (imp w)) as [[y|m] i]; [|discriminate]. injection E as <-.
  rewrite recut_reimp, recut_set. auto.
Qed.
Lemma both_seq m k' P Q : both m P -> both k' Q -> both (do _ <- m ;; k') (fun sk => P sk ++ Q sk).
Proof.
  intros [Gm Fm] [Gk Fk]. split; [apply good_seq; auto|].
  intros w w2 Jw PL E. unfold sbind in *. destruct (m w) as [[[]|e] w1] eqn:Em; [|discriminate].
  assert (PM : forall l, In l (P (skel w)) -> Pl l) by (intros l IN; apply PL, in_or_app; auto).
  destruct (Gm w w1 Jw PM Em) as (L1 & _). rewrite (Fm w w1 Jw PM Em). eapply Fk; eauto.
  - eapply J_le; eauto.
  - intros l IN. rewrite (le_skel _ _ _ _ _ L1) in IN. apply PL, in_or_app; auto.
Qed.
Lemma both_for {A} (g : A -> WM unit) (P : A -> World -> list loc) (l : list A) :
  (forall a, both (g a) (P a)) -> both (for_each g l) (fun sk => flat_map (fun a => P a sk) l).
Proof. intros G. induction l as [|a l IH]; cbn [for_each flat_map]; [apply both_ret|]. apply both_seq; auto. Qed.
Lemma both_get {A} (tab : World -> list A) i (k' : A -> WM unit) (P : A -> World -> list loc) :
  (forall w, tab (skel (recut w)) = tab (skel w)) -> (forall a, both (k' a) (P a)) ->
  both (do a <- getsk tab i ;; k' a) (fun sk => match nth_error (tab sk) i with Some a => P a sk | None => [] end).
Proof.
  intros T B. split; [apply good_get; intros a; apply B|]. intros w w1 Jw PL E. rewrite bind_getsk in *. rewrite T.
  destruct (nth_error (tab (skel w)) i) as [a|] eqn:N; [|discriminate]. destruct (B a) as [_ F]. eapply F; eauto.
Qed.
Lemma both_line_at args i : both (line_qualify_at f args i)
  (fun sk => match nth_error (argss sk) args with Some _ => [LArg args i] | None => [] end).
Proof.
  eapply both_ext; [intros w Jw; eapply line_at_eq; eauto|].
  apply (both_get argss args (fun _ => visit env f (LArg args i)) (fun _ _ => [LArg args i])); [reflexivity|]. intros; apply both_visit.
Qed.
Lemma both_line args : both (line_qualify f args) (plan_line args).
Proof.
  eapply both_ext; [intros w Jw; apply line_eq|].
  pose proof (both_get argss args (fun l => for_each (line_qualify_at f args) (seq 0 (List.length l))) _ (fun _ => eq_refl)
    (fun l => both_for _ _ (seq 0 (List.length l)) (both_line_at args))) as G.
  eapply both_weak; [|exact G]. clear.
  intros sk l. unfold plan_line. destruct (nth_error (argss sk) args) as [x|] eqn:E; [|tauto].
  rewrite in_map_iff, in_flat_map. split.
  - intros (i & <- & IN). exists i. split; auto. left; auto.
  - intros (i & IN & [<-|[]]). exists i. auto.
Qed.
Lemma both_code e : both (codeElement_qualify env f e) (plan_code e).
Proof.
  destruct e as [fm args|t]; [apply both_line|]. split; [apply good_code|].
  intros w w1 _ PL. exfalso. apply (NT t), PL. left; auto.
Qed.
Lemma both_block cb : both (CodeBlock_qualify env f cb) (plan_block cb).
Proof.
  apply (both_get blocks cb (fun b => for_each (codeElement_qualify env f) b) (fun b sk => flat_map (fun e => plan_code e sk) b)); [reflexivity|].
  intros b. apply both_for. intros e. apply both_code.
Qed.
Lemma both_elem i : both (InterfaceElement_qualify f i) (plan_elem i).
Proof.
  eapply both_ext; [intros w Jw; eapply elem_eq; eauto|].
  apply (both_get ielems i (fun _ => visit env f (LElem i)) (fun _ _ => [LElem i])); [reflexivity|]. intros; apply both_visit.
Qed.
Lemma both_type fuel : forall i, both (TypeSpec_qualify fuel f i) (plan_type fuel i).
Proof.
  induction fuel as [|fuel IH]; intros i.
  { split; intros w w1 Jw _ E; discriminate. }
  cbn [plan_type].
  assert (GF : forall fid, both (field_step f fuel fid) (fun sk =>
            match nth_error (fields sk) fid with
            | None => []
            | Some fs => match FSType fs with
                         | NoType => []
                         | IsName _ => [LField fid]
                         | IsSpec ts => plan_type fuel ts sk
                         end
            end)).
  { intros fid. eapply both_ext; [intros w Jw; eapply field_eq; eauto|].
    apply (both_get fields fid (fun fs => match FSType fs with NoType => sret tt | IsName _ => visit env f (LField fid) | IsSpec ts => TypeSpec_qualify fuel f ts end)
                (fun fs sk => match FSType fs with NoType => [] | IsName _ => [LField fid] | IsSpec ts => plan_type fuel ts sk end)); [reflexivity|].
    intros fs. destruct (FSType fs); [apply both_ret|apply both_visit|apply IH]. }
  eapply both_ext; [intros w Jw; eapply type_eq; eauto|].
  apply (both_get types i (fun T => do _ <- visit env f (LType i) ;; do _ <- for_each (field_step f fuel) (TSStruct T) ;; for_each (InterfaceElement_qualify f) (TSInterface T))
        (fun T sk => [LType i] ++
          flat_map (fun fid =>
            match nth_error (fields sk) fid with
            | None => []
            | Some fs => match FSType fs with
                         | NoType => []
                         | IsName _ => [LField fid]
                         | IsSpec ts => plan_type fuel ts sk
                         end
            end) (TSStruct T) ++
          flat_map (fun e => plan_elem e sk) (TSInterface T))); [reflexivity|].
  intros T. apply (both_seq _ _ (fun _ => [LType i])); [apply both_visit|].
  apply both_seq; apply both_for; auto. intros e; apply both_elem.
Qed.
Section Value.
Variables (tab : World -> list ValueSpec) (set : list ValueSpec -> World -> World) (L : nat -> loc).
Hypothesis TS : forall w, tab (skel w) = map er_value (tab w).
Hypothesis CO : forall i w, cont w (L i) = obind (nth_error (tab w) i) (fun v => tos_content (VSType v)).
Hypothesis SC : forall i w t, set_cont (L i) (CT t) w = set (upd_with i (fun v => with_vtype v (IsName t)) (tab w)) w.
Hypothesis RE : forall j w, tab (reimp j w) = tab w.
Hypothesis RC : forall w, tab (skel (recut w)) = tab (skel w).
Lemma both_value fuel i : both (qualify_value env tab set fuel f i) (plan_value tab L fuel i).
Proof.
  eapply both_ext; [intros w Jw; eapply (value_eq env f R Pl tab set L TS CO SC RE); eauto|].
  apply (both_get tab i (fun v => do _ <- match VSType v with NoType => sret tt | IsName _ => visit env f (L i) | IsSpec ts => TypeSpec_qualify fuel f ts end ;;
              match VInit v with None => sret tt | Some cb => CodeBlock_qualify env f cb end)
        (fun v sk => match VSType v with NoType => [] | IsName _ => [L i] | IsSpec ts => plan_type fuel ts sk end ++
                     match VInit v with None => [] | Some cb => plan_block cb sk end)); [exact RC|].
  intros v.
  apply (both_seq _ _ (fun sk => match VSType v with NoType => [] | IsName _ => [L i] | IsSpec ts => plan_type fuel ts sk end)
           (fun sk => match VInit v with None => [] | Some cb => plan_block cb sk end)).
  - destruct (VSType v); [apply both_ret|apply both_visit|apply both_type].
  - destruct (VInit v); [apply both_block|apply both_ret].
Qed.
End Value.
Lemma both_element fuel e : both (FileElement_qualify env fuel f e) (plan_element fuel e).
Proof.
  destruct e as [d|d|d|i]; cbn [FileElement_qualify plan_element].
  - apply (both_get constDecls d (fun D => for_each (qualify_value env consts set_consts fuel f) (VDSpecs D))
            (fun D sk => flat_map (fun i => plan_value consts LConst fuel i sk) (VDSpecs D))); [reflexivity|].
    intros D. apply both_for. intros i. apply both_value; auto.
  - apply (both_get varDecls d (fun D => for_each (qualify_value env vars set_vars fuel f) (VDSpecs D))
            (fun D sk => flat_map (fun i => plan_value vars LVar fuel i sk) (VDSpecs D))); [reflexivity|].
    intros D. apply both_for. intros i. apply both_value; auto.
  - apply (both_get typeDecls d (fun D => for_each (TypeSpec_qualify fuel f) (TDTypes D))
            (fun D sk => flat_map (fun i => plan_type fuel i sk) (TDTypes D))); [reflexivity|].
    intros D. apply both_for. intros i. apply both_type; auto.
  - eapply both_ext; [intros w Jw; eapply (func_eq env f R Pl fuel); eauto|].
    apply (both_get funcs i (fun F => do _ <- visit env f (LFunc i) ;; CodeBlock_qualify env f (FNBody F))
             (fun F sk => [LFunc i] ++ plan_block (FNBody F) sk)); [reflexivity|].
    intros F. apply (both_seq _ _ (fun _ => [LFunc i])); [apply both_visit|apply both_block].
Qed.
Definition plan_elements fuel (es : list FileElement) (sk : World) : list loc := flat_map (fun e => plan_element fuel e sk) es.
Lemma both_elements fuel es : both (for_each (FileElement_qualify env fuel f) es) (plan_elements fuel es).
Proof. apply both_for. intros e. apply both_element. Qed.
End Cut.
