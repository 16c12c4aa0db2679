(** What a program did to files and specs, from its calls. *)
From Verif Require Import Base BaseFacts GoPath Types SpecTypes Imports SpecImports ImportsProofs ImportsTheorems Conv World WorldProofs
  SpecGo SpecRender SpecCalls SpecWorld Template TemplateProofs SpecFile SpecDecl FileTheorems SpecQualify SourceTheorems QualifyExamples SpecProgram ProgramFrame ProgramCalls.

Section Additions.
Context {TD : Type}.
Notation World := (World TD).
Notation WM := (WM (TD := TD)).

Definition thing_eqb (a b : thing) : bool :=
  match a, b with
  | AConstSpec i, AConstSpec j | AVarSpec i, AVarSpec j | ATypSpec i, ATypSpec j | AFuncSpec i, AFuncSpec j => Nat.eqb i j
  | _, _ => false
  end.
(** files and declarations stay as they are *)
Definition stays (w w' : World) : Prop :=
  files w' = files w /\ constDecls w' = constDecls w /\ varDecls w' = varDecls w /\ typeDecls w' = typeDecls w.
Lemma stays_trans a b c : stays a b -> stays b c -> stays a c.
Proof. intros (A & B & C & D) (A' & B' & C' & D'). repeat split; congruence. Qed.
Definition moves (f : nat) (b : thing -> bool) (m : WM unit) : Prop :=
  forall w, stays w (snd (m w)) /\
    (fst (m w) = Ok tt -> forall k, file_of (snd (m w)) k = if b k then Some f else file_of w k).
Lemma moves_each f (K : nat -> thing) (g : nat -> WM unit) l : (forall id, moves f (fun k => thing_eqb k (K id)) (g id)) ->
  moves f (fun k => existsb (fun id => thing_eqb k (K id)) l) (for_each g l).
Proof.
  intros H. induction l as [|id l IH]; intros w; cbn [for_each existsb].
  - unfold sret. cbn. repeat split; auto.
  - destruct (H id w) as [S1 F1]. unfold sbind. destruct (g id w) as [[[]|e] w1]; cbn [fst snd] in *.
    + destruct (IH w1) as [S2 F2]. split; [eapply stays_trans; eauto|]. intros O k. rewrite F2 by auto. rewrite F1 by auto.
      destruct (thing_eqb k (K id)); cbn; auto. destruct (existsb _ l); auto.
    + split; auto. discriminate.
Qed.
Ltac moved := intros w; unfold sbind, get, put; cbn beta;
  match goal with |- context [nth_error ?l ?i] => destruct (nth_error l i) as [v|] eqn:E end; cbn [fst snd];
  [|split; [repeat split|discriminate]];
  split; [repeat split|]; intros _ [j|j|j|j]; cbn; auto;
  match goal with |- context [Nat.eqb j ?i] => destruct (Nat.eqb_spec j i) as [->|N] end;
  [rewrite nth_upd_same by (apply nth_error_Some; congruence)|rewrite nth_upd_other by auto]; reflexivity.
Lemma moves_const f id : moves f (fun k => thing_eqb k (AConstSpec id)) (Value_setParent consts set_consts f id).
Proof. unfold Value_setParent. moved. Qed.
Lemma moves_var f id : moves f (fun k => thing_eqb k (AVarSpec id)) (Value_setParent vars set_vars f id).
Proof. unfold Value_setParent. moved. Qed.
Lemma moves_type f id : moves f (fun k => thing_eqb k (ATypSpec id)) (Type_setParent f id).
Proof. unfold Type_setParent. moved. Qed.
Lemma moves_func f id : moves f (fun k => thing_eqb k (AFuncSpec id)) (Func_setParent f id).
Proof. unfold Func_setParent. moved. Qed.

Lemma existsb_false {A} (l : list A) : existsb (fun _ => false) l = false.
Proof. induction l; auto. Qed.
Lemma setParent_moves f e w :
  stays w (snd (setParent f e w)) /\
  (fst (setParent f e w) = Ok tt -> forall k, file_of (snd (setParent f e w)) k = if part_of w (AddedElement e) k then Some f else file_of w k).
Proof.
  destruct e as [d|d|d|fn]; cbn [setParent part_of].
  - unfold sbind, get. destruct (nth_error (constDecls w) d) as [D|] eqn:E; cbn [fst snd]; [|split; [repeat split|discriminate]].
    destruct (moves_each f AConstSpec _ (VDSpecs D) (moves_const f) w) as [S F]. split; auto. intros O k. rewrite F by auto.
    destruct k; cbn; rewrite ?existsb_false; auto.
  - unfold sbind, get. destruct (nth_error (varDecls w) d) as [D|] eqn:E; cbn [fst snd]; [|split; [repeat split|discriminate]].
    destruct (moves_each f AVarSpec _ (VDSpecs D) (moves_var f) w) as [S F]. split; auto. intros O k. rewrite F by auto.
    destruct k; cbn; rewrite ?existsb_false; auto.
  - unfold sbind, get. destruct (nth_error (typeDecls w) d) as [D|] eqn:E; cbn [fst snd]; [|split; [repeat split|discriminate]].
    destruct (moves_each f ATypSpec _ (TDTypes D) (moves_type f) w) as [S F]. split; auto. intros O k. rewrite F by auto.
    destruct k; cbn; rewrite ?existsb_false; auto.
  - destruct (moves_func f fn w) as [S F]. split; [exact S|]. intros O k. rewrite F by auto. destruct k; reflexivity.
Qed.
Definition with_new (F : GoFile) (e : FileElement) : GoFile :=
  mkFile (FImports F) (FName F) (FFileComment F) (FPackageComment F) (FPackageName F) (FCanonical F) (FElements F ++ [e]).
(** what an addition does *)
Definition addition_done (f : nat) (a : addition) (w : World) (r : res unit * World) : Prop :=
  decls_grow w (snd r) /\
  match fst r with
  | Panic _ => files (snd r) = files w
  | Ok _ => (exists F e, nth_error (files w) f = Some F /\ files (snd r) = upd f (with_new F e) (files w) /\ is_added (snd r) a e) /\
            forall k, file_of (snd r) k = if part_of w a k then Some f else file_of w k
  end.
Lemma stays_grow w w' : stays w w' -> decls_grow w w'.
Proof. intros (A & B & C & D). split; rewrite ?B, ?C, ?D; apply grows_refl. Qed.
Lemma AddElement_done f e w : addition_done f (AddedElement e) w (AddElement f e w).
Proof.
  destruct (setParent_moves f e w) as [S F]. unfold AddElement, sbind. unfold addition_done.
  destruct (setParent f e w) as [[[]|m] w1]; cbn [fst snd] in *.
  - unfold get. destruct S as (S1 & S2 & S3 & S4). rewrite S1.
    destruct (nth_error (files w) f) as [G|] eqn:E; cbn [fst snd].
    + split; [split; cbn; rewrite ?S2, ?S3, ?S4; apply grows_refl|]. split.
      * exists G, e. cbn. rewrite S1. repeat split; auto.
      * intros k. rewrite <- (F eq_refl k). destruct k; reflexivity.
    + split; [apply stays_grow; repeat split; auto|]. auto.
  - split; [apply stays_grow; auto|apply S].
Qed.
Lemma setParent_decls f e w : stays w (snd (AddElement f e w)) \/ exists F, nth_error (files w) f = Some F /\
  files (snd (AddElement f e w)) = upd f (with_new F e) (files w) /\
  constDecls (snd (AddElement f e w)) = constDecls w /\ varDecls (snd (AddElement f e w)) = varDecls w /\ typeDecls (snd (AddElement f e w)) = typeDecls w.
Proof.
  destruct (setParent_moves f e w) as [S F]. unfold AddElement, sbind.
  destruct (setParent f e w) as [[[]|m] w1]; cbn [fst snd] in *; [|auto].
  unfold get. destruct S as (S1 & S2 & S3 & S4). rewrite S1.
  destruct (nth_error (files w) f) as [G|] eqn:E; cbn [fst snd]; [right|left; repeat split; auto].
  exists G. cbn. rewrite S1. auto.
Qed.
Lemma among_one id c : among id (Some [c]) = Nat.eqb id c.
Proof. cbn. apply orb_false_r. Qed.
Lemma add_done f a w : addition_done f a w (add f a w).
Proof.
  destruct a as [e|c|c|c]; cbn [add]; [apply AddElement_done| | |].
  - unfold AddConst, NewConstDecl, sbind, alloc.
    set (w1 := set_constDecls (constDecls w ++ [mkValueDecl "" [c]]) w). set (d := List.length (constDecls w)).
    assert (N : nth_error (constDecls w1) d = Some (mkValueDecl "" [c])) by (cbn; rewrite nth_error_app2, Nat.sub_diag by apply Nat.le_refl; auto).
    assert (G : decls_grow w w1) by (split; cbn; auto using grows_refl, grows_app).
    destruct (AddElement_done f (EConst d) w1) as [D M]. pose proof (setParent_decls f (EConst d) w1) as S.
    split; [eapply decls_grow_trans; eauto|].
    destruct (AddElement f (EConst d) w1) as [[[]|m] w2]; cbn [fst snd] in *; [|exact M].
    destruct M as [(F & e & E & Fs & I) K]. split.
    + exists F, e. split; auto. split; auto. cbn in I. subst e. exists d. split; auto. exists [].
      assert (constDecls w2 = constDecls w1) as -> by (destruct S as [S|(G0 & _ & _ & S & _)]; [apply S|exact S]). rewrite N. reflexivity.
    + intros k. rewrite K. destruct k; cbn [part_of]; try reflexivity. rewrite N. cbn [option_map VDSpecs]. rewrite among_one. reflexivity.
  - unfold AddVar, NewVarDecl, sbind, alloc.
    set (w1 := set_varDecls (varDecls w ++ [mkValueDecl "" [c]]) w). set (d := List.length (varDecls w)).
    assert (N : nth_error (varDecls w1) d = Some (mkValueDecl "" [c])) by (cbn; rewrite nth_error_app2, Nat.sub_diag by apply Nat.le_refl; auto).
    assert (G : decls_grow w w1) by (split; cbn; auto using grows_refl, grows_app).
    destruct (AddElement_done f (EVar d) w1) as [D M]. pose proof (setParent_decls f (EVar d) w1) as S.
    split; [eapply decls_grow_trans; eauto|].
    destruct (AddElement f (EVar d) w1) as [[[]|m] w2]; cbn [fst snd] in *; [|exact M].
    destruct M as [(F & e & E & Fs & I) K]. split.
    + exists F, e. split; auto. split; auto. cbn in I. subst e. exists d. split; auto. exists [].
      assert (varDecls w2 = varDecls w1) as -> by (destruct S as [S|(G0 & _ & _ & _ & S & _)]; [apply S|exact S]). rewrite N. reflexivity.
    + intros k. rewrite K. destruct k; cbn [part_of]; try reflexivity. rewrite N. cbn [option_map VDSpecs]. rewrite among_one. reflexivity.
  - unfold AddType, NewTypeDecl, sbind, alloc.
    set (w1 := set_typeDecls (typeDecls w ++ [mkTypeDecl "" [c]]) w). set (d := List.length (typeDecls w)).
    assert (N : nth_error (typeDecls w1) d = Some (mkTypeDecl "" [c])) by (cbn; rewrite nth_error_app2, Nat.sub_diag by apply Nat.le_refl; auto).
    assert (G : decls_grow w w1) by (split; cbn; auto using grows_refl, grows_app).
    destruct (AddElement_done f (EType d) w1) as [D M]. pose proof (setParent_decls f (EType d) w1) as S.
    split; [eapply decls_grow_trans; eauto|].
    destruct (AddElement f (EType d) w1) as [[[]|m] w2]; cbn [fst snd] in *; [|exact M].
    destruct M as [(F & e & E & Fs & I) K]. split.
    + exists F, e. split; auto. split; auto. cbn in I. subst e. exists d. split; auto. exists [].
      assert (typeDecls w2 = typeDecls w1) as -> by (destruct S as [S|(G0 & _ & _ & _ & _ & S)]; [apply S|exact S]). rewrite N. reflexivity.
    + intros k. rewrite K. destruct k; cbn [part_of]; try reflexivity. rewrite N. cbn [option_map TDTypes]. rewrite among_one. reflexivity.
Qed.
Lemma first_of_grows {A} (g : A -> list nat) l l' d id : grows g l l' ->
  first_of (option_map g (nth_error l d)) id -> first_of (option_map g (nth_error l' d)) id.
Proof.
  intros G [r E]. destruct (nth_error l d) as [D|] eqn:N; [|discriminate]. injection E as E.
  destruct (G d D N) as (D' & r' & N' & M). exists (r ++ r'). rewrite N'. cbn. rewrite M, E. reflexivity.
Qed.
Lemma is_added_grows (w w' : World) a e : decls_grow w w' -> is_added w a e -> is_added w' a e.
Proof. intros [A B C]. destruct a; cbn; auto; intros (d & E & H); exists d; split; auto; eapply first_of_grows; eauto. Qed.
(** a new file *)
Lemma NewGoFile_done n p k (w : World) :
  exists r, NewGoFile n p k w = (r, match r with Ok _ => set_files (files w ++ [mkFile (NewImportsFor p) n "" "" k "" []]) w | Panic _ => w end).
Proof.
  exists (fst (NewGoFile n p k w)). unfold NewGoFile, spanic, alloc. destruct (negb (filepath_Base n =? n)%string); [reflexivity|].
  destruct (negb (filepath_Ext n =? ".go")%string); reflexivity.
Qed.
End Additions.

Section Histories.
Context {TD : Type}.
Variable env : Env TD.
Notation World := (World TD).
Notation WM := (WM (TD := TD)).
Notation ordinary := (ordinary (TD := TD)).
Lemma cases (c : api_call TD) : ordinary c \/ (exists n p k, c = PNewFile n p k) \/ exists f a, c = PAdd f a.
Proof. destruct c; cbn [ProgramCalls.ordinary]; eauto 6. Qed.
Lemma after_cons c p (w : World) : after env (c :: p) w = after env p (snd (do_call env c w)).
Proof. reflexivity. Qed.
Definition anything (_ : nat) (_ _ : Imports) : Prop := True.
Lemma any_frame c w : ordinary c -> frame anything w (snd (do_call env c w)).
Proof. intros O. apply framed_call; unfold anything; auto. Qed.
Lemma grow_files (w : World) v : decls_grow w (set_files v w).
Proof. split; apply grows_refl. Qed.
Lemma call_grows c w : decls_grow w (snd (do_call env c w)).
Proof.
  destruct (cases c) as [O|[(n & p & k & ->)|(f & a & ->)]].
  - apply any_frame; auto.
  - cbn [do_call]. unfold ended. destruct (NewGoFile_done n p k w) as [r ->]. cbn [snd]. destruct r; auto using grow_files, decls_grow_refl.
  - apply (add_done f a w).
Qed.
Definition elements_of (f : nat) (c : api_call TD) (w : World) : list addition :=
  match c with
  | PAdd g a => if Nat.eqb g f then match fst (do_call env c w) with Ok _ => [a] | Panic _ => [] end else []
  | _ => []
  end.
Lemma call_elements c w f F : nth_error (files w) f = Some F ->
  exists F' es, nth_error (files (snd (do_call env c w))) f = Some F' /\ FElements F' = FElements F ++ es /\
    Forall2 (is_added (snd (do_call env c w))) (elements_of f c w) es.
Proof.
  intros E. destruct (cases c) as [O|[(n & p & k & ->)|(g & a & ->)]].
  - destruct (proj2 (f_files _ _ _ (any_frame c w O)) f F E) as (F' & N & K). exists F', []. rewrite app_nil_r.
    split; auto. split; [apply K|]. destruct c; try constructor; contradiction.
  - cbn [do_call elements_of]. unfold ended. destruct (NewGoFile_done n p k w) as [r ->]. cbn [snd].
    exists F, []. rewrite app_nil_r. destruct r; cbn; repeat split; auto. rewrite nth_error_app1; auto. apply nth_error_Some. congruence.
  - cbn [do_call elements_of]. destruct (add_done g a w) as [_ D]. destruct (add g a w) as [[[]|m] w']; cbn [fst snd] in *.
    + destruct D as [(G & e & EG & FS & I) _]. rewrite FS. destruct (Nat.eqb_spec g f) as [->|N].
      * rewrite EG in E. injection E as <-. exists (with_new G e), [e]. rewrite nth_upd_same by (apply nth_error_Some; congruence).
        repeat split; auto.
      * exists F, []. rewrite nth_upd_other by auto. rewrite app_nil_r. auto.
    + rewrite D. exists F, []. rewrite app_nil_r. repeat split; auto. destruct (Nat.eqb g f); constructor.
Qed.
Lemma after_grows p : forall w, decls_grow w (after env p w).
Proof.
  induction p as [|c p IH]; intros w; [apply decls_grow_refl|]. rewrite after_cons. eapply decls_grow_trans; [apply call_grows|apply IH].
Qed.
Lemma after_elements p : forall w f F, nth_error (files w) f = Some F ->
  exists F' es, nth_error (files (after env p w)) f = Some F' /\ FElements F' = FElements F ++ es /\
    Forall2 (is_added (after env p w)) (added env f p w) es.
Proof.
  induction p as [|c p IH]; intros w f F E.
  - exists F, []. rewrite app_nil_r. repeat split; auto. constructor.
  - rewrite after_cons. cbn [added]. destruct (call_elements c w f F E) as (F1 & e1 & E1 & M1 & A1).
    destruct (IH _ f F1 E1) as (F2 & e2 & E2 & M2 & A2). exists F2, (e1 ++ e2). split; auto.
    split; [rewrite M2, M1, app_assoc; auto|]. apply Forall2_app; auto.
    fold (elements_of f c w). pose proof (after_grows p (snd (do_call env c w))) as G.
    clear -A1 G. induction A1; constructor; auto. eapply is_added_grows; eauto.
Qed.
Lemma ElementAt_nth F k e : nth_error (FElements F) k = Some e <-> ElementAt F (Z.of_nat k) = Ok e.
Proof.
  unfold ElementAt. destruct (Z.ltb_spec (Z.of_nat k) 0) as [L|L]; [lia|]. rewrite Nat2Z.id.
  destruct (nth_error (FElements F) k); split; congruence.
Qed.
Lemma ElementAt_Ok F i e : ElementAt F i = Ok e -> exists k, i = Z.of_nat k /\ nth_error (FElements F) k = Some e.
Proof.
  unfold ElementAt. destruct (Z.ltb_spec i 0) as [L|L]; [discriminate|].
  destruct (nth_error (FElements F) (Z.to_nat i)) as [x|] eqn:E; [|discriminate]. intros [= <-].
  exists (Z.to_nat i). rewrite Z2Nat.id by auto. auto.
Qed.
Lemma ElementAt_panics F i : ((i < 0)%Z \/ (Z.of_nat (NumElements F) <= i)%Z) <-> ElementAt F i = Panic index_oob.
Proof.
  unfold ElementAt, NumElements. destruct (Z.ltb_spec i 0) as [L|L]; [split; auto|].
  destruct (nth_error (FElements F) (Z.to_nat i)) as [x|] eqn:E.
  - assert (Z.to_nat i < List.length (FElements F)) by (apply nth_error_Some; congruence). split; [lia|discriminate].
  - apply nth_error_None in E. split; [auto|lia].
Qed.
Lemma history_elements p (w : World) f F : nth_error (files w) f = Some F ->
  exists F', nth_error (files (after env p w)) f = Some F' /\
    NumElements F' = NumElements F + List.length (added env f p w) /\
    (forall i e, ElementAt F i = Ok e -> ElementAt F' i = Ok e) /\
    (forall k a, nth_error (added env f p w) k = Some a ->
       exists e, ElementAt F' (Z.of_nat (NumElements F + k)) = Ok e /\ is_added (after env p w) a e) /\
    (forall i, ((i < 0)%Z \/ (Z.of_nat (NumElements F') <= i)%Z) <-> ElementAt F' i = Panic index_oob).
Proof.
  intros E. destruct (after_elements p w f F E) as (F' & es & E' & M & A). exists F'. split; auto.
  assert (LE : List.length es = List.length (added env f p w)) by (clear -A; induction A; cbn; auto).
  split; [unfold NumElements; rewrite M, app_length; lia|]. split; [|split; [|apply ElementAt_panics]].
  - intros i e G. destruct (ElementAt_Ok F i e G) as (k & -> & N). apply ElementAt_nth. rewrite M, nth_error_app1; auto.
    apply nth_error_Some. congruence.
  - intros k a N. assert (exists e, nth_error es k = Some e /\ is_added (after env p w) a e) as (e & Ne & I).
    { clear -A N. revert k N. induction A as [|x y l l' H _ IH]; intros [|k] N; cbn in *; try discriminate; eauto. injection N as <-. eauto. }
    exists e. split; auto. apply ElementAt_nth. unfold NumElements. rewrite M, nth_error_app2 by lia.
    replace (_ + k - _) with k by lia. auto.
Qed.

(** ** The file of a spec *)
Lemma call_file c w k : match c with PAdd _ _ => fst (do_call env c w) = Ok tt | _ => True end ->
  file_of (snd (do_call env c w)) k = match c with PAdd g a => if part_of w a k then Some g else file_of w k | _ => file_of w k end.
Proof.
  intros H. destruct (cases c) as [O|[(n & p & j & ->)|(g & a & ->)]].
  - rewrite (f_of _ _ _ (any_frame c w O)). destruct c; auto. contradiction.
  - cbn [do_call]. unfold ended. destruct (NewGoFile_done n p j w) as [r ->]. cbn [snd]. destruct r; destruct k; reflexivity.
  - cbn [do_call] in *. destruct (add_done g a w) as [_ D]. rewrite H in D. apply D.
Qed.
Lemma history_file p : forall w k, additions_return env p w ->
  file_of (after env p w) k = last_file env k p w (file_of w k).
Proof.
  induction p as [|c p IH]; intros w k H; auto. rewrite after_cons. cbn [last_file additions_return] in *. destruct H as [H1 H2].
  rewrite IH by auto. rewrite call_file by auto. reflexivity.
Qed.

(** ** Imports *)
Definition by_calls (i j : Imports) : Prop := exists h, j = run h i.
Lemma by_calls_refl i : by_calls i i. Proof. exists []. reflexivity. Qed.
Lemma by_calls_trans i j k : by_calls i j -> by_calls j k -> by_calls i k.
Proof. intros [h ->] [h' ->]. exists (h ++ h'). unfold run. rewrite fold_left_app. reflexivity. Qed.
Lemma by_calls_exec c i : by_calls i (exec c i). Proof. exists [c]. reflexivity. Qed.
Definition reached (F : GoFile) : Prop := exists h, FImports F = run h (NewImportsFor (pkgPath (FImports F))).
Definition by_calls_of (_ : nat) := by_calls.
Lemma reached_kept f F F' : file_kept by_calls_of f F F' -> reached F -> reached F' /\ identity F' = identity F.
Proof.
  intros (A & B & C & h & D) [h0 E]. unfold reached, identity.
  assert (G : FImports F' = run (h0 ++ h) (NewImportsFor (pkgPath (FImports F)))) by (rewrite D, E at 1; unfold run; rewrite fold_left_app; reflexivity).
  assert (K : pkgPath (FImports F') = pkgPath (FImports F)) by (rewrite G; apply run_new_own).
  rewrite K, B, C. split; eauto.
Qed.
Definition files_made (c : api_call TD) (w : World) : list (string * string * string) :=
  match c with PNewFile n q k => match fst (do_call env c w) with Ok _ => [(n, q, k)] | Panic _ => [] end | _ => [] end.
Lemma upd_identity l f F e : nth_error l f = Some F -> map identity (upd f (with_new F e) l) = map identity l.
Proof. revert f. induction l as [|G l IH]; intros [|f] E; cbn in *; try discriminate; auto; [injection E as ->; auto|]. f_equal; auto. Qed.
Lemma upd_reached l f F e : nth_error l f = Some F -> Forall reached l -> Forall reached (upd f (with_new F e) l).
Proof.
  intros E H. revert f E. induction H as [|G l HG H IH]; intros [|f] E; cbn in *; try discriminate.
  - injection E as <-. constructor; auto.
  - constructor; auto.
Qed.
Lemma kept_lists : forall l l' : list GoFile, List.length l' = List.length l ->
  (forall f F, nth_error l f = Some F -> exists F', nth_error l' f = Some F' /\ reached F' /\ identity F' = identity F) ->
  Forall reached l' /\ map identity l' = map identity l.
Proof.
  induction l as [|F l IH]; intros [|F' l'] L H; try discriminate; cbn; auto.
  destruct (H 0 F eq_refl) as (G & [= <-] & A & B). destruct (IH l') as [C D]; [cbn in L; congruence|intros f; apply (H (S f))|].
  split; [constructor; auto|congruence].
Qed.
Lemma call_files c w : imports_by_calls env -> Forall reached (files w) ->
  Forall reached (files (snd (do_call env c w))) /\ map identity (files (snd (do_call env c w))) = map identity (files w) ++ files_made c w.
Proof.
  intros T H. destruct (cases c) as [O|[(n & p & k & ->)|(g & a & ->)]].
  - assert (X : frame by_calls_of w (snd (do_call env c w))).
    { apply framed_call; unfold by_calls_of; eauto using by_calls_refl, by_calls_trans, by_calls_exec. }
    replace (files_made c w) with (@nil (string * string * string)) by (destruct c; auto; contradiction). rewrite app_nil_r.
    destruct (f_files _ _ _ X) as [L K]. clear X. apply kept_lists; auto.
    intros f F E. destruct (K f F E) as (F' & E' & KF). exists F'. split; auto. rewrite Forall_forall in H.
    apply (reached_kept f); auto. apply H. eapply nth_error_In; eauto.
  - cbn [do_call files_made]. unfold ended. destruct (NewGoFile_done n p k w) as [r ->]. cbn [fst snd].
    destruct r as [x|m]; cbn [files set_files]; [|rewrite app_nil_r; auto].
    rewrite map_app. split; auto. apply Forall_app. split; auto. constructor; auto. exists []. reflexivity.
  - cbn [do_call files_made]. rewrite app_nil_r. destruct (add_done g a w) as [_ D]. destruct (add g a w) as [[[]|m] w']; cbn [fst snd] in *.
    + destruct D as [(F & e & E & FS & _) _]. rewrite FS. split; [apply upd_reached|apply upd_identity]; auto.
    + rewrite D. auto.
Qed.
Lemma history_files p : forall w, imports_by_calls env -> Forall reached (files w) ->
  Forall reached (files (after env p w)) /\ map identity (files (after env p w)) = map identity (files w) ++ made env p w.
Proof.
  induction p as [|c p IH]; intros w T H; [cbn; rewrite app_nil_r; auto|]. rewrite after_cons. cbn [made].
  destruct (call_files c w T H) as [A B]. destruct (IH _ T A) as [C D]. split; auto. rewrite D, B, <- app_assoc. reflexivity.
Qed.
Lemma program_files p : imports_by_calls env -> map identity (files (after env p empty_world)) = made env p empty_world.
Proof. intros T. apply (history_files p empty_world T). constructor. Qed.
Lemma program_imports p f F : imports_by_calls env -> nth_error (files (after env p empty_world)) f = Some F ->
  exists h, FImports F = run h (NewImportsFor (pkgPath (FImports F))).
Proof.
  intros T N. destruct (history_files p empty_world T) as [H _]; [constructor|]. apply nth_error_In in N. rewrite Forall_forall in H. apply H; auto.
Qed.
Lemma program_twice p f fuel s w1 : imports_by_calls env ->
  no_templates (after env p empty_world) f -> source env fuel f (after env p empty_world) = (Ok s, w1) -> source env fuel f w1 = (Ok s, w1).
Proof.
  intros T N E. destruct (nth_error (files (after env p empty_world)) f) as [F|] eqn:NF.
  - destruct (program_imports p f F T NF) as [h H]. eapply source_twice; eauto.
  - unfold source, qualify_file, sbind, get in E. rewrite NF in E. discriminate.
Qed.

(** ** The imports of a file that is not written *)
Definition only (f : nat) (g : nat) (i j : Imports) : Prop := g = f -> i = j.
Lemma call_imports c w f F : unwritten f [c] -> nth_error (files w) f = Some F ->
  exists F', nth_error (files (snd (do_call env c w))) f = Some F' /\ FImports F' = run (calls_on f [c]) (FImports F).
Proof.
  intros U E. specialize (U c (or_introl eq_refl)). destruct (cases c) as [O|[(n & p & k & ->)|(g & a & ->)]].
  - assert (Z : (exists g d, c = PImport g d /\ g = f) \/ (forall g, touched c = Some g -> g <> f) /\ calls_on f [c] = []).
    { destruct c; cbn in *; try (right; split; [intros g [= <-]; auto; fail|reflexivity]); try (right; split; [discriminate|reflexivity]).
      destruct (Nat.eqb_spec f0 f) as [->|N]; [left; eauto|right; split; auto]. intros g [= <-]; auto. }
    destruct Z as [(g & d & -> & ->)|[Z ->]].
    + cbn. rewrite Nat.eqb_refl. unfold onImports. rewrite E. cbn. rewrite nth_upd_same by (apply nth_error_Some; congruence).
      eexists. split; [reflexivity|]. reflexivity.
    + assert (X : frame (only f) w (snd (do_call env c w))).
      { apply framed_call; unfold only; [auto|intros g i j k A B G; rewrite A, B; auto|auto|].
        intros g T. specialize (Z g T). split; intros; contradiction. }
      destruct (proj2 (f_files _ _ _ X) f F E) as (F' & E' & _ & _ & _ & K). exists F'. split; auto. symmetry. apply K. auto.
  - cbn [do_call]. unfold ended. destruct (NewGoFile_done n p k w) as [r ->]. cbn [snd].
    exists F. destruct r; cbn; split; auto. rewrite nth_error_app1; auto. apply nth_error_Some. congruence.
  - cbn [do_call]. destruct (add_done g a w) as [_ D]. destruct (add g a w) as [[[]|m] w']; cbn [fst snd] in *.
    + destruct D as [(G & e & EG & FS & I) _]. rewrite FS. destruct (Nat.eq_dec g f) as [->|N].
      * rewrite EG in E. injection E as <-. exists (with_new G e). rewrite nth_upd_same by (apply nth_error_Some; congruence). auto.
      * exists F. rewrite nth_upd_other by auto. auto.
    + rewrite D. exists F. auto.
Qed.
Lemma history_imports p : forall w f F, unwritten f p -> nth_error (files w) f = Some F ->
  exists F', nth_error (files (after env p w)) f = Some F' /\ FImports F' = run (calls_on f p) (FImports F).
Proof.
  induction p as [|c p IH]; intros w f F U E; [exists F; auto|]. rewrite after_cons.
  destruct (call_imports c w f F) as (F1 & E1 & I1); auto.
  { intros d [<-|[]]. apply (U c). left; auto. }
  destruct (IH (snd (do_call env c w)) f F1) as (F2 & E2 & I2); [intros d D; apply (U d); right; auto|exact E1|].
  exists F2. split; auto. rewrite I2, I1. unfold calls_on. cbn [flat_map]. rewrite app_nil_r. unfold run. rewrite fold_left_app. reflexivity.
Qed.
Lemma history_means real own p (w : World) f F fuel s w1 g0 :
  nth_error (files w) f = Some F -> FImports F = NewImportsFor own -> unwritten f p ->
  Forall (fun c => call_ok c = true /\ honest real c /\ usable_requests c) (calls_on f p) ->
  no_templates (after env p w) f -> no_named_specs (after env p w) f ->
  (forall r, file_mentions (after env p w) f r -> right_name real r /\ usable_name r) ->
  source env fuel f (after env p w) = (Ok s, w1) ->
  forall F', nth_error (files (after env p w)) f = Some F' ->
  file_meaning_with (path_qualifier own) (after env p w) (block_text env w1) fuel F' = Some g0 ->
  exists g, parse_file s = Some g /\ resolve_file real g = Some (mkGFile (GPackage g0) (GImports g) (GDecls g0)).
Proof.
  intros E I U C NT NN M S F' E' G. destruct (history_imports p w f F U E) as (F2 & E2 & I2).
  assert (F2 = F') by congruence. subst F2.
  assert (P : prepared real own (calls_on f p) (after env p w) f F').
  { rewrite Forall_forall in C. split; auto. split; [rewrite I2, I; auto|]. split; [apply forallb_forall; intros c Hc; apply C; auto|].
    split; [intros c Hc; apply C; auto|]. split; [intros c Hc; apply C; auto|]. auto. }
  destruct (prepared_means env real own _ fuel f _ F' s w1 P S g0 NN G) as (F1 & g & _ & A & _ & B). eauto.
Qed.
End Histories.

(** ** Template data *)
Definition calls_only {A} (m : IM A) : Prop := forall i, by_calls i (snd (m i)).
Lemma co_ret {A} (a : A) : calls_only (sret a). Proof. intros i. apply by_calls_refl. Qed.
Lemma co_panic {A} e : calls_only (spanic e : IM A). Proof. intros i. apply by_calls_refl. Qed.
Lemma co_lift {A} (r : res A) : calls_only (slift r). Proof. intros i. apply by_calls_refl. Qed.
Lemma co_bind {A B} (m : IM A) (k : A -> IM B) : calls_only m -> (forall a, calls_only (k a)) -> calls_only (do a <- m ;; k a).
Proof.
  intros H K i. specialize (H i). unfold sbind. destruct (m i) as [[a|e] j]; cbn [snd] in *; auto. eapply by_calls_trans; eauto. apply K.
Qed.
Lemma co_symbol s : calls_only (EnsureImported s). Proof. intros i. exact (by_calls_exec (CEnsureImported s) i). Qed.
Lemma co_type s : calls_only (EnsureTypeImported s). Proof. intros i. exact (by_calls_exec (CEnsureTypeImported s) i). Qed.
Lemma co_signature s : calls_only (EnsureAllTypesImported s). Proof. intros i. exact (by_calls_exec (CEnsureAllTypesImported s) i). Qed.
Lemma co_package p : calls_only (registerPackage p).
Proof.
  intros i. pose proof (by_calls_exec (CRegisterImportForPackage p) i) as H. cbn [exec] in H.
  unfold registerPackage, sbind. destruct (RegisterImportForPackage p i) as [[x|e] j]; exact H.
Qed.
Ltac co := repeat first
  [ progress intros
  | match goal with
    | |- calls_only (sret _) => apply co_ret
    | |- calls_only (spanic _) => apply co_panic
    | |- calls_only (slift _) => apply co_lift
    | |- calls_only (EnsureImported _) => apply co_symbol
    | |- calls_only (EnsureTypeImported _) => apply co_type
    | |- calls_only (EnsureAllTypesImported _) => apply co_signature
    | |- calls_only (registerPackage _) => apply co_package
    | |- calls_only (sbind _ _) => apply co_bind
    | |- calls_only (match ?x with _ => _ end) => destruct x
    end ].
Section Data.
Variable implements : gty -> string -> bool.
Variable unsafe : bool.
Variable parent_of : spec -> res (option Package).
Lemma co_elems rec l : Forall (fun x => calls_only (rec x)) l -> forall ok started, calls_only (elems_loop implements rec ok l started).
Proof. induction 1 as [|x l H _ IH]; intros ok started; cbn [elems_loop]; co; auto. Qed.
Lemma co_fields rec l : Forall (fun x : bool * val => calls_only (rec (snd x))) l ->
  forall addr earlier started, calls_only (fields_loop implements unsafe rec addr earlier l started).
Proof. induction 1 as [|[b x] l H _ IH]; intros addr earlier started; cbn [fields_loop]; unfold getField_qualify; co; auto. Qed.
Lemma co_map rec l : Forall (fun x : val * val => calls_only (rec (fst x)) /\ calls_only (rec (snd x))) l ->
  forall m started, calls_only (map_loop implements rec l m started).
Proof. induction 1 as [|[k x] l [H1 H2] _ IH]; intros m started; cbn [map_loop]; co; auto. Qed.
Lemma co_replacement t old d m : replacement implements t old d = Some m -> calls_only m.
Proof. destruct d; cbn [replacement]; intros E; try discriminate; injection E as <-; unfold replace; co. Qed.
Lemma co_data v : forall addr, calls_only (qualifyTemplateData implements unsafe parent_of addr v).
Proof.
  induction v as [t|t d IH|t fs IH|e|e x IH|t l IH|t l IH|t es IH|p|s|m|s|s r|e|im|n|r|g|o|p|t n] using val_ind';
  intros addr; cbn [qualifyTemplateData];
  match goal with |- calls_only (match replacement _ _ _ _ with _ => _ end) => idtac | _ => co end.
  - destruct (replacement implements t (VIface t (Some d)) d) as [m|] eqn:E; [eapply co_replacement; eauto|auto].
  - apply co_fields. eapply Forall_impl; [|exact IH]. intros a H. cbn in H. apply H.
  - auto.
  - apply co_elems. eapply Forall_impl; [|exact IH]. intros a H. apply H.
  - apply co_elems. eapply Forall_impl; [|exact IH]. intros a H. apply H.
  - apply co_map. eapply Forall_impl; [|exact IH]. intros a [H H']. split; auto.
Qed.
End Data.
Lemma template_by_calls implements unsafe isPrint verb other texec :
  imports_by_calls (template_env implements unsafe isPrint verb other texec).
Proof.
  intros w d i. cbn [tq template_env].
  assert (C : calls_only (QualifyTemplateData implements unsafe (world_parent w) d)) by (unfold QualifyTemplateData; destruct d; co; apply co_data).
  apply C.
Qed.
