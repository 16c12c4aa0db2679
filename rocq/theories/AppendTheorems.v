(** Writing a file with its first elements only. *)
From Verif Require Import Base BaseFacts GoPath Utf8 Types SpecTypes Imports SpecImports ImportsProofs ImportsTheorems SpecLit Conv Fmt World WorldProofs
  SpecGo SpecRender SpecQualify QualifyProofs QualifyTheorems SourceProofs SourceTheorems SpecFormat FormatProofs SpecCode SpecAppend AppendProofs AppendText.

Lemma ext_specs i j : Inv i -> Inv j -> ext i j -> incl (ImportSpecs i) (ImportSpecs j).
Proof.
  intros I1 I2 [_ E] s IN. rewrite In_ImportSpecs, in_map_iff in *. destruct IN as ([p d] & <- & IN). exists (p, d). split; auto.
  apply lookup_In, E, In_lookup; auto. apply inv_nodup_paths; auto.
Qed.
Lemma for_each_app {A S} (g : A -> ST S unit) a b s : for_each g (a ++ b) s =
  match for_each g a s with (Ok _, s') => for_each g b s' | (Panic e, s') => (Panic e, s') end.
Proof.
  revert s. induction a as [|x a IH]; intros s; cbn [app for_each]; [reflexivity|]. unfold sbind.
  destruct (g x s) as [[u|e] s']; auto.
Qed.
Lemma concat_res_ok l s : concat_res l = Ok s -> exists ts, l = map Ok ts /\ s = String.concat "" ts.
Proof.
  revert s. induction l as [|x l IH]; intros s E; cbn [concat_res] in E.
  - injection E as <-. exists []. auto.
  - destruct x as [x|m]; [|discriminate]. destruct (concat_res l) as [r|m]; [|discriminate]. injection E as <-.
    destruct (IH r eq_refl) as (ts & -> & ->). exists (x :: ts). split; auto.
    destruct ts; [cbn; rewrite append_nil_r; auto|reflexivity].
Qed.
Lemma concat_ok_res ts : concat_res (map Ok ts) = Ok (String.concat "" ts).
Proof.
  induction ts as [|t ts IH]; [reflexivity|]. cbn [map concat_res]. rewrite IH.
  destruct ts; [cbn; rewrite append_nil_r; auto|reflexivity].
Qed.
Lemma fold_concat l : fold_right append "" l = String.concat "" l.
Proof. induction l as [|x l IH]; [reflexivity|]. cbn [fold_right]. rewrite IH. destruct l; [cbn; apply append_nil_r|reflexivity]. Qed.

(** each verb with its argument *)
Definition puts (l : list piece) : list (ascii * Arg) := flat_map (fun p => match p with Plain _ => [] | Put v a => [(v, a)] end) l.
Lemma puts_in l v a : In (v, a) (puts l) -> In (Put v a) l.
Proof. unfold puts. rewrite in_flat_map. intros ([t|v' a'] & IN & X); [destruct X|]. destruct X as [E|[]]. injection E as -> ->. auto. Qed.
Lemma puts_args l : map snd (puts l) = args_of l.
Proof. induction l as [|[t|v a] l IH]; cbn; auto. f_equal. auto. Qed.
Lemma shown_ext show show' l : forall args,
  (forall j v a0 a, nth_error (puts l) j = Some (v, a0) -> nth_error args j = Some a -> show' v a = show v a) ->
  shown show' l args = shown show l args.
Proof.
  induction l as [|[t|v a0] l IH]; intros args H; cbn [shown]; auto.
  - f_equal. apply IH. auto.
  - destruct args as [|a args]; auto. f_equal.
    + apply (H 0 v a0); auto.
    + apply IH. intros j v' b b' E1 E2. apply (H (S j) v' b b'); auto.
Qed.

Section File.
Context {TD : Type}.
Variables (env : Env TD) (own : string) (h : list call) (fuel' f : nat) (w : World TD) (F : GoFile) (s : string) (w1 : World TD).
Notation fuel := (S fuel').
Hypothesis EF : nth_error (files w) f = Some F.
Hypothesis EI : FImports F = run h (NewImportsFor own).
Hypothesis NT : no_templates w f.
Hypothesis SC : steady_code w f.
Hypothesis SO : source env fuel f w = (Ok s, w1).
Notation R := (fun _ : string * string => True).
Notation Pl := (in_scope w f).
Lemma IF : Inv (FImports F).
Proof. rewrite EI. apply run_new_Inv. Qed.
Lemma NP t : ~ Pl (LTempl t).
Proof. cbn. intros (cb & b & P & B & IN). eapply NT; eauto. Qed.
Lemma Jw : J env f R Pl w.
Proof. eapply J_w; eauto using IF, no_templates_ok. Qed.
Lemma scope_elements es l : incl es (FElements F) -> In l (plan_elements fuel es (skel w)) -> Pl l.
Proof.
  intros I IN. apply (scope_file w f fuel). unfold plan_file. rewrite (nth_skel files er_imports w f F eq_refl EF).
  cbn [er_imports with_imports FElements]. unfold plan_elements in IN. apply in_flat_map in IN as (e & IE & IN).
  apply in_flat_map. exists e. split; auto.
Qed.
(** The blocks of an element. *)
Lemma blocks_part e cb : In e (FElements F) -> In cb (blocks_of w e) -> part_of w f (IBlock cb).
Proof.
  intros IE IN. destruct e as [d|d|d|i]; cbn [blocks_of] in IN.
  - destruct (nth_error (constDecls w) d) as [D|] eqn:ED; [|destruct IN]. apply in_flat_map in IN as (i & II & IN).
    destruct (nth_error (consts w) i) as [v|] eqn:EV; [|destruct IN]. destruct (VInit v) as [c|] eqn:EC; [|destruct IN]. destruct IN as [<-|[]].
    eapply po_const_init; eauto. eapply po_const; eauto.
  - destruct (nth_error (varDecls w) d) as [D|] eqn:ED; [|destruct IN]. apply in_flat_map in IN as (i & II & IN).
    destruct (nth_error (vars w) i) as [v|] eqn:EV; [|destruct IN]. destruct (VInit v) as [c|] eqn:EC; [|destruct IN]. destruct IN as [<-|[]].
    eapply po_var_init; eauto. eapply po_var; eauto.
  - destruct IN.
  - destruct (nth_error (funcs w) i) as [G|] eqn:EG; [|destruct IN]. destruct IN as [<-|[]]. eapply po_body; eauto. eapply po_func; eauto.
Qed.
Lemma blocks_near (w' : World TD) e : skel w' = skel w -> blocks_of w' e = blocks_of w e.
Proof.
  intros E. pose proof (near_skel w w' E) as N. 
  assert (V : forall tab : World TD -> list ValueSpec, map er_value (tab w') = map er_value (tab w) -> forall i,
    match nth_error (tab w') i with Some v => match VInit v with Some cb => [cb] | None => [] end | None => [] end =
    match nth_error (tab w) i with Some v => match VInit v with Some cb => [cb] | None => [] end | None => [] end).
  { intros tab ET i. pose proof (entry er_value _ _ i ET) as X.
    destruct (nth_error (tab w) i) as [a|], (nth_error (tab w') i) as [b|]; try contradiction; auto.
    apply (f_equal VInit) in X. cbn in X. rewrite X. auto. }
  destruct e as [d|d|d|i]; cbn [blocks_of]; auto.
  - rewrite (n_cd _ _ N). destruct (nth_error (constDecls w) d); auto. apply flat_map_ext, (V consts), N.
  - rewrite (n_vd _ _ N). destruct (nth_error (varDecls w) d); auto. apply flat_map_ext, (V vars), N.
  - pose proof (entry er_func _ _ i (n_fn _ _ N)) as X.
    destruct (nth_error (funcs w) i) as [a|], (nth_error (funcs w') i) as [b|]; try contradiction; auto.
    apply (f_equal FNBody) in X. cbn in X. rewrite X. auto.
Qed.
Lemma blocks_plan e cb l : In cb (blocks_of w e) -> In l (plan_block cb (skel w)) -> In l (plan_element fuel e (skel w)).
Proof.
  intros IN IL. destruct e as [d|d|d|i]; cbn [blocks_of plan_element] in *.
  - change (constDecls (skel w)) with (constDecls w). destruct (nth_error (constDecls w) d) as [D|]; [|destruct IN].
    apply in_flat_map in IN as (i & II & IN). destruct (nth_error (consts w) i) as [v|] eqn:EV; [|destruct IN].
    destruct (VInit v) as [c|] eqn:EC; [|destruct IN]. destruct IN as [<-|[]]. apply in_flat_map. exists i. split; auto.
    unfold plan_value. rewrite (nth_skel consts er_value w i v eq_refl EV). cbn [er_value with_vtype VInit]. rewrite EC. apply in_or_app. auto.
  - change (varDecls (skel w)) with (varDecls w). destruct (nth_error (varDecls w) d) as [D|]; [|destruct IN].
    apply in_flat_map in IN as (i & II & IN). destruct (nth_error (vars w) i) as [v|] eqn:EV; [|destruct IN].
    destruct (VInit v) as [c|] eqn:EC; [|destruct IN]. destruct IN as [<-|[]]. apply in_flat_map. exists i. split; auto.
    unfold plan_value. rewrite (nth_skel vars er_value w i v eq_refl EV). cbn [er_value with_vtype VInit]. rewrite EC. apply in_or_app. auto.
  - destruct IN.
  - destruct (nth_error (funcs w) i) as [G|] eqn:EG; [|destruct IN]. destruct IN as [<-|[]].
    rewrite (nth_skel funcs er_func w i G eq_refl EG). cbn [er_func with_sig FNBody]. apply in_or_app. auto.
Qed.

Section Half.
Variables (k : nat) (wk : World TD).
Notation es := (firstn k (FElements F)).
Hypothesis Q1 : for_each (FileElement_qualify env fuel f) es w = (Ok tt, wk).
Hypothesis Q2 : for_each (FileElement_qualify env fuel f) (skipn k (FElements F)) wk = (Ok tt, w1).
Lemma incl1 : incl es (FElements F).
Proof. intros e IN. rewrite <- (firstn_skipn k (FElements F)). apply in_or_app; auto. Qed.
Lemma incl2 : incl (skipn k (FElements F)) (FElements F).
Proof. intros e IN. rewrite <- (firstn_skipn k (FElements F)). apply in_or_app; auto. Qed.
Lemma half :
  le env f R w wk /\ le env f R wk w1 /\ (forall l, In l (plan_elements fuel es (skel w)) -> done env f l wk) /\
  for_each (FileElement_qualify env fuel f) es (recut f k w) = (Ok tt, recut f k wk).
Proof.
  destruct (both_elements env f k R Pl NP fuel es) as [G X].
  destruct (G w wk Jw (fun l => scope_elements es l incl1) Q1) as (L & D & _).
  split; auto. split; [|split; auto; apply (X w wk Jw (fun l => scope_elements es l incl1) Q1)].
  destruct (both_elements env f k R Pl NP fuel (skipn k (FElements F))) as [G2 _].
  destruct (G2 wk w1) as (L2 & _); auto.
  - eapply J_le; eauto using Jw.
  - intros l. rewrite (le_skel _ _ _ _ _ L). apply scope_elements, incl2.
Qed.
Lemma kept l : In l (plan_elements fuel es (skel w)) -> cont w1 l = cont wk l.
Proof.
  intros IN. destruct half as (L1 & L2 & D & _). specialize (D l IN). pose proof (le_cont _ _ _ _ _ L2 l) as M.
  pose proof (J_le _ _ _ _ _ _ Jw L1) as Jk. pose proof (j_inv _ _ _ _ _ Jk) as Ik.
  destruct (cont wk l) as [x|] eqn:C, (cont w1 l) as [y|] eqn:C1; cbn in M; try contradiction; auto.
  f_equal. destruct M as [->|(rs & j & j' & _ & A & B & _)]; auto.
  destruct (D x C) as [S _]. rewrite S in B; [congruence| |].
  - eapply steps_Inv; eauto. - eapply steps_ext; eauto.
Qed.
Notation w0 := (recut f k wk).
Lemma near0 : near w1 w0.
Proof.
  destruct half as (L1 & L2 & _). eapply near_trans; [|apply near_recut].
  apply near_skel. symmetry. apply (le_skel _ _ _ _ _ L2).
Qed.
Lemma skel1 : skel w1 = skel w.
Proof. destruct half as (L1 & L2 & _). rewrite (le_skel _ _ _ _ _ L2). apply (le_skel _ _ _ _ _ L1). Qed.
Lemma half_block e cb : In e es -> In cb (blocks_of w e) -> CodeBlock_writeTo env w0 cb = CodeBlock_writeTo env w1 cb.
Proof.
  intros IE IN. destruct half as (L1 & L2 & D & _).
  assert (PB : part_of w f (IBlock cb)) by (eapply blocks_part; eauto; apply incl1; auto).
  destruct (SC cb PB) as (ls & (b & EB & F2) & ST).
  assert (PLN : forall l, In l (plan_block cb (skel w)) -> In l (plan_elements fuel es (skel w))).
  { intros l IL. unfold plan_elements. apply in_flat_map. exists e. split; auto. eapply blocks_plan; eauto. }
  unfold CodeBlock_writeTo, rd. rewrite (n_bl _ _ near0).
  assert (EB1 : blocks w1 = blocks w) by (exact (f_equal (@blocks TD) skel1)). rewrite EB1, EB. cbn [rbind].
  f_equal. apply map_ext_in. intros x IX.
  assert (X : exists l args, x = Line (format_of l) args /\ nth_error (argss w) args = Some (args_of l) /\ verbs_ok l /\ In l ls).
  { clear - F2 IX. induction F2 as [|y l b ls (args & -> & A & V) F2 IH]; [destruct IX|]. destruct IX as [<-|IX].
    - exists l, args. repeat split; auto. left; auto.
    - destruct (IH IX) as (l' & args' & B & C & E & G). exists l', args'. repeat split; auto. right; auto. }
  destruct X as (l & args & -> & EA & VO & IL).
  assert (PA : forall j, j < List.length (args_of l) -> In (LArg args j) (plan_elements fuel es (skel w))).
  { intros j LT. apply PLN. unfold plan_block. change (blocks (skel w)) with (blocks w). rewrite EB. apply in_flat_map.
    exists (Line (format_of l) args). split; auto. cbn [plan_code]. unfold plan_line.
    rewrite (nth_skel argss er_args w args _ eq_refl EA). apply in_map_iff. exists j. split; auto. apply in_seq.
    unfold er_args. rewrite map_length. lia. }
  pose proof (entry er_args _ _ args (n_a _ _ (near_skel w w1 skel1))) as X. rewrite EA in X.
  destruct (nth_error (argss w1) args) as [l1|] eqn:E1; [|contradiction].
  assert (LN : List.length l1 = List.length (args_of l)).
  { apply (f_equal (@List.length _)) in X. unfold er_args in X. rewrite !map_length in X. auto. }
  cbn [codeElement_writeTo]. rewrite (args_entry w1 w0 near0 args).
  2:{ intros j l0 EL LT. rewrite E1 in EL. injection EL as <-. rewrite recut_cont. symmetry. apply kept, PA. lia. }
  unfold rd. rewrite E1. cbn [rbind]. f_equal. rewrite !Fprintf_pieces by auto. f_equal. apply shown_ext.
  intros j v a0 a P1 P2.
  assert (LT : j < List.length (args_of l)) by (rewrite <- LN; apply nth_error_Some; congruence).
  assert (S0 : steady v a0) by (apply (ST l); auto; apply puts_in; eapply nth_error_In; eauto).
  assert (A0 : nth_error (args_of l) j = Some a0) by (rewrite <- puts_args, nth_error_map, P1; auto).
  assert (C0 : cont w (LArg args j) = Some (CA a0)) by (cbn [cont]; unfold obind; rewrite EA, A0; auto).
  assert (C1 : cont w1 (LArg args j) = Some (CA a)) by (cbn [cont]; unfold obind; rewrite E1, P2; auto).
  pose proof (le_trans _ _ _ _ _ _ _ Jw L1 L2) as L.
  pose proof (J_le _ _ _ _ _ _ Jw L) as J1.
  assert (S1 : steady v a).
  { pose proof (le_cont _ _ _ _ _ L (LArg args j)) as M. rewrite C0, C1 in M. destruct M as [M|(rs & i & i' & _ & _ & B & _)].
    - injection M as ->. auto.
    - destruct (steady_act env v a0 w i _ i' S0 B) as (a' & E & S1). injection E as ->. auto. }
  pose proof (done_le _ _ _ _ _ _ _ (J_le _ _ _ _ _ _ Jw L1) L2 (D _ (PA j LT))) as D1.
  destruct (D1 _ C1) as [SB _].
  apply (arg_text env w1 w0 near0 v a (imp f w1) (imp f w1) S1). apply SB; [apply (j_inv _ _ _ _ _ J1)|apply ext_refl].
Qed.
Lemma half_element e : In e es -> FileElement_writeTo env fuel w0 e = FileElement_writeTo env fuel w1 e.
Proof.
  intros IE. apply (element_text env w1 w0 near0 fuel' e).
  - intros l IL. rewrite recut_cont. symmetry. apply kept. rewrite skel1 in IL. apply in_flat_map. exists e. auto.
  - intros cb IN. rewrite (blocks_near w1 e skel1) in IN. eapply half_block; eauto.
Qed.
End Half.

Definition heading (G : GoFile) : string :=
  (writeComment (FFileComment G) ++ (if negb (String.eqb (FFileComment G) "") then newline else "") ++
   writeComment (FPackageComment G) ++ package_line env G ++ newline)%string.
Lemma writeTo_parts w0 G : GoFile_writeTo env fuel w0 G =
  rbind (concat_res (map (fun e => W newline +++ FileElement_writeTo env fuel w0 e) (FElements G)))
    (fun t => Ok (heading G ++ import_text env G ++ t)%string).
Proof.
  unfold GoFile_writeTo, import_text, heading. rewrite fold_concat.
  destruct (concat_res _) as [t|m]; cbn; [|reflexivity]. rewrite !append_assoc. reflexivity.
Qed.
Lemma by_elements : exists F1, nth_error (files w1) f = Some F1 /\ written_by_elements env fuel f w w1 F F1 s.
Proof.
  destruct (source_split _ _ _ _ _ _ SO) as (Q & F1 & E1 & G1). exists F1. split; auto.
  assert (HR : forall r, file_mentions w f r -> True) by auto.
  destruct (file_after env fuel f w w1 F R EF IF (no_templates_ok env w f R NT) HR Q) as (F1' & E1' & _ & EW & _ & I1).
  rewrite E1 in E1'. injection E1' as <-.
  assert (HD : heading F1 = heading F) by (rewrite EW; reflexivity).
  assert (EE : FElements F1 = FElements F) by (rewrite EW; reflexivity).
  rewrite writeTo_parts in G1. destruct (concat_res _) as [t|m] eqn:CR; [|discriminate]. cbn in G1. injection G1 as <-.
  destruct (concat_res_ok _ _ CR) as (ts & ET & ->). rewrite EE in ET. rewrite HD.
  exists (heading F), ts. split; [|split; auto].
  { apply (f_equal (@List.length _)) in ET. rewrite !map_length in ET. auto. }
  intros k. unfold qualify_file in Q. rewrite bind_get, EF in Q.
  rewrite <- (firstn_skipn k (FElements F)), for_each_app in Q.
  destruct (for_each (FileElement_qualify env fuel f) (firstn k (FElements F)) w) as [[[]|m] wk] eqn:Q1; [|discriminate].
  destruct (half k wk Q1 Q) as (L1 & L2 & D & X).
  assert (Ek : nth_error (files wk) f = Some (with_imports F (imp f wk))).
  { rewrite (le_files _ _ _ _ _ L1). unfold reimp. cbn [set_files files]. rewrite nth_upd_with, Nat.eqb_refl, EF. auto. }
  set (F0 := first_elements k (with_imports F (imp f wk))).
  assert (E0 : nth_error (files (recut f k wk)) f = Some F0) by (rewrite recut_file, Nat.eqb_refl, Ek; auto).
  exists (recut f k wk), F0. split; [|split; auto].
  - eapply source_join; [|exact E0|].
    + rewrite cut_recut. unfold qualify_file. rewrite bind_get, recut_file, Nat.eqb_refl, EF. cbn [option_map first_elements FElements]. exact X.
    + rewrite writeTo_parts. change (FElements F0) with (firstn k (FElements F)).
      replace (map (fun e => W newline +++ FileElement_writeTo env fuel (recut f k wk) e) (firstn k (FElements F)))
        with (map (@Ok string) (firstn k ts)).
      2:{ rewrite <- firstn_map, <- ET, firstn_map. apply map_ext_in. intros e IE. f_equal. symmetry. apply (half_element k wk Q1 Q e IE). }
      rewrite concat_ok_res. reflexivity.
  - apply ext_specs; auto.
    + pose proof (J_le _ _ _ _ _ _ Jw L1) as Jk. apply (j_inv _ _ _ _ _ Jk).
    + change (FImports F0) with (imp f wk). rewrite EW. cbn.
      assert (FImports F1 = imp f w1) as -> by (unfold imp; rewrite E1; auto).
      eapply steps_ext; [apply (le_imp _ _ _ _ _ L2)|]. pose proof (J_le _ _ _ _ _ _ Jw L1) as Jk. apply (j_inv _ _ _ _ _ Jk).
Qed.
End File.
Lemma append_elements {TD} (env : Env TD) own h fuel f w F s w1 :
  nth_error (files w) f = Some F -> FImports F = run h (NewImportsFor own) -> no_templates w f -> steady_code w f ->
  source env (S fuel) f w = (Ok s, w1) ->
  exists F1, nth_error (files w1) f = Some F1 /\ written_by_elements env (S fuel) f w w1 F F1 s.
Proof. intros. eapply by_elements; eauto. Qed.

(** ** For examples: a check of all the code of a world *)
Lemma part_block {TD} (w : World TD) f cb : part_of w f (IBlock cb) ->
  (exists i v, nth_error (consts w) i = Some v /\ VInit v = Some cb) \/ (exists i v, nth_error (vars w) i = Some v /\ VInit v = Some cb) \/
  (exists i G, nth_error (funcs w) i = Some G /\ FNBody G = cb).
Proof. intros P. inversion P; subst; eauto 6. Qed.
Lemma all_code {TD} (P : ascii -> Arg -> Prop) (w : World TD) f (lss : list (list (list piece))) :
  forallb (fun v => match VInit v with Some cb => Nat.ltb cb (List.length (blocks w)) | None => true end) (consts w ++ vars w) = true ->
  forallb (fun G => Nat.ltb (FNBody G) (List.length (blocks w))) (funcs w) = true ->
  Forall2 (fun b ls => Forall2 (fun e l => exists args, e = Line (format_of l) args /\ nth_error (argss w) args = Some (args_of l) /\ verbs_ok l) b ls
    /\ Forall (Forall (fun p => match p with Plain _ => True | Put v a => P v a end)) ls) (blocks w) lss ->
  (forall cb, part_of w f (IBlock cb) -> exists ls, formatted w cb ls /\ forall l v a, In l ls -> In (Put v a) l -> P v a) /\ no_templates w f.
Proof.
  intros C FN A.
  assert (B : forall cb b, nth_error (blocks w) cb = Some b -> exists ls, nth_error lss cb = Some ls /\
    Forall2 (fun e l => exists args, e = Line (format_of l) args /\ nth_error (argss w) args = Some (args_of l) /\ verbs_ok l) b ls
    /\ Forall (Forall (fun p => match p with Plain _ => True | Put v a => P v a end)) ls).
  { clear C FN. induction A as [|b ls bs lss' H A IH]; intros [|cb] x E; try discriminate; cbn in E.
    - injection E as <-. exists ls. auto. - destruct (IH cb x E) as (l & ?). exists l. auto. }
  split.
  - intros cb PB. assert (L : cb < List.length (blocks w)).
    { destruct (part_block w f cb PB) as [(i & v & E & V)|[(i & v & E & V)|(i & G & E & <-)]].
      - rewrite forallb_forall in C. specialize (C v (in_or_app _ _ _ (or_introl (nth_error_In _ _ E)))). rewrite V in C. apply Nat.ltb_lt in C. auto.
      - rewrite forallb_forall in C. specialize (C v (in_or_app _ _ _ (or_intror (nth_error_In _ _ E)))). rewrite V in C. apply Nat.ltb_lt in C. auto.
      - rewrite forallb_forall in FN. specialize (FN G (nth_error_In _ _ E)). apply Nat.ltb_lt in FN. auto. }
    destruct (nth_error (blocks w) cb) as [b|] eqn:E; [|apply nth_error_None in E; lia].
    destruct (B cb b E) as (ls & _ & F2 & ST). exists ls. split; [exists b; auto|].
    intros l v a I1 I2. rewrite Forall_forall in ST. specialize (ST l I1). rewrite Forall_forall in ST. apply (ST (Put v a) I2).
  - intros cb b t _ E IN. destruct (B cb b E) as (ls & _ & F2 & _). clear - F2 IN.
    induction F2 as [|e l b ls (args & -> & _) F2 IH]; [destruct IN|]. destruct IN as [IN|IN]; [discriminate|auto].
Qed.
Lemma all_steady {TD} (w : World TD) f (lss : list (list (list piece))) :
  forallb (fun v => match VInit v with Some cb => Nat.ltb cb (List.length (blocks w)) | None => true end) (consts w ++ vars w) = true ->
  forallb (fun G => Nat.ltb (FNBody G) (List.length (blocks w))) (funcs w) = true ->
  Forall2 (fun b ls => Forall2 (fun e l => exists args, e = Line (format_of l) args /\ nth_error (argss w) args = Some (args_of l) /\ verbs_ok l) b ls
    /\ Forall (Forall (fun p => match p with Plain _ => True | Put v a => steady v a end)) ls) (blocks w) lss ->
  steady_code w f /\ no_templates w f.
Proof. exact (all_code steady w f lss). Qed.
