(** If a file can be written, then so it can with its elements in another order, if no packages
    compete for names. *)
From Coq Require Import Permutation.
From Verif Require Import Base BaseFacts GoPath Utf8 Types SpecTypes TypesFacts Imports SpecImports ImportsProofs ImportsTheorems SettleProofs SpecLit Conv Fmt World WorldProofs
  SpecGo SpecRender SpecWorld SpecQualify QualifyProofs QualifyTheorems SourceProofs SourceTheorems SpecFormat FormatProofs SpecCode SpecAppend AppendProofs AppendText AppendTheorems
  SpecOrder OrderProofs OrderText FirmProofs.

(** ** What a call results in can be told from the final imports *)
Section Foresee.
Variables (own : string) (R : string * string -> Prop) (fin : Imports).
Hypothesis NC : no_conflict own R.
Hypothesis IF : Inv fin.
Hypothesis TF : tidy own R fin.
Definition part (k : Imports) : Prop := Inv k /\ tidy own R k /\ ext k fin.
Definition foresees {A} (m : IM A) : Prop := forall a i, m fin = (Ok a, i) ->
  i = fin /\ forall k, part k -> exists k', m k = (Ok a, k') /\ part k'.
(** requested, and registered in the end *)
Definition due (r : string * string) : Prop := R r /\ prefix_name fin (fst r) <> None.
Definition dues (l : list Symbol) : Prop := forall r, In r (sym_requests l) -> due r.
Lemma fore_ret {A} (a : A) : foresees (sret a).
Proof. intros b i [= <- <-]. split; auto. intros k P. exists k. auto. Qed.
Lemma fore_panic {A} e : foresees (@spanic _ A e).
Proof. intros b i E. discriminate E. Qed.
Lemma fore_lift {A} (r : res A) : foresees (slift r).
Proof. intros b i [= -> <-]. split; auto. intros k P. exists k. auto. Qed.
Lemma fore_bind {A B} (m : IM A) (g : A -> IM B) : foresees m -> (forall a, foresees (g a)) -> foresees (do a <- m ;; g a).
Proof.
  intros M K b i E. unfold sbind in E. destruct (m fin) as [[a|e] i1] eqn:E1; [|discriminate].
  destruct (M a i1 E1) as [-> R1]. destruct (K a b i E) as [-> R2]. split; auto.
  intros k P. destruct (R1 k P) as (k1 & X1 & P1). destruct (R2 k1 P1) as (k2 & X2 & P2).
  exists k2. unfold sbind. rewrite X1. auto.
Qed.
Lemma fore_prefix r : due r -> foresees (prefixForPackage (fst r) (snd r) true).
Proof.
  intros [HR KN] a i E. destruct (prefix_name fin (fst r)) as [n|] eqn:PF; [|congruence].
  rewrite (prefix_known _ _ _ _ _ IF PF) in E. injection E as <- <-. split; auto.
  intros k (IK & TK & XK). destruct (prefix_name k (fst r)) as [m|] eqn:PK.
  - rewrite (prefix_name_ext _ _ _ _ XK PK) in PF. injection PF as <-. exists k. split; [apply prefix_known; auto|split; auto].
  - assert (TK' := tidy_reg own R NC k r IK TK HR). unfold reg_pair, RegisterImport in TK'.
    destruct (prefix_new k (fst r) (snd r) IK PK) as (c & k' & EK & _ & _ & E' & IK' & XX). rewrite EK in TK'. cbn [snd] in TK'.
    assert (NO : fst r <> pkgPath k).
    { unfold prefix_name in PK. destruct (String.eqb_spec (fst r) (pkgPath k)); [discriminate|auto]. }
    assert (XF : ext k' fin).
    { apply (tidy_ext own R NC); auto. intros p L.
      assert (L' : lookup p (importsByPath k) <> None \/ p = fst r).
      { rewrite E' in L. cbn [importsByPath] in L. destruct (String.eqb_spec p (fst r)); auto. rewrite lookup_insert_other in L by auto. auto. }
      destruct L' as [L'| ->].
      - destruct (lookup p (importsByPath k)) as [d|] eqn:LK; [|congruence]. destruct XK as [_ XK]. rewrite (XK _ _ LK). discriminate.
      - unfold prefix_name in PF. destruct XK as [XP _]. rewrite XP in PF. destruct (String.eqb_spec (fst r) (pkgPath k)); [contradiction|].
        destruct (lookup (fst r) (importsByPath fin)); [discriminate|discriminate PF]. }
    exists k'. split; [|split; auto]. rewrite EK. f_equal. f_equal.
    assert (PK' : prefix_name k' (fst r) = Some (cand (base_name (fst r) (snd r)) c)).
    { unfold prefix_name. rewrite E'. cbn [pkgPath importsByPath]. destruct (String.eqb_spec (fst r) (pkgPath k)); [contradiction|].
      rewrite lookup_insert_same. reflexivity. }
    rewrite (prefix_name_ext _ _ _ _ XF PK') in PF. injection PF as <-. unfold with_dot.
    destruct (String.eqb_spec (cand (base_name (fst r) (snd r)) c) ""); auto. exfalso. eapply cand_nonempty; eauto. apply base_name_nonempty.
Qed.
Ltac fo := repeat (first [ apply fore_ret | apply fore_panic | apply fore_lift | assumption
  | apply fore_bind; [|intros ?] | match goal with |- foresees (let (_, _) := ?p in _) => destruct p end
  | match goal with |- foresees (if ?b then _ else _) => destruct b eqn:? end ]).
Lemma dues_app a b : dues (a ++ b) <-> dues a /\ dues b.
Proof.
  unfold dues, sym_requests. rewrite filter_app, map_app. split.
  - intros H. split; intros r IN; apply H, in_or_app; auto.
  - intros [A B] r IN. apply in_app_or in IN as [IN|IN]; auto.
Qed.
Lemma dues_in l s : dues l -> In s l -> dues [s].
Proof.
  intros D IN r H. apply D. unfold sym_requests in *. apply in_map_iff in H as (x & <- & H). apply in_map_iff. exists x. split; auto.
  apply filter_In in H as [[<-|[]] H]. apply filter_In. auto.
Qed.
Lemma dues_flat {A} (g : A -> list Symbol) l a : dues (flat_map g l) -> In a l -> dues (g a).
Proof.
  intros D IN r H. apply D. unfold sym_requests in *. apply in_map_iff in H as (x & <- & H). apply in_map_iff. exists x. split; auto.
  apply filter_In in H as [H1 H2]. apply filter_In. split; auto. apply in_flat_map. exists a. auto.
Qed.
Lemma fore_qualify s : dues [s] -> foresees (qualify s true).
Proof.
  intros D. unfold qualify. destruct (String.eqb _ _ && _) eqn:Z; [fo|].
  apply fore_bind; [|intros; fo]. apply (fore_prefix (ImportPath (SymPackage s), PkgName (SymPackage s))).
  apply D. unfold sym_requests. cbn [filter]. unfold has_package. rewrite Z. left. reflexivity.
Qed.
Lemma fore_list {A} (g : A -> IM (A * bool)) l : (forall a, In a l -> foresees (g a)) -> foresees (map_changed g l).
Proof.
  induction l as [|a l IH]; intros H; cbn [map_changed]; [fo|].
  assert (H1 : foresees (g a)) by (apply H; left; auto). assert (H2 : foresees (map_changed g l)) by (apply IH; intros; apply H; right; auto). fo.
Qed.
Notation ft := (fun t => dues (symbols_of t) -> foresees (qualifyType true t)).
Lemma fore_sig (s : Signature) : PSig ft s -> dues (sig_symbols s) -> foresees (qualifySignature_ (qualifyType true) s).
Proof.
  intros [HA HR] D. destruct s as [a r v]. cbn [Args Results] in *.
  assert (K : forall l, Forall (fun a => ft (ArgTy a)) l -> dues (args_symbols symbols_of l) -> foresees (qualifyArgs_ (qualifyType true) l)).
  { intros l H DL. unfold qualifyArgs_. apply fore_list. intros [n t] IN. rewrite Forall_forall in H. specialize (H _ IN). cbn in H.
    assert (foresees (qualifyType true t)) by (apply H; exact (dues_flat _ _ _ DL IN)). fo. }
  assert (DD : dues (args_symbols symbols_of a) /\ dues (args_symbols symbols_of r)) by (apply dues_app; exact D).
  destruct DD as [DA DR]. pose proof (K _ HA DA). pose proof (K _ HR DR). cbn [qualifySignature_]. fo.
Qed.
Lemma fore_type t : dues (symbols_of t) -> foresees (qualifyType true t).
Proof.
  induction t as [ |k|s|e IH|e IH|e n IH|e k IHe IHk|e d IH|s IH|fs IH|ms es IH] using TypeName_ind'; cbn [qualifyType]; intros D.
  1,2: fo.
  - apply fore_bind; [apply fore_qualify; exact D|]. intros. fo.
  - specialize (IH D). fo.
  - specialize (IH D). fo.
  - specialize (IH D). fo.
  - assert (DD : dues (symbols_of k) /\ dues (symbols_of e)) by (apply dues_app; exact D). destruct DD as [DK DE]. specialize (IHe DE). specialize (IHk DK). fo.
  - specialize (IH D). fo.
  - apply fore_sig in IH; [|exact D]. fo.
  - apply fore_bind; [|intros; fo]. unfold qualifyFields_. apply fore_list. intros [n t tag] IN. rewrite Forall_forall in IH.
    specialize (IH _ IN). cbn in IH. assert (foresees (qualifyType true t)) by (apply IH; exact (dues_flat _ _ _ D IN)). fo.
  - assert (DD : dues es /\ dues (flat_map (fun m : MethodType => match m with mkMethod _ s => sig_symbols_ symbols_of s end) ms)) by (apply dues_app; exact D).
    destruct DD as [DE DM]. apply fore_bind; [|intros [nembeds ce]; apply fore_bind; [|intros; fo]].
    + unfold qualifySymbols. apply fore_list. intros s IN. apply fore_bind; [apply fore_qualify; exact (dues_in _ _ DE IN)|]. intros. fo.
    + unfold qualifyMethods_. apply fore_list. intros [n s] IN. rewrite Forall_forall in IH. specialize (IH _ IN). cbn [MtdSig] in IH.
      apply fore_sig in IH; [|exact (dues_flat _ _ _ DM IN)]. fo.
Qed.
Lemma fore_signature s : dues (sig_symbols s) -> foresees (EnsureAllTypesImported s).
Proof. apply fore_sig. split; apply Forall_forall; intros; apply fore_type; auto. Qed.
Lemma fore_package p : due (ImportPath p, PkgName p) -> foresees (registerPackage p).
Proof.
  intros D. unfold registerPackage, RegisterImportForPackage, RegisterImport.
  apply fore_bind; [exact (fore_prefix (ImportPath p, PkgName p) D)|intros; fo].
Qed.
Lemma fore_target a t : (forall r, In r (target_requests t) -> due r) -> foresees (target_act a t).
Proof.
  destruct t; cbn [target_act target_requests]; intros D; try (apply fore_bind; [|intros; fo]).
  - apply fore_package, D. left; auto.
  - exact (fore_qualify _ D). - exact (fore_qualify _ D). - exact (fore_signature _ D). - exact (fore_type _ D).
  - apply fore_package, D. left; auto.
  - apply fore_ret.
Qed.
Lemma fore_act {TD} (env : Env TD) w x : no_data x -> (forall r, In r (creq w x) -> due r) -> foresees (act env w x).
Proof.
  destruct x; intros N D; [..|destruct N]; cbn [act creq] in *.
  - apply fore_bind; [apply fore_type; exact D|intros; fo].
  - apply fore_bind; [apply fore_signature; exact D|intros; fo].
  - apply fore_bind; [apply fore_qualify; exact D|intros; fo].
  - destruct (arg_target w a) as [t|m].
    + intros y i E. assert (H : foresees (do a' <- target_act a t ;; sret (CA (TD := TD) a'))) by (apply fore_bind; [apply fore_target; exact D|intros; fo]).
      exact (H y i E).
    + intros y i E. discriminate E.
Qed.
End Foresee.

(** ** The same visits succeed in another order *)
Section Total.
Context {TD : Type}.
Variables (env : Env TD) (own : string) (h : list call) (fuel' f : nat) (w : World TD) (F : GoFile) (es : list FileElement) (w1 : World TD).
Notation fuel := (S fuel').
Hypothesis EF : nth_error (files w) f = Some F.
Hypothesis EI : FImports F = run h (NewImportsFor own).
Hypothesis OK : forallb call_ok h = true.
Hypothesis NT : no_templates w f.
Notation R := (file_requests h w f).
Hypothesis NC : no_conflict own R.
Hypothesis PE : Permutation (FElements F) es.
Notation w' := (rea f es w).
Notation F' := (with_elements es F).
Hypothesis Q : qualify_file env fuel f w = (Ok tt, w1).
Notation plan := (plan_file f fuel (skel w)).
Notation fin := (imp f w1).
Notation I0 := (I0 own h F EI).
Notation HR := (HR h f w).
Notation TO := (no_templates_ok env w f R NT).
Notation PE' := (PE' F es PE).
Definition planned_loc (l : loc) : Prop := In l plan.
Definition onward (v : World TD) : Prop :=
  J env f R planned_loc v /\ skel v = skel w' /\ part own R fin (imp f v) /\
  forall l, planned_loc l -> cont v l = cont w l \/ done env f l v.
Lemma fin_ok : Inv fin /\ tidy own R fin.
Proof.
  destruct (file_after env fuel f w w1 F R EF I0 TO HR Q) as (F1 & E1 & EI1 & _ & S1 & V1).
  rewrite <- EI1. split; auto. exact (tidy_steps own h f w NC _ _ I0 (tidy0 own h f w F EI OK NC) S1).
Qed.
Lemma planned_templ t : ~ planned_loc (LTempl t).
Proof. intros IN. pose proof (scope_file w f fuel _ IN) as (cb & b & P & B & IB). eapply NT; eauto. Qed.
Lemma planned_data l x : planned_loc l -> cont w l = Some x -> no_data x.
Proof.
  intros IN C. destruct x; cbn; auto. destruct (cont_data w l d C) as (t & tm & -> & _). exact (planned_templ t IN).
Qed.
Lemma J_planned : J env f R planned_loc w.
Proof.
  destruct (J_w env f w F R EF I0 TO HR) as [A B C]. split; auto. intros l x IN. apply C. apply (plan_Pl fuel f w). exact IN.
Qed.
Lemma creq_rea x : creq w' x = creq w x.
Proof. destruct x; auto. cbn [creq]. rewrite rea_target. auto. Qed.
Lemma onward_visit l v : planned_loc l -> onward v -> exists v2, visit env f l v = (Ok tt, v2) /\ onward v2.
Proof.
  intros PL (JV & SK & PT & PR). destruct fin_ok as [IF TF].
  assert (STAY : done env f l v -> exists v2, visit env f l v = (Ok tt, v2) /\ onward v2).
  { intros D. exists v. split; [eapply visit_done; eauto|]. split; auto. }
  destruct (PR l PL) as [C|D]; auto. destruct (cont w l) as [x|] eqn:CW; [|apply STAY; intros y; congruence].
  pose proof (planned_data l x PL CW) as N.
  destruct (j_cont _ _ _ _ _ JV l x PL C) as [(rs & AK & H)|ST]; [|apply STAY; intros y CY; congruence].
  assert (AV : act env v x = act env w x) by (rewrite (act_skel env w' v x SK); apply rea_act; auto).
  assert (RS : rs = creq w x).
  { assert (RS : rs = creq v x) by (destruct x; auto; destruct N). rewrite RS, (creq_skel _ _ _ SK). apply creq_rea. }
  subst rs. destruct (final env fuel f w w1 F R EF I0 TO HR Q l x PL CW) as (y & j & j' & C1 & IJ & A & IJ' & XJ & _).
  destruct (replays_act env w x N j y j' IJ A) as (_ & _ & RP). specialize (RP fin IF XJ).
  assert (DU : forall r, In r (creq w x) -> due R fin r).
  { intros r IN. split; auto.
    assert (AW : asks env w x (creq w x)) by (destruct x; cbn [asks]; auto; destruct N).
    destruct (asked_registered env fuel f w w1 F R EF I0 TO HR Q r l x _ PL CW AW IN) as [E|L].
    - unfold prefix_name. rewrite E, String.eqb_refl. discriminate.
    - rewrite In_listed in L. unfold prefix_name. destruct (String.eqb _ _); [discriminate|].
      destruct (lookup (fst r) (importsByPath fin)); [discriminate|congruence]. }
  destruct (fore_act own R fin NC IF TF env w x N DU y fin RP) as [_ FO]. destruct (FO (imp f v) PT) as (k' & AK' & PK).
  assert (VE : visit env f l v = (Ok tt, set_cont l y (reimp f k' v))) by (unfold visit; rewrite C, AV, AK'; auto).
  exists (set_cont l y (reimp f k' v)). split; auto.
  destruct (visit_le env f R planned_loc l v _ JV PL VE) as (L & D & U).
  split; [eapply J_le; eauto|]. split; [rewrite (le_skel _ _ _ _ _ L); auto|]. split.
  - rewrite set_cont_imp. destruct (nth_error (files v) f) as [G|] eqn:EG; [|exfalso; apply (j_file _ _ _ _ _ JV); auto].
    rewrite (reimp_imp f k' v G EG). auto.
  - intros l2 P2. destruct (loc_eq_dec l2 l) as [->|NE]; auto. destruct (PR l2 P2) as [E|E].
    + left. rewrite U; auto.
    + right. eapply done_le; eauto.
Qed.
Lemma onward_first : onward w'.
Proof.
  destruct J_planned as [A B C]. split; [|split; [auto|split; [|intros l _; left; apply rea_cont]]].
  - split.
    + rewrite (EF' f es w F EF). discriminate.
    + rewrite rea_imp. auto.
    + intros l x PL E. rewrite rea_cont in E. pose proof (planned_data l x PL E) as N. destruct (C l x PL E) as [(rs & AK & H)|[S _]].
      * left. exists rs. split; auto. destruct x; [..|destruct N]; cbn [asks] in *; auto. rewrite creq_rea. auto.
      * right. split; [|destruct x; auto; destruct N]. intros j IJ X. rewrite rea_act by auto. rewrite rea_imp in X. auto.
  - rewrite rea_imp. destruct (file_after env fuel f w w1 F R EF I0 TO HR Q) as (F1 & E1 & EI1 & _ & S1 & V1).
    assert (E0 : imp f w = FImports F) by (unfold imp; rewrite EF; auto). rewrite E0, <- EI1.
    split; [apply I0|]. split; [exact (tidy0 own h f w F EI OK NC)|]. apply steps_ext in S1; auto. apply I0.
Qed.
Lemma bare_rea : bare w' = bare w.
Proof. reflexivity. Qed.
Theorem order_qualified : exists w1', qualify_file env fuel f w' = (Ok tt, w1').
Proof.
  assert (Q0 := Q). rewrite file_eq in Q0. unfold sbind, getsk in Q0.
  rewrite (nth_skel files er_imports w f F eq_refl EF) in Q0. cbn [er_imports with_imports FElements] in Q0.
  assert (PLN : forall e, In e (FElements F) -> forall l, In l (plan_element fuel e (skel w)) -> planned_loc l).
  { intros e IE l IL. unfold planned_loc, plan_file. rewrite (nth_skel files er_imports w f F eq_refl EF). apply in_flat_map. exists e. auto. }
  destruct (firm_elements env f R planned_loc (bare w) onward (fun v H => proj1 H)) with (fuel := fuel) (es := FElements F) (es' := es) (v0 := w) (v1 := w1) (v := w')
    as (v2 & E2 & _); auto using onward_visit, onward_first, J_planned, planned_templ.
  - intros v (_ & SK & _). unfold bare. rewrite SK. reflexivity.
  - intros e IE. apply PE'. auto.
  - exists v2. rewrite file_eq. unfold sbind, getsk.
    rewrite (nth_skel files er_imports w' f _ eq_refl (EF' f es w F EF)). exact E2.
Qed.
End Total.

Theorem order_file {TD} (env : Env TD) own h fuel f w F es s w1 :
  nth_error (files w) f = Some F -> FImports F = run h (NewImportsFor own) -> forallb call_ok h = true ->
  no_templates w f -> textual_code w f -> no_conflict own (file_requests h w f) -> Permutation (FElements F) es ->
  source env (S fuel) f w = (Ok s, w1) ->
  exists s' w1', source env (S fuel) f (rearranged f es w) = (Ok s', w1') /\
  exists F1 F2, nth_error (files w1) f = Some F1 /\ nth_error (files w1') f = Some F2 /\
    same_but_order env (FImports F1) (FImports F2) (FElements F) es s s'.
Proof.
  intros EF EI OK NT SC NC PE SO. rewrite rearranged_rea. destruct (source_split _ _ _ _ _ _ SO) as (Q & F1 & E1 & G1).
  destruct (order_qualified env own h fuel f w F es w1 EF EI OK NT NC PE Q) as (w1' & Q').
  destruct (order_written env own h fuel f w F es w1 w1' EF EI OK NT SC NC PE Q Q' F1 s E1 G1) as (F2 & s' & E2 & G2 & SB).
  exists s', w1'. split; [eapply source_join; eauto|]. exists F1, F2. auto.
Qed.
