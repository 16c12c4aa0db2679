(** What is written of a file depends on what the file consists of and what its code refers to. *)
From Verif Require Import Base BaseFacts Types SpecTypes Imports SpecImports ImportsProofs ImportsTheorems Conv Fmt World WorldProofs
  SpecGo SpecRender SpecWorld SpecQualify QualifyProofs QualifyTheorems SourceProofs SourceTheorems SpecFormat FormatProofs SpecCode SpecAppend AppendProofs AppendText AppendTheorems
  SpecOrder SpecLocal.

(** ** Tables that agree in some places *)
Definition tab_ok {A} (S : nat -> Prop) (K : A -> A -> Prop) (l0 l l' : list A) : Prop := forall i, S i ->
  nth_error l' i = nth_error l i /\
  match nth_error l0 i, nth_error l i with Some a0, Some a => K a0 a | None, None => True | _, _ => False end.
Lemma tab_ok_first {A} (S : nat -> Prop) (K : A -> A -> Prop) l l' : (forall a, K a a) -> (forall i, S i -> nth_error l' i = nth_error l i) -> tab_ok S K l l l'.
Proof. intros R H i Si. split; auto. destruct (nth_error l i); auto. Qed.
Lemma tab_ok_upd {A} (S : nat -> Prop) (K : A -> A -> Prop) l0 l l' i x : tab_ok S K l0 l l' -> S i ->
  match nth_error l0 i with Some a0 => K a0 x | None => True end -> tab_ok S K l0 (upd i x l) (upd i x l').
Proof.
  intros T Si KX j Sj. destruct (Nat.eq_dec i j) as [<-|N].
  - destruct (T i Si) as [E M]. destruct (nth_error l i) as [a|] eqn:EL.
    + assert (L : i < List.length l) by (apply nth_error_Some; congruence).
      assert (L' : i < List.length l') by (apply nth_error_Some; congruence).
      rewrite !nth_upd_same by auto. split; auto. destruct (nth_error l0 i); auto.
    + destruct (nth_error l0 i) as [a0|] eqn:E0; [contradiction|].
      assert (U : forall m : list A, nth_error m i = None -> nth_error (upd i x m) i = None).
      { clear. intros m. revert i. induction m as [|y m IH]; intros [|i] H; cbn in *; auto; discriminate. }
      rewrite !U by auto. auto.
  - rewrite !nth_upd_other by auto. apply T, Sj.
Qed.

Ltac four := split; [reflexivity|split; [reflexivity|split; [assumption|]]].
(** ** What arguments become *)
Definition finished (a : Arg) : Prop :=
  match a with
  | ASignature _ | AReflectType _ | AGoType _ | AGoPackage _ | AConst _ | AVar _ | ATypeSpec _ => False
  | AGoObject o => exists m, SymbolForGoObject o = Ok (SomMethod m)
  | _ => True
  end.
Lemma Arg_finished {TD} f a (u u1 : World TD) b : Arg_qualify f a u = (Ok b, u1) -> finished b.
Proof.
  intros H. destruct a; cbn [Arg_qualify] in H; unfold qualify_method, qualify_package, qualify_sym_arg, sbind, sret, slift, spanic in H;
    repeat match type of H with
      | context [match ?x with _ => _ end] => match x with context [match _ with _ => _ end] => fail 1 | _ => destruct x eqn:?; try discriminate H end
      end; injection H as <- <-; cbn [finished]; eauto.
Qed.
(** An argument of a slice. *)
Definition fin_at {TD} (args j : nat) (u : World TD) : Prop :=
  forall l a, nth_error (argss u) args = Some l -> nth_error l j = Some a -> finished a.

Section Local.
Context {TD : Type}.
Notation World := (World TD).
Variables (env : Env TD) (f : nat) (w w' : World) (F : GoFile).
Notation seen := (seen w f).
Notation part := (part_of w f).
Hypothesis SF : same_for w w' f F.
Variable Dt : TD -> Prop.
Hypothesis CD : closed_data env Dt.
Hypothesis TD0 : forall t tm d, template_of w f t -> nth_error (templs w) t = Some (tm, d) -> Dt d.

(** An argument and what it has become. *)
Definition kin (a b : Arg) : Prop :=
  (forall v, textual v a -> textual v b) /\ (named_by b = None \/ named_by b = named_by a).
Lemma kin_refl a : kin a a.
Proof. split; auto. Qed.
Lemma kin_trans a b c : kin a b -> kin b c -> kin a c.
Proof. intros [T1 N1] [T2 N2]. split; auto. destruct N2 as [N2|N2]; [auto|]. rewrite N2. auto. Qed.
(** The naming but for the symbol of an embedded interface. *)
Definition nm (o : option naming) : option naming :=
  match o with Some (NEmbed _) => Some (NEmbed (mkSymbol (mkPackage "" "") "")) | o => o end.
(** [Gh]: whether an argument is known to be finished. *)
Section Known.
Variables (Gh : Prop) (args0 j0 : nat).
Record rel (v v' : World) : Prop := mkRel
  { r_file : nth_error (files v') f = nth_error (files v) f;
    r_elems : exists G, nth_error (files v) f = Some G /\ FElements G = FElements F;
    r_pkg : forall x i, seen x -> home w x = Some i -> file_package i v' = file_package i v;
    r_cd : tab_ok (fun d => In (EConst d) (FElements F)) eq (constDecls w) (constDecls v) (constDecls v');
    r_vd : tab_ok (fun d => In (EVar d) (FElements F)) eq (varDecls w) (varDecls v) (varDecls v');
    r_td : tab_ok (fun d => In (EType d) (FElements F)) eq (typeDecls w) (typeDecls v) (typeDecls v');
    r_c : tab_ok (fun i => part (IConst i)) (fun a b => er_value b = er_value a) (consts w) (consts v) (consts v');
    r_v : tab_ok (fun i => part (IVar i)) (fun a b => er_value b = er_value a) (vars w) (vars v) (vars v');
    r_t : tab_ok (fun i => part (IType i)) (fun a b => er_type b = er_type a) (types w) (types v) (types v');
    r_f : tab_ok (fun i => part (IField i)) (fun a b => er_field b = er_field a) (World.fields w) (World.fields v) (World.fields v');
    r_e : tab_ok (fun i => part (IElem i)) (fun a b => er_elem b = er_elem a) (ielems w) (ielems v) (ielems v');
    r_fn : tab_ok (fun i => part (IFunc i)) (fun a b => er_func b = er_func a) (funcs w) (funcs v) (funcs v');
    r_b : tab_ok (fun i => part (IBlock i)) eq (blocks w) (blocks v) (blocks v');
    r_a : tab_ok (uses_args w f) (Forall2 kin) (argss w) (argss v) (argss v');
    r_n : forall x, seen x -> naming_of v' x = naming_of v x;
    r_n0 : forall x, seen x -> nm (naming_of v x) = nm (naming_of w x);
    r_tm : tab_ok (template_of w f) (fun a b => fst b = fst a /\ (Dt (snd a) -> Dt (snd b))) (templs w) (templs v) (templs v');
    r_g : Gh -> fin_at args0 j0 v }.
Lemma rel_first : (Gh -> fin_at args0 j0 w) -> rel w w'.
Proof.
  intros HG. destruct SF as (E1 & E2 & EL & EN & NM & AR & TM & PK). split; eauto; try congruence; [| | | | | | | | | | |apply tab_ok_first; auto].
  1-3: apply tab_ok_first; auto; intros i IN; apply (EL _ IN).
  1-7: apply tab_ok_first; auto; intros i IN; apply (EN _ IN).
  apply tab_ok_first; auto. intros l. induction l; constructor; auto using kin_refl.
Qed.

(** ** Programs that do the same in both *)
Definition par {A} (Q : A -> Prop) (m : WM (TD := TD) A) : Prop := forall v v', rel v v' ->
  exists r v1 v1', m v = (r, v1) /\ m v' = (r, v1') /\ rel v1 v1' /\ forall a, r = Ok a -> Q a.
Lemma par_ret {A} (Q : A -> Prop) a : Q a -> par Q (sret a).
Proof. intros H v v' RL. exists (Ok a), v, v'. four. intros b [= <-]. auto. Qed.
Lemma par_panic {A} (Q : A -> Prop) m : par Q (spanic m).
Proof. intros v v' RL. exists (Panic m), v, v'. four. intros b [=]. Qed.
Lemma par_lift {A} (Q : A -> Prop) r : (forall a, r = Ok a -> Q a) -> par Q (slift r).
Proof. intros H v v' RL. exists r, v, v'. four. auto. Qed.
Lemma par_bind {A B} (Q : A -> Prop) (P : B -> Prop) m k : par Q m -> (forall a, Q a -> par P (k a)) -> par P (do a <- m ;; k a).
Proof.
  intros M K v v' RL. destruct (M v v' RL) as (r & v1 & v1' & E & E' & RL1 & H). unfold sbind. rewrite E, E'.
  destruct r as [a|e]; [apply (K a (H a eq_refl)); auto|]. exists (Panic e), v1, v1'. four. intros b [=].
Qed.
Lemma par_weak {A} (P Q : A -> Prop) m : (forall a, P a -> Q a) -> par P m -> par Q m.
Proof. intros H M v v' RL. destruct (M v v' RL) as (r & v1 & v1' & E & E' & RL1 & HP). exists r, v1, v1'. split; [auto|split; [auto|split; auto]]. Qed.
Lemma par_for {A} (g : A -> WM unit) l : (forall a, In a l -> par (fun _ => True) (g a)) -> par (fun _ => True) (for_each g l).
Proof.
  induction l as [|a l IH]; intros H; cbn [for_each]; [apply par_ret; auto|].
  eapply par_bind; [apply H; left; auto|]. intros _ _. apply IH. intros; apply H; right; auto.
Qed.
Lemma par_get {A} (tab : World -> list A) (S : nat -> Prop) (K : A -> A -> Prop) i :
  (forall v v', rel v v' -> tab_ok S K (tab w) (tab v) (tab v')) -> S i ->
  par (fun a => exists a0, nth_error (tab w) i = Some a0 /\ K a0 a) (get tab i).
Proof.
  intros T Si v v' RL. destruct (T v v' RL i Si) as [E M]. unfold get. rewrite E. destruct (nth_error (tab v) i) as [a|].
  - exists (Ok a), v, v'. four. intros b [= <-]. destruct (nth_error (tab w) i) as [a0|]; [eauto|contradiction].
  - exists (Panic nil_deref), v, v'. four. intros b [=].
Qed.
Lemma par_imports {A} (m : IM A) : par (fun _ => True) (onImports f m).
Proof.
  intros v v' RL. destruct (r_elems _ _ RL) as (G & EG & EE). unfold onImports. rewrite (r_file _ _ RL), EG.
  destruct (m (FImports G)) as [r i]. eexists r, _, _. split; [reflexivity|]. split; [reflexivity|]. split; [|auto].
  assert (EG' : nth_error (files v') f = Some G) by (rewrite (r_file _ _ RL); auto).
  assert (L : f < List.length (files v)) by (apply nth_error_Some; congruence).
  assert (L' : f < List.length (files v')) by (apply nth_error_Some; congruence).
  destruct RL. split; cbn [set_files files constDecls varDecls typeDecls consts vars types World.fields ielems funcs blocks argss templs]; auto.
  - rewrite !nth_upd_same by auto. auto.
  - rewrite nth_upd_same by auto. eexists. split; [reflexivity|]. auto.
  - intros x j SX H. specialize (r_pkg0 x j SX H). unfold file_package, rd in *. cbn [set_files files] in *.
    destruct (Nat.eq_dec f j) as [<-|N].
    + rewrite !nth_upd_same by auto. auto.
    + rewrite !nth_upd_other by auto. auto.
Qed.
Lemma par_read {A} (g : World -> res A) : (forall v v', rel v v' -> g v' = g v) -> par (fun _ => True) (from_res g).
Proof. intros H v v' RL. exists (g v), v, v'. unfold from_res. rewrite (H v v' RL). four. auto. Qed.

Ltac keep RL := destruct RL as [? ? ? ? ? ? ? ? ? ? ? ? ? ? r_n1 r_n2 ? r_g1]; split; cbn [set_templs set_consts set_vars set_types set_fields set_ielems set_funcs set_argss
  files constDecls varDecls typeDecls consts vars types World.fields ielems funcs blocks argss templs]; auto.
Notation T := (fun _ : unit => True).
Lemma nm_upd {A} (g : A -> naming) l l' i x j : nth_error l i <> None -> nth_error l' i <> None ->
  option_map g (nth_error l' j) = option_map g (nth_error l j) -> option_map g (nth_error (upd i x l') j) = option_map g (nth_error (upd i x l) j).
Proof.
  intros N N' E. destruct (Nat.eq_dec i j) as [<-|D]; [rewrite !nth_upd_same by (apply nth_error_Some; auto)|rewrite !nth_upd_other by auto]; auto.
Qed.
Lemma nm0_upd {A} (g : A -> naming) l l0 i x a j : nth_error l i <> None -> nth_error l0 i = Some a -> nm (Some (g x)) = nm (Some (g a)) ->
  nm (option_map g (nth_error l j)) = nm (option_map g (nth_error l0 j)) -> nm (option_map g (nth_error (upd i x l) j)) = nm (option_map g (nth_error l0 j)).
Proof.
  intros N E0 EG E. destruct (Nat.eq_dec i j) as [<-|D]; [rewrite nth_upd_same by (apply nth_error_Some; auto); rewrite E0|rewrite nth_upd_other by auto]; auto.
Qed.
Lemma in_range {A} (S : nat -> Prop) (K : A -> A -> Prop) l0 l l' i a : tab_ok S K l0 l l' -> S i -> nth_error l0 i = Some a ->
  nth_error l i <> None /\ nth_error l' i <> None.
Proof. intros H Si E. destruct (H i Si) as [EE M]. rewrite E in M. rewrite EE. destruct (nth_error l i); [split; discriminate|contradiction]. Qed.
Lemma put_const i x a : part (IConst i) -> nth_error (consts w) i = Some a -> er_value x = er_value a -> par T (put consts set_consts i x).
Proof.
  intros Si E K v v' RL. exists (Ok tt). eexists _, _. split; [reflexivity|]. split; [reflexivity|]. split; [|auto].
  destruct (in_range _ _ _ _ _ i a (r_c _ _ RL) Si E) as [N1 N2]. keep RL.
  - apply tab_ok_upd; auto. rewrite E. auto.
  - intros y SY. specialize (r_n1 y SY). destruct y; auto. apply nm_upd; auto.
  - intros y SY. specialize (r_n2 y SY). destruct y; auto. apply (nm0_upd _ _ _ i x a); auto. pose proof (f_equal VNames K : VNames x = VNames a) as Q1; pose proof (f_equal VParent K : VParent x = VParent a) as Q2; cbn; congruence.
Qed.
Lemma put_var i x a : part (IVar i) -> nth_error (vars w) i = Some a -> er_value x = er_value a -> par T (put vars set_vars i x).
Proof.
  intros Si E K v v' RL. exists (Ok tt). eexists _, _. split; [reflexivity|]. split; [reflexivity|]. split; [|auto].
  destruct (in_range _ _ _ _ _ i a (r_v _ _ RL) Si E) as [N1 N2]. keep RL.
  - apply tab_ok_upd; auto. rewrite E. auto.
  - intros y SY. specialize (r_n1 y SY). destruct y; auto. apply nm_upd; auto.
  - intros y SY. specialize (r_n2 y SY). destruct y; auto. apply (nm0_upd _ _ _ i x a); auto. pose proof (f_equal VNames K : VNames x = VNames a) as Q1; pose proof (f_equal VParent K : VParent x = VParent a) as Q2; cbn; congruence.
Qed.
Lemma put_type i x a : part (IType i) -> nth_error (types w) i = Some a -> er_type x = er_type a -> par T (put types set_types i x).
Proof.
  intros Si E K v v' RL. exists (Ok tt). eexists _, _. split; [reflexivity|]. split; [reflexivity|]. split; [|auto].
  destruct (in_range _ _ _ _ _ i a (r_t _ _ RL) Si E) as [N1 N2]. keep RL.
  - apply tab_ok_upd; auto. rewrite E. auto.
  - intros y SY. specialize (r_n1 y SY). destruct y; auto. apply nm_upd; auto.
  - intros y SY. specialize (r_n2 y SY). destruct y; auto. apply (nm0_upd _ _ _ i x a); auto. pose proof (f_equal TSName K : TSName x = TSName a) as Q1; pose proof (f_equal TSParent K : TSParent x = TSParent a) as Q2; cbn; congruence.
Qed.
Lemma put_field i x a : part (IField i) -> nth_error (World.fields w) i = Some a -> er_field x = er_field a -> par T (put World.fields set_fields i x).
Proof.
  intros Si E K v v' RL. exists (Ok tt). eexists _, _. split; [reflexivity|]. split; [reflexivity|]. split; [|auto].
  destruct (in_range _ _ _ _ _ i a (r_f _ _ RL) Si E) as [N1 N2]. keep RL.
  - apply tab_ok_upd; auto. rewrite E. auto.
  - intros y SY. specialize (r_n1 y SY). destruct y; auto. apply nm_upd; auto.
  - intros y SY. specialize (r_n2 y SY). destruct y; auto. apply (nm0_upd _ _ _ i x a); auto. pose proof (f_equal FSName K : FSName x = FSName a) as Q1; cbn; congruence.
Qed.
Lemma put_elem i x a : part (IElem i) -> nth_error (ielems w) i = Some a -> er_elem x = er_elem a -> par T (put ielems set_ielems i x).
Proof.
  intros Si E K v v' RL. exists (Ok tt). eexists _, _. split; [reflexivity|]. split; [reflexivity|]. split; [|auto].
  destruct (in_range _ _ _ _ _ i a (r_e _ _ RL) Si E) as [N1 N2]. keep RL.
  - apply tab_ok_upd; auto. rewrite E. auto.
  - intros y SY. specialize (r_n1 y SY). destruct y; auto. apply nm_upd; auto.
  - intros y SY. specialize (r_n2 y SY). destruct y; auto. apply (nm0_upd _ _ _ i x a); auto. destruct x, a; try discriminate K; cbn in *; congruence.
Qed.
Lemma put_func i x a : part (IFunc i) -> nth_error (funcs w) i = Some a -> er_func x = er_func a -> par T (put funcs set_funcs i x).
Proof.
  intros Si E K v v' RL. exists (Ok tt). eexists _, _. split; [reflexivity|]. split; [reflexivity|]. split; [|auto].
  destruct (in_range _ _ _ _ _ i a (r_fn _ _ RL) Si E) as [N1 N2]. keep RL.
  - apply tab_ok_upd; auto. rewrite E. auto.
  - intros y SY. specialize (r_n1 y SY). destruct y; auto. apply nm_upd; auto.
  - intros y SY. specialize (r_n2 y SY). destruct y; auto. apply (nm0_upd _ _ _ i x a); auto. pose proof (f_equal FNName K : FNName x = FNName a) as Q1; pose proof (f_equal FNParent K : FNParent x = FNParent a) as Q2; pose proof (f_equal FNReceiver K : FNReceiver x = FNReceiver a) as Q3; cbn; congruence.
Qed.
Lemma upd_F2 {A B} (P : A -> B -> Prop) l0 l i b a : Forall2 P l0 l -> nth_error l0 i = Some a -> P a b -> Forall2 P l0 (upd i b l).
Proof. intros H. revert i. induction H; intros [|i] E K; cbn in *; try discriminate; [injection E as <-; constructor; auto|constructor; auto]. Qed.
Lemma Forall2_len {A B} (P : A -> B -> Prop) l l' : Forall2 P l l' -> List.length l = List.length l'.
Proof. induction 1; cbn; auto. Qed.
Lemma store args i l0 a0 b : uses_args w f args -> nth_error (argss w) args = Some l0 -> nth_error l0 i = Some a0 -> kin a0 b -> finished b ->
  par T (do l <- get argss args ;; put argss set_argss args (upd i b l)).
Proof.
  intros U E0 EA K FB v v' RL. destruct (r_a _ _ RL args U) as [E M]. rewrite E0 in M. unfold sbind, get. rewrite E.
  destruct (nth_error (argss v) args) as [l|] eqn:EL; [|contradiction].
  exists (Ok tt). eexists _, _. split; [reflexivity|]. split; [reflexivity|]. split; [|auto]. keep RL.
  - apply tab_ok_upd; auto. rewrite E0. eapply upd_F2; eauto.
  - intros HG. specialize (r_g1 HG). intros l1 a1 E1 EJ. cbn [argss set_argss] in E1. destruct (Nat.eq_dec args args0) as [->|N].
    + rewrite nth_upd_same in E1 by (apply nth_error_Some; congruence). injection E1 as <-.
      destruct (Nat.eq_dec i j0) as [->|N].
      * assert (L : j0 < List.length l) by (rewrite <- (Forall2_len _ _ _ M); apply nth_error_Some; congruence).
        rewrite nth_upd_same in EJ by auto. injection EJ as <-. auto.
      * rewrite nth_upd_other in EJ by auto. apply (r_g1 l a1); auto.
    + rewrite nth_upd_other in E1 by auto. apply (r_g1 l1 a1); auto.
Qed.
(** Templates. *)
Lemma par_template t : template_of w f t -> par T (templ_qualify env f t).
Proof.
  intros TO. unfold templ_qualify. eapply par_bind; [eapply (par_get templs); [intros; apply r_tm; auto|exact TO]|].
  intros [tm d] ([tm0 d0] & E0 & EQ & HD). cbn in EQ, HD. subst tm0. assert (Dd : Dt d) by (apply HD, (TD0 t tm d0); auto). destruct CD as (C1 & C2 & C3).
  eapply (par_bind Dt).
  - intros v v' RL. destruct (par_imports (tq env v d) v v' RL) as (r & v1 & v1' & M & M' & RL1 & _). exists r, v1, v1'.
    split; [exact M|]. split; [|split; [exact RL1|]].
    + rewrite <- M'. unfold onImports. destruct (nth_error (files v') f) as [G'|]; auto. rewrite (C1 d v v' _ Dd). auto.
    + intros d' ->. unfold onImports in M. destruct (nth_error (files v) f) as [G'|]; [|discriminate]. destruct (tq env v d (FImports G')) as [r i] eqn:E.
      injection M as -> _. eapply C2; eauto.
  - intros d' Dd'. intros v v' RL. exists (Ok tt). eexists _, _. split; [reflexivity|]. split; [reflexivity|]. split; [|auto]. keep RL.
    apply tab_ok_upd; auto. rewrite E0. cbn. auto.
Qed.

(** ** What is read of the specs *)
Section Read.
Variables (v v' : World).
Hypothesis RL : rel v v'.
(** What is seen has the same name in both, and was added to the same file. *)
Lemma same_home x o p : seen x -> naming_of v x = Some o -> match o with NValue _ q | NType _ q | NFunc _ _ q => q | _ => None end = Some p ->
  file_package p v' = file_package p v.
Proof.
  intros SX EN EP. apply (r_pkg _ _ RL x); auto. pose proof (r_n0 _ _ RL x SX) as N. rewrite EN in N. unfold home.
  destruct (naming_of w x) as [o'|]; [|destruct o; discriminate]. destruct o, o'; cbn in N; try discriminate; injection N; intros; subst; auto.
Qed.
Lemma same_SymbolAt x a b k : seen x -> naming_of v x = Some (NValue (VNames a) (VParent a)) -> naming_of v' x = Some (NValue (VNames b) (VParent b)) ->
  ValueSpec_SymbolAt b k v' = ValueSpec_SymbolAt a k v.
Proof.
  intros SX E E'. pose proof (r_n _ _ RL x SX) as N. rewrite E, E' in N. injection N as N1 N2.
  unfold ValueSpec_SymbolAt. rewrite N1, N2. destruct (if (k <? 0)%Z then None else nth_error (VNames a) (Z.to_nat k)); auto.
  destruct (VParent a) as [j|] eqn:EP; auto. rewrite (same_home x _ j SX E); auto.
Qed.
Lemma same_ToSymbol x a b : seen x -> naming_of v x = Some (NValue (VNames a) (VParent a)) -> naming_of v' x = Some (NValue (VNames b) (VParent b)) ->
  ValueSpec_ToSymbol b v' = ValueSpec_ToSymbol a v.
Proof.
  intros SX E E'. pose proof (r_n _ _ RL x SX) as N. rewrite E, E' in N. injection N as N1 N2.
  unfold ValueSpec_ToSymbol. rewrite N1, (same_SymbolAt x a b); auto.
Qed.
Lemma same_TypeSymbol i a b : seen (IType i) -> nth_error (types v) i = Some a -> nth_error (types v') i = Some b ->
  TypeSpec_ToSymbol b v' = TypeSpec_ToSymbol a v.
Proof.
  intros SX E E'. pose proof (r_n _ _ RL _ SX) as N. cbn [naming_of] in N. rewrite E, E' in N. injection N as N1 N2.
  unfold TypeSpec_ToSymbol. rewrite N1, N2. destruct (String.eqb (TSName a) ""); auto.
  destruct (TSParent a) as [j|] eqn:EP; auto. rewrite (same_home (IType i) (NType (TSName a) (TSParent a)) j SX); auto. cbn [naming_of]. rewrite E. auto.
Qed.
Lemma same_FuncSymbol i a b : seen (IFunc i) -> nth_error (funcs v) i = Some a -> nth_error (funcs v') i = Some b ->
  FuncSpec_ToSymbol b v' = FuncSpec_ToSymbol a v.
Proof.
  intros SX E E'. pose proof (r_n _ _ RL _ SX) as N. cbn [naming_of] in N. rewrite E, E' in N. injection N as N1 N2 N3.
  unfold FuncSpec_ToSymbol. rewrite N1, N2, N3.
  destruct (FNParent a) as [j|] eqn:EP; auto. rewrite (same_home (IFunc i) (NFunc (FNName a) (FNReceiver a) (FNParent a)) j SX); auto. cbn [naming_of]. rewrite E. auto.
Qed.
Lemma same_type i a a0 : seen (IType i) -> nth_error (types w) i = Some a0 -> er_type a = er_type a0 -> TypeSpec_ToSymbol a v' = TypeSpec_ToSymbol a v.
Proof.
  intros SX H E. unfold TypeSpec_ToSymbol. destruct (String.eqb (TSName a) ""); auto.
  pose proof (f_equal TSParent E : TSParent a = TSParent a0) as EP. destruct (TSParent a) as [j|]; auto.
  rewrite (r_pkg _ _ RL (IType i) j); auto. unfold home. cbn [naming_of]. rewrite H. cbn. congruence.
Qed.
Lemma same_ValueString x a b : seen x -> naming_of v x = Some (NValue (VNames a) (VParent a)) -> naming_of v' x = Some (NValue (VNames b) (VParent b)) ->
  ValueSpec_String b v' = ValueSpec_String a v.
Proof.
  intros SX E E'. pose proof (r_n _ _ RL x SX) as N. rewrite E, E' in N. injection N as N1 N2.
  assert (M : forall l, map (fun i => rbind (ValueSpec_SymbolAt b (Z.of_nat i) v') (fun s => Ok (Symbol_String s))) l =
     map (fun i => rbind (ValueSpec_SymbolAt a (Z.of_nat i) v) (fun s => Ok (Symbol_String s))) l).
  { intros l. apply map_ext. intros k. rewrite (same_SymbolAt x a b); auto. }
  unfold ValueSpec_String. rewrite N1, N2, (same_ToSymbol x a b), M by auto. reflexivity.
Qed.
(** As an argument of code. *)
Ltac both x SX tab i := let N := fresh "N" in pose proof (r_n _ _ RL x SX) as N; cbn [naming_of] in N; unfold rd;
  destruct (nth_error (tab v) i) eqn:?E, (nth_error (tab v') i) eqn:?E'; try discriminate N; cbn [rbind]; [|reflexivity].
Lemma read_const i : seen (IConst i) -> rbind (rd consts i v') (fun a => ValueSpec_ToSymbol a v') = rbind (rd consts i v) (fun a => ValueSpec_ToSymbol a v).
Proof. intros SX. both (IConst i) SX (@consts TD) i. apply (same_ToSymbol (IConst i)); cbn [naming_of]; auto; [rewrite E|rewrite E']; auto. Qed.
Lemma read_var i : seen (IVar i) -> rbind (rd vars i v') (fun a => ValueSpec_ToSymbol a v') = rbind (rd vars i v) (fun a => ValueSpec_ToSymbol a v).
Proof. intros SX. both (IVar i) SX (@vars TD) i. apply (same_ToSymbol (IVar i)); cbn [naming_of]; auto; [rewrite E|rewrite E']; auto. Qed.
Lemma read_type i : seen (IType i) -> rbind (rd types i v') (fun a => TypeSpec_ToSymbol a v') = rbind (rd types i v) (fun a => TypeSpec_ToSymbol a v).
Proof. intros SX. both (IType i) SX (@types TD) i. eapply same_TypeSymbol; eauto. Qed.
Lemma read_func i : seen (IFunc i) -> rbind (rd funcs i v') (fun a => FuncSpec_ToSymbol a v') = rbind (rd funcs i v) (fun a => FuncSpec_ToSymbol a v).
Proof. intros SX. both (IFunc i) SX (@funcs TD) i. eapply same_FuncSymbol; eauto. Qed.
Definition method_of (u : World) (e : InterfaceElement) : res MethodReference :=
  match e with InterfaceMethod _ n _ p => InterfaceMethod_ToMethodRef n p u | InterfaceEmbed _ _ _ => Panic nil_deref end.
Lemma read_method i : seen (IElem i) -> rbind (rd ielems i v') (method_of v') = rbind (rd ielems i v) (method_of v).
Proof.
  intros SX. pose proof (r_n0 _ _ RL _ SX) as N0. both (IElem i) SX (@ielems TD) i.
  destruct i0 as [c s p|c n s p], i1 as [c' s' p'|c' n' s' p']; try discriminate N; auto. injection N as -> ->.
  cbn [method_of]. unfold InterfaceMethod_ToMethodRef. destruct p as [p|]; auto.
  assert (SP : seen (IType p)).
  { apply (seen_owner w f i n p SX). cbn [naming_of] in *. rewrite E in N0. cbn in N0.
    destruct (nth_error (ielems w) i) as [[|]|]; try discriminate N0. cbn in N0. injection N0 as <- <-. auto. }
  pose proof (read_type p SP) as R. unfold rd in *. destruct (nth_error (types v) p), (nth_error (types v') p); cbn [rbind] in *; auto; try (rewrite R; auto; fail); rewrite <- R; auto.
Qed.
End Read.

(** ** Qualifying *)
Lemma nth_F2 {A B} (P : A -> B -> Prop) l0 l i b : Forall2 P l0 l -> nth_error l i = Some b -> exists a, nth_error l0 i = Some a /\ P a b.
Proof. intros H. revert i. induction H; intros [|i] E; cbn in *; try discriminate; eauto. injection E as <-. eauto. Qed.
Definition wordy (a : Arg) : Prop := match a with AInt _ | ASignature _ | ASignaturePtr _ | AEmbed _ | AOther _ => False | _ => True end.
Lemma wordy_verb v a : wordy a -> textual v a -> (v = "s"%char \/ v = "v"%char) \/ v = "q"%char.
Proof. intros M [ST|[V (id & ->)]]; [|destruct M]. destruct a; cbn [steady wordy] in *; try contradiction; tauto. Qed.
Lemma kin_to a b : wordy a -> match b with APackage _ | ASymbol _ | AMethodRefPtr _ | ATypeName _ | AString _ => True | _ => False end -> kin a b.
Proof.
  intros M N. split; [|left; destruct b; try contradiction; auto].
  intros v TX. left. apply wordy_verb in TX; auto. destruct b; try contradiction; exact TX.
Qed.
Lemma par_sym a s : wordy a -> par (kin a) (qualify_sym_arg f s).
Proof. intros M. unfold qualify_sym_arg. eapply par_bind; [apply par_imports|]. intros. apply par_ret, kin_to; cbn; auto. Qed.
Lemma par_method a m : wordy a -> par (kin a) (qualify_method f a m).
Proof.
  intros M. unfold qualify_method. eapply par_bind; [apply par_imports|]. intros. apply par_ret.
  destruct (negb _); [apply kin_to; cbn; auto|apply kin_refl].
Qed.
Lemma par_package a p : wordy a -> par (kin a) (qualify_package f a p).
Proof.
  intros M. unfold qualify_package. eapply par_bind; [apply par_imports|]. intros. apply par_ret.
  destruct (negb _); [apply kin_to; cbn; auto|apply kin_refl].
Qed.
(** Entries that are read and whose symbol is then read. *)
Lemma get_read {A B C} (tab : World -> list A) i (g : A -> World -> res B) (k : B -> WM (TD := TD) C) u :
  (do a <- get tab i ;; do s <- from_res (g a) ;; k s) u = (do s <- from_res (fun u => rbind (rd tab i u) (fun a => g a u)) ;; k s) u.
Proof. unfold sbind, get, from_res, rd. destruct (nth_error (tab u) i); auto. Qed.
Lemma par_ext {A} (Q : A -> Prop) m m' : (forall u, m u = m' u) -> par Q m' -> par Q m.
Proof. intros E M v v' RL. rewrite !E. apply M, RL. Qed.
Lemma par_arg a : (forall x, named_by a = Some x -> seen x) -> par (kin a) (Arg_qualify f a).
Proof.
  intros H. destruct a; cbn [Arg_qualify named_by] in *; try (apply par_ret, kin_refl);
    try (apply par_sym; exact I); try (apply par_method; exact I); try (apply par_package; exact I).
  - eapply par_bind; [apply par_imports|]. intros [s' b] _. apply par_ret. split; [|left; auto].
    intros v [ST|[V (id & [=])]]. left. exact ST.
  - eapply par_bind; [apply par_imports|]. intros [s' b] _. apply par_ret. split; [|left; auto].
    intros v [ST|[V (id & [=])]]. left. exact ST.
  - eapply par_bind; [apply par_imports|]. intros [s' b] _. apply par_ret, kin_to; exact I.
  - specialize (H _ eq_refl). eapply par_ext; [intros; apply get_read|].
    eapply par_bind; [|intros; apply par_sym; exact I]. apply par_read. intros. apply read_const; auto.
  - specialize (H _ eq_refl). eapply par_ext; [intros; apply get_read|].
    eapply par_bind; [|intros; apply par_sym; exact I]. apply par_read. intros. apply read_var; auto.
  - specialize (H _ eq_refl). eapply par_ext; [intros; apply get_read|].
    eapply par_bind; [|intros; apply par_sym; exact I]. apply par_read. intros. apply read_type; auto.
  - specialize (H _ eq_refl). apply (par_ext _ _ (do m <- from_res (fun u => rbind (rd ielems id u) (method_of u)) ;; qualify_method f (AIMethod id) m)).
    { intros u. unfold sbind, get, from_res, rd. destruct (nth_error (ielems u) id) as [[c s p|c n s p]|]; auto. }
    eapply par_bind; [|intros; apply par_method; exact I]. apply par_read. intros. apply read_method; auto.
  - specialize (H _ eq_refl). eapply par_ext; [intros; apply get_read|].
    eapply par_bind; [|intros [s|m] _; [apply par_sym|apply par_method]; exact I]. apply par_read. intros. apply read_func; auto.
  - eapply par_bind; [apply par_lift; intros; exact I|]. intros t' _.
    eapply par_bind; [apply par_imports|]. intros [s' b] _. apply par_ret, kin_to; exact I.
  - eapply par_bind; [apply par_lift; intros; exact I|]. intros t' _.
    eapply par_bind; [apply par_imports|]. intros [s' b] _. apply par_ret, kin_to; exact I.
  - eapply par_bind; [apply par_lift; intros; exact I|]. intros [s|m] _; [apply par_sym|apply par_method]; exact I.
  - eapply par_bind; [apply par_lift; intros; exact I|]. intros t' _.
    eapply par_bind; [apply par_imports|]. intros s' _. apply par_ret, kin_to; exact I.
Qed.
Lemma par_line_at args l0 i : uses_args w f args -> nth_error (argss w) args = Some l0 -> par T (line_qualify_at f args i).
Proof.
  intros U E0. unfold line_qualify_at.
  eapply par_bind; [eapply (par_get argss); [intros; apply r_a; eauto|exact U]|]. intros l (l1 & E1 & FK).
  rewrite E0 in E1. injection E1 as <-. destruct (nth_error l i) as [a|] eqn:EA; [|apply par_ret; exact I].
  destruct (nth_F2 _ _ _ _ _ FK EA) as (a0 & EA0 & KA).
  eapply (par_bind (fun b => kin a b /\ finished b)).
  { intros v v' RL. destruct (par_arg a) with (v := v) (v' := v') as (r & v1 & v1' & M & M' & RL1 & Q); auto.
    - intros x NX. destruct KA as [_ [KN|KN]]; [congruence|]. eapply (seen_arg w f args l0 a0); eauto; [eapply nth_error_In; eauto|]. rewrite <- KN. exact NX.
    - exists r, v1, v1'. split; [exact M|]. split; [exact M'|]. split; [exact RL1|]. intros b ->. split; [auto|eapply Arg_finished; eauto]. }
  intros b [KB FB]. eapply store; eauto. eapply kin_trans; eauto.
Qed.
Lemma par_line args : uses_args w f args -> par T (line_qualify f args).
Proof.
  intros U. unfold line_qualify. eapply par_bind; [eapply (par_get argss); [intros; apply r_a; eauto|exact U]|].
  intros l (l0 & E0 & FK). apply par_for. intros i _. eapply par_line_at; eauto.
Qed.
Lemma par_code cb b e : part (IBlock cb) -> nth_error (blocks w) cb = Some b -> In e b -> par T (codeElement_qualify env f e).
Proof.
  intros P E0 IN. destruct e as [fm args|t]; cbn [codeElement_qualify].
  - apply par_line. exists cb, b, fm. auto.
  - apply par_template. exists cb, b. auto.
Qed.
Lemma par_block cb : part (IBlock cb) -> par T (CodeBlock_qualify env f cb).
Proof.
  intros P. unfold CodeBlock_qualify. eapply par_bind; [eapply (par_get blocks); [intros; apply r_b; eauto|exact P]|].
  intros b (b0 & E0 & <-). apply par_for. intros e IN. eapply par_code; eauto.
Qed.
Lemma par_elem i : part (IElem i) -> par T (InterfaceElement_qualify f i).
Proof.
  intros P. unfold InterfaceElement_qualify.
  eapply par_bind; [eapply (par_get ielems); [intros; apply r_e; eauto|exact P]|]. intros e (e0 & E0 & EV).
  destruct e as [c s p|c n s p], e0 as [c0 s0 p0|c0 n0 s0 p0]; try discriminate EV.
  - eapply par_bind; [apply par_imports|]. intros s' _. eapply put_elem; eauto.
  - eapply par_bind; [apply par_imports|]. intros [s' b] _. eapply put_elem; eauto.
Qed.
Lemma par_type fuel : forall i, part (IType i) -> par T (TypeSpec_qualify fuel f i).
Proof.
  induction fuel as [|fuel IH]; intros i P; cbn [TypeSpec_qualify]; [apply par_panic|].
  eapply par_bind; [eapply (par_get types); [intros; apply r_t; eauto|exact P]|]. intros TS (T0 & E0 & EV).
  pose proof (f_equal TSStruct EV : TSStruct TS = TSStruct T0) as ES. pose proof (f_equal TSInterface EV : TSInterface TS = TSInterface T0) as EI.
  eapply par_bind; [apply par_imports|]. intros [u b] _.
  eapply par_bind; [eapply put_type; [exact P|eauto|rewrite <- EV; reflexivity]|]. intros _ _.
  eapply par_bind.
  - apply par_for. intros fid IN. rewrite ES in IN. assert (PF : part (IField fid)) by (eapply po_field; eauto).
    eapply par_bind; [eapply (par_get World.fields); [intros; apply r_f; eauto|exact PF]|]. intros fs (f0 & EF0 & EFV).
    destruct (FSType fs) as [|t|ts] eqn:FT; [apply par_ret; exact I| |].
    + eapply par_bind; [apply par_imports|]. intros [t' b'] _. eapply put_field; [exact PF|eauto|].
      rewrite <- EFV. unfold er_field, with_ftype. cbn. rewrite FT. reflexivity.
    + apply IH. eapply po_field_type; eauto. pose proof (f_equal FSType EFV) as X. cbn in X. rewrite FT in X. destruct (FSType f0); try discriminate. cbn in X. congruence.
  - intros _ _. apply par_for. intros e IN. rewrite EI in IN. apply par_elem. eapply po_elem; eauto.
Qed.
Lemma par_init (cb : option nat) : (forall b, cb = Some b -> part (IBlock b)) ->
  par T match cb with None => sret tt | Some b => CodeBlock_qualify env f b end.
Proof. destruct cb as [b|]; intros H; [apply par_block; auto|apply par_ret; exact I]. Qed.
Lemma par_const fuel i : part (IConst i) -> par T (qualify_value env consts set_consts fuel f i).
Proof.
  intros P. unfold qualify_value. eapply par_bind; [eapply (par_get consts); [intros; apply r_c; eauto|exact P]|]. intros v (v0 & E0 & EV).
  pose proof (f_equal VInit EV : VInit v = VInit v0) as EI. pose proof (f_equal VSType EV) as ET. cbn in ET.
  eapply (par_bind T); [|intros _ _; apply par_init; intros b EB; eapply po_const_init; eauto; congruence].
  destruct (VSType v) as [|t|ts] eqn:VT; [apply par_ret; exact I| |].
  - eapply par_bind; [apply par_imports|]. intros [t' b'] _. eapply put_const; [exact P|eauto|].
    rewrite <- EV. unfold er_value, with_vtype. cbn. rewrite VT. reflexivity.
  - apply par_type. eapply po_const_type; eauto. destruct (VSType v0); try discriminate. cbn in ET. congruence.
Qed.
Lemma par_var fuel i : part (IVar i) -> par T (qualify_value env vars set_vars fuel f i).
Proof.
  intros P. unfold qualify_value. eapply par_bind; [eapply (par_get vars); [intros; apply r_v; eauto|exact P]|]. intros v (v0 & E0 & EV).
  pose proof (f_equal VInit EV : VInit v = VInit v0) as EI. pose proof (f_equal VSType EV) as ET. cbn in ET.
  eapply (par_bind T); [|intros _ _; apply par_init; intros b EB; eapply po_var_init; eauto; congruence].
  destruct (VSType v) as [|t|ts] eqn:VT; [apply par_ret; exact I| |].
  - eapply par_bind; [apply par_imports|]. intros [t' b'] _. eapply put_var; [exact P|eauto|].
    rewrite <- EV. unfold er_value, with_vtype. cbn. rewrite VT. reflexivity.
  - apply par_type. eapply po_var_type; eauto. destruct (VSType v0); try discriminate. cbn in ET. congruence.
Qed.
Lemma EF : nth_error (files w) f = Some F.
Proof. apply SF. Qed.
Lemma par_element fuel e : In e (FElements F) -> par T (FileElement_qualify env fuel f e).
Proof.
  intros IN. pose proof EF as EF. destruct e as [d|d|d|i]; cbn [FileElement_qualify].
  - eapply par_bind; [eapply (par_get constDecls); [intros; apply r_cd; eauto|exact IN]|]. intros D (D0 & E0 & <-).
    apply par_for. intros i II. apply par_const. eapply po_const; eauto.
  - eapply par_bind; [eapply (par_get varDecls); [intros; apply r_vd; eauto|exact IN]|]. intros D (D0 & E0 & <-).
    apply par_for. intros i II. apply par_var. eapply po_var; eauto.
  - eapply par_bind; [eapply (par_get typeDecls); [intros; apply r_td; eauto|exact IN]|]. intros D (D0 & E0 & <-).
    apply par_for. intros i II. apply par_type. eapply po_type; eauto.
  - assert (P : part (IFunc i)) by (eapply po_func; eauto).
    eapply par_bind; [eapply (par_get funcs); [intros; apply r_fn; eauto|exact P]|]. intros v (v0 & E0 & EV).
    pose proof (f_equal FNBody EV : FNBody v = FNBody v0) as EB.
    eapply par_bind; [apply par_imports|]. intros [s b] _. eapply par_bind.
    + eapply put_func; [exact P|eauto|]. rewrite <- EV. reflexivity.
    + intros _ _. apply par_block. rewrite EB. eapply po_body; eauto.
Qed.
Lemma par_file fuel : par T (qualify_file env fuel f).
Proof.
  intros v v' RL. unfold qualify_file, sbind, get. rewrite (r_file _ _ RL). destruct (r_elems _ _ RL) as (G & -> & EE). rewrite EE.
  apply par_for; auto. intros e IN. apply par_element, IN.
Qed.

(** ** Writing *)
Section Write.
Variables (v v' : World).
Hypothesis RL : rel v v'.
Hypothesis SC : plain_code env w f.
Definition settled (a : Arg) : Prop :=
  match a with ASignature _ | AReflectType _ | AGoType _ | AGoObject _ | AGoPackage _ | ATypeSpec _ => False | _ => True end.
Lemma finished_settled verb a : finished a -> textual verb a -> settled a.
Proof.
  destruct a; cbn [finished settled]; auto. intros (m & E) [[ST _]|[_ (id & [=])]]. eapply ST; eauto.
Qed.
Hypothesis FN : forall args l a, uses_args w f args -> nth_error (argss v) args = Some l -> In a l -> finished a.
Lemma rd_same {A} (tab : World -> list A) (S : nat -> Prop) (K : A -> A -> Prop) i :
  tab_ok S K (tab w) (tab v) (tab v') -> S i -> rd tab i v' = rd tab i v /\
  forall a, rd tab i v = Ok a -> exists a0, nth_error (tab w) i = Some a0 /\ K a0 a.
Proof.
  intros H Si. destruct (H i Si) as [E M]. unfold rd. rewrite E. split; auto.
  destruct (nth_error (tab v) i) as [b|]; [|discriminate]. intros a [= <-].
  destruct (nth_error (tab w) i) as [a0|]; [eauto|contradiction].
Qed.
Lemma same_TypeString i a a0 : seen (IType i) -> nth_error (types w) i = Some a0 -> er_type a = er_type a0 -> TypeSpec_String env a v' = TypeSpec_String env a v.
Proof. intros SX H E. unfold TypeSpec_String. rewrite (same_type v v' RL i a a0); auto. Qed.
Ltac both x SX tab i := let N := fresh "N" in pose proof (r_n _ _ RL x SX) as N; cbn [naming_of] in N; unfold rd;
  destruct (nth_error (tab v) i) eqn:?E, (nth_error (tab v') i) eqn:?E'; try discriminate N; cbn [rbind]; [|reflexivity].
Ltac reads H := match goal with
  | |- rbind (rd ?tab ?i v') _ = _ => let E := fresh "E" in let M := fresh "M" in let a := fresh "a" in let a0 := fresh "a0" in let EA := fresh "EA" in
      destruct (rd_same tab _ _ i H) as [E M]; [|rewrite E; destruct (rd tab i v) as [a|]; [destruct (M a eq_refl) as (a0 & EA & EV); cbn [rbind]|reflexivity]] end.
Lemma same_arg verb a : textual verb a -> settled a -> (forall x, named_by a = Some x -> seen x) -> fmt_arg env v' verb a = fmt_arg env v verb a.
Proof.
  intros TX SE SN.
  assert (K : forall (r : res string), wordy a \/ (exists id, a = AEmbed id) -> arg_string env v a = Some r -> arg_string env v' a = Some r ->
     fmt_arg env v' verb a = fmt_arg env v verb a).
  { intros r WD E1 E2. unfold fmt_arg. rewrite E1, E2.
    assert (V : (verb = "s"%char \/ verb = "v"%char) \/ verb = "q"%char).
    { destruct WD as [WD|(id & ->)]; [eapply wordy_verb; eauto|]. destruct TX as [[]|[V _]]. tauto. }
    destruct V as [[-> | ->]| ->]; reflexivity. }
  destruct a; cbn [settled named_by] in *; try contradiction;
    try (eapply K; [left; exact I|reflexivity|reflexivity]);
    try specialize (SN _ eq_refl).
  - destruct TX as [[-> | ->]|[_ (id & [=])]]; reflexivity.
  - destruct TX as [[-> | ->]|[_ (id & [=])]]; reflexivity.
  - eapply K; [left; exact I|reflexivity|]. cbn [arg_string]. f_equal. both (IConst id) SN (@consts TD) id.
    apply (same_ValueString v v' RL (IConst id)); cbn [naming_of]; auto; [rewrite E|rewrite E']; auto.
  - eapply K; [left; exact I|reflexivity|]. cbn [arg_string]. f_equal. both (IVar id) SN (@vars TD) id.
    apply (same_ValueString v v' RL (IVar id)); cbn [naming_of]; auto; [rewrite E|rewrite E']; auto.
  - eapply K; [left; exact I|reflexivity|]. cbn [arg_string]. f_equal. both (IElem id) SN (@ielems TD) id.
    destruct i as [c s p|c n s p], i0 as [c' s' p'|c' n' s' p']; cbn in N; try discriminate N; injection N; intros; subst; auto.
  - eapply K; [left; exact I|reflexivity|]. cbn [arg_string]. f_equal. both (IFunc id) SN (@funcs TD) id.
    pose proof (same_FuncSymbol v v' RL id _ _ SN E E') as X. unfold FuncSpec_String. rewrite X. injection N as -> -> ->. auto.
  - eapply K; [left; exact I|reflexivity|]. cbn [arg_string]. f_equal. both (IField id) SN (@World.fields TD) id.
    injection N as ->. auto.
  - eapply K; [right; eauto|reflexivity|]. cbn [arg_string]. f_equal. both (IElem id) SN (@ielems TD) id.
    destruct i as [c s p|c n s p], i0 as [c' s' p'|c' n' s' p']; cbn in N; try discriminate N; injection N; intros; subst; auto.
  - destruct TX as [[]|[_ (id & [=])]].
Qed.
(** Arguments that are not specs. *)
Lemma same_unnamed verb a : sees_values env -> named_by a = None -> fmt_arg env v' verb a = fmt_arg env v verb a.
Proof.
  intros [B _] N. unfold fmt_arg. destruct a; try discriminate N; cbn [arg_string]; rewrite ?(B v v' verb _ N); reflexivity.
Qed.
Lemma apply_ext (show show' : ascii -> Arg -> string) l : forall args, (forall verb a, In a args -> show' verb a = show verb a) ->
  apply_format show' l args = apply_format show l args.
Proof.
  induction l as [|[c|c|] l IH]; intros args H; cbn [apply_format]; auto.
  - rewrite (IH args H). auto.
  - destruct args as [|x args]; [rewrite (IH [] H); auto|].
    rewrite (IH args (fun verb a IN => H verb a (or_intror IN))), (H c x (or_introl eq_refl)). reflexivity.
  - rewrite (IH args H). auto.
Qed.
Lemma same_unnamed_line fm l : sees_values env -> (forall a, In a l -> named_by a = None) -> Fprintf env v' fm l = Fprintf env v fm l.
Proof.
  intros B N. unfold Fprintf. rewrite (proj2 B v v' fm l N). destruct (parse_format fm); auto.
  rewrite (apply_ext (fmt_arg env v) (fmt_arg env v')); auto. intros. apply same_unnamed; auto.
Qed.
Lemma same_block cb : part (IBlock cb) -> CodeBlock_writeTo env v' cb = CodeBlock_writeTo env v cb.
Proof.
  intros P. unfold CodeBlock_writeTo. reads (r_b _ _ RL); [exact P|]. subst a0.
  f_equal. apply map_ext_in. intros x IX. destruct x as [fm args|t].
  2:{ assert (TO : template_of w f t) by (exists cb, a; auto). cbn [codeElement_writeTo]. destruct (r_tm _ _ RL t TO) as [E1 M1]. unfold rd. rewrite E1.
    destruct (nth_error (templs v) t) as [[tm d]|]; auto. cbn [rbind]. destruct (nth_error (templs w) t) as [[tm0 d0]|] eqn:E0; [|contradiction].
    destruct M1 as [_ HD]. cbn in HD. apply CD. apply HD. eapply TD0; eauto. }
  assert (U : uses_args w f args) by (exists cb, a, fm; auto).
  cbn [codeElement_writeTo]. destruct (r_a _ _ RL args U) as [E1 M1]. unfold rd. rewrite E1.
  destruct (nth_error (argss v) args) as [l1|] eqn:EL1; auto. cbn [rbind]. f_equal.
  destruct (SC cb a fm args P EA IX) as [(l & -> & EL & VO & TX)|[SV BV]].
  - rewrite EL in M1.
    assert (LN : List.length l1 = List.length (args_of l)) by (clear - M1; induction M1; cbn; congruence).
    rewrite !Fprintf_pieces by auto. f_equal. apply shown_ext. intros j vb a0 a1 P1 P2.
    destruct (nth_F2 _ _ _ _ _ M1 P2) as (a2 & A2 & [KT KN]).
    assert (EA0 : nth_error (args_of l) j = Some a0) by (rewrite <- puts_args, nth_error_map, P1; auto).
    rewrite EA0 in A2. injection A2 as <-.
    assert (T0 : textual vb a0) by (apply TX; apply puts_in; eapply nth_error_In; eauto).
    apply same_arg; auto.
    + eapply finished_settled; eauto. eapply FN; eauto. eapply nth_error_In; eauto.
    + intros x NX. destruct KN as [KN|KN]; [congruence|]. eapply (seen_arg w f args (args_of l) a0); eauto; [eapply nth_error_In; eauto|].
      rewrite <- KN. exact NX.
  - destruct (nth_error (argss w) args) as [l0|] eqn:EL; [|contradiction]. apply same_unnamed_line; auto.
    intros a1 IN. pose proof (FN args l1 a1 U EL1 IN) as R1. destruct (In_nth_error _ _ IN) as [j EJ].
    destruct (nth_F2 _ _ _ _ _ M1 EJ) as (a0 & A0 & [_ [KN|KN]]); auto.
    specialize (BV l0 a0 eq_refl (nth_error_In _ _ A0)). destruct a1; cbn in *; try contradiction; auto;
      destruct a0; cbn in *; try contradiction; discriminate.
Qed.
Lemma same_under fuel : forall i T0 TS, part (IType i) -> nth_error (types w) i = Some T0 -> er_type TS = er_type T0 ->
  TypeSpec_writeUnderlying env fuel v' TS = TypeSpec_writeUnderlying env fuel v TS.
Proof.
  induction fuel as [|fuel IH]; intros i T0 TS P E0 EV; cbn [TypeSpec_writeUnderlying]; auto.
  pose proof (f_equal TSStruct EV : TSStruct TS = TSStruct T0) as ES. pose proof (f_equal TSInterface EV : TSInterface TS = TSInterface T0) as EI.
  destruct (TSUnderlying TS); auto.
  - f_equal. f_equal. f_equal. apply map_ext_in. intros fid IN. rewrite ES in IN.
    assert (PF : part (IField fid)) by (eapply po_field; eauto). clear EV. reads (r_f _ _ RL); [exact PF|]. f_equal.
    pose proof (f_equal FSType EV) as ET. cbn in ET. destruct (FSType a) as [|t|ts] eqn:FT; auto.
    assert (PT : part (IType ts)).
    { eapply po_field_type; eauto. destruct (FSType a0); try discriminate. cbn in ET. congruence. }
    clear EV. reads (r_t _ _ RL); [exact PT|]. destruct (String.eqb (TSName a1) "").
    + eapply IH; eauto.
    + rewrite (same_type v v' RL ts a1 a2); auto. apply seen_part, PT.
  - f_equal. f_equal. f_equal. apply map_ext_in. intros e IN. rewrite EI in IN.
    assert (PE : part (IElem e)) by (eapply po_elem; eauto). clear EV. reads (r_e _ _ RL); [exact PE|]. reflexivity.
Qed.
Lemma same_all {A} (tab : World -> list A) (S : nat -> Prop) (K : A -> A -> Prop) ids : tab_ok S K (tab w) (tab v) (tab v') -> (forall i, In i ids -> S i) ->
  rd_all tab ids v' = rd_all tab ids v /\
  forall l, rd_all tab ids v = Ok l -> forall a, In a l -> exists i a0, In i ids /\ nth_error (tab w) i = Some a0 /\ K a0 a.
Proof.
  intros TO SI. split.
  - unfold rd_all. f_equal. apply map_ext_in. intros i IN. apply (rd_same tab S K); auto.
  - unfold rd_all. induction ids as [|i ids IH]; intros l EL a IN; cbn in EL.
    + injection EL as <-. destruct IN.
    + destruct (rd tab i v) as [b|] eqn:EB; [|discriminate]. cbn [rbind] in EL.
      destruct (all_ok _) as [r|] eqn:ER; [|discriminate]. cbn in EL. injection EL as <-. destruct IN as [<-|IN].
      * destruct (rd_same tab S K i TO (SI i (or_introl eq_refl))) as [_ M]. destruct (M b EB) as (a0 & B & C). exists i, a0. split; [left|]; auto.
      * destruct (IH (fun j J => SI j (or_intror J)) r eq_refl a IN) as (j & a0 & B & C). exists j, a0. split; [right|]; auto.
Qed.
Lemma same_decl {A} kw c sc (wr wr' : A -> bool -> res string) l : (forall a b, In a l -> wr' a b = wr a b) ->
  decl_writeTo kw c sc wr' l = decl_writeTo kw c sc wr l.
Proof.
  intros H. unfold decl_writeTo. destruct (Nat.ltb 1 (List.length l) || negb (String.eqb c "")).
  - f_equal. f_equal. f_equal. f_equal. apply map_ext_in. auto.
  - destruct l as [|x r]; auto. f_equal. f_equal. apply H. left; auto.
Qed.
Lemma same_value_text a b : (forall ts, VSType a = IsSpec ts -> part (IType ts)) -> (forall cb, VInit a = Some cb -> part (IBlock cb)) ->
  ValueSpec_writeTo env v' a b = ValueSpec_writeTo env v a b.
Proof.
  intros HT HB. unfold ValueSpec_writeTo. f_equal. f_equal. f_equal.
  - unfold TypeNameOrSpec_text. destruct (VSType a) as [|t|ts]; auto. f_equal. f_equal. f_equal.
    reads (r_t _ _ RL); [auto|]. eapply same_TypeString; eauto. apply seen_part; auto.
  - f_equal. destruct (VInit a) as [cb|]; auto. f_equal. apply same_block. auto.
Qed.
Lemma er_spec a a0 ts : er_value a = er_value a0 -> VSType a = IsSpec ts -> VSType a0 = IsSpec ts.
Proof. intros E H. pose proof (f_equal VSType E) as X. cbn in X. rewrite H in X. destruct (VSType a0); try discriminate. cbn in X. congruence. Qed.
Lemma er_init a a0 : er_value a = er_value a0 -> VInit a0 = VInit a.
Proof. intros E. symmetry. exact (f_equal VInit E). Qed.
Lemma same_element_text fuel e : In e (FElements F) -> FileElement_writeTo env fuel v' e = FileElement_writeTo env fuel v e.
Proof.
  intros IN. pose proof EF as EF. destruct e as [d|d|d|i]; cbn [FileElement_writeTo].
  - reads (r_cd _ _ RL); [exact IN|]. subst a0.
    assert (P : forall i, In i (VDSpecs a) -> part (IConst i)) by (intros; eapply po_const; eauto).
    destruct (same_all consts _ _ (VDSpecs a) (r_c _ _ RL)) as [RA MA];[exact P|]. rewrite RA.
    destruct (rd_all consts (VDSpecs a) v) as [l|]; auto. cbn [rbind]. apply same_decl. intros x b IX.
    destruct (MA l eq_refl x IX) as (i & x0 & II & E0 & EX). apply same_value_text.
    + intros ts HS. eapply po_const_type; eauto using er_spec. + intros cb HB. eapply po_const_init; eauto. rewrite (er_init _ _ EX). auto.
  - reads (r_vd _ _ RL); [exact IN|]. subst a0.
    assert (P : forall i, In i (VDSpecs a) -> part (IVar i)) by (intros; eapply po_var; eauto).
    destruct (same_all vars _ _ (VDSpecs a) (r_v _ _ RL)) as [RA MA];[exact P|]. rewrite RA.
    destruct (rd_all vars (VDSpecs a) v) as [l|]; auto. cbn [rbind]. apply same_decl. intros x b IX.
    destruct (MA l eq_refl x IX) as (i & x0 & II & E0 & EX). apply same_value_text.
    + intros ts HS. eapply po_var_type; eauto using er_spec. + intros cb HB. eapply po_var_init; eauto. rewrite (er_init _ _ EX). auto.
  - reads (r_td _ _ RL); [exact IN|]. subst a0.
    assert (P : forall i, In i (TDTypes a) -> part (IType i)) by (intros; eapply po_type; eauto).
    destruct (same_all types _ _ (TDTypes a) (r_t _ _ RL)) as [RA MA];[exact P|]. rewrite RA.
    destruct (rd_all types (TDTypes a) v) as [l|]; auto. cbn [rbind]. apply same_decl. intros x b IX.
    destruct (MA l eq_refl x IX) as (i & x0 & II & E0 & EX). unfold TypeSpec_writeTo. rewrite (same_under fuel i x0 x); auto.
  - assert (P : part (IFunc i)) by (eapply po_func; eauto). reads (r_fn _ _ RL); [exact P|].
    unfold FuncSpec_writeTo. rewrite same_block; auto. pose proof (f_equal FNBody EV : FNBody a = FNBody a0) as ->. eapply po_body; eauto.
Qed.
End Write.
End Known.

(** ** Every argument of the code is finished in the end *)
Section Hits.
Variables (args0 j0 : nat).
Notation rel0 := (rel False args0 j0).
Notation par0 := (par False args0 j0).
Notation par1 := (par True args0 j0).
Notation T := (fun _ : unit => True).
Definition hits {A} (m : WM (TD := TD) A) : Prop := forall v v' a v1, rel0 v v' -> m v = (Ok a, v1) -> fin_at args0 j0 v1.
Lemma rel_know v v' : rel0 v v' -> fin_at args0 j0 v -> rel True args0 j0 v v'.
Proof. intros [] H. split; auto. Qed.
Lemma hits_right {A B} (Q : A -> Prop) m (k : A -> WM B) : par0 Q m -> (forall a, Q a -> hits (k a)) -> hits (do a <- m ;; k a).
Proof.
  intros M K v v' b v2 RL E. destruct (M v v' RL) as (r & v1 & v1' & E1 & E1' & RL1 & H). unfold sbind in E. rewrite E1 in E.
  destruct r as [a|]; [|discriminate]. eapply K; eauto.
Qed.
Lemma hits_left {A B} (Q : A -> Prop) (P : B -> Prop) m (k : A -> WM B) : par0 Q m -> hits m -> (forall a, Q a -> par1 P (k a)) -> hits (do a <- m ;; k a).
Proof.
  intros M HM K v v' b v2 RL E. destruct (M v v' RL) as (r & v1 & v1' & E1 & E1' & RL1 & H). unfold sbind in E. rewrite E1 in E.
  destruct r as [a|]; [|discriminate]. destruct (K a (H a eq_refl) v1 v1') as (r & v3 & v3' & E3 & _ & RL3 & _); [apply rel_know; eauto|].
  rewrite E in E3. injection E3 as _ <-. apply (r_g _ _ _ _ _ RL3 I).
Qed.
Lemma hits_for {A} (g : A -> WM unit) l x : In x l -> hits (g x) -> (forall a, In a l -> par0 T (g a)) -> (forall a, In a l -> par1 T (g a)) -> hits (for_each g l).
Proof.
  induction l as [|a l IH]; intros IN H P0 P1; [destruct IN|]. cbn [for_each]. destruct IN as [->|IN].
  - eapply hits_left; [apply P0; left; auto|exact H|]. intros _ _. apply par_for. intros; apply P1; right; auto.
  - eapply hits_right; [apply P0; left; auto|]. intros _ _. apply IH; auto; intros; [apply P0|apply P1]; right; auto.
Qed.
Lemma hits_line_at l0 : uses_args w f args0 -> nth_error (argss w) args0 = Some l0 -> hits (line_qualify_at f args0 j0).
Proof.
  intros U E0 v v' [] v3 RL E l a EL EJ. unfold line_qualify_at, sbind, get in E.
  destruct (r_a _ _ _ _ _ RL args0 U) as [_ M]. rewrite E0 in M. destruct (nth_error (argss v) args0) as [l1|] eqn:E1; [|contradiction].
  destruct (nth_error l1 j0) as [a1|] eqn:EA.
  - destruct (Arg_qualify f a1 v) as [[b|] v1] eqn:EQ; [|discriminate]. destruct (nth_error (argss v1) args0) as [l2|] eqn:E2; [|discriminate].
    injection E as <-. cbn [argss set_argss] in EL. rewrite nth_upd_same in EL by (apply nth_error_Some; congruence). injection EL as <-.
    destruct (Nat.lt_ge_cases j0 (List.length l2)) as [LT|GE].
    + rewrite nth_upd_same in EJ by auto. injection EJ as <-. eapply Arg_finished; eauto.
    + exfalso. assert (X : nth_error (upd j0 b l2) j0 = None) by (apply nth_error_None; rewrite upd_length; auto). congruence.
  - injection E as <-. congruence.
Qed.
Lemma hits_line : uses_args w f args0 -> hits (line_qualify f args0).
Proof.
  intros U. unfold line_qualify. eapply hits_right; [eapply (par_get _ _ _ argss); [intros; eapply r_a; eauto|exact U]|].
  intros l (l0 & E0 & FK). destruct (Nat.lt_ge_cases j0 (List.length l)) as [LT|GE].
  - apply (hits_for _ _ j0); [apply in_seq; lia|eapply hits_line_at; eauto| |]; intros i _; eapply par_line_at; eauto.
  - intros v v' [] v1 RL E l1 a EL EJ. exfalso.
    destruct (par_for False args0 j0 (line_qualify_at f args0) (seq 0 (List.length l))) with (v := v) (v' := v') as (r & v2 & v2' & E2 & _ & RL2 & _); auto.
    { intros i _. eapply par_line_at; eauto. }
    rewrite E in E2. injection E2 as _ <-. destruct (r_a _ _ _ _ _ RL2 args0 U) as [_ M]. rewrite E0, EL in M.
    apply Forall2_len in M. apply Forall2_len in FK. assert (X : j0 < List.length l1) by (apply nth_error_Some; congruence). lia.
Qed.
Lemma hits_block cb b fm : part (IBlock cb) -> nth_error (blocks w) cb = Some b -> In (Line fm args0) b -> hits (CodeBlock_qualify env f cb).
Proof.
  intros P EB IN. assert (U : uses_args w f args0) by (exists cb, b, fm; auto).
  unfold CodeBlock_qualify. eapply hits_right; [eapply (par_get _ _ _ blocks); [intros; eapply r_b; eauto|exact P]|].
  intros b' (b0 & E0 & <-). replace b0 with b in * by congruence.
  apply (hits_for _ _ (Line fm args0)); auto; [apply hits_line; auto| |]; intros e IE; eapply par_code; eauto.
Qed.
Lemma part_block cb : part (IBlock cb) -> exists e, In e (FElements F) /\ In cb (blocks_of w e).
Proof.
  pose proof EF as EF. intros P. inversion P; subst.
  - match goal with H : part (IConst _) |- _ => inversion H; subst end. replace F0 with F in * by congruence. exists (EConst d). split; auto.
    cbn [blocks_of]. repeat match goal with H : nth_error _ _ = Some _ |- _ => rewrite H end. apply in_flat_map. exists i. split; auto.
    repeat match goal with H : nth_error _ _ = Some _ |- _ => rewrite H end. match goal with H : VInit _ = _ |- _ => rewrite H end. left; auto.
  - match goal with H : part (IVar _) |- _ => inversion H; subst end. replace F0 with F in * by congruence. exists (EVar d). split; auto.
    cbn [blocks_of]. repeat match goal with H : nth_error _ _ = Some _ |- _ => rewrite H end. apply in_flat_map. exists i. split; auto.
    repeat match goal with H : nth_error _ _ = Some _ |- _ => rewrite H end. match goal with H : VInit _ = _ |- _ => rewrite H end. left; auto.
  - match goal with H : part (IFunc _) |- _ => inversion H; subst end. replace F1 with F in * by congruence. exists (EFunc i). split; auto.
    cbn [blocks_of]. match goal with H : nth_error (funcs w) _ = Some _ |- _ => rewrite H end. left; auto.
Qed.
Variable fuel : nat.
Lemma hits_element e cb b fm : In e (FElements F) -> In cb (blocks_of w e) -> nth_error (blocks w) cb = Some b -> In (Line fm args0) b ->
  hits (FileElement_qualify env fuel f e).
Proof.
  intros IN IB EB IL. pose proof EF as EF. destruct e as [d|d|d|i]; cbn [FileElement_qualify blocks_of] in *.
  - eapply hits_right; [eapply (par_get _ _ _ constDecls); [intros; eapply r_cd; eauto|exact IN]|]. intros X (D0 & E0 & <-). rewrite E0 in IB.
    apply in_flat_map in IB as (i & II & IB). destruct (nth_error (consts w) i) as [x|] eqn:EX; [|destruct IB].
    destruct (VInit x) as [c|] eqn:EC; [|destruct IB]. destruct IB as [<-|[]].
    assert (P : forall k, In k (VDSpecs D0) -> part (IConst k)) by (intros; eapply po_const; eauto).
    apply (hits_for _ _ i); auto; [|intros; apply par_const; auto|intros; apply par_const; auto].
    unfold qualify_value. eapply hits_right; [eapply (par_get _ _ _ consts); [intros; eapply r_c; eauto|exact (P i II)]|]. intros v (v0 & E1 & EV).
    replace v0 with x in * by congruence. pose proof (f_equal VInit EV : VInit v = VInit x) as EI. pose proof (f_equal VSType EV) as ET. cbn in ET.
    eapply (hits_right T); [|intros _ _; rewrite EI, EC; eapply hits_block; eauto; eapply po_const_init; eauto].
    destruct (VSType v) as [|t|ts] eqn:VT; [apply par_ret; exact I| |].
    + eapply par_bind; [apply par_imports|]. intros [t' b'] _. eapply put_const; [exact (P i II)|eauto|].
      rewrite <- EV. unfold er_value, with_vtype. cbn. rewrite VT. reflexivity.
    + apply par_type. eapply po_const_type; eauto. destruct (VSType x); try discriminate. cbn in ET. congruence.
  - eapply hits_right; [eapply (par_get _ _ _ varDecls); [intros; eapply r_vd; eauto|exact IN]|]. intros X (D0 & E0 & <-). rewrite E0 in IB.
    apply in_flat_map in IB as (i & II & IB). destruct (nth_error (vars w) i) as [x|] eqn:EX; [|destruct IB].
    destruct (VInit x) as [c|] eqn:EC; [|destruct IB]. destruct IB as [<-|[]].
    assert (P : forall k, In k (VDSpecs D0) -> part (IVar k)) by (intros; eapply po_var; eauto).
    apply (hits_for _ _ i); auto; [|intros; apply par_var; auto|intros; apply par_var; auto].
    unfold qualify_value. eapply hits_right; [eapply (par_get _ _ _ vars); [intros; eapply r_v; eauto|exact (P i II)]|]. intros v (v0 & E1 & EV).
    replace v0 with x in * by congruence. pose proof (f_equal VInit EV : VInit v = VInit x) as EI. pose proof (f_equal VSType EV) as ET. cbn in ET.
    eapply (hits_right T); [|intros _ _; rewrite EI, EC; eapply hits_block; eauto; eapply po_var_init; eauto].
    destruct (VSType v) as [|t|ts] eqn:VT; [apply par_ret; exact I| |].
    + eapply par_bind; [apply par_imports|]. intros [t' b'] _. eapply put_var; [exact (P i II)|eauto|].
      rewrite <- EV. unfold er_value, with_vtype. cbn. rewrite VT. reflexivity.
    + apply par_type. eapply po_var_type; eauto. destruct (VSType x); try discriminate. cbn in ET. congruence.
  - destruct IB.
  - assert (P : part (IFunc i)) by (eapply po_func; eauto).
    eapply hits_right; [eapply (par_get _ _ _ funcs); [intros; eapply r_fn; eauto|exact P]|]. intros v (v0 & E0 & EV). rewrite E0 in IB.
    destruct IB as [<-|[]]. pose proof (f_equal FNBody EV : FNBody v = FNBody v0) as EQ.
    eapply hits_right; [apply par_imports|]. intros [t c] _. eapply hits_right.
    + eapply put_func; [exact P|eauto|]. rewrite <- EV. reflexivity.
    + intros _ _. rewrite EQ. eapply hits_block; eauto. eapply po_body; eauto.
Qed.
Lemma hits_file : uses_args w f args0 -> hits (qualify_file env fuel f).
Proof.
  intros (cb & b & fm & PB & EB & IL) v v' a v1 RL E. destruct (part_block cb PB) as (e & IE & IB).
  unfold qualify_file, sbind, get in E. destruct (r_elems _ _ _ _ _ RL) as (X & EX & EE). rewrite EX, EE in E.
  eapply (hits_for _ _ e); [exact IE|eapply hits_element; eauto| | |exact RL|exact E]; intros; apply par_element; auto.
Qed.
End Hits.
Hypothesis SC : plain_code env w f.
Theorem local_qualified fuel : exists r w1 w1', source env fuel f w = (r, w1) /\ source env fuel f w' = (r, w1') /\
  nth_error (files w1') f = nth_error (files w1) f.
Proof.
  destruct (par_file False 0 0 fuel w w') as (r & w1 & w1' & Q & Q' & RL & _); [apply rel_first; intros []|]. unfold source, sbind. rewrite Q, Q'.
  destruct r as [[]|m]; [|exists (Panic m), w1, w1'; split; auto; split; auto; apply (r_file _ _ _ _ _ RL)].
  unfold get. rewrite (r_file _ _ _ _ _ RL). destruct (r_elems _ _ _ _ _ RL) as (X & EX & EE). rewrite EX.
  unfold from_res. exists (GoFile_writeTo env fuel w1 X), w1, w1'. split; auto. split; [|rewrite (r_file _ _ _ _ _ RL); auto].
  f_equal. unfold GoFile_writeTo. do 6 f_equal. f_equal. apply map_ext_in. intros e IN. f_equal.
  rewrite EE in IN. eapply same_element_text; eauto.
  intros args l a U EL IA. destruct (In_nth_error _ _ IA) as [j EJ].
  eapply (hits_file args j fuel U w w'); eauto. apply rel_first. intros [].
Qed.
End Local.
Theorem local_source {TD} (env : Env TD) f w w' F : same_for w w' f F -> plain_code env w f -> plain_templates env w f ->
  forall fuel, exists r w1 w1', source env fuel f w = (r, w1) /\ source env fuel f w' = (r, w1') /\
  nth_error (files w1') f = nth_error (files w1) f.
Proof. intros SF SC (D & CD & TD0) fuel. eapply local_qualified; eauto. Qed.
Lemma no_templates_plain {TD} (env : Env TD) w f : no_templates w f -> plain_templates env w f.
Proof.
  intros NT. exists (fun _ => False). split; [repeat split; intros; contradiction|]. intros t tm d (cb & b & P & EB & IN) _. eapply NT; eauto.
Qed.
Lemma textual_plain {TD} (env : Env TD) w f : textual_code w f -> plain_code env w f.
Proof.
  intros H cb b fm args P EB IN. destruct (H cb P) as (ls & (b' & EB' & F2) & TX). rewrite EB in EB'. injection EB' as <-. left.
  revert IN TX. clear - F2. induction F2 as [|y l b ls (args' & -> & A & V) F2 IH]; intros IN TX; [destruct IN|].
  destruct IN as [[= <- <-]|IN].
  - exists l. split; auto. split; auto. split; auto. intros v a IP. apply (TX l v a); auto. left. auto.
  - apply IH; auto. intros l' v a IL. apply TX. right. auto.
Qed.
