(** Files that share declarations or code: what writing one does to the other. *)
From Verif Require Import Base BaseFacts GoPath Types SpecTypes TypesFacts Imports SpecImports ImportsProofs ImportsTheorems SettleProofs SpecGo SpecRender
  TextTheorems Conv World SpecFile SpecDecl FileTheorems SpecQualify SpecShare QualifyProofs QualifyTheorems SourceProofs SourceTheorems
  MeaningProofs TurnProofs UnsharedProofs QualifyExamples Write.

Lemma Forall2_refl {A} (R : A -> A -> Prop) l : (forall x, R x x) -> Forall2 R l l.
Proof. intros H. induction l; auto. Qed.
Lemma Forall2_trans {A} (R : A -> A -> Prop) (T : forall x y z, R x y -> R y z -> R x z) l l1 l2 :
  Forall2 R l l1 -> Forall2 R l1 l2 -> Forall2 R l l2.
Proof. intros H. revert l2. induction H; intros l2 H2; inversion H2; subst; constructor; eauto. Qed.

Section Rel.
Variable real : string -> string.
Definition fine (r : string * string) : Prop := right_name real r /\ usable_name r.
Definition request (s : Symbol) : string * string := (sym_path s, PkgName (SymPackage s)).

(** ** A symbol, type or signature after the other file has renamed its packages *)
Definition sren (s s1 : Symbol) : Prop :=
  SymName s1 = SymName s /\ has_package s1 = has_package s /\ sym_path s1 = sym_path s /\
  (sym_ok s = true -> sym_ok s1 = true) /\ (s1 = s \/ fine (request s1)).
Definition tren (t t1 : TypeName) : Prop :=
  Forall2 sren (symbols_of t) (symbols_of t1) /\ shape t1 = shape t /\
  (wf t = true -> wf t1 = true /\ (text_ok t = true -> text_ok t1 = true) /\ (decl_ok t = true -> decl_ok t1 = true) /\
     multi_line t1 = multi_line t /\ forall own, denote_with (path_qualifier own) t1 = denote_with (path_qualifier own) t).
Definition gren (s s1 : Signature) : Prop :=
  Forall2 sren (sig_symbols s) (sig_symbols s1) /\
  (wf_sig s = true -> wf_sig s1 = true /\ (sig_text_ok s = true -> sig_text_ok s1 = true) /\
     forall own, denote_sig_with (path_qualifier own) s1 = denote_sig_with (path_qualifier own) s).
Definition rren (r r1 : reference) : Prop :=
  match r, r1 with
  | RPackage p, RPackage p1 => ImportPath p1 = ImportPath p /\ (p1 = p \/ fine (ImportPath p1, PkgName p1))
  | RName s, RName s1 => sren s s1
  | RMethod s m, RMethod s1 m1 => sren s s1 /\ m1 = m
  | RType t, RType t1 => tren t t1
  | RSignature s, RSignature s1 => gren s s1
  | _, _ => False
  end.
Lemma sren_refl s : sren s s.
Proof. repeat split; auto. Qed.
Lemma sren_trans s s1 s2 : sren s s1 -> sren s1 s2 -> sren s s2.
Proof.
  intros (A1 & B1 & C1 & D1 & E1) (A2 & B2 & C2 & D2 & E2). repeat split; try congruence; auto.
  destruct E2 as [->|E2]; auto.
Qed.
Lemma tren_refl t : tren t t.
Proof. split; [apply Forall2_refl, sren_refl|]. split; [reflexivity|]. intros W. auto 6. Qed.
Lemma tren_trans t t1 t2 : tren t t1 -> tren t1 t2 -> tren t t2.
Proof.
  intros (A1 & B1 & C1) (A2 & B2 & C2). split; [eapply Forall2_trans; eauto; apply sren_trans|]. split; [congruence|].
  intros W. destruct (C1 W) as (W1 & X1 & Y1 & Z1 & D1). destruct (C2 W1) as (W2 & X2 & Y2 & Z2 & D2).
  repeat split; auto; try congruence.
Qed.
Lemma gren_refl s : gren s s.
Proof. split; [apply Forall2_refl, sren_refl|]. intros W. repeat split; auto. Qed.
Lemma gren_trans t t1 t2 : gren t t1 -> gren t1 t2 -> gren t t2.
Proof.
  intros (A1 & C1) (A2 & C2). split; [eapply Forall2_trans; eauto; apply sren_trans|].
  intros W. destruct (C1 W) as (W1 & X1 & D1). destruct (C2 W1) as (W2 & X2 & D2).
  repeat split; auto; try congruence.
Qed.
Lemma rren_trans r r1 r2 : rren r r1 -> rren r1 r2 -> rren r r2.
Proof.
  destruct r, r1; cbn; try tauto; destruct r2; cbn; try tauto.
  - intros [A1 B1] [A2 B2]. split; [congruence|]. destruct B2 as [->|B2]; auto.
  - apply sren_trans. - intros [A1 ->] [A2 ->]. split; auto. eapply sren_trans; eauto. - apply tren_trans. - apply gren_trans.
Qed.

(** ** Requests *)
Lemma sren_requests l l1 : Forall2 sren l l1 ->
  (forall p n, In (p, n) (sym_requests l) -> exists n1, In (p, n1) (sym_requests l1)) /\
  (forall p n1, In (p, n1) (sym_requests l1) -> (exists n, In (p, n) (sym_requests l)) /\ (In (p, n1) (sym_requests l) \/ fine (p, n1))).
Proof.
  unfold sym_requests. induction 1 as [|s s1 l l1 (A & B & C & D & E) _ [IH1 IH2]]; cbn [filter map].
  - split; intros p n [].
  - rewrite B. destruct (has_package s); cbn [map]; [|split; auto]. split.
    + intros p n [X|X].
      * injection X as <- <-. eexists. left. rewrite C. reflexivity.
      * destruct (IH1 p n X) as (n1 & Y). exists n1. right. exact Y.
    + intros p n1 [X|X].
      * injection X as <- <-. split.
        -- exists (PkgName (SymPackage s)). left. rewrite C. reflexivity.
        -- destruct E as [->|E]; [left; left; reflexivity|right; exact E].
      * destruct (IH2 p n1 X) as [(n & Y) Z]. split; [exists n; right; exact Y|]. destruct Z; auto. left. right. auto.
Qed.
End Rel.

Lemma all_some_imp {A B} (g0 g1 : A -> option B) : forall l m, (forall x c, In x l -> g0 x = Some c -> g1 x = Some c) ->
  all_some (map g0 l) = Some m -> all_some (map g1 l) = Some m.
Proof.
  induction l as [|a l IH]; intros m H E; cbn [map all_some] in *; auto.
  destruct (g0 a) as [c|] eqn:G; [|discriminate]. cbn [obind] in E. rewrite (H a c (or_introl eq_refl) G). cbn [obind].
  destruct (all_some (map g0 l)) as [m'|] eqn:M; [|discriminate]. rewrite (IH m'); auto. intros; apply H; auto. right. auto.
Qed.
Lemma members_imp {A C} (tab tab1 : list A) (f0 f1 : A -> option C) ids : forall l m,
  lookup_all tab ids = Some l -> all_some (map f0 l) = Some m ->
  (forall i a c, In i ids -> nth_error tab i = Some a -> f0 a = Some c -> exists a1, nth_error tab1 i = Some a1 /\ f1 a1 = Some c) ->
  exists l1, lookup_all tab1 ids = Some l1 /\ List.length l1 = List.length l /\ all_some (map f1 l1) = Some m.
Proof.
  unfold lookup_all. induction ids as [|i ids IH]; intros l m L M X; cbn [map all_some] in *.
  - injection L as <-. exists []. auto.
  - destruct (nth_error tab i) as [a|] eqn:N; [|discriminate]. cbn [obind] in L.
    destruct (all_some (map (nth_error tab) ids)) as [l'|] eqn:L'; [|discriminate]. cbn [obind] in L. injection L as <-.
    cbn [map all_some] in M. destruct (f0 a) as [c|] eqn:F0; [|discriminate]. cbn [obind] in M.
    destruct (all_some (map f0 l')) as [m'|] eqn:M'; [|discriminate]. cbn [obind] in M. injection M as <-.
    destruct (X i a c (or_introl eq_refl) N F0) as (a1 & N1 & F1).
    destruct (IH l' m' eq_refl M') as (l1 & L1 & LEN & M1); [intros; eapply X; eauto; right; auto|].
    exists (a1 :: l1). rewrite N1, L1. cbn [obind map all_some List.length]. rewrite F1, M1, LEN. auto.
Qed.
Definition orel {A} (R : A -> A -> Prop) (x y : option A) : Prop :=
  match x, y with Some a, Some b => R a b | None, None => True | _, _ => False end.
Lemma nth_er {A B} (er : A -> B) (l l1 : list A) i : map er l1 = map er l ->
  match nth_error l i, nth_error l1 i with Some a, Some a1 => er a1 = er a | None, None => True | _, _ => False end.
Proof.
  intros E. assert (X : nth_error (map er l1) i = nth_error (map er l) i) by (rewrite E; auto). rewrite !nth_error_map in X.
  destruct (nth_error l i), (nth_error l1 i); cbn in X; try discriminate; auto. congruence.
Qed.

(** ** Worlds that differ in the package names of one file *)
Section Alike.
Context {TD : Type}.
Variable real : string -> string.
Notation World := (World TD).
Lemma part_skel (w w1 : World) f x : skel w1 = skel w -> part_of w f x -> part_of w1 f x.
Proof.
  intros S.
  assert (CD : constDecls w1 = constDecls w) by exact (f_equal constDecls S).
  assert (VD : varDecls w1 = varDecls w) by exact (f_equal varDecls S).
  assert (TD' : typeDecls w1 = typeDecls w) by exact (f_equal typeDecls S).
  pose proof (fun i => nth_er er_imports _ _ i (f_equal files S)) as XF.
  pose proof (fun i => nth_er er_value _ _ i (f_equal consts S)) as XC.
  pose proof (fun i => nth_er er_value _ _ i (f_equal vars S)) as XV.
  pose proof (fun i => nth_er er_type _ _ i (f_equal types S)) as XT.
  pose proof (fun i => nth_er er_field _ _ i (f_equal fields S)) as XD.
  pose proof (fun i => nth_er er_func _ _ i (f_equal funcs S)) as XN.
  assert (FF : forall F, nth_error (files w) f = Some F -> exists F1, nth_error (files w1) f = Some F1 /\ FElements F1 = FElements F).
  { intros F E. specialize (XF f). rewrite E in XF. destruct (nth_error (files w1) f) as [F1|]; [|contradiction].
    exists F1. split; auto. exact (f_equal FElements XF). }
  assert (VS : forall v v1, er_value v1 = er_value v -> (forall ts, VSType v = IsSpec ts -> VSType v1 = IsSpec ts) /\ VInit v1 = VInit v).
  { intros [c n t i p] [c1 n1 t1 i1 p1]. unfold er_value, with_vtype. cbn. intros [= _ _ T -> _]. split; auto.
    intros ts ->. destruct t1; cbn in T; congruence. }
  induction 1 as [F d D i EF IN ED ID|F d D i EF IN ED ID|F d D i EF IN ED ID|F i EF IN
    |i v ts P IH N T|i v ts P IH N T|i T fid P IH N IN|i F ts P IH N T|i T e P IH N IN
    |i v cb P IH N T|i v cb P IH N T|i F P IH N].
  - destruct (FF F EF) as (F1 & E1 & EE). eapply po_const; eauto; try (rewrite EE; eauto); congruence.
  - destruct (FF F EF) as (F1 & E1 & EE). eapply po_var; eauto; try (rewrite EE; eauto); congruence.
  - destruct (FF F EF) as (F1 & E1 & EE). eapply po_type; eauto; try (rewrite EE; eauto); congruence.
  - destruct (FF F EF) as (F1 & E1 & EE). eapply po_func; eauto. rewrite EE; auto.
  - specialize (XC i). rewrite N in XC. destruct (nth_error (consts w1) i) as [v1|] eqn:E; [|contradiction].
    eapply po_const_type; eauto. apply (VS _ _ XC). auto.
  - specialize (XV i). rewrite N in XV. destruct (nth_error (vars w1) i) as [v1|] eqn:E; [|contradiction].
    eapply po_var_type; eauto. apply (VS _ _ XV). auto.
  - specialize (XT i). rewrite N in XT. destruct (nth_error (types w1) i) as [v1|] eqn:E; [|contradiction].
    eapply po_field; eauto. assert (X : TSStruct v1 = TSStruct T) by exact (f_equal TSStruct XT). rewrite X. auto.
  - specialize (XD i). rewrite N in XD. destruct (nth_error (fields w1) i) as [v1|] eqn:E; [|contradiction].
    eapply po_field_type; eauto. assert (X : er_tos (FSType v1) = er_tos (FSType F)) by exact (f_equal FSType XD).
    rewrite T in X. destruct (FSType v1); cbn in X; congruence.
  - specialize (XT i). rewrite N in XT. destruct (nth_error (types w1) i) as [v1|] eqn:E; [|contradiction].
    eapply po_elem; eauto. assert (X : TSInterface v1 = TSInterface T) by exact (f_equal TSInterface XT). rewrite X. auto.
  - specialize (XC i). rewrite N in XC. destruct (nth_error (consts w1) i) as [v1|] eqn:E; [|contradiction].
    eapply po_const_init; eauto. rewrite (proj2 (VS _ _ XC)). auto.
  - specialize (XV i). rewrite N in XV. destruct (nth_error (vars w1) i) as [v1|] eqn:E; [|contradiction].
    eapply po_var_init; eauto. rewrite (proj2 (VS _ _ XV)). auto.
  - specialize (XN i). rewrite N in XN. destruct (nth_error (funcs w1) i) as [v1|] eqn:E; [|contradiction].
    assert (X : FNBody v1 = FNBody F) by exact (f_equal FNBody XN). rewrite <- X. eapply po_body; eauto.
Qed.
Lemma part_skel_iff (w w1 : World) f x : skel w1 = skel w -> part_of w1 f x <-> part_of w f x.
Proof. intros S. split; apply part_skel; auto. Qed.
Lemma refers_skel (w w1 : World) a : skel w1 = skel w -> refers_to w1 a = refers_to w a.
Proof. intros S. rewrite !refers_target, <- (arg_target_skel w1), S, arg_target_skel. reflexivity. Qed.
Lemma uses_skel (w w1 : World) f a : skel w1 = skel w -> uses_args w f a -> uses_args w1 f a.
Proof.
  intros S (cb & b & fm & P & B & IN). exists cb, b, fm. split; [eapply part_skel; eauto|]. split; auto.
  rewrite (f_equal blocks S : blocks w1 = blocks w). auto.
Qed.
Lemma templates_skel (w w1 : World) f : skel w1 = skel w -> no_templates w f -> no_templates w1 f.
Proof.
  intros S N cb b t P B. rewrite (f_equal blocks S : blocks w1 = blocks w) in B. eapply N; eauto. apply (part_skel w1 w f); auto.
Qed.
Lemma scope_skel (w w1 : World) f l : skel w1 = skel w -> in_scope w f l -> in_scope w1 f l.
Proof.
  intros S. destruct l; cbn [in_scope]; try (apply part_skel; auto).
  - apply uses_skel; auto.
  - intros (cb & b & P & B & IN). exists cb, b. split; [eapply part_skel; eauto|]. split; auto.
    rewrite (f_equal blocks S : blocks w1 = blocks w). auto.
Qed.

Definition aren (w : World) (a a1 : Arg) : Prop :=
  a1 = a \/ exists r r1, refers_to w a = Some r /\ refers_to w a1 = Some r1 /\ rren real r r1 /\
                         (forall s m, r = RMethod s m -> method_by_value a1 = true) /\ forall p, a1 <> AGoPackage p.
Definition crel (w : World) (x y : content (TD := TD)) : Prop :=
  match x, y with
  | CT t, CT t1 => tren real t t1
  | CS s, CS s1 => gren real s s1
  | CY s, CY s1 => sren real s s1
  | CA a, CA a1 => aren w a a1
  | CD d, CD d1 => d1 = d
  | _, _ => False
  end.
Record alike (w w1 : World) (g : nat) : Prop :=
  { a_file : nth_error (files w1) g = nth_error (files w) g;
    a_skel : skel w1 = skel w;
    a_cont : forall l, in_scope w g l -> orel (crel w) (cont w l) (cont w1 l) }.
Lemma crel_refl w x : crel w x x.
Proof. destruct x; cbn; [apply tren_refl|apply gren_refl|apply sren_refl|left; auto|auto]. Qed.
Lemma alike_refl w g : alike w w g.
Proof. split; auto. intros l _. destruct (cont w l); cbn; auto. apply crel_refl. Qed.
Lemma alike_trans w w1 w2 g : alike w w1 g -> alike w1 w2 g -> alike w w2 g.
Proof.
  intros [A1 B1 C1] [A2 B2 C2]. split; try congruence. intros l IS. specialize (C1 l IS). specialize (C2 l (scope_skel _ _ _ _ B1 IS)).
  destruct (cont w l) as [x|], (cont w1 l) as [y|], (cont w2 l) as [z|]; cbn in *; try contradiction; auto.
  destruct x, y; cbn in *; try contradiction; destruct z; cbn in *; try contradiction.
  - eapply tren_trans; eauto. - eapply gren_trans; eauto. - eapply sren_trans; eauto.
  - destruct C2 as [->|(r & r2 & R1 & R2 & RR2 & M2 & N2)]; auto. rewrite (refers_skel w w1) in R1, R2 by auto.
    destruct C1 as [->|(r0 & r1 & R0 & R1' & RR1 & M1 & N1)]; [right; eauto 9|].
    right. rewrite R1' in R1. injection R1 as <-. exists r0, r2. split; auto. split; auto. split; [eapply rren_trans; eauto|].
    split; auto. intros s m ->. destruct r1; try contradiction. eauto.
  - congruence.
Qed.

Section One.
Variables (w w1 : World) (g : nat).
Hypothesis AL : alike w w1 g.
Let SK : skel w1 = skel w := a_skel _ _ _ AL.
Definition tos_ren (a b : TypeNameOrSpec) : Prop :=
  match a with IsName t => exists t1, b = IsName t1 /\ tren real t t1 | _ => b = a end.
Definition elem_ren (a b : InterfaceElement) : Prop :=
  match a with
  | InterfaceEmbed c s p => exists s1, b = InterfaceEmbed c s1 p /\ sren real s s1
  | InterfaceMethod c n s p => exists s1, b = InterfaceMethod c n s1 p /\ gren real s s1
  end.
Lemma pfwd x : part_of w g x -> part_of w1 g x.
Proof. apply part_skel; auto. Qed.
Lemma pback x : part_of w1 g x -> part_of w g x.
Proof. apply part_skel; auto. Qed.
Lemma value_ren v v1 : er_value v1 = er_value v ->
  orel (crel w) (tos_content (VSType v)) (tos_content (VSType v1)) ->
  v1 = with_vtype v (VSType v1) /\ tos_ren (VSType v) (VSType v1).
Proof.
  destruct v as [c n t i p], v1 as [c1 n1 t1 i1 p1]. unfold er_value, with_vtype. cbn [VComment VNames VSType VInit VParent].
  intros [= -> -> T -> ->] C. split; auto. destruct t, t1; cbn in *; try discriminate; auto. eauto.
Qed.
Lemma const_ren i v : part_of w g (IConst i) -> nth_error (consts w) i = Some v ->
  exists v1, nth_error (consts w1) i = Some v1 /\ v1 = with_vtype v (VSType v1) /\ tos_ren (VSType v) (VSType v1).
Proof.
  intros P E. pose proof (nth_er er_value _ _ i (f_equal consts SK)) as X. rewrite E in X.
  pose proof (a_cont _ _ _ AL (LConst i) P) as C. cbn [cont] in C. rewrite E in C.
  destruct (nth_error (consts w1) i) as [v1|]; [|contradiction]. exists v1. split; auto. apply value_ren; auto.
Qed.
Lemma var_ren i v : part_of w g (IVar i) -> nth_error (vars w) i = Some v ->
  exists v1, nth_error (vars w1) i = Some v1 /\ v1 = with_vtype v (VSType v1) /\ tos_ren (VSType v) (VSType v1).
Proof.
  intros P E. pose proof (nth_er er_value _ _ i (f_equal vars SK)) as X. rewrite E in X.
  pose proof (a_cont _ _ _ AL (LVar i) P) as C. cbn [cont] in C. rewrite E in C.
  destruct (nth_error (vars w1) i) as [v1|]; [|contradiction]. exists v1. split; auto. apply value_ren; auto.
Qed.
Lemma type_ren i T : part_of w g (IType i) -> nth_error (types w) i = Some T ->
  exists T1, nth_error (types w1) i = Some T1 /\ T1 = with_under T (TSUnderlying T1) /\ tren real (TSUnderlying T) (TSUnderlying T1).
Proof.
  intros P E. pose proof (nth_er er_type _ _ i (f_equal types SK)) as X. rewrite E in X.
  pose proof (a_cont _ _ _ AL (LType i) P) as C. cbn [cont] in C. rewrite E in C.
  destruct (nth_error (types w1) i) as [T1|]; [|contradiction]. exists T1. split; auto. cbn in C. split; auto.
  destruct T, T1. unfold er_type, with_under in *. cbn in *. congruence.
Qed.
Lemma field_ren i v : part_of w g (IField i) -> nth_error (fields w) i = Some v ->
  exists v1, nth_error (fields w1) i = Some v1 /\ v1 = with_ftype v (FSType v1) /\ tos_ren (FSType v) (FSType v1).
Proof.
  intros P E. pose proof (nth_er er_field _ _ i (f_equal fields SK)) as X. rewrite E in X.
  pose proof (a_cont _ _ _ AL (LField i) P) as C. cbn [cont] in C. rewrite E in C.
  destruct (nth_error (fields w1) i) as [v1|]; [|contradiction]. exists v1. split; auto.
  destruct v as [c n tg t p], v1 as [c1 n1 tg1 t1 p1]. unfold er_field, with_ftype in *. cbn [FSComment FSName FSTag FSType FSParent obind] in *.
  injection X as -> -> -> T ->. split; auto. destruct t, t1; cbn in *; try discriminate; auto. eauto.
Qed.
Lemma elem_ren' i e : part_of w g (IElem i) -> nth_error (ielems w) i = Some e ->
  exists e1, nth_error (ielems w1) i = Some e1 /\ elem_ren e e1.
Proof.
  intros P E. pose proof (nth_er er_elem _ _ i (f_equal ielems SK)) as X. rewrite E in X.
  pose proof (a_cont _ _ _ AL (LElem i) P) as C. cbn [cont] in C. rewrite E in C.
  destruct (nth_error (ielems w1) i) as [e1|]; [|contradiction]. exists e1. split; auto.
  destruct e, e1; cbn in *; try discriminate; try contradiction.
  - injection X as -> ->. eauto. - injection X as -> -> ->. eauto.
Qed.
Lemma func_ren i F : part_of w g (IFunc i) -> nth_error (funcs w) i = Some F ->
  exists F1, nth_error (funcs w1) i = Some F1 /\ F1 = with_sig F (FNSig F1) /\ gren real (FNSig F) (FNSig F1).
Proof.
  intros P E. pose proof (nth_er er_func _ _ i (f_equal funcs SK)) as X. rewrite E in X.
  pose proof (a_cont _ _ _ AL (LFunc i) P) as C. cbn [cont] in C. rewrite E in C.
  destruct (nth_error (funcs w1) i) as [F1|]; [|contradiction]. exists F1. split; auto. cbn in C. split; auto.
  destruct F, F1. unfold er_func, with_sig in *. cbn in *. congruence.
Qed.
Lemma arg_ren cb n k : part_of w g (IBlock cb) -> orel (aren w) (argument w cb n k) (argument w1 cb n k).
Proof.
  intros P. unfold argument. rewrite (f_equal blocks SK : blocks w1 = blocks w).
  destruct (nth_error (blocks w) cb) as [b|] eqn:B; cbn [obind]; [|exact I].
  destruct (nth_error b n) as [[fm a|t]|] eqn:N; cbn [obind]; try exact I.
  assert (U : uses_args w g a). { exists cb, b, fm. split; [exact P|]. split; [exact B|]. eapply nth_error_In; eauto. }
  pose proof (a_cont _ _ _ AL (LArg a k) U) as C. cbn [cont] in C.
  pose proof (nth_er er_args _ _ a (f_equal argss SK)) as X.
  destruct (nth_error (argss w) a) as [l|], (nth_error (argss w1) a) as [l1|]; cbn [obind] in *; try contradiction; try exact I.
  destruct (nth_error l k), (nth_error l1 k); cbn in *; auto.
Qed.

(** ** Mentions *)
Lemma tos_mentions a b : tos_ren a b ->
  (forall p n, In (p, n) (tos_packages a) -> exists n1, In (p, n1) (tos_packages b)) /\
  (forall p n1, In (p, n1) (tos_packages b) -> (exists n, In (p, n) (tos_packages a)) /\ (In (p, n1) (tos_packages a) \/ fine real (p, n1))).
Proof.
  destruct a as [|t|ts]; cbn [tos_ren].
  - intros ->. split; cbn; intros p n [].
  - intros (t1 & -> & T). cbn [tos_packages]. apply sren_requests, (proj1 T).
  - intros ->. split; cbn; intros p n [].
Qed.
Lemma ref_mentions r r1 : rren real r r1 ->
  (forall p n, In (p, n) (packages_of r) -> exists n1, In (p, n1) (packages_of r1)) /\
  (forall p n1, In (p, n1) (packages_of r1) -> (exists n, In (p, n) (packages_of r)) /\ (In (p, n1) (packages_of r) \/ fine real (p, n1))).
Proof.
  destruct r, r1; cbn [rren packages_of]; try contradiction.
  - intros [A B]. split.
    + intros p1 n [X|[]]. injection X as <- <-. exists (PkgName p0). left. rewrite A. auto.
    + intros p1 n [X|[]]. injection X as <- <-. split; [exists (PkgName p); left; rewrite A; auto|].
      destruct B as [->|B]; auto. left. left. auto.
  - intros S. apply sren_requests. constructor; auto.
  - intros [S _]. apply sren_requests. constructor; auto.
  - intros [S _]. apply sren_requests. auto.
  - intros [S _]. apply sren_requests. auto.
Qed.
Lemma mention_fwd p n : file_mentions w g (p, n) -> exists n1, file_mentions w1 g (p, n1).
Proof.
  intros [i v P E M|i v P E M|i v P E M|i v P E M|i c s q P E M|i c m s q P E M|i v P E M|cb k j a x P A E M];
    pose proof (pfwd _ P) as P'.
  - destruct (const_ren _ _ P E) as (v1 & E1 & _ & T). destruct (proj1 (tos_mentions _ _ T) _ _ M) as (n1 & M1). exists n1. eapply fm_const; eauto.
  - destruct (var_ren _ _ P E) as (v1 & E1 & _ & T). destruct (proj1 (tos_mentions _ _ T) _ _ M) as (n1 & M1). exists n1. eapply fm_var; eauto.
  - destruct (type_ren _ _ P E) as (v1 & E1 & _ & [T _]). destruct (proj1 (sren_requests _ _ _ T) _ _ M) as (n1 & M1). exists n1. eapply fm_type; eauto.
  - destruct (field_ren _ _ P E) as (v1 & E1 & _ & T). destruct (proj1 (tos_mentions _ _ T) _ _ M) as (n1 & M1). exists n1. eapply fm_field; eauto.
  - destruct (elem_ren' _ _ P E) as (v1 & E1 & s1 & -> & T). destruct (proj1 (sren_requests real [s] [s1] (Forall2_cons _ _ T (Forall2_nil _))) _ _ M) as (n1 & M1).
    exists n1. eapply fm_embed; eauto.
  - destruct (elem_ren' _ _ P E) as (v1 & E1 & s1 & -> & [T _]). destruct (proj1 (sren_requests _ _ _ T) _ _ M) as (n1 & M1).
    exists n1. eapply fm_method; eauto.
  - destruct (func_ren _ _ P E) as (v1 & E1 & _ & [T _]). destruct (proj1 (sren_requests _ _ _ T) _ _ M) as (n1 & M1). exists n1. eapply fm_func; eauto.
  - pose proof (arg_ren cb k j P) as C. rewrite A in C. destruct (argument w1 cb k j) as [a1|] eqn:A1; [|contradiction].
    destruct C as [->|(r & r1 & R0 & R1 & RR & _)].
    + exists n. eapply fm_arg; eauto. rewrite (refers_skel w w1); auto.
    + rewrite E in R0. injection R0 as <-. destruct (proj1 (ref_mentions _ _ RR) _ _ M) as (n1 & M1). exists n1. eapply fm_arg; eauto.
      rewrite (refers_skel w w1); auto.
Qed.
Lemma nth_back {A B} (er : A -> B) (tab : World -> list A) i a1 : map er (tab w1) = map er (tab w) ->
  nth_error (tab w1) i = Some a1 -> exists a, nth_error (tab w) i = Some a.
Proof. intros E N. pose proof (nth_er er _ _ i E) as X. rewrite N in X. destruct (nth_error (tab w) i); [eauto|contradiction]. Qed.
Lemma mention_back p n1 : file_mentions w1 g (p, n1) ->
  (exists n, file_mentions w g (p, n)) /\ (file_mentions w g (p, n1) \/ fine real (p, n1)).
Proof.
  intros [i v P' E M|i v P' E M|i v P' E M|i v P' E M|i c s q P' E M|i c m s q P' E M|i v P' E M|cb k j a1 x P' A E M];
    pose proof (pback _ P') as P.
  - destruct (nth_back er_value consts i v (f_equal consts SK) E) as (v0 & E0). destruct (const_ren _ _ P E0) as (v1 & E1 & _ & T).
    rewrite E in E1. injection E1 as <-. destruct (proj2 (tos_mentions _ _ T) _ _ M) as [(n & M0) M1]. split; [exists n; eapply fm_const; eauto|].
    destruct M1; auto. left. eapply fm_const; eauto.
  - destruct (nth_back er_value vars i v (f_equal vars SK) E) as (v0 & E0). destruct (var_ren _ _ P E0) as (v1 & E1 & _ & T).
    rewrite E in E1. injection E1 as <-. destruct (proj2 (tos_mentions _ _ T) _ _ M) as [(n & M0) M1]. split; [exists n; eapply fm_var; eauto|].
    destruct M1; auto. left. eapply fm_var; eauto.
  - destruct (nth_back er_type types i v (f_equal types SK) E) as (v0 & E0). destruct (type_ren _ _ P E0) as (v1 & E1 & _ & [T _]).
    rewrite E in E1. injection E1 as <-. destruct (proj2 (sren_requests _ _ _ T) _ _ M) as [(n & M0) M1]. split; [exists n; eapply fm_type; eauto|].
    destruct M1; auto. left. eapply fm_type; eauto.
  - destruct (nth_back er_field fields i v (f_equal fields SK) E) as (v0 & E0). destruct (field_ren _ _ P E0) as (v1 & E1 & _ & T).
    rewrite E in E1. injection E1 as <-. destruct (proj2 (tos_mentions _ _ T) _ _ M) as [(n & M0) M1]. split; [exists n; eapply fm_field; eauto|].
    destruct M1; auto. left. eapply fm_field; eauto.
  - destruct (nth_back er_elem ielems i _ (f_equal ielems SK) E) as (v0 & E0). destruct (elem_ren' _ _ P E0) as (v1 & E1 & T).
    rewrite E in E1. injection E1 as <-. destruct v0 as [c0 s0 p0|c0 n0 s0 p0]; cbn [elem_ren] in T; destruct T as (s1 & T1 & T); [|discriminate].
    injection T1 as <- <- <-. destruct (proj2 (sren_requests real [s0] [s] (Forall2_cons _ _ T (Forall2_nil _))) _ _ M) as [(n & M0) M1]. split; [exists n; eapply fm_embed; eauto|].
    destruct M1; auto. left. eapply fm_embed; eauto.
  - destruct (nth_back er_elem ielems i _ (f_equal ielems SK) E) as (v0 & E0). destruct (elem_ren' _ _ P E0) as (v1 & E1 & T).
    rewrite E in E1. injection E1 as <-. destruct v0 as [c0 s0 p0|c0 n0 s0 p0]; cbn [elem_ren] in T; destruct T as (s1 & T1 & T); [discriminate|].
    injection T1 as <- <- <- <-. destruct (proj2 (sren_requests _ _ _ (proj1 T)) _ _ M) as [(n & M0) M1]. split; [exists n; eapply fm_method; eauto|].
    destruct M1; auto. left. eapply fm_method; eauto.
  - destruct (nth_back er_func funcs i v (f_equal funcs SK) E) as (v0 & E0). destruct (func_ren _ _ P E0) as (v1 & E1 & _ & [T _]).
    rewrite E in E1. injection E1 as <-. destruct (proj2 (sren_requests _ _ _ T) _ _ M) as [(n & M0) M1]. split; [exists n; eapply fm_func; eauto|].
    destruct M1; auto. left. eapply fm_func; eauto.
  - pose proof (arg_ren cb k j P) as C. rewrite A in C. destruct (argument w cb k j) as [a|] eqn:A0; [|contradiction].
    rewrite (refers_skel w w1) in E by auto. destruct C as [->|(r & r1 & R0 & R1 & RR & _)].
    + split; [exists n1|left]; eapply fm_arg; eauto.
    + rewrite E in R1. injection R1 as <-. destruct (proj2 (ref_mentions _ _ RR) _ _ M) as [(n & M0) M1].
      split; [exists n; eapply fm_arg; eauto|]. destruct M1; auto. left. eapply fm_arg; eauto.
Qed.
Lemma prepared_alike own h G : prepared real own h w g G -> prepared real own h w1 g G.
Proof.
  intros (A & B & C & D & E & H & M). split; [rewrite (a_file _ _ _ AL); auto|]. repeat (split; [assumption|]).
  split; [eapply templates_skel; eauto|]. intros [p n] R. destruct (mention_back p n R) as [_ [X|X]]; auto.
Qed.
Lemma undeclared_ren t t1 : (forall ts, t = IsSpec ts -> part_of w g (IType ts)) -> tos_ren t t1 -> undeclared w t -> undeclared w1 t1.
Proof.
  intros P R U id T1 -> N. destruct t as [|t|ts]; cbn [tos_ren] in R; try discriminate R.
  - destruct R as (x & X & _). discriminate.
  - injection R as ->. destruct (nth_back er_type types ts T1 (f_equal types SK) N) as (T & E).
    destruct (type_ren _ _ (P _ eq_refl) E) as (T2 & E2 & EQ & _). rewrite N in E2. injection E2 as <-. rewrite EQ. cbn. eauto.
Qed.
Lemma named_alike : no_named_specs w g -> no_named_specs w1 g.
Proof.
  intros (A & B & C). split; [|split]; intros i v P' E; pose proof (pback _ P') as P.
  - destruct (nth_back er_value consts i v (f_equal consts SK) E) as (v0 & E0). destruct (const_ren _ _ P E0) as (v1 & E1 & _ & T).
    rewrite E in E1. injection E1 as <-. eapply undeclared_ren; eauto. intros ts X. eapply po_const_type; eauto.
  - destruct (nth_back er_value vars i v (f_equal vars SK) E) as (v0 & E0). destruct (var_ren _ _ P E0) as (v1 & E1 & _ & T).
    rewrite E in E1. injection E1 as <-. eapply undeclared_ren; eauto. intros ts X. eapply po_var_type; eauto.
  - destruct (nth_back er_field fields i v (f_equal fields SK) E) as (v0 & E0). destruct (field_ren _ _ P E0) as (v1 & E1 & _ & T).
    rewrite E in E1. injection E1 as <-. eapply undeclared_ren; eauto. intros ts X. eapply po_field_type; eauto.
Qed.

(** ** Sharing *)
Lemma tos_back a b p n1 : tos_ren a b -> In (p, n1) (tos_packages b) -> exists n, In (p, n) (tos_packages a).
Proof. intros T M. apply (proj2 (tos_mentions _ _ T) _ _ M). Qed.
Lemma item_back x p n1 : part_of w g x -> item_mentions w1 x (p, n1) -> exists n, item_mentions w x (p, n).
Proof.
  destruct x as [i|i|i|i|i|i|i]; cbn [item_mentions]; intros P M.
  - destruct M as (v & E & M). destruct (nth_back er_value consts i v (f_equal consts SK) E) as (v0 & E0).
    destruct (const_ren _ _ P E0) as (v1 & E1 & _ & T). rewrite E in E1. injection E1 as <-. destruct (tos_back _ _ _ _ T M) as (n & M0). eauto.
  - destruct M as (v & E & M). destruct (nth_back er_value vars i v (f_equal vars SK) E) as (v0 & E0).
    destruct (var_ren _ _ P E0) as (v1 & E1 & _ & T). rewrite E in E1. injection E1 as <-. destruct (tos_back _ _ _ _ T M) as (n & M0). eauto.
  - destruct M as (v & E & M). destruct (nth_back er_type types i v (f_equal types SK) E) as (v0 & E0).
    destruct (type_ren _ _ P E0) as (v1 & E1 & _ & [T _]). rewrite E in E1. injection E1 as <-.
    destruct (proj2 (sren_requests _ _ _ T) _ _ M) as [(n & M0) _]. eauto.
  - destruct M as (v & E & M). destruct (nth_back er_field fields i v (f_equal fields SK) E) as (v0 & E0).
    destruct (field_ren _ _ P E0) as (v1 & E1 & _ & T). rewrite E in E1. injection E1 as <-. destruct (tos_back _ _ _ _ T M) as (n & M0). eauto.
  - destruct M as [(c & s & q & E & M)|(c & m & s & q & E & M)];
      destruct (nth_back er_elem ielems i _ (f_equal ielems SK) E) as (v0 & E0); destruct (elem_ren' _ _ P E0) as (v1 & E1 & T);
      rewrite E in E1; injection E1 as <-; destruct v0 as [c0 s0 p0|c0 n0 s0 p0]; cbn [elem_ren] in T; destruct T as (s1 & T1 & T); try discriminate.
    + injection T1 as <- <- <-. destruct (proj2 (sren_requests real [s0] [s] (Forall2_cons _ _ T (Forall2_nil _))) _ _ M) as [(n & M0) _].
      exists n. left. eauto 9.
    + injection T1 as <- <- <- <-. destruct (proj2 (sren_requests _ _ _ (proj1 T)) _ _ M) as [(n & M0) _].
      exists n. right. eauto 9.
  - destruct M as (v & E & M). destruct (nth_back er_func funcs i v (f_equal funcs SK) E) as (v0 & E0).
    destruct (func_ren _ _ P E0) as (v1 & E1 & _ & [T _]). rewrite E in E1. injection E1 as <-.
    destruct (proj2 (sren_requests _ _ _ T) _ _ M) as [(n & M0) _]. eauto.
  - destruct M.
Qed.
Lemma args_back a : uses_args w g a -> forall l1, nth_error (argss w1) a = Some l1 ->
  exists l, nth_error (argss w) a = Some l /\ forall x1, In x1 l1 -> exists x, In x l /\ aren w x x1.
Proof.
  intros U l1 E. destruct (nth_back er_args argss a l1 (f_equal argss SK) E) as (l & E0). exists l. split; auto.
  intros x1 IN. apply In_nth_error in IN as (k & N). pose proof (a_cont _ _ _ AL (LArg a k) U) as C. cbn [cont] in C.
  rewrite E, E0 in C. cbn [obind] in C. rewrite N in C. destruct (nth_error l k) as [x|] eqn:K; [|contradiction].
  exists x. split; [eapply nth_error_In; eauto|exact C].
Qed.
Lemma shares_well_alike f i : shares_well real w f g i -> shares_well real w1 f g i.
Proof.
  intros [NG SW]. split.
  - intros a l1 p U1 U2 E IN. pose proof (uses_skel w1 w f a (eq_sym SK) U1) as V1. pose proof (uses_skel w1 w g a (eq_sym SK) U2) as V2.
    destruct (args_back a V2 l1 E) as (l & E0 & B). destruct (B _ IN) as (x & INx & [EX|(r & r1 & _ & _ & _ & _ & X)]).
    + subst x. eapply NG; eauto.
    + eapply X; eauto.
  - intros path n1 name M K. assert (X : exists n, shared_mentions w f g (path, n)); [|destruct X as (n & X); eauto].
    destruct M as [(x & P1 & P2 & M)|(a & U1 & U2 & (l1 & x1 & y & E & IN & R & M))].
    + destruct (item_back x path n1 (pback _ P2) M) as (n & M0). exists n. left. exists x. split; [|split; auto; apply pback; auto].
      apply (part_skel w1 w f); auto.
    + pose proof (uses_skel w1 w f a (eq_sym SK) U1) as V1. pose proof (uses_skel w1 w g a (eq_sym SK) U2) as V2.
      destruct (args_back a V2 l1 E) as (l & E0 & B). destruct (B _ IN) as (x & INx & AR). rewrite (refers_skel w w1) in R by auto.
      destruct AR as [->|(r & r1 & R0 & R1 & RR & _)].
      * exists n1. right. exists a. split; auto. split; auto. exists l, x, y. auto.
      * rewrite R in R1. injection R1 as <-. destruct (proj2 (ref_mentions _ _ RR) _ _ M) as [(n & M0) _].
        exists n. right. exists a. split; auto. split; auto. exists l, x, r. auto.
Qed.

(** ** Meaning *)
Section Mean.
Variable own : string.
Notation q := (path_qualifier own).
Hypothesis NS : no_named_specs w g.
Lemma sren_qual s s1 : sren real s s1 -> q s1 = q s.
Proof. intros (_ & B & C & _). unfold path_qualifier. rewrite B, C. auto. Qed.
Lemma shape_cases t t1 : shape t1 = shape t ->
  match t with
  | TStruct _ => exists a, t1 = TStruct a
  | TInterface _ _ => exists a b, t1 = TInterface a b
  | _ => shape t1 = 0
  end.
Proof. destruct t; cbn; auto; destruct t1; cbn; intros; try discriminate; eauto. Qed.
Lemma text_alike t t1 x : tren real t t1 ->
  (if wf t && text_ok t then Some (denote_with q t) else None) = Some x ->
  (if wf t1 && text_ok t1 then Some (denote_with q t1) else None) = Some x.
Proof.
  intros (_ & _ & C) H. destruct (wf t) eqn:W; [|discriminate]. destruct (C eq_refl) as (W1 & X & _ & _ & D).
  destruct (text_ok t); [|discriminate]. rewrite W1, X, D; auto.
Qed.
Lemma elem_alike e e1 x : elem_ren e e1 -> elem_meaning_with q e = Some x -> elem_meaning_with q e1 = Some x.
Proof.
  destruct e as [c s p|c n s p]; cbn [elem_ren]; intros (s1 & -> & R); cbn [elem_meaning_with]; intros H.
  - destruct R as (A & B & C & D & E). destruct (sym_ok s); [|discriminate]. rewrite D by auto. rewrite A.
    rewrite (sren_qual s s1); auto. repeat split; auto.
  - destruct R as [_ C]. destruct (ident n); [|discriminate]. destruct (wf_sig s); [|discriminate].
    destruct (C eq_refl) as (W & T & D). destruct (sig_text_ok s); [|discriminate]. rewrite W, T, D by auto. exact H.
Qed.
Lemma spec_alike k : forall i T T1 x, part_of w g (IType i) -> nth_error (types w) i = Some T -> nth_error (types w1) i = Some T1 ->
  spec_meaning_with q w k T = Some x -> spec_meaning_with q w1 k T1 = Some x.
Proof.
  induction k as [|k IH]; intros i T T1 x P E E1 H; [discriminate|].
  destruct (type_ren i T P E) as (T1' & E1' & EQ & R). rewrite E1 in E1'. injection E1' as <-.
  pose proof (shape_cases _ _ (proj1 (proj2 R))) as SH.
  assert (ES : TSStruct T1 = TSStruct T) by (rewrite EQ; reflexivity).
  assert (EI : TSInterface T1 = TSInterface T) by (rewrite EQ; reflexivity).
  assert (TX : shape (TSUnderlying T) = 0 -> spec_meaning_with q w1 (S k) T1 = Some x).
  { intros S0. assert (S1 : shape (TSUnderlying T1) = 0) by (destruct R as (_ & -> & _); auto).
    assert (X : forall (v : World) (Y : TypeSpec), shape (TSUnderlying Y) = 0 -> spec_meaning_with q v (S k) Y =
      if wf (TSUnderlying Y) && text_ok (TSUnderlying Y) then Some (denote_with q (TSUnderlying Y)) else None).
    { intros v Y SY. cbn [spec_meaning_with]. destruct (TSUnderlying Y); cbn in SY; try discriminate; reflexivity. }
    rewrite X in * by auto. eapply text_alike; eauto. }
  destruct (TSUnderlying T) eqn:U; try (apply TX; reflexivity); clear TX.
  - (* struct *)
    destruct SH as (fl & U1). cbn [spec_meaning_with] in *. rewrite U in H. rewrite U1, ES.
    match type of H with option_map _ (all_some ?a) = _ => destruct (all_some a) as [m|] eqn:M; [|discriminate] end.
    apply (all_some_imp _ (fun id => obind (nth_error (World.fields w1) id) (fun F =>
            obind match FSType F with
                  | NoType => None
                  | IsName t => if wf t && decl_ok t then Some (denote_with q t, multi_line t) else None
                  | IsSpec ts =>
                      obind (nth_error (types w1) ts) (fun T' =>
                      if String.eqb (TSName T') ""
                      then option_map (fun g => (g, true)) (spec_meaning_with q w1 k T')
                      else option_map (fun g => (g, false)) (named_spec_with q w1 T'))
                  end
              (fun '(g, multi) =>
               if (if String.eqb (FSName F) "" then names_type g else ident (FSName F))
                  && (negb multi || String.eqb (FSTag F) "")
               then Some (opt_name (FSName F), g, FSTag F) else None)))) in M; [rewrite M; exact H|].
    intros id c IN X. clear H M. assert (PF : part_of w g (IField id)) by (eapply po_field; eauto).
    destruct (nth_error (World.fields w) id) as [F|] eqn:EF; [|discriminate]. cbn [obind] in X.
    destruct (field_ren id F PF EF) as (F1 & EF1 & EQF & RF). rewrite EF1. cbn [obind].
    assert (FN : FSName F1 = FSName F) by (rewrite EQF; reflexivity). assert (FT : FSTag F1 = FSTag F) by (rewrite EQF; reflexivity).
    rewrite FN, FT. clear EQF FN FT.
    destruct (FSType F) as [|t|ts] eqn:FY; cbn [tos_ren] in RF; [discriminate| |].
    + destruct RF as (t1 & -> & (_ & _ & C)). destruct (wf t); [|discriminate]. destruct (C eq_refl) as (W1 & _ & D & ML & DN).
      destruct (decl_ok t); [|discriminate]. rewrite W1, D, ML, DN by auto. exact X.
    + rewrite RF. assert (PT : part_of w g (IType ts)) by (eapply po_field_type; eauto).
      destruct (nth_error (types w) ts) as [T'|] eqn:ET; [|discriminate]. cbn [obind] in X.
      destruct (type_ren ts T' PT ET) as (T1' & ET1 & EQT & _). rewrite ET1. cbn [obind].
      assert (TN : TSName T1' = TSName T') by (rewrite EQT; reflexivity). rewrite TN.
      destruct (String.eqb (TSName T') "") eqn:TE.
      * destruct (spec_meaning_with q w k T') as [y|] eqn:SM; [|discriminate]. rewrite (IH ts T' T1' y); auto.
      * destruct NS as (_ & _ & NF). destruct (NF _ _ PF EF ts T' FY ET) as [Y|Y]; [rewrite Y in TE; discriminate|].
        unfold named_spec_with in X. rewrite Y in X. discriminate.
  - (* interface *)
    destruct SH as (e1 & m1 & U1). cbn [spec_meaning_with] in *. rewrite U in H. rewrite U1, EI.
    match type of H with option_map _ (all_some ?a) = _ => destruct (all_some a) as [m|] eqn:M; [|discriminate] end.
    apply (all_some_imp _ (fun id => obind (nth_error (ielems w1) id) (elem_meaning_with q))) in M; [rewrite M; exact H|].
    intros id c IN X. assert (PE : part_of w g (IElem id)) by (eapply po_elem; eauto).
    destruct (nth_error (ielems w) id) as [e|] eqn:EE; [|discriminate].
    destruct (elem_ren' id e PE EE) as (e' & EE1 & RE). rewrite EE1. eapply elem_alike; eauto.
Qed.
Lemma value_type_alike t t1 x : (forall ts, t = IsSpec ts -> part_of w g (IType ts)) -> tos_ren t t1 -> undeclared w t ->
  value_type_with q w t = Some x -> value_type_with q w1 t1 = Some x.
Proof.
  intros PT R U H. destruct t as [|t|ts]; cbn [tos_ren] in R.
  - subst t1. exact H.
  - destruct R as (t' & -> & R). cbn [value_type_with] in *. pose proof (text_alike _ _ (denote_with q t) R) as X.
    destruct (wf t && text_ok t); [|discriminate]. specialize (X eq_refl). destruct (wf t' && text_ok t'); [|discriminate]. congruence.
  - subst t1. cbn [value_type_with] in *. destruct (nth_error (types w) ts) as [T|] eqn:E; [|discriminate]. cbn [obind] in H.
    destruct (type_ren ts T (PT _ eq_refl) E) as (T1 & E1 & EQ & R). rewrite E1. cbn [obind].
    assert (TN : TSName T1 = TSName T) by (rewrite EQ; reflexivity). assert (TP : TSParent T1 = TSParent T) by (rewrite EQ; reflexivity).
    rewrite TN, TP. destruct (String.eqb (TSName T) "") eqn:TE.
    + pose proof (text_alike _ _ (denote_with q (TSUnderlying T)) R) as X.
      destruct (wf (TSUnderlying T) && text_ok (TSUnderlying T)); [|discriminate]. specialize (X eq_refl).
      destruct (wf (TSUnderlying T1) && text_ok (TSUnderlying T1)); [|discriminate]. congruence.
    + destruct (U ts T eq_refl E) as [Y|Y]; [rewrite Y in TE; discriminate|]. rewrite Y in *. exact H.
Qed.
Lemma gvalue_alike code b v v1 x : (forall ts, VSType v = IsSpec ts -> part_of w g (IType ts)) -> undeclared w (VSType v) ->
  v1 = with_vtype v (VSType v1) -> tos_ren (VSType v) (VSType v1) ->
  gvalue_meaning_with q w code b v = Some x -> gvalue_meaning_with q w1 code b v1 = Some x.
Proof.
  intros PT U E R H. assert (VN : VNames v1 = VNames v) by (rewrite E; reflexivity). assert (VI : VInit v1 = VInit v) by (rewrite E; reflexivity).
  unfold gvalue_meaning_with, value_meaning_with in *. rewrite VN, VI.
  destruct (_ && forallb ident (VNames v)); [|discriminate].
  destruct (value_type_with q w (VSType v)) as [t|] eqn:VT; [|discriminate].
  rewrite (value_type_alike _ _ _ PT R U VT). exact H.
Qed.
Lemma func_alike F F1 x : F1 = with_sig F (FNSig F1) -> gren real (FNSig F) (FNSig F1) ->
  func_meaning_with q F = Some x -> func_meaning_with q F1 = Some x.
Proof.
  intros E [_ C] H. assert (FN : FNName F1 = FNName F) by (rewrite E; reflexivity).
  assert (FR : FNReceiver F1 = FNReceiver F) by (rewrite E; reflexivity).
  unfold func_meaning_with in *. rewrite FN, FR. destruct (ident (FNName F)); [|discriminate]. destruct (wf_sig (FNSig F)); [|discriminate].
  destruct (C eq_refl) as (W & T & D). destruct (sig_text_ok (FNSig F)); [|discriminate]. rewrite W, T, D by auto. exact H.
Qed.
Lemma element_alike code k G e x : nth_error (files w) g = Some G -> In e (FElements G) ->
  element_meaning_with q w code k e = Some x -> element_meaning_with q w1 code k e = Some x.
Proof.
  intros EG IN H. destruct NS as (NC & NV & _).
  destruct e as [d|d|d|fn]; cbn [element_meaning_with] in *.
  - rewrite (f_equal constDecls SK : constDecls w1 = constDecls w). destruct (nth_error (constDecls w) d) as [D|] eqn:ED; [|discriminate].
    cbn [obind] in *. destruct (lookup_all (consts w) (VDSpecs D)) as [l|] eqn:L; [|discriminate]. cbn [obind] in H.
    destruct (all_some (map (gvalue_meaning_with q w code true) l)) as [m|] eqn:M; [|discriminate].
    destruct (members_imp _ (consts w1) _ (gvalue_meaning_with q w1 code true) _ _ _ L M) as (l1 & L1 & LEN & M1).
    { intros i a c INi Ea Ha. assert (P : part_of w g (IConst i)) by (eapply po_const; eauto).
      destruct (const_ren i a P Ea) as (a1 & E1 & EQ & R). exists a1. split; auto.
      eapply gvalue_alike; eauto. intros ts X. eapply po_const_type; eauto. }
    rewrite L1. cbn [obind]. rewrite M1. cbn [obind] in *. unfold grouped in *. rewrite LEN. exact H.
  - rewrite (f_equal varDecls SK : varDecls w1 = varDecls w). destruct (nth_error (varDecls w) d) as [D|] eqn:ED; [|discriminate].
    cbn [obind] in *. destruct (lookup_all (vars w) (VDSpecs D)) as [l|] eqn:L; [|discriminate]. cbn [obind] in H.
    destruct (all_some (map (gvalue_meaning_with q w code false) l)) as [m|] eqn:M; [|discriminate].
    destruct (members_imp _ (vars w1) _ (gvalue_meaning_with q w1 code false) _ _ _ L M) as (l1 & L1 & LEN & M1).
    { intros i a c INi Ea Ha. assert (P : part_of w g (IVar i)) by (eapply po_var; eauto).
      destruct (var_ren i a P Ea) as (a1 & E1 & EQ & R). exists a1. split; auto.
      eapply gvalue_alike; eauto. intros ts X. eapply po_var_type; eauto. }
    rewrite L1. cbn [obind]. rewrite M1. cbn [obind] in *. unfold grouped in *. rewrite LEN. exact H.
  - rewrite (f_equal typeDecls SK : typeDecls w1 = typeDecls w). destruct (nth_error (typeDecls w) d) as [D|] eqn:ED; [|discriminate].
    cbn [obind] in *. destruct (lookup_all (types w) (TDTypes D)) as [l|] eqn:L; [|discriminate]. cbn [obind] in H.
    destruct (all_some (map (typespec_meaning_with q w k) l)) as [m|] eqn:M; [|discriminate].
    destruct (members_imp _ (types w1) _ (typespec_meaning_with q w1 k) _ _ _ L M) as (l1 & L1 & LEN & M1).
    { intros i a c INi Ea Ha. assert (P : part_of w g (IType i)) by (eapply po_type; eauto).
      destruct (type_ren i a P Ea) as (a1 & E1 & EQ & R). exists a1. split; auto.
      assert (TN : TSName a1 = TSName a) by (rewrite EQ; reflexivity). assert (TA : TSIsAlias a1 = TSIsAlias a) by (rewrite EQ; reflexivity).
      unfold typespec_meaning_with in *. rewrite TN, TA. destruct (ident (TSName a)); [|discriminate].
      destruct (spec_meaning_with q w k a) as [y|] eqn:SM; [|discriminate]. rewrite (spec_alike k i a a1 y); auto. }
    rewrite L1. cbn [obind]. rewrite M1. cbn [obind] in *. unfold grouped in *. rewrite LEN. exact H.
  - destruct (nth_error (funcs w) fn) as [F|] eqn:EF; [|discriminate]. cbn [obind] in H.
    assert (P : part_of w g (IFunc fn)) by (eapply po_func; eauto).
    destruct (func_ren fn F P EF) as (F1 & E1 & EQ & R). rewrite E1. cbn [obind].
    destruct (func_meaning_with q F) as [m|] eqn:M; [|discriminate]. rewrite (func_alike F F1 m EQ R M).
    assert (FB : FNBody F1 = FNBody F) by (rewrite EQ; reflexivity). cbn [obind] in *. destruct m as [[rc n] s]. rewrite FB. exact H.
Qed.
Lemma file_alike code k G x : nth_error (files w) g = Some G ->
  file_meaning_with q w code k G = Some x -> file_meaning_with q w1 code k G = Some x.
Proof.
  intros EG H. unfold file_meaning_with in *. destruct (ident (FPackageName G)); [|discriminate]. cbn [andb] in *.
  destruct (forallb (has_content w) (FElements G)) eqn:HC; [|discriminate].
  replace (forallb (has_content w1) (FElements G)) with true.
  2:{ symmetry. erewrite <- HC. f_equal. unfold has_content.
      rewrite (f_equal constDecls SK : constDecls w1 = constDecls w), (f_equal varDecls SK : varDecls w1 = varDecls w),
        (f_equal typeDecls SK : typeDecls w1 = typeDecls w). reflexivity. }
  destruct (all_some (map import_meaning (ImportSpecs (FImports G)))) as [is|]; [|discriminate]. cbn [obind] in *.
  destruct (all_some (map (element_meaning_with q w code k) (FElements G))) as [m|] eqn:M; [|discriminate].
  apply (all_some_imp _ (element_meaning_with q w1 code k)) in M; [rewrite M; exact H|].
  intros; eapply element_alike; eauto.
Qed.
End Mean.
End One.
End Alike.

(** ** Writing the other file *)
Section Turn.
Variables (real : string -> string) (own : string) (H : list call).
Hypothesis OK : forallb call_ok H = true.
Hypothesis US : forall c, In c H -> usable_requests c.
Notation j := (run H (NewImportsFor own)).
Definition safe (path : string) : Prop := forall name, keeps_name j (mkPackage path name) -> fine real (path, name).
Lemma safe_name path n : safe path -> prefix_name j path = Some n -> fine real (path, n).
Proof.
  intros G P. apply G. unfold keeps_name. cbn [ImportPath PkgName]. apply PrefixForPackage_iff; [apply run_new_Inv|].
  exists n. split; auto.
Qed.
Lemma sren_rename s : known j s -> (has_package s = true -> safe (sym_path s)) -> sren real s (rename j s).
Proof.
  intros K G. pose proof (rename_ok own H OK US s K) as RO. split; [apply rename_name|].
  destruct (has_package s) eqn:HP.
  2:{ assert (X : rename j s = s) by (unfold rename; rewrite HP; auto). rewrite X. auto. }
  specialize (K HP). unfold rename in *. rewrite HP in *.
  destruct (prefix_name j (sym_path s)) as [n|] eqn:P; [|congruence].
  pose proof (safe_name _ _ (G eq_refl) P) as FN. split; [|split; [reflexivity|split; [auto|right; exact FN]]].
  unfold has_package. cbn [SymPackage PkgName ImportPath sym_path]. apply negb_true_iff.
  destruct (String.eqb_spec n "") as [->|]; auto. cbn [andb].
  destruct (String.eqb_spec (sym_path s) "") as [E|]; auto. rewrite E in FN. destruct FN as [_ U]. vm_compute in U. discriminate.
Qed.
Lemma Forall2_map_r {A} (R : A -> A -> Prop) g l : (forall x, In x l -> R x (g x)) -> Forall2 R l (map g l).
Proof. induction l; cbn; intros; constructor; auto. Qed.
Lemma request_path l s : In s l -> has_package s = true -> In (sym_path s, PkgName (SymPackage s)) (sym_requests l).
Proof. intros IN HP. unfold sym_requests. apply in_map_iff. exists s. split; auto. apply filter_In. auto. Qed.
Definition safe_all (l : list (string * string)) : Prop := forall p n, In (p, n) l -> safe p.
Lemma safe_sym l s : safe_all (sym_requests l) -> In s l -> known j s -> sren real s (rename j s).
Proof. intros G IN K. apply sren_rename; auto. intros HP. eapply G, request_path; eauto. Qed.
Lemma sren_kept own' s s1 : sren real s s1 -> SymName s1 = SymName s /\ path_qualifier own' s1 = path_qualifier own' s.
Proof. intros (A & B & C & _). split; auto. unfold path_qualifier. rewrite B, C. auto. Qed.
Lemma type_turn t t1 : type_final j t t1 -> safe_all (sym_requests (symbols_of t)) -> tren real t t1.
Proof.
  intros TF G. pose proof TF as (c & i & i' & Ii & E & X). split; [|split; [eapply shape_kept; eauto|]].
  - destruct (turns_type t i t1 c i' Ii E) as (M & K). destruct (known_all_ext _ _ _ X K) as (K1 & M1).
    rewrite M, <- M1. rewrite Forall_forall in K1. apply Forall2_map_r. intros s IN. eapply safe_sym; eauto.
  - intros W. destruct (type_final_wf _ _ _ TF W) as [-> K]. rewrite wf_map, multi_line_map. split; auto.
    assert (SR : forall s, In s (symbols_of t) -> sren real s (rename j s)) by (intros; eapply safe_sym; eauto).
    split; [apply text_ok_map; intros s IN; apply (SR s IN)|]. split; [apply decl_ok_map; intros s IN; apply (SR s IN)|].
    split; auto. intros own'. apply kept_denote. apply Forall_forall. intros s IN. apply sren_kept; auto.
Qed.
Lemma sig_turn t t1 : sig_final j t t1 -> safe_all (sym_requests (sig_symbols t)) -> gren real t t1.
Proof.
  intros TF G. pose proof TF as (c & i & i' & Ii & E & X). split.
  - destruct (turns_signature t i t1 c i' Ii E) as (M & K). destruct (known_all_ext _ _ _ X K) as (K1 & M1).
    rewrite M, <- M1. rewrite Forall_forall in K1. apply Forall2_map_r. intros s IN. eapply safe_sym; eauto.
  - intros W. destruct (sig_final_wf _ _ _ TF W) as [-> K]. assert (WM : wf_sig (map_sig (map_symbols (rename j)) t) = true) by (rewrite wf_sig_map; auto; split; apply Forall_forall; intros; apply wf_map). split; auto.
    assert (SR : forall s, In s (sig_symbols t) -> sren real s (rename j s)) by (intros; eapply safe_sym; eauto).
    split; [apply sig_text_ok_map; intros s IN; apply (SR s IN)|].
    intros own'. apply kept_sig. apply Forall_forall. intros s IN. apply sren_kept; auto.
Qed.
Lemma sym_turn s s1 : sym_final j s s1 -> safe_all (sym_requests [s]) -> sren real s s1.
Proof. intros SF G. destruct (sym_final_known _ _ _ SF) as [-> K]. eapply safe_sym; eauto. left. auto. Qed.
Lemma arg_turn {TD} (w : World TD) a t a1 i i' : arg_target w a = Ok t -> (forall p, t <> TgGoPkg p) -> Inv i ->
  target_act a t i = (Ok a1, i') -> ext i' j -> safe_all (target_requests t) -> aren real w a a1.
Proof.
  intros AT NG Ii TA X G. unfold aren. rewrite !refers_target, AT.
  destruct t as [p|s|m|s|t|p|]; cbn [target_act target_reference target_requests] in *; unfold sbind, sret in TA.
  - destruct (registerPackage p i) as [[n|] i1] eqn:RP; [|discriminate]. injection TA as TA <-.
    destruct (String.eqb n (PkgName p)) eqn:NP; cbn [negb] in TA; [left; congruence|]. right. subst a1.
    cbn [arg_target target_reference]. eexists. eexists. split; [reflexivity|]. split; [reflexivity|]. split; [|split; discriminate].
    cbn [rren ImportPath PkgName]. split; auto. right. apply safe_name; [eapply G; left; eauto|].
    eapply prefix_name_ext; [exact X|]. unfold registerPackage, RegisterImportForPackage, RegisterImport, sbind, sret in RP.
    destruct (prefix_reg i (ImportPath p) (PkgName p) Ii) as (k & i2 & E1 & I1 & X1 & P & _).
    rewrite E1, strip_with_dot in RP. injection RP as <- <-. exact P.
  - destruct (EnsureImported s i) as [[s1|] i1] eqn:EI; [|discriminate]. injection TA as <- <-. right.
    cbn [arg_target target_reference]. eexists. eexists. split; [reflexivity|]. split; [reflexivity|]. split; [|split; discriminate].
    cbn [rren]. apply sym_turn; auto. exists i, i1. auto.
  - destruct (EnsureImported (MRType m) i) as [[s1|] i1] eqn:EI; [|discriminate]. injection TA as TA <-.
    destruct (symbol_eqb s1 (MRType m)) eqn:EQ; cbn [negb] in TA; [left; congruence|]. right. subst a1.
    cbn [arg_target target_reference]. eexists. eexists. split; [reflexivity|]. split; [reflexivity|]. split; [|split; [reflexivity|discriminate]].
    cbn [rren MRType MRMethod]. split; auto. apply sym_turn; auto. exists i, i1. auto.
  - destruct (EnsureAllTypesImported s i) as [[[s1 c]|] i1] eqn:EI; [|discriminate]. injection TA as <- <-. right.
    cbn [arg_target target_reference]. eexists. eexists. split; [reflexivity|]. split; [reflexivity|]. split; [|split; discriminate].
    cbn [rren]. apply sig_turn; auto. exists c, i, i1. auto.
  - destruct (EnsureTypeImported t i) as [[[t1 c]|] i1] eqn:EI; [|discriminate]. injection TA as <- <-. right.
    cbn [arg_target target_reference]. eexists. eexists. split; [reflexivity|]. split; [reflexivity|]. split; [|split; discriminate].
    cbn [rren]. apply type_turn; auto. exists c, i, i1. auto.
  - exfalso. eapply NG; eauto.
  - injection TA as <- <-. left. auto.
Qed.
End Turn.

Lemma go_package_target {TD} (w : World TD) a p : arg_target w a = Ok (TgGoPkg p) -> exists q, a = AGoPackage q.
Proof.
  destruct a; cbn [arg_target]; unfold rbind; intros E; eauto;
    repeat match type of E with context [match ?x with _ => _ end] => destruct x; try discriminate end; discriminate.
Qed.
Lemma scope_mentions {TD} (w : World TD) f g l x p n : in_scope w f l -> in_scope w g l -> cont w l = Some x ->
  In (p, n) (creq w x) -> shared_mentions w f g (p, n).
Proof.
  intros SF SG C IN. destruct l as [i|i|i|i|i|i|args k|t]; cbn [in_scope cont] in *.
  - left. exists (IConst i). split; auto. split; auto. destruct (nth_error (consts w) i) as [v|] eqn:E; [|discriminate]. exists v. split; auto.
    cbn [obind] in C. destruct (VSType v); try discriminate. injection C as <-. exact IN.
  - left. exists (IVar i). split; auto. split; auto. destruct (nth_error (vars w) i) as [v|] eqn:E; [|discriminate]. exists v. split; auto.
    cbn [obind] in C. destruct (VSType v); try discriminate. injection C as <-. exact IN.
  - left. exists (IType i). split; auto. split; auto. destruct (nth_error (types w) i) as [v|] eqn:E; [|discriminate]. exists v. split; auto.
    injection C as <-. exact IN.
  - left. exists (IField i). split; auto. split; auto. destruct (nth_error (fields w) i) as [v|] eqn:E; [|discriminate]. exists v. split; auto.
    cbn [obind] in C. destruct (FSType v); try discriminate. injection C as <-. exact IN.
  - left. exists (IElem i). split; auto. split; auto. cbn [item_mentions].
    destruct (nth_error (ielems w) i) as [[c s q|c m s q]|] eqn:E; [| |discriminate]; injection C as <-; [left|right]; eauto 9.
  - left. exists (IFunc i). split; auto. split; auto. destruct (nth_error (funcs w) i) as [v|] eqn:E; [|discriminate]. exists v. split; auto.
    injection C as <-. exact IN.
  - right. exists args. split; auto. split; auto. destruct (nth_error (argss w) args) as [l|] eqn:E; [|discriminate]. cbn [obind] in C.
    destruct (nth_error l k) as [a|] eqn:K; [|discriminate]. injection C as <-. cbn [creq] in IN.
    destruct (arg_target w a) as [t|] eqn:AT; [|destruct IN]. destruct (target_reference t) as [r|] eqn:TR; [|destruct t; try discriminate; destruct IN].
    exists l, a, r. split; auto. split; [eapply nth_error_In; eauto|]. split; [rewrite refers_target, AT; auto|].
    rewrite <- (target_packages t); auto.
  - destruct (nth_error (templs w) t); [|discriminate]. injection C as <-. destruct IN.
Qed.
Lemma step_alike {TD} (env : Env TD) real own h fuel f g (w : World TD) F F1 s w1 :
  prepared real own h w f F -> source env fuel f w = (Ok s, w1) -> nth_error (files w1) f = Some F1 ->
  g <> f -> shares_well real w f g (FImports F1) -> alike real w w1 g.
Proof.
  intros (EF & EI & OK & HON & US & NT & HR) S EF1 NE (NGP & SW).
  destruct (source_split _ _ _ _ _ _ S) as (Q & _).
  pose proof (no_templates_ok env w f (fun r => right_name real r /\ usable_name r) NT) as TO.
  destruct (history_after env real own h fuel f w w1 F EF EI OK HON US TO HR Q) as (H & F1' & E1 & EI1 & _ & EH & OK1 & HON1 & US1).
  rewrite EF1 in E1. injection E1 as <-.
  assert (IF : Inv (FImports F)) by (rewrite EI; apply run_new_Inv).
  destruct (others_unchanged env own h fuel f w F s w1 EF EI NT S) as (A & _).
  destruct (QualifyTheorems.after env fuel f w w1 F _ EF IF TO HR Q) as (L & _ & U & _).
  split; [auto|exact (le_skel _ _ _ _ _ L)|]. intros l SG.
  destruct (in_dec loc_eq_dec l (plan_file f fuel (skel w))) as [IN|NI].
  2:{ rewrite (U l NI). destruct (cont w l); cbn; auto. apply crel_refl. }
  assert (SF : in_scope w f l) by (eapply scope_file; eauto).
  destruct (cont w l) as [x|] eqn:C.
  2:{ pose proof (le_cont _ _ _ _ _ L l) as M. rewrite C in M. destruct (cont w1 l); [contradiction|exact I]. }
  destruct (final env fuel f w w1 F _ EF IF TO HR Q l x IN C) as (y & j & j' & C1 & Ij & AC & Ij' & X & _). rewrite C1. cbn [orel].
  assert (SA : safe_all real own H (creq w x)).
  { intros p n IN' name KN. eapply SW; [eapply scope_mentions; eauto|]. rewrite EI1, EH. exact KN. }
  rewrite EH in X. destruct x as [t|t|t|a|d]; cbn [act creq] in *; unfold sbind, sret, slift in AC.
  - destruct (EnsureTypeImported t j) as [[[t1 c]|] i] eqn:E; [|discriminate]. injection AC as <- ->. cbn [crel].
    eapply type_turn; eauto. exists c, j, j'. auto.
  - destruct (EnsureAllTypesImported t j) as [[[t1 c]|] i] eqn:E; [|discriminate]. injection AC as <- ->. cbn [crel].
    eapply sig_turn; eauto. exists c, j, j'. auto.
  - destruct (EnsureImported t j) as [[t1|] i] eqn:E; [|discriminate]. injection AC as <- ->. cbn [crel].
    eapply sym_turn; eauto. exists j, j'. auto.
  - destruct (arg_target w a) as [t|] eqn:AT; [|discriminate]. destruct (target_act a t j) as [[a1|] i] eqn:TA; [|discriminate].
    injection AC as <- ->. cbn [crel]. apply (arg_turn real own H OK1 US1 w a t a1 j j'); auto. intros p ->. destruct (go_package_target _ _ _ AT) as (q & ->).
    destruct l; cbn [cont] in C; unfold obind, option_map, tos_content, elem_content in C;
      repeat match type of C with context [match ?x with _ => _ end] => let E := fresh "E" in destruct x eqn:E; try discriminate end.
    injection C as ->. cbn [in_scope] in SF, SG. eapply NGP; eauto. eapply nth_error_In; eauto.
  - exfalso. destruct (cont_data w l d C) as (t & tm & -> & _). cbn [in_scope] in SF.
    destruct SF as (cb & b & P & B & INB). eapply NT; eauto.
Qed.

(** ** What is said about the text of a reference says the same of the original *)
Lemma written_ren real own specs r r1 text : rren real r r1 -> written real own specs r1 text -> written real own specs r text.
Proof.
  assert (WS : forall s s1 t, sren real s s1 -> written_symbol real own specs s1 t -> written_symbol real own specs s t).
  { intros s s1 t (A & B & C & _). unfold written_symbol. rewrite A, B, C. auto. }
  destruct r, r1; cbn [rren written]; try contradiction.
  - intros [E _]. rewrite E. auto.
  - apply WS.
  - intros [S ->] (t & A & B). exists t. split; auto. eapply WS; eauto.
  - intros (_ & _ & C) X W T. destruct (C W) as (W1 & T1 & _ & _ & D). rewrite <- D. auto.
  - intros (_ & C) X W T. destruct (C W) as (W1 & T1 & D). rewrite <- D. auto.
Qed.
Lemma rren_signature real r r1 : rren real r r1 -> (forall sg, r <> RSignature sg) -> forall sg, r1 <> RSignature sg.
Proof. intros R N sg ->. destruct r; try contradiction. eapply N; eauto. Qed.
Lemma alike_written {TD} (env : Env TD) real own' h' fuel g (w w1 : World TD) G s' w2 :
  alike real w w1 g -> prepared real own' h' w g G -> source env fuel g w1 = (Ok s', w2) ->
  exists G2, nth_error (files w2) g = Some G2 /\
  (forall path, In path (listed (FImports G2)) <->
     In path (listed (FImports G)) \/ path <> own' /\ exists n, file_mentions w g (path, n)) /\
  (forall cb n k a r verb, part_of w g (IBlock cb) -> argument w cb n k = Some a -> refers_to w a = Some r ->
    verb = "s"%char \/ verb = "v"%char ->
    (forall sg, r <> RSignature sg) ->
    (forall s m, r = RMethod s m -> method_by_value a = true \/
       has_package s = true /\ ~ keeps_name (FImports G2) (SymPackage s)) ->
    exists a2, argument w2 cb n k = Some a2 /\
      written real own' (ImportSpecs (FImports G2)) r (fmt_arg env w2 verb a2)) /\
  (forall g0, no_named_specs w g -> file_meaning_with (path_qualifier own') w (block_text env w2) fuel G = Some g0 ->
    exists p, parse_file s' = Some p /\ map import_of (GImports p) = ImportSpecs (FImports G2) /\
      resolve_file real p = Some (mkGFile (GPackage g0) (GImports p) (GDecls g0))).
Proof.
  intros AL PG S'. pose proof (prepared_alike real w w1 g AL _ _ _ PG) as PG1.
  destruct (prepared_references env real own' h' fuel g w1 G s' w2 PG1 S') as (G2 & E2 & RF).
  exists G2. split; [exact E2|]. split; [|split].
  - destruct PG1 as (A & B & _ & _ & _ & C & _).
    destruct (imports_exact env own' h' fuel g w1 G s' w2 A B C S') as (G2' & E2' & IM).
    assert (G2' = G2) by congruence. subst G2'. intros path. rewrite IM.
    split; (intros [X|[X (n & Y)]]; [left; exact X|right; split; [exact X|]]).
    + eapply mention_back; eauto.
    + eapply mention_fwd; eauto.
  - intros cb n k a r verb P A R V NS NM.
    pose proof (arg_ren real w w1 g AL cb n k P) as C. rewrite A in C. destruct (argument w1 cb n k) as [a1|] eqn:A1; [|contradiction].
    pose proof (pfwd real w w1 g AL _ P) as P1. cbn [orel] in C.
    destruct C as [->|(r0 & r1 & R0 & R1 & RR & BV & _)].
    + apply (RF cb n k a r verb); auto. rewrite (refers_skel w w1); auto. apply (a_skel _ _ _ _ AL).
    + rewrite R in R0. injection R0 as <-. destruct (RF cb n k a1 r1 verb) as (a2 & A2 & W2); auto.
      * rewrite (refers_skel w w1); auto. apply (a_skel _ _ _ _ AL).
      * eapply rren_signature; eauto.
      * intros t m ->. left. destruct r; try contradiction. eapply BV. reflexivity.
      * exists a2. split; auto. eapply written_ren; eauto.
  - intros g0 NN M. destruct (prepared_means env real own' h' fuel g w1 G s' w2 PG1 S' g0) as (G2' & p & E2' & X).
    + eapply named_alike; eauto.
    + destruct PG as (A & _). eapply file_alike; eauto.
    + assert (G2' = G2) by congruence. subst G2'. exists p. exact X.
Qed.

(** ** Any number of files *)
Definition plain {TD} (w : World TD) (f : nat) : Prop :=
  exists own h F, nth_error (files w) f = Some F /\ FImports F = run h (NewImportsFor own) /\ no_templates w f.
Lemma plain_step {TD} (env : Env TD) fuel f (w w1 : World TD) s : plain w f -> source env fuel f w = (Ok s, w1) ->
  forall g, g <> f -> nth_error (files w1) g = nth_error (files w) g /\ (plain w g -> plain w1 g).
Proof.
  intros (own & h & F & EF & EI & NT) S g NE.
  destruct (others_unchanged env own h fuel f w F s w1 EF EI NT S) as (A & _). split; [auto|].
  intros (own' & h' & G & EG & EI' & NT'). exists own', h', G. rewrite A by auto. split; auto. split; auto.
  eapply templates_skel; [|exact NT']. destruct (source_split _ _ _ _ _ _ S) as (Q & _).
  assert (IF : Inv (FImports F)) by (rewrite EI; apply run_new_Inv).
  exact (skel_after env fuel f w w1 F (fun _ => True) EF IF (no_templates_ok env w f _ NT) (fun _ _ => I) Q).
Qed.
Lemma order_files {TD} (env : Env TD) fuel l (w w1 : World TD) : in_order env fuel l w w1 -> NoDup l ->
  (forall f, In f l -> plain w f) -> forall g, ~ In g l -> nth_error (files w1) g = nth_error (files w) g.
Proof.
  induction 1 as [w|f l s w w1 w2 S R IH]; intros ND PL g NI; auto. inversion ND as [|? ? NF ND']; subst.
  pose proof (plain_step env fuel f w w1 s (PL f (or_introl eq_refl)) S) as ST.
  rewrite IH; auto.
  - apply ST. intros ->. apply NI. left. auto.
  - intros g' IN. apply ST; [intros ->; auto|]. apply PL. right. auto.
  - intros IN. apply NI. right. auto.
Qed.
Lemma prepared_plain {TD} real own h (w : World TD) f F : prepared real own h w f F -> plain w f.
Proof. intros (A & B & _ & _ & _ & C & _). exists own, h, F. auto. Qed.
Lemma order_alike {TD} (env : Env TD) real fuel l : forall w w1 : World TD, in_order env fuel l w w1 -> NoDup l ->
  (forall f, In f l -> exists own h F, prepared real own h w f F) -> forall g, ~ In g l ->
  share_well real w w1 (l ++ [g]) -> alike real w w1 g.
Proof.
  induction l as [|f l IH]; intros w w2 IO ND PR g NI SP; inversion IO as [|? ? s ? w1 ? S R]; subst; [apply alike_refl|].
  inversion ND as [|? ? NF ND']; subst. unfold share_well in SP. cbn [app] in SP. inversion SP as [|? ? SF SP']; subst.
  destruct (PR f (or_introl eq_refl)) as (own & h & F & PF).
  destruct (prepared_references env real own h fuel f w F s w1 PF S) as (F1 & E1 & _).
  pose proof (plain_step env fuel f w w1 s (prepared_plain _ _ _ _ _ _ PF) S) as ST.
  assert (EF : nth_error (files w2) f = Some F1).
  { rewrite (order_files env fuel l w1 w2); auto. intros f' IN. apply ST; [intros ->; auto|].
    destruct (PR f' (or_intror IN)) as (o & h' & F' & P'). eapply prepared_plain; eauto. }
  rewrite Forall_forall in SF.
  assert (AL : forall g', In g' (l ++ [g]) -> alike real w w1 g').
  { intros g' IN. apply (step_alike env real own h fuel f g' w F F1 s w1); auto.
    apply in_app_or in IN as [IN|[<-|[]]]; [intros ->; auto|intros ->; apply NI; left; auto]. }
  apply (alike_trans real w w1 w2 g); [apply AL, in_or_app; right; left; auto|].
  apply (IH w1 w2); auto.
  - intros f' IN. destruct (PR f' (or_intror IN)) as (o & h' & F' & P'). exists o, h', F'.
    eapply prepared_alike; eauto. apply AL, in_or_app; auto.
  - intros IN. apply NI. right. auto.
  - assert (X : forall m, incl m (l ++ [g]) -> ForallOrdPairs (fun f g => forall F1, nth_error (files w2) f = Some F1 -> shares_well real w f g (FImports F1)) m ->
      ForallOrdPairs (fun f g => forall F1, nth_error (files w2) f = Some F1 -> shares_well real w1 f g (FImports F1)) m).
    { induction m as [|x m IHm]; intros IC FO; [constructor|]. inversion FO as [|? ? A B]; subst. constructor.
      - rewrite Forall_forall in *. intros y IN Fx EX. eapply shares_well_alike; [apply AL, IC; right; exact IN|]. auto.
      - apply IHm; auto. intros y IN. apply IC. right. auto. }
    apply X; auto. apply incl_refl.
Qed.
(** Files written one after the other, then [g]. *)
Theorem order_written {TD} (env : Env TD) real own h fuel l g (w w1 : World TD) G s w2 :
  (forall f, In f l -> exists own h F, prepared real own h w f F) -> NoDup (l ++ [g]) -> prepared real own h w g G ->
  in_order env fuel l w w1 -> share_well real w w1 (l ++ [g]) -> source env fuel g w1 = (Ok s, w2) ->
  exists G2, nth_error (files w2) g = Some G2 /\
  (forall path, In path (listed (FImports G2)) <->
     In path (listed (FImports G)) \/ path <> own /\ exists n, file_mentions w g (path, n)) /\
  (forall cb n k a r verb, part_of w g (IBlock cb) -> argument w cb n k = Some a -> refers_to w a = Some r ->
    verb = "s"%char \/ verb = "v"%char ->
    (forall sg, r <> RSignature sg) ->
    (forall s m, r = RMethod s m -> method_by_value a = true \/
       has_package s = true /\ ~ keeps_name (FImports G2) (SymPackage s)) ->
    exists a2, argument w2 cb n k = Some a2 /\
      written real own (ImportSpecs (FImports G2)) r (fmt_arg env w2 verb a2)) /\
  (forall g0, no_named_specs w g -> file_meaning_with (path_qualifier own) w (block_text env w2) fuel G = Some g0 ->
    exists p, parse_file s = Some p /\ map import_of (GImports p) = ImportSpecs (FImports G2) /\
      resolve_file real p = Some (mkGFile (GPackage g0) (GImports p) (GDecls g0))).
Proof.
  intros PR ND PG IO SW S. apply NoDup_remove in ND as [ND NI]. rewrite app_nil_r in *.
  apply (alike_written env real own h fuel g w w1 G s w2); auto. apply (order_alike env real fuel l); auto.
Qed.

(** ** WriteGoFiles *)
Lemma order_app {TD} (env : Env TD) fuel l : forall m (w w1 w2 : World TD), in_order env fuel l w w1 -> in_order env fuel m w1 w2 ->
  in_order env fuel (l ++ m) w w2.
Proof. induction l as [|f l IH]; intros m w w1 w2 A B; inversion A; subst; auto. cbn [app]. econstructor; eauto. Qed.
Section Write.
Context {TD : Type}.
Variable env : Env TD.
Context {X H E : Type}.
Variables (format_Source : string -> string + E) (write : H -> string -> X -> done E * X) (close : H -> X -> done E * X).
Lemma write_first outFn fuel f rest st st' :
  WriteGoFiles env format_Source write close outFn fuel (f :: rest) st = (Ret None, st') ->
  exists h s formatted st2, source env fuel f (world st) = (Ok s, world st2) /\ format_Source s = inl formatted /\
    In (EvWrite h formatted Done) (trace st2) /\ WriteGoFiles env format_Source write close outFn fuel rest st2 = (Ret None, st').
Proof.
  cbn [WriteGoFiles]. destruct (nth_error (files (world st)) f) as [F|]; [|discriminate].
  destruct (outFn (file_path F) (outside st)) as [r x1]. destruct r as [[h|]|e|m]; try discriminate.
  unfold with_close, WriteGoFile. cbn [world outside trace].
  destruct (source env fuel f (world st)) as [[s|m] w1] eqn:S.
  2:{ cbn [outside]. destruct (close h x1) as [[|e|m1] x2]; intros R; cbn in R; discriminate R. }
  destruct (format_Source s) as [fmtd|e] eqn:FS.
  2:{ cbn [outside]. destruct (close h x1) as [[|e1|m1] x2]; intros R; cbn in R; discriminate R. }
  destruct (write h fmtd x1) as [r x2] eqn:W. cbn [world outside trace].
  destruct (close h x2) as [c x3]. intros R.
  assert (RD : r = Done /\ forall m, c <> Broke m).
  { destruct r, c; try discriminate R; split; auto; discriminate. }
  destruct RD as [-> NB]. exists h, s, fmtd.
  exists (mkState w1 x3 (((trace st ++ [EvOpen (file_path F) (Opened (Some h))]) ++ [EvWrite h fmtd Done]) ++ [EvClose h c])).
  split; [reflexivity|]. split; [exact FS|]. split; [|destruct c; [exact R|exact R|exfalso; eapply NB; eauto]].
  cbn [trace]. apply in_or_app. left. apply in_or_app. right. left. reflexivity.
Qed.
Lemma write_trace outFn fuel fs : forall st st' ev, WriteGoFiles env format_Source write close outFn fuel fs st = (Ret None, st') ->
  In ev (trace st) -> In ev (trace st').
Proof.
  induction fs as [|f fs IH]; intros st st' ev R IN; [injection R as <-; auto|].
  cbn [WriteGoFiles] in R. destruct (nth_error (files (world st)) f) as [F|]; [|discriminate].
  destruct (outFn (file_path F) (outside st)) as [r x1]. destruct r as [[h|]|e|m]; try discriminate.
  match type of R with context [with_close ?a ?b ?c ?d] => destruct (with_close a b c d) as [o st2] eqn:WC end.
  destruct o as [[e|]|m]; try discriminate. apply (IH _ _ _ R).
  unfold with_close, WriteGoFile in WC. cbn [world outside trace] in WC.
  destruct (source env fuel f (world st)) as [[s|m] w1].
  - destruct (format_Source s) as [fmtd|e].
    + destruct (write h fmtd x1) as [r x2]. cbn [world outside trace] in WC. destruct (close h x2) as [c x3]. injection WC as _ <-.
      cbn [trace]. apply in_or_app. left. apply in_or_app. left. apply in_or_app. auto.
    + cbn [world outside trace] in WC. destruct (close h x1) as [c x3]. injection WC as _ <-. cbn [trace]. apply in_or_app. left. apply in_or_app. auto.
  - cbn [world outside trace] in WC. destruct (close h x1) as [c x3]. injection WC as _ <-. cbn [trace]. apply in_or_app. left. apply in_or_app. auto.
Qed.
Lemma write_order outFn fuel fs : forall st st', WriteGoFiles env format_Source write close outFn fuel fs st = (Ret None, st') ->
  in_order env fuel fs (world st) (world st').
Proof.
  induction fs as [|f fs IH]; intros st st' R; [injection R as <-; constructor|].
  destruct (write_first _ _ _ _ _ _ R) as (h & s & fmtd & st2 & S & _ & _ & R2). econstructor; eauto.
Qed.
Theorem write_in_order outFn fuel l g r : forall st st', WriteGoFiles env format_Source write close outFn fuel (l ++ g :: r) st = (Ret None, st') ->
  exists w1 s w2 h formatted, in_order env fuel l (world st) w1 /\ source env fuel g w1 = (Ok s, w2) /\
    in_order env fuel r w2 (world st') /\ format_Source s = inl formatted /\ In (EvWrite h formatted Done) (trace st').
Proof.
  induction l as [|f l IH]; cbn [app]; intros st st' R; destruct (write_first _ _ _ _ _ _ R) as (h & s & fmtd & st2 & S & FS & TR & R2).
  - exists (world st), s, (world st2), h, fmtd. split; [constructor|]. split; auto. split; [eapply write_order; eauto|]. split; auto.
    eapply write_trace; eauto.
  - destruct (IH _ _ R2) as (w1 & s' & w2 & h' & fm & A & B). exists w1, s', w2, h', fm. split; [econstructor; eauto|exact B].
Qed.
Theorem write_all real own h outFn fuel l g r st st' G :
  (forall f, In f (l ++ g :: r) -> exists own h F, prepared real own h (world st) f F) -> NoDup (l ++ g :: r) ->
  prepared real own h (world st) g G ->
  WriteGoFiles env format_Source write close outFn fuel (l ++ g :: r) st = (Ret None, st') ->
  share_well real (world st) (world st') (l ++ g :: r) ->
  exists G2 s w2 hd formatted, nth_error (files (world st')) g = Some G2 /\ format_Source s = inl formatted /\ In (EvWrite hd formatted Done) (trace st') /\
  (forall path, In path (listed (FImports G2)) <->
     In path (listed (FImports G)) \/ path <> own /\ exists n, file_mentions (world st) g (path, n)) /\
  (forall g0, no_named_specs (world st) g -> file_meaning_with (path_qualifier own) (world st) (block_text env w2) fuel G = Some g0 ->
    exists p, parse_file s = Some p /\ map import_of (GImports p) = ImportSpecs (FImports G2) /\
      resolve_file real p = Some (mkGFile (GPackage g0) (GImports p) (GDecls g0))).
Proof.
  intros PR ND PG R SW. destruct (write_in_order _ _ _ _ _ _ _ R) as (w1 & s & w2 & hd & fmtd & IO1 & S & IO2 & FS & TR).
  assert (IOG : in_order env fuel (l ++ [g]) (world st) w2) by (eapply order_app; [exact IO1|]; econstructor; [exact S|constructor]).
  assert (ND1 : NoDup (l ++ [g]) /\ NoDup r /\ forall x, In x (l ++ [g]) -> ~ In x r).
  { replace (l ++ g :: r) with ((l ++ [g]) ++ r) in ND by (rewrite <- app_assoc; reflexivity). revert ND. generalize (l ++ [g]). clear.
    induction l as [|x l IH]; cbn [app]; intros ND; [split; [constructor|split; [auto|intros x []]]|].
    inversion ND as [|? ? N ND']; subst. destruct (IH ND') as (A & B & C). split; [constructor; auto; intros IN; apply N, in_or_app; auto|].
    split; auto. intros y [<-|IN]; [intros IN; apply N, in_or_app; auto|auto]. }
  destruct ND1 as (ND1 & ND2 & DJ).
  assert (PL : forall f, In f (l ++ g :: r) -> plain (world st) f).
  { intros f IN. destruct (PR f IN) as (o & h' & F & P). eapply prepared_plain; eauto. }
  (* files written are as they are in the end *)
  assert (STEP : forall m (a b : World TD), in_order env fuel m a b -> NoDup m -> (forall f, In f m -> plain a f) ->
            forall x, ~ In x m -> plain a x -> plain b x).
  { induction 1 as [a|f m s0 a b c Sf IO IH]; intros NDm PLm x NI PX; auto. inversion NDm as [|? ? NF NDm']; subst.
    pose proof (plain_step env fuel f a b s0 (PLm f (or_introl eq_refl)) Sf) as ST.
    apply IH; auto.
    - intros f' IN. apply ST; [intros ->; auto|]. apply PLm. right. auto.
    - intros IN. apply NI. right. auto.
    - apply ST; auto. intros ->. apply NI. left. auto. }
  assert (FIN : forall x, In x (l ++ [g]) -> nth_error (files (world st')) x = nth_error (files w2) x).
  { intros x IN. apply (order_files env fuel r w2 (world st')); auto.
    intros f INr. apply (STEP (l ++ [g]) (world st) w2); auto.
    - intros f' IN'. apply PL. apply in_app_or in IN' as [IN'|[<-|[]]]; apply in_or_app; [left|right; left]; auto.
    - intros IN'. eapply DJ; eauto.
    - apply PL. apply in_or_app. right. right. auto. }
  apply NoDup_remove in ND1 as [NDl NIg]. rewrite app_nil_r in *.
  assert (FIN1 : forall x, In x l -> nth_error (files w1) x = nth_error (files w2) x).
  { intros x IN. symmetry. assert (PG1 : plain w1 g).
    { apply (STEP l (world st) w1); auto; [|eapply prepared_plain; eauto]. intros f' IN'. apply PL, in_or_app. auto. }
    apply (plain_step env fuel g w1 w2 s PG1 S). intros ->. auto. }
  assert (SW1 : share_well real (world st) w1 (l ++ [g])).
  { unfold share_well in *. assert (Y : forall m n, incl m l ->
      ForallOrdPairs (fun f g => forall F1, nth_error (files (world st')) f = Some F1 -> shares_well real (world st) f g (FImports F1)) (m ++ g :: n) ->
      ForallOrdPairs (fun f g => forall F1, nth_error (files w1) f = Some F1 -> shares_well real (world st) f g (FImports F1)) (m ++ [g])).
    { induction m as [|x m IHm]; intros n IC FO; cbn [app] in *; inversion FO as [|? ? A B]; subst.
      - constructor; [constructor|constructor].
      - constructor; [|apply (IHm n); auto; intros y IN; apply IC; right; auto].
        rewrite Forall_forall in *. intros y IN F1 E1. apply A.
        + apply in_app_or in IN as [IN|[<-|[]]]; apply in_or_app; [left|right; left]; auto.
        + assert (INx : In x l) by (apply IC; left; auto).
          rewrite FIN, <- FIN1; auto. apply in_or_app. auto. }
    eapply Y; [apply incl_refl|exact SW]. }
  destruct (order_written env real own h fuel l g (world st) w1 G s w2) as (G2 & E2 & IM & _ & ME); auto.
  - intros f IN. apply PR, in_or_app. auto.
  - clear - NDl NIg. induction l as [|x l IH]; cbn [app]; [constructor; [intros []|constructor]|].
    inversion NDl; subst. constructor; [|apply IH; auto; intros IN; apply NIg; right; auto].
    intros IN. apply in_app_or in IN as [IN|[<-|[]]]; auto. apply NIg. left. auto.
  - exists G2, s, w2, hd, fmtd. split; [rewrite FIN by (apply in_or_app; right; left; auto); exact E2|]. split; [exact FS|].
    split; [exact TR|]. split; [exact IM|exact ME].
Qed.
End Write.

(** ** Deciding it on a concrete world *)
Section Check.
Context {TD : Type}.
Variable w : World TD.
Lemma shared_is_mentioned f g r : shared_mentions w f g r -> file_mentions w g r.
Proof.
  intros [(x & _ & P & M)|(a & _ & (cb & b & fm & P & B & IN) & (l & y & z & E & INy & R & M))].
  - destruct x as [i|i|i|i|i|i|i]; cbn [item_mentions] in M; try contradiction.
    + destruct M as (v & E & M). eapply fm_const; eauto. + destruct M as (v & E & M). eapply fm_var; eauto.
    + destruct M as (v & E & M). eapply fm_type; eauto. + destruct M as (v & E & M). eapply fm_field; eauto.
    + destruct M as [(c & s & q & E & M)|(c & m & s & q & E & M)]; [eapply fm_embed|eapply fm_method]; eauto.
    + destruct M as (v & E & M). eapply fm_func; eauto.
  - apply In_nth_error in IN as (n & EN). apply In_nth_error in INy as (k & EK). eapply (fm_arg w g r cb n k); eauto.
    unfold argument. rewrite B. cbn [obind]. rewrite EN. cbn [obind]. rewrite E. exact EK.
Qed.
Definition no_go_package (a : Arg) : bool := match a with AGoPackage _ => false | _ => true end.
Definition kept_well (real : string -> string) (i : Imports) (r : string * string) : bool :=
  match prefix_name i (fst r) with Some n => well_named real (fst r, n) | None => true end.
Lemma shares_check real f g own h i : i = run h (NewImportsFor own) -> forallb (forallb no_go_package) (argss w) = true ->
  forallb (kept_well real i) (all_mentions w) = true -> shares_well real w f g i.
Proof.
  intros -> A B. split.
  - intros a l p _ _ E IN. rewrite forallb_forall in A. specialize (A l (nth_error_In _ _ E)). rewrite forallb_forall in A.
    specialize (A _ IN). discriminate.
  - intros path n name M K. apply shared_is_mentioned in M. apply mentions_all in M. rewrite forallb_forall in B. specialize (B _ M).
    unfold keeps_name in K. apply PrefixForPackage_iff in K; [|apply run_new_Inv]. destruct K as (m & P & EQ). cbn [ImportPath PkgName] in *.
    unfold kept_well in B. cbn [fst] in B. rewrite P in B. apply well_named_ok.
    assert (EN : name = m); [|subst; exact B]. unfold with_dot in EQ.
    destruct (String.eqb_spec name "") as [->|NN], (String.eqb_spec m "") as [->|NM]; auto.
    + destruct m; [congruence|discriminate]. + destruct name; [congruence|discriminate].
    + apply append_inj_r in EQ. auto.
Qed.
End Check.
