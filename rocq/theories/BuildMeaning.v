(** From the description of a file to the text that is written. *)
From Verif Require Import Base BaseFacts GoPath Types SpecTypes TypesFacts Imports SpecImports SpecGo SpecRender World SpecWorld
  SpecFile SpecDecl SpecQualify WorldProofs DeclText DeclTheorems FileTheorems SourceTheorems MeaningProofs QualifyExamples SpecBuild BuildProofs BuildTypes BuildFiles.

Lemma all2_in {A B} (R : A -> B -> Prop) m : forall l a, all2 R l m -> In a l -> exists b, In b m /\ R a b.
Proof.
  induction m as [|b m IH]; intros [|a' l] a; cbn; try tauto; try discriminate.
  intros [H K] [<-|I]; eauto. destruct (IH _ _ K I) as (x & J & X). eauto.
Qed.
Lemma Forall2_in {A B} (R : A -> B -> Prop) l m a : Forall2 R l m -> In a l -> exists b, In b m /\ R a b.
Proof. induction 1 as [|x y l m H F IH]; cbn; [tauto|]. intros [<-|I]; eauto. destruct (IH I) as (b & J & X); eauto. Qed.
Lemma Forall2_in_r {A B} (R : A -> B -> Prop) l m b : Forall2 R l m -> In b m -> exists a, In a l /\ R a b.
Proof. induction 1 as [|x y l m H F IH]; cbn; [tauto|]. intros [<-|I]; eauto. destruct (IH I) as (a & J & X); eauto. Qed.
Lemma lookup_in {A} (t : list A) ids : forall l i, lookup_all t ids = Some l -> In i ids -> exists x, nth_error t i = Some x /\ In x l.
Proof.
  unfold lookup_all. induction ids as [|j ids IH]; intros l i; cbn; [tauto|].
  destruct (nth_error t j) as [x|] eqn:N; [|discriminate]. cbn.
  destruct (all_some (map (nth_error t) ids)) as [r|] eqn:L; [|discriminate]. intros [= <-] [<-|I].
  - exists x. cbn; auto.
  - destruct (IH _ _ eq_refl I) as (y & N' & J). exists y. cbn; auto.
Qed.
Lemma incl_flat {A B} (f : A -> list B) x l : In x l -> incl (f x) (flat_map f l).
Proof. intros I y J. apply in_flat_map. eauto. Qed.

(** Code plays no part in what is mentioned. *)
Lemma vmap_symbols {C D} (g : C -> D) v : vdesc_symbols (vmap g v) = vdesc_symbols v. Proof. reflexivity. Qed.
Lemma flat_map_map {A B C} (f : B -> list C) (g : A -> B) l : flat_map f (map g l) = flat_map (fun a => f (g a)) l.
Proof. induction l; cbn; f_equal; auto. Qed.
Lemma emap_symbols {C D} (g : C -> D) e : edesc_symbols (emap g e) = edesc_symbols e.
Proof. destruct e; cbn; auto; rewrite <- ?map_app, ?flat_map_map; reflexivity. Qed.
Lemma fmap_symbols {C D} (g : C -> D) d : filedesc_symbols (fmap g d) = filedesc_symbols d.
Proof. unfold filedesc_symbols. cbn. rewrite flat_map_map. apply flat_map_ext. intros e. apply emap_symbols. Qed.
Lemma same_symbols {C D} (a : filedesc C) (b : filedesc D) : same_but_code a b -> filedesc_symbols a = filedesc_symbols b.
Proof. intros S. rewrite <- (fmap_symbols (fun _ => tt) a), S. apply fmap_symbols. Qed.
Lemma emap_depth {C D} (g : C -> D) e : edesc_depth (emap g e) = edesc_depth e. Proof. destruct e; reflexivity. Qed.
Lemma fmap_depth {C D} (g : C -> D) d : filedesc_depth (fmap g d) = filedesc_depth d.
Proof. unfold filedesc_depth. cbn. rewrite map_map. f_equal. apply map_ext. intros e. apply emap_depth. Qed.
Lemma same_depth {C D} (a : filedesc C) (b : filedesc D) : same_but_code a b -> filedesc_depth a = filedesc_depth b.
Proof. intros S. rewrite <- (fmap_depth (fun _ => tt) a), S. apply fmap_depth. Qed.

Section Members.
Context {TD : Type}.
Notation World := (World TD).
Variable w : World.
Variables (Syms : list Symbol) (Codes : list nat).
Definition idesc_symbols (e : idesc) : list Symbol :=
  match e with IEmbed _ s => [s] | IMethod _ _ a r v => sig_symbols (sig_of a r v) end.
Definition value_member (tab : list ValueSpec) (i : nat) : Prop :=
  exists V v, nth_error tab i = Some V /\ value_is w V v /\ incl (vdesc_symbols v) Syms /\ incl (vcodes v) Codes.
Definition described (x : SpecQualify.item) : Prop :=
  match x with
  | IConst i => value_member (consts w) i
  | IVar i => value_member (vars w) i
  | IType i => exists T t, nth_error (types w) i = Some T /\ contents w T t /\ incl (symbols_of (type_of t)) Syms
  | IField i => exists F, nth_error (fields w) i = Some F /\
      (FSType F = NoType \/ exists t, typed w (FSType F) t /\ incl (symbols_of (type_of t)) Syms)
  | IElem i => exists e, elem_is w i e /\ incl (idesc_symbols e) Syms
  | IFunc i => exists F, nth_error (funcs w) i = Some F /\ incl (sig_symbols (FNSig F)) Syms /\ In (FNBody F) Codes
  | IBlock cb => In cb Codes
  end.
Lemma values_member f tab D c vs i : values_are f w tab D c vs -> In i (VDSpecs D) ->
  incl (flat_map vdesc_symbols vs) Syms -> incl (flat_map vcodes vs) Codes -> value_member tab i.
Proof.
  intros (_ & Vs & L & F) I S C. destruct (lookup_in _ _ _ _ L I) as (V & N & J).
  destruct (Forall2_in _ _ _ _ F J) as (v & K & VI & _). exists V, v. split; [exact N|]. split; [exact VI|].
  split; (eapply incl_tran; [apply (incl_flat _ _ _ K)|]; assumption).
Qed.
Lemma types_member f D c ts i : types_are f w D c ts -> In i (TDTypes D) -> incl (flat_map tsdesc_symbols ts) Syms -> described (IType i).
Proof.
  intros (_ & Ts & L & F) I S. destruct (lookup_in _ _ _ _ L I) as (T & N & J).
  destruct (Forall2_in _ _ _ _ F J) as (t & K & (_ & _ & _ & C) & _). exists T, (body_type (tsBody t)). split; [exact N|].
  split; [exact C|]. eapply incl_tran; [apply (incl_flat tsdesc_symbols _ _ K)|exact S].
Qed.
Lemma typed_spec t ts : typed w (IsSpec ts) t -> incl (symbols_of (type_of t)) Syms -> described (IType ts).
Proof.
  destruct t as [n|fs|es|t]; cbn [typed]; [discriminate|..]; intros (i & T & [= <-] & N & _ & C) S; exists T; eauto.
Qed.
Lemma methods_symbols es e : In e es -> incl (idesc_symbols e) (symbols_of (TInterface (methods_of es) (embeds_of es))).
Proof.
  intros I x J. cbn [symbols_of]. apply in_or_app. destruct e as [c s|c n a r v]; cbn [idesc_symbols] in J.
  - left. unfold embeds_of. apply in_flat_map. exists (IEmbed c s). auto.
  - right. apply in_flat_map. exists (mkMethod n (sig_of a r v)). split; [|exact J].
    unfold methods_of. apply in_flat_map. exists (IMethod c n a r v). cbn; auto.
Qed.
Lemma sig_of_pairs s : sig_of (map (fun a => (ArgName a, ArgTy a)) (Args s)) (map (fun a => (ArgName a, ArgTy a)) (Results s)) (IsVariadic s) = s.
Proof.
  destruct s as [a r v]. unfold sig_of. cbn. rewrite !map_map. f_equal; rewrite <- map_id; apply map_ext; intros []; reflexivity.
Qed.
Lemma contents_field t : forall T fid, contents w T t -> In fid (TSStruct T) -> incl (symbols_of (type_of t)) Syms -> described (IField fid).
Proof.
  induction t as [n|fs _|es|t IH] using tdesc_induction; intros T fid C I S.
  - destruct C as [_ C]. cbn [type_of] in S. unfold name_contents in C.
    destruct n; try (destruct C as [C _]; rewrite C in I; destruct I).
    destruct C as [_ C]. destruct (all2_in _ _ _ _ C I) as (f & J & F & N & _ & _ & _ & Y). exists F. split; [exact N|].
    destruct f as [fn ft tag]. cbn [FldType] in Y. destruct ft; auto; right;
    (match type of Y with _ = IsName ?n => exists (DName n) end); (split; [exact Y|]);
    (eapply incl_tran; [|exact S]); intros x X; cbn [symbols_of]; apply in_flat_map; eexists; (split; [exact J|exact X]).
  - apply contents_struct in C as (_ & _ & C). destruct (all2_in _ _ _ _ C I) as ([[[c n] tag] t] & J & F & N & _ & _ & _ & Y).
    exists F. split; [exact N|]. right. exists t. split; [exact Y|]. eapply incl_tran; [|exact S].
    intros x X. cbn [type_of symbols_of]. apply in_flat_map. exists (mkField n (type_of t) tag). split; [|exact X].
    apply in_map_iff. exists (c, n, tag, t). auto.
  - destruct C as (_ & C & _). rewrite C in I. destruct I.
  - apply (IH T); auto. apply C.
Qed.
Lemma contents_elem t : forall T e, contents w T t -> In e (TSInterface T) -> incl (symbols_of (type_of t)) Syms -> described (IElem e).
Proof.
  induction t as [n|fs _|es|t IH] using tdesc_induction; intros T e C I S.
  - destruct C as [_ C]. cbn [type_of] in S. unfold name_contents in C.
    destruct n; try (destruct C as [_ C]; rewrite C in I; destruct I); [destruct C as [C _]; rewrite C in I; destruct I|].
    destruct C as [_ C]. destruct (all2_in _ _ _ _ C I) as (x & J & X). exists x. split; [exact X|].
    eapply incl_tran; [|exact S]. intros y Y. cbn [symbols_of]. apply in_or_app. apply in_app_or in J as [J|J].
    + apply in_map_iff in J as (s & <- & J). cbn in Y. destruct Y as [<-|[]]. auto.
    + apply in_map_iff in J as (m & <- & J). cbn [idesc_symbols] in Y. rewrite sig_of_pairs in Y. right. apply in_flat_map.
      exists m. split; [exact J|]. destruct m; exact Y.
  - apply contents_struct in C as (_ & C & _). rewrite C in I. destruct I.
  - destruct C as (_ & _ & C). destruct (all2_in _ _ _ _ C I) as (x & J & X). exists x. split; [exact X|].
    eapply incl_tran; [|exact S]. cbn [type_of]. apply methods_symbols; auto.
  - apply (IH T); auto. apply C.
Qed.
Lemma all_described f d : file_is w f d -> incl (filedesc_symbols d) Syms -> incl (codes d) Codes -> forall x, part_of w f x -> described x.
Proof.
  intros (F0 & N0 & _ & _ & _ & _ & _ & _ & _ & E) S C.
  assert (El : forall F e, nth_error (files w) f = Some F -> In e (FElements F) ->
     exists e', element_is f w e e' /\ incl (edesc_symbols e') Syms /\ incl (ecodes e') Codes).
  { intros F e N I. assert (F = F0) by congruence; subst F. destruct (Forall2_in _ _ _ _ E I) as (e' & J & X).
    exists e'. split; [exact X|]. split; (eapply incl_tran; [|eassumption]); [apply (incl_flat edesc_symbols)|apply (incl_flat ecodes)]; auto. }
  induction 1 as [F d' D i N I NI II|F d' D i N I NI II|F d' D i N I NI II|F i N I
    |i v ts P IH N V|i v ts P IH N V|i T fid P IH N I|i F ts P IH N V|i T e P IH N I|i v cb P IH N V|i v cb P IH N V|i F P IH N].
  - destruct (El _ _ N I) as (e' & X & S' & C'). cbn in X. destruct X as (D' & ND & X). assert (D' = D) by congruence; subst D'.
    destruct e'; try destruct X; (eapply values_member; [split; eassumption|eassumption|..]); cbn; rewrite ?app_nil_r; auto.
  - destruct (El _ _ N I) as (e' & X & S' & C'). cbn in X. destruct X as (D' & ND & X). assert (D' = D) by congruence; subst D'.
    destruct e'; try destruct X; (eapply values_member; [split; eassumption|eassumption|..]); cbn; rewrite ?app_nil_r; auto.
  - destruct (El _ _ N I) as (e' & X & S' & C'). cbn in X. destruct X as (D' & ND & X). assert (D' = D) by congruence; subst D'.
    destruct e'; try destruct X; (eapply types_member; [split; eassumption|eassumption|..]); cbn; rewrite ?app_nil_r; auto.
  - destruct (El _ _ N I) as (e' & X & S' & C'). cbn in X. destruct X as (D' & ND & X).
    destruct e'; try destruct X as [(_ & _ & _ & X1 & X2) _]; try destruct X.
    exists D'. split; [exact ND|]. rewrite X1, X2. split; [exact S'|]. apply C'. cbn; auto.
  - destruct IH as (V' & v' & N' & VI & S' & C'). assert (V' = v) by congruence; subst V'.
    destruct VI as (_ & _ & _ & VI). unfold vdesc_symbols in S'. destruct (vType v'); [|congruence].
    rewrite V in VI. eapply typed_spec; eauto.
  - destruct IH as (V' & v' & N' & VI & S' & C'). assert (V' = v) by congruence; subst V'.
    destruct VI as (_ & _ & _ & VI). unfold vdesc_symbols in S'. destruct (vType v'); [|congruence].
    rewrite V in VI. eapply typed_spec; eauto.
  - destruct IH as (T' & t & N' & CT & S'). assert (T' = T) by congruence; subst T'. eapply contents_field; eauto.
  - destruct IH as (F' & N' & [Y|(t & Y & S')]); assert (F' = F) by congruence; subst F'; [congruence|].
    rewrite V in Y. eapply typed_spec; eauto.
  - destruct IH as (T' & t & N' & CT & S'). assert (T' = T) by congruence; subst T'. eapply contents_elem; eauto.
  - destruct IH as (V' & v' & N' & VI & S' & C'). assert (V' = v) by congruence; subst V'.
    destruct VI as (_ & _ & VI & _). cbn. apply C'. unfold vcodes. rewrite <- VI, V. cbn; auto.
  - destruct IH as (V' & v' & N' & VI & S' & C'). assert (V' = v) by congruence; subst V'.
    destruct VI as (_ & _ & VI & _). cbn. apply C'. unfold vcodes. rewrite <- VI, V. cbn; auto.
  - destruct IH as (F' & N' & _ & B). assert (F' = F) by congruence; subst F'. exact B.
Qed.
End Members.

Section Means.
Context {TD : Type}.
Notation World := (World TD).
Notation parts := (list (list (part TD))).
Implicit Types w : World.

Lemma sym_requests_incl a b r : incl a b -> In r (sym_requests a) -> In r (sym_requests b).
Proof.
  unfold sym_requests. intros S. rewrite !in_map_iff. intros (s & E & I). apply filter_In in I as [I J].
  exists s. split; [exact E|]. apply filter_In. auto.
Qed.
Lemma typed_mentions w Syms x t r : typed w x t -> incl (symbols_of (type_of t)) Syms -> In r (tos_packages x) -> In r (sym_requests Syms).
Proof.
  destruct t; cbn [typed]; [intros -> S; cbn; apply sym_requests_incl; exact S|..];
  intros (i & T & -> & _) _ [].
Qed.
Lemma block_parts w (m : parts) cb b ps : represents w m -> nth_error (blocks w) cb = Some b -> nth_error m cb = Some ps ->
  Forall2 (element_part w) b ps.
Proof.
  unfold represents. generalize (element_part w) as R. intros R F. revert cb.
  induction F as [|x y l l' H F IH]; intros [|cb]; cbn; try discriminate; [intros [= <-] [= <-]; exact H|apply IH].
Qed.
Lemma Forall2_nth_l {A B} (R : A -> B -> Prop) l m : Forall2 R l m -> forall i a, nth_error l i = Some a -> exists b, In b m /\ R a b.
Proof. intros F i a N. apply nth_error_In in N. eapply Forall2_in; eauto. Qed.

Variables (w : World) (m : parts) (f : nat) (d : filedesc (list (chunk TD))) (d' : filedesc nat).
Hypothesis R : represents w m.
Hypothesis FI : file_is w f d'.
Hypothesis BI : Forall2 (block_is m) (codes d) (codes d').
Hypothesis SB : same_but_code d d'.
Lemma member x : part_of w f x -> described w (filedesc_symbols d) (codes d') x.
Proof. apply all_described with (d := d'); auto; [rewrite (same_symbols _ _ SB)|]; apply incl_refl. Qed.
Lemma built_mentions r : file_mentions w f r ->
  In r (sym_requests (filedesc_symbols d)) \/ exists x, code_mentions w d x /\ In r (packages_of x).
Proof.
  intros [i v P E M|i v P E M|i T P E M|i F P E M|i c s p P E M|i c n s p P E M|i F P E M|cb n k a x P E RF M]; apply member in P.
  - left. destruct P as (V & v' & N & VI & S & _). assert (V = v) by congruence; subst V. destruct VI as (_ & _ & _ & VI).
    unfold vdesc_symbols in S. destruct (vType v'); [eapply typed_mentions; eauto|rewrite VI in M; destruct M].
  - left. destruct P as (V & v' & N & VI & S & _). assert (V = v) by congruence; subst V. destruct VI as (_ & _ & _ & VI).
    unfold vdesc_symbols in S. destruct (vType v'); [eapply typed_mentions; eauto|rewrite VI in M; destruct M].
  - left. destruct P as (T' & t & N & C & S). assert (T' = T) by congruence; subst T'.
    rewrite (contents_underlying _ _ _ C) in M. eapply sym_requests_incl; eauto.
  - left. destruct P as (F' & N & P). assert (F' = F) by congruence; subst F'.
    destruct P as [P|(t & Y & S)]; [rewrite P in M; destruct M|eapply typed_mentions; eauto].
  - left. destruct P as (e & (p' & N) & S). rewrite E in N. destruct e; [|discriminate]. injection N as <- <- <-.
    eapply sym_requests_incl; eauto.
  - left. destruct P as (e & (p' & N) & S). rewrite E in N. destruct e; [discriminate|]. injection N as <- <- -> <-.
    eapply sym_requests_incl; eauto.
  - left. destruct P as (F' & N & S & _). assert (F' = F) by congruence; subst F'. eapply sym_requests_incl; eauto.
  - right. exists x. split; [|exact M]. cbn in P. destruct (Forall2_in_r _ _ _ _ BI P) as (l & I & B).
    unfold argument in E. destruct (nth_error (blocks w) cb) as [b|] eqn:NB; [|discriminate]. cbn [obind] in E.
    destruct (nth_error b n) as [e|] eqn:NE; [|discriminate]. cbn [obind] in E. destruct e as [fm args|t]; [|discriminate].
    destruct (nth_error (argss w) args) as [l0|] eqn:NA; [|discriminate]. cbn [obind] in E.
    destruct (Forall2_nth_l _ _ _ (block_parts w m cb b _ R NB B) _ _ NE) as (p & J & EP).
    destruct p as [fm' args'|]; [|destruct EP]. destruct EP as [-> NA']. assert (args' = l0) by congruence; subst args'.
    exists l, fm, l0, a. split; [exact I|]. split; [exact J|]. split; [eapply nth_error_In; eauto|exact RF].
Qed.
Lemma typed_undeclared x t : typed w x t -> undeclared w x.
Proof.
  intros Y id T -> N. left. destruct t; cbn [typed] in Y; [discriminate|..]; destruct Y as (i & T' & [= <-] & N' & E & _); congruence.
Qed.
Lemma built_unnamed : no_named_specs w f.
Proof.
  split; [|split]; intros i v P E; apply member in P.
  - destruct P as (V & v' & N & VI & _). assert (V = v) by congruence; subst V. destruct VI as (_ & _ & _ & VI).
    destruct (vType v'); [eapply typed_undeclared; eauto|]. rewrite VI. intros id T X; discriminate.
  - destruct P as (V & v' & N & VI & _). assert (V = v) by congruence; subst V. destruct VI as (_ & _ & _ & VI).
    destruct (vType v'); [eapply typed_undeclared; eauto|]. rewrite VI. intros id T X; discriminate.
  - destruct P as (F' & N & P). assert (F' = v) by congruence; subst F'.
    destruct P as [P|(t & Y & S)]; [rewrite P; intros id T X; discriminate|eapply typed_undeclared; eauto].
Qed.
Lemma built_no_templates : no_template_code d -> no_templates w f.
Proof.
  intros H cb b t P NB I. apply member in P. cbn in P. destruct (Forall2_in_r _ _ _ _ BI P) as (l & J & B).
  destruct (Forall2_in _ _ _ _ (block_parts w m cb b _ R NB B) I) as (p & K & EP).
  destruct p as [|tm data]; [destruct EP|]. eapply H; eauto.
Qed.
End Means.

(** ** The whole way *)
Section Whole.
Context {TD : Type}.
Implicit Types w : World TD.
Lemma built_as_described (d : filedesc (list (chunk TD))) w m : represents w m -> go_name (fdName d) ->
  exists d' w' m', build_file d w = (Ok (List.length (files w), d'), w') /\
    file_is w' (List.length (files w)) d' /\ same_but_code d d' /\
    represents w' m' /\ Forall2 (block_is m') (codes d) (codes d') /\
    pre (files w) (files w') /\ grown w w' /\ pre m m'.
Proof.
  intros R GN. destruct (build_file_ok d w m R GN) as (d' & w1 & m1 & H). exists d', w1, m1. tauto.
Qed.
Lemma built_file_means (env : Env TD) real fuel d w m :
  represents w m -> go_name (fdName d) -> no_template_code d ->
  exists d' w1, build_file d w = (Ok (List.length (files w), d'), w1) /\ same_but_code d d' /\
    forall s w2 g0, source env fuel (List.length (files w)) w1 = (Ok s, w2) ->
    (forall r, In r (sym_requests (filedesc_symbols d)) -> right_name real r /\ usable_name r) ->
    (forall x r, code_mentions w1 d x -> In r (packages_of x) -> right_name real r /\ usable_name r) ->
    filedesc_depth d <= fuel ->
    filedesc_meaning (path_qualifier (fdPath d)) (block_text env w2) d' = Some g0 ->
    exists g, parse_file s = Some g /\ resolve_file real g = Some (mkGFile (GPackage g0) (GImports g) (GDecls g0)).
Proof.
  intros R GN NT. destruct (build_file_ok d w m R GN) as (d' & w1 & m1 & E & _ & _ & R1 & _ & FI & BI & SB & IM).
  exists d', w1. split; [exact E|]. split; [exact SB|]. intros s w2 g0 SR G1 G2 D M.
  assert (FI' := FI). destruct FI' as (F & NF & _).
  assert (P : prepared real (fdPath d) [] w1 (List.length (files w)) F).
  { split; [exact NF|]. split; [exact (IM F NF)|]. split; [reflexivity|]. split; [intros c []|]. split; [intros c []|].
    split; [eapply built_no_templates; eauto|]. intros r FM.
    destruct (built_mentions w1 m1 _ d d' R1 FI BI SB r FM) as [I|(x & CM & I)]; eauto. }
  rewrite (same_depth _ _ SB) in D.
  destruct (prepared_means env real _ _ fuel _ w1 F s w2 P SR g0 (built_unnamed w1 _ d d' FI SB)
     (file_is_meaning _ _ w1 _ d' fuel g0 F FI NF D M)) as (F1 & g & _ & PG & _ & RG).
  exists g. auto.
Qed.
End Whole.
