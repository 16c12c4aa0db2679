(** Proofs about the use of imports in code: C100. *)
From Coq Require Import Lia.
From Verif Require Import Base BaseFacts GoPath Types SpecTypes TypesFacts Imports SpecImports ImportsProofs ImportsTheorems ImportsExact SpecGo SpecRender Conv World SpecWorld WorldProofs
  SpecFile SpecDecl SpecQualify QualifyProofs QualifyTheorems FileTheorems SourceTheorems QualifyExamples SpecBuild BuildProofs BuildTypes BuildFiles
  BuildMeaning SpecTotal SpecFormat FormatProofs SpecScope ScopeProofs ScopeBuild UseProofs CodeTokens SpecCode CodeProofs.

Lemma filled_use real own H its ts : fills (strong real own H) its ts ->
  forall d r pk, selects d its = true -> In (Ref r) its -> In pk (packages_of r) -> fst pk <> own ->
  exists q, refers real own (ImportSpecs (run H (NewImportsFor own))) q (fst pk) /\ q <> "" /\ In q (selected d ts).
Proof.
  induction 1 as [|t l ts F IH|n z l ts D F IH|x us l ts [[RT CL] ST] F IH]; intros d r pk SE IN IP NO.
  - contradiction IN.
  - destruct IN as [IN|IN]; [discriminate|]. cbn [selects] in SE. destruct (IH _ _ _ SE IN IP NO) as (q & A & B & C).
    exists q. split; [exact A|]. split; [exact B|]. apply selected_cons, C.
  - destruct IN as [IN|IN]; [discriminate|]. cbn [selects] in SE. destruct (IH _ _ _ SE IN IP NO) as (q & A & B & C).
    exists q. split; [exact A|]. split; [exact B|]. apply selected_cons, C.
  - cbn [selects] in SE. apply andb_true_iff in SE as [SE SR]. apply andb_true_iff in SE as [SD SP]. apply negb_true_iff in SD. subst d.
    destruct IN as [IN|IN].
    + injection IN as ->. cbn [ref_tokens] in RT.
      assert (NAME : forall s us, name_tokens real own (ImportSpecs (run H (NewImportsFor own))) s us -> In pk (sym_requests [s]) ->
        exists q, refers real own (ImportSpecs (run H (NewImportsFor own))) q (fst pk) /\ q <> "" /\ shows q us).
      { intros s us' NT I. unfold sym_requests in I. cbn in I. destruct (has_package s) eqn:HP; [|destruct I]. destruct I as [<-|[]].
        unfold name_tokens in NT. rewrite HP in NT. destruct NT as (q & R & ->). exists q. split; [exact R|]. cbn [fst] in NO.
        assert (NE : q <> "") by (intros ->; unfold refers in R; cbn in R; contradiction). split; [exact NE|].
        destruct (String.eqb_spec q ""); [contradiction|]. left. reflexivity. }
      destruct r as [p|s|s m|t|sg]; cbn [packages_of] in IP.
      * destruct IP as [<-|[]]. destruct RT as (q & R & NE & ->). exists q. split; [exact R|]. split; [exact NE|].
        destruct l as [|[t| |] l]; try discriminate. inversion F; subst. cbn [app selected].
        destruct t; try discriminate. cbn [is_op] in SP. rewrite SP. left. reflexivity.
      * destruct (NAME s us RT IP) as (q & A & B & C). exists q. split; auto. split; auto. apply selected_left, C.
      * destruct RT as (vs & RT & ->). destruct (NAME s vs RT IP) as (q & A & B & C). exists q. split; auto. split; auto. apply selected_left, selected_left, C.
      * unfold sym_requests in IP. apply in_map_iff in IP as (y & <- & IY). apply filter_In in IY as [IY HP]. cbn [fst] in *.
        destruct (ST y IY HP NO) as (q & A & B & C). exists q. split; auto. split; auto. apply selected_left, C.
      * destruct RT.
    + destruct (IH _ _ _ SR IN IP NO) as (q & A & B & C). exists q. split; auto. split; auto. apply selected_right. rewrite closed_not_dotted; auto.
Qed.
(** Every argument is an item. *)
Lemma items_ref {TD} own (w : World TD) l v a r : forall s its, items own w s l = Some its -> In (Put v a) l -> refers_to w a = Some r -> In (Ref r) its.
Proof.
  induction l as [|p l IH]; intros s its E IN RF; [destruct IN|].
  assert (TX : forall x, p <> Put v a -> text_items s x (fun s' => items own w s' l) = Some its -> In (Ref r) its).
  { intros x N TI. destruct IN as [->|IN]; [contradiction|]. unfold text_items in TI. destruct (scan s x) as [[ts s']|]; [|discriminate]. cbn [obind] in TI.
    destruct (items own w s' l) as [i|] eqn:EI; [|discriminate]. injection TI as <-. apply in_or_app. right. eauto. }
  assert (MID : forall (k : list token -> list item) , (p = Put v a -> forall ts, In (Ref r) (k ts)) ->
    obind (pending s) (fun ts => option_map (app (k ts)) (items own w (FCode LStart true) l)) = Some its -> In (Ref r) its).
  { intros k K X. destruct (pending s) as [ts|]; [|discriminate]. cbn [obind] in X. destruct (items own w (FCode LStart true) l) as [i|] eqn:EI; [|discriminate].
    injection X as <-. apply in_or_app. destruct IN as [->|IN]; [left; auto|right; eauto]. }
  destruct p as [x|v' a']; cbn [items] in E; [apply (TX x); [discriminate|exact E]|].
  assert (GEN : obind (refers_to w a') (fun x => if by_text v' && readable own a' x && (at_start s || starts_word x) && next ends_word l
      then obind (pending s) (fun ts => option_map (app (map Tok ts ++ [Ref x])) (items own w (FCode LStart true) l)) else None) = Some its -> In (Ref r) its).
  { intros X. destruct (refers_to w a') as [x|] eqn:RX; [|discriminate]. cbn [obind] in X. destruct (_ && _) in X; [|discriminate].
    eapply (MID (fun ts => map Tok ts ++ [Ref x])); [|exact X]. intros [= <- <-] ts. rewrite RF in RX. injection RX as <-. apply in_or_app. right. left. auto. }
  destruct a'; try (exact (GEN E)).
  - assert (N : Put v' (AString s0) <> Put v a) by (intros [= _ <-]; discriminate RF).
    destruct (by_text v'); [eapply TX; eauto|]. destruct (Ascii.eqb v' "q"); [|discriminate].
    eapply (MID (fun ts => map Tok (ts ++ [TStr s0]))); [intros X; contradiction|exact E].
  - assert (N : Put v' (AInt z) <> Put v a) by (intros [= _ <-]; discriminate RF).
    destruct (_ && _) in E; [|discriminate]. destruct (0 <=? z)%Z; [eapply (MID (fun ts => map Tok ts ++ [Num z])); [intros X; contradiction|exact E]|].
    destruct IN as [IN|IN]; [contradiction|]. destruct (scan s "-") as [[ts s']|]; [|discriminate]. cbn [obind] in E.
    destruct (pending s') as [us|]; [|discriminate]. cbn [obind] in E. destruct (items own w (FCode LStart true) l) as [i|] eqn:EI; [|discriminate].
    injection E as <-. apply in_or_app. right. eauto.
Qed.

(** ** From descriptions to code *)
Lemma flat_map_map {A B C} (g : B -> C) (f : A -> list B) l : map g (flat_map f l) = flat_map (fun x => map g (f x)) l.
Proof. induction l; cbn; [reflexivity|]. rewrite map_app. congruence. Qed.
Lemma vended_codes {C} (v : vdesc C) : map fst (vended v) = vcodes v.
Proof. unfold vended, vcodes. destruct (vInit v); reflexivity. Qed.
Lemma ended_codes {C} (d : filedesc C) : map fst (ended d) = codes d.
Proof.
  unfold ended, codes. rewrite flat_map_map. apply flat_map_ext. intros [c l m|v|c l m|v|c l m|t|f]; cbn [eended ecodes map]; auto;
    try apply vended_codes; rewrite flat_map_map; apply flat_map_ext; intros; apply vended_codes.
Qed.
Lemma vmap_ends {C D} (g : C -> D) (v : vdesc C) : map snd (vended (vmap g v)) = map snd (vended v).
Proof. unfold vended. cbn. destruct (vInit v); reflexivity. Qed.
Lemma vmaps_ends {C D} (g : C -> D) (l : list (vdesc C)) : map snd (flat_map vended (map (vmap g) l)) = map snd (flat_map vended l).
Proof. induction l; cbn [map flat_map]; [reflexivity|]. rewrite !map_app, vmap_ends. congruence. Qed.
Lemma fmap_ends {C D} (g : C -> D) (d : filedesc C) : map snd (ended (fmap g d)) = map snd (ended d).
Proof.
  unfold ended. cbn [fmap fdElements]. induction (fdElements d) as [|e l IH]; cbn [map flat_map]; [reflexivity|]. rewrite !map_app, IH. f_equal.
  destruct e; cbn [emap eended]; auto; try apply vmap_ends; rewrite <- map_app; apply vmaps_ends.
Qed.
Lemma same_ends {C D} (d : filedesc C) (d' : filedesc D) : same_but_code d d' -> map snd (ended d) = map snd (ended d').
Proof. intros S. rewrite <- (fmap_ends (fun _ => tt) d), <- (fmap_ends (fun _ => tt) d'). f_equal. f_equal. exact S. Qed.
Lemma Forall2_ends {A B C} (R : A -> B -> Prop) (l : list (A * C)) : forall m : list (B * C),
  Forall2 R (map fst l) (map fst m) -> map snd l = map snd m -> Forall2 (fun x y => R (fst x) (fst y) /\ snd x = snd y) l m.
Proof.
  induction l as [|a l IH]; intros [|b m] F E; cbn in *; inversion F; subst; constructor; [|apply IH; congruence]. split; [assumption|congruence].
Qed.

Section Meaning.
Variable q : Symbol -> option string.
Context {C : Type}.
Variable code : C -> option string.
Definition code_is (c : C * string) (t : list token * list token) : Prop :=
  exists text, code (fst c) = Some text /\ tokens (text ++ snd c) = Some (fst t ++ snd t).
Lemma value_ended b (v : vdesc C) g : vdesc_meaning q code b v = Some g ->
  Forall2 code_is (vended v) (match snd g with Some i => [(i, [TOp ";"])] | None => [] end).
Proof.
  unfold vdesc_meaning, vended. destruct (_ && _); [|discriminate]. destruct (match vType v with Some t => _ | None => _ end) as [t|]; [|discriminate]. cbn [obind].
  destruct (vInit v) as [c|]; cbn [option_map obind].
  - destruct (init_tokens code c) as [i|] eqn:E; [|discriminate]. cbn [option_map obind]. destruct (value_form _ _ _); [|discriminate]. intros [= <-]. cbn [snd].
    constructor; [|constructor]. unfold init_tokens in E. destruct (code c) as [text|] eqn:EC; [|discriminate]. cbn [obind] in E.
    destruct (tokens (text ++ newline)) as [ts|] eqn:ET; [|discriminate]. cbn [obind] in E.
    destruct (until_semi 0 ts) as [[i' [|x [|]]]|] eqn:U; try discriminate. injection E as <-.
    destruct (until_semi_all _ _ _ _ U) as [-> _]. exists text. split; [exact EC|exact ET].
  - destruct (value_form _ _ _); [|discriminate]. intros [= <-]. constructor.
Qed.
Lemma values_ended b (l : list (vdesc C)) : forall gs, all_some (map (vdesc_meaning q code b) l) = Some gs ->
  Forall2 code_is (flat_map vended l) (flat_map (fun v : gvalue => match snd v with Some i => [(i, [TOp ";"])] | None => [] end) gs).
Proof.
  induction l as [|v l IH]; cbn [map all_some flat_map]; intros gs E; [injection E as <-; constructor|].
  destruct (vdesc_meaning q code b v) as [g|] eqn:M; [|discriminate]. cbn [obind] in E. destruct (all_some _) as [r|]; [|discriminate]. injection E as <-.
  cbn [flat_map]. apply Forall2_app; [eapply value_ended; eauto|auto].
Qed.
Lemma element_ended e g : edesc_meaning q code e = Some g -> Forall2 code_is (eended e) (gended g).
Proof.
  destruct e as [c l m|v|c l m|v|c l m|t|f]; cbn [edesc_meaning eended]; unfold group_meaning.
  - destruct (_ || _); [|discriminate]. destruct (all_some _) as [r|] eqn:E; [|discriminate]. intros [= <-]. eapply values_ended, E.
  - destruct (vdesc_meaning _ _ _ v) as [x|] eqn:E; [|discriminate]. intros [= <-]. cbn [gended flat_map]. rewrite app_nil_r. eapply value_ended, E.
  - destruct (_ || _); [|discriminate]. destruct (all_some _) as [r|] eqn:E; [|discriminate]. intros [= <-]. eapply values_ended, E.
  - destruct (vdesc_meaning _ _ _ v) as [x|] eqn:E; [|discriminate]. intros [= <-]. cbn [gended flat_map]. rewrite app_nil_r. eapply value_ended, E.
  - destruct (_ || _); [|discriminate]. destruct (all_some _) as [r|] eqn:E; [|discriminate]. intros [= <-]. constructor.
  - destruct (tsdesc_meaning _ t) as [x|] eqn:E; [|discriminate]. intros [= <-]. constructor.
  - unfold fndesc_meaning. destruct (_ && _); [|discriminate]. destruct (body_tokens code (fnCode f)) as [b|] eqn:E; [|discriminate]. cbn [obind]. intros [= <-].
    cbn [gended]. constructor; [|constructor]. unfold body_tokens in E. destruct (code (fnCode f)) as [text|] eqn:EC; [|discriminate]. cbn [obind] in E.
    destruct (whole_lines text); [|discriminate]. destruct (tokens text) as [ts|] eqn:ET; [|discriminate]. cbn [obind] in E.
    destruct (until_brace 0 _) as [[b' [|]]|] eqn:U; try discriminate. injection E as <-. destruct (until_brace_all _ _ _ U) as [-> _].
    exists text. cbn [fst snd]. rewrite !app_nil_r. split; [exact EC|]. change (text ++ "")%string with (String.append text ""). rewrite append_nil_r. exact ET.
Qed.
Lemma file_ended d g : filedesc_meaning q code d = Some g -> Forall2 code_is (ended d) (flat_map gended (GDecls g)).
Proof.
  unfold filedesc_meaning, ended. destruct (ident (fdPackage d)); [|discriminate].
  destruct (all_some _) as [r|] eqn:E; [|discriminate]. intros [= <-]. cbn [GDecls]. revert r E.
  induction (fdElements d) as [|e l IH]; cbn [map all_some flat_map]; intros r E; [injection E as <-; constructor|].
  destruct (edesc_meaning q code e) as [g|] eqn:M; [|discriminate]. cbn [obind] in E. destruct (all_some _) as [r'|]; [|discriminate]. injection E as <-.
  cbn [flat_map]. apply Forall2_app; [eapply element_ended; eauto|auto].
Qed.
End Meaning.
Lemma resolved_values real specs l : forall l', all_some (map (resolve_value real specs) l) = Some l' -> map snd l = map snd l'.
Proof.
  induction l as [|[[n t] i] l IH]; cbn [map all_some]; intros l' E; [injection E as <-; reflexivity|].
  destruct (resolve_value real specs (n, t, i)) as [v|] eqn:R; [|discriminate]. cbn [obind] in E. destruct (all_some _) as [r|]; [|discriminate]. injection E as <-.
  cbn [map]. rewrite (IH r eq_refl). f_equal. unfold resolve_value in R.
  destruct (resolve_opt real specs t) as [t'|]; [|discriminate]. injection R as <-. reflexivity.
Qed.
Lemma flat_map_snd {A B D} (f : B -> list D) (l l' : list (A * B)) : map snd l = map snd l' ->
  flat_map (fun v => f (snd v)) l = flat_map (fun v => f (snd v)) l'.
Proof. revert l'. induction l as [|a l IH]; intros [|b l'] E; try discriminate; [reflexivity|]. injection E as E1 E2. cbn. rewrite E1, (IH l' E2). reflexivity. Qed.
Lemma resolved_ended real specs d d' : resolve_decl real specs d = Some d' -> gended d = gended d'.
Proof.
  destruct d as [b l|b l|b l|rc n [ps rs] body]; cbn [resolve_decl]; intros E.
  - destruct (all_some _) as [m|] eqn:R; [|discriminate]. injection E as <-. cbn [gended]. apply resolved_values in R.
    exact (flat_map_snd (fun i => match i with Some i => [(i, [TOp ";"])] | None => [] end) _ _ R).
  - destruct (all_some _) as [m|] eqn:R; [|discriminate]. injection E as <-. cbn [gended]. apply resolved_values in R.
    exact (flat_map_snd (fun i => match i with Some i => [(i, [TOp ";"])] | None => [] end) _ _ R).
  - destruct (all_some _) as [m|] eqn:R; [|discriminate]. injection E as <-. reflexivity.
  - destruct (resolve_params real specs ps) as [ps'|]; [|discriminate]. cbn [obind] in E. destruct (resolve_params real specs rs) as [rs'|]; [|discriminate].
    injection E as <-. reflexivity.
Qed.
Lemma resolved_all real specs ds : forall ds', all_some (map (resolve_decl real specs) ds) = Some ds' -> flat_map gended ds = flat_map gended ds'.
Proof.
  induction ds as [|d ds IH]; cbn [map all_some]; intros ds' E; [injection E as <-; reflexivity|].
  destruct (resolve_decl real specs d) as [d'|] eqn:R; [|discriminate]. cbn [obind] in E. destruct (all_some _) as [r|]; [|discriminate]. injection E as <-.
  cbn [flat_map]. rewrite (IH r eq_refl), (resolved_ended _ _ _ _ R). reflexivity.
Qed.
Section World.
Context {TD : Type}.
Implicit Types w : World TD.
Lemma lookup_back {A} (tab : list A) ids : forall l x, lookup_all tab ids = Some l -> In x l -> exists i, In i ids /\ nth_error tab i = Some x.
Proof.
  unfold lookup_all. induction ids as [|i ids IH]; cbn [map all_some]; intros l x E IN; [injection E as <-; destruct IN|].
  destruct (nth_error tab i) as [a|] eqn:N; [|discriminate]. cbn [obind] in E. destruct (all_some _) as [r|]; [|discriminate]. injection E as <-.
  destruct IN as [->|IN]; [exists i; split; [left|]; auto|]. destruct (IH r x eq_refl IN) as (j & J & M). exists j. split; [right|]; auto.
Qed.
Lemma values_blocks f w tab D c vs cb : values_are f w tab D c vs -> In cb (flat_map vcodes vs) ->
  exists i V, In i (VDSpecs D) /\ nth_error tab i = Some V /\ VInit V = Some cb.
Proof.
  intros (_ & Vs & L & F) IN. apply in_flat_map in IN as (v & IV & IC). destruct (Forall2_in_r _ _ _ _ F IV) as (V & J & (VI & _)).
  destruct (lookup_back _ _ _ _ L J) as (i & I & N). exists i, V. split; [exact I|]. split; [exact N|]. destruct VI as (_ & _ & VI & _). rewrite VI.
  unfold vcodes in IC. destruct (vInit v) as [x|]; [destruct IC as [->|[]]; reflexivity|destruct IC].
Qed.
Lemma code_parts w f d cb : file_is w f d -> In cb (codes d) -> part_of w f (IBlock cb).
Proof.
  intros (F & NF & _ & _ & _ & _ & _ & _ & _ & FE) IN. unfold codes in IN. apply in_flat_map in IN as (e & IE & IC).
  destruct (Forall2_in_r _ _ _ _ FE IE) as (el & IL & EL). destruct el as [i|i|i|i]; destruct EL as (D & ND & EL); destruct e; try contradiction; cbn [ecodes] in IC.
  - destruct (values_blocks _ _ _ _ _ _ _ EL IC) as (j & V & A & B & E). eapply po_const_init; eauto. eapply po_const; eauto.
  - rewrite <- (app_nil_r (vcodes v)) in IC. destruct (values_blocks _ _ _ _ _ [v] _ EL IC) as (j & V & A & B & E). eapply po_const_init; eauto. eapply po_const; eauto.
  - destruct (values_blocks _ _ _ _ _ _ _ EL IC) as (j & V & A & B & E). eapply po_var_init; eauto. eapply po_var; eauto.
  - rewrite <- (app_nil_r (vcodes v)) in IC. destruct (values_blocks _ _ _ _ _ [v] _ EL IC) as (j & V & A & B & E). eapply po_var_init; eauto. eapply po_var; eauto.
  - destruct EL as [(_ & _ & _ & _ & B) _]. destruct IC as [<-|[]]. rewrite <- B. eapply po_body; eauto. eapply po_func; eauto.
Qed.
Lemma prints_formatted w m c cb ls : represents w m -> block_is m c cb -> prints c ls -> formatted w cb ls.
Proof.
  intros R B (P & V). unfold block_is in B. destruct (repr_nth w m cb R) as (b & N); [apply nth_error_Some; congruence|].
  exists b. split; [exact N|]. pose proof (block_parts w m cb b _ R N B) as F. rewrite P in F. clear - F V. revert b F.
  induction V as [|l ls V _ IH]; cbn [map]; intros b F; inversion F as [|e p b' ps EP F']; subst; constructor; [|apply IH; assumption].
  destruct e as [fm args|t]; [|destruct EP]. destruct EP as [-> NA]. exists args. auto.
Qed.
Variable env : Env TD.
Lemma built_code real fuel (d : filedesc (list (chunk TD))) w m : represents w m -> go_name (fdName d) -> no_template_code d ->
  exists d' w1, build_file d w = (Ok (List.length (files w), d'), w1) /\ same_but_code d d' /\
    forall s w2 g0, source env fuel (List.length (files w)) w1 = (Ok s, w2) ->
    (forall r, described w1 d r -> right_name real r /\ usable_name r) ->
    filedesc_depth d <= fuel ->
    filedesc_meaning (path_qualifier (fdPath d)) (block_text env w2) d' = Some g0 ->
    exists g H, parse_file s = Some g /\ map import_of (GImports g) = ImportSpecs (run H (NewImportsFor (fdPath d))) /\
      Forall2 (reads_as (fdPath d) w1 (strong real (fdPath d) H)) (ended d) (flat_map gended (GDecls g)).
Proof.
  intros R GN NT. destruct (build_file_ok d w m R GN) as (d' & w1 & m1 & E & _ & _ & R1 & _ & _ & BI & SB & _).
  destruct (built_prepared real d w m R GN NT) as (d2 & w12 & E2 & _ & F & NF & FI & _ & PR). rewrite E in E2. injection E2 as <- <-.
  exists d', w1. split; [exact E|]. split; [exact SB|]. intros s w2 g0 SR G D M. rewrite (same_depth _ _ SB) in D.
  assert (FM := file_is_meaning _ _ w1 _ d' fuel g0 F FI NF D M).
  destruct (prepared_means env real _ _ fuel _ w1 F s w2 (PR G) SR g0 (built_unnamed w1 _ d d' FI SB) FM) as (F1 & g & E1 & PG & IG & RG).
  destruct (blocks_read env real _ _ fuel _ w1 F s w2 (PR G) SR) as (H & F1' & E1' & EI & RD). rewrite E1 in E1'. injection E1' as <-.
  exists g, H. split; [exact PG|]. split; [congruence|].
  unfold resolve_file in RG. destruct (all_some _) as [ds|] eqn:RS; [|discriminate]. injection RG as RG. subst ds. rewrite (resolved_all _ _ _ _ RS).
  pose proof (file_ended _ _ _ _ M) as FE. rewrite <- !ended_codes in BI. pose proof (Forall2_ends _ _ _ BI (same_ends _ _ SB)) as FB.
  assert (PA : forall x, In x (ended d') -> part_of w1 (List.length (files w)) (IBlock (fst x))).
  { intros x IN. eapply code_parts; [exact FI|]. rewrite <- ended_codes. apply in_map, IN. }
  clear - FE FB PA RD R1. revert FE PA. generalize (flat_map gended (GDecls g0)). induction FB as [|[c z] [cb z'] l l' [B Z] _ IH]; intros gs FE PA.
  - inversion FE; subst. constructor.
  - inversion FE as [|? [ts e] ? gs' CI FE']; subst. cbn [fst snd] in *. subst z'. constructor; [|apply IH; [exact FE'|intros x IN; apply PA; right; exact IN]].
    intros ls its PR IT. cbn [fst snd] in *. destruct CI as (text & BT & TK). cbn [fst snd] in *.
    destruct (RD cb ls z its (PA _ (or_introl eq_refl)) (prints_formatted _ _ _ _ _ R1 B PR) IT) as (text' & ts' & BT' & TK' & FL).
    rewrite BT in BT'. injection BT' as <-. rewrite TK in TK'. injection TK' as <-. exact FL.
Qed.

Lemma built_code_read real fuel (d : filedesc (list (chunk TD))) w m : represents w m -> go_name (fdName d) -> no_template_code d ->
  exists d' w1, build_file d w = (Ok (List.length (files w), d'), w1) /\ same_but_code d d' /\
    forall s w2 g0, source env fuel (List.length (files w)) w1 = (Ok s, w2) ->
    (forall r, described w1 d r -> right_name real r /\ usable_name r) ->
    filedesc_depth d <= fuel ->
    filedesc_meaning (path_qualifier (fdPath d)) (block_text env w2) d' = Some g0 ->
    exists g, parse_file s = Some g /\
      Forall2 (reads_as (fdPath d) w1 (ref_tokens real (fdPath d) (map import_of (GImports g)))) (ended d) (flat_map gended (GDecls g)).
Proof.
  intros R GN NT. destruct (built_code real fuel d w m R GN NT) as (d' & w1 & E & SB & X). exists d', w1. split; [exact E|]. split; [exact SB|].
  intros s w2 g0 SR G D M. destruct (X s w2 g0 SR G D M) as (g & H & PG & IG & F). exists g. split; [exact PG|]. rewrite IG.
  eapply Forall2_impl; [|exact F]. intros c t RA ls its P I. eapply fills_mono; [|exact (RA ls its P I)]. intros r us [[Y _] _]. exact Y.
Qed.
Lemma own_not_imported own H sp : In sp (ImportSpecs (run H (NewImportsFor own))) -> SpecPath sp <> own.
Proof.
  intros IN EQ. pose proof (inv_own _ (run_new_Inv own H)) as O. rewrite run_new_own in O. revert O. apply In_listed. unfold listed. apply in_map_iff. exists sp. auto.
Qed.
Lemma gended_code ds x : In x (flat_map gended ds) -> In (fst x) (flat_map code_of ds).
Proof.
  intros IN. apply in_flat_map in IN as (d & ID & IN). apply in_flat_map. exists d. split; [exact ID|].
  assert (V : forall l, In x (flat_map (fun v : gvalue => match snd v with Some i => [(i, [TOp ";"])] | None => [] end) l) ->
    In (fst x) (flat_map (fun v : gvalue => match snd v with Some i => [i] | None => [] end) l)).
  { intros l I. apply in_flat_map in I as (v & IV & I). apply in_flat_map. exists v. split; [exact IV|].
    destruct (snd v) as [i|]; [destruct I as [<-|[]]; left; reflexivity|destruct I]. }
  destruct d; cbn [gended code_of] in *; auto. destruct IN as [<-|[]]. left. reflexivity.
Qed.
Lemma selected_semi ts q : forall d, In q (selected d (ts ++ [TOp ";"])) -> In q (selected d ts).
Proof.
  induction ts as [|t ts IH]; intros d; cbn [app selected]; [intros []|].
  intros IN. apply in_app_or in IN as [IN|IN]; apply in_or_app; [left|right; apply IH, IN].
  destruct t; try contradiction. destruct ts as [|u ts]; [destruct IN|]. exact IN.
Qed.
Lemma built_all_used real fuel (d : filedesc (list (chunk TD))) w m : represents w m -> go_name (fdName d) -> no_template_code d ->
  exists d' w1, build_file d w = (Ok (List.length (files w), d'), w1) /\ same_but_code d d' /\
    forall s w2 g0, source env fuel (List.length (files w)) w1 = (Ok s, w2) ->
    (forall r, described w1 d r -> right_name real r /\ usable_name r) ->
    filedesc_depth d <= fuel ->
    filedesc_meaning (path_qualifier (fdPath d)) (block_text env w2) d' = Some g0 ->
    all_selected (fdPath d) w1 d ->
    exists g, parse_file s = Some g /\ forall n, In n (import_names real g) -> In n (used (GDecls g)).
Proof.
  intros R GN NT. destruct (built_code real fuel d w m R GN NT) as (d' & w1 & E & SB & X). exists d', w1. split; [exact E|]. split; [exact SB|].
  intros s w2 g0 SR G D M SE. destruct (X s w2 g0 SR G D M) as (g & H & PG & IG & F). exists g. split; [exact PG|].
  destruct (built_used env real fuel d w m R GN NT) as (d2 & w12 & E2 & _ & U). rewrite E in E2. injection E2 as <- <-.
  destruct (U s w2 g0 SR G D M) as (g' & PG' & UG). rewrite PG in PG'. injection PG' as <-.
  intros n IN. unfold import_names in IN. apply in_map_iff in IN as (sp & <- & IS). unfold used. apply in_or_app.
  destruct (UG sp IS) as [TU|(x & r & CM & IR & EP)]; [left; exact TU|right].
  destruct CM as (c & fm & args & a & IC & IP & IA & RF). rewrite <- ended_codes in IC. apply in_map_iff in IC as ([c' z] & <- & IC). cbn [fst] in *.
  destruct (SE _ _ IC) as (ls & its & PT & IT & SL).
  destruct (Forall2_in _ _ _ _ F IC) as ([ts e] & IG' & RA). specialize (RA ls its PT IT). cbn [fst snd] in RA.
  assert (IX : In (Ref x) its).
  { destruct PT as [PT _]. rewrite PT in IP. apply in_map_iff in IP as (l & EL & IL). injection EL as <- <-.
    assert (AL : exists v, In (Put v a) l). { clear - IA. induction l as [|[t|v b] l IH]; cbn [args_of] in IA; [destruct IA|destruct (IH IA) as (v & I); exists v; right; exact I|].
      destruct IA as [->|IA]; [exists v; left; reflexivity|]. destruct (IH IA) as (v' & I). exists v'. right. exact I. }
    destruct AL as (v & AL). eapply items_ref; [exact IT| |exact RF]. apply in_or_app. left. apply in_concat. exists l. split; [exact IL|exact AL]. }
  assert (NO : fst r <> fdPath d).
  { rewrite EP. intros EQ. rewrite IG in IS. revert EQ. eapply own_not_imported, IS. }
  destruct (filled_use _ _ _ _ _ RA false x r SL IX IR NO) as (q & RQ & NE & SQ).
  apply in_flat_map. exists ts. split; [apply (gended_code (GDecls g) (ts, e)), IG'|].
  replace (effective_name real sp) with q.
  - assert (EE : e = [] \/ e = [TOp ";"]).
    { clear - IG'. apply in_flat_map in IG' as (gd & _ & IN). destruct gd as [b l|b l|b l|rc n sg b]; cbn [gended] in IN.
      1,2: apply in_flat_map in IN as (v & _ & IN); destruct (snd v); [destruct IN as [[= _ <-]|[]]; auto|destruct IN].
      - destruct IN.
      - destruct IN as [[= _ <-]|[]]. auto. }
    destruct EE as [-> | ->]; [rewrite app_nil_r in SQ; exact SQ|apply selected_semi, SQ].
  - unfold refers in RQ. destruct (String.eqb_spec q ""); [contradiction|]. destruct (proj2 (RQ (fst r)) eq_refl) as (s0 & I0 & <- & P0). f_equal.
    rewrite IG in IS. apply (spec_unique (run H (NewImportsFor (fdPath d)))); auto; [apply run_new_Inv|congruence].
Qed.
End World.
