(** Files built from complete descriptions can be written. *)
From Verif Require Import Base BaseFacts GoPath Types SpecTypes TypesFacts Imports SpecImports ImportsProofs SpecGo SpecRender World SpecWorld
  SpecFile SpecDecl SpecQualify WorldProofs QualifyProofs QualifyTheorems FileTheorems SourceTheorems SpecBuild BuildProofs BuildTypes BuildFiles
  BuildMeaning SpecTotal TotalProofs TotalTheorems.
From Coq Require Import Lia.

Lemma same_whole {C D} (a : filedesc C) (b : filedesc D) : same_but_code a b -> whole_description a -> whole_description b.
Proof.
  unfold same_but_code, whole_description. intros E. apply (f_equal fdElements) in E. cbn [fmap fdElements] in E. revert E.
  generalize (fdElements a) (fdElements b). intros l. induction l as [|x l IH]; intros [|y l'] E; try discriminate; auto.
  cbn [map] in E. injection E as E1 E2. intros H. inversion H; subst. constructor; [|apply IH; auto].
  assert (VS : forall (l1 m1 : list (vdesc C)) (l2 m2 : list (vdesc D)) c,
     map (vmap (fun _ => tt)) l1 = map (vmap (fun _ => tt)) l2 -> map (vmap (fun _ => tt)) m1 = map (vmap (fun _ => tt)) m2 ->
     whole_group c (l1 ++ m1) /\ Forall whole_value (l1 ++ m1) -> whole_group c (l2 ++ m2) /\ Forall whole_value (l2 ++ m2)).
  { intros l1 m1 l2 m2 c EL EM. assert (X : map (vmap (fun _ => tt)) (l1 ++ m1) = map (vmap (fun _ => tt)) (l2 ++ m2)).
    { rewrite !map_app. congruence. } revert X. generalize (l1 ++ m1) (l2 ++ m2). clear. intros l l' X [G F]. split.
    - destruct G as [G|G]; [left|right; auto]. destruct l, l'; try discriminate; congruence.
    - clear G. revert l' X F. induction l as [|v l IH]; intros [|v' l'] X F; try discriminate; auto. cbn [map] in X. injection X as X1 X2 X3 X4 X5.
      inversion F as [|? ? W1 W2]; subst. constructor; [|auto]. unfold whole_value in *. rewrite <- X3. auto. }
  destruct x as [c l1 l2|v|c l1 l2|v|c l1 l2|t|fn], y as [c' l1' l2'|v'|c' l1' l2'|v'|c' l1' l2'|t'|fn']; try discriminate;
    cbn [whole_element emap] in *.
  - injection E1 as <- EL EM. apply (VS l1 l2); auto.
  - injection E1 as EL EM ET EI. unfold whole_value in *. rewrite <- ET. auto.
  - injection E1 as <- EL EM. apply (VS l1 l2); auto.
  - injection E1 as EL EM ET EI. unfold whole_value in *. rewrite <- ET. auto.
  - injection E1 as <- <- <-. auto.
  - injection E1 as <-. auto.
  - injection E1 as _ _ _ EA ER EV. rewrite <- EA, <- ER, <- EV. auto.
Qed.

Section Members.
Context {TD : Type}.
Notation World := (World TD).
Variable w : World.
Definition whole_member (tab : list ValueSpec) (i : nat) : Prop :=
  exists V v, nth_error tab i = Some V /\ value_is w V v /\ whole_value v.
Definition whole_item (x : SpecQualify.item) : Prop :=
  match x with
  | IConst i => whole_member (consts w) i
  | IVar i => whole_member (vars w) i
  | IType i => exists T t, nth_error (types w) i = Some T /\ contents w T t /\ wf (type_of t) = true
  | IField i => exists F, nth_error (fields w) i = Some F /\
      (FSType F = NoType \/ exists t, typed w (FSType F) t /\ wf (type_of t) = true)
  | IElem i => exists e, elem_is w i e /\ match e with IMethod _ _ a r v => wf_sig (sig_of a r v) = true | _ => True end
  | IFunc i => exists F, nth_error (funcs w) i = Some F /\ wf_sig (FNSig F) = true
  | IBlock cb => True
  end.
Lemma values_whole f tab D c vs i : values_are f w tab D c vs -> In i (VDSpecs D) -> Forall whole_value vs -> whole_member tab i.
Proof.
  intros (_ & Vs & L & F) I S. destruct (lookup_in _ _ _ _ L I) as (V & N & J).
  destruct (Forall2_in _ _ _ _ F J) as (v & K & VI & _). exists V, v. split; [exact N|]. split; [exact VI|].
  rewrite Forall_forall in S. auto.
Qed.
Lemma types_whole f D c ts i : types_are f w D c ts -> In i (TDTypes D) ->
  Forall (fun t => wf (type_of (body_type (tsBody t))) = true) ts -> whole_item (IType i).
Proof.
  intros (_ & Ts & L & F) I S. destruct (lookup_in _ _ _ _ L I) as (T & N & J).
  destruct (Forall2_in _ _ _ _ F J) as (t & K & (_ & _ & _ & C) & _). exists T, (body_type (tsBody t)). split; [exact N|].
  split; [exact C|]. rewrite Forall_forall in S. apply (S t K).
Qed.
Lemma typed_whole t ts : typed w (IsSpec ts) t -> wf (type_of t) = true -> whole_item (IType ts).
Proof.
  destruct t as [n|fs|es|t]; cbn [typed]; [discriminate|..]; intros (i & T & [= <-] & N & _ & C) S; exists T; eauto.
Qed.
Lemma wf_method ms es n s : wf (TInterface ms es) = true -> In (mkMethod n s) ms -> wf_sig s = true.
Proof.
  intros WF I. cbn [wf] in WF. rewrite forallb_forall in WF. specialize (WF _ I). cbn in WF. destruct s as [a r v].
  unfold wf_sig. cbn [Args Results]. rewrite <- andb_assoc. exact WF.
Qed.
Lemma whole_field t : forall T fid, contents w T t -> In fid (TSStruct T) -> wf (type_of t) = true -> whole_item (IField fid).
Proof.
  induction t as [n|fs _|es|t IH] using tdesc_induction; intros T fid C I S.
  - destruct C as [_ C]. cbn [type_of] in S. unfold name_contents in C.
    destruct n; try (destruct C as [C _]; rewrite C in I; destruct I).
    destruct C as [_ C]. destruct (all2_in _ _ _ _ C I) as (f & J & F & N & _ & _ & _ & Y). exists F. split; [exact N|].
    destruct f as [fn ft tag]. cbn [FldType] in Y. cbn [wf] in S. rewrite forallb_forall in S. specialize (S _ J). cbn [FldType] in S.
    destruct ft; auto; right; (match type of Y with _ = IsName ?n => exists (DName n) end); (split; [exact Y|exact S]).
  - apply contents_struct in C as (_ & _ & C). destruct (all2_in _ _ _ _ C I) as ([[[c n] tag] t] & J & F & N & _ & _ & _ & Y).
    exists F. split; [exact N|]. right. exists t. split; [exact Y|]. cbn [type_of wf] in S. rewrite forallb_forall in S.
    apply (S (mkField n (type_of t) tag)). apply in_map_iff. exists (c, n, tag, t). auto.
  - destruct C as (_ & C & _). rewrite C in I. destruct I.
  - apply (IH T); auto. apply C.
Qed.
Lemma whole_elem t : forall T e, contents w T t -> In e (TSInterface T) -> wf (type_of t) = true -> whole_item (IElem e).
Proof.
  induction t as [n|fs _|es|t IH] using tdesc_induction; intros T e C I S.
  - destruct C as [_ C]. cbn [type_of] in S. unfold name_contents in C.
    destruct n; try (destruct C as [_ C]; rewrite C in I; destruct I); [destruct C as [C _]; rewrite C in I; destruct I|].
    destruct C as [_ C]. destruct (all2_in _ _ _ _ C I) as (x & J & X). exists x. split; [exact X|].
    apply in_app_or in J as [J|J].
    + apply in_map_iff in J as (s & <- & J). exact Logic.I.
    + apply in_map_iff in J as (m & <- & J). rewrite sig_of_pairs. destruct m as [n s]. eapply wf_method; eauto.
  - apply contents_struct in C as (_ & C & _). rewrite C in I. destruct I.
  - destruct C as (_ & _ & C). destruct (all2_in _ _ _ _ C I) as (x & J & X). exists x. split; [exact X|].
    destruct x as [c s|c n a r v]; auto. cbn [type_of] in S. eapply (wf_method _ _ n); [exact S|].
    unfold methods_of. apply in_flat_map. exists (IMethod c n a r v). cbn; auto.
  - apply (IH T); auto. apply C.
Qed.
Lemma all_whole f d : file_is w f d -> whole_description d -> forall x, part_of w f x -> whole_item x.
Proof.
  intros (F0 & N0 & _ & _ & _ & _ & _ & _ & _ & E) S. unfold whole_description in S. rewrite Forall_forall in S.
  assert (El : forall F e, nth_error (files w) f = Some F -> In e (FElements F) ->
     exists e', element_is f w e e' /\ whole_element e').
  { intros F e N I. assert (F = F0) by congruence; subst F. destruct (Forall2_in _ _ _ _ E I) as (e' & J & X). eauto. }
  induction 1 as [F d' D i N I NI II|F d' D i N I NI II|F d' D i N I NI II|F i N I
    |i v ts P IH N V|i v ts P IH N V|i T fid P IH N I|i F ts P IH N V|i T e P IH N I|i v cb P IH N V|i v cb P IH N V|i F P IH N].
  - destruct (El _ _ N I) as (e' & X & S'). cbn in X. destruct X as (D' & ND & X). assert (D' = D) by congruence; subst D'.
    destruct e'; try contradiction; (eapply values_whole; [eassumption|eassumption|]); cbn [whole_element] in S'; [apply S'|constructor; auto].
  - destruct (El _ _ N I) as (e' & X & S'). cbn in X. destruct X as (D' & ND & X). assert (D' = D) by congruence; subst D'.
    destruct e'; try contradiction; (eapply values_whole; [eassumption|eassumption|]); cbn [whole_element] in S'; [apply S'|constructor; auto].
  - destruct (El _ _ N I) as (e' & X & S'). cbn in X. destruct X as (D' & ND & X). assert (D' = D) by congruence; subst D'.
    destruct e'; try contradiction; (eapply types_whole; [eassumption|eassumption|]); cbn [whole_element] in S'; [apply S'|constructor; auto].
  - destruct (El _ _ N I) as (e' & X & S'). cbn in X. destruct X as (D' & ND & X).
    destruct e'; try contradiction. destruct X as [(_ & _ & _ & X1 & X2) _].
    exists D'. split; [exact ND|]. rewrite X1. exact S'.
  - destruct IH as (V' & v' & N' & VI & S'). assert (V' = v) by congruence; subst V'.
    destruct VI as (_ & _ & _ & VI). unfold whole_value in S'. destruct (vType v'); [|congruence].
    rewrite V in VI. eapply typed_whole; eauto.
  - destruct IH as (V' & v' & N' & VI & S'). assert (V' = v) by congruence; subst V'.
    destruct VI as (_ & _ & _ & VI). unfold whole_value in S'. destruct (vType v'); [|congruence].
    rewrite V in VI. eapply typed_whole; eauto.
  - destruct IH as (T' & t & N' & CT & S'). assert (T' = T) by congruence; subst T'. eapply whole_field; eauto.
  - destruct IH as (F' & N' & [Y|(t & Y & S')]); assert (F' = F) by congruence; subst F'; [congruence|].
    rewrite V in Y. eapply typed_whole; eauto.
  - destruct IH as (T' & t & N' & CT & S'). assert (T' = T) by congruence; subst T'. eapply whole_elem; eauto.
  - exact Logic.I.
  - exact Logic.I.
  - exact Logic.I.
Qed.
(** A type spec as described nests no deeper than its description. *)
Lemma typed_fits t : forall x, typed w x t -> (forall i T, nth_error (types w) i = Some T -> contents w T t -> fits (depth t) i (skel w)) ->
  match x with IsSpec ts => fits (depth t) ts (skel w) | _ => True end.
Proof.
  intros x Y H. destruct t as [n|fs|es|t]; cbn [typed] in Y; [subst x; exact I|..];
    destruct Y as (i & T & -> & N & _ & C); eapply H; eauto.
Qed.
Lemma fits_more k : forall k' i (sk : World), fits k i sk -> k <= k' -> fits k' i sk.
Proof.
  induction k as [|k IH]; intros k' i sk F LE; [destruct F|]. destruct k' as [|k']; [lia|]. cbn [fits] in *.
  destruct (nth_error (types sk) i) as [T|]; auto. intros fid IN. specialize (F fid IN).
  destruct (nth_error (fields sk) fid) as [fs|]; auto. destruct (FSType fs); auto. apply (IH k'); auto. lia.
Qed.
Lemma contents_fits t : forall i T, nth_error (types w) i = Some T -> contents w T t -> fits (depth t) i (skel w).
Proof.
  induction t as [n|fs IH|es|t IH] using tdesc_induction; intros i T N C.
  - cbn [depth fits]. rewrite (nth_skel types er_type w i T eq_refl N). cbn [er_type with_under TSStruct]. intros fid I.
    destruct C as [_ C]. unfold name_contents in C.
    destruct n; try (destruct C as [C _]; rewrite C in I; destruct I).
    destruct C as [_ C]. destruct (all2_in _ _ _ _ C I) as (f & J & F & NF & _ & _ & _ & Y).
    rewrite (nth_skel World.fields er_field w fid F eq_refl NF). cbn [er_field with_ftype FSType]. rewrite Y. destruct (FldType f); exact Logic.I.
  - cbn [depth fits]. rewrite (nth_skel types er_type w i T eq_refl N). cbn [er_type with_under TSStruct]. intros fid I.
    apply contents_struct in C as (_ & _ & C). destruct (all2_in _ _ _ _ C I) as ([[[c n] tag] t] & J & F & NF & _ & _ & _ & Y).
    rewrite (nth_skel World.fields er_field w fid F eq_refl NF). cbn [er_field with_ftype FSType].
    rewrite Forall_forall in IH. specialize (IH _ J). cbn in IH. pose proof (typed_fits t _ Y IH) as X.
    destruct (FSType F); cbn [er_tos]; auto. eapply fits_more; [exact X|]. clear - J.
    induction fs as [|x fs IHf]; [destruct J|]. cbn. destruct J as [->|J]; [lia|]. specialize (IHf J). lia.
  - cbn [depth fits]. rewrite (nth_skel types er_type w i T eq_refl N). cbn [er_type with_under TSStruct]. intros fid I.
    destruct C as (_ & C & _). rewrite C in I. destruct I.
  - cbn [depth]. apply (IH i T); auto. apply C.
Qed.
End Members.

Section Built.
Context {TD : Type}.
Notation parts := (list (list (part TD))).
Variables (w : World TD) (m : parts) (f : nat) (d : filedesc (list (chunk TD))) (d' : filedesc nat).
Hypothesis R : represents w m.
Hypothesis FI : file_is w f d'.
Hypothesis BI : Forall2 (block_is m) (codes d) (codes d').
Hypothesis SB : same_but_code d d'.
Hypothesis WD : whole_description d.
Hypothesis WC : whole_code w d.
Lemma Forall2_nth_r {A B} (Q : A -> B -> Prop) l l' : Forall2 Q l l' -> forall i b, nth_error l' i = Some b -> exists a, nth_error l i = Some a.
Proof. induction 1; intros [|i] b E; try discriminate; cbn in *; eauto. Qed.
Lemma lookup_nil {A} (t : list A) : lookup_all t [] = Some []. Proof. reflexivity. Qed.
Lemma values_group tab D c vs : values_are f w tab D c vs -> whole_group c vs -> VDSpecs D <> [] \/ VDComment D <> "".
Proof.
  intros (EC & Vs & L & F) [G|G]; [left|right; congruence]. intros E. rewrite E in L. injection L as <-. inversion F; subst. auto.
Qed.
Lemma types_group D c ts : types_are f w D c ts -> whole_group c ts -> TDTypes D <> [] \/ TDComment D <> "".
Proof.
  intros (EC & Vs & L & F) [G|G]; [left|right; congruence]. intros E. rewrite E in L. injection L as <-. inversion F; subst. auto.
Qed.
Lemma built_complete : complete w f.
Proof.
  pose proof (same_whole d d' SB WD) as WD'.
  assert (AW := all_whole w f d' FI WD'). split.
  - intros F e NF IN. destruct FI as (F0 & N0 & _ & _ & _ & _ & _ & _ & _ & E). assert (F0 = F) by congruence; subst F0.
    destruct (Forall2_in _ _ _ _ E IN) as (e' & J & X). unfold whole_description in WD'. rewrite Forall_forall in WD'.
    specialize (WD' e' J). destruct e as [i|i|i|i]; cbn [element_is element_there] in *; auto.
    + destruct X as (D & ND & X). exists D. split; auto. destruct e'; try contradiction; cbn [whole_element] in WD'.
      * eapply values_group; [exact X|apply WD']. * eapply values_group; [exact X|left; discriminate].
    + destruct X as (D & ND & X). exists D. split; auto. destruct e'; try contradiction; cbn [whole_element] in WD'.
      * eapply values_group; [exact X|apply WD']. * eapply values_group; [exact X|left; discriminate].
    + destruct X as (D & ND & X). exists D. split; auto. destruct e'; try contradiction; cbn [whole_element] in WD'.
      * eapply types_group; [exact X|apply WD']. * eapply types_group; [exact X|left; discriminate].
  - intros i P. destruct (AW _ P) as (V & v & N & VI & WV). exists V. split; auto. destruct VI as (_ & _ & _ & VI).
    unfold whole_value in WV. destruct (vType v) as [t|]; [|rewrite VI; exact I].
    destruct t; cbn [typed] in VI; [rewrite VI; exact WV|..]; destruct VI as (j & T & -> & _); exact I.
  - intros i P. destruct (AW _ P) as (V & v & N & VI & WV). exists V. split; auto. destruct VI as (_ & _ & _ & VI).
    unfold whole_value in WV. destruct (vType v) as [t|]; [|rewrite VI; exact I].
    destruct t; cbn [typed] in VI; [rewrite VI; exact WV|..]; destruct VI as (j & T & -> & _); exact I.
  - intros i P. destruct (AW _ P) as (T & t & N & CT & WV). exists T. split; auto. rewrite (contents_underlying _ _ _ CT). exact WV.
  - intros i P. destruct (AW _ P) as (F & N & Y). exists F. split; auto. split.
    + destruct Y as [->|(t & Y & WT)]; [exact I|]. destruct t; cbn [typed] in Y; [rewrite Y; exact WT|..]; destruct Y as (j & T & -> & _); exact I.
    + intros id T E NT NE. exfalso. destruct Y as [Y|(t & Y & _)]; [congruence|]. rewrite E in Y.
      destruct t; cbn [typed] in Y; [discriminate|..]; destruct Y as (j & T' & [= <-] & N' & EN & _); congruence.
  - intros i P. destruct (AW _ P) as (e & (p & N) & WE). eexists. split; [exact N|]. destruct e; auto.
  - intros i P. destruct (AW _ P) as (F & N & WE). exists F. split; auto.
  - intros cb P. pose proof (member w f d d' FI SB (IBlock cb) P) as IC. cbn in IC.
    destruct (Forall2_in_r _ _ _ _ BI IC) as (l & IL & B). destruct (Forall2_nth_r _ _ _ R _ _ B) as (b & NB).
    exists b. split; auto. intros fm args IN.
    destruct (Forall2_in _ _ _ _ (block_parts w m cb b _ R NB B) IN) as (p & K & EP).
    destruct p as [fm' args'|]; [|destruct EP]. destruct EP as [-> NA]. exists args'. split; auto.
    apply Forall_forall. intros a IA. eapply WC; eauto.
Qed.
Lemma built_no_cycle : no_cycle w f.
Proof.
  intros i RE. pose proof (reaches_part w f i i RE) as P.
  destruct (all_whole w f d' FI (same_whole d d' SB WD) _ P) as (T & t & N & CT & _).
  exact (fits_no_cycle w f _ i (contents_fits w t i T N CT) RE).
Qed.
End Built.
Theorem built_written {TD} (env : Env TD) d w m :
  represents w m -> go_name (fdName d) -> no_template_code d -> whole_description d ->
  exists d' w1, build_file d w = (Ok (List.length (files w), d'), w1) /\ same_but_code d d' /\
    (whole_code w1 d -> exists s w2 enough,
      (forall fuel, enough <= fuel -> source env fuel (List.length (files w)) w1 = (Ok s, w2)) /\
      forall real g0,
      (forall r, In r (sym_requests (filedesc_symbols d)) -> right_name real r /\ usable_name r) ->
      (forall x r, code_mentions w1 d x -> In r (packages_of x) -> right_name real r /\ usable_name r) ->
      filedesc_meaning (path_qualifier (fdPath d)) (block_text env w2) d' = Some g0 ->
      exists g, parse_file s = Some g /\ resolve_file real g = Some (mkGFile (GPackage g0) (GImports g) (GDecls g0))).
Proof.
  intros R GN NT WD. destruct (build_file_ok d w m R GN) as (d' & w1 & m1 & E & _ & _ & R1 & _ & FI & BI & SB & IM).
  exists d', w1. split; [exact E|]. split; [exact SB|]. intros WC.
  assert (FI' := FI). destruct FI' as (F & NF & _).
  destruct (source_total env (fdPath d) [] (List.length (files w)) w1 F (List.length (types w1)) NF (IM F NF)) as (s & w2 & S); auto.
  { eapply built_no_templates; eauto. }
  { eapply built_complete; eauto. }
  { eapply built_no_cycle; eauto. }
  exists s, w2, (Nat.max (List.length (types w1)) (filedesc_depth d)).
  assert (SF : forall fuel, Nat.max (List.length (types w1)) (filedesc_depth d) <= fuel -> source env fuel (List.length (files w)) w1 = (Ok s, w2)).
  { intros fuel LE. eapply source_more_fuel; [exact S|]. lia. }
  split; [exact SF|]. intros real g0 G1 G2 M.
  set (fuel := Nat.max (List.length (types w1)) (filedesc_depth d)).
  destruct (built_file_means env real fuel d w m R GN NT) as (d2 & w12 & E2 & _ & H). rewrite E in E2. injection E2 as <- <-.
  apply (H s w2 g0); auto. unfold fuel. lia.
Qed.
