(** Parsing the tokens of struct and interface bodies whose items are each terminated by a
    semicolon, as gopoet writes them over several lines. *)
From Verif Require Import Base BaseFacts SpecLit Types SpecTypes TypesFacts SpecImports SpecGo SpecRender
  LexProofs TextProofs ParseProofs SpecFile SpecDecl FileLexProofs.

(** Tokens that read as a type. *)
Inductive tshape (ts : list token) (g : gotype) : Prop :=
| TLocal x : ts = [TIdent x] -> g = GName None x -> tshape ts g
| TQual q n : ts = [TIdent q; TOp "."; TIdent n] -> g = GName (Some q) n -> tshape ts g
| TOther h r : ts = h :: r -> heads h = true -> tshape ts g.
Record treads (ts : list token) (g : gotype) : Prop :=
  { tr_shape : tshape ts g;
    tr_reads : forall fuel rest, 4 * List.length ts <= fuel -> follow rest = true ->
                 ptype fuel (ts ++ rest) = Some (g, rest) }.

Lemma type_treads t : wf t = true -> text_ok t = true -> treads (toks t) (denote t).
Proof.
  intros W X. split.
  - destruct (shape_of t (wf_not_nil t W)) as [x T D _|q n T D _|h r T H _ _].
    + eapply TLocal; eauto.
    + eapply TQual; eauto.
    + eapply TOther; eauto.
  - destruct (type_reads t W X) as [R _]. exact R.
Qed.
Lemma sym_treads s : treads (sym_toks s) (GName (qualifier s) (SymName s)).
Proof.
  unfold sym_toks. destruct (qualifier s) as [q|].
  - split; [eapply TQual; reflexivity|]. intros fuel rest L F. destruct fuel; [cbn in L; lia|]. reflexivity.
  - split; [eapply TLocal; reflexivity|]. intros fuel rest L F. destruct fuel; [cbn in L; lia|].
    cbn [app ptype]. destruct rest as [|[x|x|x|x|x|x|x] r]; try reflexivity; try discriminate.
    destruct (String.eqb_spec x "."); [subst; discriminate|]. reflexivity.
Qed.
Lemma ident_treads x : treads [TIdent x] (GName None x).
Proof. apply (sym_treads (mkSymbol (mkPackage "" "") x)). Qed.

(** ** Struct bodies *)
Definition fitem : Type := string * list token * gotype * string.
Definition fitem_toks (f : fitem) : list token :=
  let '(n, ts, _, tag) := f in
  (if String.eqb n "" then [] else [TIdent n]) ++ ts ++ (if String.eqb tag "" then [] else [TStr tag]).
Definition fitem_of (f : fitem) : gfield := let '(n, _, g, tag) := f in (opt_name n, g, tag).
Definition fitem_ok (f : fitem) : Prop :=
  let '(n, ts, g, _) := f in treads ts g /\ (n = "" -> names_type g = true).

Lemma pfield_item f fuel rest : fitem_ok f -> 4 * List.length (fitem_toks f) + 1 <= fuel ->
  sep_follow rest -> pfield fuel (fitem_toks f ++ rest) = Some ([fitem_of f], rest).
Proof.
  destruct f as [[[n ts] g] tag]. intros ([SH R] & EM) L F.
  destruct fuel as [|k]; [lia|]. cbn [fitem_toks fitem_of] in *. unfold opt_name.
  set (tg := if String.eqb tag "" then [] else [TStr tag]) in *.
  assert (FT : follow (tg ++ rest) = true).
  { subst tg. destruct (String.eqb tag ""); [apply sep_follow_follow; auto|reflexivity]. }
  assert (TG : forall (A : Type) (mk : string -> list token -> A),
    match tg ++ rest with TStr tag :: r1 => mk tag r1 | _ => mk "" (tg ++ rest) end = mk tag rest).
  { intros A mk. subst tg. destruct (String.eqb_spec tag ""); [subst; cbn [app]|reflexivity].
    destruct F as (r & [-> | ->]); reflexivity. }
  rewrite !app_length in L. specialize (R k (tg ++ rest)).
  destruct (String.eqb_spec n "") as [->|NE].
  - cbn [app] in *. specialize (EM eq_refl). specialize (R ltac:(lia) FT).
    assert (E : bind (ptype k (ts ++ tg ++ rest)) (fun '(t, r) =>
      match t with
      | GName _ _ | GPtr (GName _ _) =>
          match r with
          | TStr tag :: r1 => Some ([(None, t, tag)], r1)
          | _ => Some ([(None, t, "")], r)
          end
      | _ => None
      end) = Some ([(@None string, g, tag)], rest)).
    { rewrite R. cbn [bind]. destruct g as [| [] | | | | | | |]; try discriminate EM;
      apply (TG _ (fun tag r1 => Some ([(@None string, _, tag)], r1))). }
    rewrite <- app_assoc.
    destruct SH as [x T D|q m T D|h r T H]; rewrite T in *; cbn [app] in *.
    + cbn [pfield]. cbv zeta. rewrite E. destruct (tg ++ rest) as [|tk tl] eqn:TR.
      { subst tg. destruct F as (r & [-> | ->]); destruct (String.eqb tag ""); discriminate. }
      assert (X : tk = TStr tag \/ tk = TOp ";" \/ tk = TOp "}").
      { subst tg. destruct F as (r & [-> | ->]); destruct (String.eqb tag ""); injection TR as <- _; auto. }
      destruct X as [-> | [-> | ->]]; reflexivity.
    + cbn [pfield]. cbv zeta. rewrite E. reflexivity.
    + destruct h; try discriminate H; cbn [pfield]; cbv zeta; rewrite E; reflexivity.
  - cbn [app List.length] in *. specialize (R ltac:(lia) FT). rewrite <- app_assoc.
    destruct SH as [x T D|q m T D|h r T H]; rewrite T in *; cbn [app] in *; cbn [pfield]; cbv zeta.
    + rewrite R. cbn [bind]. apply (TG _ (fun tag r1 => Some ([(Some n, g, tag)], r1))).
    + rewrite R. cbn [bind]. apply (TG _ (fun tag r1 => Some ([(Some n, g, tag)], r1))).
    + destruct h; try discriminate H.
      * rewrite R. cbn [bind]. apply (TG _ (fun tag r1 => Some ([(Some n, g, tag)], r1))).
      * cbn [heads existsb] in H.
        destruct (String.eqb_spec s "."); [subst; discriminate|].
        destruct (String.eqb_spec s ";"); [subst; discriminate|].
        destruct (String.eqb_spec s "}"); [subst; discriminate|].
        destruct (String.eqb_spec s ","); [subst; discriminate|].
        cbn [orb]. rewrite R. cbn [bind]. apply (TG _ (fun tag r1 => Some ([(Some n, g, tag)], r1))).
Qed.
Lemma fitem_head f rest : fitem_ok f ->
  1 <= List.length (fitem_toks f) /\ expect "}" (fitem_toks f ++ rest) = None.
Proof.
  destruct f as [[[n ts] g] tag]. intros ([SH _] & _). unfold fitem_toks.
  destruct (String.eqb n ""); [|split; [simpl; lia|reflexivity]]. cbn [app].
  destruct SH as [? T _|? ? T _|h r T H]; rewrite T; (split; [simpl; lia|]); try reflexivity.
  destruct h; try discriminate H; try reflexivity. cbn [app expect].
  cbn [heads existsb] in H. destruct (String.eqb_spec "}" s); [subst; discriminate|auto].
Qed.
(** items each followed by a semicolon *)
Definition terminated {A} (tk : A -> list token) (l : list A) : list token :=
  flat_map (fun a => tk a ++ [TOp ";"]) l.
Lemma pfields_items : forall l fuel rest, Forall fitem_ok l ->
  4 * List.length (terminated fitem_toks l) + 1 <= fuel ->
  pfields fuel (terminated fitem_toks l ++ TOp "}" :: rest) = Some (map fitem_of l, rest).
Proof.
  induction l as [|a r IH]; intros fuel rest OK L.
  { destruct fuel; [lia|]. reflexivity. }
  inversion OK as [|? ? OA OR]; subst. destruct fuel as [|f]; [lia|].
  cbn [terminated flat_map] in *. fold (terminated fitem_toks r) in *.
  rewrite !app_length in L. cbn [List.length] in L.
  rewrite <- !app_assoc. cbn [app pfields].
  destruct (fitem_head a (TOp ";" :: terminated fitem_toks r ++ TOp "}" :: rest) OA) as [POS HD].
  rewrite HD. rewrite pfield_item; [|auto|lia|eexists; left; reflexivity].
  cbn [bind expect String.eqb Ascii.eqb Bool.eqb]. rewrite IH; [reflexivity|auto|lia].
Qed.
Lemma struct_treads l : Forall fitem_ok l ->
  treads (TKw "struct" :: TOp "{" :: terminated fitem_toks l ++ [TOp "}"]) (GStruct (map fitem_of l)).
Proof.
  intros OK. split; [eapply TOther; reflexivity|]. intros fuel rest L F.
  destruct fuel as [|f]; [cbn in L; lia|]. cbn [List.length] in L. rewrite app_length in L.
  cbn [app ptype String.eqb Ascii.eqb Bool.eqb expect bind]. rewrite <- app_assoc. cbn [app].
  rewrite pfields_items; [reflexivity|auto|]. cbn [List.length] in L. lia.
Qed.

(** ** Interface bodies *)
Inductive ielem := IEmb (s : Symbol) | IMtd (n : string) (s : Signature).
Definition ielem_toks (e : ielem) : list token :=
  match e with IEmb s => sym_toks s | IMtd n s => TIdent n :: sig_toks toks s end.
Definition ielem_of (e : ielem) : gelem :=
  match e with
  | IEmb s => inr (qualifier s, SymName s)
  | IMtd n s => inl (n, fst (denote_sig s), snd (denote_sig s))
  end.
Definition ielem_ok (e : ielem) : bool :=
  match e with
  | IEmb s => sym_ok s
  | IMtd n s => ident n && wf_sig s && sig_text_ok s
  end.
(** the arguments and results can be read *)
Definition sig_reads (s : Signature) : Prop := args_ok (IsVariadic s) (Args s) /\ args_ok false (Results s).
Definition ielem_reads (e : ielem) : Prop := match e with IEmb _ => True | IMtd _ s => sig_reads s end.
Lemma sig_sep_reads s : wf_sig s = true -> forallb (fun x => sep_ok (ArgTy x)) (Args s) = true ->
  forallb (fun x => sep_ok (ArgTy x)) (Results s) = true -> sig_reads s.
Proof.
  destruct s as [a r v]. unfold wf_sig, sig_reads. cbn [Args Results IsVariadic]. rewrite !andb_true_iff.
  intros [[V WA] WR] TA TR. apply sig_okP; auto. split; apply Forall_forall; intros; apply type_reads_sep.
Qed.
Lemma sig_args_ok s : wf_sig s = true -> sig_text_ok s = true -> sig_reads s.
Proof.
  intros W X. unfold sig_text_ok in X. rewrite !andb_true_iff in X. destruct X as [[_ TA] TR].
  apply sig_sep_reads; auto using args_sep.
Qed.
Lemma sig_psig s fuel rest : sig_reads s ->
  4 * List.length (sig_toks toks s) + 1 <= fuel -> follow rest = true ->
  psig fuel (sig_toks toks s ++ rest) = Some (denote_sig s, rest).
Proof.
  intros [A R] L F. destruct s as [a r v].
  cbn [Args Results IsVariadic] in *. rewrite psig_reads; auto.
Qed.
Lemma ielem_ok_reads l : forallb ielem_ok l = true -> Forall ielem_reads l.
Proof.
  rewrite forallb_forall. intros H. apply Forall_forall. intros [s|n s] I; cbn [ielem_reads]; auto.
  specialize (H _ I). cbn [ielem_ok] in H. rewrite !andb_true_iff in H. destruct H as [[_ A] B]. apply sig_args_ok; auto.
Qed.
Lemma pelems_items : forall l fuel rest, Forall ielem_reads l ->
  4 * List.length (terminated ielem_toks l) + 1 <= fuel ->
  pelems fuel (terminated ielem_toks l ++ TOp "}" :: rest) = Some (map ielem_of l, rest).
Proof.
  induction l as [|a r IH]; intros fuel rest OK L.
  { destruct fuel; [lia|]. reflexivity. }
  inversion OK as [|? ? OA OR]; subst. destruct fuel as [|f]; [lia|].
  cbn [terminated flat_map] in *. fold (terminated ielem_toks r) in *.
  rewrite !app_length in L. cbn [List.length] in L.
  rewrite <- !app_assoc. cbn [app]. set (tl := TOp ";" :: _).
  assert (F : sep_follow tl) by (eexists; left; reflexivity).
  assert (ONE : 1 <= List.length (ielem_toks a) /\ expect "}" (ielem_toks a ++ tl) = None /\
     match ielem_toks a ++ tl with
          | TIdent x :: r =>
              match expect "(" r with
              | Some _ => bind (psig f r) (fun '(ps, rs, r1) => Some (inl (x, ps, rs), r1))
              | None =>
                  bind (ptype f (ielem_toks a ++ tl)) (fun '(t, r1) =>
                  match t with GName q n => Some (inr (q, n), r1) | _ => None end)
              end
          | _ => None
          end = Some (ielem_of a, tl)).
  { destruct a as [s|n s]; cbn [ielem_toks ielem_of ielem_reads] in *.
    - destruct f as [|g]; [lia|].
      unfold sym_toks. destruct (qualifier s) as [q|] eqn:Q.
      + split; [cbn; lia|]. split; reflexivity.
      + split; [cbn; lia|]. split; reflexivity.
    - split; [cbn; lia|]. split; [reflexivity|].
      cbn [List.length] in L.
      assert (PS := sig_psig s f tl OA ltac:(lia) (sep_follow_follow _ F)).
      cbn [app].
      destruct (expect "(" (sig_toks toks s ++ tl)) eqn:E; [|destruct s; discriminate E].
      rewrite PS. destruct (denote_sig s); reflexivity. }
  destruct ONE as (POS & HD & BODY). cbn [pelems]. rewrite HD, BODY. cbn [bind]. unfold tl.
  cbn [app expect String.eqb Ascii.eqb Bool.eqb]. rewrite IH; [reflexivity|auto|lia].
Qed.
Lemma interface_treads l : Forall ielem_reads l ->
  treads (TKw "interface" :: TOp "{" :: terminated ielem_toks l ++ [TOp "}"]) (GInterface (map ielem_of l)).
Proof.
  intros OK. split; [eapply TOther; reflexivity|]. intros fuel rest L F.
  destruct fuel as [|f]; [cbn in L; lia|]. cbn [List.length] in L. rewrite app_length in L.
  cbn [app ptype String.eqb Ascii.eqb Bool.eqb expect bind]. rewrite <- app_assoc. cbn [app].
  rewrite pelems_items; [reflexivity|auto|]. cbn [List.length] in L. lia.
Qed.
