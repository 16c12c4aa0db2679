(** The Go grammar reads the tokens of a type back as the type it denotes. *)
From Verif Require Import Base BaseFacts SpecLit Types SpecTypes TypesFacts SpecImports SpecGo SpecRender
  LexProofs TextProofs.

(** What can be read: [text_ok] without the condition on interfaces, since [toks] separates their elements. *)
Fixpoint sep_ok (t : TypeName) : bool :=
  match t with
  | TNil | TBasic _ => true
  | TNamed s => sym_ok s
  | TPtr e | TSlice e | TArray e _ => sep_ok e
  | TMap e k => sep_ok e && sep_ok k
  | TChan e d => negb ((d =? 3)%Z && recv_chan e) && sep_ok e
  | TFunc s =>
      match s with
      | mkSig a r _ =>
          names_ok a && names_ok r &&
          forallb (fun x => sep_ok (ArgTy x)) a && forallb (fun x => sep_ok (ArgTy x)) r
      end
  | TStruct fs =>
      forallb (fun f => (if String.eqb (FldName f) "" then embeddable (FldType f)
                         else ident (FldName f)) && sep_ok (FldType f)) fs
  | TInterface ms es =>
      forallb sym_ok es &&
      forallb (fun m => match m with
        | mkMethod n s =>
            ident n &&
            match s with
            | mkSig a r _ =>
                names_ok a && names_ok r &&
                forallb (fun x => sep_ok (ArgTy x)) a && forallb (fun x => sep_ok (ArgTy x)) r
            end
        end) ms
  end.

(** Tokens that may follow a type. *)
Definition follow (ts : list token) : bool :=
  match ts with
  | [] => true
  | TOp o :: _ => existsb (String.eqb o) [")"; ","; "]"; "}"; ";"; "="; "{"]
  | TStr _ :: _ => true
  | _ => false
  end.
Definition heads (h : token) : bool :=
  match h with
  | TKw k => existsb (String.eqb k) ["chan"; "func"; "map"; "struct"; "interface"]
  | TOp o => existsb (String.eqb o) ["*"; "["; "<-"]
  | _ => false
  end.
Inductive shape (t : TypeName) : Prop :=
| ShLocal x : toks t = [TIdent x] -> denote t = GName None x -> type_name t = true -> shape t
| ShQual q n : toks t = [TIdent q; TOp "."; TIdent n] -> denote t = GName (Some q) n ->
    type_name t = true -> shape t
| ShOther h r : toks t = h :: r -> heads h = true -> type_name t = false ->
    (forall q x, denote t <> GName q x) -> shape t.
Lemma shape_of t : t <> TNil -> shape t.
Proof.
  intros NN. destruct t; try congruence.
  - eapply ShLocal; reflexivity.
  - cbn. destruct (qualifier s) as [q|] eqn:Q.
    + eapply ShQual; cbn; unfold sym_toks; rewrite ?Q; reflexivity.
    + eapply ShLocal; cbn; unfold sym_toks; rewrite ?Q; reflexivity.
  - eapply ShOther; [reflexivity|reflexivity|reflexivity|discriminate].
  - eapply ShOther; [reflexivity|reflexivity|reflexivity|discriminate].
  - eapply ShOther; [reflexivity|reflexivity|reflexivity|discriminate].
  - eapply ShOther; [reflexivity|reflexivity|reflexivity|discriminate].
  - cbn [toks]. destruct (dir =? 1)%Z eqn:D.
    + eapply ShOther; cbn [toks]; rewrite ?D; try reflexivity. discriminate.
    + eapply ShOther; cbn [toks]; rewrite ?D; try reflexivity. discriminate.
  - destruct sig. eapply ShOther; [reflexivity|reflexivity|reflexivity|discriminate].
  - eapply ShOther; [reflexivity|reflexivity|reflexivity|discriminate].
  - eapply ShOther; [reflexivity|reflexivity|reflexivity|discriminate].
Qed.
Lemma wf_not_nil t : wf t = true -> t <> TNil.
Proof. intros H ->. discriminate. Qed.

Definition reads (t : TypeName) : Prop := forall fuel rest,
  4 * List.length (toks t) <= fuel -> follow rest = true ->
  ptype fuel (toks t ++ rest) = Some (denote t, rest).
Definition PP (t : TypeName) : Prop := wf t = true -> sep_ok t = true ->
  reads t /\ (forall e, t = TSlice e -> reads e).

(** ** Parameter lists *)
Definition arg_toks (named dots : bool) (a : ArgType) : list token :=
  match a with
  | mkArg n t =>
      (if named then [TIdent (if String.eqb n "" then "_" else n)] else []) ++
      (if dots then TOp "..." :: skipn 2 (toks t) else toks t)
  end.
Definition entry_of (named dots : bool) (a : ArgType) : entry :=
  match a with
  | mkArg n t =>
      let d := if dots then unslice (denote t) else denote t in
      if named then ENamed (if String.eqb n "" then "_" else n) dots d
      else if dots then ETyped true d
      else match d with GName None x => ELone x | _ => ETyped false d end
  end.
Definition entry_follow (ts : list token) : Prop := exists r, ts = TOp "," :: r \/ ts = TOp ")" :: r.
Lemma entry_follow_follow ts : entry_follow ts -> follow ts = true.
Proof. intros (r & [-> | ->]); reflexivity. Qed.
(** an argument type that can be read: a slice if written with dots *)
Definition arg_ok (dots : bool) (a : ArgType) : Prop :=
  ArgTy a <> TNil /\ reads (ArgTy a) /\
  (dots = true -> exists e, ArgTy a = TSlice e /\ e <> TNil /\ reads e).

Lemma pentry_reads named dots a fuel rest : arg_ok dots a ->
  4 * List.length (arg_toks named dots a) + 1 <= fuel -> entry_follow rest ->
  pentry fuel (arg_toks named dots a ++ rest) = Some (entry_of named dots a, rest).
Proof.
  destruct a as [n t]. intros (NN & R & D) L F. cbn [ArgTy] in *.
  destruct fuel as [|f]; [lia|]. pose proof (entry_follow_follow _ F) as FF.
  unfold arg_toks, entry_of in *. destruct named.
  - cbn [app List.length] in *. set (x := if String.eqb n "" then "_" else n) in *. clearbody x.
    destruct dots.
    + destruct (D eq_refl) as (e & -> & NE & RE). cbn [toks skipn List.length] in *.
      cbn [app pentry String.eqb Ascii.eqb Bool.eqb orb].
      rewrite RE; [reflexivity| |auto]. lia.
    + specialize (R f rest ltac:(lia) FF).
      destruct (shape_of t NN) as [y T _|q m T _|h r T H]; rewrite T in *.
      * cbn [app pentry]. cbn [app] in R. rewrite R. reflexivity.
      * cbn [app pentry]. cbn [app] in R. rewrite R. reflexivity.
      * destruct h; try discriminate H; cbn [app pentry]; cbn [app] in R; [rewrite R; reflexivity|].
        cbn [heads existsb] in H.
        destruct (String.eqb_spec s "."); [subst; discriminate|].
        destruct (String.eqb_spec s ","); [subst; discriminate|].
        destruct (String.eqb_spec s ")"); [subst; discriminate|].
        destruct (String.eqb_spec s "..."); [subst; discriminate|].
        cbn [orb]. rewrite R. reflexivity.
  - cbn [app] in *. destruct dots.
    + destruct (D eq_refl) as (e & -> & NE & RE). cbn [toks skipn List.length] in *.
      cbn [app pentry expect String.eqb Ascii.eqb Bool.eqb].
      rewrite RE; [reflexivity| |auto]. lia.
    + specialize (R f rest ltac:(lia) FF).
      destruct (shape_of t NN) as [y T DT|q m T DT|h r T H _ DT]; rewrite T in *.
      * rewrite DT. destruct F as (r & [-> | ->]); reflexivity.
      * rewrite DT in *. cbn [app pentry String.eqb Ascii.eqb Bool.eqb]. cbn [app] in R. rewrite R. reflexivity.
      * assert (E : pentry (S f) ((h :: r) ++ rest) = Some (ETyped false (denote t), rest)).
        { destruct h; try discriminate H; cbn [app pentry expect]; cbn [app] in R; [rewrite R; reflexivity|].
          cbn [heads existsb] in H. destruct (String.eqb_spec "..." s); [subst; discriminate|].
          rewrite R. reflexivity. }
        rewrite E. destruct (denote t) as [[q|] x| | | | | | | |] eqn:DD; try reflexivity.
        exfalso. apply (DT None x). auto.
Qed.
Lemma arg_toks_pos named dots a : arg_ok dots a -> 1 <= List.length (arg_toks named dots a).
Proof.
  destruct a as [n t]. intros (NN & _ & _). unfold arg_toks. rewrite app_length.
  cbn [ArgTy] in NN.
  destruct dots; [cbn [List.length]; lia|].
  destruct (shape_of t NN) as [? T|? ? T|? ? T]; rewrite T; cbn [List.length]; lia.
Qed.
Lemma arg_toks_head named dots a rest : arg_ok dots a -> expect ")" (arg_toks named dots a ++ rest) = None.
Proof.
  destruct a as [n t]. intros (NN & _ & _). cbn [ArgTy] in *. unfold arg_toks.
  destruct named; [reflexivity|]. destruct dots; [reflexivity|].
  destruct (shape_of t NN) as [? T|? ? T|h r T H]; rewrite T; try reflexivity.
  destruct h; try discriminate H; try reflexivity. cbn [app expect].
  cbn [heads existsb] in H. destruct (String.eqb_spec ")" s); [subst; discriminate|auto].
Qed.

Fixpoint entries (named v : bool) (l : list ArgType) : list entry :=
  match l with
  | [] => []
  | a :: r => entry_of named (match r with [] => v | _ => false end) a :: entries named v r
  end.
Fixpoint args_ok (v : bool) (l : list ArgType) : Prop :=
  match l with
  | [] => True
  | a :: r => arg_ok (match r with [] => v | _ => false end) a /\ args_ok v r
  end.
Lemma args_toks_cons named v a r :
  args_toks toks named v (a :: r) =
  arg_toks named (match r with [] => v | _ => false end) a ++
  match r with [] => [] | _ => TOp "," :: args_toks toks named v r end.
Proof. destruct a as [n t]. cbn [args_toks arg_toks]. rewrite app_assoc. destruct r; auto. Qed.

Lemma pentries_reads named v : forall l fuel rest, args_ok v l ->
  4 * List.length (args_toks toks named v l) + 2 <= fuel ->
  pentries fuel (args_toks toks named v l ++ TOp ")" :: rest) = Some (entries named v l, rest).
Proof.
  induction l as [|a r IH]; intros fuel rest OK L.
  { destruct fuel; [lia|]. reflexivity. }
  destruct OK as [OA OR]. destruct fuel as [|f]; [lia|].
  rewrite args_toks_cons in *. rewrite app_length in L.
  pose proof (arg_toks_pos named _ a OA) as POS.
  rewrite <- app_assoc. cbn [pentries]. rewrite arg_toks_head by auto.
  destruct r as [|b r].
  - cbn [List.length] in L. rewrite pentry_reads; [reflexivity|auto|lia|exists rest; right; reflexivity].
  - cbn [List.length] in L.
    rewrite pentry_reads; [|auto|lia|eexists; left; reflexivity].
    cbn [bind app expect String.eqb Ascii.eqb Bool.eqb]. rewrite IH; [reflexivity|auto|lia].
Qed.

Lemma group_entries v : forall l, group_named (entries true v l) = Some (dparams denote true v l).
Proof.
  induction l as [|[n t] r IH]; auto. cbn [entries entry_of group_named dparams]. rewrite IH.
  destruct r; reflexivity.
Qed.
Lemma typed_entries v : forall l, map entry_typed (entries false v l) = dparams denote false v l.
Proof.
  induction l as [|[n t] r IH]; auto. cbn [entries map dparams]. rewrite IH. f_equal.
  unfold entry_of. destruct (match r with [] => v | _ => false end); auto.
  destruct (denote t) as [[q|] x| | | | | | | |]; auto.
Qed.
Lemma unnamed_entries v : forall l, existsb is_named (entries false v l) = false.
Proof.
  induction l as [|[n t] r IH]; auto. cbn [entries existsb]. rewrite IH, orb_false_r.
  unfold entry_of. destruct (match r with [] => v | _ => false end); auto.
  destruct (denote t) as [[q|] x| | | | | | | |]; auto.
Qed.
Lemma dots_last_dparams {T} (rec : T -> gotype) named v : forall l, dots_last (dparams rec named v l) = true.
Proof.
  induction l as [|[n t] r IH]; auto. cbn [dparams]. destruct r as [|b r]; auto.
  cbn [dots_last]. destruct (dparams rec named v (b :: r)) eqn:E; auto.
Qed.
Lemma no_dots_dparams {T} (rec : T -> gotype) named : forall l, no_dots (dparams rec named false l) = true.
Proof.
  induction l as [|[n t] r IH]; auto. cbn [dparams no_dots forallb]. unfold no_dots in IH. rewrite IH.
  destruct r; auto.
Qed.
Lemma resolve_reads named v l : resolve_entries (entries named v l) = Some (dparams denote named v l).
Proof.
  unfold resolve_entries. destruct named.
  - destruct l as [|[n t] r]; auto. replace (existsb is_named (entries true v (mkArg n t :: r))) with true by reflexivity.
    rewrite group_entries, dots_last_dparams. auto.
  - rewrite unnamed_entries, typed_entries, dots_last_dparams. auto.
Qed.

(** ** Signatures *)
Lemma follow_no_result ts : follow ts = true ->
  expect "(" ts = None /\ match ts with t :: _ => type_start t = false | [] => True end.
Proof.
  destruct ts as [|[s|s|s|s|s|s|s] r]; try discriminate; auto.
  cbn [follow existsb]. intros H.
  repeat (apply orb_true_iff in H as [H|H]; [apply String.eqb_eq in H; subst; split; reflexivity|]).
  discriminate.
Qed.
Lemma psig_reads a r v fuel rest : args_ok v a -> args_ok false r ->
  4 * List.length (sig_toks toks (mkSig a r v)) + 1 <= fuel -> follow rest = true ->
  psig fuel (sig_toks toks (mkSig a r v) ++ rest) =
  Some (dparams denote (has_names a) v a, dparams denote (has_names r) false r, rest).
Proof.
  intros OA OR L F. destruct fuel as [|f]; [lia|].
  cbn [sig_toks List.length app] in *. rewrite app_length in L. cbn [List.length] in L.
  cbn [psig expect String.eqb Ascii.eqb Bool.eqb bind]. rewrite <- app_assoc. cbn [app].
  rewrite pentries_reads by (auto; lia). cbn [bind]. rewrite resolve_reads. cbn [bind].
  destruct r as [|x r].
  - cbn [app]. destruct (follow_no_result _ F) as [E H]. rewrite E.
    destruct rest; auto. rewrite H. auto.
  - set (rr := x :: r) in *.
    destruct (Nat.ltb 1 (List.length rr) || has_names rr) eqn:P.
    + cbn [app expect String.eqb Ascii.eqb Bool.eqb List.length] in *. rewrite app_length in L.
      cbn [List.length] in L. rewrite <- app_assoc. cbn [app].
      rewrite pentries_reads by (auto; lia). cbn [bind]. rewrite resolve_reads. cbn [bind].
      rewrite no_dots_dparams. auto.
    + apply orb_false_iff in P as [P1 P2]. subst rr. destruct r as [|y r]; [|discriminate].
      rewrite P2 in *. destruct x as [n t]. cbn [args_ok args_toks app dparams] in *.
      rewrite app_nil_r in *. destruct OR as [(NN & R & _) _]. cbn [ArgTy] in *.
      specialize (R f rest ltac:(lia) F).
      destruct (shape_of t NN) as [? T|? ? T|h q T H]; rewrite T in *; cbn [app expect] in *.
      * cbn [type_start]. rewrite R. auto.
      * cbn [type_start]. rewrite R. auto.
      * destruct h; try discriminate H.
        -- unfold heads in H. cbn [type_start]. rewrite H, R. auto.
        -- unfold heads in H. cbn [type_start]. rewrite H, R.
           cbn [existsb] in H. destruct (String.eqb_spec "(" s); [subst; discriminate|]. auto.
Qed.

Lemma args_okP l v : PArgs PP l -> forallb (fun x => wf (ArgTy x)) l = true ->
  forallb (fun x => sep_ok (ArgTy x)) l = true ->
  (v = true -> match rev l with [] => True | a :: _ => is_slice (ArgTy a) = true end) ->
  args_ok v l.
Proof.
  intros P W X V. induction l as [|a r IH]; [exact I|].
  inversion P as [|? ? P1 P2]; subst. cbn [forallb] in *.
  apply andb_true_iff in W as [W1 W2]. apply andb_true_iff in X as [X1 X2].
  destruct (P1 W1 X1) as [R1 R2]. cbn [args_ok]. split.
  - split; [apply wf_not_nil; auto|]. split; auto. intros D. destruct r as [|b r]; [|discriminate].
    subst v. specialize (V eq_refl). simpl in V. destruct (ArgTy a) as [| | | |e| | | | | |] eqn:E; try discriminate.
    exists e. repeat split; auto. intros ->. discriminate.
  - apply IH; auto. intros E. specialize (V E). simpl in V.
    destruct (rev r) as [|b l]; [exact I|exact V].
Qed.
Lemma sig_okP a r v : PSig PP (mkSig a r v) -> variadic_ok (mkSig a r v) = true ->
  forallb (fun x => wf (ArgTy x)) a = true -> forallb (fun x => wf (ArgTy x)) r = true ->
  forallb (fun x => sep_ok (ArgTy x)) a = true -> forallb (fun x => sep_ok (ArgTy x)) r = true ->
  args_ok v a /\ args_ok false r.
Proof.
  intros [PA PR] V WA WR TA TR. cbn [Args Results] in *. split; apply args_okP; auto; try discriminate.
  intros ->. unfold variadic_ok in V. cbn [IsVariadic Args negb orb] in V. destruct (rev a); auto.
Qed.

(** ** Struct fields *)
Definition field_of (f : FieldType) : gfield :=
  match f with mkField n t tag => (opt_name n, denote t, tag) end.
Definition field_ok (f : FieldType) : Prop :=
  FldType f <> TNil /\ reads (FldType f) /\ (FldName f = "" -> embeddable (FldType f) = true).
Definition sep_follow (ts : list token) : Prop := exists r, ts = TOp ";" :: r \/ ts = TOp "}" :: r.
Lemma sep_follow_follow ts : sep_follow ts -> follow ts = true.
Proof. intros (r & [-> | ->]); reflexivity. Qed.

Lemma embeddable_denote t : embeddable t = true ->
  exists q n, denote t = GName q n \/ denote t = GPtr (GName q n).
Proof.
  destruct t as [| | |e| | | | | | |]; try discriminate; cbn; eauto.
  destruct e; try discriminate; cbn; eauto.
Qed.
Lemma pfield_reads f fuel rest : field_ok f -> 4 * List.length (field_toks f) + 1 <= fuel ->
  sep_follow rest -> pfield fuel (field_toks f ++ rest) = Some ([field_of f], rest).
Proof.
  destruct f as [n t tag]. intros (NN & R & EM) L F. cbn [FldType FldName] in *.
  destruct fuel as [|g]; [lia|]. cbn [field_toks field_of] in *. unfold opt_name.
  set (tg := if String.eqb tag "" then [] else [TStr tag]) in *.
  assert (FT : follow (tg ++ rest) = true).
  { subst tg. destruct (String.eqb tag ""); [apply sep_follow_follow; auto|reflexivity]. }
  assert (TG : forall (A : Type) (mk : string -> list token -> A),
    match tg ++ rest with TStr tag :: r1 => mk tag r1 | _ => mk "" (tg ++ rest) end = mk tag rest).
  { intros A mk. subst tg. destruct (String.eqb_spec tag ""); [subst; cbn [app]|reflexivity].
    destruct F as (r & [-> | ->]); reflexivity. }
  rewrite !app_length in L. specialize (R g (tg ++ rest)).
  destruct (String.eqb_spec n "") as [->|NE].
  - cbn [app] in *. specialize (EM eq_refl). specialize (R ltac:(lia) FT).
    assert (E : bind (ptype g (toks t ++ tg ++ rest)) (fun '(t, r) =>
      match t with
      | GName _ _ | GPtr (GName _ _) =>
          match r with
          | TStr tag :: r1 => Some ([(None, t, tag)], r1)
          | _ => Some ([(None, t, "")], r)
          end
      | _ => None
      end) = Some ([(@None string, denote t, tag)], rest)).
    { rewrite R. cbn [bind]. destruct (embeddable_denote t EM) as (q & m & [D|D]); rewrite D;
      apply (TG _ (fun tag r1 => Some ([(@None string, _, tag)], r1))). }
    rewrite <- app_assoc.
    destruct (shape_of t NN) as [x T|q m T|h r T H]; rewrite T in *; cbn [app] in *.
    + cbn [pfield]. cbv zeta. rewrite E. destruct (tg ++ rest) as [|tk tl] eqn:TR.
      { subst tg. destruct F as (r & [-> | ->]); destruct (String.eqb tag ""); discriminate. }
      assert (X : tk = TStr tag \/ tk = TOp ";" \/ tk = TOp "}").
      { subst tg. destruct F as (r & [-> | ->]); destruct (String.eqb tag ""); injection TR as <- _; auto. }
      destruct X as [-> | [-> | ->]]; reflexivity.
    + cbn [pfield]. cbv zeta. rewrite E. reflexivity.
    + destruct h; try discriminate H; cbn [pfield]; cbv zeta; rewrite E; reflexivity.
  - cbn [app List.length] in *. specialize (R ltac:(lia) FT). rewrite <- app_assoc.
    destruct (shape_of t NN) as [x T|q m T|h r T H]; rewrite T in *; cbn [app] in *; cbn [pfield]; cbv zeta.
    + rewrite R. cbn [bind]. apply (TG _ (fun tag r1 => Some ([(Some n, denote t, tag)], r1))).
    + rewrite R. cbn [bind]. apply (TG _ (fun tag r1 => Some ([(Some n, denote t, tag)], r1))).
    + destruct h; try discriminate H.
      * rewrite R. cbn [bind]. apply (TG _ (fun tag r1 => Some ([(Some n, denote t, tag)], r1))).
      * cbn [heads existsb] in H.
        destruct (String.eqb_spec s "."); [subst; discriminate|].
        destruct (String.eqb_spec s ";"); [subst; discriminate|].
        destruct (String.eqb_spec s "}"); [subst; discriminate|].
        destruct (String.eqb_spec s ","); [subst; discriminate|].
        cbn [orb]. rewrite R. cbn [bind]. apply (TG _ (fun tag r1 => Some ([(Some n, denote t, tag)], r1))).
Qed.
Lemma field_toks_head f rest : field_ok f ->
  1 <= List.length (field_toks f) /\ expect "}" (field_toks f ++ rest) = None.
Proof.
  destruct f as [n t tag]. intros (NN & _ & _). cbn [FldType] in *. unfold field_toks.
  destruct (String.eqb n ""); [|split; [simpl; lia|reflexivity]]. cbn [app].
  destruct (shape_of t NN) as [? T|? ? T|h r T H]; rewrite T; (split; [simpl; lia|]); try reflexivity.
  destruct h; try discriminate H; try reflexivity. cbn [app expect].
  cbn [heads existsb] in H. destruct (String.eqb_spec "}" s); [subst; discriminate|auto].
Qed.
Lemma pfields_reads : forall l fuel rest, Forall field_ok l ->
  4 * List.length (sep_toks field_toks l) + 2 <= fuel ->
  pfields fuel (sep_toks field_toks l ++ TOp "}" :: rest) = Some (map field_of l, rest).
Proof.
  induction l as [|a r IH]; intros fuel rest OK L.
  { destruct fuel; [lia|]. reflexivity. }
  inversion OK as [|? ? OA OR]; subst. destruct fuel as [|f]; [lia|].
  cbn [sep_toks] in *. rewrite app_length in L.
  destruct (field_toks_head a [] OA) as [POS _].
  rewrite <- app_assoc. cbn [pfields]. destruct (field_toks_head a
    ((match r with [] => [] | _ => TOp ";" :: sep_toks field_toks r end) ++ TOp "}" :: rest) OA) as [_ HD].
  rewrite HD. destruct r as [|b r].
  - cbn [List.length] in L. rewrite pfield_reads; [reflexivity|auto|lia|exists rest; right; reflexivity].
  - cbn [List.length] in L.
    rewrite pfield_reads; [|auto|lia|eexists; left; reflexivity].
    cbn [bind app expect String.eqb Ascii.eqb Bool.eqb]. rewrite IH; [reflexivity|auto|lia].
Qed.

(** ** Interface elements *)
Inductive elem := Emb (s : Symbol) | Mtd (m : MethodType).
Definition elem_toks (e : elem) : list token := match e with Emb s => sym_toks s | Mtd m => method_toks m end.
Definition elem_of (e : elem) : gelem :=
  match e with
  | Emb s => inr (qualifier s, SymName s)
  | Mtd (mkMethod n (mkSig a r v)) =>
      inl (n, dparams denote (has_names a) v a, dparams denote (has_names r) false r)
  end.
Definition elem_ok (e : elem) : Prop :=
  match e with
  | Emb _ => True
  | Mtd (mkMethod _ (mkSig a r v)) => args_ok v a /\ args_ok false r
  end.
Lemma pelems_reads : forall l fuel rest, Forall elem_ok l ->
  4 * List.length (sep_toks elem_toks l) + 2 <= fuel ->
  pelems fuel (sep_toks elem_toks l ++ TOp "}" :: rest) = Some (map elem_of l, rest).
Proof.
  induction l as [|a r IH]; intros fuel rest OK L.
  { destruct fuel; [lia|]. reflexivity. }
  inversion OK as [|? ? OA OR]; subst. destruct fuel as [|f]; [lia|].
  cbn [sep_toks] in *. rewrite app_length in L. rewrite <- app_assoc.
  set (tl := match r with [] => [] | _ => TOp ";" :: sep_toks elem_toks r end ++ TOp "}" :: rest).
  assert (F : sep_follow tl).
  { unfold tl. destruct r; eexists; [right|left]; reflexivity. }
  assert (ONE : 1 <= List.length (elem_toks a) /\ expect "}" (elem_toks a ++ tl) = None /\
     match elem_toks a ++ tl with
          | TIdent x :: r =>
              match expect "(" r with
              | Some _ => bind (psig f r) (fun '(ps, rs, r1) => Some (inl (x, ps, rs), r1))
              | None =>
                  bind (ptype f (elem_toks a ++ tl)) (fun '(t, r1) =>
                  match t with GName q n => Some (inr (q, n), r1) | _ => None end)
              end
          | _ => None
          end = Some (elem_of a, tl)).
  { destruct a as [s|[n [aa rr v]]]; cbn [elem_toks elem_of].
    - destruct f as [|g]; [cbn in L; unfold sym_toks in L; destruct (qualifier s); cbn in L; lia|].
      unfold sym_toks. destruct (qualifier s) as [q|] eqn:Q.
      + split; [cbn; lia|]. split; reflexivity.
      + split; [cbn; lia|]. split; [reflexivity|]. destruct F as (u & [-> | ->]); reflexivity.
    - split; [cbn; lia|]. split; [reflexivity|].
      cbn [method_toks app]. destruct OA as [OA1 OA2].
      change (expect "(" (sig_toks toks (mkSig aa rr v) ++ tl)) with
        (Some (args_toks toks (has_names aa) v aa ++ (TOp ")" :: match rr with
          | [] => [] | _ => if Nat.ltb 1 (List.length rr) || has_names rr
             then TOp "(" :: args_toks toks (has_names rr) false rr ++ [TOp ")"]
             else args_toks toks (has_names rr) false rr end)) ) || idtac.
      cbn [elem_toks method_toks List.length] in L.
      assert (PS := psig_reads aa rr v f tl OA1 OA2 ltac:(lia) (sep_follow_follow _ F)).
      destruct (expect "(" (sig_toks toks (mkSig aa rr v) ++ tl)) eqn:E; [|discriminate E].
      rewrite PS. reflexivity. }
  destruct ONE as (POS & HD & BODY). cbn [pelems]. rewrite HD, BODY. cbn [bind]. unfold tl.
  destruct r as [|b r].
  - reflexivity.
  - cbn [List.length] in L.
    cbn [app expect String.eqb Ascii.eqb Bool.eqb]. rewrite IH; [reflexivity|auto|lia].
Qed.

Lemma sep_embs es : sep_toks sym_toks es = sep_toks elem_toks (map Emb es).
Proof. induction es as [|x r IH]; auto. cbn [sep_toks map]. rewrite IH. destruct r; auto. Qed.
Lemma sep_mtds ms : sep_toks method_toks ms = sep_toks elem_toks (map Mtd ms).
Proof. induction ms as [|x r IH]; auto. cbn [sep_toks map]. rewrite IH. destruct r; auto. Qed.

Lemma sep_toks_app {T} (tk : T -> list token) a b : sep_toks tk (a ++ b) =
  sep_toks tk a ++ match a, b with _ :: _, _ :: _ => [TOp ";"] | _, _ => [] end ++ sep_toks tk b.
Proof.
  induction a as [|x a IH]; [reflexivity|]. cbn [app sep_toks]. rewrite IH. destruct a as [|y a]; destruct b as [|z b]; cbn [app];
    rewrite <- ?app_assoc, ?app_nil_r; reflexivity.
Qed.

(** ** Types *)
Lemma type_reads_sep : forall t, PP t.
Proof.
  induction t using TypeName_ind'; intros WF TX;
    (split; [intros fuel rest L F; destruct fuel as [|f]; [try (cbn in L; lia)|]|try (intros ? ?; discriminate)]).
  - discriminate.
  - discriminate.
  - cbn [toks app denote_with ptype]. destruct rest as [|[s|s|s|s|s|s|s] r]; try reflexivity; try discriminate.
    destruct (String.eqb_spec s "."); [subst; discriminate|]. reflexivity.
  - cbn in L. unfold sym_toks in L. destruct (qualifier s); cbn in L; lia.
  - cbn [toks denote_with]. unfold sym_toks. destruct (qualifier s) as [q|]; [reflexivity|].
    cbn [app ptype]. destruct rest as [|[x|x|x|x|x|x|x] r]; try reflexivity; try discriminate.
    destruct (String.eqb_spec x "."); [subst; discriminate|]. reflexivity.
  - destruct (IHt WF TX) as [R _]. cbn [toks app denote_with ptype String.eqb Ascii.eqb Bool.eqb List.length] in *.
    rewrite R by (auto; lia). reflexivity.
  - destruct (IHt WF TX) as [R _]. cbn [toks List.length] in L.
    cbn [toks app denote_with ptype String.eqb Ascii.eqb Bool.eqb expect bind].
    rewrite R by (auto; lia). reflexivity.
  - intros e [= <-]. destruct (IHt WF TX) as [R _]. exact R.
  - cbn [wf] in WF. apply andb_true_iff in WF as [N WF]. destruct (IHt WF TX) as [R _].
    cbn [toks List.length] in L.
    cbn [toks app denote_with ptype String.eqb Ascii.eqb Bool.eqb expect bind].
    rewrite R by (auto; lia). reflexivity.
  - cbn [wf] in WF. apply andb_true_iff in WF as [W1 W2].
    cbn [sep_ok] in TX. apply andb_true_iff in TX as [T1 T2].
    destruct (IHt1 W1 T1) as [R1 _]. destruct (IHt2 W2 T2) as [R2 _].
    cbn [toks List.length] in L. rewrite app_length in L. cbn [List.length] in L.
    cbn [toks app denote_with ptype String.eqb Ascii.eqb Bool.eqb expect bind].
    rewrite <- app_assoc. rewrite R2; [|lia|reflexivity].
    cbn [app String.eqb Ascii.eqb Bool.eqb expect bind]. rewrite R1 by (auto; lia). reflexivity.
  - cbn in L. destruct (d =? 1)%Z; cbn in L; lia.
  - cbn [wf] in WF. apply andb_true_iff in WF as [W1 W2].
    cbn [sep_ok] in TX. apply andb_true_iff in TX as [T1 T2].
    destruct (IHt W2 T2) as [R _]. cbn [toks denote_with] in *. unfold denote_dir.
    destruct (Z.eqb_spec d 1) as [->|D1].
    + cbn [List.length app Z.eqb Pos.eqb] in L.
      cbn [app Z.eqb Pos.eqb ptype String.eqb Ascii.eqb Bool.eqb].
      rewrite R by (auto; lia). reflexivity.
    + destruct (Z.eqb_spec d 2) as [->|D2].
      * cbn [List.length app] in L.
        cbn [app ptype String.eqb Ascii.eqb Bool.eqb expect].
        rewrite R by (auto; lia). reflexivity.
      * cbn [List.length app] in L. assert (d = 3%Z) as -> by lia.
        cbn [Z.eqb Pos.eqb andb] in T1. apply negb_true_iff in T1.
        cbn [app ptype String.eqb Ascii.eqb Bool.eqb].
        assert (E : expect "<-" (toks t ++ rest) = None).
        { destruct t as [|k|s|e|e|e n|e k|e d'|sg|fs|ms es]; try reflexivity; try discriminate W2.
          - cbn. unfold sym_toks. destruct (qualifier s); reflexivity.
          - cbn [toks]. cbn [recv_chan] in T1. rewrite T1. reflexivity. }
        rewrite E, R by (auto; lia). reflexivity.
  - destruct s as [a r v]. cbn [wf] in WF. apply andb_true_iff in WF as [WV WF1].
    apply andb_true_iff in WF1 as [WA WR].
    cbn [sep_ok] in TX. rewrite !andb_true_iff in TX. destruct TX as [[[NA NR] TA] TR].
    destruct (sig_okP a r v) as [OA OR]; auto.
    change (toks (TFunc (mkSig a r v))) with (TKw "func" :: sig_toks toks (mkSig a r v)) in *.
    cbn [List.length] in L. cbn [app ptype String.eqb Ascii.eqb Bool.eqb denote_with].
    rewrite psig_reads by (auto; lia). reflexivity.
  - cbn [wf sep_ok] in *.
    change (toks (TStruct fs)) with (TKw "struct" :: TOp "{" :: sep_toks field_toks fs ++ [TOp "}"]) in *.
    cbn [List.length] in L. rewrite app_length in L. cbn [List.length] in L.
    cbn [app ptype String.eqb Ascii.eqb Bool.eqb denote_with expect bind]. rewrite <- app_assoc. cbn [app].
    rewrite pfields_reads; [reflexivity| |lia].
    rewrite Forall_forall in *. rewrite forallb_forall in WF, TX. intros x I.
    specialize (TX x I). apply andb_true_iff in TX as [TN TX]. specialize (WF x I).
    destruct (H x I WF TX) as [R _]. split; [apply wf_not_nil; auto|]. split; auto.
    intros E. rewrite E in TN. exact TN.
  - cbn [wf sep_ok] in *. apply andb_true_iff in TX as [TE TM].
    change (toks (TInterface ms es)) with (TKw "interface" :: TOp "{" ::
       sep_toks sym_toks es ++ match es, ms with _ :: _, _ :: _ => [TOp ";"] | _, _ => [] end ++ sep_toks method_toks ms ++ [TOp "}"]) in *.
    assert (E : sep_toks sym_toks es ++ match es, ms with _ :: _, _ :: _ => [TOp ";"] | _, _ => [] end ++ sep_toks method_toks ms ++ [TOp "}"] =
       sep_toks elem_toks (map Emb es ++ map Mtd ms) ++ [TOp "}"]).
    { rewrite sep_embs, sep_mtds, sep_toks_app. destruct es, ms; rewrite <- ?app_assoc, ?app_nil_r; reflexivity. }
    rewrite E in *. cbn [List.length] in L. rewrite app_length in L. cbn [List.length] in L.
    cbn [app ptype String.eqb Ascii.eqb Bool.eqb denote_with expect bind]. rewrite <- app_assoc. cbn [app].
    rewrite pelems_reads; [| |lia].
    + cbn [bind]. rewrite map_app, !map_map. cbn [elem_of]. reflexivity.
    + apply Forall_app. split; [apply Forall_forall; intros x IN; apply in_map_iff in IN as (y & <- & _); exact I|].
      rewrite Forall_forall in *. rewrite forallb_forall in WF, TM. intros x I.
      apply in_map_iff in I as ([n [a r v]] & <- & I). specialize (WF _ I). specialize (TM _ I).
      specialize (H _ I). cbv beta iota in WF, TM, H. cbn [MtdSig] in H. rewrite !andb_true_iff in WF, TM.
      destruct WF as (WV & WA & WR). destruct TM as (_ & TA & TR).
      apply andb_true_iff in TA as [_ TA].
      apply sig_okP; auto.
Qed.

(** types that can be written can be read *)
Lemma text_sep t : text_ok t = true -> sep_ok t = true.
Proof.
  assert (AR : forall (l : list ArgType), PArgs (fun t => text_ok t = true -> sep_ok t = true) l ->
    forallb (fun x => text_ok (ArgTy x)) l = true -> forallb (fun x => sep_ok (ArgTy x)) l = true).
  { intros l P. unfold PArgs in P. rewrite Forall_forall in P. rewrite !forallb_forall. intros H x I. apply P; auto. }
  induction t as [ |k|s|e IH|e IH|e n IH|e k IHe IHk|e d IH|s IH|fs IH|ms es IH] using TypeName_ind'; cbn [text_ok sep_ok]; auto.
  - rewrite !andb_true_iff. intros [A B]. auto.
  - rewrite !andb_true_iff. intros [A B]. auto.
  - destruct s as [a r v], IH as [HA HR]. rewrite !andb_true_iff. intros [[[A B] C] D]. auto.
  - rewrite !forallb_forall. rewrite Forall_forall in IH. intros H x I. specialize (H x I). apply andb_true_iff in H as [A B].
    apply andb_true_iff. split; auto.
  - rewrite !andb_true_iff. intros [[_ A] B]. split; auto. rewrite forallb_forall in *. rewrite Forall_forall in IH.
    intros [n [a r v]] I. specialize (B _ I). destruct (IH _ I) as [HA HR]. cbn in HA, HR. rewrite !andb_true_iff in *.
    destruct B as [B0 [[[B1 B2] B3] B4]]. repeat split; auto.
Qed.
Lemma type_reads t : wf t = true -> text_ok t = true -> reads t /\ (forall e, t = TSlice e -> reads e).
Proof. intros W X. apply type_reads_sep; auto. apply text_sep; auto. Qed.
Lemma ptype_sep t : wf t = true -> sep_ok t = true ->
  ptype (fuel_for (toks t)) (toks t) = Some (denote t, []).
Proof.
  intros W X. destruct (type_reads_sep t W X) as [R _]. unfold fuel_for.
  specialize (R (S (4 * List.length (toks t))) [] ltac:(lia) eq_refl). rewrite app_nil_r in R. exact R.
Qed.
Lemma ptype_all t : wf t = true -> text_ok t = true ->
  ptype (fuel_for (toks t)) (toks t) = Some (denote t, []).
Proof. intros W X. apply ptype_sep; auto. apply text_sep; auto. Qed.
Lemma args_sep (l : list ArgType) : forallb (fun x => text_ok (ArgTy x)) l = true -> forallb (fun x => sep_ok (ArgTy x)) l = true.
Proof. rewrite !forallb_forall. intros H x I. apply text_sep, H, I. Qed.
Lemma psig_all s : wf_sig s = true -> sig_text_ok s = true ->
  psig (fuel_for (sig_toks toks s)) (sig_toks toks s) = Some (denote_sig s, []).
Proof.
  destruct s as [a r v]. unfold wf_sig, sig_text_ok. cbn [Args Results]. rewrite !andb_true_iff.
  intros [[V WA] WR] [[[NA NR] TA] TR].
  destruct (sig_okP a r v) as [OA OR]; auto using args_sep.
  { split; apply Forall_forall; intros; apply type_reads_sep. }
  pose proof (psig_reads a r v (fuel_for (sig_toks toks (mkSig a r v))) [] OA OR) as P.
  rewrite app_nil_r in P. rewrite P; [reflexivity| |reflexivity]. unfold fuel_for. lia.
Qed.

Section WithPrint.
Variable isPrint : N -> bool.
Theorem type_text_parses t : wf t = true -> text_ok t = true ->
  exists s, typeNameToBuffer isPrint t = Ok s /\ parse_type s = Some (denote t).
Proof.
  intros W X. destruct (type_renders isPrint t W X) as [(s & E & L) _].
  exists s. split; auto. unfold parse_type. rewrite (lexo_lex _ _ L), ptype_all; auto.
Qed.
Theorem signature_text_parses sg : wf_sig sg = true -> sig_text_ok sg = true ->
  exists s, signatureToBuffer isPrint sg = Ok s /\ parse_signature s = Some (denote_sig sg).
Proof.
  intros W X. destruct (signature_renders isPrint sg W X) as (s & E & L).
  exists s. split; auto. unfold parse_signature. rewrite (lexo_lex _ _ L), psig_all; auto.
Qed.
End WithPrint.
