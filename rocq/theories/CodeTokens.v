(** The tokens of types in code: how they end, and the qualifiers among them. *)
From Verif Require Import Base BaseFacts Types SpecTypes TypesFacts SpecImports SpecGo SpecRender LexProofs TextProofs SpecFile FileLexProofs SpecScope.

(** ** A type ends like an operand *)
Definition closes (ts : list token) : Prop := forall e, ends_after e ts = true.
Lemma closes_app a b : closes b -> closes (a ++ b).
Proof. intros H e. rewrite ends_after_app. apply H. Qed.
Lemma closes_cons t b : closes b -> closes (t :: b).
Proof. intros H. apply (closes_app [t]), H. Qed.
Lemma closes_one t : ends_line t = true -> closes [t].
Proof. intros H e. exact H. Qed.
Lemma sym_closes s : closes (sym_toks s).
Proof. unfold sym_toks. destruct (qualifier s); intros e; reflexivity. Qed.
Definition PC (t : TypeName) : Prop := wf t = true -> closes (toks t).
Lemma sig_closes a r v : Forall (fun x => PC (ArgTy x)) r -> forallb (fun x => wf (ArgTy x)) r = true -> closes (sig_toks toks (mkSig a r v)).
Proof.
  intros F W. unfold sig_toks. apply closes_cons, closes_app. destruct r as [|[n t] r]; [apply closes_one; reflexivity|].
  apply closes_cons. destruct (Nat.ltb 1 (List.length (mkArg n t :: r)) || has_names (mkArg n t :: r)) eqn:B.
  - apply closes_cons, closes_app, closes_one. reflexivity.
  - destruct r as [|x r]; [|discriminate]. apply orb_false_iff in B as [_ B]. rewrite B. cbn [args_toks app]. rewrite app_nil_r.
    inversion F; subst. cbn in W. rewrite andb_true_r in W. auto.
Qed.
Lemma type_closes : forall t, PC t.
Proof.
  induction t using TypeName_ind'; intros W; cbn [wf] in W; try discriminate; cbn [toks].
  - apply closes_one. reflexivity.
  - apply sym_closes.
  - apply closes_cons; auto.
  - apply closes_cons, closes_cons; auto.
  - apply andb_true_iff in W as [_ W]. apply closes_cons, closes_cons, closes_cons; auto.
  - apply andb_true_iff in W as [W _]. apply closes_cons, closes_cons, closes_app, closes_cons; auto.
  - apply andb_true_iff in W as [_ W]. apply closes_app, closes_cons, closes_app; auto.
  - destruct s as [a r v]. apply andb_true_iff in W as [_ W]. apply andb_true_iff in W as [_ W]. destruct H as [_ H]. cbn [Args Results] in H.
    apply closes_cons, sig_closes; auto.
  - apply closes_cons, closes_cons, closes_app, closes_one. reflexivity.
  - apply closes_cons, closes_cons, closes_app, closes_app, closes_app, closes_one. reflexivity.
Qed.

(** ** Qualifiers *)
Definition dotted (d : bool) (ts : list token) : bool := fold_left (fun _ t => is_op "." t) ts d.
Lemma dotted_app d a b : dotted d (a ++ b) = dotted (dotted d a) b.
Proof. apply fold_left_app. Qed.
Lemma dot_is_op t : match t with TOp o => String.eqb o "." | _ => false end = is_op "." t.
Proof. destruct t; reflexivity. Qed.
Lemma selected_cons q d t r : In q (selected (is_op "." t) r) -> In q (selected d (t :: r)).
Proof. intros H. cbn [selected]. apply in_or_app. right. rewrite dot_is_op. exact H. Qed.
Lemma selected_right q : forall a d b, In q (selected (dotted d a) b) -> In q (selected d (a ++ b)).
Proof.
  induction a as [|t a IH]; intros d b H; [exact H|]. cbn [app]. apply selected_cons, IH. exact H.
Qed.
Lemma selected_left q : forall a d b, In q (selected d a) -> In q (selected d (a ++ b)).
Proof.
  induction a as [|t a IH]; intros d b H; [destruct H|]. cbn [app selected] in *. apply in_app_or in H as [H|H]; apply in_or_app; [left|right; auto].
  destruct t; try destruct H. destruct a as [|u a]; [destruct H|exact H].
Qed.
Lemma not_dotted d ts : ts <> [] -> (forall e, ends_after e ts = true) -> dotted d ts = false.
Proof.
  intros NE C. destruct (exists_last NE) as (l & t & ->). rewrite dotted_app. specialize (C false). rewrite ends_after_app in C.
  cbn in C |- *. destruct t; auto. cbn [is_op]. destruct (String.eqb_spec s "."); auto. subst. discriminate.
Qed.
Lemma closes_not_nil ts : closes ts -> ts <> [].
Proof. intros C ->. discriminate (C false). Qed.
Lemma closed_not_dotted d ts : closes ts -> dotted d ts = false.
Proof. intros C. apply not_dotted; auto. apply closes_not_nil, C. Qed.

Definition shows (q : string) (ts : list token) : Prop := In q (selected false ts).
Lemma shows_left q a b : shows q a -> shows q (a ++ b).
Proof. apply selected_left. Qed.
Lemma shows_right q a b : dotted false a = false -> shows q b -> shows q (a ++ b).
Proof. intros D H. apply selected_right. rewrite D. exact H. Qed.
Lemma shows_cons q t b : is_op "." t = false -> shows q b -> shows q (t :: b).
Proof. intros D H. apply selected_cons. rewrite D. exact H. Qed.
Lemma sym_shows s q : qualifier s = Some q -> shows q (sym_toks s).
Proof. unfold sym_toks. intros ->. left. reflexivity. Qed.

Definition PS (t : TypeName) : Prop := wf t = true -> forall s q, In s (symbols_of t) -> qualifier s = Some q -> shows q (toks t).
(** the first two tokens of a slice are brackets *)
Lemma slice_tail q e : shows q (toks (TSlice e)) -> shows q (skipn 2 (toks (TSlice e))).
Proof. cbn [toks skipn]. unfold shows. cbn [selected app]. change (is_op "." (TOp "[")) with false. auto. Qed.
Lemma args_show named v l s q : Forall (fun x => PS (ArgTy x)) l -> forallb (fun x => wf (ArgTy x)) l = true ->
  (v = true -> match rev l with x :: _ => match ArgTy x with TSlice _ => True | _ => False end | [] => True end) ->
  In s (args_symbols symbols_of l) -> qualifier s = Some q -> shows q (args_toks toks named v l).
Proof.
  intros F. induction F as [|[n t] l H F IH]; intros W V IN Q; [destruct IN|].
  cbn [forallb ArgTy] in W, H. apply andb_true_iff in W as [W WL]. unfold args_symbols in *. cbn [flat_map ArgTy] in IN. cbn [args_toks].
  apply shows_right; [destruct named; reflexivity|].
  apply in_app_or in IN as [IN|IN].
  - apply shows_left. specialize (H W s q IN Q). destruct l as [|x l]; [|exact H]. destruct v; [|exact H].
    specialize (V eq_refl). cbn [rev app ArgTy] in V. destruct t; try contradiction.
    apply shows_cons; [reflexivity|]. apply slice_tail, H.
  - destruct l as [|x l]; [destruct IN|]. apply shows_right; [apply closed_not_dotted, type_closes, W|].
    apply shows_cons; [reflexivity|]. apply IH; auto. intros E. specialize (V E). cbn [rev] in V |- *.
    destruct (rev l); cbn [app] in *; auto.
Qed.
Lemma args_not_dotted named v l : forallb (fun x => wf (ArgTy x)) l = true ->
  (v = true -> match rev l with x :: _ => match ArgTy x with TSlice _ => True | _ => False end | [] => True end) ->
  forall d, dotted d (args_toks toks named v l) = match l with [] => d | _ => false end.
Proof.
  induction l as [|[n t] l IH]; intros W V d; [reflexivity|]. cbn [forallb ArgTy] in W. apply andb_true_iff in W as [W WL]. cbn [args_toks].
  rewrite !dotted_app. destruct l as [|x l].
  - cbn [dotted fold_left]. destruct v; [|apply closed_not_dotted, type_closes, W].
    specialize (V eq_refl). cbn [rev app ArgTy] in V. destruct t; try contradiction. cbn [toks skipn].
    apply closed_not_dotted, closes_cons. exact (type_closes t W).
  - cbn [dotted fold_left]. change (fold_left (fun _ t => is_op "." t) (args_toks toks named v (x :: l)) (is_op "." (TOp ",")))
      with (dotted false (args_toks toks named v (x :: l))). rewrite IH; auto.
    intros E. specialize (V E). cbn [rev] in V |- *. destruct (rev l); cbn [app] in *; auto.
Qed.
Lemma variadic_slice a r v : variadic_ok (mkSig a r v) = true -> v = true ->
  match rev a with x :: _ => match ArgTy x with TSlice _ => True | _ => False end | [] => True end.
Proof.
  unfold variadic_ok. cbn [IsVariadic Args]. intros H ->. destruct (rev a) as [|x l]; auto. destruct (ArgTy x); try discriminate; exact Logic.I.
Qed.
Lemma sig_shows a r v s q : PSig PS (mkSig a r v) -> variadic_ok (mkSig a r v) = true ->
  forallb (fun x => wf (ArgTy x)) a && forallb (fun x => wf (ArgTy x)) r = true ->
  In s (sig_symbols_ symbols_of (mkSig a r v)) -> qualifier s = Some q -> shows q (sig_toks toks (mkSig a r v)).
Proof.
  intros [A R] V W IN Q. cbn [Args Results] in A, R. apply andb_true_iff in W as [WA WR]. unfold sig_toks. apply shows_cons; [reflexivity|].
  cbn [sig_symbols_] in IN. apply in_app_or in IN as [IN|IN].
  - apply shows_left. eapply args_show; eauto. eapply variadic_slice, V.
  - apply shows_right. { rewrite (args_not_dotted _ _ _ WA); [destruct a; reflexivity|eapply variadic_slice, V]. }
    apply shows_cons; [reflexivity|]. destruct r as [|x r]; [destruct IN|].
    assert (X : shows q (args_toks toks (has_names (x :: r)) false (x :: r))) by (eapply args_show; eauto; discriminate).
    destruct (_ || _); [|exact X]. apply shows_cons; [reflexivity|]. apply shows_left, X.
Qed.
Lemma sep_shows {T} (rec : T -> list token) l x q : In x l -> (forall y, In y l -> closes (rec y)) -> shows q (rec x) -> shows q (sep_toks rec l).
Proof.
  induction l as [|y l IH]; intros IN C H; [destruct IN|]. cbn [sep_toks]. destruct IN as [->|IN].
  - apply shows_left, H.
  - apply shows_right; [apply closed_not_dotted, C; left; auto|]. destruct l as [|z l]; [destruct IN|].
    apply shows_cons; [reflexivity|]. apply IH; auto. intros u I. apply C. right. exact I.
Qed.
Lemma sep_not_dotted {T} (rec : T -> list token) l : (forall y, In y l -> closes (rec y)) -> dotted false (sep_toks rec l) = false.
Proof.
  induction l as [|y l IH]; intros C; [reflexivity|]. cbn [sep_toks]. rewrite dotted_app.
  rewrite (closed_not_dotted _ (rec y)) by (apply C; left; auto). destruct l as [|z l]; [reflexivity|].
  apply IH. intros u I. apply C. right. exact I.
Qed.
Lemma method_closes ms : forallb (fun m => match m with mkMethod _ s => variadic_ok s && match s with mkSig args results _ =>
    forallb (fun a => wf (ArgTy a)) args && forallb (fun a => wf (ArgTy a)) results end end) ms = true ->
  forall y, In y ms -> closes (match y with mkMethod n s => TIdent n :: sig_toks toks s end).
Proof.
  intros W [n [a r v]] IN. rewrite forallb_forall in W. specialize (W _ IN). cbn in W. apply andb_true_iff in W as [_ W]. apply andb_true_iff in W as [_ W].
  apply closes_cons, sig_closes; auto. apply Forall_forall. intros x _. apply type_closes.
Qed.
Lemma type_shows : forall t, PS t.
Proof.
  induction t using TypeName_ind'; intros W y q IN Q; cbn [wf] in W; try discriminate; cbn [toks symbols_of] in *; try (destruct IN; fail).
  - destruct IN as [->|[]]. apply sym_shows, Q.
  - apply shows_cons; eauto.
  - apply shows_cons; [reflexivity|]. apply shows_cons; eauto.
  - apply andb_true_iff in W as [_ W]. do 3 (apply shows_cons; [reflexivity|]). eauto.
  - apply andb_true_iff in W as [W WK]. do 2 (apply shows_cons; [reflexivity|]). apply in_app_or in IN as [IN|IN].
    + apply shows_left; eauto.
    + apply shows_right; [apply closed_not_dotted, type_closes; auto|]. apply shows_cons; eauto.
  - apply andb_true_iff in W as [_ W]. apply shows_right; [destruct (d =? 1)%Z; reflexivity|]. apply shows_cons; [reflexivity|].
    apply shows_right; [destruct (d =? 2)%Z; reflexivity|]. eauto.
  - destruct s as [a r v]. apply andb_true_iff in W as [V W]. apply shows_cons; [reflexivity|]. eapply sig_shows; eauto.
  - do 2 (apply shows_cons; [reflexivity|]). apply shows_left. apply in_flat_map in IN as (f & IF & IN).
    rewrite forallb_forall in W. eapply sep_shows; [exact IF| |].
    + intros [n t tag] I. apply closes_app. specialize (W _ I). cbn in W. destruct (String.eqb tag ""); [rewrite app_nil_r; apply type_closes, W|].
      apply closes_app, closes_one. reflexivity.
    + destruct f as [n t tag]. cbn in IN. apply shows_right; [destruct (String.eqb n ""); reflexivity|]. apply shows_left.
      rewrite Forall_forall in H. eapply (H _ IF); eauto.
  - do 2 (apply shows_cons; [reflexivity|]). pose proof (method_closes ms W) as MC. apply in_app_or in IN as [IN|IN].
    + apply shows_left. eapply sep_shows; [exact IN| |apply sym_shows, Q]. intros; apply sym_closes.
    + apply shows_right; [apply sep_not_dotted; intros; apply sym_closes|]. apply shows_right; [destruct es, ms; reflexivity|]. apply shows_left.
      apply in_flat_map in IN as (m & IM & IN). eapply sep_shows; [exact IM|exact MC|]. destruct m as [n [a r v]].
      rewrite forallb_forall in W. specialize (W _ IM). cbn in W. apply andb_true_iff in W as [V W]. rewrite Forall_forall in H. specialize (H _ IM).
      apply shows_cons; [reflexivity|]. eapply sig_shows; eauto.
Qed.
