(** Building code, types, values, functions and files by calls: what the objects contain
    afterwards. *)
From Verif Require Import Base BaseFacts GoPath Types SpecTypes Imports SpecImports SpecGo SpecRender World SpecWorld
  SpecFile SpecDecl WorldProofs DeclText DeclTheorems SpecBuild.

(** [l'] extends [l]. *)
Lemma pre_refl {A} (l : list A) : pre l l. Proof. intros i x H; exact H. Qed.
Lemma pre_trans {A} (a b c : list A) : pre a b -> pre b c -> pre a c. Proof. intros H K i x N. auto. Qed.
Lemma pre_app {A} (l r : list A) : pre l (l ++ r).
Proof. intros i x H. rewrite nth_error_app1; auto. apply nth_error_Some. congruence. Qed.
Lemma pre_length {A} (l l' : list A) : pre l l' -> List.length l <= List.length l'.
Proof.
  intros H. destruct (Nat.le_gt_cases (List.length l) (List.length l')) as [L|L]; auto. exfalso.
  destruct (nth_error l (List.length l')) eqn:E.
  - apply H in E. assert (X : nth_error l' (List.length l') <> None) by congruence. apply nth_error_Some in X. lia.
  - apply nth_error_None in E. lia.
Qed.
Lemma nth_last {A} (l : list A) x : nth_error (l ++ [x]) (List.length l) = Some x.
Proof. rewrite nth_error_app2 by lia. rewrite Nat.sub_diag. reflexivity. Qed.
Lemma upd_last {A} (l : list A) x y : upd (List.length l) y (l ++ [x]) = l ++ [y].
Proof. induction l; cbn; congruence. Qed.
Lemma nth_error_lt {A} (l : list A) i x : nth_error l i = Some x -> i < List.length l.
Proof. intros H. apply nth_error_Some. congruence. Qed.

Section Build.
Context {TD : Type}.
Notation World := (World TD).
Notation WM := (WM (TD := TD)).
Implicit Types w : World.

(** ** Code *)
(** All but the blocks and what they contain. *)
Definition tabs w := (files w, constDecls w, varDecls w, typeDecls w, consts w, vars w, (types w, fields w, ielems w, funcs w)).
Notation parts := (list (list (part TD))).
(** Block [cb] has got [ps] more, the other blocks are as before, others may be new. *)
Definition adds (cb : nat) (ps : list (part TD)) w (m : parts) w' (m' : parts) : Prop :=
  tabs w' = tabs w /\ represents w' m' /\ nth_error m' cb = Some (nth cb m [] ++ ps) /\
  forall i x, i <> cb -> nth_error m i = Some x -> nth_error m' i = Some x.
Definition news (w : World) (m : parts) (w' : World) (m' : parts) (cb : nat) (ps : list (part TD)) : Prop :=
  tabs w' = tabs w /\ represents w' m' /\ nth_error m' cb = Some ps /\ pre m m' /\ List.length m <= cb.

Lemma nth_nth_error {A} (l : list A) i x d : nth_error l i = Some x -> nth i l d = x.
Proof. revert i; induction l; destruct i; cbn; intros H; try discriminate; auto. congruence. Qed.
Lemma adds_app cb p1 p2 w m w1 m1 w2 m2 : adds cb p1 w m w1 m1 -> adds cb p2 w1 m1 w2 m2 -> adds cb (p1 ++ p2) w m w2 m2.
Proof.
  intros (T1 & R1 & N1 & O1) (T2 & R2 & N2 & O2). repeat split; try congruence.
  - rewrite N2. f_equal. rewrite (nth_nth_error _ _ _ [] N1). rewrite app_assoc. reflexivity.
  - intros i x D N. auto.
Qed.
Lemma adds_lt cb p w m w' m' : adds cb p w m w' m' -> cb < List.length m'.
Proof. intros (_ & _ & N & _). eapply nth_error_lt; eauto. Qed.
Lemma upd_adds (w w' : World) (m : parts) cb ps : tabs w' = tabs w -> cb < List.length m ->
  represents w' (upd cb (nth cb m [] ++ ps) m) -> adds cb ps w m w' (upd cb (nth cb m [] ++ ps) m).
Proof.
  intros T L R. repeat split; auto.
  - apply nth_upd_same; auto.
  - intros i x D N. rewrite nth_upd_other; auto.
Qed.
Lemma repr_nth (w : World) m cb : represents w m -> cb < List.length m -> exists b, nth_error (blocks w) cb = Some b.
Proof. intros R L. destruct (Forall2_nth (A := CodeBlock) _ _ _ [] cb R L) as (b & N & _). eauto. Qed.

Lemma printf_adds cb f a (w : World) m : represents w m -> cb < List.length m ->
  exists w' m', CodeBlock_Printf cb f a w = (Ok tt, w') /\ adds cb [PFormat f a] w m w' m'.
Proof.
  intros R L. destruct (printf_represents w m cb f a R L) as [E R']. do 2 eexists. split; [exact E|].
  apply upd_adds; auto. destruct (repr_nth w m cb R L) as [b N].
  unfold CodeBlock_Printf, sbind, get, alloc, put. rewrite N. reflexivity.
Qed.
Lemma render_adds cb t d (w : World) m : represents w m -> cb < List.length m ->
  exists w' m', CodeBlock_RenderCode cb t d w = (Ok tt, w') /\ adds cb [PTemplate t d] w m w' m'.
Proof.
  intros R L. assert (R' := perform_represents w m (BRenderCode cb t d) R L). cbn [perform built] in R'.
  destruct (repr_nth w m cb R L) as [b N].
  exists (snd (CodeBlock_RenderCode cb t d w)). eexists. split; [|apply upd_adds; [|auto|exact R']];
  unfold CodeBlock_RenderCode, sbind, get, alloc, put; rewrite N; reflexivity.
Qed.
Lemma addcode_adds cb c (w : World) m ps : represents w m -> cb < List.length m -> nth_error m c = Some ps ->
  exists w' m', CodeBlock_AddCode cb c w = (Ok tt, w') /\ adds cb ps w m w' m'.
Proof.
  intros R L NC. assert (LC := nth_error_lt _ _ _ NC).
  assert (R' := perform_represents w m (BAddCode cb c) R (conj L LC)). cbn [perform built] in R'.
  rewrite (nth_nth_error _ _ _ [] NC) in R'.
  destruct (repr_nth w m cb R L) as [b N]. destruct (repr_nth w m c R LC) as [b' N'].
  exists (snd (CodeBlock_AddCode cb c w)). eexists. split; [|apply upd_adds; [|auto|exact R']];
  unfold CodeBlock_AddCode, sbind, get, put; rewrite N, N'; reflexivity.
Qed.
Lemma newblock_ok (w : World) m : represents w m ->
  exists w', NewCodeBlock w = (Ok (List.length m), w') /\ tabs w' = tabs w /\ represents w' (m ++ [[]]).
Proof.
  intros R. assert (R' := perform_represents w m BNew R I). cbn [perform built] in R'.
  exists (snd (NewCodeBlock w)). split; [|split; [reflexivity|exact R']].
  unfold NewCodeBlock, alloc. cbn [snd]. rewrite (Forall2_len _ _ _ R). reflexivity.
Qed.

Definition add_ok (c : chunk TD) : Prop := forall cb (w : World) m, represents w m -> cb < List.length m ->
  exists w' m', add_chunk cb c w = (Ok tt, w') /\ adds cb (chunk_parts c) w m w' m'.
Lemma all_add_ok l : Forall add_ok l -> forall cb (w : World) m, represents w m -> cb < List.length m ->
  exists w' m', for_each (add_chunk cb) l w = (Ok tt, w') /\ adds cb (flat_map chunk_parts l) w m w' m'.
Proof.
  induction 1 as [|c l H F IH]; intros cb w m R L; cbn [for_each flat_map].
  - exists w, m. split; [reflexivity|]. split; [reflexivity|]. split; [exact R|]. split; [|auto].
    rewrite app_nil_r. apply nth_error_nth'. exact L.
  - destruct (H cb w m R L) as (w1 & m1 & E1 & A1). unfold sbind. rewrite E1.
    destruct (IH cb w1 m1) as (w2 & m2 & E2 & A2); [apply A1|eapply adds_lt; eauto|]. rewrite E2.
    exists w2, m2. split; auto. eapply adds_app; eauto.
Qed.
Lemma all_is_for_each b (l : list (chunk TD)) w :
  (fix all l := match l with [] => sret tt | c :: r => do _ <- add_chunk b c ;; all r end) l w = for_each (add_chunk b) l w.
Proof. revert w; induction l as [|c l IH]; intros w; [reflexivity|]. cbn [for_each]. unfold sbind. destruct (add_chunk b c w) as [[?|?] ?]; auto. Qed.
Lemma filled_block l : Forall add_ok l -> forall (w : World) m, represents w m ->
  exists w' m' b, (do b <- NewCodeBlock ;; do _ <- for_each (add_chunk b) l ;; sret b) w = (Ok b, w') /\
    news w m w' m' b (flat_map chunk_parts l).
Proof.
  intros F w m R. destruct (newblock_ok w m R) as (w1 & E1 & T1 & R1). unfold sbind at 1. rewrite E1.
  destruct (all_add_ok l F (List.length m) w1 (m ++ [[]]) R1) as (w2 & m2 & E2 & T2 & R2 & N2 & O2);
    [rewrite app_length; cbn; lia|].
  unfold sbind. rewrite E2. exists w2, m2, (List.length m). split; [reflexivity|]. split; [congruence|]. split; [auto|]. split; [|split].
  - rewrite N2. f_equal. rewrite app_nth2 by lia. rewrite Nat.sub_diag. reflexivity.
  - intros i x N. apply O2; [apply nth_error_lt in N; lia|]. apply pre_app; auto.
  - lia.
Qed.
Fixpoint chunk_induction (P : chunk TD -> Prop)
  (H1 : forall t, P (KPrint t)) (H2 : forall t, P (KPrintln t)) (H3 : forall f a, P (KPrintf f a))
  (H4 : forall f a, P (KPrintlnf f a)) (H5 : forall t d, P (KRender t d))
  (H6 : forall l, Forall P l -> P (KCode l)) (c : chunk TD) {struct c} : P c :=
  match c with
  | KPrint t => H1 t | KPrintln t => H2 t | KPrintf f a => H3 f a | KPrintlnf f a => H4 f a | KRender t d => H5 t d
  | KCode l => H6 l ((fix go l : Forall P l := match l with
                      | [] => Forall_nil P
                      | c :: r => Forall_cons c (chunk_induction P H1 H2 H3 H4 H5 H6 c) (go r) end) l)
  end.
Lemma add_chunk_ok c : add_ok c.
Proof.
  induction c as [t|t|f a|f a|t d|l F] using chunk_induction; intros cb w m R L; cbn [add_chunk chunk_parts];
    try (apply printf_adds; auto; fail).
  - apply render_adds; auto.
  - destruct (newblock_ok w m R) as (w1 & E1 & T1 & R1). unfold sbind at 1. rewrite E1. unfold sbind at 1.
    rewrite all_is_for_each.
    destruct (all_add_ok l F (List.length m) w1 (m ++ [[]]) R1) as (w2 & m2 & E2 & T2 & R2 & N2 & O2);
      [rewrite app_length; cbn; lia|]. rewrite E2.
    rewrite app_nth2 in N2 by lia. rewrite Nat.sub_diag in N2. cbn [nth app] in N2.
    assert (NC : nth_error m2 cb = Some (nth cb m [])).
    { apply O2; [lia|]. apply pre_app. apply nth_error_nth'. exact L. }
    destruct (addcode_adds cb (List.length m) w2 m2 _ R2 (nth_error_lt _ _ _ NC) N2) as (w3 & m3 & E3 & T3 & R3 & N3 & O3).
    exists w3, m3. split; [exact E3|]. split; [congruence|]. split; [auto|]. split.
    + rewrite N3. rewrite (nth_nth_error _ _ _ [] NC). reflexivity.
    + intros i x D N. apply O3; auto. apply O2; [apply nth_error_lt in N; lia|]. apply pre_app; auto.
Qed.
Lemma new_block_ok l (w : World) m : represents w m ->
  exists w' m' b, new_block l w = (Ok b, w') /\ news w m w' m' b (flat_map chunk_parts l).
Proof.
  intros R. assert (F := filled_block l (proj2 (Forall_forall _ _) (fun c _ => add_chunk_ok c)) w m R).
  destruct F as (w' & m' & b & E & H). exists w', m', b. split; auto.
  destruct l as [|c [|c' l]]; [exact E| |destruct c; exact E].
  destruct c; try exact E; cbn [new_block]; (etransitivity; [|exact E]);
  cbn [for_each add_chunk]; unfold Print, Println, Printf, Printlnf, RenderCode, sbind;
  destruct (NewCodeBlock w) as [[cb|?] w1]; try reflexivity;
  match goal with |- context [match ?x with _ => _ end] => destruct x as [[[]|?] ?] end; reflexivity.
Qed.
(** The code of a function. *)
Lemma func_chunk_ok fn F c (w : World) m : represents w m -> nth_error (funcs w) fn = Some F -> FNBody F < List.length m ->
  exists w' m', func_chunk fn c w = (Ok tt, w') /\ adds (FNBody F) (chunk_parts c) w m w' m'.
Proof.
  intros R N L.
  assert (G : forall (k : FuncSpec -> WM unit), (do f <- get funcs fn ;; k f) w = k F w).
  { intros k. unfold sbind, get. rewrite N. reflexivity. }
  destruct c; cbn [func_chunk]; unfold Func_Print, Func_Println, Func_Printf, Func_Printlnf, Func_RenderCode; rewrite ?G;
    try (apply (add_chunk_ok (KPrint _)); auto; fail); try (apply (add_chunk_ok (KPrintln _)); auto; fail);
    try (apply (add_chunk_ok (KPrintf _ _)); auto; fail); try (apply (add_chunk_ok (KPrintlnf _ _)); auto; fail);
    try (apply (add_chunk_ok (KRender _ _)); auto; fail).
  destruct (new_block_ok l w m R) as (w1 & m1 & b & E1 & T1 & R1 & N1 & P1 & B1). unfold sbind. rewrite E1.
  unfold Func_AddCode, sbind, get.
  assert (NF : nth_error (funcs w1) fn = Some F) by (unfold tabs in T1; congruence). rewrite NF.
  assert (NB : nth_error m1 (FNBody F) = Some (nth (FNBody F) m [])) by (apply P1, nth_error_nth'; auto).
  destruct (addcode_adds (FNBody F) b w1 m1 _ R1 (nth_error_lt _ _ _ NB) N1) as (w2 & m2 & E2 & T2 & R2 & N2 & O2).
  exists w2, m2. split; [exact E2|]. split; [congruence|]. split; [auto|]. split.
  - rewrite N2. rewrite (nth_nth_error _ _ _ [] NB). reflexivity.
  - intros i x D NI. auto.
Qed.
Lemma func_code_ok fn F l : forall (w : World) m, represents w m -> nth_error (funcs w) fn = Some F -> FNBody F < List.length m ->
  exists w' m', for_each (func_chunk fn) l w = (Ok tt, w') /\ adds (FNBody F) (flat_map chunk_parts l) w m w' m'.
Proof.
  induction l as [|c l IH]; intros w m R N L; cbn [for_each flat_map].
  - exists w, m. split; [reflexivity|]. split; [reflexivity|]. split; [exact R|]. split; [|auto].
    rewrite app_nil_r. apply nth_error_nth'. exact L.
  - destruct (func_chunk_ok fn F c w m R N L) as (w1 & m1 & E1 & A1). unfold sbind. rewrite E1.
    destruct (IH w1 m1) as (w2 & m2 & E2 & A2); [apply A1|destruct A1 as (T & _); unfold tabs in T; congruence|eapply adds_lt; eauto|].
    rewrite E2. exists w2, m2. split; auto. eapply adds_app; eauto.
Qed.
End Build.
