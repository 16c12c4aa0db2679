(** Proofs about members: C95, C96. *)
From Verif Require Import Base BaseFacts GoPath Types SpecTypes Imports SpecImports ImportsProofs ImportsTheorems Conv World WorldProofs SpecGo SpecRender SpecCalls SpecWorld
  SpecQualify SpecProgram SpecMembers MemberFrame MemberCalls.

Lemma each_impl {A B} (g h : A -> option B) l : (forall a b, In a l -> g a = Some b -> h a = Some b) ->
  forall r, each g l = Some r -> each h l = Some r.
Proof.
  induction l as [|a l IH]; intros H r E; [exact E|]. cbn [each] in *. unfold obind in *.
  destruct (g a) as [b|] eqn:G; [|discriminate]. rewrite (H a b (or_introl eq_refl) G).
  destruct (each g l) as [s|] eqn:G2; [|discriminate]. rewrite (IH (fun a b I => H a b (or_intror I)) s eq_refl). exact E.
Qed.
Lemma each_map {A B} (g : A -> option B) l r : each g l = Some r -> Forall2 (fun a b => g a = Some b) l r.
Proof.
  revert r. induction l as [|a l IH]; intros r E; cbn [each] in E; unfold obind in E.
  - injection E as <-. constructor.
  - destruct (g a) as [b|] eqn:G; [|discriminate]. destruct (each g l) as [s|]; [|discriminate]. injection E as <-. constructor; auto.
Qed.
Lemma each_forall2 {A B} (g : A -> option B) l r : Forall2 (fun a b => g a = Some b) l r -> each g l = Some r.
Proof. induction 1; cbn [each]; auto. rewrite H, IHForall2. reflexivity. Qed.

Section Agree.
Context {TD : Type}.
Notation World := (World TD).
Notation WM := (WM (TD := TD)).

(** ** Agreement, kept *)
Lemma embeds_view p l l1 : Forall2 (fun e e1 => vE p e1 = vE p e) l l1 ->
  flat_map (fun e => match e with InterfaceEmbed _ s _ => [s] | _ => [] end) l1 = flat_map (fun e => match e with InterfaceEmbed _ s _ => [s] | _ => [] end) l /\
  flat_map (fun e => match e with InterfaceMethod _ n s _ => [mkMethod n s] | _ => [] end) l1 =
  flat_map (fun e => match e with InterfaceMethod _ n s _ => [mkMethod n s] | _ => [] end) l.
Proof.
  induction 1 as [|e e1 l l1 E _ [A B]]; [split; reflexivity|]. cbn [flat_map]. rewrite A, B.
  destruct e, e1; cbn in E; try discriminate; injection E; intros; subst; split; reflexivity.
Qed.
Lemma described_moved p (w w' : World) T T' : vT T' = vT T ->
  sub (vF p) (fun i => In i (TSStruct T)) (World.fields w) (World.fields w') ->
  sub (vE p) (fun i => In i (TSInterface T)) (ielems w) (ielems w') ->
  ((exists fs, TSUnderlying T = TStruct fs) ->
   forall i x u, In i (TSStruct T) -> nth_error (World.fields w) i = Some x -> member_type w (FSType x) = Some u -> member_type w' (FSType x) = Some u) ->
  forall u, described w T = Some u -> described w' T' = Some u.
Proof.
  intros V SF SE M u. unfold vT in V. injection V as EN EU ES EI. unfold described. rewrite EU, ES, EI.
  destruct (TSUnderlying T); auto.
  - unfold option_map. destruct (each _ (TSStruct T)) as [r|] eqn:E; [|discriminate]. intros <-.
    apply each_impl with (h := fun id => obind (nth_error (World.fields w') id) (fun x =>
        option_map (fun t => mkField (FSName x) t (FSTag x)) (member_type w' (FSType x)))) in E.
    + unfold option_map in E. rewrite E. reflexivity.
    + intros i b IN. unfold obind. destruct (nth_error (World.fields w) i) as [x|] eqn:EX; [|discriminate].
      destruct (SF i x IN EX) as (y & EY & VY). rewrite EY. unfold vF in VY. injection VY as VN VG VT _. rewrite VN, VG, VT.
      destruct (member_type w (FSType x)) as [t|] eqn:EM; [|discriminate]. rewrite (M (ex_intro _ _ eq_refl) i x t IN EX EM). auto.
  - unfold option_map. destruct (each (nth_error (ielems w)) (TSInterface T)) as [r|] eqn:E; [|discriminate]. intros <-.
    apply each_map in E.
    assert (X : exists r1, Forall2 (fun a b => nth_error (ielems w') a = Some b) (TSInterface T) r1 /\ Forall2 (fun e e1 => vE p e1 = vE p e) r r1).
    { clear M EI. revert SE. induction E as [|a b l r Ea _ IH]; intros SE; [exists []; split; constructor|].
      destruct (SE a b (or_introl eq_refl) Ea) as (y & EY & VY). destruct IH as (r1 & F1 & F2).
      { intros i x IN. apply SE. right. auto. }
      exists (y :: r1). split; constructor; auto. }
    destruct X as (r1 & F1 & F2). rewrite (each_forall2 _ _ _ F1). destruct (embeds_view p r r1 F2) as [-> ->]. reflexivity.
Qed.
Lemma member_type_kept p nf ne (w w' : World) t u : kept p nf ne (List.length (types w)) w w' ->
  (forall ts S, t = IsSpec ts -> nth_error (types w) ts = Some S -> TSName S = ""%string) ->
  member_type w t = Some u -> member_type w' t = Some u.
Proof.
  intros [_ _ KT _] N. destruct t as [|t|ts]; cbn [member_type]; auto. unfold obind.
  destruct (nth_error (types w) ts) as [S|] eqn:E; [|discriminate].
  destruct (KT ts S) as (S' & E' & V); [apply nth_error_Some; congruence|auto|]. rewrite E'. unfold vT in V. injection V as -> -> _ _.
  rewrite (N ts S eq_refl E). auto.
Qed.

Variable env : Env TD.
Lemma sub_weaken {A B} (v : A -> B) (n n' : nat -> Prop) l l' : (forall i, n' i -> n i) -> sub v n l l' -> sub v n' l l'.
Proof. intros H K i x N. apply K. auto. Qed.
Lemma keeps_NewStruct nf ne nt n l : keeps false nf ne nt (NewStructTypeSpec (TD := TD) n l).
Proof.
  unfold NewStructTypeSpec. apply keeps_new_type. intros i N. apply keeps_bind; [apply keeps_map; intros id; apply keeps_bind|].
  - unfold Field_setParent. apply keeps_set_field. reflexivity.
  - intros _. apply keeps_bind; [apply keeps_get|]. intros x. destruct (FSType x); [apply keeps_ret..|].
    apply keeps_bind; [apply keeps_get|]. intros T w _. destruct (TypeSpec_ToTypeName T w); apply kept_refl.
  - intros fts. apply keeps_bind; [apply keeps_put_new; exact N|]. intros _. apply keeps_ret.
Qed.
Lemma keeps_NewInterface nf ne nt n l : keeps false nf ne nt (NewInterfaceTypeSpec (TD := TD) n l).
Proof.
  unfold NewInterfaceTypeSpec. apply keeps_new_type. intros i N. apply keeps_bind; [apply keeps_map; intros id; apply keeps_bind|].
  - unfold Elem_setParent. apply keeps_set_elem. intros _ []; reflexivity.
  - intros _. apply keeps_get.
  - intros els. apply keeps_bind; [apply keeps_put_new; exact N|]. intros _. apply keeps_ret.
Qed.
(** every call that writes no file *)
Lemma call_kept c (w : World) id T : nth_error (types w) id = Some T -> ~ sets_member w id c ->
  match c with PWrite _ _ => False | _ => True end ->
  kept false (fun i => In i (TSStruct T)) (fun i => In i (TSInterface T)) (List.length (types w)) w (snd (do_call env c w)).
Proof.
  intros E NS NW. destruct c; try contradiction;
  try (apply keeps_call; [exact Logic.I|apply Nat.le_refl]).
  - apply (keeps_NewStruct _ _ (List.length (types w)) name fs w (Nat.le_refl _)).
  - apply (keeps_NewInterface _ _ (List.length (types w)) name es w (Nat.le_refl _)).
  - apply keeps_call; [|apply Nat.le_refl]. cbn [quiet].
    destruct s as [? ?|? ?|? []|? []|? ?|? ?|? ?|? ?|? ?|? ? ?]; cbn [setting_ok]; try exact Logic.I; intros IN; apply NS; exists T; split; auto.
Qed.
Lemma no_named_kept (w w' : World) id T u : nth_error (types w) id = Some T ->
  kept false (fun i => In i (TSStruct T)) (fun i => In i (TSInterface T)) (List.length (types w)) w w' ->
  described w T = Some u -> (exists fs, TSUnderlying T = TStruct fs) ->
  no_named_fields w id -> no_named_fields w' id.
Proof.
  intros E [KF KE KT KM] D (fs & U) N T' i x ts S E' IN EX EQ ES.
  destruct (KT id T) as (T2 & E2 & V2); [apply nth_error_Some; congruence|auto|]. rewrite E' in E2. injection E2 as <-.
  unfold vT in V2. injection V2 as VN VU VS VI. rewrite VS in IN.
  (* the field existed *)
  unfold described in D. rewrite U in D. unfold option_map in D. destruct (each _ (TSStruct T)) as [r|] eqn:EE; [|discriminate].
  apply each_map in EE.
  assert (X : exists x0, nth_error (World.fields w) i = Some x0 /\ member_type w (FSType x0) <> None).
  { clear -EE IN. induction EE as [|a b l r A _ IH]; [destruct IN|]. destruct IN as [->|IN]; auto.
    unfold obind in A. destruct (nth_error (World.fields w) i) as [x0|]; [|discriminate]. exists x0. split; auto.
    destruct (member_type w (FSType x0)); discriminate. }
  destruct X as (x0 & EX0 & MT). destruct (KF i x0 IN EX0) as (x1 & EX1 & VX). rewrite EX in EX1. injection EX1 as <-.
  unfold vF in VX. injection VX as _ _ VT. rewrite <- VT, EQ in MT. cbn [member_type] in MT.
  destruct (nth_error (types w) ts) as [S0|] eqn:ES0; [|cbn in MT; congruence].
  destruct (KT ts S0) as (S1 & ES1 & VS1); [apply nth_error_Some; congruence|auto|]. rewrite ES in ES1. injection ES1 as <-.
  unfold vT in VS1. injection VS1 as -> _ _ _. eapply N; eauto. congruence.
Qed.
Lemma no_named_trivial (w w' : World) id T : nth_error (types w) id = Some T ->
  kept false (fun i => In i (TSStruct T)) (fun i => In i (TSInterface T)) (List.length (types w)) w w' ->
  TSStruct T = [] -> no_named_fields w' id.
Proof.
  intros E [KF KE KT KM] Z T' i x ts S E' IN. destruct (KT id T) as (T2 & E2 & V2); [apply nth_error_Some; congruence|auto|].
  rewrite E' in E2. injection E2 as <-. unfold vT in V2. injection V2 as _ _ VS _. rewrite VS, Z in IN. destruct IN.
Qed.
End Agree.
