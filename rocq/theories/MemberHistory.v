(** Proofs about members: NewTypeSpec, and what programs keep. *)
From Verif Require Import Base BaseFacts GoPath Types SpecTypes Imports SpecImports ImportsProofs ImportsTheorems Conv World WorldProofs SpecGo SpecRender SpecCalls SpecWorld
  SpecQualify DeclTheorems ProgramFrame SpecProgram SpecMembers MemberFrame MemberCalls MemberProofs MemberTheorems.

Lemma each_seq {A B} (g : nat -> option B) (h : A -> B) (l : list A) : forall n,
  (forall k a, nth_error l k = Some a -> g (n + k) = Some (h a)) -> each g (seq n (List.length l)) = Some (map h l).
Proof.
  induction l as [|a l IH]; intros n H; cbn; auto. rewrite <- (Nat.add_0_r n) at 1. rewrite (H 0 a eq_refl). cbn.
  rewrite (IH (Datatypes.S n)); auto. intros k b E. rewrite <- (H (Datatypes.S k) b E). f_equal. apply Nat.add_succ_comm.
Qed.
Lemma nth_added {A B} (l : list B) (h : A -> B) m k a : nth_error m k = Some a -> nth_error (l ++ map h m) (List.length l + k) = Some (h a).
Proof. intros E. rewrite nth_error_app2 by apply Nat.le_add_r. rewrite Nat.add_comm, Nat.add_sub. apply map_nth_error. auto. Qed.
Lemma each_app {A B} (g : A -> option B) l m a b : each g l = Some a -> each g m = Some b -> each g (l ++ m) = Some (a ++ b).
Proof.
  revert a. induction l as [|x l IH]; cbn; intros a E F; [injection E as <-; exact F|].
  destruct (g x); [|discriminate]. destruct (each g l) as [r|]; [|discriminate]. cbn in E. injection E as <-. cbn. rewrite (IH r eq_refl F). reflexivity.
Qed.
Lemma each_ext {A B} (g h : A -> option B) l : (forall a, g a = h a) -> each g l = each h l.
Proof. intros H. induction l; cbn; auto. rewrite H, IHl. reflexivity. Qed.

Section History.
Context {TD : Type}.
Notation World := (World TD).
Notation WM := (WM (TD := TD)).
Variable env : Env TD.

Lemma type_agrees n t (w w' : World) id : NewTypeSpec n t w = (Ok id, w') ->
  (forall s T, t = IsSpec s -> nth_error (types w) s = Some T -> TSName T = ""%string -> agrees w s) -> agrees w' id.
Proof.
  destruct t as [|t|s]; cbn [NewTypeSpec]; [discriminate| |].
  - intros H _. unfold sbind at 1 in H. unfold alloc at 1 in H.
    destruct t as [|k|y|e|e|e k|e k|e k|g|fs|ms es];
    try (unfold sret in H; injection H as <- <-; eexists; cbn [types set_types]; split; [apply nth_last|reflexivity]).
    + unfold sbind in H. rewrite map_m_alloc in H by (intros; reflexivity || (destruct w0; reflexivity)). unfold put, sret in H. injection H as <- <-.
      eexists. cbn -[upd nth_error app seq map alloc described]. rewrite upd_last. split; [apply nth_last|].
      unfold described. cbn -[upd nth_error app seq map each member_type].
      rewrite each_seq with (h := fun f => f); [rewrite map_id; reflexivity|].
      intros k a E. rewrite (nth_added _ _ _ _ _ E). cbn -[member_type]. destruct a as [a t g]. cbn. destruct t; reflexivity.
    + unfold sbind in H. rewrite map_m_alloc in H by (intros; reflexivity || (destruct w0; reflexivity)).
      rewrite map_m_alloc in H by (intros; reflexivity || (destruct w0; reflexivity)).
      unfold put, sret in H. injection H as <- <-.
      eexists. cbn -[upd nth_error app seq map alloc described]. rewrite upd_last. split; [apply nth_last|].
      unfold described. cbn -[upd nth_error app seq map each member_type].
      rewrite each_app with (a := map (fun e => InterfaceEmbed "" e (Some (List.length (types w)))) es)
        (b := map (fun m => InterfaceMethod "" (MtdName m) (MtdSig m) (Some (List.length (types w)))) ms).
      * cbn [option_map]. rewrite !flat_map_app. f_equal. f_equal.
        -- replace (flat_map _ (map _ es)) with (@nil MethodType); [|induction es; cbn; auto]. cbn [app].
           induction ms as [|[a b] ms IH]; cbn; f_equal; auto.
        -- replace (flat_map _ (map _ ms)) with (@nil Symbol); [|induction ms; cbn; auto]. rewrite app_nil_r.
           induction es as [|a es IH]; cbn; f_equal; auto.
      * apply each_seq. intros k a E. pose proof (nth_added (ielems w) (fun e => InterfaceEmbed "" e (Some (List.length (types w)))) es k a E) as X.
        rewrite nth_error_app1; [exact X|]. apply nth_error_Some. congruence.
      * apply each_seq. intros k a E. exact (nth_added _ (fun m => InterfaceMethod "" (MtdName m) (MtdSig m) (Some (List.length (types w)))) ms k a E).
  - intros H A. unfold sbind, get in H. destruct (nth_error (types w) s) as [T|] eqn:E; [|discriminate].
    destruct (TypeSpec_ToTypeName T w) as [u|] eqn:EN; [|discriminate]. unfold alloc in H. injection H as <- <-.
    eexists. cbn [types set_types]. split; [apply nth_last|]. unfold TypeSpec_ToTypeName in EN. destruct (String.eqb (TSName T) "") eqn:EE.
    + injection EN as <-. apply String.eqb_eq in EE. destruct (A s T eq_refl E EE) as (T' & E' & D). rewrite E in E'. injection E' as <-.
      cbn [TSUnderlying]. match goal with |- described ?v _ = _ => transitivity (described v T); [destruct T; reflexivity|set (w' := v)] end.
      apply (described_moved false w w' T T eq_refl); auto using sub_refl.
      intros _ i x u _ _. eapply field_types_app; reflexivity.
    + unfold rbind in EN. destruct (TypeSpec_ToSymbol T w); [|discriminate]. injection EN as <-. reflexivity.
Qed.
Lemma alias_agrees n t (w w' : World) id : NewTypeAlias n t w = (Ok id, w') ->
  (forall s T, t = IsSpec s -> nth_error (types w) s = Some T -> TSName T = ""%string -> agrees w s) -> agrees w' id.
Proof.
  unfold NewTypeAlias. unfold sbind at 1. destruct (NewTypeSpec n t w) as [[i|] w1] eqn:E; [|discriminate]. unfold sbind at 1, get.
  destruct (nth_error (types w1) i) as [T|] eqn:ET; [|discriminate]. unfold sbind, put, sret. intros H. injection H as <- <-. intros A.
  destruct (type_agrees _ _ _ _ _ E A) as (T1 & E1 & D). rewrite ET in E1. injection E1 as <-.
  set (T' := mkTypeSpec _ _ true _ _ _ _). set (w' := set_types _ w1). assert (EW : nth_error (types w') i = Some T').
  { unfold w'. cbn [types set_types]. apply nth_upd_same. apply nth_error_Some. congruence. }
  exists T'. split; auto. change (TSUnderlying T') with (TSUnderlying T).
  apply (described_moved false w1 w' T T' eq_refl); auto using sub_refl.
  intros _ j x u _ _. destruct (FSType x) as [|y|ts]; cbn [member_type]; auto.
  destruct (Nat.eq_dec ts i) as [->|N].
  - rewrite ET, EW. auto.
  - unfold w'. cbn [types set_types]. rewrite nth_upd_other by auto. auto.
Qed.

(** ** Programs that write nothing *)
Definition held (v : string * TypeName * list nat * list nat) (w : World) id : Prop :=
  exists T, nth_error (types w) id = Some T /\ described w T = Some (TSUnderlying T) /\ vT T = v /\
    ((exists fs, TSUnderlying T = TStruct fs) -> no_named_fields w id).
Lemma held_call v c (w : World) id : held v w id -> ~ sets_member w id c -> match c with PWrite _ _ => False | _ => True end ->
  held v (snd (do_call env c w)) id.
Proof.
  intros (T & E & D & V & N) S W. pose proof (call_kept env c w id T E S W) as K. set (w' := snd (do_call env c w)) in *.
  pose proof K as [KF KE KT KM].
  destruct (KT id T) as (T' & E' & V'); [apply nth_error_Some; congruence|auto|].
  assert (EU : TSUnderlying T' = TSUnderlying T) by (unfold vT in V'; congruence).
  exists T'. split; auto. split; [rewrite EU; apply (described_moved false w w' T T' V' KF KE); auto|split; [congruence|]].
  - intros ST i x u IN EX. apply (member_type_kept false _ _ w w' (FSType x) u K). intros ts U EQ EU'. exact (N ST T i x ts U E IN EX EQ EU').
  - intros ST. rewrite EU in ST. apply (no_named_kept w w' id T _ E K D ST (N ST)).
Qed.
Lemma sets_member_held v (w w' : World) id c : held v w id -> held v w' id -> sets_member w' id c -> sets_member w id c.
Proof.
  intros (T & E & _ & V & _) (T' & E' & _ & V' & _) (T2 & E2 & S). rewrite E' in E2. injection E2 as <-.
  exists T. split; auto. rewrite <- V' in V. unfold vT in V. injection V as _ _ -> ->. exact S.
Qed.
Lemma agrees_kept p : forall (w : World) id, agrees w id -> no_named_fields w id -> writes_none p -> (forall c, In c p -> ~ sets_member w id c) ->
  agrees (after env p w) id.
Proof.
  intros w id (T & E & D) N W S. assert (H : held (vT T) w id) by (exists T; repeat split; auto). clear E D N.
  enough (X : held (vT T) (after env p w) id) by (destruct X as (T' & E & D & _); exists T'; auto).
  revert w H W S. generalize (vT T) as v. clear T. induction p as [|c p IH]; intros v w H W S; [exact H|].
  cbn [after fold_left]. pose proof (held_call v c w id H (S c (or_introl eq_refl)) (W c (or_introl eq_refl))) as H1.
  apply IH; auto.
  - intros d I. apply W. right; auto.
  - intros d I M. apply (S d (or_intror I)). eapply sets_member_held; eauto.
Qed.
End History.
