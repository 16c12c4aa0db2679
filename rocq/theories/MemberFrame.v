(** What the calls of the library leave alone in fields, interface elements and type specs. *)
From Verif Require Import Base GoPath Types SpecTypes Imports SpecImports Conv World WorldProofs SpecGo SpecRender SpecCalls SpecWorld
  SpecProgram SpecMembers.

(** the places in [n] stay *)
Definition sub {A B} (v : A -> B) (n : nat -> Prop) (l l' : list A) : Prop :=
  forall i x, n i -> nth_error l i = Some x -> exists y, nth_error l' i = Some y /\ v y = v x.
Lemma sub_refl {A B} (v : A -> B) (n : nat -> Prop) l : sub v n l l.
Proof. intros i x _ E. eauto. Qed.
Lemma sub_trans {A B} (v : A -> B) (n : nat -> Prop) l m k : sub v n l m -> sub v n m k -> sub v n l k.
Proof.
  intros H K i x L E. destruct (H i x L E) as (y & E1 & V1). destruct (K i y L E1) as (z & E2 & V2). exists z. split; congruence.
Qed.
Lemma sub_app {A B} (v : A -> B) (n : nat -> Prop) l x : sub v n l (l ++ [x]).
Proof. intros i y _ E. exists y. split; auto. rewrite nth_error_app1; auto. apply nth_error_Some. congruence. Qed.
Lemma sub_upd {A B} (v : A -> B) (n : nat -> Prop) l i x : (n i -> forall y, nth_error l i = Some y -> v x = v y) -> sub v n l (upd i x l).
Proof.
  intros H j y L E. destruct (Nat.eq_dec i j) as [->|N].
  - exists x. rewrite nth_upd_same by (apply nth_error_Some; congruence). split; auto.
  - exists y. rewrite nth_upd_other by auto. auto.
Qed.
(** comments do not matter; [p]: whether the specs of members do *)
Definition vF (p : bool) (x : FieldSpec) := (FSName x, FSTag x, FSType x, if p then FSParent x else None).
Definition vE (p : bool) (e : InterfaceElement) : InterfaceElement :=
  match e with
  | InterfaceEmbed _ s q => InterfaceEmbed "" s (if p then q else None)
  | InterfaceMethod _ n s q => InterfaceMethod "" n s (if p then q else None)
  end.
Definition vT (T : TypeSpec) := (TSName T, TSUnderlying T, TSStruct T, TSInterface T).

Section Frame.
Context {TD : Type}.
Notation World := (World TD).
Notation WM := (WM (TD := TD)).
(** [nt]: how many type specs there were at first *)
Variables (p : bool) (nf ne : nat -> Prop) (nt : nat).
Record kept (w w' : World) : Prop := mkKept
  { k_fields : sub (vF p) nf (World.fields w) (World.fields w'); k_ielems : sub (vE p) ne (ielems w) (ielems w');
    k_types : sub vT (fun i => i < nt) (types w) (types w');
    k_more : List.length (types w) <= List.length (types w') }.
Lemma kept_refl w : kept w w.
Proof. split; auto using sub_refl. Qed.
Lemma kept_trans a b c : kept a b -> kept b c -> kept a c.
Proof. intros [A B C D] [A' B' C' D']. split; [eapply sub_trans; eauto..|eapply Nat.le_trans; eauto]. Qed.
Definition keeps {A} (m : WM A) : Prop := forall w : World, nt <= List.length (types w) -> kept w (snd (m w)).
Lemma keeps_ret {A} (a : A) : keeps (sret a).
Proof. intros w _. apply kept_refl. Qed.
Lemma keeps_panic {A} e : keeps (spanic e : WM A).
Proof. intros w _. apply kept_refl. Qed.
Lemma keeps_lift {A} (r : res A) : keeps (slift r : WM A).
Proof. intros w _. apply kept_refl. Qed.
Lemma keeps_from {A} (r : World -> res A) : keeps (from_res r).
Proof. intros w _. apply kept_refl. Qed.
Lemma keeps_get {A} (tab : World -> list A) i : keeps (get tab i).
Proof. intros w _. unfold get. destruct (nth_error (tab w) i); apply kept_refl. Qed.
Lemma keeps_bind {A B} (m : WM A) (k : A -> WM B) : keeps m -> (forall a, keeps (k a)) -> keeps (do a <- m ;; k a).
Proof.
  intros H K w N. pose proof (H w N) as H'. unfold sbind. destruct (m w) as [[a|e] w1]; cbn [snd] in *; auto.
  eapply kept_trans; [exact H'|]. apply K. eapply Nat.le_trans; [exact N|]. apply (k_more _ _ H').
Qed.
Lemma keeps_each {A} (g : A -> WM unit) l : (forall a, keeps (g a)) -> keeps (for_each g l).
Proof. intros H. induction l; cbn [for_each]; [apply keeps_ret|apply keeps_bind; auto]. Qed.
Lemma keeps_map {A B} (g : A -> WM B) l : (forall a, keeps (g a)) -> keeps (map_m g l).
Proof. intros H. induction l; cbn [map_m]; [apply keeps_ret|]. apply keeps_bind; auto. intros b. apply keeps_bind; auto. intros s. apply keeps_ret. Qed.
Lemma inert_kept w w' : World.fields w' = World.fields w -> ielems w' = ielems w -> types w' = types w -> kept w w'.
Proof. intros A B C. split; rewrite ?A, ?B, ?C; auto using sub_refl. Qed.
Ltac inert := intros w _; apply inert_kept; reflexivity.
Lemma keeps_put_files i v : keeps (put files set_files i v). Proof. inert. Qed.
Lemma keeps_put_constDecls i v : keeps (put constDecls set_constDecls i v). Proof. inert. Qed.
Lemma keeps_put_varDecls i v : keeps (put varDecls set_varDecls i v). Proof. inert. Qed.
Lemma keeps_put_typeDecls i v : keeps (put typeDecls set_typeDecls i v). Proof. inert. Qed.
Lemma keeps_put_consts i v : keeps (put consts set_consts i v). Proof. inert. Qed.
Lemma keeps_put_vars i v : keeps (put vars set_vars i v). Proof. inert. Qed.
Lemma keeps_put_funcs i v : keeps (put funcs set_funcs i v). Proof. inert. Qed.
Lemma keeps_put_blocks i v : keeps (put blocks set_blocks i v). Proof. inert. Qed.
Lemma keeps_put_argss i v : keeps (put argss set_argss i v). Proof. inert. Qed.
Lemma keeps_put_templs i v : keeps (put templs set_templs i v). Proof. inert. Qed.
Lemma keeps_new_files v : keeps (alloc files set_files v). Proof. inert. Qed.
Lemma keeps_new_constDecls v : keeps (alloc constDecls set_constDecls v). Proof. inert. Qed.
Lemma keeps_new_varDecls v : keeps (alloc varDecls set_varDecls v). Proof. inert. Qed.
Lemma keeps_new_typeDecls v : keeps (alloc typeDecls set_typeDecls v). Proof. inert. Qed.
Lemma keeps_new_consts v : keeps (alloc consts set_consts v). Proof. inert. Qed.
Lemma keeps_new_vars v : keeps (alloc vars set_vars v). Proof. inert. Qed.
Lemma keeps_new_funcs v : keeps (alloc funcs set_funcs v). Proof. inert. Qed.
Lemma keeps_new_blocks v : keeps (alloc blocks set_blocks v). Proof. inert. Qed.
Lemma keeps_new_argss v : keeps (alloc argss set_argss v). Proof. inert. Qed.
Lemma keeps_new_templs v : keeps (alloc templs set_templs v). Proof. inert. Qed.
Lemma keeps_new_fields v : keeps (alloc World.fields set_fields v).
Proof. intros w _. split; cbn; auto using sub_refl, sub_app. Qed.
Lemma keeps_new_ielems v : keeps (alloc ielems set_ielems v).
Proof. intros w _. split; cbn; auto using sub_refl, sub_app. Qed.
Lemma keeps_new_types v : keeps (alloc types set_types v).
Proof. intros w _. split; cbn; auto using sub_refl, sub_app. rewrite app_length. apply Nat.le_add_r. Qed.
Lemma keeps_set_field i (g : FieldSpec -> FieldSpec) : (nf i -> forall x, vF p (g x) = vF p x) ->
  keeps (do x <- get World.fields i ;; put World.fields set_fields i (g x)).
Proof.
  intros H w _. unfold sbind, get. destruct (nth_error (World.fields w) i) as [x|] eqn:E; [|apply kept_refl].
  split; cbn; auto using sub_refl. apply sub_upd. intros L y Y. rewrite E in Y. injection Y as <-. auto.
Qed.
Lemma keeps_set_elem i (g : InterfaceElement -> InterfaceElement) : (ne i -> forall x, vE p (g x) = vE p x) ->
  keeps (do x <- get ielems i ;; put ielems set_ielems i (g x)).
Proof.
  intros H w _. unfold sbind, get. destruct (nth_error (ielems w) i) as [x|] eqn:E; [|apply kept_refl].
  split; cbn; auto using sub_refl. apply sub_upd. intros L y Y. rewrite E in Y. injection Y as <-. auto.
Qed.
Lemma keeps_set_type i (g : TypeSpec -> TypeSpec) : (forall x, vT (g x) = vT x) ->
  keeps (do x <- get types i ;; put types set_types i (g x)).
Proof.
  intros H w _. unfold sbind, get. destruct (nth_error (types w) i) as [x|] eqn:E; [|apply kept_refl].
  split; cbn; auto using sub_refl; [|rewrite upd_length; auto]. apply sub_upd. intros L y Y. rewrite E in Y. injection Y as <-. auto.
Qed.
(** a type spec made meanwhile *)
Lemma keeps_put_new i v : nt <= i -> keeps (put types set_types i v).
Proof.
  intros L w _. split; cbn; auto using sub_refl; [|rewrite upd_length; auto]. apply sub_upd. intros L'. exfalso.
  apply (Nat.lt_irrefl i). eapply Nat.lt_le_trans; eauto.
Qed.
Lemma keeps_new_type {B} v (k : nat -> WM B) : (forall i, nt <= i -> keeps (k i)) -> keeps (do i <- alloc types set_types v ;; k i).
Proof.
  intros H w N. unfold sbind, alloc. eapply kept_trans; [apply (keeps_new_types v w N)|]. apply H; auto.
  cbn. rewrite app_length. eapply Nat.le_trans; [exact N|]. apply Nat.le_add_r.
Qed.
Lemma keeps_imports {A} f (m : IM A) : keeps (onImports f m).
Proof.
  intros w _. unfold onImports. destruct (nth_error (files w) f) as [F|]; [|apply kept_refl].
  destruct (m (FImports F)) as [r i]. apply inert_kept; reflexivity.
Qed.
End Frame.
