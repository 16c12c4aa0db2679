(** Proofs about members: the type spec of each. *)
From Verif Require Import Base BaseFacts GoPath Types SpecTypes Imports SpecImports ImportsProofs ImportsTheorems Conv World WorldProofs SpecGo SpecRender SpecCalls SpecWorld
  SpecQualify ProgramFrame SpecProgram SpecMembers MemberFrame MemberCalls MemberProofs MemberTheorems.

Section Owners.
Context {TD : Type}.
Notation World := (World TD).
Notation WM := (WM (TD := TD)).
Variable env : Env TD.

(** ** Writing a file leaves them *)
Definition rule := option (member * option nat).
Definition obeys (w : World) (P : rule) : Prop := match P with None => True | Some (k, t) => spec_of w k = t end.
Definition owned (w w' : World) : Prop := forall k, spec_of w' k = spec_of w k /\ (exists_in w k -> exists_in w' k).
Definition owns (P : rule) {A} (m : WM A) : Prop := forall w, obeys w P -> owned w (snd (m w)).
Lemma owns_bind P {A B} (m : WM A) (k : A -> WM B) : owns P m -> (forall a, owns P (k a)) -> owns P (do a <- m ;; k a).
Proof.
  intros H K w O. pose proof (H w O) as H'. unfold sbind. destruct (m w) as [[a|e] w1]; cbn [snd] in *; auto.
  assert (O' : obeys w1 P) by (destruct P as [[i t]|]; cbn in *; auto; rewrite (proj1 (H' i)); auto).
  intros j. destruct (H' j). destruct (K a w1 O' j). split; [congruence|auto].
Qed.
Lemma owns_weaken P {A} (m : WM A) : owns None m -> owns P m.
Proof. intros H w _. apply H. exact Logic.I. Qed.
Lemma owns_still P {A} (m : WM A) : (forall w, World.fields (snd (m w)) = World.fields w /\ ielems (snd (m w)) = ielems w) -> owns P m.
Proof. intros H w _ k. destruct (H w) as [EF EI]. destruct k; cbn; rewrite ?EF, ?EI; auto. Qed.
Lemma owns_ret P {A} (a : A) : owns P (sret a).
Proof. apply owns_still. auto. Qed.
Lemma owns_get P {A} (tab : World -> list A) i : owns P (get tab i).
Proof. apply owns_still. intros w. unfold get. destruct (nth_error (tab w) i); auto. Qed.
Lemma owns_each P {A} (g : A -> WM unit) l : (forall a, owns P (g a)) -> owns P (for_each g l).
Proof. intros H. induction l; cbn [for_each]; [apply owns_ret|apply owns_bind; auto]. Qed.
Lemma owns_map P {A B} (g : A -> WM B) l : (forall a, owns P (g a)) -> owns P (map_m g l).
Proof. intros H. induction l; cbn [map_m]; [apply owns_ret|]. apply owns_bind; auto. intros b. apply owns_bind; auto. intros s. apply owns_ret. Qed.
Lemma owns_imports P {A} f (m : IM A) : owns P (onImports f m).
Proof. apply owns_still. intros w. unfold onImports. destruct (nth_error (files w) f) as [F|]; auto. destruct (m (FImports F)); auto. Qed.
Lemma owns_tq P f d : owns P (fun w => onImports f (tq env w d) w).
Proof. apply owns_still. intros w. unfold onImports. destruct (nth_error (files w) f) as [F|]; auto. destruct (tq env w d (FImports F)); auto. Qed.
Lemma owns_get_field {B} i (k : FieldSpec -> WM B) : (forall x, owns (Some (MField i, FSParent x)) (k x)) -> owns None (do x <- get World.fields i ;; k x).
Proof.
  intros H w _. unfold sbind, get. destruct (nth_error (World.fields w) i) as [x|] eqn:E; [|intros j; split; auto].
  apply H. cbn. rewrite E. reflexivity.
Qed.
Lemma owns_get_elem {B} i (k : InterfaceElement -> WM B) : (forall x, owns (Some (MElem i, elem_parent x)) (k x)) -> owns None (do x <- get ielems i ;; k x).
Proof.
  intros H w _. unfold sbind, get. destruct (nth_error (ielems w) i) as [x|] eqn:E; [|intros j; split; auto].
  apply H. cbn. rewrite E. reflexivity.
Qed.
Lemma owns_put_field i x : owns (Some (MField i, FSParent x)) (put World.fields set_fields i x).
Proof. intros w O [j|j]; cbn -[upd nth_error]; auto. split; [apply obind_upd; exact O|rewrite upd_length; auto]. Qed.
Lemma owns_put_elem i x : owns (Some (MElem i, elem_parent x)) (put ielems set_ielems i x).
Proof. intros w O [j|j]; cbn -[upd nth_error]; auto. split; [apply obind_upd; exact O|rewrite upd_length; auto]. Qed.

Ltac ow := repeat first
  [ match goal with |- forall _, _ => intro end
  | match goal with
    | |- owns _ (sret _) => apply owns_ret
    | |- owns _ (spanic _) => apply owns_still; split; reflexivity
    | |- owns _ (slift _) => apply owns_still; split; reflexivity
    | |- owns _ (from_res _) => apply owns_still; split; reflexivity
    | |- owns _ (put World.fields _ _ _) => idtac
    | |- owns _ (put ielems _ _ _) => idtac
    | |- owns _ (put _ _ _ _) => apply owns_still; split; reflexivity
    | |- owns _ (onImports _ _) => apply owns_imports
    | |- owns _ (fun w => onImports _ (tq _ w _) w) => apply owns_tq
    | |- owns _ (get _ _) => apply owns_get
    | |- owns _ (for_each _ _) => apply owns_each
    | |- owns _ (map_m _ _) => apply owns_map
    | |- owns None (sbind (get World.fields _) _) => apply owns_get_field
    | |- owns None (sbind (get ielems _) _) => apply owns_get_elem
    | |- owns _ (sbind _ _) => apply owns_bind
    | |- owns _ (match ?x with _ => _ end) => destruct x
    end ].
Section One.
Variable f : nat.
Lemma owns_arg P a : owns P (Arg_qualify f a).
Proof. destruct a; cbn [Arg_qualify]; unfold qualify_method, qualify_sym_arg, qualify_package; ow. Qed.
Lemma owns_block P cb : owns P (CodeBlock_qualify env f cb).
Proof.
  unfold CodeBlock_qualify, codeElement_qualify, line_qualify, line_qualify_at, templ_qualify. repeat first [apply owns_arg|progress ow].
Qed.
Lemma owns_elem id : owns None (InterfaceElement_qualify f id).
Proof.
  unfold InterfaceElement_qualify. ow; match goal with |- owns _ (put ielems set_ielems ?i ?x) => exact (owns_put_elem i x) end.
Qed.
Lemma owns_typespec fuel : forall id, owns None (TypeSpec_qualify fuel f id).
Proof.
  induction fuel as [|fuel IH]; intros id; cbn [TypeSpec_qualify]; ow.
  - match goal with |- owns _ (put World.fields set_fields ?i ?x) => exact (owns_put_field i x) end.
  - apply owns_weaken, IH.
  - apply owns_elem.
Qed.
Lemma owns_value tab set fuel id : (forall i v w, World.fields (set (upd i v (tab w)) w) = World.fields w /\ ielems (set (upd i v (tab w)) w) = ielems w) ->
  owns None (qualify_value env tab set fuel f id).
Proof.
  intros H. unfold qualify_value. ow.
  - apply owns_still. intros w. apply H.
  - apply owns_typespec.
  - apply owns_block.
Qed.
Lemma owns_element fuel e : owns None (FileElement_qualify env fuel f e).
Proof.
  destruct e; cbn [FileElement_qualify]; ow; try (apply owns_value; intros; split; reflexivity); try apply owns_typespec. apply owns_block.
Qed.
Lemma owns_source fuel : owns None (source env fuel f).
Proof. unfold source, qualify_file. ow. apply owns_element. Qed.
End One.

(** ** Other calls *)
Lemma kept_owned nf ne nt (w w' : World) k : kept true nf ne nt w w' -> (match k with MField i => nf i | MElem i => ne i end) -> exists_in w k ->
  exists_in w' k /\ spec_of w' k = spec_of w k.
Proof.
  intros [KF KE _ _]. destruct k as [i|i]; cbn; intros N L.
  - destruct (nth_error (World.fields w) i) as [x|] eqn:E; [|apply nth_error_None in E; apply Nat.lt_nge in L; contradiction].
    destruct (KF i x N E) as (y & EY & V). rewrite EY. split; [apply nth_error_Some; congruence|]. cbn. unfold vF in V. injection V as _ _ _ V. exact V.
  - destruct (nth_error (ielems w) i) as [x|] eqn:E; [|apply nth_error_None in E; apply Nat.lt_nge in L; contradiction].
    destruct (KE i x N E) as (y & EY & V). rewrite EY. split; [apply nth_error_Some; congruence|]. cbn. destruct x, y; cbn in V; try discriminate; injection V; intros; subst; reflexivity.
Qed.
Lemma set_field_owned i (g : FieldSpec -> FieldSpec) w : (forall x, FSParent (g x) = FSParent x) ->
  owned w (snd ((do x <- get World.fields i ;; put World.fields set_fields i (g x)) w)).
Proof.
  intros H. apply (owns_get_field i (fun x => put World.fields set_fields i (g x))); [|exact Logic.I]. intros x. rewrite <- H. apply owns_put_field.
Qed.
Lemma signature_owned i g w : owned w (snd (Method_onSignature (TD := TD) i g w)).
Proof.
  unfold Method_onSignature. apply (owns_get_elem i); [|exact Logic.I]. intros [c s q|c n s q]; [apply owns_ret|].
  exact (owns_put_elem i (InterfaceMethod c n (g s) q)).
Qed.
Lemma struct_owned n l (w : World) k : fst (ended (NewStructTypeSpec n l) w) = Ok tt -> exists_in w k ->
  let w' := snd (ended (NewStructTypeSpec n l) w) in
  exists_in w' k /\ spec_of w' k = if takes (PNewStruct (TD := TD) n l) k then Some (List.length (types w)) else spec_of w k.
Proof.
  unfold ended. destruct (NewStructTypeSpec n l w) as [[id|] w'] eqn:E; [|discriminate]. cbn [fst snd]. intros _ X.
  destruct (NewStruct_made _ _ _ _ _ E) as (fts & [-> ET (w0 & T0 & F0 & FS0 & I0 & w1 & [_ _ _ SF _] & FS & IE & _)]).
  destruct k as [i|i]; cbn in *; [|rewrite IE; auto]. rewrite FS0 in SF. rewrite FS.
  destruct (nth_error (World.fields w) i) as [x|] eqn:EX; [|apply nth_error_None in EX; apply Nat.lt_nge in X; contradiction].
  destruct (SF i x EX) as (y & EY & _ & P). rewrite EY. split; [apply nth_error_Some; congruence|]. exact P.
Qed.
Lemma interface_owned n l (w : World) k : fst (ended (NewInterfaceTypeSpec n l) w) = Ok tt -> exists_in w k ->
  let w' := snd (ended (NewInterfaceTypeSpec n l) w) in
  exists_in w' k /\ spec_of w' k = if takes (PNewInterface (TD := TD) n l) k then Some (List.length (types w)) else spec_of w k.
Proof.
  unfold ended. destruct (NewInterfaceTypeSpec n l w) as [[id|] w'] eqn:E; [|discriminate]. cbn [fst snd]. intros _ X.
  destruct (NewInterface_made _ _ _ _ _ E) as (-> & els & w0 & w1 & ET & F0 & I0 & [_ _ _ IM _] & IE & FS).
  destruct k as [i|i]; cbn in *; [rewrite FS; auto|]. rewrite I0 in IM. rewrite IE.
  destruct (nth_error (ielems w) i) as [x|] eqn:EX; [|apply nth_error_None in EX; apply Nat.lt_nge in X; contradiction].
  destruct (IM i x EX) as (y & EY & _ & P). rewrite EY. split; [apply nth_error_Some; congruence|]. exact P.
Qed.
Lemma call_owned c (w : World) k : exists_in w k ->
  match c with PNewStruct _ _ | PNewInterface _ _ => fst (do_call env c w) = Ok tt | _ => True end ->
  exists_in (snd (do_call env c w)) k /\
  spec_of (snd (do_call env c w)) k = if takes c k then Some (List.length (types w)) else spec_of w k.
Proof.
  intros X R.
  assert (Q : quiet (fun _ => True) (fun _ => True) c ->
    exists_in (snd (do_call env c w)) k /\ spec_of (snd (do_call env c w)) k = spec_of w k).
  { intros Q. apply (kept_owned (fun _ => True) (fun _ => True) 0); [|destruct k; exact Logic.I|exact X]. apply (keeps_call env true (fun _ => True) (fun _ => True) 0); auto. apply Nat.le_0_l. }
  assert (O : owned w (snd (do_call env c w)) ->
    exists_in (snd (do_call env c w)) k /\ spec_of (snd (do_call env c w)) k = spec_of w k).
  { intros O. destruct (O k). auto. }
  destruct c; try (apply Q; exact Logic.I).
  - exact (struct_owned name fs w k R X).
  - exact (interface_owned name es w k R X).
  - cbn [takes]. destruct s as [? ?|? ?|? []|? []|? ?|? ?|? ?|? ?|? ?|? ? ?]; try (apply Q; exact Logic.I); apply O; cbn [do_call SpecCalls.perform].
    all: try apply signature_owned. apply set_field_owned. reflexivity.
  - apply O. apply (owns_source f fuel w Logic.I).
Qed.
Lemma owner_history p : forall (w : World) k, exists_in w k -> makings_return env p w ->
  spec_of (after env p w) k = last_spec env k p w (spec_of w k).
Proof.
  induction p as [|c p IH]; intros w k X R; [reflexivity|]. destruct R as [R1 R2]. cbn [last_spec after fold_left].
  destruct (call_owned c w k X R1) as [X1 S1]. rewrite <- S1. apply IH; auto.
Qed.
End Owners.
