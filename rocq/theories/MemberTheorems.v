(** Proofs about members: what the constructors make, and histories. *)
From Verif Require Import Base BaseFacts GoPath Types SpecTypes Imports SpecImports ImportsProofs ImportsTheorems Conv World WorldProofs SpecGo SpecRender SpecCalls SpecWorld
  SpecQualify ProgramFrame SpecProgram SpecMembers MemberFrame MemberCalls MemberProofs.

Section Made.
Context {TD : Type}.
Notation World := (World TD).
Notation WM := (WM (TD := TD)).
Variable env : Env TD.

Lemma to_name (w : World) T t : TypeSpec_ToTypeName T w = Ok t ->
  (if String.eqb (TSName T) "" then Some (TSUnderlying T) else option_map TNamed (named_type w T)) = Some t.
Proof.
  unfold TypeSpec_ToTypeName, TypeSpec_ToSymbol, named_type, declared. destruct (String.eqb (TSName T) "") eqn:E.
  - intros H. injection H as <-. reflexivity.
  - unfold file_package, rd, rbind. destruct (TSParent T) as [f|]; [|discriminate]. destruct (nth_error (files w) f) as [F|] eqn:EF; [|discriminate].
    intros H. injection H as <-. cbn [obind option_map]. rewrite EF. reflexivity.
Qed.
Lemma named_same (w w' : World) T : files w' = files w -> named_type w' T = named_type w T.
Proof. intros E. unfold named_type, declared. rewrite E. reflexivity. Qed.
Lemma member_same (w w' : World) t : files w' = files w -> types w' = types w -> member_type w' t = member_type w t.
Proof. intros F T. destruct t; cbn [member_type]; auto. rewrite T. destruct (nth_error (types w) id); cbn; auto. rewrite (named_same w w') by auto. auto. Qed.

Definition taken_field (t : nat) (x : FieldSpec) := mkFieldSpec (FSComment x) (FSName x) (FSTag x) (FSType x) (Some t).
Definition struct_step ret id : WM (FieldType_ TypeName) :=
      do _ <- Field_setParent ret id ;;
      do f <- get World.fields id ;;
      match FSType f with
      | NoType => sret (mkField (FSName f) TNil (FSTag f))
      | IsName t => sret (mkField (FSName f) t (FSTag f))
      | IsSpec ts =>
          do T <- get types ts ;;
          fun w => match TypeSpec_ToTypeName T w with
                   | Panic m => (Panic m, w)
                   | Ok t => (Ok (mkField (FSName f) t (FSTag f)), w)
                   end
      end.
Lemma struct_step_ok ret id (w w1 : World) ft : struct_step ret id w = (Ok ft, w1) ->
  exists x t, nth_error (World.fields w) id = Some x /\ w1 = set_fields (upd id (taken_field ret x) (World.fields w)) w /\
    member_type w (FSType x) = Some t /\ ft = mkField (FSName x) t (FSTag x).
Proof.
  unfold struct_step, Field_setParent, sbind, get, put. destruct (nth_error (World.fields w) id) as [x|] eqn:E; [|discriminate].
  cbn -[upd nth_error]. rewrite nth_upd_same by (apply nth_error_Some; congruence). cbn -[upd nth_error].
  destruct (FSType x) as [|t|ts] eqn:ET.
  - intros H. injection H as <- <-. exists x, TNil. unfold taken_field; rewrite ET. repeat split; auto; try reflexivity.
  - intros H. injection H as <- <-. exists x, t. unfold taken_field; rewrite ET. repeat split; auto; try reflexivity.
  - cbn -[upd nth_error]. destruct (nth_error (types w) ts) as [T|] eqn:ES; [|discriminate]. unfold set_fields at 1.
    destruct (TypeSpec_ToTypeName T _) as [t|] eqn:EN; [|discriminate].
    intros H. injection H as <- <-. apply to_name in EN. exists x, t. unfold taken_field; rewrite ET. repeat split; auto; try reflexivity.
    cbn [member_type]. rewrite ES. cbn [obind]. exact EN.
Qed.
Record struct_made ret l (w w' : World) (fts : list (FieldType_ TypeName)) : Prop := mkStructMade
  { sm_types : types w' = types w; sm_files : files w' = files w; sm_ielems : ielems w' = ielems w;
    sm_fields : forall i x, nth_error (World.fields w) i = Some x -> exists y, nth_error (World.fields w') i = Some y /\ vF false y = vF false x /\
      FSParent y = if existsb (Nat.eqb i) l then Some ret else FSParent x;
    sm_described : Forall2 (fun id ft => exists x t, nth_error (World.fields w) id = Some x /\ member_type w (FSType x) = Some t /\
      ft = mkField (FSName x) t (FSTag x)) l fts }.
Lemma struct_steps ret l : forall (w w' : World) fts, map_m (struct_step ret) l w = (Ok fts, w') -> struct_made ret l w w' fts.
Proof.
  induction l as [|id l IH]; intros w w' fts; cbn [map_m].
  - intros H. injection H as <- <-. split; auto. intros i x E. exists x. auto.
  - unfold sbind at 1. destruct (struct_step ret id w) as [[ft|] w1] eqn:E1; [|discriminate]. unfold sbind at 1.
    destruct (map_m (struct_step ret) l w1) as [[r|] w2] eqn:E2; [|discriminate]. intros H. injection H as <- <-.
    destruct (struct_step_ok _ _ _ _ _ E1) as (x & t & EX & -> & MT & EF). destruct (IH _ _ _ E2) as [T F I FS D].
    split; auto.
    + intros i y EY. cbn [existsb]. destruct (Nat.eq_dec id i) as [->|N].
      * rewrite EX in EY. injection EY as <-. destruct (FS i (taken_field ret x)) as (z & EZ & V & P).
        { cbn -[upd nth_error]. apply nth_upd_same. apply nth_error_Some. congruence. }
        exists z. split; [exact EZ|]. split; [rewrite V; reflexivity|]. rewrite P, Nat.eqb_refl. cbn. destruct (existsb (Nat.eqb i) l); reflexivity.
      * destruct (FS i y) as (z & EZ & V & P). { cbn -[upd nth_error]. rewrite nth_upd_other; auto. }
        exists z. split; auto. split; auto. rewrite P. rewrite (proj2 (Nat.eqb_neq i id)) by auto. reflexivity.
    + constructor; [eauto 6|]. eapply WorldProofs.Forall2_weaken; [|exact D]. intros i g (y & u & EY & M & EG).
      cbn -[upd nth_error] in EY. destruct (Nat.eq_dec id i) as [->|N].
      * rewrite nth_upd_same in EY by (apply nth_error_Some; congruence). injection EY as <-. exists x, u. auto.
      * rewrite nth_upd_other in EY by auto. exists y, u. auto.
Qed.

(** no field refers to a spec that is not there *)
Lemma field_types_app (w w' : World) T t u : types w' = types w ++ [T] -> files w' = files w ->
  member_type w t = Some u -> member_type w' t = Some u.
Proof.
  intros ET EF. destruct t as [|t|ts]; cbn [member_type]; auto. destruct (nth_error (types w) ts) as [S|] eqn:E; [|discriminate].
  rewrite ET, nth_error_app1 by (apply nth_error_Some; congruence). rewrite E. cbn [obind]. rewrite (named_same w w') by auto. auto.
Qed.
Lemma nth_last {A} (l : list A) x : nth_error (l ++ [x]) (List.length l) = Some x.
Proof. rewrite nth_error_app2, Nat.sub_diag by auto. reflexivity. Qed.
Lemma upd_last {A} (l : list A) x y : upd (List.length l) y (l ++ [x]) = l ++ [y].
Proof. induction l; cbn; congruence. Qed.

Lemma Forall2_with_in {A B} (P : A -> B -> Prop) l m : Forall2 P l m -> Forall2 (fun a b => In a l /\ P a b) l m.
Proof.
  intros H. assert (X : forall k, incl l k -> Forall2 (fun a b => In a k /\ P a b) l m); [|apply X, incl_refl].
  induction H; intros k X; constructor.
  - split; auto. apply X. left; auto.
  - apply IHForall2. intros a I. apply X. right; auto.
Qed.

(** ** NewStructTypeSpec *)
Record made_struct n l (w w' : World) (id : nat) (fts : list (FieldType_ TypeName)) : Prop := mkMadeStruct
  { ms_id : id = List.length (types w); ms_types : types w' = types w ++ [mkTypeSpec "" n false (TStruct fts) l [] None];
    ms_rest : exists w0, types w0 = types w ++ [mkTypeSpec "" n false TNil l [] None] /\ files w0 = files w /\ World.fields w0 = World.fields w /\
                ielems w0 = ielems w /\ exists w1, struct_made id l w0 w1 fts /\ World.fields w' = World.fields w1 /\ ielems w' = ielems w /\ files w' = files w }.
Lemma NewStruct_made n l (w w' : World) id : NewStructTypeSpec n l w = (Ok id, w') -> exists fts, made_struct n l w w' id fts.
Proof.
  unfold NewStructTypeSpec. unfold sbind at 1, alloc. unfold sbind at 1.
  match goal with |- context[map_m ?g l ?w0] => change (map_m g l w0) with (map_m (struct_step (List.length (types w))) l w0) end.
  match goal with |- context[map_m _ l ?w0] => set (v := w0) end.
  destruct (map_m _ l v) as [[fts|] w1] eqn:E; [|discriminate]. apply struct_steps in E. cbn [put sret sbind]. intros H. injection H as <- <-.
  exists fts. pose proof E as [T F I FS D]. split; auto.
  - cbn. rewrite T. unfold v. cbn. apply upd_last.
  - exists v. repeat split; auto. exists w1. split; [exact E|]. repeat split; auto.
Qed.
Lemma struct_agrees n l (w w' : World) id :
  (forall i x ts, In i l -> nth_error (World.fields w) i = Some x -> FSType x = IsSpec ts -> ts < List.length (types w)) ->
  NewStructTypeSpec n l w = (Ok id, w') -> agrees w' id.
Proof.
  intros K H. destruct (NewStruct_made _ _ _ _ _ H) as (fts & [Eid ET (w0 & T0 & F0 & FS0 & I0 & w1 & SM & FS & IE & FF)]). subst id.
  exists (mkTypeSpec "" n false (TStruct fts) l [] None). rewrite ET. split; [apply nth_last|].
  unfold described. cbn [TSUnderlying TSStruct]. rewrite each_forall2 with (r := fts); [reflexivity|].
  destruct SM as [_ _ _ SF SD]. apply Forall2_with_in in SD.
  eapply WorldProofs.Forall2_weaken; [|exact SD]. intros i ft (IN & x & t & EX & M & ->).
  destruct (SF i x EX) as (y & EY & V & _). rewrite FS, EY. cbn [obind]. unfold vF in V. injection V as VN VG VT. rewrite VN, VG, VT.
  rewrite FS0 in EX.
  assert (M' : member_type w' (FSType x) = Some t); [|rewrite M'; reflexivity].
  destruct (FSType x) as [|u|ts] eqn:ETS; cbn [member_type] in *; auto.
  pose proof (K i x ts IN EX ETS) as LT. rewrite T0, nth_error_app1 in M by auto. rewrite ET, nth_error_app1 by auto.
  destruct (nth_error (types w) ts); [|discriminate]. cbn [obind] in *. rewrite (named_same w0 w') by congruence. exact M.
Qed.

(** ** NewInterfaceTypeSpec *)
Definition taken_elem (t : nat) (e : InterfaceElement) :=
  match e with InterfaceEmbed c s _ => InterfaceEmbed c s (Some t) | InterfaceMethod c n s _ => InterfaceMethod c n s (Some t) end.
Definition iface_step ret id : WM InterfaceElement := do _ <- Elem_setParent ret id ;; get ielems id.
Lemma iface_step_ok ret id (w w1 : World) e : iface_step ret id w = (Ok e, w1) ->
  exists x, nth_error (ielems w) id = Some x /\ w1 = set_ielems (upd id (taken_elem ret x) (ielems w)) w /\ e = taken_elem ret x.
Proof.
  unfold iface_step, Elem_setParent, sbind, get, put. destruct (nth_error (ielems w) id) as [x|] eqn:E; [|discriminate].
  cbn -[upd nth_error]. rewrite nth_upd_same by (apply nth_error_Some; congruence). intros H. injection H as <- <-. exists x. auto.
Qed.
Record iface_made ret l (w w' : World) (els : list InterfaceElement) : Prop := mkIfaceMade
  { im_types : types w' = types w; im_files : files w' = files w; im_fields : World.fields w' = World.fields w;
    im_ielems : forall i x, nth_error (ielems w) i = Some x -> exists y, nth_error (ielems w') i = Some y /\ vE false y = vE false x /\
      elem_parent y = if existsb (Nat.eqb i) l then Some ret else elem_parent x;
    im_described : Forall2 (fun id e => exists x, nth_error (ielems w) id = Some x /\ vE false e = vE false x) l els }.
Lemma iface_steps ret l : forall (w w' : World) els, map_m (iface_step ret) l w = (Ok els, w') -> iface_made ret l w w' els.
Proof.
  induction l as [|id l IH]; intros w w' els; cbn [map_m].
  - intros H. injection H as <- <-. split; auto. intros i x E. exists x. auto.
  - unfold sbind at 1. destruct (iface_step ret id w) as [[ft|] w1] eqn:E1; [|discriminate]. unfold sbind at 1.
    destruct (map_m (iface_step ret) l w1) as [[r|] w2] eqn:E2; [|discriminate]. intros H. injection H as <- <-.
    destruct (iface_step_ok _ _ _ _ _ E1) as (x & EX & -> & EF). destruct (IH _ _ _ E2) as [T F I FS D].
    assert (TV : vE false (taken_elem ret x) = vE false x) by (destruct x; reflexivity).
    split; auto.
    + intros i y EY. cbn [existsb]. destruct (Nat.eq_dec id i) as [->|N].
      * rewrite EX in EY. injection EY as <-. destruct (FS i (taken_elem ret x)) as (z & EZ & V & P).
        { cbn -[upd nth_error]. apply nth_upd_same. apply nth_error_Some. congruence. }
        exists z. split; [exact EZ|]. split; [congruence|]. rewrite P, Nat.eqb_refl. cbn [orb].
        destruct (existsb (Nat.eqb i) l); auto. destruct x; reflexivity.
      * destruct (FS i y) as (z & EZ & V & P). { cbn -[upd nth_error]. rewrite nth_upd_other; auto. }
        exists z. split; auto. split; auto. rewrite P. rewrite (proj2 (Nat.eqb_neq i id)) by auto. reflexivity.
    + constructor; [exists x; split; congruence|]. eapply WorldProofs.Forall2_weaken; [|exact D]. intros i g (y & EY & EG).
      cbn -[upd nth_error] in EY. destruct (Nat.eq_dec id i) as [->|N].
      * rewrite nth_upd_same in EY by (apply nth_error_Some; congruence). injection EY as <-. exists x. split; congruence.
      * rewrite nth_upd_other in EY by auto. exists y. auto.
Qed.
Definition embeds_of (l : list InterfaceElement) := flat_map (fun e => match e with InterfaceEmbed _ s _ => [s] | _ => [] end) l.
Definition methods_of (l : list InterfaceElement) := flat_map (fun e => match e with InterfaceMethod _ n s _ => [mkMethod n s] | _ => [] end) l.
Lemma NewInterface_made n l (w w' : World) id : NewInterfaceTypeSpec n l w = (Ok id, w') -> id = List.length (types w) /\
  exists els w0 w1, types w' = types w ++ [mkTypeSpec "" n false (TInterface (methods_of els) (embeds_of els)) [] l None] /\
    World.fields w0 = World.fields w /\ ielems w0 = ielems w /\ iface_made id l w0 w1 els /\ ielems w' = ielems w1 /\ World.fields w' = World.fields w.
Proof.
  unfold NewInterfaceTypeSpec. unfold sbind at 1, alloc. unfold sbind at 1.
  match goal with |- context[map_m ?g l ?w0] => change (map_m g l w0) with (map_m (iface_step (List.length (types w))) l w0) end.
  match goal with |- context[map_m _ l ?w0] => set (v := w0) end.
  destruct (map_m _ l v) as [[els|] w1] eqn:E; [|discriminate]. apply iface_steps in E. cbn [put sret sbind]. intros H. injection H as <- <-.
  split; auto. exists els, v, w1. pose proof E as [T F I FS D]. split; [|repeat split; auto].
  cbn. rewrite T. unfold v. cbn. apply upd_last.
Qed.
Lemma interface_agrees n l (w w' : World) id : NewInterfaceTypeSpec n l w = (Ok id, w') -> agrees w' id.
Proof.
  intros H. destruct (NewInterface_made _ _ _ _ _ H) as (-> & els & w0 & w1 & ET & F0 & I0 & [T F FS IM D] & IE & _).
  eexists. rewrite ET. split; [apply nth_last|]. unfold described. cbn [TSUnderlying TSInterface].
  assert (X : exists r1, Forall2 (fun a b => nth_error (ielems w') a = Some b) l r1 /\ Forall2 (fun e e1 => vE false e1 = vE false e) els r1).
  { assert (K : forall i x, nth_error (ielems w0) i = Some x -> exists y, nth_error (ielems w') i = Some y /\ vE false y = vE false x).
    { intros i x EX. destruct (IM i x EX) as (y & EY & V & _). exists y. split; congruence. }
    clear -D K. induction D as [|i e l els (x & EX & V) _ (r1 & F1 & F2)]; [exists []; split; constructor|].
    destruct (K i x EX) as (y & EY & VY). exists (y :: r1). split; constructor; auto. congruence. }
  destruct X as (r1 & F1 & F2). rewrite (each_forall2 _ _ _ F1). destruct (embeds_view false els r1 F2) as [A B].
  cbn [option_map]. fold (embeds_of r1) (methods_of r1). unfold embeds_of, methods_of. rewrite A, B. reflexivity.
Qed.
End Made.
