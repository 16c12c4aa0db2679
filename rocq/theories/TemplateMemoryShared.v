(** What the result shares with the data. *)
From Coq Require Import Lia Permutation.
From Verif Require Import Base BaseFacts GoPath Types SpecTypes TypesFacts Imports SpecImports ImportsProofs ImportsTheorems Conv World
  SettleProofs QualifyProofs HeaderProofs Template SpecTemplate TemplateProofs TemplateRuns
  TemplateTheorems TemplateExact TemplateMemory SpecTemplateMemory TemplateMemoryProofs TemplateMemoryTree TemplateMemoryKept SpecTemplateShared.

(** ** New memory *)
Definition agree (A : list holder) (m1 m2 : hmem) : Prop :=
  (forall n, In (NewCell n) A -> nth_error (hcells m2) n = nth_error (hcells m1) n) /\
  (forall n, In (NewTable n) A -> nth_error (htables m2) n = nth_error (htables m1) n).
Lemma agree_trans A m1 m2 m3 : agree A m1 m2 -> agree A m2 m3 -> agree A m1 m3.
Proof. intros [H1 H2] [H3 H4]. split; intros n IN; [rewrite H3, H1|rewrite H4, H2]; auto. Qed.
Definition within (b m : hmem) (a : holder) : Prop :=
  match a with
  | NewCell n => List.length (hcells b) <= n < List.length (hcells m)
  | NewTable n => List.length (htables b) <= n < List.length (htables m)
  end.
Definition grown (b m : hmem) (A : list holder) : Prop := NoDup A /\ forall a, In a A -> within b m a.
Lemma grown_nil b m : grown b m [].
Proof. split; [constructor|intros a []]. Qed.
Lemma agree_l A B m1 m2 : agree (A ++ B) m1 m2 -> agree A m1 m2.
Proof. intros [H1 H2]. split; intros n IN; [apply H1|apply H2]; apply in_or_app; auto. Qed.
Lemma agree_r A B m1 m2 : agree (A ++ B) m1 m2 -> agree B m1 m2.
Proof. intros [H1 H2]. split; intros n IN; [apply H1|apply H2]; apply in_or_app; auto. Qed.
Lemma agree_tl a A m1 m2 : agree (a :: A) m1 m2 -> agree A m1 m2.
Proof. apply (agree_r [a] A). Qed.
Definition shorter (m1 m2 : hmem) : Prop := List.length (hcells m1) <= List.length (hcells m2) /\ List.length (htables m1) <= List.length (htables m2).
Lemma old_shorter m1 m2 : old m1 m2 -> shorter m1 m2.
Proof. intros [_ H]. exact H. Qed.
Lemma within_more b m m2 a : shorter m m2 -> within b m a -> within b m2 a.
Proof. intros [L1 L2]. destruct a; cbn; lia. Qed.
Lemma within_less b b2 m a : shorter b b2 -> within b2 m a -> within b m a.
Proof. intros [L1 L2]. destruct a; cbn; lia. Qed.
Lemma grown_more b m m2 A : shorter m m2 -> grown b m A -> grown b m2 A.
Proof. intros S [N H]. split; auto. intros a IN. eapply within_more; eauto. Qed.
Lemma NoDup_both {A} (l r : list A) : NoDup l -> NoDup r -> (forall x, In x l -> ~ In x r) -> NoDup (l ++ r).
Proof.
  intros H1 H2 D. induction H1 as [|x l N _ IH]; auto. cbn. constructor; [|apply IH; intros; apply D; right; auto].
  rewrite in_app_iff. intros [H|H]; auto. exact (D x (or_introl eq_refl) H).
Qed.
Lemma grown_app b m m2 A B : shorter b m -> shorter m m2 -> grown b m A -> grown m m2 B -> grown b m2 (A ++ B).
Proof.
  intros S1 S2 [N1 H1] [N2 H2]. split.
  - apply NoDup_both; auto. intros a I1 I2. specialize (H1 a I1). specialize (H2 a I2). destruct a; cbn in *; lia.
  - intros a IN. apply in_app_iff in IN as [IN|IN]; [eapply within_more; eauto|eapply within_less; eauto].
Qed.
Lemma agree_old b m m2 A : grown b m A -> old m m2 -> agree A m m2.
Proof.
  intros [_ H] [[U1 U2] _]. split; intros n IN; specialize (H _ IN); cbn in H.
  - destruct (nth_error (hcells m) n) eqn:E; [apply U1; auto|]. apply nth_error_None in E. lia.
  - destruct (nth_error (htables m) n) eqn:E; [apply U2; auto|]. apply nth_error_None in E. lia.
Qed.
Lemma agree_cell A n v m : ~ In (NewCell n) A -> agree A m (with_cell n v m).
Proof. intros N. split; intros k IN; cbn [with_cell hcells htables]; auto. apply nth_put. intros ->. auto. Qed.
Lemma agree_table A n v m : ~ In (NewTable n) A -> agree A m (with_table n v m).
Proof. intros N. split; intros k IN; cbn [with_table hcells htables]; auto. apply nth_put. intros ->. auto. Qed.
Lemma shorter_cell n v m : shorter m (with_cell n v m) /\ shorter (with_cell n v m) m.
Proof. unfold shorter, with_cell. cbn. rewrite length_put. auto. Qed.
Lemma shorter_table n v m : shorter m (with_table n v m) /\ shorter (with_table n v m) m.
Proof. unfold shorter, with_table. cbn. rewrite length_put. auto. Qed.
Lemma old_cell b m n v : List.length (hcells b) <= n -> old b m -> old b (with_cell n v m).
Proof.
  intros L [[U1 U2] [L1 L2]]. split; [split|split]; cbn [with_cell hcells htables]; auto; [|rewrite length_put; auto].
  intros k x E. pose proof (in_nth _ _ _ E). rewrite nth_put by lia. auto.
Qed.
Lemma old_table_put b m n v : List.length (htables b) <= n -> old b m -> old b (with_table n v m).
Proof.
  intros L [[U1 U2] [L1 L2]]. split; [split|split]; cbn [with_table hcells htables]; auto; [|rewrite length_put; auto].
  intros k x E. pose proof (in_nth _ _ _ E). rewrite nth_put by lia. auto.
Qed.
Lemma old_new m x : old m (mkHMem (hcells m ++ [x]) (htables m)).
Proof.
  split; [split|split]; cbn [hcells htables]; auto; [|rewrite app_length; lia].
  intros n v E. rewrite nth_error_app1; auto. apply in_nth in E. auto.
Qed.
Lemma old_new_table m x : old m (mkHMem (hcells m) (htables m ++ [x])).
Proof.
  split; [split|split]; cbn [hcells htables]; auto; [|rewrite app_length; lia].
  intros n v E. rewrite nth_error_app1; auto. apply in_nth in E. auto.
Qed.
Lemma sees_hidden m0 m n : old m0 m -> List.length (hcells m0) <= n -> sees m0 (hide [n] [] m).
Proof.
  intros [[U1 U2] _] L. split; intros k v E; right; cbn [hide hcells htables]; [|rewrite hide_none; auto].
  rewrite nth_hide, (U1 _ _ E). cbn [Nat.add existsb]. apply in_nth in E. destruct (Nat.eqb_spec k n); [lia|auto].
Qed.
Lemma sees_hidden_table m0 m n : old m0 m -> List.length (htables m0) <= n -> sees m0 (hide [] [n] m).
Proof.
  intros [[U1 U2] _] L. split; intros k v E; right; cbn [hide hcells htables]; [rewrite hide_none; auto|].
  rewrite nth_hide, (U2 _ _ E). cbn [Nat.add existsb]. apply in_nth in E. destruct (Nat.eqb_spec k n); [lia|auto].
Qed.

Lemma getField_walk u rec addr e x m i o m1 i1 : e || u = true -> hgetField u rec addr e x m i = Some (Ok o, m1, i1) -> rec addr x m i = Some (Ok o, m1, i1).
Proof. unfold hgetField. destruct e; auto. cbn. intros ->. destruct addr; [auto|discriminate]. Qed.

Lemma holder_dec (a b : holder) : {a = b} + {a <> b}.
Proof. decide equality; apply Nat.eq_dec. Qed.
(** no more of each *)
Definition sub (A B : list holder) : Prop := forall a, count_occ holder_dec A a <= count_occ holder_dec B a.
Lemma sub_in A B a : sub A B -> In a A -> In a B.
Proof. intros S IN. apply (count_occ_In holder_dec). apply (count_occ_In holder_dec) in IN. specialize (S a). lia. Qed.
Lemma sub_grown b m A B : sub A B -> grown b m B -> grown b m A.
Proof.
  intros S [N H]. split; [|intros a IN; apply H; eapply sub_in; eauto]. apply (NoDup_count_occ holder_dec). intros a.
  rewrite (NoDup_count_occ holder_dec) in N. specialize (N a). specialize (S a). lia.
Qed.

Section Shares.
Variable implements : gty -> string -> bool.
Variable unsafe : bool.
Variable parent_of : spec -> res (option Package).
Variable j : Imports.
Hypothesis Hj : Inv j.
Variable m0 : hmem.
Notation nm := (name_in j).
Notation stands_for := (stands_for unsafe).
Notation moved := (moved implements unsafe parent_of nm).
Notation walk := (qualifyMemory implements unsafe parent_of).
Notation reqs := (data_requests unsafe parent_of).
Notation typed := (typed implements).
Notation part := (part implements unsafe parent_of nm m0).
Notation made := (made implements unsafe parent_of nm m0).
Notation all_made := (all_made implements unsafe parent_of nm m0).
Notation fields_made := (fields_made implements unsafe parent_of nm m0).
Notation entries_made := (entries_made implements unsafe parent_of nm m0).

Scheme part_i := Minimality for SpecTemplateShared.part Sort Prop
with made_i := Minimality for SpecTemplateShared.made Sort Prop
with all_i := Minimality for SpecTemplateShared.all_made Sort Prop
with fields_i := Minimality for SpecTemplateShared.fields_made Sort Prop
with entries_i := Minimality for SpecTemplateShared.entries_made Sort Prop.
Combined Scheme parts_i from part_i, made_i, all_i, fields_i, entries_i.
Lemma stays m1 m2 :
  (forall v w A, part m1 v w A -> agree A m1 m2 -> part m2 v w A) /\
  (forall v w A, made m1 v w A -> agree A m1 m2 -> made m2 v w A) /\
  (forall v w A, all_made m1 v w A -> agree A m1 m2 -> all_made m2 v w A) /\
  (forall v w A, fields_made m1 v w A -> agree A m1 m2 -> fields_made m2 v w A) /\
  (forall v w A, entries_made m1 v w A -> agree A m1 m2 -> entries_made m2 v w A).
Proof.
  apply parts_i; intros; try (econstructor; eauto using agree_l, agree_r, agree_tl; fail).
  - destruct H1 as [H1 _]. eapply made_reference; eauto. rewrite H1; [eassumption|cbn; auto].
  - pose proof (agree_tl _ _ _ _ H4). destruct H4 as [H4 _]. eapply made_pointer; eauto. rewrite H4; [eassumption|cbn; auto].
  - pose proof (agree_tl _ _ _ _ H4). destruct H4 as [H4 _]. eapply made_slice; eauto. rewrite H4; [eassumption|cbn; auto].
  - pose proof (agree_tl _ _ _ _ H4). destruct H4 as [_ H4]. eapply made_map; eauto. rewrite H4; [eassumption|cbn; auto].
  - pose proof (agree_r _ _ _ _ H7). eapply (em_cons _ _ _ _ _ _ es k k' y x x' z); eauto using agree_l, agree_r.
Qed.
Lemma part_stays m1 m2 v w A : agree A m1 m2 -> part m1 v w A -> part m2 v w A.
Proof. intros H P. eapply stays; eauto. Qed.
Lemma made_stays m1 m2 v w A : agree A m1 m2 -> made m1 v w A -> made m2 v w A.
Proof. intros H P. eapply stays; eauto. Qed.
Lemma all_stays m1 m2 v w A : agree A m1 m2 -> all_made m1 v w A -> all_made m2 v w A.
Proof. intros H P. eapply stays; eauto. Qed.
Lemma fields_stays m1 m2 v w A : agree A m1 m2 -> fields_made m1 v w A -> fields_made m2 v w A.
Proof. intros H P. eapply stays; eauto. Qed.
Lemma entries_stays m1 m2 v w A : agree A m1 m2 -> entries_made m1 v w A -> entries_made m2 v w A.
Proof. intros H P. eapply stays; eauto. Qed.
Lemma made_plain m1 v w A : made m1 v w A -> is_hiface w = false.
Proof. induction 1; auto. Qed.
Lemma all_made_app m1 l r A l2 r2 B : all_made m1 l r A -> all_made m1 l2 r2 B -> all_made m1 (l ++ l2) (r ++ r2) (A ++ B).
Proof. induction 1; auto. intros H1. cbn. rewrite <- app_assoc. constructor; auto. Qed.
Lemma fields_made_app m1 l r A l2 r2 B : fields_made m1 l r A -> fields_made m1 l2 r2 B -> fields_made m1 (l ++ l2) (r ++ r2) (A ++ B).
Proof. induction 1; auto. intros H1. cbn. rewrite <- app_assoc. constructor; auto. Qed.

(** ** One walk *)
Lemma flag fuel addr v t m i v' a c m1 i1 : stands_for m v t -> plain_keys t -> typed t -> Inv i -> ext (after (reqs t) i) j ->
  walk fuel addr v m i = Some (Ok (v', a, c), m1, i1) -> i1 = after (reqs t) i /\ (c = true <-> moved t).
Proof.
  intros S P T Hi X E. destruct (simulated_any implements unsafe parent_of t) as [N H].
  assert (E2 : walk (fuel + N) addr v m i = Some (Ok (v', a, c), m1, i1)).
  { clear - E. induction N as [|N IH]; [rewrite Nat.add_0_r; auto|]. rewrite Nat.add_succ_r. apply walk_more. auto. }
  assert (M := H (fuel + N) ltac:(lia) addr v m i [] [] ltac:(split; intros ? []) ltac:(rewrite hide_nil; auto) P).
  pose proof (walk_sharp implements unsafe parent_of j Hj t addr T i Hi X) as SH. unfold matches in M.
  destruct (qualifyTemplateData implements unsafe parent_of addr t i) as [[[t' c']|e] i'].
  - destruct M as ([[w b] c2] & m2 & EQ & -> & _). rewrite E2 in EQ. injection EQ as -> -> -> -> ->. destruct SH as (-> & _ & M & _). auto.
  - destruct M as (m2 & EQ). congruence.
Qed.
(** what a walk gives *)
Definition gives (m : hmem) (v : hval) (t : val) (o : outcome) (m1 : hmem) : Prop :=
  let '(v', a, c) := o in
  if c : bool then moved t /\ exists A, made m1 v v' A /\ grown m m1 A /\
    forall n, a = Some n -> nth_error (hcells m1) n = Some v' /\ List.length (hcells m) <= n /\ ~ In (NewCell n) A
  else ~ moved t /\ m1 = m /\ hbox (htypeof v) v' = v.
Definition fine (fuel : nat) : Prop := forall addr v t m i o m1 i1, old m0 m -> stands_for m0 v t -> plain_keys t -> typed t -> Inv i ->
  ext (after (reqs t) i) j -> walk fuel addr v m i = Some (Ok o, m1, i1) -> i1 = after (reqs t) i /\ old m m1 /\ gives m v t o m1.
Lemma keeps_old fuel addr v m i r m1 i1 : walk fuel addr v m i = Some (r, m1, i1) -> old m m1.
Proof.
  intros E. pose proof (walk_keeps implements unsafe parent_of fuel addr v m) as K. unfold ok in K. specialize (K m i (old_refl m)). rewrite E in K.
  apply K.
Qed.
Lemma getField_old fuel addr e x m i r m1 i1 : hgetField unsafe (walk fuel) addr e x m i = Some (r, m1, i1) -> old m m1.
Proof.
  unfold hgetField. destruct e; [apply keeps_old|]. destruct unsafe eqn:U; [destruct addr|].
  - rewrite <- U. apply keeps_old.
  - intros [= _ <- _]. apply old_refl.
  - intros [= _ <- _]. apply old_refl.
Qed.
(** stored where [v] was *)
Lemma stored m v t v' a c m1 w : stands_for m0 v t -> gives m v t (v', a, c) m1 -> hassign implements (htypeof v) v' = Ok w ->
  exists A, part m1 v w A /\ grown m m1 A.
Proof.
  intros S G E. unfold hassign in E. destruct (assignable _ _ _); [|discriminate]. injection E as <-. unfold gives in G. destruct c.
  - destruct G as (M & A & MA & GR & _). exists A. split; auto. apply part_made; auto. exists t. auto.
  - destruct G as (M & -> & ->). exists []. split; [|apply grown_nil]. apply part_kept. exists t. auto.
Qed.

(** ** Fields *)
Section Loops.
Variable fuel : nat.
Hypothesis FINE : fine fuel.
Variable b : hmem.   (* before the loop *)
Hypothesis OB : old m0 b.
Notation reqs_fields l := (flat_map (fun f : bool * val => if fst f || unsafe then reqs (snd f) else []) l).
Definition typed_fields (l : list (bool * val)) : Prop := fold_right (fun f P => typed (snd f) /\ P) True l.
Lemma fields_on t addr all n : forall l l' i m pre done A r m1 i1,
  stand_for_fields unsafe m0 l l' -> plain_fields l' -> typed_fields l' -> Inv i -> ext (after (reqs_fields l') i) j -> old b m ->
  nth_error (hcells m) n = Some (HStruct t (done ++ map zero l)) -> List.length (hcells b) <= n ->
  fields_made m pre done A -> grown b m A -> ~ In (NewCell n) A ->
  hfields_loop implements unsafe (walk fuel) t addr all (List.length done) l (Some n) m i = Some (Ok r, m1, i1) ->
  r = Some n /\ i1 = after (reqs_fields l') i /\ exists done' B, nth_error (hcells m1) n = Some (HStruct t done') /\
    fields_made m1 (pre ++ l) done' B /\ grown b m1 B /\ ~ In (NewCell n) B.
Proof.
  induction l as [|[e x] l IH]; intros l' i m pre done A r m1 i1 S P T Hi X O E L FM G N R.
  - inversion S; subst. injection R as <- <- <-. rewrite app_nil_r in *. cbn. split; auto. split; auto. exists done, A. auto.
  - cbn [hfields_loop] in R. unfold hbind at 1 in R.
    destruct (hgetField unsafe (walk fuel) addr e x m i) as [[[[[[x' a] c]|?] m2] i2]|] eqn:GF; try discriminate. unfold hbind in R.
    pose proof (getField_old _ _ _ _ _ _ _ _ _ GF) as O1. assert (O2 : old b m2) by (eapply old_trans; eauto).
    assert (E2 : nth_error (hcells m2) n = Some (HStruct t (done ++ zero (e, x) :: map zero l))) by (apply O1; exact E).
    rewrite (set_field_run _ _ _ i2 _ _ _ _ _ x' E2) in R. destruct e; [|discriminate].
    inversion S as [|? ? y ? l1 _ SX SL|]; subst. destruct P as [PX PL]. destruct T as [TX TL]. cbn [fst snd] in *.
    cbn [flat_map fst snd orb] in *. rewrite after_app in *. assert (I1 : Inv (after (reqs y) i)) by (apply after_Inv; auto).
    cbn [hgetField] in GF. destruct (FINE _ _ _ _ _ _ _ _ (old_trans _ _ _ OB O) SX PX TX Hi (ext_trans _ _ _ (after_ext _ _ I1) X) GF) as (-> & O3 & GV).
    destruct (hassign implements (htypeof x) x') as [w|] eqn:W; [|discriminate].
    destruct (stored _ _ _ _ _ _ _ _ SX GV W) as (A2 & PT & G2).
    assert (N2 : ~ In (NewCell n) A2).
    { intros IN. apply G2 in IN. cbn in IN. apply in_nth in E. lia. }
    assert (G3 : grown b m2 (A ++ A2)) by (apply (grown_app b m m2); auto; apply old_shorter; auto).
    assert (N3 : ~ In (NewCell n) (A ++ A2)) by (rewrite in_app_iff; tauto).
    set (m3 := with_cell n (HStruct t (done ++ (true, w) :: map zero l)) m2) in *.
    replace (Datatypes.S (List.length done)) with (List.length (done ++ [(true, w)])) in R by (rewrite app_length; cbn; lia).
    specialize (IH l1 _ m3 (pre ++ [(true, x)]) (done ++ [(true, w)]) (A ++ A2) r m1 i1 SL PL TL I1 X).
    destruct IH as (-> & -> & done' & B & E4 & FM4 & G4 & N4); auto.
    + apply old_cell; auto.
    + rewrite <- app_assoc. eapply cell_put; eauto.
    + eapply fields_stays; [apply agree_cell; auto|]. apply fields_made_app; [eapply fields_stays; [|exact FM]; eapply agree_old; eauto|].
      rewrite <- (app_nil_r A2). constructor; auto. constructor.
    + eapply grown_more; [exact (proj1 (shorter_cell _ _ _))|auto].
    + split; auto. split; auto. exists done', B. rewrite <- app_assoc in FM4. auto.
Qed.
Definition kept_fields (pre : list (bool * hval)) : Prop := forall e x, In (e, x) pre -> e = true -> renames_nothing implements unsafe parent_of nm m0 x.
Lemma kept_fields_made m pre : forallb fst pre = true -> kept_fields pre -> fields_made m pre pre [].
Proof.
  induction pre as [|[e x] pre IH]; intros F K; [constructor|]. cbn in F. apply andb_true_iff in F as [-> F]. change (@nil holder) with ([] ++ @nil holder).
  constructor; [apply part_kept; eapply K; [left; eauto|auto]|]. apply IH; auto. intros e1 x1 IN. eapply K. right. eauto.
Qed.
Lemma fields_off t addr : forall l l' i pre pre' r m1 i1,
  stand_for_fields unsafe m0 pre pre' -> kept_fields pre ->
  stand_for_fields unsafe m0 l l' -> plain_fields l' -> typed_fields l' -> Inv i -> ext (after (reqs_fields l') i) j ->
  hfields_loop implements unsafe (walk fuel) t addr (pre ++ l) (List.length pre) l None b i = Some (Ok r, m1, i1) ->
  i1 = after (reqs_fields l') i /\ match r with
  | None => m1 = b
  | Some n => List.length (hcells b) <= n /\ exists done' B, nth_error (hcells m1) n = Some (HStruct t done') /\
              fields_made m1 (pre ++ l) done' B /\ grown b m1 B /\ ~ In (NewCell n) B
  end.
Proof.
  induction l as [|[e x] l IH]; intros l' i pre pre' r m1 i1 SP K S P T Hi X R.
  - inversion S; subst. injection R as <- <- <-. cbn. auto.
  - cbn [hfields_loop] in R. unfold hbind at 1 in R.
    destruct (hgetField unsafe (walk fuel) addr e x b i) as [[[[[[x' a] c]|?] m2] i2]|] eqn:GF; try discriminate.
    assert (NEXT : forall y, stand_for_fields unsafe m0 [(e, x)] [(e, y)] -> (e = true -> renames_nothing implements unsafe parent_of nm m0 x) ->
      forall l1 i2, stand_for_fields unsafe m0 l l1 -> plain_fields l1 -> typed_fields l1 -> Inv i2 -> ext (after (reqs_fields l1) i2) j ->
      hfields_loop implements unsafe (walk fuel) t addr (pre ++ (e, x) :: l) (Datatypes.S (List.length pre)) l None b i2 = Some (Ok r, m1, i1) ->
      i1 = after (reqs_fields l1) i2 /\ match r with
      | None => m1 = b
      | Some n => List.length (hcells b) <= n /\ exists done' B, nth_error (hcells m1) n = Some (HStruct t done') /\
                  fields_made m1 (pre ++ (e, x) :: l) done' B /\ grown b m1 B /\ ~ In (NewCell n) B
      end).
    { intros y SY KX l1 i3 SL PL TL I3 X3 R3.
      assert (EQ : pre ++ (e, x) :: l = (pre ++ [(e, x)]) ++ l) by (rewrite <- app_assoc; auto). rewrite EQ in R3.
      replace (Datatypes.S (List.length pre)) with (List.length (pre ++ [(e, x)])) in R3 by (rewrite app_length; cbn; lia).
      rewrite EQ. eapply (IH l1 i3 (pre ++ [(e, x)]) (pre' ++ [(e, y)])); eauto.
      - apply fields_app; auto.
      - intros e1 x1 IN. apply in_app_iff in IN as [IN|[[= <- <-]|[]]]; [apply (K _ _ IN)|auto]. }
    destruct (e || unsafe) eqn:READ.
    2: { apply orb_false_iff in READ as [-> U]. unfold hgetField in GF. rewrite U in GF. injection GF as <- <- <- <- <-.
         inversion S as [|? ? y ? l1 [?|UU] SX SL|? y l1 l2 UF TY SL]; subst; try discriminate; try congruence.
         destruct P as [PX PL]. destruct T as [TX TL]. 
         assert (EQ : reqs_fields ((false, y) :: l2) = reqs_fields l2) by (cbn [flat_map fst snd orb]; replace unsafe with false at 1; reflexivity).
         rewrite EQ in *.
         eapply (NEXT y); eauto; [|discriminate]. apply sff_skip; auto. constructor. }
    assert (RD : e = true \/ unsafe = true) by (apply orb_true_iff; auto).
    assert (D : exists y l1, l' = (e, y) :: l1 /\ stands_for m0 x y /\ stand_for_fields unsafe m0 l l1).
    { inversion S as [|? ? y ? l1 _ SX SL|? y ? l1 UF TY SL]; subst; eauto. destruct RD; [discriminate|congruence]. }
    destruct D as (y & l1 & -> & SX & SL). destruct P as [PX PL]. destruct T as [TX TL]. cbn [fst snd] in *.
    cbn [flat_map fst snd] in *. rewrite READ in *. rewrite after_app in *. assert (I1 : Inv (after (reqs y) i)) by (apply after_Inv; auto).
    assert (GF2 : walk fuel addr x b i = Some (Ok (x', a, c), m2, i2)).
    { eapply getField_walk; eauto. }
    destruct (FINE _ _ _ _ _ _ _ _ OB SX PX TX Hi (ext_trans _ _ _ (after_ext _ _ I1) X) GF2) as (-> & O3 & GV). destruct c.
    2: { unfold gives in GV. destruct GV as (NM & -> & _). eapply (NEXT y); eauto; [constructor; auto; constructor|]. intros _. exists y. auto. }
    set (n := List.length (hcells m2)) in *. set (z := HStruct t (map (fun f => (fst f, HZero (htypeof (snd f)))) (pre ++ (e, x) :: l))) in *.
    unfold hbind at 1 in R. unfold hnew in R. fold n in R.
    set (m3 := mkHMem (hcells m2 ++ [z]) (htables m2)) in *. rewrite firstn_prefix in R.
    assert (E3 : nth_error (hcells m3) n = Some (HStruct t ([] ++ map zero pre ++ map zero ((e, x) :: l)))).
    { cbn [app]. rewrite <- map_app. apply new_nth. }
    assert (O4 : old b m3) by (eapply old_trans; [exact O3|apply old_new]).
    assert (LN : List.length (hcells b) <= n) by (destruct O3 as [_ [LL _]]; exact LL).
    assert (SEE : sees m0 (hide [n] [] m3)).
    { apply sees_hidden; [eapply old_trans; eauto|]. destruct OB as [_ [LL _]]. lia. }
    pose proof (copy_fields implements unsafe n [] [] t (map zero ((e, x) :: l)) (after (reqs y) i) pre pre' [] m3 E3 (fields_sees _ _ _ _ _ SEE SP)) as CP.
    unfold hbind in R. cbn [List.length] in CP. destruct (forallb fst pre) eqn:FP; [|destruct CP as (mm & CP); rewrite CP in R; discriminate].
    rewrite CP in R. cbn [app] in R. set (m4 := with_cell n (HStruct t (pre ++ map zero ((e, x) :: l))) m3) in *.
    assert (E4 : nth_error (hcells m4) n = Some (HStruct t (pre ++ (e, HZero (htypeof x)) :: map zero l))).
    { eapply cell_put; eauto. }
    rewrite (set_field_run _ _ _ (after (reqs y) i) _ _ _ _ _ x' E4) in R. destruct e; [|discriminate].
    destruct (hassign implements (htypeof x) x') as [w|] eqn:W; [|discriminate].
    destruct (stored _ _ _ _ _ _ _ _ SX GV W) as (A2 & PT & G2).
    assert (N2 : ~ In (NewCell n) A2).
    { intros IN. apply G2 in IN. cbn in IN. lia. }
    set (m5 := with_cell n (HStruct t (pre ++ (true, w) :: map zero l)) m4) in *.
    replace (Datatypes.S (List.length pre)) with (List.length (pre ++ [(true, w)])) in R by (rewrite app_length; cbn; lia).
    destruct (fields_on t addr (pre ++ (true, x) :: l) n l l1 (after (reqs y) i) m5 (pre ++ [(true, x)]) (pre ++ [(true, w)]) A2 r m1 i1) as (-> & -> & done' & B & E6 & FM6 & G6 & N6); auto.
    + apply old_cell; auto. apply old_cell; auto.
    + rewrite <- app_assoc. eapply cell_put; eauto.
    + change A2 with ([] ++ A2). apply fields_made_app; [apply kept_fields_made; auto|]. rewrite <- (app_nil_r A2). constructor; [|constructor].
      eapply part_stays; [|exact PT]. apply (agree_trans _ _ m4); [|apply agree_cell; auto]. apply (agree_trans _ _ m3); [|apply agree_cell; auto].
      eapply agree_old; [exact G2|apply old_new].
    + eapply grown_more; [exact (proj1 (shorter_cell _ _ _))|]. eapply grown_more; [exact (proj1 (shorter_cell _ _ _))|]. eapply grown_more; [|exact G2]. apply old_shorter, old_new.
    + split; auto. split; auto. exists done', B. rewrite <- app_assoc in FM6. auto.
Qed.

(** ** Elements *)
Notation reqs_all l := (flat_map reqs l).
Definition typed_all (l : list val) : Prop := fold_right (fun f P => typed f /\ P) True l.
Lemma elems_on t ok addr all n : forall l l' i m pre done A r m1 i1,
  stand_for_all unsafe m0 l l' -> plain_all l' -> typed_all l' -> Inv i -> ext (after (reqs_all l') i) j -> old b m ->
  nth_error (hcells m) n = Some (HArray t (done ++ map zero_elem l)) -> List.length (hcells b) <= n ->
  all_made m pre done A -> grown b m A -> ~ In (NewCell n) A ->
  helems_loop implements (walk fuel) t ok addr all (List.length done) l (Some n) m i = Some (Ok r, m1, i1) ->
  r = Some n /\ i1 = after (reqs_all l') i /\ exists done' B, nth_error (hcells m1) n = Some (HArray t done') /\
    all_made m1 (pre ++ l) done' B /\ grown b m1 B /\ ~ In (NewCell n) B.
Proof.
  induction l as [|x l IH]; intros l' i m pre done A r m1 i1 S P T Hi X O E L FM G N R.
  - inversion S; subst. injection R as <- <- <-. rewrite app_nil_r in *. cbn. split; auto. split; auto. exists done, A. auto.
  - cbn [helems_loop] in R. unfold hbind at 1 in R.
    destruct (walk fuel addr x m i) as [[[[[[x' a] c]|?] m2] i2]|] eqn:GF; try discriminate. unfold hbind in R.
    pose proof (keeps_old _ _ _ _ _ _ _ _ GF) as O1. assert (O2 : old b m2) by (eapply old_trans; eauto).
    assert (E2 : nth_error (hcells m2) n = Some (HArray t (done ++ zero_elem x :: map zero_elem l))) by (apply O1; exact E).
    rewrite (set_elem_run _ _ _ i2 _ _ _ _ x' E2) in R.
    inversion S as [|? y ? l1 SX SL]; subst. destruct P as [PX PL]. destruct T as [TX TL].
    cbn [flat_map] in *. rewrite after_app in *. assert (I1 : Inv (after (reqs y) i)) by (apply after_Inv; auto).
    destruct (FINE _ _ _ _ _ _ _ _ (old_trans _ _ _ OB O) SX PX TX Hi (ext_trans _ _ _ (after_ext _ _ I1) X) GF) as (-> & O3 & GV).
    destruct (hassign implements (htypeof x) x') as [w|] eqn:W; [|discriminate].
    destruct (stored _ _ _ _ _ _ _ _ SX GV W) as (A2 & PT & G2).
    assert (N2 : ~ In (NewCell n) A2).
    { intros IN. apply G2 in IN. cbn in IN. apply in_nth in E. lia. }
    assert (G3 : grown b m2 (A ++ A2)) by (apply (grown_app b m m2); auto; apply old_shorter; auto).
    assert (N3 : ~ In (NewCell n) (A ++ A2)) by (rewrite in_app_iff; tauto).
    set (m3 := with_cell n (HArray t (done ++ w :: map zero_elem l)) m2) in *.
    replace (Datatypes.S (List.length done)) with (List.length (done ++ [w])) in R by (rewrite app_length; cbn; lia).
    specialize (IH l1 _ m3 (pre ++ [x]) (done ++ [w]) (A ++ A2) r m1 i1 SL PL TL I1 X).
    destruct IH as (-> & -> & done' & B & E4 & FM4 & G4 & N4); auto.
    + apply old_cell; auto.
    + rewrite <- app_assoc. eapply cell_put; eauto.
    + eapply all_stays; [apply agree_cell; auto|]. apply all_made_app; [eapply all_stays; [|exact FM]; eapply agree_old; eauto|].
      rewrite <- (app_nil_r A2). constructor; auto. constructor.
    + eapply grown_more; [exact (proj1 (shorter_cell _ _ _))|auto].
    + split; auto. split; auto. exists done', B. rewrite <- app_assoc in FM4. auto.
Qed.
Definition kept_all (pre : list hval) : Prop := forall x, In x pre -> renames_nothing implements unsafe parent_of nm m0 x.
Lemma kept_all_made m pre : kept_all pre -> all_made m pre pre [].
Proof.
  induction pre as [|x pre IH]; intros K; [constructor|]. change (@nil holder) with ([] ++ @nil holder).
  constructor; [apply part_kept; apply K; left; auto|]. apply IH; auto. intros x1 IN. apply K. right. auto.
Qed.
Lemma elems_off t ok addr : forall l l' i pre pre' r m1 i1,
  stand_for_all unsafe m0 pre pre' -> kept_all pre ->
  stand_for_all unsafe m0 l l' -> plain_all l' -> typed_all l' -> Inv i -> ext (after (reqs_all l') i) j ->
  helems_loop implements (walk fuel) t ok addr (pre ++ l) (List.length pre) l None b i = Some (Ok r, m1, i1) ->
  i1 = after (reqs_all l') i /\ match r with
  | None => m1 = b
  | Some n => List.length (hcells b) <= n /\ exists done' B, nth_error (hcells m1) n = Some (HArray t done') /\
              all_made m1 (pre ++ l) done' B /\ grown b m1 B /\ ~ In (NewCell n) B
  end.
Proof.
  induction l as [|x l IH]; intros l' i pre pre' r m1 i1 SP K S P T Hi X R.
  - inversion S; subst. injection R as <- <- <-. cbn. auto.
  - cbn [helems_loop] in R. unfold hbind at 1 in R.
    destruct (walk fuel addr x b i) as [[[[[[x' a] c]|?] m2] i2]|] eqn:GF; try discriminate.
    inversion S as [|? y ? l1 SX SL]; subst. destruct P as [PX PL]. destruct T as [TX TL].
    cbn [flat_map] in *. rewrite after_app in *. assert (I1 : Inv (after (reqs y) i)) by (apply after_Inv; auto).
    destruct (FINE _ _ _ _ _ _ _ _ OB SX PX TX Hi (ext_trans _ _ _ (after_ext _ _ I1) X) GF) as (-> & O3 & GV). destruct c.
    2: { unfold gives in GV. destruct GV as (NM & -> & _).
      assert (EQ : pre ++ x :: l = (pre ++ [x]) ++ l) by (rewrite <- app_assoc; auto). rewrite EQ in R.
      replace (Datatypes.S (List.length pre)) with (List.length (pre ++ [x])) in R by (rewrite app_length; cbn; lia).
      rewrite EQ. eapply (IH l1 _ (pre ++ [x]) (pre' ++ [y])); eauto.
      - apply all_app; auto. constructor; auto. constructor.
      - intros x1 IN. apply in_app_iff in IN as [IN|[<-|[]]]; [apply (K _ IN)|exists y; auto]. }
    set (n := List.length (hcells m2)) in *. set (z := HArray t (map (fun y => HZero (htypeof y)) (pre ++ x :: l))) in *.
    unfold hbind at 1 in R. unfold hnew in R. fold n in R.
    set (m3 := mkHMem (hcells m2 ++ [z]) (htables m2)) in *. rewrite firstn_prefix in R.
    assert (E3 : nth_error (hcells m3) n = Some (HArray t ([] ++ map zero_elem pre ++ map zero_elem (x :: l)))).
    { cbn [app]. rewrite <- map_app. apply new_nth. }
    assert (O4 : old b m3) by (eapply old_trans; [exact O3|apply old_new]).
    assert (LN : List.length (hcells b) <= n) by (destruct O3 as [_ [LL _]]; exact LL).
    assert (SEE : sees m0 (hide [n] [] m3)).
    { apply sees_hidden; [eapply old_trans; eauto|]. destruct OB as [_ [LL _]]. lia. }
    pose proof (copy_elems implements unsafe n [] [] t (map zero_elem (x :: l)) (after (reqs y) i) pre pre' [] m3 E3 (all_sees _ _ _ _ _ SEE SP)) as CP.
    unfold hbind in R. cbn [List.length] in CP. unfold hres at 1 in R. destruct ok as [[]|]; [|discriminate].
    rewrite CP in R. cbn [app] in R. set (m4 := with_cell n (HArray t (pre ++ map zero_elem (x :: l))) m3) in *.
    assert (E4 : nth_error (hcells m4) n = Some (HArray t (pre ++ HZero (htypeof x) :: map zero_elem l))).
    { eapply cell_put; eauto. }
    rewrite (set_elem_run _ _ _ (after (reqs y) i) _ _ _ _ x' E4) in R.
    destruct (hassign implements (htypeof x) x') as [w|] eqn:W; [|discriminate].
    destruct (stored _ _ _ _ _ _ _ _ SX GV W) as (A2 & PT & G2).
    assert (N2 : ~ In (NewCell n) A2).
    { intros IN. apply G2 in IN. cbn in IN. lia. }
    set (m5 := with_cell n (HArray t (pre ++ w :: map zero_elem l)) m4) in *.
    replace (Datatypes.S (List.length pre)) with (List.length (pre ++ [w])) in R by (rewrite app_length; cbn; lia).
    destruct (elems_on t (Ok tt) addr (pre ++ x :: l) n l l1 (after (reqs y) i) m5 (pre ++ [x]) (pre ++ [w]) A2 r m1 i1) as (-> & -> & done' & B & E6 & FM6 & G6 & N6); auto.
    + apply old_cell; auto. apply old_cell; auto.
    + rewrite <- app_assoc. eapply cell_put; eauto.
    + change A2 with ([] ++ A2). apply all_made_app; [apply kept_all_made; auto|]. rewrite <- (app_nil_r A2). constructor; [|constructor].
      eapply part_stays; [|exact PT]. apply (agree_trans _ _ m4); [|apply agree_cell; auto]. apply (agree_trans _ _ m3); [|apply agree_cell; auto].
      eapply agree_old; [exact G2|apply old_new].
    + eapply grown_more; [exact (proj1 (shorter_cell _ _ _))|]. eapply grown_more; [exact (proj1 (shorter_cell _ _ _))|]. eapply grown_more; [|exact G2]. apply old_shorter, old_new.
    + split; auto. split; auto. exists done', B. rewrite <- app_assoc in FM6. auto.
Qed.

(** ** Entries *)
Notation reqs_entries l := (flat_map (fun e : val * val => reqs (fst e) ++ reqs (snd e)) l).
Definition typed_entries (l : list (val * val)) : Prop := fold_right (fun e P => typed (fst e) /\ typed (snd e) /\ P) True l.
Lemma entry_set m es k k' y x x' z A B : In (k, y) es -> In (z, x) es -> part m k k' A -> part m x x' B -> forall l C, entries_made m es l C ->
  exists D, entries_made m es (hset_entry k' x' l) D /\ sub D (C ++ A ++ B).
Proof.
  intros I1 I2 PK PX. induction 1 as [es|es k1 k1' y1 x1 x1' z1 A1 B1 C1 l1 J1 J2 PK1 PX1 EM IH]; cbn [hset_entry].
  - exists (A ++ B ++ []). split; [|rewrite app_nil_r; intros a; auto]. eapply (em_cons _ _ _ _ _ _ es k k' y x x' z); eauto. constructor.
  - destruct (hsame_key k' k1').
    + exists (A1 ++ B ++ C1). split; [eapply (em_cons _ _ _ _ _ _ es k1 k1' y1 x x' z); eauto|]. intros a. rewrite !count_occ_app. lia.
    + destruct (IH I1 I2) as (D & ED & SD). exists (A1 ++ B1 ++ D). split; [eapply (em_cons _ _ _ _ _ _ es k1 k1' y1 x1 x1' z1); eauto|].
      intros a. specialize (SD a). rewrite !count_occ_app in *. lia.
Qed.
Lemma map_on es n : forall l l' i m r0 A r m1 i1, incl l es ->
  stand_for_entries unsafe m0 l l' -> plain_entries l' -> typed_entries l' -> Inv i -> ext (after (reqs_entries l') i) j -> old b m ->
  nth_error (htables m) n = Some r0 -> List.length (htables b) <= n ->
  entries_made m es r0 A -> grown b m A -> ~ In (NewTable n) A ->
  hmap_loop implements (walk fuel) l [] (Some n) m i = Some (Ok r, m1, i1) ->
  r = Some n /\ i1 = after (reqs_entries l') i /\ exists r1 B, nth_error (htables m1) n = Some r1 /\
    entries_made m1 es r1 B /\ grown b m1 B /\ ~ In (NewTable n) B.
Proof.
  induction l as [|[k x] l IH]; intros l' i m r0 A r m1 i1 IC S P T Hi X O E L FM G N R.
  - inversion S; subst. injection R as <- <- <-. cbn. split; auto. split; auto. exists r0, A. auto.
  - cbn [hmap_loop] in R. unfold hbind at 1 in R.
    destruct (walk fuel false k m i) as [[[[[[k' ak] ck]|?] m2] i2]|] eqn:GK; try discriminate. unfold hbind at 1 in R.
    destruct (walk fuel false x m2 i2) as [[[[[[x' ax] cx]|?] m3] i3]|] eqn:GX; try discriminate. unfold hbind in R.
    pose proof (keeps_old _ _ _ _ _ _ _ _ GK) as O1. assert (O2 : old b m2) by (eapply old_trans; eauto).
    pose proof (keeps_old _ _ _ _ _ _ _ _ GX) as O3. assert (O4 : old b m3) by (eapply old_trans; eauto).
    assert (E3 : nth_error (htables m3) n = Some r0) by (apply O3, O1; exact E).
    rewrite (set_index_run _ _ _ i3 _ _ _ k' x' E3) in R.
    inversion S as [|? k0 ? y ? l1 SK SX SL]; subst. destruct P as (PK & PX & PL). destruct T as (TK & TX & TL).
    cbn [flat_map fst snd] in *. rewrite !after_app in *. assert (I1 : Inv (after (reqs k0) i)) by (apply after_Inv; auto).
    assert (I2 : Inv (after (reqs y) (after (reqs k0) i))) by (apply after_Inv; auto).
    assert (X2 : ext (after (reqs y) (after (reqs k0) i)) j) by (eapply ext_trans; [apply after_ext; exact I2|exact X]).
    destruct (FINE _ _ _ _ _ _ _ _ (old_trans _ _ _ OB O) SK (pointerless_plain _ PK) TK Hi (ext_trans _ _ _ (after_ext _ _ I1) X2) GK) as (-> & _ & GVK).
    destruct (FINE _ _ _ _ _ _ _ _ (old_trans _ _ _ OB O2) SX PX TX I1 X2 GX) as (-> & _ & GVX).
    destruct (hassign implements (htypeof k) k') as [kw|] eqn:WK; [|discriminate]. destruct (hassign implements (htypeof x) x') as [xw|] eqn:WX; [|discriminate].
    destruct (stored _ _ _ _ _ _ _ _ SK GVK WK) as (AK & PTK & GRK). destruct (stored _ _ _ _ _ _ _ _ SX GVX WX) as (AX & PTX & GRX).
    assert (G3 : grown b m3 (A ++ AK ++ AX)).
    { apply (grown_app b m m3); [apply old_shorter; auto|apply old_shorter; eapply old_trans; eauto|auto|]. apply (grown_app m m2 m3); auto; apply old_shorter; auto. }
    assert (N3 : ~ In (NewTable n) (A ++ AK ++ AX)).
    { apply in_nth in E. rewrite !in_app_iff. intros [IN|[IN|IN]]; [auto|apply GRK in IN|apply GRX in IN]; cbn in IN; destruct O1 as [_ [_ ?]]; lia. }
    assert (FM3 : entries_made m3 es r0 A) by (eapply entries_stays; [|exact FM]; eapply agree_old; [exact G|eapply old_trans; eauto]).
    assert (PTK3 : part m3 k kw AK) by (eapply part_stays; [|exact PTK]; eapply agree_old; [exact GRK|auto]).
    assert (IN : In (k, x) es) by (apply IC; left; auto).
    destruct (entry_set m3 es k kw x x xw k AK AX IN IN PTK3 PTX _ _ FM3) as (D & ED & SD).
    set (m4 := with_table n (hset_entry kw xw r0) m3) in *.
    assert (ND : ~ In (NewTable n) D) by (intros ID; apply N3; eapply sub_in; eauto).
    specialize (IH l1 _ m4 (hset_entry kw xw r0) D r m1 i1 (fun e H => IC e (or_intror H)) SL PL TL I2 X).
    destruct IH as (-> & -> & r1 & B & E5 & FM5 & G5 & N5); auto.
    + apply old_table_put; auto.
    + eapply table_put; eauto.
    + eapply entries_stays; [apply agree_table; auto|auto].
    + eapply grown_more; [exact (proj1 (shorter_table _ _ _))|]. eapply sub_grown; eauto.
    + split; auto. split; auto. exists r1, B. auto.
Qed.
Definition kept_entries (pre : list (hval * hval)) : Prop := forall k x, In (k, x) pre ->
  renames_nothing implements unsafe parent_of nm m0 k /\ renames_nothing implements unsafe parent_of nm m0 x.
Lemma copy_kept es n i : forall pre pre' d m r0, incl pre es -> kept_entries pre -> stand_for_entries unsafe m0 pre pre' ->
  nth_error (htables m) n = Some r0 -> entries_made m es r0 [] ->
  exists r1, copy_with (fun _ e => set_index implements n (htypeof (fst e)) (htypeof (snd e)) (fst e) (snd e)) d pre m i = Some (Ok tt, with_table n r1 m, i) /\
    entries_made m es r1 [].
Proof.
  induction pre as [|[k x] pre IH]; intros pre' d m r0 IC K S E EM; cbn [copy_with].
  - exists r0. rewrite (with_table_self _ _ _ E). auto.
  - inversion S as [|? k' ? x' ? p1 SK SX SP]; subst. cbn [fst snd]. unfold hbind. rewrite (set_index_run _ _ _ i _ _ _ k x E).
    rewrite (assign_self _ _ _ _ _ SK), (assign_self _ _ _ _ _ SX). destruct (K k x (or_introl eq_refl)) as [KK KX].
    assert (IN : In (k, x) es) by (apply IC; left; auto).
    destruct (entry_set m es k k x x x k [] [] IN IN (part_kept _ _ _ _ _ _ _ KK) (part_kept _ _ _ _ _ _ _ KX) _ _ EM) as (D & ED & SD).
    assert (D = []) as ->. { destruct D as [|a D]; auto. specialize (SD a). cbn in SD. destruct (holder_dec a a); [lia|congruence]. }
    set (m2 := with_table n (hset_entry k x r0) m).
    destruct (IH p1 (Datatypes.S d) m2 (hset_entry k x r0) (fun e H => IC e (or_intror H)) (fun k1 x1 H => K k1 x1 (or_intror H)) SP) as (r1 & ER & EMR).
    + eapply table_put; eauto.
    + eapply entries_stays; [|exact ED]. split; intros ? [].
    + exists r1. rewrite ER. unfold m2. rewrite with_table_twice. split; auto. eapply entries_stays; [|exact EMR]. split; intros ? [].
Qed.
Lemma map_off es : forall l l' i pre pre' r m1 i1, incl (pre ++ l) es ->
  stand_for_entries unsafe m0 pre pre' -> kept_entries pre ->
  stand_for_entries unsafe m0 l l' -> plain_entries l' -> typed_entries l' -> Inv i -> ext (after (reqs_entries l') i) j ->
  hmap_loop implements (walk fuel) l pre None b i = Some (Ok r, m1, i1) ->
  i1 = after (reqs_entries l') i /\ match r with
  | None => m1 = b
  | Some n => List.length (htables b) <= n /\ exists r1 B, nth_error (htables m1) n = Some r1 /\
              entries_made m1 es r1 B /\ grown b m1 B /\ ~ In (NewTable n) B
  end.
Proof.
  induction l as [|[k x] l IH]; intros l' i pre pre' r m1 i1 IC SP K S P T Hi X R.
  - inversion S; subst. injection R as <- <- <-. cbn. auto.
  - cbn [hmap_loop] in R. unfold hbind at 1 in R.
    destruct (walk fuel false k b i) as [[[[[[k' ak] ck]|?] m2] i2]|] eqn:GK; try discriminate. unfold hbind at 1 in R.
    destruct (walk fuel false x m2 i2) as [[[[[[x' ax] cx]|?] m3] i3]|] eqn:GX; try discriminate.
    pose proof (keeps_old _ _ _ _ _ _ _ _ GK) as O1.
    pose proof (keeps_old _ _ _ _ _ _ _ _ GX) as O3. assert (O4 : old b m3) by (eapply old_trans; eauto).
    inversion S as [|? k0 ? y ? l1 SK SX SL]; subst. destruct P as (PK & PX & PL). destruct T as (TK & TX & TL).
    cbn [flat_map fst snd] in *. rewrite !after_app in *. assert (I1 : Inv (after (reqs k0) i)) by (apply after_Inv; auto).
    assert (I2 : Inv (after (reqs y) (after (reqs k0) i))) by (apply after_Inv; auto).
    assert (X2 : ext (after (reqs y) (after (reqs k0) i)) j) by (eapply ext_trans; [apply after_ext; exact I2|exact X]).
    destruct (FINE _ _ _ _ _ _ _ _ OB SK (pointerless_plain _ PK) TK Hi (ext_trans _ _ _ (after_ext _ _ I1) X2) GK) as (-> & _ & GVK).
    destruct (FINE _ _ _ _ _ _ _ _ (old_trans _ _ _ OB O1) SX PX TX I1 X2 GX) as (-> & _ & GVX).
    destruct (ck || cx) eqn:C.
    2: { apply orb_false_iff in C as [-> ->]. destruct GVK as (NK & -> & _). destruct GVX as (NX & -> & _).
         eapply (IH l1 _ (pre ++ [(k, x)]) (pre' ++ [(k0, y)])); eauto.
         - rewrite <- app_assoc. auto.
         - apply entries_app; auto. constructor; auto. constructor.
         - intros k1 x1 IN. apply in_app_iff in IN as [IN|[[= <- <-]|[]]]; [apply (K _ _ IN)|]. split; [exists k0|exists y]; auto. }
    set (n := List.length (htables m3)) in *. unfold hbind at 1 in R. unfold hnew_map in R. fold n in R.
    set (m4 := mkHMem (hcells m3) (htables m3 ++ [[]])) in *.
    assert (E4 : nth_error (htables m4) n = Some []) by apply new_nth.
    assert (O5 : old b m4) by (eapply old_trans; [exact O4|apply old_new_table]).
    assert (LN : List.length (htables b) <= n) by (destruct O4 as [_ [_ LL]]; exact LL).
    destruct (copy_kept es n (after (reqs y) (after (reqs k0) i)) pre pre' 0 m4 [] (fun e H => IC e (in_or_app _ _ _ (or_introl H))) K SP E4 (em_nil _ _ _ _ _ _ _)) as (r1 & CP & EM).
    unfold hbind in R. rewrite CP in R. set (m5 := with_table n r1 m4) in *.
    assert (E5 : nth_error (htables m5) n = Some r1) by (eapply table_put; eauto).
    rewrite (set_index_run _ _ _ _ _ _ _ k' x' E5) in R.
    destruct (hassign implements (htypeof k) k') as [kw|] eqn:WK; [|discriminate]. destruct (hassign implements (htypeof x) x') as [xw|] eqn:WX; [|discriminate].
    destruct (stored _ _ _ _ _ _ _ _ SK GVK WK) as (AK & PTK & GRK). destruct (stored _ _ _ _ _ _ _ _ SX GVX WX) as (AX & PTX & GRX).
    assert (G3 : grown b m3 (AK ++ AX)) by (apply (grown_app b m2 m3); auto; apply old_shorter; auto).
    assert (N3 : ~ In (NewTable n) (AK ++ AX)).
    { intros IN. apply G3 in IN. cbn in IN. lia. }
    assert (AG5 : agree (AK ++ AX) m3 m5).
    { apply (agree_trans _ _ m4); [eapply agree_old; [exact G3|apply old_new_table]|]. apply agree_table; auto. }
    assert (PTK3 : part m5 k kw AK).
    { eapply part_stays; [exact (agree_l _ _ _ _ AG5)|]. eapply part_stays; [|exact PTK]; eapply agree_old; [exact GRK|auto]. }
    assert (PTX3 : part m5 x xw AX) by (eapply part_stays; [exact (agree_r _ _ _ _ AG5)|exact PTX]).
    assert (EM5 : entries_made m5 es r1 []) by (eapply entries_stays; [|exact EM]; split; intros ? []).
    assert (IN : In (k, x) es) by (apply IC; apply in_or_app; right; left; auto).
    destruct (entry_set m5 es k kw x x xw k AK AX IN IN PTK3 PTX3 _ _ EM5) as (D & ED & SD). cbn [app] in SD.
    set (m6 := with_table n (hset_entry kw xw r1) m5) in *.
    assert (ND : ~ In (NewTable n) D) by (intros ID; apply N3; eapply sub_in; eauto).
    destruct (map_on es n l l1 _ m6 (hset_entry kw xw r1) D r m1 i1 (fun e H => IC e (in_or_app pre ((k, x) :: l) e (or_intror (or_intror H)))) SL PL TL I2 X) as (-> & -> & r2 & B & E7 & FM7 & G7 & N7); auto.
    + apply old_table_put; auto. apply old_table_put; auto.
    + eapply table_put; eauto.
    + eapply entries_stays; [apply agree_table; auto|auto].
    + eapply grown_more; [exact (proj1 (shorter_table _ _ _))|]. eapply grown_more; [exact (proj1 (shorter_table _ _ _))|].
      eapply grown_more; [apply old_shorter, old_new_table|]. eapply sub_grown; eauto.
    + split; auto. split; auto. exists r2, B. auto.
Qed.
End Loops.

(** ** The walk *)
Lemma typed_dyn t d : typed (VIface t (Some d)) -> replacement implements t (VIface t (Some d)) d = None -> typed d /\ reqs (VIface t (Some d)) = reqs d /\ plain_keys (VIface t (Some d)) = plain_keys d.
Proof.
  intros (_ & _ & T) R. destruct d; cbn in *; try discriminate; auto.
Qed.
Lemma moved_dyn t d : replacement implements t (VIface t (Some d)) d = None -> moved (VIface t (Some d)) <-> moved d.
Proof. intros R. destruct d; cbn in *; try discriminate; tauto. Qed.
Lemma walk_fine fuel : fine fuel.
Proof.
  induction fuel as [|fuel IH]; intros addr v t m i [[v' a] c] m1 i1 O S P T Hi X E; [discriminate|].
  assert (SM : stands_for m v t) by (eapply stands_old; eauto).
  destruct (flag _ _ _ _ _ _ _ _ _ _ _ SM P T Hi X E) as [-> FL]. split; auto. split; [eapply keeps_old; eauto|].
  assert (SAME : c = false -> ~ moved t /\ m1 = m /\ hbox (htypeof v) v' = v).
  { intros ->. split; [intros M; apply FL in M; discriminate|]. destruct (walk_unchanged _ _ _ _ _ _ _ _ _ _ _ _ E) as [-> W]. split; auto.
    destruct (is_hiface v) eqn:HI; [|rewrite W; auto; eapply hbox_self; eauto].
    destruct v as [s [d|]| | | | | | |]; try discriminate.
    2: { cbn [qualifyMemory] in E. injection E as <- _ _. reflexivity. }
    inversion S as [| |? ? d' SD| | | | | | |]; subst. destruct T as (_ & NI & _).
    assert (ND : is_hiface d = false) by (inversion SD; subst; cbn in *; auto; try discriminate).
    cbn [qualifyMemory] in E.
    assert (R : walk fuel false d m i = Some (Ok (v', a, false), m, after (reqs (VIface s (Some d'))) i) -> hbox (htypeof (HIface s (Some d))) v' = HIface s (Some d)).
    { intros E1. destruct (walk_unchanged _ _ _ _ _ _ _ _ _ _ _ _ E1) as [_ D]. rewrite (D ND). destruct d; auto; discriminate. }
    destruct d; auto. destruct (replacement _ _ _ _) as [x|]; auto. unfold hbind, imports_only in E. destruct (x i) as [[[y c]|?] i2]; [|discriminate].
    destruct c; [|injection E as <- _ _; reflexivity]. unfold new_reference in E. destruct y as [| |? [z|]| | | | | | | | | | | | | | | |]; discriminate. }
  destruct c; [|exact (SAME eq_refl)]. clear SAME. split; [apply FL; auto|]. cbn [qualifyMemory] in E.
  destruct v as [s [d|]|s fs|e [p|]|s p off len|s l|s [n|]|l|s]; try discriminate.
  - (* an interface *)
    assert (R : forall d', stands_for m0 d d' -> t = VIface s (Some d') -> replacement implements s (VIface s (Some d')) d' = None ->
      walk fuel false d m i = Some (Ok (v', a, true), m1, after (reqs t) i) ->
      exists A, made m1 (HIface s (Some d)) v' A /\ grown m m1 A /\ forall n, a = Some n -> nth_error (hcells m1) n = Some v' /\ List.length (hcells m) <= n /\ ~ In (NewCell n) A).
    { intros d' SD -> RN E1. destruct (typed_dyn _ _ T RN) as (TD & RQ & PQ). rewrite RQ in *. rewrite PQ in P.
      destruct (IH _ _ _ _ _ _ _ _ O SD P TD Hi X E1) as (_ & _ & _ & A & MA & G & AT). exists A. split; [apply made_held; auto|auto]. }
    inversion S as [| |? ? d' SD| | | | | | |]; subst.
    destruct d as [| | | | | |l|]; try (apply (R d'); auto; inversion SD; subst; reflexivity). assert (d' = l) as -> by (inversion SD; auto).
    destruct (replacement implements s (VIface s (Some l)) l) as [x|] eqn:RP; [|apply (R l); auto]. unfold hbind, imports_only in E.
    destruct (x i) as [[[y c]|?] i2]; [|discriminate]. destruct c; [|discriminate]. unfold new_reference in E.
    destruct y as [| |e [z|]| | | | | | | | | | | | | | | |]; try (injection E as <- <- <- _; exists []; split; [apply made_shown|split; [apply grown_nil|discriminate]]).
    unfold hbind, hnew in E. injection E as <- <- <- _. exists [NewCell (List.length (hcells m))]. split; [|split; [|discriminate]].
    + eapply made_reference; [apply new_nth|]. destruct O as [_ [LL _]]. exact LL.
    + split; [constructor; [intros []|constructor]|]. intros h [<-|[]]. cbn. rewrite app_length. cbn. lia.
  - (* a struct *)
    inversion S as [| | |? ? fs' SF| | | | | |]; subst. unfold hbind at 1 in E.
    destruct (hfields_loop _ _ _ _ _ _ _ _ _ m i) as [[[[[n|]|?] m2] i2]|] eqn:LP; try discriminate.
    destruct (fields_off fuel IH m O s addr fs fs' i [] [] (Some n) m2 i2 (sff_nil _ _) ltac:(intros ? ? []) SF P T Hi X LP) as (_ & LN & done' & B & EN & FM & G & NB).
    unfold hbind, hload, load in E. cbn [fst snd] in E. rewrite EN in E. cbn [inside opt_res] in E. injection E as <- <- <- _.
    exists B. split; [apply made_struct; auto|]. split; auto. intros k [= <-]. auto.
  - (* a pointer *)
    inversion S as [| | | | |? ? x t' LD SX| | | |]; subst. unfold hbind at 1 in E. unfold hload in E. rewrite (old_load _ _ _ _ O LD) in E. cbn [opt_res] in E.
    unfold hbind at 1 in E. destruct (walk fuel true x m i) as [[[[[[x' at_] c]|?] m2] i2]|] eqn:W; try discriminate. destruct T as [TE TX].
    destruct c; [|discriminate]. destruct (IH _ _ _ _ _ _ _ _ O SX P TX Hi X W) as (-> & O2 & _ & A & MA & G & AT). destruct at_ as [n|].
    + injection E as <- <- <-. destruct (AT n eq_refl) as (EN & LN & NI). exists (NewCell n :: A). split; [|split; [|discriminate]].
      * eapply made_pointer; eauto. destruct O as [_ [LL _]]. lia.
      * destruct G as [ND H]. split; [constructor; auto|]. intros h [<-|IN]; auto. cbn. apply in_nth in EN. lia.
    + unfold hbind, hnew in E. injection E as <- <- <-. set (n := List.length (hcells m2)). exists (NewCell n :: A). split; [|split; [|discriminate]].
      * eapply made_pointer; eauto; [apply new_nth| |eapply made_stays; [eapply agree_old; [exact G|apply old_new]|exact MA]].
        destruct O as [_ [LL _]]. destruct O2 as [_ [L2 _]]. unfold n. lia.
      * split; [constructor|].
        -- intros IN. apply G in IN. cbn in IN. unfold n in IN. lia.
        -- apply G.
        -- intros h [<-|IN]; [cbn; rewrite app_length; cbn; destruct O2 as [_ [L2 _]]; unfold n; lia|]. eapply within_more; [apply old_shorter, old_new|]. apply G. auto.
  - (* a slice *)
    inversion S as [| | | | | |? ? ? ? l l' SE SA| | |]; subst. unfold hbind at 1 in E. unfold helems in E. rewrite (old_elems _ _ _ _ _ _ O SE) in E. cbn [opt_res] in E.
    unfold hbind at 1 in E. destruct (helems_loop _ _ _ _ _ _ _ _ _ m i) as [[[[[n|]|?] m2] i2]|] eqn:LP; try discriminate.
    destruct (elems_off fuel IH m O "" (Ok tt) true l l' i [] [] (Some n) m2 i2 (sa_nil _ _) ltac:(intros ? []) SA P T Hi X LP) as (-> & LN & done' & B & EN & FM & G & NB).
    injection E as <- <- <-. exists (NewCell n :: B). split; [|split; [|discriminate]].
    + eapply made_slice; eauto. destruct O as [_ [LL _]]. lia.
    + destruct G as [ND H]. split; [constructor; auto|]. intros h [<-|IN]; auto. cbn. apply in_nth in EN. lia.
  - (* an array *)
    inversion S as [| | | | | | |? ? l' SA| |]; subst. unfold hbind at 1 in E.
    destruct (helems_loop _ _ _ _ _ _ _ _ _ m i) as [[[[[n|]|?] m2] i2]|] eqn:LP; try discriminate.
    destruct (elems_off fuel IH m O s (if addr then Ok tt else Panic p_slice) addr l l' i [] [] (Some n) m2 i2 (sa_nil _ _) ltac:(intros ? []) SA P T Hi X LP) as (_ & LN & done' & B & EN & FM & G & NB).
    unfold hbind, hload, load in E. cbn [fst snd] in E. rewrite EN in E. cbn [inside opt_res] in E. injection E as <- <- <- _.
    exists B. split; [apply made_array; auto|]. split; auto. intros k [= <-]. auto.
  - (* a map *)
    inversion S as [| | | | | | | |?|? ? es es' ET SE]; subst. unfold hbind at 1 in E. unfold hentries in E. rewrite (old_table _ _ _ _ O ET) in E. cbn [opt_res] in E.
    unfold hbind at 1 in E. destruct (hmap_loop _ _ _ _ _ m i) as [[[[[k|]|?] m2] i2]|] eqn:LP; try discriminate. destruct P as [_ P]. destruct T as [T _].
    destruct (map_off fuel IH m O es es es' i [] [] (Some k) m2 i2 (incl_refl _) (se_nil _ _) ltac:(intros ? ? []) SE P T Hi X LP) as (-> & LN & r1 & B & EN & FM & G & NB).
    injection E as <- <- <-. exists (NewTable k :: B). split; [|split; [|discriminate]].
    + eapply made_map; eauto. destruct O as [_ [_ LL]]. lia.
    + destruct G as [ND H]. split; [constructor; auto|]. intros h [<-|IN]; auto. cbn. apply in_nth in EN. lia.
  - (* a leaf *)
    destruct (leaf l); [|discriminate]. unfold hbind at 1 in E. unfold imports_only in E. destruct (qualifyTemplateData _ _ _ addr l i) as [[[y c]|?] i2]; [|discriminate].
    destruct c; [|discriminate]. unfold new_leaf, hbind, hnew in E. injection E as <- <- <- _. exists []. split; [constructor|]. split; [apply grown_nil|].
    intros n [= <-]. split; [apply new_nth|]. split; auto.
Qed.
End Shares.

Section Data.
Variable implements : gty -> string -> bool.
Variable unsafe : bool.
Variable parent_of : spec -> res (option Package).
Lemma memory_shared own h d t m fuel o m' i' : let i := run h (NewImportsFor own) in
  let names := name_in (run (registrations (data_requests unsafe parent_of (data t))) i) in
  stands_for unsafe m d t -> plain_keys t -> typed implements (data t) ->
  QualifyMemory implements unsafe parent_of fuel (Some d) m i = Some (Ok o, m', i') ->
  exists d' A, o = Some d' /\ NoDup A /\ part implements unsafe parent_of names m m' (HIface any (Some d)) (HIface any (Some d')) A.
Proof.
  intros i names S P T E. assert (Hi : Inv i) by apply run_new_Inv. unfold names. rewrite run_registrations.
  set (j := after (data_requests unsafe parent_of (data t)) i). assert (Hj : Inv j) by (apply after_Inv; auto).
  unfold QualifyMemory, hbind in E. change "interface {}" with any in E.
  destruct (qualifyMemory implements unsafe parent_of fuel true (HIface any (Some d)) m i) as [[[[[[v' a] c]|?] m1] i1]|] eqn:W; try discriminate.
  injection E as <- <- <-.
  assert (S0 : stands_for unsafe m (HIface any (Some d)) (data t)) by (constructor; auto).
  destruct (walk_fine implements unsafe parent_of j Hj m fuel _ _ _ _ _ _ _ _ (old_refl m) S0 P T Hi (ext_refl _) W) as (_ & _ & G). unfold gives in G. destruct c.
  - destruct G as (M & A & MA & GR & _). exists v', A. pose proof (made_plain _ _ _ _ _ _ _ _ _ MA) as HP. split; [destruct v'; auto; discriminate|].
    split; [apply GR|]. replace (HIface any (Some v')) with (hbox (htypeof (HIface any (Some d))) v') by (destruct v'; auto; discriminate).
    apply part_made; auto. exists (data t). auto.
  - destruct G as (M & -> & EQ). exists d, []. split; [|split; [constructor|apply part_kept; exists (data t); auto]].
    destruct T as (_ & NI & _). cbn [htypeof hbox] in EQ. destruct v'; cbn [hinterface_of]; injection EQ as <-; auto.
Qed.
End Data.
