(** Qualifying data in memory is what [Template.v] says of the tree it stands for. *)
From Coq Require Import Lia.
From Verif Require Import Base BaseFacts GoPath Types SpecTypes Imports Conv World Template SpecTemplate TemplateProofs TemplateRuns TemplateMemory SpecTemplateMemory
  TemplateMemoryProofs.

(** ** Memory with hidden parts: those that are still being filled *)
Definition hidden_cell := HZero (GName "").
Definition hidden_table : list (hval * hval) := [(hidden_cell, hidden_cell)].
Fixpoint hide_from {A} (h : A) (k : nat) (B : list nat) (l : list A) : list A :=
  match l with
  | [] => []
  | x :: r => (if existsb (Nat.eqb k) B then h else x) :: hide_from h (S k) B r
  end.
Definition hide (B T : list nat) (m : hmem) : hmem := mkHMem (hide_from hidden_cell 0 B (hcells m)) (hide_from hidden_table 0 T (htables m)).
Lemma nth_hide {A} (h : A) B l : forall k n, nth_error (hide_from h k B l) n =
  match nth_error l n with Some x => Some (if existsb (Nat.eqb (k + n)) B then h else x) | None => None end.
Proof.
  induction l as [|x l IH]; intros k [|n]; cbn [hide_from nth_error]; auto.
  - rewrite Nat.add_0_r. auto.
  - rewrite IH. replace (S k + n) with (k + S n) by lia. auto.
Qed.
Lemma hide_none {A} (h : A) l : forall k, hide_from h k [] l = l.
Proof. induction l as [|x l IH]; intros k; cbn; f_equal; auto. Qed.
Lemma hide_nil m : hide [] [] m = m.
Proof. unfold hide. rewrite !hide_none. destruct m; auto. Qed.
Lemma memb_in k B : existsb (Nat.eqb k) B = true <-> In k B.
Proof. rewrite existsb_exists. split; [intros (x & IN & E); apply Nat.eqb_eq in E; subst; auto|intros IN; exists k; split; auto; apply Nat.eqb_refl]. Qed.
(** [m'] has what can be seen of [m]. *)
Definition sees (m m' : hmem) : Prop :=
  (forall n v, nth_error (hcells m) n = Some v -> v = hidden_cell \/ nth_error (hcells m') n = Some v) /\
  (forall n v, nth_error (htables m) n = Some v -> v = hidden_table \/ nth_error (htables m') n = Some v).
Lemma sees_refl m : sees m m.
Proof. split; auto. Qed.
Lemma sees_trans a b c : sees a b -> sees b c -> sees a c.
Proof. intros [A1 A2] [B1 B2]. split; intros n v E; [destruct (A1 _ _ E)|destruct (A2 _ _ E)]; auto. Qed.
Lemma sees_hide B T m m' : (forall n v, ~ In n B -> nth_error (hcells m) n = Some v -> nth_error (hcells m') n = Some v) ->
  (forall n v, ~ In n T -> nth_error (htables m) n = Some v -> nth_error (htables m') n = Some v) -> sees (hide B T m) (hide B T m').
Proof.
  intros H1 H2. split; intros n v; cbn [hide hcells htables]; rewrite !nth_hide; cbn [Nat.add].
  - destruct (nth_error (hcells m) n) as [x|] eqn:E; [|discriminate]. destruct (existsb _ _) eqn:X; intros [= <-]; auto. right.
    rewrite (H1 n x); auto. rewrite <- memb_in. congruence.
  - destruct (nth_error (htables m) n) as [x|] eqn:E; [|discriminate]. destruct (existsb _ _) eqn:X; intros [= <-]; auto. right.
    rewrite (H2 n x); auto. rewrite <- memb_in. congruence.
Qed.
Lemma sees_old B T m m' : old m m' -> sees (hide B T m) (hide B T m').
Proof. intros [[U1 U2] _]. apply sees_hide; auto. Qed.
Lemma sees_more n B T m : sees (hide (n :: B) T m) (hide B T m).
Proof.
  split; intros k v; cbn [hide hcells htables]; auto. rewrite !nth_hide. cbn [Nat.add existsb].
  destruct (nth_error (hcells m) k); [|discriminate]. destruct (Nat.eqb k n); cbn [orb]; intros [= <-]; auto.
Qed.
Lemma sees_more_tables n B T m : sees (hide B (n :: T) m) (hide B T m).
Proof.
  split; intros k v; cbn [hide hcells htables]; auto. rewrite !nth_hide. cbn [Nat.add existsb].
  destruct (nth_error (htables m) k); [|discriminate]. destruct (Nat.eqb k n); cbn [orb]; intros [= <-]; auto.
Qed.
Lemma sees_new B T m x : sees (hide B T m) (hide (List.length (hcells m) :: B) T (mkHMem (hcells m ++ [x]) (htables m))).
Proof.
  split; intros k v; cbn [hide hcells htables]; auto. rewrite !nth_hide. cbn [Nat.add existsb].
  destruct (nth_error (hcells m) k) as [y|] eqn:E; [|discriminate]. intros [= <-]. right.
  assert (L : k < List.length (hcells m)) by (apply nth_error_Some; congruence). rewrite nth_error_app1, E by auto.
  destruct (Nat.eqb_spec k (List.length (hcells m))); [lia|]. auto.
Qed.
Lemma sees_new_table B T m x : sees (hide B T m) (hide B (List.length (htables m) :: T) (mkHMem (hcells m) (htables m ++ [x]))).
Proof.
  split; intros k v; cbn [hide hcells htables]; auto. rewrite !nth_hide. cbn [Nat.add existsb].
  destruct (nth_error (htables m) k) as [y|] eqn:E; [|discriminate]. intros [= <-]. right.
  assert (L : k < List.length (htables m)) by (apply nth_error_Some; congruence). rewrite nth_error_app1, E by auto.
  destruct (Nat.eqb_spec k (List.length (htables m))); [lia|]. auto.
Qed.
Definition with_cell (n : nat) (v : hval) (m : hmem) : hmem := mkHMem (put n v (hcells m)) (htables m).
Definition with_table (n : nat) (es : list (hval * hval)) (m : hmem) : hmem := mkHMem (hcells m) (put n es (htables m)).
Lemma sees_cell n v B T m : sees (hide (n :: B) T m) (hide (n :: B) T (with_cell n v m)).
Proof. apply sees_hide; cbn [with_cell hcells htables]; auto. intros k x N E. rewrite nth_put; auto. intros ->. apply N. left; auto. Qed.
Lemma sees_table n v B T m : sees (hide B (n :: T) m) (hide B (n :: T) (with_table n v m)).
Proof. apply sees_hide; cbn [with_table hcells htables]; auto. intros k x N E. rewrite nth_put; auto. intros ->. apply N. left; auto. Qed.
Definition below (B T : list nat) (m : hmem) : Prop := (forall b, In b B -> b < List.length (hcells m)) /\ (forall b, In b T -> b < List.length (htables m)).
Lemma below_old B T m m' : old m m' -> below B T m -> below B T m'.
Proof. intros [_ [L1 L2]] [H1 H2]. split; intros b IN; [specialize (H1 b IN)|specialize (H2 b IN)]; lia. Qed.

Section Sim.
Variable implements : gty -> string -> bool.
Variable unsafe : bool.
Variable parent_of : spec -> res (option Package).
Notation walk := (qualifyMemory implements unsafe parent_of).
Notation twalk := (qualifyTemplateData implements unsafe parent_of).
Notation stands_for := (stands_for unsafe).

(** ** Values and the trees they stand for *)
Lemma stands_hidden m t : ~ stands_for m hidden_cell t.
Proof. intros H. inversion H. Qed.
Lemma sees_load m m' p x t : sees m m' -> load m p = Some x -> stands_for m x t -> load m' p = Some x.
Proof.
  intros [S _] L H. unfold load in *. destruct (nth_error (hcells m) (fst p)) as [v|] eqn:E; [|discriminate].
  destruct (S _ _ E) as [-> | ->]; auto. destruct (snd p); cbn in L; [|discriminate]. injection L as <-. destruct (stands_hidden _ _ H).
Qed.
Lemma sees_elems m m' p off len l : sees m m' -> slice_elems m p off len = Some l -> slice_elems m' p off len = Some l.
Proof.
  intros [S _]. unfold slice_elems. destruct (Nat.eqb len 0); auto. unfold load. destruct (nth_error (hcells m) (fst p)) as [v|] eqn:E; [|discriminate].
  destruct (S _ _ E) as [-> | ->]; auto. destruct (snd p); discriminate.
Qed.
Lemma sees_entries m m' n es es' : sees m m' -> nth_error (htables m) n = Some es -> stand_for_entries unsafe m es es' -> nth_error (htables m') n = Some es.
Proof.
  intros [_ S] E H. destruct (S _ _ E) as [-> | ->]; auto. unfold hidden_table in H. inversion H; subst. exfalso. eapply stands_hidden; eauto.
Qed.
Section Seen.
Variables m m' : hmem.
Hypothesis SEE : sees m m'.
Lemma seen4 : (forall v t, stands_for m v t -> stands_for m' v t) /\ (forall l l', stand_for_all unsafe m l l' -> stand_for_all unsafe m' l l') /\
  (forall l l', stand_for_fields unsafe m l l' -> stand_for_fields unsafe m' l l') /\ (forall l l', stand_for_entries unsafe m l l' -> stand_for_entries unsafe m' l l').
Proof.
  split; [|split; [|split]];
    [apply (stands_mut unsafe m (stands_for m') (stand_for_all unsafe m') (stand_for_fields unsafe m') (stand_for_entries unsafe m'))
    |apply (stands_all_mut unsafe m (stands_for m') (stand_for_all unsafe m') (stand_for_fields unsafe m') (stand_for_entries unsafe m'))
    |apply (stands_fields_mut unsafe m (stands_for m') (stand_for_all unsafe m') (stand_for_fields unsafe m') (stand_for_entries unsafe m'))
    |apply (stands_entries_mut unsafe m (stands_for m') (stand_for_all unsafe m') (stand_for_fields unsafe m') (stand_for_entries unsafe m'))];
    intros; try (econstructor; eauto; fail);
    try (eapply sf_ptr; eauto; eapply sees_load; eauto; fail);
    try (eapply sf_slice; eauto; eapply sees_elems; eauto; fail);
    eapply sf_map; eauto; eapply sees_entries; eauto.
Qed.
End Seen.
Lemma stands_sees m m' v t : sees m m' -> stands_for m v t -> stands_for m' v t.
Proof. intros S. apply (proj1 (seen4 m m' S)). Qed.
Lemma all_sees m m' v t : sees m m' -> stand_for_all unsafe m v t -> stand_for_all unsafe m' v t.
Proof. intros S. apply (proj1 (proj2 (seen4 m m' S))). Qed.
Lemma fields_sees m m' v t : sees m m' -> stand_for_fields unsafe m v t -> stand_for_fields unsafe m' v t.
Proof. intros S. apply (proj1 (proj2 (proj2 (seen4 m m' S)))). Qed.
Lemma entries_sees m m' v t : sees m m' -> stand_for_entries unsafe m v t -> stand_for_entries unsafe m' v t.
Proof. intros S. apply (proj2 (proj2 (proj2 (seen4 m m' S)))). Qed.
Lemma stands_type m v t : stands_for m v t -> typeof t = htypeof v.
Proof. intros H. inversion H; subst; auto. Qed.
Lemma leaf_type l s : leaf l = true -> typeof l <> GIface s.
Proof.
  destruct l as [| | | | | | | | | |[]|[]| |[]| | | | |]; cbn; try discriminate.
Qed.
Lemma hbox_self m v t : stands_for m v t -> hbox (htypeof v) v = v.
Proof.
  intros H. inversion H; subst; auto. cbn [htypeof hbox]. destruct (typeof t) eqn:E; auto. exfalso. eapply leaf_type; eauto.
Qed.
Lemma fits_self t : assignable implements t t = true.
Proof. unfold assignable. rewrite gty_eqb_refl. auto. Qed.
Lemma assign_self m v t : stands_for m v t -> hassign implements (htypeof v) v = Ok v.
Proof. intros H. unfold hassign. rewrite fits_self, (hbox_self _ _ _ H). auto. Qed.
Lemma assign_store m slot slot' v v' : stands_for m slot slot' -> stands_for m v v' ->
  match store implements slot' v' with
  | Ok y => exists w, hassign implements (htypeof slot) v = Ok w /\ stands_for m w y
  | Panic e => hassign implements (htypeof slot) v = Panic e
  end.
Proof.
  intros S V. unfold store, hassign. rewrite (stands_type _ _ _ S), (stands_type _ _ _ V).
  destruct (assignable implements (htypeof v) (htypeof slot)); auto. eexists. split; [reflexivity|].
  inversion S; subst; cbn [htypeof hbox box]; auto.
  - destruct (typeof slot') eqn:E; auto; [destruct slot'; auto; discriminate|destruct slot'; auto; discriminate|].
    exfalso. eapply leaf_type; eauto.
  - inversion V; subst; cbn; try constructor; auto. destruct v'; try discriminate; repeat constructor; auto.
  - inversion V; subst; cbn; try constructor; auto. destruct v'; try discriminate; repeat constructor; auto.
Qed.

(** ** Runs side by side *)
Definition matches {A C} (X : IM A) (H : HM C) (m : hmem) (i : Imports) (R : A -> C -> hmem -> Prop) : Prop :=
  match X i with
  | (Ok a, i') => exists b m', H m i = Some (Ok b, m', i') /\ R a b m'
  | (Panic e, i') => exists m', H m i = Some (Panic e, m', i')
  end.
Lemma matches_bind {A A' C C'} (X : IM A) (K : A -> IM A') (H : HM C) (L : C -> HM C') m i R R' :
  matches X H m i R -> (forall a b m' i', R a b m' -> matches (K a) (L b) m' i' R') -> matches (sbind X K) (hbind H L) m i R'.
Proof.
  intros M N. unfold matches, sbind, hbind in *. destruct (X i) as [[a|e] i'].
  - destruct M as (b & m' & -> & r). apply (N _ _ _ _ r).
  - destruct M as (m' & ->). eauto.
Qed.
Lemma matches_ret {A C} (a : A) (b : C) m i (R : A -> C -> hmem -> Prop) : R a b m -> matches (sret a) (hret b) m i R.
Proof. intros r. exists b, m. auto. Qed.
Lemma matches_weak {A C} (X : IM A) (H : HM C) m i (R R' : A -> C -> hmem -> Prop) : (forall a b m', R a b m' -> R' a b m') -> matches X H m i R -> matches X H m i R'.
Proof. intros W M. unfold matches in *. destruct (X i) as [[a|e] i']; auto. destruct M as (b & m' & E & r). eauto. Qed.
Lemma matches_and {A C} (X : IM A) (H : HM C) m i (R : A -> C -> hmem -> Prop) (P : A -> Prop) Q :
  (forall a i', X i = (Ok a, i') -> P a) -> ok false m H Q -> matches X H m i R -> matches X H m i (fun a b m' => R a b m' /\ P a /\ old m m').
Proof.
  intros PA KEEP M. specialize (KEEP m i (old_refl m)). unfold matches in *. destruct (X i) as [[a|e] i']; auto. destruct M as (b & m' & E & r).
  rewrite E in KEEP. exists b, m'. repeat split; eauto; apply KEEP.
Qed.
Lemma matches_assoc {A A' A'' C} (X : IM A) (Y : A -> IM A') (Z : A' -> IM A'') (H : HM C) m i R :
  matches (sbind (sbind X Y) Z) H m i R -> matches (sbind X (fun a => sbind (Y a) Z)) H m i R.
Proof. unfold matches, sbind. destruct (X i) as [[a|e] i']; auto. Qed.
(** a step that only the heap takes *)
Lemma matches_step {A C C'} (X : IM A) (H : HM C) (L : C -> HM C') m i b m' R :
  H m i = Some (Ok b, m', i) -> matches X (L b) m' i R -> matches X (hbind H L) m i R.
Proof. intros E M. unfold matches, hbind in *. rewrite E. auto. Qed.

(** ** Slots of new values *)
Lemma nth_middle {A} (l : list A) x r : nth_error (l ++ x :: r) (List.length l) = Some x.
Proof. induction l; auto. Qed.
Lemma put_middle {A} (l : list A) x y r : put (List.length l) y (l ++ x :: r) = l ++ y :: r.
Proof. induction l; cbn; f_equal; auto. Qed.
Lemma put_put {A} n (x y : A) l : put n x (put n y l) = put n x l.
Proof. revert n. induction l as [|a l IH]; intros [|n]; cbn; f_equal; auto. Qed.
Lemma in_nth {A} n (l : list A) x : nth_error l n = Some x -> n < List.length l.
Proof. intros E. apply nth_error_Some. congruence. Qed.
Lemma cell_put n v m x : nth_error (hcells m) n = Some x -> nth_error (hcells (with_cell n v m)) n = Some v.
Proof. intros E. apply nth_put_same. eapply in_nth; eauto. Qed.
Lemma table_put n v m x : nth_error (htables m) n = Some x -> nth_error (htables (with_table n v m)) n = Some v.
Proof. intros E. apply nth_put_same. eapply in_nth; eauto. Qed.
Lemma below_cell B T n v m : below B T m -> below B T (with_cell n v m).
Proof. intros [H1 H2]. split; cbn [with_cell hcells htables]; auto. intros b. rewrite length_put. auto. Qed.
Lemma below_table B T n v m : below B T m -> below B T (with_table n v m).
Proof. intros [H1 H2]. split; cbn [with_table hcells htables]; auto. intros b. rewrite length_put. auto. Qed.
Definition zero (f : bool * hval) : bool * hval := (fst f, HZero (htypeof (snd f))).
Definition zero_elem (x : hval) : hval := HZero (htypeof x).

Lemma set_field_run n m i t done e x rest v : nth_error (hcells m) n = Some (HStruct t (done ++ (e, HZero (htypeof x)) :: rest)) ->
  set_field implements n (List.length done) v m i =
  if e : bool then match hassign implements (htypeof x) v with
                   | Ok w => Some (Ok tt, with_cell n (HStruct t (done ++ (e, w) :: rest)) m, i)
                   | Panic p => Some (Panic p, m, i) end
  else Some (Panic p_readonly, m, i).
Proof.
  intros E. unfold set_field, hbind, hload, load. cbn [fst snd]. rewrite E. cbn [inside opt_res]. rewrite nth_middle. destruct e; auto.
  cbn [htypeof]. unfold hres. destruct (hassign _ _ _); auto. unfold hwrite. rewrite put_middle. auto.
Qed.
Lemma set_elem_run n m i t done x rest v : nth_error (hcells m) n = Some (HArray t (done ++ HZero (htypeof x) :: rest)) ->
  set_elem implements n (List.length done) v m i =
  match hassign implements (htypeof x) v with
  | Ok w => Some (Ok tt, with_cell n (HArray t (done ++ w :: rest)) m, i)
  | Panic p => Some (Panic p, m, i) end.
Proof.
  intros E. unfold set_elem, hbind, hload, load. cbn [fst snd]. rewrite E. cbn [inside opt_res]. rewrite nth_middle.
  cbn [htypeof]. unfold hres. destruct (hassign _ _ _); auto. unfold hwrite. rewrite put_middle. auto.
Qed.
Lemma set_index_run n m i es tk tv k v : nth_error (htables m) n = Some es ->
  set_index implements n tk tv k v m i =
  match hassign implements tk k with
  | Ok k' => match hassign implements tv v with
             | Ok v' => Some (Ok tt, with_table n (hset_entry k' v' es) m, i)
             | Panic p => Some (Panic p, m, i) end
  | Panic p => Some (Panic p, m, i) end.
Proof.
  intros E. unfold set_index, hbind, hres. destruct (hassign _ tk k); auto. destruct (hassign _ tv v); auto. unfold hentries. rewrite E. auto.
Qed.

Section Copy.
Variables (n : nat) (B T : list nat).
Lemma with_cell_twice v w m : with_cell n v (with_cell n w m) = with_cell n v m.
Proof. unfold with_cell. cbn. rewrite put_put. auto. Qed.
Lemma with_cell_self v m : nth_error (hcells m) n = Some v -> with_cell n v m = m.
Proof.
  intros E. unfold with_cell. replace (put n v (hcells m)) with (hcells m); [destruct m; auto|]. revert E. generalize (hcells m) as l. revert n.
  intros k l. revert k. induction l as [|a l IH]; intros [|k]; cbn; try discriminate; [intros [= ->]; auto|]. intros E. f_equal. auto.
Qed.
Lemma copy_fields t rest i : forall pre pre' done m, nth_error (hcells m) n = Some (HStruct t (done ++ map zero pre ++ rest)) ->
  stand_for_fields unsafe (hide (n :: B) T m) pre pre' ->
  if forallb fst pre
  then copy_with (fun j f => set_field implements n j (snd f)) (List.length done) pre m i = Some (Ok tt, with_cell n (HStruct t (done ++ pre ++ rest)) m, i)
  else exists m', copy_with (fun j f => set_field implements n j (snd f)) (List.length done) pre m i = Some (Panic p_readonly, m', i).
Proof.
  induction pre as [|[e x] pre IH]; intros pre' done m E S; cbn [map app forallb fst copy_with].
  - cbn [map app] in E. rewrite (with_cell_self _ _ E). auto.
  - cbn [map app] in E. change (zero (e, x)) with (e, HZero (htypeof x)) in E. cbn [snd]. unfold hbind at 1 2. rewrite (set_field_run _ _ i _ _ _ _ _ x E).
    destruct e; cbn [andb]; [|eauto].
    assert (D : exists x' pre'', pre' = (true, x') :: pre'' /\ stands_for (hide (n :: B) T m) x x' /\ stand_for_fields unsafe (hide (n :: B) T m) pre pre'').
    { inversion S; subst. eauto. }
    destruct D as (x' & pre'' & -> & SX & SP).
        rewrite (assign_self _ _ _ SX).
    set (m1 := with_cell n (HStruct t (done ++ (true, x) :: map zero pre ++ rest)) m).
    assert (E1 : nth_error (hcells m1) n = Some (HStruct t ((done ++ [(true, x)]) ++ map zero pre ++ rest))).
    { rewrite <- app_assoc. cbn [app]. eapply cell_put; eauto. }
    specialize (IH pre'' (done ++ [(true, x)]) m1 E1 (fields_sees _ _ _ _ (sees_cell n _ B T m) SP)).
    rewrite app_length in IH. cbn [List.length] in IH. rewrite Nat.add_1_r in IH.
    destruct (forallb fst pre); auto. rewrite IH. unfold m1. rewrite with_cell_twice, <- app_assoc. auto.
Qed.
Lemma copy_elems t rest i : forall pre pre' done m, nth_error (hcells m) n = Some (HArray t (done ++ map zero_elem pre ++ rest)) ->
  stand_for_all unsafe (hide (n :: B) T m) pre pre' ->
  copy_with (set_elem implements n) (List.length done) pre m i = Some (Ok tt, with_cell n (HArray t (done ++ pre ++ rest)) m, i).
Proof.
  induction pre as [|x pre IH]; intros pre' done m E S; cbn [map app copy_with].
  - cbn [map app] in E. rewrite (with_cell_self _ _ E). auto.
  - cbn [map app] in E. unfold zero_elem at 1 in E. unfold hbind at 1. rewrite (set_elem_run _ _ i _ _ _ _ x E).
    assert (D : exists x' pre'', pre' = x' :: pre'' /\ stands_for (hide (n :: B) T m) x x' /\ stand_for_all unsafe (hide (n :: B) T m) pre pre'').
    { inversion S; subst. eauto. }
    destruct D as (x' & pre'' & -> & SX & SP). rewrite (assign_self _ _ _ SX).
    set (m1 := with_cell n (HArray t (done ++ x :: map zero_elem pre ++ rest)) m).
    assert (E1 : nth_error (hcells m1) n = Some (HArray t ((done ++ [x]) ++ map zero_elem pre ++ rest))).
    { rewrite <- app_assoc. cbn [app]. eapply cell_put; eauto. }
    specialize (IH pre'' (done ++ [x]) m1 E1 (all_sees _ _ _ _ (sees_cell n _ B T m) SP)).
    rewrite app_length in IH. cbn [List.length] in IH. rewrite Nat.add_1_r in IH.
    rewrite IH. unfold m1. rewrite with_cell_twice, <- app_assoc. auto.
Qed.
End Copy.

(** ** The walks side by side *)
Definition sim (fuel : nat) (t : val) : Prop :=
  forall addr v m i B T, below B T m -> stands_for (hide B T m) v t -> plain_keys t ->
  matches (twalk addr t) (walk fuel addr v) m i
    (fun '(t', c) '(v', a, c') m' => c' = c /\ stands_for (hide B T m') v' t' /\
       (forall n, a = Some n -> nth_error (hcells m') n = Some v' /\ List.length (hcells m) <= n)).
Definition done_of (x : val * bool) (o : outcome) (B T : list nat) (m m' : hmem) : Prop :=
  snd o = snd x /\ stands_for (hide B T m') (fst (fst o)) (fst x) /\ old m m'.
Lemma sim_old fuel t addr v m i B T : sim fuel t -> below B T m -> stands_for (hide B T m) v t -> plain_keys t ->
  matches (twalk addr t) (walk fuel addr v) m i (fun x o m' => done_of x o B T m m').
Proof.
  intros S BE SF PK. specialize (S addr v m i B T BE SF PK).
  eapply matches_weak; [|eapply (matches_and _ _ _ _ _ (fun _ => True)); [auto|apply walk_keeps|exact S]].
  intros [t' c] [[v' a] c'] m' ((E & ST & _) & _ & O). unfold done_of. cbn [fst snd]. auto.
Qed.

(** *** Fields *)
Lemma set_field_matches n B T t done e x x0 rest v v' m i :
  nth_error (hcells m) n = Some (HStruct t (done ++ (e, HZero (htypeof x)) :: rest)) ->
  (e = true -> stands_for (hide (n :: B) T m) x x0 /\ stands_for (hide (n :: B) T m) v v') ->
  matches (sbind (slift (if e then Ok tt else Panic p_readonly)) (fun _ => slift (store implements x0 v'))) (set_field implements n (List.length done) v) m i
    (fun y _ m' => exists w, m' = with_cell n (HStruct t (done ++ (e, w) :: rest)) m /\ e = true /\ stands_for (hide (n :: B) T m') w y).
Proof.
  intros E S. unfold matches, sbind, slift. rewrite (set_field_run _ _ i _ _ _ _ _ v E). destruct e; [|eauto].
  destruct (S eq_refl) as [SX SV]. pose proof (assign_store _ _ _ _ _ SX SV) as A. destruct (store implements x0 v') as [y|p].
  - destruct A as (w & -> & SW). exists tt. eexists. split; [reflexivity|]. exists w. split; [reflexivity|]. split; auto. eapply stands_sees; [apply sees_cell|]; auto.
  - rewrite A. eauto.
Qed.
Lemma fields_app m a a' b b' : stand_for_fields unsafe m a a' -> stand_for_fields unsafe m b b' -> stand_for_fields unsafe m (a ++ b) (a' ++ b').
Proof.
  revert a'. induction a as [|f a IH]; intros a' H1 H2; inversion H1; subst; cbn [app]; auto.
  - apply sff_read; auto.
  - apply sff_skip; auto.
Qed.
Lemma all_app m a a' b b' : stand_for_all unsafe m a a' -> stand_for_all unsafe m b b' -> stand_for_all unsafe m (a ++ b) (a' ++ b').
Proof. revert a'. induction a as [|f a IH]; intros a' H1 H2; inversion H1; subst; cbn [app]; auto. constructor; auto. Qed.
Lemma entries_app m a a' b b' : stand_for_entries unsafe m a a' -> stand_for_entries unsafe m b b' -> stand_for_entries unsafe m (a ++ b) (a' ++ b').
Proof. revert a'. induction a as [|f a IH]; intros a' H1 H2; inversion H1; subst; cbn [app]; auto. constructor; auto. Qed.
Definition plain_fields (l : list (bool * val)) : Prop := fold_right (fun f P => plain_keys (snd f) /\ P) True l.
Definition plain_all (l : list val) : Prop := fold_right (fun x P => plain_keys x /\ P) True l.

Definition sims_fields fuel (l : list (bool * val)) : Prop := Forall (fun f => sim fuel (snd f)) l.
Lemma getField_matches fuel addr e x x' m i B T : sim fuel x' -> below B T m -> e = true \/ unsafe = true -> stands_for (hide B T m) x x' -> plain_keys x' ->
  matches (getField_qualify unsafe (twalk addr) addr e x') (hgetField unsafe (walk fuel) addr e x) m i (fun y o m' => done_of y o B T m m').
Proof.
  intros S BE R SF PK. unfold getField_qualify, hgetField. pose proof (sim_old fuel x' addr x m i B T S BE SF PK) as M.
  destruct e; auto. destruct R as [R|R]; [discriminate|]. rewrite R in M |- *. destruct addr; auto. exists m. reflexivity.
Qed.
Definition fields_result (n : nat) t done B T m : list (bool * val) * bool -> option nat -> hmem -> Prop := fun rs new m' =>
  snd rs = true /\ new = Some n /\ exists r, nth_error (hcells m') n = Some (HStruct t (done ++ r)) /\
  stand_for_fields unsafe (hide (n :: B) T m') r (fst rs) /\ sees (hide (n :: B) T m) (hide (n :: B) T m').
Lemma fields_started fuel t addr all n B T : forall l l', sims_fields fuel l' -> forall done e m i, below (n :: B) T m ->
  nth_error (hcells m) n = Some (HStruct t (done ++ map zero l)) -> stand_for_fields unsafe (hide (n :: B) T m) l l' -> plain_fields l' ->
  matches (fields_loop implements unsafe (twalk addr) addr e l' true) (hfields_loop implements unsafe (walk fuel) t addr all (List.length done) l (Some n)) m i
    (fields_result n t done B T m).
Proof.
  induction l as [|[ex x] l IH]; intros l' SIM done e m i BE E S PK.
  - inversion S; subst. cbn. exists (Some n), m. split; auto. split; auto. split; auto. exists []. cbn [map] in E. split; auto. split; [constructor|apply sees_refl].
  - cbn [map] in E. change (zero (ex, x)) with (ex, HZero (htypeof x)) in E. inversion S as [|? ? x' ? l1 R SX SL|? x' ? l1 U TY SL]; subst; cbn [fields_loop hfields_loop].
    + inversion SIM as [|? ? S1 S2]; subst. destruct PK as [P1 P2]. cbn [snd] in *.
      eapply matches_bind; [eapply getField_matches; eauto|]. intros [y c] [[v a] c'] m1 i1 (Ec & SV & O). cbn [fst snd] in *. subst c'. cbn [orb andb].
      apply matches_assoc. eapply matches_bind.
      * eapply (set_field_matches n B T t done ex x x'); [apply (proj1 (proj1 O)); exact E|]. intros _. split; auto. eapply stands_sees; [apply sees_old; exact O|]. auto.
      * intros z [] m2 i2 (w & -> & -> & SW).
        set (m2 := with_cell n (HStruct t (done ++ (true, w) :: map zero l)) m1) in *.
        assert (E2 : nth_error (hcells m2) n = Some (HStruct t ((done ++ [(true, w)]) ++ map zero l))).
        { rewrite <- app_assoc. eapply cell_put. apply (proj1 (proj1 O)); exact E. }
        assert (SE : sees (hide (n :: B) T m) (hide (n :: B) T m2)) by (eapply sees_trans; [apply sees_old; exact O|apply sees_cell]).
        assert (BE2 : below (n :: B) T m2) by (apply below_cell; eapply below_old; eauto).
        specialize (IH l1 S2 (done ++ [(true, w)]) (e && true) m2 i2 BE2 E2 (fields_sees _ _ _ _ SE SL) P2).
        rewrite app_length in IH. cbn [List.length] in IH. rewrite Nat.add_1_r in IH.
        clear - IH SE SW. unfold matches, sbind in *. destruct (fields_loop _ _ _ _ _ _ _ i2) as [[[r' s]|p] i3]; auto. cbn.
        destruct IH as (b & m' & EQ & Es & -> & r & Er & Sr & SE2). cbn [fst snd] in *. subst s. eexists. exists m'. split; [exact EQ|].
        split; [auto|]. split; [auto|]. exists ((true, w) :: r). rewrite <- app_assoc in Er. split; [exact Er|]. cbn [fst].
        split; [apply sff_read; auto; eapply stands_sees; eauto|eapply sees_trans; eauto].
    + cbn [getField_qualify hgetField]. unfold getField_qualify, hgetField. rewrite U. unfold matches, sbind, hbind, sret, hret. cbn [orb andb slift].
      rewrite (set_field_run _ _ i _ _ _ _ _ x E). eauto.
Qed.

Lemma firstn_prefix {A} (a b : list A) : firstn (List.length a) (a ++ b) = a.
Proof. induction a; cbn; f_equal; auto. Qed.
Lemma new_below B T m x : below B T m -> below (List.length (hcells m) :: B) T (mkHMem (hcells m ++ [x]) (htables m)).
Proof.
  intros [H1 H2]. split; cbn [hcells htables]; auto. intros b [<-|IN]; rewrite app_length; cbn [List.length]; [lia|]. specialize (H1 b IN). lia.
Qed.
Lemma new_nth {A} (l : list A) x : nth_error (l ++ [x]) (List.length l) = Some x.
Proof. apply nth_middle. Qed.
Lemma fields_idle fuel t addr B T : forall l l', sims_fields fuel l' -> forall pre pre' m i, below B T m ->
  stand_for_fields unsafe (hide B T m) pre pre' -> stand_for_fields unsafe (hide B T m) l l' -> plain_fields l' ->
  matches (fields_loop implements unsafe (twalk addr) addr (forallb fst pre) l' false)
          (hfields_loop implements unsafe (walk fuel) t addr (pre ++ l) (List.length pre) l None) m i
    (fun rs new m' => match new with
                      | None => snd rs = false
                      | Some n => snd rs = true /\ List.length (hcells m) <= n /\ exists r, nth_error (hcells m') n = Some (HStruct t r) /\
                                  stand_for_fields unsafe (hide (n :: B) T m') r (pre' ++ fst rs)
                      end).
Proof.
  induction l as [|[ex x] l IH]; intros l' SIM pre pre' m i BE SP SL0 PK.
  - inversion SL0; subst. exists None, m. split; reflexivity.
  - assert (NEXT : forall m1 i1 x' l1, old m m1 -> sims_fields fuel l1 -> plain_fields l1 -> stand_for_fields unsafe (hide B T m) [(ex, x)] [(ex, x')] -> stand_for_fields unsafe (hide B T m) l l1 ->
      matches (sbind (fields_loop implements unsafe (twalk addr) addr (forallb fst pre && ex) l1 false) (fun '(r', s) => sret ((ex, x') :: r', s)))
        (hfields_loop implements unsafe (walk fuel) t addr (pre ++ (ex, x) :: l) (S (List.length pre)) l None) m1 i1
        (fun rs new m' => match new with
                      | None => snd rs = false
                      | Some n => snd rs = true /\ List.length (hcells m) <= n /\ exists r, nth_error (hcells m') n = Some (HStruct t r) /\
                                  stand_for_fields unsafe (hide (n :: B) T m') r (pre' ++ fst rs)
                      end)).
    { intros m1 i1 x' l1 O S2 P2 SX SL.
      assert (SE : sees (hide B T m) (hide B T m1)) by (apply sees_old; exact O).
      specialize (IH l1 S2 (pre ++ [(ex, x)]) (pre' ++ [(ex, x')]) m1 i1 (below_old _ _ _ _ O BE)
        (fields_sees _ _ _ _ SE (fields_app _ _ _ _ _ SP SX)) (fields_sees _ _ _ _ SE SL) P2).
      rewrite app_length in IH. cbn [List.length] in IH. rewrite Nat.add_1_r, <- app_assoc, forallb_app in IH. cbn [app forallb fst] in IH. rewrite andb_true_r in IH.
      unfold matches, sbind in *. destruct (fields_loop _ _ _ _ _ _ _ i1) as [[[r' s]|p] i3]; auto.
      destruct IH as (new & m' & EQ & R). exists new, m'. split; [exact EQ|]. destruct new as [n|]; auto. cbn [fst snd] in *.
      destruct R as (-> & L & r & Er & Sr). split; auto. split; [destruct O as [_ [O1 _]]; lia|]. exists r. split; auto. rewrite <- app_assoc in Sr. exact Sr. }
    inversion SL0 as [|? ? x' ? l1 R SX SL|? x' ? l1 U TY SL]; subst; cbn [fields_loop hfields_loop].
    + inversion SIM as [|? ? S1 S2]; subst. destruct PK as [P1 P2]. cbn [snd] in *.
      eapply matches_bind; [eapply getField_matches; eauto|]. intros [y c] [[v a] c'] m1 i1 (Ec & SV & O). cbn [fst snd] in *. subst c'. cbn [orb].
      destruct c.
      2: { apply (NEXT m1 i1 x' l1 O S2 P2); auto. apply sff_read; auto. constructor. }
      set (n := List.length (hcells m1)). set (c0 := HStruct t (map (fun f => (fst f, HZero (htypeof (snd f)))) (pre ++ (ex, x) :: l))).
      set (m2 := mkHMem (hcells m1 ++ [c0]) (htables m1)).
      eapply (matches_step _ _ _ _ _ n m2); [reflexivity|].
      assert (E2 : nth_error (hcells m2) n = Some (HStruct t ([] ++ map zero pre ++ (ex, HZero (htypeof x)) :: map zero l))).
      { unfold m2, n, c0. cbn [hcells]. rewrite new_nth, map_app. reflexivity. }
      assert (SE : sees (hide B T m) (hide (n :: B) T m2)) by (eapply sees_trans; [apply sees_old; exact O|apply sees_new]).
      assert (BE2 : below (n :: B) T m2) by (apply new_below; eapply below_old; eauto).
      assert (L1 : List.length (hcells m) <= n) by apply O.
      pose proof (copy_fields n B T t ((ex, HZero (htypeof x)) :: map zero l) i1 pre pre' [] m2 E2 (fields_sees _ _ _ _ SE SP)) as CP.
      rewrite firstn_prefix. destruct (forallb fst pre) eqn:FP; cbn [andb].
      2: { destruct CP as (m' & CP). unfold matches, sbind, slift. exists m'. unfold hbind at 1. cbn [List.length] in CP. rewrite CP. reflexivity. }
      eapply matches_step; [exact CP|]. cbn [app]. set (m3 := with_cell n (HStruct t (pre ++ (ex, HZero (htypeof x)) :: map zero l)) m2).
      assert (E3 : nth_error (hcells m3) n = Some (HStruct t (pre ++ (ex, HZero (htypeof x)) :: map zero l))) by (eapply cell_put; exact E2).
      assert (SE3 : sees (hide B T m) (hide (n :: B) T m3)) by (eapply sees_trans; [exact SE|apply sees_cell]).
      assert (SE13 : sees (hide B T m1) (hide (n :: B) T m3)) by (eapply sees_trans; [apply sees_new|apply sees_cell]).
      apply matches_assoc. eapply matches_bind.
      * eapply (set_field_matches n B T t pre ex x x'); [exact E3|]. intros _. split; eapply stands_sees; [exact SE3|exact SX|exact SE13|exact SV].
      * intros z [] m4 i4 (w & -> & -> & SW).
        set (m4 := with_cell n (HStruct t (pre ++ (true, w) :: map zero l)) m3) in *.
        assert (E4 : nth_error (hcells m4) n = Some (HStruct t ((pre ++ [(true, w)]) ++ map zero l))).
        { rewrite <- app_assoc. eapply cell_put. exact E3. }
        assert (SE4 : sees (hide B T m) (hide (n :: B) T m4)) by (eapply sees_trans; [exact SE3|apply sees_cell]).
        assert (BE4 : below (n :: B) T m4) by (do 2 apply below_cell; exact BE2).
        pose proof (fields_started fuel t addr (pre ++ (true, x) :: l) n B T l l1 S2 (pre ++ [(true, w)]) true m4 i4 BE4 E4 (fields_sees _ _ _ _ SE4 SL) P2) as M.
        rewrite app_length in M. cbn [List.length] in M. rewrite Nat.add_1_r in M.
        unfold matches, sbind in *. destruct (fields_loop _ _ _ _ _ _ _ i4) as [[[r' s]|p] i5]; auto.
        destruct M as (b & m' & EQ & Es & -> & r & Er & Sr & SE5). cbn [fst snd] in *. subst s. exists (Some n), m'. split; [exact EQ|].
        split; [auto|]. split; [auto|]. exists (pre ++ (true, w) :: r). split; [rewrite Er, <- app_assoc; auto|].
        apply fields_app; [eapply fields_sees; [|exact SP]; eapply sees_trans; eauto|]. apply sff_read; auto. eapply stands_sees; eauto.
    + inversion SIM as [|? ? S1 S2]; subst. destruct PK as [P1 P2].
      replace (getField_qualify unsafe (twalk addr) addr false x') with (sret (S := Imports) (x', false)) by (unfold getField_qualify; rewrite U; auto).
      replace (hgetField unsafe (walk fuel) addr false x) with (hret (x, @None nat, false)) by (unfold hgetField; rewrite U; auto).
      apply (NEXT m i x' l1 (old_refl m) S2 P2); auto. apply sff_skip; auto. constructor.
Qed.

(** *** Elements *)
Lemma set_elem_matches n B T t done x x0 rest v v' m i :
  nth_error (hcells m) n = Some (HArray t (done ++ HZero (htypeof x) :: rest)) ->
  stands_for (hide (n :: B) T m) x x0 -> stands_for (hide (n :: B) T m) v v' ->
  matches (slift (store implements x0 v')) (set_elem implements n (List.length done) v) m i
    (fun y _ m' => exists w, m' = with_cell n (HArray t (done ++ w :: rest)) m /\ stands_for (hide (n :: B) T m') w y).
Proof.
  intros E SX SV. unfold matches, slift. rewrite (set_elem_run _ _ i _ _ _ _ v E).
  pose proof (assign_store _ _ _ _ _ SX SV) as A. destruct (store implements x0 v') as [y|p].
  - destruct A as (w & -> & SW). exists tt. eexists. split; [reflexivity|]. exists w. split; [reflexivity|]. eapply stands_sees; [apply sees_cell|]; auto.
  - rewrite A. exists m. reflexivity.
Qed.
Definition elems_result (n : nat) t done (len : nat) B T m : list val * bool -> option nat -> hmem -> Prop := fun rs new m' =>
  snd rs = true /\ new = Some n /\ exists r, nth_error (hcells m') n = Some (HArray t (done ++ r)) /\
  stand_for_all unsafe (hide (n :: B) T m') r (fst rs) /\ List.length r = len /\ sees (hide (n :: B) T m) (hide (n :: B) T m').
Lemma elems_started fuel t ok addr all n B T : forall l l', Forall (sim fuel) l' -> forall done m i, below (n :: B) T m ->
  nth_error (hcells m) n = Some (HArray t (done ++ map zero_elem l)) -> stand_for_all unsafe (hide (n :: B) T m) l l' -> plain_all l' ->
  matches (elems_loop implements (twalk addr) ok l' true) (helems_loop implements (walk fuel) t ok addr all (List.length done) l (Some n)) m i
    (elems_result n t done (List.length l) B T m).
Proof.
  induction l as [|x l IH]; intros l' SIM done m i BE E S PK.
  - inversion S; subst. exists (Some n), m. split; auto. split; auto. split; auto. exists []. cbn [map] in E. split; auto. split; [constructor|split; [auto|apply sees_refl]].
  - cbn [map] in E. unfold zero_elem at 1 in E. inversion S as [|? x' ? l1 SX SL]; subst; cbn [elems_loop helems_loop].
    inversion SIM as [|? ? S1 S2]; subst. destruct PK as [P1 P2].
    eapply matches_bind; [eapply sim_old; eauto|]. intros [y c] [[v a] c'] m1 i1 (Ec & SV & O). cbn [fst snd] in *. subst c'. cbn [orb].
    apply matches_assoc. eapply matches_bind.
    * instantiate (1 := fun y0 _ m' => exists w, m' = with_cell n (HArray t (done ++ w :: map zero_elem l)) m1 /\ stands_for (hide (n :: B) T m') w y0).
      exact (set_elem_matches n B T t done x x' (map zero_elem l) v y m1 i1 (proj1 (proj1 O) _ _ E) (stands_sees _ _ _ _ (sees_old _ _ _ _ O) SX) SV).
    * intros z [] m2 i2 (w & -> & SW).
      set (m2 := with_cell n (HArray t (done ++ w :: map zero_elem l)) m1) in *.
      assert (E2 : nth_error (hcells m2) n = Some (HArray t ((done ++ [w]) ++ map zero_elem l))).
      { rewrite <- app_assoc. eapply cell_put. apply (proj1 (proj1 O)); exact E. }
      assert (SE : sees (hide (n :: B) T m) (hide (n :: B) T m2)) by (eapply sees_trans; [apply sees_old; exact O|apply sees_cell]).
      assert (BE2 : below (n :: B) T m2) by (apply below_cell; eapply below_old; eauto).
      specialize (IH l1 S2 (done ++ [w]) m2 i2 BE2 E2 (all_sees _ _ _ _ SE SL) P2).
      rewrite app_length in IH. cbn [List.length] in IH. rewrite Nat.add_1_r in IH.
      clear - IH SE SW. unfold matches, sbind in *. destruct (elems_loop _ _ _ _ _ i2) as [[[r' s]|p] i3]; auto. cbn.
      destruct IH as (b & m' & EQ & Es & -> & r & Er & Sr & LE & SE2). cbn [fst snd] in *. subst s. eexists. exists m'. split; [exact EQ|].
      split; [auto|]. split; [auto|]. exists (w :: r). rewrite <- app_assoc in Er. split; [exact Er|]. cbn [fst List.length].
      split; [constructor; auto; eapply stands_sees; eauto|split; [congruence|eapply sees_trans; eauto]].
Qed.
Lemma elems_idle fuel t ok addr B T : forall l l', Forall (sim fuel) l' -> forall pre pre' m i, below B T m ->
  stand_for_all unsafe (hide B T m) pre pre' -> stand_for_all unsafe (hide B T m) l l' -> plain_all l' ->
  matches (elems_loop implements (twalk addr) ok l' false)
          (helems_loop implements (walk fuel) t ok addr (pre ++ l) (List.length pre) l None) m i
    (fun rs new m' => match new with
                      | None => snd rs = false
                      | Some n => snd rs = true /\ List.length (hcells m) <= n /\ exists r, nth_error (hcells m') n = Some (HArray t r) /\
                                  stand_for_all unsafe (hide (n :: B) T m') r (pre' ++ fst rs) /\ List.length r = List.length (pre ++ l)
                      end).
Proof.
  induction l as [|x l IH]; intros l' SIM pre pre' m i BE SP SL0 PK.
  - inversion SL0; subst. exists None, m. split; reflexivity.
  - inversion SL0 as [|? x' ? l1 SX SL]; subst; cbn [elems_loop helems_loop].
    inversion SIM as [|? ? S1 S2]; subst. destruct PK as [P1 P2].
    eapply matches_bind; [eapply sim_old; eauto|]. intros [y c] [[v a] c'] m1 i1 (Ec & SV & O). cbn [fst snd] in *. subst c'. cbn [orb].
    destruct c.
    2: { assert (SE : sees (hide B T m) (hide B T m1)) by (apply sees_old; exact O).
      assert (SX1 : stand_for_all unsafe (hide B T m) [x] [x']) by (constructor; auto; constructor).
      specialize (IH l1 S2 (pre ++ [x]) (pre' ++ [x']) m1 i1 (below_old _ _ _ _ O BE)
        (all_sees _ _ _ _ SE (all_app _ _ _ _ _ SP SX1)) (all_sees _ _ _ _ SE SL) P2).
      rewrite app_length in IH. cbn [List.length] in IH. rewrite Nat.add_1_r, <- app_assoc in IH. cbn [app] in IH.
      unfold matches, sbind in *. destruct (elems_loop _ _ _ _ _ i1) as [[[r' s]|p] i3]; auto.
      destruct IH as (new & m' & EQ & R). exists new, m'. split; [exact EQ|]. destruct new as [n|]; auto. cbn [fst snd] in *.
      destruct R as (-> & L & r & Er & Sr). split; auto. split; [destruct O as [_ [O1 _]]; lia|]. exists r. split; auto. rewrite <- app_assoc in Sr. exact Sr. }
    set (n := List.length (hcells m1)). set (c0 := HArray t (map (fun y => HZero (htypeof y)) (pre ++ x :: l))).
    set (m2 := mkHMem (hcells m1 ++ [c0]) (htables m1)).
    eapply (matches_step _ _ _ _ _ n m2); [reflexivity|].
    eapply (matches_bind _ _ _ _ _ _ (fun _ _ m' => m' = m2)).
    { unfold matches, slift, hres. destruct ok as [[]|p]; [exists tt, m2; auto|exists m2; auto]. }
    intros _ _ ? i2 ->.
    assert (E2 : nth_error (hcells m2) n = Some (HArray t ([] ++ map zero_elem pre ++ HZero (htypeof x) :: map zero_elem l))).
    { unfold m2, n, c0. cbn [hcells]. rewrite new_nth, map_app. reflexivity. }
    assert (SE : sees (hide B T m) (hide (n :: B) T m2)) by (eapply sees_trans; [apply sees_old; exact O|apply sees_new]).
    assert (BE2 : below (n :: B) T m2) by (apply new_below; eapply below_old; eauto).
    assert (L1 : List.length (hcells m) <= n) by apply O.
    pose proof (copy_elems n B T t (HZero (htypeof x) :: map zero_elem l) i2 pre pre' [] m2 E2 (all_sees _ _ _ _ SE SP)) as CP.
    rewrite firstn_prefix.
    eapply matches_step; [exact CP|]. cbn [app]. set (m3 := with_cell n (HArray t (pre ++ HZero (htypeof x) :: map zero_elem l)) m2).
    assert (E3 : nth_error (hcells m3) n = Some (HArray t (pre ++ HZero (htypeof x) :: map zero_elem l))) by (eapply cell_put; exact E2).
    assert (SE3 : sees (hide B T m) (hide (n :: B) T m3)) by (eapply sees_trans; [exact SE|apply sees_cell]).
    assert (SE13 : sees (hide B T m1) (hide (n :: B) T m3)) by (eapply sees_trans; [apply sees_new|apply sees_cell]).
    eapply matches_bind.
    * eapply (set_elem_matches n B T t pre x x'); [exact E3| |]; eapply stands_sees; [exact SE3|exact SX|exact SE13|exact SV].
    * intros z [] m4 i4 (w & -> & SW).
      set (m4 := with_cell n (HArray t (pre ++ w :: map zero_elem l)) m3) in *.
      assert (E4 : nth_error (hcells m4) n = Some (HArray t ((pre ++ [w]) ++ map zero_elem l))).
      { rewrite <- app_assoc. eapply cell_put. exact E3. }
      assert (SE4 : sees (hide B T m) (hide (n :: B) T m4)) by (eapply sees_trans; [exact SE3|apply sees_cell]).
      assert (BE4 : below (n :: B) T m4) by (do 2 apply below_cell; exact BE2).
      pose proof (elems_started fuel t ok addr (pre ++ x :: l) n B T l l1 S2 (pre ++ [w]) m4 i4 BE4 E4 (all_sees _ _ _ _ SE4 SL) P2) as M.
      rewrite app_length in M. cbn [List.length] in M. rewrite Nat.add_1_r in M.
      unfold matches, sbind in *. destruct (elems_loop _ _ _ _ _ i4) as [[[r' s]|p] i5]; auto.
      destruct M as (b & m' & EQ & Es & -> & r & Er & Sr & LE & SE5). cbn [fst snd] in *. subst s. exists (Some n), m'. split; [exact EQ|].
      split; [auto|]. split; [auto|]. exists (pre ++ w :: r). split; [rewrite Er, <- app_assoc; auto|].
      split.
      { apply all_app; [eapply all_sees; [|exact SP]; eapply sees_trans; eauto|]. constructor; auto. eapply stands_sees; eauto. }
      rewrite !app_length. cbn [List.length]. congruence.
Qed.

(** *** Keys *)
Lemma stands_key m a' : pointerless a' -> forall a b b', stands_for m a a' -> stands_for m b b' -> pointerless b' -> hsame_key a b = same_key a' b'.
Proof.
  induction a' as [t|t d IH|t fs IH|e|e x IH|t l IH|t l IH|t es IH|p|s|ms|s|s r|el|im|nm|r|g|o|p|t n] using val_ind'; intros PA a b b' SA SB PB;
    try (destruct PA; fail);
    inversion SA as [| | |? fsa ? SFA| | | |? la ? SLA| |]; subst; try discriminate;
    inversion SB as [| | |? fsb fsb' SFB| | | |? lb lb' SLB| |]; subst; try discriminate; cbn [hsame_key same_key]; auto;
    try (match goal with H : leaf ?v = true |- _ => destruct v; try discriminate; reflexivity end; fail);
    try (match goal with H : leaf b' = true |- _ => destruct b'; try discriminate; reflexivity end; fail);
    try (cbn [pointerless] in PB; destruct PB; fail).
  - f_equal. cbn [pointerless] in PA, PB. clear SA SB. revert fsb fsb' SFB PB fsa SFA PA.
    induction IH as [|[ex x] fs H _ IHl]; intros fsb fsb' SFB PB fsa SFA PA; inversion SFA; subst; inversion SFB; subst; auto.
    + cbn [fold_right fst snd] in *. destruct PA as (_ & PX & PA), PB as (_ & PY & PB). f_equal; auto.
    + destruct PB as [[=] _].
    + destruct PA as [[=] _].
    + destruct PA as [[=] _].
  - f_equal. cbn [pointerless] in PA, PB. clear SA SB. revert lb lb' SLB PB la SLA PA.
    induction IH as [|x l H _ IHl]; intros lb lb' SLB PB la SLA PA; inversion SLA; subst; inversion SLB; subst; auto.
    cbn [fold_right fst snd] in *. destruct PA as (PX & PA), PB as (PY & PB). f_equal; auto.
Qed.
Definition pointerless_keys (l : list (val * val)) : Prop := Forall (fun e => pointerless (fst e)) l.
Lemma set_entry_stands m k k' x x' : stands_for m k k' -> pointerless k' -> stands_for m x x' ->
  forall es es', stand_for_entries unsafe m es es' -> pointerless_keys es' ->
  stand_for_entries unsafe m (hset_entry k x es) (set_entry k' x' es') /\ pointerless_keys (set_entry k' x' es').
Proof.
  intros SK PK SX. induction es as [|[k1 x1] es IH]; intros es' S P; inversion S; subst; cbn [hset_entry set_entry].
  - split; repeat constructor; auto.
  - inversion P as [|? ? P1 P2]; subst. cbn [fst] in P1.
    match goal with H : stands_for m k1 ?k1' |- _ => rewrite (stands_key m k' PK k k1 k1' SK H P1); destruct (same_key k' k1') end.
    + split; constructor; auto.
    + match goal with H : stand_for_entries _ _ es ?l' |- _ => destruct (IH l' H P2) as [IH1 IH2] end. split; constructor; auto.
Qed.
Lemma hset_entry_new m k k' x : stands_for m k k' -> pointerless k' -> forall es es', stand_for_entries unsafe m es es' -> pointerless_keys es' ->
  Forall (fun e => same_key k' (fst e) = false) es' -> hset_entry k x es = es ++ [(k, x)].
Proof.
  intros SK PK. induction es as [|[k1 x1] es IH]; intros es' S P D; inversion S; subst; cbn [hset_entry app]; auto.
  inversion P as [|? ? P1 P2]; subst. inversion D as [|? ? D1 D2]; subst. cbn [fst] in *.
  match goal with H : stands_for m k1 ?k1' |- _ => rewrite (stands_key m k' PK k k1 k1' SK H P1), D1 end. f_equal. eauto.
Qed.
(** what becomes of such keys *)
Lemma tree_leaf l : leaf l = true -> forall addr i y c i', twalk addr l i = (Ok (y, c), i') ->
  leaf y = true /\ (pointerless l -> pointerless y) /\ (c = false -> y = l).
Proof.
  intros L addr i y c i' E. destruct l as [| | | | | |p|s|ms|s|s r|[co ty pa|co n s pa]|im|n|r|g|o|p|t n]; try discriminate;
    cbn [qualifyTemplateData] in E; unfold sbind, sret, slift in E;
    repeat match type of E with
           | context [match ?X i with _ => _ end] => destruct (X i) as [[?|?] ?]; try discriminate
           | context [let '(_, _) := ?X in _] => destruct X; try discriminate
           | context [match spec_parent ?a ?b ?c with _ => _ end] => destruct (spec_parent a b c) as [[?|]|?]; try discriminate
           | context [if ?X then _ else _] => destruct X
           | context [match ?X ?j with _ => _ end] => destruct (X j) as [[?|?] ?]; try discriminate
           end; injection E as <- <- _; split; auto; split; try (intros _; exact Logic.I); auto; discriminate.
Qed.
Lemma store_pointerless slot v y : store implements slot v = Ok y -> pointerless slot -> pointerless v -> pointerless y.
Proof.
  unfold store. destruct (assignable _ _ _); [|discriminate]. intros [= <-] _ PV. unfold box. destruct slot; auto. destruct v as [? [d|]| | | | | | | | | | | | | | | | | |]; auto.
Qed.

Definition tree_keeps (k : val) : Prop := forall addr i y c i', pointerless k -> twalk addr k i = (Ok (y, c), i') -> pointerless y.
Definition plain_key_fields (l : list (bool * val)) : Prop := fold_right (fun f P => fst f = true /\ pointerless (snd f) /\ P) True l.
Definition plain_key_all (l : list val) : Prop := fold_right (fun x P => pointerless x /\ P) True l.
Lemma fields_pointerless addr l : Forall (fun f => tree_keeps (snd f)) l -> forall e s i r s' i', plain_key_fields l ->
  fields_loop implements unsafe (twalk addr) addr e l s i = (Ok (r, s'), i') -> plain_key_fields r.
Proof.
  induction 1 as [|[ex x] l H _ IH]; intros e s i r s' i' P E; cbn [fields_loop] in E; [injection E as <- _ _; exact Logic.I|].
  destruct P as (EX & PX & PL). cbn [fst snd] in *. subst ex. unfold getField_qualify, sbind, slift, sret in E.
  destruct (twalk addr x i) as [[[y c]|p] i1] eqn:W; [|discriminate]. destruct (s || c).
  - destruct (if (s || e) && true then Ok tt else Panic p_readonly) as [[]|p]; [|discriminate].
    destruct (store implements x y) as [z|p] eqn:ST; [|discriminate].
    destruct (fields_loop _ _ _ _ _ _ _ i1) as [[[r1 s1]|p] i2] eqn:LOOP; [|discriminate]. injection E as <- _ _. split; auto. split; [|eapply IH; eauto].
    eapply store_pointerless; eauto.
  - destruct (fields_loop _ _ _ _ _ _ _ i1) as [[[r1 s1]|p] i2] eqn:LOOP; [|discriminate]. injection E as <- _ _. split; auto. split; auto. eapply IH; eauto.
Qed.
Lemma elems_pointerless ok addr l : Forall tree_keeps l -> forall s i r s' i', plain_key_all l ->
  elems_loop implements (twalk addr) ok l s i = (Ok (r, s'), i') -> plain_key_all r.
Proof.
  induction 1 as [|x l H _ IH]; intros s i r s' i' P E; cbn [elems_loop] in E; [injection E as <- _ _; exact Logic.I|].
  destruct P as (PX & PL). unfold sbind, slift, sret in E.
  destruct (twalk addr x i) as [[[y c]|p] i1] eqn:W; [|discriminate]. destruct (s || c).
  - destruct (if s then Ok tt else ok) as [[]|p]; [|discriminate].
    destruct (store implements x y) as [z|p] eqn:ST; [|discriminate].
    destruct (elems_loop _ _ _ _ _ i1) as [[[r1 s1]|p] i2] eqn:LOOP; [|discriminate]. injection E as <- _ _. split; [|eapply IH; eauto].
    eapply store_pointerless; eauto.
  - destruct (elems_loop _ _ _ _ _ i1) as [[[r1 s1]|p] i2] eqn:LOOP; [|discriminate]. injection E as <- _ _. split; auto. eapply IH; eauto.
Qed.
Lemma replace_pointerless t o n ch i y c i' : replace implements t o n ch i = (Ok (y, c), i') -> pointerless o -> pointerless n -> pointerless y.
Proof. unfold replace, sret. destruct (ch && implements (typeof n) t); intros [= <- _ _]; auto. Qed.
Lemma tree_pointerless k : tree_keeps k.
Proof.
  induction k as [t|t d IH|t fs IH|e|e x IH|t l IH|t l IH|t es IH|p|s|ms|s|s r|el|im|nm|r|g|o|p|t n] using val_ind'; intros addr i y c i' P E;
    try (destruct P; fail); try (eapply tree_leaf; eauto; reflexivity).
  - injection E as <- _ _. auto.
  - cbn [qualifyTemplateData] in E. destruct (replacement implements t (VIface t (Some d)) d) as [x|] eqn:R; [|eapply IH; eauto].
    destruct d; cbn [replacement] in R; try discriminate; try (destruct P; fail); injection R as <-; unfold sbind, slift in E;
    repeat match type of E with
           | context [match ?X ?j with _ => _ end] => destruct (X j) as [[?|?] ?]; try discriminate
           | context [let '(_, _) := ?X in _] => destruct X; try discriminate
           | context [match ?X with Ok _ => _ | Panic _ => _ end] => destruct X; try discriminate
           end; eapply replace_pointerless; eauto; exact Logic.I.
  - cbn [qualifyTemplateData] in E. unfold sbind, sret in E. destruct (fields_loop _ _ _ _ _ _ _ i) as [[[r s]|p] i1] eqn:LOOP; [|discriminate].
    destruct s; injection E as <- _ _; auto. eapply fields_pointerless; eauto.
  - injection E as <- _ _. auto.
  - cbn [qualifyTemplateData] in E. unfold sbind, sret in E. destruct (elems_loop _ _ _ _ _ i) as [[[r s]|p] i1] eqn:LOOP; [|discriminate].
    destruct s; injection E as <- _ _; auto. eapply elems_pointerless; eauto.
Qed.
Lemma pointerless_plain k : pointerless k -> plain_keys k.
Proof.
  induction k as [t|t d IH|t fs IH|e|e x IH|t l IH|t l IH|t es IH|p|s|ms|s|s r|el|im|nm|r|g|o|p|t n] using val_ind'; intros P; auto; try (destruct P; fail); try exact Logic.I.
  - cbn [pointerless plain_keys] in *. induction IH as [|[ex x] l H _ IHl]; auto. destruct P as (_ & PX & PL). split; auto.
  - cbn [pointerless plain_keys] in *. induction IH as [|x l H _ IHl]; auto. destruct P as (PX & PL). split; auto.
Qed.

(** *** Maps *)
Definition plain_entries (l : list (val * val)) : Prop := fold_right (fun e P => pointerless (fst e) /\ plain_keys (snd e) /\ P) True l.
Lemma set_index_matches n B T k0 k0' x0 x0' k k' x x' es es' m i : nth_error (htables m) n = Some es ->
  stand_for_entries unsafe (hide B (n :: T) m) es es' -> pointerless_keys es' ->
  stands_for (hide B (n :: T) m) k0 k0' -> stands_for (hide B (n :: T) m) x0 x0' -> stands_for (hide B (n :: T) m) k k' -> stands_for (hide B (n :: T) m) x x' ->
  pointerless k0' -> pointerless k' ->
  matches (sbind (slift (store implements k0' k')) (fun k1 => sbind (slift (store implements x0' x')) (fun x1 => sret (set_entry k1 x1 es'))))
    (set_index implements n (htypeof k0) (htypeof x0) k x) m i
    (fun r _ m' => exists w, m' = with_table n w m /\ stand_for_entries unsafe (hide B (n :: T) m') w r /\ pointerless_keys r).
Proof.
  intros E SE PE S1 S2 S3 S4 P1 P2. unfold matches, sbind, slift, sret. rewrite (set_index_run _ _ i es _ _ k x E).
  pose proof (assign_store _ _ _ _ _ S1 S3) as A. destruct (store implements k0' k') as [k1'|p] eqn:SK; [|rewrite A; exists m; reflexivity].
  destruct A as (k1 & -> & SK1). pose proof (assign_store _ _ _ _ _ S2 S4) as A. destruct (store implements x0' x') as [x1'|p]; [|rewrite A; exists m; reflexivity].
  destruct A as (x1 & -> & SX1). exists tt. eexists. split; [reflexivity|]. eexists. split; [reflexivity|].
  destruct (set_entry_stands _ _ _ _ _ SK1 (store_pointerless _ _ _ SK P1 P2) SX1 _ _ SE PE) as [R1 R2].
  split; auto. eapply entries_sees; [apply sees_table|]; auto.
Qed.
Definition sims_entries fuel (l : list (val * val)) : Prop := Forall (fun e => sim fuel (fst e) /\ sim fuel (snd e)) l.
Lemma key_matches fuel k k' m i B T : sim fuel k' -> below B T m -> stands_for (hide B T m) k k' -> pointerless k' ->
  matches (twalk false k') (walk fuel false k) m i (fun x o m' => done_of x o B T m m' /\ pointerless (fst x)).
Proof.
  intros S BE SF P. pose proof (sim_old fuel k' false k m i B T S BE SF (pointerless_plain _ P)) as M.
  eapply matches_weak; [|eapply (matches_and _ _ _ _ _ (fun x => pointerless (fst x))); [|apply walk_keeps|exact M]].
  - cbn. tauto.
  - intros [y c] i' E. eapply tree_pointerless; eauto.
Qed.
Lemma map_started fuel n B T : forall l l', sims_entries fuel l' -> forall es mm m i, below B (n :: T) m ->
  nth_error (htables m) n = Some es -> stand_for_entries unsafe (hide B (n :: T) m) es mm -> pointerless_keys mm ->
  stand_for_entries unsafe (hide B (n :: T) m) l l' -> plain_entries l' ->
  matches (map_loop implements (twalk false) l' mm true) (hmap_loop implements (walk fuel) l [] (Some n)) m i
    (fun rs new m' => snd rs = true /\ new = Some n /\ exists r, nth_error (htables m') n = Some r /\ stand_for_entries unsafe (hide B (n :: T) m') r (fst rs)).
Proof.
  induction l as [|[k x] l IH]; intros l' SIM es mm m i BE E SE PE S PK.
  - inversion S; subst. exists (Some n), m. split; [reflexivity|]. split; auto. split; auto. exists es. auto.
  - inversion S as [|? k' ? x' ? l1 SK SX SL]; subst. cbn [map_loop hmap_loop]. inversion SIM as [|? ? [S1 S1'] S2]; subst. destruct PK as (PK & PX & PL). cbn [fst snd] in *.
    eapply matches_bind; [eapply key_matches; eauto|]. intros [ky ck] [[kv ka] ck'] m1 i1 ((Eck & SKV & O1) & PKY). cbn [fst snd] in *. subst ck'.
    eapply matches_bind; [eapply sim_old; [exact S1'|eapply below_old; eauto|eapply stands_sees; [apply sees_old; exact O1|exact SX]|exact PX]|].
    intros [xy cx] [[xv xa] cx'] m2 i2 (Ecx & SXV & O2). cbn [fst snd] in *. subst cx'. cbn [orb].
    assert (O : old m m2) by (eapply old_trans; eauto). pose proof (sees_old B (n :: T) _ _ O) as SO.
    assert (M : matches (sbind (sbind (slift (store implements k' ky)) (fun k1 => sbind (slift (store implements x' xy)) (fun x1 => sret (set_entry k1 x1 mm))))
                       (fun mm' => map_loop implements (twalk false) l1 mm' true))
                (dm _ <- set_index implements n (htypeof k) (htypeof x) kv xv ;; hmap_loop implements (walk fuel) l [] (Some n)) m2 i2
              (fun rs new m' => snd rs = true /\ new = Some n /\ exists r, nth_error (htables m') n = Some r /\ stand_for_entries unsafe (hide B (n :: T) m') r (fst rs))).
    { eapply matches_bind.
      - eapply set_index_matches; [eapply old_table; eauto|eapply entries_sees; eauto|auto|eapply stands_sees; eauto|eapply stands_sees; eauto| |eauto|auto|auto].
        eapply stands_sees; [apply sees_old; exact O2|]. exact SKV.
      - intros mm' [] m3 i3 (w & -> & SW & PW). apply IH with (es := w); auto.
        + apply below_table. eapply below_old; eauto.
        + eapply table_put. eapply old_table; eauto.
        + eapply entries_sees; [|exact SL]. eapply sees_trans; [exact SO|apply sees_table]. }
    clear - M. unfold matches, sbind, slift, sret in *. destruct (store implements k' ky); auto. destruct (store implements x' xy); auto.
Qed.

Lemma with_table_self n v m : nth_error (htables m) n = Some v -> with_table n v m = m.
Proof.
  intros E. unfold with_table. replace (put n v (htables m)) with (htables m); [destruct m; auto|]. revert E. generalize (htables m) as l. revert n.
  intros k l. revert k. induction l as [|a l IH]; intros [|k]; cbn; try discriminate; [intros [= ->]; auto|]. intros E. f_equal. auto.
Qed.
Lemma with_table_twice n v w m : with_table n v (with_table n w m) = with_table n v m.
Proof. unfold with_table. cbn. rewrite put_put. auto. Qed.
Definition apart (l : list (val * val)) : Prop := ForallOrdPairs (fun a b : val * val => same_key (fst b) (fst a) = false) l.
Lemma copy_entries n B T i : forall seen seen' done done' j m, nth_error (htables m) n = Some done ->
  stand_for_entries unsafe (hide B (n :: T) m) done done' -> stand_for_entries unsafe (hide B (n :: T) m) seen seen' ->
  pointerless_keys (done' ++ seen') -> apart (done' ++ seen') ->
  copy_with (fun _ e => set_index implements n (htypeof (fst e)) (htypeof (snd e)) (fst e) (snd e)) j seen m i = Some (Ok tt, with_table n (done ++ seen) m, i).
Proof.
  induction seen as [|[k x] seen IH]; intros seen' done done' j m E SD S P D; cbn [copy_with].
  - rewrite app_nil_r, (with_table_self _ _ _ E). reflexivity.
  - inversion S as [|? k' ? x' ? s1 SK SX SS]; subst. cbn [fst snd]. unfold hbind at 1.
    rewrite (set_index_run _ _ i _ _ _ k x E), (assign_self _ _ _ SK), (assign_self _ _ _ SX).
    assert (P1 : pointerless_keys done' /\ pointerless k') by (unfold pointerless_keys in *; rewrite Forall_app in P; destruct P as [PA PB]; inversion PB; auto).
    destruct P1 as [PD PK].
    rewrite (hset_entry_new _ _ _ x SK PK _ _ SD PD) by (apply (ordered_app _ _ _ _ D)).
    erewrite (IH s1 (done ++ [(k, x)]) (done' ++ [(k', x')])).
    + rewrite with_table_twice, <- app_assoc. reflexivity.
    + eapply table_put; eauto.
    + eapply entries_sees; [apply sees_table|]. apply entries_app; auto. constructor; auto. constructor.
    + eapply entries_sees; [apply sees_table|]. auto.
    + rewrite <- app_assoc. exact P.
    + rewrite <- app_assoc. exact D.
Qed.
Lemma new_table_below B T m x : below B T m -> below B (List.length (htables m) :: T) (mkHMem (hcells m) (htables m ++ [x])).
Proof.
  intros [H1 H2]. split; cbn [hcells htables]; auto. intros b [<-|IN]; rewrite app_length; cbn [List.length]; [lia|]. specialize (H2 b IN). lia.
Qed.
Lemma apart_front l : forall r, apart (l ++ r) -> apart l.
Proof.
  induction l as [|a l IH]; intros r H; [constructor|]. inversion H as [|? ? H1 H2]; subst. constructor; [|eapply IH; eauto].
  rewrite Forall_app in H1. apply H1.
Qed.
Lemma map_idle fuel B T : forall l l', sims_entries fuel l' -> forall seen seen' m i, below B T m ->
  stand_for_entries unsafe (hide B T m) seen seen' -> pointerless_keys seen' -> stand_for_entries unsafe (hide B T m) l l' -> plain_entries l' ->
  apart (seen' ++ l') ->
  matches (map_loop implements (twalk false) l' seen' false) (hmap_loop implements (walk fuel) l seen None) m i
    (fun rs new m' => match new with
                      | None => snd rs = false
                      | Some n => snd rs = true /\ List.length (htables m) <= n /\ exists r, nth_error (htables m') n = Some r /\
                                  stand_for_entries unsafe (hide B (n :: T) m') r (fst rs)
                      end).
Proof.
  induction l as [|[k x] l IH]; intros l' SIM seen seen' m i BE SS PS SL0 PK D.
  - inversion SL0; subst. exists None, m. split; reflexivity.
  - inversion SL0 as [|? k' ? x' ? l1 SK SX SL]; subst. cbn [map_loop hmap_loop]. inversion SIM as [|? ? [S1 S1'] S2]; subst. destruct PK as (PK & PX & PL). cbn [fst snd] in *.
    eapply matches_bind; [eapply key_matches; eauto|]. intros [ky ck] [[kv ka] ck'] m1 i1 ((Eck & SKV & O1) & PKY). cbn [fst snd] in *. subst ck'.
    eapply matches_bind; [eapply sim_old; [exact S1'|eapply below_old; eauto|eapply stands_sees; [apply sees_old; exact O1|exact SX]|exact PX]|].
    intros [xy cx] [[xv xa] cx'] m2 i2 (Ecx & SXV & O2). cbn [fst snd] in *. subst cx'. cbn [orb].
    assert (O : old m m2) by (eapply old_trans; eauto). pose proof (sees_old B T _ _ O) as SO.
    destruct (ck || cx).
    2: { assert (SE1 : stand_for_entries unsafe (hide B T m) [(k, x)] [(k', x')]) by (constructor; auto; constructor).
      assert (M := IH l1 S2 (seen ++ [(k, x)]) (seen' ++ [(k', x')]) m2 i2 (below_old _ _ _ _ O BE) (entries_sees _ _ _ _ SO (entries_app _ _ _ _ _ SS SE1))).
      rewrite <- app_assoc in M. specialize (M (proj2 (Forall_app _ _ _) (conj PS (Forall_cons (k', x') PK (Forall_nil _)))) (entries_sees _ _ _ _ SO SL) PL D).
      eapply matches_weak; [|exact M]. intros rs [n|] m'; auto. intros (H1 & H2 & H3). split; auto. split; auto. destruct O as [_ [_ O']]. lia. }
    set (n := List.length (htables m2)). set (m3 := mkHMem (hcells m2) (htables m2 ++ [[]])).
    eapply (matches_step _ _ _ _ _ n m3); [reflexivity|].
    assert (SE3 : sees (hide B T m2) (hide B (n :: T) m3)) by apply sees_new_table.
    assert (SE : sees (hide B T m) (hide B (n :: T) m3)) by (eapply sees_trans; eauto).
    assert (E3 : nth_error (htables m3) n = Some []) by apply new_nth.
    assert (CP := copy_entries n B T i2 seen seen' [] [] 0 m3 E3 (se_nil _ _) (entries_sees _ _ _ _ SE SS) PS (apart_front _ _ D)). cbn [app] in CP.
    eapply matches_step; [exact CP|]. set (m4 := with_table n seen m3).
    assert (E4 : nth_error (htables m4) n = Some seen) by (eapply table_put; eauto).
    assert (SE4 : sees (hide B T m) (hide B (n :: T) m4)) by (eapply sees_trans; [exact SE|apply sees_table]).
    assert (SE24 : sees (hide B T m2) (hide B (n :: T) m4)) by (eapply sees_trans; [exact SE3|apply sees_table]).
    assert (M : matches (sbind (sbind (slift (store implements k' ky)) (fun k1 => sbind (slift (store implements x' xy)) (fun x1 => sret (set_entry k1 x1 seen'))))
                       (fun mm' => map_loop implements (twalk false) l1 mm' true))
                (dm _ <- set_index implements n (htypeof k) (htypeof x) kv xv ;; hmap_loop implements (walk fuel) l [] (Some n)) m4 i2
              (fun rs new m' => snd rs = true /\ new = Some n /\ exists r, nth_error (htables m') n = Some r /\ stand_for_entries unsafe (hide B (n :: T) m') r (fst rs))).
    { eapply matches_bind.
      - eapply set_index_matches; [exact E4|eapply entries_sees; [exact SE4|exact SS]|exact PS|eapply stands_sees; [exact SE4|exact SK]|eapply stands_sees; [exact SE4|exact SX]
          | |eapply stands_sees; [exact SE24|exact SXV]|auto|auto].
        eapply stands_sees; [exact SE24|]. eapply stands_sees; [apply sees_old; exact O2|]. exact SKV.
      - intros mm' [] m5 i3 (w & -> & SW & PW). apply map_started with (es := w); auto.
        + do 2 apply below_table. apply new_table_below. eapply below_old; eauto.
        + eapply table_put. eauto.
        + eapply entries_sees; [|exact SL]. eapply sees_trans; [exact SE4|apply sees_table]. }
    eapply (matches_weak _ _ _ _ (fun rs new m' => snd rs = true /\ new = Some n /\ exists r, nth_error (htables m') n = Some r /\ stand_for_entries unsafe (hide B (n :: T) m') r (fst rs))).
    { intros rs new m' (H1 & -> & H3). split; auto. split; auto. apply O. }
    clear - M. unfold matches, sbind, slift, sret in *. destruct (store implements k' ky); auto. destruct (store implements x' xy); auto.
Qed.

(** *** All values *)
Lemma hide_cell B T m n v : ~ In n B -> nth_error (hcells m) n = Some v -> load (hide B T m) (n, []) = Some v.
Proof.
  intros N E. unfold load. cbn [fst snd hide hcells]. rewrite nth_hide, E. cbn [Nat.add inside].
  destruct (existsb (Nat.eqb n) B) eqn:X; auto. apply memb_in in X. contradiction.
Qed.
Lemma hide_table B T m n v : ~ In n T -> nth_error (htables m) n = Some v -> nth_error (htables (hide B T m)) n = Some v.
Proof.
  intros N E. cbn [hide htables]. rewrite nth_hide, E. cbn [Nat.add].
  destruct (existsb (Nat.eqb n) T) eqn:X; auto. apply memb_in in X. contradiction.
Qed.
Lemma hide_load B T m p x t : load (hide B T m) p = Some x -> stands_for (hide B T m) x t -> load m p = Some x.
Proof.
  intros L H. eapply (sees_load (hide B T m) m); eauto. split; intros n v; cbn [hide hcells htables]; rewrite nth_hide; cbn [Nat.add];
    (destruct (nth_error _ n); [|discriminate]); (destruct (existsb _ _); intros [= <-]; auto).
Qed.
Lemma hide_sees B T m : sees (hide B T m) m.
Proof.
  split; intros n v; cbn [hide hcells htables]; rewrite nth_hide; cbn [Nat.add];
    (destruct (nth_error _ n); [|discriminate]); (destruct (existsb _ _); intros [= <-]; auto).
Qed.
Lemma sim_leaf fuel l : leaf l = true -> sim (S fuel) l.
Proof.
  intros L addr v m i B T BE SF _. assert (E : v = HLeaf l) by (inversion SF; subst; auto; discriminate). subst v. cbn [qualifyMemory]. rewrite L.
  pose proof (tree_leaf l L addr i) as TL. unfold matches, hbind, imports_only. destruct (twalk addr l i) as [[[y c]|p] i'] eqn:W.
  - destruct (TL y c i' eq_refl) as (LY & _ & SAME). destruct c.
    + exists (HLeaf y, Some (List.length (hcells m)), true). eexists. split; [reflexivity|]. split; auto. split; [constructor; auto|].
      intros n [= <-]. cbn [hcells]. rewrite new_nth. auto.
    + exists (HLeaf l, None, false), m. split; [reflexivity|]. split; auto.
      rewrite (SAME eq_refl). split; [constructor; auto|discriminate].
  - exists m. reflexivity.
Qed.
Definition simulated (t : val) : Prop := exists N, forall fuel, N <= fuel -> sim fuel t.
Lemma simulated_all {A} (f : A -> val) l : Forall (fun x => simulated (f x)) l -> exists N, forall fuel, N <= fuel -> Forall (fun x => sim fuel (f x)) l.
Proof.
  induction 1 as [|x l [N H] _ [M IH]]; [exists 0; constructor|]. exists (N + M). intros fuel L. constructor; [apply H|apply IH]; lia.
Qed.
Lemma old_below B T m n : below B T m -> List.length (hcells m) <= n -> ~ In n B.
Proof. intros [H _] L IN. specialize (H n IN). lia. Qed.
Lemma simulated_any t : simulated t.
Proof.
  induction t as [t|t d IH|t fs IH|e|e x IH|t l IH|t l IH|t es IH|p|s|ms|s|s r|el|im|nm|r|g|o|p|t n] using val_ind';
    try (exists 1; intros [|fuel] L; [lia|]; apply sim_leaf; reflexivity).
  - exists 1. intros [|fuel] L; [lia|]. intros addr v m i B T BE SF PK. inversion SF; subst; [discriminate|]. exists (HIface t None, None, false), m.
    split; [reflexivity|]. split; auto. split; [auto|discriminate].
  - destruct IH as [N IH]. exists (S N). intros [|fuel] L; [lia|]. intros addr v m i B T BE SF PK.
    inversion SF as [| |? h ? SD| | | | | | |]; subst; [discriminate|]. cbn [qualifyMemory qualifyTemplateData].
    assert (REC : sim fuel d) by (apply IH; lia). specialize (REC false h m i B T BE SD PK).
    destruct h as [| | | | | |l|]; try (inversion SD; subst; exact REC). assert (d = l) as -> by (inversion SD; auto).
    destruct (replacement implements t (VIface t (Some l)) l) as [x|] eqn:R; [|exact REC].
    assert (OUT : forall y c i', x i = (Ok (y, c), i') -> if c : bool then (exists e z, y = VPtr e (Some z) /\ leaf z = true) \/ leaf y = true else y = VIface t (Some l)).
    { intros y c i' E. assert (RP : forall n ch j, (replace implements t (VIface t (Some l)) n ch j = (Ok (y, c), i')) ->
        (exists e z, n = VPtr e (Some z) /\ leaf z = true) \/ leaf n = true -> if c : bool then (exists e z, y = VPtr e (Some z) /\ leaf z = true) \/ leaf y = true else y = VIface t (Some l)).
      { intros n ch j. unfold replace, sret. destruct (ch && implements (typeof n) t); intros [= <- <- _]; auto. }
      destruct l; cbn [replacement] in R; try discriminate; injection R as <-; unfold sbind, slift in E;
      repeat match type of E with
           | context [match ?X ?j with _ => _ end] => destruct (X j) as [[?|?] ?]; try discriminate
           | context [let '(_, _) := ?X in _] => destruct X; try discriminate
           | context [match ?X with Ok _ => _ | Panic _ => _ end] => destruct X; try discriminate
           | context [match ?X with SomSymbol _ => _ | SomMethod _ => _ end] => destruct X
           end; (eapply RP; [exact E|]); first [right; reflexivity|left; eexists; eexists; split; reflexivity]. }
    unfold matches, hbind, imports_only. destruct (x i) as [[[y c]|p] i'] eqn:X; [|exists m; reflexivity]. specialize (OUT y c i' eq_refl). destruct c.
    + destruct OUT as [(e & z & -> & LZ)|LY].
      * cbn [new_reference]. exists (HPtr e (Some (List.length (hcells m), [])), None, true). eexists. split; [reflexivity|]. split; auto. split; [|discriminate].
        eapply sf_ptr; [|constructor; exact LZ]. apply hide_cell; [eapply old_below; eauto|apply new_nth].
      * exists (HLeaf y, None, true), m. split; [destruct y; try discriminate; reflexivity|]. split; auto. split; [constructor; auto|discriminate].
    + subst y. exists (HIface t (Some (HLeaf l)), None, false), m. split; [reflexivity|]. split; auto. split; [auto|discriminate].
  - destruct (simulated_all snd fs IH) as [N H]. exists (S N). intros [|fuel] L; [lia|]. intros addr v m i B T BE SF PK.
    inversion SF as [| | |? hs ? SFS| | | | | |]; subst; [discriminate|]. cbn [qualifyMemory qualifyTemplateData].
    assert (M := fields_idle fuel t addr B T hs fs (H fuel ltac:(lia)) [] [] m i BE (sff_nil _ _) SFS PK). cbn [app List.length] in M.
    eapply (matches_and _ _ _ _ _ (fun _ => True)) in M; [|auto|apply ok_fields; [intros; apply walk_keeps|discriminate]].
    eapply matches_bind; [exact M|]. clear M. intros [fs' c] new m1 i1 (R & _ & O). cbn [fst snd] in R. destruct new as [n|].
    + destruct R as (-> & LN & r & E & SR). unfold hload.
      eapply (matches_step _ _ _ _ _ (HStruct t r) m1); [unfold load; cbn [fst snd]; rewrite E; reflexivity|].
      apply matches_ret. split; auto. split; [constructor; eapply fields_sees; [apply sees_more|exact SR]|]. intros ? [= <-]. auto.
    + subst c. apply matches_ret. split; auto. split; [|discriminate]. eapply stands_sees; [apply sees_old; exact O|exact SF].
  - exists 1. intros [|fuel] L; [lia|]. intros addr v m i B T BE SF PK. inversion SF; subst; [discriminate|]. exists (HPtr e None, None, false), m.
    split; [reflexivity|]. split; auto. split; [auto|discriminate].
  - destruct IH as [N IH]. exists (S N). intros [|fuel] L; [lia|]. intros addr v m i B T BE SF PK.
    inversion SF as [| | | | |? p h ? LD SX| | | |]; subst; [discriminate|]. cbn [qualifyMemory qualifyTemplateData].
    eapply (matches_step _ _ _ _ _ h m). { unfold hload. rewrite (hide_load _ _ _ _ _ _ LD SX). reflexivity. }
    assert (REC : sim fuel x) by (apply IH; lia). specialize (REC true h m i B T BE SX PK).
    eapply (matches_and _ _ _ _ _ (fun _ => True)) in REC; [|auto|apply walk_keeps].
    eapply matches_bind; [exact REC|]. intros [y c] [[h' a] c'] m1 i1 ((-> & SY & AT) & _ & O). destruct c.
    + rewrite (stands_type _ _ _ SY). destruct a as [n|].
      * destruct (AT n eq_refl) as [E LN]. apply matches_ret. split; auto. split; [|discriminate].
        eapply sf_ptr; [|exact SY]. apply hide_cell; [eapply old_below; eauto|exact E].
      * eapply (matches_step _ _ _ _ _ (List.length (hcells m1))); [reflexivity|]. apply matches_ret. split; auto. split; [|discriminate].
        assert (NI : ~ In (List.length (hcells m1)) B) by (eapply old_below; [exact BE|apply O]).
        eapply sf_ptr; [apply hide_cell; [exact NI|apply new_nth]|]. eapply stands_sees; [|exact SY].
        eapply sees_trans; [apply sees_new|apply sees_more].
    + apply matches_ret. split; auto. split; [|discriminate]. eapply stands_sees; [apply sees_old; exact O|exact SF].
  - destruct (simulated_all (fun x => x) l IH) as [N H]. exists (S N). intros [|fuel] L; [lia|]. intros addr v m i B T BE SF PK.
    inversion SF as [| | | | | |? p off len hs ? SE SA| | |]; subst; [discriminate|]. cbn [qualifyMemory qualifyTemplateData].
    eapply (matches_step _ _ _ _ _ hs m). { unfold helems. rewrite (sees_elems _ _ _ _ _ _ (hide_sees B T m) SE). reflexivity. }
    assert (M := elems_idle fuel "" (Ok tt) true B T hs l (H fuel ltac:(lia)) [] [] m i BE (sa_nil _ _) SA PK). cbn [app List.length] in M.
    eapply (matches_and _ _ _ _ _ (fun _ => True)) in M; [|auto|apply ok_elems_loop; [intros; apply walk_keeps|discriminate]].
    eapply matches_bind; [exact M|]. clear M. intros [l' c] new m1 i1 (R & _ & O). cbn [fst snd] in R. destruct new as [n|].
    + destruct R as (-> & LN & r & E & SR & LEN). apply matches_ret. split; auto. split; [|discriminate].
      assert (LEN2 : List.length hs = len).
      { unfold slice_elems in SE. destruct (Nat.eqb_spec len 0) as [->|]; [injection SE as <-; auto|]. destruct (load _ p) as [[| | | |? a| | |]|]; try discriminate.
        destruct (Nat.leb_spec (off + len) (List.length a)); [|discriminate]. injection SE as <-. rewrite firstn_length, skipn_length. lia. }
      apply sf_slice with (l := r); [|eapply all_sees; [apply sees_more|exact SR]]. unfold slice_elems. rewrite (hide_cell B T m1 n _ (old_below B T m n BE LN) E).
      rewrite <- LEN2, <- LEN. cbn [Nat.add skipn]. rewrite Nat.leb_refl, firstn_all. destruct (Nat.eqb_spec (List.length r) 0) as [Z|]; auto.
      destruct r; [auto|discriminate].
    + subst c. apply matches_ret. split; auto. split; [|discriminate]. eapply stands_sees; [apply sees_old; exact O|exact SF].
  - destruct (simulated_all (fun x => x) l IH) as [N H]. exists (S N). intros [|fuel] L; [lia|]. intros addr v m i B T BE SF PK.
    inversion SF as [| | | | | | |? hs ? SA| |]; subst; [discriminate|]. cbn [qualifyMemory qualifyTemplateData].
    assert (M := elems_idle fuel t (if addr then Ok tt else Panic p_slice) addr B T hs l (H fuel ltac:(lia)) [] [] m i BE (sa_nil _ _) SA PK). cbn [app List.length] in M.
    eapply (matches_and _ _ _ _ _ (fun _ => True)) in M; [|auto|apply ok_elems_loop; [intros; apply walk_keeps|discriminate]].
    eapply matches_bind; [exact M|]. clear M. intros [l' c] new m1 i1 (R & _ & O). cbn [fst snd] in R. destruct new as [n|].
    + destruct R as (-> & LN & r & E & SR & LEN). unfold hload.
      eapply (matches_step _ _ _ _ _ (HArray t r) m1); [unfold load; cbn [fst snd]; rewrite E; reflexivity|].
      apply matches_ret. split; auto. split; [constructor; eapply all_sees; [apply sees_more|exact SR]|]. intros ? [= <-]. auto.
    + subst c. apply matches_ret. split; auto. split; [|discriminate]. eapply stands_sees; [apply sees_old; exact O|exact SF].
  - assert (IH1 : Forall (fun e => simulated (fst e)) es) by (eapply Forall_impl; [|exact IH]; cbn; tauto).
    assert (IH2 : Forall (fun e => simulated (snd e)) es) by (eapply Forall_impl; [|exact IH]; cbn; tauto).
    destruct (simulated_all fst es IH1) as [N1 H1]. destruct (simulated_all snd es IH2) as [N2 H2].
    exists (S (N1 + N2)). intros [|fuel] L; [lia|]. intros addr v m i B T BE SF PK.
    assert (SIMS : sims_entries fuel es).
    { specialize (H1 fuel ltac:(lia)). specialize (H2 fuel ltac:(lia)). apply Forall_and; auto. }
    cbn [plain_keys] in PK. destruct PK as [D PK]. apply keys_differ in D.
    inversion SF as [| | | | | | | |? |? tb hs ? ET SE]; subst; [discriminate| |].
    { exists (HMap t None, None, false), m. split; [reflexivity|]. split; auto. split; [auto|discriminate]. }
    cbn [qualifyMemory qualifyTemplateData].
    eapply (matches_step _ _ _ _ _ hs m). { unfold hentries. rewrite (sees_entries _ _ _ _ _ (hide_sees B T m) ET SE). reflexivity. }
    assert (M := map_idle fuel B T hs es SIMS [] [] m i BE (se_nil _ _) (Forall_nil _) SE PK D).
    eapply (matches_and _ _ _ _ _ (fun _ => True)) in M; [|auto|apply ok_map_loop; [intros; split; apply walk_keeps|discriminate]].
    eapply matches_bind; [exact M|]. clear M. intros [es' c] new m1 i1 (R & _ & O). cbn [fst snd] in R. destruct new as [n|].
    + destruct R as (-> & LN & r & E & SR). apply matches_ret. split; auto. split; [|discriminate].
      eapply sf_map; [|eapply entries_sees; [apply sees_more_tables|exact SR]]. apply hide_table; auto. intros IN. destruct BE as [_ BE]. specialize (BE n IN). lia.
    + subst c. apply matches_ret. split; auto. split; [|discriminate]. eapply stands_sees; [apply sees_old; exact O|exact SF].
Qed.
Lemma data_as_tree d t m : stands_for m d t -> plain_keys t -> exists N, forall fuel i, N <= fuel ->
  match QualifyTemplateData implements unsafe parent_of (Some t) i with
  | (Ok o, i') => exists o' m', QualifyMemory implements unsafe parent_of fuel (Some d) m i = Some (Ok o', m', i') /\ stand_for_data unsafe m' o' o
  | (Panic e, i') => exists m', QualifyMemory implements unsafe parent_of fuel (Some d) m i = Some (Panic e, m', i')
  end.
Proof.
  intros SF PK. destruct (simulated_any (VIface "interface {}" (Some t))) as [N H]. exists N. intros fuel i L.
  assert (S0 : stands_for (hide [] [] m) (HIface "interface {}" (Some d)) (VIface "interface {}" (Some t))) by (rewrite hide_nil; constructor; auto).
  assert (BE : below [] [] m) by (split; intros b []).
  assert (M := H fuel L true (HIface "interface {}" (Some d)) m i [] [] BE S0 PK).
  change (matches (QualifyTemplateData implements unsafe parent_of (Some t)) (QualifyMemory implements unsafe parent_of fuel (Some d)) m i
    (fun o o' m' => stand_for_data unsafe m' o' o)).
  cbn [QualifyTemplateData QualifyMemory]. eapply matches_bind; [exact M|]. intros [t' c] [[d' a] c'] m' i' (_ & SD & _). apply matches_ret.
  rewrite hide_nil in SD. inversion SD; subst; cbn; auto. destruct t'; try discriminate; cbn; auto.
Qed.

(** ** More fuel does not matter *)
Definition more {A} (x y : HM A) : Prop := forall m i r, x m i = Some r -> y m i = Some r.
Lemma more_refl {A} (x : HM A) : more x x.
Proof. intros m i r; auto. Qed.
Lemma more_bind {A C} (x x' : HM A) (k k' : A -> HM C) : more x x' -> (forall a, more (k a) (k' a)) -> more (hbind x k) (hbind x' k').
Proof.
  intros H K m i r. unfold hbind. destruct (x m i) as [[[[a|e] m1] i1]|] eqn:E; [|auto|discriminate]; rewrite (H _ _ _ E); auto. apply K.
Qed.
Section More.
Variables rec rec' : bool -> hval -> HM outcome.
Hypothesis REC : forall addr v, more (rec addr v) (rec' addr v).
Lemma more_fields t addr all : forall l k new, more (hfields_loop implements unsafe rec t addr all k l new) (hfields_loop implements unsafe rec' t addr all k l new).
Proof.
  induction l as [|[e x] l IH]; intros k new; cbn [hfields_loop]; [apply more_refl|]. apply more_bind.
  - unfold hgetField. destruct e; auto. destruct unsafe; [|apply more_refl]. destruct addr; auto. apply more_refl.
  - intros [[x' a] c]. destruct new; [|destruct c; auto]; repeat (apply more_bind; [apply more_refl|intros ?]); auto.
Qed.
Lemma more_elems t ok addr all : forall l k new, more (helems_loop implements rec t ok addr all k l new) (helems_loop implements rec' t ok addr all k l new).
Proof.
  induction l as [|x l IH]; intros k new; cbn [helems_loop]; [apply more_refl|]. apply more_bind; auto.
  intros [[x' a] c]. destruct new; [|destruct c; auto]; repeat (apply more_bind; [apply more_refl|intros ?]); auto.
Qed.
Lemma more_map : forall l seen new, more (hmap_loop implements rec l seen new) (hmap_loop implements rec' l seen new).
Proof.
  induction l as [|[k x] l IH]; intros seen new; cbn [hmap_loop]; [apply more_refl|]. apply more_bind; auto.
  intros [[k' ka] ck]. apply more_bind; auto. intros [[x' a] c].
  destruct new; [|destruct (ck || c); auto]; repeat (apply more_bind; [apply more_refl|intros ?]); auto.
Qed.
End More.
Lemma walk_more fuel : forall addr v, more (walk fuel addr v) (walk (S fuel) addr v).
Proof.
  induction fuel as [|fuel IH]; intros addr v; [intros m i r H; discriminate|].
  remember (S fuel) as sf eqn:Hf. rewrite Hf at 1. cbn [qualifyMemory].
  destruct v as [t [d|]|t fs|e [p|]|t p off len|t l|t [n|]|l|t]; try apply more_refl; rewrite Hf in *.
  - destruct d; try apply IH. destruct (replacement _ _ _ _); [apply more_refl|apply IH].
  - apply more_bind; [apply more_fields; exact IH|intros ?; apply more_refl].
  - apply more_bind; [apply more_refl|]. intros x. apply more_bind; [apply IH|intros ?; apply more_refl].
  - apply more_bind; [apply more_refl|]. intros x. apply more_bind; [apply more_elems; exact IH|intros ?; apply more_refl].
  - apply more_bind; [apply more_elems; exact IH|intros ?; apply more_refl].
  - apply more_bind; [apply more_refl|]. intros x. apply more_bind; [apply more_map; exact IH|intros ?; apply more_refl].
Qed.
Lemma fuel_more fuel fuel' d : fuel <= fuel' -> more (QualifyMemory implements unsafe parent_of fuel d) (QualifyMemory implements unsafe parent_of fuel' d).
Proof.
  intros L. destruct d as [d|]; [|apply more_refl]. cbn [QualifyMemory]. apply more_bind; [|intros ?; apply more_refl].
  induction L as [|fuel' L IH]; [apply more_refl|]. intros m i r E. apply walk_more. auto.
Qed.

(** ** Unchanged data *)
Definition quiet {A} (x : HM A) (Q : A -> Prop) : Prop := forall m i a m' i', x m i = Some (Ok a, m', i') -> Q a -> m' = m.
Definition unchanged_outcome (o : outcome) : Prop := snd o = false.
Lemma quiet_ret {A} (a : A) Q : quiet (hret a) Q.
Proof. intros m i b m' i' [= _ <- _] _. auto. Qed.
Lemma quiet_panic {A} e (Q : A -> Prop) : quiet (hpanic e) Q.
Proof. intros m i b m' i' [=]. Qed.
Definition idle_result (o : option nat) : Prop := o = None.
Section Quiet.
Variable rec : bool -> hval -> HM outcome.
Hypothesis REC : forall addr v, quiet (rec addr v) unchanged_outcome.
Lemma fields_some t addr all : forall l k n m i b m' i', hfields_loop implements unsafe rec t addr all k l (Some n) m i = Some (Ok b, m', i') -> b = Some n.
Proof.
  induction l as [|[e x] l IH]; intros k n m i b m' i'; cbn [hfields_loop]; [intros [= <- _ _]; auto|].
  unfold hbind. destruct (hgetField _ _ _ _ _ m i) as [[[[[[x' a] c]|?] m1] i1]|]; try discriminate.
  destruct (set_field _ _ _ _ m1 i1) as [[[[?|?] m2] i2]|]; try discriminate. apply IH.
Qed.
Lemma elems_some t ok addr all : forall l k n m i b m' i', helems_loop implements rec t ok addr all k l (Some n) m i = Some (Ok b, m', i') -> b = Some n.
Proof.
  induction l as [|x l IH]; intros k n m i b m' i'; cbn [helems_loop]; [intros [= <- _ _]; auto|].
  unfold hbind. destruct (rec addr x m i) as [[[[[[x' a] c]|?] m1] i1]|]; try discriminate.
  destruct (set_elem _ _ _ _ m1 i1) as [[[[?|?] m2] i2]|]; try discriminate. apply IH.
Qed.
Lemma map_some : forall l seen n m i b m' i', hmap_loop implements rec l seen (Some n) m i = Some (Ok b, m', i') -> b = Some n.
Proof.
  induction l as [|[k x] l IH]; intros seen n m i b m' i'; cbn [hmap_loop]; [intros [= <- _ _]; auto|].
  unfold hbind. destruct (rec false k m i) as [[[[[[k' a] c]|?] m1] i1]|]; try discriminate.
  destruct (rec false x m1 i1) as [[[[[[x' xa] xc]|?] m2] i2]|]; try discriminate.
  destruct (set_index _ _ _ _ _ _ m2 i2) as [[[[?|?] m3] i3]|]; try discriminate. apply IH.
Qed.
Lemma quiet_fields t addr all : forall l k, quiet (hfields_loop implements unsafe rec t addr all k l None) idle_result.
Proof.
  induction l as [|[e x] l IH]; intros k; cbn [hfields_loop]; [apply quiet_ret|].
  intros m i a m' i' E I. unfold hbind at 1 in E. destruct (hgetField _ _ _ _ _ m i) as [[[[[[x' xa] c]|?] m1] i1]|] eqn:EX; try discriminate. destruct c.
  - exfalso. unfold hnew, hbind in E. destruct (copy_with _ _ _ _ i1) as [[[[?|?] m2] i2]|]; try discriminate. destruct (set_field _ _ _ _ m2 i2) as [[[[?|?] m3] i3]|]; try discriminate.
    apply fields_some in E. unfold idle_result in I. congruence.
  - rewrite (IH _ _ _ _ _ _ E I). unfold hgetField in EX. destruct e; [eapply REC; eauto; reflexivity|].
    destruct unsafe; [destruct addr; [eapply REC; eauto; reflexivity|discriminate]|]. injection EX as _ _ <- _. auto.
Qed.
Lemma quiet_elems t ok addr all : forall l k, quiet (helems_loop implements rec t ok addr all k l None) idle_result.
Proof.
  induction l as [|x l IH]; intros k; cbn [helems_loop]; [apply quiet_ret|].
  intros m i a m' i' E I. unfold hbind at 1 in E. destruct (rec addr x m i) as [[[[[[x' xa] c]|?] m1] i1]|] eqn:EX; try discriminate. destruct c.
  - exfalso. unfold hnew, hbind in E. destruct (hres ok _ i1) as [[[[?|?] m0] i0]|]; try discriminate.
    destruct (copy_with _ _ _ _ i0) as [[[[?|?] m2] i2]|]; try discriminate. destruct (set_elem _ _ _ _ m2 i2) as [[[[?|?] m3] i3]|]; try discriminate.
    apply elems_some in E. unfold idle_result in I. congruence.
  - rewrite (IH _ _ _ _ _ _ E I). eapply REC; eauto; reflexivity.
Qed.
Lemma quiet_map : forall l seen, quiet (hmap_loop implements rec l seen None) idle_result.
Proof.
  induction l as [|[k x] l IH]; intros seen; cbn [hmap_loop]; [apply quiet_ret|].
  intros m i a m' i' E I. unfold hbind at 1 in E. destruct (rec false k m i) as [[[[[[k' ka] ck]|?] m1] i1]|] eqn:EK; try discriminate.
  unfold hbind at 1 in E. destruct (rec false x m1 i1) as [[[[[[x' xa] cx]|?] m2] i2]|] eqn:EX; try discriminate.
  destruct ck, cx; cbn [orb] in E;
    try (exfalso; unfold hnew_map, hbind in E; destruct (copy_with _ _ _ _ i2) as [[[[?|?] m3] i3]|]; try discriminate;
         destruct (set_index _ _ _ _ _ _ m3 i3) as [[[[?|?] m4] i4]|]; try discriminate; apply map_some in E; unfold idle_result in I; congruence).
  rewrite (IH _ _ _ _ _ _ E I). transitivity m1; [eapply REC; [exact EX|reflexivity]|eapply REC; [exact EK|reflexivity]].
Qed.
End Quiet.
Lemma walk_unchanged fuel : forall addr v m i v' a m' i', walk fuel addr v m i = Some (Ok (v', a, false), m', i') -> m' = m /\ (is_hiface v = false -> v' = v).
Proof.
  induction fuel as [|fuel IH]; intros addr v m i v' a m' i'; [discriminate|]. cbn [qualifyMemory].
  assert (Q : forall addr v, quiet (walk fuel addr v) unchanged_outcome).
  { intros ad w m0 i0 [[w' a0] c0] m0' i0' E U. unfold unchanged_outcome in U. cbn in U. subst c0. apply (IH _ _ _ _ _ _ _ _ E). }
  destruct v as [t [d|]|t fs|e [p|]|t p off len|t l|t [n|]|l|t]; try (intros [= <- _ <- _]; auto; fail); try discriminate.
  - assert (R : walk fuel false d m i = Some (Ok (v', a, false), m', i') -> m' = m /\ (is_hiface (HIface t (Some d)) = false -> v' = HIface t (Some d))).
    { intros E. split; [apply (IH _ _ _ _ _ _ _ _ E)|discriminate]. }
    destruct d; auto. destruct (replacement _ _ _ _) as [x|]; auto. unfold hbind, imports_only. destruct (x i) as [[[y c]|?] i1]; [|discriminate].
    destruct c; [|intros [= <- _ <- _]; auto]. unfold new_reference. destruct y as [| |e [z|]| | | | | | | | | | | | | | | |]; discriminate.
  - unfold hbind at 1. destruct (hfields_loop _ _ _ _ _ _ _ _ _ m i) as [[[[[n|]|?] m1] i1]|] eqn:E; try discriminate.
    + unfold hbind, hload. destruct (load m1 (n, [])); discriminate.
    + intros [= <- _ <- _]. split; auto. eapply quiet_fields; eauto. reflexivity.
  - unfold hbind, hload. destruct (load m p) as [x|]; [|discriminate]. cbn [opt_res]. destruct (walk fuel true x m i) as [[[[[[x' at_] c]|?] m1] i1]|] eqn:E; try discriminate.
    destruct c; [destruct at_; discriminate|]. intros [= <- _ <- _]. split; auto. apply (IH _ _ _ _ _ _ _ _ E).
  - unfold hbind, helems. destruct (slice_elems m p off len) as [l|]; [|discriminate]. cbn [opt_res].
    destruct (helems_loop _ _ _ _ _ _ _ _ _ m i) as [[[[[n|]|?] m1] i1]|] eqn:E; try discriminate.
    intros [= <- _ <- _]. split; auto. eapply quiet_elems; eauto. reflexivity.
  - unfold hbind at 1. destruct (helems_loop _ _ _ _ _ _ _ _ _ m i) as [[[[[n|]|?] m1] i1]|] eqn:E; try discriminate.
    + unfold hbind, hload. destruct (load m1 (n, [])); discriminate.
    + intros [= <- _ <- _]. split; auto. eapply quiet_elems; eauto. reflexivity.
  - unfold hbind, hentries. destruct (nth_error (htables m) n) as [es|]; [|discriminate]. cbn [opt_res].
    destruct (hmap_loop _ _ _ _ _ m i) as [[[[[k|]|?] m1] i1]|] eqn:E; try discriminate.
    intros [= <- _ <- _]. split; auto. eapply quiet_map; eauto. reflexivity.
  - destruct (leaf l); [|discriminate]. unfold hbind, imports_only. destruct (twalk addr l i) as [[[y c]|?] i1]; [|discriminate].
    destruct c; [discriminate|]. intros [= <- _ <- _]. auto.
Qed.
End Sim.
