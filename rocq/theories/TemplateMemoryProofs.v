(** Proofs about qualified template data in memory: what was there is not written to; data that
    is a finite tree is walked to the end; and only such data. *)
From Coq Require Import Lia.
From Verif Require Import Base BaseFacts GoPath Types SpecTypes Imports Conv World Template SpecTemplate TemplateProofs TemplateMemory SpecTemplateMemory.

(** ** Lists *)
Lemma nth_put {A} n (a : A) l k : k <> n -> nth_error (put n a l) k = nth_error l k.
Proof. revert n k. induction l as [|x l IH]; intros [|n] [|k] H; cbn; auto; congruence. Qed.
Lemma nth_put_same {A} n (a : A) l : n < List.length l -> nth_error (put n a l) n = Some a.
Proof. revert n. induction l as [|x l IH]; intros [|n] H; cbn in *; auto; try lia. apply IH. lia. Qed.
Lemma length_put {A} n (a : A) l : List.length (put n a l) = List.length l.
Proof. revert n. induction l as [|x l IH]; intros [|n]; cbn; auto. Qed.

Lemma in_firstn {A} n (l : list A) x : In x (firstn n l) -> In x l.
Proof. intros H. rewrite <- (firstn_skipn n l). apply in_or_app. auto. Qed.
Lemma in_skipn {A} n (l : list A) x : In x (skipn n l) -> In x l.
Proof. intros H. rewrite <- (firstn_skipn n l). apply in_or_app. auto. Qed.

(** ** Memory that is only added to *)
Definition old (m0 m : hmem) : Prop :=
  untouched m0 m /\ List.length (hcells m0) <= List.length (hcells m) /\ List.length (htables m0) <= List.length (htables m).
Lemma old_refl m : old m m.
Proof. repeat split; auto. Qed.
Lemma old_trans a b c : old a b -> old b c -> old a c.
Proof. intros [[U1 U2] [L1 L2]] [[V1 V2] [K1 K2]]. repeat split; eauto; lia. Qed.
Lemma old_load m0 m p x : old m0 m -> load m0 p = Some x -> load m p = Some x.
Proof.
  intros [[U _] _]. unfold load. destruct (nth_error (hcells m0) (fst p)) as [v|] eqn:E; [|discriminate]. rewrite (U _ _ E). auto.
Qed.
Lemma old_elems m0 m p off len l : old m0 m -> slice_elems m0 p off len = Some l -> slice_elems m p off len = Some l.
Proof.
  intros O. unfold slice_elems. destruct (Nat.eqb len 0); auto. destruct (load m0 p) as [v|] eqn:E; [|discriminate].
  rewrite (old_load _ _ _ _ O E). auto.
Qed.
Lemma old_table m0 m n es : old m0 m -> nth_error (htables m0) n = Some es -> nth_error (htables m) n = Some es.
Proof. intros [[_ U] _]. auto. Qed.

(** [ok ends m0 x Q]: [x] leaves alone what was in [m0], its result satisfies [Q], and if [ends]
    the recursion of [x] comes to an end. *)
Definition ok {A} (ends : bool) (m0 : hmem) (x : HM A) (Q : A -> Prop) : Prop :=
  forall m i, old m0 m -> match x m i with
                         | None => ends = false
                         | Some (r, m', _) => old m0 m' /\ forall a, r = Ok a -> Q a
                         end.
Definition any_result {A} (_ : A) : Prop := True.
Section Ok.
Variable ends : bool.
Variable m0 : hmem.
Lemma ok_ret {A} (a : A) (Q : A -> Prop) : Q a -> ok ends m0 (hret a) Q.
Proof. intros H m i O. split; auto. intros b [= <-]. auto. Qed.
Lemma ok_panic {A} e (Q : A -> Prop) : ok ends m0 (hpanic e) Q.
Proof. intros m i O. split; auto. discriminate. Qed.
Lemma ok_bind {A B} (x : HM A) (k : A -> HM B) P Q : ok ends m0 x P -> (forall a, P a -> ok ends m0 (k a) Q) -> ok ends m0 (hbind x k) Q.
Proof.
  intros X K m i O. unfold hbind. specialize (X m i O). destruct (x m i) as [[[r m'] i']|]; auto. destruct X as [O' R].
  destruct r as [a|e]; [|split; auto; discriminate]. apply K; auto.
Qed.
Lemma ok_known {A B} (x : HM A) a (k : A -> HM B) Q : (forall m i, old m0 m -> x m i = Some (Ok a, m, i)) -> ok ends m0 (k a) Q ->
  ok ends m0 (hbind x k) Q.
Proof. intros X K m i O. unfold hbind. rewrite X by auto. apply K; auto. Qed.
Lemma ok_res {A} (r : res A) (Q : A -> Prop) : (forall a, r = Ok a -> Q a) -> ok ends m0 (hres r) Q.
Proof. intros H m i O. split; auto. Qed.
Lemma ok_imports {A} (x : IM A) : ok ends m0 (imports_only x) any_result.
Proof. intros m i O. unfold imports_only. destruct (x i). split; auto. intros; exact Logic.I. Qed.
Lemma ok_load p : ok ends m0 (hload p) any_result.
Proof. intros m i O. split; auto. intros; exact Logic.I. Qed.
Lemma ok_elems p off len : ok ends m0 (helems p off len) any_result.
Proof. intros m i O. split; auto. intros; exact Logic.I. Qed.
Lemma ok_entries n : ok ends m0 (hentries n) any_result.
Proof. intros m i O. split; auto. intros; exact Logic.I. Qed.
Lemma ok_new v : ok ends m0 (hnew v) (fun n => List.length (hcells m0) <= n).
Proof.
  intros m i [[U1 U2] [L1 L2]]. unfold hnew. split; [|intros a [= <-]; auto].
  repeat split; cbn [hcells htables]; auto; rewrite ?app_length; cbn; try lia.
  intros n w E. rewrite nth_error_app1; auto. apply nth_error_Some. rewrite (U1 _ _ E). discriminate.
Qed.
Lemma ok_new_map : ok ends m0 hnew_map (fun n => List.length (htables m0) <= n).
Proof.
  intros m i [[U1 U2] [L1 L2]]. unfold hnew_map. split; [|intros a [= <-]; auto].
  repeat split; cbn [hcells htables]; auto; rewrite ?app_length; cbn; try lia.
  intros n w E. rewrite nth_error_app1; auto. apply nth_error_Some. rewrite (U2 _ _ E). discriminate.
Qed.
Lemma ok_write n v : List.length (hcells m0) <= n -> ok ends m0 (hwrite n v) any_result.
Proof.
  intros L m i [[U1 U2] [L1 L2]]. unfold hwrite. split; [|intros; exact Logic.I].
  repeat split; cbn [hcells htables]; auto; rewrite ?length_put; auto.
  intros k w E. rewrite nth_put; auto. assert (k < List.length (hcells m0)) by (apply nth_error_Some; congruence). lia.
Qed.
Variable implements : gty -> string -> bool.
Variable unsafe : bool.
Variable parent_of : spec -> res (option Package).
Lemma ok_set_field n k v : List.length (hcells m0) <= n -> ok ends m0 (set_field implements n k v) any_result.
Proof.
  intros L. eapply ok_bind; [apply ok_load|]. intros [] _; try apply ok_panic. destruct (nth_error _ _) as [[[] s]|]; try apply ok_panic.
  eapply ok_bind; [apply (ok_res _ any_result); intros; exact Logic.I|]. intros y _. apply ok_write; auto.
Qed.
Lemma ok_set_elem n k v : List.length (hcells m0) <= n -> ok ends m0 (set_elem implements n k v) any_result.
Proof.
  intros L. eapply ok_bind; [apply ok_load|]. intros [] _; try apply ok_panic. destruct (nth_error _ _) as [s|]; try apply ok_panic.
  eapply ok_bind; [apply (ok_res _ any_result); intros; exact Logic.I|]. intros y _. apply ok_write; auto.
Qed.
Lemma ok_set_index n tk tv k v : List.length (htables m0) <= n -> ok ends m0 (set_index implements n tk tv k v) any_result.
Proof.
  intros L. do 2 (eapply ok_bind; [apply (ok_res _ any_result); intros; exact Logic.I|]; intros ? _).
  eapply ok_bind; [apply ok_entries|]. intros es _ m i [[U1 U2] [L1 L2]]. split; [|intros; exact Logic.I].
  repeat split; cbn [hcells htables]; auto; rewrite ?length_put; auto.
  intros j w E. rewrite nth_put; auto. assert (j < List.length (htables m0)) by (apply nth_error_Some; congruence). lia.
Qed.
Lemma ok_copy {A} (set : nat -> A -> HM unit) : (forall k a, ok ends m0 (set k a) any_result) -> forall l k, ok ends m0 (copy_with set k l) any_result.
Proof. intros S. induction l as [|a l IH]; intros k; [apply ok_ret; exact Logic.I|]. eapply ok_bind; [apply S|]. intros _ _. apply IH. Qed.

Variable rec : bool -> hval -> HM outcome.
Definition fresh_cell (new : option nat) : Prop := forall n, new = Some n -> List.length (hcells m0) <= n.
Definition fresh_table (new : option nat) : Prop := forall n, new = Some n -> List.length (htables m0) <= n.
Definition fresh_at (o : outcome) : Prop := fresh_cell (snd (fst o)).
Lemma ok_fields t addr all l : (forall e x, In (e, x) l -> e = true \/ unsafe = true -> ok ends m0 (rec addr x) any_result) ->
  forall k new, fresh_cell new -> ok ends m0 (hfields_loop implements unsafe rec t addr all k l new) fresh_cell.
Proof.
  induction l as [|[e x] l IH]; intros R k new F; cbn [hfields_loop]; [apply ok_ret; auto|].
  eapply (ok_bind _ _ any_result).
  { unfold hgetField. destruct e; [eapply R; [left; reflexivity|auto]|]. destruct unsafe eqn:U; [|apply ok_ret; exact Logic.I].
    destruct addr; [eapply R; [left; reflexivity|auto]|apply ok_panic]. }
  intros [[x' a] c] _. assert (R' : forall e x, In (e, x) l -> e = true \/ unsafe = true -> ok ends m0 (rec addr x) any_result) by (intros; eapply R; [right|]; eauto).
  destruct new as [n|].
  - eapply ok_bind; [apply ok_set_field; auto|]. intros _ _. apply IH; auto.
  - destruct c; [|apply IH; auto]. eapply ok_bind; [apply ok_new|]. intros n L.
    eapply ok_bind; [apply ok_copy; intros; apply ok_set_field; auto|]. intros _ _.
    eapply ok_bind; [apply ok_set_field; auto|]. intros _ _. apply IH; auto. intros k' [= <-]. auto.
Qed.
Lemma ok_elems_loop t r addr all l : (forall x, In x l -> ok ends m0 (rec addr x) any_result) ->
  forall k new, fresh_cell new -> ok ends m0 (helems_loop implements rec t r addr all k l new) fresh_cell.
Proof.
  induction l as [|x l IH]; intros R k new F; cbn [helems_loop]; [apply ok_ret; auto|].
  eapply ok_bind; [apply R; left; auto|]. intros [[x' a] c] _. assert (R' : forall x, In x l -> ok ends m0 (rec addr x) any_result) by (intros; apply R; right; auto).
  destruct new as [n|].
  - eapply ok_bind; [apply ok_set_elem; auto|]. intros _ _. apply IH; auto.
  - destruct c; [|apply IH; auto]. eapply ok_bind; [apply ok_new|]. intros n L.
    eapply ok_bind; [apply (ok_res _ any_result); intros; exact Logic.I|]. intros _ _.
    eapply ok_bind; [apply ok_copy; intros; apply ok_set_elem; auto|]. intros _ _.
    eapply ok_bind; [apply ok_set_elem; auto|]. intros _ _. apply IH; auto. intros k' [= <-]. auto.
Qed.
Lemma ok_map_loop l : (forall k x, In (k, x) l -> ok ends m0 (rec false k) any_result /\ ok ends m0 (rec false x) any_result) ->
  forall seen new, fresh_table new -> ok ends m0 (hmap_loop implements rec l seen new) fresh_table.
Proof.
  induction l as [|[k x] l IH]; intros R seen new F; cbn [hmap_loop]; [apply ok_ret; auto|].
  destruct (R k x (or_introl eq_refl)) as [Rk Rx].
  eapply ok_bind; [exact Rk|]. intros [[k' a] ck] _. eapply ok_bind; [exact Rx|]. intros [[x' a'] cx] _.
  assert (R' : forall k x, In (k, x) l -> ok ends m0 (rec false k) any_result /\ ok ends m0 (rec false x) any_result) by (intros; apply R; right; auto).
  destruct new as [n|].
  - eapply ok_bind; [apply ok_set_index; auto|]. intros _ _. apply IH; auto.
  - destruct (ck || cx); [|apply IH; auto]. eapply ok_bind; [apply ok_new_map|]. intros n L.
    eapply ok_bind; [apply ok_copy; intros; apply ok_set_index; auto|]. intros _ _.
    eapply ok_bind; [apply ok_set_index; auto|]. intros _ _. apply IH; auto. intros k'' [= <-]. auto.
Qed.
End Ok.

Section Walk.
Variable implements : gty -> string -> bool.
Variable unsafe : bool.
Variable parent_of : spec -> res (option Package).
Notation walk := (qualifyMemory implements unsafe parent_of).
Lemma ok_weak {A} e m0 (x : HM A) (P Q : A -> Prop) : (forall a, P a -> Q a) -> ok e m0 x P -> ok e m0 x Q.
Proof. intros W H m i O. specialize (H m i O). destruct (x m i) as [[[r m'] i']|]; auto. destruct H. auto. Qed.
Lemma ok_new_reference e m0 x : ok e m0 (new_reference x) any_result.
Proof.
  unfold new_reference. destruct x as [| |? [y|]| | | | | | | | | | | | | | | |]; try (apply ok_ret; exact Logic.I).
  eapply ok_bind; [apply ok_new|]. intros n _. apply ok_ret; exact Logic.I.
Qed.
Lemma ok_new_leaf e m0 x : ok e m0 (new_leaf x) any_result.
Proof. eapply ok_bind; [apply ok_new|]. intros n _. apply ok_ret; exact Logic.I. Qed.

(** ** What was there is never written to *)
Lemma walk_keeps fuel : forall addr v m0, ok false m0 (walk fuel addr v) any_result.
Proof.
  induction fuel as [|fuel IH]; intros addr v m0; [intros m i O; reflexivity|]. cbn [qualifyMemory].
  assert (SAME : ok false m0 (hret (v, None, false)) (@any_result outcome)) by (apply ok_ret; exact Logic.I).
  destruct v as [t [d|]|t fs|e [p|]|t p off len|t l|t [n|]|l|t]; auto; try (apply ok_panic).
  - destruct d; auto. destruct (replacement _ _ _ _) as [x|]; auto. eapply ok_bind; [apply ok_imports|]. intros [y c] _. destruct c; auto using ok_new_reference.
  - eapply ok_bind; [apply ok_fields; [intros; apply IH|intros ? [=]]|]. intros [n|] F; auto.
    eapply ok_bind; [apply ok_load|]. intros x _. apply ok_ret; exact Logic.I.
  - eapply ok_bind; [apply ok_load|]. intros x _. eapply ok_bind; [apply IH|]. intros [[x' a] c] _. destruct c; auto.
    destruct a; [apply ok_ret; exact Logic.I|]. eapply ok_bind; [apply ok_new|]. intros n _. apply ok_ret; exact Logic.I.
  - eapply ok_bind; [apply ok_elems|]. intros l _. eapply ok_bind; [apply ok_elems_loop; [intros; apply IH|intros ? [=]]|].
    intros [n|] _; auto. apply ok_ret; exact Logic.I.
  - eapply ok_bind; [apply ok_elems_loop; [intros; apply IH|intros ? [=]]|]. intros [n|] F; auto.
    eapply ok_bind; [apply ok_load|]. intros x _. apply ok_ret; exact Logic.I.
  - eapply ok_bind; [apply ok_entries|]. intros es _. eapply ok_bind; [apply ok_map_loop; [intros; split; apply IH|intros ? [=]]|].
    intros [k|] _; auto. apply ok_ret; exact Logic.I.
  - destruct (leaf l); [|apply ok_panic]. eapply ok_bind; [apply ok_imports|]. intros [y c] _. destruct c; auto using ok_new_leaf.
Qed.
Lemma never_written fuel d m i r m' i' : QualifyMemory implements unsafe parent_of fuel d m i = Some (r, m', i') -> untouched m m'.
Proof.
  destruct d as [d|]; cbn [QualifyMemory]; [|intros [= _ <- _]; apply old_refl].
  assert (K : ok false m (dm '(v, _, _) <- walk fuel true (HIface "interface {}" (Some d)) ;; hret (hinterface_of v)) any_result).
  { eapply ok_bind; [apply walk_keeps|]. intros [[v a] c] _. apply ok_ret; exact Logic.I. }
  intros E. specialize (K m i (old_refl m)). rewrite E in K. apply K.
Qed.

(** ** Finite trees are walked to the end *)
Notation stands_for := (stands_for unsafe).
Scheme stands_mut := Minimality for SpecTemplateMemory.stands_for Sort Prop
  with stands_all_mut := Minimality for SpecTemplateMemory.stand_for_all Sort Prop
  with stands_fields_mut := Minimality for SpecTemplateMemory.stand_for_fields Sort Prop
  with stands_entries_mut := Minimality for SpecTemplateMemory.stand_for_entries Sort Prop.

(** the memory as far as it is read *)
Lemma stands_old m0 m : old m0 m -> forall v t, stands_for m0 v t -> stands_for m v t.
Proof.
  intros O. apply (stands_mut unsafe m0 (stands_for m) (stand_for_all unsafe m) (stand_for_fields unsafe m) (stand_for_entries unsafe m));
    intros; try (econstructor; eauto; fail).
  - eapply sf_ptr; eauto. eapply old_load; eauto.
  - eapply sf_slice; eauto. eapply old_elems; eauto.
  - eapply sf_map; eauto. eapply old_table; eauto.
Qed.
Definition ends_at (m0 : hmem) (N : nat) (v : hval) : Prop := forall fuel addr, N <= fuel -> ok true m0 (walk fuel addr v) any_result.
Lemma ends_more m0 N N' v : N <= N' -> ends_at m0 N v -> ends_at m0 N' v.
Proof. intros L E fuel addr H. apply E. lia. Qed.
Lemma walk_ends m0 v t : stands_for m0 v t -> exists N, ends_at m0 N v.
Proof.
  revert v t. apply (stands_mut unsafe m0 (fun v _ => exists N, ends_at m0 N v)
    (fun l _ => exists N, forall x, In x l -> ends_at m0 N x)
    (fun l _ => exists N, forall e x, In (e, x) l -> e = true \/ unsafe = true -> ends_at m0 N x)
    (fun l _ => exists N, forall k x, In (k, x) l -> ends_at m0 N k /\ ends_at m0 N x)).
  - intros v L. exists 1. intros [|fuel] addr H; [lia|]. cbn [qualifyMemory]. rewrite L.
    eapply ok_bind; [apply ok_imports|]. intros [y c] _. destruct c; [apply ok_new_leaf|apply ok_ret; exact Logic.I].
  - intros t. exists 1. intros [|fuel] addr H; [lia|]. apply ok_ret; exact Logic.I.
  - intros t d d' _ [N IH]. exists (S N). intros [|fuel] addr H; [lia|]. cbn [qualifyMemory].
    assert (R : ok true m0 (walk fuel false d) any_result) by (apply IH; lia). destruct d; auto.
    destruct (replacement _ _ _ _) as [x|]; auto. eapply ok_bind; [apply ok_imports|]. intros [y c] _.
    destruct c; [apply ok_new_reference|apply ok_ret; exact Logic.I].
  - intros t fs fs' _ [N IH]. exists (S N). intros [|fuel] addr H; [lia|]. cbn [qualifyMemory].
    eapply ok_bind; [apply ok_fields; [intros; apply (IH e x); auto; lia|intros ? [=]]|]. intros [n|] F; [|apply ok_ret; exact Logic.I].
    eapply ok_bind; [apply ok_load|]. intros x _. apply ok_ret; exact Logic.I.
  - intros e. exists 1. intros [|fuel] addr H; [lia|]. apply ok_ret; exact Logic.I.
  - intros e p x x' L _ [N IH]. exists (S N). intros [|fuel] addr H; [lia|]. cbn [qualifyMemory].
    eapply ok_known; [intros m i O; unfold hload; rewrite (old_load _ _ _ _ O L); reflexivity|]. cbv beta.
    eapply ok_bind; [apply IH; lia|]. intros [[y a] c] _. destruct c; [|apply ok_ret; exact Logic.I].
    destruct a; [apply ok_ret; exact Logic.I|]. eapply ok_bind; [apply ok_new|]. intros n _. apply ok_ret; exact Logic.I.
  - intros t p off len l l' L _ [N IH]. exists (S N). intros [|fuel] addr H; [lia|]. cbn [qualifyMemory].
    eapply ok_known; [intros m i O; unfold helems; rewrite (old_elems _ _ _ _ _ _ O L); reflexivity|]. cbv beta.
    eapply ok_bind; [apply ok_elems_loop; [intros; apply (IH x); auto; lia|intros ? [=]]|]. intros [n|] F; apply ok_ret; exact Logic.I.
  - intros t l l' _ [N IH]. exists (S N). intros [|fuel] addr H; [lia|]. cbn [qualifyMemory].
    eapply ok_bind; [apply ok_elems_loop; [intros; apply (IH x); auto; lia|intros ? [=]]|]. intros [n|] F; [|apply ok_ret; exact Logic.I].
    eapply ok_bind; [apply ok_load|]. intros x _. apply ok_ret; exact Logic.I.
  - intros t. exists 1. intros [|fuel] addr H; [lia|]. apply ok_ret; exact Logic.I.
  - intros t n es es' L _ [N IH]. exists (S N). intros [|fuel] addr H; [lia|]. cbn [qualifyMemory].
    eapply ok_known; [intros m i O; unfold hentries; rewrite (old_table _ _ _ _ O L); reflexivity|]. cbv beta.
    eapply ok_bind; [apply ok_map_loop; [intros k x IN; destruct (IH k x IN); split; auto; apply H0 + apply H1; lia|intros ? [=]]|].
    intros [k|] F; apply ok_ret; exact Logic.I.
  - exists 0. intros x [].
  - intros x x' l l' _ [N1 H1] _ [N2 H2]. exists (Nat.max N1 N2). intros y [<-|IN]; [eapply ends_more; [|exact H1]; lia|eapply ends_more; [|eapply H2; eauto]; lia].
  - exists 0. intros e x [].
  - intros e x x' l l' _ _ [N1 H1] _ [N2 H2]. exists (Nat.max N1 N2).
    intros e' y [[= <- <-]|IN] V; [eapply ends_more; [|exact H1]; lia|eapply ends_more; [|eapply H2; eauto]; lia].
  - intros x x' l l' U _ _ [N2 H2]. exists N2. intros e' y [[= <- <-]|IN] V; [destruct V; congruence|eapply H2; eauto].
  - exists 0. intros k x [].
  - intros k k' x x' l l' _ [N0 H0] _ [N1 H1] _ [N2 H2]. exists (Nat.max N0 (Nat.max N1 N2)).
    intros j y [[= <- <-]|IN].
    + split; [eapply ends_more; [|exact H0]; lia|eapply ends_more; [|exact H1]; lia].
    + destruct (H2 _ _ IN) as [A B]. split; [eapply ends_more; [|exact A]; lia|eapply ends_more; [|exact B]; lia].
Qed.
Lemma finite_ends d t m : stands_for m d t -> exists N, forall fuel i, N <= fuel -> QualifyMemory implements unsafe parent_of fuel (Some d) m i <> None.
Proof.
  intros S. destruct (walk_ends m _ _ (sf_iface unsafe m "interface {}" _ _ S)) as [N E]. exists N. intros fuel i L. cbn [QualifyMemory].
  assert (K : ok true m (dm '(v, _, _) <- walk fuel true (HIface "interface {}" (Some d)) ;; hret (hinterface_of v)) any_result).
  { eapply ok_bind; [apply E; auto|]. intros [[v a] c] _. apply ok_ret; exact Logic.I. }
  specialize (K m i (old_refl m)). intros Z. rewrite Z in K. discriminate.
Qed.

(** ** Only finite trees are walked to the end *)
Section Back.
Variable m0 : hmem.
Hypothesis SAFE : memory_safe m0.
Lemma inside_safe path : forall v x, refers_well m0 v -> inside v path = Some x -> refers_well m0 x.
Proof.
  induction path as [|k path IH]; intros v x R E; [injection E as <-; auto|]. destruct v; try discriminate; cbn [inside refers_well] in *.
  - destruct (nth_error fields k) as [f|] eqn:N; [|discriminate]. apply all_Forall in R. rewrite Forall_forall in R.
    eapply IH; [|exact E]. apply R. eapply nth_error_In; eauto.
  - destruct (nth_error elems k) as [f|] eqn:N; [|discriminate]. apply all_Forall in R. rewrite Forall_forall in R.
    eapply IH; [|exact E]. apply R. eapply nth_error_In; eauto.
Qed.
Lemma load_safe p x : load m0 p = Some x -> refers_well m0 x.
Proof.
  unfold load. destruct (nth_error (hcells m0) (fst p)) as [v|] eqn:E; [|discriminate]. apply inside_safe.
  destruct SAFE as [F _]. rewrite Forall_forall in F. apply F. eapply nth_error_In; eauto.
Qed.
Lemma elems_safe p off len l : slice_elems m0 p off len = Some l -> forall x, In x l -> refers_well m0 x.
Proof.
  unfold slice_elems. destruct (Nat.eqb len 0); [intros [= <-] x []|]. destruct (load m0 p) as [[]|] eqn:E; try discriminate.
  destruct (Nat.leb _ _); [|discriminate]. intros [= <-] x IN. apply load_safe in E. cbn [refers_well] in E. apply all_Forall in E.
  rewrite Forall_forall in E. apply E. eapply in_skipn, in_firstn, IN.
Qed.
Lemma table_safe n es : nth_error (htables m0) n = Some es -> forall k x, In (k, x) es -> refers_well m0 k /\ refers_well m0 x.
Proof.
  intros E k x IN. destruct SAFE as [_ F]. rewrite Forall_forall in F. specialize (F _ (nth_error_In _ _ E)). rewrite Forall_forall in F.
  apply (F (k, x) IN).
Qed.
(** [x] returns only if [P]. *)
Definition through {A} (x : HM A) (P : Prop) : Prop := forall m i a m' i', old m0 m -> x m i = Some (Ok a, m', i') -> P.
Lemma through_first {A B} (x : HM A) (k : A -> HM B) P : through x P -> through (hbind x k) P.
Proof.
  intros T m i b m' i' O E. unfold hbind in E. destruct (x m i) as [[[[a|e] m1] i1]|] eqn:X; try discriminate. eapply T; eauto.
Qed.
Lemma through_then {A B} (x : HM A) (k : A -> HM B) Q P : ok false m0 x Q -> (forall a, Q a -> through (k a) P) -> through (hbind x k) P.
Proof.
  intros K T m i b m' i' O E. unfold hbind in E. specialize (K m i O). destruct (x m i) as [[[[a|e] m1] i1]|]; try discriminate.
  destruct K as [O1 K]. exact (T a (K a eq_refl) _ _ _ _ _ O1 E).
Qed.
Lemma through_and {A} (x : HM A) (P Q : Prop) : through x P -> through x Q -> through x (P /\ Q).
Proof. intros T1 T2 m i a m' i' O E. split; eauto. Qed.
Lemma through_weak {A} (x : HM A) (P Q : Prop) : (P -> Q) -> through x P -> through x Q.
Proof. intros W T m i a m' i' O E. eauto. Qed.
Variable rec : bool -> hval -> HM outcome.
Hypothesis REC : forall addr x, ok false m0 (rec addr x) any_result.
Notation set_f := (ok_set_field false m0 implements).
Lemma through_fields t addr all (P : hval -> Prop) l :
  (forall e x, In (e, x) l -> e = true \/ unsafe = true -> through (rec addr x) (P x)) ->
  forall k new, fresh_cell m0 new -> through (hfields_loop implements unsafe rec t addr all k l new) (forall e x, In (e, x) l -> e = true \/ unsafe = true -> P x).
Proof.
  induction l as [|[e x] l IH]; intros R k new F; cbn [hfields_loop]; [intros m i a m' i' O E e x []|].
  assert (R' : forall e x, In (e, x) l -> e = true \/ unsafe = true -> through (rec addr x) (P x)) by (intros; eapply R; [right|]; eauto).
  eapply (through_weak _ ((e = true \/ unsafe = true -> P x) /\ _)); [|apply through_and]; cycle 1.
  - apply through_first. unfold hgetField. destruct e.
    + eapply through_weak; [|apply (R true x); [left; auto|auto]]. auto.
    + destruct unsafe eqn:U; [|intros m i a m' i' O E [|]; discriminate]. destruct addr; [|intros m i a m' i' O E; discriminate].
      eapply through_weak; [|apply (R false x); [left; auto|auto]]. auto.
  - eapply (through_then _ _ any_result); [unfold hgetField; destruct e; auto; destruct unsafe; [destruct addr; auto; apply ok_panic|apply ok_ret; exact Logic.I]|].
    intros [[x' a] c] _. destruct new as [n|].
    + eapply through_then; [apply ok_set_field; auto|]. intros _ _. apply IH; auto.
    + destruct c; [|apply IH; auto]. eapply through_then; [apply ok_new|]. intros n L.
      eapply through_then; [apply ok_copy; intros; apply ok_set_field; auto|]. intros _ _.
      eapply through_then; [apply ok_set_field; auto|]. intros _ _. apply IH; auto. intros ? [= <-]. auto.
  - intros [A B] e' y [[= <- <-]|IN]; eauto.
Qed.
Lemma through_elems t r addr all (P : hval -> Prop) l : (forall x, In x l -> through (rec addr x) (P x)) ->
  forall k new, fresh_cell m0 new -> through (helems_loop implements rec t r addr all k l new) (forall x, In x l -> P x).
Proof.
  induction l as [|x l IH]; intros R k new F; cbn [helems_loop]; [intros m i a m' i' O E x []|].
  assert (R' : forall x, In x l -> through (rec addr x) (P x)) by (intros; apply R; right; auto).
  eapply (through_weak _ (P x /\ _)); [|apply through_and]; cycle 1.
  - apply through_first. apply R. left; auto.
  - eapply (through_then _ _ any_result); auto. intros [[x' a] c] _. destruct new as [n|].
    + eapply through_then; [apply ok_set_elem; auto|]. intros _ _. apply IH; auto.
    + destruct c; [|apply IH; auto]. eapply through_then; [apply ok_new|]. intros n L.
      eapply (through_then _ _ any_result); [apply ok_res; intros; exact Logic.I|]. intros _ _.
      eapply through_then; [apply ok_copy; intros; apply ok_set_elem; auto|]. intros _ _.
      eapply through_then; [apply ok_set_elem; auto|]. intros _ _. apply IH; auto. intros ? [= <-]. auto.
  - intros [A B] y [<-|IN]; eauto.
Qed.
Lemma through_map (P : hval -> Prop) l : (forall k x, In (k, x) l -> through (rec false k) (P k) /\ through (rec false x) (P x)) ->
  forall seen new, fresh_table m0 new -> through (hmap_loop implements rec l seen new) (forall k x, In (k, x) l -> P k /\ P x).
Proof.
  induction l as [|[k x] l IH]; intros R seen new F; cbn [hmap_loop]; [intros m i a m' i' O E k x []|].
  assert (R' : forall k x, In (k, x) l -> through (rec false k) (P k) /\ through (rec false x) (P x)) by (intros; apply R; right; auto).
  destruct (R k x (or_introl eq_refl)) as [Rk Rx].
  eapply (through_weak _ ((P k /\ P x) /\ _)); [|apply through_and]; cycle 1.
  - apply through_and; [apply through_first; auto|]. eapply (through_then _ _ any_result); auto. intros [[k' a] ck] _. apply through_first; auto.
  - eapply (through_then _ _ any_result); auto. intros [[k' a] ck] _. eapply (through_then _ _ any_result); auto. intros [[x' a'] cx] _.
    destruct new as [n|].
    + eapply through_then; [apply ok_set_index; auto|]. intros _ _. apply IH; auto.
    + destruct (ck || cx); [|apply IH; auto]. eapply through_then; [apply ok_new_map|]. intros n L.
      eapply through_then; [apply ok_copy; intros; apply ok_set_index; auto|]. intros _ _.
      eapply through_then; [apply ok_set_index; auto|]. intros _ _. apply IH; auto. intros ? [= <-]. auto.
  - intros [A B] k' y [[= <- <-]|IN]; eauto.
Qed.
End Back.

Definition finite (m : hmem) (v : hval) : Prop := exists t, stands_for m v t.
(** a value of the type, for fields that are not read *)
Definition some_value (t : gty) : val := match t with GName s => VOther s 0 | GPtr e => VPtr e None | GIface s => VIface s None end.
Lemma some_value_type t : typeof (some_value t) = t.
Proof. destruct t; auto. Qed.
Lemma finite_all m l : (forall x, In x l -> finite m x) -> exists l', stand_for_all unsafe m l l'.
Proof.
  induction l as [|x l IH]; intros F; [eexists; constructor|]. destruct (F x (or_introl eq_refl)) as [t T].
  destruct IH as [l' L]; [intros; apply F; right; auto|]. eexists; constructor; eauto.
Qed.
Lemma finite_fields m l : (forall e x, In (e, x) l -> e = true \/ unsafe = true -> finite m x) -> exists l', stand_for_fields unsafe m l l'.
Proof.
  induction l as [|[e x] l IH]; intros F; [eexists; constructor|].
  destruct IH as [l' L]; [intros; eapply F; [right|]; eauto|].
  destruct (e || unsafe) eqn:V.
  - apply orb_true_iff in V. destruct (F e x (or_introl eq_refl) V) as [t T]. eexists; constructor; eauto.
  - apply orb_false_iff in V as [-> V]. eexists; apply sff_skip; eauto. apply some_value_type.
Qed.
Lemma finite_entries m l : (forall k x, In (k, x) l -> finite m k /\ finite m x) -> exists l', stand_for_entries unsafe m l l'.
Proof.
  induction l as [|[k x] l IH]; intros F; [eexists; constructor|]. destruct (F k x (or_introl eq_refl)) as [[k' K] [t T]].
  destruct IH as [l' L]; [intros; apply F; right; auto|]. eexists; constructor; eauto.
Qed.
Lemma walk_finite fuel : forall addr v m0, memory_safe m0 -> refers_well m0 v -> through m0 (walk fuel addr v) (finite m0 v).
Proof.
  induction fuel as [|fuel IH]; intros addr v m0 SAFE W; [intros m i a m' i' O E; discriminate|]. cbn [qualifyMemory].
  assert (K : forall addr x, ok false m0 (walk fuel addr x) any_result) by (intros; apply walk_keeps).
  destruct v as [t [d|]|t fs|e [p|]|t p off len|t l|t [n|]|l|t]; cbn [refers_well] in W.
  - assert (D : through m0 (walk fuel false d) (finite m0 (HIface t (Some d)))).
    { eapply through_weak; [|apply IH; auto]. intros [x X]. eexists; constructor; eauto. }
    destruct d; auto. intros m i a m' i' O E. exists (VIface t (Some v)). repeat constructor. auto.
  - intros m i a m' i' O E. eexists; constructor.
  - apply all_Forall in W. rewrite Forall_forall in W. apply through_first.
    eapply through_weak; [|apply (through_fields m0 (walk fuel) K t addr fs (finite m0) fs); [|intros ? [=]]].
    + intros F. destruct (finite_fields m0 fs F) as [fs' X]. eexists; constructor; eauto.
    + intros e x IN _. apply IH; auto. apply (W (e, x) IN).
  - destruct W as [x L]. intros m i a m' i' O E. unfold hbind at 1, hload in E. rewrite (old_load _ _ _ _ O L) in E. cbn [opt_res] in E.
    revert m i a m' i' O E. apply (through_first m0 (walk fuel true x)).
    eapply through_weak; [|apply IH; auto; eapply load_safe; eauto]. intros [x' X]. eexists; econstructor; eauto.
  - intros m i a m' i' O E. eexists; constructor.
  - destruct W as [l L]. intros m i a m' i' O E. unfold hbind at 1, helems in E. rewrite (old_elems _ _ _ _ _ _ O L) in E. cbn [opt_res] in E.
    revert m i a m' i' O E. apply through_first.
    eapply through_weak; [|apply (through_elems m0 (walk fuel) K "" (Ok tt) true l (finite m0) l); [|intros ? [=]]].
    + intros F. destruct (finite_all m0 l F) as [l' X]. eexists; econstructor; eauto.
    + intros x IN. apply IH; auto. eapply elems_safe; eauto.
  - apply all_Forall in W. rewrite Forall_forall in W. apply through_first.
    eapply through_weak; [|apply (through_elems m0 (walk fuel) K t _ addr l (finite m0) l); [|intros ? [=]]].
    + intros F. destruct (finite_all m0 l F) as [l' X]. eexists; econstructor; eauto.
    + intros x IN. apply IH; auto.
  - destruct W as [es L]. intros m i a m' i' O E. unfold hbind at 1, hentries in E. rewrite (old_table _ _ _ _ O L) in E. cbn [opt_res] in E.
    revert m i a m' i' O E. apply through_first.
    eapply through_weak; [|apply (through_map m0 (walk fuel) K (finite m0) es); [|intros ? [=]]].
    + intros F. destruct (finite_entries m0 es F) as [l' X]. eexists; econstructor; eauto.
    + intros k x IN. destruct (table_safe m0 SAFE _ _ L k x IN). split; apply IH; auto.
  - intros m i a m' i' O E. eexists; constructor.
  - intros m i a m' i' O E. eexists; constructor; auto.
  - contradiction.
Qed.
Lemma returns_finite fuel d m i r m' i' : memory_safe m -> refers_well m d ->
  QualifyMemory implements unsafe parent_of fuel (Some d) m i = Some (Ok r, m', i') -> exists t, stands_for m d t.
Proof.
  intros S W E. cbn [QualifyMemory] in E.
  assert (F : finite m (HIface "interface {}" (Some d))).
  { revert E. apply (through_first m (walk fuel true (HIface "interface {}" (Some d))) _ _ (walk_finite fuel true (HIface "interface {}" (Some d)) m S W)). apply old_refl. }
  destruct F as [t F]. inversion F; subst. eauto.
Qed.
End Walk.
