(** Facts about the base definitions: association lists, decimal text, byte strings. *)
From Coq Require Import DecimalString DecimalN DecimalFacts Permutation Sorted.
From Verif Require Import Base.

(** ** Association lists *)
Section Assoc.
Context {V : Type}.
Implicit Types m : list (string * V).

Definition keys (m : list (string * V)) : list string := map fst m.

Lemma lookup_In k v m : lookup k m = Some v -> In (k, v) m.
Proof.
  induction m as [|[k' v'] r IH]; simpl; [discriminate|].
  destruct (String.eqb_spec k k') as [->|]; [intros [= ->]; auto | auto].
Qed.
Lemma lookup_None k m : lookup k m = None <-> ~ In k (keys m).
Proof.
  induction m as [|[k' v'] r IH]; simpl; [tauto|].
  destruct (String.eqb_spec k k') as [->|N]; [|rewrite IH].
  - split; [discriminate | intros H; exfalso; auto].
  - split; [intros H [E|I]; [congruence|auto] | auto].
Qed.
Lemma lookup_Some_key k v m : lookup k m = Some v -> In k (keys m).
Proof. intros H. apply lookup_In in H. apply in_map_iff. exists (k, v); auto. Qed.
Lemma In_lookup k v m : NoDup (keys m) -> In (k, v) m -> lookup k m = Some v.
Proof.
  induction m as [|[k' v'] r IH]; simpl; [tauto|].
  intros ND [E|I]; inversion ND; subst.
  - injection E as -> ->. rewrite String.eqb_refl; auto.
  - destruct (String.eqb_spec k k') as [->|]; auto.
    exfalso; apply H1. apply in_map_iff. exists (k', v); auto.
Qed.
Lemma lookup_iff k v m : NoDup (keys m) -> (lookup k m = Some v <-> In (k, v) m).
Proof. split; [apply lookup_In | apply In_lookup; auto]. Qed.

Lemma lookup_remove_same k m : lookup k (remove k m) = None.
Proof.
  induction m as [|[k' v'] r IH]; simpl; auto.
  destruct (String.eqb k k') eqn:E; simpl; auto. rewrite E; auto.
Qed.
Lemma lookup_remove_other k k' m : k <> k' -> lookup k (remove k' m) = lookup k m.
Proof.
  intros N. induction m as [|[j v] r IH]; simpl; auto.
  destruct (String.eqb_spec k' j) as [->|]; simpl.
  - rewrite IH. destruct (String.eqb_spec k j); congruence.
  - destruct (String.eqb k j); auto.
Qed.
Lemma lookup_insert_same k v m : lookup k (insert k v m) = Some v.
Proof. unfold insert; simpl. rewrite String.eqb_refl; auto. Qed.
Lemma lookup_insert_other k k' v m : k <> k' -> lookup k (insert k' v m) = lookup k m.
Proof.
  intros N. unfold insert; simpl. destruct (String.eqb_spec k k'); [congruence|].
  apply lookup_remove_other; auto.
Qed.
Lemma keys_remove_In j k m : In j (keys (remove k m)) <-> j <> k /\ In j (keys m).
Proof.
  induction m as [|[k' v'] r IH]; simpl; [tauto|].
  destruct (String.eqb_spec k k') as [->|N]; simpl; rewrite IH.
  - intuition congruence.
  - intuition congruence.
Qed.
Lemma keys_remove_NoDup k m : NoDup (keys m) -> NoDup (keys (remove k m)).
Proof.
  induction m as [|[k' v'] r IH]; simpl; auto. intros ND; inversion ND; subst.
  destruct (String.eqb k k'); auto. simpl. constructor; auto.
  rewrite keys_remove_In. tauto.
Qed.
Lemma keys_insert_NoDup k v m : NoDup (keys m) -> NoDup (keys (insert k v m)).
Proof.
  intros ND. unfold insert; simpl. constructor.
  - rewrite keys_remove_In; tauto.
  - apply keys_remove_NoDup; auto.
Qed.
Lemma remove_absent k m : ~ In k (keys m) -> remove k m = m.
Proof.
  induction m as [|[k' v'] r IH]; simpl; auto. intros H.
  destruct (String.eqb_spec k k') as [->|N]; [tauto|]. rewrite IH; auto.
Qed.
Lemma insert_absent k v m : lookup k m = None -> insert k v m = (k, v) :: m.
Proof. intros H. unfold insert. rewrite remove_absent; auto. apply lookup_None; auto. Qed.
End Assoc.

(** ** Decimal text *)
Lemma dec_inj a b : dec a = dec b -> a = b.
Proof.
  unfold dec. intros H.
  assert (U : forall n, NilZero.uint_of_string (NilZero.string_of_uint (N.to_uint n)) = Some (N.to_uint n)).
  { intros n. apply NilZero.usu. intros E.
    pose proof (DecimalN.Unsigned.of_to n) as O. 
    destruct n; [discriminate E|].
    rewrite E in O. discriminate O. }
  pose proof (U a) as Ha. rewrite H, U in Ha. injection Ha as Ha.
  rewrite <- (DecimalN.Unsigned.of_to a), <- (DecimalN.Unsigned.of_to b), Ha. reflexivity.
Qed.
Lemma dec_nonempty n : dec n <> "".
Proof.
  unfold dec. intros H.
  destruct (N.to_uint n) eqn:E; simpl in H; try discriminate.
Qed.

(** ** Byte strings *)
Lemma append_assoc a b c : ((a ++ b) ++ c = a ++ (b ++ c))%string.
Proof. induction a; simpl; congruence. Qed.
Lemma append_nil_r a : (a ++ "" = a)%string.
Proof. induction a; simpl; congruence. Qed.
Lemma append_inj_l a b c : (a ++ b = a ++ c)%string -> b = c.
Proof. induction a; simpl; auto. intros [=]; auto. Qed.
Lemma append_self a b : (a = a ++ b)%string -> b = "".
Proof. induction a as [|x a IH]; simpl; auto. intros [= H]; auto. Qed.
Lemma length_append a b : String.length (a ++ b) = String.length a + String.length b.
Proof. induction a; simpl; auto. Qed.
Lemma append_inj_r a b c : (a ++ c = b ++ c)%string -> a = b.
Proof.
  revert b. induction a as [|x a IH]; destruct b as [|y b]; simpl; intros H; auto.
  - exfalso. assert (E := f_equal String.length H). simpl in E. rewrite length_append in E. lia.
  - exfalso. assert (E := f_equal String.length H). simpl in E. rewrite length_append in E. lia.
  - injection H as -> H. f_equal; auto.
Qed.
Lemma last_byte_append s c : last_byte (s ++ String c "") = Some c.
Proof. induction s as [|x s IH]; simpl; auto. destruct (s ++ String c "")%string eqn:E; auto.
  destruct s; discriminate. Qed.
Lemma drop_last_append s c : drop_last (s ++ String c "") = s.
Proof.
  induction s as [|x s IH]; simpl; auto. destruct (s ++ String c "")%string eqn:E.
  - destruct s; discriminate.
  - rewrite <- E in *. rewrite IH; auto.
Qed.

(** ** The lexicographic order on byte strings (Go's < on strings) *)
Lemma ltb_irrefl s : String.ltb s s = false.
Proof.
  unfold String.ltb. assert (R : String.compare s s = Eq); [|rewrite R; auto].
  induction s as [|c s IH]; simpl; auto.
  change (Ascii.compare c c) with (N.compare (N_of_ascii c) (N_of_ascii c)).
  rewrite N.compare_refl; auto.
Qed.
Lemma compare_lt_trans a : forall b c,
  String.compare a b = Lt -> String.compare b c = Lt -> String.compare a c = Lt.
Proof.
  induction a as [|x a IH]; destruct b as [|y b], c as [|z c]; simpl; try congruence.
  intros H1 H2.
  assert (CC : forall p q, Ascii.compare p q = N.compare (N_of_ascii p) (N_of_ascii q)) by reflexivity.
  rewrite !CC in *.
  destruct (N.compare_spec (N_of_ascii x) (N_of_ascii y)) as [E|L|G]; try discriminate;
  destruct (N.compare_spec (N_of_ascii y) (N_of_ascii z)) as [E'|L'|G']; try discriminate.
  - rewrite E, E', N.compare_refl. eauto.
  - rewrite E. apply N.compare_lt_iff in L'. rewrite L'. auto.
  - rewrite <- E'. apply N.compare_lt_iff in L. rewrite L. auto.
  - assert (HH : (N_of_ascii x < N_of_ascii z)%N) by (eapply N.lt_trans; eauto).
    apply N.compare_lt_iff in HH. rewrite HH. auto.
Qed.
Lemma ltb_trans a b c : String.ltb a b = true -> String.ltb b c = true -> String.ltb a c = true.
Proof.
  unfold String.ltb. intros H1 H2.
  destruct (String.compare a b) eqn:E1; try discriminate.
  destruct (String.compare b c) eqn:E2; try discriminate.
  rewrite (compare_lt_trans a b c); auto.
Qed.
Lemma ltb_total a b : String.ltb a b = false -> a = b \/ String.ltb b a = true.
Proof.
  unfold String.ltb. rewrite (String.compare_antisym a b).
  destruct (String.compare b a) eqn:E; simpl; try discriminate; auto.
  apply String.compare_eq_iff in E. auto.
Qed.
Definition str_lt (a b : string) : Prop := String.ltb a b = true.
