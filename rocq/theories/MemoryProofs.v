(** Proofs about types in memory. *)
From Verif Require Import Base GoPath Types SpecTypes SpecRender Imports Memory SpecMemory.

(** ** Lists *)
Lemma replace_length {A} i (v : A) l : List.length (replace i v l) = List.length l.
Proof. revert i. induction l; intros [|i]; cbn; auto. Qed.
Lemma replace_nth {A} i (v : A) l : i < List.length l -> nth_error (replace i v l) i = Some v.
Proof. revert i. induction l; intros [|i] L; cbn in *; try lia; auto. apply IHl. lia. Qed.
Lemma replace_other {A} i j (v : A) l : j <> i -> nth_error (replace i v l) j = nth_error l j.
Proof. revert i j. induction l; intros [|i] [|j] N; cbn; auto; try lia. Qed.
Lemma replace_at {A} pre (x y : A) r : replace (List.length pre) y (pre ++ x :: r) = pre ++ y :: r.
Proof. induction pre; cbn; auto. now rewrite IHpre. Qed.
Lemma nth_error_nth' {A} (l : list A) i x d : nth_error l i = Some x -> nth i l d = x.
Proof. revert i. induction l; intros [|i] H; cbn in *; try discriminate; auto. congruence. Qed.
Lemma nth_new {A} (l : list A) x : nth_error (l ++ [x]) (List.length l) = Some x.
Proof. induction l; cbn; auto. Qed.
Lemma nth_old {A} (l k : list A) i x : nth_error l i = Some x -> nth_error (l ++ k) i = Some x.
Proof. intros H. rewrite nth_error_app1; auto. apply nth_error_Some. congruence. Qed.
Lemma nth_none {A} (l : list A) : nth_error l (List.length l) = None.
Proof. induction l; cbn; auto. Qed.

(** ** Frames *)
(** [m'] under the mask [F'] shows all that [m] shows under [F]. *)
Definition frame (F F' : nat -> bool) (m m' : mem) : Prop :=
  (forall p o, nth_error (objs m) p = Some o -> nth_error (objs m') p = Some o) /\
  (forall a l, F a = false -> nth_error (arrays m) a = Some l -> F' a = false /\ nth_error (arrays m') a = Some l).
Lemma all_view_impl {B} (f g : cell -> option B) : (forall c b, f c = Some b -> g c = Some b) ->
  forall l L, all_view f l = Some L -> all_view g l = Some L.
Proof.
  intros I. induction l as [|c r IH]; cbn; intros L H; auto.
  unfold obind in *. destruct (f c) eqn:E; [|discriminate]. rewrite (I _ _ E). destruct (all_view f r); [|discriminate].
  now rewrite (IH _ eq_refl).
Qed.
Lemma open_frame F F' m m' : frame F F' m m' -> forall s l, open_cells F m s = Some l -> open_cells F' m' s = Some l.
Proof.
  intros (_ & A) [|a n] l H; cbn in *; auto. destruct (F a) eqn:E; [discriminate|].
  destruct (nth_error (arrays m) a) eqn:N; [|discriminate]. destruct (A a _ E N) as (-> & ->). exact H.
Qed.
Section FrameLevel.
Variables (F F' : nat -> bool) (m m' : mem) (V V' : mty -> option TypeName).
Hypothesis FR : frame F F' m m'.
Hypothesis IV : forall t T, V t = Some T -> V' t = Some T.
Lemma arg_frame c b : arg_view V c = Some b -> arg_view V' c = Some b.
Proof. destruct c; cbn; try discriminate. destruct (V t) eqn:E; [|discriminate]. now rewrite (IV _ _ E). Qed.
Lemma field_frame c b : field_view V c = Some b -> field_view V' c = Some b.
Proof. destruct c; cbn; try discriminate. destruct (V t) eqn:E; [|discriminate]. now rewrite (IV _ _ E). Qed.
Lemma slice_frame {B} (f g : cell -> option B) s l : (forall c b, f c = Some b -> g c = Some b) ->
  obind (open_cells F m s) (all_view f) = Some l -> obind (open_cells F' m' s) (all_view g) = Some l.
Proof.
  intros I H. unfold obind in *. destruct (open_cells F m s) eqn:E; [|discriminate].
  rewrite (open_frame _ _ _ _ FR _ _ E). now apply (all_view_impl f).
Qed.
Lemma sig_frame s S : sig_view F V m s = Some S -> sig_view F' V' m' s = Some S.
Proof.
  unfold sig_view. intros H.
  destruct (obind (open_cells F m (ms_args s)) (all_view (arg_view V))) eqn:EA; [|discriminate H].
  rewrite (slice_frame _ (arg_view V') _ _ arg_frame EA). cbn [obind] in *.
  destruct (obind (open_cells F m (ms_results s)) (all_view (arg_view V))) eqn:ER; [|discriminate H].
  rewrite (slice_frame _ (arg_view V') _ _ arg_frame ER). exact H.
Qed.
Lemma method_frame c b : method_view F V m c = Some b -> method_view F' V' m' c = Some b.
Proof. destruct c; cbn; try discriminate. destruct (sig_view F V m s) eqn:E; [|discriminate]. now rewrite (sig_frame _ _ E). Qed.
End FrameLevel.
Lemma view_frame F F' m m' : frame F F' m m' -> forall n t T, view F n m t = Some T -> view F' n m' t = Some T.
Proof.
  intros FR. induction n as [|n IH]; intros t T H; [discriminate|]. pose proof FR as (OB & _).
  destruct t; cbn [view] in *; auto.
  1-3, 5: destruct (view F n m t) eqn:E; [|discriminate]; now rewrite (IH _ _ E).
  - unfold obind in *. destruct (view F n m t1) eqn:E1; [|discriminate]. rewrite (IH _ _ E1).
    destruct (view F n m t2) eqn:E2; [|discriminate]. now rewrite (IH _ _ E2).
  - destruct (nth_error (objs m) p) eqn:E; [|discriminate]. now rewrite (OB _ _ E).
  - destruct (nth_error (objs m) p) as [[]|] eqn:E; try discriminate. rewrite (OB _ _ E).
    destruct (sig_view F (view F n m) m s) eqn:ES; [|discriminate]. now rewrite (sig_frame F F' m m' _ _ FR IH _ _ ES).
  - destruct (nth_error (objs m) p) as [[]|] eqn:E; try discriminate. rewrite (OB _ _ E).
    destruct (obind (open_cells F m fs) (all_view (field_view (view F n m)))) eqn:ES; [|discriminate].
    now rewrite (slice_frame F F' m m' FR _ (field_view (view F' n m')) _ _ (field_frame _ _ IH) ES).
  - destruct (nth_error (objs m) p) as [[]|] eqn:E; try discriminate. rewrite (OB _ _ E).
    destruct (obind (open_cells F m ms) (all_view (method_view F (view F n m) m))) eqn:EM; [|discriminate].
    rewrite (slice_frame F F' m m' FR _ (method_view F' (view F' n m') m') _ _ (method_frame F F' m m' _ _ FR IH) EM). cbn [obind] in *.
    destruct (obind (open_cells F m es) (all_view sym_view)) eqn:EE; [|discriminate].
    now rewrite (slice_frame F F' m m' FR _ sym_view _ _ (fun _ _ h => h) EE).
Qed.
Lemma frame_refl F m : frame F F m m.
Proof. split; auto. Qed.
Lemma view_mono F m : forall n k t T, n <= k -> view F n m t = Some T -> view F k m t = Some T.
Proof.
  intros n k t T L. revert k t T L. induction n as [|n IH]; intros k t T L H; [discriminate|]. destruct k as [|k]; [lia|].
  assert (IH' : forall t T, view F n m t = Some T -> view F k m t = Some T) by (intros; apply IH; auto; lia).
  pose proof (frame_refl F m) as FR.
  destruct t; cbn [view] in *; auto.
  1-3, 5: destruct (view F n m t) eqn:E; [|discriminate]; now rewrite (IH' _ _ E).
  - unfold obind in *. destruct (view F n m t1) eqn:E1; [|discriminate]. rewrite (IH' _ _ E1).
    destruct (view F n m t2) eqn:E2; [|discriminate]. now rewrite (IH' _ _ E2).
  - destruct (nth_error (objs m) p) as [[]|] eqn:E; try discriminate.
    destruct (sig_view F (view F n m) m s) eqn:ES; [|discriminate]. now rewrite (sig_frame F F m m _ _ FR IH' _ _ ES).
  - destruct (nth_error (objs m) p) as [[]|] eqn:E; try discriminate.
    destruct (obind (open_cells F m fs) (all_view (field_view (view F n m)))) eqn:ES; [|discriminate].
    now rewrite (slice_frame F F m m FR _ (field_view (view F k m)) _ _ (field_frame _ _ IH') ES).
  - destruct (nth_error (objs m) p) as [[]|] eqn:E; try discriminate.
    destruct (obind (open_cells F m ms) (all_view (method_view F (view F n m) m))) eqn:EM; [|discriminate].
    rewrite (slice_frame F F m m FR _ (method_view F (view F k m) m) _ _ (method_frame F F m m _ _ FR IH') EM).
    exact H.
Qed.
Lemma denotes_once m t T T' : denotes m t T -> denotes m t T' -> T = T'.
Proof.
  intros (n & H) (k & K). apply (view_mono _ _ _ (Nat.max n k)) in H; [|lia]. apply (view_mono _ _ _ (Nat.max n k)) in K; [|lia].
  congruence.
Qed.
Lemma grown_refl m : grown m m. Proof. split; auto. Qed.
Lemma grown_trans m1 m2 m3 : grown m1 m2 -> grown m2 m3 -> grown m1 m3.
Proof. intros (A & B) (C & D). split; auto. Qed.
Lemma grown_frame F m m' : grown m m' -> frame F F m m'.
Proof. intros (A & B). split; auto. Qed.
Lemma denotes_grown m m' t T : grown m m' -> denotes m t T -> denotes m' t T.
Proof. intros G (n & H). exists n. exact (view_frame _ _ _ _ (grown_frame _ _ _ G) _ _ _ H). Qed.
