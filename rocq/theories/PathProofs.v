(** Where files land: filepath.Join on import paths and file names. *)
From Verif Require Import Base BaseFacts GoPath Types Imports Conv World SpecWorld WorldProofs Write SpecWrite.

Definition no_slash (s : string) : Prop := ~ In slash (list_ascii_of_string s).
Lemma split_no_slash s : Forall no_slash (split_on slash s).
Proof.
  induction s as [|a s IH]; cbn [split_on]; [repeat constructor; intros []|].
  destruct (Ascii.eqb_spec a slash) as [->|N]; [constructor; auto; intros []|].
  inversion IH as [|x l P Q EQ]; [constructor; auto; intros [E|[]]; congruence|].
  constructor; auto. intros [E|I]; [congruence|]. exact (P I).
Qed.
Lemma split_single s : no_slash s -> split_on slash s = [s].
Proof.
  induction s as [|a s IH]; intros N; auto. cbn [split_on]. destruct (Ascii.eqb_spec a slash) as [->|NE].
  - exfalso. apply N. left. auto.
  - rewrite IH; auto. intros I. apply N. right. auto.
Qed.
Lemma split_sep a b : split_on slash (a ++ "/" ++ b)%string = split_on slash a ++ split_on slash b.
Proof.
  change (a ++ "/" ++ b)%string with (a ++ String slash b)%string.
  induction a as [|c a IH]; auto. cbn [append split_on]. rewrite IH. destruct (Ascii.eqb c slash); auto.
  pose proof (split_on_ne slash a) as NE. destruct (split_on slash a) as [|x l]; [congruence|]. reflexivity.
Qed.
Lemma join_app s a b : a <> [] -> b <> [] -> (join s (a ++ b) = join s a ++ s ++ join s b)%string.
Proof.
  intros A B. induction a as [|x a IH]; [congruence|]. destruct a as [|y a].
  - destruct b; [congruence|]. reflexivity.
  - change (join s ((x :: y :: a) ++ b)) with (x ++ s ++ join s ((y :: a) ++ b))%string. rewrite IH by discriminate.
    change (join s (x :: y :: a)) with (x ++ s ++ join s (y :: a))%string. rewrite !BaseFacts.append_assoc. reflexivity.
Qed.

Definition plain_element (c : string) : Prop := c <> "" /\ c <> "." /\ c <> "..".
Lemma names_false c : names_something c = false -> String.eqb c "" || String.eqb c "." = true.
Proof. unfold names_something. intros H. apply negb_false_iff in H. exact H. Qed.
Lemma names_true c : names_something c = true -> String.eqb c "" || String.eqb c "." = false.
Proof. unfold names_something. intros H. apply negb_true_iff in H. exact H. Qed.
Lemma clean_app r cs cs' : ~ In ".." cs' -> forall acc, clean_comps r acc (cs ++ cs') = clean_comps r acc cs ++ filter names_something cs'.
Proof.
  intros P. induction cs as [|c cs IH]; intros acc; cbn [clean_comps app].
  - revert acc. induction cs' as [|c cs IH]; intros acc; cbn [clean_comps filter]; [rewrite app_nil_r; auto|].
    assert (ND : String.eqb c ".." = false) by (apply String.eqb_neq; intros ->; apply P; left; auto).
    rewrite ND. destruct (names_something c) eqn:N.
    + rewrite names_true by auto. rewrite IH by (intros I; apply P; right; auto). cbn [rev]. rewrite <- app_assoc. reflexivity.
    + rewrite names_false by auto. apply IH. intros I. apply P. right. auto.
  - destruct (String.eqb c "" || String.eqb c "."); auto. destruct (String.eqb c ".."); auto.
    destruct acc as [|a acc]; [destruct r; auto|]. destruct (String.eqb a ".."); auto.
Qed.
Lemma clean_no_dotdot r cs : ~ In ".." cs -> clean_comps r [] cs = filter names_something cs.
Proof. intros P. apply (clean_app r [] cs P []). Qed.
(** what remains is neither empty nor "." *)
Definition kept (c : string) : Prop := c <> "" /\ c <> "." /\ no_slash c.
Lemma clean_kept r cs : Forall no_slash cs -> forall acc, Forall kept acc -> Forall kept (clean_comps r acc cs).
Proof.
  induction 1 as [|c cs N _ IH]; intros acc K; cbn [clean_comps]; [apply Forall_rev; auto|].
  destruct (String.eqb c "") eqn:E1; [cbn [orb]; apply IH; auto|].
  destruct (String.eqb c ".") eqn:E2; [cbn [orb]; apply IH; auto|]. cbn [orb].
  apply String.eqb_neq in E1, E2. assert (KD : kept "..") by (split; [discriminate|split; [discriminate|]]; intros [I|[I|[]]]; discriminate).
  destruct (String.eqb c "..") eqn:E3.
  - destruct acc as [|a acc]; [destruct r; auto|]. inversion K; subst. destruct (String.eqb a ".."); auto.
  - apply IH. constructor; auto. split; auto.
Qed.


Lemma elements_kept p : Forall kept (elements p).
Proof.
  pose proof (split_no_slash p) as N. unfold elements. rewrite Forall_forall in *. intros c I. apply filter_In in I as [I Q].
  apply names_true in Q. apply orb_false_iff in Q as [A B]. apply String.eqb_neq in A, B. split; auto.
Qed.
Lemma filter_all l : Forall kept l -> filter names_something l = l.
Proof.
  induction 1 as [|c l (A & B & _) _ IH]; auto. cbn [filter]. unfold names_something at 1.
  apply String.eqb_neq in A, B. rewrite A, B. cbn. rewrite IH. auto.
Qed.
Lemma split_join l : Forall no_slash l -> l <> [] -> split_on slash (join "/" l) = l.
Proof.
  intros P NE. induction P as [|c l N _ IH]; [congruence|]. destruct l as [|d l].
  - apply split_single; auto.
  - change (join "/" (c :: d :: l)) with (c ++ "/" ++ join "/" (d :: l))%string. rewrite split_sep, split_single, IH by (auto; discriminate).
    reflexivity.
Qed.
Lemma go_name_facts n : go_name n -> no_slash n /\ plain_element n.
Proof.
  intros (N & stem & ->). split; [exact N|]. split; [|split]; intros EQ; destruct stem as [|a [|b [|c s]]]; discriminate.
Qed.
Lemma go_kept n : go_name n -> kept n.
Proof. intros G. destruct (go_name_facts n G) as (A & B & C & _). split; auto. Qed.
Definition rest_path (p n : string) : string := join "/" (elements p ++ [n]).
Lemma rest_kept p n : go_name n -> Forall kept (elements p ++ [n]).
Proof. intros G. apply Forall_app; auto using elements_kept, go_kept. Qed.
Lemma kept_no_slash l : Forall kept l -> Forall no_slash l.
Proof. apply Forall_impl. intros c (_ & _ & N). exact N. Qed.
Lemma rest_split p n : go_name n -> split_on slash (rest_path p n) = elements p ++ [n].
Proof. intros G. apply split_join; [apply kept_no_slash, rest_kept; auto|]. destruct (elements p); discriminate. Qed.
Lemma join_kept l : Forall kept l -> l <> [] -> exists c s, join "/" l = String c s /\ c <> slash /\ (join "/" l = "." -> False).
Proof.
  intros K NE. destruct l as [|x l]; [congruence|]. inversion K as [|? ? (A & B & C)]; subst.
  destruct x as [|c x]; [congruence|]. destruct l as [|y l].
  - exists c, x. split; [reflexivity|]. split; [|cbn; congruence]. intros ->. apply C. left. auto.
  - change (join "/" (String c x :: y :: l)) with (String c (x ++ "/" ++ join "/" (y :: l)))%string.
    exists c. eexists. split; [reflexivity|]. split; [intros ->; apply C; left; auto|].
    intros E. injection E as _ E. destruct x; discriminate.
Qed.

Lemma rest_rooted p n : go_name n -> is_rooted (rest_path p n) = false.
Proof.
  intros G. destruct (join_kept _ (rest_kept p n G)) as (c & s & E & N & _); [destruct (elements p); discriminate|].
  unfold rest_path. rewrite E. cbn. destruct (Ascii.eqb_spec c slash); congruence.
Qed.
Lemma rest_no_dotdot p n : no_dotdot p -> go_name n -> ~ In ".." (elements p ++ [n]).
Proof.
  intros D G I. apply in_app_or in I as [I|[I|[]]].
  - apply filter_In in I as [I _]. auto.
  - destruct (go_name_facts n G) as (_ & _ & _ & ND). auto.
Qed.
Lemma rest_not_empty p n : go_name n -> rest_path p n <> "".
Proof.
  intros G. destruct (join_kept _ (rest_kept p n G)) as (c & s & E & _); [destruct (elements p); discriminate|].
  unfold rest_path. rewrite E. discriminate.
Qed.
Lemma clean_rest p n : no_dotdot p -> go_name n -> filepath_Clean (rest_path p n) = rest_path p n.
Proof.
  intros D G. unfold filepath_Clean. rewrite rest_rooted, rest_split, clean_no_dotdot, filter_all by (auto using rest_kept, rest_no_dotdot).
  unfold rest_path. destruct (elements p); reflexivity.
Qed.
(** the path given to the open function *)
Lemma join_name p n : no_dotdot p -> go_name n ->
  filepath_Join p n = (if is_rooted p then "/" ++ rest_path p n else rest_path p n)%string.
Proof.
  intros D G. destruct (go_name_facts n G) as (NS & PN & PD & PP). unfold filepath_Join. destruct (String.eqb_spec p "") as [->|NE].
  - destruct (String.eqb_spec n ""); [congruence|]. apply (clean_rest "" n); auto.
  - unfold filepath_Clean. assert (R : is_rooted (p ++ "/" ++ n)%string = is_rooted p) by (destruct p; [congruence|reflexivity]).
    rewrite R, split_sep, (split_single n) by auto. rewrite clean_no_dotdot.
    2:{ intros I. apply in_app_or in I as [I|[I|[]]]; auto. }
    rewrite filter_app. change (filter names_something (split_on slash p)) with (elements p).
    rewrite (filter_all [n]) by (constructor; auto using go_kept). fold (rest_path p n).
    destruct (is_rooted p); auto. destruct (elements p ++ [n]) eqn:E; auto. destruct (elements p); discriminate.
Qed.
Lemma dotdot_cons l : In ".." ("" :: l) -> In ".." l.
Proof. intros [E|I]; [discriminate|auto]. Qed.
Lemma clean_alone l : Forall kept l -> ~ In ".." l -> l <> [] -> filepath_Clean (join "/" l) = join "/" l.
Proof.
  intros K D NE. destruct (join_kept l K NE) as (c & t & E & NS & _). unfold filepath_Clean.
  assert (RR : is_rooted (join "/" l) = false) by (rewrite E; cbn; destruct (Ascii.eqb_spec c slash); congruence).
  rewrite RR. rewrite split_join by (auto using kept_no_slash). rewrite clean_no_dotdot, filter_all by auto.
  destruct l; [congruence|auto].
Qed.
Lemma clean_below root l (skip : bool) : root <> "" -> Forall kept l -> ~ In ".." l -> l <> [] ->
  filepath_Clean (root ++ "/" ++ (if skip then "/" ++ join "/" l else join "/" l))%string = below root (join "/" l).
Proof.
  intros NR KL D NL. unfold filepath_Clean.
  assert (R : forall s, is_rooted (root ++ s)%string = is_rooted root) by (destruct root; [congruence|reflexivity]).
  rewrite R, split_sep.
  assert (C : clean_comps (is_rooted root) [] (split_on slash root ++ split_on slash (if skip then "/" ++ join "/" l else join "/" l)%string) =
    clean_comps (is_rooted root) [] (split_on slash root) ++ l).
  { destruct skip.
    - change (split_on slash ("/" ++ join "/" l)) with ("" :: split_on slash (join "/" l)). rewrite split_join by auto using kept_no_slash.
      rewrite clean_app by (intros I; apply dotdot_cons in I; auto).
      change (filter names_something ("" :: l)) with (filter names_something l). rewrite filter_all by auto. reflexivity.
    - rewrite split_join by auto using kept_no_slash. rewrite clean_app by auto. rewrite filter_all by auto. auto. }
  rewrite C. unfold below, filepath_Clean.
  assert (K : Forall kept (clean_comps (is_rooted root) [] (split_on slash root))) by (apply clean_kept; auto using split_no_slash).
  destruct (clean_comps (is_rooted root) [] (split_on slash root)) as [|x k] eqn:CS; destruct (is_rooted root) eqn:RR.
  - reflexivity.
  - destruct l; [congruence|reflexivity].
  - destruct (join_kept _ K) as (c & t & E & NS & ND); [discriminate|].
    replace (String.eqb ("/" ++ join "/" (x :: k)) ".") with false by reflexivity.
    assert (X : String.eqb ("/" ++ join "/" (x :: k)) "/" = false) by (rewrite E; reflexivity). rewrite X.
    rewrite join_app by (try discriminate; auto). rewrite BaseFacts.append_assoc. reflexivity.
  - destruct (join_kept _ K) as (c & t & E & NS & ND); [discriminate|].
    destruct (String.eqb_spec (join "/" (x :: k)) "."); [contradiction|].
    assert (X : String.eqb (join "/" (x :: k)) "/" = false).
    { apply String.eqb_neq. rewrite E. intros [= -> _]. apply NS. reflexivity. }
    rewrite X. rewrite <- join_app by (try discriminate; auto). reflexivity.
Qed.
(** C49 *)
Theorem placed root p n : no_dotdot p -> go_name n -> (root <> "" \/ is_rooted p = false) ->
  filepath_Join root (filepath_Join p n) = package_file root p n.
Proof.
  intros D G RD. rewrite (join_name p n) by auto. unfold package_file, rest_path.
  assert (NN : elements p ++ [n] <> []) by (destruct (elements p); discriminate).
  unfold filepath_Join. destruct (String.eqb_spec root "") as [->|NR].
  - destruct RD as [|RD]; [congruence|]. rewrite RD. fold (rest_path p n).
    destruct (String.eqb_spec (rest_path p n) "") as [E|_]; [exfalso; eapply rest_not_empty; eauto|].
    rewrite clean_rest by auto. reflexivity.
  - apply clean_below; auto using rest_kept, rest_no_dotdot.
Qed.
Lemma below_cut root a b : below root a = below root b -> a = b.
Proof.
  unfold below. destruct (String.eqb _ "."); auto. destruct (String.eqb _ "/"); [intros [= E]; auto|].
  intros E. apply append_inj_l in E. injection E; auto.
Qed.
Theorem same_place root p n p' n' : go_name n -> go_name n' ->
  package_file root p n = package_file root p' n' <-> elements p = elements p' /\ n = n'.
Proof.
  intros G G'. split.
  - intros E. apply below_cut in E. assert (S : split_on slash (rest_path p n) = split_on slash (rest_path p' n')) by (unfold rest_path; rewrite E; auto).
    rewrite !rest_split in S by auto. apply app_inj_tail in S. exact S.
  - intros [E ->]. unfold package_file. rewrite E. auto.
Qed.
(** ** The directory of the file *)
Lemma has_byte_app b s t : has_byte b (s ++ t) = has_byte b s || has_byte b t.
Proof. induction s as [|c s IH]; cbn; auto. rewrite IH. apply orb_assoc. Qed.
Lemma has_no_slash s : no_slash s -> has_byte slash s = false.
Proof.
  induction s as [|c s IH]; auto. intros N. cbn [has_byte]. destruct (Ascii.eqb_spec c slash) as [->|].
  - exfalso. apply N. left. auto.
  - apply IH. intros I. apply N. right. auto.
Qed.
Lemma upto_none s : no_slash s -> upto_last_slash s = "".
Proof.
  destruct s as [|c s]; auto. intros N. cbn [upto_last_slash]. assert (NS : no_slash s) by (intros I; apply N; right; auto).
  rewrite has_no_slash by auto. destruct (Ascii.eqb_spec c slash) as [->|]; auto. exfalso. apply N. left. auto.
Qed.
Lemma upto_sep a n : no_slash n -> upto_last_slash (a ++ "/" ++ n)%string = (a ++ "/")%string.
Proof.
  intros N. induction a as [|c a IH].
  - change ("" ++ "/" ++ n)%string with (String slash n). cbn [upto_last_slash]. rewrite has_no_slash by auto. reflexivity.
  - change (String c a ++ "/" ++ n)%string with (String c (a ++ "/" ++ n))%string. cbn [upto_last_slash].
    rewrite has_byte_app. change ("/" ++ n)%string with (String slash n). cbn [has_byte]. rewrite Ascii.eqb_refl, orb_true_r.
    change (a ++ String slash n)%string with (a ++ "/" ++ n)%string. rewrite IH. reflexivity.
Qed.
Lemma clean_slash a : a <> "" -> filepath_Clean (a ++ "/") = filepath_Clean a.
Proof.
  intros NE. unfold filepath_Clean. assert (R : is_rooted (a ++ "/")%string = is_rooted a) by (destruct a; [congruence|reflexivity]).
  rewrite R. change (a ++ "/")%string with (a ++ "/" ++ "")%string. rewrite split_sep. cbn [split_on].
  rewrite clean_app by (intros [E|[]]; discriminate). cbn [filter names_something String.eqb negb orb]. rewrite app_nil_r. auto.
Qed.
(** cleaned elements: ".." only in front, and only when not rooted *)
Inductive cleaned (r : bool) : list string -> Prop :=
| c_up l : r = false -> cleaned r l -> cleaned r (".." :: l)
| c_plain l : ~ In ".." l -> cleaned r l.
Lemma cleaned_plain r l c : cleaned r l -> c <> ".." -> cleaned r (l ++ [c]).
Proof.
  intros C N. induction C as [l E C IH|l P].
  - apply c_up; auto.
  - apply c_plain. intros I. apply in_app_or in I as [I|[I|[]]]; auto.
Qed.
Lemma cleaned_up r l : cleaned r (l ++ [".."]) -> cleaned r (l ++ [".."; ".."]).
Proof.
  induction l as [|x l IH]; cbn [app]; intros C.
  - inversion C; subst; [|exfalso; apply H; left; auto]. apply c_up; auto.
  - inversion C; subst.
    + apply c_up; auto.
    + exfalso. apply H. right. apply in_or_app. right. left. auto.
Qed.
Lemma cleaned_init r l c : cleaned r (l ++ [c]) -> cleaned r l.
Proof.
  induction l as [|x l IH]; cbn [app]; intros C; [apply c_plain; intros []|].
  inversion C; subst; [apply c_up; auto|]. apply c_plain. intros I. apply H. destruct I as [->|I]; [left; auto|right; apply in_or_app; auto].
Qed.
Lemma clean_cleaned r cs : forall acc, cleaned r (rev acc) -> cleaned r (clean_comps r acc cs).
Proof.
  induction cs as [|c cs IH]; intros acc C; cbn [clean_comps]; auto.
  destruct (String.eqb c "" || String.eqb c "."); auto. destruct (String.eqb_spec c "..") as [->|N].
  - destruct acc as [|a acc].
    + destruct r eqn:R; apply IH; auto. cbn. apply c_up; auto.
    + destruct (String.eqb_spec a "..") as [->|NA].
      * apply IH. cbn [rev] in *. rewrite <- app_assoc. apply cleaned_up. exact C.
      * apply IH. cbn [rev] in C. eapply cleaned_init; eauto.
  - apply IH. cbn [rev]. apply cleaned_plain; auto.
Qed.
Lemma clean_again r l : cleaned r l -> Forall kept l -> forall acc, Forall (eq "..") acc -> (r = true -> acc = []) ->
  clean_comps r acc l = rev acc ++ l.
Proof.
  intros C. induction C as [l E C IH|l P]; intros K acc A R.
  - inversion K; subst. cbn [clean_comps String.eqb orb]. cbn [Ascii.eqb Bool.eqb]. destruct acc as [|a acc].
    + cbn -[clean_comps]. rewrite IH; auto; congruence.
    + inversion A; subst. cbn -[clean_comps]. rewrite IH; auto; [|congruence]. cbn [rev]. rewrite <- !app_assoc. reflexivity.
  - rewrite <- (app_nil_l l) at 1. rewrite clean_app by auto. rewrite filter_all by auto. reflexivity.
Qed.
Lemma clean_idempotent s : filepath_Clean (filepath_Clean s) = filepath_Clean s.
Proof.
  unfold filepath_Clean at 2 3. set (l := clean_comps (is_rooted s) [] (split_on slash s)).
  assert (K : Forall kept l) by (apply clean_kept; auto using split_no_slash).
  assert (C : cleaned (is_rooted s) l) by (apply clean_cleaned, c_plain; intros []).
  destruct (is_rooted s) eqn:R.
  - destruct l as [|x l'] eqn:EL; [reflexivity|]. unfold filepath_Clean.
    change (is_rooted ("/" ++ join "/" (x :: l'))) with true. cbv iota.
    change (split_on slash ("/" ++ join "/" (x :: l'))) with ("" :: split_on slash (join "/" (x :: l'))).
    rewrite split_join by (try discriminate; apply kept_no_slash; auto).
    change (clean_comps true [] ("" :: x :: l')) with (clean_comps true [] (x :: l')). rewrite clean_again by auto. reflexivity.
  - destruct l as [|x l'] eqn:EL; [reflexivity|]. unfold filepath_Clean.
    destruct (join_kept _ K) as (c & t & E & NS & ND); [discriminate|].
    assert (RR : is_rooted (join "/" (x :: l')) = false) by (rewrite E; cbn; destruct (Ascii.eqb_spec c slash); congruence).
    rewrite RR. rewrite split_join by (try discriminate; apply kept_no_slash; auto). rewrite clean_again by (auto; discriminate). reflexivity.
Qed.
Lemma clean_not_empty s : filepath_Clean s <> "".
Proof.
  unfold filepath_Clean. set (l := clean_comps (is_rooted s) [] (split_on slash s)).
  assert (K : Forall kept l) by (apply clean_kept; auto using split_no_slash). clearbody l.
  destruct (is_rooted s); [discriminate|]. destruct l as [|x l']; [discriminate|].
  destruct (join_kept _ K) as (c & t & -> & _); discriminate.
Qed.
(** The directory that is created first is the package's. *)
Theorem directory root p n : no_dotdot p -> go_name n ->
  filepath_Dir (package_file root p n) = package_dir root p.
Proof.
  intros D G. destruct (go_name_facts n G) as (NS & _). unfold package_file, package_dir, filepath_Dir.
  destruct (elements p) as [|x l] eqn:EL.
  - cbn [app join]. unfold below. destruct (String.eqb_spec (filepath_Clean root) ".") as [E|N1].
    + rewrite upto_none by auto. rewrite E. reflexivity.
    + destruct (String.eqb_spec (filepath_Clean root) "/") as [E|N2].
      * pose proof (upto_sep "" n NS) as U. cbn [append] in U. cbn [append]. rewrite U, E. reflexivity.
      * rewrite upto_sep by auto. rewrite clean_slash by apply clean_not_empty. apply clean_idempotent.
  - assert (J : (join "/" ((x :: l) ++ [n]) = join "/" (x :: l) ++ "/" ++ n)%string).
    { rewrite join_app by discriminate. reflexivity. }
    rewrite J. set (e := join "/" (x :: l)).
    assert (B : (below root (e ++ "/" ++ n) = below root e ++ "/" ++ n)%string).
    { unfold below. destruct (String.eqb _ "."); auto. destruct (String.eqb _ "/"); rewrite ?BaseFacts.append_assoc; auto. }
    rewrite B, upto_sep by auto.
    pose proof (elements_kept p) as K. rewrite EL in K.
    destruct (join_kept _ K) as (c & t & E & NSl & ND); [discriminate|]. fold e in E, ND.
    assert (NE : below root e <> "").
    { unfold below. rewrite E. destruct (String.eqb _ "."); [discriminate|]. destruct (String.eqb _ "/"); [discriminate|].
      destruct (filepath_Clean root); discriminate. }
    rewrite clean_slash by auto.
    assert (ND' : ~ In ".." (x :: l)) by (rewrite <- EL; intros I; apply filter_In in I as [I _]; auto).
    assert (CL : exists q, below root e = filepath_Clean q).
    { destruct (String.eqb_spec root "") as [->|NR].
      - exists e. unfold e. rewrite clean_alone by (auto; discriminate). reflexivity.
      - exists (root ++ "/" ++ e)%string. symmetry. apply (clean_below root (x :: l) false); auto; discriminate. }
    destruct CL as (q & ->). apply clean_idempotent.
Qed.
