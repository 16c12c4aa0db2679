(** Which files are opened, and where; close errors; GOPATH. *)
From Verif Require Import Base BaseFacts GoPath Types Imports Conv World SpecWorld WorldProofs Write SpecWrite HeaderProofs PathProofs WriteProofs.

Section Proofs.
Context {TD X H E : Type}.
Variable env : Env TD.
Variable fuel : nat.
Variable format_Source : string -> string + E.
Variable write : H -> string -> X -> done E * X.
Variable close : H -> X -> done E * X.
Notation event := (event H E).
Notation written_file := (written_file env fuel format_Source).
Notation written_files := (written_files env fuel format_Source).
Notation failed_file := (failed_file env fuel format_Source).
Notation world_after := (world_after env fuel).
Hypothesis TQ : forall w d, keeps pkgPath (tq env w d).

Lemma after_headers fs : forall w : World TD, headers (world_after w fs) = headers w.
Proof.
  induction fs as [|f fs IH]; intros w; auto. unfold SpecWrite.world_after in *. cbn [fold_left]. rewrite IH.
  apply source_headers; auto.
Qed.
Lemma file_at_headers (w w' : World TD) f p : headers w = headers w' -> file_at w f p -> file_at w' f p.
Proof.
  unfold headers. intros EQ (F & EF & ->). assert (N : nth_error (map (fun F => (FName F, pkgPath (FImports F))) (files w)) f = Some (FName F, pkgPath (FImports F))).
  { rewrite nth_error_map, EF. reflexivity. }
  rewrite EQ, nth_error_map in N. destruct (nth_error (files w') f) as [F'|] eqn:EF'; [|discriminate].
  cbn in N. injection N as A B. exists F'. split; auto. rewrite A, B. auto.
Qed.
Lemma opens_app es es' : opens (es ++ es') = opens es ++ opens (es' : list event).
Proof. apply flat_map_app. Qed.
Lemma written_opens (w : World TD) f (es : list event) : written_file w f es -> exists p r, opens es = [(p, r)] /\ file_at w f p.
Proof. intros [p h w1 t fm c FA]. eexists. eexists. split; [reflexivity|]. auto. Qed.
Lemma failed_opens (w : World TD) f (es : list event) o : failed_file w f es o -> opens es = [] \/ exists p r, opens es = [(p, r)] /\ file_at w f p.
Proof.
  intros [| | | | | | | |p h es' m FA D]; [left; reflexivity|right..]; try (eexists; eexists; split; [reflexivity|]; eauto; fail).
  exists p, (Opened (Some h)). split; auto. cbn [opens flat_map]. unfold opens. cbn [flat_map app].
  destruct D as [->|(? & ? & ? & ? & _ & _ & ->)]; reflexivity.
Qed.
Lemma written_all_opens (w : World TD) fs (es : list event) : written_files w fs es -> Forall2 (fun f pr => file_at w f (fst pr)) fs (opens es).
Proof.
  induction 1 as [|fs f es es' WS IH WF]; [constructor|]. rewrite opens_app. apply Forall2_app; auto.
  destruct (written_opens _ _ _ WF) as (p & r & -> & FA). constructor; [|constructor]. cbn.
  eapply file_at_headers; [|exact FA]. apply after_headers.
Qed.
(** The files are opened in order, each at the path it had at the start. *)
Theorem opens_in_order outFn st fs o st' : WriteGoFiles env format_Source write close outFn fuel fs st = (o, st') ->
  exists es tried rest, trace st' = trace st ++ es /\ happened outFn write close (outside st) es (outside st') /\
    fs = tried ++ rest /\ Forall2 (fun f pr => file_at (world st) f (fst pr)) tried (opens es) /\ (o = Ret None -> rest = []).
Proof.
  intros R. destruct (runs_all _ _ _ _ _ _ _ _ _ _ R) as (es & T & HP & [(-> & WS & _)|(done & f & rest & es1 & es2 & -> & -> & WS & FF)]).
  - exists es, fs, []. rewrite app_nil_r. split; [auto|]. split; [auto|]. split; [auto|]. split; auto. apply written_all_opens; auto.
  - pose proof (written_all_opens _ _ _ WS) as O1. exists (es1 ++ es2). destruct (failed_opens _ _ _ _ FF) as [O2|(p & r & O2 & FA)].
    + exists done, (f :: rest). split; [auto|]. split; [auto|]. split; [auto|]. rewrite opens_app, O2, app_nil_r. split; auto.
      intros ->. exfalso. inversion FF.
    + exists (done ++ [f]), rest. split; [auto|]. split; [auto|]. split; [rewrite <- app_assoc; auto|].
      rewrite opens_app, O2. split; [|intros ->; exfalso; inversion FF].
      apply Forall2_app; auto. constructor; [|constructor]. cbn. eapply file_at_headers; [|exact FA]. apply after_headers.
Qed.
Lemma happened_opens outFn x es x' : happened outFn write close x es x' ->
  Forall (fun pr => exists x0 x1, outFn (fst pr) x0 = (snd pr, x1)) (opens es).
Proof.
  induction 1 as [|x p r x1 es x2 OP _ IH|x h t r x1 es x2 _ _ IH|x h r x1 es x2 _ _ IH]; cbn; auto.
  constructor; auto. cbn. eauto.
Qed.
Variable mkdirAll : string -> X -> option E * X.
Variable openFile : string -> X -> (H + E) * X.
Lemma fs_open_creates root p n x r x1 : no_dotdot p -> go_name n -> (root <> "" \/ is_rooted p = false) ->
  fs_open mkdirAll openFile root (filepath_Join p n) x = (r, x1) ->
  creates mkdirAll openFile (package_dir root p) (package_file root p n) x r x1.
Proof.
  intros D G RD. unfold fs_open. rewrite placed, directory by auto.
  destruct (mkdirAll (package_dir root p) x) as [[e|] x2] eqn:M.
  - intros [= <- <-]. apply cr_dir. auto.
  - destruct (openFile (package_file root p n) x2) as [[h|e] x3] eqn:O; intros [= <- <-]; [eapply cr_open|eapply cr_fail]; eauto.
Qed.
(** C49 *)
Theorem files_placed root st fs o st' :
  (forall f F, In f fs -> nth_error (files (world st)) f = Some F ->
     go_name (FName F) /\ no_dotdot (pkgPath (FImports F)) /\ (root <> "" \/ is_rooted (pkgPath (FImports F)) = false)) ->
  WriteGoFilesToFileSystem env format_Source write close mkdirAll openFile root fuel fs st = (o, st') ->
  exists es tried rest, trace st' = trace st ++ es /\ fs = tried ++ rest /\ (o = Ret None -> rest = []) /\
    Forall2 (fun f pr => exists F x x1, nth_error (files (world st)) f = Some F /\
       creates mkdirAll openFile (package_dir root (pkgPath (FImports F)))
               (package_file root (pkgPath (FImports F)) (FName F)) x (snd pr) x1) tried (opens es).
Proof.
  intros HF R. destruct (opens_in_order _ _ _ _ _ R) as (es & tried & rest & T & HP & -> & F2 & L).
  exists es, tried, rest. split; [auto|]. split; [auto|]. split; [auto|].
  pose proof (happened_opens _ _ _ _ HP) as OP. clear - HF F2 OP.
  assert (HF' : forall f F, In f tried -> nth_error (files (world st)) f = Some F ->
     go_name (FName F) /\ no_dotdot (pkgPath (FImports F)) /\ (root <> "" \/ is_rooted (pkgPath (FImports F)) = false)).
  { intros f F I. apply HF. apply in_or_app. auto. }
  clear HF. induction F2 as [|f [p r] fs l (F & EF & EP) F2 IH]; [constructor|]. cbn [fst] in EP. inversion OP as [|? ? (x & x1 & O) OP']; subst.
  constructor; [|apply IH; auto; intros f0 F0 I0; apply HF'; right; exact I0].
  cbn [fst snd] in *. exists F, x, x1. split; auto. destruct (HF' f F) as (A & B & C); [left; auto|auto|].
  apply fs_open_creates; auto.
Qed.

(** ** Close errors *)
Theorem close_errors_dropped outFn fs : forall st,
  fst (WriteGoFiles env format_Source write (forgiving close) outFn fuel fs st) =
  fst (WriteGoFiles env format_Source write close outFn fuel fs st).
Proof.
  assert (G : forall fs st st0, world st = world st0 -> outside st = outside st0 ->
    fst (WriteGoFiles env format_Source write (forgiving close) outFn fuel fs st) =
    fst (WriteGoFiles env format_Source write close outFn fuel fs st0)).
  2:{ intros st. apply G; auto. }
  clear. induction fs as [|f fs IH]; intros st st0 EW EX; auto. cbn [WriteGoFiles]. rewrite EW, EX.
  destruct (nth_error (files (world st0)) f) as [F|]; auto. destruct (outFn (file_path F) (outside st0)) as [[[h|]|e|m] x1]; auto.
  unfold with_close, WriteGoFile. cbn [world outside trace].
  destruct (source env fuel f (world st0)) as [[text|m] w1].
  - destruct (format_Source text) as [fm|e].
    + destruct (write h fm x1) as [d x2]. cbn [world outside trace]. unfold forgiving.
      destruct (close h x2) as [[|e|m] x3]; destruct d; cbn [fst]; auto.
    + cbn [world outside trace]. unfold forgiving. destruct (close h x1) as [[|e'|m] x3]; auto.
  - cbn [world outside trace]. unfold forgiving. destruct (close h x1) as [[|e'|m'] x3]; auto.
Qed.

(** ** GOPATH *)
Theorem gopath_always_fails gopath fs (st : state TD X H E) :
  WriteGoFilesToGoPath env format_Source write close mkdirAll openFile gopath fuel fs st = (Ret (Some (NewError "GOPATH is empty")), st).
Proof.
  unfold WriteGoFilesToGoPath. destruct (String.eqb gopath ""); auto.
  pose proof (split_on_ne ":"%char gopath). destruct (split_on ":"%char gopath); [congruence|reflexivity].
Qed.
End Proofs.

(** ** Witnesses *)
Definition one_build := (do f <- NewGoFile (TD := unit) "x.go" "a/b" "b" ;; do g <- NewGoFile "y.go" "c" "c" ;; sret (f, g)).
Definition one_world : World unit := exec_world one_build.
(** writers are the paths they were opened at; the outside state is the list of (path, text) *)
Definition disk := list (string * string).
Definition d_open (p : string) (x : disk) : opened string string * disk := (Opened (Some p), x).
Definition d_write (h t : string) (x : disk) : done string * disk := (Done, x ++ [(h, t)]).
Definition d_close (h : string) (x : disk) : done string * disk := (Done, x).
Definition d_close_bad (h : string) (x : disk) : done string * disk := (Failed "no space left", x).
Definition d_format (s : string) : string + string := inl s.
Definition d_mkdir (p : string) (x : disk) : option string * disk := (None, x).
Definition d_openFile (p : string) (x : disk) : (string + string) * disk := (inl p, x).
Definition start : state unit disk string string := mkState one_world [] [].
Definition x_text : string := ("package b" ++ newline ++ newline)%string.
Lemma distinct_refuted :
  ~ (forall root p n p' n', no_dotdot p -> go_name n -> no_dotdot p' -> go_name n' -> root <> "" ->
     filepath_Join root (filepath_Join p n) = filepath_Join root (filepath_Join p' n') -> p = p' /\ n = n').
Proof.
  assert (D : forall l, existsb (String.eqb "..") l = false -> ~ In ".." l).
  { intros l HE I. assert (existsb (String.eqb "..") l = true) by (apply existsb_exists; exists ".."; split; auto). congruence. }
  assert (G : go_name "x.go").
  { split; [intros [I|[I|[I|[I|[]]]]]; discriminate|]. exists "x". reflexivity. }
  intros HA. destruct (HA "/src" "a" "x.go" "a/" "x.go") as [EQ _]; try (apply D; reflexivity); auto; try discriminate.
Qed.
Lemma root_refuted :
  ~ (forall root p n, no_dotdot p -> go_name n -> filepath_Join root (filepath_Join p n) = package_file root p n).
Proof.
  assert (D : forall l, existsb (String.eqb "..") l = false -> ~ In ".." l).
  { intros l HE I. assert (existsb (String.eqb "..") l = true) by (apply existsb_exists; exists ".."; split; auto). congruence. }
  intros HA. specialize (HA "" "/etc" "x.go"). assert (EQ : filepath_Join "" (filepath_Join "/etc" "x.go") = package_file "" "/etc" "x.go").
  { apply HA; [apply D; reflexivity|]. split; [intros [I|[I|[I|[I|[]]]]]; discriminate|]. exists "x". reflexivity. }
  vm_compute in EQ. discriminate.
Qed.
Lemma gopath_refuted :
  ~ (forall first rest fs (st : state unit disk string string), first <> "" ->
     WriteGoFilesToGoPath exEnv d_format d_write d_close d_mkdir d_openFile (gopath_of first rest) 3 fs st =
     WriteGoFilesToFileSystem exEnv d_format d_write d_close d_mkdir d_openFile first 3 fs st).
Proof.
  intros HA. specialize (HA "/go" [] [0] start). rewrite gopath_always_fails in HA.
  assert (EQ : fst (Ret (Some (NewError "GOPATH is empty")), start) =
    fst (WriteGoFilesToFileSystem exEnv d_format d_write d_close d_mkdir d_openFile "/go" 3 [0] start)).
  { rewrite <- HA; [reflexivity|discriminate]. }
  vm_compute in EQ. discriminate.
Qed.
Lemma close_refuted :
  ~ (forall fs (st st' : state unit disk string string) es,
     WriteGoFiles exEnv d_format d_write d_close_bad d_open 3 fs st = (Ret None, st') -> trace st' = trace st ++ es ->
     forall h e, ~ In (EvClose h (Failed e)) es).
Proof.
  intros HA. refine (HA [0] start _ [EvOpen "a/b/x.go" (Opened (Some "a/b/x.go")); EvWrite "a/b/x.go" x_text Done;
     EvClose "a/b/x.go" (Failed "no space left")] _ _ "a/b/x.go" "no space left" _); [vm_compute; reflexivity|reflexivity|].
  right. right. left. reflexivity.
Qed.
