(** Properties of writing files (C46-C51). *)
From Verif Require Import Base GoPath Types Imports Conv World SpecWorld Write SpecWrite HeaderProofs PathProofs WriteProofs PlaceProofs.

(** The run of the examples: two files written to a disk that keeps what it gets. *)
Definition y_text : string := ("package c" ++ newline ++ newline)%string.
Definition x_events : list (event string string) :=
  [EvOpen "a/b/x.go" (Opened (Some "a/b/x.go")); EvWrite "a/b/x.go" x_text Done; EvClose "a/b/x.go" Done].
Definition y_events : list (event string string) :=
  [EvOpen "c/y.go" (Opened (Some "c/y.go")); EvWrite "c/y.go" y_text Done; EvClose "c/y.go" Done].

(** C46 *)
Theorem C46_in_order : forall TD X H E (env : Env TD) fuel (format_Source : string -> string + E)
    (write : H -> string -> X -> done E * X) (close : H -> X -> done E * X) (outFn : string -> X -> opened H E * X)
    (st : state TD X H E) fs o st',
  WriteGoFiles env format_Source write close outFn fuel fs st = (o, st') ->
  exists es, trace st' = trace st ++ es /\ happened outFn write close (outside st) es (outside st') /\
  (o = Ret None /\ written_files env fuel format_Source (world st) fs es /\ world st' = world_after env fuel (world st) fs \/
   exists done f rest es1 es2, fs = done ++ f :: rest /\ es = es1 ++ es2 /\
     written_files env fuel format_Source (world st) done es1 /\
     failed_file env fuel format_Source (world_after env fuel (world st) done) f es2 o).
Proof. exact @runs_all. Qed.
Print Assumptions C46_in_order.
Example C46_example :
  WriteGoFiles exEnv d_format d_write d_close d_open 3 [0; 1] start =
    (Ret None, mkState one_world [("a/b/x.go", x_text); ("c/y.go", y_text)] (x_events ++ y_events)) /\
  (* the second open fails: the first file is complete, nothing of the second exists *)
  WriteGoFiles exEnv d_format d_write d_close (fun p x => if String.eqb p "c/y.go" then (OpenErr "denied", x) else d_open p x) 3 [0; 1; 0] start =
    (Ret (Some (Outside "denied")), mkState one_world [("a/b/x.go", x_text)] (x_events ++ [EvOpen "c/y.go" (OpenErr "denied")])).
Proof. split; vm_compute; reflexivity. Qed.

(** C47 *)
Theorem C47_closed : forall TD X H E (env : Env TD) fuel (format_Source : string -> string + E)
    (write : H -> string -> X -> done E * X) (close : H -> X -> done E * X) (outFn : string -> X -> opened H E * X)
    (st : state TD X H E) fs o st',
  WriteGoFiles env format_Source write close outFn fuel fs st = (o, st') ->
  exists es, trace st' = trace st ++ es /\ closed_once es /\ opened_first es.
Proof. exact @closes. Qed.
Print Assumptions C47_closed.
Example C47_example : (* formatting fails: the writer is closed *)
  WriteGoFiles exEnv (fun _ => inr "syntax error") d_write d_close d_open 3 [0; 1] start =
    (Ret (Some (FormatError x_text "syntax error")),
     mkState one_world [] [EvOpen "a/b/x.go" (Opened (Some "a/b/x.go")); EvClose "a/b/x.go" Done]).
Proof. vm_compute. reflexivity. Qed.

(** C48 *)
Theorem C48_formatted : forall TD X H E (env : Env TD) fuel (format_Source : string -> string + E)
    (write : H -> string -> X -> done E * X) (close : H -> X -> done E * X) (outFn : string -> X -> opened H E * X)
    (st : state TD X H E) fs o st',
  WriteGoFiles env format_Source write close outFn fuel fs st = (o, st') ->
  exists es, trace st' = trace st ++ es /\
  (forall h text r, In (EvWrite h text r) es ->
     exists done f rest unformatted w1, fs = done ++ f :: rest /\
       source env fuel f (world_after env fuel (world st) done) = (Ok unformatted, w1) /\ format_Source unformatted = inl text) /\
  (forall unformatted e, o = Ret (Some (FormatError unformatted e)) ->
     exists done f rest w1 es1 p h c, fs = done ++ f :: rest /\
       source env fuel f (world_after env fuel (world st) done) = (Ok unformatted, w1) /\ format_Source unformatted = inr e /\
       es = es1 ++ [EvOpen p (Opened (Some h)); EvClose h c]).
Proof. exact @writes. Qed.
Print Assumptions C48_formatted.
Example C48_example : exists st', WriteGoFiles exEnv (fun s => if String.eqb s x_text then inl ("formatted " ++ s)%string else inr "bad") d_write d_close d_open 3 [0; 1] start =
  (Ret (Some (FormatError y_text "bad")), st') /\ outside st' = [("a/b/x.go", "formatted " ++ x_text)%string].
Proof. eexists. split; vm_compute; reflexivity. Qed.

(** C49: as stated (any import path without ".." elements, any root) the claim is false: *)
Theorem C49_distinct_refuted :
  ~ (forall root p n p' n', no_dotdot p -> go_name n -> no_dotdot p' -> go_name n' -> root <> "" ->
     filepath_Join root (filepath_Join p n) = filepath_Join root (filepath_Join p' n') -> p = p' /\ n = n').
Proof. exact distinct_refuted. Qed.
Print Assumptions C49_distinct_refuted.
Theorem C49_root_refuted :
  ~ (forall root p n, no_dotdot p -> go_name n -> filepath_Join root (filepath_Join p n) = package_file root p n).
Proof. exact root_refuted. Qed.
Print Assumptions C49_root_refuted.
(** What holds: every file that is opened is created at root/elements of the import path/name,
    after its directory, unless the root is empty and the import path absolute. *)
Theorem C49_places_partial : forall TD X H E (env : Env TD) fuel (format_Source : string -> string + E)
    (write : H -> string -> X -> done E * X) (close : H -> X -> done E * X),
  (forall w d i, pkgPath (snd (tq env w d i)) = pkgPath i) ->
  forall (mkdirAll : string -> X -> option E * X) (openFile : string -> X -> (H + E) * X) root (st : state TD X H E) fs o st',
  (forall f F, In f fs -> nth_error (files (world st)) f = Some F ->
     go_name (FName F) /\ no_dotdot (pkgPath (FImports F)) /\ (root <> "" \/ is_rooted (pkgPath (FImports F)) = false)) ->
  WriteGoFilesToFileSystem env format_Source write close mkdirAll openFile root fuel fs st = (o, st') ->
  exists es tried rest, trace st' = trace st ++ es /\ fs = tried ++ rest /\ (o = Ret None -> rest = []) /\
    Forall2 (fun f pr => exists F x x1, nth_error (files (world st)) f = Some F /\
       creates mkdirAll openFile (package_dir root (pkgPath (FImports F)))
               (package_file root (pkgPath (FImports F)) (FName F)) x (snd pr) x1) tried (opens es).
Proof. exact @files_placed. Qed.
Print Assumptions C49_places_partial.
(** Two files share a path exactly when their names and the elements of their import paths agree. *)
Theorem C49_same_place_partial : forall root p n p' n', go_name n -> go_name n' ->
  package_file root p n = package_file root p' n' <-> elements p = elements p' /\ n = n'.
Proof. exact same_place. Qed.
Print Assumptions C49_same_place_partial.
Example C49_example :
  (forall f F, In f [0; 1] -> nth_error (files one_world) f = Some F ->
     go_name (FName F) /\ no_dotdot (pkgPath (FImports F)) /\ ("/src/" <> "" \/ is_rooted (pkgPath (FImports F)) = false)) /\
  outside (snd (WriteGoFilesToFileSystem exEnv d_format d_write d_close d_mkdir d_openFile "/src/" 3 [0; 1] start)) =
    [("/src/a/b/x.go", x_text); ("/src/c/y.go", y_text)] /\
  package_file "/src/" "a/b" "x.go" = "/src/a/b/x.go" /\ package_dir "/src/" "a/b" = "/src/a/b" /\
  package_file "." "a//./b" "x.go" = "a/b/x.go" /\
  (* with ".." elements a file leaves the root *)
  filepath_Join "/src" (filepath_Join "../../etc" "x.go") = "/etc/x.go".
Proof.
  split; [|repeat split; vm_compute; reflexivity].
  intros f F [<-|[<-|[]]] [= <-]; (split; [|split; [|left; discriminate]]).
  - split; [cbn; intuition discriminate|]. exists "x". reflexivity.
  - vm_compute. intuition discriminate.
  - split; [cbn; intuition discriminate|]. exists "y". reflexivity.
  - vm_compute. intuition discriminate.
Qed.

(** C50 *)
Theorem C50_gopath_refuted :
  ~ (forall first rest fs (st : state unit disk string string), first <> "" ->
     WriteGoFilesToGoPath exEnv d_format d_write d_close d_mkdir d_openFile (gopath_of first rest) 3 fs st =
     WriteGoFilesToFileSystem exEnv d_format d_write d_close d_mkdir d_openFile first 3 fs st).
Proof. exact gopath_refuted. Qed.
Print Assumptions C50_gopath_refuted.
(** What the function does instead, whatever GOPATH is: it fails and touches nothing. *)
Theorem C50_never_writes_partial : forall TD X H E (env : Env TD) fuel (format_Source : string -> string + E)
    (write : H -> string -> X -> done E * X) (close : H -> X -> done E * X)
    (mkdirAll : string -> X -> option E * X) (openFile : string -> X -> (H + E) * X) gopath fs (st : state TD X H E),
  WriteGoFilesToGoPath env format_Source write close mkdirAll openFile gopath fuel fs st =
    (Ret (Some (NewError "GOPATH is empty")), st).
Proof. exact @gopath_always_fails. Qed.
Print Assumptions C50_never_writes_partial.
Example C50_example : gopath_of "/go" ["/home/go"] = "/go:/home/go".
Proof. reflexivity. Qed.

(** C51 *)
Theorem C51_close_refuted :
  ~ (forall fs (st st' : state unit disk string string) es,
     WriteGoFiles exEnv d_format d_write d_close_bad d_open 3 fs st = (Ret None, st') -> trace st' = trace st ++ es ->
     forall h e, ~ In (EvClose h (Failed e)) es).
Proof. exact close_refuted. Qed.
Print Assumptions C51_close_refuted.
(** Close errors never change the outcome. *)
Theorem C51_dropped_partial : forall TD X H E (env : Env TD) fuel (format_Source : string -> string + E)
    (write : H -> string -> X -> done E * X) (close : H -> X -> done E * X) (outFn : string -> X -> opened H E * X)
    fs (st : state TD X H E),
  fst (WriteGoFiles env format_Source write (forgiving close) outFn fuel fs st) =
  fst (WriteGoFiles env format_Source write close outFn fuel fs st).
Proof. exact @close_errors_dropped. Qed.
Print Assumptions C51_dropped_partial.
Example C51_example : d_close_bad "h" [] = (Failed "no space left", []) /\ forgiving d_close_bad "h" [] = (Done, []).
Proof. split; reflexivity. Qed.
