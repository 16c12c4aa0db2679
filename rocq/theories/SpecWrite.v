(** Specification of writing files: what may happen, seen from outside. *)
From Verif Require Import Base GoPath Types Imports Conv World Write.

Section Spec.
Context {TD X H E : Type}.
Variable env : Env TD.
Variable fuel : nat.
Variable format_Source : string -> string + E.
Notation event := (event H E).
Notation outcome := (outcome E).

(** The declarations after some files were rendered. *)
Definition world_after (w : World TD) (fs : list nat) : World TD :=
  fold_left (fun w f => snd (source env fuel f w)) fs w.
Definition file_at (w : World TD) (f : nat) (path : string) : Prop :=
  exists F, nth_error (files w) f = Some F /\ path = filepath_Join (pkgPath (FImports F)) (FName F).
Definition finished (r : done E) : Prop := match r with Broke _ => False | _ => True end.
(** A file written successfully: opened, its whole formatted source written at once, closed. *)
Inductive written_file (w : World TD) (f : nat) : list event -> Prop :=
| wf_done path h w1 text formatted c : file_at w f path ->
    source env fuel f w = (Ok text, w1) -> format_Source text = inl formatted -> finished c ->
    written_file w f [EvOpen path (Opened (Some h)); EvWrite h formatted Done; EvClose h c].
(** A file that stops the run, and what is then returned. *)
Inductive failed_file (w : World TD) (f : nat) : list event -> outcome -> Prop :=
| ff_missing : nth_error (files w) f = None -> failed_file w f [] (Panicked nil_deref)
| ff_open path e : file_at w f path -> failed_file w f [EvOpen path (OpenErr e)] (Ret (Some (Outside e)))
| ff_open_panic path m : file_at w f path -> failed_file w f [EvOpen path (OpenPanic m)] (Panicked m)
| ff_nil path : file_at w f path -> failed_file w f [EvOpen path (Opened None)] (Panicked nil_deref)
| ff_render path h w1 m c : file_at w f path -> source env fuel f w = (Panic m, w1) -> finished c ->
    failed_file w f [EvOpen path (Opened (Some h)); EvClose h c] (Panicked m)
| ff_format path h w1 text e c : file_at w f path ->
    source env fuel f w = (Ok text, w1) -> format_Source text = inr e -> finished c ->
    failed_file w f [EvOpen path (Opened (Some h)); EvClose h c] (Ret (Some (FormatError text e)))
| ff_write path h w1 text formatted e c : file_at w f path ->
    source env fuel f w = (Ok text, w1) -> format_Source text = inl formatted -> finished c ->
    failed_file w f [EvOpen path (Opened (Some h)); EvWrite h formatted (Failed e); EvClose h c] (Ret (Some (Outside e)))
| ff_write_panic path h w1 text formatted m c : file_at w f path ->
    source env fuel f w = (Ok text, w1) -> format_Source text = inl formatted -> finished c ->
    failed_file w f [EvOpen path (Opened (Some h)); EvWrite h formatted (Broke m); EvClose h c] (Panicked m)
| ff_close path h es m : file_at w f path ->
    es = [] \/ (exists w1 text formatted r, source env fuel f w = (Ok text, w1) /\ format_Source text = inl formatted /\
                                            es = [EvWrite h formatted r]) ->
    failed_file w f (EvOpen path (Opened (Some h)) :: es ++ [EvClose h (Broke m)]) (Panicked m).
(** Files written one after the other, each from what the previous ones left. *)
Inductive written_files (w : World TD) : list nat -> list event -> Prop :=
| ws_nil : written_files w [] []
| ws_snoc fs f es es' : written_files w fs es -> written_file (world_after w fs) f es' ->
    written_files w (fs ++ [f]) (es ++ es').

(** What happened outside: each call of the open function, Write and Close, with the result
    it gave, each from the state the previous one left. *)
Section Outside.
Variable outFn : string -> X -> opened H E * X.
Variable write : H -> string -> X -> done E * X.
Variable close : H -> X -> done E * X.
Inductive happened (x : X) : list event -> X -> Prop :=
| h_nil : happened x [] x
| h_open p r x1 es x2 : outFn p x = (r, x1) -> happened x1 es x2 -> happened x (EvOpen p r :: es) x2
| h_write h t r x1 es x2 : write h t x = (r, x1) -> happened x1 es x2 -> happened x (EvWrite h t r :: es) x2
| h_close h r x1 es x2 : close h x = (r, x1) -> happened x1 es x2 -> happened x (EvClose h r :: es) x2.
End Outside.

(** The calls of the open function: path and result. *)
Definition opens (es : list event) : list (string * opened H E) :=
  flat_map (fun e => match e with EvOpen p r => [(p, r)] | _ => [] end) es.
(** A file created on disk: its directory first, then the file itself. *)
Section Disk.
Variable mkdirAll : string -> X -> option E * X.
Variable openFile : string -> X -> (H + E) * X.
Inductive creates (dir file : string) (x : X) : opened H E -> X -> Prop :=
| cr_dir e x1 : mkdirAll dir x = (Some e, x1) -> creates dir file x (OpenErr e) x1
| cr_fail e x1 x2 : mkdirAll dir x = (None, x1) -> openFile file x1 = (inr e, x2) -> creates dir file x (OpenErr e) x2
| cr_open h x1 x2 : mkdirAll dir x = (None, x1) -> openFile file x1 = (inl h, x2) -> creates dir file x (Opened (Some h)) x2.
End Disk.

(** Every writer is closed once, right after at most one write to it, before anything else. *)
Definition closed_once (es : list event) : Prop :=
  forall a b path h, es = a ++ EvOpen path (Opened (Some h)) :: b ->
  exists mid r b', b = mid ++ EvClose h r :: b' /\
    (mid = [] \/ exists t d, mid = [EvWrite h t d]) /\
    (b' = [] \/ exists p o b'', b' = EvOpen p o :: b'').
(** Nothing happens to a writer that was not just opened. *)
Definition opened_first (es : list event) : Prop :=
  forall a b e, es = a ++ e :: b ->
  match e with
  | EvOpen _ _ => True
  | EvWrite h _ _ => exists a' p, a = a' ++ [EvOpen p (Opened (Some h))]
  | EvClose h _ => (exists a' p, a = a' ++ [EvOpen p (Opened (Some h))]) \/
                   (exists a' p t d, a = a' ++ [EvOpen p (Opened (Some h)); EvWrite h t d])
  end.
End Spec.

(** A close whose error is dropped. *)
Definition forgiving {X H E} (close : H -> X -> done E * X) (h : H) (x : X) : done E * X :=
  match close h x with (Failed _, x1) => (Done, x1) | r => r end.

(** ** Paths *)
(** The elements of a slash-separated path that name something. *)
Definition names_something (c : string) : bool := negb (String.eqb c "" || String.eqb c ".").
Definition elements (p : string) : list string := filter names_something (split_on slash p).
Definition no_dotdot (p : string) : Prop := ~ In ".." (split_on slash p).
(** [path] below the directory [root] *)
Definition below (root path : string) : string :=
  let r := filepath_Clean root in
  if String.eqb r "." then path else if String.eqb r "/" then ("/" ++ path)%string else (r ++ "/" ++ path)%string.
(** the directory of a package below [root], and a file in it *)
Definition package_dir (root importPath : string) : string :=
  match elements importPath with [] => filepath_Clean root | es => below root (join "/" es) end.
Definition package_file (root importPath name : string) : string :=
  below root (join "/" (elements importPath ++ [name])).
(** the entries of GOPATH *)
Definition gopath_of (first : string) (rest : list string) : string := join ":" (first :: rest).
