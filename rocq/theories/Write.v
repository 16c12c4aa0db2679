(** Model of writing files (model.go:163-273).  The outside world - the open function, the
    writers, go/format, the file system - is unknown: an arbitrary state [X] and arbitrary
    functions on it.  What the code does with it is recorded in a trace.  Simplified: the open
    function and the writers do not change the files being written. *)
From Verif Require Import Base GoPath Types Imports Conv World.

Section Write.
Context {TD : Type}.
Variable env : Env TD.
(** external state, writers, errors *)
Context {X H E : Type}.
(** An io.WriteCloser may be nil. *)
Inductive opened := Opened (h : option H) | OpenErr (e : E) | OpenPanic (m : string).
Inductive done := Done | Failed (e : E) | Broke (m : string).
Inductive event :=
| EvOpen (path : string) (r : opened)
| EvWrite (h : H) (text : string) (r : done)
| EvClose (h : H) (r : done).
(** model.go:168-179 FormatError; errors of the outside world; errors.New *)
Inductive error := FormatError (unformatted : string) (e : E) | Outside (e : E) | NewError (m : string).
Inductive outcome := Ret (e : option error) | Panicked (m : string).
Record state := mkState { world : World TD; outside : X; trace : list event }.

(** go/format.Source, io.Writer.Write and io.Closer.Close *)
Variable format_Source : string -> string + E.
Variable write : H -> string -> X -> done * X.
Variable close : H -> X -> done * X.

(** model.go:196-216 WriteGoFile *)
Definition WriteGoFile (fuel : nat) (h : H) (f : nat) (st : state) : outcome * state :=
  match source env fuel f (world st) with
  | (Panic m, w1) => (Panicked m, mkState w1 (outside st) (trace st))
  | (Ok unformatted, w1) =>
      match format_Source unformatted with
      | inr e => (Ret (Some (FormatError unformatted e)), mkState w1 (outside st) (trace st))
      | inl formatted =>
          let '(r, x1) := write h formatted (outside st) in
          (match r with Done => Ret None | Failed e => Ret (Some (Outside e)) | Broke m => Panicked m end,
           mkState w1 x1 (trace st ++ [EvWrite h formatted r]))
      end
  end.
(** model.go:234-237: the deferred Close runs also when WriteGoFile panics; its error is dropped *)
Definition with_close (h : H) (body : state -> outcome * state) (st : state) : outcome * state :=
  let '(o, st1) := body st in
  let '(r, x1) := close h (outside st1) in
  (match r with Broke m => Panicked m | _ => o end,
   mkState (world st1) x1 (trace st1 ++ [EvClose h r])).
(** model.go:229 the path given to the open function *)
Definition file_path (F : GoFile) : string := filepath_Join (pkgPath (FImports F)) (FName F).
(** model.go:227-243 WriteGoFiles *)
Fixpoint WriteGoFiles (outFn : string -> X -> opened * X) (fuel : nat) (fs : list nat) (st : state)
  : outcome * state :=
  match fs with
  | [] => (Ret None, st)
  | f :: rest =>
      match nth_error (files (world st)) f with
      | None => (Panicked nil_deref, st)
      | Some F =>
          let '(r, x1) := outFn (file_path F) (outside st) in
          let st1 := mkState (world st) x1 (trace st ++ [EvOpen (file_path F) r]) in
          match r with
          | OpenErr e => (Ret (Some (Outside e)), st1)
          | OpenPanic m => (Panicked m, st1)
          | Opened None => (Panicked nil_deref, st1)       (* method call on a nil interface *)
          | Opened (Some h) =>
              match with_close h (WriteGoFile fuel h f) st1 with
              | (Ret None, st2) => WriteGoFiles outFn fuel rest st2
              | r => r
              end
          end
      end
  end.

(** os.MkdirAll and os.OpenFile(_, O_WRONLY|O_CREATE|O_TRUNC, 0666) *)
Variable mkdirAll : string -> X -> option E * X.
Variable openFile : string -> X -> (H + E) * X.
(** model.go:249-256 the open function *)
Definition fs_open (rootDir path : string) (x : X) : opened * X :=
  let fullPath := filepath_Join rootDir path in
  let dir := filepath_Dir fullPath in
  let '(e, x1) := mkdirAll dir x in
  match e with
  | Some e => (OpenErr e, x1)
  | None =>
      let '(r, x2) := openFile fullPath x1 in
      (match r with inl h => Opened (Some h) | inr e => OpenErr e end, x2)
  end.
(** model.go:248-257 WriteGoFilesToFileSystem *)
Definition WriteGoFilesToFileSystem (rootDir : string) := WriteGoFiles (fs_open rootDir).
(** model.go:263-273 WriteGoFilesToGoPath; [gopath] is the value of the environment variable and
    the list separator that of Unix.  strings.Split is split_on (its result is never empty). *)
Definition WriteGoFilesToGoPath (gopath : string) (fuel : nat) (fs : list nat) (st : state) : outcome * state :=
  if String.eqb gopath "" then (Ret (Some (NewError "GOPATH is empty")), st)
  else
    let paths := split_on ":"%char gopath in
    if negb (Nat.eqb (List.length paths) 0) then (Ret (Some (NewError "GOPATH is empty")), st)
    else match paths with
         | p :: _ => WriteGoFilesToFileSystem p fuel fs st
         | [] => (Panicked index_oob, st)
         end.
End Write.
Arguments opened : clear implicits.
Arguments done : clear implicits.
Arguments event : clear implicits.
Arguments error : clear implicits.
Arguments outcome : clear implicits.
Arguments state : clear implicits.
