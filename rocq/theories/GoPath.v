(** The functions of Go's "path" and "path/filepath" (Unix) packages that gopoet
    calls.  They are standard-library code, not gopoet code; the definitions
    follow the documented Go algorithms. *)
From Verif Require Import Base.

Definition slash : ascii := "/"%char.

(** path.Base and filepath.Base (Unix):
    strip trailing slashes, keep what follows the last slash;
    "" gives "." and a string of slashes gives "/". *)
Fixpoint strip_trailing_slashes (s : string) : string :=
  match s with
  | EmptyString => EmptyString
  | String c r =>
      match strip_trailing_slashes r with
      | EmptyString => if Ascii.eqb c slash then EmptyString else String c EmptyString
      | r' => String c r'
      end
  end.
Fixpoint has_byte (b : ascii) (s : string) : bool :=
  match s with
  | EmptyString => false
  | String c r => Ascii.eqb c b || has_byte b r
  end.
(** what follows the last slash (the whole string if there is none) *)
Fixpoint after_last_slash (s : string) : string :=
  match s with
  | EmptyString => EmptyString
  | String c r =>
      if has_byte slash r then after_last_slash r
      else if Ascii.eqb c slash then r else String c r
  end.
Definition path_Base (p : string) : string :=
  if String.eqb p "" then "."
  else let p' := after_last_slash (strip_trailing_slashes p) in
       if String.eqb p' "" then "/" else p'.
Definition filepath_Base := path_Base.

(** filepath.Ext: the suffix beginning at the final dot in the final element, or "". *)
Fixpoint ext_of_elem (s : string) : string :=   (* s has no slash *)
  match s with
  | EmptyString => EmptyString
  | String c r =>
      match ext_of_elem r with
      | EmptyString => if Ascii.eqb c "."%char then s else EmptyString
      | e => e
      end
  end.
Definition filepath_Ext (p : string) : string := ext_of_elem (after_last_slash p).

(** filepath.Clean, by components (Go works in place on a lazily copied buffer;
    the component-wise description is the one in its documentation).
    [acc] holds the kept components, last one first. *)
Fixpoint clean_comps (rooted : bool) (acc : list string) (cs : list string) : list string :=
  match cs with
  | [] => rev acc
  | c :: r =>
      if String.eqb c "" || String.eqb c "." then clean_comps rooted acc r
      else if String.eqb c ".." then
        match acc with
        | a :: acc' => if String.eqb a ".." then clean_comps rooted (".." :: acc) r
                       else clean_comps rooted acc' r
        | [] => if rooted then clean_comps rooted [] r
                else clean_comps rooted [".."] r
        end
      else clean_comps rooted (c :: acc) r
  end.
Definition is_rooted (p : string) : bool :=
  match p with String c _ => Ascii.eqb c slash | _ => false end.
Definition filepath_Clean (p : string) : string :=
  let rooted := is_rooted p in
  let cs := clean_comps rooted [] (split_on slash p) in
  if rooted then ("/" ++ join "/" cs)%string
  else match cs with [] => "." | _ => join "/" cs end.

(** filepath.Join(a, b): empty elements are ignored, the result is cleaned. *)
Definition filepath_Join (a b : string) : string :=
  if String.eqb a "" then (if String.eqb b "" then "" else filepath_Clean b)
  else filepath_Clean (a ++ "/" ++ b)%string.

(** filepath.Dir(p) = Clean(everything up to and including the last slash). *)
Fixpoint upto_last_slash (s : string) : string :=
  match s with
  | EmptyString => EmptyString
  | String c r =>
      if has_byte slash r then String c (upto_last_slash r)
      else if Ascii.eqb c slash then String c EmptyString else EmptyString
  end.
Definition filepath_Dir (p : string) : string := filepath_Clean (upto_last_slash p).
