(** The part of package fmt (Go standard library) that gopoet relies on: Printf-style formats
    made of literal text, [%%] and plain verbs without flags, widths or argument indexes.
    Everything else fmt can do is left to the oracles of [World.v]. *)
From Verif Require Import Base.

(** A format split at its verbs. *)
Inductive fpiece := FLit (c : ascii) | FVerb (c : ascii) | FNoVerb.
(** Bytes after which a directive goes on (flags, width, precision, argument index) or that
    start a multi-byte verb: such formats are not modelled. *)
Definition complex_directive (c : ascii) : bool :=
  existsb (Ascii.eqb c)
    ["#"; "0"; "1"; "2"; "3"; "4"; "5"; "6"; "7"; "8"; "9"; "+"; "-"; " "; "["; "*"; "."]%char
  || (128 <=? code c)%N.
(** [None]: the format uses features outside the model. *)
Fixpoint parse_format (s : string) : option (list fpiece) :=
  match s with
  | EmptyString => Some []
  | String c r =>
      if Ascii.eqb c "%"%char then
        match r with
        | EmptyString => Some [FNoVerb]
        | String v r' =>
            if complex_directive v then None
            else match parse_format r' with
                 | Some l => Some ((if Ascii.eqb v "%"%char then FLit "%"%char else FVerb v) :: l)
                 | None => None
                 end
        end
      else match parse_format r with
           | Some l => Some (FLit c :: l)
           | None => None
           end
  end.

(** fmt.doPrintf for such formats: the verbs consume the arguments in order.  Returns the text
    and the arguments left over (fmt reports those as EXTRA). *)
Section Apply.
Context {A : Type} (show : ascii -> A -> string).
Fixpoint apply_format (l : list fpiece) (args : list A) : string * list A :=
  match l with
  | [] => ("", args)
  | FLit c :: r => let '(s, a) := apply_format r args in (String c s, a)
  | FNoVerb :: r => let '(s, a) := apply_format r args in (("%!(NOVERB)" ++ s)%string, a)
  | FVerb v :: r =>
      match args with
      | [] => let '(s, a) := apply_format r [] in
              (("%!" ++ String v "(MISSING)" ++ s)%string, a)
      | x :: args' => let '(s, a) := apply_format r args' in ((show v x ++ s)%string, a)
      end
  end.
End Apply.
