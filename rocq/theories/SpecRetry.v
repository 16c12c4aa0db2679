(** Spec for C113: calls of WriteGoFiles, and data of a file's templates. *)
From Verif Require Import Base Types Imports World Write Template SpecTemplate SpecFileTemplate SpecLocalData.

(** The data are as Go's type system allows, without specs and without pointers to interfaces. *)
Definition free_data (implements : gty -> string -> bool) (w : World (option val)) (f : nat) : Prop :=
  forall d, template_data w f d -> typed implements (data d) /\ without_specs d /\ plain_pointers (data d).
(** Any number of calls of WriteGoFiles, each with its functions, and with whatever outcome; the files
    are those given to the calls, one list after the other. *)
Inductive write_calls {TD} (env : Env TD) (fuel : nat) : list nat -> World TD -> World TD -> Prop :=
| wc_none w : write_calls env fuel [] w w
| wc_call X H E (format_Source : string -> string + E) (write : H -> string -> X -> done E * X) (close : H -> X -> done E * X) outFn
    l st o st' l' w' : WriteGoFiles env format_Source write close outFn fuel l st = (o, st') ->
    write_calls env fuel l' (world st') w' -> write_calls env fuel (l ++ l') (world st) w'.
