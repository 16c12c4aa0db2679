(** Base definitions shared by the whole model: Go panics as values, a state
    monad that keeps the state on panic, byte strings and association lists.
    Nothing here models gopoet code itself. *)
From Coq Require Export String Ascii List Arith ZArith Lia Bool.
From Coq Require Import DecimalString DecimalN DecimalNat.
Export ListNotations.
Global Open Scope string_scope.
Global Open Scope list_scope.
Global Open Scope bool_scope.

(** Result of Go code that may panic. *)
Inductive res (A : Type) : Type :=
| Ok (a : A)
| Panic (msg : string).
Arguments Ok {A} a.
Arguments Panic {A} msg.

Definition is_ok {A} (r : res A) : bool := match r with Ok _ => true | Panic _ => false end.

Definition rbind {A B} (r : res A) (f : A -> res B) : res B :=
  match r with Ok a => f a | Panic m => Panic m end.

(** Message used for Go run-time errors (nil dereference, index out of range). *)
Definition nil_deref : string := "runtime error: invalid memory address or nil pointer dereference".
Definition index_oob : string := "runtime error: index out of range".
Definition out_of_fuel : string := "MODEL: out of fuel".

(** State + panic.  The state is kept when a panic occurs, as in Go. *)
Definition ST (S A : Type) : Type := S -> res A * S.
Definition sret {S A} (a : A) : ST S A := fun s => (Ok a, s).
Definition spanic {S A} (m : string) : ST S A := fun s => (Panic m, s).
Definition slift {S A} (r : res A) : ST S A := fun s => (r, s).
Definition sbind {S A B} (m : ST S A) (f : A -> ST S B) : ST S B :=
  fun s => match m s with
           | (Ok a, s') => f a s'
           | (Panic e, s') => (Panic e, s')
           end.
Notation "'do' x <- m ;; k" := (sbind m (fun x => k))
  (at level 200, x name, m at level 100, k at level 200, right associativity).
Notation "'do' ' p <- m ;; k" := (sbind m (fun x => match x with p => k end))
  (at level 200, p strict pattern, m at level 100, k at level 200, right associativity).

(** Buffer writes: a [res string] is the text written by a piece of code, or its panic. *)
Definition W (s : string) : res string := Ok s.
Definition bcat (a b : res string) : res string :=
  match a with
  | Ok x => match b with Ok y => Ok (x ++ y)%string | Panic m => Panic m end
  | Panic m => Panic m
  end.
Notation "a +++ b" := (bcat a b) (at level 60, right associativity).

(** Decimal rendering, as fmt's %d. *)
Definition dec (n : N) : string := NilZero.string_of_uint (N.to_uint n).
Definition decZ (z : Z) : string :=
  if (z <? 0)%Z then ("-" ++ dec (Z.to_N (- z)))%string else dec (Z.to_N z).

(** Association lists keyed by strings: the model of Go's [map[string]V]. *)
Fixpoint lookup {V} (k : string) (m : list (string * V)) : option V :=
  match m with
  | [] => None
  | (k', v) :: r => if String.eqb k k' then Some v else lookup k r
  end.
Fixpoint remove {V} (k : string) (m : list (string * V)) : list (string * V) :=
  match m with
  | [] => []
  | (k', v) :: r => if String.eqb k k' then remove k r else (k', v) :: remove k r
  end.
Definition insert {V} (k : string) (v : V) (m : list (string * V)) : list (string * V) :=
  (k, v) :: remove k m.

Definition ascii_eqb := Ascii.eqb.
Definition ch (n : nat) : ascii := ascii_of_nat n.
Definition code (c : ascii) : N := N_of_ascii c.
Definition newline : string := String (ascii_of_nat 10) "".
Definition dquote : string := String (ascii_of_nat 34) "".
Definition bquote : string := String (ascii_of_nat 96) "".

(** The last byte of a string, and the string without it. *)
Fixpoint last_byte (s : string) : option ascii :=
  match s with
  | EmptyString => None
  | String c EmptyString => Some c
  | String _ r => last_byte r
  end.
Fixpoint drop_last (s : string) : string :=
  match s with
  | EmptyString => EmptyString
  | String c EmptyString => EmptyString
  | String c r => String c (drop_last r)
  end.

(** strings.Split(s, sep) for a one-byte separator. *)
Fixpoint split_on (sep : ascii) (s : string) : list string :=
  match s with
  | EmptyString => [""]
  | String c r =>
      if Ascii.eqb c sep then "" :: split_on sep r
      else match split_on sep r with
           | [] => [String c ""]
           | x :: xs => String c x :: xs
           end
  end.

(** strings.Join. *)
Fixpoint join (sep : string) (l : list string) : string :=
  match l with
  | [] => ""
  | [x] => x
  | x :: r => (x ++ sep ++ join sep r)%string
  end.
