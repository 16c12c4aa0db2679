(** UTF-8 as implemented by Go's unicode/utf8 (standard library).  Runes are [N];
    bit operations are written as arithmetic. *)
From Verif Require Import Base.
Local Open Scope N_scope.

Definition RuneError : N := 65533.        (* '�' *)

Definition byte_of (n : N) : ascii := ascii_of_N n.
Definition cont_byte (b : N) : bool := (128 <=? b) && (b <=? 191).
Definition between (lo hi b : N) : bool := (lo <=? b) && (b <=? hi).

(** Accepted range of the second byte, by leading byte (utf8.acceptRanges). *)
Definition second_ok (b0 b1 : N) : bool :=
  if b0 =? 224 then between 160 191 b1
  else if b0 =? 237 then between 128 159 b1
  else if b0 =? 240 then between 144 191 b1
  else if b0 =? 244 then between 128 143 b1
  else cont_byte b1.

(** utf8.DecodeRuneInString: the first rune and its width in bytes; (RuneError, 0)
    for the empty string, (RuneError, 1) for an invalid encoding. *)
Definition DecodeRuneInString (s : string) : N * nat :=
  match s with
  | EmptyString => (RuneError, 0%nat)
  | String c0 r0 =>
      let b0 := code c0 in
      if b0 <? 128 then (b0, 1%nat)
      else if b0 <? 194 then (RuneError, 1%nat)
      else if b0 <? 224 then
        match r0 with
        | String c1 _ =>
            let b1 := code c1 in
            if second_ok b0 b1 then ((b0 - 192) * 64 + (b1 - 128), 2%nat)
            else (RuneError, 1%nat)
        | _ => (RuneError, 1%nat)
        end
      else if b0 <? 240 then
        match r0 with
        | String c1 (String c2 _) =>
            let b1 := code c1 in let b2 := code c2 in
            if second_ok b0 b1 && cont_byte b2
            then ((b0 - 224) * 4096 + (b1 - 128) * 64 + (b2 - 128), 3%nat)
            else (RuneError, 1%nat)
        | _ => (RuneError, 1%nat)
        end
      else if b0 <? 245 then
        match r0 with
        | String c1 (String c2 (String c3 _)) =>
            let b1 := code c1 in let b2 := code c2 in let b3 := code c3 in
            if second_ok b0 b1 && cont_byte b2 && cont_byte b3
            then ((b0 - 240) * 262144 + (b1 - 128) * 4096 + (b2 - 128) * 64 + (b3 - 128), 4%nat)
            else (RuneError, 1%nat)
        | _ => (RuneError, 1%nat)
        end
      else (RuneError, 1%nat)
  end.

Definition str1 (a : N) : string := String (byte_of a) "".
Definition enc3 (r : N) : string :=
  String (byte_of (224 + r / 4096)) (String (byte_of (128 + (r / 64) mod 64)) (str1 (128 + r mod 64))).

(** string(rune) / utf8.EncodeRune. *)
Definition EncodeRune (r : N) : string :=
  if r <? 128 then str1 r
  else if r <? 2048 then String (byte_of (192 + r / 64)) (str1 (128 + r mod 64))
  else if (1114111 <? r) || between 55296 57343 r then enc3 RuneError
  else if r <? 65536 then enc3 r
  else String (byte_of (240 + r / 262144))
         (String (byte_of (128 + (r / 4096) mod 64))
            (String (byte_of (128 + (r / 64) mod 64)) (str1 (128 + r mod 64)))).

(** s[n:] *)
Fixpoint drop (n : nat) (s : string) : string :=
  match n, s with
  | O, _ => s
  | S _, EmptyString => EmptyString
  | S k, String _ r => drop k r
  end.
