(** strconv.Quote and strconv.CanBackquote (Go standard library).  Printability of
    non-ASCII runes (strconv.IsPrint's tables) is the parameter [isPrint]. *)
From Verif Require Import Base Utf8.
Local Open Scope N_scope.

Definition hexdigit (n : N) : ascii :=
  if n <? 10 then ascii_of_N (48 + n) else ascii_of_N (87 + n).   (* lowerhex *)

Section Quote.
Variable isPrint : N -> bool.   (* strconv.IsPrint for runes >= 0x80 *)

Definition IsPrint (r : N) : bool :=
  if r <? 128 then between 32 126 r else isPrint r.

Definition bs (s : string) : string := String "\"%char s.
Definition hex2 (r : N) : string := String (hexdigit (r / 16)) (String (hexdigit (r mod 16)) "").
Definition hex4 (r : N) : string := (hex2 (r / 256) ++ hex2 (r mod 256))%string.
Definition hex8 (r : N) : string := (hex4 (r / 65536) ++ hex4 (r mod 65536))%string.

(** strconv.appendEscapedRune with the double quote character *)
Definition escapedRune (r : N) : string :=
  if (r =? 34) || (r =? 92) then bs (str1 r)
  else if IsPrint r then EncodeRune r
  else if r =? 7 then "\a"
  else if r =? 8 then "\b"
  else if r =? 12 then "\f"
  else if r =? 10 then "\n"
  else if r =? 13 then "\r"
  else if r =? 9 then "\t"
  else if r =? 11 then "\v"
  else if (r <? 32) || (r =? 127) then ("\x" ++ hex2 r)%string
  else if r <? 65536 then ("\u" ++ hex4 r)%string
  else ("\U" ++ hex8 r)%string.

(** strconv.appendQuotedWith: [skip] counts the bytes of the current rune still to be consumed. *)
Fixpoint quote_body (skip : nat) (s : string) : string :=
  match s with
  | EmptyString => EmptyString
  | String c r =>
      match skip with
      | S k => quote_body k r
      | O =>
          let '(rn, w) := DecodeRuneInString s in
          if (Nat.eqb w 1) && (rn =? RuneError)
          then ("\x" ++ hex2 (code c) ++ quote_body 0 r)%string
          else (escapedRune rn ++ quote_body (Nat.pred w) r)%string
      end
  end.
Definition Quote (s : string) : string := (dquote ++ quote_body 0 s ++ dquote)%string.
End Quote.

(** strconv.CanBackquote *)
Fixpoint can_backquote (skip : nat) (s : string) : bool :=
  match s with
  | EmptyString => true
  | String c r =>
      match skip with
      | S k => can_backquote k r
      | O =>
          let '(rn, w) := DecodeRuneInString s in
          if Nat.ltb 1 w then
            if rn =? 65279 then false else can_backquote (Nat.pred w) r
          else if rn =? RuneError then false
          else if ((rn <? 32) && negb (rn =? 9)) || (rn =? 96) || (rn =? 127) then false
          else can_backquote 0 r
      end
  end.
Definition CanBackquote (s : string) : bool := can_backquote 0 s.
