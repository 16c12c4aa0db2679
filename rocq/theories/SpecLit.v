(** Specification: the value of a Go string literal (Go spec, "String literals"),
    independent of strconv. *)
From Verif Require Import Base Utf8.
Local Open Scope N_scope.

Definition hexval (c : ascii) : option N :=
  let b := code c in
  if between 48 57 b then Some (b - 48)
  else if between 97 102 b then Some (b - 87)
  else if between 65 70 b then Some (b - 55)
  else None.
Definition octval (c : ascii) : option N :=
  let b := code c in if between 48 55 b then Some (b - 48) else None.

Definition omap {A B} (f : A -> B) (o : option A) : option B :=
  match o with Some a => Some (f a) | None => None end.

Fixpoint hexnum (acc : N) (l : list ascii) : option N :=
  match l with
  | [] => Some acc
  | c :: r => match hexval c with Some v => hexnum (acc * 16 + v) r | None => None end
  end.

Definition simple_escape (c : ascii) : option N :=
  let b := code c in
  if b =? 97 then Some 7 else if b =? 98 then Some 8 else if b =? 102 then Some 12
  else if b =? 110 then Some 10 else if b =? 114 then Some 13 else if b =? 116 then Some 9
  else if b =? 118 then Some 11 else if b =? 92 then Some 92 else if b =? 34 then Some 34
  else None.

Definition valid_rune (r : N) : bool := (r <=? 1114111) && negb (between 55296 57343 r).

(** Value of the text between the quotes of an interpreted string literal. *)
Fixpoint interp_body (s : string) : option string :=
  match s with
  | EmptyString => Some ""
  | String c r =>
      if code c =? 34 then None                  (* unescaped quote: literal would end *)
      else if code c =? 10 then None             (* newline not allowed *)
      else if code c =? 92 then
        match r with
        | String x ((String h1 (String h2 r')) as r1) =>
            if code x =? 120 then                                      (* \xHH: one byte *)
              match hexnum 0 [h1; h2] with
              | Some v => omap (String (byte_of v)) (interp_body r')
              | None => None
              end
            else if code x =? 117 then                                 (* \uHHHH *)
              match r' with
              | String h3 (String h4 r'') =>
                  match hexnum 0 [h1; h2; h3; h4] with
                  | Some v => if valid_rune v
                              then omap (append (EncodeRune v)) (interp_body r'') else None
                  | None => None
                  end
              | _ => None
              end
            else if code x =? 85 then                                  (* \UHHHHHHHH *)
              match r' with
              | String h3 (String h4 (String h5 (String h6 (String h7 (String h8 r''))))) =>
                  match hexnum 0 [h1; h2; h3; h4; h5; h6; h7; h8] with
                  | Some v => if valid_rune v
                              then omap (append (EncodeRune v)) (interp_body r'') else None
                  | None => None
                  end
              | _ => None
              end
            else match simple_escape x with
                 | Some v => omap (String (byte_of v)) (interp_body r1)
                 | None =>
                     match octval x, octval h1, octval h2 with          (* \ooo *)
                     | Some a, Some b, Some d =>
                         let v := a * 64 + b * 8 + d in
                         if v <=? 255 then omap (String (byte_of v)) (interp_body r') else None
                     | _, _, _ => None
                     end
                 end
        | String x r' =>
            match simple_escape x with
            | Some v => omap (String (byte_of v)) (interp_body r')
            | None => None
            end
        | EmptyString => None
        end
      else omap (String c) (interp_body r)
  end.

(** Value of the text between backquotes: carriage returns are discarded. *)
Fixpoint raw_body (s : string) : option string :=
  match s with
  | EmptyString => Some ""
  | String c r =>
      if code c =? 96 then None
      else if code c =? 13 then raw_body r
      else omap (String c) (raw_body r)
  end.

(** A complete literal: delimiter, body, delimiter. *)
Fixpoint strip_last (s : string) : option (string * ascii) :=
  match s with
  | EmptyString => None
  | String c EmptyString => Some ("", c)
  | String c r => match strip_last r with Some (b, l) => Some (String c b, l) | None => None end
  end.
Definition literal_value (lit : string) : option string :=
  match lit with
  | String q r =>
      match strip_last r with
      | Some (body, q') =>
          if (code q =? 34) && (code q' =? 34) then interp_body body
          else if (code q =? 96) && (code q' =? 96) then raw_body body
          else None
      | None => None
      end
  | EmptyString => None
  end.
