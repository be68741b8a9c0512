(** Model of internal/utils/string_literal.go. *)
From Coq Require Import String Ascii Bool List ZArith.
From Verif Require Import Base Utf8.
Import ListNotations.
Open Scope Z_scope.

(** One digit of [strconv.FormatInt(_, 16)] after [strings.ToUpper]. *)
Definition hex_digit (d : Z) : ascii := if d <? 10 then zb (48 + d) else zb (55 + d).
(** [strings.ToUpper(strconv.FormatInt(z, 16))] for [0 <= z]; [fuel]: 16 digits suffice for
    an int64. *)
Fixpoint format_hex (fuel : nat) (z : Z) : bstr :=
  match fuel with
  | O => []
  | S fuel' => if z <? 16 then [hex_digit z] else format_hex fuel' (z / 16) ++ [hex_digit (z mod 16)]
  end.
(** string_literal.go:44-51. *)
Definition unicode_escape (ch : Z) : bstr :=
  let hex := format_hex 16 ch in
  b "\u" ++ repeat "0"%char (4 - List.length hex) ++ hex.

(** string_literal.go:13-38, one round of the loop. *)
Definition quote_rune (ch : Z) : bstr :=
  if ch =? 9 then b "\t"
  else if ch =? 11 then b "\v"
  else if ch =? 12 then b "\f"
  else if ch =? 8 then b "\b"
  else if ch =? 13 then b "\r"
  else if ch =? 10 then b "\n"
  else if ch =? 92 then b "\\"
  else if ch =? 39 then b "\'"
  else if (ch =? 8232) || (ch =? 8233) || (ch =? 133) then unicode_escape ch
  else if ch <=? 31 then unicode_escape ch
  else enc ch.

(** string_literal.go:8-42. *)
Definition quote_single (value : bstr) : bstr :=
  b "'" ++ flat_map quote_rune (runes value) ++ b "'".
