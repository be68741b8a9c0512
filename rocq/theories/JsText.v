(** The values of JavaScript string and template literals (ECMA-262, sections 12.9.4 and
    12.9.6, with the legacy escapes of sloppy mode).  This is specification: nothing here
    is taken from /repo.

    Source text is a list of code points, a value a list of UTF-16 code units. *)
From Coq Require Import Bool List ZArith.
Import ListNotations.
Open Scope Z_scope.

(** Unicode scalar values. *)
Definition scalar (c : Z) : Prop := 0 <= c < 55296 \/ 57343 < c <= 1114111.

(** UTF-16. *)
Definition units (c : Z) : list Z :=
  if c <? 65536 then [c] else [55296 + (c - 65536) / 1024; 56320 + (c - 65536) mod 1024].

(** Where the text stands: between quotes [q], in strict mode or not; or in a template. *)
Inductive place := Str (q : Z) (strict : bool) | Tpl.

Definition newline (c : Z) : Prop := c = 10 \/ c = 13 \/ c = 8232 \/ c = 8233.
Definition decimal (c : Z) : Prop := 48 <= c <= 57.
Definition octal (c : Z) : Prop := 48 <= c <= 55.
(** [c] is a hexadecimal digit of value [v]. *)
Inductive hexd : Z -> Z -> Prop :=
| hex_num c : 48 <= c <= 57 -> hexd c (c - 48)
| hex_up c : 65 <= c <= 70 -> hexd c (c - 55)
| hex_low c : 97 <= c <= 102 -> hexd c (c - 87).
(** A sequence of hexadecimal digits read after [acc]. *)
Inductive hexs (acc : Z) : list Z -> Z -> Prop :=
| hexs_nil : hexs acc [] acc
| hexs_cons c v l z : hexd c v -> hexs (acc * 16 + v) l z -> hexs acc (c :: l) z.

(** The single-character escapes: b f n r t v, the two quotes and the backslash. *)
Inductive single : Z -> Z -> Prop :=
| s_b : single 98 8 | s_f : single 102 12 | s_n : single 110 10 | s_r : single 114 13
| s_t : single 116 9 | s_v : single 118 11 | s_q : single 39 39 | s_qq : single 34 34 | s_bs : single 92 92.

Definition sloppy_string (m : place) : Prop := exists q, m = Str q false.
Definition next_is (P : Z -> Prop) (r : list Z) : Prop := exists c r', r = c :: r' /\ P c.

(** [escape m e r v]: after a backslash, the characters [e] (followed by [r]) stand for the
    code units [v]. *)
Inductive escape (m : place) : list Z -> list Z -> list Z -> Prop :=
| e_single c v r : single c v -> escape m [c] r [v]
| e_self c r : (forall v, ~ single c v) -> ~ decimal c -> c <> 120 -> c <> 117 -> ~ newline c ->
    escape m [c] r (units c)
| e_zero r : ~ next_is decimal r -> escape m [48] r [0]
| e_x a b v r : hexs 0 [a; b] v -> escape m [120; a; b] r [v]
| e_u a b c d v r : hexs 0 [a; b; c; d] v -> escape m [117; a; b; c; d] r [v]
| e_brace ds v r : ds <> [] -> hexs 0 ds v -> v <= 1114111 -> escape m (117 :: 123 :: ds ++ [125]) r (units v)
| e_line c r : newline c -> (c = 13 -> ~ next_is (eq 10) r) -> escape m [c] r []
| e_crlf r : escape m [13; 10] r []
  (* sloppy-mode string literals only *)
| e_zero89 r : sloppy_string m -> next_is (fun c => c = 56 \/ c = 57) r -> escape m [48] r [0]
| e_89 c r : sloppy_string m -> c = 56 \/ c = 57 -> escape m [c] r [c]
| e_oct1 a r : sloppy_string m -> 49 <= a <= 55 -> ~ next_is octal r -> escape m [a] r [a - 48]
| e_oct2 a b r : sloppy_string m -> octal a -> octal b -> (a <= 51 -> ~ next_is octal r) ->
    escape m [a; b] r [(a - 48) * 8 + (b - 48)]
| e_oct3 a b c r : sloppy_string m -> 48 <= a <= 51 -> octal b -> octal c ->
    escape m [a; b; c] r [(a - 48) * 64 + (b - 48) * 8 + (c - 48)].

(** [plain m c r]: the character [c], followed by [r], stands for itself. *)
Definition plain (m : place) (c : Z) (r : list Z) : Prop :=
  c <> 92 /\
  match m with
  | Str q _ => c <> q /\ c <> 10 /\ c <> 13
  | Tpl => c <> 96 /\ c <> 13 /\ (c = 36 -> ~ next_is (eq 123) r)
  end.

(** The inside of a literal and its value. *)
Inductive chars (m : place) : list Z -> list Z -> Prop :=
| c_nil : chars m [] []
| c_plain c r v : plain m c r -> chars m r v -> chars m (c :: r) (units c ++ v)
| c_esc e r u v : escape m e r u -> chars m r v -> chars m (92 :: e ++ r) (u ++ v)
| c_cr r v : m = Tpl -> ~ next_is (eq 10) r -> chars m r v -> chars m (13 :: r) (10 :: v)
| c_crlf r v : m = Tpl -> chars m r v -> chars m (13 :: 10 :: r) (10 :: v).

(** A whole string literal. *)
Definition string_literal (strict : bool) (src v : list Z) : Prop :=
  exists q body, (q = 39 \/ q = 34) /\ src = q :: body ++ [q] /\ chars (Str q strict) body v.

(** Texts in which every backslash is followed by the character it escapes. *)
Inductive complete : list Z -> Prop :=
| cp_nil : complete []
| cp_char c r : c <> 92 -> complete r -> complete (c :: r)
| cp_esc c r : complete r -> complete (92 :: c :: r).
