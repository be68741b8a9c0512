(** Regular expressions made of literal characters, escapes, [.], [^] and [$] (ECMA-262,
    section 22.2, with Annex B), and what they match.  Specification: nothing here is taken
    from /repo.  Groups, classes and quantifiers are outside: the rules concerned reject
    every pattern with one of their characters. *)
From Coq Require Import Bool List ZArith.
From Verif Require Import JsText.
Import ListNotations.
Open Scope Z_scope.

Inductive rx := REmpty | RUnit (u : Z) | RAny | RStart | REnd | RSeq (x y : rx).

(** [matches eqv s x i j]: [x] matches the subject [s] from position [i] to [j]; [eqv] says
    which characters count as the same (equality, unless the flag [i] is given). *)
Inductive matches (eqv : Z -> Z -> Prop) (s : list Z) : rx -> nat -> nat -> Prop :=
| m_empty i : (i <= List.length s)%nat -> matches eqv s REmpty i i
| m_unit i u v : nth_error s i = Some v -> eqv u v -> matches eqv s (RUnit u) i (S i)
| m_any i v : nth_error s i = Some v -> ~ newline v -> matches eqv s RAny i (S i)
| m_start : matches eqv s RStart 0 0
| m_end : matches eqv s REnd (List.length s) (List.length s)
| m_seq x y i j k : matches eqv s x i j -> matches eqv s y j k -> matches eqv s (RSeq x y) i k.

(** [re.test(s)]. *)
Definition test_with (eqv : Z -> Z -> Prop) (x : rx) (s : list Z) : Prop := exists i j, matches eqv s x i j.
Definition test : rx -> list Z -> Prop := test_with eq.
(** With the flag [i], for ASCII letters. *)
Definition fold_case (c : Z) : Z := if (97 <=? c) && (c <=? 122) then c - 32 else c.
Definition test_ignoring_case : rx -> list Z -> Prop := test_with (fun u v => fold_case u = fold_case v).

(** The characters [us] one after the other, then [x]. *)
Definition lit (us : list Z) (x : rx) : rx := fold_right (fun u k => RSeq (RUnit u) k) x us.

(** The characters that do not stand for themselves: ^ $ \ . * + ? ( ) [ ] { } | *)
Definition syntax_char (c : Z) : Prop :=
  In c [94; 36; 92; 46; 42; 43; 63; 40; 41; 91; 93; 123; 125; 124].

(** The syntax: source and meaning.  [E] are the character escapes, [U c] the characters of
    the subject that a plain character [c] of the source stands for. *)
Inductive pattern_of (U : Z -> list Z) (E : list Z -> list Z -> list Z -> Prop) : list Z -> rx -> Prop :=
| p_nil : pattern_of U E [] REmpty
| p_start r x : pattern_of U E r x -> pattern_of U E (94 :: r) (RSeq RStart x)
| p_end r x : pattern_of U E r x -> pattern_of U E (36 :: r) (RSeq REnd x)
| p_any r x : pattern_of U E r x -> pattern_of U E (46 :: r) (RSeq RAny x)
| p_char c r x : ~ syntax_char c -> pattern_of U E r x -> pattern_of U E (c :: r) (lit (U c) x)
| p_esc e r u x : E e r u -> pattern_of U E r x -> pattern_of U E (92 :: e ++ r) (lit u x).
Arguments p_nil {U} E.
Arguments p_start {U} E.
Arguments p_end {U} E.
Arguments p_any {U} E.
Arguments p_char {U} E.
Arguments p_esc {U} E.
(** Without the flags [u] and [v] the subject is a list of code units. *)
Notation pattern := (pattern_of units).

(** \f \n \r \t \v *)
Inductive control : Z -> Z -> Prop :=
| k_f : control 102 12 | k_n : control 110 10 | k_r : control 114 13 | k_t : control 116 9 | k_v : control 118 11.

(** Letters that start something else after a backslash: b B c d D s S u w W x. *)
Definition special_letter (c : Z) : Prop := In c [98; 66; 99; 100; 68; 115; 83; 117; 119; 87; 120].

(** [cescape e r us]: after a backslash, [e] followed by [r] stands for the code units [us]
    (no flag [u] or [v], no groups in the pattern). *)
Inductive cescape : list Z -> list Z -> list Z -> Prop :=
| x_control c v r : control c v -> cescape [c] r [v]
| x_zero r : ~ next_is octal r -> cescape [48] r [0]
| x_hex a c v r : hexs 0 [a; c] v -> cescape [120; a; c] r [v]
| x_uni a c d e v r : hexs 0 [a; c; d; e] v -> cescape [117; a; c; d; e] r [v]
| x_letter l r : 65 <= l <= 90 \/ 97 <= l <= 122 -> cescape [99; l] r [l mod 32]
| x_oct1 a r : 49 <= a <= 55 -> ~ next_is octal r -> cescape [a] r [a - 48]
| x_oct2 a c r : octal a -> octal c -> (a <= 51 -> ~ next_is octal r) -> cescape [a; c] r [(a - 48) * 8 + (c - 48)]
| x_oct3 a c d r : 48 <= a <= 51 -> octal c -> octal d -> cescape [a; c; d] r [(a - 48) * 64 + (c - 48) * 8 + (d - 48)]
| x_self c r : (forall v, ~ control c v) -> ~ octal c -> ~ special_letter c -> cescape [c] r (units c).

(** With the flag [u] or [v] only these escapes of single characters are allowed, and the
    subject is a list of code points: [ucescape e r [c]]. *)
Inductive ucescape : list Z -> list Z -> list Z -> Prop :=
| ux_control c v r : control c v -> ucescape [c] r [v]
| ux_zero r : ~ next_is decimal r -> ucescape [48] r [0]
| ux_self c r : syntax_char c \/ c = 47 -> ucescape [c] r [c].
Definition upattern : list Z -> rx -> Prop := pattern_of (fun c => [c]) ucescape.

(** The code points of a string (section 11.1.4). *)
Fixpoint code_points (s : list Z) : list Z :=
  match s with
  | [] => []
  | h :: r =>
      match r with
      | l :: r' =>
          if (55296 <=? h) && (h <=? 56319) && (56320 <=? l) && (l <=? 57343)
          then (h - 55296) * 1024 + (l - 56320) + 65536 :: code_points r'
          else h :: code_points r
      | [] => [h]
      end
  end.

(** The octal escapes of Annex B, and \0 before a digit. *)
Definition legacy_escape (e r : list Z) : Prop :=
  exists c t, e = c :: t /\ decimal c /\ (e = [48] -> next_is decimal r).

(** [text] is the source of a regular expression literal with pattern [p] and flags. *)
Definition regex_source (text p flags : list Z) : Prop := text = 47 :: p ++ 47 :: flags /\ ~ In 47 flags.
