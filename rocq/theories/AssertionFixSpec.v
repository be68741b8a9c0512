(** Source texts with assertions. *)
From Coq Require Import Bool Arith ZArith Ascii String List.
From Verif Require Import Base.
From Verif Require Import AssertionFix.
Import ListNotations.

(** x /* a */ as /* b */ T: [gap] is kept, [space] is white space up to the as. *)
Record as_text := { before : bstr; operand : bstr; gap : bstr; space : bstr; mid : bstr; written : bstr; after : bstr }.
Definition as_code (s : as_text) : bstr := before s ++ operand s ++ gap s ++ space s ++ b "as" ++ mid s ++ written s ++ after s.
Definition as_at (s : as_text) : as_places :=
  let e := (List.length (before s) + List.length (operand s))%nat in
  let p := (e + List.length (gap s) + List.length (space s))%nat in
  let q := (p + 2 + List.length (mid s))%nat in
  {| expression_end := e; as_pos := p; as_end := p + 2; type_pos := q; type_end := q + List.length (written s) |}.
(** White space as bytes: of ASCII, or the byte 160. *)
Definition white_byte (c : ascii) : Prop := In (nat_of_ascii c) [9; 10; 11; 12; 13; 32; 160]%nat.
Definition divided (s : as_text) : Prop :=
  Forall white_byte (space s) /\ forall g c, gap s = g ++ [c] -> ~ white_byte c.
(** [pat] stands at [i] of [t]. *)
Definition stands (pat t : bstr) (i : nat) : Prop := exists u v, t = u ++ pat ++ v /\ List.length u = i.
