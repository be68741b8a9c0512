(** Source code with an underline, in the snapshots of rule tests: internal/rule_tester/snapshot.go 268-368 [renderSourceAnnotation], [adjustForTabs].
    [position] is scanner.GetECMALineAndUTF16CharacterOfPosition of the source file (not in this repository), from 0.  A missing source file (272-274: no text) is left out.
    Positions are not negative. *)
From Coq Require Import Bool Arith Ascii String List.
From Verif Require Import Base.
Import ListNotations.
Local Open Scope list_scope.

Definition newline : ascii := ascii_of_nat 10.
Definition tab : ascii := ascii_of_nat 9.
Definition return_ : ascii := ascii_of_nat 13.
(** strings.Split(code, "\n") (276) *)
Fixpoint split_lines (s : bstr) : list bstr :=
  match s with
  | [] => [[]]
  | c :: s => if Ascii.eqb c newline then [] :: split_lines s else match split_lines s with l :: ls => (c :: l) :: ls | [] => [[c]] end
  end.
(** 284 *)
Definition is_blank (c : ascii) : bool := Ascii.eqb c " " || Ascii.eqb c tab || Ascii.eqb c newline || Ascii.eqb c return_.
(** 282-289: how many characters at the front are blank, [n] at most. *)
Fixpoint blanks (s : bstr) (n : nat) : nat :=
  match n, s with S n, c :: s => if is_blank c then S (blanks s n) else 0 | _, _ => 0 end.
Definition start_of (code : bstr) (pos end_ : nat) : nat := pos + blanks (skipn pos code) (end_ - pos).
(** 310 strings.ReplaceAll *)
Fixpoint expand (line : bstr) : bstr :=
  match line with [] => [] | c :: line => (if Ascii.eqb c tab then b "    " else [c]) ++ expand line end.
(** 357-368 [adjustForTabs] *)
Fixpoint adjust (line : bstr) (col : nat) : nat :=
  match col, line with S col, c :: line => (if Ascii.eqb c tab then 4 else 1) + adjust line col | _, _ => 0 end.
(** strconv.Itoa, %d *)
Fixpoint digits (fuel n : nat) : bstr :=
  match fuel with
  | 0 => []
  | S fuel => (if n <? 10 then [] else digits fuel (n / 10)) ++ [ascii_of_nat (48 + n mod 10)]
  end.
Definition itoa (n : nat) : bstr := digits (S n) n.
(** %*d, %*s *)
Definition pad (width : nat) (s : bstr) : bstr := repeat " "%char (width - List.length s) ++ s.
(** strings.TrimRight(_, " ") (343) *)
Fixpoint trim_left (s : bstr) : bstr := match s with c :: s' => if Ascii.eqb c " " then trim_left s' else s | [] => [] end.
Definition trim_right (s : bstr) : bstr := rev (trim_left (rev s)).

Section Render.
Variable code : bstr.
Variable position : nat -> nat * nat.
Variable marker : ascii.
Variable label : bstr.
(** 327-351 *)
Definition underline (gutter : nat) (line : bstr) (start end_ : nat) : bstr :=
  let from := adjust line start in
  let to := adjust line end_ in
  if to <=? from then []
  else
    let u := trim_right (repeat " "%char from ++ repeat marker (to - from)) in
    match u with
    | [] => []
    | _ => b "  " ++ pad gutter [] ++ b " | " ++ u ++ (match label with [] => [] | _ => b " " ++ label end) ++ [newline]
    end.
(** 305-352: one line *)
Definition block (gutter : nat) (first last : nat * nat) (i : nat) : bstr :=
  let line := nth i (split_lines code) [] in
  b "  " ++ pad gutter (itoa (S i)) ++ b " | " ++ expand line ++ [newline] ++
  (if (i <? fst first) || (fst last <? i) then []
   else underline gutter line (if i =? fst first then snd first else 0) (if i =? fst last then snd last else List.length line)).
(** 271-355 *)
Definition render (pos end_ : nat) : bstr :=
  let first := position (start_of code pos end_) in
  let last := position end_ in
  let start_line := fst first - 1 in
  let end_line := Nat.min (fst last + 1) (List.length (split_lines code) - 1) in
  let gutter := Nat.max (List.length (itoa (end_line + 1))) 2 in
  flat_map (block gutter first last) (seq start_line (S end_line - start_line)).
End Render.
