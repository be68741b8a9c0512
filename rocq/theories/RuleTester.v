(** The tester rules are tested with (internal/rule_tester/rule_tester.go 27-258): which cases run, what is linted, how often fixes are applied, when a case passes.
    Given: the linter on a set of virtual files (utils.CreateProgram, linter.RunLinterOnProgram; none: the test is ended as failed, 94-111, 149), linter.ApplyRuleFixes (C02), the comparison with the snapshot (C34), line and column of a position.
    All are taken to be functions: the same code has the same diagnostics.  t.Errorf goes on and t.Fatalf ends the test; either way it has failed, so the rest of its checks are not told apart. *)
From Coq Require Import Bool Arith Ascii String List.
From Verif Require Import Base.
Import ListNotations.
Local Open Scope list_scope.

(** A suggestion and a diagnostic, as far as they are looked at; what they change is told by a number. *)
Record suggestion := mkSuggestion { s_id : bstr; s_edit : nat }.
Record diag := mkDiag { d_id : bstr; d_pos : nat; d_end : nat; d_edit : nat; d_suggestions : option (list suggestion) }.
(** 38-50: places are 0 if they are not given. *)
Record expected := mkExpected { e_id : bstr; e_line : nat; e_column : nat; e_end_line : nat; e_end_column : nat; e_suggestions : list (bstr * bstr) }.
(** 27-36, 52-63; options are part of the given linter. *)
Record test := mkTest { code : bstr; only : bool; skip : bool; file_name : bstr; tsx : bool; tsconfig : bstr; extra : list (bstr * bstr) }.
Record invalid_test := mkInvalid { base : test; output : list bstr; errors : list expected }.
Inductive outcome := Skipped | Passed | Failed.

Section Tester.
Variable resolve : bstr -> bstr.  (* tspath.ResolvePath below rootDir *)
Variable default_config : bstr.
(** The linter: the files laid over the disk, the file to lint, the tsconfig. *)
Variable lint : (bstr -> option bstr) -> bstr -> bstr -> option (list diag).
Variable apply_fixes : bstr -> list diag -> bstr * bool.
Variable apply_suggestion : bstr -> suggestion -> bstr.
Variable position : bstr -> nat -> nat * nat.  (* in this text; from 0 *)
Variable snapshot : bstr -> list diag -> bool.

(** 73-78 *)
Definition name_of (t : test) : bstr :=
  match file_name t with [] => if tsx t then b "react.tsx" else b "file.ts" | n => n end.
(** 81-84: a map; what is put in later replaces.  [extra]: in the order the map is gone through. *)
Definition overlay (t : test) (text : bstr) (p : bstr) : option bstr :=
  fold_left (fun found e => if beqb (resolve (fst e)) p then Some (snd e) else found) (extra t) (if beqb (resolve (name_of t)) p then Some text else None).
(** 69-152 [runLinter] *)
Definition run_linter (t : test) (text : bstr) : option (list diag) :=
  lint (overlay t text) (resolve (name_of t)) (match tsconfig t with [] => default_config | c => c end).

(** 66-67 *)
Definition only_mode (valid : list test) (invalid : list invalid_test) : bool :=
  existsb only valid || existsb (fun t => only (base t)) invalid.
(** 157, 176 *)
Definition skipped (mode : bool) (t : test) : bool := (mode && negb (only t)) || skip t.

(** 154-171 *)
Definition run_valid (mode : bool) (t : test) : outcome :=
  if skipped mode t then Skipped
  else match run_linter t (code t) with Some [] => Passed | _ => Failed end.

(** 184-197: at most [n] rounds more. *)
Fixpoint rounds (n : nat) (t : test) (text : bstr) : option (list bstr) :=
  match n with
  | 0 => Some []
  | S n =>
      match run_linter t text with
      | None => None
      | Some ds =>
          let (text', fixed) := apply_fixes text ds in
          if fixed then match rounds n t text' with Some l => Some (text' :: l) | None => None end else Some []
      end
  end.
(** 201-207 *)
Fixpoint same_outputs (l k : list bstr) : bool :=
  match l, k with [], [] => true | x :: l, y :: k => beqb x y && same_outputs l k | _, _ => false end.
(** 225-236 *)
Definition place_ok (given actual : nat) : bool := (given =? 0) || (given =? actual).
(** 238-255; the suggestions are applied to the code of the test. *)
Fixpoint suggestions_ok (text : bstr) (l : list (bstr * bstr)) (k : list suggestion) : bool :=
  match l, k with
  | [], [] => true
  | (id, out) :: l, s :: k => beqb id (s_id s) && beqb out (apply_suggestion text s) && suggestions_ok text l k
  | _, _ => false
  end.
(** 213-255 *)
Definition error_ok (text : bstr) (e : expected) (d : diag) : bool :=
  let (line, column) := position text (d_pos d) in
  let (end_line, end_column) := position text (d_end d) in
  beqb (e_id e) (d_id d) && place_ok (e_line e) (S line) && place_ok (e_column e) (S column) && place_ok (e_end_line e) (S end_line) && place_ok (e_end_column e) (S end_column) &&
  suggestions_ok text (e_suggestions e) (match d_suggestions d with Some l => l | None => [] end).
(** 209-213 *)
Fixpoint errors_ok (text : bstr) (l : list expected) (k : list diag) : bool :=
  match l, k with [], [] => true | e :: l, d :: k => error_ok text e d && errors_ok text l k | _, _ => false end.
(** 173-257 *)
Definition run_invalid (mode : bool) (t : invalid_test) : outcome :=
  if skipped mode (base t) then Skipped
  else match run_linter (base t) (code (base t)), rounds 10 (base t) (code (base t)) with
  | Some initial, Some outs =>
      if snapshot (code (base t)) initial && same_outputs (output t) outs && errors_ok (code (base t)) (errors t) initial then Passed else Failed
  | _, _ => Failed
  end.
(** 65-259 *)
Definition run_tests (valid : list test) (invalid : list invalid_test) : list outcome :=
  let mode := only_mode valid invalid in
  map (run_valid mode) valid ++ map (run_invalid mode) invalid.
End Tester.
