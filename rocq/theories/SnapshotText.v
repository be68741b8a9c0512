(** The text of diagnostics in the snapshots of rule tests: internal/rule_tester/snapshot.go 370-466 [formatDiagnosticsSnapshot].
    [render] is that of SourceUnderline.v.  Ranges have positions that are not negative, or are undefined (from -1 to -1: [None], for a diagnostic only). *)
From Coq Require Import Bool Arith Ascii String List.
From Verif Require Import Base.
From Verif Require Import SourceUnderline.
Import ListNotations.
Local Open Scope list_scope.

(** rule.RuleLabeledRange *)
Record labeled := { l_text : bstr; l_from : nat; l_to : nat }.
(** rule.RuleDiagnostic, what is read of it.  [d_position]: places in the source file, if there is one. *)
Record diag := { d_id : bstr; d_description : bstr; d_help : bstr; d_range : option (nat * nat); d_position : option (nat -> nat * nat);
                 d_labels : list labeled; d_suggestions : list (bstr * bstr) }.

(** 384 *)
Definition has_range (r : option (nat * nat)) : bool := match r with Some (p, e) => negb (p =? e) || negb (p =? 0) | None => false end.
(** 411, 452: %d:%d *)
Definition place (p : nat * nat) : bstr := itoa (S (fst p)) ++ b ":" ++ itoa (S (snd p)).
(** 387-411, 429-452: %d:%d - %d:%d *)
Definition span (code : bstr) (position : option (nat -> nat * nat)) (from to : nat) : bstr :=
  match position with
  | None => b "0:0 - 0:0"
  | Some f =>
      let start := start_of code from to in
      let last := if start <? to then to - 1 else to in
      place (f start) ++ b " - " ++ place (f last)
  end.
(** 272-274, 418-421, 453-456 *)
Definition annotated (code : bstr) (position : option (nat -> nat * nat)) (marker : ascii) (label : bstr) (from to : nat) : bstr :=
  match position with None => [] | Some f => render code f marker label from to end.
(** 384-425 *)
Definition head (code : bstr) (n : nat) (d : diag) : bstr :=
  match (if has_range (d_range d) then d_range d else None) with
  | Some (p, e) =>
      b "Diagnostic " ++ itoa n ++ b ": " ++ d_id d ++ b " (" ++ span code (d_position d) p e ++ b ")" ++ [newline] ++
      b "Message: " ++ d_description d ++ [newline] ++
      (match d_help d with [] => [] | h => b "Help: " ++ h ++ [newline] end) ++
      annotated code (d_position d) "~" [] p e
  | None => b "Diagnostic " ++ itoa n ++ b ": " ++ d_id d ++ [newline] ++ b "Message: " ++ d_description d ++ [newline]
  end.
(** 428-457 *)
Definition label_part (code : bstr) (d : diag) (l : labeled) : bstr :=
  b "  Label: " ++ l_text l ++ b " (" ++ span code (d_position d) (l_from l) (l_to l) ++ b ")" ++ [newline] ++
  annotated code (d_position d) "^" (l_text l) (l_from l) (l_to l).
(** 459-463 *)
Fixpoint suggestion_parts (n : nat) (l : list (bstr * bstr)) : bstr :=
  match l with
  | [] => []
  | s :: l => b "  Suggestion " ++ itoa n ++ b ": [" ++ fst s ++ b "] " ++ snd s ++ [newline] ++ suggestion_parts (S n) l
  end.
(** 378-464 *)
Definition part (code : bstr) (n : nat) (d : diag) : bstr := head code n d ++ flat_map (label_part code d) (d_labels d) ++ suggestion_parts 1 (d_suggestions d).
Fixpoint parts (code : bstr) (n : nat) (ds : list diag) : bstr :=
  match ds with
  | [] => []
  | d :: ds => (match n with 0 => [] | _ => [newline] end) ++ part code (S n) d ++ parts code (S n) ds
  end.
(** 465 strings.TrimRight(_, "\n") *)
Fixpoint trim_newlines (s : bstr) : bstr := match s with c :: s' => if Ascii.eqb c newline then trim_newlines s' else s | [] => [] end.
(** 372-466 *)
Definition snapshot (code : bstr) (ds : list diag) : bstr :=
  match ds with [] => b "No diagnostics" | _ => rev (trim_newlines (rev (parts code 0 ds))) end.
