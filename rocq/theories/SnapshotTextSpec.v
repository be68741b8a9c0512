(** What the snapshot of diagnostics should say. *)
From Coq Require Import Arith Ascii String List.
From Verif Require Import Base.
From Verif Require Import SourceUnderline SourceUnderlineSpec SnapshotText.
Import ListNotations.
Local Open Scope list_scope.

(** A place, counted from 1. *)
Definition writes (p : nat * nat) (s : bstr) : Prop := exists x y, numeral x (fst p + 1) /\ numeral y (snd p + 1) /\ s = x ++ b ":" ++ y.
(** From the place of the first character of the range that is not blank to that of its last character; of the end if there is none. *)
Definition last_of (start to last : nat) : Prop := (start < to /\ last + 1 = to) \/ (to <= start /\ last = to).
Inductive spans (code : bstr) (from to : nat) : option (nat -> nat * nat) -> bstr -> Prop :=
| spans_nowhere : spans code from to None (b "0:0 - 0:0")
| spans_file f start last x y : trimmed code from to start -> last_of start to last -> writes (f start) x -> writes (f last) y -> spans code from to (Some f) (x ++ b " - " ++ y).

Section Shown.
(** The source with an underline. *)
Variable underlined : (nat -> nat * nat) -> ascii -> bstr -> nat -> nat -> bstr.
Inductive source (d : diag) (marker : ascii) (label : bstr) (from to : nat) : bstr -> Prop :=
| source_none : d_position d = None -> source d marker label from to []
| source_file f : d_position d = Some f -> source d marker label from to (underlined f marker label from to).
(** A range is shown unless it is undefined or empty at the start of the file. *)
Definition at_range (d : diag) (p e : nat) : Prop := d_range d = Some (p, e) /\ ~ (p = 0 /\ e = 0).
Inductive helps : bstr -> bstr -> Prop :=
| helps_none : helps [] []
| helps_some h : h <> [] -> helps h (b "Help: " ++ h ++ [newline]).
Inductive headed (code : bstr) (n : nat) (d : diag) : bstr -> Prop :=
| headed_range p e x s h u : at_range d p e -> numeral x n -> spans code p e (d_position d) s -> helps (d_help d) h -> source d "~" [] p e u ->
    headed code n d (b "Diagnostic " ++ x ++ b ": " ++ d_id d ++ b " (" ++ s ++ b ")" ++ [newline] ++ b "Message: " ++ d_description d ++ [newline] ++ h ++ u)
| headed_bare x : (forall p e, ~ at_range d p e) -> numeral x n ->
    headed code n d (b "Diagnostic " ++ x ++ b ": " ++ d_id d ++ [newline] ++ b "Message: " ++ d_description d ++ [newline]).
Definition labels (code : bstr) (d : diag) (l : labeled) (s : bstr) : Prop :=
  exists x u, spans code (l_from l) (l_to l) (d_position d) x /\ source d "^" (l_text l) (l_from l) (l_to l) u /\
    s = b "  Label: " ++ l_text l ++ b " (" ++ x ++ b ")" ++ [newline] ++ u.
Definition suggests (n : nat) (g : bstr * bstr) (s : bstr) : Prop := exists x, numeral x n /\ s = b "  Suggestion " ++ x ++ b ": [" ++ fst g ++ b "] " ++ snd g ++ [newline].
(** One text for each of a list, by its number from 1. *)
Definition each {A} (P : nat -> A -> bstr -> Prop) (l : list A) (ts : list bstr) : Prop :=
  List.length ts = List.length l /\ forall i x t, nth_error l i = Some x -> nth_error ts i = Some t -> P (i + 1) x t.
(** Head, labels, suggestions. *)
Definition shown (code : bstr) (n : nat) (d : diag) (s : bstr) : Prop :=
  exists h ls gs, headed code n d h /\ each (fun _ => labels code d) (d_labels d) ls /\ each suggests (d_suggestions d) gs /\ s = h ++ concat ls ++ concat gs.
End Shown.

(** Texts with an empty line between them; the end of the last is left out. *)
Inductive joined : list bstr -> bstr -> Prop :=
| joined_one s : joined [s] s
| joined_more s ts t : joined ts t -> joined (s :: ts) (s ++ newline :: t).
Definition without_end (s t : bstr) : Prop := (exists k, s = t ++ repeat newline k) /\ forall r, t <> r ++ [newline].
