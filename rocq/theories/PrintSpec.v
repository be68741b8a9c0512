(** What the code box below a diagnostic should show; independent of Print.v. *)
From Coq Require Import String Ascii Bool List ZArith.
From Verif Require Import Base Utf8.
Import ListNotations.
Open Scope Z_scope.

(** A text as its lines, and where they start. *)
Fixpoint text_of (ls : list bstr) : bstr :=
  match ls with [] => [] | [l] => l | l :: ls' => l ++ "010"%char :: text_of ls' end.
Fixpoint starts_from (i : Z) (ls : list bstr) : list Z :=
  match ls with [] => [] | l :: ls' => i :: starts_from (i + zlen l + 1) ls' end.
Fixpoint offset (ls : list bstr) (k : nat) : Z :=
  match k, ls with S k', l :: ls' => zlen l + 1 + offset ls' k' | _, _ => 0 end.
(** Line breaks are \n or \r\n only. *)
Definition quiet (m : bstr) : Prop := forall r, In r (runes m) -> r <> 10 /\ r <> 13 /\ r <> 8232 /\ r <> 8233.
Definition ended (l : bstr) : Prop := quiet l \/ exists m, l = m ++ ["013"%char] /\ quiet m.
Inductive ordinary : list bstr -> Prop :=
| ord_last l : quiet l -> ordinary [l]
| ord_more l ls : ended l -> ordinary ls -> ordinary (l :: ls).
(** The lines [a] to [z]. *)
Definition between_lines (ls : list bstr) (a z : nat) : list bstr := firstn (S z - a) (skipn a ls).
(** A position is on a line; the line break belongs to the line it ends. *)
Definition on_line (ls : list bstr) (k : nat) (pos : Z) : Prop :=
  exists l, nth_error ls k = Some l /\ offset ls k <= pos <= offset ls k + zlen l.

Definition white (r : Z) : Prop := In r [9; 10; 11; 12; 13; 32; 133; 160; 5760; 8232; 8233; 8239; 8287; 12288] \/ 8192 <= r <= 8202.
Definition blank (l : bstr) : Prop := forall r, In r (runes l) -> white r.
(** The first character that is no white space begins at byte [f]. *)
Definition first_at (l : bstr) (f : Z) : Prop :=
  exists p m r rs, l = p ++ m /\ zlen p = f /\ runes l = runes p ++ r :: rs /\ runes m = r :: rs /\ blank p /\ ~ white r.
(** The last one begins at byte [e - 1]. *)
Definition last_at (l : bstr) (e : Z) : Prop :=
  exists p m r rs, l = p ++ m /\ zlen p = e - 1 /\ runes l = runes p ++ r :: rs /\ runes m = r :: rs /\ ~ white r /\ forall q, In q rs -> white q.
Definition cut (l : bstr) (x y : Z) : bstr := firstn (Z.to_nat (y - x)) (skipn (Z.to_nat x) l).
(** The common indentation of some lines. *)
Definition indentation (ls : list bstr) (n : Z) : Prop :=
  (exists l, In l ls /\ first_at l n) /\ forall l f, In l ls -> first_at l f -> n <= f.
(** The texts of a line in the box: from the common indentation to the last character that is no white space;
    underlined is what is in the range, but not the indentation of the lines after the first. *)
Inductive shown (n ds de start : Z) (first_line : Prop) (l : bstr) : bstr -> bstr -> bstr -> Prop :=
| sh_blank : blank l -> shown n ds de start first_line l [] [] []
| sh_text f e u v : first_at l f -> last_at l e -> n <= u -> u <= v -> v <= e ->
    (forall p, n <= p < e -> (u <= p < v <-> ds <= start + p < de /\ (first_line \/ f <= p))) ->
    shown n ds de start first_line l (cut l n u) (cut l u v) (cut l v e).
(** A decimal number. *)
Inductive reads : bstr -> Z -> Prop :=
| rd_one d : 0 <= d < 10 -> reads [zb (48 + d)] d
| rd_more s n d : reads s n -> 0 < n -> 0 <= d < 10 -> reads (s ++ [zb (48 + d)]) (10 * n + d).
(** A number, after at most one space, [width] bytes wide. *)
Definition numbered (width : nat) (n : Z) (s : bstr) : Prop := exists pad d, s = pad ++ d /\ reads d n /\ (pad = [] \/ pad = b " ") /\ List.length s = width.
