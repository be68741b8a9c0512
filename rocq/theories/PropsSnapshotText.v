(** C115: the text of diagnostics in the snapshots of rule tests (internal/rule_tester/snapshot.go 370-466). *)
From Coq Require Import Bool Arith Ascii String List Lia.
From Verif Require Import Base.
From Verif Require Import SourceUnderline SourceUnderlineSpec SourceUnderlineProofs PropsSourceUnderline SnapshotText SnapshotTextSpec SnapshotTextProofs.
Import ListNotations.
Local Open Scope list_scope.

(** The snapshot: for each diagnostic in order its number, id, place, message, help, source, labels and suggestions, with an empty line between diagnostics and no end of line at the end. *)
Theorem C115_snapshot : forall code ds, ds <> [] -> exists ts t, each (shown (fun f marker label => render code f marker label) code) ds ts /\ joined ts t /\ without_end t (snapshot code ds).
Proof.
  intros code [|d ds] N; [destruct N; reflexivity|]. destruct (parts_joined code ds d 0) as [t [J E]]. exists (part_list code 0 (d :: ds)), t.
  split; [exact (part_each code (d :: ds) 0)|]. split; [exact J|]. unfold snapshot. rewrite E. apply trim_end.
Qed.
Print Assumptions C115_snapshot.
(** There is only one such text. *)
Theorem C115_only : forall u code ds ts t s ts' t' s', each (shown u code) ds ts -> joined ts t -> without_end t s -> each (shown u code) ds ts' -> joined ts' t' -> without_end t' s' -> s = s'.
Proof.
  intros u code ds ts t s ts' t' s' E J W E' J' W'. rewrite (each_unique _ _ _ _ (shown_unique u code) E E') in *. clear E E'.
  assert (T : t = t').
  { clear W W'. revert t' J'. induction J as [x|x us t J IH]; intros t' J'; inversion J' as [|x' us' t2 J2]; subst; try reflexivity.
    - inversion J2.
    - inversion J.
    - rewrite (IH _ J2). reflexivity. }
  subst t'. destruct W as [[k E] N], W' as [[k' E'] N']. rewrite E in E'. clear E J J'. revert s s' k' N N' E'. 
  assert (G : forall k k' (s s' : bstr), k <= k' -> (forall r, s <> r ++ [newline]) -> s ++ repeat newline k = s' ++ repeat newline k' -> s = s').
  { clear. induction k as [|k IH]; intros k' s s' L N E.
    - destruct k' as [|k']; [rewrite !app_nil_r in E; exact E|]. rewrite app_nil_r in E. cbn [repeat] in E. rewrite repeat_cons, app_assoc in E. destruct (N _ E).
    - destruct k' as [|k']; [lia|]. cbn [repeat] in E. rewrite !repeat_cons, !app_assoc in E. apply app_inj_tail in E as [E _]. apply (IH k'); [lia|exact N|exact E]. }
  intros s s' k' N N' E. destruct (Nat.le_ge_cases k k') as [L|L]; [exact (G _ _ _ _ L N E)|symmetry; exact (G _ _ _ _ L N' (eq_sym E))].
Qed.
Print Assumptions C115_only.
(** Without diagnostics. *)
Theorem C115_none : forall code ds, ds = [] -> snapshot code ds = b "No diagnostics".
Proof. intros code ds ->. reflexivity. Qed.
Print Assumptions C115_none.

(** ** Examples *)
Definition one_line (p : nat) : nat * nat := (0, p).
Definition sample : diag :=
  {| d_id := b "noFoo"; d_description := b "No foo."; d_help := b "Use bar."; d_range := Some (0, 5); d_position := Some one_line;
     d_labels := [{| l_text := b "here"; l_from := 6; l_to := 7 |}]; d_suggestions := [(b "useBar", b "Use bar instead.")] |}.
Definition bare : diag :=
  {| d_id := b "whole"; d_description := b "Bad file."; d_help := b "Help!"; d_range := Some (0, 0); d_position := Some one_line; d_labels := []; d_suggestions := [] |}.
Example C115_example : snapshot (b "  foo(x);") [sample; bare] =
  b "Diagnostic 1: noFoo (1:3 - 1:5)" ++ nl ++ b "Message: No foo." ++ nl ++ b "Help: Use bar." ++ nl ++ b "   1 |   foo(x);" ++ nl ++ b "     |   ~~~" ++ nl ++
  b "  Label: here (1:7 - 1:7)" ++ nl ++ b "   1 |   foo(x);" ++ nl ++ b "     |       ^ here" ++ nl ++ b "  Suggestion 1: [useBar] Use bar instead." ++ nl ++ nl ++
  b "Diagnostic 2: whole" ++ nl ++ b "Message: Bad file.".
Proof. vm_compute. reflexivity. Qed.

(** The help of a diagnostic without a range is not shown. *)
Theorem C115_help_refuted : exists code d d', d_help d <> d_help d' /\ snapshot code [d] = snapshot code [d'].
Proof.
  exists (b "x"), bare, {| d_id := b "whole"; d_description := b "Bad file."; d_help := []; d_range := None; d_position := None; d_labels := []; d_suggestions := [] |}.
  split; [discriminate|vm_compute; reflexivity].
Qed.
Print Assumptions C115_help_refuted.
(** One diagnostic can have the snapshot of two: messages are shown as they are, with their ends of lines. *)
Theorem C115_count_refuted : exists code d d1 d2, snapshot code [d] = snapshot code [d1; d2].
Proof.
  exists (b "x"), {| d_id := b "a"; d_description := b "m" ++ nl ++ nl ++ b "Diagnostic 2: whole" ++ nl ++ b "Message: Bad file."; d_help := []; d_range := None; d_position := None; d_labels := []; d_suggestions := [] |},
    {| d_id := b "a"; d_description := b "m"; d_help := []; d_range := None; d_position := None; d_labels := []; d_suggestions := [] |}, bare.
  vm_compute. reflexivity.
Qed.
Print Assumptions C115_count_refuted.
(** A diagnostic that ends where a line does, on its line end, is said to end on that line one column past its last character. *)
Theorem C115_line_end_refuted : exists code f d, located code 1 (f 1) /\ located code 2 (f 2) /\ d_range d = Some (0, 2) /\ d_position d = Some f /\
  snapshot code [d] = b "Diagnostic 1: a (1:1 - 1:2)" ++ nl ++ b "Message: m" ++ nl ++ b "   1 | x" ++ nl ++ b "     | ~" ++ nl ++ b "   2 | y".
Proof.
  exists (b "x" ++ nl ++ b "y"), (fun p => if p =? 2 then (1, 0) else (0, p)).
  exists {| d_id := b "a"; d_description := b "m"; d_help := []; d_range := Some (0, 2); d_position := Some (fun p => if p =? 2 then (1, 0) else (0, p)); d_labels := []; d_suggestions := [] |}.
  split; [apply located_same; [discriminate|constructor]|]. split; [apply located_later; [discriminate|]; apply (located_newline _ 0 0 0); constructor|]. repeat split; vm_compute; reflexivity.
Qed.
Print Assumptions C115_line_end_refuted.
