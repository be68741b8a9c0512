(** C114: source code with an underline in the snapshots of rule tests (internal/rule_tester/snapshot.go 268-368). *)
From Coq Require Import Bool Arith Ascii String List Lia.
From Verif Require Import Base.
From Verif Require Import SourceUnderline SourceUnderlineSpec SourceUnderlineProofs.
Import ListNotations.
Local Open Scope list_scope.

(** What is shown: one line before the first to one after the last of the range, as far as there are lines, in order, with their numbers; all texts begin in the same column, which is that of the underlines;
    an underline stands below a line exactly if some character of it is in the range, and marks exactly the columns of those characters; after it the label. *)
Theorem C114_render : forall code position marker label pos end_, marker <> " "%char ->
  let first := position (start_of code pos end_) in
  let last := position end_ in
  let text := fun i => nth i (split_lines code) [] in
  let marked := fun i k => exists j, between first last i j /\ covers (text i) j k in
  exists shown margin blocks, render code position marker label pos end_ = concat blocks /\
    (shown <> [] -> (forall i, In i shown -> List.length (itoa (i + 1)) + 5 <= margin) /\ 7 <= margin /\ (margin = 7 \/ exists i, In i shown /\ List.length (itoa (i + 1)) + 5 = margin)) /\
    (exists a n, shown = seq a n) /\ (forall i, In i shown <-> fst first <= i + 1 /\ i <= fst last + 1 /\ i < List.length (split_lines code)) /\
    Forall2 (fun i block => exists gap under, block = b "  " ++ gap ++ itoa (i + 1) ++ b " | " ++ expand (text i) ++ newline :: under /\
      (forall c, In c gap -> c = " "%char) /\ List.length (b "  " ++ gap ++ itoa (i + 1) ++ b " | ") = margin /\
      ((under = [] /\ forall k, ~ marked i k) \/
       ((exists k, marked i k) /\ exists gap' u, under = gap' ++ b " | " ++ u ++ (match label with [] => [] | _ => b " " ++ label end) ++ [newline] /\
         (forall c, In c gap' -> c = " "%char) /\ List.length (gap' ++ b " | ") = margin /\
         (forall k, nth_error u k = Some marker <-> marked i k) /\ (forall c, In c u -> c = marker \/ c = " "%char) /\ exists u', u = u' ++ [marker]))) shown blocks.
Proof.
  intros code position marker label pos end_ M. cbv zeta. unfold render.
  set (first := position (start_of code pos end_)). set (last := position end_). set (total := List.length (split_lines code)).
  assert (T : 1 <= total) by (unfold total; pose proof (split_lines_ok code) as L; inversion L; cbn [List.length]; lia).
  set (el := Nat.min (fst last + 1) (total - 1)). set (g := Nat.max (List.length (itoa (el + 1))) 2).
  exists (seq (fst first - 1) (S el - (fst first - 1))), (g + 5), (map (block code marker label g first last) (seq (fst first - 1) (S el - (fst first - 1)))).
  split; [apply flat_map_concat_map|]. split.
  { intros E. assert (Last : In el (seq (fst first - 1) (S el - (fst first - 1)))) by (apply in_seq; destruct (S el - (fst first - 1)) eqn:D; [destruct E; reflexivity|lia]). split; [|split; [unfold g; lia|]].
    - intros i I. apply in_seq in I. pose proof (itoa_mono (i + 1) (el + 1)). unfold g. lia.
    - destruct (Nat.le_gt_cases (List.length (itoa (el + 1))) 2); [left; unfold g; lia|right; exists el; split; [exact Last|unfold g; lia]]. }
  split; [eauto|]. split.
  { intros i. rewrite in_seq. unfold el. lia. }
  assert (G : forall l, (forall i, In i l -> i <= el) -> Forall2 (fun i block => exists gap under, block = b "  " ++ gap ++ itoa (i + 1) ++ b " | " ++ expand (nth i (split_lines code) []) ++ newline :: under /\
      (forall c, In c gap -> c = " "%char) /\ List.length (b "  " ++ gap ++ itoa (i + 1) ++ b " | ") = g + 5 /\
      ((under = [] /\ forall k, ~ (exists j, between first last i j /\ covers (nth i (split_lines code) []) j k)) \/
       ((exists k, exists j, between first last i j /\ covers (nth i (split_lines code) []) j k) /\ exists gap' u, under = gap' ++ b " | " ++ u ++ (match label with [] => [] | _ => b " " ++ label end) ++ [newline] /\
         (forall c, In c gap' -> c = " "%char) /\ List.length (gap' ++ b " | ") = g + 5 /\
         (forall k, nth_error u k = Some marker <-> exists j, between first last i j /\ covers (nth i (split_lines code) []) j k) /\ (forall c, In c u -> c = marker \/ c = " "%char) /\ exists u', u = u' ++ [marker])))
      l (map (block code marker label g first last) l)).
  { induction l as [|i l IH]; intros H; cbn [map]; constructor; [|apply IH; intros x X; apply H; right; exact X].
    specialize (H i (or_introl eq_refl)). set (line := nth i (split_lines code) []).
    assert (W : List.length (itoa (i + 1)) <= g) by (pose proof (itoa_mono (i + 1) (el + 1)); unfold g; lia).
    unfold block. fold line. replace (S i) with (i + 1) by lia.
    exists (repeat " "%char (g - List.length (itoa (i + 1)))). eexists. split.
    { unfold pad. rewrite <- !app_assoc. cbn [app]. reflexivity. }
    split; [intros c C; apply repeat_spec in C; exact C|]. split; [rewrite !app_length, repeat_length; cbn [b List.length]; lia|].
    destruct ((i <? fst first) || (fst last <? i)) eqn:O.
    { left. split; [reflexivity|]. intros k [j [[B1 B2] _]]. unfold before in *. cbn [fst snd] in *. apply orb_true_iff in O as [O|O]; apply Nat.ltb_lt in O; lia. }
    apply orb_false_iff in O as [O1 O2]. apply Nat.ltb_ge in O1. apply Nat.ltb_ge in O2.
    set (a := if i =? fst first then snd first else 0). set (e := if i =? fst last then snd last else List.length line).
    assert (Mk : forall k, (exists j, between first last i j /\ covers line j k) <-> adjust line a <= k < adjust line e).
    { intros k. rewrite <- covered_range. split; intros [j [B C]]; exists j; (split; [|exact C]); pose proof C as C'; apply covers_iff in C' as [J _]; unfold between, before, a, e in *; cbn [fst snd] in *;
        destruct (Nat.eqb_spec i (fst first)), (Nat.eqb_spec i (fst last)); lia. }
    unfold underline. destruct (Nat.leb_spec (adjust line e) (adjust line a)) as [L|L].
    - left. split; [reflexivity|]. intros k X. apply Mk in X. lia.
    - right. split; [exists (adjust line a); apply Mk; lia|]. rewrite trim_mark by assumption.
      set (u := repeat " "%char (adjust line a) ++ repeat marker (adjust line e - adjust line a)).
      assert (Last : u = (repeat " "%char (adjust line a) ++ repeat marker (adjust line e - adjust line a - 1)) ++ [marker]).
      { unfold u. rewrite <- app_assoc. f_equal. replace (adjust line e - adjust line a) with (S (adjust line e - adjust line a - 1)) at 1 by lia. apply repeat_cons. }
      exists (b "  " ++ pad g []), u. split.
      { destruct u as [|c u']; [destruct (app_cons_not_nil _ _ _ Last)|]. rewrite <- !app_assoc. reflexivity. }
      split. { intros c C. apply in_app_iff in C as [C|C]; [destruct C as [<-|[<-|[]]]; reflexivity|]. unfold pad in C. rewrite app_nil_r in C. apply repeat_spec in C. exact C. }
      split. { rewrite !app_length, pad_length by (cbn; lia). cbn [b List.length]. lia. }
      split. { intros k. rewrite Mk. unfold u. rewrite mark_nth. destruct (Nat.ltb_spec k (adjust line a)); [split; [intros X; congruence|lia]|]. destruct (Nat.ltb_spec k (adjust line e)); [split; [lia|reflexivity]|split; [discriminate|lia]]. }
      split; [|eauto]. intros c C. apply in_app_iff in C as [C|C]; apply repeat_spec in C; auto. }
  apply G. intros i I. apply in_seq in I. lia.
Qed.
Print Assumptions C114_render.

Theorem C114_number : forall n, numeral (itoa n) n.
Proof. intros n. apply digits_numeral. lia. Qed.
Print Assumptions C114_number.
Theorem C114_number_unique : forall s n m, numeral s n -> numeral s m -> n = m.
Proof.
  assert (D : forall d e, d < 10 -> e < 10 -> ascii_of_nat (48 + d) = ascii_of_nat (48 + e) -> d = e).
  { intros d e A B E. apply (f_equal nat_of_ascii) in E. rewrite !nat_ascii_embedding in E by lia. lia. }
  intros s n m N. revert m. induction N as [d H|s n d N IH P H]; intros m M.
  - inversion M as [e E X|s' n' e N' P' E X]; subst; [apply D; auto|]. destruct s' as [|c s']; [inversion N'; destruct s; discriminate|]. destruct s'; discriminate.
  - inversion M as [e E X|s' n' e N' P' E X]; subst.
    + destruct s as [|c s]; [inversion N; destruct s; discriminate|]. destruct s; discriminate.
    + apply app_inj_tail in X as [-> X]. rewrite (IH _ N'). apply D in X; [subst; reflexivity|assumption..].
Qed.
Print Assumptions C114_number_unique.

(** In a text whose lines end with "\n" alone, a character that is not the end of a line is marked exactly if its position is in the range. *)
Theorem C114_positions : forall code first last start end_ p i j c, located code start first -> located code end_ last -> located code p (i, j) -> nth_error code p = Some c -> c <> newline ->
  nth_error (nth i (split_lines code) []) j = Some c /\ (between first last i j <-> start <= p < end_).
Proof.
  intros code first last start end_ p i j c S1 E P C N. split; [exact (located_char _ _ _ P c C N)|]. unfold between. split.
  - intros [A B]. split.
    + destruct (Nat.le_gt_cases start p); [assumption|]. destruct A. exact (located_before _ _ _ P _ _ S1 H).
    + destruct (Nat.lt_trichotomy p end_) as [L|[L|L]]; [exact L| |].
      * subst p. rewrite (located_unique _ _ _ P _ E) in B. unfold before in B. lia.
      * pose proof (located_before _ _ _ E _ _ P L) as X. unfold before in *. lia.
  - intros [A B]. split; [|exact (located_before _ _ _ P _ _ E B)]. intros X. destruct (Nat.eq_dec start p) as [<-|D].
    + rewrite (located_unique _ _ _ P _ S1) in X. unfold before in X. lia.
    + assert (Y : before first (i, j)) by (apply (located_before _ _ _ S1 _ _ P); lia). unfold before in *. lia.
Qed.
Print Assumptions C114_positions.
Theorem C114_located : forall code p, p <= List.length code -> exists q, located code p q /\ forall q', located code p q' -> q' = q.
Proof. intros code p H. destruct (located_exists code p H) as [q Q]. exists q. split; [exact Q|]. intros q' Q'. exact (located_unique _ _ _ Q' _ Q). Qed.
Print Assumptions C114_located.
Theorem C114_lines : forall code, lines code (split_lines code).
Proof. exact split_lines_ok. Qed.
Print Assumptions C114_lines.

(** The underline begins at the first character of the range that is not blank. *)
Theorem C114_start : forall code pos end_, trimmed code pos end_ (start_of code pos end_).
Proof.
  intros code pos end_. unfold start_of, trimmed. destruct (blanks_ok (skipn pos code) (end_ - pos)) as [A [B C]]. split; [lia|]. split; [lia|]. split.
  - intros p P. destruct (B (p - pos)) as [c [N W]]; [lia|]. rewrite nth_error_skipn in N. replace (pos + (p - pos)) with p in N by lia. eauto.
  - intros H c N. apply C; [lia|]. rewrite nth_error_skipn. exact N.
Qed.
Print Assumptions C114_start.

(** Each column of a line as it is shown is that of one character: the character, or blanks for a tab. *)
Theorem C114_columns : forall line k, (k < List.length (expand line) <-> exists i, covers line i k) /\
  forall i, covers line i k -> (forall i', covers line i' k -> i' = i) /\ exists c, nth_error line i = Some c /\ ((c = tab /\ nth_error (expand line) k = Some " "%char) \/ (c <> tab /\ nth_error (expand line) k = Some c)).
Proof.
  intros line k. split.
  - rewrite expand_length. pose proof (covered_range line 0 (List.length line) k) as H. rewrite adjust_0 in H. split.
    + intros L. destruct H as [_ H]. destruct H as [i [_ C]]; [lia|]. eauto.
    + intros [i C]. destruct H as [H _]. assert (i < List.length line) by (apply covers_iff in C; lia). destruct H; [exists i; split; [lia|exact C]|]. assumption.
  - intros i C. split; [intros i' C'; exact (covers_unique _ _ _ _ C' C)|]. destruct (expand_nth _ _ _ C) as [c [N E]]. exists c. split; [exact N|]. destruct (Ascii.eqb_spec c tab); auto.
Qed.
Print Assumptions C114_columns.

(** ** Examples *)
Definition nl : bstr := [newline].
Definition simple (first last : nat * nat) (stop : nat) (p : nat) : nat * nat := if p =? stop then last else first.
Example C114_example : render (b "let a;" ++ nl ++ tab :: b "foo(x);" ++ nl ++ b "b;" ++ nl ++ b "c;") (simple (1, 5) (1, 6) 13) "~" [] 12 13 =
  b "   1 | let a;" ++ nl ++ b "   2 |     foo(x);" ++ nl ++ b "     |         ~" ++ nl ++ b "   3 | b;" ++ nl.
Proof. vm_compute. reflexivity. Qed.
Example C114_multi_example : render (b "a(" ++ nl ++ nl ++ b "  b)") (simple (0, 0) (2, 4) 8) "^" (b "here") 0 8 =
  b "   1 | a(" ++ nl ++ b "     | ^^ here" ++ nl ++ b "   2 | " ++ nl ++ b "   3 |   b)" ++ nl ++ b "     | ^^^^ here" ++ nl.
Proof. vm_compute. reflexivity. Qed.
Example C114_located_example : located (b "a" ++ nl ++ b "bc") 3 (1, 1) /\ trimmed (b "  x") 0 3 2.
Proof.
  split; [apply located_later; [discriminate|]; apply located_newline; apply located_same; [discriminate|apply located_here]|exact (C114_start (b "  x") 0 3)].
Qed.

(** Places count UTF-16 units but the line is read in bytes: after a letter of two bytes (U+00E9) the tab before the range is marked, four columns for one character. *)
Theorem C114_bytes_refuted : exists code position, position 3 = (0, 2) /\ position 4 = (0, 3) /\ nth_error code 3 = Some "x"%char /\
  render code position "~" [] 3 4 = b "   1 | " ++ [ascii_of_nat 195; ascii_of_nat 169] ++ b "    x" ++ nl ++ b "     |   ~~~~" ++ nl.
Proof. exists [ascii_of_nat 195; ascii_of_nat 169; tab; "x"%char], (simple (0, 2) (0, 3) 4). repeat split; vm_compute; reflexivity. Qed.
Print Assumptions C114_bytes_refuted.
(** Lines are split at "\n" alone, places are not: after a "\r" alone the wrong line is marked. *)
Theorem C114_return_refuted : exists code position, nth_error code 2 = Some "x"%char /\ position 2 = (1, 0) /\ position 3 = (1, 1) /\
  render code position "~" [] 2 3 = b "   1 | a" ++ [return_] ++ b "x" ++ nl ++ b "   2 | b" ++ nl ++ b "     | ~" ++ nl.
Proof. exists (b "a" ++ [return_] ++ b "x" ++ nl ++ b "b"), (simple (1, 0) (1, 1) 3). repeat split; vm_compute; reflexivity. Qed.
Print Assumptions C114_return_refuted.
(** A range that is empty, or blank, is not marked at all. *)
Theorem C114_empty_refuted : exists code position, located code 1 (position 1) /\ render code position "~" [] 1 1 = b "   1 | ab" ++ nl.
Proof. exists (b "ab"), (fun _ => (0, 1)). split; [apply located_same; [discriminate|constructor]|vm_compute; reflexivity]. Qed.
Print Assumptions C114_empty_refuted.
