(** C92: the texts after the fixes of no-unnecessary-type-assertion. *)
From Coq Require Import Bool Arith ZArith Ascii String List Lia Permutation.
From Verif Require Import Base EngineProofs Fixer FixerSpec FixerProofs FixPieces.
From Verif Require Import AssertionFix AssertionFixSpec AssertionFixProofs.
Import ListNotations.
Open Scope Z_scope.

Ltac place := rewrite ?zlen_app; unfold zlen; rewrite ?app_length; cbn [List.length]; lia.
Ltac one := cbn [piece_fixes]; match goal with |- Permutation ?x ?y => replace x with y; [apply Permutation_refl|] end; repeat (apply f_equal2; [apply fix_eq; place|]); reflexivity.
Ltac lengths := repeat match goal with x : bstr |- _ => lazymatch goal with H : 0 <= zlen x |- _ => fail | _ => pose proof (zlen_nonneg x) end end.

(** An assertion with as is taken away with the white space before it; if something is written between as and the type it stays. *)
Theorem C92_as : forall blank (sf : list (fix_ ascii) -> list (fix_ ascii)) (sm : list (msg ascii) -> list (msg ascii)) n s,
  correct_sort cmp_fix sf -> correct_sort cmp_msg sm -> divided s -> written s <> [] ->
  apply_rule_fixes sf sm (as_code s) [mkMsg n (as_fixes blank (as_code s) (as_at s))]
  = Ok (before s ++ operand s ++ gap s ++ (if blank (mid s) then [] else mid s) ++ after s, [], true).
Proof.
  intros blank sf sm n [p o g sp m w q] C CM [F G] W. cbn [before operand gap space mid written after] in *. lengths. pose proof (zlen_pos w W).
  unfold as_fixes, as_at, as_code. cbn [before operand gap space mid written after expression_end as_pos as_end type_pos type_end].
  assert (L : List.length (b "as") = 2%nat) by reflexivity. assert (LZ : zlen (b "as") = 2) by reflexivity.
  replace (back _ _ _) with (List.length p + List.length o + List.length g)%nat.
  2:{ symmetry. rewrite <- app_length. rewrite (app_assoc p o). apply (back_space (p ++ o) g (b "as" ++ m ++ w ++ q)); auto. }
  replace (Nat.ltb _ _) with false by (symmetry; apply Nat.ltb_ge; lia).
  replace (slice _ _ _) with m.
  2:{ symmetry. replace (p ++ o ++ g ++ sp ++ b "as" ++ m ++ w ++ q) with ((p ++ o ++ g ++ sp ++ b "as") ++ m ++ (w ++ q)) by (rewrite <- !app_assoc; reflexivity).
      replace (List.length p + List.length o + List.length g + List.length sp + 2)%nat with (List.length (p ++ o ++ g ++ sp ++ b "as")) by (rewrite !app_length, L; lia). apply slice_mid. }
  destruct (blank m); cbn [negb]; unfold remove.
  - apply pieces_text with (l := [Keep (p ++ o ++ g); Swap (sp ++ b "as" ++ m ++ w) []; Keep q]); auto; try texts.
    + rewrite <- L. one.
    + discriminate.
    + no_repeats.
  - apply pieces_text with (l := [Keep (p ++ o ++ g); Swap (sp ++ b "as") []; Keep m; Swap w []; Keep q]); auto; try texts.
    + rewrite <- L. one.
    + discriminate.
    + no_repeats.
Qed.
Print Assumptions C92_as.

(** An assertion in angle brackets is taken away from the opening to the closing one, if there is no comment for documentation before. *)
Theorem C92_angle : forall (sf : list (fix_ ascii) -> list (fix_ ascii)) (sm : list (msg ascii) -> list (msg ascii)) n p t q start,
  correct_sort cmp_fix sf -> correct_sort cmp_msg sm ->
  let code := p ++ b "<" ++ t ++ b ">" ++ q in let e := (List.length p + List.length t + 2)%nat in
  (forall i j, stands (b "/**") (slice code start e) i -> stands (b "*/") (slice code start e) j -> False) ->
  apply_rule_fixes sf sm code [mkMsg n (angle_report code start e (List.length p) e)] = Ok (p ++ q, [], true).
Proof.
  intros sf sm n p t q start C CM code e N. unfold angle_report, comment_fixes. fold code.
  pose proof (last_index_spec (b "/**") (slice code start e)) as A. pose proof (last_index_spec (b "*/") (slice code start e)) as B.
  assert (E : match last_index (b "/**") (slice code start e), last_index (b "*/") (slice code start e) with
    | Some i, Some j => if Nat.leb i j then Some [remove (start + i) (start + j + 2 + spaces (skipn (j + 2) (slice code start e)))] else None | _, _ => None end = None).
  { destruct (last_index (b "/**") _) as [i|]; auto. destruct (last_index (b "*/") _) as [j|]; auto. destruct (N i j (proj1 A) (proj1 B)). }
  rewrite E. unfold angle_fixes, remove, code, e. lengths. assert (L : List.length (b "<") = 1%nat) by reflexivity. assert (L' : List.length (b ">") = 1%nat) by reflexivity.
  apply pieces_text with (l := [Keep p; Swap (b "<" ++ t ++ b ">") []; Keep q]); auto; try texts.
  - one.
  - discriminate.
  - no_repeats.
Qed.
Print Assumptions C92_angle.

(** If there is one, the last such comment with the white space after it is taken away, and all else stays: right for assertions that are comments. *)
Theorem C92_comment : forall (sf : list (fix_ ascii) -> list (fix_ ascii)) (sm : list (msg ascii) -> list (msg ascii)) n p u c x y w rest q opening closing_end,
  correct_sort cmp_fix sf -> correct_sort cmp_msg sm ->
  c = b "/**" ++ x -> c = y ++ b "*/" -> Forall white_byte w -> (forall d r, rest = d :: r -> ~ white_byte d) ->
  let t := u ++ c ++ w ++ rest in
  (forall i, stands (b "/**") t i -> (i <= List.length u)%nat) -> (forall i, stands (b "*/") t i -> (i <= List.length u + List.length y)%nat) ->
  apply_rule_fixes sf sm (p ++ t ++ q) [mkMsg n (angle_report (p ++ t ++ q) (List.length p) (List.length p + List.length t) opening closing_end)] = Ok (p ++ u ++ rest ++ q, [], true).
Proof.
  intros sf sm n p u c x y w rest q opening closing_end C CM X Y W R t I J. unfold angle_report, comment_fixes. rewrite slice_mid.
  assert (LY : List.length c = (List.length y + 2)%nat) by (rewrite Y, app_length; reflexivity).
  rewrite (last_index_eq (b "/**") t (List.length u)); auto; [|exists u, (x ++ w ++ rest); split; auto; unfold t; rewrite X, <- !app_assoc; auto].
  rewrite (last_index_eq (b "*/") t (List.length u + List.length y)); auto; [|exists (u ++ y), (w ++ rest); split; [unfold t; rewrite Y, <- !app_assoc; auto|apply app_length]].
  replace (Nat.leb _ _) with true by (symmetry; apply Nat.leb_le; lia).
  replace (skipn (List.length u + List.length y + 2) t) with (w ++ rest).
  2:{ unfold t. replace (List.length u + List.length y + 2)%nat with (List.length (u ++ c)) by (rewrite app_length; lia). rewrite app_assoc, skipn_app, skipn_all, Nat.sub_diag. auto. }
  rewrite spaces_eq by auto. unfold remove, t. lengths. assert (0 < zlen c) by (unfold zlen; lia).
  apply pieces_text with (l := [Keep (p ++ u); Swap (c ++ w) []; Keep (rest ++ q)]); auto; try texts.
  - cbn [piece_fixes]. match goal with |- Permutation ?x ?y => replace x with y; [apply Permutation_refl|] end. apply f_equal2; auto. apply fix_eq; rewrite ?zlen_app; unfold zlen; lia.
  - discriminate.
  - no_repeats.
Qed.
Print Assumptions C92_comment.

(** The exclamation mark is taken away. *)
Theorem C92_bang : forall (sf : list (fix_ ascii) -> list (fix_ ascii)) (sm : list (msg ascii) -> list (msg ascii)) n p q,
  correct_sort cmp_fix sf -> correct_sort cmp_msg sm ->
  apply_rule_fixes sf sm (p ++ b "!" ++ q) [mkMsg n (bang_fixes (List.length p))] = Ok (p ++ q, [], true).
Proof.
  intros sf sm n p q C CM. unfold bang_fixes, remove. assert (L : List.length (b "!") = 1%nat) by reflexivity. lengths.
  apply pieces_text with (l := [Keep p; Swap (b "!") []; Keep q]); auto; try texts.
  - one.
  - discriminate.
  - no_repeats.
Qed.
Print Assumptions C92_bang.

(** The text of the innermost expression takes the place of a double assertion. *)
Theorem C92_double : forall (sf : list (fix_ ascii) -> list (fix_ ascii)) (sm : list (msg ascii) -> list (msg ascii)) n p l o r q object body,
  correct_sort cmp_fix sf -> correct_sort cmp_msg sm -> o <> [] ->
  apply_rule_fixes sf sm (p ++ l ++ o ++ r ++ q) [mkMsg n (double_fixes o object body (List.length p) (List.length p + List.length (l ++ o ++ r)))]
  = Ok (p ++ (if object && body then b "(" ++ o ++ b ")" else o) ++ q, [], true).
Proof.
  intros sf sm n p l o r q object body C CM NE. unfold double_fixes. lengths. set (new := if object && body then _ else _).
  apply pieces_text with (l := [Keep p; Swap (l ++ o ++ r) new; Keep q]); auto; try texts.
  - one.
  - discriminate.
  - no_repeats.
Qed.
Print Assumptions C92_double.

(** If the type would start before as has ended, all from the expression to the end of the type goes, whatever is before as. *)
Theorem C92_misplaced : forall blank code a, (type_pos a < as_end a)%nat ->
  as_fixes blank code a = [mkFix [] (Z.of_nat (expression_end a)) (Z.of_nat (type_end a))].
Proof. intros blank code a H. unfold as_fixes. apply Nat.ltb_lt in H. rewrite H. reflexivity. Qed.
Print Assumptions C92_misplaced.

(** What follows can stick to what comes before: return<T>x becomes returnx, -<number>-x becomes --x, x!in y becomes xin y. *)
Theorem C92_tokens_refuted : exists code, code = b "return<T>x;" /\
  apply_rule_fixes fsort msort code [mkMsg 0 (angle_report code 6 9 6 9)] = Ok (b "returnx;", [], true) /\
  exists code', code' = b "y = -<number>-x;" /\ apply_rule_fixes fsort msort code' [mkMsg 0 (angle_report code' 5 13 5 13)] = Ok (b "y = --x;", [], true) /\
  exists code2, code2 = b "x!in y" /\ apply_rule_fixes fsort msort code2 [mkMsg 0 (bang_fixes 1)] = Ok (b "xin y", [], true).
Proof. eexists. split; [reflexivity|]. split; [vm_compute; reflexivity|]. eexists. split; [reflexivity|]. split; [vm_compute; reflexivity|]. eexists. split; [reflexivity|]. vm_compute. reflexivity. Qed.
Print Assumptions C92_tokens_refuted.
(** A no-break space before as is cut in two: its first byte, 194, stays. *)
Theorem C92_half_character_refuted : exists s out, space s = [ascii_of_nat 160] /\ gap s = [ascii_of_nat 194] /\ divided s /\
  as_code s = b "x" ++ [ascii_of_nat 194; ascii_of_nat 160] ++ b "as T;" /\
  apply_rule_fixes fsort msort (as_code s) [mkMsg 0 (as_fixes (fun _ => true) (as_code s) (as_at s))] = Ok (out, [], true) /\ out = b "x" ++ [ascii_of_nat 194] ++ b ";".
Proof.
  exists {| before := []; operand := b "x"; gap := [ascii_of_nat 194]; space := [ascii_of_nat 160]; mid := b " "; written := b "T"; after := b ";" |}, (b "x" ++ [ascii_of_nat 194] ++ b ";").
  split; [reflexivity|]. split; [reflexivity|]. split.
  - split; [constructor; [|constructor]; vm_compute; tauto|]. cbn [gap]. intros g c E. destruct g as [|d g]; [injection E as <-; vm_compute; intuition discriminate|]. destruct g; discriminate.
  - split; [vm_compute; reflexivity|]. split; vm_compute; reflexivity.
Qed.
Print Assumptions C92_half_character_refuted.
(** A comment for documentation before an assertion is taken away in its place; one that is in a type changes the type. *)
Theorem C92_documented_refuted : exists code start e opening out, code = b "v = /** doc */ <T>x;" /\
  apply_rule_fixes fsort msort code [mkMsg 0 (angle_report code start e opening e)] = Ok (out, [], true) /\ out = b "v = <T>x;" /\
  exists code' e' out', code' = b "<""/** */"">x" /\ apply_rule_fixes fsort msort code' [mkMsg 0 (angle_report code' 0 e' 0 e')] = Ok (out', [], true) /\ out' = b "<"""">x".
Proof.
  exists (b "v = /** doc */ <T>x;"), 3%nat, 18%nat, 15%nat, (b "v = <T>x;"). split; [reflexivity|]. split; [vm_compute; reflexivity|]. split; [reflexivity|].
  exists (b "<""/** */"">x"), 11%nat, (b "<"""">x"). split; [reflexivity|]. split; [vm_compute; reflexivity|]. reflexivity.
Qed.
Print Assumptions C92_documented_refuted.
(** The parentheses of the innermost expression are lost: one argument becomes two, a condition takes in what follows. *)
Theorem C92_parentheses_refuted : exists p l o r q, p ++ l ++ o ++ r ++ q = b "f((a, b) as unknown as T)" /\
  apply_rule_fixes fsort msort (p ++ l ++ o ++ r ++ q) [mkMsg 0 (double_fixes o false false (List.length p) (List.length p + List.length (l ++ o ++ r)))] = Ok (b "f(a, b)", [], true) /\
  exists p' l' o' r' q', p' ++ l' ++ o' ++ r' ++ q' = b "x = (a ? b : c) as any as T || d" /\
  apply_rule_fixes fsort msort (p' ++ l' ++ o' ++ r' ++ q') [mkMsg 0 (double_fixes o' false false (List.length p') (List.length p' + List.length (l' ++ o' ++ r')))] = Ok (b "x = a ? b : c || d", [], true).
Proof.
  exists (b "f("), (b "("), (b "a, b"), (b ") as unknown as T"), (b ")"). split; [reflexivity|]. split; [vm_compute; reflexivity|].
  exists (b "x = "), (b "("), (b "a ? b : c"), (b ") as any as T"), (b " || d"). split; [reflexivity|]. vm_compute. reflexivity.
Qed.
Print Assumptions C92_parentheses_refuted.
(** An object that is the body of an arrow function becomes a block when its assertion in angle brackets is taken away. *)
Theorem C92_block_refuted : exists code, code = b "f = () => <T>{a: 1}" /\
  apply_rule_fixes fsort msort code [mkMsg 0 (angle_report code 9 13 10 13)] = Ok (b "f = () => {a: 1}", [], true).
Proof. eexists. split; [reflexivity|]. vm_compute. reflexivity. Qed.
Print Assumptions C92_block_refuted.

(* x /* a */ as /* b */ T and x as T *)
Example C92_sample_as :
  let s := {| before := b "y = "; operand := b "x"; gap := b " /* a */"; space := b "  "; mid := b " /* b */ "; written := b "T"; after := b ";" |} in
  as_code s = b "y = x /* a */  as /* b */ T;" /\
  apply_rule_fixes fsort msort (as_code s) [mkMsg 0 (as_fixes (forallb byte_space) (as_code s) (as_at s))] = Ok (b "y = x /* a */ /* b */ ;", [], true).
Proof. split; vm_compute; reflexivity. Qed.
Example C92_sample_plain :
  let s := {| before := b "y = "; operand := b "x"; gap := []; space := b " "; mid := b " "; written := b "T"; after := b ";" |} in
  apply_rule_fixes fsort msort (as_code s) [mkMsg 0 (as_fixes (forallb byte_space) (as_code s) (as_at s))] = Ok (b "y = x;", [], true) /\
  as_fixes (forallb byte_space) (as_code s) {| expression_end := 5; as_pos := 4; as_end := 9; type_pos := 2; type_end := 7 |} = [remove 5 7].
Proof. split; vm_compute; reflexivity. Qed.
Example C92_sample_angle : apply_rule_fixes fsort msort (b "y = < T >x;") [mkMsg 0 (angle_report (b "y = < T >x;") 3 9 4 9)] = Ok (b "y = x;", [], true).
Proof. vm_compute. reflexivity. Qed.
Example C92_sample_comment : apply_rule_fixes fsort msort (b "y = /** @type {T} */ (x);") [mkMsg 0 (angle_report (b "y = /** @type {T} */ (x);") 3 21 0 0)] = Ok (b "y = (x);", [], true).
Proof. vm_compute. reflexivity. Qed.
Example C92_sample_double : apply_rule_fixes fsort msort (b "() => {a: 1} as any as T") [mkMsg 0 (double_fixes (b "{a: 1}") true true 6 24)] = Ok (b "() => ({a: 1})", [], true).
Proof. vm_compute. reflexivity. Qed.
