(** Properties of no-meaningless-void-operator (C100). *)
From Coq Require Import Bool Arith ZArith Ascii String List Lia Permutation.
From Verif Require Import Base Fixer FixerSpec FixerProofs FixMany FixPieces.
From Verif Require Import VoidOperator VoidOperatorSpec VoidOperatorProofs.
Import ListNotations.
Open Scope Z_scope.

(** C100: there is a report with a fix exactly if every part of the operand's type is void or undefined. *)
Theorem C100_fix : forall c p t n, (exists r, check c p t n = Some r /\ fixes r <> []) <-> forall q, part_of q t -> void_like q = true.
Proof.
  intros c p t n. rewrite <- always_iff. unfold check. destruct (always_void_like t); split; intros H; auto.
  - eexists. split; [reflexivity|]. discriminate.
  - destruct H as (r & H & F). destruct (c && always_void_like_or_never t); [|discriminate]. injection H as <-. destruct (F eq_refl).
  - discriminate.
Qed.
Print Assumptions C100_fix.

(** C100: there is a report with a suggestion exactly if the option asks for it, every part is void, undefined or never, and some part is only never. *)
Theorem C100_suggestion : forall c p t n, (exists r, check c p t n = Some r /\ suggestions r <> []) <->
  c = true /\ (forall q, part_of q t -> void_like q = true \/ never q = true) /\ exists q, part_of q t /\ void_like q = false.
Proof.
  intros c p t n. rewrite <- always_or_iff. unfold check. destruct (always_void_like t) eqn:A.
  - split.
    + intros (r & H & F). injection H as <-. destruct (F eq_refl).
    + intros (_ & _ & q & Q & V). apply always_iff in Q; auto. congruence.
  - assert (X : exists q, part_of q t /\ void_like q = false).
    { unfold always_void_like in A. assert (N : ~ Forall (fun q => void_like q = true) (union_parts t)) by (rewrite Forall_forall, <- forallb_forall; congruence).
      apply (neg_Forall_Exists_neg (fun q => bool_dec (void_like q) true)) in N. apply Exists_exists in N as (q & Q & V). exists q. split; [apply in_parts; exact Q|destruct (void_like q); congruence]. }
    destruct c; cbn [andb].
    + destruct (always_void_like_or_never t); split.
      * auto.
      * intros _. eexists. split; [reflexivity|discriminate].
      * intros (r & H & _). discriminate.
      * intros (_ & H & _). discriminate.
    + split; [intros (r & H & _); discriminate|intros (H & _); discriminate].
Qed.
Print Assumptions C100_suggestion.

(** C100: a report never has both, never has neither, is on the whole expression and names the type. *)
Theorem C100_report : forall c p t n r, check c p t n = Some r ->
  range r = (node_start p, node_end p) /\ message r = (b "meaninglessVoidOperator", b "void operator shouldn't be used on " ++ n ++ b "; it should convey that a return value is being ignored")
  /\ (suggestions r = [] /\ length (fixes r) = 1%nat \/ fixes r = [] /\ exists f, suggestions r = [((b "removeVoid", b "Remove 'void'"), [f])]).
Proof.
  intros c p t n r H. unfold check in H. destruct (always_void_like t); [injection H as <-; split; [reflexivity|]; split; [reflexivity|]; left; split; reflexivity|].
  destruct (c && always_void_like_or_never t); [|discriminate]. injection H as <-. split; [reflexivity|]. split; [reflexivity|]. right. split; [reflexivity|]. eexists. reflexivity.
Qed.
Print Assumptions C100_report.
(** C100: the option only adds reports, with suggestions. *)
Theorem C100_option : forall p t n r, check false p t n = Some r -> check true p t n = Some r.
Proof. intros p t n r. unfold check. destruct (always_void_like t); auto. discriminate. Qed.
Print Assumptions C100_option.

(** C100: the keyword alone goes; blanks and comments behind it stay. *)
Theorem C100_text : forall (sf : list (fix_ ascii) -> list (fix_ ascii)) (sm : list (msg ascii) -> list (msg ascii)) i before gap operand after c t n r,
  correct_sort cmp_fix sf -> correct_sort cmp_msg sm ->
  check c {| node_start := zlen before; node_end := zlen (before ++ b "void" ++ gap ++ operand); arg_pos := zlen (before ++ b "void") |} t n = Some r ->
  forall fs, fs = fixes r /\ fs <> [] \/ (exists m, In (m, fs) (suggestions r)) ->
  apply_rule_fixes sf sm (before ++ b "void" ++ gap ++ operand ++ after) [mkMsg i fs] = Ok (before ++ gap ++ operand ++ after, [], true).
Proof.
  intros sf sm i p g a q c t n r C CM H fs F.
  assert (E : fs = [mkFix [] (zlen p) (zlen (p ++ b "void"))]).
  { unfold check, remove_void in H. cbn [node_start arg_pos] in H. destruct (always_void_like t).
    - injection H as <-. cbn [fixes suggestions] in F. destruct F as [[F _]|(m & F)]; [exact F|destruct F].
    - destruct (c && always_void_like_or_never t); [|discriminate]. injection H as <-. cbn [fixes suggestions In] in F. destruct F as [[F N]|(m & [F|F])]; [destruct (N F)|injection F as _ F; symmetry; exact F|destruct F]. }
  subst fs. clear H F. pose proof (zlen_nonneg p). assert (zlen (b "void") = 4) by reflexivity.
  apply pieces_text with (l := [Keep p; Swap (b "void") []; Keep (g ++ a ++ q)]); auto; try texts.
  - cbn [piece_fixes]. rewrite zlen_app. apply Permutation_refl.
  - discriminate.
  - no_repeats.
Qed.
Print Assumptions C100_text.

(** C100: all keywords without meaning in a text, nested or side by side, go in one pass, whatever the order of the reports; the others stay. *)
Definition reported (l : list seg) : list (list (fix_ ascii)) :=
  flat_map (fun w => match w with (p, t, n) => match check false p t n with Some r => [fixes r] | None => [] end end) (words 0 l).
Theorem C100_all : forall (sf : list (fix_ ascii) -> list (fix_ ascii)) (sm : list (msg ascii) -> list (msg ascii)) l l' ms,
  correct_sort cmp_fix sf -> correct_sort cmp_msg sm -> without_idle l l' -> (exists s, In s l /\ idle s) ->
  Permutation (map mfixes ms) (reported l) ->
  apply_rule_fixes sf sm (source l) ms = Ok (source l', [], true).
Proof.
  intros sf sm l l' ms C CM W I P.
  assert (CC : concat (reported l) = piece_fixes 0 (map seg_piece l)).
  { rewrite <- word_fixes. unfold reported. induction (words 0 l) as [|[[p t] n] ws IH]; cbn [flat_map]; [reflexivity|]. rewrite concat_app, IH. f_equal. unfold report_fixes. destruct (check false p t n); cbn [concat]; [apply app_nil_r|reflexivity]. }
  assert (X : exists ms', Permutation ms ms' /\ map mfixes ms' = reported l).
  { destruct (Permutation_map_inv _ _ (Permutation_sym P)) as (ms' & E & Q). exists ms'. split; [exact Q|symmetry; exact E]. }
  destruct X as (ms' & Q & E).
  apply many with (given := ms') (ordered := reported l); auto.
  - rewrite <- E. clear. induction ms' as [|m ms IH]; cbn [map]; constructor; auto.
  - apply Forall_forall. intros fs H. unfold reported in H. apply in_flat_map in H as ([[p t] n] & _ & H). destruct (check false p t n) as [r|] eqn:R; [|destruct H]. destruct H as [<-|[]].
    unfold check in R. cbn [andb] in R. destruct (always_void_like t); [|discriminate]. injection R as <-. discriminate.
  - intros ->. cbn [map] in E. destruct I as (s & I & J). assert (N : In s l -> concat (reported l) <> []).
    { rewrite CC. clear - J. generalize 0. induction l as [|x l IH]; intros z H; [destruct H|]. cbn [map]. destruct H as [->|H].
      - destruct s as [t|e t n]; [destruct J|]. cbn [seg_piece]. assert (A : always_void_like t = true) by (apply always_iff; exact J). rewrite A. discriminate.
      - destruct x as [t|e t n]; cbn [seg_piece]; [|destruct (always_void_like t)]; cbn [piece_fixes]; [apply IH; exact H|discriminate|apply IH; exact H]. }
    rewrite <- E in N. apply (N I). reflexivity.
  - rewrite CC, <- pieces_old. apply (piece_disjoint (map seg_piece l) 0 0 (Z.le_refl 0)).
  - rewrite CC. apply piece_keys.
  - rewrite CC, <- pieces_old, <- (pieces_new _ _ W). apply piece_rewrites.
  - apply Permutation_sym. exact Q.
Qed.
Print Assumptions C100_all.

(** Witnesses. *)
Definition void_part : part := {| void_like := true; never := false |}.
Definition never_part : part := {| void_like := false; never := true |}.
Definition number_part : part := {| void_like := false; never := false |}.
Definition tested (before gap operand after : bstr) : option (list (fix_ ascii)) :=
  option_map fixes (check false {| node_start := zlen before; node_end := zlen (before ++ b "void" ++ gap ++ operand); arg_pos := zlen (before ++ b "void") |} (Single void_part) (b "void")).

(** C100: that the program stays the same is false: a function called at once becomes a declaration. *)
Theorem C100_function_refuted : exists operand after fs, tested [] (b " ") operand after = Some fs /\
  declares (b "void " ++ operand ++ after) = false /\
  exists out, (forall (sf : list (fix_ ascii) -> list (fix_ ascii)) (sm : list (msg ascii) -> list (msg ascii)), correct_sort cmp_fix sf -> correct_sort cmp_msg sm ->
    apply_rule_fixes sf sm (b "void " ++ operand ++ after) [mkMsg 0 fs] = Ok (out, [], true)) /\ declares out = true.
Proof.
  exists (b "function () {}()"), (b ";"). eexists. split; [reflexivity|]. split; [reflexivity|]. exists (b " function () {}();"). split; [|reflexivity]. intros sf sm C CM.
  change (b "void " ++ b "function () {}()" ++ b ";") with ([] ++ b "void" ++ b " " ++ b "function () {}()" ++ b ";").
  rewrite (C100_text sf sm 0 [] (b " ") (b "function () {}()") (b ";") false (Single void_part) (b "void") _ C CM eq_refl); [reflexivity|left; split; [reflexivity|discriminate]].
Qed.
Print Assumptions C100_function_refuted.
(** C100: a parenthesis that is now first in its line calls the value of the line before. *)
Theorem C100_line_refuted : exists before operand after fs, tested before (b " ") operand after = Some fs /\
  goes_on None false (before ++ b "void " ++ operand ++ after) = false /\
  exists out, (forall (sf : list (fix_ ascii) -> list (fix_ ascii)) (sm : list (msg ascii) -> list (msg ascii)), correct_sort cmp_fix sf -> correct_sort cmp_msg sm ->
    apply_rule_fixes sf sm (before ++ b "void " ++ operand ++ after) [mkMsg 0 fs] = Ok (out, [], true)) /\ goes_on None false out = true.
Proof.
  exists (b "const a = f" ++ ["010"%char]), (b "(() => {})()"), (b ";"). eexists. split; [reflexivity|]. split; [reflexivity|]. exists (b "const a = f" ++ ["010"%char] ++ b " (() => {})();"). split; [|reflexivity]. intros sf sm C CM.
  change (b "void " ++ b "(() => {})()" ++ b ";") with (b "void" ++ b " " ++ b "(() => {})()" ++ b ";").
  rewrite (C100_text sf sm 0 (b "const a = f" ++ ["010"%char]) (b " ") (b "(() => {})()") (b ";") false (Single void_part) (b "void") _ C CM eq_refl); [reflexivity|left; split; [reflexivity|discriminate]].
Qed.
Print Assumptions C100_line_refuted.
(** C100: an operand on the next line is cut off from its return; it is no longer run. *)
Theorem C100_return_refuted : exists gap operand after fs, tested (b "return ") gap operand after = Some fs /\
  cut_off (b "return " ++ b "void" ++ gap ++ operand ++ after) = false /\
  exists out, (forall (sf : list (fix_ ascii) -> list (fix_ ascii)) (sm : list (msg ascii) -> list (msg ascii)), correct_sort cmp_fix sf -> correct_sort cmp_msg sm ->
    apply_rule_fixes sf sm (b "return " ++ b "void" ++ gap ++ operand ++ after) [mkMsg 0 fs] = Ok (out, [], true)) /\ cut_off out = true.
Proof.
  exists ["010"%char], (b "f()"), (b ";"). eexists. split; [reflexivity|]. split; [reflexivity|]. exists (b "return " ++ ["010"%char] ++ b "f();"). split; [|reflexivity]. intros sf sm C CM.
  rewrite (C100_text sf sm 0 (b "return ") ["010"%char] (b "f()") (b ";") false (Single void_part) (b "void") _ C CM eq_refl); [reflexivity|left; split; [reflexivity|discriminate]].
Qed.
Print Assumptions C100_return_refuted.

(** Examples. *)
Example C100_examples :
  let p := {| node_start := 0; node_end := 10; arg_pos := 4 |} in
  option_map fixes (check false p (Union [void_part; void_part]) (b "void | undefined")) = Some [mkFix [] 0 4]
  /\ check false p (Union [void_part; number_part]) (b "number | undefined") = None
  /\ check false p (Single never_part) (b "never") = None
  /\ option_map suggestions (check true p (Single never_part) (b "never")) = Some [((b "removeVoid", b "Remove 'void'"), [mkFix [] 0 4])]
  /\ check true p (Single number_part) (b "number") = None.
Proof. repeat split; reflexivity. Qed.
(** `void void f();` with both keywords without meaning, and one in front of a number. *)
Definition nested : list seg := [Void_word 13 (Single void_part) (b "undefined"); Plain (b " "); Void_word 13 (Single void_part) (b "void"); Plain (b " f(); "); Void_word 20 (Single number_part) (b "number"); Plain (b " 1")].
Example C100_nested_example : exists l', without_idle nested l' /\ source l' = b "  f(); void 1" /\ reported nested = [[mkFix [] 0 4]; [mkFix [] 5 9]].
Proof.
  exists [Plain (b " "); Plain (b " f(); "); Void_word 20 (Single number_part) (b "number"); Plain (b " 1")]. split; [|split; reflexivity]. unfold nested.
  assert (J : forall e n, idle (Void_word e (Single void_part) n)) by (intros e n q Q; inversion Q; reflexivity).
  assert (K : forall t, ~ idle (Plain t)) by (intros t []).
  apply wi_drop; [apply J|]. apply wi_keep; [apply K|]. apply wi_drop; [apply J|]. apply wi_keep; [apply K|]. apply wi_keep.
  - intros H. specialize (H number_part (part_single _)). discriminate.
  - apply wi_keep; [apply K|]. constructor.
Qed.
