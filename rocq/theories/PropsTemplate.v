(** C38: inlining literals into templates. *)
From Coq Require Import String Ascii Bool List ZArith Lia Permutation Sorted.
From Verif Require Import Base JsText JsTextProofs JsTemplate Fixer FixerSpec FixerProofs FixerDisjoint Template TemplateProofs TemplateValueProofs TemplateEditProofs.
Import ListNotations.
Open Scope Z_scope.

(** ASCII text as code points. *)
Definition codes (s : string) : list Z := map (fun c => Z.of_nat (nat_of_ascii c)) (list_ascii_of_string s).

(** The template as it is written: chunks and interpolations. *)
Definition template (head : list Z) (spans : list span) : list item := chunks head (map (fun s => (s_id s, s_lit s)) spans).
(** The interpolations stand in the source as the spans say. *)
Definition as_written (hole : nat -> list Z) (spans : list span) : Prop :=
  forall s, In s spans -> hole (s_id s) = s_before s ++ source_of hole (s_expr s) ++ s_after s /\ source_of hole (s_expr s) <> [].
(** [E] gives every interpolation the value its expression has. *)
Definition evaluates (strict : bool) (E : nat -> list part -> Prop) (spans : list span) : Prop :=
  forall s w, In s spans -> E (s_id s) w -> reads strict E (s_expr s) w.
(** The names of the global constants mean what they say. *)
Definition global_names (E : nat -> list part -> Prop) (spans : list span) : Prop :=
  forall s w n, In s spans -> E (s_id s) w -> s_expr s = XName n ->
    n = codes "undefined" \/ n = codes "NaN" \/ n = codes "Infinity" -> w = map U n.
(** The file after the fixer has been given the chosen reports of one template; the last span is
    reported first (lines 230 and 306). *)
Definition fixed_file sf sm hole pre head spans post chs : res (list Z * list (msg Z) * bool) :=
  apply_rule_fixes sf sm (pre ++ 96 :: text hole (template head spans) ++ 96 :: post)
    (rev (messages 0 (snd (check_spans hole head (zlen pre + 1 + zlen head + 2) spans)) chs)).

Lemma template_orig head spans : template head spans = map C head ++ orig spans.
Proof.
  unfold template, chunks, orig. f_equal. induction spans as [|s l IH]; [reflexivity|]. cbn [map flat_map fst snd]. now rewrite IH.
Qed.
Lemma fixable_codes n : is_fixable_name n = true -> n = codes "undefined" \/ n = codes "NaN" \/ n = codes "Infinity".
Proof.
  unfold is_fixable_name. intros X. apply existsb_exists in X. destruct X as (t & I & X).
  assert (Q : forall a b, text_eqb a b = true -> a = b).
  { induction a as [|x a IH]; intros [|y b0]; cbn [text_eqb]; try discriminate; [auto|]. intros Y. apply andb_prop in Y.
    destruct Y as [->%Z.eqb_eq Y]. f_equal. auto. }
  apply Q in X. subst t. destruct I as [<-|[<-|[<-|[]]]]; [left|right; right|right; left]; reflexivity.
Qed.

(** Whatever reports of a template are fixed together, the fixer applies them all, the rest of the
    file stays, and the new template has the value of the old one, with the same interpolations
    evaluated in the same order.

    Full statement: the same without the two conditions [fine] and [closed] and without
    [global_names], and for sloppy mode; it is refuted below.  Missing: chunks and literals that
    end with a null escape or a carriage return, legacy escapes, regular expressions with flags out
    of order, local variables called undefined, NaN or Infinity. *)
Theorem C38_inlining_partial :
  forall sf sm hole E pre head spans post chs v,
    correct_sort cmp_fix sf -> correct_sort cmp_msg sm ->
    List.length chs = List.length spans ->
    as_written hole spans -> evaluates true E spans -> global_names E spans ->
    Forall (fun s => fine (s_expr s)) spans -> Forall closed (removelast (head :: map s_lit spans)) ->
    tvalue E (template head spans) v ->
    exists its fixed,
      fixed_file sf sm hole pre head spans post chs = Ok (pre ++ 96 :: text hole its ++ 96 :: post, [], fixed) /\
      tvalue E its v.
Proof.
  intros sf sm hole E pre head spans post chs v Sf Sm LC AW EV GN FI CL TV.
  rewrite template_orig in TV. unfold fixed_file. rewrite template_orig, text_app, text_C.
  set (pqe := zlen pre + 1 + zlen head + 2).
  assert (J : joints head spans).
  { clear - FI CL. revert head CL. induction FI as [|s l F _ IH]; intros head CL; [exact I|]. cbn [map] in CL.
    change (removelast (head :: s_lit s :: map s_lit l)) with (head :: removelast (s_lit s :: map s_lit l)) in CL.
    inversion CL; subst. cbn [joints]. auto. }
  pose proof (go_ok E spans head chs LC J EV (fun s w n I0 Ew Ex Fx => GN s w n I0 Ew Ex (fixable_codes n Fx))) as G.
  pose proof (canon_rw hole spans head pqe chs (96 :: post) LC (fun s I0 => proj1 (AW s I0))) as RW.
  destruct (canon_ascending hole spans head pqe chs AW) as (A1 & A2 & A3).
  destruct (check_go hole spans head pqe chs 0%nat) as [_ F2].
  destruct (go head spans) as [next ds]. destruct (tail spans ds chs) as [b0 its]. destruct G as (_ & _ & _ & G).
  exists (map C (esc_last b0 head) ++ its).
  assert (Z0 := zlen_nonneg _ pre). assert (Z1 := zlen_nonneg _ head). assert (Z2 := zlen_nonneg _ post).
  destruct (disjoint_all_applied sf sm (pre ++ 96 :: (head ++ text hole (orig spans)) ++ 96 :: post) _ _ _
    (pre ++ 96 :: text hole (map C (esc_last b0 head) ++ its) ++ 96 :: post) (correct_fix_sort _ _ Sf) (correct_msg_sort _ _ Sm) (Permutation_rev _) F2 A3) as (fx & OK).
  - eapply ascending_weak; [|exact A1]. unfold pqe. lia.
  - eapply Forall_impl; [|exact A2]. intros f. cbn beta. rewrite !zlen_app, zlen_cons, !zlen_app, zlen_cons. unfold pqe. lia.
  - apply rw_keep_at with (q := zlen pre); [lia|]. apply rw_keep. rewrite text_app, text_C, <- !app_assoc.
    replace (zlen pre + 1) with (pqe - 2 - zlen head) by (unfold pqe; lia). exact RW.
  - exists fx. split; [exact OK|]. now apply G.
Qed.
Print Assumptions C38_inlining_partial.

(** The value of a template is determined by the values of its interpolations. *)
Theorem C38_value_unique :
  forall (E : nat -> list part -> Prop) its v v', (forall i w w', E i w -> E i w' -> w = w') -> tvalue E its v -> tvalue E its v' -> v = v'.
Proof.
  intros E its v v' D T. revert v'. induction T as [s v X|s v i w r u X Ei T IH]; intros v' T'.
  - apply tv_inv_end in T'. destruct T' as (v0 & -> & X'). f_equal. eapply chars_fun; eauto.
  - apply tv_inv_hole in T'. destruct T' as (v0 & w' & u' & -> & X' & Ei' & T').
    rewrite (chars_fun _ _ _ _ X X'), (D _ _ _ Ei Ei'), (IH _ T'). reflexivity.
Qed.
Print Assumptions C38_value_unique.

(** ** Where the conditions are needed *)

Ltac rd := match goal with |- chars ?m ?s ?v => apply (read_chars m 40 s v); vm_compute; reflexivity end.
Lemma text_flat hole its t : text hole its = t -> ~ In 123 t -> its = map C t.
Proof.
  revert t. induction its as [|[c|i] its IH]; intros t E N; cbn [text] in E; subst t.
  - reflexivity.
  - cbn [map]. f_equal. apply IH; [reflexivity|]. intros I. apply N. now right.
  - exfalso. apply N. right. now left.
Qed.

(** What the refutations say: a template in a file, all of whose reports are fixed, which has a
    value before and not that value (or none at all) afterwards. *)
Definition wrong_fix (strict : bool) (E : nat -> list part -> Prop) (hole : nat -> list Z) (head : list Z) (spans : list span) (v : list part) : Prop :=
  as_written hole spans /\ evaluates strict E spans /\ tvalue E (template head spans) v /\
  exists out, fixed_file fsort msort hole [] head spans [] (map (fun _ => true) spans) = Ok (96 :: out ++ [96], [], true) /\
    forall its, text hole its = out -> ~ tvalue E its v.

Definition one (x : expr) : list span := [Span 0 [] x [] [] false []].
Definition E1 (x : list part) : nat -> list part -> Prop := fun i w => i = 0%nat /\ w = x.
Lemma wrong_one strict head x v0 v out :
  source_of (fun _ => []) x <> [] ->
  source_of (fun _ => source_of (fun _ => []) x) x = source_of (fun _ => []) x ->
  reads strict (E1 (map U v)) x (map U v) -> chars Tpl head v0 ->
  fixed_file fsort msort (fun _ => source_of (fun _ => []) x) [] head (one x) [] [true] = Ok (96 :: out ++ [96], [], true) ->
  ~ In 123 out -> read (List.length out) Tpl out <> Some (v0 ++ v) ->
  wrong_fix strict (E1 (map U v)) (fun _ => source_of (fun _ => []) x) head (one x) (map U (v0 ++ v)).
Proof.
  intros NE SE RD CH FX NB RO. split.
  { intros s [<-|[]]. cbn [s_id s_before s_expr s_after app]. rewrite SE, app_nil_r. auto. }
  split. { intros s w [<-|[]] [_ ->]. exact RD. }
  split. { unfold template, chunks. cbn. rewrite map_app. replace (map U v0 ++ map U v) with (map U v0 ++ map U v ++ []) by now rewrite app_nil_r. apply tv_hole; auto.
    - split; reflexivity.
    - apply (tv_end _ [] []). constructor. }
  exists out. split; [exact FX|]. intros its Ei T. apply text_flat in Ei; [|exact NB]. subst its.
  apply tv_inv_end in T. destruct T as (v1 & E1' & X). apply chars_iff in X. rewrite X in RO. apply RO. f_equal.
  clear - E1'. revert v1 E1'. generalize (v0 ++ v). intros l. induction l as [|c l IH]; intros [|d m]; cbn [map]; try discriminate; [auto|].
  intros [= -> X]. f_equal. apply IH. auto.
Qed.

(** [`\0${1}`] becomes [`\01`], which is a syntax error. *)
Theorem C38_null_escape_refuted :
  exists E hole head spans v, wrong_fix true E hole head spans v /\ global_names E spans /\ Forall (fun s => fine (s_expr s)) spans.
Proof.
  exists (E1 (map U (codes "1"))), (fun _ => codes "1"), [92; 48], (one (XNum (codes "1") (codes "1"))), (map U ([0] ++ codes "1")).
  split; [|split].
  - apply wrong_one with (out := [92; 48; 49]); try discriminate; try reflexivity.
    + rd.
    + cbn. intuition discriminate.
  - intros s w n [<-|[]] _ [=].
  - repeat constructor; unfold word_char; cbn; lia.
Qed.
Print Assumptions C38_null_escape_refuted.

(** [`a${'\1'}`] becomes [`a\1`], a syntax error; the literal is one in sloppy mode only. *)
Theorem C38_legacy_escape_refuted :
  exists E hole head spans v, wrong_fix false E hole head spans v /\ global_names E spans /\
    Forall (fun s => fine (s_expr s)) spans /\ closed head.
Proof.
  exists (E1 (map U [1])), (fun _ => [39; 92; 49; 39]), [97], (one (XStr 39 [92; 49])), (map U ([97] ++ [1])).
  split; [|split; [|split]].
  - apply wrong_one with (out := [97; 92; 49]); try discriminate; try reflexivity.
    + split; [auto|]. exists [1]. split; [rd|reflexivity].
    + rd.
    + cbn. intuition discriminate.
  - intros s w n [<-|[]] _ [=].
  - repeat constructor. cbn [s_expr fine]. now apply closed_fopen.
  - now apply closed_fopen.
Qed.
Print Assumptions C38_legacy_escape_refuted.

(** [`a${/x/yg}`] has the value a/x/gy; it becomes [`a/x/yg`]. *)
Theorem C38_regex_flags_refuted :
  exists E hole head spans v, wrong_fix true E hole head spans v /\ global_names E spans /\ closed head.
Proof.
  exists (E1 (map U (codes "/x/gy"))), (fun _ => codes "/x/yg"), [97], (one (XRegex (codes "x") (codes "yg"))), (map U ([97] ++ codes "/x/gy")).
  split; [|split].
  - apply wrong_one with (out := codes "a/x/yg"); try discriminate; try reflexivity.
    + exists (codes "gy"). split; [|reflexivity]. split; [apply perm_swap|]. repeat constructor; cbn; lia.
    + rd.
    + cbn. intuition discriminate.
  - intros s w n [<-|[]] _ [=].
  - now apply closed_fopen.
Qed.
Print Assumptions C38_regex_flags_refuted.

(** A carriage return before an inlined line feed: two line breaks become one. *)
Theorem C38_line_break_refuted :
  exists E hole head spans v, wrong_fix true E hole head spans v /\ global_names E spans /\ Forall (fun s => fine (s_expr s)) spans.
Proof.
  exists (E1 (map U [10])), (fun _ => [96; 10; 96]), [97; 13], (one (XTpl [10])), (map U ([97; 10] ++ [10])).
  split; [|split].
  - apply wrong_one with (out := [97; 13; 10]); try discriminate; try reflexivity.
    + exists [10]. split; [rd|reflexivity].
    + rd.
    + cbn. intuition discriminate.
  - intros s w n [<-|[]] _ [=].
  - repeat constructor. cbn [s_expr fine]. now apply closed_fopen.
Qed.
Print Assumptions C38_line_break_refuted.

(** [`a${NaN}`] becomes [`aNaN`] also where NaN is a local variable, here with the value 5. *)
Theorem C38_local_name_refuted :
  exists E hole head spans v, wrong_fix true E hole head spans v /\ Forall (fun s => fine (s_expr s)) spans /\ closed head.
Proof.
  exists (E1 (map U (codes "5"))), (fun _ => codes "NaN"), [97], (one (XName (codes "NaN"))), (map U ([97] ++ codes "5")).
  split; [|split].
  - apply wrong_one with (out := codes "aNaN"); try discriminate; try reflexivity.
    + rd.
    + cbn. intuition discriminate.
  - repeat constructor.
  - now apply closed_fopen.
Qed.
Print Assumptions C38_local_name_refuted.

(** ** Which interpolations are reported *)

(** White space and line terminators of ECMA-262 (tables 33 and 34). *)
Definition js_space (c : Z) : Prop :=
  9 <= c <= 13 \/ c = 32 \/ c = 160 \/ c = 5760 \/ 8192 <= c <= 8202 \/ c = 8232 \/ c = 8233 \/ c = 8239 \/ c = 8287 \/ c = 12288 \/ c = 65279.
Definition string_like (x : expr) : Prop := (exists q raw, x = XStr q raw) \/ (exists raw, x = XTpl raw).
Definition other_literal (x : expr) : Prop :=
  (exists a t, x = XNum a t) \/ (exists p f, x = XRegex p f) \/ (exists w, x = XWord w) \/ (exists h i r m, x = XNested h i r m) \/
  (exists n, x = XName n /\ (n = codes "undefined" \/ n = codes "NaN" \/ n = codes "Infinity")).
(** The next chunk starts with a line break. *)
Definition line_break (s : list Z) : Prop := exists r, s = 10 :: r \/ s = 13 :: 10 :: r.

Lemma check_length hole l : forall prev pqe, List.length (snd (check_spans hole prev pqe l)) = List.length l.
Proof.
  induction l as [|s l IH]; intros prev pqe; [reflexivity|]. cbn [check_spans].
  specialize (IH (s_lit s) (pqe + zlen (s_before s) + zlen (source_of hole (s_expr s)) + zlen (s_after s) + 1 + zlen (s_lit s) + 2)).
  destruct (check_spans hole (s_lit s) _ l) as [nx ds]. cbn [snd] in IH.
  destruct (unnecessary s); [|cbn [snd List.length]; lia]. destruct (literal_text (s_expr s)); [cbn [snd List.length]; lia|].
  destruct (s_expr s); cbn [snd List.length]; lia.
Qed.
Lemma check_reported hole l : forall prev pqe i s, nth_error l i = Some s ->
  ((exists fs, nth_error (snd (check_spans hole prev pqe l)) i = Some (Some fs)) <-> unnecessary s = true).
Proof.
  induction l as [|s0 l IH]; intros prev pqe i s N; [destruct i; discriminate|]. cbn [check_spans].
  specialize (IH (s_lit s0) (pqe + zlen (s_before s0) + zlen (source_of hole (s_expr s0)) + zlen (s_after s0) + 1 + zlen (s_lit s0) + 2)).
  destruct (check_spans hole (s_lit s0) _ l) as [nx ds]. cbn [snd] in IH.
  destruct i as [|i]; cbn [nth_error] in N.
  - injection N as ->. destruct (unnecessary s).
    + split; [auto|intros _]. destruct (literal_text (s_expr s)); [cbn; eauto|]. destruct (s_expr s); cbn; eauto.
    + cbn. split; [intros (? & [=])|discriminate].
  - rewrite <- (IH i s N). destruct (unnecessary s0); [|reflexivity].
    destruct (literal_text (s_expr s0)); [reflexivity|]. destruct (s_expr s0); reflexivity.
Qed.
Lemma codes_fixable n : n = codes "undefined" \/ n = codes "NaN" \/ n = codes "Infinity" -> is_fixable_name n = true.
Proof. intros [->|[->| ->]]; reflexivity. Qed.
Lemma newline_ok s : starts_newline s = true <-> line_break s.
Proof.
  unfold starts_newline, line_break. split.
  - destruct s as [|c s]; [discriminate|]. intros X.
    assert (c = 10 \/ (c = 13 /\ exists r, s = 10 :: r)) as [->|[-> (r & ->)]]; [|eauto|eauto].
    destruct c as [|c|c]; try discriminate.
    do 4 (destruct c as [c|c|]; try discriminate); auto.
    right. split; [reflexivity|]. destruct s as [|d s]; [discriminate|]. destruct d as [|d|d]; try discriminate.
    do 4 (destruct d as [d|d|]; try discriminate). eauto.
  - intros (r & [->| ->]); reflexivity.
Qed.
Lemma space_ok c : is_str_white_space c = true <-> js_space c.
Proof.
  unfold is_str_white_space, js_space. cbn [existsb]. rewrite !orb_true_iff, andb_true_iff, !Z.eqb_eq, !Z.leb_le. split; [intuition lia|].
  intros H. assert (c = 9 \/ c = 10 \/ c = 11 \/ c = 12 \/ c = 13 \/ c < 9 \/ 13 < c) by lia. intuition lia.
Qed.

(** An interpolation is reported exactly when it holds no comment and is a literal, a template, or
    one of the three names, except white space before a line break. *)
Theorem C38_reported :
  forall hole head pqe spans i s, nth_error spans i = Some s ->
    ((exists fs, nth_error (snd (check_spans hole head pqe spans)) i = Some (Some fs)) <->
     s_comment s = false /\
     (other_literal (s_expr s) \/ (string_like (s_expr s) /\ ~ (line_break (s_lit s) /\ Forall js_space (s_text s))))).
Proof.
  intros hole head pqe spans i s N. rewrite (check_reported hole spans head pqe i s N). unfold unnecessary, other_literal, string_like.
  destruct (s_comment s); [split; [discriminate|intros ([=] & _)]|].
  assert (W : negb (starts_newline (s_lit s)) || negb (is_whitespace (s_text s)) = true <-> ~ (line_break (s_lit s) /\ Forall js_space (s_text s))).
  { rewrite <- newline_ok. assert (Q : is_whitespace (s_text s) = true <-> Forall js_space (s_text s)).
    { unfold is_whitespace. rewrite forallb_forall, Forall_forall. split; intros X c I; now apply space_ok, X. }
    rewrite <- Q. destruct (starts_newline (s_lit s)), (is_whitespace (s_text s)); cbn; split; auto; try discriminate; intuition discriminate. }
  destruct (s_expr s) as [q raw|raw|src t|p f|t|n|h j r m|src].
  - rewrite W. split.
    + intros X. split; [auto|]. right. split; [left; eauto|auto].
    + intros (_ & [X|[_ X]]); [|auto]. exfalso. destruct X as [(? & ? & [=])|[(? & ? & [=])|[(? & [=])|[(? & ? & ? & ? & [=])|(? & [=] & _)]]]].
  - rewrite W. split.
    + intros X. split; [auto|]. right. split; [right; eauto|auto].
    + intros (_ & [X|[_ X]]); [|auto]. exfalso. destruct X as [(? & ? & [=])|[(? & ? & [=])|[(? & [=])|[(? & ? & ? & ? & [=])|(? & [=] & _)]]]].
  - split; [|auto]. intros _. split; [auto|]. left. left. eauto.
  - split; [|auto]. intros _. split; [auto|]. left. right; left. eauto.
  - split; [|auto]. intros _. split; [auto|]. left. right; right; left. eauto.
  - split.
    + intros X. split; [auto|]. left. do 4 right. exists n. split; [auto|]. now apply fixable_codes.
    + intros (_ & [[(? & ? & [=])|[(? & ? & [=])|[(? & [=])|[(? & ? & ? & ? & [=])|(n' & [= <-] & X)]]]]|([(? & ? & [=])|(? & [=])] & _)]). now apply codes_fixable.
  - split; [|auto]. intros _. split; [auto|]. left. right; right; right; left. eauto 10.
  - split; [discriminate|].
    intros (_ & [[(? & ? & [=])|[(? & ? & [=])|[(? & [=])|[(? & ? & ? & ? & [=])|(? & [=] & _)]]]]|([(? & ? & [=])|(? & [=])] & _)]).
Qed.
Print Assumptions C38_reported.

(** ** A template with nothing but one string in it *)

(** A position in the grammar takes expressions from a precedence on.  In an expression of
    precedence [p] no operand position asks for more than [p + 1] (typescript-go counts the
    comma as 0, assignments as 3, [??] as 4, [||] as 5, [&&] as 6, and so on). *)
Definition admits (least prec : Z) (t : list Z) (wrapped : list Z) : Prop := wrapped = 40 :: t ++ [41] \/ (wrapped = t /\ least <= prec).

(** Full statement: the same for every parent.  Missing: parents that are not expressions, see
    the refutation. *)
Theorem C38_single_parentheses_partial :
  forall p prec logical t least,
    p_expression p = true -> least <= p_prec p + 1 ->
    admits least prec t (single_text p prec logical t) /\
    (p_nullish p = true -> logical = true -> single_text p prec logical t = 40 :: t ++ [41]).
Proof.
  intros p prec logical t least X L. unfold single_text, needs_parentheses, admits. rewrite X. cbn [andb]. split.
  - destruct (p_nullish p && logical); cbn [orb]; [now left|]. destruct (Z.leb_spec prec (p_prec p)); [now left|]. right. split; [auto|lia].
  - intros -> ->. reflexivity.
Qed.
Print Assumptions C38_single_parentheses_partial.

(** [const s = `${a, b}`] becomes [const s = a, b]: an initializer is an assignment expression
    (precedence 3), a comma expression (precedence 0) is not, and a declaration is not an
    expression. *)
Theorem C38_single_parentheses_refuted :
  exists p t, p_expression p = false /\ ~ admits 3 0 t (single_text p 0 false t).
Proof.
  exists (Parent false 0 false), (codes "a, b"). split; [reflexivity|]. intros [X|[_ X]]; [discriminate|lia].
Qed.
Print Assumptions C38_single_parentheses_refuted.

(** Characters of identifiers (ASCII). *)
Definition ident_char (c : Z) : Prop := 48 <= c <= 57 \/ 65 <= c <= 90 \/ 97 <= c <= 122 \/ c = 95 \/ c = 36.
Definition glued (left mid : list Z) : Prop := exists a c d r, left = a ++ [c] /\ mid = d :: r /\ ident_char c /\ ident_char d.
(** A keyword directly before the template grows into the inlined name: typeof followed by
    [`${x}`] becomes typeofx (the operand of typeof, precedence 17, is Unary, 17 at least; a
    name is Primary, 20). *)
Theorem C38_single_glued_refuted :
  exists p prec left t, p_expression p = true /\ prec > p_prec p /\ glued left (single_text p prec false t).
Proof.
  exists (Parent true 17 false), 20, (codes "typeof"), (codes "x"). split; [reflexivity|]. split; [cbn; lia|].
  exists (codes "typeo"), 102, 120, []. repeat split; unfold ident_char; cbn; lia.
Qed.
Print Assumptions C38_single_glued_refuted.

(** ** Examples *)

(** The source [x = `a$${'{`$'}${ `${y}$` }{`;] is turned into [x = `a\${\`\$${y}\${`;]. *)
Definition ex_hole (i : nat) : list Z := nth i [codes "'{`$'"; codes " `${y}$` "; codes "y"] [].
Definition ex_spans : list span :=
  [Span 0 [] (XStr 39 (codes "{`$")) [] (codes "{`$") false [];
   Span 1 [32] (XNested [] 2 (codes "$") []) [32] [] false (codes "{")].
Definition ex_E (i : nat) (w : list part) : Prop :=
  match i with 0%nat => w = map U (codes "{`$") | 1%nat => w = Ho 2 :: map U (codes "$") | _ => w = [Ho i] end.
Definition ex_value : list part := map U (codes "a${`$") ++ [Ho 2] ++ map U (codes "${").
Example C38_ex_source : codes "x = " ++ 96 :: text ex_hole (template (codes "a$") ex_spans) ++ 96 :: codes ";" = codes "x = `a$${'{`$'}${ `${y}$` }{`;".
Proof. reflexivity. Qed.
Example C38_ex_fixed : fixed_file fsort msort ex_hole (codes "x = ") (codes "a$") ex_spans (codes ";") [true; true] =
  Ok (codes "x = `a\${\`\$${y}\${`;", [], true).
Proof. vm_compute. reflexivity. Qed.
(** Only the first report is fixed. *)
Example C38_ex_fixed_first : fixed_file fsort msort ex_hole (codes "x = ") (codes "a$") ex_spans (codes ";") [true; false] =
  Ok (codes "x = `a\${\`\$${ `${y}$` }{`;", [], true).
Proof. vm_compute. reflexivity. Qed.
(** The conditions of the theorem hold. *)
Example C38_ex_conditions :
  as_written ex_hole ex_spans /\ evaluates true ex_E ex_spans /\ global_names ex_E ex_spans /\
  Forall (fun s => fine (s_expr s)) ex_spans /\ Forall closed (removelast (codes "a$" :: map s_lit ex_spans)) /\
  tvalue ex_E (template (codes "a$") ex_spans) ex_value.
Proof.
  split; [|split; [|split; [|split; [|split]]]].
  - intros s [<-|[<-|[]]]; split; try reflexivity; discriminate.
  - intros s w [<-|[<-|[]]]; cbn [s_id s_expr ex_E reads]; intros ->.
    + split; [auto|]. exists (codes "{`$"). split; [rd|reflexivity].
    + apply (tv_hole ex_E [] [] 2 [Ho 2] (map C (codes "$")) (map U (codes "$"))); [constructor|reflexivity|]. apply tv_end. rd.
  - intros s w n [<-|[<-|[]]] _ [=].
  - repeat constructor; cbn [s_expr fine map last snd]; now apply closed_fopen.
  - repeat constructor; now apply closed_fopen.
  - apply (tv_hole ex_E (codes "a$") (codes "a$") 0 (map U (codes "{`$")) (H 1 :: map C (codes "{")) (Ho 2 :: map U (codes "${"))); [rd|reflexivity|].
    apply (tv_hole ex_E [] [] 1 (Ho 2 :: map U (codes "$")) (map C (codes "{")) (map U (codes "{"))); [constructor|reflexivity|].
    apply tv_end. rd.
Qed.
(** White space before a line break is not reported, other white space is. *)
Example C38_ex_white : map unnecessary
  [Span 0 [] (XStr 39 [32]) [] [32] false [10]; Span 0 [] (XStr 39 [32]) [] [32] false [97]; Span 0 [] (XStr 39 [97]) [] [97] true [97]] = [false; true; false].
Proof. reflexivity. Qed.
