(** Model of internal/rules/no_unnecessary_template_expression/
    no_unnecessary_template_expression.go (checkTemplateSpans and what it calls).

    Texts are lists of code points; the rule works on the bytes of the file, but looks only at
    ASCII bytes, which occur in UTF-8 only as themselves, so offsets count code points here.
    Source positions are those of the nodes of typescript-go as the rule reads them: the end of
    a template head or middle is the position after its [${], the trimmed start of a middle or
    tail is the position of its closing brace. *)
From Coq Require Import Bool List ZArith.
From Verif Require Import Base JsTemplate Fixer.
Import ListNotations.
Open Scope Z_scope.

(** The parts of a template span the rule reads: the number of the interpolation, white space
    before and after the expression, the expression, its text for string literals
    ([expression.Text()], computed by the compiler), whether there is a comment in the
    interpolation ([utils.HasCommentsInRange], line 135), and the raw text of the chunk that
    follows. *)
Record span := Span {
  s_id : nat; s_before : list Z; s_expr : expr; s_after : list Z;
  s_text : list Z; s_comment : bool; s_lit : list Z }.

(** Lines 41-43 [startsWithNewline]. *)
Definition starts_newline (s : list Z) : bool :=
  match s with 10 :: _ => true | 13 :: 10 :: _ => true | _ => false end.
(** internal/utils/utils.go 168-185 [IsStrWhiteSpace]; the category Zs is
    that of Unicode 15. *)
Definition is_str_white_space (c : Z) : bool :=
  existsb (Z.eqb c) [10; 13; 8232; 8233] || existsb (Z.eqb c) [9; 11; 12; 65279] ||
  (existsb (Z.eqb c) [32; 160; 5760; 8239; 8287; 12288] || ((8192 <=? c) && (c <=? 8202))).
(** Lines 45-60 [isWhitespace]. *)
Definition is_whitespace (s : list Z) : bool := forallb is_str_white_space s.

(** Backslashes at the front of a text, used on reversed prefixes (lines 67-70, 79-82). *)
Fixpoint count92 (l : list Z) : nat :=
  match l with c :: r => if c =? 92 then S (count92 r) else O | [] => O end.
(** Lines 62-72 [endsWithUnescapedDollarSign]. *)
Definition ends_dollar (s : list Z) : bool :=
  match rev s with c :: r => if c =? 36 then Nat.even (count92 r) else false | [] => false end.
(** Lines 74-90 [escapeTemplateRawText]; [before] is the text already passed, reversed. *)
Fixpoint escape_from (before l : list Z) : list Z :=
  match l with
  | [] => []
  | c :: r =>
      let needs := (c =? 96) || ((c =? 36) && match r with d :: _ => d =? 123 | [] => false end) in
      (if needs && Nat.even (count92 before) then [92; c] else [c]) ++ escape_from (c :: before) r
  end.
Definition escape_template_raw (s : list Z) : list Z := escape_from [] s.

Definition has_prefix (c : Z) (s : list Z) : bool := match s with d :: _ => d =? c | [] => false end.
Definition empty (s : list Z) : bool := match s with [] => true | _ => false end.
Fixpoint text_eqb (a b : list Z) : bool :=
  match a, b with [], [] => true | x :: a', y :: b' => (x =? y) && text_eqb a' b' | _, _ => false end.

(** Lines 33-39 [isFixableIdentifier]: undefined, Infinity, NaN. *)
Definition is_fixable_name (n : list Z) : bool :=
  existsb (text_eqb n) [[117; 110; 100; 101; 102; 105; 110; 101; 100];
                        [73; 110; 102; 105; 110; 105; 116; 121]; [78; 97; 78]].

(** Lines 134-160 [isUnnecessaryValueInterpolation]. *)
Definition unnecessary (s : span) : bool :=
  if s_comment s then false else
  match s_expr s with
  | XName n => is_fixable_name n
  | XStr _ _ | XTpl _ => negb (starts_newline (s_lit s)) || negb (is_whitespace (s_text s))
  | XNum _ _ | XRegex _ _ | XWord _ => true
  | XNested _ _ _ _ => true
  | XOther _ => false
  end.

(** [strings.ReplaceAll(text, `\`, `\\`)], line 204. *)
Definition double_backslashes (s : list Z) : list Z := flat_map (fun c => if c =? 92 then [92; 92] else [c]) s.
(** Lines 169-177 [getLiteral] and the switch in lines 191-207: the text before escaping.
    For numbers it is computed by the compiler (lines 92-99). *)
Definition literal_text (x : expr) : option (list Z) :=
  match x with
  | XStr _ raw => Some raw
  | XTpl raw => Some raw
  | XNum _ t => Some t
  | XRegex p f => Some (double_backslashes (47 :: p ++ 47 :: f))
  | _ => None
  end.
(** Lines 209-213. *)
Definition replacement (t : list Z) (next : bool) : list Z :=
  let t := escape_template_raw t in
  if next && ends_dollar t then removelast t ++ [92; 36] else t.

(** Raw text of the last chunk of a nested template (lines 275-276). *)
Definition last_raw (raw : list Z) (more : list (nat * list Z)) : list Z := last (map snd more) raw.

(** Lines 227-313 [checkTemplateSpans]: from the last span to the first.  [prev] is the raw text
    of the chunk before the span, [pqe] the position after its [${]; [hole] gives the source text
    of interpolations inside nested templates.  The result is nextCharacterIsOpeningCurlyBrace
    and, for every span, the fixes of its report if there is one. *)
Section Spans.
Variable hole : nat -> list Z.

Fixpoint check_spans (prev : list Z) (pqe : Z) (l : list span) : bool * list (option (list (fix_ Z))) :=
  match l with
  | [] => (false, [])
  | s :: rest =>
      let expr_pos := pqe + zlen (s_before s) in
      let expr_end := expr_pos + zlen (source_of hole (s_expr s)) in
      let lit_pos := expr_end + zlen (s_after s) in
      let '(next, ds) := check_spans (s_lit s) (lit_pos + 1 + zlen (s_lit s) + 2) rest in
      if unnecessary s then
        let next := if empty (s_lit s) then next else has_prefix 123 (s_lit s) in
        let fixes := [mkFix [] (pqe - 2) expr_pos; mkFix [] expr_end (lit_pos + 1)] in
        let '(next, fixes) :=
          match literal_text (s_expr s) with
          | Some t =>
              let r := replacement t next in
              (if empty r then next else has_prefix 123 r, fixes ++ [mkFix r expr_pos expr_end])
          | None =>
              match s_expr s with
              | XNested head _ raw more =>
                  let dollar := if next && ends_dollar (last_raw raw more)
                                then [mkFix [92] (expr_end - 2) (expr_end - 2)] else [] in
                  (if empty head then next else has_prefix 123 head,
                   fixes ++ dollar ++ [mkFix [] expr_pos (expr_pos + 1); mkFix [] (expr_end - 1) expr_end])
              | _ => (false, fixes)
              end
          end in
        let fixes := if next && ends_dollar prev then fixes ++ [mkFix [92; 36] (pqe - 3) (pqe - 2)] else fixes in
        (next, Some fixes :: ds)
      else (next, None :: ds)
  end.
End Spans.

(** The reports handed to the fixer (lines 306-311), for any choice of them; the number of a
    message is the index of its span. *)
Fixpoint messages (k : nat) (ds : list (option (list (fix_ Z)))) (chs : list bool) : list (msg Z) :=
  match ds, chs with
  | d :: ds, ch :: chs =>
      match d with
      | Some fs => (if ch : bool then [mkMsg k fs] else []) ++ messages (S k) ds chs
      | None => messages (S k) ds chs
      end
  | _, _ => []
  end.

(** Lines 111-123 [reportSingleInterpolation]: the text put in place of a whole template with one
    interpolation.  [parent]: whether the parent node is an expression and its precedence
    ([ast.GetExpressionPrecedence], in typescript-go), and whether it is a [??]; [prec] and
    [logical]: precedence of the interpolation, and whether it is a [||] or [&&]. *)
Record parent := Parent { p_expression : bool; p_prec : Z; p_nullish : bool }.
Definition needs_parentheses (p : parent) (prec : Z) (logical : bool) : bool :=
  (p_nullish p && logical) || (p_expression p && (prec <=? p_prec p)).
Definition single_text (p : parent) (prec : Z) (logical : bool) (t : list Z) : list Z :=
  if needs_parentheses p prec logical then [40] ++ t ++ [41] else t.
