(** Model of internal/rules/switch_exhaustiveness_check/switch_exhaustiveness_check.go. *)
From Coq Require Import String Ascii Bool List ZArith.
From Verif Require Import Base Utf8 Quote Types.
Import ListNotations.
Open Scope Z_scope.

(** Lines 50-55 [isLiteralLikeType]. *)
Definition is_literal_like (t : ty) : bool := is_set t (Literal ++ [FUndefined; FNull; FUniqueESSymbol]).
(** Lines 66-78 [doesTypeContainNonLiteralType]. *)
Definition contains_non_literal (t : ty) : bool :=
  existsb (fun u => forallb (fun w => negb (is_literal_like w)) (intersection_parts u)) (union_parts t).

(** internal/utils/utils.go 50-61 [TypeRecurser], for a predicate that updates a state; it answers
    whether the predicate said stop, and the state. *)
Section Recurser.
Context {S : Type}.
Variable predicate : ty -> S -> bool * S.
Fixpoint type_recurser (t : ty) (s : S) : bool * S :=
  let 'Ty _ _ _ _ parts := t in
  if is_set t [FUnion; FIntersection] then
    (fix each (l : list ty) (s : S) : bool * S :=
       match l with
       | [] => (false, s)
       | u :: l' => let '(stop, s') := type_recurser u s in if stop then (true, s') else each l' s'
       end) parts s
  else predicate t s.
End Recurser.

(** A clause of the switch: the positions where it starts (without leading trivia) and ends; the
    type of its test, none for the default clause. *)
Record clause := Clause { c_start : Z; c_end : Z; c_type : option ty }.
Definition is_default (c : clause) : bool := match c_type c with None => true | Some _ => false end.

(** ** Default comments, lines 80-106 *)

(** A comment with its text in the file, as code points (the file is valid UTF-8). *)
Inductive comment_kind := SingleLine | MultiLine.
Record comment := Comment { k_kind : comment_kind; k_text : list Z }.
(** strings.TrimPrefix. *)
Fixpoint strip (p s : list Z) : option (list Z) :=
  match p, s with
  | [], _ => Some s
  | x :: p', y :: s' => if x =? y then strip p' s' else None
  | _, [] => None
  end.
Definition trim_prefix (s p : list Z) : list Z := match strip p s with Some r => r | None => s end.
(** strings.TrimSuffix. *)
Definition trim_suffix (s p : list Z) : list Z := match strip (rev p) (rev s) with Some r => rev r | None => s end.
(** unicode.IsSpace. *)
Definition is_space (c : Z) : bool :=
  existsb (Z.eqb c) [9; 10; 11; 12; 13; 32; 133; 160; 5760; 8232; 8233; 8239; 8287; 12288] || ((8192 <=? c) && (c <=? 8202)).
(** strings.TrimSpace. *)
Fixpoint drop_spaces (s : list Z) : list Z :=
  match s with [] => [] | c :: r => if is_space c then drop_spaces r else s end.
Definition trim_space (s : list Z) : list Z := rev (drop_spaces (rev (drop_spaces s))).
(** Lines 89-94. *)
Definition comment_body (c : comment) : list Z :=
  match k_kind c with
  | SingleLine => trim_prefix (k_text c) [47; 47]
  | MultiLine => trim_suffix (trim_prefix (k_text c) [47; 42]) [42; 47]
  end.
(** Lines 87-105.  [pattern] is the regular expression; it answers nothing when matching fails. *)
Fixpoint comment_default (pattern : list Z -> option bool) (cs : list comment) : option comment :=
  match cs with
  | [] => None
  | c :: r =>
      match pattern (trim_space (comment_body c)) with
      | None => None
      | Some true => Some c
      | Some false => comment_default pattern r
      end
  end.

(** ** What the switch lacks *)

(** Lines 37-44 [SwitchMetadata]. *)
Record metadata := Metadata {
  m_non_literal : bool; m_default : option clause; m_comment : option comment; m_missing : list ty; m_symbol : list Z }.
(** Lines 46-48. *)
Definition has_default (m : metadata) : bool :=
  match m_default m, m_comment m with None, None => false | _, _ => true end.
(** Lines 138-153, the function given to [TypeRecurser]; types are compared by identity. *)
Definition collect (case_ids : list Z) (undefined_case : bool) (t : ty) (missing : list ty) : bool * list ty :=
  if existsb (Z.eqb (t_id t)) case_ids || negb (is_literal_like t) then (false, missing)
  else if undefined_case && is_set t [FUndefined] then (false, missing)
  else (false, missing ++ [t]).
(** Lines 108-164 [getSwitchMetadata]; [comments] are the comments between the end of the last
    clause and the end of the block. *)
Definition metadata_of (pattern : list Z -> option bool) (t : ty) (cases : list clause) (comments : list comment) : metadata :=
  let default := find is_default cases in
  let comment := match default with
                 | Some _ => None
                 | None => match cases with [] => None | _ => comment_default pattern comments end
                 end in
  let types := flat_map (fun c => match c_type c with Some u => [u] | None => [] end) cases in
  let undefined_case := existsb (fun u => is_set u [FUndefined]) types in
  Metadata (contains_non_literal t) default comment
    (snd (type_recurser (collect (map t_id types) undefined_case) t []))
    (match t_symbol t with Some n => n | None => [] end).

(** ** Reports, lines 285-340 *)
Record options := Options { o_allow_default : bool; o_default_exhaustive : bool; o_require_default : bool }.
Inductive report := NotExhaustive (missing : list ty) | DangerousDefault | DefaultMissing.
(** Lines 285-311, 313-325, 326-339, in the order of lines 347-350. *)
Definition reports (o : options) (m : metadata) : list report :=
  (if o_default_exhaustive o && has_default m then []
   else match m_missing m with [] => [] | l => [NotExhaustive l] end) ++
  (if o_allow_default o then []
   else if match m_missing m with [] => true | _ => false end && has_default m && negb (m_non_literal m)
        then [DangerousDefault] else []) ++
  (if negb (o_require_default o) then []
   else if m_non_literal m && negb (has_default m) then [DefaultMissing] else []).

(** ** The suggestion *)
Section Suggestion.
(** [TypeToString] of the checker, and whether a text is an identifier. *)
Variable to_string : ty -> bstr.
Variable is_identifier : bstr -> bool.
Definition bytes (s : list Z) : bstr := flat_map enc s.

(** Lines 181-199 [buildCaseTest]. *)
Definition case_test (t : ty) (symbol : list Z) : bstr :=
  let name := match t_symbol t with Some n => bytes n | None => [] end in
  let test := if is_set t ESSymbolLike then name else to_string t in
  if negb (match symbol with [] => true | _ => false end) && negb (is_identifier name)
  then bytes symbol ++ b "[" ++ quote_single name ++ b "]"
  else test.
(** Line 207, the replacer: one pass over the bytes. *)
Definition escape_case (s : bstr) : bstr :=
  flat_map (fun c => if Ascii.eqb c "\"%char then b "\\" else if Ascii.eqb c "'"%char then b "\'" else [c]) s.
(** Lines 201-209 [buildMissingCaseLine]. *)
Definition case_line (test : bstr) : bstr :=
  b "case " ++ test ++ b ": { throw new Error('Not implemented yet: " ++ escape_case test ++ b " case') }".
Definition default_line : bstr := b "default: { throw new Error('default case') }".

(** An edit: replace the text between two positions. *)
Record edit := Edit { e_pos : Z; e_end : Z; e_text : bstr }.
Definition nl : bstr := [zb 10].
(** strings.Join(lines, "\n"). *)
Fixpoint join_lines (l : list bstr) : bstr :=
  match l with [] => [] | [x] => x | x :: r => x ++ nl ++ join_lines r end.
(** Lines 172-179 [getNodeIndent]; [column] gives the column of a position. *)
Definition indent (column : Z -> Z) (pos : Z) : bstr :=
  if column pos <=? 0 then [] else repeat " "%char (Z.to_nat (column pos)).
(** Lines 219-269 [applyMissingCases]; the switch statement starts at [node], its block lies between
    [block] and [block_end]. *)
Definition apply_missing (column : Z -> Z) (node block block_end : Z) (cases : list clause) (default : option clause) (lines : list bstr) : edit :=
  match cases with
  | [] =>
      let ind := indent column node in
      Edit block block_end (join_lines [b "{"; join_lines (map (app ind) lines); ind ++ b "}"])
  | c0 :: r =>
      let last_case := last r c0 in
      let ind := indent column (c_start last_case) in
      match default with
      | Some d => Edit (c_start d) (c_start d) (flat_map (fun code => code ++ nl ++ ind) lines)
      | None => Edit (c_end last_case) (c_end last_case) (nl ++ join_lines (map (app ind) lines))
      end
  end.
(** Lines 211-217, 271-274, and the calls in lines 305-307 and 334-336: the edit for a report. *)
Definition suggestion (column : Z -> Z) (node block block_end : Z) (cases : list clause) (m : metadata) (r : report) : option edit :=
  match r with
  | NotExhaustive l => Some (apply_missing column node block block_end cases (m_default m) (map (fun t => case_line (case_test t (m_symbol m))) l))
  | DefaultMissing => Some (apply_missing column node block block_end cases (m_default m) [default_line])
  | DangerousDefault => None
  end.
End Suggestion.
