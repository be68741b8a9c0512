(** Model of the reporting methods of [ruleContextBuilder]
    (internal/linter/linter.go:226-314), of the accessors of
    [rule.RuleDiagnostic] (internal/rule/rule.go:84-143) and of the conversion
    to the headless wire structure (cmd/tsgolint/headless.go:73-115, 338-395).

    A generator (the [fixesFn]/[suggestionsFn] closures) is a record of an
    identity and the value it returns; every call of a generator is logged with
    its identity.  Simplification: generators terminate, do not panic and do not
    report. *)
From Coq Require Import String Bool List ZArith.
From Verif Require Import Base.
Import ListNotations.
Open Scope Z_scope.

Section Report.
Context {File Node : Type}.

(** [core.TextRange] (typescript-go): two offsets. *)
Definition range : Type := Z * Z.

(** rule.go [RuleMessage]: id, description, help. *)
Record message := mkMsg { m_id : bstr; m_descr : bstr; m_help : bstr }.

(** rule.go [RuleFix]. *)
Record fix_ := mkFix { f_text : bstr; f_range : range }.

(** rule.go:84-91 [RuleSuggestion]. *)
Record suggestion := mkSugg { s_msg : message; s_fixes : list fix_ }.

(** rule.go:93-103 [RuleDiagnostic]; a nil pointer is [None]. *)
Record rdiag := mkRD {
  rd_range : range;
  rd_rule : bstr;
  rd_msg : message;
  rd_fixes : option (list fix_);
  rd_suggs : option (list suggestion);
  rd_file : option File;
  rd_labels : list (bstr * range)
}.

Record gen (A : Type) := mkGen { g_id : nat; g_val : list A }.
Arguments mkGen {A}. Arguments g_id {A}. Arguments g_val {A}.

(** One call of a reporting method of [RuleContext] (rule.go:118-130). *)
Inductive request :=
| QDiag (d : rdiag)
| QDiagFix (d : rdiag) (g : gen fix_)
| QDiagSugg (d : rdiag) (g : gen suggestion)
| QRange (r : range) (m : message)
| QRangeSugg (r : range) (m : message) (g : gen suggestion)
| QNode (n : Node) (m : message)
| QNodeFix (n : Node) (m : message) (g : gen fix_)
| QNodeSugg (n : Node) (m : message) (g : gen suggestion).

(** [utils.TrimNodeTextRange(file, node)]: any function. *)
Variable trim : option File -> Node -> range.

(** linter.go:217-224: the builder fields read by the methods.  [b_fix],
    [b_sugg] are [fixState.Fix], [fixState.FixSuggestions]. *)
Record builder := mkB { b_file : option File; b_rule : bstr; b_fix : bool; b_sugg : bool }.

(** linter.go:228-232 [emitDiagnostic]. *)
Definition emitted (b : builder) (d : rdiag) : rdiag :=
  mkRD (rd_range d) (b_rule b) (rd_msg d) (rd_fixes d) (rd_suggs d) (b_file b) (rd_labels d).

(** A freshly built diagnostic, as the composite literals at linter.go:253-256,
    264-268 and so on: unnamed fields are zero. *)
Definition fresh (r : range) (m : message) : rdiag := mkRD r [] m None None None [].

(** linter.go:235-238 and its copies: the generator runs only if the flag is set;
    otherwise the value is the nil slice.  Result: value, identities called. *)
Definition guarded {A : Type} (flag : bool) (g : gen A) : list A * list nat :=
  if flag then (g_val g, [g_id g]) else ([], []).

(** The eight methods, linter.go:228-300; result: the emitted diagnostic, the
    fix generators called, the suggestion generators called. *)
Definition report (b : builder) (q : request) : rdiag * list nat * list nat :=
  match q with
  | QDiag d => (emitted b d, [], [])
  | QDiagFix d g =>
      let '(v, log) := guarded (b_fix b) g in
      (emitted b (mkRD (rd_range d) (rd_rule d) (rd_msg d) (Some v) (rd_suggs d) (rd_file d) (rd_labels d)),
       log, [])
  | QDiagSugg d g =>
      let '(v, log) := guarded (b_sugg b) g in
      (emitted b (mkRD (rd_range d) (rd_rule d) (rd_msg d) (rd_fixes d) (Some v) (rd_file d) (rd_labels d)),
       [], log)
  | QRange r m => (emitted b (fresh r m), [], [])
  | QRangeSugg r m g =>
      let '(v, log) := guarded (b_sugg b) g in
      let d := fresh r m in
      (emitted b (mkRD (rd_range d) (rd_rule d) (rd_msg d) None (Some v) None []), [], log)
  | QNode n m => (emitted b (fresh (trim (b_file b) n) m), [], [])
  | QNodeFix n m g =>
      let '(v, log) := guarded (b_fix b) g in
      (emitted b (mkRD (trim (b_file b) n) [] m (Some v) None None []), log, [])
  | QNodeSugg n m g =>
      let '(v, log) := guarded (b_sugg b) g in
      (emitted b (mkRD (trim (b_file b) n) [] m None (Some v) None []), [], log)
  end.

(** rule.go:132-143 [ReportNodeWithFixesOrSuggestions]; [i] is the identity given to
    the closure it creates. *)
Definition fixes_or_suggestions (n : Node) (fix_it : bool) (m sm : message)
  (i : nat) (fs : list fix_) : request :=
  if fix_it then QNodeFix n m (mkGen i fs)
  else QNodeSugg n m (mkGen i [mkSugg sm fs]).

(** rule.go:105-110 [Fixes], 111-116 [GetSuggestions]. *)
Definition fixes (d : rdiag) : list fix_ :=
  match rd_fixes d with None => [] | Some l => l end.
Definition suggestions (d : rdiag) : list suggestion :=
  match rd_suggs d with None => [] | Some l => l end.

(** [core.TextRange.IsValid] of typescript-go: any predicate. *)
Variable valid : range -> bool.

(** headless.go:73-81 [headlessRangeFromRange]; [None] is nil. *)
Definition h_range (r : range) : option range := if valid r then Some r else None.

(** [*p] of a possibly nil pointer. *)
Definition deref {A : Type} (o : option A) : res A :=
  match o with Some a => Ok a | None => Panic end.

Fixpoint rmapM {A B : Type} (g : A -> res B) (l : list A) : res (list B) :=
  match l with
  | [] => Ok []
  | x :: l' => let! y := g x in let! ys := rmapM g l' in Ok (y :: ys)
  end.

(** headless.go:106-115 [headlessFixesFromRuleFixes]. *)
Definition h_fixes (fs : list fix_) : res (list fix_) :=
  rmapM (fun f => let! r := deref (h_range (f_range f)) in Ok (mkFix (f_text f) r)) fs.

(** headless.go:134-145 [headlessDiagnostic] of kind rule; nil and empty
    slices are the same because the JSON fields are marked omitempty. *)
Record hdiag := mkHD {
  hd_range : option range;
  hd_rule : bstr;
  hd_msg : message;
  hd_fixes : list fix_;
  hd_suggs : list suggestion;
  hd_file : File;
  hd_labels : list (bstr * range)
}.

(** headless.go:340-377; [opt_fix], [opt_sugg] are [opts.fix], [opts.fixSuggestions].
    [rd.SourceFile.FileName()] dereferences the file. *)
Definition h_conv (opt_fix opt_sugg : bool) (d : rdiag) : res hdiag :=
  let! file := deref (rd_file d) in
  let! labels := rmapM (fun l => let! r := deref (h_range (snd l)) in Ok (fst l, r)) (rd_labels d) in
  let! fs := if opt_fix then h_fixes (fixes d) else Ok [] in
  let! ss := if opt_sugg
             then rmapM (fun s => let! x := h_fixes (s_fixes s) in Ok (mkSugg (s_msg s) x)) (suggestions d)
             else Ok [] in
  Ok (mkHD (h_range (rd_range d)) (rd_rule d) (rd_msg d) fs ss file labels).

(** headless.go:440-443: the same two options configure the engine and the conversion. *)
Definition headless (opt_fix opt_sugg : bool) (f : File) (name : bstr) (q : request) : res hdiag :=
  h_conv opt_fix opt_sugg (fst (fst (report (mkB (Some f) name opt_fix opt_sugg) q))).

End Report.
Arguments mkGen {A}. Arguments g_id {A}. Arguments g_val {A}.
