(** Model of internal/linter/source_code_fixer.go. *)
From Coq Require Import List ZArith Permutation Sorted.
From Verif Require Import Base.
Import ListNotations.
Open Scope Z_scope.

Section Fixer.

(** A byte of source text. *)
Context {byte : Type}.

(** internal/rule/rule.go 45-48 [RuleFix]; [Range] is a pair of byte offsets
    (core.TextRange, 32-bit values held in 64-bit ints, so subtraction in the
    comparison functions cannot overflow; modelled by unbounded integers). *)
Record fix_ : Type := mkFix { ftext : list byte; fpos : Z; fend : Z }.

(** internal/linter/source_code_fixer.go 10-12 [LintMessage] together with the
    identity of the message. [Fixes()] returns the same backing slice on every
    call (as rule.RuleDiagnostic.Fixes, internal/rule/rule.go 105-110 and
    RuleSuggestion.Fixes 89-91 do), so sorting it in place is visible later. *)
Record msg : Type := mkMsg { mid : nat; mfixes : list fix_ }.

(** source_code_fixer.go 22-28: comparison function of the first sort. *)
Definition cmp_fix (a c : fix_) : Z :=
  let start := fpos a - fpos c in
  if start =? 0 then fend a - fend c else start.

(** source_code_fixer.go 35-43: comparison function of the second sort. Only
    messages with fixes are compared ([aFixes[0]] would panic otherwise); an
    absent fix counts as position 0 here. *)
Definition first_pos (d : msg) : Z := match mfixes d with [] => 0 | f :: _ => fpos f end.
Definition last_end (d : msg) : Z := match mfixes d with [] => 0 | f :: fs => fend (last fs f) end.
Definition cmp_msg (a c : msg) : Z :=
  let start := first_pos a - first_pos c in
  if start =? 0 then last_end a - last_end c else start.

(** [slices.SortFunc] is not stable: all that is known of its result is that it
    is a permutation in which no element compares greater than a later one. The
    two sorts are parameters of the model. *)
Definition correct_sort {A : Type} (cmp : A -> A -> Z) (s : list A -> list A) : Prop :=
  forall l, Permutation l (s l) /\ StronglySorted (fun x y => cmp x y <= 0) (s l).
Variable sort_fixes : list fix_ -> list fix_.
Variable sort_msgs : list msg -> list msg.

(** source_code_fixer.go 20-33: split the input; messages with fixes get their
    fixes sorted in place. Returns (withFixes, unapplied). *)
Fixpoint split_msgs (ds : list msg) : list msg * list msg :=
  match ds with
  | [] => ([], [])
  | d :: ds' =>
      let (w, u) := split_msgs ds' in
      match mfixes d with
      | [] => (w, d :: u)
      | _ :: _ => (mkMsg (mid d) (sort_fixes (mfixes d)) :: w, u)
      end
  end.

(** source_code_fixer.go 55-62: the inner loop over the fixes of one message.
    Returns the bytes written and the new [lastFixEnd]. *)
Fixpoint write_fixes (code : list byte) (last : Z) (fs : list fix_)
  : res (list byte * Z) :=
  match fs with
  | [] => Ok ([], last)
  | f :: fs' =>
      let! keep := slice code last (fpos f) in
      let! r := write_fixes code (fend f) fs' in
      let (out, last') := r in
      Ok (keep ++ ftext f ++ out, last')
  end.

(** source_code_fixer.go 48-63: the outer loop. Returns the bytes written, the
    final [lastFixEnd], the skipped messages in order and the [fixed] flag.
    [fixes[0]] on an empty slice would panic. *)
Fixpoint apply_loop (code : list byte) (last : Z) (ds : list msg)
  : res (list byte * Z * list msg * bool) :=
  match ds with
  | [] => Ok ([], last, [], false)
  | d :: ds' =>
      match mfixes d with
      | [] => Panic
      | f0 :: _ =>
          if fpos f0 <? last then
            let! r := apply_loop code last ds' in
            let '(out, last', un, fx) := r in
            Ok (out, last', d :: un, fx)
          else
            let! w := write_fixes code last (mfixes d) in
            let (o1, last1) := w in
            let! r := apply_loop code last1 ds' in
            let '(out, last', un, _) := r in
            Ok (o1 ++ out, last', un, true)
      end
  end.

(** source_code_fixer.go 14-68 [ApplyRuleFixes]. *)
Definition apply_rule_fixes (code : list byte) (ds : list msg)
  : res (list byte * list msg * bool) :=
  let (w, u) := split_msgs ds in
  let! r := apply_loop code 0 (sort_msgs w) in
  let '(out, last, skipped, fixed) := r in
  let! tail := slice_from code last in
  Ok (out ++ tail, u ++ skipped, fixed).

End Fixer.

Arguments fix_ : clear implicits.
Arguments msg : clear implicits.
