(** Model of the per-worker lint engine: the body of the goroutine queued by
    [RunLinterOnProgram], internal/linter/linter.go:464-620.

    A rule is an arbitrary state machine.  Running it on a file
    ([r.Run(ctx)], linter.go:516) creates a fresh state, may report, and
    returns a listener table; a listener call may report and updates the
    state.  Every call of [r.Run] allocates a new state on a heap, and a
    registered listener is a closure, i.e. a heap address.  Hence a closure
    left over from an earlier file would be visible in the model.

    Simplifications:
    - a rule's own code never panics and keeps no state shared with other rules
      or with other runs of itself (Go would allow package-level variables);
    - the visited events of a file are given by an arbitrary function
      [events]; Visit.v models it;
    - the report calls of a rule are abstract requests [R]; Report.v models
      what each reporting method makes of its arguments;
    - slices are lists: [append] on a slice cut to length 0 overwrites old
      entries, and no other slice shares that array, so capacity plays no role. *)
From Coq Require Import String Bool List ZArith NArith.
From Verif Require Import Base.
Import ListNotations.
Open Scope Z_scope.

Section Engine.
Context {File Checker R St : Type}.

(** [ConfiguredRule] (linter.go:23-26): name and [Run].  [rrun] gets the two
    context fields a rule can observe (linter.go:502-503, 510: [TypeChecker]
    and [SourceFile]; [Program] is fixed for the run); it yields the state,
    the report requests made during [Run], and the keys of the returned
    listener map in an unspecified order.  [rfire] is the call of the listener
    for a kind on a node. *)
Record rule := mkRule {
  rname : bstr;
  rrun : Checker -> File -> St * list R * list Z;
  rfire : St -> Z -> nat -> St * list R
}.

(** [rule.RuleDiagnostic] as delivered to [onDiagnostic] (linter.go:228-232).
    The file is an option because [ctxBuilder.file] starts as nil. *)
Record diag := mkDiag {
  d_rule : bstr;
  d_file : option File;
  d_req : R
}.

(** A closure created by one call of [r.Run]: the rule and its current state. *)
Definition inst : Type := rule * St.

(** [taggedListener] (linter.go:493-496). *)
Record listener := mkListener { l_name : bstr; l_fn : nat }.

(** Worker-local state: the mutable fields of [ruleContextBuilder]
    (linter.go:217-224) a report reads, the closures allocated so far, the
    map [registeredListeners] (linter.go:497) as an association list, and the
    diagnostics emitted so far. *)
Record wst := mkW {
  w_rule : bstr;
  w_file : option File;
  w_heap : list inst;
  w_reg : list (Z * list listener);
  w_out : list diag
}.

(** linter.go:482-485, 497. *)
Definition w0 : wst := mkW [] None [] [] [].

(** linter.go:228-232 [emitDiagnostic]: name and file are read from the
    builder at the time of the report. *)
Definition emit (w : wst) (rs : list R) : wst :=
  mkW (w_rule w) (w_file w) (w_heap w) (w_reg w)
      (w_out w ++ map (mkDiag (w_rule w) (w_file w)) rs).

Definition set_rule (w : wst) (n : bstr) : wst :=
  mkW n (w_file w) (w_heap w) (w_reg w) (w_out w).

Definition set_file (w : wst) (f : File) : wst :=
  mkW (w_rule w) (Some f) (w_heap w) (w_reg w) (w_out w).

(** Allocation of the closures returned by one [r.Run]. *)
Definition alloc (w : wst) (i : inst) : wst :=
  mkW (w_rule w) (w_file w) (w_heap w ++ [i]) (w_reg w) (w_out w).

(** linter.go:517-521: look the kind up, create the slice if absent, append. *)
Fixpoint reg_append {L : Type} (reg : list (Z * list L)) (k : Z) (l : L)
  : list (Z * list L) :=
  match reg with
  | [] => [(k, [l])]
  | (k', ls) :: reg' =>
      if k' =? k then (k', ls ++ [l]) :: reg' else (k', ls) :: reg_append reg' k l
  end.

(** linter.go:526: [registeredListeners[kind]]. *)
Fixpoint reg_lookup {L : Type} (reg : list (Z * list L)) (k : Z) : list L :=
  match reg with
  | [] => []
  | (k', ls) :: reg' => if k' =? k then ls else reg_lookup reg' k
  end.

(** linter.go:536-538, 608-610: [registeredListeners[k][:0]] for every key. *)
Definition reg_clear {L : Type} (reg : list (Z * list L)) : list (Z * list L) :=
  map (fun e => (fst e, [])) reg.

Definition set_reg (w : wst) (reg : list (Z * list listener)) : wst :=
  mkW (w_rule w) (w_file w) (w_heap w) reg (w_out w).

Fixpoint set_nth {A : Type} (n : nat) (a : A) (l : list A) : list A :=
  match n, l with
  | O, _ :: l' => a :: l'
  | S n', x :: l' => x :: set_nth n' a l'
  | _, [] => []
  end.

Definition set_heap (w : wst) (h : list inst) : wst :=
  mkW (w_rule w) (w_file w) h (w_reg w) (w_out w).

(** Go's iteration order over the listener map returned by the [i]-th call of
    [r.Run] of this worker. *)
Variable iter : nat -> list Z -> list Z.

(** linter.go:514-523, one rule of the file's configuration. *)
Definition start_rule (c : Checker) (f : File) (w : wst) (r : rule) : wst :=
  let w := set_rule w (rname r) in
  let '(s, reps, kinds) := rrun r c f in
  let w := emit w reps in
  let a := List.length (w_heap w) in
  let w := alloc w (r, s) in
  fold_left (fun w k => set_reg w (reg_append (w_reg w) k (mkListener (rname r) a)))
            (iter a kinds) w.

(** linter.go:528-529: one listener call. *)
Definition call (k : Z) (n : nat) (w : wst) (l : listener) : wst :=
  let w := set_rule w (l_name l) in
  match nth_error (w_heap w) (l_fn l) with
  | Some (r, s) =>
      let '(s', reps) := rfire r s k n in
      emit (set_heap w (set_nth (l_fn l) (r, s') (w_heap w))) reps
  | None => w
  end.

(** linter.go:525-532 [runListeners]. *)
Definition run_listeners (w : wst) (e : Z * nat) : wst :=
  fold_left (call (fst e) (snd e)) (reg_lookup (w_reg w) (fst e)) w.

(** [getRulesForFile] (linter.go:513) and the event sequence [visitLintNodes]
    produces for a file (linter.go:534). *)
Variable rules_for : File -> list rule.
Variable events : File -> list (Z * nat).

(** linter.go:509-538: one file on one checker. *)
Definition lint_file (w : wst) (cf : Checker * File) : wst :=
  let '(c, f) := cf in
  let w := set_file w f in
  let w := fold_left (start_rule c f) (rules_for f) w in
  let w := fold_left run_listeners (events f) w in
  set_reg w (reg_clear (w_reg w)).

(** linter.go:499-541: all files a worker happens to receive, each with the
    checker it holds at that time. *)
Definition worker (cfs : list (Checker * File)) : wst := fold_left lint_file cfs w0.

(** ** The timed path, linter.go:545-614. *)

(** [RuleTimingStat] (timing.go:9-12): duration and calls.  Simplification: Go's
    int64/uint64 are unbounded here. *)
Definition stat : Type := Z * N.
Definition stat0 : stat := (0, 0%N).

(** timing.go:14-17 [add]. *)
Definition stat_add (x y : stat) : stat := (fst x + fst y, (snd x + snd y)%N).

(** A Go map from rule name to stat: lookup yields the zero stat if absent. *)
Fixpoint tm_get (m : list (bstr * stat)) (n : bstr) : stat :=
  match m with
  | [] => stat0
  | (n', s) :: m' => if beqb n' n then s else tm_get m' n
  end.

Fixpoint tm_set (m : list (bstr * stat)) (n : bstr) (s : stat) : list (bstr * stat) :=
  match m with
  | [] => [(n, s)]
  | (n', s') :: m' => if beqb n' n then (n', s) :: m' else (n', s') :: tm_set m' n s
  end.

(** [timedTaggedListener] (linter.go:546-550). *)
Record tlistener := mkTL { tl_name : bstr; tl_idx : nat; tl_fn : nat }.

(** The builder, closures and output are as in the untimed path; the registry
    has timed listeners; [t_stats] is [timingStats] (linter.go:575), [t_local]
    is [localTimings] (linter.go:552), [t_clk] counts clock readings. *)
Record tst := mkT {
  t_rule : bstr;
  t_file : option File;
  t_heap : list inst;
  t_reg : list (Z * list tlistener);
  t_out : list diag;
  t_stats : list stat;
  t_local : list (bstr * stat);
  t_clk : nat
}.

Definition t0 : tst := mkT [] None [] [] [] [] [] O.

(** The duration [time.Since(start)] yields at its [i]-th use: any number. *)
Variable elapsed : nat -> Z.

(** linter.go:554-557 [recordTiming(&timingStats[i], ...)].  An index out of
    range would panic in Go; [nth] then leaves the table alone.  The proofs show
    that the index is always in range. *)
Definition record_timing (i : nat) (t : tst) : tst :=
  let st := nth i (t_stats t) stat0 in
  mkT (t_rule t) (t_file t) (t_heap t) (t_reg t) (t_out t)
      (set_nth i (fst st + elapsed (t_clk t), (snd st + 1)%N) (t_stats t))
      (t_local t) (S (t_clk t)).

(** linter.go:576-588, rule number [i] of the file's configuration. *)
Definition t_start_rule (c : Checker) (f : File) (t : tst) (ir : nat * rule) : tst :=
  let '(i, r) := ir in
  let '(s, reps, kinds) := rrun r c f in
  let a := List.length (t_heap t) in
  let t := mkT (rname r) (t_file t) (t_heap t ++ [(r, s)]) (t_reg t)
               (t_out t ++ map (mkDiag (rname r) (t_file t)) reps)
               (t_stats t) (t_local t) (t_clk t) in
  let t := record_timing i t in
  fold_left (fun t k => mkT (t_rule t) (t_file t) (t_heap t)
                            (reg_append (t_reg t) k (mkTL (rname r) i a))
                            (t_out t) (t_stats t) (t_local t) (t_clk t))
            (iter a kinds) t.

(** linter.go:592-597: one timed listener call. *)
Definition t_call (k : Z) (n : nat) (t : tst) (l : tlistener) : tst :=
  let t := mkT (tl_name l) (t_file t) (t_heap t) (t_reg t) (t_out t)
               (t_stats t) (t_local t) (t_clk t) in
  let t := match nth_error (t_heap t) (tl_fn l) with
           | Some (r, s) =>
               let '(s', reps) := rfire r s k n in
               mkT (t_rule t) (t_file t) (set_nth (tl_fn l) (r, s') (t_heap t)) (t_reg t)
                   (t_out t ++ map (mkDiag (t_rule t) (t_file t)) reps)
                   (t_stats t) (t_local t) (t_clk t)
           | None => t
           end in
  record_timing (tl_idx l) t.

(** linter.go:590-599. *)
Definition t_run_listeners (t : tst) (e : Z * nat) : tst :=
  fold_left (t_call (fst e) (snd e)) (reg_lookup (t_reg t) (fst e)) t.

(** linter.go:602-609: fold the stats of one file into the worker's table,
    skipping rules without calls. *)
Definition flush_stat (m : list (bstr * stat)) (rs : rule * stat) : list (bstr * stat) :=
  let '(r, s) := rs in
  if (snd s =? 0)%N then m
  else tm_set m (rname r) (stat_add (tm_get m (rname r)) s).

(** linter.go:566-613: one file in the timed path. *)
Definition t_lint_file (t : tst) (cf : Checker * File) : tst :=
  let '(c, f) := cf in
  let rules := rules_for f in
  let t := mkT (t_rule t) (Some f) (t_heap t) (t_reg t) (t_out t)
               (repeat stat0 (List.length rules)) (t_local t) (t_clk t) in
  let t := fold_left (t_start_rule c f) (combine (seq 0 (List.length rules)) rules) t in
  let t := fold_left t_run_listeners (events f) t in
  mkT (t_rule t) (t_file t) (t_heap t) (reg_clear (t_reg t)) (t_out t) (t_stats t)
      (fold_left flush_stat (combine rules (t_stats t)) (t_local t)) (t_clk t).

Definition t_worker (cfs : list (Checker * File)) : tst := fold_left t_lint_file cfs t0.

End Engine.
