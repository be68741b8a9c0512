(** Model of the worker pool of [RunLinterOnProgram]
    (internal/linter/linter.go:368-393, 479-543, 617): goroutines that share two
    closed, buffered channels, one of type checkers and one of source files.

    A schedule is a list of worker numbers; the chosen worker makes one step, and
    a step is one channel operation or one call of [onDiagnostic].  Each worker
    carries its own engine state (Engine.v).

    Assumptions about typescript-go: [core.WorkGroup] runs every queued function
    and [RunAndWait] returns when all have returned;
    [Program.ForEachCheckerParallel] calls its argument once per checker, in any
    order.  Simplification: linting one file is computed at the step at which the
    file is received, and its diagnostics are delivered one per step after that;
    no other worker can observe the difference because the engine state is local. *)
From Coq Require Import String Bool List ZArith.
From Verif Require Import Base Engine.
Import ListNotations.

Section Pool.
Context {File Checker R St : Type}.
Notation rule := (@rule File Checker R St).
Notation diag := (@diag File R).
Notation wst := (@wst File Checker R St).

(** Engine parameters; [iter] may differ from worker to worker. *)
Variable iter : nat -> nat -> list Z -> list Z.
Variable rules_for : File -> list rule.
Variable events : File -> list (Z * nat).

(** Program counter of a worker: at the outer [range workloadQueue]
    (linter.go:499), at the inner [range w.queue] holding a checker
    (linter.go:505), inside a file with undelivered diagnostics, returned. *)
Inductive phase :=
| Idle
| Has (c : Checker)
| Lint (c : Checker) (f : File) (pending : list diag)
| Done.

(** [p_files], [p_checkers]: contents of the two channels.  [p_log] (worker,
    checker, file started), [p_done] (checker, file finished) and [p_out]
    (delivered diagnostics) record what happened. *)
Record pool := mkP {
  p_files : list File;
  p_checkers : list Checker;
  p_workers : list (phase * wst);
  p_log : list (nat * Checker * File);
  p_done : list (Checker * File);
  p_out : list diag
}.

(** linter.go:368-393: both channels are filled and closed before the first
    worker starts; linter.go:480: [workers] goroutines. *)
Definition p_init (files : list File) (checkers : list Checker) (workers : nat) : pool :=
  mkP files checkers (repeat (Idle, w0) workers) [] [] [].

(** One step of worker [i]; [None] if there is no such worker or it has returned.
    Receiving from a closed empty channel ends the [range] loop. *)
Definition p_step (p : pool) (i : nat) : option pool :=
  match nth_error (p_workers p) i with
  | None => None
  | Some (ph, w) =>
      let set ph' w' := set_nth i (ph', w') (p_workers p) in
      match ph with
      | Idle =>
          match p_checkers p with
          | [] => Some (mkP (p_files p) [] (set Done w) (p_log p) (p_done p) (p_out p))
          | c :: cs => Some (mkP (p_files p) cs (set (Has c) w) (p_log p) (p_done p) (p_out p))
          end
      | Has c =>
          match p_files p with
          | [] => Some (mkP [] (p_checkers p) (set Idle w) (p_log p) (p_done p) (p_out p))
          | f :: fs =>
              let w' := lint_file (iter i) rules_for events w (c, f) in
              let news := skipn (length (w_out w)) (w_out w') in
              Some (mkP fs (p_checkers p) (set (Lint c f news) w')
                        (p_log p ++ [(i, c, f)]) (p_done p) (p_out p))
          end
      | Lint c f (d :: ds) =>
          Some (mkP (p_files p) (p_checkers p) (set (Lint c f ds) w)
                    (p_log p) (p_done p) (p_out p ++ [d]))
      | Lint c f [] =>
          Some (mkP (p_files p) (p_checkers p) (set (Has c) w)
                    (p_log p) (p_done p ++ [(c, f)]) (p_out p))
      | Done => None
      end
  end.

Fixpoint p_run (p : pool) (sched : list nat) : option pool :=
  match sched with
  | [] => Some p
  | i :: sched' => match p_step p i with Some p' => p_run p' sched' | None => None end
  end.

End Pool.
