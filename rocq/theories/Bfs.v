(** Model of [BreadthFirstSearch], internal/utils/bfs.go:49-111.

    A job is a node with the chain of its parents; [createPath] (bfs.go:59-66)
    lists exactly that chain, so a job is represented by its path, node first.
    A level is an ordered map from node to job (bfs.go:72, 81): a list of jobs with
    distinct nodes in insertion order.

    Simplifications: [PreprocessLevel] is absent (the only caller passes a callback
    without effect, find_tsconfig.go:154-158); [neighbors] and [visit] are functions
    of the node alone (find_tsconfig.go stores the config in [visit] and reads it
    back in [neighbors] for the same node).  The loop is bounded by fuel; running out
    of fuel is the explicit result [None]. *)
From Coq Require Import Bool List Arith.
Import ListNotations.

Section Bfs.
Context {N : Type}.
Variable eqb : N -> N -> bool.
Variable neighbors : N -> list N.
(** (isResult, stop) *)
Variable visit : N -> bool * bool.

Local Notation path := (list N).

Definition mem (n : N) (l : list N) : bool := existsb (eqb n) l.

(** bfs.go:83-85: the node of a job; jobs are never empty paths. *)
Definition node_of (dflt : N) (j : path) : N := match j with n :: _ => n | [] => dflt end.

(** bfs.go:100-104: add the children that are not yet in the next level. *)
Fixpoint add_children (j : path) (cs : list N) (next : list path) : list path :=
  match cs with
  | [] => next
  | c :: cs' =>
      if existsb (fun j' => eqb c (node_of c j')) next
      then add_children j cs' next
      else add_children j cs' (next ++ [c :: j])
  end.

(** State of the search: visited set, order of [visit] calls, fallback job. *)
Record bst := mkBst { b_vis : list N; b_order : list N; b_fall : option path }.

Inductive lvl :=
| Stop (p : path) (s : bst)                  (* bfs.go:93 *)
| Next (next : list path) (s : bst).

(** bfs.go:83-105. *)
Fixpoint do_level (jobs next : list path) (s : bst) : lvl :=
  match jobs with
  | [] => Next next s
  | j :: jobs' =>
      match j with
      | [] => do_level jobs' next s
      | n :: _ =>
          if mem n (b_vis s) then do_level jobs' next s            (* bfs.go:86-88 *)
          else
            let s := mkBst (b_vis s ++ [n]) (b_order s ++ [n]) (b_fall s) in
            let '(isResult, stop) := visit n in
            if isResult && stop then Stop j s
            else
              let s := mkBst (b_vis s) (b_order s)
                (if isResult then match b_fall s with None => Some j | f => f end
                 else b_fall s) in
              do_level jobs' (add_children j (neighbors n) next) s
      end
  end.

(** Result: Stopped, Path (bfs.go:10-13), plus the final state. *)
Record bres := mkRes { r_stopped : bool; r_path : path; r_st : bst }.

(** bfs.go:76-110. *)
Fixpoint levels (fuel : nat) (level : list path) (s : bst) : option bres :=
  match fuel with
  | O => None
  | S fuel' =>
      match level with
      | [] => Some (mkRes false (match b_fall s with Some p => p | None => [] end) s)
      | _ =>
          match do_level level [] s with
          | Stop p s' => Some (mkRes true p s')
          | Next next s' => levels fuel' next s'
          end
      end
  end.

(** bfs.go:49-74: [visited0] is [options.Visited]. *)
Definition bfs (fuel : nat) (visited0 : list N) (start : N) : option bres :=
  levels fuel [[start]] (mkBst visited0 [] None).

End Bfs.
