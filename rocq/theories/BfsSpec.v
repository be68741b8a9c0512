(** Graph vocabulary for the search. *)
From Coq Require Import Bool List Arith Sorted.
From Verif Require Import Bfs.
Import ListNotations.

Section Spec.
Context {N : Type}.
Variable neighbors : N -> list N.

(** [walk W s n k]: there is a walk of [k] edges from [s] to [n] none of whose nodes is in [W]. *)
Inductive walk (W : list N) (s : N) : N -> nat -> Prop :=
| w_start : ~ In s W -> walk W s s 0
| w_edge n m k : walk W s n k -> In m (neighbors n) -> ~ In m W -> walk W s m (S k).

(** Distance. *)
Definition dist (W : list N) (s n : N) (d : nat) : Prop :=
  walk W s n d /\ forall k, walk W s n k -> d <= k.

(** [p] is a path in the graph, last node first, from [s]. *)
Inductive chain (s : N) : list N -> Prop :=
| c_start : chain s [s]
| c_edge n m p : chain s (n :: p) -> In m (neighbors n) -> chain s (m :: n :: p).

(** [n] is no further than [m]. *)
Definition no_further (W : list N) (s n m : N) : Prop :=
  forall k, walk W s m k -> exists k', k' <= k /\ walk W s n k'.

(** [U] contains [s] and is closed under edges. *)
Definition closed_graph (U : list N) (s : N) : Prop :=
  In s U /\ forall n, In n U -> incl (neighbors n) U.

End Spec.

(** Breadth-first search as in the textbooks: one first-in first-out queue of paths, a set
    of visited nodes [V], every neighbour enqueued without looking.  [fifo Q V fb o r]: from queue
    [Q], visited [V], first result so far [fb] and visits so far [o], the search ends with
    (stopped, path, all visits) = [r]. *)
Section Fifo.
Context {N : Type}.
Variable neighbors : N -> list N.
Variable visit : N -> bool * bool.

Inductive fifo : list (list N) -> (N -> Prop) -> option (list N) -> list N -> bool * list N * list N -> Prop :=
| f_end V fb o : fifo [] V fb o (false, match fb with Some p => p | None => [] end, o)
| f_old n p Q (V : N -> Prop) fb o r : V n -> fifo Q V fb o r -> fifo ((n :: p) :: Q) V fb o r
| f_stop n p Q (V : N -> Prop) fb o : ~ V n -> visit n = (true, true) ->
    fifo ((n :: p) :: Q) V fb o (true, n :: p, o ++ [n])
| f_new n p Q (V : N -> Prop) fb o r isResult stop : ~ V n -> visit n = (isResult, stop) -> isResult && stop = false ->
    fifo (Q ++ map (fun c => c :: n :: p) (neighbors n)) (fun m => m = n \/ V m)
         (match fb with Some q => Some q | None => if isResult then Some (n :: p) else None end)
         (o ++ [n]) r ->
    fifo ((n :: p) :: Q) V fb o r.
End Fifo.
