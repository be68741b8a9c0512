(** Model of the timing store, internal/linter/timing.go:24-70, and of the
    timing message, cmd/tsgolint/headless.go:169-179. *)
From Coq Require Import String Bool List ZArith NArith Ascii.
From Verif Require Import Base Engine.
Import ListNotations.
Open Scope Z_scope.

(** timing.go:19-23 [RuleTimingRecord]. *)
Record trec := mkTR { tr_name : bstr; tr_dur : Z; tr_calls : N }.

(** timing.go:33-46 [merge].  The store and the worker's table are Go maps, here
    association lists; [it] is the table in the order the [range] loop visits it.
    The mutex makes the whole function one step. *)
Definition merge (store it : list (bstr * stat)) : list (bstr * stat) :=
  if (length it =? 0)%nat then store
  else fold_left (fun m e => tm_set m (fst e) (stat_add (tm_get m (fst e)) (snd e))) it store.

(** Go's [<] on strings: bytewise. *)
Fixpoint bltb (x y : bstr) : bool :=
  match x, y with
  | _, [] => false
  | [], _ :: _ => true
  | c :: x', d :: y' =>
      (N_of_ascii c <? N_of_ascii d)%N
      || ((N_of_ascii c =? N_of_ascii d)%N && bltb x' y')
  end.

(** timing.go:61-66: the [less] function given to [sort.Slice]. *)
Definition less (a c : trec) : bool :=
  if negb (tr_dur a =? tr_dur c) then tr_dur a >? tr_dur c
  else bltb (tr_name a) (tr_name c).

(** timing.go:48-69 [Collect]: [it] is the store in map iteration order, [sorter] is
    [sort.Slice] with [less] (not stable, any sorted permutation). *)
Definition collect (sorter : list trec -> list trec) (it : list (bstr * stat)) : list trec :=
  sorter (map (fun e => mkTR (fst e) (fst (snd e)) (snd (snd e))) it).

(** headless.go:169-179: [uint64(record.Duration)] wraps a negative duration. *)
Definition payload (rs : list trec) : list (bstr * N * N) :=
  map (fun r => (tr_name r, Z.to_N (tr_dur r mod 2 ^ 64), tr_calls r)) rs.
