(** What a timing report must be. *)
From Coq Require Import String Bool List ZArith NArith Ascii Permutation Sorted.
From Verif Require Import Base Engine Timing.
Import ListNotations.
Open Scope Z_scope.

(** Strict dictionary order on byte strings. *)
Inductive before : bstr -> bstr -> Prop :=
| bf_nil c y : before [] (c :: y)
| bf_lt c d x y : (N_of_ascii c < N_of_ascii d)%N -> before (c :: x) (d :: y)
| bf_eq c x y : before x y -> before (c :: x) (c :: y).

(** Report order: longer first, equal durations by name. *)
Definition precedes (a c : trec) : Prop :=
  tr_dur a > tr_dur c \/ (tr_dur a = tr_dur c /\ before (tr_name a) (tr_name c)).

(** All entries for a rule name in a list of worker tables. *)
Definition entries (tables : list (list (bstr * stat))) (n : bstr) : list stat :=
  map snd (filter (fun e => beqb (fst e) n) (concat tables)).

Definition sum_dur (l : list stat) : Z := fold_right (fun s a => fst s + a) 0 l.
Definition sum_calls (l : list stat) : N := fold_right (fun s a => (snd s + a)%N) 0%N l.

(** The report for a list of worker tables. *)
Definition is_report (tables : list (list (bstr * stat))) (rs : list trec) : Prop :=
  StronglySorted precedes rs /\
  NoDup (map tr_name rs) /\
  forall r, In r rs <->
    entries tables (tr_name r) <> [] /\
    tr_dur r = sum_dur (entries tables (tr_name r)) /\
    tr_calls r = sum_calls (entries tables (tr_name r)).

(** [sort.Slice]: some permutation in which no later element is less than an earlier one. *)
Definition a_sort {A : Type} (less : A -> A -> bool) (s : list A -> list A) : Prop :=
  forall l, Permutation (s l) l /\ StronglySorted (fun a c => less c a = false) (s l).

(** A possible final store: the worker tables, each visited in any order, merged in
    any order into the empty store; then visited in any order. *)
Definition merged (tables : list (list (bstr * stat))) (store : list (bstr * stat)) : Prop :=
  exists order visited it,
    Permutation order tables /\
    Forall2 (fun t v => Permutation v t) order visited /\
    it = fold_left merge visited [] /\ Permutation store it.
