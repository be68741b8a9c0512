(** What one worker must report, stated rule by rule and without a registry, a
    shared reporting context or a heap: each rule is run alone. *)
From Coq Require Import String Bool List ZArith NArith Permutation.
From Verif Require Import Base Engine.
Import ListNotations.
Open Scope Z_scope.

Section Spec.
Context {File Checker R St : Type}.
Notation rule := (@rule File Checker R St).
Notation diag := (@diag File R).

(** The report requests of one rule, started in state [s] with listeners for
    [ks], at each event of a traversal: one (possibly empty) list per event. *)
Fixpoint alone (r : rule) (ks : list Z) (s : St) (es : list (Z * nat)) : list (list R) :=
  match es with
  | [] => []
  | (k, n) :: es' =>
      if existsb (Z.eqb k) ks
      then snd (rfire r s k n) :: alone r ks (fst (rfire r s k n)) es'
      else [] :: alone r ks s es'
  end.

Definition start_state (r : rule) (c : Checker) (f : File) : St := fst (fst (rrun r c f)).
Definition start_reports (r : rule) (c : Checker) (f : File) : list R := snd (fst (rrun r c f)).
Definition table (r : rule) (c : Checker) (f : File) : list Z := snd (rrun r c f).

(** All reports of one rule alone on one file: at start, then per event. *)
Definition alone_on (r : rule) (c : Checker) (f : File) (es : list (Z * nat)) : list R :=
  start_reports r c f ++ concat (alone r (table r c f) (start_state r c f) es).

(** A report of rule [r] on file [f] as the user must see it. *)
Definition sign (r : rule) (f : File) (q : R) : diag := mkDiag (rname r) (Some f) q.

(** The required output for one file: reports made while starting the rules, in
    configuration order, then event by event, and within an event in
    configuration order, what each rule reports there when run alone. *)
Definition required (rs : list rule) (c : Checker) (f : File) (es : list (Z * nat))
  : list diag :=
  flat_map (fun r => map (sign r f) (start_reports r c f)) rs ++
  flat_map (fun j =>
    flat_map (fun r =>
      map (sign r f) (nth j (alone r (table r c f) (start_state r c f) es) [])) rs)
    (seq 0 (length es)).

(** Go map semantics of a listener table: distinct keys, visited in any order. *)
Definition tables_ok (rs : list rule) : Prop :=
  forall r c f, In r rs -> NoDup (table r c f).

Definition any_order (iter : nat -> list Z -> list Z) : Prop :=
  forall i ks, Permutation (iter i ks) ks.

(** Number of calls into the code of a rule on one file: one for [Run], one for
    each event the rule listens to. *)
Definition calls (r : rule) (c : Checker) (f : File) (es : list (Z * nat)) : N :=
  (1 + N.of_nat (length (filter (fun e => existsb (Z.eqb (fst e)) (table r c f)) es)))%N.

Fixpoint sumN (l : list N) : N :=
  match l with [] => 0%N | x :: l' => (x + sumN l')%N end.

(** Total calls of the rules named [n] over the files of a worker. *)
Definition total_calls (rules_for : File -> list rule) (events : File -> list (Z * nat))
  (cfs : list (Checker * File)) (n : bstr) : N :=
  sumN (flat_map (fun cf =>
    map (fun r => calls r (fst cf) (snd cf) (events (snd cf)))
        (filter (fun r => beqb (rname r) n) (rules_for (snd cf)))) cfs).

End Spec.
