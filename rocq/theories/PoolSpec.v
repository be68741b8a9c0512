(** Vocabulary for the worker pool: who uses which checker, when a run is over. *)
From Coq Require Import String Bool List ZArith Permutation.
From Verif Require Import Base Engine EngineSpec Pool.
Import ListNotations.

Section Spec.
Context {File Checker R St : Type}.
Notation rule := (@rule File Checker R St).
Notation pool := (@pool File Checker R St).

(** Worker [i] has checker [c] in its hands. *)
Definition uses (p : pool) (i : nat) (c : Checker) : Prop :=
  exists ph w, nth_error (p_workers p) i = Some (ph, w) /\
    (ph = Has c \/ exists f ds, ph = Lint c f ds).

(** Worker [i] is inside file [f] with checker [c]. *)
Definition linting (p : pool) (i : nat) (c : Checker) (f : File) : Prop :=
  exists ds w, nth_error (p_workers p) i = Some (Lint c f ds, w).

(** Every worker has returned. *)
Definition all_returned (p : pool) : Prop :=
  forall i ph w, nth_error (p_workers p) i = Some (ph, w) -> ph = Done.

(** The answers of the checkers do not matter to the rules: a rule alone on a file
    reports the same with any two checkers. *)
Definition checkers_agree (rules_for : File -> list rule) (events : File -> list (Z * nat)) : Prop :=
  forall f r c c', In r (rules_for f) ->
    start_reports r c f = start_reports r c' f /\
    alone r (table r c f) (start_state r c f) (events f) =
    alone r (table r c' f) (start_state r c' f) (events f).

End Spec.
