(** Theorems about the timing report (C13). *)
From Coq Require Import String Bool List ZArith NArith Permutation Sorted.
From Verif Require Import Base Engine EngineSpec EngineProofs Timing TimingSpec TimingProofs.
Import ListNotations.
Open Scope Z_scope.

(** C13: whatever the worker tables (of whatever clock readings), merge order, map
    iteration orders and sorting algorithm, the collected list is the report: each rule
    of some table exactly once, durations and calls summed over all workers, by
    decreasing duration and then increasing name. *)
Theorem C13_collect_is_the_report :
  forall tables store sorter,
    merged tables store -> a_sort less sorter ->
    is_report tables (collect sorter store).
Proof. intros. now apply report_of_collect. Qed.
Print Assumptions C13_collect_is_the_report.

(** C13: there is only one report, so the output is deterministic. *)
Theorem C13_report_unique :
  forall tables l l', is_report tables l -> is_report tables l' -> l = l'.
Proof. intros. eapply report_unique; eassumption. Qed.
Print Assumptions C13_report_unique.

(** C13 and C12 together: for any distribution of the files over any number of workers, each
    with its own clock and iteration order, the calls in the report are those counted
    over all files, hence independent of the distribution. *)
Theorem C13_reported_calls_schedule_independent :
  forall (File Checker R St : Type) (rules_for : File -> list (@rule File Checker R St)) events
         (ws : list ((nat -> list Z -> list Z) * (nat -> Z) * list (Checker * File)))
         store sorter cfs r,
    (forall f, tables_ok (rules_for f)) ->
    (forall w, In w ws -> any_order (fst (fst w))) ->
    Permutation (concat (map snd ws)) cfs ->
    merged (map (fun w => t_local (t_worker (fst (fst w)) rules_for events (snd (fst w)) (snd w))) ws) store ->
    a_sort less sorter ->
    In r (collect sorter store) ->
    tr_calls r = total_calls rules_for events cfs (tr_name r).
Proof.
  intros File Checker R St rules_for events ws store sorter cfs r T A P M S I.
  destruct (report_of_collect _ _ _ M S) as (_ & _ & C).
  apply C in I. destruct I as (_ & _ & ->).
  rewrite (run_calls rules_for events T ws (tr_name r) A).
  now apply total_calls_perm.
Qed.
Print Assumptions C13_reported_calls_schedule_independent.

(** The wire form keeps rules, order and calls; durations survive exactly when they fit in 64
    bits and are not negative. *)
Theorem C13_payload_faithful :
  forall rs, (forall r, In r rs -> 0 <= tr_dur r < 2 ^ 64) ->
    map (fun x => mkTR (fst (fst x)) (Z.of_N (snd (fst x))) (snd x)) (payload rs) = rs.
Proof.
  intros rs H. unfold payload. rewrite map_map. cbn [fst snd].
  rewrite <- (map_id rs) at 2. apply map_ext_in. intros [n d c] I. cbn [tr_name tr_dur tr_calls].
  specialize (H _ I). cbn [tr_dur] in H. rewrite Z.mod_small by exact H.
  rewrite Z2N.id; [reflexivity|apply H].
Qed.
Print Assumptions C13_payload_faithful.

(** Two workers, rule "b" in both tables, equal durations of "a" and "c". *)
Example C13_example :
  let t1 := [(b "b", (5, 2%N)); (b "c", (3, 1%N))] in
  let t2 := [(b "a", (3, 4%N)); (b "b", (1, 1%N))] in
  merged [t1; t2] (rev (fold_left merge [rev t2; t1] [])) /\
  a_sort less isort /\
  collect isort (rev (fold_left merge [rev t2; t1] [])) =
    [mkTR (b "b") 6 3; mkTR (b "a") 3 4; mkTR (b "c") 3 1].
Proof.
  intros t1 t2. split; [|split; [exact isort_ok|reflexivity]].
  exists [t2; t1], [rev t2; t1], (fold_left merge [rev t2; t1] []).
  repeat split.
  - constructor.
  - repeat constructor.
  - apply Permutation_sym, Permutation_rev.
Qed.
