(** Theorems about the worker pool: every schedule, any number of workers and
    checkers, arbitrary rules. *)
From Coq Require Import String Bool List ZArith Permutation Lia.
From Verif Require Import Base Engine EngineSpec EngineProofs Pool PoolSpec PoolProofs.
Import ListNotations.
Open Scope nat_scope.

(** Example setting: files are numbers, checkers are numbers; rule "a" reports the
    file at start, rule "b" reports every node. *)
Definition pex_rules (f : nat) : list (@rule nat nat nat nat) :=
  [mkRule (b "a") (fun _ f => (0, [f], [])) (fun s _ _ => (s, []));
   mkRule (b "b") (fun _ _ => (0, [], [1%Z])) (fun s _ n => (s, [n]))].
Definition pex_events (f : nat) : list (Z * nat) := [(1%Z, 10 + f); (2%Z, 20 + f)].
Definition pex_iter (w i : nat) (ks : list Z) : list Z := ks.
Definition pex_step := p_step pex_iter pex_rules pex_events.
Definition pex_run := p_run pex_iter pex_rules pex_events.
Lemma pex_any w : any_order (pex_iter w).
Proof. intros i ks. reflexivity. Qed.
Lemma pex_tables f : tables_ok (pex_rules f).
Proof.
  intros r c g I; simpl in I; repeat destruct I as [<-|I]; try easy;
    unfold table; simpl; repeat constructor; simpl; intuition.
Qed.
Lemma pex_agree : checkers_agree pex_rules pex_events.
Proof.
  intros f r c c' I; simpl in I; repeat destruct I as [<-|I]; try easy; split; reflexivity.
Qed.
(** Two workers, two checkers, three files, interleaved; and one worker. *)
Definition pex_sched : list nat :=
  [0; 1; 0; 1; 0; 1; 0; 1; 0; 1; 0; 1; 0; 1; 0; 0; 0; 0].
Definition pex_solo : list nat := repeat 0 15.
Definition pdone (p : @pool nat nat nat nat) : bool :=
  forallb (fun x => match fst x with Done => true | _ => false end) (p_workers p).
Example pex_complete :
  match pex_run (p_init [0; 1; 2] [7; 8] 2) pex_sched with Some p => pdone p | None => false end = true /\
  match pex_run (p_init [0; 1; 2] [7] 1) pex_solo with Some p => pdone p | None => false end = true.
Proof. split; reflexivity. Qed.

(** C05: in every complete run each file of the list has been linted exactly once
    (as a multiset), with a checker of the program, and the diagnostics delivered
    are exactly those required for the linted files. *)
Theorem C05_every_file_linted_once :
  forall (File Checker R St : Type) iter
         (rules_for : File -> list (@rule File Checker R St)) events files cq n sched p,
    (forall i, any_order (iter i)) -> (forall f, tables_ok (rules_for f)) ->
    1 <= n -> cq <> [] ->
    p_run iter rules_for events (p_init files cq n) sched = Some p -> all_returned p ->
    Permutation (map snd (p_done p)) files /\ incl (map fst (p_done p)) cq /\
    Permutation (p_out p)
      (flat_map (fun cf => required (rules_for (snd cf)) (fst cf) (snd cf) (events (snd cf))) (p_done p)).
Proof.
  intros File Checker R St iter rules_for events files cq n sched p IT T N C H A.
  pose proof (inv_run _ _ _ IT T _ _ _ _ _ (inv_init rules_for events files cq n) H) as [F O G S AL D].
  destruct (finished _ _ _ IT T _ _ _ _ _ N C H A) as (E1 & E2 & E3 & E4).
  rewrite E3, E1, !app_nil_r in F. rewrite E4, E3, !app_nil_r in O.
  split; [exact F|]. split; [|exact O].
  intros x I. apply S. apply in_or_app. now left.
Qed.
Print Assumptions C05_every_file_linted_once.

Example C05_example :
  option_map (fun p => (p_done p, map d_req (p_out p))) (pex_run (p_init [0; 1; 2] [7; 8] 2) pex_sched) =
  Some ([(7, 0); (8, 1); (7, 2)], [0; 1; 10; 11; 2; 12]).
Proof. reflexivity. Qed.

(** C06: in every reachable state a checker is in the hands of at most one worker, and
    more strongly no checker is ever used by two workers in the whole run. *)
Theorem C06_checker_never_shared :
  forall (File Checker R St : Type) iter
         (rules_for : File -> list (@rule File Checker R St)) events files cq n sched p,
    NoDup cq ->
    p_run iter rules_for events (p_init files cq n) sched = Some p ->
    (forall i j c, uses p i c -> uses p j c -> i = j) /\
    (forall i j c f f', In (i, c, f) (p_log p) -> In (j, c, f') (p_log p) -> i = j) /\
    (forall i c f, linting p i c f -> In (i, c, f) (p_log p)).
Proof.
  intros File Checker R St iter rules_for events files cq n sched p ND H.
  pose proof (own_run _ _ _ _ _ _ (own_init files cq n ND) H) as [A B C D E F].
  split; [|split].
  - intros i j c U V. apply uses_held in U, V.
    destruct U as (x & Hx & Ux). destruct V as (y & Hy & Vy). eauto.
  - exact D.
  - intros i c f (ds & w & L). eauto.
Qed.
Print Assumptions C06_checker_never_shared.

(** C06, second half: a worker inside a file stays inside that file with the same checker,
    whoever moves, until it finishes it. *)
Theorem C06_checker_kept_for_whole_file :
  forall (File Checker R St : Type) iter
         (rules_for : File -> list (@rule File Checker R St)) events p k p' i c f,
    p_step iter rules_for events p k = Some p' -> linting p i c f ->
    linting p' i c f \/ (k = i /\ p_done p' = p_done p ++ [(c, f)]).
Proof.
  intros File Checker R St iter rules_for events p k p' i c f H (ds & w & L).
  destruct (Nat.eq_dec k i) as [->|K].
  - unfold p_step in H. rewrite L in H. destruct ds as [|d ds]; inversion H; subst p'.
    + right. auto.
    + left. exists ds, w. cbn [p_workers]. now rewrite (nth_set_same _ _ _ _ L).
  - left. exists ds, w. unfold p_step in H.
    destruct (nth_error (p_workers p) k) as [[ph v]|]; [|easy].
    destruct ph as [|c'|c' f' [|d ds']|]; try easy;
      [destruct (p_checkers p)|destruct (p_files p)| |]; inversion H; subst p';
      cbn [p_workers]; now rewrite nth_set_other.
Qed.
Print Assumptions C06_checker_kept_for_whole_file.

(** Both workers of the example hold a checker at the same time (so the claim is not empty). *)
Example C06_example :
  exists p, pex_run (p_init [0; 1; 2] [7; 8] 2) [0; 1; 1; 0] = Some p /\
            linting p 0 7 1 /\ linting p 1 8 0.
Proof. eexists. split; [reflexivity|]. split; eexists _, _; reflexivity. Qed.

(** C07: any two complete runs over the same files (in any order) and the same
    configuration deliver the same multiset of diagnostics, whatever the numbers of workers
    and checkers, the schedules and the map iteration orders, provided the rules do not depend
    on which checker they ask. *)
Theorem C07_diagnostics_schedule_independent :
  forall (File Checker R St : Type) iter iter'
         (rules_for : File -> list (@rule File Checker R St)) events
         files files' cq cq' n n' sched sched' p p',
    (forall i, any_order (iter i)) -> (forall i, any_order (iter' i)) ->
    (forall f, tables_ok (rules_for f)) ->
    checkers_agree rules_for events ->
    Permutation files files' -> 1 <= n -> 1 <= n' -> cq <> [] -> cq' <> [] ->
    p_run iter rules_for events (p_init files cq n) sched = Some p -> all_returned p ->
    p_run iter' rules_for events (p_init files' cq' n') sched' = Some p' -> all_returned p' ->
    Permutation (p_out p) (p_out p').
Proof.
  intros File Checker R St iter iter' rules_for events files files' cq cq' n n' sched sched' p p'
    IT IT' T AG PF N N' C C' H A H' A'.
  destruct (C05_every_file_linted_once _ _ _ _ _ _ _ _ _ _ _ _ IT T N C H A) as (F & _ & O).
  destruct (C05_every_file_linted_once _ _ _ _ _ _ _ _ _ _ _ _ IT' T N' C' H' A') as (F' & _ & O').
  rewrite O, O'. destruct cq as [|c0 cq]; [easy|].
  assert (X : forall l : list (Checker * File),
    flat_map (fun cf => required (rules_for (snd cf)) (fst cf) (snd cf) (events (snd cf))) l =
    flat_map (fun f => required (rules_for f) c0 f (events f)) (map snd l)).
  { induction l as [|[c f] l IH]; [reflexivity|]. simpl. rewrite IH.
    now rewrite (agree_required _ _ AG c c0 f). }
  rewrite !X. apply Permutation_flat_map. now rewrite F, F'.
Qed.
Print Assumptions C07_diagnostics_schedule_independent.

Definition pex_get (o : option (@pool nat nat nat nat)) : pool :=
  match o with Some p => p | None => p_init [] [] 0 end.
Lemma pex_returned p : pdone p = true -> all_returned p.
Proof.
  unfold pdone. intros H i ph w E. apply nth_error_In in E.
  rewrite forallb_forall in H. specialize (H _ E). simpl in H. now destruct ph.
Qed.
Example C07_example :
  let p := pex_get (pex_run (p_init [0; 1; 2] [7; 8] 2) pex_sched) in
  let p' := pex_get (pex_run (p_init [2; 1; 0] [7] 1) pex_solo) in
  map d_req (p_out p) = [0; 1; 10; 11; 2; 12] /\ map d_req (p_out p') = [2; 12; 1; 11; 0; 10] /\
  Permutation (p_out p) (p_out p').
Proof.
  intros p p'. split; [reflexivity|]. split; [reflexivity|].
  apply (C07_diagnostics_schedule_independent _ _ _ _ pex_iter pex_iter pex_rules pex_events
            [0; 1; 2] [2; 1; 0] [7; 8] [7] 2 1 pex_sched pex_solo p p').
  - apply pex_any.
  - apply pex_any.
  - apply pex_tables.
  - apply pex_agree.
  - apply (Permutation_rev [0; 1; 2]).
  - lia.
  - lia.
  - easy.
  - easy.
  - vm_compute. reflexivity.
  - apply pex_returned. vm_compute. reflexivity.
  - vm_compute. reflexivity.
  - apply pex_returned. vm_compute. reflexivity.
Qed.

(** C08: every execution is finite: each step decreases a natural number, so no schedule is
    longer than a bound fixed by the initial state; a state in which no worker can move
    is one where all have returned, and then both queues are empty; and from every reachable
    state the pool can be run to the end. *)
Theorem C08_every_schedule_terminates :
  forall (File Checker R St : Type) iter
         (rules_for : File -> list (@rule File Checker R St)) events files cq n,
    (forall i, any_order (iter i)) -> (forall f, tables_ok (rules_for f)) ->
    exists measure : @pool File Checker R St -> nat,
      forall sched p,
        p_run iter rules_for events (p_init files cq n) sched = Some p ->
        (forall i p', p_step iter rules_for events p i = Some p' -> measure p' < measure p) /\
        length sched <= measure (p_init files cq n) /\
        ((forall i, p_step iter rules_for events p i = None) -> all_returned p) /\
        (exists sched' p', p_run iter rules_for events p sched' = Some p' /\ all_returned p').
Proof.
  intros File Checker R St iter rules_for events files cq n IT T.
  exists (measure rules_for events cq). intros sched p H.
  pose proof (inv_run _ _ _ IT T _ _ _ _ _ (inv_init rules_for events files cq n) H) as I.
  split; [|split; [|split]].
  - intros i p' E. exact (measure_step _ _ _ IT T _ _ _ _ _ I E).
  - pose proof (measure_run _ _ _ IT T _ _ _ _ _ (inv_init rules_for events files cq n) H). lia.
  - intros S i ph w E. exact (step_none _ _ _ _ _ (S i) _ _ E).
  - exact (can_finish _ _ _ IT T _ _ _ p I (le_n _)).
Qed.
Print Assumptions C08_every_schedule_terminates.

Theorem C08_end_state_queues_empty :
  forall (File Checker R St : Type) iter
         (rules_for : File -> list (@rule File Checker R St)) events files cq n sched p,
    (forall i, any_order (iter i)) -> (forall f, tables_ok (rules_for f)) ->
    1 <= n -> cq <> [] ->
    p_run iter rules_for events (p_init files cq n) sched = Some p ->
    (forall i, p_step iter rules_for events p i = None) ->
    all_returned p /\ p_files p = [] /\ p_checkers p = [].
Proof.
  intros File Checker R St iter rules_for events files cq n sched p IT T N C H S.
  assert (A : all_returned p) by (intros i ph w E; exact (step_none _ _ _ _ _ (S i) _ _ E)).
  destruct (finished _ _ _ IT T _ _ _ _ _ N C H A) as (E1 & E2 & _). auto.
Qed.
Print Assumptions C08_end_state_queues_empty.

(** Without a checker the pool ends with the files unlinted: the hypothesis is needed. *)
Example C08_no_checker :
  exists p, pex_run (p_init [0] [] 1) [0] = Some p /\ all_returned p /\ p_files p = [0].
Proof.
  eexists. split; [reflexivity|]. split; [|reflexivity].
  intros [|i] ph w E; simpl in E; [now inversion E|now destruct i].
Qed.
