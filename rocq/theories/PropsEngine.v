(** Theorems about the per-worker lint engine. *)
From Coq Require Import String Bool List ZArith NArith Permutation Lia.
From Verif Require Import Base Engine EngineSpec EngineProofs.
Import ListNotations.
Open Scope Z_scope.

(** A concrete setting for the Examples: two rules over numbered nodes.  Rule
    "a" listens to kinds 1 and 2 and reports its running count; rule "b" listens to
    kind 2, reports at start and reports the node.  File 0 uses both, file 1
    only "b". *)
Definition ex_ra : @rule nat unit nat nat :=
  mkRule (b "a") (fun _ _ => (0%nat, [], [1; 2])) (fun s _ _ => (S s, [S s])).
Definition ex_rb : @rule nat unit nat nat :=
  mkRule (b "b") (fun _ f => (f, [100 + f]%nat, [2])) (fun s _ n => (s, [n])).
Definition ex_rules_for (f : nat) := match f with O => [ex_ra; ex_rb] | _ => [ex_rb] end.
Definition ex_events (f : nat) : list (Z * nat) := [(1, 7%nat); (2, 8%nat); (3, 9%nat); (2, 5%nat)].
Definition ex_iter (i : nat) (ks : list Z) := if Nat.even i then ks else rev ks.
Lemma ex_iter_ok : any_order ex_iter.
Proof.
  intros i ks. unfold ex_iter. destruct (Nat.even i); [reflexivity|].
  apply Permutation_sym, Permutation_rev.
Qed.
Lemma ex_tables : forall f, tables_ok (ex_rules_for f).
Proof.
  intros [|f] r c g I; simpl in I; repeat destruct I as [<-|I]; try easy;
    unfold table; simpl; repeat constructor; simpl; intuition discriminate.
Qed.
Definition ex_D n f q : @diag nat nat := mkDiag (b n) (Some f) q.

(** C11 (and the exact form of C09, C10): for every configuration, every sequence
    of files a worker receives, every checker and every listener-table
    iteration order, the worker emits exactly the required diagnostics in exactly
    the required order: file by file; for each file the reports made while the
    rules start, in configuration order; then event by event, and within an event
    in configuration order, what each rule reports there when run alone.  Rules are
    arbitrary (a rule may report at every call), so the order of reports is the
    order of listener calls. *)
Theorem C11_dispatch_follows_configuration_order :
  forall (File Checker R St : Type) iter
         (rules_for : File -> list (@rule File Checker R St)) events cfs,
    any_order iter -> (forall f, tables_ok (rules_for f)) ->
    w_out (worker iter rules_for events cfs) =
    flat_map (fun cf => required (rules_for (snd cf)) (fst cf) (snd cf) (events (snd cf))) cfs.
Proof. intros. now apply worker_exact. Qed.
Print Assumptions C11_dispatch_follows_configuration_order.

Example C11_example :
  w_out (worker ex_iter ex_rules_for ex_events [(tt, 0%nat); (tt, 1%nat)]) =
  [ex_D "b" 0 100; ex_D "a" 0 1; ex_D "a" 0 2; ex_D "b" 0 8; ex_D "a" 0 3; ex_D "b" 0 5;
   ex_D "b" 1 101; ex_D "b" 1 8; ex_D "b" 1 5]%nat.
Proof. reflexivity. Qed.

(** C09: after any files linted earlier by the same worker, the diagnostics a rule
    reports for a file are those it reports when it is the only rule and the file is
    the only file, whatever the two iteration orders.  (Diagnostics are told apart by
    rule name, hence the distinct names; C11 needs no such hypothesis.) *)
Theorem C09_rules_do_not_interfere :
  forall (File Checker R St : Type) iter iter'
         (rules_for : File -> list (@rule File Checker R St)) events cfs cf,
    any_order iter -> any_order iter' -> (forall f, tables_ok (rules_for f)) ->
    NoDup (map rname (rules_for (snd cf))) ->
    exists o, w_out (worker iter rules_for events (cfs ++ [cf])) =
              w_out (worker iter rules_for events cfs) ++ o /\
      forall r, In r (rules_for (snd cf)) ->
        filter (fun d => beqb (d_rule d) (rname r)) o =
        w_out (worker iter' (fun _ => [r]) events [cf]).
Proof.
  intros File Checker R St iter iter' rules_for events cfs cf I I' T ND.
  exists (required (rules_for (snd cf)) (fst cf) (snd cf) (events (snd cf))). split.
  - rewrite !worker_exact by auto. rewrite flat_map_app. simpl. now rewrite app_nil_r.
  - intros r IN. rewrite worker_exact; auto.
    + simpl. rewrite app_nil_r.
      rewrite required_one by auto.
      rewrite <- (required_one [r] r) by (try (now left); repeat constructor; easy).
      assert (E : forall d, In d (required [r] (fst cf) (snd cf) (events (snd cf))) ->
                  beqb (d_rule d) (rname r) = true).
      { intros d ID. apply required_in in ID. destruct ID as (r' & [<-|[]] & -> & _).
        apply beqb_refl. }
      revert E. generalize (required [r] (fst cf) (snd cf) (events (snd cf))).
      induction l as [|d l IH]; intros E; [reflexivity|]. simpl.
      rewrite E by now left. f_equal. apply IH. intros d' ID. apply E. now right.
    + intros f r' c f' [<-|[]]. now apply (T (snd cf)).
Qed.
Print Assumptions C09_rules_do_not_interfere.

Example C09_example :
  w_out (worker ex_iter (fun _ => [ex_rb]) ex_events [(tt, 1%nat)]) =
  filter (fun d => beqb (d_rule d) (b "b"))
    (skipn 6 (w_out (worker ex_iter ex_rules_for ex_events [(tt, 0%nat); (tt, 1%nat)]))).
Proof. reflexivity. Qed.

(** C10: suppose the code of each rule marks its reports with its own name and the
    file it was started on ([origin]).  Then every delivered diagnostic carries
    exactly that name and that file. *)
Theorem C10_diagnostics_attributed :
  forall (File Checker R St : Type) iter
         (rules_for : File -> list (@rule File Checker R St)) events cfs
         (origin : R -> bstr * File),
    any_order iter -> (forall f, tables_ok (rules_for f)) ->
    (forall c f r q, In (c, f) cfs -> In r (rules_for f) ->
       In q (alone_on r c f (events f)) -> origin q = (rname r, f)) ->
    forall d, In d (w_out (worker iter rules_for events cfs)) ->
      d_rule d = fst (origin (d_req d)) /\ d_file d = Some (snd (origin (d_req d))).
Proof.
  intros File Checker R St iter rules_for events cfs origin I T M d ID.
  rewrite worker_exact in ID by auto.
  apply in_flat_map in ID. destruct ID as ([c f] & IC & ID). simpl in ID.
  apply required_in in ID. destruct ID as (r & IR & -> & -> & IQ).
  now rewrite (M c f r _ IC IR IQ).
Qed.
Print Assumptions C10_diagnostics_attributed.

(** The marking hypothesis is satisfiable: rules that report their name and file. *)
Example C10_example :
  let mk (n : string) ks := mkRule (b n) (fun (_ : unit) (f : nat) => (f, [(b n, f)], ks))
                        (fun s _ _ => (s, [(b n, s)])) in
  let rf f := match f with O => [mk "a"%string [1; 2]; mk "b"%string [2]] | _ => [mk "b"%string [2]; mk "c"%string [1; 2]] end in
  forall d, In d (w_out (worker ex_iter rf ex_events [(tt, 0%nat); (tt, 1%nat)])) ->
    d_rule d = fst (d_req d) /\ d_file d = Some (snd (d_req d)).
Proof.
  intros mk rf.
  apply (C10_diagnostics_attributed _ _ _ _ _ _ _ _ (fun q => q)).
  - apply ex_iter_ok.
  - intros [|f] r c g I; simpl in I; repeat destruct I as [<-|I]; try easy;
      unfold table; simpl; repeat constructor; simpl; intuition discriminate.
  - intros c f r q IC IR IQ. simpl in IC.
    destruct IC as [[= <- <-]|[[= <- <-]|[]]]; simpl in IR;
      repeat destruct IR as [<-|IR]; try easy; simpl in IQ;
      repeat destruct IQ as [<-|IQ]; easy.
Qed.

(** C12, first half: the timed path emits the same diagnostics in the same order,
    whatever the clock. *)
Theorem C12_timing_does_not_change_diagnostics :
  forall (File Checker R St : Type) iter
         (rules_for : File -> list (@rule File Checker R St)) events elapsed cfs,
    t_out (t_worker iter rules_for events elapsed cfs) =
    w_out (worker iter rules_for events cfs).
Proof. intros. apply timed_same_output. Qed.
Print Assumptions C12_timing_does_not_change_diagnostics.

(** C12, second half: the worker's table has one entry for exactly the rules that
    were run, and the number of calls is one per file the rule ran on plus one per
    event it listens to. *)
Theorem C12_call_counts_exact :
  forall (File Checker R St : Type) iter
         (rules_for : File -> list (@rule File Checker R St)) events elapsed cfs,
    any_order iter -> (forall f, tables_ok (rules_for f)) ->
    let m := t_local (t_worker iter rules_for events elapsed cfs) in
    NoDup (map fst m) /\
    (forall n, In n (map fst m) <->
       exists cf r, In cf cfs /\ In r (rules_for (snd cf)) /\ rname r = n) /\
    (forall n, snd (tm_get m n) = total_calls rules_for events cfs n).
Proof. intros. now apply timed_counts. Qed.
Print Assumptions C12_call_counts_exact.

Example C12_example :
  t_local (t_worker ex_iter ex_rules_for ex_events (fun i => Z.of_nat i)
             [(tt, 0%nat); (tt, 1%nat)]) =
  [(b "a", (0 + 2 + 3 + 5, 4%N)); (b "b", (1 + 4 + 6 + 7 + 8 + 9, 6%N))].
Proof. reflexivity. Qed.
