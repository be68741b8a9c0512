(** C112: the command on a terminal (cmd/tsgolint/main.go 92-122, 162-222, 364-659). *)
From Coq Require Import Bool Arith Ascii String List Lia DecimalString Sorting.Sorted Sorting.Permutation.
From Verif Require Import Base.
From Verif Require Import Terminal TerminalSpec TerminalProofs.
Import ListNotations.
Local Open Scope list_scope.

(** Debug options: pieces between commas; empty ones are passed over, "timings" asks for the table, the first other one is the error. *)
Theorem C112_debug : forall s t, parse_debug s = inl t <-> asks s t.
Proof. exact parse_debug_inl. Qed.
Print Assumptions C112_debug.
Theorem C112_debug_unknown : forall s o, parse_debug s = inr o <->
  exists x y, commas (x ++ o :: y) s /\ (forall p, In p x -> p = [] \/ p = b "timings") /\ o <> [] /\ o <> b "timings".
Proof.
  intros s o. rewrite parse_debug_inr, debug_loop_inr. unfold ok_piece. split.
  - intros [x [y [E [A B]]]]. exists x, y. rewrite <- E. split; [apply split_commas|]. split; [exact A|]. tauto.
  - intros [x [y [C [A [B D]]]]]. exists x, y. split; [apply (commas_unique _ _ (split_commas s) _ C)|]. split; [exact A|]. tauto.
Qed.
Print Assumptions C112_debug_unknown.
Example C112_debug_example :
  parse_debug (b ",timings,") = inl true /\ parse_debug (b ",") = inl false /\ parse_debug (b "timings,Timings,x") = inr (b "Timings") /\ parse_debug (b " timings") = inr (b " timings").
Proof. repeat split; reflexivity. Qed.

(** The names of the rules differ, so each rule is the one found by its name, and nothing else is. *)
Theorem C112_rules : NoDup all_rules /\ List.length all_rules = 59 /\
  forall name place, by_name all_rules 0 name = Some place <-> nth_error all_rules place = Some name.
Proof.
  assert (N : NoDup all_rules).
  { assert (D : forall l, (fix go l := match l with [] => true | x :: l => negb (existsb (beqb x) l) && go l end) l = true -> NoDup l).
    { induction l as [|x l IH]; intros H; constructor; apply andb_true_iff in H as [H K].
      - intros X. apply negb_true_iff in H. assert (existsb (beqb x) l = true); [|congruence]. apply existsb_exists. exists x. split; [exact X|]. apply beqb_iff. reflexivity.
      - exact (IH K). }
    apply D. vm_compute. reflexivity. }
  split; [exact N|]. split; [reflexivity|]. intros name place.
  assert (G : forall rs k, NoDup rs -> (by_name rs k name = Some place <-> exists i, place = k + i /\ nth_error rs i = Some name)).
  { induction rs as [|r rs IH]; intros k D; cbn [by_name].
    - split; [discriminate|]. intros [[|i] [_ X]]; discriminate.
    - inversion D as [|r' rs' D1 D2]; subst. specialize (IH (S k) D2). destruct (by_name rs (S k) name) as [p|] eqn:E.
      + split.
        * intros H. apply IH in H as [i [-> I]]. exists (S i). split; [lia|exact I].
        * intros [[|i] [P I]].
          -- injection I as <-. destruct D1.
             assert (X : exists i, nth_error rs i = Some r); [|destruct X as [i X]; exact (nth_error_In _ _ X)].
             clear - E. revert E. generalize (S k). induction rs as [|q rs IH]; intros m E; cbn [by_name] in E; [discriminate|]. destruct (by_name rs (S m) r) eqn:F; [injection E as ->; destruct (IH _ F) as [i I]; exists (S i); exact I|]. destruct (beqb q r) eqn:Q; [|discriminate]. apply beqb_iff in Q as ->. exists 0. reflexivity.
          -- apply IH. exists i. split; [lia|exact I].
      + destruct (beqb r name) eqn:Q.
        * apply beqb_iff in Q as ->. split.
          -- intros H. injection H as <-. exists 0. split; [lia|reflexivity].
          -- intros [[|i] [P I]]; [f_equal; lia|]. destruct D1. exact (nth_error_In rs i I).
        * split; [discriminate|]. intros [[|i] [P I]].
          -- injection I as ->. assert (beqb name name = true) by (apply beqb_iff; reflexivity). congruence.
          -- apply IH. exists i. split; [lia|exact I]. }
  rewrite (G _ _ N). split; [intros [i [-> I]]; exact I|intros I; exists place; auto].
Qed.
Print Assumptions C112_rules.
Example C112_rules_example : by_name all_rules 0 (b "await-thenable") = Some 0 /\ by_name all_rules 0 (b "use-unknown-in-catch-callback-variable") = Some 58 /\ by_name all_rules 0 (b "await_thenable") = None.
Proof. repeat split; vm_compute; reflexivity. Qed.

(** ** Status and output *)
(** With --help: the usage, which begins with the warning, on stderr, nothing on stdout, status 0, whatever else is asked for. *)
Theorem C112_help : forall diag print (w : world diag) f, help f = true ->
  stdout (fst (run_flags diag print w f)) = [] /\ (exists rest, stderr (fst (run_flags diag print w f)) = warning ++ rest) /\ snd (run_flags diag print w f) = 0.
Proof. intros diag print w f H. unfold run_flags. rewrite H. split; [reflexivity|]. split; [|reflexivity]. exists (skipn (List.length warning) usage). reflexivity. Qed.
Print Assumptions C112_help.

(** A run that does not get as far as the linter has status 1, says nothing on stdout and something on stderr. *)
Theorem C112_fails : forall diag print (w : world diag) f, help f = false -> (forall t dir sources, ~ reaches diag w f t dir sources) ->
  stdout (fst (run_flags diag print w f)) = [] /\ stderr (fst (run_flags diag print w f)) <> [] /\ snd (run_flags diag print w f) = 1.
Proof.
  intros diag print w f H N.
  assert (E : stderr (fst (run_flags diag print w f)) <> []).
  { unfold run_flags. rewrite H. destruct (parse_debug (debug f)) as [t|o]; [|discriminate].
    destruct (record_trace _ _ _) as [[a c]|e]; [|discriminate]. destruct (record_cpuprof _ _ _) as [[a' c']|e]; [|discriminate]. destruct (run_lint _ _ _ _ _) as [es st]. discriminate. }
  assert (G : (forall t, parse_debug (debug f) = inl t -> ~ (trace_ok diag w (trace_out f) /\ cpu_ok diag w (cpuprof_out f))) -> stdout (fst (run_flags diag print w f)) = [] /\ stderr (fst (run_flags diag print w f)) <> [] /\ snd (run_flags diag print w f) = 1).
  { intros X. destruct (run_flags_not_ready diag print w f H X). auto. }
  destruct (parse_debug (debug f)) as [t|o] eqn:P; [|apply G; congruence].
  destruct (trace_cases diag w (trace_out f)) as [[e [_ T]]|[T _]]; [apply G; tauto|].
  destruct (cpu_cases diag w (cpuprof_out f)) as [[e [_ C]]|[C _]]; [apply G; tauto|].
  destruct (run_flags_ready diag print w f t H P T C) as [-> [_ ->]].
  destruct (run_lint_cases diag print w f t) as [[_ [A B]]|[dir [sources St]]]; [auto|].
  destruct (N t dir sources). apply reaches_iff. auto.
Qed.
Print Assumptions C112_fails.

(** A run that gets as far as the linter gives it the files of the program that are below the directory of the tsconfig and not below node_modules, longest text first, and all rules.
    Without an error, every diagnostic is printed in the order it came, after the list of the files if that is asked for, followed by the summary and the table if asked for; stderr has the warning; the status is 0.
    With an error, the status is 1, stderr names the error, and stdout has the list and a part of the diagnostics from the first. *)
Theorem C112_runs : forall diag print (w : world diag) f t dir sources, reaches diag w f t dir sources ->
  exists files text said ds e, given dir sources files /\ lint _ w files all_rules = (ds, e) /\
    (if list_files f then listing dir sources text else text = []) /\
    ((ds = [] /\ said = []) \/ (ds <> [] /\ said = newline ++ concat (map print ds))) /\
    match e with
    | None => stdout (fst (run_flags diag print w f)) =
                text ++ said ++ summary (List.length ds) (List.length files) 59 (elapsed _ w) (if single_threaded f then 1 else procs _ w) ++
                (if t then table (millis_of _ w) (percent_of _ w) (timings _ w) else []) /\
              stderr (fst (run_flags diag print w f)) = warning /\ snd (run_flags diag print w f) = 0
    | Some e => (exists part rest, said = part ++ rest /\ stdout (fst (run_flags diag print w f)) = text ++ part) /\
                stderr (fst (run_flags diag print w f)) = warning ++ b "error running linter: " ++ e ++ newline /\ snd (run_flags diag print w f) = 1
    end.
Proof.
  intros diag print w f t dir sources R. apply reaches_iff in R as [H [P [T [C St]]]].
  destruct (run_flags_ready diag print w f t H P T C) as [-> [-> ->]]. rewrite (run_lint_stage diag print w f t dir sources St). cbv zeta.
  destruct (pick_kept dir sources) as [K F]. destruct (by_size_ok (map fst (pick dir sources))) as [Pm So].
  destruct (lint _ w (by_size (map fst (pick dir sources))) all_rules) as [ds e] eqn:L.
  exists (by_size (map fst (pick dir sources))), (if list_files f then flat_map (fun p => b "Found file: " ++ snd p ++ newline) (pick dir sources) else []), (report diag print ds), ds, e.
  split; [exists (map fst (pick dir sources)); auto|]. split; [exact L|]. split.
  { destruct (list_files f); [|reflexivity]. exists (map fst (pick dir sources)), (map snd (pick dir sources)). split; [exact K|]. split; [exact F|]. rewrite flat_map_concat_map, map_map. reflexivity. }
  split. { destruct ds as [|d ds]; [left; auto|right]. split; [discriminate|]. unfold report. rewrite flat_map_concat_map. reflexivity. }
  change (List.length all_rules) with 59.
  assert (O : forall tl, stdout ((if list_files f then [Out (flat_map (fun p : source * bstr => b "Found file: " ++ snd p ++ newline) (pick dir sources))] else []) ++ tl) =
    (if list_files f then flat_map (fun p : source * bstr => b "Found file: " ++ snd p ++ newline) (pick dir sources) else []) ++ stdout tl).
  { intros tl. rewrite stdout_app. f_equal. destruct (list_files f); [|reflexivity]. unfold stdout at 1. cbn [flat_map]. apply app_nil_r. }
  assert (Q : forall tl, stderr ((if list_files f then [Out (flat_map (fun p : source * bstr => b "Found file: " ++ snd p ++ newline) (pick dir sources))] else []) ++ tl) = stderr tl).
  { intros tl. rewrite stderr_app. destruct (list_files f); reflexivity. }
  destruct e as [e|]; cbn [fst snd]; rewrite O, Q.
  - split; [|split; [|reflexivity]].
    + exists (firstn (flushed _ w) (report diag print ds)), (skipn (flushed _ w) (report diag print ds)). split; [symmetry; apply firstn_skipn|]. unfold stdout. cbn [flat_map]. rewrite app_nil_r. reflexivity.
    + f_equal. unfold stderr. cbn [flat_map app]. apply app_nil_r.
  - rewrite stdout_app, stderr_app. split; [|split; [|reflexivity]].
    + f_equal. unfold stdout at 1. cbn [flat_map]. rewrite app_nil_r, <- app_assoc. f_equal. f_equal. destruct t; [|reflexivity]. unfold stdout. cbn [flat_map]. apply app_nil_r.
    + destruct t; reflexivity.
Qed.
Print Assumptions C112_runs.

(** Trace and profile are stopped whenever they were started, once, on every way out, the last started first; they are started at most once, and only if asked for. *)
Theorem C112_profiles : forall diag print (w : world diag) f,
  nested (fst (run_flags diag print w f)) /\
  count_occ (fun x y : bool => bool_dec x y) (map (fun e => match e with TraceStart => true | _ => false end) (fst (run_flags diag print w f))) true <= 1 /\
  (In TraceStart (fst (run_flags diag print w f)) -> trace_out f <> []) /\ (In CpuStart (fst (run_flags diag print w f)) -> cpuprof_out f <> []).
Proof.
  intros diag print w f. unfold run_flags.
  assert (One : forall s, nested [Err s] /\ count_occ (fun x y : bool => bool_dec x y) (map (fun e => match e with TraceStart => true | _ => false end) [Err s]) true <= 1 /\ (In TraceStart [Err s] -> trace_out f <> []) /\ (In CpuStart [Err s] -> cpuprof_out f <> [])).
  { intros s. split; [repeat constructor|]. split; [cbn; lia|]. repeat split; intros [X|[]]; discriminate. }
  destruct (help f); [exact (One usage)|].
  destruct (parse_debug (debug f)) as [t|o]; [|exact (One _)].
  destruct (trace_cases diag w (trace_out f)) as [[e [-> T]]|[T TT]].
  { cbn [fst]. split; [repeat constructor|]. split; [cbn; lia|]. split; intros [X|[X|[]]]; discriminate. }
  pose proof (run_lint_writes diag print w f t) as W.
  assert (Z : count_occ (fun x y : bool => bool_dec x y) (map (fun e => match e with TraceStart => true | _ => false end) (fst (run_lint diag print w f t))) true = 0).
  { apply count_occ_not_In. intros X. apply in_map_iff in X as [e [E X]]. destruct (W e X) as [s [->| ->]]; discriminate. }
  assert (NT : ~ In TraceStart (fst (run_lint diag print w f t))) by (intros X; destruct (W _ X) as [s [Y|Y]]; discriminate).
  assert (NC : ~ In CpuStart (fst (run_lint diag print w f t))) by (intros X; destruct (W _ X) as [s [Y|Y]]; discriminate).
  apply writes_nested in W. destruct (run_lint diag print w f t) as [es st]. cbn [fst] in W, Z, NT, NC.
  destruct (cpu_cases diag w (cpuprof_out f)) as [[e [-> C]]|[C CC]].
  - destruct TT as [[E ->]|[E ->]]; cbn [fst app].
    + split; [repeat constructor|]. split; [cbn; lia|]. split; intros [X|[X|[]]]; discriminate.
    + split; [constructor; apply (nested_trace [Err e] []); repeat constructor|]. split; [cbn; lia|]. split; [intros _; exact E|]. intros [X|[X|[X|[X|[]]]]]; discriminate.
  - destruct TT as [[E ->]|[E ->]], CC as [[E' ->]|[E' ->]]; cbn [fst app].
    + rewrite app_nil_r. split; [constructor; exact W|]. split; [cbn [map]; rewrite count_occ_cons_neq by discriminate; lia|]. split; intros [X|X]; try discriminate; contradiction.
    + split; [constructor; apply (nested_cpu es []); [exact W|constructor]|]. split; [cbn [map]; rewrite !count_occ_cons_neq, map_app, count_occ_app, Z by discriminate; cbn; lia|].
      split; [|intros _; exact E']. intros [X|[X|X]]; try discriminate. apply in_app_iff in X as [X|[X|[]]]; [contradiction|discriminate].
    + split; [constructor; apply (nested_trace es []); [exact W|constructor]|]. split; [cbn [map]; rewrite count_occ_cons_neq by discriminate; rewrite count_occ_cons_eq by reflexivity; rewrite map_app, count_occ_app, Z; cbn; lia|].
      split; [intros _; exact E|]. intros [X|[X|X]]; try discriminate. apply in_app_iff in X as [X|[X|[]]]; [contradiction|discriminate].
    + split.
      { constructor. change (TraceStart :: CpuStart :: es ++ [CpuStop; TraceStop]) with (TraceStart :: CpuStart :: es ++ [CpuStop] ++ [TraceStop]). rewrite app_assoc.
        apply (nested_trace (CpuStart :: es ++ [CpuStop]) []); [apply (nested_cpu es []); [exact W|constructor]|constructor]. }
      split; [cbn [map]; rewrite count_occ_cons_neq by discriminate; rewrite count_occ_cons_eq by reflexivity; rewrite count_occ_cons_neq by discriminate; rewrite map_app, count_occ_app, Z; cbn; lia|].
      split; [intros _; exact E|intros _; exact E'].
Qed.
Print Assumptions C112_profiles.

(** If trace or profile are asked for, and can be had, they span the whole of the linter: nothing is written to stdout outside of them. *)
Theorem C112_profiles_span : forall diag print (w : world diag) f t, help f = false -> asks (debug f) t ->
  trace_ok diag w (trace_out f) -> cpu_ok diag w (cpuprof_out f) -> trace_out f <> [] -> cpuprof_out f <> [] ->
  exists es, fst (run_flags diag print w f) = [Err warning; TraceStart; CpuStart] ++ es ++ [CpuStop; TraceStop] /\ forall e, In e es -> exists s, e = Out s \/ e = Err s.
Proof.
  intros diag print w f t H A T C NT NC. apply parse_debug_inl in A. unfold run_flags. rewrite H, A.
  destruct (trace_cases diag w (trace_out f)) as [[e [_ X]]|[_ [[X _]|[_ ->]]]]; [contradiction|contradiction|].
  destruct (cpu_cases diag w (cpuprof_out f)) as [[e [_ X]]|[_ [[X _]|[_ ->]]]]; [contradiction|contradiction|].
  pose proof (run_lint_writes diag print w f t) as W. destruct (run_lint diag print w f t) as [es st]. exists es. split; [reflexivity|exact W].
Qed.
Print Assumptions C112_profiles_span.

(** The command: "headless" as first argument is the other entrance, all else are flags. *)
Theorem C112_entrance : forall diag print (w : world diag) args,
  (forall rest, args = b "headless" :: rest -> run_main diag print w args = headless _ w rest) /\
  ((forall rest, args <> b "headless" :: rest) -> run_main diag print w args = run_flags diag print w (parse_flags _ w args)).
Proof.
  intros diag print w args. split.
  - intros rest ->. reflexivity.
  - intros N. destruct args as [|a rest]; [reflexivity|]. unfold run_main. destruct (beqb a (b "headless")) eqn:E; [|reflexivity]. apply beqb_iff in E as ->. destruct (N rest eq_refl).
Qed.
Print Assumptions C112_entrance.

(** ** The summary: numbers in digits, the right words, green only without errors. *)
Theorem C112_summary : forall errors files rules time threads,
  exists color e ew f fw r rw t,
    summary errors files rules time threads =
      b "Found " ++ color ++ e ++ escape :: b "[0m " ++ ew ++ b " " ++ escape :: b "[2m(linted " ++ escape :: b "[1m" ++ f ++ escape :: b "[22m" ++ escape :: b "[2m " ++ fw ++ b " with " ++
      escape :: b "[1m" ++ r ++ escape :: b "[22m" ++ escape :: b "[2m " ++ rw ++ b " in " ++ escape :: b "[1m" ++ time ++ escape :: b "[22m" ++ escape :: b "[2m using " ++
      escape :: b "[1m" ++ t ++ escape :: b "[22m" ++ escape :: b "[2m threads)" ++ newline /\
    written errors e /\ written files f /\ written rules r /\ written threads t /\
    ((errors = 0 /\ color = escape :: b "[1;32m") \/ (errors <> 0 /\ color = escape :: b "[1m")) /\
    ((errors = 1 /\ ew = b "error") \/ (errors <> 1 /\ ew = b "errors")) /\
    ((files = 1 /\ fw = b "file") \/ (files <> 1 /\ fw = b "files")) /\ ((rules = 1 /\ rw = b "rule") \/ (rules <> 1 /\ rw = b "rules")).
Proof.
  intros errors files rules time threads.
  exists (if errors =? 0 then escape :: b "[1;32m" else bold), (decimal errors), (if errors =? 1 then b "error" else b "errors"), (decimal files), (if files =? 1 then b "file" else b "files"),
    (decimal rules), (if rules =? 1 then b "rule" else b "rules"), (decimal threads).
  split. { unfold summary, bold, dim, plain. cbn [b app]. repeat rewrite <- app_assoc. cbn [app]. reflexivity. }
  repeat (split; [apply decimal_written|]).
  repeat split; match goal with |- context [if ?x =? ?y then _ else _] => destruct (Nat.eqb_spec x y); auto end.
Qed.
Print Assumptions C112_summary.
Example C112_summary_example : summary 1 2 59 (b "3ms") 4 =
  b "Found " ++ escape :: b "[1m1" ++ escape :: b "[0m error " ++ escape :: b "[2m(linted " ++ escape :: b "[1m2" ++ escape :: b "[22m" ++ escape :: b "[2m files with " ++ escape :: b "[1m59" ++ escape :: b "[22m" ++
  escape :: b "[2m rules in " ++ escape :: b "[1m3ms" ++ escape :: b "[22m" ++ escape :: b "[2m using " ++ escape :: b "[1m4" ++ escape :: b "[22m" ++ escape :: b "[2m threads)" ++ newline.
Proof. vm_compute. reflexivity. Qed.
(** One thread is spelled "1 threads": the word does not follow the number there. *)
Theorem C112_threads_refuted : exists files time before after, summary 0 files 59 time 1 = before ++ b "1" ++ escape :: b "[22m" ++ escape :: b "[2m threads)" ++ after.
Proof. exists 0, [], (firstn (List.length (summary 0 0 59 [] 1) - 20) (summary 0 0 59 [] 1)), newline. vm_compute. reflexivity. Qed.
Print Assumptions C112_threads_refuted.

(** ** The table: a line for each rule below two, each as long as the others if the times fit their column (the shares always do, being at most 100.0). *)
Theorem C112_table : forall millis percent rs, rs <> [] ->
  (forall r, In r rs -> List.length (millis (spent r)) <= 10) -> (forall d t, List.length (percent d t) <= 7) ->
  exists head under rows, table millis percent rs = newline ++ b "Rule timings:" ++ newline ++ concat (map (fun l => l ++ newline) (head :: under :: rows)) /\
    (forall l k, In l (head :: under :: rows) -> In k (head :: under :: rows) -> List.length l = List.length k) /\
    Forall2 (fun r l => exists s1 s2 s3 s4 share calls_text,
      l = rule_name r ++ s1 ++ s2 ++ millis (spent r) ++ s3 ++ share ++ b "%" ++ s4 ++ calls_text /\
      blank s1 /\ blank s2 /\ blank s3 /\ blank s4 /\ 2 <= List.length (s1 ++ s2) /\ 2 <= List.length s3 /\ 2 <= List.length s4 /\ written (calls r) calls_text /\
      ((list_sum (map spent rs) = 0 /\ share = b "0.0") \/ (0 < list_sum (map spent rs) /\ share = percent (spent r) (list_sum (map spent rs))))) rs rows.
Proof.
  intros millis percent rs Ne M Pc.
  set (rw := rule_width rs). set (cw := calls_width rs).
  assert (RW : 4 <= rw /\ forall r, In r rs -> List.length (rule_name r) <= rw) by exact (fold_max (fun r => List.length (rule_name r)) rs 4).
  assert (CW : 5 <= cw /\ forall r, In r rs -> List.length (decimal (calls r)) <= cw) by exact (fold_max (fun r => List.length (decimal (calls r))) rs 5).
  set (share := fun r => if 0 <? total rs then percent (spent r) (total rs) else b "0.0").
  assert (Sh : forall r, List.length (share r) <= 7) by (intros r; unfold share; destruct (0 <? total rs); [apply Pc|cbn; lia]).
  set (line := fun r => pad_right rw (rule_name r) ++ b "  " ++ pad_left 10 (millis (spent r)) ++ b "  " ++ pad_left 7 (share r) ++ b "%  " ++ pad_left cw (decimal (calls r))).
  exists (pad_right rw (b "Rule") ++ b "  " ++ pad_left 10 (b "Time (ms)") ++ b "  " ++ pad_left 8 (b "Relative") ++ b "  " ++ pad_left cw (b "Calls")),
    (repeat "-"%char rw ++ b "  " ++ repeat "-"%char 10 ++ b "  " ++ repeat "-"%char 8 ++ b "  " ++ repeat "-"%char cw), (map line rs).
  split; [|split].
  - assert (R : flat_map (row millis percent rw cw (total rs)) rs = concat (map (fun l => l ++ newline) (map line rs))).
    { rewrite flat_map_concat_map, map_map. f_equal. apply map_ext. intros r. unfold row, line, share. rewrite <- !app_assoc. reflexivity. }
    transitivity (newline ++ b "Rule timings:" ++ newline ++
      pad_right rw (b "Rule") ++ b "  " ++ pad_left 10 (b "Time (ms)") ++ b "  " ++ pad_left 8 (b "Relative") ++ b "  " ++ pad_left cw (b "Calls") ++ newline ++
      repeat "-"%char rw ++ b "  " ++ repeat "-"%char 10 ++ b "  " ++ repeat "-"%char 8 ++ b "  " ++ repeat "-"%char cw ++ newline ++ flat_map (row millis percent rw cw (total rs)) rs).
    { unfold rw, cw. clear - Ne. destruct rs as [|r0 rs0]; [congruence|reflexivity]. }
    rewrite R. rewrite !map_cons, !concat_cons, <- !app_assoc. reflexivity.
  - assert (G : forall l, In l ((pad_right rw (b "Rule") ++ b "  " ++ pad_left 10 (b "Time (ms)") ++ b "  " ++ pad_left 8 (b "Relative") ++ b "  " ++ pad_left cw (b "Calls")) ::
        (repeat "-"%char rw ++ b "  " ++ repeat "-"%char 10 ++ b "  " ++ repeat "-"%char 8 ++ b "  " ++ repeat "-"%char cw) :: map line rs) -> List.length l = rw + cw + 24).
    { intros l [<-|[<-|L]].
      - rewrite !app_length, pad_right_length by (cbn; lia). rewrite !pad_left_length by (cbn; lia). cbn [b List.length]. lia.
      - rewrite !app_length, !repeat_length. cbn [b List.length]. lia.
      - apply in_map_iff in L as [r [<- L]]. unfold line. rewrite !app_length, pad_right_length by (apply RW; exact L).
        rewrite (pad_left_length 10) by (apply M; exact L). rewrite (pad_left_length 7) by apply Sh. rewrite (pad_left_length cw) by (apply CW; exact L). cbn [b List.length]. lia. }
    intros l k L K. rewrite (G l L), (G k K). reflexivity.
  - assert (G : forall l, Forall2 (fun r l => exists s1 s2 s3 s4 share calls_text,
      l = rule_name r ++ s1 ++ s2 ++ millis (spent r) ++ s3 ++ share ++ b "%" ++ s4 ++ calls_text /\
      blank s1 /\ blank s2 /\ blank s3 /\ blank s4 /\ 2 <= List.length (s1 ++ s2) /\ 2 <= List.length s3 /\ 2 <= List.length s4 /\ written (calls r) calls_text /\
      ((list_sum (map spent rs) = 0 /\ share = b "0.0") \/ (0 < list_sum (map spent rs) /\ share = percent (spent r) (list_sum (map spent rs))))) l (map line l)).
    { assert (Two : blank (b "  ")) by (intros c [<-|[<-|[]]]; reflexivity).
      assert (App : forall x y, blank x -> blank y -> blank (x ++ y)) by (intros x y X Y c I; apply in_app_iff in I as [I|I]; auto).
      induction l as [|r l IH]; cbn [map]; constructor; [|exact IH].
      exists (spaces (rw - List.length (rule_name r)) ++ b "  "), (spaces (10 - List.length (millis (spent r)))), (b "  " ++ spaces (7 - List.length (share r))), (b "  " ++ spaces (cw - List.length (decimal (calls r)))), (share r), (decimal (calls r)).
      split. { unfold line, pad_left, pad_right. change (b "%  ") with (b "%" ++ b "  "). rewrite <- !app_assoc. reflexivity. }
      split; [apply App; [apply spaces_blank|exact Two]|]. split; [apply spaces_blank|]. split; [apply App; [exact Two|apply spaces_blank]|]. split; [apply App; [exact Two|apply spaces_blank]|].
      split; [rewrite !app_length; cbn [b List.length]; lia|]. split; [rewrite app_length; cbn [b List.length]; lia|]. split; [rewrite app_length; cbn [b List.length]; lia|].
      split; [apply decimal_written|]. unfold share. rewrite <- total_sum. destruct (Nat.ltb_spec 0 (total rs)); [right; auto|left; split; [lia|reflexivity]]. }
    apply G.
Qed.
Print Assumptions C112_table.
(** The columns of names and calls are as wide as their longest entry. *)
Theorem C112_widths : forall rs,
  (rule_width rs = 4 \/ exists r, In r rs /\ List.length (rule_name r) = rule_width rs) /\ (calls_width rs = 5 \/ exists r, In r rs /\ List.length (decimal (calls r)) = calls_width rs).
Proof. intros rs. split; [exact (fold_max_least (fun r => List.length (rule_name r)) rs 4)|exact (fold_max_least (fun r => List.length (decimal (calls r))) rs 5)]. Qed.
Print Assumptions C112_widths.
Theorem C112_table_empty : forall millis percent, table millis percent [] = [].
Proof. reflexivity. Qed.
Print Assumptions C112_table_empty.
Example C112_table_example : table (fun d => b "1.500") (fun d t => b "50.0") [mkTiming (b "return-await") 15 7; mkTiming (b "x") 15 123456] =
  newline ++ b "Rule timings:" ++ newline ++
  b "Rule           Time (ms)  Relative   Calls" ++ newline ++
  b "------------  ----------  --------  ------" ++ newline ++
  b "return-await       1.500     50.0%       7" ++ newline ++
  b "x                  1.500     50.0%  123456" ++ newline.
Proof. vm_compute. reflexivity. Qed.
(** A rule that takes a thousand seconds or more (eleven characters) moves the rest of its line. *)
Theorem C112_table_wide_refuted : exists millis percent r1 r2, List.length (millis (spent r1)) = 11 /\
  table millis percent [r1; r2] = newline ++ b "Rule timings:" ++ newline ++
    b "Rule   Time (ms)  Relative  Calls" ++ newline ++
    b "----  ----------  --------  -----" ++ newline ++
    b "a     1000000.000     50.0%      1" ++ newline ++
    b "a          1.000     50.0%      1" ++ newline.
Proof. exists (fun d => if d =? 2 then b "1000000.000" else b "1.000"), (fun _ _ => b "50.0"), (mkTiming (b "a") 2 1), (mkTiming (b "a") 1 1). split; vm_compute; reflexivity. Qed.
Print Assumptions C112_table_wide_refuted.

(** ** A run *)
Definition slash_join (dir name : bstr) : bstr := dir ++ b "/" ++ name.
Definition example_flags : flags := mkFlags false [] true (b "timings") (b "t.out") [] false.
Definition example_sources : list source :=
  [mkSource (b "/p/a.ts") 10 0; mkSource (b "/p/node_modules/m/i.ts") 90 1; mkSource (b "/pq/b.ts") 50 2; mkSource (b "/p/src/c.ts") 30 3; mkSource (b "/lib/lib.d.ts") 99 4].
Definition example_world (ds : list bstr) (e : option bstr) (k : nat) : world bstr :=
  mkWorld bstr (fun _ => example_flags) (fun _ => ([], 0)) (fun s => s) None None None (inl (b "/p")) (fun s => s) slash_join (fun _ => true) (fun _ => b "/p") (fun s => s)
    (fun _ _ _ _ => inl (Some example_sources)) (fun files _ => (ds, e)) k [] (fun _ => []) (fun _ _ => []) (b "1ms") 4.
Example C112_run_example : let r := run_main bstr (fun d => d ++ newline) (example_world [b "E1"; b "E2"] None 0) [] in
  fst r = [Err warning; TraceStart; Out (b "Found file: a.ts" ++ newline ++ b "Found file: src/c.ts" ++ newline); Out (newline ++ b "E1" ++ newline ++ b "E2" ++ newline);
           Out (summary 2 2 59 (b "1ms") 4); Out []; TraceStop] /\ snd r = 0.
Proof. split; vm_compute; reflexivity. Qed.
Example C112_reaches_example : reaches bstr (example_world [] None 0) example_flags true (b "/p/") example_sources.
Proof. apply reaches_iff. split; [reflexivity|]. split; [reflexivity|]. split; [right; reflexivity|]. split; [left; reflexivity|]. exists (b "/p"), (b "/p/tsconfig.json"), false. repeat split. Qed.
Example C112_given_example : map number (by_size (map fst (pick (b "/p/") example_sources))) = [3; 0].
Proof. vm_compute. reflexivity. Qed.

(** The status does not say whether there were diagnostics: with any number of them it is 0 ... *)
Theorem C112_status_refuted : exists (w : world bstr) print d ds, lint _ w (by_size (map fst (pick (b "/p/") example_sources))) all_rules = (d :: ds, None) /\
  snd (run_main bstr print w []) = 0 /\ exists x y, stdout (fst (run_main bstr print w [])) = x ++ print d ++ y.
Proof.
  exists (example_world [b "E1"] None 0), (fun d => d), (b "E1"), []. split; [reflexivity|]. split; [vm_compute; reflexivity|].
  exists (b "Found file: a.ts" ++ newline ++ b "Found file: src/c.ts" ++ newline ++ newline), (summary 1 2 59 (b "1ms") 4). vm_compute. reflexivity.
Qed.
Print Assumptions C112_status_refuted.
(** ... and if the linter has an error, what it reported before need not be printed: nothing waits for the printing goroutine (610-615). *)
Theorem C112_lost_refuted : exists (w : world bstr) print d, lint _ w (by_size (map fst (pick (b "/p/") example_sources))) all_rules = ([d], Some (b "x")) /\ print d <> [] /\
  stdout (fst (run_main bstr print w [])) = b "Found file: a.ts" ++ newline ++ b "Found file: src/c.ts" ++ newline /\ snd (run_main bstr print w []) = 1.
Proof. exists (example_world [b "E1"] (Some (b "x")) 0), (fun d => d), (b "E1"). split; [reflexivity|]. split; [discriminate|]. split; vm_compute; reflexivity. Qed.
Print Assumptions C112_lost_refuted.
(** A project inside of a directory node_modules has no files to lint, and the run succeeds. *)
Theorem C112_inside_refuted : exists dir sources, sources <> [] /\ (forall f, In f sources -> exists name, path f = dir ++ name) /\ pick dir sources = [].
Proof. exists (b "/x/node_modules/p/"), [mkSource (b "/x/node_modules/p/a.ts") 1 0]. split; [discriminate|]. split; [|vm_compute; reflexivity]. intros f [<-|[]]. exists (b "a.ts"). reflexivity. Qed.
Print Assumptions C112_inside_refuted.
