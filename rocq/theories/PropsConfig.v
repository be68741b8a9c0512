(** Theorems about the breadth-first search, the tsconfig lookup and its parallel driver. *)
From Coq Require Import String Bool List Arith Lia Permutation Sorted.
From Verif Require Import Base Bfs BfsSpec BfsProofs TsConfig TsConfigSpec TsConfigProofs
  PLookup PLookupProofs EngineProofs.
Import ListNotations.
Open Scope nat_scope.

(** ** C25 *)

(** The search ends on every finite graph, whatever was visited before. *)
Theorem C25_search_terminates :
  forall (N : Type) (eqb : N -> N -> bool) neighbors visit W s U fuel,
    (forall x y, eqb x y = true <-> x = y) ->
    closed_graph neighbors U s -> length U + 2 <= fuel ->
    exists r, bfs eqb neighbors visit fuel W s = Some r.
Proof. intros. eapply bfs_total; eauto. Qed.
Print Assumptions C25_search_terminates.

(** Visits: each node at most once, never a node visited before the search, only nodes
    reachable without passing through one, in order of distance. *)
Theorem C25_visits_once_in_distance_order :
  forall (N : Type) (eqb : N -> N -> bool) neighbors visit W s fuel r,
    (forall x y, eqb x y = true <-> x = y) ->
    bfs eqb neighbors visit fuel W s = Some r ->
    NoDup (b_order (r_st r)) /\
    (forall n, In n (b_order (r_st r)) -> exists k, walk neighbors W s n k) /\
    StronglySorted (no_further neighbors W s) (b_order (r_st r)) /\
    (forall n, In n (b_vis (r_st r)) <-> In n W \/ In n (b_order (r_st r))).
Proof.
  intros N eqb nb v W s fuel r He E. pose proof (bfs_sound eqb He _ _ _ _ _ _ E) as O.
  unfold outcome in O. destruct (r_stopped r).
  - destruct O as (d & n & q & o & _ & _ & _ & _ & _ & _ & ND & V & _ & _ & S & SS).
    repeat (split; [solve [auto]|]). split; [|auto]. intros m H. destruct (S m H) as (k & _ & [X _]). eauto.
  - destruct O as (ND & V & Wk & _ & SS & _). split; [auto|]. split; [intros m H; now apply Wk|]. auto.
Qed.
Print Assumptions C25_visits_once_in_distance_order.

(** A stopped search: the returned path is a path of the graph from the start (last node
    first) to a stop node, and no stop node is nearer; nodes nearer than it were all
    visited before. *)
Theorem C25_stops_at_a_nearest_node :
  forall (N : Type) (eqb : N -> N -> bool) neighbors visit W s fuel r,
    (forall x y, eqb x y = true <-> x = y) ->
    bfs eqb neighbors visit fuel W s = Some r -> r_stopped r = true ->
    exists n q, r_path r = n :: q /\ chain neighbors s (n :: q) /\ visit n = (true, true) /\
      dist neighbors W s n (length q) /\
      (forall m k, visit m = (true, true) -> walk neighbors W s m k -> length q <= k) /\
      (exists o, b_order (r_st r) = o ++ [n] /\
         (forall m, In m o -> visit m <> (true, true)) /\
         (forall m k, k < length q -> dist neighbors W s m k -> In m o)).
Proof.
  intros N eqb nb v W s fuel r He E St. pose proof (bfs_sound eqb He _ _ _ _ _ _ E) as O.
  unfold outcome in O. rewrite St in O. destruct O as (d & F).
  pose proof (first_stop eqb He _ _ _ _ _ _ _ F) as M.
  destruct F as (n & q & o & P & C & S & L & D & Oo & ND & V & NS & LO & _). subst d.
  exists n, q. rewrite P in C. repeat (split; [solve [auto]|]). exists o. auto.
Qed.
Print Assumptions C25_stops_at_a_nearest_node.

(** A search that does not stop: every node reachable outside the previously visited ones
    was visited, none of them is a stop node, and the returned path leads to the first
    visited result node, which is a nearest one; it is empty iff there is none. *)
Theorem C25_exhaustive_without_stop :
  forall (N : Type) (eqb : N -> N -> bool) neighbors visit W s fuel r,
    (forall x y, eqb x y = true <-> x = y) ->
    bfs eqb neighbors visit fuel W s = Some r -> r_stopped r = false ->
    (forall n k, walk neighbors W s n k -> In n (b_order (r_st r)) /\ visit n <> (true, true)) /\
    (r_path r = [] <-> forall n k, walk neighbors W s n k -> fst (visit n) = false) /\
    (forall n q, r_path r = n :: q ->
       chain neighbors s (n :: q) /\ fst (visit n) = true /\ dist neighbors W s n (length q) /\
       (forall m k, fst (visit m) = true -> walk neighbors W s m k -> length q <= k) /\
       exists o1 o2, b_order (r_st r) = o1 ++ n :: o2 /\ forall m, In m o1 -> fst (visit m) = false).
Proof.
  intros N eqb nb v W s fuel r He E St. pose proof (bfs_sound eqb He _ _ _ _ _ _ E) as O.
  unfold outcome in O. rewrite St in O. destruct O as (ND & V & Wk & NS & SS & P).
  split; [|split].
  - intros n k H. assert (I : In n (b_order (r_st r))) by (apply Wk; eauto). split; [auto|]. now apply NS.
  - split.
    + intros E0 n k H. rewrite E0 in P. destruct (fst (v n)) eqn:X; [|auto].
      exfalso. apply (P n); [apply Wk; eauto|exact X].
    + intros H. destruct (r_path r) as [|n q]; [auto|]. destruct P as (_ & R & _ & o1 & o2 & Eo & _).
      exfalso. assert (I : In n (b_order (r_st r))) by (rewrite Eo; apply in_or_app; simpl; auto).
      apply Wk in I. destruct I as (k & Hk). specialize (H n k Hk). unfold results in R. congruence.
  - intros n q E0. rewrite E0 in P. destruct P as (C & R & D & o1 & o2 & Eo & M).
    split; [auto|]. split; [auto|]. split; [auto|]. split.
    + intros m k Rm Hk. assert (I : In m (b_order (r_st r))) by (apply Wk; eauto).
      rewrite Eo in I, SS. apply in_app_or in I. destruct I as [I|[->|I]].
      * exfalso. now apply (M m).
      * apply D; auto.
      * assert (F : Forall (no_further nb W s n) o2).
        { clear -SS. induction o1 as [|x o1 IH]; simpl in SS; inversion SS; subst; auto. }
        rewrite Forall_forall in F. destruct (F m I k Hk) as (k' & L & Hk').
        destruct D as [_ D]. specialize (D _ Hk'). lia.
    + exists o1, o2. split; [auto|]. intros m I. destruct (fst (v m)) eqn:X; [|auto].
      exfalso. now apply (M m).
Qed.
Print Assumptions C25_exhaustive_without_stop.

(** The search is the textbook breadth-first search with one queue: same visits in the same
    order, same path (through the first parent). *)
Theorem C25_is_the_textbook_search :
  forall (N : Type) (eqb : N -> N -> bool) neighbors visit W s fuel r,
    (forall x y, eqb x y = true <-> x = y) ->
    bfs eqb neighbors visit fuel W s = Some r ->
    forall r', fifo neighbors visit [[s]] (fun m => In m W) None [] r' <->
               r' = (r_stopped r, r_path r, b_order (r_st r)).
Proof.
  intros N eqb nb v W s fuel r He E r'. pose proof (bfs_fifo eqb He _ _ _ _ _ _ E) as F.
  split; [intros F'; eapply fifo_fun; eauto|intros ->; exact F].
Qed.
Print Assumptions C25_is_the_textbook_search.

(** A cyclic graph: 0 -> 1, 2; 1 -> 0, 3; 2 -> 4, 3; 3 -> 5; 4 -> 5; 5 -> 0. *)
Definition bex_nb (n : nat) : list nat :=
  match n with 0 => [1; 2] | 1 => [0; 3] | 2 => [4; 3] | 3 => [5] | 4 => [5] | 5 => [0] | _ => [] end.
Example C25_example_stop :
  bfs Nat.eqb bex_nb (fun n => (Nat.eqb n 5, true)) 10 [] 0 =
  Some (mkRes true [5; 3; 1; 0] (mkBst [0; 1; 2; 3; 4; 5] [0; 1; 2; 3; 4; 5] None)).
Proof. reflexivity. Qed.
(** Node 1 was visited before: 3 is now reached through 2; the fallback is 4. *)
Example C25_example_fallback :
  bfs Nat.eqb bex_nb (fun n => (Nat.leb 3 n, false)) 10 [1] 0 =
  Some (mkRes false [4; 2; 0] (mkBst [1; 0; 2; 4; 3; 5] [0; 2; 4; 3; 5] (Some [4; 2; 0]))).
Proof. reflexivity. Qed.

(** ** C23 *)

(** A non-empty answer is a config that owns the file, found in the nearest ancestor that
    reaches an owner, through the fewest project references. *)
Theorem C23_config_owns_the_file :
  forall load possibly cs to_path base fold compute reg_up bfuel fuel file skip c,
    path_laws cs to_path base fold -> load [] = None ->
    lookup load possibly cs to_path base fold compute reg_up bfuel fuel file skip = Some c ->
    c <> [] -> best load possibly to_path compute reg_up file skip c.
Proof.
  intros. edestruct lookup_sound as [[_ H']|[H' _]]; eauto. congruence.
Qed.
Print Assumptions C23_config_owns_the_file.

(** Among the owners at the same distance the first one in the order of the references is
    taken: the answer is the result of the textbook search from an ancestor, where some
    configs that own nothing may be left out. *)
Theorem C23_ties_follow_reference_order :
  forall load possibly cs to_path base fold compute reg_up bfuel fuel file skip c refs test,
    path_laws cs to_path base fold -> load [] = None ->
    declared_refs load refs ->
    (forall n, owns load possibly to_path file n <-> test n = (true, true)) ->
    (forall n, test n = (true, true) \/ test n = (false, false)) ->
    lookup load possibly cs to_path base fold compute reg_up bfuel fuel file skip = Some c -> c <> [] ->
    exists k a W q o, ancestor to_path compute reg_up file skip k a /\
      (forall n, In n W -> ~ owns load possibly to_path file n) /\
      fifo refs test [[a]] (fun m => In m W) None [] (true, c :: q, o).
Proof.
  intros load possibly cs to_path base fold compute reg_up bfuel fuel file skip c refs test L0 L1 HR HT HT2 E Nc.
  unfold lookup in E. destruct (is_empty (compute file skip)) eqn:X; [congruence|].
  assert (Hne : compute file skip <> []) by (intros Y; rewrite Y in X; easy).
  eapply find_config_order in E; eauto; [|split; [intros n []|intros n m []]].
  destruct E as (k & a & W & q & o & C & D & F). exists k, a, W, q, o.
  split; [apply ancestor_chain; auto|]. split; [auto|].
  eapply fifo_fext; [| |exact F].
  - intros n. destruct (HR n) as [A B]. unfold cfg_neighbors. destruct (load n) as [x|] eqn:Ln.
    + destruct (c_projrefs x) eqn:P; [symmetry; apply B; intros ? [= <-]; auto|].
      symmetry. apply A; [auto|congruence].
    + symmetry. apply B. easy.
  - intros n. pose proof (visit_owns load possibly cs to_path base fold L0 file n) as VO.
    rewrite HT in VO. destruct (HT2 n) as [Y|Y].
    + rewrite Y. now apply VO.
    + destruct (visit_cases load possibly cs to_path base fold file n) as [Z|Z]; rewrite Y, Z; auto.
      apply VO in Z. congruence.
Qed.
Print Assumptions C23_ties_follow_reference_order.

(** The answer is empty exactly if no config reached from any ancestor owns the file. *)
Theorem C23_no_config_iff_no_owner :
  forall load possibly cs to_path base fold compute reg_up bfuel fuel file skip c,
    path_laws cs to_path base fold -> load [] = None ->
    lookup load possibly cs to_path base fold compute reg_up bfuel fuel file skip = Some c ->
    (c = [] <-> no_owner load possibly to_path compute reg_up file skip).
Proof.
  intros load possibly cs to_path base fold compute reg_up bfuel fuel file skip c L E H.
  edestruct lookup_sound as [[N B]|[N B]]; eauto; split; try easy.
  intros NO. destruct B as (O & k & a & d & A & W & _). exfalso. eapply NO; eauto.
Qed.
Print Assumptions C23_no_config_iff_no_owner.

(** The lookup ends on every finite set of configs, cyclic references included, provided
    that the ancestors get nearer to the root. *)
Theorem C23_lookup_terminates :
  forall load possibly cs to_path base fold compute reg_up file skip U (depth : bstr -> nat) bfuel fuel,
    (compute file skip <> [] -> In (compute file skip) U) ->
    (forall n m, In n U -> refers load n m -> In m U) ->
    (forall n a, In n U -> a <> [] ->
       (a = reg_up file (to_path file) n \/ a = compute n true) -> In a U /\ depth a < depth n) ->
    length U + 2 <= bfuel -> depth (compute file skip) < fuel ->
    exists c, lookup load possibly cs to_path base fold compute reg_up bfuel fuel file skip = Some c.
Proof.
  intros load possibly cs to_path base fold compute reg_up file skip U depth bfuel fuel HU HR HA Lb Lf.
  unfold lookup. destruct (is_empty (compute file skip)) eqn:X; [eauto|].
  assert (Hne : compute file skip <> []) by (intros Y; rewrite Y in X; easy).
  apply find_config_total with U depth; auto.
  - intros n I m Im. apply (HR n m I). now apply nbs_refers.
  - intros n Hu I. apply HA; auto. unfold up. destruct (is_empty (reg_up file (to_path file) n)); auto.
Qed.
Print Assumptions C23_lookup_terminates.

(** Example: /p/a/x.ts; /p/a/tsconfig.json is a solution with references to A and B that
    refer to each other and list nothing relevant; /p/tsconfig.json refers to A and to C,
    and C lists the file. *)
Definition cex_load (n : bstr) : option cfg :=
  if beqb n (b "/p/a/tsconfig.json") then Some (mkCfg [] [b "A"; b "B"] [b "A"; b "B"] false true)
  else if beqb n (b "A") then Some (mkCfg [b "/p/q.ts"] [b "B"] [b "B"] false false)
  else if beqb n (b "B") then Some (mkCfg [b "/p/r.ts"] [b "A"] [b "A"; b "missing"] false false)
  else if beqb n (b "/p/tsconfig.json") then Some (mkCfg [b "/p/z.ts"] [b "A"; b "C"] [b "A"; b "C"] false false)
  else if beqb n (b "C") then Some (mkCfg [b "/p/z.ts"; b "/p/a/x.ts"] [] [] true false)
  else None.
Definition cex_compute (f : bstr) (skip : bool) : bstr :=
  if skip then (if beqb f (b "/p/a/tsconfig.json") then b "/p/tsconfig.json" else [])
  else b "/p/a/tsconfig.json".
Definition cex_lookup (possible : bool) (file : bstr) : option bstr :=
  lookup cex_load (fun _ _ => possible) true (fun x => x) (fun x => x) beqb cex_compute (fun _ _ _ => []) 10 10 file false.
Example C23_example :
  cex_lookup true (b "/p/a/x.ts") = Some (b "C") /\ cex_lookup true (b "/p/q.ts") = Some (b "A") /\
  cex_lookup true (b "/p/none.ts") = Some [] /\ cex_lookup false (b "/p/a/x.ts") = Some [].
Proof. repeat split; vm_compute; reflexivity. Qed.
Example C23_example_laws : path_laws true (fun x => x) (fun x => x) beqb.
Proof. constructor; congruence. Qed.

(** ** C24 *)

(** In the example above the nearest config disables solution searching and owns nothing,
    but the ancestor directory is searched all the same. *)
Theorem C24_disable_solution_searching_refuted :
  exists load possibly cs to_path base fold compute reg_up bfuel fuel file c,
    path_laws cs to_path base fold /\ load [] = None /\
    (exists x, load (compute file false) = Some x /\ c_disable x = true) /\
    (forall n d, ref_walk load (compute file false) n d -> ~ owns load possibly to_path file n) /\
    lookup load possibly cs to_path base fold compute reg_up bfuel fuel file false = Some c /\ c <> [].
Proof.
  exists cex_load, (fun _ _ => true), true, (fun x => x), (fun x => x), beqb, cex_compute, (fun _ _ _ => []).
  exists 10, 10, (b "/p/a/x.ts"), (b "C").
  split; [exact C23_example_laws|]. split; [reflexivity|].
  split; [eexists; split; reflexivity|].
  split; [|split; [vm_compute; reflexivity|easy]].
  assert (R : forall n d, ref_walk cex_load (b "/p/a/tsconfig.json") n d ->
             In n [b "/p/a/tsconfig.json"; b "A"; b "B"; b "missing"]).
  { induction 1 as [|n m k H IH Rf]; [now left|]. destruct Rf as [n c m L P I].
    simpl in IH. repeat destruct IH as [<-|IH]; try easy; vm_compute in L; try discriminate L;
      injection L as <-; simpl in I; repeat destruct I as [<-|I]; try easy; simpl; tauto. }
  intros n d H (c & L & (f & If & Ef) & _). apply R in H. clear R.
  simpl in H. repeat destruct H as [<-|H]; try easy; vm_compute in L; try discriminate L;
    injection L as <-; simpl in If; repeat destruct If as [<-|If]; try easy; discriminate Ef.
Qed.
Print Assumptions C24_disable_solution_searching_refuted.

(** More: the option has no effect on any lookup. *)
Theorem C24_option_has_no_effect :
  forall load possibly cs to_path base fold compute reg_up bfuel fuel file skip,
    (forall c f, possibly (forget c) f = possibly c f) ->
    lookup load possibly cs to_path base fold compute reg_up bfuel fuel file skip =
    lookup (forget_all load) possibly cs to_path base fold compute reg_up bfuel fuel file skip.
Proof.
  intros. unfold lookup. destruct (is_empty _); [reflexivity|]. now apply find_config_forget.
Qed.
Print Assumptions C24_option_has_no_effect.

Example C24_example :
  lookup (forget_all cex_load) (fun _ _ => true) true (fun x => x) (fun x => x) beqb cex_compute
    (fun _ _ _ => []) 10 10 (b "/p/a/x.ts") false = Some (b "C") /\
  cex_load (b "/p/a/tsconfig.json") <> forget_all cex_load (b "/p/a/tsconfig.json").
Proof. split; [vm_compute; reflexivity|]. vm_compute. discriminate. Qed.

(** ** C22 *)

(** When the main goroutine returns, the map has exactly the given files as keys, each with
    the value of its own lookup, whatever the schedule and the number of workers. *)
Theorem C22_parallel_equals_sequential :
  forall (File Res : Type) (feqb : File -> File -> bool) (look : File -> Res) files n sched s,
    (forall x y, feqb x y = true <-> x = y) -> 1 <= n ->
    l_run look (l_init files n) sched = Some s -> l_main s = MDone ->
    NoDup (map fst (l_result feqb s)) /\
    (forall f r, In (f, r) (l_result feqb s) <-> In f files /\ r = look f).
Proof.
  intros File Res feqb look files n sched s He N E M.
  destruct (final_result feqb He look files n sched s N E M) as (A & B & C & _).
  split; [auto|]. intros f r. split.
  - intros H. split; [|auto]. apply B. apply in_map_iff. exists (f, r). auto.
  - intros [I ->]. apply B in I. apply in_map_iff in I. destruct I as ([f' r'] & <- & I).
    simpl. rewrite <- (C _ _ I). exact I.
Qed.
Print Assumptions C22_parallel_equals_sequential.

(** No deadlock: in every reachable state some thread can move, until the main goroutine
    has returned; and no schedule is longer than a bound given by the request. *)
Theorem C22_no_deadlock :
  forall (File Res : Type) (look : File -> Res) files n sched s,
    1 <= n -> l_run look (l_init files n) sched = Some s ->
    (l_main s <> MDone -> exists t s', l_step look s t = Some s') /\
    length sched <= 4 * length files + n + 3.
Proof.
  intros File Res look files n sched s N E.
  pose proof (inv_run look files n _ _ _ (inv_init look files n) E) as I.
  split; [intros M; eapply progress; eauto|].
  apply run_bound in E. unfold measure in E at 2. cbn [l_init l_main l_in l_workers l_out l_closed rest_of length] in E.
  assert (H : @hands File (repeat WIdle n) = []) by (clear; induction n; auto).
  assert (R : @running File (repeat WIdle n) = n) by (unfold running; clear; induction n; simpl; auto).
  rewrite H, R in E. simpl in E. lia.
Qed.
Print Assumptions C22_no_deadlock.

(** Two workers, three requests with a duplicate, interleaved. *)
Definition lex_sched : list thread :=
  [TMain; TWorker 1; TMain; TWorker 0; TMain; TWorker 0; TMain; TWorker 0; TMain; TWorker 1; TWorker 0;
   TMain; TWorker 1; TWorker 0; TCloser; TMain; TMain].
Example C22_example :
  option_map (fun s => (l_main s, l_got s, l_result Nat.eqb s))
    (l_run (fun f => 10 * f) (l_init [4; 7; 4] 2) lex_sched) =
  Some (MDone, [(7, 70); (4, 40); (4, 40)], [(7, 70); (4, 40)]).
Proof. reflexivity. Qed.
(** A blocked step: the closing goroutine waits while a worker runs. *)
Example C22_example_blocked :
  l_run (fun f => 10 * f) (l_init [4] 1) [TMain; TMain; TWorker 0; TCloser] = None.
Proof. reflexivity. Qed.
