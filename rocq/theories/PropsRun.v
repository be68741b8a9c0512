(** Theorems about a headless run as a whole. *)
From Coq Require Import String Ascii Bool List ZArith Permutation Sorted Lia.
From Verif Require Import Base TsDiag TsDiagSpec TsDiagProofs PLookup PLookupProofs Run RunSpec RunProofs EngineProofs.
Import ListNotations.
Open Scope nat_scope.

(** ** C26 *)

(** After a run that did not fail, each requested path for which a config was found was
    linted exactly once, in the program of that config, or that program could not be built
    and every reason (at least one) was reported; nothing else was linted in a program
    with config; the paths without config were linted once each in one further program.
    [result] is what any schedule of the parallel lookup produced, read in any order. *)
Theorem C26_every_requested_file_linted_once :
  forall (Opt Impl SF Prog : Type) sf_name (ts_diags : Prog -> list SF -> list internal) shuffle create prog_files
    inferred get_sf iterp sorter (cfgs : list (@hconfig Opt)) (all : list (bstr * Impl)) look result log suppress,
    reorders shuffle -> reorders iterp -> reorders sorter -> from_create_program suppress create ->
    looked_up look cfgs result ->
    headless sf_name ts_diags shuffle create prog_files inferred get_sf iterp sorter cfgs all result = RDone log ->
    (forall f, requested cfgs f -> look f <> [] ->
      (exists p, create (look f) = CProg p /\
         exists l1 sf l2, lints (Some (look f)) log = l1 ++ sf :: l2 /\ sf_name sf = f /\ In sf (prog_files p) /\
           ~ In f (map sf_name (l1 ++ l2))) \/
      (exists ds, create (look f) = CDiags ds /\ ds <> [] /\ incl (map EInt ds) log)) /\
    (forall c sf, In sf (lints (Some c) log) -> requested cfgs (sf_name sf) /\ look (sf_name sf) = c) /\
    (exists us, NoDup us /\ (forall f, In f us <-> requested cfgs f /\ look f = []) /\
       Permutation (map Some (lints None log)) (map (get_sf (inferred us)) us)).
Proof.
  intros Opt Impl SF Prog sf_name ts_diags shuffle create prog_files inferred get_sf iterp sorter cfgs all look
    result log suppress H1 H2 H3 HC L E.
  destruct (headless_ok sf_name ts_diags shuffle H1 cfgs all create prog_files inferred get_sf iterp sorter
    H2 H3 look result log L E) as (A & B & (us & C1 & C2 & C3 & _) & _).
  split; [|split; [auto|exists us; auto]].
  intros f Rq Hc. destruct (A f Rq Hc) as [X|(ds & X & Y)]; [now left|]. right. exists ds.
  split; [auto|]. split; [|auto]. destruct (HC (look f)) as (ex & r & pd & pe & np & Ec).
  rewrite Ec in X. eapply create_diags_nonempty; eauto.
Qed.
Print Assumptions C26_every_requested_file_linted_once.

(** A program that lacks a file assigned to it stops the run. *)
Theorem C26_missing_file_aborts :
  forall (Opt Impl SF Prog : Type) sf_name (ts_diags : Prog -> list SF -> list internal) shuffle create prog_files
    inferred get_sf iterp sorter (cfgs : list (@hconfig Opt)) (all : list (bstr * Impl)) look result f p,
    reorders shuffle -> reorders iterp -> reorders sorter -> looked_up look cfgs result ->
    requested cfgs f -> look f <> [] -> create (look f) = CProg p ->
    (forall sf, In sf (prog_files p) -> sf_name sf <> f) ->
    forall log, headless sf_name ts_diags shuffle create prog_files inferred get_sf iterp sorter cfgs all result
      <> RDone log.
Proof.
  intros Opt Impl SF Prog sf_name ts_diags shuffle create prog_files inferred get_sf iterp sorter cfgs all look
    result f p H1 H2 H3 L Rq Hc Cp NF log E.
  destruct (headless_ok sf_name ts_diags shuffle H1 cfgs all create prog_files inferred get_sf iterp sorter
    H2 H3 look result log L E) as (A & _).
  destruct (A f Rq Hc) as [(p' & E' & l1 & sf & l2 & _ & X & Y & _)|(ds & E' & _)]; [|congruence].
  assert (p' = p) by congruence. subst p'. exact (NF sf Y X).
Qed.
Print Assumptions C26_missing_file_aborts.

(** A run completes when every config can be read, every program that was built contains
    its files, the program without config contains the others and all rules are known. *)
Theorem C26_run_completes :
  forall (Opt Impl SF Prog : Type) sf_name (ts_diags : Prog -> list SF -> list internal) shuffle create prog_files
    inferred get_sf iterp sorter (cfgs : list (@hconfig Opt)) (all : list (bstr * Impl)) look result,
    reorders shuffle -> reorders iterp -> reorders sorter -> looked_up look cfgs result ->
    (forall f, requested cfgs f -> look f <> [] -> create (look f) <> CErr /\
       forall p, create (look f) = CProg p -> exists sf, In sf (prog_files p) /\ sf_name sf = f) ->
    (forall us f, (forall g, In g us <-> requested cfgs g /\ look g = []) -> In f us -> get_sf (inferred us) f <> None) ->
    (forall f hs h, last_group cfgs f hs -> In h hs -> exists i, In (h_name h, i) all) ->
    exists log, headless sf_name ts_diags shuffle create prog_files inferred get_sf iterp sorter cfgs all result
      = RDone log.
Proof. intros. eapply headless_total; eauto. Qed.
Print Assumptions C26_run_completes.

(** ** C27 *)

(** Each file is linted with the rules of the last group that names it, in order, with
    their options; a file that no group names (it can only come from the program without
    config) with none. *)
Theorem C27_rules_of_the_last_group :
  forall (Opt Impl SF Prog : Type) sf_name (ts_diags : Prog -> list SF -> list internal) shuffle create prog_files
    inferred get_sf iterp sorter (cfgs : list (@hconfig Opt)) (all : list (bstr * Impl)) look result log,
    reorders shuffle -> reorders iterp -> reorders sorter -> looked_up look cfgs result ->
    headless sf_name ts_diags shuffle create prog_files inferred get_sf iterp sorter cfgs all result = RDone log ->
    forall c sf rs, In (ELint c sf rs) log ->
      (requested cfgs (sf_name sf) ->
         exists hs, last_group cfgs (sf_name sf) hs /\ Forall2 (runs_as all) hs rs) /\
      (~ requested cfgs (sf_name sf) -> rs = [] /\ c = None).
Proof.
  intros Opt Impl SF Prog sf_name ts_diags shuffle create prog_files inferred get_sf iterp sorter cfgs all look
    result log H1 H2 H3 L E c sf rs I.
  destruct (headless_ok sf_name ts_diags shuffle H1 cfgs all create prog_files inferred get_sf iterp sorter
    H2 H3 look result log L E) as (_ & B & _ & R).
  rewrite Forall_forall in R. specialize (R _ I). apply rules_good_spec in R. split; intros Rq.
  - destruct R as [R|[R _]]; [auto|]. destruct (requested_last cfgs _ Rq) as (hs & H). exfalso. eapply R; eauto.
  - split.
    + destruct R as [(hs & (pre & g & post & Eg & N & _) & _)|[_ R]]; [|auto]. exfalso. apply Rq.
      exists g. split; [rewrite Eg; apply in_or_app; simpl; auto|auto].
    + destruct c as [c|]; [|auto]. exfalso. apply Rq. apply (B c). apply in_flat_map.
      exists (ELint (Some c) sf rs). split; [auto|]. destruct (list_eq_dec ascii_dec c c); [now left|easy].
Qed.
Print Assumptions C27_rules_of_the_last_group.

(** The group is unique, so the rules are. *)
Lemma last_group_unique (Opt : Type) (cfgs : list (@hconfig Opt)) f hs hs' :
  last_group cfgs f hs -> last_group cfgs f hs' -> hs = hs'.
Proof. rewrite <- !get_configs. congruence. Qed.

(** A rule name that is not registered stops the run, if a file would be linted with it. *)
Theorem C27_unknown_rule_aborts :
  forall (Opt Impl SF Prog : Type) sf_name (ts_diags : Prog -> list SF -> list internal) shuffle create prog_files
    inferred get_sf iterp sorter (cfgs : list (@hconfig Opt)) (all : list (bstr * Impl)) look result f hs h,
    reorders shuffle -> reorders iterp -> reorders sorter -> looked_up look cfgs result ->
    requested cfgs f -> last_group cfgs f hs -> In h hs -> (forall i, ~ In (h_name h, i) all) ->
    (look f <> [] /\ exists p, create (look f) = CProg p) \/
    (look f = [] /\ forall us, match get_sf (inferred us) f with Some sf => sf_name sf = f | None => True end) ->
    forall log, headless sf_name ts_diags shuffle create prog_files inferred get_sf iterp sorter cfgs all result
      <> RDone log.
Proof.
  intros Opt Impl SF Prog sf_name ts_diags shuffle create prog_files inferred get_sf iterp sorter cfgs all look
    result f hs h H1 H2 H3 L Rq LG Ih NI HF log E.
  destruct (headless_ok sf_name ts_diags shuffle H1 cfgs all create prog_files inferred get_sf iterp sorter
    H2 H3 look result log L E) as (A & B & (us & U1 & U2 & U3 & _) & _).
  assert (X : exists c sf rs, In (ELint c sf rs) log /\ sf_name sf = f).
  { assert (G : forall c sf, In sf (lints c log) -> exists rs, In (ELint c sf rs) log).
    { intros c sf I. apply in_flat_map in I. destruct I as ([d|c' sf' rs] & Ie & I); [easy|].
      exists rs. destruct c as [c|], c' as [c'|]; try easy.
      - destruct (list_eq_dec ascii_dec c c'); [|easy]. destruct I as [<-|[]]. now subst.
      - destruct I as [<-|[]]. auto. }
    destruct HF as [[Hc (p & Cp)]|[Hc HG]].
    - destruct (A f Rq Hc) as [(p' & E' & l1 & sf & l2 & Y & X & _)|(ds & E' & _)]; [|congruence].
      destruct (G (Some (look f)) sf) as (rs & I); [rewrite Y; apply in_or_app; simpl; auto|]. eauto 6.
    - assert (If : In f us) by (apply U2; auto). specialize (HG us).
      assert (Ig : In (get_sf (inferred us) f) (map Some (lints None log))).
      { eapply Permutation_in; [symmetry; exact U3|]. now apply in_map. }
      apply in_map_iff in Ig. destruct Ig as (sf & Es & Is). rewrite <- Es in HG.
      destruct (G None sf Is) as (rs & I). eauto 6. }
  destruct X as (c & sf & rs & I & <-).
  destruct (C27_rules_of_the_last_group _ _ _ _ _ _ _ _ _ _ _ _ _ _ _ _ _ _ H1 H2 H3 L E c sf rs I) as [R _].
  destruct (R Rq) as (hs' & LG' & F). rewrite (last_group_unique _ _ _ _ _ LG' LG) in F. clear LG' R.
  assert (Q : exists x, runs_as all h x).
  { revert Ih. clear - F. induction F as [|h' x hs0 rs0 R F IH]; [easy|]. intros [<-|I]; [eauto|auto]. }
  destruct Q as (x & i & (pre & post & Ea & _) & _). apply (NI i). rewrite Ea. apply in_or_app. right. now left.
Qed.
Print Assumptions C27_unknown_rule_aborts.

(** The other reading of the claim is false for paths without config: the program may know
    the file under another name (typescript-go removes "." segments, [NormalizeSlashes]
    does not).  The rules are looked up under the program's name, so none is run and an
    unknown rule goes unnoticed. *)
Definition ex_norm (f : bstr) : bstr :=
  match f with "/"%char :: "."%char :: "/"%char :: r => "/"%char :: r | _ => f end.
Definition ex_headless := headless (SF := bstr) (Prog := list bstr) (Opt := nat) (Impl := nat)
  (fun sf => sf) (fun _ _ => []) (fun l => l) (fun _ => CErr) (fun p => p) (map ex_norm)
  (fun p f => if mem_b (ex_norm f) p then Some (ex_norm f) else None) (fun l => l) (fun l => l).

Theorem C27_inferred_file_without_rules_refuted :
  exists (cfgs : list (@hconfig nat)) (all : list (bstr * nat)) look result log f h i,
    looked_up look cfgs result /\ last_group cfgs f [h] /\ registered all (h_name h) i /\
    ex_headless cfgs all result = RDone log /\
    log = [ELint None (ex_norm f) []].
Proof.
  exists [mkHC [b "/./a.ts"] [mkHR (b "r") (Some 1)]], [(b "r", 7)], (fun _ => []), [(b "/./a.ts", [])].
  eexists. exists (b "/./a.ts"), (mkHR (b "r") (Some 1)), 7.
  split; [|split; [|split; [|split]]].
  - eexists 1, [TMain; TMain; TWorker 0; TWorker 0; TWorker 0; TCloser; TMain; TMain], _.
    split; [lia|]. split; [vm_compute; reflexivity|]. split; [reflexivity|]. vm_compute. reflexivity.
  - apply get_configs. reflexivity.
  - exists [], []. split; [reflexivity|easy].
  - vm_compute. reflexivity.
  - reflexivity.
Qed.
Print Assumptions C27_inferred_file_without_rules_refuted.

(** For the same reason two spellings of one path are linted twice. *)
Theorem C26_aliases_linted_once_refuted :
  exists (cfgs : list (@hconfig nat)) (all : list (bstr * nat)) look result log f,
    looked_up look cfgs result /\ ex_headless cfgs all result = RDone log /\ lints None log = [f; f].
Proof.
  exists [mkHC [b "/./a.ts"; b "/a.ts"] []], [], (fun _ => []), [(b "/./a.ts", []); (b "/a.ts", [])].
  eexists. exists (b "/a.ts").
  split; [|split].
  - eexists 1, [TMain; TMain; TMain; TWorker 0; TWorker 0; TWorker 0; TWorker 0; TWorker 0; TCloser; TMain; TMain; TMain], _.
    split; [lia|]. split; [vm_compute; reflexivity|]. split; [reflexivity|]. vm_compute. reflexivity.
  - vm_compute. reflexivity.
  - reflexivity.
Qed.
Print Assumptions C26_aliases_linted_once_refuted.

(** A run with two groups, a program with config, a failing one and a file without config. *)
Definition ex_cfgs : list (@hconfig nat) :=
  [mkHC [b "\p\a.ts"; b "/q/c.ts"; b "/b.ts"] [mkHR (b "r1") None; mkHR (b "r2") (Some 5)];
   mkHC [b "/p/a.ts"] [mkHR (b "r2") (Some 6)]].
Definition ex_look (f : bstr) : bstr :=
  match f with _ :: "p"%char :: _ => b "/p/tsconfig.json" | _ :: "q"%char :: _ => b "/q/tsconfig.json" | _ => [] end.
Definition ex_why : tsd := mkTsd None 3 4 18003%Z (b "no inputs").
Definition ex_create (c : bstr) : created (list bstr) :=
  create_program true c (if beqb c (b "/q/tsconfig.json") then [ex_why] else []) []
    (Some ([b "/lib.d.ts"; b "/p/a.ts"], [])) false.
Definition ex_run result := headless (SF := bstr) (Impl := nat)
  (fun sf => sf) (fun _ _ => []) (fun l => rev l) ex_create (fun p => p) (fun us => us)
  (fun p f => if mem_b f p then Some f else None) (fun l => rev l) (fun l => l) ex_cfgs
  [(b "r1", 1); (b "r2", 2); (b "r1", 3)] result.

Example C26_example_lookup : exists result, looked_up ex_look ex_cfgs result /\
  result = [(b "/b.ts", []); (b "/q/c.ts", b "/q/tsconfig.json"); (b "/p/a.ts", b "/p/tsconfig.json")].
Proof.
  eexists. split; [|reflexivity].
  eexists 1, [TMain; TMain; TMain; TMain; TMain; TWorker 0; TWorker 0; TWorker 0; TWorker 0; TWorker 0; TWorker 0; TWorker 0;
    TWorker 0; TWorker 0; TCloser; TMain; TMain; TMain; TMain; TMain], _.
  split; [lia|]. split; [vm_compute; reflexivity|]. split; [reflexivity|].
  match goal with |- Permutation ?x (l_result _ ?s) =>
    replace (l_result beqb s) with (rev x) by (vm_compute; reflexivity) end.
  apply Permutation_rev.
Qed.

Example C26_example_create : from_create_program false ex_create.
Proof. intros c. unfold ex_create. repeat eexists. Qed.

Example C26_example_run :
  ex_run [(b "/b.ts", []); (b "/q/c.ts", b "/q/tsconfig.json"); (b "/p/a.ts", b "/p/tsconfig.json")] =
  RDone
    [ELint (Some (b "/p/tsconfig.json")) (b "/p/a.ts") [(b "r2", 2, Some 6)];
     EInt (mkInt 3 4 (b "tsconfig-error") (b "Invalid tsconfig") (b "no inputs") (Some (b "/q/tsconfig.json")));
     ELint None (b "/b.ts") [(b "r1", 3, None); (b "r2", 2, Some 5)]].
Proof. reflexivity. Qed.

(** ** C35 *)

(** The report is, file by file, first the syntactic errors of the linted files, then the
    semantic ones sorted and without duplicates; nothing else, and nothing of a category
    that is off. *)
Theorem C35_report_is_exact :
  forall (SF : Type) (sf_name : SF -> bstr) syn sem incl no_emit sort_dedup lt rep_syn rep_sem files,
    sorts_and_dedups lt sort_dedup ->
    exists a c,
      Forall2 (syn_part sf_name syn rep_syn) files a /\
      Forall2 (sem_part sf_name sem incl no_emit lt rep_sem) files c /\
      report_ts sf_name syn sem incl no_emit sort_dedup rep_syn rep_sem files = concat a ++ concat c.
Proof. intros. now apply report_ok. Qed.
Print Assumptions C35_report_is_exact.

(** The same as an equivalence: reported iff enabled, of a linted file, and found there. *)
Theorem C35_reported_iff :
  forall (SF : Type) (sf_name : SF -> bstr) syn sem incl no_emit sort_dedup lt rep_syn rep_sem files,
    sorts_and_dedups lt sort_dedup ->
    let out := report_ts sf_name syn sem incl no_emit sort_dedup rep_syn rep_sem files in
    let found sf d := (rep_syn = true /\ In d (syn sf)) \/
                      (rep_sem = true /\ (In d (no_emit (sem sf)) \/ In d (incl sf))) in
    (forall i, In i out -> exists sf d, In sf files /\ t_file d = Some (sf_name sf) /\ found sf d /\ reports (sf_name sf) d i) /\
    (forall sf d, In sf files -> t_file d = Some (sf_name sf) -> found sf d ->
       exists i, In i out /\ reports (sf_name sf) d i).
Proof.
  intros SF sf_name syn sem incl no_emit sort_dedup lt rs rm files Hs out found.
  destruct (report_ok sf_name syn sem incl no_emit sort_dedup lt Hs rs rm files) as (a & c & A & C & E).
  fold out in E. rewrite E. clear E.
  assert (F2l : forall (R : SF -> list internal -> Prop) fs ps, Forall2 R fs ps ->
     forall i, In i (concat ps) -> exists sf p, In sf fs /\ R sf p /\ In i p).
  { intros R fs ps F. induction F as [|sf p fs ps H F IH]; intros i I; [easy|]. simpl in I.
    apply in_app_or in I. destruct I as [I|I]; [exists sf, p; simpl; auto|].
    destruct (IH i I) as (sf' & p' & ? & ? & ?). exists sf', p'. simpl. auto. }
  assert (F2r : forall (R : SF -> list internal -> Prop) fs ps, Forall2 R fs ps ->
     forall sf, In sf fs -> exists p, R sf p /\ forall i, In i p -> In i (concat ps)).
  { intros R fs ps F. induction F as [|sf p fs ps H F IH]; intros sf' I; [easy|]. destruct I as [<-|I].
    - exists p. split; [auto|]. intros i Hi. simpl. apply in_or_app. auto.
    - destruct (IH sf' I) as (p' & ? & Q). exists p'. split; [auto|]. intros i Hi. simpl. apply in_or_app. auto. }
  assert (G2l : forall n ds is, Forall2 (reports n) ds is -> forall i, In i is -> exists d, In d ds /\ reports n d i).
  { intros n ds is F. induction F as [|d j ds is H F IH]; intros i I; [easy|]. destruct I as [<-|I].
    - exists d. simpl. auto.
    - destruct (IH i I) as (d' & ? & ?). exists d'. simpl. auto. }
  assert (G2r : forall n ds is, Forall2 (reports n) ds is -> forall d, In d ds -> exists i, In i is /\ reports n d i).
  { intros n ds is F. induction F as [|d j ds is H F IH]; intros d' I; [easy|]. destruct I as [<-|I].
    - exists j. simpl. auto.
    - destruct (IH d' I) as (i & ? & ?). exists i. simpl. auto. }
  split.
  - intros i I. apply in_app_or in I. destruct I as [I|I].
    + destruct (F2l _ _ _ A i I) as (sf & p & If & P & Ip). unfold syn_part in P. destruct rs; [|subst; easy].
      destruct P as (ds & L & F). destruct (G2l _ _ _ F i Ip) as (d & Id & R).
      apply (located_in _ _ _ L) in Id. exists sf, d. unfold found. intuition auto.
    + destruct (F2l _ _ _ C i I) as (sf & p & If & P & Ip). unfold sem_part in P. destruct rm; [|subst; easy].
      destruct P as (ds & _ & _ & L & F). destruct (G2l _ _ _ F i Ip) as (d & Id & R).
      apply L in Id. exists sf, d. unfold found. intuition auto.
  - intros sf d If Ed [[-> Hd]|[-> Hd]].
    + destruct (F2r _ _ _ A sf If) as (p & (ds & L & F) & S).
      destruct (G2r _ _ _ F d) as (i & Ii & R); [apply (located_in _ _ _ L); auto|].
      exists i. split; [apply in_or_app; auto|auto].
    + destruct (F2r _ _ _ C sf If) as (p & (ds & _ & _ & L & F) & S).
      destruct (G2r _ _ _ F d) as (i & Ii & R); [apply L; auto|].
      exists i. split; [apply in_or_app; auto|auto].
Qed.
Print Assumptions C35_reported_iff.

(** In a whole run: the diagnostics that come from no rule are exactly those due to the
    programs of the configs in use, once each, and those of the program without config. *)
Theorem C35_internal_diagnostics_of_a_run :
  forall (Opt Impl SF Prog : Type) sf_name (ts_diags : Prog -> list SF -> list internal) shuffle create prog_files
    inferred get_sf iterp sorter (cfgs : list (@hconfig Opt)) (all : list (bstr * Impl)) look result log,
    reorders shuffle -> reorders iterp -> reorders sorter -> looked_up look cfgs result ->
    headless sf_name ts_diags shuffle create prog_files inferred get_sf iterp sorter cfgs all result = RDone log ->
    exists us cs parts sfs,
      (forall f, In f us <-> requested cfgs f /\ look f = []) /\
      NoDup cs /\ (forall c, In c cs <-> c <> [] /\ exists f, requested cfgs f /\ look f = c) /\
      Forall2 (due create ts_diags log) cs parts /\ Permutation sfs (lints None log) /\
      ints log = concat parts ++ ts_diags (inferred us) sfs.
Proof.
  intros Opt Impl SF Prog sf_name ts_diags shuffle create prog_files inferred get_sf iterp sorter cfgs all look
    result log H1 H2 H3 L E.
  destruct (headless_ok sf_name ts_diags shuffle H1 cfgs all create prog_files inferred get_sf iterp sorter
    H2 H3 look result log L E) as (_ & _ & (us & U1 & U2 & _ & cs & parts & sfs & X) & _).
  exists us, cs, parts, sfs. tauto.
Qed.
Print Assumptions C35_internal_diagnostics_of_a_run.

Definition ex_d (f : bstr) (p : Z) := mkTsd (Some f) p (p + 1) 2322%Z (b "bad").
Example C35_example :
  report_ts (fun sf : bstr => sf) (fun sf => if beqb sf (b "/a.ts") then [ex_d (b "/a.ts") 9; ex_d (b "/other.ts") 1] else [])
    (fun sf => [ex_d sf 4; ex_d sf 2; ex_d sf 4]) (fun sf => [mkTsd None 0 0 1 []]) (fun l => l)
    (fun l => match l with [x; y; z; w] => [w; y; x] | _ => l end) true true [b "/b.ts"; b "/a.ts"] =
  map (fun x => mkInt (snd x) (snd x + 1) (b "TS2322") (b "bad") [] (Some (b (fst x))))
    [("/a.ts"%string, 9); ("/b.ts"%string, 2); ("/b.ts"%string, 4); ("/a.ts"%string, 2); ("/a.ts"%string, 4)]%Z.
Proof. reflexivity. Qed.

(** The assumption on the sort can be met for every decidable strict total order: insertion
    without duplicates. *)
Fixpoint ex_ins (cmp : tsd -> tsd -> comparison) (d : tsd) (l : list tsd) : list tsd :=
  match l with
  | [] => [d]
  | x :: r => match cmp d x with Lt => d :: l | Eq => l | Gt => x :: ex_ins cmp d r end
  end.
Example C35_example_sort : forall (lt : tsd -> tsd -> Prop) cmp,
  (forall x, ~ lt x x) -> (forall x y z, lt x y -> lt y z -> lt x z) ->
  (forall x y, CompareSpec (x = y) (lt x y) (lt y x) (cmp x y)) ->
  sorts_and_dedups lt (fold_right (ex_ins cmp) []).
Proof.
  intros lt cmp Irr Tr Cmp l.
  assert (A : forall d l, StronglySorted lt l ->
    StronglySorted lt (ex_ins cmp d l) /\ forall x, In x (ex_ins cmp d l) <-> x = d \/ In x l).
  { intros d l0 S. induction S as [|x r S IH F]; cbn [ex_ins].
    - split; [repeat constructor|]. simpl. intuition.
    - rewrite Forall_forall in F. destruct (Cmp d x) as [->|L|L].
      + split; [constructor; [auto|now apply Forall_forall]|]. simpl. intuition.
      + split; [|simpl; intuition]. constructor; [constructor; [auto|now apply Forall_forall]|].
        apply Forall_forall. intros y [<-|I]; [auto|]. eapply Tr; eauto.
      + destruct IH as [A B]. split; [|simpl; intros y; rewrite B; intuition].
        constructor; [auto|]. apply Forall_forall. intros y I. apply B in I. destruct I as [->|I]; auto. }
  assert (B : StronglySorted lt (fold_right (ex_ins cmp) [] l) /\ forall d, In d (fold_right (ex_ins cmp) [] l) <-> In d l).
  { induction l as [|x l [S I]]; cbn [fold_right]; [split; [constructor|tauto]|].
    destruct (A x _ S) as [S' I']. split; [auto|]. intros d. rewrite I', I. simpl. intuition. }
  destruct B as [S I]. split; [auto|]. split; [|auto].
  clear - S Irr. induction S as [|x r S IH F]; constructor; [|auto]. intros H.
  rewrite Forall_forall in F. apply (Irr x). auto.
Qed.
Example C35_example_ids : map itoa [0; 7; 10; 2322; 1000; -45]%Z = map b ["0"; "7"; "10"; "2322"; "1000"; "-45"]%string.
Proof. reflexivity. Qed.

(** ** C41 *)

(** What [CreateProgram] returns, and why.  Without a program there is an error or at least
    one diagnostic for the config; errors in the options are ignored only when diagnostics
    about programs are suppressed; a broken config file is never ignored. *)
Theorem C41_program_or_reason :
  forall (P : Type) exists_ cfg parse_diags parse_errors (np : option (P * list tsd)) suppress,
    match create_program exists_ cfg parse_diags parse_errors np suppress with
    | CProg p =>
        exists_ = true /\ parse_diags = [] /\
        exists ds, np = Some (p, ds) /\ (suppress = false -> parse_errors = [] /\ ds = [])
    | CDiags is =>
        exists_ = true /\ is <> [] /\
        ((parse_diags <> [] /\ Forall2 (fun d i => explains cfg d i /\ n_help i = t_msg d) parse_diags is) \/
         (parse_diags = [] /\ suppress = false /\ parse_errors <> [] /\
          Forall2 (fun d i => explains cfg d i /\ n_help i = t_msg d) parse_errors is) \/
         (parse_diags = [] /\ suppress = false /\ parse_errors = [] /\
          exists p ds, np = Some (p, ds) /\
            Forall2 (fun d i => explains cfg d i /\ help_for (t_msg d) (n_help i)) ds is))
    | CErr => exists_ = false \/ (parse_diags = [] /\ np = None)
    end.
Proof.
  intros P ex cfg pd pe np sup.
  destruct (create_program ex cfg pd pe np sup) as [|is|p] eqn:E.
  - unfold create_program in E. destruct ex; cbn [negb] in E; [|auto]. right.
    destruct pd as [|d0 pd]; [change (0 <? List.length (@nil tsd)) with false in E; cbv iota in E|discriminate E]. split; [auto|].
    destruct ((0 <? List.length pe) && negb sup); [easy|]. destruct np as [[p ds]|]; [|auto].
    destruct ((0 <? List.length ds) && negb sup); easy.
  - pose proof (create_diags_nonempty _ _ _ _ _ _ _ E) as NE.
    unfold create_program in E. destruct ex; cbn [negb] in E; [|easy]. split; [auto|]. split; [auto|].
    assert (M : forall ds, Forall2 (fun d i => explains cfg d i /\ n_help i = t_msg d) ds (map (config_diag (fun x => x) cfg) ds))
      by (intros ds; apply Forall2_map; intros d; apply config_diag_ok).
    assert (M' : forall ds, Forall2 (fun d i => explains cfg d i /\ help_for (t_msg d) (n_help i)) ds (map (config_diag enhance cfg) ds)).
    { intros ds; apply Forall2_map; intros d. destruct (config_diag_ok enhance cfg d) as [A Bq]. split; [auto|].
      rewrite Bq. apply enhance_ok. }
    destruct (Nat.ltb_spec 0 (List.length pd)) as [H|H].
    + left. injection E as <-. split; [destruct pd; [simpl in H; lia|easy]|auto].
    + right. assert (pd = []) as -> by (destruct pd; [auto|simpl in H; lia]).
      destruct pe as [|e pe].
      * change (0 <? List.length (@nil tsd)) with false in E. cbn [andb] in E. destruct np as [[p ds]|]; [|easy].
        destruct ((0 <? List.length ds) && negb sup) eqn:Q; [|easy]. injection E as <-.
        apply andb_true_iff in Q. destruct Q as [_ Q]. destruct sup; [easy|]. right.
        repeat (split; [auto|]). exists p, ds. auto.
      * change (0 <? List.length (e :: pe)) with true in E. cbn [andb] in E. destruct sup; cbn [negb] in E.
        -- destruct np as [[p ds]|]; [|easy]. rewrite andb_false_r in E. easy.
        -- injection E as <-. left. repeat (split; [easy|]). apply M.
  - unfold create_program in E. destruct ex; cbn [negb] in E; [|easy]. split; [auto|].
    destruct pd as [|d0 pd]; [change (0 <? List.length (@nil tsd)) with false in E; cbv iota in E|discriminate E]. split; [auto|].
    destruct ((0 <? List.length pe) && negb sup) eqn:Q1; [easy|]. destruct np as [[p' ds]|]; [|easy].
    destruct ((0 <? List.length ds) && negb sup) eqn:Q2; [easy|]. injection E as ->.
    exists ds. split; [auto|]. intros ->. rewrite andb_true_r in Q1, Q2.
    destruct pe; [|discriminate Q1]. destruct ds; [auto|discriminate Q2].
Qed.
Print Assumptions C41_program_or_reason.

Example C41_example :
  create_program true (b "/t.json") [] [] (Some (tt, [mkTsd (Some []) 1 2 5102%Z (b "Option 'x' has been removed. Please remove it from your configuration.")])) false =
  CDiags [mkInt 1 2 (b "tsconfig-error") (b "Invalid tsconfig")
    (b "Option 'x' has been removed. Please remove it from your configuration." ++ [ascii_of_nat 10] ++
     b "See https://github.com/oxc-project/tsgolint/issues/351 for more information.") (Some (b "/t.json"))] /\
  create_program true (b "/t.json") [] [ex_why] (Some (tt, [ex_why])) true = CProg tt.
Proof. split; reflexivity. Qed.
