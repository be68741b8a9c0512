(** The command on a terminal (cmd/tsgolint/main.go 92-122, 162-222, 364-659): flags, debug options, profiles, choice of the tsconfig, choice of files, what is written to stdout and stderr in what order, exit status.
    Left to the world, as given functions: the operating system, typescript-go (paths, programs), the linter (RunLinterOnProgram: C10, C12 ...), [printDiagnostic] (Print.v, C46), Go's [flag] package, %q and %.3f.
    All texts that are padded are taken to be ASCII: Go pads by runes, here lengths are bytes. *)
From Coq Require Import Bool Arith Ascii String List DecimalString.
From Verif Require Import Base.
Import ListNotations.
Local Open Scope list_scope.

Definition newline : bstr := [ascii_of_nat 10].
Definition escape : ascii := ascii_of_nat 27.
(** %v and %d of a count, strconv.FormatUint. *)
Definition decimal (n : nat) : bstr := b (NilEmpty.string_of_uint (Nat.to_uint n)).

(** 162-222 [allRules]: the names of the rules (each the [Name] in the file of its package, internal/rules), in their order. *)
Definition all_rules : list bstr :=
  [b "await-thenable"; b "consistent-return"; b "consistent-type-exports"; b "dot-notation";
   b "no-array-delete"; b "no-base-to-string"; b "no-confusing-void-expression"; b "no-deprecated";
   b "no-duplicate-type-constituents"; b "no-floating-promises"; b "no-for-in-array"; b "no-implied-eval";
   b "no-meaningless-void-operator"; b "no-misused-promises"; b "no-misused-spread"; b "no-mixed-enums";
   b "no-redundant-type-constituents"; b "no-unnecessary-boolean-literal-compare"; b "no-unnecessary-condition"; b "no-unnecessary-qualifier";
   b "no-unnecessary-template-expression"; b "no-unnecessary-type-conversion"; b "no-unnecessary-type-arguments"; b "no-unnecessary-type-parameters";
   b "no-unnecessary-type-assertion"; b "no-useless-default-assignment"; b "no-unsafe-argument"; b "no-unsafe-assignment";
   b "no-unsafe-call"; b "no-unsafe-enum-comparison"; b "no-unsafe-member-access"; b "no-unsafe-return";
   b "no-unsafe-type-assertion"; b "no-unsafe-unary-minus"; b "non-nullable-type-assertion-style"; b "only-throw-error";
   b "prefer-find"; b "prefer-includes"; b "prefer-optional-chain"; b "prefer-nullish-coalescing";
   b "prefer-promise-reject-errors"; b "prefer-readonly-parameter-types"; b "prefer-regexp-exec"; b "prefer-readonly";
   b "prefer-reduce-type-parameter"; b "prefer-return-this-type"; b "prefer-string-starts-ends-with"; b "promise-function-async";
   b "related-getter-setter-pairs"; b "require-array-sort-compare"; b "require-await"; b "restrict-plus-operands";
   b "restrict-template-expressions"; b "return-await"; b "strict-boolean-expressions"; b "strict-void-return";
   b "switch-exhaustiveness-check"; b "unbound-method"; b "use-unknown-in-catch-callback-variable"].
(** 224-230, and headless.go 313-316: a map by name, later rules replace earlier ones.  A rule is given by its place in [all_rules]. *)
Fixpoint by_name (rules : list bstr) (place : nat) (name : bstr) : option nat :=
  match rules with
  | [] => None
  | r :: rules =>
      match by_name rules (S place) name with
      | Some p => Some p
      | None => if beqb r name then Some place else None
      end
  end.

(** 364 *)
Definition warning : bstr :=
  b "Warning: the `tsgolint` CLI entrypoint is unsupported!" ++ newline ++ b "Use Oxlint type-aware linting instead: https://oxc.rs/docs/guide/usage/linter/type-aware" ++ newline ++ newline.
(** 366-376 *)
Definition usage : bstr := warning ++ b "✨ tsgolint - speedy TypeScript linter

Usage:
    tsgolint [OPTIONS]

Options:
    --tsconfig PATH   Which tsconfig to use. Defaults to tsconfig.json.
		--list-files      List matched files
    --debug OPTIONS   Enable debug output options. Possible values: timings.
    -h, --help        Show help
".

(** strings.Split with a comma (384). *)
Fixpoint split_comma (s : bstr) : list bstr :=
  match s with
  | [] => [[]]
  | c :: s =>
      if Ascii.eqb c "," then [] :: split_comma s
      else match split_comma s with p :: ps => (c :: p) :: ps | [] => [[c]] end
  end.
(** 383-396: the loop; an unknown option ends it. *)
Fixpoint debug_loop (timings : bool) (options : list bstr) : bool + bstr :=
  match options with
  | [] => inl timings
  | o :: options =>
      match o with
      | [] => debug_loop timings options
      | _ => if beqb o (b "timings") then debug_loop true options else inr o
      end
  end.
(** 378-397 [parseDebugTimings]; [inr]: the unknown option. *)
Definition parse_debug (options : bstr) : bool + bstr :=
  match options with [] => inl false | _ => debug_loop false (split_comma options) end.

(** ** The table of timings *)
(** A record of linter.RuleTimingRecord; durations in nanoseconds are not negative. *)
Record timing := mkTiming { rule_name : bstr; spent : nat; calls : nat }.
Definition spaces (n : nat) : bstr := repeat " "%char n.
(** %*s: blanks before; %-*s: blanks after. *)
Definition pad_left (width : nat) (s : bstr) : bstr := spaces (width - List.length s) ++ s.
Definition pad_right (width : nat) (s : bstr) : bstr := s ++ spaces (width - List.length s).
(** 404, 408; 405, 409; 406, 410 *)
Definition rule_width (rs : list timing) : nat := fold_left (fun w r => Nat.max w (List.length (rule_name r))) rs 4.
Definition calls_width (rs : list timing) : nat := fold_left (fun w r => Nat.max w (List.length (decimal (calls r)))) rs 5.
Definition total (rs : list timing) : nat := fold_left (fun t r => t + spent r) rs 0.
Section Table.
(** [millis d]: %.3f of d nanoseconds in milliseconds; [percent d t]: %.1f of d / t * 100. *)
Variable millis : nat -> bstr.
Variable percent : nat -> nat -> bstr.
(** 418-425 *)
Definition row (rw cw sum : nat) (r : timing) : bstr :=
  pad_right rw (rule_name r) ++ b "  " ++ pad_left 10 (millis (spent r)) ++ b "  " ++
  pad_left 7 (if 0 <? sum then percent (spent r) sum else b "0.0") ++ b "%  " ++ pad_left cw (decimal (calls r)) ++ newline.
(** 399-428 [formatRuleTimingTable] *)
Definition table (rs : list timing) : bstr :=
  match rs with
  | [] => []
  | _ =>
      let rw := rule_width rs in
      let cw := calls_width rs in
      newline ++ b "Rule timings:" ++ newline ++
      pad_right rw (b "Rule") ++ b "  " ++ pad_left 10 (b "Time (ms)") ++ b "  " ++ pad_left 8 (b "Relative") ++ b "  " ++ pad_left cw (b "Calls") ++ newline ++
      repeat "-"%char rw ++ b "  " ++ repeat "-"%char 10 ++ b "  " ++ repeat "-"%char 8 ++ b "  " ++ repeat "-"%char cw ++ newline ++
      flat_map (row rw cw (total rs)) rs
  end.
End Table.

(** ** The world *)
(** A source file of the program: its Path, the length of its text, and a number to tell it by. *)
Record source := mkSource { path : bstr; size : nat; number : nat }.
(** What flag.Parse makes of the arguments (437-458). *)
Record flags := mkFlags { help : bool; tsconfig : bstr; list_files : bool; debug : bstr; trace_out : bstr; cpuprof_out : bstr; single_threaded : bool }.
(** What can be observed of a run: writes to stdout and stderr, start and end of the two profiles. *)
Inductive event := Out (s : bstr) | Err (s : bstr) | TraceStart | TraceStop | CpuStart | CpuStop.

Section Run.
(** Diagnostics and what [printDiagnostic] writes of one. *)
Variable diag : Type.
Variable print : diag -> bstr.
Record world := mkWorld {
  parse_flags : list bstr -> flags;
  headless : list bstr -> list event * nat;  (* [runHeadless] *)
  quote : bstr -> bstr;  (* %q *)
  trace_fails : option bstr;  (* os.Create of the file for the trace: the error *)
  cpu_create_fails : option bstr;
  cpu_start_fails : option bstr;
  getwd : bstr + bstr;  (* or the error *)
  normalize : bstr -> bstr;
  resolve : bstr -> bstr -> bstr;
  file_exists : bstr -> bool;
  directory : bstr -> bstr;
  to_path : bstr -> bstr;  (* 534 tspath.ToPath("", _, case-sensitive) *)
  create : bool -> bstr -> bstr -> bool -> option (list source) + bstr;  (* single threaded, directory, tsconfig, whether "{}" is laid over the tsconfig: the files of the program (none: no program), or the error *)
  lint : list source -> list bstr -> list diag * option bstr;  (* files, rules: what goes through the channel, in this order, and the error *)
  flushed : nat;  (* how many bytes of the other goroutine are written when the process ends without waiting for it *)
  timings : list timing;  (* timingStore.Collect() *)
  millis_of : nat -> bstr;
  percent_of : nat -> nat -> bstr;
  elapsed : bstr;
  procs : nat }.
Variable w : world.

(** 92-105 [recordTrace]; [inl]: what happens now, what happens on return. *)
Definition record_trace (out : bstr) : (list event * list event) + bstr :=
  match out with
  | [] => inl ([], [])
  | _ =>
      match trace_fails w with
      | Some e => inr (b "error creating trace file: " ++ e)
      | None => inl ([TraceStart], [TraceStop])
      end
  end.
(** 106-122 [recordCpuprof] *)
Definition record_cpuprof (out : bstr) : (list event * list event) + bstr :=
  match out with
  | [] => inl ([], [])
  | _ =>
      match cpu_create_fails w with
      | Some e => inr (b "error creating cpuprof file: " ++ e)
      | None =>
          match cpu_start_fails w with
          | Some e => inr (b "error starting cpu profiling: " ++ e)
          | None => inl ([CpuStart], [CpuStop])
          end
      end
  end.

(** 497-511: the tsconfig and whether an empty one is laid over it; none: it does not exist. *)
Definition choose_config (cwd name : bstr) : option (bstr * bool) :=
  match name with
  | [] => let config := resolve w cwd (b "tsconfig.json") in Some (config, negb (file_exists w config))
  | _ => let config := resolve w cwd name in if file_exists w config then Some (config, false) else None
  end.

(** strings.CutPrefix *)
Fixpoint cut_prefix (s pre : bstr) : option bstr :=
  match pre, s with
  | [], _ => Some s
  | c :: pre, d :: s => if Ascii.eqb c d then cut_prefix s pre else None
  | _, [] => None
  end.
(** strings.Contains *)
Fixpoint contains (s part : bstr) : bool :=
  match cut_prefix s part with
  | Some _ => true
  | None => match s with [] => false | _ :: s => contains s part end
  end.
(** Path.EnsureTrailingDirectorySeparator (534); paths have slashes. *)
Definition ensure_trailing (p : bstr) : bstr :=
  match rev p with c :: _ => if Ascii.eqb c "/" then p else p ++ b "/" | [] => b "/" end.
(** 536-549: the files and their names in the list. *)
Fixpoint pick (cwd_path : bstr) (l : list source) : list (source * bstr) :=
  match l with
  | [] => []
  | f :: l =>
      if contains (path f) (b "/node_modules/") then pick cwd_path l
      else match cut_prefix (path f) cwd_path with
           | Some name => (f, name) :: pick cwd_path l
           | None => pick cwd_path l
           end
  end.
(** 553-555: longest text first.  slices.SortFunc does not keep the order of files with texts of the same length; here it is kept. *)
Fixpoint insert (f : source) (l : list source) : list source :=
  match l with
  | [] => [f]
  | g :: l' => if size g <? size f then f :: l else g :: insert f l'
  end.
Definition by_size (l : list source) : list source := fold_left (fun acc f => insert f acc) l [].

(** 562-575: what the goroutine writes. *)
Definition report (ds : list diag) : bstr :=
  match ds with [] => [] | _ => newline ++ flat_map print ds end.
(** 617-649; 630: there is more than one rule. *)
Definition bold : bstr := escape :: b "[1m".
Definition plain : bstr := escape :: b "[22m".
Definition dim : bstr := escape :: b "[2m".
Definition summary (errors files rules : nat) (time : bstr) (threads : nat) : bstr :=
  b "Found " ++ (if errors =? 0 then escape :: b "[1;32m" else bold) ++ decimal errors ++ escape :: b "[0m " ++
  (if errors =? 1 then b "error" else b "errors") ++ b " " ++ dim ++ b "(linted " ++ bold ++ decimal files ++ plain ++ dim ++ b " " ++
  (if files =? 1 then b "file" else b "files") ++ b " with " ++ bold ++ decimal rules ++ plain ++ dim ++ b " " ++
  (if rules =? 1 then b "rule" else b "rules") ++ b " in " ++ bold ++ time ++ plain ++ dim ++ b " using " ++ bold ++ decimal threads ++ plain ++ dim ++ b " threads)" ++ newline.

(** 489-654 *)
Definition run_lint (f : flags) (timed : bool) : list event * nat :=
  match getwd w with
  | inr e => ([Err (b "error getting current directory: " ++ e ++ newline)], 1)
  | inl cwd =>
      match choose_config (normalize w cwd) (tsconfig f) with
      | None => ([Err (b "error: tsconfig " ++ quote w (tsconfig f) ++ b " doesn't exist")], 1)
      | Some (config, laid) =>
          let dir := directory w config in
          match create w (single_threaded f) dir config laid with
          | inr e => ([Err (b "error creating TS program: " ++ e)], 1)
          | inl None => ([Err (b "error creating TS program")], 1)
          | inl (Some sources) =>
              let picked := pick (ensure_trailing (to_path w dir)) sources in
              let listed := if list_files f then [Out (flat_map (fun p => b "Found file: " ++ snd p ++ newline) picked)] else [] in
              let files := by_size (map fst picked) in
              let '(ds, e) := lint w files all_rules in
              match e with
              | Some e => (listed ++ [Out (firstn (flushed w) (report ds)); Err (b "error running linter: " ++ e ++ newline)], 1)
              | None =>
                  (listed ++ [Out (report ds);
                     Out (summary (List.length ds) (List.length files) (List.length all_rules) (elapsed w) (if single_threaded f then 1 else procs w))] ++
                   (if timed then [Out (table (millis_of w) (percent_of w) (timings w))] else []), 0)
              end
          end
      end
  end.

(** 435-655: what is deferred (480, 486) runs on return, the last first. *)
Definition run_flags (f : flags) : list event * nat :=
  if help f then ([Err usage], 0)
  else match parse_debug (debug f) with
  | inr o => ([Err (b "error parsing debug options: unknown debug option " ++ quote w o ++ newline)], 1)
  | inl timed =>
      match record_trace (trace_out f) with
      | inr e => ([Err warning; Err e], 1)
      | inl (trace_start, trace_stop) =>
          match record_cpuprof (cpuprof_out f) with
          | inr e => (Err warning :: trace_start ++ Err e :: trace_stop, 1)
          | inl (cpu_start, cpu_stop) =>
              let '(es, status) := run_lint f timed in
              (Err warning :: trace_start ++ cpu_start ++ es ++ cpu_stop ++ trace_stop, status)
          end
      end
  end.
(** 430-433, 458 [runMain]; [args]: os.Args without the first. *)
Definition run_main (args : list bstr) : list event * nat :=
  match args with
  | a :: rest => if beqb a (b "headless") then headless w rest else run_flags (parse_flags w args)
  | [] => run_flags (parse_flags w [])
  end.
End Run.
