(** C112: what the command on a terminal is to do, said without the functions of Terminal.v. *)
From Coq Require Import Bool Arith Ascii String List DecimalString Sorting.Sorted Sorting.Permutation.
From Verif Require Import Base.
From Verif Require Import Terminal.
Import ListNotations.
Local Open Scope list_scope.

(** What is written to each stream. *)
Definition stdout (es : list event) : bstr := flat_map (fun e => match e with Out s => s | _ => [] end) es.
Definition stderr (es : list event) : bstr := flat_map (fun e => match e with Err s => s | _ => [] end) es.

(** [s] is [ps] with commas between them. *)
Inductive commas : list bstr -> bstr -> Prop :=
| commas_one p : ~ In ","%char p -> commas [p] p
| commas_more p ps s : ~ In ","%char p -> commas ps s -> commas (p :: ps) (p ++ ","%char :: s).

(** [s] is how the number is written in digits. *)
Definition written (n : nat) (s : bstr) : Prop :=
  exists d t, s = b t /\ NilEmpty.uint_of_string t = Some d /\ Nat.of_uint d = n.
(** Blanks only. *)
Definition blank (s : bstr) : Prop := forall c, In c s -> c = " "%char.

(** A file below the directory, not below a directory named node_modules. *)
Definition wanted (dir : bstr) (f : source) : Prop :=
  (exists name, path f = dir ++ name) /\ ~ exists x y, path f = x ++ b "/node_modules/" ++ y.
(** [k] is what is left of [l] if only what has the property is kept. *)
Inductive kept {A : Type} (P : A -> Prop) : list A -> list A -> Prop :=
| kept_nil : kept P [] []
| kept_yes x l k : P x -> kept P l k -> kept P (x :: l) (x :: k)
| kept_no x l k : ~ P x -> kept P l k -> kept P (x :: l) k.
(** Longest text first. *)
Definition longest_first (l : list source) : Prop := StronglySorted (fun f g => size g <= size f) l.
(** A directory with one slash at its end: its path, if this ends in one, otherwise with one more. *)
Definition slashed (p q : bstr) : Prop :=
  (exists r, p = r ++ b "/" /\ q = p) \/ ((forall r, p <> r ++ b "/") /\ q = p ++ b "/").

(** What the debug options ask for. *)
Definition asks (options : bstr) (timed : bool) : Prop :=
  exists ps, commas ps options /\ (forall p, In p ps -> p = [] \/ p = b "timings") /\ (timed = true <-> In (b "timings") ps).

Section World.
Variable diag : Type.
Variable w : world diag.
Definition trace_ok (out : bstr) : Prop := out = [] \/ trace_fails _ w = None.
Definition cpu_ok (out : bstr) : Prop := out = [] \/ (cpu_create_fails _ w = None /\ cpu_start_fails _ w = None).
(** The tsconfig of a run: the one named, which must exist, or tsconfig.json, empty if there is none. *)
Definition config_is (cwd name config : bstr) (empty : bool) : Prop :=
  (name = [] /\ config = resolve _ w cwd (b "tsconfig.json") /\ (empty = true <-> file_exists _ w config = false)) \/
  (name <> [] /\ config = resolve _ w cwd name /\ file_exists _ w config = true /\ empty = false).
(** A run gets as far as the linter, for the files of this program, below this directory. *)
Definition reaches (f : flags) (timed : bool) (dir : bstr) (sources : list source) : Prop :=
  help f = false /\ asks (debug f) timed /\ trace_ok (trace_out f) /\ cpu_ok (cpuprof_out f) /\
  exists cwd config empty, getwd _ w = inl cwd /\ config_is (normalize _ w cwd) (tsconfig f) config empty /\
    create _ w (single_threaded f) (directory _ w config) config empty = inl (Some sources) /\
    slashed (to_path _ w (directory _ w config)) dir.
(** The files the linter is given. *)
Definition given (dir : bstr) (sources files : list source) : Prop :=
  exists k, kept (wanted dir) sources k /\ Permutation k files /\ longest_first files.
(** The list of the files: a line for each, in the order of the program. *)
Definition listing (dir : bstr) (sources : list source) (text : bstr) : Prop :=
  exists k names, kept (wanted dir) sources k /\ Forall2 (fun f n => path f = dir ++ n) k names /\
    text = concat (map (fun n => b "Found file: " ++ n ++ newline) names).
End World.

(** Profiles are nested: what is started is stopped once, the last started first, and nothing is stopped that was not started. *)
Inductive nested : list event -> Prop :=
| nested_nil : nested []
| nested_out s es : nested es -> nested (Out s :: es)
| nested_err s es : nested es -> nested (Err s :: es)
| nested_trace es ks : nested es -> nested ks -> nested (TraceStart :: es ++ TraceStop :: ks)
| nested_cpu es ks : nested es -> nested ks -> nested (CpuStart :: es ++ CpuStop :: ks).
