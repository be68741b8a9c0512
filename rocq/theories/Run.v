(** Model of one headless run after the request has been decoded: assignment of files
    to programs (cmd/tsgolint/headless.go:265-322), rule selection (headless.go:313-316,
    419-437) and [RunLinter] (internal/linter/linter.go:80-212).

    Map iteration orders, the unstable sort and the order in which the worker pool
    takes files are parameters.  Linting one program is one event per file (that the
    pool lints each file once is C05); a panic anywhere ends the run. *)
From Coq Require Import String Ascii Bool List ZArith.
From Verif Require Import Base TsDiag PLookup.
Import ListNotations.
Open Scope nat_scope.

(** [tspath.NormalizeSlashes] (typescript-go): backslashes become slashes. *)
Definition norm (p : bstr) : bstr :=
  map (fun c => if Ascii.eqb c "\"%char then "/"%char else c) p.

Section Run.
Context {Opt Impl SF Prog : Type}.

(** cmd/tsgolint/payload.go:28-36. *)
Record hrule := mkHR { h_name : bstr; h_opts : option Opt }.
Record hconfig := mkHC { c_paths : list bstr; c_rules : list hrule }.

(** headless.go:275-284. *)
Definition norm_files (cfgs : list hconfig) : list bstr :=
  flat_map (fun c => map norm (c_paths c)) cfgs.
Definition file_configs (cfgs : list hconfig) : list (bstr * list hrule) :=
  fold_left (fun m c => fold_left (fun m p => put beqb m (norm p) (c_rules c)) (c_paths c) m) cfgs [].

Fixpoint get {A : Type} (m : list (bstr * A)) (k : bstr) : option A :=
  match m with [] => None | (k', a) :: m' => if beqb k k' then Some a else get m' k end.

(** headless.go:287-293: [result] in iteration order. *)
Fixpoint append_to (m : list (bstr * list bstr)) (k f : bstr) : list (bstr * list bstr) :=
  match m with
  | [] => [(k, [f])]
  | (k', l) :: m' => if beqb k k' then (k', l ++ [f]) :: m' else (k', l) :: append_to m' k f
  end.
Definition assign (result : list (bstr * bstr)) : list (bstr * list bstr) * list bstr :=
  fold_left (fun w x =>
      let '(file, tsconfig) := x in
      match tsconfig with
      | [] => (fst w, snd w ++ [file])
      | _ => (append_to (fst w) tsconfig file, snd w)
      end) result ([], []).

(** headless.go:313-316: the rule table, the last rule of a name wins. *)
Definition by_name (all : list (bstr * Impl)) : list (bstr * (bstr * Impl)) :=
  fold_left (fun m r => put beqb m (fst r) r) all [].

(** headless.go:419-437. *)
Definition configured := (bstr * Impl * option Opt)%type.
Fixpoint resolve (table : list (bstr * (bstr * Impl))) (rs : list hrule) : res (list configured) :=
  match rs with
  | [] => Ok []
  | r :: rs' =>
      match get table (h_name r) with
      | None => Panic
      | Some (n, impl) => let! rest := resolve table rs' in Ok ((n, impl, h_opts r) :: rest)
      end
  end.

Variable sf_name : SF -> bstr.
Definition rules_for (cfgs : list hconfig) (all : list (bstr * Impl)) (sf : SF) : res (list configured) :=
  resolve (by_name all)
    (match get (file_configs cfgs) (sf_name sf) with Some rs => rs | None => [] end).

Inductive event :=
| EInt (d : internal)
| ELint (config : option bstr) (sf : SF) (rules : list configured).

Inductive outcome := RDone (log : list event) | RErr | RCrash.

(** [RunLinterOnProgram], linter.go:464-620: type errors first, then every file. *)
Variable ts_diags : Prog -> list SF -> list internal.
Variable shuffle : list SF -> list SF.
Fixpoint lint_all (cfgs : list hconfig) (all : list (bstr * Impl)) (c : option bstr) (sfs : list SF) : res (list event) :=
  match sfs with
  | [] => Ok []
  | sf :: sfs' =>
      let! rs := rules_for cfgs all sf in
      let! rest := lint_all cfgs all c sfs' in
      Ok (ELint c sf rs :: rest)
  end.
Definition run_program (cfgs : list hconfig) (all : list (bstr * Impl)) (c : option bstr) (p : Prog) (sfs : list SF) : res (list event) :=
  let! ls := lint_all cfgs all c (shuffle sfs) in
  Ok (map EInt (ts_diags p sfs) ++ ls).

(** linter.go:121-132. *)
Definition mem_b (k : bstr) (l : list bstr) : bool := existsb (beqb k) l.
Definition to_set (l : list bstr) : list bstr :=
  fold_left (fun s f => if mem_b f s then s else s ++ [f]) l [].
Fixpoint match_files (set : list bstr) (sfs : list SF) : list SF * list bstr :=
  match sfs with
  | [] => ([], set)
  | sf :: sfs' =>
      if mem_b (sf_name sf) set then
        let (a, rest) := match_files (filter (fun k => negb (beqb (sf_name sf) k)) set) sfs' in
        (sf :: a, rest)
      else match_files set sfs'
  end.

Variable create : bstr -> created Prog.
Variable prog_files : Prog -> list SF.                 (* program.SourceFiles() *)
Variable inferred : list bstr -> Prog.                 (* CreateInferredProjectProgram *)
Variable get_sf : Prog -> bstr -> option SF.           (* program.GetSourceFile *)

(** linter.go:95-168, programs in iteration order. *)
Fixpoint run_programs (cfgs : list hconfig) (all : list (bstr * Impl)) (ps : list (bstr * list bstr)) : outcome :=
  match ps with
  | [] => RDone []
  | (c, files) :: ps' =>
      match create c with
      | CErr => RErr
      | CDiags ds =>
          match run_programs cfgs all ps' with
          | RDone log => RDone (map EInt ds ++ log)
          | o => o
          end
      | CProg p =>
          let (sfs, left) := match_files (to_set files) (prog_files p) in
          match left with
          | _ :: _ => RCrash                            (* linter.go:134-149 *)
          | [] =>
              match run_program cfgs all (Some c) p sfs with
              | Panic => RCrash
              | Ok evs =>
                  match run_programs cfgs all ps' with
                  | RDone log => RDone (evs ++ log)
                  | o => o
                  end
              end
          end
      end
  end.

(** linter.go:184-191. *)
Fixpoint get_all (p : Prog) (fs : list bstr) : res (list SF) :=
  match fs with
  | [] => Ok []
  | f :: fs' =>
      match get_sf p f with
      | None => Panic
      | Some sf => let! rest := get_all p fs' in Ok (sf :: rest)
      end
  end.

(** linter.go:80-212. *)
Definition run_linter (cfgs : list hconfig) (all : list (bstr * Impl)) (programs : list (bstr * list bstr)) (unmatched : list bstr) : outcome :=
  match run_programs cfgs all programs with
  | RDone log =>
      let p := inferred unmatched in
      match get_all p unmatched with
      | Panic => RCrash
      | Ok sfs =>
          match run_program cfgs all None p sfs with
          | Panic => RCrash
          | Ok evs => RDone (log ++ evs)
          end
      end
  | o => o
  end.

(** headless.go:265-450: [result] is the lookup result in iteration order, [iterp] the
    iteration order of [workload.Programs], [sorter] the unstable sort of 318-322. *)
Variable iterp : list (bstr * list bstr) -> list (bstr * list bstr).
Variable sorter : list bstr -> list bstr.
Definition headless (cfgs : list hconfig) (all : list (bstr * Impl)) (result : list (bstr * bstr)) : outcome :=
  let w := assign result in
  let programs := map (fun x => (fst x, sorter (snd x))) (fst w) in
  run_linter cfgs all (iterp programs) (snd w).

End Run.
