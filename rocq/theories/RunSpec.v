(** What a headless run owes to the request. *)
From Coq Require Import String Ascii Bool List ZArith Permutation Sorted.
From Verif Require Import Base TsDiag PLookup Run.
Import ListNotations.
Open Scope nat_scope.

(** [s] is [p] with every backslash replaced by a slash. *)
Inductive slashed : bstr -> bstr -> Prop :=
| sl_nil : slashed [] []
| sl_bs p s : slashed p s -> slashed ("\"%char :: p) ("/"%char :: s)
| sl_other c p s : c <> "\"%char -> slashed p s -> slashed (c :: p) (c :: s).

Section Spec.
Context {Opt Impl SF : Type}.
Notation hconfig := (@hconfig Opt).
Notation hrule := (@hrule Opt).
Notation event := (@event Opt Impl SF).
Notation configured := (@configured Opt Impl).

Definition names (c : hconfig) (f : bstr) : Prop := exists p, In p (c_paths c) /\ slashed p f.
Definition requested (cfgs : list hconfig) (f : bstr) : Prop := exists c, In c cfgs /\ names c f.

(** The rules of the last group that names the file. *)
Definition last_group (cfgs : list hconfig) (f : bstr) (rs : list hrule) : Prop :=
  exists pre c post, cfgs = pre ++ c :: post /\ names c f /\ rs = c_rules c /\
    forall c', In c' post -> ~ names c' f.

(** The implementation registered for a rule name: the last one in the table. *)
Definition registered (all : list (bstr * Impl)) (n : bstr) (i : Impl) : Prop :=
  exists pre post, all = pre ++ (n, i) :: post /\ ~ In n (map fst post).

(** A requested rule and what is run for it. *)
Definition runs_as (all : list (bstr * Impl)) (r : hrule) (x : configured) : Prop :=
  exists i, registered all (h_name r) i /\ x = (h_name r, i, h_opts r).

(** Files linted in the program of a config ([None]: the inferred program). *)
Definition lints (c : option bstr) (log : list event) : list SF :=
  flat_map (fun e => match e with
    | ELint c' sf _ =>
        match c, c' with
        | None, None => [sf]
        | Some x, Some y => if list_eq_dec ascii_dec x y then [sf] else []
        | _, _ => []
        end
    | EInt _ => []
    end) log.

(** Diagnostics of a run that do not come from rules. *)
Definition ints (log : list event) : list internal :=
  flat_map (fun e => match e with EInt d => [d] | ELint _ _ _ => [] end) log.

(** The diagnostics due to the program of config [c]: why it could not be built, or the
    type-check diagnostics of the files linted in it. *)
Definition due {Prog : Type} (create : bstr -> created Prog) (ts_diags : Prog -> list SF -> list internal)
    (log : list event) (c : bstr) (ds : list internal) : Prop :=
  create c = CDiags ds \/
  exists p sfs, create c = CProg p /\ Permutation sfs (lints (Some c) log) /\ ds = ts_diags p sfs.
End Spec.

(** The program of a config comes from [CreateProgram]. *)
Definition from_create_program {Prog : Type} (suppress : bool) (create : bstr -> created Prog) : Prop :=
  forall c, exists ex resolved pd pe np, create c = create_program ex resolved pd pe np suppress.

(** [result]: the lookup results of a complete parallel lookup, in any order. *)
Definition looked_up {Opt : Type} (look : bstr -> bstr) (cfgs : list (@hconfig Opt)) (result : list (bstr * bstr)) : Prop :=
  exists n sched s, 1 <= n /\ l_run look (l_init (norm_files cfgs) n) sched = Some s /\
    l_main s = MDone /\ Permutation result (l_result beqb s).

(** Iteration orders and unstable sorts. *)
Definition reorders {A : Type} (f : list A -> list A) : Prop := forall l, Permutation (f l) l.
