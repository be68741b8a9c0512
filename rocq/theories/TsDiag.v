(** Model of the diagnostics that do not come from rules:
    [reportTypeScriptDiagnostics] (internal/linter/linter.go:316-366),
    [CreateProgram] and [enhanceHelpDiagnosticMessage]
    (internal/utils/create_program.go:22-118). *)
From Coq Require Import String Ascii Bool List ZArith.
From Verif Require Import Base.
Import ListNotations.
Open Scope Z_scope.

(** A typescript-go diagnostic: [File().FileName()] ([None]: nil file), [Loc()],
    [Code()], and the text computed by [utils.GetDiagnosticMessage]. *)
Record tsd := mkTsd { t_file : option bstr; t_pos : Z; t_end : Z; t_code : Z; t_msg : bstr }.

(** internal/diagnostic: [Internal]. *)
Record internal := mkInt {
  n_pos : Z; n_end : Z; n_id : bstr; n_desc : bstr; n_help : bstr; n_file : option bstr }.

(** [strconv.Itoa]: decimal digits, least significant computed first. *)
Definition digit (z : Z) : ascii := ascii_of_N (Z.to_N (48 + z)).
Fixpoint digits (fuel : nat) (z : Z) : bstr :=
  match fuel with
  | O => []
  | S fuel' => if z <? 10 then [digit z] else digits fuel' (z / 10) ++ [digit (z mod 10)]
  end.
Definition itoa (z : Z) : bstr :=
  if z <? 0 then "-"%char :: digits (S (Z.to_nat (Z.log2 (- z)))) (- z)
  else digits (S (Z.to_nat (Z.log2 z))) z.

Definition same_file (d : tsd) (name : bstr) : bool :=
  match t_file d with Some f => beqb f name | None => false end.

(** linter.go:326-331, 356-361. *)
Definition to_internal (name : bstr) (d : tsd) : internal :=
  mkInt (t_pos d) (t_end d) (b "TS" ++ itoa (t_code d)) (t_msg d) [] (Some name).

Section Report.
Context {SF : Type}.
Variable sf_name : SF -> bstr.
(** [GetSyntacticDiagnostics], [GetSemanticDiagnosticsWithoutNoEmitFiltering] by file,
    [GetIncludeProcessorDiagnostics]; [FilterNoEmitSemanticDiagnostics] with the options
    of the program; [SortAndDeduplicateDiagnostics]. *)
Variables syn sem incl : SF -> list tsd.
Variable no_emit : list tsd -> list tsd.
Variable sort_dedup : list tsd -> list tsd.

Definition emit (sf : SF) (ds : list tsd) : list internal :=
  map (to_internal (sf_name sf)) (filter (fun d => same_file d (sf_name sf)) ds).

(** linter.go:342-364, one file. *)
Definition semantic (sf : SF) : list internal :=
  let final := no_emit (sem sf) in
  let extra := incl sf in
  match final, extra with
  | [], [] => []
  | _, _ =>
      let all := final ++ extra in
      let all := if (1 <? List.length all)%nat then sort_dedup all else all in
      emit sf all
  end.

(** linter.go:316-366. *)
Definition report_ts (rep_syn rep_sem : bool) (files : list SF) : list internal :=
  (if rep_syn then flat_map (fun sf => emit sf (syn sf)) files else []) ++
  (if rep_sem then flat_map semantic files else []).
End Report.

(** [strings.Contains]. *)
Fixpoint has_prefix (p s : bstr) : bool :=
  match p, s with
  | [], _ => true
  | c :: p', d :: s' => Ascii.eqb c d && has_prefix p' s'
  | _, [] => false
  end.
Fixpoint contains (sub s : bstr) : bool :=
  has_prefix sub s || match s with [] => false | _ :: s' => contains sub s' end.

(** create_program.go:22-28. *)
Definition enhance (msg : bstr) : bstr :=
  if contains (b "Please remove it from your configuration.") msg
  then msg ++ [ascii_of_N 10] ++ b "See https://github.com/oxc-project/tsgolint/issues/351 for more information."
  else msg.

(** create_program.go:39-53, 58-72, 95-109. *)
Definition config_diag (help : bstr -> bstr) (resolved : bstr) (d : tsd) : internal :=
  mkInt (t_pos d) (t_end d) (b "tsconfig-error") (b "Invalid tsconfig") (help (t_msg d))
    (Some (match t_file d with Some [] => resolved | Some f => f | None => resolved end)).

Inductive created (P : Type) :=
| CErr                              (* nil, nil, err *)
| CDiags (ds : list internal)       (* nil, diagnostics, nil *)
| CProg (p : P).                    (* program, nil, nil *)
Arguments CErr {P}.
Arguments CDiags {P} _.
Arguments CProg {P} _.

(** create_program.go:30-118.  [exists_]: the resolved config file exists;
    [parse_diags], [parse_errors]: results of [GetParsedCommandLineOfConfigFile];
    [new_program]: [NewProgram] and its [GetProgramDiagnostics]. *)
Definition create_program {P : Type} (exists_ : bool) (resolved : bstr)
    (parse_diags parse_errors : list tsd) (new_program : option (P * list tsd))
    (suppress : bool) : created P :=
  if negb exists_ then CErr
  else if (0 <? List.length parse_diags)%nat
  then CDiags (map (config_diag (fun x => x) resolved) parse_diags)
  else if (0 <? List.length parse_errors)%nat && negb suppress
  then CDiags (map (config_diag (fun x => x) resolved) parse_errors)
  else match new_program with
       | None => CErr
       | Some (p, ds) =>
           if (0 <? List.length ds)%nat && negb suppress
           then CDiags (map (config_diag enhance resolved) ds)
           else CProg p
       end.
