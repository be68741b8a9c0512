(** Model of the tsconfig lookup, internal/utils/find_tsconfig.go:36-209, 216-236.

    The parts that come from typescript-go are parameters:
    - [load name]: [FindOrAcquireConfigForFile] (find_tsconfig.go:95-97), taken to be a
      function of the config file name ([None] = nil);
    - [possibly cfg file]: [PossiblyMatchesFileName];
    - [to_path]: [tspath.ToPath] with the current directory and the case rule of the
      file system;
    - [base]: [filepath.Base]; [fold]: [strings.EqualFold];
    - [compute]: [ComputeConfigFileName] ("" = none);
    - [reg_up]: [GetAncestorConfigFileName] ("" = none). *)
From Coq Require Import Bool List Arith.
From Verif Require Import Base Bfs.
Import ListNotations.
Open Scope nat_scope.

Record cfg := mkCfg {
  c_files : list bstr;          (* FileNames() *)
  c_projrefs : list bstr;       (* ProjectReferences() *)
  c_refs : list bstr;           (* ResolvedProjectReferencePaths() *)
  c_composite : bool;           (* CompilerOptions().Composite == TSTrue *)
  c_disable : bool              (* CompilerOptions().DisableSolutionSearching.IsTrue() *)
}.

Section Find.
Variable load : bstr -> option cfg.
Variable possibly : cfg -> bstr -> bool.
Variable case_sensitive : bool.
Variables to_path base : bstr -> bstr.
Variable fold : bstr -> bstr -> bool.
Variable compute : bstr -> bool -> bstr.
Variable reg_up : bstr -> bstr -> bstr -> bstr.

Definition is_empty (s : bstr) : bool := match s with [] => true | _ => false end.

(** find_tsconfig.go:83-91. *)
Definition cfg_neighbors (n : bstr) : list bstr :=
  match load n with
  | Some c => match c_projrefs c with [] => [] | _ => c_refs c end
  | None => []
  end.

(** find_tsconfig.go:114-146. *)
Definition file_matches (path f : bstr) : bool :=
  let same := fun x y => if case_sensitive then beqb x y else fold x y in
  if same f path then true
  else if negb (same (base f) (base path)) then false
  else beqb (to_path f) path.

(** find_tsconfig.go:92-151. *)
Definition cfg_visit (file path n : bstr) : bool * bool :=
  match load n with
  | None => (false, false)
  | Some c =>
      match c_files c with
      | [] => (false, false)
      | _ =>
          if c_composite c && negb (possibly c file) then (false, false)
          else if existsb (file_matches path) (c_files c) then (true, true)
          else (false, false)
      end
  end.

(** find_tsconfig.go:179: [configs.Load(toPath(name))]; the configs stored by this
    search are those of the visited nodes, the last one with that path wins. *)
Definition stored (order : list bstr) (name : bstr) : option cfg :=
  match find (fun n => beqb (to_path n) (to_path name) &&
                       match load n with Some _ => true | None => false end) (rev order) with
  | Some n => load n
  | None => None
  end.

(** find_tsconfig.go:201-209. *)
Definition up (file path nearest : bstr) : bstr :=
  let a := reg_up file path nearest in
  if is_empty a then compute nearest true else a.

(** find_tsconfig.go:69-199.  [None]: out of fuel. *)
Fixpoint find_config (bfuel fuel : nat) (file path name : bstr)
    (visited : list bstr) (fallback : option bstr) : option bstr :=
  match fuel with
  | O => None
  | S fuel' =>
      match bfs beqb cfg_neighbors (cfg_visit file path) bfuel visited name with
      | None => None
      | Some r =>
          let tsconfig := match r_path r with n :: _ => n | [] => [] end in
          if r_stopped r then Some tsconfig
          else
            let fallback := if is_empty tsconfig then fallback else Some tsconfig in
            let next :=
              let a := up file path name in
              if is_empty a then
                match fallback with Some f => Some f | None => Some [] end
              else find_config bfuel fuel' file path a (b_vis (r_st r)) fallback in
            match stored (b_order (r_st r)) name with
            | Some c =>
                if c_disable c then
                  match fallback with Some f => Some f | None => next end
                else next
            | None => next
            end
      end
  end.

(** The body of [work], find_tsconfig.go:217-234, and of [FindTsconfigForFile]
    (38-56, [skip] = its second argument): the config recorded for [file], "" if none. *)
Definition lookup (bfuel fuel : nat) (file : bstr) (skip : bool) : option bstr :=
  let name := compute file skip in
  if is_empty name then Some []
  else find_config bfuel fuel file (to_path file) name [] None.

End Find.
