(** C90: types like built-in ones (internal/utils/builtin_symbol_likes.go). *)
From Coq Require Import Bool Arith Ascii String List Lia.
From Verif Require Import Base EngineProofs.
From Verif Require Import BuiltinLike BuiltinLikeSpec BuiltinLikeProofs.
Import ListNotations.

(** A declaration is of the default library exactly if its file is. *)
Theorem C90_library : forall no_lib libs same_path s, from_default_library no_lib libs same_path s = true <-> in_library no_lib libs same_path s.
Proof. exact library. Qed.
Print Assumptions C90_library.

(** An answer of IsBuiltinSymbolLike is exact, also where bases and constraints are cyclic. *)
Theorem C90_builtin_like : forall info no_lib libs same_path names n t x,
  builtin_like info no_lib libs same_path names n t = Some x -> (x = true <-> like info no_lib libs same_path (named_one_of names) t).
Proof. exact builtin_exact. Qed.
Print Assumptions C90_builtin_like.
(** So is one of IsAnyBuiltinSymbolLike. *)
Theorem C90_any_builtin_like : forall info no_lib libs same_path n t x,
  any_builtin_like info no_lib libs same_path n t = Some x -> (x = true <-> like info no_lib libs same_path (fun _ => True) t).
Proof. intros info no_lib libs same_path n t x. apply (recurse_like info no_lib libs same_path (fun _ => true)). intros s. split; auto. Qed.
Print Assumptions C90_any_builtin_like.
(** So is one of IsReadonlyErrorLike. *)
Theorem C90_readonly_error : forall info no_lib libs same_path n t x,
  readonly_error_like info no_lib libs same_path n t = Some x -> (x = true <-> readonly_error info no_lib libs same_path t).
Proof. intros info no_lib libs same_path n t x. apply readonly_exact. Qed.
Print Assumptions C90_readonly_error.

(** If no chain of parts, constraints and bases goes on forever there is an answer, and more steps do not change it. *)
Theorem C90_ends : forall info no_lib libs same_path names t, Acc (next info) t ->
  exists n x y, forall m, n <= m -> builtin_like info no_lib libs same_path names m t = Some x /\ any_builtin_like info no_lib libs same_path m t = Some y.
Proof.
  intros info no_lib libs same_path names t A.
  destruct (recurse_total info (named info no_lib libs same_path names) t (test_total info no_lib libs same_path (fun s => existsb (fun x => beqb (sname s) x) names)) A) as [n N].
  destruct (recurse_total info (test info no_lib libs same_path (fun _ => true)) t (test_total info no_lib libs same_path (fun _ => true)) A) as [k K].
  destruct (recurse info (named info no_lib libs same_path names) n t) as [x|] eqn:X; [|congruence].
  destruct (recurse info (test info no_lib libs same_path (fun _ => true)) k t) as [y|] eqn:Y; [|congruence].
  exists (Nat.max n k), x, y. intros m M. split.
  - apply (recurse_mono _ _ n); auto. lia.
  - apply (recurse_mono _ _ k); auto. lia.
Qed.
Print Assumptions C90_ends.

(** Nothing is remembered of the types that were seen: with an interface that is its own base there is no answer. *)
Theorem C90_cycle_refuted : exists info t, forall no_lib libs same_path n,
  builtin_like info no_lib libs same_path [b "Error"] n t = None.
Proof.
  exists (fun _ => {| tkind := Plain; tsymbol := Some {| sname := b "Loop"; files := []; classlike := true; bases := [0] |}; talias := None |}), 0.
  intros no_lib libs same_path n. unfold builtin_like. set (info := fun _ => _).
  assert (E : named info no_lib libs same_path [b "Error"] 0 = Some Open) by reflexivity. revert E. generalize (named info no_lib libs same_path [b "Error"]). intros p E.
  induction n as [|n IH]; auto. unfold info. cbn [recurse tkind]. rewrite E. cbn [tsymbol classlike bases some_of]. fold info. rewrite IH. auto.
Qed.
Print Assumptions C90_cycle_refuted.

(* lib.es5.d.ts of the program; 0 Error; 1 class MyError extends Error; 2 Error | MyError; 3 Promise; 4 Error | Promise; 5 Promise & MyError; 6 T extends MyError;
   7 Readonly<T of 6>; 8 interface I extends Readonly<MyError>; 9 T without constraint; 10 an own class Error *)
Definition lib_file := {| declaration_file := true; known_default := true; file_name := b "/lib/lib.es5.d.ts" |}.
Definition own_file := {| declaration_file := false; known_default := false; file_name := b "/a.ts" |}.
Definition sym name f c l := {| sname := b name; files := f; classlike := c; bases := l |}.
Definition plain s := {| tkind := Plain; tsymbol := Some s; talias := None |}.
Definition made k := {| tkind := k; tsymbol := None; talias := None |}.
Definition sample (t : nat) : type_info :=
  match t with
  | 0 => plain (sym "Error" [lib_file] true [])
  | 1 => plain (sym "MyError" [own_file] true [0])
  | 2 => made (Union [0; 1])
  | 3 => plain (sym "Promise" [lib_file] true [])
  | 4 => made (Union [0; 3])
  | 5 => made (Inter [3; 1])
  | 6 => made (Param (Some 1))
  | 7 => {| tkind := Plain; tsymbol := Some (sym "__type" [lib_file] false []); talias := Some {| asymbol := sym "Readonly" [lib_file] false []; arguments := [6] |} |}
  | 8 => plain (sym "I" [own_file] true [7])
  | 9 => made (Param None)
  | _ => plain (sym "Error" [own_file] true [])
  end.
(** The bases of a type that is no alias with arguments are not asked for Readonly: an interface that extends Readonly<MyError> is not known as such. *)
Theorem C90_readonly_base_refuted : exists info no_lib libs same_path t s u n,
  tsymbol (info t) = Some s /\ classlike s = true /\ In u (bases s) /\
  readonly_error_like info no_lib libs same_path n u = Some true /\ readonly_error_like info no_lib libs same_path n t = Some false.
Proof. exists sample, false, [], beqb, 8, (sym "I" [own_file] true [7]), 7, 9. repeat split; try (vm_compute; reflexivity). left. auto. Qed.
Print Assumptions C90_readonly_base_refuted.

Example C90_sample : map (builtin_like sample false [] beqb [b "Error"] 5) (seq 0 11) =
  [Some true; Some true; Some true; Some false; Some false; Some true; Some true; Some false; Some false; Some false; Some false].
Proof. vm_compute. reflexivity. Qed.
Example C90_sample_names : map (builtin_like sample false [] beqb [b "Promise"; b "Error"] 5) [3; 4; 9] = [Some true; Some true; Some false].
Proof. vm_compute. reflexivity. Qed.
Example C90_sample_any : map (any_builtin_like sample false [] beqb 5) [1; 4; 7; 8; 9; 10] = [Some true; Some true; Some true; Some true; Some false; Some false].
Proof. vm_compute. reflexivity. Qed.
Example C90_sample_readonly : map (readonly_error_like sample false [] beqb 9) [0; 7; 8] = [Some false; Some true; Some false].
Proof. vm_compute. reflexivity. Qed.
Example C90_sample_ends : Acc (next sample) 6.
Proof.
  assert (A0 : Acc (next sample) 0).
  { constructor. intros u N. inversion N; subst; cbn in *; try discriminate. match goal with H : Some _ = Some _ |- _ => injection H as <- end. contradiction. }
  assert (A1 : Acc (next sample) 1).
  { constructor. intros u N. inversion N; subst; cbn in *; try discriminate. match goal with H : Some _ = Some _ |- _ => injection H as <- end. cbn in *. match goal with H : _ \/ _ |- _ => destruct H as [<-|[]] end. auto. }
  constructor. intros u N. inversion N; subst; cbn in *; try discriminate. match goal with H : Param _ = Param _ |- _ => injection H as <- end. auto.
Qed.
(* without the knowledge of the program: by the path, not with noLib, not of an own file *)
Example C90_sample_files :
  let f := {| declaration_file := true; known_default := false; file_name := b "/lib/lib.d.ts" |} in
  map (fun n => default_library_file n [b "/x"; b "/lib/lib.d.ts"] beqb f) [false; true] = [true; false] /\
  default_library_file false [b "/a.ts"] beqb own_file = false.
Proof. vm_compute. auto. Qed.
