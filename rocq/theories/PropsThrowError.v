(** C95: what may be thrown and rejected. *)
From Coq Require Import Bool Arith Ascii String List Lia.
From Verif Require Import Base EngineProofs.
From Verif Require Import ThrowError ThrowErrorSpec ThrowErrorProofs.
Import ListNotations.

(** A value is taken as thrown again exactly if it was caught: in a catch clause, or by an arrow function directly given for rejections of a promise. *)
Theorem C95_rethrown : forall thenable d, rethrown thenable d = true <-> exists x, d = Some x /\ caught thenable x.
Proof. exact rethrown_iff. Qed.
Print Assumptions C95_rethrown.
(** Throwing undefined is reported exactly if it is not named in the option allow, whatever else is allowed. *)
Theorem C95_undefined : forall thenable o t d, check_throw thenable o t d = Some Undefined_thrown <-> undefined t = true /\ allowed t = false.
Proof.
  intros th o t d. unfold check_throw. destruct (allowed t); [split; [discriminate|intuition discriminate]|]. destruct (undefined t); [tauto|].
  split; [|intuition discriminate]. destruct (throw_any o && any t); [discriminate|]. destruct (throw_unknown o && unknown t); [discriminate|]. destruct (rethrowing o && rethrown th d); [discriminate|]. destruct (error_like t); discriminate.
Qed.
Print Assumptions C95_undefined.
(** Anything else is reported exactly if it is no error, not excused, and not one that was caught while throwing those is allowed. *)
Theorem C95_object : forall thenable o t d, check_throw thenable o t d = Some Object_thrown <->
  undefined t = false /\ error_like t = false /\ ~ excused o t /\ ~ (rethrowing o = true /\ exists x, d = Some x /\ caught thenable x).
Proof.
  intros th o t d. rewrite <- rethrown_iff. unfold check_throw, excused. destruct (allowed t); [split; [discriminate|intuition discriminate]|]. destruct (undefined t); [split; [discriminate|intuition discriminate]|].
  destruct (throw_any o), (any t), (throw_unknown o), (unknown t), (rethrowing o), (rethrown th d), (error_like t); cbn; intuition (congruence || discriminate).
Qed.
Print Assumptions C95_object.
(** A call is reported exactly if it rejects a promise, through any parentheses, and gives nothing (unless that is allowed) or first something that is no error and not excused. *)
Theorem C95_reject : forall promise_constructor promise_like o c args, check_call promise_constructor promise_like o c args = true <->
  rejects promise_constructor promise_like c /\
  ((args = [] /\ empty_reject o = false) \/ (exists t l, args = t :: l /\ ~ excused o t /\ error_like t = false /\ readonly_error_like t = false)).
Proof. intros pc pl o c args. rewrite <- reject_call_iff. apply call_iff. Qed.
Print Assumptions C95_reject.
(** An error is never reported, thrown or rejected. *)
Theorem C95_errors : forall thenable promise_constructor promise_like o t d c args, error_like t = true -> undefined t = false ->
  check_throw thenable o t d = None /\ check_call promise_constructor promise_like o c (t :: args) = false.
Proof.
  intros th pc pl o t d c args E U. split.
  - destruct (check_throw th o t d) as [[]|] eqn:K; auto; [apply C95_undefined in K as [K _]|apply C95_object in K as (_ & K & _)]; congruence.
  - destruct (check_call pc pl o c (t :: args)) eqn:K; auto. apply C95_reject in K as [_ [[K _]|(u & l & [= <- <-] & _ & K & _)]]; congruence.
Qed.
Print Assumptions C95_errors.
(** Parentheses around the callee never matter, nor around the function given to new Promise. *)
Theorem C95_parens : forall promise_constructor promise_like o k c args, check_call promise_constructor promise_like o (wrapped k c) args = check_call promise_constructor promise_like o c args.
Proof. intros. unfold check_call. rewrite skip_wrap. reflexivity. Qed.
Print Assumptions C95_parens.
Theorem C95_function_parens : forall promise_constructor d x arrow f ps around k, d = {| did := x; parameter := true; rest := false; parent := O_function arrow f ps (repeat In_parens k ++ around) |} ->
  reject_parameter promise_constructor (Some d) = reject_parameter promise_constructor (Some {| did := x; parameter := true; rest := false; parent := O_function arrow f ps around |}).
Proof.
  intros pc d x arrow f ps around k ->. unfold reject_parameter. cbn [parameter parent did negb]. destruct ps as [|q [|p ps]]; auto. destruct (negb (Nat.eqb p x)); auto.
  replace (climb (repeat In_parens k ++ around)) with (climb around); auto. induction k; auto.
Qed.
Print Assumptions C95_function_parens.

(** throw "x" is reported, throw e in catch (e) is not if that is allowed; p.then(x, e => { throw e }) neither, p.then(e => { throw e }) is; new Promise((y, n) => n(5)) is. *)
Definition text_type : type := {| allowed := false; undefined := false; any := false; unknown := false; error_like := false; readonly_error_like := false |}.
Definition all_options : options := {| throw_any := true; throw_unknown := true; rethrowing := true; empty_reject := false |}.
Definition first_of (around : list above) : declaration := {| did := 1; parameter := true; rest := false; parent := O_function true 0 [1] around |}.
Definition second_of (around : list above) : declaration := {| did := 2; parameter := true; rest := false; parent := O_function true 0 [1; 2] around |}.
Example C95_example :
  check_throw (fun _ => true) all_options text_type None = Some Object_thrown /\
  check_throw (fun _ => true) all_options text_type (Some {| did := 0; parameter := false; rest := false; parent := O_catch |}) = None /\
  check_throw (fun _ => true) all_options text_type (Some (first_of [In_call (Some (7, b "then")) [(8, false); (0, false)]; In_other])) = None /\
  check_throw (fun _ => true) all_options text_type (Some (first_of [In_call (Some (7, b "then")) [(0, false)]; In_other])) = Some Object_thrown /\
  check_throw (fun _ => false) all_options text_type (Some (first_of [In_call (Some (7, b "catch")) [(0, false)]; In_other])) = Some Object_thrown /\
  check_call (fun c => Nat.eqb c 9) (fun _ => false) all_options (Identifier (Some (second_of [In_parens; In_new 9 [(0, false)]; In_other]))) [text_type] = true /\
  check_call (fun c => Nat.eqb c 9) (fun _ => false) all_options (Parens (Access 9 (Some (b "reject")))) [] = true /\
  check_call (fun c => Nat.eqb c 9) (fun _ => false) all_options (Access 9 (Some (b "resolve"))) [] = false.
Proof. repeat split. Qed.
(** False: only the function that new Promise runs is looked at.  One given as a second argument, which is never run, is as well: new Promise(f, (y, n) => n(5)). *)
Theorem C95_executor_refuted : exists promise_constructor o d c f args l,
  parent d = O_function true f [1; did d] [In_new c args; l] /\ hd_error args <> Some (f, false) /\ In (f, false) args /\
  check_call promise_constructor (fun _ => false) o (Identifier (Some d)) [text_type] = true.
Proof.
  exists (fun _ => true), all_options, (second_of [In_new 9 [(7, false); (0, false)]; In_other]), 9, 0, [(7, false); (0, false)], In_other.
  split; [reflexivity|]. split; [discriminate|]. split; [right; left; reflexivity|vm_compute; reflexivity].
Qed.
Print Assumptions C95_executor_refuted.
(** False: parentheses around a function given for rejections do not matter.  What it throws again is reported then: p.catch((e => { throw e })). *)
Theorem C95_handler_parens_refuted : exists thenable o around,
  check_throw thenable o text_type (Some (first_of around)) = None /\ check_throw thenable o text_type (Some (first_of (In_parens :: around))) = Some Object_thrown.
Proof. exists (fun _ => true), all_options, [In_call (Some (7, b "catch")) [(0, false)]]. split; vm_compute; reflexivity. Qed.
Print Assumptions C95_handler_parens_refuted.
(** False: an arrow function and a function expression for rejections are treated alike. *)
Theorem C95_function_expression_refuted : exists thenable o x f around,
  let d arrow := Some {| did := x; parameter := true; rest := false; parent := O_function arrow f [x] around |} in
  check_throw thenable o text_type (d true) = None /\ check_throw thenable o text_type (d false) = Some Object_thrown.
Proof. exists (fun _ => true), all_options, 1, 0, [In_call (Some (7, b "catch")) [(0, false)]]. split; vm_compute; reflexivity. Qed.
Print Assumptions C95_function_expression_refuted.
(** False: what may be thrown may be rejected and the other way round.  A readonly error may be rejected, but not thrown. *)
Theorem C95_readonly_refuted : exists thenable o t d, readonly_error_like t = true /\ check_throw thenable o t d = Some Object_thrown /\
  check_call (fun _ => true) (fun _ => true) o (Access 0 (Some (b "reject"))) [t] = false.
Proof.
  exists (fun _ => true), all_options, {| allowed := false; undefined := false; any := false; unknown := false; error_like := false; readonly_error_like := true |}, None.
  repeat split.
Qed.
Print Assumptions C95_readonly_refuted.
