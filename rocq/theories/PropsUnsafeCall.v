(** C97: no-unsafe-call and no-unsafe-type-assertion. *)
From Coq Require Import Bool Arith Ascii String List Lia.
From Verif Require Import Base.
From Verif Require Import UnsafeCall UnsafeCallSpec UnsafeCallProofs.
Import ListNotations.
Open Scope nat_scope.

(** A call, construction or tag is reported exactly if what is called is any or a Function that nothing makes callable; import() never. *)
Theorem C97_call_exactly : forall nit f node cal e c,
  run_call nit f node cal e c <> None <->
  ~ (f = F_call /\ e = Import_keyword) /\ (any c = true \/ any c = false /\ opaque_function f c).
Proof.
  intros nit f node cal e c.
  destruct (run_cases nit f node cal e c) as [[-> [-> ->]] | [N [[A ->] | [[A [O ->]] | [A [O ->]]]]]].
  - split; [intros F; destruct F; reflexivity | intros [F _]; destruct F; split; reflexivity].
  - split; [intros _; split; [exact N | left; exact A] | intros _; discriminate].
  - split; [intros _; split; [exact N | right; split; assumption] | intros _; discriminate].
  - split; [intros F; destruct F; reflexivity | intros [_ [F | [_ F]]]; [rewrite A in F; discriminate | destruct (O F)]].
Qed.
Print Assumptions C97_call_exactly.

(** Where and with what words a value of type any is reported. *)
Theorem C97_call_any : forall nit f node cal e c n m,
  run_call nit f node cal e c = Some (n, m) -> any c = true ->
  n = place f node cal /\
  exists t, kind_of_any c t /\
    (nit = false /\ from_this e true /\ call_description m = b "Unsafe call of a(n) " ++ t ++ b " typed value. `this` is typed as " ++ t ++ b "." ++ [ascii_of_nat 10]
     \/ (nit = true \/ ~ from_this e true) /\ call_description m = wording f t).
Proof.
  intros nit f node cal e c n m R A.
  destruct (run_cases nit f node cal e c) as [[-> [-> E]] | [N [[_ E] | [[F _] | [F _]]]]]; try congruence.
  rewrite E in R. injection R as <- <-. split; [reflexivity|].
  exists (if error c then b "`error` type" else b "`any`"). split.
  { unfold kind_of_any. destruct (error c); [left | right]; split; reflexivity. }
  destruct nit; cbn [negb andb].
  - right. split; [left; reflexivity | apply builder_words].
  - destruct (this_any e) eqn:T.
    + left. repeat split. apply this_any_spec, T.
    + right. split; [right; intros F; apply this_any_spec in F; congruence | apply builder_words].
Qed.
Print Assumptions C97_call_any.

(** Where and with what words a Function is reported. *)
Theorem C97_call_function : forall nit f node cal e c n m,
  run_call nit f node cal e c = Some (n, m) -> any c = false ->
  n = place f node cal /\ call_description m = wording f (b "`Function`").
Proof.
  intros nit f node cal e c n m R A.
  destruct (run_cases nit f node cal e c) as [[-> [-> E]] | [N [[F _] | [[_ [_ E]] | [_ [_ E]]]]]]; try congruence.
  rewrite E in R. injection R as <- <-. split; [reflexivity | apply builder_words].
Qed.
Print Assumptions C97_call_function.

Definition a_callee (a e f : bool) (k : nat) (l : list bool) := {| any := a; error := e; function_like := f; constructs := k; calls_void := l |}.
Example C97_call_example :
  run_call true F_call 1 2 Else (a_callee true false false 0 []) = Some (2, Unsafe_call (b "`any`")) /\
  run_call false F_call 1 2 (Access (This true)) (a_callee true true false 0 []) = Some (2, Unsafe_call_this (b "`error` type")) /\
  run_call false F_new 1 2 Else (a_callee false false true 0 [true]) = Some (1, Unsafe_new (b "`Function`")) /\
  run_call false F_new 1 2 Else (a_callee false false true 0 [true; false]) = None /\
  run_call false F_tag 1 2 Else (a_callee false false true 0 []) = Some (2, Unsafe_tag (b "`Function`")) /\
  run_call false F_tag 1 2 Else (a_callee false false true 0 [true]) = None /\
  run_call false F_call 1 2 Import_keyword (a_callee true false false 0 []) = None.
Proof. repeat split; vm_compute; reflexivity. Qed.

(** The words of a construction are always on construction: false, new this.x() is said to be a call. *)
Theorem C97_new_this_refuted : exists nit node cal e c n m,
  run_call nit F_new node cal e c = Some (n, m) /\ forall t, call_description m <> wording F_new t.
Proof.
  exists false, 1, 2, (Access (This true)), (a_callee true false false 0 []), 1, (Unsafe_call_this (b "`any`")).
  split; [vm_compute; reflexivity|]. intros t F. discriminate F.
Qed.
Print Assumptions C97_new_this_refuted.

(** A description is one line: false, the one on this ends in a line break. *)
Theorem C97_one_line_refuted : exists nit f node cal e c n m,
  run_call nit f node cal e c = Some (n, m) /\ In (ascii_of_nat 10) (call_description m).
Proof.
  exists false, F_call, 1, 2, (Access (This true)), (a_callee true false false 0 []), 2, (Unsafe_call_this (b "`any`")).
  split; [vm_compute; reflexivity|]. unfold call_description. rewrite !in_app_iff. do 5 right. left. reflexivity.
Qed.
Print Assumptions C97_one_line_refuted.

(** A type assertion is reported exactly if the types differ and any comes in on either side or the asserted type does not hold all that the expression may be. *)
Theorem C97_assertion_exactly : forall info unsafe assignable from to,
  check_assertion info unsafe assignable from to <> None <->
  from <> to /\ (~ no_any info unsafe from to \/ narrower info assignable from to).
Proof.
  intros info unsafe assignable from to.
  destruct (Nat.eq_dec from to) as [E | D].
  { unfold check_assertion. rewrite E, Nat.eqb_refl. split; [intros F; destruct F; reflexivity | intros [F _]; destruct F; reflexivity]. }
  split.
  - intros R. split; [exact D|]. rewrite narrower_spec.
    destruct (assignable (if object_literal (info from) then widened (info from) else from) to) eqn:A; [left | right; reflexivity].
    intros N. apply R. rewrite no_any_case by assumption. rewrite A. reflexivity.
  - intros [_ R]. rewrite narrower_spec in R. unfold check_assertion. rewrite (proj2 (Nat.eqb_neq from to) D).
    destruct (t_any (info to) && t_unknown (info from)) eqn:U; [discriminate|].
    destruct (unsafe from to) eqn:F; [discriminate|]. destruct (unsafe to from) eqn:T; [discriminate|].
    destruct R as [R | ->].
    + destruct R. repeat split; try assumption. intros [A K]. rewrite A, K in U. discriminate.
    + destruct (parameter (info to)); [destruct (constraint (info to)) as [k|]; [destruct (assignable _ k)|]|]; discriminate.
Qed.
Print Assumptions C97_assertion_exactly.

(** any counts before all else: which of the two messages, and what is said of the type. *)
Theorem C97_assertion_any : forall info unsafe assignable from to, from <> to ->
  (t_any (info to) = true -> t_unknown (info from) = true -> check_assertion info unsafe assignable from to = Some (To_any (b "`any`"))) /\
  (~ (t_any (info to) = true /\ t_unknown (info from) = true) ->
   (forall s, unsafe from to = Some s -> check_assertion info unsafe assignable from to = Some (Of_any (if t_error (info s) then b "error typed" else b "`any`"))) /\
   (forall s, unsafe from to = None -> unsafe to from = Some s -> check_assertion info unsafe assignable from to = Some (To_any (if t_error (info s) then b "error typed" else b "`any`")))).
Proof.
  intros info unsafe assignable from to D. unfold check_assertion. rewrite (proj2 (Nat.eqb_neq from to) D). split.
  - intros -> ->. reflexivity.
  - intros U. assert (E : t_any (info to) && t_unknown (info from) = false).
    { destruct (t_any (info to)), (t_unknown (info from)); try reflexivity. destruct U; split; reflexivity. }
    rewrite E. split.
    + intros s ->. reflexivity.
    + intros s -> ->. reflexivity.
Qed.
Print Assumptions C97_assertion_any.

(** Without any, the message goes by the type parameter asserted. *)
Theorem C97_assertion_narrower : forall info unsafe assignable from to w, from <> to ->
  no_any info unsafe from to -> looked_at info from w -> assignable w to = false ->
  let answer := check_assertion info unsafe assignable from to in
  (parameter (info to) = true -> constraint (info to) = None -> answer = Some (To_unconstrained (shown (info to)))) /\
  (forall k, parameter (info to) = true -> constraint (info to) = Some k -> assignable w k = true -> answer = Some (To_constraint (shown (info to)))) /\
  (forall k, parameter (info to) = true -> constraint (info to) = Some k -> assignable w k = false -> answer = Some (Narrower (shown (info to)))) /\
  (parameter (info to) = false -> answer = Some (Narrower (shown (info to)))).
Proof.
  intros info unsafe assignable from to w D N L A answer. unfold answer. rewrite no_any_case by assumption.
  apply looked in L. rewrite <- L, A. repeat split.
  - intros -> ->. reflexivity.
  - intros k -> -> ->. reflexivity.
  - intros k -> -> ->. reflexivity.
  - intros ->. reflexivity.
Qed.
Print Assumptions C97_assertion_narrower.

(** The words. *)
Theorem C97_assertion_words : forall t,
  assertion_description (Of_any t) = b "Unsafe assertion from " ++ t ++ b " detected." /\
  assertion_description (To_any t) = b "Unsafe assertion to " ++ t ++ b " detected." /\
  assertion_description (To_unconstrained t) = b "Unsafe type assertion: '" ++ t ++ b "' could be instantiated with an arbitrary type which could be unrelated to the original type." /\
  assertion_description (Narrower t) = b "Unsafe type assertion: type '" ++ t ++ b "' is more narrow than the original type." /\
  assertion_description (To_constraint t) = b "Unsafe type assertion: the original type is assignable to the constraint of type '" ++ t ++ b "', but '" ++ t ++ b "' could be instantiated with a different subtype of its constraint.".
Proof. intros t. repeat split. Qed.
Print Assumptions C97_assertion_words.

(** What is reported: x as T from the as to the end of T, <T>x from the one bracket to the other, with both types in labels on their places. *)
Theorem C97_assertion_report : forall info unsafe assignable token a,
  run_assertion info unsafe assignable token a =
  option_map (fun m =>
    ((if as_form a then (fst (token (snd (expression_at a))), snd (type_at a)) else (fst (token (node_pos a)), snd (token (snd (type_at a))))), m,
     [(b "Original expression has type `" ++ (if t_error (info (expression_type a)) then b "error" else shown (info (expression_type a))) ++ b "`.", expression_at a);
      (b "Asserted type is `" ++ (if t_error (info (asserted_type a)) then b "error" else shown (info (asserted_type a))) ++ b "`.", type_at a)]))
  (check_assertion info unsafe assignable (expression_type a) (asserted_type a)).
Proof.
  intros info unsafe assignable token a. unfold run_assertion, assertion_range, type_label, option_map.
  destruct (check_assertion info unsafe assignable (expression_type a) (asserted_type a)); [destruct (as_form a)|]; reflexivity.
Qed.
Print Assumptions C97_assertion_report.

(** Types: 0 any, 1 unknown, 2 the error type, 3 string, 4 "a", 5 T, 6 U extends string, 7 a fresh object literal, 8 its widened type. *)
Definition a_type (a u e o p : bool) (k : option nat) (w : nat) (s : bstr) := {| t_any := a; t_unknown := u; t_error := e; object_literal := o; parameter := p; constraint := k; widened := w; shown := s |}.
Definition types (n : nat) : type_info :=
  match n with
  | 0 => a_type true false false false false None 0 (b "any") | 1 => a_type false true false false false None 1 (b "unknown")
  | 2 => a_type true false true false false None 2 (b "any") | 3 => a_type false false false false false None 3 (b "string")
  | 4 => a_type false false false false false None 4 (b """a""") | 5 => a_type false false false false true None 5 (b "T")
  | 6 => a_type false false false false true (Some 3) 6 (b "U") | 7 => a_type false false false true false None 8 (b "{ a: string; }")
  | _ => a_type false false false false false None n (b "{ a: string; }")
  end.
Definition unsafes (x y : nat) : option nat := if t_any (types x) && negb (t_unknown (types y)) then Some x else None.
Definition assigns (x y : nat) : bool := Nat.eqb x y || Nat.eqb y 1 || Nat.eqb x 4 && Nat.eqb y 3 || Nat.eqb x 8 && Nat.eqb y 9.
Notation asserted := (check_assertion types unsafes assigns).
Example C97_assertion_example :
  asserted 1 0 = Some (To_any (b "`any`")) /\ asserted 0 3 = Some (Of_any (b "`any`")) /\ asserted 3 2 = Some (To_any (b "error typed")) /\
  asserted 4 3 = None /\ asserted 3 4 = Some (Narrower (b """a""")) /\ asserted 3 5 = Some (To_unconstrained (b "T")) /\
  asserted 4 6 = Some (To_constraint (b "U")) /\ asserted 1 6 = Some (Narrower (b "U")) /\ asserted 7 9 = None /\ asserted 8 4 = Some (Narrower (b """a""")).
Proof. repeat split; vm_compute; reflexivity. Qed.
(** "x as /*c*/ T": the token after x is as, at 2. *)
Example C97_report_example : forall token, token 1 = (2, 4) ->
  run_assertion types unsafes assigns token {| as_form := true; node_pos := 0; expression_at := (0, 1); type_at := (11, 12); expression_type := 3; asserted_type := 5 |} =
  Some ((2, 12), To_unconstrained (b "T"), [(b "Original expression has type `string`.", (0, 1)); (b "Asserted type is `T`.", (11, 12))]).
Proof. intros token T. unfold run_assertion, assertion_range. cbn [as_form expression_at snd fst type_at expression_type asserted_type]. rewrite T. vm_compute. reflexivity. Qed.

(** The message names the asserted type as the label does: false for unknown asserted to be an error type, where the message says any and the label error. *)
Theorem C97_error_name_refuted : exists info unsafe assignable token a r m ls,
  run_assertion info unsafe assignable token a = Some (r, m, ls) /\ t_error (info (asserted_type a)) = true /\
  m = To_any (b "`any`") /\ In (b "Asserted type is `error`.", type_at a) ls.
Proof.
  exists types, unsafes, assigns, (fun p => (p + 1, p + 3)), {| as_form := true; node_pos := 0; expression_at := (0, 1); type_at := (5, 8); expression_type := 1; asserted_type := 2 |}.
  do 3 eexists. split; [vm_compute; reflexivity|]. split; [reflexivity|]. split; [reflexivity|]. right. left. reflexivity.
Qed.
Print Assumptions C97_error_name_refuted.
