(** C110: type guards that say nothing new, callbacks that always return the same, and the types that indexed accesses stand for. *)
From Coq Require Import Bool Arith ZArith Ascii String List Lia.
From Verif Require Import Base Types Condition.
From Verif Require Import GuardCalls GuardCallsSpec GuardCallsProofs.
Import ListNotations.
Open Scope Z_scope.

(** Calls of guards [x is T] and [asserts x is T]: reported exactly if the guarded argument is before any spread and its type is the guard's. *)
Theorem C110_guard_calls : forall constrained show check_node on args s r,
  (forall p, s = Some p -> ptype p = None -> pkind p <> Asserts_identifier) ->
  (In r (check_guard_call constrained show check_node on args s) <->
   on = true /\ exists p n v g, s = Some p /\ plain_argument args (pindex p) n /\ (pkind p = Identifier_is \/ pkind p = Asserts_identifier) /\
     ptype p = Some g /\ constrained n = Some v /\ t_id v = t_id g /\ guard_said show r n v g).
Proof.
  intros constrained show check_node on args s r NA. split.
  - intros H. destruct on; [|rewrite call_elsewhere in H by auto; destruct H]. split; [reflexivity|]. destruct s as [p|]; [|rewrite call_elsewhere in H by auto; destruct H].
    destruct (nth_error (checkable args) (Z.to_nat (pindex p))) as [n|] eqn:N.
    + destruct (Z_le_dec 0 (pindex p)) as [P|P].
      * assert (A : plain_argument args (pindex p) n) by (apply plain_iff; auto). rewrite (call_at _ _ _ _ _ _ A) in H. unfold at_argument in H. cbv zeta in H. exists p, n.
        destruct (same (constrained n) (ptype p)) as [[v g]|] eqn:S.
        -- pose proof S as S'. apply same_iff in S as [S1 [S2 S3]]. exists v, g. rewrite S2 in H. destruct (pkind p) eqn:K; try destruct H as [<-|[]]; try destruct H; (repeat split; auto; try (eexists; split; [reflexivity|apply words_iff; reflexivity])).
        -- exfalso. destruct (pkind p) eqn:K; try destruct H. destruct (ptype p) eqn:T; [destruct H|]. exact (NA p eq_refl T K).
      * rewrite call_elsewhere in H; [destruct H|]. right. right. exists p. split; [reflexivity|]. intros m M. apply plain_iff in M as [M _]. contradiction.
    + rewrite call_elsewhere in H; [destruct H|]. right. right. exists p. split; [reflexivity|]. intros m M. apply plain_iff in M as [_ M]. congruence.
  - intros [-> [p [n [v [g [-> [A [K [T [V [E R]]]]]]]]]]]. rewrite (call_at _ _ _ _ _ _ A). unfold at_argument. cbv zeta. apply said_iff in R. subst r.
    assert (S : same (constrained n) (ptype p) = Some (v, g)) by (apply same_iff; auto). rewrite S, T. destruct K as [-> | ->]; left; reflexivity.
Qed.
Print Assumptions C110_guard_calls.

(** Calls of [asserts x]: the argument is a condition like any other, and nothing else is said. *)
Theorem C110_asserted : forall constrained show check_node args p n, pkind p = Asserts_identifier -> ptype p = None -> plain_argument args (pindex p) n ->
  check_guard_call constrained show check_node true args (Some p) = check_node n.
Proof. intros constrained show check_node args p n K T A. rewrite (call_at _ _ _ _ _ _ A). unfold at_argument. rewrite K, T. reflexivity. Qed.
Print Assumptions C110_asserted.

(** Nothing without the option, without a guard, of other guards, or if a spread comes first. *)
Theorem C110_guard_calls_quiet : forall constrained show check_node on args s,
  (on = false \/ s = None \/ exists p, s = Some p /\ ((forall n, ~ plain_argument args (pindex p) n) \/ pkind p = This_is \/ pkind p = Asserts_this)) ->
  check_guard_call constrained show check_node on args s = [].
Proof.
  intros constrained show check_node on args s [->|[->|[p [-> [H|H]]]]].
  - apply call_elsewhere. auto.
  - apply call_elsewhere. auto.
  - apply call_elsewhere. right. right. exists p. auto.
  - unfold check_guard_call. destruct (negb on); [reflexivity|]. destruct (checkable args); [reflexivity|]. destruct ((pindex p <? 0) || _); [reflexivity|]. destruct (nth_error _ _); [|reflexivity]. destruct H as [-> | ->]; reflexivity.
Qed.
Print Assumptions C110_guard_calls_quiet.

(** At most one report for each call, as far as guards go. *)
Theorem C110_guard_calls_one : forall constrained show check_node on args s, (forall n, List.length (check_node n) <= 1)%nat -> (List.length (check_guard_call constrained show check_node on args s) <= 1)%nat.
Proof.
  intros constrained show check_node on args s O. unfold check_guard_call. destruct (negb on); [cbn; lia|]. destruct (checkable args); [cbn; lia|]. destruct s as [p|]; [|cbn; lia]. destruct ((pindex p <? 0) || _); [cbn; lia|]. destruct (nth_error _ _) as [n'|]; [|cbn; lia]. cbv zeta.
  destruct (pkind p); [destruct (same _ _) as [[]|]| |destruct (ptype p); [destruct (same _ _) as [[]|]|exact (O n')]|]; cbn; lia.
Qed.
Print Assumptions C110_guard_calls_one.

(** Callbacks: the signatures before the first whose guard is needless are judged by what they return; then that guard is reported, and the rest left alone. *)
Theorem C110_callback_guard : forall assignable constraint show explanatory f before s after x g,
  (forall y z h, In y before -> ~ needless assignable y z h) -> needless assignable s x g ->
  exists r, guard_said show r (match declared x with Some n => n | None => node f end) (type_of x) g /\
  check_callback assignable constraint show explanatory f true (before ++ s :: after) = flat_map (returns constraint show explanatory f) before ++ [r].
Proof.
  intros assignable constraint show explanatory f before s after x g N S. exists (guard_report show (match declared x with Some n => n | None => node f end) (type_of x) g).
  split; [apply said_iff; reflexivity|]. apply callback_first.
  - intros y I. destruct (unnecessary assignable show f true y) as [r|] eqn:U; [|reflexivity]. apply unnecessary_iff in U as [z [h [U _]]]. destruct (N y z h I U).
  - apply unnecessary_iff. exists x, g. split; [exact S|]. apply said_iff. reflexivity.
Qed.
Print Assumptions C110_callback_guard.

(** Without such a guard, or without the option, all signatures are judged by what they return, in order. *)
Theorem C110_callback_returns : forall assignable constraint show explanatory f on l,
  (on = false \/ forall y z h, In y l -> ~ needless assignable y z h) ->
  check_callback assignable constraint show explanatory f on l = flat_map (returns constraint show explanatory f) l.
Proof.
  intros assignable constraint show explanatory f on l H. apply callback_none. intros s I. destruct on; [|apply unnecessary_off]. destruct H as [H|H]; [discriminate|].
  destruct (unnecessary assignable show f true s) as [r|] eqn:U; [|reflexivity]. apply unnecessary_iff in U as [z [h [U _]]]. destruct (H s z h I U).
Qed.
Print Assumptions C110_callback_returns.

(** What is said of what a signature returns: at most one thing, about the body of a function written there, else about the callback itself. *)
Theorem C110_returns : forall constraint show explanatory f s r,
  (In r (returns constraint show explanatory f s) <->
   exists t, gives constraint s t /\ ((fst (check_type t) = true /\ return_said show explanatory f true t r) \/ (check_type t = (false, true) /\ return_said show explanatory f false t r)))
  /\ (List.length (returns constraint show explanatory f s) <= 1)%nat.
Proof. intros constraint show explanatory f s r. split; [apply returns_iff|apply returns_one]. Qed.
Print Assumptions C110_returns.

(** Every report of a callback is about a guard or about a returned value; a guard report is the last. *)
Theorem C110_callback_sound : forall assignable constraint show explanatory f on l r, In r (check_callback assignable constraint show explanatory f on l) ->
  (on = true /\ exists s x g, In s l /\ needless assignable s x g /\ guard_said show r (match declared x with Some n => n | None => node f end) (type_of x) g) \/
  (exists s t truthy, In s l /\ gives constraint s t /\ return_said show explanatory f truthy t r).
Proof.
  intros assignable constraint show explanatory f on l r H. assert (Rt : forall k, (forall s, In s k -> In s l) -> In r (flat_map (returns constraint show explanatory f) k) -> exists s t truthy, In s l /\ gives constraint s t /\ return_said show explanatory f truthy t r).
  { intros k K X. apply in_flat_map in X as [s [I X]]. apply returns_iff in X as [t [G [[_ X]|[_ X]]]]; eauto 10. }
  destruct (callback_split assignable show f on l) as [N|[bf [s [af [q [-> [N U]]]]]]].
  - rewrite callback_none in H by exact N. right. apply (Rt l); auto.
  - rewrite (callback_first _ _ _ _ _ _ _ _ _ _ N U) in H. apply in_app_iff in H as [H|[<-|[]]].
    + right. apply (Rt bf); [|exact H]. intros x I. apply in_app_iff. auto.
    + left. destruct on; [|rewrite unnecessary_off in U; discriminate]. split; [reflexivity|]. apply unnecessary_iff in U as [x [g [U R]]]. exists s, x, g. split; [apply in_app_iff; right; left; reflexivity|]. auto.
Qed.
Print Assumptions C110_callback_sound.

(** A call says first what its ?. gives, then what its callback gives, then what its guard gives. *)
Theorem C110_call : forall chain array first guard_call,
  check_call chain array first guard_call = chain ++ (match array, first with true, Some l => l | _, _ => [] end) ++ guard_call.
Proof. intros chain array first guard_call. unfold check_call. destruct array; [destruct first|]; reflexivity. Qed.
Print Assumptions C110_call.

(** Indexed accesses stand for the property named, else what any string gives, else what any number gives, else themselves. *)
Theorem C110_stands : forall access base property strings numbers t u,
  resolve access base property strings numbers t = u <-> stands access base property strings numbers t u.
Proof. exact resolve_iff. Qed.
Print Assumptions C110_stands.

(** The type of a node: none for an unconstrained type parameter, else what it or its constraint stands for. *)
Theorem C110_resolved : forall access base property strings numbers t u,
  resolved access base property strings numbers t = Some u <->
  exists s k, t = Some s /\ ((has s [FTypeParameter] /\ base s = Some k) \/ (~ has s [FTypeParameter] /\ k = s)) /\ stands access base property strings numbers k u.
Proof.
  intros access base property strings numbers t u. unfold resolved. destruct t as [t|]; [|split; [discriminate|intros [s [k [E _]]]; discriminate]].
  destruct (is_set t [FTypeParameter]) eqn:S; [apply set_iff in S|apply set_false in S].
  - destruct (base t) as [k|] eqn:B.
    + split.
      * intros E. injection E as E. apply resolve_iff in E. exists t, k. auto.
      * intros [s [k' [E [H R]]]]. injection E as <-. apply resolve_iff in R. subst u. destruct H as [[_ H]|[H _]]; [congruence|contradiction].
    + split; [discriminate|]. intros [s [k [E [[[_ H]|[H _]] _]]]]; injection E as <-; [congruence|contradiction].
  - split.
    + intros E. injection E as E. apply resolve_iff in E. exists t, t. auto.
    + intros [s [k [E [[[H _]|[_ ->]] R]]]]; injection E as <-; [contradiction|]. apply resolve_iff in R. subst u. reflexivity.
Qed.
Print Assumptions C110_resolved.

(** * Examples *)
Definition c_show (t : ty) : list Z := t_text t.
Definition c_str : ty := Ty 1 [FString] (text (b "string")) None [].
Definition c_lit : ty := Ty 2 [FStringLiteral] (text (b "a")) None [].
Definition c_obj : ty := Ty 3 [FObject] (text (b "{}")) None [].
Definition c_num : ty := Ty 4 [FNumber] (text (b "number")) None [].
Definition c_null : ty := Ty 5 [FNull] (text (b "null")) None [].
Definition c_param : ty := Ty 6 [FTypeParameter] (text (b "T")) None [].
Definition c_access : ty := Ty 7 [FIndexedAccess] (text (b "T[K]")) None [].
Definition c_key : ty := Ty 8 [FTypeParameter] (text (b "K")) None [].
Definition c_types (n : nat) : option ty := match n with 1%nat => Some c_str | 2%nat => Some c_lit | _ => None end.
Definition c_asked (n : nat) : list report := [{| id := b "asked"; message := []; at_ := n; label := None |}].
Definition is_string (i : Z) : predicate := {| pkind := Identifier_is; pindex := i; ptype := Some c_str |}.
Definition c_assignable (a g : ty) : bool := (t_id a =? t_id g) || ((t_id a =? 2) && (t_id g =? 1)).
Definition c_arrow : function := {| node := 10; literal := true; body := Some 11%nat |}.
Definition c_name : function := {| node := 12; literal := false; body := None |}.
Definition c_of (g : option predicate) (p r : ty) : signature := {| guard := g; params := [{| type_of := p; declared := Some 20%nat |}]; returned := r |}.
Definition c_guard (n : nat) (v : string) : report :=
  {| id := b "typeGuardAlreadyIsType"; message := b "Type predicate is unnecessary as the parameter type already satisfies the predicate."; at_ := n; label := Some (text (b v), n) |}.

Example C110_guard_calls_ex :
  check_guard_call c_types c_show c_asked true [Arg 1; Spread 3] (Some (is_string 0)) = [c_guard 1 "Type string already satisfies predicate type string"] /\
  check_guard_call c_types c_show c_asked true [Arg 2] (Some (is_string 0)) = [] /\
  check_guard_call c_types c_show c_asked true [Spread 3; Arg 1] (Some (is_string 1)) = [] /\
  check_guard_call c_types c_show c_asked true [Arg 1; Spread 3; Arg 1] (Some (is_string 2)) = [] /\
  check_guard_call c_types c_show c_asked false [Arg 1] (Some (is_string 0)) = [] /\
  check_guard_call c_types c_show c_asked true [Arg 4; Arg 2] (Some {| pkind := Asserts_identifier; pindex := 1; ptype := None |}) = c_asked 2 /\
  check_guard_call c_types c_show c_asked true [Arg 1] (Some {| pkind := Asserts_identifier; pindex := 0; ptype := Some c_str |}) = [c_guard 1 "Type string already satisfies predicate type string"] /\
  check_guard_call c_types c_show c_asked true [Arg 1] (Some {| pkind := This_is; pindex := 0; ptype := Some c_str |}) = [].
Proof. vm_compute. repeat split. Qed.

Example C110_callback_ex :
  check_callback c_assignable (fun _ => Some c_obj) c_show (fun _ => false) c_arrow true [c_of None c_str c_obj] =
    [{| id := b "alwaysTruthy"; message := b "Unnecessary conditional, value is always truthy."; at_ := 11; label := Some (text (b "Return type: {}"), 11%nat) |}] /\
  check_callback c_assignable (fun _ => Some c_obj) c_show (fun _ => true) c_name true [c_of None c_str c_null] =
    [{| id := b "alwaysFalsyFunc"; message := b "This callback should return a conditional, but return is always falsy."; at_ := 12; label := None |}] /\
  check_callback c_assignable (fun _ => Some c_obj) c_show (fun _ => true) c_name true [c_of None c_str c_param; c_of None c_str c_str] =
    [{| id := b "alwaysTruthyFunc"; message := b "This callback should return a conditional, but return is always truthy."; at_ := 12; label := None |}] /\
  check_callback c_assignable (fun _ => None) c_show (fun _ => false) c_arrow true [c_of None c_str c_num] = [] /\
  check_callback c_assignable (fun _ => None) c_show (fun _ => false) c_arrow true [c_of (Some (is_string 0)) c_lit c_num] = [c_guard 20 "Type a already satisfies predicate type string"] /\
  check_callback c_assignable (fun _ => None) c_show (fun _ => false) c_arrow false [c_of (Some (is_string 0)) c_lit c_num] = [] /\
  check_callback c_assignable (fun _ => None) c_show (fun _ => false) c_arrow true [c_of (Some (is_string 0)) c_num c_num] = [].
Proof. vm_compute. repeat split. Qed.

Example C110_stands_ex :
  let base t := if t_id t =? 6 then Some c_obj else if t_id t =? 8 then Some c_lit else None in
  let access _ := Some (c_param, c_key) in
  resolve access base (fun o x => if (t_id o =? 3) && eq_text x (text (b "a")) then Some c_num else None) (fun _ => Some c_str) (fun _ => Some c_null) c_access = c_num /\
  resolve access base (fun _ _ => None) (fun _ => Some c_str) (fun _ => Some c_null) c_access = c_str /\
  resolve access base (fun _ _ => None) (fun _ => None) (fun _ => Some c_null) c_access = c_access /\
  resolve (fun _ => Some (c_obj, c_num)) base (fun _ _ => None) (fun _ => Some c_str) (fun _ => Some c_null) c_access = c_null /\
  resolve access base (fun _ _ => None) (fun _ => Some c_str) (fun _ => Some c_null) c_obj = c_obj /\
  resolved access base (fun _ _ => None) (fun _ => None) (fun _ => None) (Some c_param) = Some c_obj /\
  resolved access (fun _ => None) (fun _ _ => None) (fun _ => None) (fun _ => None) (Some c_param) = None.
Proof. vm_compute. repeat split. Qed.

Example C110_call_ex : check_call (c_asked 1) true (Some (c_asked 2)) (c_asked 3) = c_asked 1 ++ c_asked 2 ++ c_asked 3 /\ check_call [] false (Some (c_asked 2)) (c_asked 3) = c_asked 3.
Proof. split; reflexivity. Qed.

(** A callback whose needless guard comes first hides what a later overload always returns; the other way round both are said. *)
Theorem C110_later_refuted : exists assignable constraint show explanatory f s1 s2,
  List.length (check_callback assignable constraint show explanatory f true [s1; s2]) = 1%nat /\ List.length (check_callback assignable constraint show explanatory f true [s2; s1]) = 2%nat.
Proof. exists c_assignable, (fun _ => None), c_show, (fun _ => false), c_name, (c_of (Some (is_string 0)) c_str c_num), (c_of None c_str c_obj). vm_compute. auto. Qed.
Print Assumptions C110_later_refuted.

(** The same guard on the same type is needless as a callback and not as a call, if the type is narrower. *)
Theorem C110_narrower_refuted : exists assignable show p x n,
  check_callback assignable (fun _ => None) show (fun _ => false) c_name true [{| guard := Some p; params := [{| type_of := x; declared := None |}]; returned := c_num |}] <> [] /\
  check_guard_call (fun _ => Some x) show (fun _ => []) true [Arg n] (Some p) = [].
Proof. exists c_assignable, c_show, (is_string 0), c_lit, 1%nat. vm_compute. split; [discriminate|reflexivity]. Qed.
Print Assumptions C110_narrower_refuted.
