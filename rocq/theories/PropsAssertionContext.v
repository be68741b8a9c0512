From Coq Require Import Bool Arith List Lia.
From Verif Require Import AssertionContext AssertionContextSpec AssertionContextProofs.
Import ListNotations.

(** An assertion is in a generic context exactly if it is inside a call that counts, with nothing between that ends the search and at most one short function. *)
Theorem C105_generic : forall l, in_generic_context l = true <-> inside_generic l.
Proof. exact in_generic_iff. Qed.
Print Assumptions C105_generic.
(** An assertion is an argument of an overloaded function exactly if only parentheses are between and the signatures matter for it. *)
Theorem C105_overloaded : forall assignable l, overloaded assignable l = true <-> exists c i, argument l c i /\ matters assignable c i.
Proof. exact overloaded_iff. Qed.
Print Assumptions C105_overloaded.
(** The contextual type is not looked at exactly for the reasons there are. *)
Theorem C105_skip : forall k l, should_skip k false l = true <-> reason k l.
Proof. exact should_skip_iff. Qed.
Print Assumptions C105_skip.
(** For an assertion to any: in logical expressions, generic contexts and for properties in trouble. *)
Theorem C105_any : forall k l, should_skip k true l = true <-> (exists j r, l = repeat Parens j ++ Logic :: r) \/ inside_generic l \/ troubled (property k) l.
Proof.
  intros k l. unfold should_skip. rewrite <- (starts_iff Logic) by discriminate. rewrite <- in_generic_iff, <- problematic_iff, <- orb_true_iff.
  destruct (through_parens l) as [|n r]; [split; [auto|]; intros [[r E]|H]; [discriminate|auto]|].
  destruct n; try (split; [auto|]; intros [[r0 E]|H]; [discriminate|auto]). split; eauto.
Qed.
Print Assumptions C105_any.
(** Written type arguments everywhere, or functions with a block around the assertion: the context is not generic. *)
Theorem C105_not_generic : forall l, (forall c f, In (Call c f) l -> type_arguments c = true) \/ (exists n r, l = n :: r /\ closing n) -> in_generic_context l = false.
Proof.
  intros l H. destruct (in_generic_context l) eqn:G; auto. apply in_generic_iff in G. destruct G as [before [c [f [after [E [[T _] [C _]]]]]]]. destruct H as [H|[n [r [-> K]]]].
  - rewrite (H c f) in T; [discriminate|]. rewrite E. apply in_or_app. right. left. reflexivity.
  - destruct before as [|x before]; cbn [app] in E; [injection E as -> _; destruct K as [K|[a K]]; discriminate|]. injection E as -> _. exfalso. apply (C x); [left; reflexivity|exact K].
Qed.
Print Assumptions C105_not_generic.

Definition wants_one (t : nat) : signature := {| generic := false; params := [{| ptype := Some t; rest := false; arguments := [] |}] |}.
Definition generic_one : signature := {| generic := true; params := [{| ptype := Some 1; rest := false; arguments := [] |}] |}.
(** For new the call signatures are asked: new Set([x as T]) is not in a generic context. *)
Theorem C105_new_refuted : exists c l, is_new c = true /\ type_arguments c = false /\ (forall s, In s (constructs c) -> generic s = true) /\ constructs c <> [] /\ l = [Elsewhere; Call c (Argument 0)] /\ in_generic_context l = false.
Proof.
  exists {| is_new := true; type_arguments := false; callee_access := false; calls := []; constructs := [generic_one] |}. eexists. split; [reflexivity|]. split; [reflexivity|]. split; [intros s [<-|[]]; reflexivity|]. split; [discriminate|]. split; reflexivity.
Qed.
Print Assumptions C105_new_refuted.
(** Neither do overloads of a constructor matter. *)
Theorem C105_constructors_refuted : exists c l s s' t t', is_new c = true /\ constructs c = [s; s'] /\ wants 0 s t /\ wants 0 s' t' /\ t <> t' /\ argument l c 0 /\ overloaded (fun _ => false) l = false.
Proof.
  exists {| is_new := true; type_arguments := false; callee_access := false; calls := []; constructs := [wants_one 1; wants_one 2] |}. eexists. exists (wants_one 1), (wants_one 2), 1, 2.
  split; [reflexivity|]. split; [reflexivity|]. split; [eapply w_plain; reflexivity|]. split; [eapply w_plain; reflexivity|]. split; [discriminate|]. split; [exists 0, []; reflexivity|]. reflexivity.
Qed.
Print Assumptions C105_constructors_refuted.
(** A second argument for rest parameters counts as one that no signature has, though all want the same. *)
Theorem C105_rest_refuted : exists c l, (forall s, In s (calls c) -> exists p, params s = [p] /\ rest p = true /\ arguments p = [7]) /\ argument l c 1 /\ overloaded (fun _ => true) l = true.
Proof.
  set (s := {| generic := false; params := [{| ptype := Some 1; rest := true; arguments := [7] |}] |}).
  exists {| is_new := false; type_arguments := false; callee_access := false; calls := [s; s]; constructs := [] |}. eexists. split; [|split; [exists 0, []; reflexivity|reflexivity]].
  intros x [<-|[<-|[]]]; eexists; repeat split.
Qed.
Print Assumptions C105_rest_refuted.
(** Parentheses around an argument of a method make the context generic. *)
Theorem C105_parentheses_refuted : exists c l, in_generic_context l = false /\ l = [Call c (Argument 0)] /\ in_generic_context (Parens :: l) = true.
Proof. exists {| is_new := false; type_arguments := false; callee_access := true; calls := [generic_one]; constructs := [] |}. eexists. split; [|split; [reflexivity|]]; reflexivity. Qed.
Print Assumptions C105_parentheses_refuted.
(** The body of a method does not end the search, that of a function does. *)
Theorem C105_method_refuted : exists c method, method = [Elsewhere; Elsewhere; Elsewhere; Elsewhere] /\ in_generic_context (method ++ [Call c (Argument 0)]) = true /\
  in_generic_context ([Elsewhere; Elsewhere; Function true true] ++ [Call c (Argument 0)]) = false.
Proof. exists {| is_new := false; type_arguments := false; callee_access := false; calls := [generic_one]; constructs := [] |}. eexists. split; [reflexivity|]. split; reflexivity. Qed.
Print Assumptions C105_method_refuted.

Definition plain_call (ss : list signature) : call := {| is_new := false; type_arguments := false; callee_access := false; calls := ss; constructs := [] |}.
Definition no_facts : facts := {| array := false; nested := false; literal := false; property := {| object_union := false; contextual := false; contextual_union := false; fits := false |}; assignable := fun t => Nat.eqb t 1 |}.
Example C105_examples :
  (* f(x as T), f(() => x as T), f(() => () => x as T) *)
  in_generic_context [Call (plain_call [generic_one]) (Argument 0)] = true
  /\ in_generic_context [Function true false; Call (plain_call [generic_one]) (Argument 0)] = true
  /\ in_generic_context [Function true false; Function true false; Call (plain_call [generic_one]) (Argument 0)] = false
  (* overloads for different types, for one type, one signature *)
  /\ overloaded (Nat.eqb 1) [Parens; Call (plain_call [wants_one 1; wants_one 2]) (Argument 0)] = true
  /\ overloaded (fun _ => true) [Call (plain_call [wants_one 1; wants_one 2]) (Argument 0)] = false
  /\ overloaded (fun _ => false) [Call (plain_call [wants_one 1; wants_one 1]) (Argument 0)] = false
  /\ overloaded (fun _ => false) [Call (plain_call [wants_one 1]) (Argument 0)] = false
  (* y = x as T; z = (y = x as T); y ||= x as T; {a: x as T} as U; f({a: x as T}) *)
  /\ should_skip no_facts false [Assign false; Statement] = false
  /\ should_skip no_facts false [Assign false; Elsewhere] = true
  /\ should_skip no_facts false [Assign true; Statement] = true
  /\ should_skip no_facts false [Property; Object; As] = true
  /\ should_skip no_facts false [Property; Object; Call (plain_call [generic_one]) (Argument 0)] = false
  /\ should_skip no_facts true [Property; Object; Call (plain_call [generic_one]) (Argument 0)] = true
  /\ should_skip no_facts false [Property; Object; Parens; Function true false; Call (plain_call [generic_one]) (Argument 0)] = true.
Proof. vm_compute. repeat split. Qed.
