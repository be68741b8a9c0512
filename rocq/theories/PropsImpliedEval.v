(** C94: code given as a string. *)
From Coq Require Import Bool Arith Ascii String List Lia.
From Verif Require Import Base EngineProofs.
From Verif Require Import ImpliedEval ImpliedEvalSpec ImpliedEvalProofs.
Import ListNotations.

(** The constructor of functions is reported exactly if it is meant by name or as a member of a global object, and nothing is known of it or it is the built-in one. *)
Theorem C94_constructor : forall type_of symbol_of callee arguments, In Function_constructor (check type_of symbol_of callee arguments) <->
  means callee (b "Function") /\ (tsymbol (type_of (number callee)) = None \/ constructor_like (type_of (number callee)) = true).
Proof.
  intros ty sy c a. unfold check. assert (F : b "Function" <> []) by discriminate.
  rewrite <- (name_iff c (b "Function") F). destruct (beqb (callee_name c) (b "Function")) eqn:E.
  - apply beqb_eq in E. rewrite E. cbn match. rewrite (handler_of_function ty sy c a E).
    destruct (tsymbol (ty (number c))) as [s|], (constructor_like (ty (number c))); cbn; intuition discriminate.
  - assert (N : callee_name c <> b "Function") by (intros K; rewrite K in E; discriminate).
    destruct (callee_name c) as [|c0 r0] eqn:C; [split; [intros []|intros [K _]; discriminate]|]. rewrite <- C in *. split; [|tauto].
    intros K. apply handler_no_constructor in K. destruct K.
Qed.
Print Assumptions C94_constructor.
(** A first argument is reported exactly if the callee means one of the functions that run code, it gives no function, and nothing of that name is declared in this file. *)
Theorem C94_handler : forall type_of symbol_of callee arguments h, In (Implied_eval h) (check type_of symbol_of callee arguments) <->
  exists n l, means callee n /\ runs_code n /\ arguments = h :: l /\ ~ gives_function type_of h /\ ~ declared_here (symbol_of (number callee)).
Proof.
  intros ty sy c a h. rewrite <- handler_iff. unfold check. destruct (callee_name c) as [|c0 r0] eqn:C.
  - split; [intros []|]. rewrite handler_iff. intros (n & l & M & R & _). apply runs_not_empty in R as [R _]. apply (name_iff c n R) in M. congruence.
  - rewrite <- C. destruct (beqb (callee_name c) (b "Function")) eqn:E; [|tauto]. apply beqb_eq in E. rewrite (handler_of_function ty sy c a E).
    destruct (tsymbol (ty (number c))), (constructor_like (ty (number c))); cbn; intuition discriminate.
Qed.
Print Assumptions C94_handler.
(** Never are there two reports of one call. *)
Theorem C94_one : forall type_of symbol_of callee arguments, List.length (check type_of symbol_of callee arguments) <= 1.
Proof.
  intros ty sy c a. unfold check. destruct (callee_name c) as [|c0 r0] eqn:C; [cbn; lia|]. rewrite <- C. destruct (beqb (callee_name c) (b "Function")) eqn:E; [|apply handler_one].
  apply beqb_eq in E. rewrite (handler_of_function ty sy c a E). destruct (tsymbol (ty (number c))), (constructor_like (ty (number c))); cbn; lia.
Qed.
Print Assumptions C94_one.
(** A string or another literal is reported whatever the checker says of it. *)
Theorem C94_literals : forall type_of symbol_of callee i t l n, means callee n -> runs_code n -> ~ declared_here (symbol_of (number callee)) ->
  check type_of symbol_of callee (String_lit i t :: l) = [Implied_eval (String_lit i t)] /\ check type_of symbol_of callee (Other_lit i t :: l) = [Implied_eval (Other_lit i t)].
Proof.
  intros ty sy c i t l n M R D.
  assert (K : forall h, (exists j u, h = String_lit j u \/ h = Other_lit j u) -> check ty sy c (h :: l) = [Implied_eval h]).
  { intros h (j & u & H). assert (I : In (Implied_eval h) (check ty sy c (h :: l))).
    { apply C94_handler. exists n, l. repeat split; auto. intros G. inversion G; subst; destruct H; subst; try congruence; discriminate. }
    pose proof (C94_one ty sy c (h :: l)) as L. destruct (check ty sy c (h :: l)) as [|x [|y r]]; [destruct I| |cbn in L; lia]. destruct I as [->|[]]. reflexivity. }
  split; apply K; eauto.
Qed.
Print Assumptions C94_literals.
(** setTimeout("x()") and window["setInterval"]("x()", 5) are reported; setTimeout(() => {}) is not; new Function("x") is. *)
Definition no_type : type_info := {| tsymbol := None; function_like := false; constructor_like := false; signatures := 0 |}.
Example C94_example :
  check (fun _ => no_type) (fun _ => Some [false; false]) (Ident 0 (b "setTimeout")) [String_lit 1 (b "x()")] = [Implied_eval (String_lit 1 (b "x()"))] /\
  check (fun _ => no_type) (fun _ => None) (Elem_access 0 (Ident 1 (b "window")) (String_lit 2 (b "setInterval"))) [String_lit 3 (b "x()"); Other_lit 4 (b "5")] = [Implied_eval (String_lit 3 (b "x()"))] /\
  check (fun _ => no_type) (fun _ => None) (Ident 0 (b "setTimeout")) [Function_like 1] = [] /\
  check (fun _ => no_type) (fun _ => Some [true]) (Ident 0 (b "setTimeout")) [String_lit 1 (b "x()")] = [] /\
  check (fun _ => no_type) (fun _ => None) (Ident 0 (b "Function")) [String_lit 1 (b "x")] = [Function_constructor] /\
  check (fun _ => {| tsymbol := Some false; function_like := false; constructor_like := false; signatures := 0 |}) (fun _ => None) (Ident 0 (b "Function")) [String_lit 1 (b "x")] = [].
Proof. repeat split. Qed.
(** False: every string of code given to such a function of a global object is reported.  With its name in a template without substitution, as in window[`setTimeout`]("x()"), it is not. *)
Theorem C94_template_refuted : exists type_of symbol_of i j k n t l,
  runs_code n /\ symbol_of i = None /\ check type_of symbol_of (Elem_access i (Ident j (b "window")) (String_lit k n)) (String_lit t l :: []) <> [] /\
  check type_of symbol_of (Elem_access i (Ident j (b "window")) (Other_lit k n)) (String_lit t l :: []) = [].
Proof.
  exists (fun _ => no_type), (fun _ => None), 0, 1, 2, (b "setTimeout"), 3, (b "x()"). split; [right; right; right; left; reflexivity|].
  split; [reflexivity|]. split; [vm_compute; discriminate|vm_compute; reflexivity].
Qed.
Print Assumptions C94_template_refuted.
(** False: what is not callable by its type is reported.  The result of anything called bind is not, though it is a string. *)
Theorem C94_bind_refuted : exists type_of symbol_of h, ~ callable (type_of (number h)) /\ check type_of symbol_of (Ident 0 (b "setTimeout")) [h] = [].
Proof.
  exists (fun _ => no_type), (fun _ => None), (Call 1 (Ident 2 (b "bind")) [String_lit 3 (b "x()")]). split; [|vm_compute; reflexivity].
  intros [H|[H|H]]; try discriminate. apply H. reflexivity.
Qed.
Print Assumptions C94_bind_refuted.
(** False: the constructor of functions is reported only if it is the built-in one.  Where the type has no symbol (such as any, when Function is a parameter of that type), it is. *)
Theorem C94_unknown_constructor_refuted : exists type_of symbol_of callee, constructor_like (type_of (number callee)) = false /\ declared_here (symbol_of (number callee)) /\
  check type_of symbol_of callee [] = [Function_constructor].
Proof.
  exists (fun _ => no_type), (fun _ => Some [true]), (Ident 0 (b "Function")). split; [reflexivity|]. split; [exists [true]; split; cbn; auto|vm_compute; reflexivity].
Qed.
Print Assumptions C94_unknown_constructor_refuted.
