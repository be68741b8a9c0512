From Coq Require Import Bool Arith List Lia.
From Verif Require Import NestedArrays NestedArraysSpec NestedArraysProofs.
Import ListNotations.

(** The question asked of a call: is a type inferred from what is at the path of the argument. *)
Theorem C106_inferred : forall s i path, generic_at s i path = true <-> exists g, s = Some g /\ inferred g i path.
Proof. exact generic_at_iff. Qed.
Print Assumptions C106_inferred.
(** In arrays in an argument: the path is the places in all arrays from the outside in, whatever else but functions, calls and spreads is between. *)
Theorem C106_argument : forall before i k j s after, quiet before ->
  (nested_in_generic (before ++ Array i :: repeat Parens k ++ Call false (Some j) s :: after) = true <-> exists g, s = Some g /\ inferred g j (i :: places before)).
Proof.
  intros before i k j s after Q. unfold nested_in_generic. rewrite nested_quiet by exact Q. cbn [nested]. rewrite through_parens_repeat. cbn [through_parens]. rewrite app_nil_r. apply generic_at_iff.
Qed.
Print Assumptions C106_argument.
(** If the outermost array is spread its place counts with the arguments. *)
Theorem C106_spread : forall before i k k' j s after, quiet before ->
  (nested_in_generic (before ++ Array i :: repeat Parens k ++ Spread :: repeat Parens k' ++ Call false (Some j) s :: after) = true <-> exists g, s = Some g /\ inferred g (j + i) (places before)).
Proof.
  intros before i k k' j s after Q. unfold nested_in_generic. rewrite nested_quiet by exact Q. cbn [nested]. rewrite through_parens_repeat. cbn [through_parens]. rewrite through_parens_repeat. cbn [through_parens]. rewrite app_nil_r. apply generic_at_iff.
Qed.
Print Assumptions C106_spread.
(** Functions and written type arguments end it. *)
Theorem C106_ends : forall before after, quiet before -> nested_in_generic (before ++ Function :: after) = false /\
  forall i k a s, nested_in_generic (before ++ Array i :: repeat Parens k ++ Call true a s :: after) = false /\ nested_in_generic (before ++ Array i :: repeat Parens k ++ Spread :: Call true a s :: after) = false.
Proof.
  intros before after Q. split.
  - unfold nested_in_generic. generalize (@nil nat). assert (T : forall p, quiet p -> exists n r, through_parens (p ++ Function :: after) = n :: r /\ (n = Function \/ n = Elsewhere \/ exists i, n = Array i)).
    { induction p as [|n p IH]; intros Qp; [eexists _, _; split; [reflexivity|auto]|]. assert (Q' : quiet p) by (intros x X; apply Qp; right; exact X). pose proof (Qp n (or_introl eq_refl)) as K.
      destruct n; try contradiction; cbn [app through_parens]; [apply IH; exact Q'| |]; (eexists _, _; split; [reflexivity|eauto]). }
    induction before as [|n before IH]; intros path; [reflexivity|]. assert (Q' : quiet before) by (intros x X; apply Q; right; exact X). pose proof (Q n (or_introl eq_refl)) as K.
    destruct n as [| |a| | |]; try contradiction; cbn [app nested]; auto. destruct (T before Q') as [n [r [E [->|[->|[x ->]]]]]]; rewrite E; auto.
  - intros i k a s. unfold nested_in_generic. rewrite !nested_quiet by exact Q. cbn [nested]. rewrite !through_parens_repeat. cbn [through_parens]. auto.
Qed.
Print Assumptions C106_ends.
(** Without arrays the answer is no. *)
Theorem C106_no_array : forall l, (forall i, ~ In (Array i) l) -> nested_in_generic l = false.
Proof.
  intros l. unfold nested_in_generic. generalize (@nil nat). induction l as [|n l IH]; intros path H; [reflexivity|]. assert (H' : forall i, ~ In (Array i) l) by (intros i X; apply (H i); right; exact X).
  destruct n; cbn [nested]; auto. exfalso. apply (H i). left. reflexivity.
Qed.
Print Assumptions C106_no_array.

Definition var : type := Ty true None_ [].
Definition plain : type := Ty false None_ [].
Definition array_of (t : type) : type := Ty (variable t) (Indexed t) [t].
(** A rest parameter whose type is an alias: the type arguments of the alias are taken for the elements.
    type Pair<D, T> = [T, D]; declare function f<T>(...a: Pair<string, T>): T; f(...[x as T]) *)
Theorem C106_alias_refuted : exists s l n ps p, first_of s n ps /\ 0 < n /\ ps = [p] /\ rest p = true /\ elements (ptype p) = Tuple [var; plain] /\
  l = [Array 0; Spread; Call false (Some 0) (Some s)] /\ nested_in_generic l = false.
Proof.
  exists (Sig 1 [{| ptype := Ty true (Tuple [var; plain]) [plain; var]; rest := true |}] None). eexists. exists 1. eexists. eexists.
  split; [constructor|]. split; [lia|]. split; [reflexivity|]. split; [reflexivity|]. split; [reflexivity|]. split; reflexivity.
Qed.
Print Assumptions C106_alias_refuted.
(** An array that is spread into an array: its place counts as a level of its own, so that in [f([p, ...[x as T]])] the type wanted for x is taken one level too deep. *)
Theorem C106_spread_inside_refuted : exists s l, l = [Array 0; Spread; Array 1; Call false (Some 0) (Some s)] /\
  s = Sig 1 [{| ptype := Ty true (Tuple [plain; Ty true (Tuple [plain; var]) []]) []; rest := false |}] None /\
  nested_in_generic l = false /\ nested_in_generic [Array 1; Call false (Some 0) (Some s)] = true.
Proof. eexists. eexists. split; [reflexivity|]. split; [reflexivity|]. split; reflexivity. Qed.
Print Assumptions C106_spread_inside_refuted.

Example C106_examples :
  let s := Some (Sig 0 [] (Some (Sig 1 [{| ptype := plain; rest := false |}; {| ptype := array_of (Ty true (Tuple [plain; var]) []); rest := false |}; {| ptype := array_of var; rest := true |}] None))) in
  (* f(0, [[1, x as T]]), f(0, [[x as T]]), f(0, ([{a: [[]]}])), f(0, [], [[x as T]]) *)
  nested_in_generic [Array 1; Array 0; Call false (Some 1) s] = true
  /\ nested_in_generic [Array 0; Array 0; Call false (Some 1) s] = false
  /\ nested_in_generic [Array 7; Elsewhere; Parens; Array 3; Parens; Call false (Some 1) s] = true
  /\ nested_in_generic [Array 0; Call false (Some 4) s] = true
  /\ nested_in_generic [Array 0; Call false (Some 0) s] = false
  /\ nested_in_generic [Array 2; Spread; Call false (Some 0) s] = true
  /\ nested_in_generic [Array 0; Spread; Call false (Some 0) s] = false
  /\ nested_in_generic [Array 0; Call true (Some 4) s] = false
  /\ nested_in_generic [Array 0; Call false None s; Array 0; Call false (Some 4) s] = true.
Proof. vm_compute. repeat split. Qed.
