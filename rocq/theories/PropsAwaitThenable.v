(** C80: await-thenable. *)
From Coq Require Import Bool Arith Ascii String List Lia.
From Verif Require Import Base EngineProofs.
From Verif Require Import AwaitThenable AwaitThenableSpec AwaitThenableProofs.
Import ListNotations.

Definition promise : ty := Leaf true false false NotIterable.
Definition number : ty := Leaf false false false NotIterable.

(** await is reported exactly if no value of the type is thenable. *)
Theorem C80_await : forall t, regular t -> (await_reported t = true <-> ~ may v_then t).
Proof. exact never_regular. Qed.
Print Assumptions C80_await.
Example C80_await_ex : await_reported (Union [number; Param (Some number)]) = true /\ await_reported (Param (Some (Union [number; promise]))) = false /\ regular (Param (Some (Union [number; promise]))) /\ await_reported (Param None) = false.
Proof. split; [reflexivity|]. split; [reflexivity|]. split; [|reflexivity]. apply RParam, RUnion. intros t [<-|[<-|[]]]; constructor. Qed.
(** ... but not beside a parameter without constraint: the value may be thenable. *)
Theorem C80_free_refuted : exists t, written t /\ may v_then t /\ await_reported t = true.
Proof.
  exists (Union [Param None; number]). split; [|split; [|reflexivity]].
  - apply WUnion. intros t [<-|[<-|[]]]; constructor.
  - exists thenable_value. split; [|reflexivity]. apply (OUnion _ _ (Param None)); [now left|constructor].
Qed.
Print Assumptions C80_free_refuted.
(** ... nor beside a parameter whose constraint is a union with promises. *)
Theorem C80_nested_refuted : exists c t, t = Union [Param (Some c); number] /\ written t /\ may v_then t /\ await_reported (Param (Some c)) = false /\ await_reported t = true.
Proof.
  exists (Union [promise; number]), (Union [Param (Some (Union [promise; number])); number]). split; [reflexivity|]. split; [|split; [|split; reflexivity]].
  - apply WUnion. intros t [<-|[<-|[]]]; constructor. apply RUnion. intros t [<-|[<-|[]]]; constructor.
  - exists thenable_value. split; [|reflexivity]. apply (OUnion _ _ (Param (Some (Union [promise; number])))); [now left|]. constructor. apply (OUnion _ _ promise); [now left|]. apply (OLeaf thenable_value).
Qed.
Print Assumptions C80_nested_refuted.

(** Elements of an array literal are reported, each for itself, exactly if none of their values is thenable; such unions are no exception here. *)
Theorem C80_elements : forall l rest r, (forall t, In (Some t) l -> written t) ->
  (In r (call_reports true (ArrayLiteral l :: rest)) <-> exists i t, r = Element i /\ nth_error l i = Some (Some t) /\ ~ may v_then t).
Proof.
  intros l rest r W. cbn [call_reports]. rewrite in_map_iff. split.
  - intros (i & <- & H). apply seq_filter in H as [L H]. exists i. destruct (nth_error l i) as [o|] eqn:E; [|apply nth_error_None in E; lia].
    rewrite (nth_error_nth _ _ None E) in H. destruct o as [t|]; [|discriminate]. exists t. split; [reflexivity|]. split; [reflexivity|]. apply always_non_ok; auto. apply W. eapply nth_error_In; eauto.
  - intros (i & t & -> & E & M). exists i. split; auto. apply seq_filter. split; [apply nth_error_Some; congruence|]. rewrite (nth_error_nth _ _ None E). apply always_non_ok; auto. apply W. eapply nth_error_In; eauto.
Qed.
Print Assumptions C80_elements.
Example C80_elements_ex : call_reports true [ArrayLiteral [Some number; None; Some (Union [Param None; number]); Some (Union [promise; number]); Some number]; OtherArgument number] = [Element 0; Element 4].
Proof. reflexivity. Qed.

(** Other arguments are reported exactly if all parts are iterable and some part of what one of them gives is never thenable. *)
Theorem C80_input : forall l rest, (forall p, In p l -> exists a c d e, p = Leaf a c d e /\ honest e /\ forall t, gives t e -> forall q, part_of q t -> regular q) ->
  (call_reports true (OtherArgument (Union l) :: rest) = [Argument] <->
   (forall p, In p l -> exists a c d e, p = Leaf a c d e /\ e <> NotIterable) /\
   (exists a c d e t q, In (Leaf a c d e) l /\ gives t e /\ part_of q t /\ ~ may v_then q)).
Proof.
  intros l rest H. cbn [call_reports]. unfold argument_reported, constrained.
  assert (bases l = Some l) as B.
  { clear rest. induction l as [|p l IH]; [reflexivity|]. cbn [bases]. rewrite IH by (intros q I'; apply H; now right). destruct (H p (or_introl eq_refl)) as (a & c & d & e & -> & _). reflexivity. }
  rewrite base_union, B. unfold invalid_input, is_iterable. cbn [union_parts].
  assert (forall p, In p l -> iterator_of p = true <-> exists a c d e, p = Leaf a c d e /\ e <> NotIterable) as IT.
  { intros p I'. destruct (H p I') as (a & c & d & e & -> & _). split.
    - intros E. exists a, c, d, e. split; [reflexivity|]. intros ->. discriminate.
    - intros (a' & c' & d' & e' & [= -> -> -> ->] & N). destruct e'; try reflexivity. congruence. }
  assert (forall q t, part_of q t <-> In q (union_parts t)) as PO.
  { intros q t. split; [intros [(m & -> & I')|[-> N]]; [exact I'|destruct t; try (now left); now destruct (N l0)]|]. intros I'. destruct t; try (right; cbn [union_parts In] in I'; destruct I' as [<-|[]]; split; [reflexivity|discriminate]). left. eauto. }
  assert (forall a c d e t, In (Leaf a c d e) l -> gives t e <-> In t (value_types (Leaf a c d e))) as G.
  { intros a c d e t I'. destruct (H _ I') as (a' & c' & d' & e' & [= -> -> -> ->] & HN & _). destruct e' as [|m|u|args y]; cbn [value_types].
    - split; [intros G; inversion G|intros []].
    - split; [intros G; now inversion G|now constructor].
    - split; [intros G; inversion G; now left|intros [->|[]]; constructor].
    - destruct (HN args y eq_refl) as (more & ->). cbn [firstn]. split; [intros G; inversion G; now left|intros [->|[]]; constructor]. }
  assert (existsb (fun p => existsb contains_non (value_types p)) l = true <-> exists a c d e t q, In (Leaf a c d e) l /\ gives t e /\ part_of q t /\ ~ may v_then q) as X.
  { rewrite existsb_exists. split.
    - intros (p & I' & E). destruct (H p I') as (a & c & d & e & -> & _ & R). apply existsb_exists in E as (t & I'' & E). apply existsb_exists in E as (q & Q & E). exists a, c, d, e, t, q.
      split; [auto|]. split; [now apply (G a c d e t I')|]. split; [now apply PO|]. apply never_regular; auto. apply (R t); [now apply (G a c d e t I')|now apply PO].
    - intros (a & c & d & e & t & q & I' & GV & Q & M). exists (Leaf a c d e). split; auto. apply existsb_exists. exists t. split; [now apply (G a c d e t I')|]. apply existsb_exists. exists q. split; [now apply PO|].
      apply never_regular; auto. destruct (H _ I') as (a' & c' & d' & e' & [= -> -> -> ->] & _ & R). now apply (R t). }
  rewrite <- X. destruct (forallb iterator_of l) eqn:F.
  - cbn [andb]. assert (forall p, In p l -> exists a c d e, p = Leaf a c d e /\ e <> NotIterable) as A by (intros p I'; apply IT; auto; rewrite forallb_forall in F; now apply F).
    destruct (existsb _ l); split; try discriminate; auto. intros [_ D]. discriminate.
  - cbn [andb]. split; [discriminate|]. intros [A _]. exfalso. assert (forallb iterator_of l = true) by (apply forallb_forall; intros p I'; apply IT; auto). congruence.
Qed.
Print Assumptions C80_input.
Example C80_input_ex : call_reports true [OtherArgument (Union [Leaf false false false (Indexed promise); Leaf false false false (Tuple [promise; number])])] = [Argument]
  /\ call_reports true [OtherArgument (Union [Leaf false false false (Indexed promise); number])] = []
  /\ call_reports true [OtherArgument (Leaf false false false (Indexed promise))] = [].
Proof. repeat split. Qed.
(** The same values are judged in two ways: promises or numbers are fine as elements, but not in an array. *)
Theorem C80_consistent_refuted : exists t, call_reports true [ArrayLiteral [Some t]] = [] /\ call_reports true [OtherArgument (Leaf false false false (Indexed t))] = [Argument].
Proof. exists (Union [promise; number]). split; reflexivity. Qed.
Print Assumptions C80_consistent_refuted.
(** The first type argument need not be what is iterated over: a map with promises as keys gives pairs and is not reported, and types that give nothing but promises are. *)
Theorem C80_generic_refuted : exists args y args' y', ~ may v_then y /\ call_reports true [OtherArgument (Leaf false false false (Generic args y))] = [] /\
  y' = promise /\ call_reports true [OtherArgument (Leaf false false false (Generic args' y'))] = [Argument].
Proof.
  exists [promise; number], (Leaf false false false (Tuple [promise; number])), [number; promise], promise. split; [|split; [reflexivity|split; reflexivity]].
  intros M. apply (leaf_may v_then then_of) in M; [discriminate|exact then_test].
Qed.
Print Assumptions C80_generic_refuted.

(** Calls that are looked at. *)
Theorem C80_calls : forall c, is_aggregator c = true <-> exists n, c = Access (Some n) true /\ In n [b "all"; b "allSettled"; b "any"; b "race"].
Proof.
  intros c. split.
  - destruct c as [|[n|] p]; try discriminate. unfold is_aggregator. intros H. apply andb_true_iff in H as [H ->]. exists n. split; [reflexivity|]. apply existsb_exists in H as (m & I' & E). apply beqb_eq in E as ->. exact I'.
  - intros (n & -> & I'). unfold is_aggregator. rewrite andb_true_r. apply existsb_exists. exists n. split; [exact I'|apply beqb_refl].
Qed.
Print Assumptions C80_calls.
Example C80_calls_ex : is_aggregator (Access (Some (b "race")) true) = true /\ is_aggregator (Access (Some (b "resolve")) true) = false /\ is_aggregator (Access (Some (b "all")) false) = false.
Proof. repeat split. Qed.
(** Other calls, and calls without arguments, are left alone. *)
Theorem C80_other_calls : forall args, call_reports false args = [] /\ forall g, call_reports g [] = [].
Proof. intros args. split; [reflexivity|]. intros []; reflexivity. Qed.
Print Assumptions C80_other_calls.
Example C80_other_calls_ex : call_reports false [ArrayLiteral [Some number]] = [] /\ call_reports true [ArrayLiteral [Some number]] = [Element 0].
Proof. repeat split. Qed.

(** for await is reported exactly if no value is async iterable. *)
Theorem C80_for : forall t, flat t -> (for_reported true t = true <-> ~ may v_async_iterator t).
Proof.
  intros t F. unfold for_reported. rewrite (flat_any t F). cbn [negb andb]. pose proof (flat_property _ _ t iter_test F) as P. rewrite negb_true_iff.
  destruct (existsb (has_property iter_of) (union_parts t)); split; auto; try discriminate; [intros X; exfalso; apply X; now apply P|intros _ X; apply P in X; discriminate].
Qed.
Print Assumptions C80_for.
Example C80_for_ex : for_reported true (Leaf false false false (Indexed promise)) = true /\ for_reported true (Union [Leaf false true false NotIterable; number]) = false.
Proof. repeat split. Qed.
(** Other loops and declarations, and any, are left alone. *)
Theorem C80_for_others : forall t l, for_reported false t = false /\ for_reported true Any = false /\ using_reports false l = [].
Proof. intros t l. split; [|split]; reflexivity. Qed.
Print Assumptions C80_for_others.
Example C80_for_others_ex : for_reported false number = false /\ for_reported true number = true.
Proof. repeat split. Qed.
(** ... but not if the type is a parameter whose constraint is a union. *)
Theorem C80_for_param_refuted : exists c, flat c /\ may v_async_iterator (Param (Some c)) /\ for_reported true c = false /\ for_reported true (Param (Some c)) = true.
Proof.
  exists (Union [Leaf false true false NotIterable; Leaf false false false (Indexed number)]). split; [right; eexists; split; [reflexivity|]; intros u [<-|[<-|[]]]; constructor|]. split; [|split; reflexivity].
  apply param_may, union_may. exists (Leaf false true false NotIterable). split; [now left|]. now apply (leaf_may v_async_iterator iter_of _ _ _ _ iter_test).
Qed.
Print Assumptions C80_for_param_refuted.
(** Without await the loop runs over the same values if none is a promise, and only then. *)
Theorem C80_for_same : forall l, for_of l = for_await l <-> forall r, In r l -> exists n, r = Plain n.
Proof.
  unfold for_of, for_await. induction l as [|x l IH]; cbn [map]; [split; [intros _ r []|reflexivity]|]. split.
  - intros [= A B] r [<-|I']; [destruct x; [eauto|discriminate]|]. now apply IH.
  - intros H. destruct (H x (or_introl eq_refl)) as (n & ->). cbn [awaited]. f_equal. apply IH. intros r I'. apply H. now right.
Qed.
Print Assumptions C80_for_same.
Example C80_for_same_ex : for_of [Plain 1; Plain 2] = for_await [Plain 1; Plain 2] /\ for_of [PromiseOf 1] <> for_await [PromiseOf 1].
Proof. split; [reflexivity|discriminate]. Qed.
(** An array of promises is reported, and the suggestion changes what the loop sees. *)
Theorem C80_for_refuted : exists t l, for_reported true t = true /\ may v_then (match t with Leaf _ _ _ (Indexed u) => u | _ => number end) /\ for_of l <> for_await l.
Proof. exists (Leaf false false false (Indexed promise)), [PromiseOf 1]. split; [reflexivity|]. split; [|discriminate]. exists thenable_value. split; [apply (OLeaf thenable_value)|reflexivity]. Qed.
Print Assumptions C80_for_refuted.

(** await using: each declaration whose values are never async disposable is reported, with a suggestion exactly if it is the only one. *)
Theorem C80_using : forall l, (forall t, In (Some t) l -> t = Any \/ flat t) -> forall i s,
  In (i, s) (using_reports true l) <-> (exists t, nth_error l i = Some (Some t) /\ t <> Any /\ ~ may v_async_dispose t) /\ (s = true <-> exists x, l = [x]).
Proof.
  intros l F i s. unfold using_reports. rewrite in_map_iff.
  assert (Nat.eqb (List.length l) 1 = true <-> exists x, l = [x]) as ONE. { rewrite Nat.eqb_eq. split; [destruct l as [|x [|y l]]; try discriminate; eauto|intros (x & ->); reflexivity]. }
  assert (forall t, t = Any \/ flat t -> (using_declaration (Some t) = true <-> t <> Any /\ ~ may v_async_dispose t)) as U.
  { intros t [->|T]; [split; [discriminate|intros [N _]; congruence]|]. unfold using_declaration. rewrite (flat_any t T). cbn [negb andb]. pose proof (flat_property _ _ t dispose_test T) as P. rewrite negb_true_iff.
    assert (t <> Any) as NA by (intros ->; apply flat_any in T; discriminate).
    destruct (existsb (has_property dispose_of) (union_parts t)).
    - split; [discriminate|]. intros [_ X]. exfalso. apply X. now apply P.
    - split; [|auto]. intros _. split; [exact NA|]. intros X. apply P in X. discriminate. }
  split.
  - intros (j & [= <- <-] & H). apply seq_filter in H as [L H]. split; [|exact ONE]. destruct (nth_error l j) as [o|] eqn:E; [|apply nth_error_None in E; lia]. rewrite (nth_error_nth _ _ None E) in H. destruct o as [t|]; [|discriminate]. exists t. split; [reflexivity|]. apply U; auto. apply F. eapply nth_error_In; eauto.
  - intros [(t & E & N) S]. exists i. split; [f_equal; destruct (Nat.eqb (List.length l) 1), s; try reflexivity; [destruct S as [_ S]; symmetry; apply S; now apply ONE|destruct S as [S _]; apply ONE; now apply S]|]. apply seq_filter. split; [apply nth_error_Some; congruence|]. rewrite (nth_error_nth _ _ None E). apply U; auto. apply F. eapply nth_error_In; eauto.
Qed.
Print Assumptions C80_using.
Example C80_using_ex : using_reports true [Some number] = [(0, true)] /\ using_reports true [Some number; Some (Leaf false false true NotIterable); None; Some number] = [(0, false); (3, false)] /\ using_reports false [Some number] = [].
Proof. repeat split. Qed.

(** Removing await before a name leaves the statements as they are. *)
Theorem C80_removed : forall pre n rest, remove_at (List.length pre) (pre ++ KAwait :: KOther n :: rest) = pre ++ KOther n :: rest /\
  exists a x y c, statements (pre ++ KAwait :: KOther n :: rest) = a ++ [x ++ KAwait :: y] ++ c /\ statements (pre ++ KOther n :: rest) = a ++ [x ++ y] ++ c.
Proof.
  intros pre n rest. split.
  - induction pre as [|t pre IH]; [reflexivity|]. cbn [app List.length remove_at]. now rewrite IH.
  - destruct (split_await n pre rest []) as (a & x & y & c & A & B). exists a, x, y, c. auto.
Qed.
Print Assumptions C80_removed.
Example C80_removed_ex : statements (remove_at 2 [KOther 1; KNewline; KAwait; KOther 2; KSemicolon]) = [[KOther 1]; [KOther 2]; []].
Proof. reflexivity. Qed.
(** Before a parenthesis at the start of a line it makes one statement of two: the end of the line before is a call then. *)
Theorem C80_removed_refuted : exists l i, nth_error l i = Some KAwait /\ List.length (statements l) = 2 /\ List.length (statements (remove_at i l)) = 1.
Proof. exists [KOther 1; KNewline; KAwait; KOpen; KOther 2; KClose], 2. repeat split. Qed.
Print Assumptions C80_removed_refuted.
