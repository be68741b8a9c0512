(** C75: pairs of getters and setters. *)
From Coq Require Import Bool Arith Ascii String List Lia.
From Verif Require Import Base EngineProofs.
From Verif Require Import AccessorPairs AccessorPairsSpec AccessorPairsProofs.
Import ListNotations.
Open Scope nat_scope.

(** ** C75: pairs whose types do not fit are reported, each once *)

(** For all lists of members, also with several accessors of one name. *)
Theorem C75_reported : forall valid assignable l, NoDup (check_members valid assignable l) /\
  forall i j, In (i, j) (check_members valid assignable l) <-> exists n t t', gets valid l i n t /\ sets valid l j n t' /\ paired valid l i j n /\ assignable t t' = false.
Proof. intros. apply check_ok. Qed.
Print Assumptions C75_reported.

(** With at most one getter and one setter of a name, the order does not matter. *)
Theorem C75_pairs : forall valid assignable l, one_each valid l ->
  forall i j, In (i, j) (check_members valid assignable l) <-> exists n t t', gets valid l i n t /\ sets valid l j n t' /\ assignable t t' = false.
Proof.
  intros valid assignable l U i j. rewrite (proj2 (C75_reported valid assignable l)). split; intros (n & t & t' & A & B & C); exists n, t, t'; [tauto|].
  split; auto. split; auto. split; auto. eapply paired_one; eauto.
Qed.
Print Assumptions C75_pairs.

(** Identifiers, private names and computed literals: the texts are the same for the same properties only. *)
Theorem C75_names : forall valid n n' k k', proper_identifiers valid -> proper valid n -> proper valid n' -> plain n -> plain n' -> has_key n k -> has_key n' k' ->
  (name_text valid n = name_text valid n' <-> k = k').
Proof. intros. now apply text_key. Qed.
Print Assumptions C75_names.

(** So, in a class with such names, all of its members static or none, and at most one getter and setter of a property: a getter is reported exactly if its property has a setter that does not take what it returns. *)
Theorem C75_properties : forall valid assignable l s, proper_identifiers valid ->
  (forall m, In m l -> static m = s /\ proper valid (named m) /\ plain (named m)) ->
  (forall k i j t t', getter_of l s k i t -> getter_of l s k j t' -> i = j) -> (forall k i j t t', setter_of l s k i t -> setter_of l s k j t' -> i = j) ->
  forall i, (exists j, In (i, j) (check_members valid assignable l)) <-> exists k j t t', getter_of l s k i t /\ setter_of l s k j t' /\ assignable t t' = false.
Proof.
  intros valid assignable l s V M UG US.
  assert (K : forall n, plain n -> exists k, has_key n k) by (intros [t|t|t|? ?]; cbn; [| | |tauto]; intros _; eexists; constructor).
  assert (G : forall i n t, gets valid l i n t -> exists m k, nth_error l i = Some m /\ In m l /\ name_text valid (named m) = n /\ has_key (named m) k /\ getter_of l s k i t).
  { intros i n t (m & A & B & C). assert (In m l) by (eapply nth_error_In; eauto). destruct (M m) as (M1 & M2 & M3); auto. destruct (K _ M3) as [k Kk]. exists m, k. repeat split; auto. exists m. auto. }
  assert (S' : forall i n t, sets valid l i n t -> exists m k, nth_error l i = Some m /\ In m l /\ name_text valid (named m) = n /\ has_key (named m) k /\ setter_of l s k i t).
  { intros i n t (m & A & B & C). assert (In m l) by (eapply nth_error_In; eauto). destruct (M m) as (M1 & M2 & M3); auto. destruct (K _ M3) as [k Kk]. exists m, k. repeat split; auto. exists m. auto. }
  assert (EQ : forall m m' k k', In m l -> In m' l -> has_key (named m) k -> has_key (named m') k' -> (name_text valid (named m) = name_text valid (named m') <-> k = k')).
  { intros m m' k k' A A' B B'. destruct (M m A) as (_ & M2 & M3). destruct (M m' A') as (_ & N2 & N3). now apply C75_names. }
  assert (O : one_each valid l).
  { split; intros i j n t t' A B.
    - apply G in A as (m & k & A1 & A2 & A3 & A4 & A5). apply G in B as (m' & k' & B1 & B2 & B3 & B4 & B5). assert (k = k') by (apply (EQ m m'); auto; congruence). subst. eauto.
    - apply S' in A as (m & k & A1 & A2 & A3 & A4 & A5). apply S' in B as (m' & k' & B1 & B2 & B3 & B4 & B5). assert (k = k') by (apply (EQ m m'); auto; congruence). subst. eauto. }
  intros i. split.
  - intros [j H]. apply (C75_pairs _ _ _ O) in H as (n & t & t' & A & B & C).
    apply G in A as (m & k & A1 & A2 & A3 & A4 & A5). apply S' in B as (m' & k' & B1 & B2 & B3 & B4 & B5). assert (k = k') by (apply (EQ m m'); auto; congruence). subst k'. exists k, j, t, t'. auto.
  - intros (k & j & t & t' & (m & A1 & A2 & A3 & A4) & (m' & B1 & B2 & B3 & B4) & C). exists j. apply (C75_pairs _ _ _ O). exists (name_text valid (named m)), t, t'.
    split; [exists m; auto|]. split; [|auto]. exists m'. split; auto. split; auto. symmetry. apply (EQ m m' k k); auto; eapply nth_error_In; eauto.
Qed.
Print Assumptions C75_properties.

(** Not so: static members and those of instances are told apart.  [class C { get x(): 1; static get x(): 2; set x(v: 3) }]: the setter is compared with the static getter; the getter of instances is not looked at. *)
Theorem C75_static_refuted : exists valid assignable l, one_each valid (filter (fun m => negb (static m)) l) /\
  check_members valid assignable (filter (fun m => negb (static m)) l) <> [] /\ check_members valid assignable (filter static l) = [] /\ check_members valid assignable l = [].
Proof.
  set (g s t := {| static := s; named := Identifier (b "x"); what := Getter (Some t) |}).
  exists (fun _ => true), (fun t _ => t =? 2), [g false 1; g true 2; {| static := false; named := Identifier (b "x"); what := Setter [3] |}].
  split.
  - split; intros i j n t t' (m & A & B & C) (m' & A' & B' & C'); destruct i as [|[|[|]]], j as [|[|[|]]]; cbn in *; try discriminate; auto;
      repeat match goal with H : Some _ = Some _ |- _ => injection H as <- end; discriminate.
  - split; [discriminate|]. split; reflexivity.
Qed.
Print Assumptions C75_static_refuted.
(** And a pair of a static setter and a getter of instances is reported. *)
Theorem C75_static_pair_refuted : exists l, (forall s k i j t t', ~ (getter_of l s k i t /\ setter_of l s k j t')) /\ check_members (fun _ => true) (fun _ _ => false) l = [(0, 1)].
Proof.
  exists [{| static := false; named := Identifier (b "x"); what := Getter (Some 1) |}; {| static := true; named := Identifier (b "x"); what := Setter [2] |}]. split; [|reflexivity].
  intros s k i j t t' [(m & A & B & _ & C) (m' & A' & B' & _ & C')]. destruct i as [|[|[|]]], j as [|[|[|]]]; cbn in *; try discriminate;
    repeat match goal with H : Some _ = Some _ |- _ => injection H as <- end; cbn in *; try discriminate; congruence.
Qed.
Print Assumptions C75_static_pair_refuted.

(** Not so: names written as string literals are read.  [get 'a'(): 1; set a(v: 2)] is one property and not looked at as a pair. *)
Theorem C75_quoted_refuted : forall valid, valid (b "a") = true -> exists n n' k, has_key n k /\ has_key n' k /\ proper valid n' /\ name_text valid n <> name_text valid n'.
Proof.
  intros valid E. exists (Written (b "'a'") (Some (b "a"))), (Identifier (b "a")), (Public (b "a")). split; [constructor|]. split; [constructor|]. split; [exact E | discriminate].
Qed.
Print Assumptions C75_quoted_refuted.
(** And [get "a\nb"(): 1; set ["a\\nb"](v: 2)] are two properties, with one text. *)
Theorem C75_escape_refuted : forall valid, proper_identifiers valid -> (forall t, valid t = true -> ~ In "\"%char t) ->
  exists n n' k k', has_key n k /\ has_key n' k' /\ k <> k' /\ name_text valid n = name_text valid n'.
Proof.
  intros valid _ V. exists (Written (b """a\nb""") (Some ["a"%char; "010"%char; "b"%char])), (Computed (b "a\nb")), (Public ["a"%char; "010"%char; "b"%char]), (Public (b "a\nb")).
  split; [constructor|]. split; [constructor|]. split; [discriminate|]. cbn [name_text]. destruct (valid (b "a\nb")) eqn:E; [|reflexivity]. exfalso. apply (V _ E). right; left; reflexivity.
Qed.
Print Assumptions C75_escape_refuted.

Definition ex_letters (t : bstr) : bool := forallb (fun c => (97 <=? nat_of_ascii c) && (nat_of_ascii c <=? 122)) t && negb (beqb t []).
Definition ex_get n t := {| static := false; named := n; what := Getter t |}.
Definition ex_set n l := {| static := false; named := n; what := Setter l |}.
(** Types fit if they are the same. [get a(): 1; set ["a"](v: 2); get #a(): 1; set ["#a"](v: 3); set c(v: 1); get c(): 1; get d(); set d(v: 2); get e(): 1; set e(); set e(v: 7)]. *)
Example C75_reported_example : check_members ex_letters Nat.eqb
  [ex_get (Identifier (b "a")) (Some 1); ex_set (Computed (b "a")) [2]; ex_get (Private (b "#a")) (Some 1); ex_set (Computed (b "#a")) [3]; ex_set (Identifier (b "c")) [1]; ex_get (Identifier (b "c")) (Some 1);
   ex_get (Identifier (b "d")) None; ex_set (Identifier (b "d")) [2]; ex_get (Identifier (b "e")) (Some 1); ex_set (Identifier (b "e")) []; ex_set (Identifier (b "e")) [7]] = [(0, 1); (8, 10)].
Proof. vm_compute. reflexivity. Qed.
(** Several of a name: the last getter before a setter, once a getter came first. *)
Example C75_several_example : check_members ex_letters (fun _ _ => false)
  [ex_get (Identifier (b "a")) (Some 1); ex_get (Identifier (b "a")) (Some 2); ex_set (Identifier (b "a")) [2]; ex_get (Identifier (b "a")) (Some 3); ex_set (Identifier (b "a")) [4]] = [(1, 2); (3, 4)].
Proof. vm_compute. reflexivity. Qed.
Example C75_names_example : proper_identifiers ex_letters /\ map (name_text ex_letters) [Identifier (b "a"); Computed (b "a"); Computed (b "1"); Written (b "[x + y]") None] = [b "a"; b "a"; b """1"""; b "[x + y]"].
Proof. split; [|vm_compute; reflexivity]. intros t E. split; intros [r ->]; cbn in E; discriminate. Qed.
