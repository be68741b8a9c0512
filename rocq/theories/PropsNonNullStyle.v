(** Properties of non-nullable-type-assertion-style (C84). *)
From Coq Require Import Bool Arith ZArith Ascii String List Lia Permutation.
From Verif Require Import Base Fixer FixerSpec FixerProofs.
From Verif Require Import FixPieces NonNullStyle NonNullStyleSpec NonNullStyleProofs.
Import ListNotations.

(** C84: an assertion is reported exactly if it takes away null and undefined and nothing else, and no type that is left may be one of them. *)
Theorem C84_reported : forall nullable constraint const original asserted,
  (forall o, original = Parts o -> NoDup o) ->
  (reported nullable constraint const original asserted = true <->
   const = false /\ exists o a, original = Parts o /\ asserted = Parts a /\ only_nulls nullable constraint o a).
Proof.
  intros nullable constraint const original asserted N. unfold reported, only_nulls.
  destruct const; [split; [discriminate|intros [E _]; discriminate]|].
  destruct original as [|o]; [split; [discriminate|intros (_ & o & a & E & _); discriminate]|].
  destruct asserted as [|a]; [split; [discriminate|intros (_ & o' & a & _ & E & _); discriminate]|].
  specialize (N o eq_refl). destruct (non_nullable_spec nullable o) as [_ B].
  pose proof (same_length nullable o N) as SL.
  destruct (Nat.eqb (List.length (non_nullable nullable o)) (List.length o)) eqn:L.
  { apply Nat.eqb_eq in L. rewrite SL in L. split; [discriminate|].
    intros (_ & o' & a' & Eo & _ & (t & I & T) & _). injection Eo as <-. rewrite (L t I) in T. discriminate. }
  assert (exists t, In t o /\ nullable t = true) as HN.
  { apply Nat.eqb_neq in L. destruct (existsb nullable o) eqn:X; [apply existsb_exists in X; exact X|].
    exfalso. apply L, SL. intros t I. destruct (nullable t) eqn:T; [|reflexivity].
    assert (existsb nullable o = true) by (apply existsb_exists; eauto). congruence. }
  destruct (asserted_set nullable constraint (non_nullable nullable o) a []) as [r|] eqn:A.
  - apply asserted_set_some in A as [A ->]. rewrite forallb_forall. split.
    + intros H. split; [reflexivity|]. exists o, a. split; [reflexivity|]. split; [reflexivity|]. split; [exact HN|]. split.
      * intros t. split; [intros I; apply B, A, I|]. intros I. apply B in I. apply H in I. apply mem_iff, in_fold_add in I. destruct I as [[]|I]; exact I.
      * intros t I. apply A, I.
    + intros (_ & o' & a' & Eo & Ea & _ & H & _) t I. injection Eo as <-. injection Ea as <-. apply mem_iff, in_fold_add. right. apply H, B, I.
  - split; [discriminate|]. intros (_ & o' & a' & Eo & Ea & _ & H & S0). injection Eo as <-. injection Ea as <-.
    assert (asserted_set nullable constraint (non_nullable nullable o) a [] = Some (fold_left (fun s t => add t s) a [])) as X; [|congruence].
    apply asserted_set_some. split; [|reflexivity]. intros t I. split; [apply S0, I|]. apply B, H, I.
Qed.
Print Assumptions C84_reported.

(** C84: so the asserted type takes the values of the original type that are neither null nor undefined, as with the operator that is suggested. *)
Theorem C84_values : forall nullable constraint (value : Type) (nullish : value -> Prop) has const o a,
  lawful nullable constraint nullish has -> NoDup o -> reported nullable constraint const (Parts o) (Parts a) = true ->
  forall v, holds has a v <-> holds has o v /\ ~ nullish v.
Proof.
  intros nullable constraint value nullish has const o a (L1 & L2 & L3 & L4) N R v.
  apply C84_reported in R; [|intros o' E; injection E as <-; exact N].
  destruct R as (_ & o' & a' & Eo & Ea & _ & H & S0). injection Eo as <-. injection Ea as <-. split.
  - intros (t & I & V). split; [exists t; split; [apply H, I|exact V]|].
    pose proof (S0 t I) as ST. unfold solid in ST. destruct (constraint t) as [c|] eqn:C.
    + destruct ST as (l & -> & P). destruct (L3 t l v C V) as (p & Ip & Vp). apply (L2 p); auto. eapply L4; eauto.
    + apply (L2 t); auto.
  - intros [(t & I & V) NV]. exists t. split; [|exact V]. apply H. split; [exact I|]. destruct (nullable t) eqn:T; [|reflexivity]. destruct NV. eapply L1; eauto.
Qed.
Print Assumptions C84_values.

Open Scope Z_scope.
(** C84: of an assertion with as the expression with ! is left, in parentheses where that is needed, and the space before it. *)
Theorem C84_as : forall (sf : list (fix_ ascii) -> list (fix_ ascii)) (sm : list (msg ascii) -> list (msg ascii)) is_assertion n s tight,
  correct_sort cmp_fix sf -> correct_sort cmp_msg sm -> is_assertion As = true -> expression s <> [] -> rest s <> [] ->
  apply_rule_fixes sf sm (as_text s) [mkMsg n (fixes is_assertion (as_node s tight))] = Ok (wanted s tight, [], true).
Proof.
  intros sf sm ia n [p sp e r q] tight C CM IA NE NR. cbn [expression rest] in NE, NR.
  pose proof (zlen_pos e NE). pose proof (zlen_pos r NR). pose proof (zlen_nonneg p). pose proof (zlen_nonneg sp).
  unfold as_text, as_node, wanted, fixes. cbn [before space expression rest after how npos nend epos estart eend NonNullStyle.tight]. rewrite IA. destruct tight.
  - apply pieces_text with (l := [Keep (p ++ sp ++ e); Swap [] (b "!"); Swap r []; Keep q]); auto; try texts.
    + cbn [piece_fixes]. eapply Permutation_trans; [apply perm_swap|]. match goal with |- Permutation ?x ?y => replace x with y; [apply Permutation_refl|] end. same_fixes.
    + discriminate.
    + no_repeats.
  - apply pieces_text with (l := [Keep (p ++ sp); Swap [] (b "("); Keep e; Swap [] (b ")!"); Swap r []; Keep q]); auto; try texts.
    + cbn [piece_fixes]. eapply Permutation_trans; [apply perm_swap|]. eapply Permutation_trans; [apply perm_skip, perm_swap|]. match goal with |- Permutation ?x ?y => replace x with y; [apply Permutation_refl|] end. same_fixes.
    + discriminate.
    + no_repeats.
Qed.
Print Assumptions C84_as.

(** C84 does not hold for assertions in angle brackets: where ast.IsAssertionExpression holds of them, too, the brackets stay. *)
Theorem C84_angle_refuted : exists (s : source) inner, forall is_assertion n, is_assertion Angle = true ->
  apply_rule_fixes fsort msort (angle_text s inner) [mkMsg n (fixes is_assertion (angle_node s inner true))] = Ok (b "return <string>x!;", [], true) /\ wanted s true = b "return x!;".
Proof.
  exists {| before := b "return"; space := b " "; expression := b "x"; rest := b "<string>"; after := b ";" |}, [].
  intros ia n IA. unfold fixes. cbn [how angle_node]. rewrite IA. split; vm_compute; reflexivity.
Qed.
Print Assumptions C84_angle_refuted.
(** Where it does not hold of them, the space before is removed as well, and the keyword before is lost. *)
Theorem C84_angle_space_refuted : exists (s : source) inner, forall is_assertion n, is_assertion Angle = false ->
  apply_rule_fixes fsort msort (angle_text s inner) [mkMsg n (fixes is_assertion (angle_node s inner true))] = Ok (b "returnx!;", [], true) /\ wanted s true = b "return x!;".
Proof.
  exists {| before := b "return"; space := b " "; expression := b "x"; rest := b "<string>"; after := b ";" |}, [].
  intros ia n IA. unfold fixes. cbn [how angle_node]. rewrite IA. split; vm_compute; reflexivity.
Qed.
Print Assumptions C84_angle_space_refuted.

(** string | undefined as string; number 2 is null, 3 a type parameter constrained to 0, 4 one without constraint. *)
Definition nul (t : typ) : bool := Nat.eqb t 1 || Nat.eqb t 2.
Definition con (t : typ) : option (option (list typ)) := if Nat.eqb t 3 then Some (Some [0%nat]) else if Nat.eqb t 4 then Some None else if Nat.eqb t 5 then Some (Some [0%nat; 1%nat]) else None.
Example C84_examples :
  reported nul con false (Parts [0; 1]%nat) (Parts [0]%nat) = true /\
  reported nul con false (Parts [0; 1; 2; 6]%nat) (Parts [6; 0]%nat) = true /\
  reported nul con false (Parts [0; 1; 2; 6]%nat) (Parts [0]%nat) = false /\
  reported nul con false (Parts [0; 1; 2]%nat) (Parts [0; 2]%nat) = false /\
  reported nul con false (Parts [0; 6]%nat) (Parts [0; 6]%nat) = false /\
  reported nul con false (Parts [3; 1]%nat) (Parts [3]%nat) = true /\
  reported nul con false (Parts [4; 1]%nat) (Parts [4]%nat) = false /\
  reported nul con false (Parts [5; 1]%nat) (Parts [5]%nat) = false /\
  reported nul con true (Parts [0; 1]%nat) (Parts [0]%nat) = false /\
  reported nul con false Loose (Parts [0]%nat) = false.
Proof. repeat split; reflexivity. Qed.
(** Values: numbers by type; 1 and 2 are null and undefined. *)
Example C84_lawful : lawful nul con (fun v => v = 1 \/ v = 2)%nat (fun t v => v = t /\ (t < 3)%nat \/ t = 3%nat /\ v = 0%nat).
Proof.
  split; [|split; [|split]].
  - intros t v T [[-> _]|[-> _]]; [|discriminate]. unfold nul in T. apply orb_true_iff in T. rewrite !Nat.eqb_eq in T. exact T.
  - intros t v T C [[-> _]|[-> ->]]; [|discriminate]. unfold nul in T. apply orb_false_iff in T. rewrite !Nat.eqb_neq in T. lia.
  - intros t l v C [[-> L]|[-> ->]].
    + destruct t as [|[|[|t]]]; try discriminate. lia.
    + injection C as <-. exists 0%nat. split; [left; reflexivity|left; lia].
  - intros t l p C I. unfold con in C. destruct (Nat.eqb t 3); [injection C as <-; destruct I as [<-|[]]; reflexivity|]. destruct (Nat.eqb t 4); [discriminate|]. destruct (Nat.eqb t 5); [injection C as <-; destruct I as [<-|[<-|[]]]; reflexivity|discriminate].
Qed.
Example C84_text : wanted {| before := b "f("; space := []; expression := b "await p"; rest := b " as string"; after := b ");" |} false = b "f((await p)!);".
Proof. vm_compute. reflexivity. Qed.
