From Coq Require Import Bool Arith List Lia.
From Verif Require Import Unchanged UnchangedSpec UnchangedProofs.
Import ListNotations.

(** An assertion leaves a type unchanged exactly for one of four reasons. *)
Theorem C107_exact : forall of same_parts same_properties same_arguments assignable o l written e u c,
  unchanged of same_parts same_properties same_arguments assignable o l written e u c = true <-> leaves of same_parts same_properties same_arguments assignable o l written e u c.
Proof. exact unchanged_iff. Qed.
Print Assumptions C107_exact.
(** If types that differ are taken for unchanged then they have the same parts but for undefined, or the assertion only takes away null and undefined that were not there, or they are assignable both ways. *)
Theorem C107_sound : forall of same_parts same_properties same_arguments assignable o l written e u c,
  unchanged of same_parts same_properties same_arguments assignable o l written e u c = true -> u <> c ->
  (same_parts u c = true /\ undefined_flag (of u) = true /\ undefined_flag (of c) = true)
  \/ only_non_null of u c
  \/ (assignable u c = true /\ assignable c u = true /\ same_properties u c = true /\ same_arguments u c = true /\ any_inside (of u) = false /\ any_inside (of c) = false /\ (indexed of u <-> indexed of c)).
Proof.
  intros of sp spr sa asg o l w e u c H D. apply unchanged_iff in H. destruct H as [E|NP [X1 [X2 X3]] S0|NP NX NT IU N|NP NX NT NI S1 S2 A1 A2]; [contradiction|auto|auto|]. right. right. repeat split; auto.
  - destruct (any_inside (of u)) eqn:K; auto. exfalso. apply NT. apply t_any_before; auto.
  - destruct (any_inside (of c)) eqn:K; auto. exfalso. apply NT. apply t_any; auto.
  - intros I1. destruct (has_index of c) eqn:K; [apply has_index_iff; exact K|]. exfalso. apply NT. apply t_index_lost; auto. rewrite <- has_index_iff. congruence.
  - intros I1. destruct (has_index of u) eqn:K; [apply has_index_iff; exact K|]. exfalso. apply NT. apply t_index_won; auto. rewrite <- has_index_iff. congruence.
Qed.
Print Assumptions C107_sound.
(** Literals other than filled objects keep every assertion to another type (undefined aside). *)
Theorem C107_literals : forall of same_parts same_properties same_arguments assignable o l written e u c, plain_literal e \/ e = E_object 0 -> u <> c -> undefined_flag (of u) = false ->
  unchanged of same_parts same_properties same_arguments assignable o l written e u c = false.
Proof.
  intros of sp spr sa asg o l w e u c P D U. destruct (unchanged of sp spr sa asg o l w e u c) eqn:H; auto. exfalso. apply unchanged_iff in H.
  assert (T : by_type of e u c) by (destruct P; [apply t_literal|apply t_empty]; auto). destruct H as [E|NP [X1 [X2 X3]] S0|NP NX NT IU N|NP NX NT NI S1 S2 A1 A2]; try contradiction. congruence.
Qed.
Print Assumptions C107_literals.
(** The type before the assertion. *)
Theorem C107_before : forall undefined void returned context_free at_location e,
  (forall typed r l, at_once e typed -> returned = r :: l -> uncast_type undefined void returned context_free at_location e = if negb typed && undefined r then void else r) /\
  ((forall typed, ~ at_once e typed) \/ returned = [] ->
     (forall t, result_of_call e -> context_free = Some t -> uncast_type undefined void returned context_free at_location e = t) /\
     (~ result_of_call e \/ context_free = None -> uncast_type undefined void returned context_free at_location e = at_location)).
Proof.
  intros und void ret cf loc e. unfold uncast_type. split.
  - intros typed r l A ->. apply iife_iff in A. rewrite A. reflexivity.
  - intros H. assert (R : match iife e, ret with Some typed, r :: _ => if negb typed && und r then void else r | _, _ => if call_like e then match cf with Some t => t | None => loc end else loc end = (if call_like e then match cf with Some t => t | None => loc end else loc)).
    { destruct (iife e) as [typed|] eqn:I; [|reflexivity]. destruct H as [H| ->]; [exfalso; apply (H typed); apply iife_iff; exact I|reflexivity]. }
    rewrite R. split.
    + intros t C ->. apply call_like_iff in C. rewrite C. reflexivity.
    + intros [C| ->]; [|destruct (call_like e); reflexivity]. destruct (call_like e) eqn:K; [exfalso; apply C; apply call_like_iff; exact K|reflexivity].
Qed.
Print Assumptions C107_before.

Definition base : info := {| type_parameter := false; non_primitive := false; undefined_flag := false; literal_flag := false; union_parts := []; intersection := None; calls := 0; constructs := 0; indexes := 0;
  properties := []; any_inside := false; variable_inside := false; constraint := None; nullable := false |}.
Definition undef : info := {| type_parameter := false; non_primitive := false; undefined_flag := true; literal_flag := false; union_parts := []; intersection := None; calls := 0; constructs := 0; indexes := 0;
  properties := []; any_inside := false; variable_inside := false; constraint := None; nullable := true |}.
Definition union (l : list nat) : info := {| type_parameter := false; non_primitive := false; undefined_flag := false; literal_flag := false; union_parts := l; intersection := None; calls := 0; constructs := 0; indexes := 0;
  properties := []; any_inside := false; variable_inside := false; constraint := None; nullable := false |}.
Definition tparam (k : nat) : info := {| type_parameter := true; non_primitive := false; undefined_flag := false; literal_flag := false; union_parts := []; intersection := None; calls := 0; constructs := 0; indexes := 0;
  properties := []; any_inside := false; variable_inside := true; constraint := Some k; nullable := false |}.
Definition inter (l : list nat) : info := {| type_parameter := false; non_primitive := false; undefined_flag := false; literal_flag := false; union_parts := []; intersection := Some l; calls := 0; constructs := 0; indexes := 0;
  properties := []; any_inside := false; variable_inside := true; constraint := None; nullable := false |}.
Definition strict := {| no_unchecked_indexed_access := true; exact_optional := true |}.
Definition loose := {| no_unchecked_indexed_access := false; exact_optional := false |}.
(** With exactOptionalPropertyTypes unions that differ only in which undefined they have are not seen: the flag is looked for in the union's own flags. *)
Theorem C107_exact_optional_refuted : exists of same_parts assignable u c, (exists p, In p (union_parts (of u)) /\ undefined_flag (of p) = true) /\ (exists p, In p (union_parts (of c)) /\ undefined_flag (of p) = true) /\
  same_parts u c = true /\ unchanged of same_parts (fun _ _ => true) (fun _ _ => true) assignable strict [] false E_other u c = false.
Proof.
  exists (fun t => match t with 0 => union [2; 3] | 1 => union [2; 4] | 2 => base | _ => undef end), (fun _ _ => true), (fun u c => Nat.eqb u 1 && Nat.eqb c 0), 0, 1.
  split; [exists 3; split; [cbn; auto|reflexivity]|]. split; [exists 4; split; [cbn; auto|reflexivity]|]. split; reflexivity.
Qed.
Print Assumptions C107_exact_optional_refuted.
(** ... it is for undefined alone. *)
Example C107_exact_optional_ex : unchanged (fun _ => undef) (fun _ _ => true) (fun _ _ => true) (fun _ _ => true) (fun _ _ => false) strict [] false E_other 0 1 = true.
Proof. reflexivity. Qed.
(** [a[x as K] = 1]: nothing is written to through x, but it is taken for that. *)
Theorem C107_argument_refuted : exists of k,
  unchanged of (fun _ _ => true) (fun _ _ => true) (fun _ _ => true) (fun _ _ => true) loose [Access true true] false E_other 0 k = false /\
  unchanged of (fun _ _ => true) (fun _ _ => true) (fun _ _ => true) (fun _ _ => true) loose [Access true false; Elsewhere] false E_other 0 k = true.
Proof. exists (fun t => match t with 0 => tparam 2 | _ => base end), 1. split; reflexivity. Qed.
Print Assumptions C107_argument_refuted.
(** JSX elements are literals, but not those that close themselves. *)
Theorem C107_self_closing_refuted : exists of, 
  unchanged of (fun _ _ => true) (fun _ _ => true) (fun _ _ => true) (fun _ _ => true) loose [] false E_jsx_self_closing 0 1 = true /\
  unchanged of (fun _ _ => true) (fun _ _ => true) (fun _ _ => true) (fun _ _ => true) loose [] false E_jsx_element 0 1 = false.
Proof. exists (fun _ => base). split; reflexivity. Qed.
Print Assumptions C107_self_closing_refuted.
(** The type returned by a generic function that is called at once is not that of the call: [(<T>(x: T) => x)(3) as number]. *)
Theorem C107_generic_function_refuted : exists returned number e, at_once e false /\ uncast_type (fun _ => false) 9 [returned] (Some number) number e = returned /\ returned <> number.
Proof. exists 0, 1, (O_call (C_parens (C_function false))). split; [exists 0, 1; reflexivity|]. split; [reflexivity|discriminate]. Qed.
Print Assumptions C107_generic_function_refuted.
(** T & {} *)
Example C107_non_null_ex :
  let f (k : bool) := fun t : nat => match t with 0 => tparam 2 | 1 => inter [0; 3] | 2 => if k then undef else base | _ => base end in
  unchanged (f false) (fun _ _ => false) (fun _ _ => false) (fun _ _ => false) (fun _ _ => false) loose [] false E_other 0 1 = true
  /\ unchanged (f true) (fun _ _ => false) (fun _ _ => false) (fun _ _ => false) (fun _ _ => false) loose [] false E_other 0 1 = false
  /\ unchanged (f false) (fun _ _ => false) (fun _ _ => false) (fun _ _ => false) (fun _ _ => false) loose [Parens; Access false false; Parens; Access false true] false E_other 0 1 = false
  /\ unchanged (f false) (fun _ _ => false) (fun _ _ => false) (fun _ _ => false) (fun _ _ => false) loose [] true E_other 0 1 = false.
Proof. repeat split. Qed.
Example C107_before_ex :
  uncast_type (fun t => Nat.eqb t 7) 9 [7; 1] (Some 5) 6 (O_parens (O_call (C_function false))) = 9 /\ uncast_type (fun t => Nat.eqb t 7) 9 [7; 1] (Some 5) 6 (O_call (C_function true)) = 7
  /\ uncast_type (fun _ => false) 9 [7] (Some 5) 6 (O_await (O_parens (O_call (C_function true)))) = 5 /\ uncast_type (fun _ => false) 9 [7] (Some 5) 6 (O_await O_other) = 6.
Proof. repeat split. Qed.
