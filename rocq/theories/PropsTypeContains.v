(** C91: what a type contains, in no-unnecessary-type-assertion. *)
From Coq Require Import Bool Arith Ascii String List Lia.
From Verif Require Import Base EngineProofs.
From Verif Require Import TypeContains TypeContainsSpec TypeContainsProofs.
Import ListNotations.

(** If it is said that a type contains nothing that the predicate holds of, it does not, through parts, arguments, parameters and results. *)
Theorem C91_no : forall info predicate n t, type_contains info predicate n t = Some false -> forall u, within info t u -> predicate u = false.
Proof.
  intros info predicate n t E u. unfold type_contains in E. destruct (contains info predicate n t _) as [[[] s]|] eqn:C; try discriminate. eapply contains_false; eauto.
Qed.
Print Assumptions C91_no.
(** If it is said that it contains something, it does, or within a signature there is one of the same origin. *)
Theorem C91_yes : forall info predicate n t, type_contains info predicate n t = Some true -> (exists u, within info t u /\ predicate u = true) \/ nested info t.
Proof.
  intros info predicate n t E. unfold type_contains in E. destruct (contains info predicate n t _) as [[[] s]|] eqn:C; try discriminate. eapply contains_true; [|exact C].
  split; [constructor|]. intros k [].
Qed.
Print Assumptions C91_yes.
(** So without nested signatures the answer is exact. *)
Theorem C91_exact : forall info predicate n t x, ~ nested info t -> type_contains info predicate n t = Some x -> (x = true <-> exists u, within info t u /\ predicate u = true).
Proof.
  intros info predicate n t [] N E.
  - split; auto. intros _. destruct (C91_yes _ _ _ _ E); tauto.
  - split; [discriminate|]. intros (u & W & P). rewrite (C91_no _ _ _ _ E u W) in P. discriminate.
Qed.
Print Assumptions C91_exact.
(** There is an answer, the same with more steps, even if there are ever new types within: it is enough that signatures have finitely many origins and that each type has finitely many parts and arguments. *)
Theorem C91_ends : forall info predicate ids t,
  (forall u g k, In g (signatures (info u)) -> origin g k -> In k ids) ->
  (forall u, exists l, In u l /\ forall v w, In v l -> plain info v w -> In w l) ->
  exists n x, forall m, n <= m -> type_contains info predicate m t = Some x.
Proof.
  intros info predicate ids t I F. destruct (contains_ends info predicate ids I F t {| seen := []; active := [] |}) as (n & [x s] & E).
  exists n, x. intros m M. unfold type_contains. rewrite (contains_mono _ _ n m _ _ _ M E). auto.
Qed.
Print Assumptions C91_ends.
(** A true may be said where nothing is contained. *)
Theorem C91_cautious_refuted : exists info predicate n t, type_contains info predicate n t = Some true /\ forall u, predicate u = false.
Proof.
  exists (fun t => {| union_parts := [t]; intersection_parts := [t]; alias_arguments := None; reference := false; reference_arguments := []; signatures := [Sig (S t) (Some (Sig 0 None [] 0)) [] (S t)] |}), (fun _ => false), 3, 0.
  split; [vm_compute; reflexivity|auto].
Qed.
Print Assumptions C91_cautious_refuted.

(** The type arguments are the same exactly if they are so one by one. *)
Theorem C91_same_arguments : forall info t u, same_type_arguments info t u = true <-> type_arguments info t = type_arguments info u.
Proof. intros info t u. apply same_list_eq. Qed.
Print Assumptions C91_same_arguments.
(** The arguments are those of the alias if it has some. *)
Theorem C91_arguments : forall info t u, In u (type_arguments info t) <-> argument info t u.
Proof. exact arguments_in. Qed.
Print Assumptions C91_arguments.
(** Unions are the same apart from undefined exactly if they have the same other parts. *)
Theorem C91_same_parts : forall info undefined uncast cast, NoDup (union_parts (info cast)) ->
  (same_parts info undefined uncast cast = true <-> forall x, undefined x = false -> (In x (union_parts (info uncast)) <-> In x (union_parts (info cast)))).
Proof. intros info undefined. exact (same_parts_exact info (fun _ => true) undefined). Qed.
Print Assumptions C91_same_parts.
(** Properties are the same exactly if they have the same names and are readonly in both or in none. *)
Theorem C91_same_properties : forall uncast cast, NoDup (map pname uncast) -> NoDup (map pname cast) -> (same_properties uncast cast = true <-> forall p, In p uncast <-> In p cast).
Proof. exact same_properties_exact. Qed.
Print Assumptions C91_same_properties.

(* 0 any; 1 string; 2 Array<any>; 3 string | (x: string) => any[]; 4 string & string-like; 5 two signatures of one origin side by side; 6 interface F { (): F }; 7 alias with string over Array<any>; 8 the function of 3 *)
Definition leaf (t : nat) := {| union_parts := [t]; intersection_parts := [t]; alias_arguments := None; reference := false; reference_arguments := []; signatures := [] |}.
Definition sample (t : nat) : type_info :=
  match t with
  | 2 => {| union_parts := [2]; intersection_parts := [2]; alias_arguments := None; reference := true; reference_arguments := [0]; signatures := [] |}
  | 3 => {| union_parts := [1; 8]; intersection_parts := [3]; alias_arguments := None; reference := false; reference_arguments := []; signatures := [] |}
  | 4 => {| union_parts := [4]; intersection_parts := [1; 9]; alias_arguments := Some []; reference := false; reference_arguments := []; signatures := [] |}
  | 5 => {| union_parts := [5]; intersection_parts := [5]; alias_arguments := None; reference := false; reference_arguments := []; signatures := [Sig 1 None [1] 4; Sig 2 (Some (Sig 1 None [1] 4)) [4] 1] |}
  | 6 => {| union_parts := [6]; intersection_parts := [6]; alias_arguments := None; reference := false; reference_arguments := []; signatures := [Sig 3 None [] 6] |}
  | 7 => {| union_parts := [7]; intersection_parts := [7]; alias_arguments := Some [1]; reference := true; reference_arguments := [0]; signatures := [] |}
  | 8 => {| union_parts := [8]; intersection_parts := [8]; alias_arguments := None; reference := false; reference_arguments := []; signatures := [Sig 4 None [1] 2] |}
  | _ => leaf t
  end.
Example C91_sample : map (type_contains sample (Nat.eqb 0) 6) (seq 0 9) =
  [Some true; Some false; Some true; Some true; Some false; Some false; Some false; Some false; Some true].
Proof. vm_compute. reflexivity. Qed.
Example C91_sample_same : same_type_arguments sample 2 7 = false /\ same_type_arguments sample 1 4 = true /\ type_arguments sample 7 = [1] /\ type_arguments sample 2 = [0].
Proof. vm_compute. auto. Qed.
Example C91_sample_parts :
  let info t := {| union_parts := match t with 0 => [1; 9; 2] | 1 => [2; 1] | 2 => [2; 3] | _ => [1; 2; 3] end; intersection_parts := [t]; alias_arguments := None; reference := false; reference_arguments := []; signatures := [] |} in
  map (fun '(x, y) => same_parts info (Nat.eqb 9) x y) [(0, 1); (1, 0); (0, 2); (0, 3); (3, 0)] = [true; true; false; false; false].
Proof. vm_compute. reflexivity. Qed.
Definition p (n : string) (r : bool) := {| pname := b n; readonly := r |}.
Example C91_sample_properties :
  same_properties [p "a" true; p "b" false] [p "b" false; p "a" true] = true /\ same_properties [p "a" true] [p "a" false] = false /\ same_properties [p "a" true] [p "c" true] = false /\ same_properties [p "a" true] [p "b" false; p "a" true] = false.
Proof. vm_compute. auto. Qed.
(* ever new types *)
Example C91_sample_endless : forall predicate, exists n x, forall m, n <= m ->
  type_contains (fun t => {| union_parts := [t]; intersection_parts := [t]; alias_arguments := None; reference := false; reference_arguments := []; signatures := [Sig (S t) (Some (Sig 0 None [] 0)) [] (S t)] |}) predicate m 0 = Some x.
Proof.
  intros predicate. apply C91_ends with (ids := [0]).
  - cbn. intros u g k [<-|[]] O. inversion O as [|? ? ? ? ? O']; subst. inversion O'; subst. auto.
  - intros u. exists [u]. split; [left; auto|]. intros v w [<-|[]] [I|I|A]; cbn in *; auto. inversion A; cbn in *; discriminate.
Qed.
