(** C76: type arguments that are the default. *)
From Coq Require Import Bool Arith ZArith List Permutation Sorted Lia.
From Verif Require Import TypeArguments TypeArgumentsSpec TypeArgumentsProofs.
Import ListNotations.
Open Scope nat_scope.

(** ** C76: the last type argument is reported if it is the default of its type parameter *)

(** And if no arguments of a new expression could be used to infer the type parameters, should no type argument be left. *)
Theorem C76_reported : forall reference den u arguments ps, faithful reference den ->
  (check reference u arguments ps = true <-> exists l p a d, ps = Some l /\ arguments <> [] /\ nth_error l (length arguments - 1) = Some p /\ nth_error arguments (length arguments - 1) = Some a /\
     default p = Some d /\ den d = den a /\ (length arguments = 1 -> forall q, In q l -> ~ may_say u (symbol q))).
Proof. intros. now apply check_ok. Qed.
Print Assumptions C76_reported.

(** Without it, the type arguments stand for the same types, if its type does not mention the type parameters of the declaration. *)
Theorem C76_same_types : forall reference den u arguments a ps r, faithful reference den -> check reference u (arguments ++ [a]) (Some ps) = true ->
  (forall p, In p ps -> ~ occurs_in (symbol p) (den a)) ->
  filled den [] ps (map den (arguments ++ [a])) r -> filled den [] ps (map den arguments) r.
Proof.
  intros reference den u arguments a ps r F C N FI. apply (C76_reported _ den) in C as (l & p & a' & d & [= <-] & _ & P & A & D & E & _); auto.
  rewrite app_length in P, A. cbn [length] in P, A. replace (length arguments + 1 - 1) with (length arguments) in P, A by lia.
  rewrite nth_error_app2, Nat.sub_diag in A by lia. cbn in A. injection A as <-.
  rewrite map_app in FI. cbn [map] in FI. eapply (drop_last den ps [] (map den arguments) (den a) r (length arguments) p d); eauto.
  - now rewrite map_length.
  - cbn. intros s [Q|[]]. apply in_map_iff in Q as (q & <- & Q). auto.
Qed.
Print Assumptions C76_same_types.

(** Also for new expressions, where without type arguments types are inferred from the arguments that may say something. *)
Theorem C76_same_inference : forall reference den u a ps r candidate, faithful reference den -> check reference u [a] (Some ps) = true ->
  (forall p, In p ps -> ~ occurs_in (symbol p) (den a)) -> (forall s, candidate s <> None -> may_say u s) ->
  filled den [] ps [den a] r -> inferred den candidate [] ps r.
Proof.
  intros reference den u a ps r c F C N CA FI. apply no_candidates.
  - intros p P. destruct (c (symbol p)) eqn:Q; auto. exfalso. apply (C76_reported _ den) in C as (l & q & a' & d & [= <-] & _ & _ & _ & _ & _ & M); auto. apply (M eq_refl p P). apply CA. congruence.
  - apply (C76_same_types reference den u [] a ps r); auto.
Qed.
Print Assumptions C76_same_inference.

(** Not so: it is always the same.  [class A<T, U = T> { x: A<string, T> }]: the default of U is T, but without the second type argument it is string. *)
Theorem C76_inside_refuted : exists reference den u arguments ps r, faithful reference den /\ check reference u arguments (Some ps) = true /\ filled den [] ps (map den arguments) r /\ ~ filled den [] ps (map den (removelast arguments)) r.
Proof.
  exists (fun _ => None), (fun n => if n =? 1 then Par 1 else App n []), {| new_ := false; value_arguments := 0; signature_types := None |}, [5; 1], [{| symbol := 1; default := None |}; {| symbol := 2; default := Some 1 |}], [App 5 []; Par 1].
  split; [|split; [reflexivity|split]].
  - split; [discriminate|]. intros t u. destruct (Nat.eqb_spec t 1), (Nat.eqb_spec u 1); subst; auto; try discriminate. intros [= ->]. auto.
  - repeat constructor.
  - intros F. cbn in F. inversion F; subst. match goal with H : filled _ _ _ [] _ |- _ => inversion H as [| |env p ps d r D F2 Q1 Q2 Q3 Q4] end. cbn in D. injection D as <-. discriminate.
Qed.
Print Assumptions C76_inside_refuted.

(** Not so: calls are looked at as new expressions are.  [function f<T = string>(x: T)] with [f<string>(x)]: without the type argument T is inferred from x. *)
Theorem C76_call_refuted : exists reference den u a ps r candidate, faithful reference den /\ check reference u [a] (Some ps) = true /\ (forall p, In p ps -> ~ occurs_in (symbol p) (den a)) /\
  (forall s, candidate s <> None -> value_arguments u <> 0 /\ exists l n, signature_types u = Some l /\ In n l /\ named_in s n) /\
  filled den [] ps [den a] r /\ ~ inferred den candidate [] ps r.
Proof.
  exists (fun _ => None), (fun n => App n []), {| new_ := false; value_arguments := 1; signature_types := Some [Node (Some 1) []] |}, 5, [{| symbol := 1; default := Some 5 |}], [App 5 []], (fun s => if s =? 1 then Some (App 6 []) else None).
  split; [|split; [reflexivity|split; [|split; [|split]]]].
  - split; [discriminate|]. intros t u [= ->]. auto.
  - intros p _ O. inversion O as [|c l t I' O']; subst. destruct I'.
  - intros s H. assert (s = 1) by (apply Nat.eqb_eq; destruct (s =? 1); congruence). subst s. split; [discriminate|]. exists [Node (Some 1) []], (Node (Some 1) []). split; [reflexivity|]. split; [now left | constructor].
  - repeat constructor.
  - intros H. inversion H; subst; cbn in *; discriminate.
Qed.
Print Assumptions C76_call_refuted.

(** * Declarations *)
(** In places for types the type parameters are those of an interface or alias, elsewhere those of a class or of what a variable constructs, if there is one; in whatever order the declarations are, and whatever the sorting does with equal ones. *)
Theorem C76_declarations : forall sort types l ps, sorts sort -> parameters_from_type sort types l = Some ps ->
  exists d, In d l /\ says d ps /\ (fits types d \/ forall d' qs, In d' l -> fits types d' -> ~ says d' qs).
Proof. intros. eapply declarations_ok; eauto. Qed.
Print Assumptions C76_declarations.
Theorem C76_no_declaration : forall sort types l, sorts sort -> (parameters_from_type sort types l = None <-> forall d qs, In d l -> ~ says d qs).
Proof. intros. now apply declarations_none. Qed.
Print Assumptions C76_no_declaration.
(** Calls: the type parameters of the signature, otherwise for new expressions those of the class. *)
Theorem C76_calls : forall signature is_new from_type ps, parameters_from_call signature is_new from_type = Some ps <->
  (signature = Some ps /\ ps <> []) \/ ((signature = None \/ signature = Some []) /\ is_new = true /\ from_type = Some ps).
Proof.
  intros signature is_new from_type ps. unfold parameters_from_call. destruct signature as [[|p l]|], is_new; split; intros H; try discriminate; try (destruct H as [[? ?]|[[?|?] [? ?]]]; congruence); auto.
  all: first [left; split; congruence | right; split; [auto | split; congruence] | idtac].
Qed.
Print Assumptions C76_calls.
Theorem C76_places : forall p, in_type_context p = true <-> p <> Elsewhere.
Proof. intros []; cbn; split; congruence. Qed.
Print Assumptions C76_places.

(** * Removed text *)
(** An only type argument goes with its brackets, and a comma after it. *)
Theorem C76_removed_only : forall (A : Type) (before node comma tail after : list A) (less greater : A),
  remove_range (removed {| start := length before; nodes := sizes [(node, comma)]; tail := length tail |}) (before ++ less :: list_text [(node, comma)] ++ tail ++ greater :: after) = before ++ after.
Proof.
  intros. replace (before ++ less :: list_text [(node, comma)] ++ tail ++ greater :: after) with (before ++ (less :: list_text [(node, comma)] ++ tail ++ [greater]) ++ after) by (repeat (rewrite <- ?app_assoc; cbn [app]); reflexivity).
  apply remove_mid; cbn [start nodes TypeArguments.tail]; [lia|]. rewrite list_end_ok. cbn [length]. rewrite !app_length. cbn [length]. lia.
Qed.
Print Assumptions C76_removed_only.
(** The last of several goes with the comma before it; one after it stays. *)
Theorem C76_removed_last : forall (A : Type) (before : list A) l node comma last comma' (tail after : list A) (less greater : A),
  remove_range (removed {| start := length before; nodes := sizes (l ++ [(node, comma); (last, comma')]); tail := length tail |}) (before ++ less :: list_text (l ++ [(node, comma); (last, comma')]) ++ tail ++ greater :: after)
  = before ++ less :: list_text (l ++ [(node, comma')]) ++ tail ++ greater :: after.
Proof.
  intros. unfold removed. cbn [start nodes TypeArguments.tail]. 
  assert (SL : length (sizes (l ++ [(node, comma); (last, comma')])) = length l + 2) by (unfold sizes; rewrite map_length, app_length; reflexivity). rewrite SL.
  replace (length l + 2 - 1 =? 0) with false by (symmetry; apply Nat.eqb_neq; lia). replace (length l + 2 - 1 - 1) with (length l) by lia. replace (length l + 2 - 1) with (length (l ++ [(node, comma)])) by (rewrite app_length; cbn; lia).
  rewrite node_end_ok. replace (l ++ [(node, comma); (last, comma')]) with ((l ++ [(node, comma)]) ++ [(last, comma')]) by now rewrite <- app_assoc.
  rewrite node_end_ok. unfold list_text. rewrite !flat_map_app. cbn [flat_map fst snd].
  set (x := flat_map _ l).
  replace (before ++ less :: ((x ++ (node ++ comma) ++ []) ++ (last ++ comma') ++ []) ++ tail ++ greater :: after) with ((before ++ less :: x ++ node) ++ (comma ++ last) ++ (comma' ++ tail ++ greater :: after)) by (rewrite !app_nil_r; repeat (rewrite <- ?app_assoc; cbn [app]); reflexivity).
  rewrite remove_mid.
  - rewrite !app_nil_r; repeat (rewrite <- ?app_assoc; cbn [app]); reflexivity.
  - rewrite !app_length. cbn [length]. rewrite !app_length. lia.
  - rewrite !app_length. cbn [length]. rewrite !app_length. cbn [length]. lia.
Qed.
Print Assumptions C76_removed_last.

(** Promise<number> as types 7 and 8, of the target 3 and number 4; A<T = Promise<number>, U = number>. *)
Definition ex_reference (t : nat) : option (nat * list nat) := match t with 3 => Some (3, [10]) | 7 | 8 => Some (3, [4]) | _ => None end.
Definition ex_parameters : list parameter := [{| symbol := 20; default := Some 7 |}; {| symbol := 21; default := Some 4 |}].
Definition ex_plain : use := {| new_ := false; value_arguments := 0; signature_types := None |}.
Definition ex_new (n : nat) (t : tnode) : use := {| new_ := true; value_arguments := n; signature_types := Some [Node None []; t] |}.
Example C76_reported_example :
  map (fun l => check ex_reference ex_plain l (Some ex_parameters)) [[]; [8]; [7]; [3]; [4]; [8; 4]; [4; 4]; [4; 8]; [8; 4; 4]] = [false; true; true; false; false; true; true; false; false] /\
  map (fun u => check ex_reference u [8] (Some ex_parameters)) [ex_new 0 (Node (Some 21) []); ex_new 1 (Node None [Node (Some 21) []]); ex_new 1 (Node (Some 22) [])] = [true; false; true] /\
  check ex_reference (ex_new 1 (Node (Some 21) [])) [8; 4] (Some ex_parameters) = true.
Proof. vm_compute. auto. Qed.
Definition ex_den (t : nat) : ty := match t with 10 => Par 10 | 3 => App 3 [Par 10] | 7 | 8 => App 3 [App 4 []] | t => App t [] end.
(** The same types in both ways. *)
Example C76_same_types_example : filled ex_den [] ex_parameters (map ex_den [8; 4]) [App 3 [App 4 []]; App 4 []] /\ filled ex_den [] ex_parameters (map ex_den [8]) [App 3 [App 4 []]; App 4 []] /\ filled ex_den [] ex_parameters [] [App 3 [App 4 []]; App 4 []].
Proof.
  assert (L : forall env, filled ex_den env [{| symbol := 21; default := Some 4 |}] [] [App 4 []]). { intros env. change (App 4 []) with (subst env (ex_den 4)). apply FDefault; [reflexivity | constructor]. }
  split; [repeat constructor|]. split; [apply FWritten, L|]. change (App 3 [App 4 []]) with (subst [] (ex_den 7)). apply FDefault; [reflexivity | apply L].
Qed.
Example C76_faithful_example : faithful ex_reference ex_den.
Proof.
  assert (R : forall t, (t = 3 /\ ex_reference t = Some (3, [10]) /\ ex_den t = App 3 [Par 10]) \/ ((t = 7 \/ t = 8) /\ ex_reference t = Some (3, [4]) /\ ex_den t = App 3 [App 4 []]) \/
    (t = 10 /\ ex_reference t = None /\ ex_den t = Par 10) \/ (t <> 3 /\ ex_reference t = None /\ ex_den t = App t [])).
  { intros t. do 11 (destruct t as [|t]; [cbn; repeat (split || (left; split; auto; fail) || right); auto; try lia; fail|]). right; right; right. repeat split; auto; discriminate. }
  split.
  - intros t x l H. destruct (R t) as [(-> & _ & _)|[(E & A & B)|[(_ & A & _)|(_ & A & _)]]]; [cbn in H | | congruence | congruence].
    + injection H as <- <-. split; [reflexivity | discriminate].
    + rewrite A in H. injection H as <- <-. rewrite B. split; [reflexivity | discriminate].
  - intros t u H. destruct (R t) as [(E & A & B)|[(E & A & B)|[(E & A & B)|(E & A & B)]]], (R u) as [(E' & A' & B')|[(E' & A' & B')|[(E' & A' & B')|(E' & A' & B')]]]; rewrite B, B' in H; try discriminate; try (left; congruence).
    right. eauto.
Qed.
(** Sorting by twice filtering. *)
Definition ex_sort (cmp : declaration -> declaration -> Z) (l : list declaration) : list declaration :=
  let low x := forallb (fun y => (0 <=? cmp y x)%Z) l in filter low l ++ filter (fun x => negb (low x)) l.
Lemma filter_both {A} (f : A -> bool) l : Permutation (filter f l ++ filter (fun x => negb (f x)) l) l.
Proof.
  induction l as [|x l IH]; cbn [filter]; [apply perm_nil|]. destruct (f x); cbn [negb app]; [apply perm_skip, IH|].
  apply Permutation_sym, Permutation_cons_app, Permutation_sym, IH.
Qed.
Lemma ex_sorts : sorts ex_sort.
Proof.
  intros types l. unfold ex_sort. set (low x := forallb _ l).
  assert (LO : forall x, In x l -> (low x = true <-> (forall y, In y l -> fits types y -> fits types x))).
  { intros x _. unfold low. rewrite forallb_forall. split; intros H y Y; [exact (proj1 (compare_fits types x y) (proj1 (Z.leb_le _ _) (H y Y))) | exact (proj2 (Z.leb_le _ _) (proj2 (compare_fits types x y) (H y Y)))]. }
  split.
  - apply filter_both.
  - assert (A : forall x y, In x l -> In y l -> (low x = true \/ low y = false) -> (0 <= compare types y x)%Z).
    { intros x y X Y [H|H]; apply compare_fits; intros F.
      - apply (proj1 (LO x X) H y); auto.
      - assert (low y = true) by (apply LO; auto). congruence. }
    assert (S : forall p q, (forall x y, In x p -> In y p -> (0 <= compare types y x)%Z) -> (forall x y, In x q -> In y q -> (0 <= compare types y x)%Z) -> (forall x y, In x p -> In y q -> (0 <= compare types y x)%Z) -> StronglySorted (fun x y => (0 <= compare types y x)%Z) (p ++ q)).
    { clear. induction p as [|x p IH]; intros q P Q R; cbn [app].
      - induction q as [|y q IHq]; constructor; [apply IHq | apply Forall_forall]; intros; try apply Q; try (now left); try (now right); auto.
      - constructor; [apply IH; auto|]; [intros a c A C; apply P; now right | intros a c A C; apply R; auto; now right|]. apply Forall_forall. intros y Y. apply in_app_or in Y as [Y|Y]; [apply P | apply R]; auto; [now left | now right | now left]. }
    apply S; intros x y X Y; apply filter_In in X as [X X']; apply filter_In in Y as [Y Y']; apply A; auto; [right; now apply negb_true_iff in Y'].
Qed.
Example C76_declarations_example : let i := [{| symbol := 1; default := Some 5 |}] in let c := [{| symbol := 2; default := None |}] in
  parameters_from_type ex_sort true [Class c; Otherwise; Interface i] = Some i /\ parameters_from_type ex_sort false [Otherwise; Interface i; Variable_ None; Class c] = Some c /\
  parameters_from_type ex_sort false [Interface i; Variable_ None] = Some i /\ parameters_from_type ex_sort true [Variable_ None] = None.
Proof. vm_compute. auto. Qed.
Example C76_calls_example : parameters_from_call (Some []) true (Some ex_parameters) = Some ex_parameters /\ parameters_from_call (Some []) false (Some ex_parameters) = None.
Proof. auto. Qed.
(** A<X, Y > from 1: [a < x , space y space >]. *)
Example C76_removed_example : remove_range (removed {| start := 1; nodes := [(1, 1); (2, 0)]; tail := 1 |}) [1; 60; 2; 44; 32; 3; 32; 62; 9] = [1; 60; 2; 32; 62; 9] /\
  remove_range (removed {| start := 1; nodes := [(1, 1)]; tail := 1 |}) [1; 60; 2; 44; 32; 62; 9] = [1; 9].
Proof. auto. Qed.
