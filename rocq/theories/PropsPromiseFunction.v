(** * C78: promise-function-async asks for async where all that is returned are promises *)
From Coq Require Import Bool Ascii String List Lia.
From Verif Require Import Base EngineProofs.
From Verif Require Import PromiseFunction PromiseFunctionSpec PromiseFunctionProofs.
Import ListNotations.

Section Names.
Context (names : list bstr).
Notation contains := (contains names).
Notation promise := (promise names).
Notation validate := (validate names).
(** * Types *)
(** With a written return type: all values of the type are promises, and for types without intersections exactly then. *)
Theorem C78_explicit : forall t, parts t -> no_intersection t -> (contains true t = true <-> forall v, belongs v t -> promise v).
Proof.
  intros t W N. split; [now apply contains_all|]. intros H. apply not_false_is_true. intros C. destruct (not_all names t N C) as (v & B & P). auto.
Qed.
Theorem C78_explicit_sound : forall t v, parts t -> contains true t = true -> belongs v t -> promise v.
Proof. intros. eapply contains_all; eauto. Qed.
(** Without one: a type that is not taken as a promise has values that are none, if classes and interfaces have one base at most; one that is, and has no unions, has only promises. *)
Theorem C78_inferred : forall t, parts t -> one_base t -> no_union t -> (contains false t = true <-> forall v, belongs v t -> promise v).
Proof.
  intros t W O N. split; [now apply some_is_all|]. intros H. apply not_false_is_true. intros C. destruct (not_some names t W O C) as (v & B & P). auto.
Qed.

(** * Functions *)
(** What is reported. *)
Theorem C78_reported : forall allow f,
  (validate allow f = NoFix <-> is_async f = false /\ has_body f = true /\ allow = false /\ In AnyOrUnknown (returns f)) /\
  (validate allow f = Fixed \/ validate allow f = Offered <-> is_async f = false /\ has_body f = true /\ returns f <> [] /\ (allow = false -> ~ In AnyOrUnknown (returns f)) /\ Forall (fun t => contains (explicit f) t = true) (returns f)) /\
  (validate allow f = Offered -> explicit f = false /\ exists l t, In (Union l) (returns f) /\ In t l /\ contains true t = false).
Proof.
  intros allow f. unfold PromiseFunction.validate. destruct (is_async f); cbn [orb]; [split; [split; [discriminate|intros [H _]; discriminate]|split; [split; [intros [H|H]; discriminate|intros [H _]; discriminate]|discriminate]]|].
  destruct (has_body f); cbn [negb]; [|split; [split; [discriminate|intros (_ & H & _); discriminate]|split; [split; [intros [H|H]; discriminate|intros (_ & H & _); discriminate]|discriminate]]].
  destruct (returns f) as [|t0 l0] eqn:R; [split; [split; [discriminate|intros (_ & _ & _ & [])]|split; [split; [intros [H|H]; discriminate|intros (_ & _ & H & _); congruence]|discriminate]]|].
  rewrite <- R. destruct (every_ok names allow (explicit f) (returns f) true) as [E1 E2]. cbn [andb] in E2.
  destruct (every_signature names allow (explicit f) (returns f) true) as [r|].
  - destruct (proj1 (E2 r) eq_refl) as [NA ->]. split; [|split].
    + split; [destruct (forallb _ _); [destruct (hybrid names f)|]; discriminate|]. intros (_ & _ & H). exfalso. tauto.
    + split.
      * intros H. repeat split; auto; [rewrite R; discriminate|]. apply Forall_forall. apply forallb_forall. destruct (forallb _ _); auto. destruct H; discriminate.
      * intros (_ & _ & _ & _ & F). rewrite Forall_forall in F. rewrite (proj2 (forallb_forall _ _) F). destruct (hybrid names f); auto.
    + destruct (forallb (contains (explicit f)) (returns f)); [|discriminate]. destruct (hybrid names f) eqn:H; [|discriminate]. intros _. unfold hybrid in H. apply andb_true_iff in H as [H1 H2]. split; [now destruct (explicit f)|].
      apply existsb_exists in H2 as (t & I' & H2). destruct t as [|l|l|n l|n]; try discriminate. apply negb_true_iff in H2. apply forallb_false in H2 as (t & I2 & H2). eauto.
  - destruct (proj1 E1 eq_refl) as [-> A]. split; [split; auto|]. split; [|discriminate]. split; [intros [H|H]; discriminate|]. intros (_ & _ & _ & H & _). exfalso. now apply H.
Qed.
(** A fix is applied only to functions that return nothing but promises (unions stand outside, as the checker makes them). *)
Theorem C78_fixed : forall allow f t v, validate allow f = Fixed -> Forall parts (returns f) -> Forall outer_unions (returns f) -> In t (returns f) -> belongs v t -> promise v.
Proof.
  intros allow f t v H W U I' B. destruct (C78_reported allow f) as (_ & H2 & _). destruct (proj1 H2 (or_introl H)) as (A & Bd & N & _ & F). rewrite Forall_forall in *.
  specialize (F t I'). specialize (W t I'). specialize (U t I'). destruct (explicit f) eqn:E; [eapply contains_all; eauto|].
  destruct t as [|l|l|n l|n]; try (eapply some_is_all; eauto; fail).
  assert (forallb (contains true) l = true) as P.
  { unfold PromiseFunction.validate in H. rewrite A, Bd in H. cbn [orb negb] in H. destruct (returns f) as [|x l0] eqn:R; [congruence|]. destruct (every_signature names allow (explicit f) (x :: l0) true) as [[]|]; try discriminate.
    destruct (hybrid names f) eqn:Hy; [discriminate|]. unfold hybrid in Hy. rewrite E in Hy. cbn [negb andb] in Hy. pose proof (proj1 (existsb_false _ _) Hy (Union l)) as K. rewrite R in K. specialize (K I'). cbn in K. now apply negb_false_iff in K. }
  apply belongs_union in B as (u & I2 & B). rewrite forallb_forall in P. apply (contains_all names u); auto. pose proof (everywhere_in _ _ l W ltac:(auto)) as W'. rewrite Forall_forall in W'. now apply W'.
Qed.
(** One that is only offered is for functions that may return something else. *)
Theorem C78_offered : forall allow f, validate allow f = Offered -> Forall no_intersection (returns f) -> exists t v, In t (returns f) /\ belongs v t /\ ~ promise v.
Proof.
  intros allow f H N. destruct (C78_reported allow f) as (_ & _ & H3). destruct (H3 H) as (_ & l & t & I1 & I2 & C). rewrite Forall_forall in N. specialize (N _ I1).
  pose proof (everywhere_in _ _ l N ltac:(auto)) as N'. rewrite Forall_forall in N'. destruct (not_all names t) as (v & B & P); auto; [now apply N'|]. exists (Union l), v. split; auto. split; auto. apply belongs_union. eauto.
Qed.
(** Functions with a body that are left alone and are not async may return something else. *)
Theorem C78_quiet : forall allow f, validate allow f = Quiet -> is_async f = false -> has_body f = true -> returns f <> [] ->
  Forall parts (returns f) -> Forall (if explicit f then no_intersection else one_base) (returns f) -> exists t v, In t (returns f) /\ belongs v t /\ ~ promise v.
Proof.
  intros allow f Q A Bd N W O. destruct (C78_reported allow f) as (H1 & H2 & _).
  assert (~ (allow = false /\ In AnyOrUnknown (returns f))) as NA by (intros [X Y]; assert (validate allow f = NoFix) by (apply H1; auto); congruence).
  assert (forallb (contains (explicit f)) (returns f) = false) as F.
  { apply not_true_is_false. intros F. assert (validate allow f = Fixed \/ validate allow f = Offered) as [E|E]; [|congruence|congruence]. apply H2. split; [auto|split; [auto|split; [auto|split; [tauto|]]]]. apply Forall_forall. now apply forallb_forall. }
  apply forallb_false in F as (t & I' & C). rewrite Forall_forall in *. exists t. specialize (W t I'). specialize (O t I'). destruct (explicit f).
  - destruct (not_all names t O C) as (v & B & P). eauto.
  - destruct (not_some names t W O C) as (v & B & P). eauto.
Qed.
End Names.
Print Assumptions C78_explicit.
Print Assumptions C78_explicit_sound.
Print Assumptions C78_inferred.
Print Assumptions C78_reported.
Print Assumptions C78_fixed.
Print Assumptions C78_offered.
Print Assumptions C78_quiet.

Definition pr : type := Class (Some (b "Promise")) [].
Definition function_returning (ex : bool) (t : type) : function_ := {| is_async := false; has_body := true; explicit := ex; returns := [t] |}.
Definition defaults : options := {| check_arrows := true; check_declarations := true; check_expressions := true; check_methods := true; allow_any := true; allowed := [] |}.
(** Not so: all functions that return only promises are reported.  With a written type [Promise<void> & { x: 1 }]. *)
Theorem C78_intersection_refuted : exists t, parts t /\ (forall v, belongs v t -> promise [b "Promise"] v) /\ check defaults Arrow (function_returning true t) = Quiet.
Proof.
  exists (Intersection [pr; Other None]). split; [cbn; intuition discriminate|]. split; [|reflexivity]. intros v H. cbn [belongs pr] in H. destruct H as [[H _] _]. exists (b "Promise"). split; [now left|exact H].
Qed.
Print Assumptions C78_intersection_refuted.
(** Without a written type: an interface that extends Promise and another one. *)
Theorem C78_bases_refuted : exists t, parts t /\ (forall v, belongs v t -> promise [b "Promise"] v) /\ check defaults Arrow (function_returning false t) = Quiet /\ check defaults Arrow (function_returning true t) = Fixed.
Proof.
  exists (Class (Some (b "Tracked")) [pr; Class (Some (b "Marker")) []]). split; [cbn; auto 10|]. split; [|split; reflexivity]. intros v H. cbn [belongs pr] in H. destruct H as [_ [[H _] _]]. exists (b "Promise"). split; [now left|exact H].
Qed.
Print Assumptions C78_bases_refuted.
Example C78_types_example :
  let sub := Class (Some (b "Sub")) [pr] in let u := Union [sub; Other (Some (b "A"))] in
  map (contains [b "Promise"] true) [pr; sub; u; Union [pr; sub]; AnyOrUnknown] = [true; true; false; true; false] /\ map (contains [b "Promise"] false) [pr; sub; u; Union [pr; sub]; AnyOrUnknown] = [true; true; true; true; false] /\
  parts u /\ no_intersection u /\ one_base sub /\ no_union sub /\ belongs [b "A"] u /\ ~ promise [b "Promise"] [b "A"].
Proof.
  cbv zeta. split; [vm_compute; reflexivity|]. split; [vm_compute; reflexivity|]. split; [cbn; intuition discriminate|]. split; [cbn; tauto|]. split; [cbn; intuition lia|]. split; [cbn; tauto|]. split; [cbn; auto|].
  intros (n & [<-|[]] & [H|[]]). apply (f_equal (fun l => length l)) in H. discriminate.
Qed.
Example C78_functions_example :
  map (fun p => check defaults Arrow (function_returning (fst p) (snd p))) [(false, Union [pr; Other None]); (true, Union [pr; Other None]); (false, Union [pr; pr]); (false, AnyOrUnknown); (true, pr)] = [Offered; Quiet; Fixed; Quiet; Fixed] /\
  check {| check_arrows := true; check_declarations := true; check_expressions := true; check_methods := true; allow_any := false; allowed := [b "Bluebird"] |} (Method false) (function_returning false AnyOrUnknown) = NoFix /\
  check {| check_arrows := true; check_declarations := true; check_expressions := true; check_methods := true; allow_any := false; allowed := [b "Bluebird"] |} (Method false) (function_returning false (Class (Some (b "Bluebird")) [])) = Fixed /\
  check defaults (Method true) (function_returning false pr) = Quiet /\ outer_unions (Union [pr; Other None]).
Proof. split; [vm_compute; reflexivity|]. split; [vm_compute; reflexivity|]. split; [vm_compute; reflexivity|]. split; [vm_compute; reflexivity|]. repeat constructor. Qed.

(** Which functions. *)
Theorem C78_kinds : forall o k f, check o k f <> Quiet -> validate (b "Promise" :: allowed o) (allow_any o) f = check o k f /\
  (k = Arrow /\ check_arrows o = true \/ k = FunctionDeclaration /\ check_declarations o = true \/ k = FunctionExpression /\ check_expressions o = true \/ k = Method false /\ check_methods o = true).
Proof.
  intros o k f. unfold check, looked_at. destruct k as [| | |abs]; [destruct (check_arrows o)|destruct (check_declarations o)|destruct (check_expressions o)|destruct (check_methods o), abs]; cbn [andb negb]; intros H; try congruence; split; auto 7.
Qed.
Theorem C78_kinds_all : forall o k f, (k = Arrow /\ check_arrows o = true \/ k = FunctionDeclaration /\ check_declarations o = true \/ k = FunctionExpression /\ check_expressions o = true \/ k = Method false /\ check_methods o = true) ->
  check o k f = validate (b "Promise" :: allowed o) (allow_any o) f.
Proof. intros o k f. unfold check, looked_at. intros [[-> H]|[[-> H]|[[-> H]|[-> H]]]]; rewrite H; reflexivity. Qed.
Print Assumptions C78_kinds.
Print Assumptions C78_kinds_all.

(** * The inserted keyword *)
(** It stands after the modifiers and directly before the rest, if expressions have no modifiers and methods no asterisk. *)
Lemma tokens_app : forall l m, tokens (l ++ m) = tokens l ++ tokens m.
Proof. intros. unfold tokens. apply flat_map_app. Qed.
Lemma tokens_modifiers : forall l, tokens (flat_map (fun m => [Token m; Space]) l) = l.
Proof. induction l as [|m l IH]; [reflexivity|]. cbn [flat_map]. rewrite tokens_app, IH. reflexivity. Qed.
Theorem C78_inserted : forall k h, (k = Arrow \/ k = FunctionExpression -> modifiers h = []) -> (forall abs, k = Method abs -> asterisk h = false) ->
  tokens (insert_async k h) = modifiers h ++ b "async" :: (if asterisk h then [b "*"] else []) ++ tokens (rest h).
Proof.
  intros k h M A.
  assert (tokens (header_text h) = modifiers h ++ (if asterisk h then [b "*"] else []) ++ tokens (rest h)) as T by (unfold header_text; rewrite !tokens_app, tokens_modifiers; destruct (asterisk h); reflexivity).
  destruct k as [| | |abs]; cbn [insert_async].
  - rewrite tokens_app, T. rewrite (M (or_introl eq_refl)). reflexivity.
  - destruct (rev (modifiers h)) as [|last before] eqn:R.
    + rewrite tokens_app, T. apply (f_equal (@rev bstr)) in R. rewrite rev_involutive in R. cbn in R. rewrite R. reflexivity.
    + apply (f_equal (@rev bstr)) in R. rewrite rev_involutive in R. cbn [rev] in R. rewrite R, !tokens_app, tokens_modifiers, <- app_assoc. destruct (asterisk h); reflexivity.
  - rewrite tokens_app, T. rewrite (M (or_intror eq_refl)). reflexivity.
  - rewrite (A abs eq_refl), !tokens_app, tokens_modifiers. reflexivity.
Qed.
Print Assumptions C78_inserted.
(** Not so for generator methods: [*m(): Promise<void> {}] becomes [* async m()]. *)
Theorem C78_generator_refuted : exists h, tokens (header_text h) = [b "*"; b "m"] /\ tokens (insert_async (Method false) h) = [b "*"; b "async"; b "m"].
Proof. exists {| modifiers := []; asterisk := true; rest := [Token (b "m")] |}. split; reflexivity. Qed.
Print Assumptions C78_generator_refuted.
Example C78_inserted_example :
  insert_async FunctionDeclaration {| modifiers := [b "export"; b "default"]; asterisk := false; rest := [Token (b "function"); Space; Token (b "f")] |}
  = [Token (b "export"); Space; Token (b "default"); Space; Token (b "async"); Space; Token (b "function"); Space; Token (b "f")] /\
  tokens (insert_async (Method false) {| modifiers := [b "static"]; asterisk := false; rest := [Token (b "m")] |}) = [b "static"; b "async"; b "m"].
Proof. split; reflexivity. Qed.
