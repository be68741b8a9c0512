(** C73: unnecessary qualifiers. *)
From Coq Require Import Bool List Arith Lia.
From Verif Require Import UnnecessaryQualifier UnnecessaryQualifierSpec UnnecessaryQualifierProofs.
Import ListNotations.

(** ** C73: reported are the accesses whose qualifier can go, unless they are in another such access *)

Theorem C73_reported : forall p fuel n, (forall s, ends p fuel s) -> NoDup (accesses n) ->
  forall i, In i (lint p fuel n) <-> exists a, id a = i /\ outermost_dispensable p n a.
Proof. intros. now apply lint_ok. Qed.
Print Assumptions C73_reported.

(** In the order of the source, each once. *)
Theorem C73_order : forall p fuel n, (forall s, ends p fuel s) -> NoDup (accesses n) -> some_of (lint p fuel n) (accesses n).
Proof. intros p fuel n E N. rewrite lint_collect by auto. apply collect_some. Qed.
Print Assumptions C73_order.

(** Afterwards nothing is left on the stack, and no access is left marked: files do not influence each other. *)
Theorem C73_restored : forall p fuel n st, (forall s, ends p fuel s) -> NoDup (accesses n) -> failed st = None ->
  stack (walk p fuel n st) = stack st /\ failed (walk p fuel n st) = None.
Proof. intros p fuel n st E N F. now rewrite walk_ok by auto. Qed.
Print Assumptions C73_restored.

(** Without its qualifier, a reported access means what it meant, in each of the meanings of the symbol: as a value, as a type, as a namespace. *)
Theorem C73_same_meaning : forall p path a, (forall x, incl (flags p (export_symbol p x)) (flags p x)) -> dispensable p path a ->
  exists s s', name_symbol a = Some s /\ export_symbol p s' = s /\ forall f, In f (flags p s) -> means p (eq f) (name a) (scopes a) s'.
Proof. intros p path a I' (_ & q & d & s & s' & A & B & C & D & E & F). exists s, s'. split; auto. split; auto. intros f G. eapply same_meaning; eauto. Qed.
Print Assumptions C73_same_meaning.

(** What is removed is the qualifier and what is between it and the name; the rest of the text stays as it is. *)
Theorem C73_removed : forall (A : Type) (before qualifier between name after : list A),
  remove_range (length before) (length before + length qualifier + length between) (before ++ qualifier ++ between ++ name ++ after) = before ++ name ++ after.
Proof.
  intros. unfold remove_range. rewrite firstn_app, Nat.sub_diag, firstn_O, app_nil_r, firstn_all. f_equal.
  rewrite <- Nat.add_assoc, skipn_app, skipn_all2 by lia. replace (length before + (length qualifier + length between) - length before) with (length (qualifier ++ between)) by (rewrite app_length; lia).
  rewrite (app_assoc qualifier between), skipn_app, skipn_all, Nat.sub_diag. reflexivity.
Qed.
Print Assumptions C73_removed.

(** Not so: each qualifier that names a namespace around it and that can go is reported.  Inside [namespace A.B { }] only B counts. *)
Theorem C73_dotted_refuted : exists p fuel n path a l, (forall s, ends p fuel s) /\ NoDup (accesses n) /\ on n path (Access a l) /\ qualifier a = Some Identifier /\
  (exists q d s s', qualifier_symbol a = Some q /\ within path d /\ denotes p q d /\ name_symbol a = Some s /\ means p (fun f => In f (flags p s)) (name a) (scopes a) s' /\ export_symbol p s' = s) /\
  lint p fuel n = [].
Proof.
  (* namespace A { export const x = 1; } namespace A.B { A.x; }: symbol 1 is A with the declarations 10 and 11, 2 is B with 12, 3 is x. *)
  set (p := {| declarations := fun s => match s with 1 => [10; 11] | 2 => [12] | _ => [] end; aliased := fun _ => None; export_symbol := fun s => s; flags := fun _ => [0] |}).
  set (a := {| id := 5; qualifier := Some Identifier; qualifier_symbol := Some 1; name_symbol := Some 3; name := 7; scopes := [[]; [(7, 3)]] |}).
  set (blk := Block (Some 12) [Other [Access a []]]).
  set (inner := Module_ 12 [blk]). set (outer := Module_ 11 [inner]).
  set (n := Other [Module_ 10 [Block (Some 10) [Other []]]; outer]).
  exists p, 1, n, [Other [Access a []]; blk; inner; outer; n], a, [].
  split; [intros s; now constructor|]. split; [repeat constructor; auto|]. split.
  { do 5 (eapply Child; [|cbn [children]; cbn; auto]). constructor. }
  split; [reflexivity|]. split; [|reflexivity].
  exists 1, 11, 3, 3. split; [reflexivity|]. split; [do 3 apply WMore; apply WModule|]. split; [apply DHere; cbn; auto|]. split; [reflexivity|]. split; [|reflexivity].
  apply MOuter; [intros s' f Q; inversion Q|]. eapply MHere with (f := 0); [constructor | cbn; auto | cbn; auto].
Qed.
Print Assumptions C73_dotted_refuted.

(** [namespace A { export type T = number; import X = A; let t: A.T; let u: X.T; A.B.c; function g(T) { A.T } }], with values and types told apart. *)
Definition ex_program : program :=
  {| declarations := fun s => match s with 1 => [10] | 4 => [40] | _ => [] end; aliased := fun s => match s with 2 => Some 1 | _ => None end;
     export_symbol := fun s => match s with 30 => 3 | s => s end; flags := fun s => match s with 3 | 30 => [1] | 5 => [0] | _ => [2] end |}.
Definition ex_access i q s n t := {| id := i; qualifier := Some q; qualifier_symbol := Some s; name_symbol := Some n; name := n; scopes := t |}.
Definition ex_outer : list (nat * nat) := [(3, 30); (4, 4)].
Definition ex_tree : node :=
  Other [Access (ex_access 1 Identifier 1 3 [[(1, 1)]]) [];
         Module_ 10 [Block (Some 10) [
           Access (ex_access 2 Identifier 1 3 [ex_outer]) [];
           Access (ex_access 3 Identifier 2 3 [ex_outer]) [];
           Access (ex_access 4 (Property Identifier) 4 6 [ex_outer]) [Access (ex_access 5 Identifier 1 4 [ex_outer]) []];
           Access (ex_access 6 Something 1 3 [ex_outer]) [];
           Access (ex_access 7 Identifier 1 3 [[(3, 5)]; ex_outer]) [];
           Access (ex_access 8 Identifier 1 3 [[(3, 31)]; ex_outer]) []]]].
Lemma ex_ends : forall s, ends ex_program 2 s.
Proof. intros s. destruct (aliased ex_program s) eqn:E; [|now apply ENone]. eapply ESome; eauto. apply ENone. unfold ex_program, aliased in *. destruct s as [|[|[|s]]]; try discriminate. now injection E as <-. Qed.
(** The one outside is not; an alias of A is; of A.B.c the part A.B is; with a value T in between the type is still meant; with another type T in between, it is not (31 has the flag 2 only, so it does not hide either). *)
Example C73_reported_example : lint ex_program 2 ex_tree = [2; 3; 5; 7; 8] /\ NoDup (accesses ex_tree) /\
  lint {| declarations := declarations ex_program; aliased := aliased ex_program; export_symbol := export_symbol ex_program; flags := fun s => match s with 31 => [1] | s => flags ex_program s end |} 2 ex_tree = [2; 3; 5; 7].
Proof. split; [reflexivity|]. split; [repeat constructor; cbn; intuition congruence | reflexivity]. Qed.
Example C73_order_example : some_of (lint ex_program 2 ex_tree) [1; 2; 3; 4; 5; 6; 7; 8].
Proof. apply (C73_order ex_program 2 ex_tree ex_ends). repeat constructor; cbn; intuition congruence. Qed.
(** A.A.x where both can go: one report. *)
Example C73_nested_example : lint {| declarations := fun s => if s =? 1 then [10] else []; aliased := fun _ => None; export_symbol := fun s => s; flags := fun _ => [0] |} 1
  (Block (Some 10) [Access (ex_access 4 (Property Identifier) 1 3 [[(3, 3); (1, 1)]]) [Access (ex_access 5 Identifier 1 1 [[(3, 3); (1, 1)]]) []]; Access (ex_access 6 Identifier 1 1 [[(3, 3); (1, 1)]]) []]) = [4; 6].
Proof. reflexivity. Qed.
Example C73_restored_example : stack (walk ex_program 2 ex_tree {| stack := [9]; failed := None; reports := [] |}) = [9].
Proof. reflexivity. Qed.
Example C73_same_meaning_example : (forall x, incl (flags ex_program (export_symbol ex_program x)) (flags ex_program x)) /\ means ex_program (eq 1) 3 [[(3, 5)]; ex_outer] 30 /\ ~ means ex_program (eq 0) 3 [[(3, 5)]; ex_outer] 30.
Proof.
  split; [|split].
  - intros x. destruct (Nat.eq_dec x 30) as [->|N]; [cbn; intros y; auto|]. replace (export_symbol ex_program x) with x; [intros y; auto|].
    unfold ex_program, export_symbol. do 31 (destruct x as [|x]; [first [reflexivity | now elim N]|]). reflexivity.
  - apply MOuter; [intros s' f Q W; inversion Q; subst; [cbn in W; intuition congruence | match goal with H : in_table _ _ [] |- _ => inversion H end]|].
    apply MHere with (f := 1); [constructor | cbn; auto | auto].
  - intros M. inversion M as [t ts s f A B C|t ts s A B]; subst.
    + inversion A; subst. match goal with H : in_table _ _ [] |- _ => inversion H end.
    + apply (A 5 0); [constructor | cbn; auto | auto].
Qed.
Example C73_removed_example : remove_range 2 7 [1; 2; 65; 46; 32; 32; 32; 88; 9] = [1; 2; 88; 9].
Proof. reflexivity. Qed.
