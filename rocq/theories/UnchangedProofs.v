From Coq Require Import Bool Arith List Lia.
From Verif Require Import Unchanged UnchangedSpec.
Import ListNotations.

Lemma receiver_iff : forall l, receiver l = true <-> writes l.
Proof.
  induction l as [|n l IH]; cbn [receiver].
  - split; [discriminate|]. intros [[|x before] [a [after [E _]]]]; discriminate.
  - destruct n as [|a w|].
    + rewrite IH. split.
      * intros [before [a [after [-> N]]]]. exists (Parens :: before), a, after. split; [reflexivity|]. intros m [<-|M]; [discriminate|auto].
      * intros [[|x before] [a [after [E N]]]]; [discriminate|]. injection E as <- ->. exists before, a, after. split; auto. intros m M. apply N. right. exact M.
    + destruct w.
      * split; auto. intros _. exists [], a, l. split; [reflexivity|]. intros m [].
      * rewrite IH. split.
        -- intros [before [a' [after [-> N]]]]. exists (Access a false :: before), a', after. split; [reflexivity|]. intros m [<-|M]; [discriminate|auto].
        -- intros [[|x before] [a' [after [E N]]]]; [discriminate|]. injection E as <- ->. exists before, a', after. split; auto. intros m M. apply N. right. exact M.
    + split; [discriminate|]. intros [[|x before] [a [after [E N]]]]; [discriminate|]. injection E as <- ->. exfalso. apply (N Elsewhere); [left|]; reflexivity.
Qed.
Lemma argument_iff : forall l, element_argument l = true <-> in_brackets l.
Proof.
  induction l as [|n l IH]; cbn [element_argument].
  - split; [discriminate|]. intros [[|k] [w [after E]]]; discriminate.
  - destruct n as [|a w|].
    + rewrite IH. split.
      * intros [k [w [after ->]]]. exists (S k), w, after. reflexivity.
      * intros [[|k] [w [after E]]]; [discriminate|]. injection E as ->. exists k, w, after. reflexivity.
    + split; [intros ->; exists 0, w, l; reflexivity|]. intros [[|k] [w' [after E]]]; [|discriminate]. injection E as -> _ _. reflexivity.
    + split; [discriminate|]. intros [[|k] [w [after E]]]; discriminate.
Qed.
Section Types.
Context (of : nat -> info).
Lemma has_index_iff : forall t, has_index of t = true <-> indexed of t.
Proof.
  intros t. unfold has_index, indexed. rewrite existsb_exists. split; intros [p [I L]]; exists p; split; auto; [apply Nat.ltb_lt in L|apply Nat.ltb_lt]; exact L.
Qed.
Lemma empty_iff : forall t, empty_object of t = true <-> no_members of t.
Proof.
  intros t. unfold empty_object, no_members. rewrite orb_true_iff, !andb_true_iff, !Nat.eqb_eq, length_zero_iff_nil. tauto.
Qed.
Lemma literal_iff : forall e c, literal e && match e with E_object n => Nat.eqb n 0 || existsb (fun p => literal_flag (of p)) (properties (of c)) | _ => true end = true <->
  plain_literal e \/ e = E_object 0 \/ exists n p, e = E_object n /\ In p (properties (of c)) /\ literal_flag (of p) = true.
Proof.
  intros e c. split.
  - destruct e; cbn [literal andb]; try discriminate; intros H; try (left; constructor).
    right. apply orb_prop in H as [H|H]; [left; apply Nat.eqb_eq in H; subst; reflexivity|]. right. apply existsb_exists in H as [p [P L]]. eauto.
  - intros [H|[H|[n [p [H [P L]]]]]]; [destruct H; reflexivity|subst; reflexivity|]. subst. cbn [literal andb]. apply orb_true_intro. right. apply existsb_exists. eauto.
Qed.
Lemma by_type_iff : forall e u c,
  by_type of e u c <->
  (non_primitive (of u) && negb (non_primitive (of c))) || xorb (has_index of u) (has_index of c) || any_inside (of u) || any_inside (of c) || (variable_inside (of c) && negb (variable_inside (of u))) = true
  \/ literal e && match e with E_object n => Nat.eqb n 0 || existsb (fun p => literal_flag (of p)) (properties (of c)) | _ => true end = true.
Proof.
  intros e u c. rewrite literal_iff. rewrite !orb_true_iff, !andb_true_iff, !negb_true_iff.
  assert (X : xorb (has_index of u) (has_index of c) = true <-> (indexed of u /\ ~ indexed of c) \/ (indexed of c /\ ~ indexed of u)).
  { rewrite <- !has_index_iff. destruct (has_index of u), (has_index of c); cbn; intuition congruence. }
  rewrite X. split.
  - intros []; try (left; tauto); right; eauto 8.
  - intros [[[[[H|[H|H]]|H]|H]|H]|[H|[H|[n [p [H [P L]]]]]]].
    + apply t_object; tauto.
    + apply t_index_lost; tauto.
    + apply t_index_won; tauto.
    + apply t_any_before; auto.
    + apply t_any; auto.
    + apply t_variable; tauto.
    + apply t_literal; auto.
    + apply t_empty; auto.
    + eapply t_property; eauto.
Qed.
Lemma by_place_iff : forall o l w u c, by_place of o l w u c <-> (type_parameter (of u) && receiver l = true \/ no_unchecked_indexed_access o && element_argument l = true \/ w && variable_inside (of c) = true).
Proof.
  intros o l w u c. rewrite !andb_true_iff, receiver_iff, argument_iff. split; [intros []; tauto|]. intros [[A B]|[[A B]|[A B]]]; [apply b_write|apply b_brackets|apply b_variable]; auto.
Qed.
Lemma find_other : forall u parts p, find (fun q => negb (Nat.eqb q u)) parts = Some p -> List.length parts = 2 -> existsb (Nat.eqb u) parts = true -> (parts = [u; p] \/ parts = [p; u]) /\ p <> u.
Proof.
  intros u [|x [|y [|z parts]]] p F L X; cbn [List.length] in L; try lia. cbn [find] in F. cbn [existsb] in X. destruct (Nat.eqb x u) eqn:A; cbn [negb] in F.
  - apply Nat.eqb_eq in A. subst x. destruct (Nat.eqb y u) eqn:B; cbn [negb] in F; [discriminate|]. injection F as <-. apply Nat.eqb_neq in B. auto.
  - injection F as <-. apply Nat.eqb_neq in A. replace (Nat.eqb u x) with false in X by (symmetry; apply Nat.eqb_neq; auto). rewrite orb_false_r in X. cbn [orb] in X. apply Nat.eqb_eq in X. subst y. auto.
Qed.
Lemma non_null_iff : forall u c parts, intersection (of c) = Some parts ->
  (match find (fun p => negb (Nat.eqb p u)) parts with
      | Some other =>
          if type_parameter (of u) && Nat.eqb (List.length parts) 2 && existsb (Nat.eqb u) parts && empty_object of other && negb (variable_inside (of other)) then
            match constraint (of u) with Some k => negb (nullable (of k)) | None => false end
          else false
      | None => false
      end = true <-> only_non_null of u c).
Proof.
  intros u c parts I. split.
  - destruct (find (fun p => negb (Nat.eqb p u)) parts) as [p|] eqn:F; [|discriminate].
    destruct (type_parameter (of u)) eqn:T; cbn [andb]; [|discriminate]. destruct (Nat.eqb (List.length parts) 2) eqn:L; cbn [andb]; [|discriminate]. destruct (existsb (Nat.eqb u) parts) eqn:X; cbn [andb]; [|discriminate].
    destruct (empty_object of p) eqn:E; cbn [andb]; [|discriminate]. destruct (variable_inside (of p)) eqn:V; cbn [negb]; [discriminate|]. destruct (constraint (of u)) as [k|] eqn:K; [|discriminate]. intros N. apply negb_true_iff in N.
    apply Nat.eqb_eq in L. destruct (find_other u parts p F L X) as [[->| ->] D]; exists p, k; apply empty_iff in E; auto 10.
  - intros [p [k [E [D [T [M [V [K N]]]]]]]]. apply empty_iff in M. assert (D1 : Nat.eqb p u = false) by (apply Nat.eqb_neq; auto). assert (D2 : Nat.eqb u p = false) by (apply Nat.eqb_neq; auto).
    destruct E as [E|E]; rewrite I in E; injection E as ->; cbn [find existsb List.length]; rewrite ?Nat.eqb_refl, ?D1, ?D2; cbn [negb orb andb]; rewrite ?Nat.eqb_refl, ?D1; cbn [negb Nat.eqb andb orb]; rewrite T, M, V, K, N; reflexivity.
Qed.
Lemma unchanged_iff : forall sp spr sa asg o l w e u c, unchanged of sp spr sa asg o l w e u c = true <-> leaves of sp spr sa asg o l w e u c.
Proof.
  intros sp spr sa asg o l w e u c. unfold unchanged. cbv zeta. destruct (Nat.eqb u c) eqn:EQ.
  { apply Nat.eqb_eq in EQ. split; auto. intros _. apply l_same. exact EQ. }
  apply Nat.eqb_neq in EQ. pose proof (by_place_iff o l w u c) as BP. pose proof (by_type_iff e u c) as BT.
  destruct (type_parameter (of u) && receiver l) eqn:P1.
  { split; [discriminate|]. intros []; exfalso; try contradiction; match goal with H : ~ by_place _ _ _ _ _ _ |- _ => apply H, BP; auto end. }
  destruct (no_unchecked_indexed_access o && element_argument l) eqn:P2.
  { split; [discriminate|]. intros []; exfalso; try contradiction; match goal with H : ~ by_place _ _ _ _ _ _ |- _ => apply H, BP; auto end. }
  destruct (w && variable_inside (of c)) eqn:P3.
  { split; [discriminate|]. intros []; exfalso; try contradiction; match goal with H : ~ by_place _ _ _ _ _ _ |- _ => apply H, BP; auto end. }
  assert (NP : ~ by_place of o l w u c) by (rewrite BP; intuition discriminate).
  destruct (exact_optional o && undefined_flag (of u) && undefined_flag (of c)) eqn:X.
  { assert (EX : exact_case of o u c) by (unfold exact_case; apply andb_prop in X as [X X3]; apply andb_prop in X as [X1 X2]; auto). split; [intros S0; apply l_exact; auto|]. intros []; try contradiction; auto. }
  assert (NX : ~ exact_case of o u c) by (intros [X1 [X2 X3]]; rewrite X1, X2, X3 in X; discriminate).
  match type of BT with _ <-> ?a = true \/ ?d = true => destruct a eqn:T1; [|destruct d eqn:T2] end.
  1,2: assert (T : by_type of e u c) by (apply BT; auto); split; [discriminate|]; intros []; exfalso; contradiction.
  assert (NT : ~ by_type of e u c) by (rewrite BT; intuition discriminate).
  destruct (intersection (of c)) as [parts|] eqn:IC; [destruct (intersection (of u)) as [up|] eqn:IU|].
  - assert (NI : ~ new_intersection of u c) by (intros [_ K]; congruence). destruct (spr u c) eqn:SP; cbn [negb orb]; [|split; [discriminate|intros []; congruence]]. destruct (sa u c) eqn:SA; cbn [negb]; [|split; [discriminate|intros []; congruence]].
    split; [intros H; apply andb_prop in H as [H1 H2]; apply l_equal; auto|]. intros []; try contradiction; try congruence. apply andb_true_intro. auto.
  - rewrite (non_null_iff u c parts IC). split; [intros H; apply l_non_null; auto|]. intros [|? ? ?|? ? ? ? ?|? ? ? K]; try contradiction; auto. exfalso. apply K. split; congruence.
  - assert (NI : ~ new_intersection of u c) by (intros [K _]; congruence). destruct (spr u c) eqn:SP; cbn [negb orb].
    2:{ split; [discriminate|]. intros [|? ? ?|? ? ? ? [p [k [[E|E] _]]]|]; congruence. }
    destruct (sa u c) eqn:SA; cbn [negb].
    2:{ split; [discriminate|]. intros [|? ? ?|? ? ? ? [p [k [[E|E] _]]]|]; congruence. }
    split; [intros H; apply andb_prop in H as [H1 H2]; apply l_equal; auto|]. intros [|? ? ?|? ? ? ? [p [k [[E|E] _]]]|]; try contradiction; try congruence. apply andb_true_intro. auto.
Qed.
End Types.

Lemma skip_around : forall e, exists k, e = around k (skip e) /\ forall x, skip e <> O_parens x.
Proof.
  induction e as [e IH| | | |e IH|]; try (exists 0; split; [reflexivity|intros x; discriminate]). destruct IH as [k [E N]]. exists (S k). cbn [skip around]. rewrite <- E. auto.
Qed.
Lemma skip_called_around : forall c, exists k, c = around_called k (skip_called c).
Proof. induction c as [c [k E]| |]; try (exists 0; reflexivity). exists (S k). cbn [skip_called around_called]. rewrite <- E. reflexivity. Qed.
Lemma skip_of_around : forall k e, skip (around k e) = skip e.
Proof. induction k as [|k IH]; intros e; [reflexivity|]. cbn [around skip]. apply IH. Qed.
Lemma skip_called_of : forall k c, skip_called (around_called k c) = skip_called c.
Proof. induction k as [|k IH]; intros e; [reflexivity|]. cbn [around_called skip_called]. apply IH. Qed.
Lemma iife_iff : forall e typed, iife e = Some typed <-> at_once e typed.
Proof.
  intros e typed. unfold iife, at_once. split.
  - destruct (skip_around e) as [k [E _]]. destruct (skip e) as [|c| | | |]; try discriminate. destruct (skip_called_around c) as [m M]. destruct (skip_called c) as [|t|]; try discriminate. intros H. injection H as <-. exists k, m. rewrite <- M. exact E.
  - intros [k [m ->]]. rewrite skip_of_around. cbn [skip]. rewrite skip_called_of. reflexivity.
Qed.
Lemma call_like_iff : forall e, call_like e = true <-> result_of_call e.
Proof.
  induction e as [e IH|c| | |e IH|]; cbn [call_like]; try (split; [intros _; constructor|reflexivity]).
  - rewrite IH. split; [apply rc_parens|intros H; inversion H; auto].
  - rewrite IH. split; [apply rc_await|intros H; inversion H; auto].
  - split; [discriminate|intros H; inversion H].
Qed.
