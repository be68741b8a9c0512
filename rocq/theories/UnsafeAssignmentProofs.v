(** Proofs about no-unsafe-assignment. *)
From Coq Require Import Bool List Arith Lia.
From Verif Require Import UnsafeArgument UnsafeArgumentSpec.
From Verif Require Import UnsafeAssignment UnsafeAssignmentSpec.
Import ListNotations.

Section Types.
Context {T N : Type} (is_any any_array : T -> bool) (tuple : T -> option (list (T * element))) (property_type : T -> N -> option T).
Notation check_pattern := (check_pattern is_any any_array tuple property_type).
Notation gets_any := (gets_any is_any any_array tuple property_type).

Lemma pattern_ind' (P : pattern N -> Prop) : P Target ->
  (forall b l, (forall q, In (Item q) l -> P q) -> P (ArrayPattern b l)) ->
  (forall b l, (forall n q, In (Property n q) l -> P q) -> P (ObjectPattern b l)) ->
  (forall p, P p -> P (Assigned p)) -> forall p, P p.
Proof.
  intros H1 H2 H3 H4. fix F 1. intros [|b l|b l|p].
  - exact H1.
  - apply H2. induction l as [|[|p|p] l IH]; intros q; [intros []|intros [H|H]; [discriminate|now apply IH]|intros [H|H]; [discriminate|now apply IH]|].
    intros [H|H]; [|now apply IH]. injection H as <-. apply F.
  - apply H3. induction l as [|[p|n p] l IH]; intros n' q; [intros []|intros [H|H]; [discriminate|exact (IH n' q H)]|].
    intros [H|H]; [|exact (IH n' q H)]. injection H as <- <-. apply F.
  - apply H4, F.
Qed.

Definition element_reports (b : bool) (ts : list (T * element)) (i : nat) (e : elt (pattern N)) (path : list nat) (m : message) : Prop :=
  exists u f, nth_error ts i = Some (u, f) /\
   ((is_any u = true /\ path = [i] /\ m = FromElement /\ ((e = Hole /\ b = false) \/ exists q, e = Item q)) \/
    (is_any u = false /\ exists q path', e = Item q /\ path = i :: path' /\ In (path', m) (fst (check_pattern q u)))).
Lemma array_reports : forall b l t path m, In (path, m) (fst (check_pattern (ArrayPattern b l) t)) <->
  (any_array t = true /\ path = [] /\ m = FromArray) \/
  (any_array t = false /\ exists ts i e, tuple t = Some ts /\ nth_error l i = Some e /\ element_reports b ts i e path m).
Proof.
  intros b l t path m. cbn [UnsafeAssignment.check_pattern]. destruct (any_array t) eqn:A.
  { cbn. split; [intros [H|[]]; injection H as <- <-; auto|]. intros [[_ [-> ->]]|[H _]]; [now left|discriminate]. }
  destruct (tuple t) as [ts|].
  2:{ cbn. split; [tauto|]. intros [[H _]|[_ [ts [i [e [H _]]]]]]; discriminate. }
  assert (forall l i0, In (path, m) (fst (check_elements is_any check_pattern b ts i0 l)) <-> exists i e, nth_error l i = Some e /\ element_reports b ts (i0 + i) e path m) as G.
  { clear l. induction l as [|e l IH]; intros i0.
    - cbn. split; [tauto|]. intros [i [e [H _]]]. now destruct i.
    - assert ((exists i e', nth_error (e :: l) i = Some e' /\ element_reports b ts (i0 + i) e' path m) <->
              (element_reports b ts i0 e path m \/ exists i e', nth_error l i = Some e' /\ element_reports b ts (S i0 + i) e' path m)) as ->.
      { split.
        - intros [[|i] [e' [H H']]].
          + injection H as <-. rewrite Nat.add_0_r in H'. now left.
          + right. exists i, e'. replace (S i0 + i) with (i0 + S i) by lia. auto.
        - intros [H|[i [e' [H H']]]].
          + exists 0, e. rewrite Nat.add_0_r. auto.
          + exists (S i), e'. replace (i0 + S i) with (S i0 + i) by lia. auto. }
      rewrite <- IH. cbn [check_elements].
      match goal with |- In _ (fst (let '(r, d) := ?X in _)) <-> _ => set (x := X) end.
      assert (In (path, m) (fst x) <-> element_reports b ts i0 e path m) as E.
      { unfold x, element_reports, check_element. destruct e as [|q|q].
        - destruct b.
          + cbn. split; [tauto|]. intros [u [f [_ [[_ [_ [_ [[_ H]|[q H]]]]]|[_ [q [p' [H _]]]]]]]]; discriminate.
          + destruct (nth_error ts i0) as [[u f]|].
            * destruct (is_any u) eqn:U; cbn.
              -- split; [intros [H|[]]; injection H as <- <-; exists u, f; split; [reflexivity|]; left; auto 6|].
                 intros [u' [f' [H [[_ [-> [-> _]]]|[_ [q [p' [H' _]]]]]]]]; [now left|discriminate].
              -- split; [tauto|]. intros [u' [f' [H [[H' _]|[_ [q [p' [H' _]]]]]]]]; [|discriminate]. injection H as <- <-. congruence.
            * cbn. split; [tauto|]. intros [u [f [H _]]]. discriminate.
        - cbn. split; [tauto|]. intros [u [f [_ [[_ [_ [_ [[H _]|[q' H]]]]]|[_ [q' [p' [H _]]]]]]]]; discriminate.
        - destruct (nth_error ts i0) as [[u f]|].
          + destruct (is_any u) eqn:U.
            * cbn. split; [intros [H|[]]; injection H as <- <-; exists u, f; split; [reflexivity|]; left; eauto 8|].
              intros [u' [f' [H [[_ [-> [-> _]]]|[H' _]]]]]; [now left|]. injection H as <- <-. congruence.
            * destruct (check_pattern q u) as [r d] eqn:C. cbn [fst]. rewrite in_map_iff. split.
              -- intros [[p' m'] [H H']]. injection H as <- <-. exists u, f. split; [reflexivity|]. right. split; [exact U|]. exists q, p'. rewrite C. auto.
              -- intros [u' [f' [H [[H' _]|[_ [q' [p' [H1 [-> H2]]]]]]]]]; [injection H as <- <-; congruence|]. injection H as <- <-. injection H1 as <-. rewrite C in H2.
                 exists (p', m). auto.
          + cbn. split; [tauto|]. intros [u [f [H _]]]. discriminate. }
      destruct x as [r d]. cbn [fst] in E. destruct (check_elements is_any check_pattern b ts (S i0) l) as [rs d']. cbn [fst]. rewrite in_app_iff, E. tauto. }
  rewrite G. split.
  - intros [i [e [H H']]]. right. split; [reflexivity|]. exists ts, i, e. auto.
  - intros [[H _]|[_ [ts' [i [e [H [H1 H2]]]]]]]; [discriminate|]. injection H as <-. exists i, e. auto.
Qed.

Lemma object_reports : forall b l t path m, In (path, m) (fst (check_pattern (ObjectPattern b l) t)) <->
  exists i n q u, nth_error l i = Some (Property (Some n) q) /\ property_type t n = Some u /\
   ((is_any u = true /\ path = [i] /\ m = FromElement) \/ (is_any u = false /\ exists path', path = i :: path' /\ In (path', m) (fst (check_pattern q u)))).
Proof.
  intros b l t path m. cbn [UnsafeAssignment.check_pattern].
  set (Q := fun i (e : property N (pattern N)) => exists n q u, e = Property (Some n) q /\ property_type t n = Some u /\
    ((is_any u = true /\ path = [i] /\ m = FromElement) \/ (is_any u = false /\ exists path', path = i :: path' /\ In (path', m) (fst (check_pattern q u))))).
  assert (forall l i0, In (path, m) (fst (check_properties is_any property_type check_pattern t i0 l)) <-> exists i e, nth_error l i = Some e /\ Q (i0 + i) e) as G.
  { clear l. induction l as [|e l IH]; intros i0.
    - cbn. split; [tauto|]. intros [i [e [H _]]]. now destruct i.
    - assert ((exists i e', nth_error (e :: l) i = Some e' /\ Q (i0 + i) e') <-> (Q i0 e \/ exists i e', nth_error l i = Some e' /\ Q (S i0 + i) e')) as ->.
      { split.
        - intros [[|i] [e' [H H']]].
          + injection H as <-. rewrite Nat.add_0_r in H'. now left.
          + right. exists i, e'. replace (S i0 + i) with (i0 + S i) by lia. auto.
        - intros [H|[i [e' [H H']]]].
          + exists 0, e. rewrite Nat.add_0_r. auto.
          + exists (S i), e'. replace (i0 + S i) with (S i0 + i) by lia. auto. }
      rewrite <- IH. cbn [check_properties].
      match goal with |- In _ (fst (let '(r, d) := ?X in _)) <-> _ => set (x := X) end.
      assert (In (path, m) (fst x) <-> Q i0 e) as E.
      { unfold x, Q, check_property. destruct e as [q|[n|] q].
        - cbn. split; [tauto|]. intros [n [q' [u [H _]]]]. discriminate.
        - destruct (property_type t n) as [u|] eqn:P.
          + destruct (is_any u) eqn:U.
            * cbn. split; [intros [H|[]]; injection H as <- <-; exists n, q, u; auto 6|].
              intros [n' [q' [u' [H [H1 [[_ [-> ->]]|[H2 _]]]]]]]; [now left|]. injection H as <- <-. congruence.
            * destruct (check_pattern q u) as [r d] eqn:C. cbn [fst]. rewrite in_map_iff. split.
              -- intros [[p' m'] [H H']]. injection H as <- <-. exists n, q, u. split; [reflexivity|]. split; [exact P|]. right. split; [exact U|]. exists p'. rewrite C. auto.
              -- intros [n' [q' [u' [H [H1 [[H2 _]|[_ [p' [-> H3]]]]]]]]]; injection H as <- <-; [congruence|]. assert (u' = u) as -> by congruence. rewrite C in H3. exists (p', m). auto.
          + cbn. split; [tauto|]. intros [n' [q' [u [H [H' _]]]]]. injection H as <- <-. congruence.
        - cbn. split; [tauto|]. intros [n [q' [u [H _]]]]. discriminate. }
      destruct x as [r d]. cbn [fst] in E. destruct (check_properties is_any property_type check_pattern t (S i0) l) as [rs d']. cbn [fst]. rewrite in_app_iff, E. tauto. }
  rewrite G. unfold Q. split.
  - intros [i [e [H [n [q [u [-> H']]]]]]]. exists i, n, q, u. auto.
  - intros [i [n [q [u [H H']]]]]. exists i, (Property (Some n) q). split; [exact H|]. exists n, q, u. auto.
Qed.

Lemma all_values : forall ts : list (T * element), tuple_values ts (map fst ts).
Proof. induction ts as [|[t []] ts IH]; cbn [map fst]; [constructor|now constructor|now constructor|]. apply TVMore, TVStop, IH. Qed.
Lemma values_nth : forall (ts : list (T * element)) us, tuple_values ts us -> (forall t, ~ In (t, Variable_) ts) -> forall i u, nth_error us i = Some u -> exists f, nth_error ts i = Some (u, f).
Proof.
  induction 1 as [|t l ts H IH|t l ts H IH|t l H|t l ts H IH|t l ts H IH]; intros V i u E.
  - now destruct i.
  - destruct i as [|i]; [injection E as <-; eexists; reflexivity|]. apply (IH (fun t' I' => V t' (or_intror I')) i u E).
  - destruct i as [|i]; [injection E as <-; eexists; reflexivity|]. apply (IH (fun t' I' => V t' (or_intror I')) i u E).
  - now destruct i.
  - exfalso. apply (V t). now left.
  - exfalso. apply (V t). now left.
Qed.

Lemma whole_item : forall a b (l : list (elt (pattern N))), whole a (ArrayPattern b l) -> (b = true \/ ~ In Hole l) /\ forall i q, nth_error l i = Some (Item q) -> In (Item q) l /\ whole a q.
Proof.
  intros a b l [H1 H2]. split; [exact H1|]. clear H1. intros i q E. split; [eapply nth_error_In; exact E|]. revert i E. induction l as [|e l IH]; intros i E; [now destruct i|].
  destruct H2 as [H2 H3]. destruct i as [|i]; [injection E as ->; exact H2|]. eapply IH; eauto.
Qed.
Lemma whole_property : forall a b (l : list (property N (pattern N))), whole a (ObjectPattern b l) -> forall i n q, nth_error l i = Some (Property n q) -> In (Property n q) l /\ whole a q.
Proof.
  intros a b l H i n q E. split; [eapply nth_error_In; exact E|]. cbn [whole] in H. revert i E. induction l as [|e l IH]; intros i E; [now destruct i|].
  destruct H as [H2 H3]. destruct i as [|i]; [injection E as ->; exact H2|]. eapply IH; eauto.
Qed.

Lemma pattern_sound : forall p t path m, whole true p -> In (path, m) (fst (check_pattern p t)) -> gets_any p t path m.
Proof.
  induction p as [|b l IH|b l IH|p IH] using pattern_ind'; intros t path m W H.
  - destruct H.
  - apply whole_item in W as [W1 W2]. apply array_reports in H as [[A [-> ->]]|[A [ts [i [e [Tu [E [u [f [Nu H]]]]]]]]]]; [|destruct H as [[U [-> [-> [[-> ->]|[q ->]]]]]|[U [q [path' [-> [-> H]]]]]]].
    + now apply GArray.
    + exfalso. destruct W1 as [W1|W1]; [discriminate|]. apply W1. eapply nth_error_In. exact E.
    + eapply GElement; eauto. exists ts, (map fst ts). split; [exact Tu|]. split; [apply all_values|]. now rewrite nth_error_map, Nu.
    + destruct (W2 i q E) as [W3 W4]. eapply GElementIn; eauto. exists ts, (map fst ts). split; [exact Tu|]. split; [apply all_values|]. now rewrite nth_error_map, Nu.
  - apply object_reports in H as [i [n [q [u [E [P [[U [-> ->]]|[U [path' [-> H]]]]]]]]]].
    + eapply GProperty; eauto.
    + destruct (whole_property _ _ _ W i _ q E) as [W3 W4]. eapply GPropertyIn; eauto.
  - destruct H.
Qed.
Lemma pattern_complete : forall p t path m, (forall t ts u, tuple t = Some ts -> ~ In (u, Variable_) ts) -> whole false p -> gets_any p t path m -> In (path, m) (fst (check_pattern p t)).
Proof.
  intros p t path m V. revert t path m.
  assert (forall t i u, element_at tuple t i u -> exists ts f, tuple t = Some ts /\ nth_error ts i = Some (u, f)) as EA.
  { intros t i u [ts [us [Tu [Tv Nu]]]]. destruct (values_nth ts us Tv (fun u' => V t ts u' Tu) i u Nu) as [f F]. eauto. }
  induction p as [|b l IH|b l IH|p IH] using pattern_ind'; intros t path m W H.
  - inversion H.
  - apply whole_item in W as [W1 W2]. apply array_reports. inversion H as [b' l' t' A|b' l' t' i q u A E El U|b' l' t' i q u path' m' A E El U G| | |]; subst.
    + now left.
    + apply EA in El as [ts [f [Tu F]]]. right. split; [exact A|]. exists ts, i, (Item q). repeat split; auto. exists u, f. split; [exact F|]. left. eauto 6.
    + apply EA in El as [ts [f [Tu F]]]. right. split; [exact A|]. exists ts, i, (Item q). repeat split; auto. exists u, f. split; [exact F|]. right. split; [exact U|].
      exists q, path'. repeat split; auto. destruct (W2 i q E). now apply IH.
  - apply object_reports. inversion H as [| | |b' l' t' i n q u E P U|b' l' t' i n q u path' m' E P U G|]; subst.
    + exists i, n, q, u. auto 6.
    + exists i, n, q, u. repeat split; auto. right. split; [exact U|]. exists path'. split; [reflexivity|]. destruct (whole_property _ _ _ W i _ q E). eapply IH; eauto.
  - cbn [whole] in W. inversion H as [| | | | |p' t' path' m' G]; subst. destruct p; [inversion G|destruct W; discriminate..].
Qed.
End Types.
