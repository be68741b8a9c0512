From Coq Require Import Bool Arith List Lia.
From Verif Require Import AssertionContext AssertionContextSpec.
Import ListNotations.

Lemma has_generic_iff : forall c, has_generic c = true <-> exists s, In s (calls c) /\ generic s = true.
Proof. intros c. unfold has_generic. apply existsb_exists. Qed.

(** The search from a state. *)
Definition found (l : list node) (direct seen : bool) : Prop :=
  exists before c f after, l = before ++ Call c f :: after /\ type_arguments c = false /\ (exists s, In s (calls c) /\ generic s = true) /\
    ~ (direct = true /\ before = [] /\ is_new c = false /\ callee_access c = true /\ exists i, f = Argument i) /\
    (forall n, In n before -> ~ closing n) /\ (if seen then Forall (fun y => ~ short_function y) before else at_most_one short_function before).
Lemma found_nil : forall d s, ~ found [] d s.
Proof. intros d s [[|x before] [c [f [after [E _]]]]]; discriminate. Qed.
Lemma found_skip : forall n l d s, ~ closing n -> ~ short_function n -> (forall c f, n <> Call c f) -> (found (n :: l) d s <-> found l false s).
Proof.
  intros n l d s NC NS NK. split.
  - intros [before [c [f [after [E [T [G [X [C A]]]]]]]]]. destruct before as [|x before]; cbn [app] in E; injection E as E1 E2; [exfalso; eapply NK; eauto|]. subst x.
    exists before, c, f, after. split; auto. split; auto. split; auto. split; [intros [Z _]; discriminate|]. split; [intros y Y; apply C; right; exact Y|].
    destruct s; [inversion A; auto|]. inversion A; auto. contradiction.
  - intros [before [c [f [after [E [T [G [X [C A]]]]]]]]]. exists (n :: before), c, f, after. split; [subst; reflexivity|]. split; auto. split; auto. split; [intros [_ [Z _]]; discriminate|].
    split; [intros y [<-|Y]; auto|]. destruct s; [constructor; auto|]. apply amo_no; auto.
Qed.
Lemma call_found : forall c f l d s, found (Call c f :: l) d s <->
  (type_arguments c = false /\ (exists s, In s (calls c) /\ generic s = true) /\ ~ (d = true /\ is_new c = false /\ callee_access c = true /\ exists i, f = Argument i)) \/ found l false s.
Proof.
  intros c f l d s. split.
  - intros [before [c' [f' [after [E [T [G [X [C A]]]]]]]]]. destruct before as [|x before]; cbn [app] in E; [injection E as E0 E1 E2|injection E as E1 E2].
    + subst c' f'. left. split; auto. split; auto. intros [D Z]. apply X. repeat split; auto; tauto.
    + right. subst x. exists before, c', f', after. split; auto. split; auto. split; auto. split; [intros [Z _]; discriminate|]. split; [intros y Y; apply C; right; exact Y|].
      destruct s; [inversion A; auto|]. inversion A as [|y m N AA|y m [a Z] AA]; subst; auto. discriminate.
  - intros [[T [G X]]|[before [c' [f' [after [E [T [G [X [C A]]]]]]]]]].
    + exists [], c, f, l. split; auto. split; auto. split; auto. split; [intros [D [_ Z]]; apply X; auto|]. split; [intros n []|]. destruct s; constructor.
    + exists (Call c f :: before), c', f', after. split; [subst; reflexivity|]. split; auto. split; auto. split; [intros [_ [Z _]]; discriminate|].
      split; [intros y [<-|Y]; [intros [Z|[a Z]]; discriminate|auto]|]. destruct s; [constructor; [intros [a Z]; discriminate|auto]|]. apply amo_no; auto. intros [a Z]. discriminate.
Qed.
Lemma generic_loop_iff : forall l d s, generic_loop l d s = true <-> found l d s.
Proof.
  induction l as [|n l IH]; intros d s; cbn [generic_loop].
  - split; [discriminate|intros H; destruct (found_nil d s H)].
  - destruct n as [| | | | |c f|a [|]| | | | | | | |];
      try (rewrite IH; symmetry; apply found_skip; [intros [Z|[x Z]]; discriminate|intros [x Z]; discriminate|intros; discriminate]).
    + rewrite call_found, <- IH, <- has_generic_iff. destruct (type_arguments c); [split; [auto|]; intros [[Z _]|Z]; [discriminate|auto]|].
      destruct (negb (is_new c) && callee_access c && d && match f with Argument _ => true | Callee => false end) eqn:X.
      * apply andb_true_iff in X. destruct X as [X F]. apply andb_true_iff in X. destruct X as [X ->]. apply andb_true_iff in X. destruct X as [X ->]. apply negb_true_iff in X.
        split; [auto|]. intros [[_ [_ Z]]|Z]; auto. exfalso. apply Z. repeat split; auto. destruct f; [discriminate|eauto].
      * destruct (has_generic c) eqn:G.
        -- split; auto. intros _. left. split; auto. split; auto. intros [-> [N [A [i ->]]]]. rewrite N, A in X. discriminate.
        -- split; auto. intros [[_ [Z _]]|Z]; [discriminate|auto].
    + split; [discriminate|]. intros [before [c [f [after [E [_ [_ [_ [C _]]]]]]]]]. destruct before as [|x before]; cbn [app] in E; [discriminate E|]; injection E as E1 E2. subst x.
      exfalso. apply (C (Function a true)); [left; reflexivity|]. right. eauto.
    + destruct s.
      * split; [discriminate|]. intros [before [c [f [after [E [_ [_ [_ [_ A]]]]]]]]]. destruct before as [|x before]; cbn [app] in E; [discriminate E|]; injection E as E1 E2. subst x.
        inversion A as [|y m N AA]; subst. exfalso. apply N. eexists. reflexivity.
      * rewrite IH. split.
        -- intros [before [c [f [after [E [T [G [X [C A]]]]]]]]]. exists (Function a false :: before), c, f, after. split; [subst; reflexivity|]. split; auto. split; auto. split; [intros [_ [Z _]]; discriminate|].
           split; [intros y [<-|Y]; [intros [Z|[x Z]]; discriminate|auto]|]. apply amo_yes; auto. eexists; reflexivity.
        -- intros [before [c [f [after [E [T [G [X [C A]]]]]]]]]. destruct before as [|x before]; cbn [app] in E; [discriminate E|]; injection E as E1 E2. subst x.
           exists before, c, f, after. split; auto. split; auto. split; auto. split; [intros [Z _]; discriminate|]. split; [intros y Y; apply C; right; exact Y|].
           inversion A as [|y m N AA|y m N AA]; subst; auto. exfalso. apply N. eexists; reflexivity.
    + split; [discriminate|]. intros [before [c [f [after [E [_ [_ [_ [C _]]]]]]]]]. destruct before as [|x before]; cbn [app] in E; [discriminate E|]; injection E as E1 E2. subst x.
      exfalso. apply (C FunctionDeclaration); [left; reflexivity|]. left. reflexivity.
Qed.
Lemma in_generic_iff : forall l, in_generic_context l = true <-> inside_generic l.
Proof.
  intros l. unfold in_generic_context. rewrite generic_loop_iff. unfold found, inside_generic, counts. split.
  - intros [before [c [f [after [E [T [G [X [C A]]]]]]]]]. exists before, c, f, after. split; auto. split; [|auto]. split; [exact T|]. split; [exact G|]. intros [Z R]. apply X. auto.
  - intros [before [c [f [after [E [[T [G X]] [C A]]]]]]]. exists before, c, f, after. split; [exact E|]. split; [exact T|]. split; [exact G|]. split; [intros [_ [Z R]]; apply X; auto|]. auto.
Qed.

Lemma through_parens_repeat : forall k l, through_parens (repeat Parens k ++ l) = through_parens l.
Proof. induction k as [|k IH]; intros l; [reflexivity|]. cbn [repeat app through_parens]. apply IH. Qed.
Lemma through_parens_split : forall l, exists k, l = repeat Parens k ++ through_parens l.
Proof.
  induction l as [|n l [k IH]]; [exists 0; reflexivity|]. destruct n; try (exists 0; reflexivity). exists (S k). cbn [repeat app through_parens]. f_equal. exact IH.
Qed.
Lemma argument_of_iff : forall l c i, argument_of l = Some (c, i) <-> argument l c i.
Proof.
  intros l c i. unfold argument_of, argument. split.
  - destruct (through_parens l) as [|[] r] eqn:E; try discriminate. destruct f as [|j]; [discriminate|]. intros H. injection H as -> ->. destruct (through_parens_split l) as [k S0]. rewrite E in S0. eauto.
  - intros [k [after ->]]. rewrite through_parens_repeat. reflexivity.
Qed.
Lemma param_type_iff : forall i s t, param_type i s = Some t <-> wants i s t.
Proof.
  intros i s t. unfold param_type. split.
  - destruct (nth_error (params s) i) as [p|] eqn:N; [|discriminate]. destruct (rest p) eqn:R; [destruct (arguments p) as [|a l] eqn:A|]; intros H.
    + eapply w_other; eauto.
    + injection H as ->. eapply w_rest; eauto.
    + eapply w_plain; eauto.
  - intros [p u N R P|p u l N R A|p u N R A P]; rewrite N, R; rewrite ?A; auto.
Qed.
Lemma param_types_none : forall i l, param_types i l = None <-> exists s, In s l /\ forall t, ~ wants i s t.
Proof.
  intros i. induction l as [|s l IH]; cbn [param_types].
  - split; [discriminate|]. intros [s [[] _]].
  - destruct (param_type i s) as [t|] eqn:P.
    + assert (K : (match param_types i l with Some ts => Some (t :: ts) | None => None end = None) <-> param_types i l = None) by (destruct (param_types i l); split; congruence).
      rewrite K, IH. split; [intros [x [I N]]; exists x; split; [right; exact I|exact N]|]. intros [x [[<-|I] N]]; [exfalso; apply (N t); apply param_type_iff; exact P|eauto].
    + split; auto. intros _. exists s. split; [left; reflexivity|]. intros t W. apply param_type_iff in W. congruence.
Qed.
Lemma param_types_some : forall i l ts, param_types i l = Some ts -> forall t, In t ts <-> exists s, In s l /\ wants i s t.
Proof.
  intros i. induction l as [|s l IH]; intros ts E t; cbn [param_types] in E.
  - injection E as <-. split; [intros []|]. intros [s [[] _]].
  - destruct (param_type i s) as [u|] eqn:P; [|discriminate]. destruct (param_types i l) as [us|] eqn:Q; [|discriminate]. injection E as <-. cbn [In]. rewrite (IH us eq_refl). split.
    + intros [<-|[x [I W]]]; [exists s; split; [left; reflexivity|apply param_type_iff; exact P]|]. exists x. auto.
    + intros [x [[<-|I] W]]; [|right; eauto]. apply param_type_iff in W. left. congruence.
Qed.
Lemma param_types_length : forall i l ts, param_types i l = Some ts -> List.length ts = List.length l.
Proof.
  intros i. induction l as [|s l IH]; intros ts E; cbn [param_types] in E; [injection E as <-; reflexivity|].
  destruct (param_type i s); [|discriminate]. destruct (param_types i l) as [us|] eqn:Q; [|discriminate]. injection E as <-. cbn [List.length]. rewrite (IH us); auto.
Qed.
Lemma overloaded_iff : forall a l, overloaded a l = true <-> exists c i, argument l c i /\ matters a c i.
Proof.
  intros a l. unfold overloaded. destruct (argument_of l) as [[c i]|] eqn:AO.
  2:{ split; [discriminate|]. intros [c [i [A _]]]. apply argument_of_iff in A. congruence. }
  assert (U : (exists c0 i0, argument l c0 i0 /\ matters a c0 i0) <-> matters a c i).
  { split; [|intros M; exists c, i; split; [apply argument_of_iff; exact AO|exact M]]. intros [c0 [i0 [A M]]]. apply argument_of_iff in A. rewrite A in AO. injection AO as -> ->. exact M. }
  rewrite U. clear U AO. unfold matters. destruct (Nat.leb (List.length (calls c)) 1) eqn:L.
  { split; [discriminate|]. intros [[s [s' [r E]]] _]. rewrite E in L. cbn [List.length Nat.leb] in L. discriminate. }
  assert (TWO : exists s s' r, calls c = s :: s' :: r).
  { destruct (calls c) as [|s [|s' r]]; cbn [List.length Nat.leb] in L; try discriminate. eauto. }
  destruct (param_types i (calls c)) as [ts|] eqn:P.
  2:{ split; auto. intros _. split; auto. left. apply param_types_none. exact P. }
  pose proof (param_types_some i (calls c) ts P) as IN. pose proof (param_types_length i (calls c) ts P) as LEN.
  assert (NN : ~ exists s, In s (calls c) /\ forall t, ~ wants i s t) by (rewrite <- param_types_none; congruence).
  destruct ts as [|t ts]; [destruct TWO as [s [s' [r E]]]; rewrite E in LEN; discriminate|].
  destruct (existsb (fun u => negb (Nat.eqb u t)) (t :: ts)) eqn:D.
  - apply existsb_exists in D. destruct D as [u [I D]]. apply negb_true_iff, Nat.eqb_neq in D. rewrite existsb_exists. split.
    + intros [x [X N]]. apply negb_true_iff in N. split; auto. right. split.
      * apply IN in I. destruct I as [s [I W]]. assert (I' : In t (t :: ts)) by (left; reflexivity). apply IN in I'. destruct I' as [s' [I' W']]. exists s, s', u, t. auto.
      * apply IN in X. destruct X as [s [X W]]. eauto.
    + intros [_ [H|[_ [s [x [X [W N]]]]]]]; [contradiction|]. exists x. split; [apply IN; eauto|]. apply negb_true_iff. exact N.
  - split; [discriminate|]. intros [_ [H|[[s [s' [u [u' [I [I' [W [W' N]]]]]]]] _]]]; [contradiction|]. exfalso. apply N.
    assert (Q : forall x, In x (t :: ts) -> x = t).
    { intros x X. destruct (Nat.eqb x t) eqn:E; [apply Nat.eqb_eq; exact E|]. assert (Z : existsb (fun u => negb (Nat.eqb u t)) (t :: ts) = true) by (apply existsb_exists; exists x; rewrite E; auto). congruence. }
    rewrite (Q u), (Q u'); auto; apply IN; eauto.
Qed.
Lemma starts_iff : forall n l, n <> Parens -> ((exists r, through_parens l = n :: r) <-> exists j r, l = repeat Parens j ++ n :: r).
Proof.
  intros n l N. split.
  - intros [r E]. destruct (through_parens_split l) as [k S0]. rewrite E in S0. eauto.
  - intros [j [r ->]]. exists r. rewrite through_parens_repeat. destruct n; try reflexivity. congruence.
Qed.
Lemma problematic_iff : forall q l, problematic q l = true <-> troubled q l.
Proof.
  intros q l. split.
  - unfold problematic. destruct l as [|[] [|[] r]]; try discriminate. destruct (object_union q) eqn:U.
    + destruct (contextual q) eqn:C; cbn [negb]; [|intros _; apply t_unknown; auto]. destruct (contextual_union q) eqn:D; [intros _; apply t_union; auto|]. intros H. apply negb_true_iff in H. apply t_misfit; auto.
    + destruct r as [|[] r]; try discriminate; try (intros _; constructor; auto; fail). destruct r as [|[] r]; try discriminate. intros H. apply negb_true_iff in H. apply t_call; auto.
  - intros [r U C|r U C|r U C|r U|r U|c f r U N]; unfold problematic; rewrite U; try rewrite C; cbn [negb]; auto.
    + destruct (contextual q); reflexivity.
    + destruct (contextual q); auto. destruct (contextual_union q); auto.
    + rewrite N. reflexivity.
Qed.
Lemma skip_parent_iff : forall l, skip_parent l = true <-> exists j n r, In n [As; Satisfies; Spread; SpreadIn] /\ l = repeat Parens j ++ n :: r.
Proof.
  intros l. unfold skip_parent. split.
  - destruct (through_parens_split l) as [k S0]. destruct (through_parens l) as [|n r]; [discriminate|]. intros H. exists k, n, r. split; auto. destruct n; try discriminate; cbn [In]; tauto.
  - intros [j [n [r [I ->]]]]. rewrite through_parens_repeat. cbn [In] in I. destruct I as [<-|[<-|[<-|[<-|[]]]]]; reflexivity.
Qed.
Lemma inferred_iff : forall l, inferred_return l = true <-> exists j r, l = Property :: Object :: repeat Parens j ++ Function true false :: r /\ inside_generic l.
Proof.
  intros l. unfold inferred_return. split.
  - destruct l as [|[] [|[] r]]; try discriminate. destruct (through_parens_split r) as [k S0]. destruct (through_parens r) as [|[] r']; try discriminate. destruct arrow; [|discriminate]. destruct block; [discriminate|].
    intros H. exists k, r'. split; [congruence|]. apply in_generic_iff. exact H.
  - intros [j [r [-> H]]]. rewrite through_parens_repeat. cbn [through_parens]. apply in_generic_iff. exact H.
Qed.
Lemma should_skip_iff : forall k l, should_skip k false l = true <-> reason k l.
Proof.
  intros k l. unfold should_skip.
  assert (TP : (match through_parens l with Property :: _ => false | _ => true end = true) <-> forall j r, l <> repeat Parens j ++ Property :: r).
  { destruct (through_parens l) as [|n r] eqn:E; [split; auto; intros _ j r Z; assert (X : exists r, through_parens l = Property :: r) by (apply starts_iff; [discriminate|eauto]); destruct X; congruence|].
    destruct n; try (split; auto; intros _ j r0 Z; assert (X : exists r, through_parens l = Property :: r) by (apply starts_iff; [discriminate|eauto]); destruct X; congruence).
    split; [discriminate|]. intros H. exfalso. assert (X : exists j r, l = repeat Parens j ++ Property :: r) by (apply starts_iff; [discriminate|eauto]). destruct X as [j [r' X]]. apply (H j r' X). }
  match goal with |- (if ?g then true else _) = true <-> _ => destruct g eqn:G end.
  - split; auto. intros _. rewrite !orb_true_iff in G. destruct G as [[[[[[[[G|G]|G]|G]|G]|G]|G]|G]|G].
    + apply skip_parent_iff in G. destruct G as [j [n [r [I ->]]]]. apply r_parent. exact I.
    + apply r_array. exact G.
    + apply r_nested. exact G.
    + destruct l as [|[] r]; try discriminate. cbn [destructured] in G. subst. apply r_pattern.
    + apply r_troubled, problematic_iff. exact G.
    + apply inferred_iff in G. destruct G as [j [r [-> I]]]. apply r_callback. exact I.
    + destruct l as [|[] r]; try discriminate. apply r_inside. intros r' ->. discriminate.
    + destruct l as [|[] r]; try discriminate. cbn [logical_assignment] in G. subst. apply r_logical.
    + apply overloaded_iff in G. destruct G as [c [i [A M]]]. eapply r_overloaded; eauto.
  - rewrite !orb_false_iff in G. destruct G as [[[[[[[[G1 G2] G3] G4] G5] G6] G7] G8] G9]. split.
    + destruct (in_generic_context l) eqn:IG; [|discriminate]. intros H. apply andb_true_iff in H. destruct H as [H1 H2]. apply negb_true_iff in H1. apply r_generic; [apply in_generic_iff; exact IG|exact H1|apply TP; exact H2].
    + intros R. destruct R as [j n r I|l A|l A|r|l A|j r A|g r A|r|l c i A M|l A L N].
      * exfalso. assert (X : skip_parent (repeat Parens j ++ n :: r) = true) by (apply skip_parent_iff; eauto). congruence.
      * congruence.
      * congruence.
      * discriminate.
      * apply problematic_iff in A. congruence.
      * exfalso. assert (X : inferred_return (Property :: Object :: repeat Parens j ++ Function true false :: r) = true) by (apply inferred_iff; eauto). congruence.
      * exfalso. destruct r as [|[] r]; try discriminate. apply (A r). reflexivity.
      * discriminate.
      * exfalso. assert (X : overloaded (assignable k) l = true) by (apply overloaded_iff; eauto). congruence.
      * apply in_generic_iff in A. rewrite A, L. cbn [negb andb]. apply TP. exact N.
Qed.
