From Coq Require Import Bool Arith List Lia.
From Verif Require Import NestedArrays NestedArraysSpec.
Import ListNotations.

Lemma element_iff : forall i t u, element i t = Some u <-> has_element i t u.
Proof.
  intros i t u. unfold element. split.
  - destruct (elements t) as [ts|v|] eqn:E; [|intros H; injection H as ->; apply h_index; exact E|discriminate]. destruct ts as [|x ts]; [discriminate|]. intros H.
    destruct (le_lt_dec (List.length (x :: ts)) i) as [L|L].
    + rewrite Nat.min_r in H by lia. destruct (exists_last (l := x :: ts)) as [l' [y Y]]; [discriminate|]. rewrite Y in H, L. rewrite app_length in H, L. cbn [List.length] in H, L.
      rewrite nth_error_app2 in H by lia. replace (List.length l' + 1 - 1 - List.length l') with 0 in H by lia. injection H as ->. rewrite Y in E. eapply h_beyond; eauto. lia.
    + rewrite Nat.min_l in H by lia. eapply h_tuple; eauto.
  - intros [ts v E N|ts v E L|v E]; rewrite E; auto.
    + assert (L : i < List.length ts) by (apply nth_error_Some; congruence). destruct ts as [|x ts]; [cbn [List.length] in L; lia|]. rewrite Nat.min_l by lia. exact N.
    + destruct (ts ++ [v]) as [|x l] eqn:A; [destruct ts; discriminate|]. rewrite <- A. rewrite app_length. cbn [List.length]. rewrite Nat.min_r by lia. rewrite nth_error_app2 by lia.
      replace (List.length ts + 1 - 1 - List.length ts) with 0 by lia. reflexivity.
Qed.
Lemma walk_iff : forall p t u, walk p t = u <-> reaches t p u.
Proof.
  induction p as [|i p IH]; intros t u; cbn [walk].
  - split; [intros <-; constructor|]. intros H. inversion H. reflexivity.
  - destruct (element i t) as [v|] eqn:E.
    + rewrite IH. apply element_iff in E. split; [intros H; econstructor; eauto|]. intros H. inversion H as [|t0 i0 v0 p0 w E0 R|t0 i0 p0 N]; subst.
      * apply element_iff in E0. apply element_iff in E. congruence.
      * exfalso. apply (N v). exact E.
    + assert (N : forall v, ~ has_element i t v) by (intros v V; apply element_iff in V; congruence). split; [intros <-; apply r_stop; exact N|].
      intros H. inversion H as [|t0 i0 v0 p0 w E0 R|t0 i0 p0 N0]; subst; auto. exfalso. apply (N v0). exact E0.
Qed.
Lemma place_unique : forall ps i k k', place ps i k -> place ps i k' -> k = k'.
Proof. intros ps i k k' [[A B]|[A B]] [[C D]|[C D]]; lia. Qed.
Lemma clamp : forall (l : list type) n t, l <> [] -> (nth_error l (Nat.min n (List.length l - 1)) = Some t <-> nth_error l n = Some t \/ exists l', l = l' ++ [t] /\ List.length l' < n).
Proof.
  intros l n t N. destruct (le_lt_dec (List.length l) n) as [L|L].
  - rewrite Nat.min_r by lia. destruct (exists_last N) as [l' [y ->]]. rewrite app_length in *. cbn [List.length] in *. rewrite nth_error_app2 by lia. replace (List.length l' + 1 - 1 - List.length l') with 0 by lia. cbn [nth_error]. split.
    + intros H. injection H as ->. right. exists l'. split; auto. lia.
    + intros [H|[m [E K]]].
      * assert (Z : nth_error (l' ++ [y]) n <> None) by congruence. apply nth_error_Some in Z. rewrite app_length in Z. cbn [List.length] in Z. lia.
      * apply app_inj_tail in E. destruct E as [_ ->]. reflexivity.
  - rewrite Nat.min_l by lia. split; auto. intros [H|[m [E K]]]; auto. rewrite E, app_length in L. cbn [List.length] in L. lia.
Qed.
Lemma param_type_iff : forall ps i t, param_type ps i = Some t <-> wanted ps i t.
Proof.
  intros ps i t. unfold param_type. set (k := if Nat.leb (List.length ps) i then List.length ps - 1 else i).
  assert (P : ps <> [] -> place ps i k).
  { intros N. unfold k. destruct (Nat.leb (List.length ps) i) eqn:L; [apply Nat.leb_le in L; right; split; auto; destruct ps; [congruence|cbn [List.length]; lia]|apply Nat.leb_gt in L; left; auto]. }
  split.
  - destruct (nth_error ps k) as [p|] eqn:N; [|discriminate]. assert (P' : place ps i k) by (apply P; intros ->; destruct k; discriminate).
    destruct (rest p) eqn:R; [|intros H; injection H as <-; eapply w_plain; eauto]. destruct (arguments (ptype p)) as [|a [|a' l]] eqn:A; intros H.
    + injection H as <-. eapply w_bare; eauto.
    + injection H as ->. destruct (i - k) as [|d] eqn:D; [eapply w_rest; eauto; rewrite A, D; reflexivity|]. eapply (w_last ps i k p []); eauto. cbn [List.length]. lia.
    + apply (clamp (a :: a' :: l)) in H; [|discriminate]. rewrite <- A in H. destruct H as [H|[l' [E K]]]; [eapply w_rest; eauto|eapply w_last; eauto].
  - intros W. assert (Q : exists k' p, place ps i k' /\ nth_error ps k' = Some p) by (destruct W; eauto). destruct Q as [k' [p' [Pk N']]].
    assert (NN : ps <> []) by (intros ->; destruct k'; discriminate). specialize (P NN). assert (K : k' = k) by (eapply place_unique; eauto). subst k'.
    destruct W as [k2 p P2 N R|k2 p P2 N R A|k2 p u P2 N R A|k2 p l u P2 N R A L]; assert (K2 : k2 = k) by (eapply place_unique; eauto); subst k2; rewrite N, R; auto.
    + rewrite A. reflexivity.
    + destruct (arguments (ptype p)) as [|a [|a' l]] eqn:AE; [destruct (i - k); discriminate| |].
      * destruct (i - k) as [|[|d]]; cbn [nth_error] in A; try discriminate. exact A.
      * apply clamp; [discriminate|]. left. exact A.
    + destruct (arguments (ptype p)) as [|a [|a' l']] eqn:AE; [destruct l; discriminate| |].
      * destruct l as [|x l]; cbn [app] in A; [injection A as ->; reflexivity|]. destruct l; discriminate.
      * apply clamp; [discriminate|]. right. eauto.
Qed.
Fixpoint sig_ind' (P : signature -> Prop) (A : forall n ps, P (Sig n ps None)) (B : forall n ps t, P t -> P (Sig n ps (Some t))) (s : signature) : P s :=
  match s with Sig n ps None => A n ps | Sig n ps (Some t) => B n ps t (sig_ind' P A B t) end.
Lemma original_iff : forall s n ps, original s = (n, ps) <-> first_of s n ps.
Proof.
  intros s. induction s as [n0 ps0|n0 ps0 t IH] using sig_ind'; intros n ps; cbn [original].
  - split; [intros H; injection H as -> ->; constructor|]. intros H. inversion H. reflexivity.
  - rewrite IH. split; [intros H; constructor; exact H|]. intros H. inversion H. auto.
Qed.
Lemma generic_at_iff : forall s i path, generic_at s i path = true <-> exists g, s = Some g /\ inferred g i path.
Proof.
  intros [s|] i path; cbn [generic_at].
  2:{ split; [discriminate|]. intros [g [E _]]. discriminate. }
  destruct (original s) as [n ps] eqn:O. split.
  - destruct (Nat.eqb n 0) eqn:Z; [discriminate|]. apply Nat.eqb_neq in Z. destruct (param_type ps i) as [t|] eqn:P; [|discriminate]. intros V. exists s. split; auto.
    exists n, ps, t, (walk path t). split; [apply original_iff; exact O|]. split; [lia|]. split; [apply param_type_iff; exact P|]. split; auto. apply walk_iff. reflexivity.
  - intros [g [E [m [qs [t [u [F [L [W [R V]]]]]]]]]]. injection E as <-. apply original_iff in F. rewrite F in O. injection O as <- <-. replace (Nat.eqb m 0) with false by (symmetry; apply Nat.eqb_neq; lia).
    apply param_type_iff in W. rewrite W. apply walk_iff in R. rewrite R. exact V.
Qed.

Lemma through_parens_repeat : forall k l, through_parens (repeat Parens k ++ l) = through_parens l.
Proof. induction k as [|k IH]; intros l; [reflexivity|]. cbn [repeat app through_parens]. apply IH. Qed.
Lemma through_quiet : forall pre l, quiet pre -> (exists i m, l = Array i :: m) -> exists n r, through_parens (pre ++ l) = n :: r /\ (n = Elsewhere \/ exists i, n = Array i).
Proof.
  induction pre as [|n pre IH]; intros l Q [i [m ->]]; [exists (Array i), m; split; [reflexivity|eauto]|].
  assert (Q' : quiet pre) by (intros x X; apply Q; right; exact X). pose proof (Q n (or_introl eq_refl)) as K. destruct n; try contradiction; cbn [app through_parens].
  - apply IH; eauto.
  - eexists _, _. split; [reflexivity|eauto].
  - eexists _, _. split; [reflexivity|eauto].
Qed.
Lemma places_cons : forall n l, places (n :: l) = places l ++ match n with Array i => [i] | _ => [] end.
Proof. intros n l. unfold places. cbn [flat_map]. rewrite rev_app_distr. f_equal. destruct n; reflexivity. Qed.
Lemma nested_quiet : forall pre i m path, quiet pre -> nested (pre ++ Array i :: m) path = nested (Array i :: m) (places pre ++ path).
Proof.
  induction pre as [|n pre IH]; intros i m path Q; [reflexivity|].
  assert (Q' : quiet pre) by (intros x X; apply Q; right; exact X). pose proof (Q n (or_introl eq_refl)) as K. rewrite places_cons. destruct n as [| |a| | |]; try contradiction.
  - rewrite app_nil_r. rewrite <- IH by auto. reflexivity.
  - rewrite <- app_assoc. cbn [app]. rewrite <- IH by auto. cbn [nested]. destruct (through_quiet pre (Array i :: m) Q') as [n [r [E [->|[x ->]]]]]; [eauto| |]; rewrite E; reflexivity.
  - rewrite app_nil_r. rewrite <- IH by auto. reflexivity.
Qed.
