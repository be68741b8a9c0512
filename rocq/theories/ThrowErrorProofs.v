From Coq Require Import Bool Arith Ascii String List Lia.
From Verif Require Import Base EngineProofs.
From Verif Require Import ThrowError ThrowErrorSpec.
Import ListNotations.

Section S.
Context (thenable pc pl : nat -> bool).
Lemma handler_iff name args f : rejection_handler name args f = true <->
  (name = b "catch" /\ exists s l, args = (f, s) :: l) \/ (name = b "then" /\ exists x s l, args = (x, false) :: (f, s) :: l).
Proof.
  unfold rejection_handler. destruct (beqb name (b "catch")) eqn:C.
  - apply beqb_eq in C. subst. destruct args as [|[x s] l].
    + split; [discriminate|]. intros [(_ & s & l & E)|(E & _)]; discriminate.
    + destruct (Nat.eqb_spec x f); subst; split; auto; try discriminate.
      * left. eauto.
      * intros [(_ & y & m & [= -> _ _])|(E & _)]; [congruence|discriminate].
  - assert (NC : name <> b "catch") by (intros ->; discriminate).
    destruct (beqb name (b "then")) eqn:T.
    + apply beqb_eq in T. subst. destruct args as [|[x s] [|[y u] l]].
      1, 2: split; [discriminate|]; intros [(E & _)|(_ & ? & ? & ? & E)]; discriminate.
      destruct (Nat.eqb_spec y f); subst; destruct s; cbn [negb andb]; split; auto; try discriminate.
      * intros [(E & _)|(_ & ? & ? & ? & E)]; discriminate.
      * right. split; auto. exists x, u, l. auto.
      * intros [(E & _)|(_ & ? & ? & ? & [= _ -> _ _])]; congruence.
      * intros [(E & _)|(_ & ? & ? & ? & [= _ -> _ _])]; [discriminate|congruence].
    + assert (NT : name <> b "then") by (intros ->; discriminate). split; [discriminate|]. intros [(E & _)|(E & _)]; congruence.
Qed.
Lemma rethrown_iff d : rethrown thenable d = true <-> exists x, d = Some x /\ caught thenable x.
Proof.
  unfold rethrown. split.
  - destruct d as [d|]; [|discriminate]. intros H. exists d. split; auto. destruct (parent d) as [|arrow f ps around|] eqn:P.
    + apply c_clause. auto.
    + destruct (parameter d) eqn:Pa; [|discriminate]. destruct (rest d) eqn:R; [discriminate|]. destruct arrow; [|discriminate]. cbn [negb] in H.
      destruct ps as [|p ps]; [discriminate|]. destruct (Nat.eqb_spec p (did d)); [|discriminate]. subst p. cbn [negb] in H.
      destruct around as [|[[[object name]|] args| | | ] around]; try discriminate. destruct (rejection_handler name args f) eqn:E; [|discriminate].
      apply handler_iff in E as [(-> & s & l & ->)|(-> & x & s & l & ->)]; [eapply c_catch|eapply c_then]; eauto.
    + discriminate.
  - intros (x & -> & []); rewrite H; auto; rewrite H0, H1; cbn [negb]; rewrite Nat.eqb_refl; cbn [negb].
    + rewrite (proj2 (handler_iff (b "catch") _ f)) by (left; eauto). auto.
    + rewrite (proj2 (handler_iff (b "then") _ f)) by (right; split; auto; eauto). auto.
Qed.
Lemma climb_iff l c : climb l = Some c <-> exists k args m, l = repeat In_parens k ++ In_new c args :: m.
Proof.
  split.
  - induction l as [|[| | | ] l IH]; cbn [climb]; try discriminate.
    + intros [= ->]. exists 0. cbn [repeat app]. eauto.
    + intros H. apply IH in H as (k & args & m & ->). exists (S k), args, m. auto.
  - intros (k & args & m & ->). induction k; auto.
Qed.
Lemma made_iff l : match climb l with Some c => pc c | None => false end = true <-> made pc l.
Proof.
  unfold made. split.
  - destruct (climb l) eqn:C; [|discriminate]. intros H. apply climb_iff in C as (k & args & m & ->). eauto 6.
  - intros (k & c & args & m & -> & H). rewrite (proj2 (climb_iff _ c)) by eauto. auto.
Qed.
Lemma skip_wrapped c : exists k, c = wrapped k (skip_parens c).
Proof. induction c as [c [k E]| | | ]; cbn [skip_parens]; try (exists 0; reflexivity). exists (S k). cbn [wrapped]. congruence. Qed.
Lemma skip_wrap k c : skip_parens (wrapped k c) = skip_parens c.
Proof. induction k; auto. Qed.
Lemma parameter_iff d : reject_parameter pc d = true <-> exists x arrow f p ps around, d = Some x /\ parent x = O_function arrow f (p :: did x :: ps) around /\ parameter x = true /\ made pc around.
Proof.
  unfold reject_parameter. split.
  - destruct d as [d|]; [|discriminate]. destruct (parameter d) eqn:Pa; [|discriminate]. cbn [negb]. destruct (parent d) as [|arrow f [|q [|p ps]] around|] eqn:P; try discriminate.
    destruct (Nat.eqb_spec p (did d)); [|discriminate]. subst p. cbn [negb]. intros H. apply made_iff in H. exists d, arrow, f, q, ps, around. auto.
  - intros (x & arrow & f & p & ps & around & -> & -> & -> & M). cbn [negb]. rewrite Nat.eqb_refl. cbn [negb]. apply made_iff. auto.
Qed.
Lemma call_iff o c args : check_call pc pl o c args = true <-> rejects pc pl c /\ check_reject_call o args = true.
Proof.
  unfold check_call. split.
  - destruct (skip_wrapped c) as [k E]. rewrite E at 2. destruct (skip_parens c) as [|ob [n|]|d|]; try discriminate.
    + destruct (beqb n (b "reject")) eqn:N; [|discriminate]. apply beqb_eq in N. subst n. cbn [andb]. destruct (pc ob || pl ob) eqn:P; [|discriminate]. apply orb_true_iff in P. intros H. split; auto. apply r_static. auto.
    + destruct (reject_parameter pc d) eqn:P; [|discriminate]. apply parameter_iff in P as (x & arrow & f & p & ps & around & -> & Q & Pa & M). intros H. split; auto. eapply r_parameter; eauto.
  - intros [[k ob H|k d arrow f p ps around Q Pa M] R]; rewrite skip_wrap; cbn [skip_parens].
    + rewrite beqb_refl. apply orb_true_iff in H. rewrite H. auto.
    + rewrite (proj2 (parameter_iff (Some d))); auto. exists d, arrow, f, p, ps, around. auto.
Qed.
Lemma reject_call_iff o args : check_reject_call o args = true <->
  (args = [] /\ empty_reject o = false) \/ (exists t l, args = t :: l /\ ~ excused o t /\ error_like t = false /\ readonly_error_like t = false).
Proof.
  unfold check_reject_call, excused. destruct args as [|t l].
  - destruct (empty_reject o); cbn; split; auto; try discriminate; intros [[_ H]|(? & ? & H & _)]; discriminate.
  - destruct o as [ta tu re em], t as [al un an uk er rr]; cbn. destruct al; [split; [discriminate|]; intros [[H _]|(? & ? & [= <- <-] & H & _)]; [discriminate|cbn in *; tauto]|].
    destruct (ta && an) eqn:A; [split; [discriminate|]; intros [[H _]|(? & ? & [= <- <-] & H & _)]; [discriminate|]; apply andb_true_iff in A; cbn in *; tauto|].
    destruct (tu && uk) eqn:U; [split; [discriminate|]; intros [[H _]|(? & ? & [= <- <-] & H & _)]; [discriminate|]; apply andb_true_iff in U; cbn in *; tauto|].
    destruct (er || rr) eqn:E; [split; [discriminate|]; intros [[H _]|(? & ? & [= <- <-] & _ & H1 & H2)]; [discriminate|]; cbn in *; subst; discriminate|].
    split; auto. intros _. right. apply orb_false_iff in E as [-> ->]. eexists _, l. split; [reflexivity|]. cbn. split; auto. intros [H|[[-> ->]|[-> ->]]]; discriminate.
Qed.
End S.
