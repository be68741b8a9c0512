From Coq Require Import Bool Arith List Lia.
From Verif Require Import AssertionCheck AssertionCheckSpec.
Import ListNotations.

Lemma missing_iff t : nullable_for_assertion t = true <-> can_be_missing t.
Proof.
  unfold nullable_for_assertion, can_be_missing. destruct (nullable t); [tauto|]. rewrite existsb_exists. split.
  - intros (p & I & H). right. exists p. split; auto. apply orb_true_iff in H as [H|H]; auto. apply orb_true_iff in H as [H|H]; auto.
  - intros [H|(p & I & H)]; [discriminate|]. exists p. split; auto. destruct H as [->|[->| ->]]; auto; rewrite ?orb_true_r; auto.
Qed.
Lemma has_iff f t : has f t = true <-> includes f t.
Proof. apply existsb_exists. Qed.
Lemma unassigned_iff d strict container t : possibly_unassigned d strict container t = true <-> maybe_unassigned d strict container t.
Proof.
  unfold maybe_unassigned, possibly_unassigned. destruct d as [v|]; [|split; auto].
  assert (Some v <> None) by discriminate.
  destruct strict; cbn [negb]; [|split; [discriminate|intros [?|(w & E & S & _)]; [congruence|discriminate]]].
  destruct (variable v) eqn:V; cbn [negb]; [|split; [discriminate|intros [?|(w & [= <-] & _ & K & _)]; congruence]].
  destruct (in_list v && negb (block_scoped v || context_flags v) && existsb (Nat.eqb container) (tl (containers v))) eqn:E.
  - split; auto. intros _. right. exists v. repeat split; auto. left. apply andb_true_iff in E as [E C]. apply andb_true_iff in E as [L F]. apply negb_true_iff, orb_false_iff in F as [F1 F2].
    repeat split; auto. apply existsb_exists in C as (c & I & Q). apply Nat.eqb_eq in Q. subst. destruct (containers v) as [|x l]; [destruct I|]. exists x, l. auto.
  - assert (N : ~ (in_list v = true /\ block_scoped v = false /\ context_flags v = false /\ exists c l, containers v = c :: l /\ In container l)).
    { intros (L & B & F & c & l & C & I). rewrite L, B, F, C in E. cbn in E. assert (existsb (Nat.eqb container) l = true) by (apply existsb_exists; exists container; split; auto; apply Nat.eqb_refl). congruence. }
    split.
    + intros H'. right. exists v. repeat split; auto. right. destruct (typed v) as [u|]; [|discriminate]. apply andb_true_iff in H' as [H' D]. apply andb_true_iff in H' as [H' T]. apply andb_true_iff in H' as [I X].
      apply negb_true_iff in I, X, D. apply Nat.eqb_eq in T. subst. repeat split; auto. intros [L K]. rewrite L, K in D. discriminate.
    + intros [?|(w & [= <-] & _ & _ & [?|(I & X & T & D)])]; [congruence|tauto|]. rewrite I, X, T, Nat.eqb_refl. cbn. destruct (in_list v), (declared v); auto; destruct D; auto.
Qed.

Section Constrained.
Context (shape_of : nat -> shape) (target : nat).
Notation con := (constrained_to shape_of target).
Definition next (t : nat) : list nat := match shape_of t with TypeParam (Some c) => [c] | Intersection l => l | _ => [] end.
Lemma con_unfold n t seen : con (S n) t seen = if Nat.eqb t target then Some (true, seen) else if existsb (Nat.eqb t) seen then Some (false, seen) else some_of (con n) (next t) (t :: seen).
Proof.
  cbn [constrained_to]. unfold next. destruct (Nat.eqb t target); auto. destruct (existsb _ seen); auto. destruct (shape_of t) as [[c|]| |]; auto. cbn. destruct (con n c (t :: seen)) as [[[] s]|]; auto.
Qed.
Lemma next_leads r t u : leads shape_of r t -> In u (next t) -> leads shape_of r u.
Proof. unfold next. destruct (shape_of t) as [[c|]|l|] eqn:E; cbn; try tauto; intros L I; [destruct I as [<-|[]]; eapply l_constraint; eauto|eapply l_part; eauto]. Qed.
Lemma leads_next r u : leads shape_of r u -> u = r \/ exists t, leads shape_of r t /\ In u (next t).
Proof.
  induction 1 as [t|t u v L _ E|t u l v L _ E I]; auto; right; exists u; (split; [auto|]); unfold next; rewrite E; cbn; auto.
Qed.
Lemma mem_iff x l : existsb (Nat.eqb x) l = true <-> In x l.
Proof. rewrite existsb_exists. split; [intros (y & I & E); apply Nat.eqb_eq in E; congruence|]. intros I. exists x. split; auto. apply Nat.eqb_refl. Qed.
Lemma leads_trans t u v : leads shape_of t u -> leads shape_of u v -> leads shape_of t v.
Proof. intros A B. induction B as [u|u x v _ IHL E|u x l v _ IHL E I]; auto; [exact (l_constraint _ t x v (IHL A) E)|exact (l_part _ t x l v (IHL A) E I)]. Qed.
Lemma con_true n : (forall t seen s', con n t seen = Some (true, s') -> leads shape_of t target).
Proof.
  induction n as [|n IH]; intros t seen s'; [discriminate|]. rewrite con_unfold. destruct (Nat.eqb_spec t target) as [->|N]; [constructor|].
  destruct (existsb _ seen); [discriminate|].
  assert (G : forall u, leads shape_of u target -> In u (next t) -> leads shape_of t target).
  { intros u L J. apply (leads_trans t u target); auto. eapply next_leads; [constructor|auto]. }
  generalize (t :: seen). assert (Q : forall l, incl l (next t) -> forall sn, some_of (con n) l sn = Some (true, s') -> leads shape_of t target).
  { induction l as [|u l IHl]; intros I sn; cbn; [discriminate|]. destruct (con n u sn) as [[[] s]|] eqn:E; try discriminate.
    - intros _. apply (G u); [eapply IH; eauto|apply I; left; auto].
    - apply IHl. intros x X. apply I. right. auto. }
  intros sn. apply Q, incl_refl.
Qed.
Definition good (S : list nat) (u : nat) : Prop := u <> target /\ incl (next u) S.
Definition inv (s s' l : list nat) : Prop := incl s s' /\ (forall u, In u s' -> In u s \/ good s' u) /\ (forall u, In u l -> In u s').
Lemma inv_trans s1 s2 s3 l m : inv s1 s2 l -> inv s2 s3 m -> inv s1 s3 (l ++ m).
Proof.
  intros (A1 & D1 & B1) (A2 & D2 & B2). split; [eapply incl_tran; eauto|]. split.
  - intros u U. destruct (D2 u U) as [H|H]; auto. destruct (D1 u H) as [K|[K1 K2]]; auto. right. split; auto. eapply incl_tran; eauto.
  - intros u U. apply in_app_or in U as [U|U]; auto.
Qed.
Lemma some_inv n : (forall t s s', con n t s = Some (false, s') -> inv s s' [t]) -> forall l s s', some_of (con n) l s = Some (false, s') -> inv s s' l.
Proof.
  intros F. induction l as [|t l IH]; cbn; intros s s'.
  - intros [= <-]. split; [apply incl_refl|]. split; auto. intros u [].
  - destruct (con n t s) as [[[] s1]|] eqn:E; try discriminate. intros H. apply (inv_trans s s1 s' [t] l); auto.
Qed.
Lemma con_inv n : forall t s s', con n t s = Some (false, s') -> inv s s' [t].
Proof.
  induction n as [|n IH]; intros t s s'; [discriminate|]. rewrite con_unfold. destruct (Nat.eqb_spec t target) as [->|N]; [discriminate|].
  destruct (existsb (Nat.eqb t) s) eqn:M.
  - intros [= <-]. apply mem_iff in M. split; [apply incl_refl|]. split; auto. intros u [<-|[]]. auto.
  - intros H. apply (some_inv n IH) in H as (A & D & B). split; [intros u U; apply A; right; auto|]. split.
    + intros u U. destruct (D u U) as [[<-|K]|K]; auto. right; split; auto; intros x X; auto.
    + intros u [<-|[]]. apply A. left. auto.
Qed.
Lemma con_false n t s' : con n t [] = Some (false, s') -> ~ leads shape_of t target.
Proof.
  intros E L. apply con_inv in E as (_ & D & B).
  assert (W : forall r u, leads shape_of r u -> r = t -> In u s').
  { intros r u H. induction H as [r|r u v _ IH E|r u l v _ IH E I]; intros ->.
    - apply B. left. auto.
    - destruct (D u (IH eq_refl)) as [[]|[_ K]]. apply K. unfold next. rewrite E. left. auto.
    - destruct (D u (IH eq_refl)) as [[]|[_ K]]. apply K. unfold next. rewrite E. auto. }
  destruct (D target (W t target L eq_refl)) as [[]|[K _]]. auto.
Qed.
Lemma con_mono n : forall m t s r, n <= m -> con n t s = Some r -> con m t s = Some r.
Proof.
  induction n as [|n IH]; intros [|m] t s r L; try discriminate; [lia|]. rewrite !con_unfold. destruct (Nat.eqb t target); auto. destruct (existsb _ s); auto.
  generalize (t :: s). generalize (next t). induction l as [|u l IHl]; intros q; cbn; auto. destruct (con n u q) as [[[] s1]|] eqn:E; try discriminate; rewrite (IH m _ _ _ (le_S_n _ _ L) E); auto.
Qed.
Definition missing (all l : list nat) : nat := List.length (filter (fun x => negb (existsb (Nat.eqb x) l)) all).
Lemma missing_less all l m x : incl l m -> In x all -> ~ In x l -> In x m -> missing all m < missing all l.
Proof.
  assert (M : forall all l m, incl l m -> missing all m <= missing all l).
  { clear. intros all l m I. unfold missing. induction all as [|x all IH]; cbn; auto. destruct (existsb (Nat.eqb x) l) eqn:A; cbn.
    - apply mem_iff in A. apply I, mem_iff in A. rewrite A. cbn. auto.
    - destruct (existsb (Nat.eqb x) m); cbn; lia. }
  intros I X N J. induction all as [|y all IH]; [destruct X|]. pose proof (M all l m I) as Le. unfold missing in *. cbn. destruct X as [->|X].
  - destruct (existsb (Nat.eqb x) l) eqn:A; [apply mem_iff in A; tauto|]. apply mem_iff in J. rewrite J. cbn. lia.
  - specialize (IH X). destruct (existsb (Nat.eqb y) l) eqn:A; cbn.
    + apply mem_iff in A. apply I, mem_iff in A. rewrite A. cbn. auto.
    + destruct (existsb (Nat.eqb y) m); cbn; lia.
Qed.
Lemma con_ends t L : In t L -> (forall u v, In u L -> In v (next u) -> In v L) -> exists n r, con n t [] = Some r.
Proof.
  intros T Cl. enough (E : forall j t s, In t L -> missing L s < j -> exists n r, con n t s = Some r) by (apply (E (S (missing L []))); auto).
  clear t T. induction j as [|j IHj]; intros t s T J; [lia|].
  destruct (Nat.eqb t target) eqn:Q; [exists 1, (true, s); rewrite con_unfold, Q; auto|]. destruct (existsb (Nat.eqb t) s) eqn:M; [exists 1, (false, s); rewrite con_unfold, Q, M; auto|].
  assert (Less : missing L (t :: s) < missing L s).
  { apply (missing_less L s (t :: s) t); auto; [intros x; right; auto| |left; auto]. intros I. apply mem_iff in I. congruence. }
  assert (G : forall l q, incl l (next t) -> missing L q < j -> exists n r, some_of (con n) l q = Some r).
  { induction l as [|u l IHl]; intros q I K; [exists 0, (false, q); auto|].
    destruct (IHj u q) as (n & [[] s1] & E); auto; [eapply Cl; eauto; apply I; left; auto| |].
    - exists n, (true, s1). cbn. rewrite E. auto.
    - destruct (IHl s1) as (m & r & R); [intros x X; apply I; right; auto| |].
      + apply con_inv in E as (A & _ & _). assert (missing L s1 <= missing L q); [|lia].
        clear - A. unfold missing. induction L as [|x L IH]; cbn; auto. destruct (existsb (Nat.eqb x) q) eqn:B; cbn.
        * apply mem_iff in B. apply A, mem_iff in B. rewrite B. cbn. auto.
        * destruct (existsb (Nat.eqb x) s1); cbn; lia.
      + exists (Nat.max n m), r. cbn. rewrite (con_mono n _ u q _ (Nat.le_max_l n m) E). clear - R. revert s1 R. induction l as [|v l IH]; cbn; intros s1; auto.
        destruct (con m v s1) as [[[] s2]|] eqn:E; try discriminate; rewrite (con_mono m _ v s1 _ (Nat.le_max_r n m) E); auto. }
  destruct (G (next t) (t :: s) (incl_refl _)) as (n & r & R); [lia|]. exists (S n), r. rewrite con_unfold, Q, M. auto.
Qed.
End Constrained.
