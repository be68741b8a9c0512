From Coq Require Import Bool Arith ZArith Ascii String List Lia Permutation.
From Verif Require Import Base Fixer FixerSpec FixerProofs.
From Verif Require Import FixPieces NonNullStyle NonNullStyleSpec.
Import ListNotations.

Lemma mem_iff t s : mem t s = true <-> In t s.
Proof. unfold mem. rewrite existsb_exists. split; [intros (x & I & E); apply Nat.eqb_eq in E; subst; exact I|intros I; exists t; split; [exact I|apply Nat.eqb_refl]]. Qed.
Lemma in_add t x s : In t (add x s) <-> t = x \/ In t s.
Proof.
  unfold add. destruct (mem x s) eqn:E.
  - split; [auto|]. intros [->|I]; [apply mem_iff, E|exact I].
  - cbn. intuition congruence.
Qed.
Lemma nodup_add x s : NoDup s -> NoDup (add x s).
Proof. intros N. unfold add. destruct (mem x s) eqn:E; [exact N|]. constructor; [|exact N]. intros I. apply mem_iff in I. congruence. Qed.
Lemma non_nullable_gen (nullable : typ -> bool) l : forall s : list typ, NoDup s ->
  NoDup (fold_left (fun s t => if nullable t then s else add t s) l s) /\
  forall t, In t (fold_left (fun s t => if nullable t then s else add t s) l s) <-> In t s \/ (In t l /\ nullable t = false).
Proof.
  induction l as [|x l IH]; intros s N; cbn [fold_left].
  - split; [exact N|]. cbn. tauto.
  - destruct (nullable x) eqn:E.
    + destruct (IH s N) as [A B]. split; [exact A|]. intros t. rewrite B. cbn [In]. split; [tauto|]. intros [I|[[->|I] F]]; [auto|congruence|auto].
    + destruct (IH (add x s) (nodup_add x s N)) as [A B]. split; [exact A|]. intros t. rewrite B, in_add. cbn [In]. split; [intros [[->|I]|[I F]]; auto|]. intros [I|[[<-|I] F]]; auto.
Qed.
Lemma non_nullable_spec nullable l : NoDup (non_nullable nullable l) /\ forall t, In t (non_nullable nullable l) <-> In t l /\ nullable t = false.
Proof.
  unfold non_nullable. destruct (non_nullable_gen nullable l [] (NoDup_nil _)) as [A B]. split; [exact A|]. intros t. rewrite B. cbn. tauto.
Qed.
Lemma same_length nullable l : NoDup l -> (length (non_nullable nullable l) = length l <-> forall t, In t l -> nullable t = false).
Proof.
  intros N. destruct (non_nullable_spec nullable l) as [A B]. split.
  - intros E t I. assert (In t (non_nullable nullable l)) as J; [|apply B in J; tauto].
    revert t I. apply (NoDup_length_incl A); [lia|]. intros t J. apply B in J. tauto.
  - intros H. apply Nat.le_antisymm; apply NoDup_incl_length; auto; intros t I; [apply B in I; tauto|apply B; auto].
Qed.
Lemma could_iff nullable constraint t : could_be_nullable nullable constraint t = false <-> solid nullable constraint t.
Proof.
  unfold could_be_nullable, solid. destruct (constraint t) as [[l|]|]; [|split; [discriminate|intros (l & E & _); discriminate]|reflexivity].
  split.
  - intros E. exists l. split; [reflexivity|]. intros p I. destruct (nullable p) eqn:F; [|reflexivity].
    assert (existsb nullable l = true) as X by (apply existsb_exists; eauto). congruence.
  - intros (l' & E & H). injection E as <-. destruct (existsb nullable l) eqn:X; [|reflexivity]. apply existsb_exists in X as (p & I & F). rewrite (H p I) in F. discriminate.
Qed.
Lemma asserted_set_some nullable constraint known l : forall s r, asserted_set nullable constraint known l s = Some r <->
  (forall t, In t l -> solid nullable constraint t /\ In t known) /\ r = fold_left (fun s t => add t s) l s.
Proof.
  induction l as [|x l IH]; intros s r; cbn [asserted_set fold_left].
  - split; [intros E; injection E as <-; split; [intros t []|reflexivity]|intros [_ ->]; reflexivity].
  - destruct (could_be_nullable nullable constraint x || negb (mem x known)) eqn:E.
    + split; [discriminate|]. intros [H _]. destruct (H x (or_introl eq_refl)) as [A B]. apply could_iff in A. apply mem_iff in B. rewrite A, B in E. discriminate.
    + apply orb_false_iff in E as [A B]. apply negb_false_iff in B. apply could_iff in A. apply mem_iff in B. rewrite IH. cbn [In]. split.
      * intros [H ->]. split; [|reflexivity]. intros t [<-|I]; auto.
      * intros [H ->]. split; [|reflexivity]. intros t I. auto.
Qed.
Lemma in_fold_add l : forall s t, In t (fold_left (fun s t => add t s) l s) <-> In t s \/ In t l.
Proof.
  induction l as [|x l IH]; intros s t; cbn [fold_left]; [cbn; tauto|]. rewrite IH, in_add. cbn [In]. intuition congruence.
Qed.
