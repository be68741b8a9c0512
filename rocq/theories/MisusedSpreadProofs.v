From Coq Require Import Bool Arith ZArith Ascii String List Lia.
From Verif Require Import Base.
From Verif Require Import MisusedSpread MisusedSpreadSpec.
Import ListNotations.

Section Ty_full.
Context (P : ty -> Prop).
Hypothesis HL : forall k, P (Leaf k).
Hypothesis HU : forall l, Forall P l -> P (Union l).
Hypothesis HI : forall l, Forall P l -> P (Inter l).
Fixpoint ty_full (t : ty) : P t :=
  match t with
  | Leaf k => HL k
  | Union l => HU l ((fix all (l : list ty) : Forall P l := match l with [] => Forall_nil P | n :: l => Forall_cons n (ty_full n) (all l) end) l)
  | Inter l => HI l ((fix all (l : list ty) : Forall P l := match l with [] => Forall_nil P | n :: l => Forall_cons n (ty_full n) (all l) end) l)
  end.
End Ty_full.

Lemma some_part_spec p (P : leaf -> Prop) t : (forall k, p k = true <-> P k) -> (some_part p t = true <-> some P t).
Proof.
  intros E. induction t as [k|l IH|l IH] using ty_full.
  - cbn. rewrite E. split; [intros H; exists k; split; [constructor|auto]|intros (k' & H & Q); inversion H; subst; auto].
  - assert (X : some_part p (Union l) = true <-> exists t, In t l /\ some P t).
    { cbn. induction IH as [|t l T _ IHl]; [split; [discriminate|intros (t & [] & _)]|]. destruct (some_part p t) eqn:S.
      - split; auto. intros _. exists t. split; [left; auto|]. tauto.
      - rewrite IHl. split; intros (t' & H & Q); exists t'; split; auto; [right; auto|]. destruct H as [<-|H]; auto. apply T in Q. congruence. }
    rewrite X. split.
    + intros (t & H & k & K & Q). exists k. split; auto. eapply p_union; eauto.
    + intros (k & K & Q). inversion K; subst. exists t. split; auto. exists k. auto.
  - assert (X : some_part p (Inter l) = true <-> exists t, In t l /\ some P t).
    { cbn. induction IH as [|t l T _ IHl]; [split; [discriminate|intros (t & [] & _)]|]. destruct (some_part p t) eqn:S.
      - split; auto. intros _. exists t. split; [left; auto|]. tauto.
      - rewrite IHl. split; intros (t' & H & Q); exists t'; split; auto; [right; auto|]. destruct H as [<-|H]; auto. apply T in Q. congruence. }
    rewrite X. split.
    + intros (t & H & k & K & Q). exists k. split; auto. eapply p_inter; eauto.
    + intros (k & K & Q). inversion K; subst. exists t. split; auto. exists k. auto.
Qed.
Definition test (m : message) (t : ty) : bool :=
  match m with
  | String_spread => is_string t | Promise_spread => is_promise t | Function_spread => is_function t | Map_spread => is_map t | Array_spread => is_array t
  | Iterable_spread => is_iterable t && negb (is_string t) | Instance_spread => is_instance t | Class_spread => is_class t
  end.
Lemma test_says m t : test m t = true <-> says m t.
Proof.
  destruct m; cbn [test says].
  - apply some_part_spec. tauto.
  - apply some_part_spec. tauto.
  - apply some_part_spec. intros k. rewrite andb_true_iff, negb_true_iff, Nat.eqb_neq, Nat.eqb_eq. tauto.
  - apply some_part_spec. tauto.
  - apply some_part_spec. tauto.
  - rewrite andb_true_iff, negb_true_iff.
    pose proof (some_part_spec string_like (fun k => string_like k = true) t (fun k => iff_refl _)) as S.
    pose proof (some_part_spec iterable (fun k => iterable k = true) t (fun k => iff_refl _)) as I.
    unfold is_iterable, is_string. rewrite I, <- S. destruct (some_part string_like t); intuition congruence.
  - apply some_part_spec. intros k. destruct (constructs k); [intuition congruence|]. rewrite existsb_exists. split.
    + intros (d & H & ->). auto.
    + intros [_ H]. exists true. auto.
  - apply some_part_spec. intros k. apply orb_true_iff.
Qed.
Lemma object_first t m : check_object false t = Some m <-> rank m <> None /\ test m t = true /\ forall m', earlier m' m -> test m' t = false.
Proof.
  unfold check_object.
  assert (L : forall m', (exists i, rank m' = Some i) -> m' = Promise_spread \/ m' = Function_spread \/ m' = Map_spread \/ m' = Array_spread \/ m' = Iterable_spread \/ m' = Instance_spread \/ m' = Class_spread).
  { intros []; intros (i & E); cbn in E; try discriminate; tauto. }
  assert (EQ : forall x y, (earlier x y) <-> match rank x, rank y with Some i, Some j => (i < j)%nat | _, _ => False end).
  { intros x y. unfold earlier. destruct (rank x), (rank y); split; try tauto; try (intros (? & ? & ? & ? & ?); congruence).
    intros Q. eauto. }
  assert (A : forall x, (forall m', earlier m' x -> test m' t = false) <-> 
    (earlier Promise_spread x -> test Promise_spread t = false) /\ (earlier Function_spread x -> test Function_spread t = false) /\ (earlier Map_spread x -> test Map_spread t = false) /\
    (earlier Array_spread x -> test Array_spread t = false) /\ (earlier Iterable_spread x -> test Iterable_spread t = false) /\ (earlier Instance_spread x -> test Instance_spread t = false) /\ (earlier Class_spread x -> test Class_spread t = false)).
  { intros x. split; [intros H; repeat split; apply H|]. intros (H1 & H2 & H3 & H4 & H5 & H6 & H7) m' E. pose proof E as (i & j & R & _).
    destruct m'; try discriminate; auto. }
  rewrite A, !EQ.
  change (is_promise t) with (test Promise_spread t). change (is_function t) with (test Function_spread t). change (is_map t) with (test Map_spread t).
  change (is_array t) with (test Array_spread t). change (is_iterable t && negb (is_string t)) with (test Iterable_spread t).
  change (is_instance t) with (test Instance_spread t). change (is_class t) with (test Class_spread t).
  destruct m; cbn [rank];
  destruct (test Promise_spread t); destruct (test Function_spread t); destruct (test Map_spread t); destruct (test Array_spread t); destruct (test Iterable_spread t); destruct (test Instance_spread t); destruct (test Class_spread t);
    (split; [intros E; try discriminate; repeat split; auto; try discriminate; intros; lia|intros (? & ? & H1 & H2 & H3 & H4 & H5 & H6 & H7); try congruence; try reflexivity; exfalso;
      repeat match goal with H : (?a < ?b)%nat -> _ |- _ => first [specialize (H ltac:(lia)); discriminate|clear H] end]).
Qed.
