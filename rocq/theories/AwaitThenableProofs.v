From Coq Require Import Bool Arith Ascii String List Lia.
From Verif Require Import Base EngineProofs.
From Verif Require Import AwaitThenable AwaitThenableSpec.
Import ListNotations.

Definition leaf_type (t : ty) : Prop := exists a c d e, t = Leaf a c d e.
Definition test (f : value -> bool) (leaf : bool -> bool -> bool -> bool) : Prop := forall v, f v = leaf (v_then v) (v_async_iterator v) (v_async_dispose v).
Lemma leaf_may : forall f leaf a c d e, test f leaf -> (may f (Leaf a c d e) <-> leaf a c d = true).
Proof.
  intros f leaf a c d e T. split.
  - intros (v & O & F). inversion O; subst. now rewrite <- T.
  - intros H. exists {| v_then := a; v_async_iterator := c; v_async_dispose := d |}. split; [apply (OLeaf {| v_then := a; v_async_iterator := c; v_async_dispose := d |} e)|]. rewrite T. exact H.
Qed.
Lemma param_may : forall f c, may f (Param (Some c)) <-> may f c.
Proof. intros f c. split; intros (v & O & F); exists v; (split; [|auto]); [now inversion O|now constructor]. Qed.
Lemma union_may : forall f l, may f (Union l) <-> exists t, In t l /\ may f t.
Proof.
  intros f l. split.
  - intros (v & O & F). inversion O; subst. exists t. split; auto. exists v. auto.
  - intros (t & I' & v & O & F). exists v. split; auto. eapply OUnion; eauto.
Qed.
Lemma simple_property : forall f leaf t, test f leaf -> simple t -> (has_property leaf t = true <-> may f t).
Proof. intros f leaf t T S. induction S; cbn [has_property]; [symmetry; now apply leaf_may|]. now rewrite param_may. Qed.
Lemma simple_base : forall t, simple t -> exists u, base t = Some u /\ leaf_type u /\ forall v, of_type v t <-> of_type v u.
Proof.
  intros t S. induction S as [a c d e|c S (u & B & L & V)].
  - exists (Leaf a c d e). split; [reflexivity|]. split; [now repeat eexists|]. tauto.
  - exists u. split; [exact B|]. split; [exact L|]. intros v. rewrite <- V. split; [intros O; now inversion O|now constructor].
Qed.
Fixpoint bases (l : list ty) : option (list ty) :=
  match l with
  | [] => Some []
  | t :: l => match base t, bases l with Some u, Some us => Some (union_parts u ++ us) | _, _ => None end
  end.
Lemma base_union : forall l, base (Union l) = match bases l with Some us => Some (Union us) | None => None end.
Proof. reflexivity. Qed.
Lemma simple_bases : forall l, (forall t, In t l -> simple t) -> exists us, bases l = Some us /\ Forall leaf_type us /\ forall v, (exists t, In t l /\ of_type v t) <-> (exists u, In u us /\ of_type v u).
Proof.
  induction l as [|t l IH]; intros S; cbn [bases].
  - exists []. split; auto. split; auto. intros v. split; intros (t & [] & _).
  - destruct (simple_base t (S t (or_introl eq_refl))) as (u & B & L & V). destruct IH as (us & B' & L' & V'); [intros x I'; apply S; now right|]. rewrite B, B'.
    assert (union_parts u = [u]) as -> by (destruct L as (a & c & d & e & ->); reflexivity).
    exists (u :: us). split; [reflexivity|]. split; [now constructor|]. intros v. split.
    + intros (x & [<-|I'] & O); [exists u; split; [now left|now apply V]|]. destruct (proj1 (V' v)) as (y & Y & O'); [eauto|]. exists y. split; [now right|auto].
    + intros (x & [<-|I'] & O); [exists t; split; [now left|now apply V]|]. destruct (proj2 (V' v)) as (y & Y & O'); [eauto|]. exists y. split; [now right|auto].
Qed.
(** What the base of a regular type is. *)
Definition base_ok (t : ty) (u : option ty) : Prop :=
  match u with
  | None | Some Any | Some Unknown => forall v, of_type v t
  | Some u => Forall leaf_type (union_parts u) /\ forall v, of_type v t <-> exists p, In p (union_parts u) /\ of_type v p
  end.
Lemma regular_base : forall t, regular t -> base_ok t (base t).
Proof.
  intros t R. induction R as [| | |t S|l S|c R IH].
  - intros v. constructor.
  - intros v. constructor.
  - intros v. constructor.
  - destruct (simple_base t S) as (u & B & L & V). rewrite B. destruct L as (a & c & d & e & ->). cbn [base_ok union_parts]. split; [repeat constructor; now repeat eexists|]. intros v. rewrite V. split; [intros O; eexists; split; [now left|auto]|]. intros (p & [<-|[]] & O). auto.
  - rewrite base_union. destruct (simple_bases l S) as (us & B & L & V). rewrite B. cbn [base_ok union_parts]. split; auto. intros v. rewrite <- V. split; [intros O; inversion O; subst; eauto|]. intros (x & I' & O). eapply OUnion; eauto.
  - cbn [base]. unfold base_ok in *. destruct (base c) as [[| | | |]|]; try (intros v; constructor; apply IH); (destruct IH as [A V]; split; [exact A|]; intros v; rewrite <- V; split; [intros O; now inversion O|now constructor]).
Qed.
Lemma then_test : test v_then then_of. Proof. intros v. reflexivity. Qed.
Lemma iter_test : test v_async_iterator iter_of. Proof. intros v. reflexivity. Qed.
Lemma dispose_test : test v_async_dispose dispose_of. Proof. intros v. reflexivity. Qed.
Definition thenable_value : value := {| v_then := true; v_async_iterator := false; v_async_dispose := false |}.
Lemma all_may : forall t, (forall v, of_type v t) -> may v_then t.
Proof. intros t A. exists thenable_value. split; auto. Qed.
Lemma leaves_property : forall l, Forall leaf_type l -> (existsb (has_property then_of) l = true <-> exists v, (exists p, In p l /\ of_type v p) /\ v_then v = true).
Proof.
  intros l L. rewrite existsb_exists. rewrite Forall_forall in L. split.
  - intros (p & I' & H). destruct (L p I') as (a & c & d & e & ->). apply (leaf_may v_then then_of a c d e then_test) in H as (v & O & F). exists v. split; eauto.
  - intros (v & (p & I' & O) & F). exists p. split; auto. destruct (L p I') as (a & c & d & e & ->). apply (leaf_may v_then then_of a c d e then_test). exists v. auto.
Qed.
Lemma never_leaf : forall a c d e, never (Leaf a c d e) = negb a.
Proof. intros [] c d e; reflexivity. Qed.
(** The two ways to ask whether a type needs no await. *)
Lemma needs_base : forall t u, needs t = match u with None | Some Any | Some Unknown => May | Some u => if existsb (has_property then_of) (union_parts u) then Always else Never end ->
  base_ok t u -> (never t = true <-> ~ may v_then t).
Proof.
  intros t u N B. unfold never. rewrite N. unfold base_ok in B. destruct u as [[| |c|a c d e|l]|]; try (split; [discriminate|]; intros X; exfalso; apply X; now apply all_may).
  all: destruct B as [L V]; pose proof (leaves_property _ L) as P; match goal with |- context [if ?e then _ else _] => destruct e end.
  all: try (split; [discriminate|]; intros X; exfalso; apply X; destruct (proj1 P eq_refl) as (v & O & F); exists v; split; [now apply V|auto]).
  all: (split; auto; intros _ (v & O & F); assert (false = true) by (apply P; exists v; split; [now apply V|auto]); discriminate).
Qed.
Lemma never_regular : forall t, regular t -> (never t = true <-> ~ may v_then t).
Proof.
  intros t R. pose proof (regular_base t R) as B. destruct t as [| |c|a c d e|l].
  - split; [discriminate|]. intros X. exfalso. apply X. now apply all_may.
  - split; [discriminate|]. intros X. exfalso. apply X. now apply all_may.
  - apply (needs_base _ (base (Param c))); auto.
  - apply (needs_base _ (Some (Leaf a c d e))); auto.
  - inversion R as [| | |? S| ? S|]; subst; [inversion S|]. unfold never, needs. cbn [union_parts].
    assert (existsb (has_property then_of) l = true <-> may v_then (Union l)) as P.
    { rewrite existsb_exists, union_may. split; intros (t & I' & H); exists t; (split; [auto|]); apply (simple_property v_then then_of t then_test (S t I')); auto. }
    destruct (existsb (has_property then_of) l); [split; [discriminate|]; intros X; exfalso; apply X; now apply P|]. split; auto. intros _ X. apply P in X. discriminate.
Qed.
Lemma non_base : forall t u, regular t -> base t = Some u -> (forallb never (union_parts u) = true <-> ~ may v_then t).
Proof.
  intros t u R E. pose proof (regular_base t R) as B. rewrite E in B. unfold base_ok in B.
  assert (Forall leaf_type (union_parts u) -> (forall v, of_type v t <-> exists p, In p (union_parts u) /\ of_type v p) -> (forallb never (union_parts u) = true <-> ~ may v_then t)) as G.
  { intros L V. pose proof (leaves_property _ L) as P. rewrite forallb_forall. split.
    - intros F (v & O & H). apply V in O as (p & I' & O). rewrite Forall_forall in L. destruct (L p I') as (a & c & d & e & ->). specialize (F _ I'). rewrite never_leaf in F. inversion O; subst. rewrite H in F. discriminate.
    - intros X p I'. rewrite Forall_forall in L. destruct (L p I') as (a & c & d & e & ->). rewrite never_leaf. destruct a; auto. exfalso. apply X.
      destruct (proj2 (leaf_may v_then then_of true c d e then_test) eq_refl) as (v & O & H). exists v. split; auto. apply V. eauto. }
  destruct u as [| |c|a c d e|l]; try (now apply G); cbn [union_parts forallb]; (split; [discriminate|]; intros X; exfalso; apply X; now apply all_may).
Qed.
Lemma part_regular : forall t, part_type t -> regular t.
Proof. intros t [a c d e| |c R]; [apply RSimple; constructor|constructor|now constructor]. Qed.
Lemma bases_never : forall l us, (forall t, In t l -> regular t) -> bases l = Some us -> (forallb never us = true <-> forall t, In t l -> ~ may v_then t).
Proof.
  induction l as [|t l IH]; intros us R E; cbn [bases] in E.
  - injection E as <-. cbn. split; [intros _ t []|reflexivity].
  - destruct (base t) as [u|] eqn:B; [|discriminate]. destruct (bases l) as [vs|] eqn:B'; [|discriminate]. injection E as <-.
    rewrite forallb_app, andb_true_iff, (non_base t u (R t (or_introl eq_refl)) B), (IH vs (fun x I' => R x (or_intror I')) eq_refl). split.
    + intros [A C] x [<-|I']; auto.
    + intros H. split; [apply H; now left|]. intros x I'. apply H. now right.
Qed.
Lemma always_non_ok : forall t, written t -> (always_non (constrained t) = true <-> ~ may v_then t).
Proof.
  intros t W. unfold always_non, constrained. destruct (base t) as [u|] eqn:B.
  - destruct W as [t R|l P]; [now apply non_base|]. rewrite base_union in B. destruct (bases l) as [us|] eqn:E; [|discriminate]. injection B as <-. cbn [union_parts].
    rewrite (bases_never l us (fun t I' => part_regular t (P t I')) E), union_may. split; [intros H (t & I' & M); exact (H t I' M)|]. intros H t I' M. apply H. eauto.
  - destruct W as [t R|l P].
    + assert (union_parts t = [t]) as ->. { inversion R; subst; try reflexivity. - inversion H; reflexivity. - rewrite base_union in B. destruct (simple_bases l H) as (us & E & _). rewrite E in B. discriminate. }
      cbn [forallb]. rewrite andb_true_r. now apply never_regular.
    + cbn [union_parts]. rewrite forallb_forall, union_may. split.
      * intros F (t & I' & M). specialize (F t I'). apply (never_regular t (part_regular t (P t I'))) in F. auto.
      * intros H t I'. apply (never_regular t (part_regular t (P t I'))). intros M. apply H. eauto.
Qed.

(** for await and await using *)
Lemma flat_property : forall f leaf t, test f leaf -> flat t -> (existsb (has_property leaf) (union_parts t) = true <-> may f t).
Proof.
  intros f leaf t T [S|(l & -> & S)].
  - assert (union_parts t = [t]) as -> by (inversion S; reflexivity). cbn [existsb]. rewrite orb_false_r. now apply simple_property.
  - cbn [union_parts]. rewrite existsb_exists, union_may. split; intros (t & I' & H); exists t; (split; [auto|]); apply (simple_property f leaf t T (S t I')); auto.
Qed.
Lemma flat_any : forall t, flat t -> is_any t = false.
Proof. intros t [S|(l & -> & _)]; [inversion S; reflexivity|reflexivity]. Qed.
Lemma seq_filter : forall (g : nat -> bool) n i, In i (filter g (seq 0 n)) <-> i < n /\ g i = true.
Proof. intros g n i. rewrite filter_In, in_seq. split; intros [A B]; split; auto; lia. Qed.

Lemma split_await : forall n pre rest cur, exists a x y c,
  split cur (pre ++ KOther n :: rest) = a ++ [x ++ y] ++ c /\ split cur (pre ++ KAwait :: KOther n :: rest) = a ++ [x ++ KAwait :: y] ++ c.
Proof.
  intros n. assert (forall rest cur, exists y c, forall x, split (x ++ cur) rest = (x ++ y) :: c) as S.
  { induction rest as [|t rest IH]; intros cur; cbn [split]; [exists cur, []; reflexivity|].
    destruct t; try (destruct (IH (cur ++ [KAwait])) as (y & c & H); exists y, c; intros x; rewrite <- app_assoc; apply H).
    - destruct rest as [|[] rest']; try (exists cur; eexists; reflexivity). destruct (IH cur) as (y & c & H). exists y, c. exact H.
    - exists cur. eexists. reflexivity.
    - destruct (IH (cur ++ [KOpen])) as (y & c & H). exists y, c. intros x. rewrite <- app_assoc. apply H.
    - destruct (IH (cur ++ [KClose])) as (y & c & H). exists y, c. intros x. rewrite <- app_assoc. apply H.
    - destruct (IH (cur ++ [KOther n0])) as (y & c & H). exists y, c. intros x. rewrite <- app_assoc. apply H. }
  induction pre as [|t pre IH]; intros rest cur; cbn [app].
  - destruct (S rest []) as (y & c & H). cbn [split]. exists [], cur, (KOther n :: y), c. cbn [app]. split.
    + specialize (H (cur ++ [KOther n])). rewrite app_nil_r in H. rewrite H, <- app_assoc. reflexivity.
    + specialize (H ((cur ++ [KAwait]) ++ [KOther n])). rewrite app_nil_r in H. rewrite H, <- !app_assoc. reflexivity.
  - destruct t; cbn [split]; try apply IH.
    + destruct pre as [|u pre].
      * cbn [app] in *. destruct (IH rest []) as (a & x & y & c & A & B). exists (cur :: a), x, y, c. cbn [app] in A, B |- *. now rewrite A, B.
      * cbn [app] in *. destruct u; try (destruct (IH rest []) as (a & x & y & c & A & B); exists (cur :: a), x, y, c; rewrite A, B; split; reflexivity). apply IH.
    + destruct (IH rest []) as (a & x & y & c & A & B). exists (cur :: a), x, y, c. rewrite A, B. split; reflexivity.
Qed.
