(** Properties of promises tested for truth, no-misused-promises (C102). *)
From Coq Require Import Bool Arith Ascii String List Lia.
From Verif Require Import Base EngineProofs.
From Verif Require Import PromiseTests PromiseTestsSpec PromiseTestsProofs.
Import ListNotations.

(** C102: a type counts as a promise exactly if each part has a then that may take a function first. *)
Theorem C102_promise : forall t, always_thenable t = true <-> promise t.
Proof. exact always_iff. Qed.
Print Assumptions C102_promise.

(** C102: whatever was checked before, exactly the promises asked for are reported: what gives the value of a condition, first operands of and and or, and other binary expressions. *)
Theorem C102_exact : forall root, NoDup (numbers root) -> forall n, In n (conditionals true root) <-> exists x t, asked x root /\ own x = Some t /\ promise t /\ number x = n.
Proof.
  intros root N n. unfold conditionals. split.
  - intros H. apply walk_sub in H. cbn [reported] in H. rewrite app_nil_r in H. apply all_asked in H as (x & t & A & O & T & E). exists x, t. split; auto. split; auto. split; auto. apply always_iff. exact T.
  - intros (x & t & A & O & P & E). apply (walk_all root _ N (clean_good _ _ (clean_start root))). apply all_asked. exists x, t. split; auto. split; auto. split; auto. apply always_iff. exact P.
Qed.
Print Assumptions C102_exact.
(** C102: nothing without the option. *)
Theorem C102_option : forall root, conditionals false root = [].
Proof. reflexivity. Qed.
Print Assumptions C102_option.

(** C102: without binary expressions in parentheses nothing is reported twice. *)
Theorem C102_once : forall root, NoDup (numbers root) -> no_binary_in_parens false root -> NoDup (conditionals true root).
Proof. intros root N F. apply (walk_once root false None); auto; [constructor|apply sealed_start]. Qed.
Print Assumptions C102_once.

(** C102: but for other binary expressions, what is asked for is tested for truth. *)
Lemma shown_gives x e : gives_shown x e -> gives x e.
Proof.
  intros H. apply (shown_ind x (fun e _ => gives x e) (fun e _ => gives x e)) in H; auto; intros; try (constructor; assumption); solve [apply g_left; assumption | apply g_right; assumption].
Qed.
Lemma first_gives x i e : first_of x i e -> gives x e.
Proof. induction 1; [apply g_self|apply g_paren|apply g_left]; auto. Qed.
Theorem C102_tested : forall x root, asked x root -> (forall n t l r, x <> Binary n t l r) -> truth_tested x root.
Proof.
  intros x root (y & W & A) NB. exists y. split; [exact W|]. destruct y as [n t|n t l r|n e|n o l r|n t l r|n t l r|n t l r]; auto.
  - destruct A as [N A]. apply first_gives in A. destruct o; auto.
  - destruct (NB _ _ _ _ A).
  - apply shown_gives. exact A.
Qed.
Print Assumptions C102_tested.
(** C102: what can be the value of a condition is reported, if it is a promise and no assignment outside of parentheses. *)
Theorem C102_conditions : forall root n t c r x u, NoDup (numbers root) -> within (Tests n t c r) root -> gives x c -> is_assign x = false -> own x = Some u -> promise u -> In (number x) (conditionals true root).
Proof.
  intros root n t c r x u N W G A O P. apply (C102_exact root N). exists x, u. split; [|auto]. exists (Tests n t c r). split; [exact W|].
  assert (X : forall e, gives x e -> gives_shown x e /\ gives_paren x e). { induction 1 as [H|m e H [IH1 IH2]|m o l q H [IH1 IH2]|m o l q H [IH1 IH2]]; split; try (constructor; auto; fail); solve [apply s_left; auto | apply s_right; auto | apply p_left; auto | apply p_right; auto]. }
  apply X. exact G.
Qed.
Print Assumptions C102_conditions.

(** Types for the witnesses: a promise, and no promise. *)
Definition P : type := [Some [[Some [1; 0]]]].
Definition Q : type := [None].
Lemma P_promise : promise P.
Proof. apply always_iff. reflexivity. Qed.

(** C102: that only what is tested is reported is false: f, p for a promise p is reported wherever it stands. *)
Theorem C102_comma_refuted : exists root x, NoDup (numbers root) /\ In (number x) (conditionals true root) /\ within x root /\ ~ truth_tested x root.
Proof.
  exists (Plain 0 Q (Leaf 1 Q) (Binary 2 P (Leaf 3 Q) (Leaf 4 P))), (Binary 2 P (Leaf 3 Q) (Leaf 4 P)). split; [cbn; repeat (constructor; [cbn; intuition discriminate|]); constructor|].
  split; [left; reflexivity|]. split; [apply w_plain_r, w_self|]. intros (y & W & G). repeat match goal with H : within _ _ |- _ => inversion H; subst; clear H end; exact G.
Qed.
Print Assumptions C102_comma_refuted.
(** C102: that a node is reported once is false for it in a condition: if ((f, p)). *)
Theorem C102_twice_refuted : exists root n, NoDup (numbers root) /\ conditionals true root = [n; n].
Proof. exists (Tests 0 Q (Paren 1 (Binary 2 P (Leaf 3 Q) (Leaf 4 P))) (Leaf 5 Q)), 2. split; [cbn; repeat (constructor; [cbn; intuition discriminate|]); constructor|vm_compute; reflexivity]. Qed.
Print Assumptions C102_twice_refuted.
(** C102: that all promises tested are reported is false outside of conditions: x = a || p || c, and (p ?? a) || c. *)
Theorem C102_middle_refuted : exists root x u, NoDup (numbers root) /\ truth_tested x root /\ own x = Some u /\ promise u /\ conditionals true root = [].
Proof.
  exists (Assign 0 Q (Leaf 1 Q) (Logic 2 Or (Logic 3 Or (Leaf 4 Q) (Leaf 5 P)) (Leaf 6 Q))), (Leaf 5 P), P. split; [cbn; repeat (constructor; [cbn; intuition discriminate|]); constructor|]. split; [|split; [reflexivity|split; [exact P_promise|vm_compute; reflexivity]]].
  exists (Logic 2 Or (Logic 3 Or (Leaf 4 Q) (Leaf 5 P)) (Leaf 6 Q)). split; [apply w_assign_r, w_self|]. apply g_right, g_self. discriminate.
Qed.
Print Assumptions C102_middle_refuted.
Theorem C102_nullish_refuted : exists root x u, NoDup (numbers root) /\ truth_tested x root /\ own x = Some u /\ promise u /\ conditionals true root = [].
Proof.
  exists (Logic 2 Or (Paren 7 (Logic 3 Nullish (Leaf 4 P) (Leaf 5 Q))) (Leaf 6 Q)), (Leaf 4 P), P. split; [cbn; repeat (constructor; [cbn; intuition discriminate|]); constructor|]. split; [|split; [reflexivity|split; [exact P_promise|vm_compute; reflexivity]]].
  exists (Logic 2 Or (Paren 7 (Logic 3 Nullish (Leaf 4 P) (Leaf 5 Q))) (Leaf 6 Q)). split; [apply w_self|]. apply g_paren, g_left, g_self. discriminate.
Qed.
Print Assumptions C102_nullish_refuted.
(** C102: that parentheses make no difference is false: if (x = p) has no report, if ((x = p)) has one. *)
Theorem C102_assignment_refuted : exists e n, conditionals true (Tests 0 Q e (Leaf 1 Q)) = [] /\ conditionals true (Tests 0 Q (Paren n e) (Leaf 1 Q)) = [number e].
Proof. exists (Assign 2 P (Leaf 3 Q) (Leaf 4 P)), 5. split; vm_compute; reflexivity. Qed.
Print Assumptions C102_assignment_refuted.

(** Examples: if (a && (p || q)) with p, q promises; !p; x = p && a; types with several parts. *)
Example C102_examples :
  conditionals true (Tests 0 Q (Logic 1 And (Leaf 2 Q) (Paren 3 (Logic 4 Or (Leaf 5 P) (Leaf 6 P)))) (Leaf 7 Q)) = [6; 5]
  /\ conditionals true (Tests 0 Q (Leaf 1 P) (Leaf 2 Q)) = [1]
  /\ conditionals true (Assign 0 P (Leaf 1 Q) (Logic 2 And (Leaf 3 P) (Leaf 4 P))) = [3]
  /\ conditionals true (Plain 0 Q (Logic 2 Nullish (Leaf 3 P) (Leaf 4 P)) (Leaf 5 P)) = []
  /\ always_thenable [Some [[None]; [Some [0; 2]]]; Some [[Some [1]]]] = true /\ always_thenable [Some [[Some [1]]]; None] = false /\ always_thenable [Some [[Some [0]]]] = false.
Proof. repeat split; vm_compute; reflexivity. Qed.
