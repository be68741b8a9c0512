From Coq Require Import String Bool List ZArith Permutation Lia.
From Verif Require Import Base Engine EngineSpec EngineProofs Pool PoolSpec.
Import ListNotations.
Open Scope nat_scope.

Lemma nth_split_set {A : Type} (l : list A) : forall i x, nth_error l i = Some x ->
  exists l1 l2, l = l1 ++ x :: l2 /\ length l1 = i /\ forall y, set_nth i y l = l1 ++ y :: l2.
Proof.
  induction l as [|a l IH]; intros [|i] x H; simpl in H; try easy.
  - inversion H; subst. exists [], l. auto.
  - destruct (IH i x H) as (l1 & l2 & E & L & S).
    exists (a :: l1), l2. subst. repeat split; auto. intros y. simpl. now rewrite S.
Qed.

Lemma nth_set_same {A : Type} (l : list A) i x y :
  nth_error l i = Some x -> nth_error (set_nth i y l) i = Some y.
Proof.
  revert i; induction l; intros [|i] H; simpl in *; try easy. now apply IHl.
Qed.

Lemma nth_set_other {A : Type} (l : list A) i j y :
  i <> j -> nth_error (set_nth i y l) j = nth_error l j.
Proof.
  revert i j; induction l; intros [|i] [|j] H; simpl; try easy. apply IHl. congruence.
Qed.

Section PoolProofs.
Context {File Checker R St : Type}.
Notation rule := (@rule File Checker R St).
Notation diag := (@diag File R).
Notation wst := (@wst File Checker R St).
Notation pool := (@pool File Checker R St).
Notation phase := (@phase File Checker R).

Variable iter : nat -> nat -> list Z -> list Z.
Variable rules_for : File -> list rule.
Variable events : File -> list (Z * nat).
Hypothesis ITER : forall i, any_order (iter i).
Hypothesis TABLES : forall f, tables_ok (rules_for f).

Notation step := (p_step iter rules_for events).
Notation run := (p_run iter rules_for events).

Definition req (cf : Checker * File) : list diag :=
  required (rules_for (snd cf)) (fst cf) (snd cf) (events (snd cf)).

Definition inprog (x : phase * wst) : list (Checker * File) :=
  match fst x with Lint c f _ => [(c, f)] | _ => [] end.
Definition pend (x : phase * wst) : list diag :=
  match fst x with Lint _ _ ds => ds | _ => [] end.
Definition held (x : phase * wst) : list Checker :=
  match fst x with Has c => [c] | Lint c _ _ => [c] | _ => [] end.

Variable files0 : list File.
Variable cq : list Checker.

Record inv (p : pool) : Prop := mkInv {
  i_files : Permutation (map snd (p_done p ++ flat_map inprog (p_workers p)) ++ p_files p) files0;
  i_out : Permutation (p_out p ++ flat_map pend (p_workers p))
                      (flat_map req (p_done p ++ flat_map inprog (p_workers p)));
  i_reg : forall x, In x (p_workers p) -> forall k, reg_lookup (w_reg (snd x)) k = [];
  i_sub : incl (map fst (p_done p) ++ flat_map held (p_workers p) ++ p_checkers p) cq;
  i_all : p_files p <> [] -> Permutation (flat_map held (p_workers p) ++ p_checkers p) cq;
  i_done : forall x, In x (p_workers p) -> fst x = Done -> p_checkers p = [];
}.

Lemma inv_init n : inv (p_init files0 cq n).
Proof.
  assert (Z : forall (A : Type) (g : phase * wst -> list A), g (Idle, w0) = [] ->
              flat_map g (repeat (Idle, w0) n) = []).
  { intros A g E. induction n; simpl; [reflexivity|]. now rewrite E, IHn. }
  split; cbn [p_init p_files p_checkers p_workers p_log p_done p_out].
  - rewrite Z by reflexivity. reflexivity.
  - rewrite !Z by reflexivity. reflexivity.
  - intros x I k. apply repeat_spec in I. now subst.
  - rewrite Z by reflexivity. apply incl_refl.
  - rewrite Z by reflexivity. reflexivity.
  - intros x I. apply repeat_spec in I. now subst.
Qed.

Lemma in_mid {A : Type} (l1 l2 : list A) x y z : In z (l1 ++ y :: l2) -> z = y \/ In z (l1 ++ x :: l2).
Proof. rewrite !in_app_iff. simpl. intuition. Qed.

Lemma perm_mid4 {A : Type} (x l1 l2 r r' : list A) :
  Permutation (l1 ++ x ++ l2) r -> Permutation r (x ++ r') -> Permutation (l1 ++ l2) r'.
Proof.
  intros H H'. rewrite H' in H. rewrite app_assoc in H.
  rewrite (Permutation_app_comm l1 x), <- app_assoc in H.
  now apply Permutation_app_inv_l in H.
Qed.

Lemma inv_step p i p' : inv p -> step p i = Some p' -> inv p'.
Proof.
  intros [F O G S A D] H. unfold p_step in H.
  destruct (nth_error (p_workers p) i) as [[ph w]|] eqn:E; [|easy].
  destruct (nth_split_set _ _ _ E) as (l1 & l2 & EW & L & SET).
  assert (GW : forall k, reg_lookup (w_reg w) k = []) by (apply (G (ph, w)); rewrite EW; apply in_elt).
  assert (G' : forall ph' w', (forall k, reg_lookup (w_reg w') k = []) ->
               forall x, In x (l1 ++ (ph', w') :: l2) -> forall k, reg_lookup (w_reg (snd x)) k = []).
  { intros ph' w' Hw x I. apply (in_mid _ _ (ph, w)) in I.
    destruct I as [->|I]; [exact Hw|]. apply G. now rewrite EW. }
  assert (D' : forall ph' w', ph' <> Done ->
               forall x, In x (l1 ++ (ph', w') :: l2) -> fst x = Done -> p_checkers p = []).
  { intros ph' w' N x I Ex. apply (in_mid _ _ (ph, w)) in I.
    destruct I as [->|I]; [easy|]. apply (D x); [now rewrite EW|exact Ex]. }
  rewrite EW in F, O, S, A.
  rewrite ?flat_map_app in *. cbn [flat_map] in *.
  destruct ph as [|c|c f [|d ds]|]; [| | | |easy].
  - destruct (p_checkers p) as [|c cs] eqn:EC; inversion H; subst p'; clear H;
      split; cbn [p_files p_checkers p_workers p_log p_done p_out]; rewrite ?SET, ?flat_map_app;
      cbn [flat_map inprog pend held fst snd app] in *; auto;
      try (apply G'; assumption).
    + intros x I. rewrite !in_app_iff in I. apply S. rewrite !in_app_iff. cbn [In] in *. tauto.
    + intros I. rewrite <- (A I). rewrite <- !app_assoc. apply Permutation_app_head.
      cbn [app]. apply Permutation_middle.
    + intros x I Ex. specialize (D' (Has c) w ltac:(easy) x I Ex). easy.
  - destruct (p_files p) as [|f fs] eqn:EF;
      [|destruct (lint_file_exact (iter i) rules_for events (ITER i) TABLES w c f GW) as (EG & EO);
        cbv zeta in EG, EO, H;
        set (w' := lint_file (iter i) rules_for events w (c, f)) in *; clearbody w'];
      inversion H; subst p'; clear H;
      split; cbn [p_files p_checkers p_workers p_log p_done p_out]; rewrite ?SET, ?flat_map_app;
      cbn [flat_map inprog pend held fst snd app] in *; auto;
      try (apply G'; assumption).
    + intros x I. rewrite !in_app_iff in I. apply S. rewrite !in_app_iff. cbn [In] in *. tauto.
    + easy.
    + apply (D' Idle w); easy.
    + rewrite <- F. rewrite !map_app. cbn [map snd]. rewrite <- !app_assoc. cbn [app].
      apply Permutation_app_head, Permutation_app_head. apply Permutation_middle.
    + rewrite EO, skipn_app, skipn_all, Nat.sub_diag. cbn [skipn app].
      change (required (rules_for f) c f (events f)) with (req (c, f)).
      rewrite (app_assoc (p_out p)). rewrite Permutation_app_swap_app.
      rewrite (app_assoc (flat_map req (p_done p))).
      rewrite (Permutation_app_swap_app _ (req (c, f))).
      apply Permutation_app_head. rewrite <- !app_assoc. exact O.
    + intros I. apply A. easy.
    + apply (D' (Lint c f _) _); easy.
  - inversion H; subst p'; clear H;
      split; cbn [p_files p_checkers p_workers p_log p_done p_out]; rewrite ?SET, ?flat_map_app;
      cbn [flat_map inprog pend held fst snd app] in *; auto;
      try (apply G'; assumption).
    + rewrite <- F. apply Permutation_app_tail, Permutation_map.
      rewrite <- app_assoc. apply Permutation_app_head. cbn [app]. apply Permutation_middle.
    + rewrite O. rewrite app_nil_r, <- app_assoc. apply Permutation_app_head.
      apply Permutation_app_swap_app.
    + intros x I. rewrite map_app, !in_app_iff in I. apply S. rewrite !in_app_iff. cbn [In map fst] in *. tauto.
    + apply (D' (Has c) w); easy.
  - inversion H; subst p'; clear H;
      split; cbn [p_files p_checkers p_workers p_log p_done p_out]; rewrite ?SET, ?flat_map_app;
      cbn [flat_map inprog pend held fst snd app] in *; auto;
      try (apply G'; assumption).
    + rewrite <- O. rewrite <- app_assoc. apply Permutation_app_head. cbn [app].
      apply Permutation_middle.
    + apply (D' (Lint c f ds) w); easy.
Qed.

Lemma inv_run sched : forall p p', inv p -> run p sched = Some p' -> inv p'.
Proof.
  induction sched as [|i sched IH]; intros p p' I H; simpl in H.
  - now inversion H; subst.
  - destruct (step p i) as [q|] eqn:E; [|easy]. eapply IH; [|exact H]. eapply inv_step; eauto.
Qed.

(** ** Ownership of checkers *)
Definition holds (x : phase * wst) (c : Checker) : Prop := In c (held x).

Record own (p : pool) : Prop := mkOwn {
  o_nd : NoDup (p_checkers p);
  o_q : forall i c f, In (i, c, f) (p_log p) -> ~ In c (p_checkers p);
  o_h : forall j x c, nth_error (p_workers p) j = Some x -> holds x c ->
        ~ In c (p_checkers p) /\ (forall i f, In (i, c, f) (p_log p) -> i = j);
  o_l : forall i j c f f', In (i, c, f) (p_log p) -> In (j, c, f') (p_log p) -> i = j;
  o_d : forall i j x y c, nth_error (p_workers p) i = Some x -> nth_error (p_workers p) j = Some y ->
        holds x c -> holds y c -> i = j;
  o_s : forall j c f ds w, nth_error (p_workers p) j = Some (Lint c f ds, w) -> In (j, c, f) (p_log p)
}.

Lemma own_init n : NoDup cq -> own (p_init files0 cq n).
Proof.
  intros ND.
  assert (Z : forall j x, nth_error (repeat (@Idle File Checker R, @w0 File Checker R St) n) j = Some x -> x = (Idle, w0)).
  { intros j x H. apply nth_error_In in H. now apply repeat_spec in H. }
  split; cbn [p_init p_files p_checkers p_workers p_log p_done p_out]; auto; try easy.
  - intros j x c H Hh. apply Z in H. now subst.
  - intros i j x y c H _ Hh. apply Z in H. now subst.
  - intros j c f ds w H. apply Z in H. easy.
Qed.

Lemma own_step p i p' : own p -> step p i = Some p' -> own p'.
Proof.
  intros [ND Q HH LL DD SS] H. unfold p_step in H.
  destruct (nth_error (p_workers p) i) as [[ph w]|] eqn:E; [|easy].
  assert (N : forall y j z, nth_error (set_nth i y (p_workers p)) j = Some z ->
              (j = i /\ z = y) \/ (j <> i /\ nth_error (p_workers p) j = Some z)).
  { intros y j z Hn. destruct (Nat.eq_dec j i) as [->|J].
    - rewrite (nth_set_same _ _ _ _ E) in Hn. left. split; congruence.
    - rewrite nth_set_other in Hn by congruence. auto. }
  destruct ph as [|c|c f [|d ds]|]; [| | | |easy].
  - destruct (p_checkers p) as [|c cs] eqn:EC; inversion H; subst p'; clear H;
      split; cbn [p_files p_checkers p_workers p_log p_done p_out]; auto.
    + intros j x c Hn Hh. destruct (N _ _ _ Hn) as [(-> & ->)|(J & Hn')]; [easy|]. eauto.
    + intros a j x y c Ha Hj Hx Hy.
      destruct (N _ _ _ Ha) as [(-> & ->)|(J & Ha')]; [easy|].
      destruct (N _ _ _ Hj) as [(-> & ->)|(J' & Hj')]; [easy|]. eauto.
    + intros j c f ds' w' Hn. destruct (N _ _ _ Hn) as [(-> & [=])|(J & Hn')]. eauto.
    + now inversion ND.
    + intros j c' f Hl I. apply (Q j c' f Hl). now right.
    + inversion ND as [|? ? N1 N2]; subst.
      intros j x c' Hn Hh. destruct (N _ _ _ Hn) as [(-> & ->)|(J & Hn')].
      * destruct Hh as [<-|[]]. split; [exact N1|]. intros a f Hl.
        exfalso. apply (Q _ _ _ Hl). now left.
      * destruct (HH j x c' Hn' Hh) as (A & B). split; [|exact B].
        intros I. apply A. now right.
    + intros a j x y c' Ha Hj Hx Hy.
      destruct (N _ _ _ Ha) as [(-> & ->)|(J & Ha')]; destruct (N _ _ _ Hj) as [(-> & ->)|(J' & Hj')]; auto.
      * destruct Hx as [<-|[]]. destruct (HH j y c Hj' Hy) as (A & _). exfalso. apply A. now left.
      * destruct Hy as [<-|[]]. destruct (HH a x c Ha' Hx) as (A & _). exfalso. apply A. now left.
      * eauto.
    + intros j c' f ds' w' Hn. destruct (N _ _ _ Hn) as [(-> & [=])|(J & Hn')]. eauto.
  - destruct (p_files p) as [|f fs] eqn:EF; inversion H; subst p'; clear H;
      split; cbn [p_files p_checkers p_workers p_log p_done p_out]; auto.
    + intros j x c' Hn Hh. destruct (N _ _ _ Hn) as [(-> & ->)|(J & Hn')]; [easy|]. eauto.
    + intros a j x y c' Ha Hj Hx Hy.
      destruct (N _ _ _ Ha) as [(-> & ->)|(J & Ha')]; [easy|].
      destruct (N _ _ _ Hj) as [(-> & ->)|(J' & Hj')]; [easy|]. eauto.
    + intros j c' f ds' w' Hn. destruct (N _ _ _ Hn) as [(-> & [=])|(J & Hn')]. eauto.
    + destruct (HH i (Has c, w) c E (or_introl eq_refl)) as (A & B).
      intros j c' f' Hl. apply in_app_or in Hl. destruct Hl as [Hl|[[= <- <- <-]|[]]]; eauto.
    + destruct (HH i (Has c, w) c E (or_introl eq_refl)) as (A & B).
      intros j x c' Hn Hh. destruct (N _ _ _ Hn) as [(-> & ->)|(J & Hn')].
      * destruct Hh as [<-|[]]. split; [exact A|]. intros a f' Hl.
        apply in_app_or in Hl. destruct Hl as [Hl|[[= <- <-]|[]]]; eauto.
      * destruct (HH j x c' Hn' Hh) as (A' & B'). split; [exact A'|].
        intros a f' Hl. apply in_app_or in Hl. destruct Hl as [Hl|[[= <- <- <-]|[]]]; [eauto|].
        apply (DD i j _ _ c E Hn'); [now left|exact Hh].
    + destruct (HH i (Has c, w) c E (or_introl eq_refl)) as (A & B).
      intros a j c' f1 f2 Ha Hj. apply in_app_or in Ha, Hj.
      destruct Ha as [Ha|[[= <- <- <-]|[]]]; destruct Hj as [Hj|[Hj|[]]]; try (inversion Hj; subst); eauto.
      symmetry; eauto.
    + intros a j x y c' Ha Hj Hx Hy.
      destruct (N _ _ _ Ha) as [(-> & ->)|(J & Ha')]; destruct (N _ _ _ Hj) as [(-> & ->)|(J' & Hj')]; auto.
      * destruct Hx as [<-|[]]. apply (DD i j _ _ c E Hj'); [now left|exact Hy].
      * destruct Hy as [<-|[]]. apply (DD a i _ _ c Ha' E); [exact Hx|now left].
      * eauto.
    + intros j c' f' ds' w' Hn. apply in_or_app. destruct (N _ _ _ Hn) as [(-> & Ez)|(J & Hn')].
      * inversion Ez; subst. right. now left.
      * left. eauto.
  - inversion H; subst p'; clear H;
      split; cbn [p_files p_checkers p_workers p_log p_done p_out]; auto.
    + intros j x c' Hn Hh. destruct (N _ _ _ Hn) as [(-> & ->)|(J & Hn')]; [|eauto].
      apply (HH i _ c' E). exact Hh.
    + intros a j x y c' Ha Hj Hx Hy.
      destruct (N _ _ _ Ha) as [(-> & ->)|(J & Ha')]; destruct (N _ _ _ Hj) as [(-> & ->)|(J' & Hj')]; auto.
      * apply (DD i j _ _ c' E Hj'); [exact Hx|exact Hy].
      * apply (DD a i _ _ c' Ha' E); [exact Hx|exact Hy].
      * eauto.
    + intros j c' f' ds' w' Hn. destruct (N _ _ _ Hn) as [(-> & [=])|(J & Hn')]. eauto.
  - inversion H; subst p'; clear H;
      split; cbn [p_files p_checkers p_workers p_log p_done p_out]; auto.
    + intros j x c' Hn Hh. destruct (N _ _ _ Hn) as [(-> & ->)|(J & Hn')]; [|eauto].
      apply (HH i _ c' E). exact Hh.
    + intros a j x y c' Ha Hj Hx Hy.
      destruct (N _ _ _ Ha) as [(-> & ->)|(J & Ha')]; destruct (N _ _ _ Hj) as [(-> & ->)|(J' & Hj')]; auto.
      * apply (DD i j _ _ c' E Hj'); [exact Hx|exact Hy].
      * apply (DD a i _ _ c' Ha' E); [exact Hx|exact Hy].
      * eauto.
    + intros j c' f' ds' w' Hn. destruct (N _ _ _ Hn) as [(-> & Ez)|(J & Hn')]; [|eauto].
      inversion Ez; subst. eapply SS, E.
Qed.

Lemma own_run sched : forall p p', own p -> run p sched = Some p' -> own p'.
Proof.
  induction sched as [|i sched IH]; intros p p' I H; simpl in H.
  - now inversion H; subst.
  - destruct (step p i) as [q|] eqn:E; [|easy]. eapply IH; [|exact H]. eapply own_step; eauto.
Qed.

Lemma uses_held p i c : uses p i c <-> exists x, nth_error (p_workers p) i = Some x /\ holds x c.
Proof.
  unfold uses, holds, held. split.
  - intros (ph & w & H & [->|(f & ds & ->)]); eexists; (split; [exact H|]); simpl; auto.
  - intros ([ph w] & H & I). exists ph, w. split; [exact H|].
    destruct ph; simpl in I; try easy; destruct I as [<-|[]]; eauto.
Qed.

(** ** Progress and termination *)
Definition wsize (cf : Checker * File) : nat := length (req cf).
Fixpoint total (l : list nat) : nat := match l with [] => 0 | x :: l' => x + total l' end.
Definition weight (f : File) : nat := 2 + total (map (fun c => wsize (c, f)) cq).
Definition pweight (x : phase * wst) : nat :=
  match fst x with Idle => 1 | Has _ => 2 | Lint _ _ ds => 3 + length ds | Done => 0 end.

Definition measure (p : pool) : nat :=
  total (map weight (p_files p)) + 2 * length (p_checkers p) + total (map pweight (p_workers p)).

Lemma total_app l l' : total (l ++ l') = total l + total l'.
Proof. induction l; simpl; lia. Qed.

Lemma total_in c f l : In c l -> wsize (c, f) <= total (map (fun c => wsize (c, f)) l).
Proof. induction l as [|x l IH]; intros []; simpl; [subst; lia|]. specialize (IH H). lia. Qed.

Lemma measure_step p i p' : inv p -> step p i = Some p' -> measure p' < measure p.
Proof.
  intros IV H. pose proof IV as [F O G S A D]. unfold p_step in H.
  destruct (nth_error (p_workers p) i) as [[ph w]|] eqn:E; [|easy].
  destruct (nth_split_set _ _ _ E) as (l1 & l2 & EW & L & SET).
  assert (GW : forall k, reg_lookup (w_reg w) k = []) by (apply (G (ph, w)); rewrite EW; apply in_elt).
  unfold measure. rewrite EW.
  destruct ph as [|c|c f [|d ds]|]; [| | | |easy].
  - destruct (p_checkers p) as [|c cs] eqn:EC; inversion H; subst p'; clear H;
      cbn [p_files p_checkers p_workers]; rewrite ?SET, !map_app, !total_app;
      cbn [map total pweight fst length]; lia.
  - destruct (p_files p) as [|f fs] eqn:EF;
      [|destruct (lint_file_exact (iter i) rules_for events (ITER i) TABLES w c f GW) as (EG & EO);
        cbv zeta in EG, EO, H;
        set (w' := lint_file (iter i) rules_for events w (c, f)) in *; clearbody w'];
      inversion H; subst p'; clear H;
      cbn [p_files p_checkers p_workers]; rewrite ?SET, !map_app, !total_app;
      cbn [map total pweight fst length]; [lia|].
    rewrite EO, skipn_app, skipn_all, Nat.sub_diag. cbn [skipn app].
    assert (IC : In c cq).
    { apply S. rewrite EW. rewrite flat_map_app. cbn [flat_map held fst].
      rewrite !in_app_iff. simpl. tauto. }
    pose proof (total_in c f cq IC) as T. unfold wsize, req in T. cbn [fst snd] in T.
    unfold weight. unfold wsize at 3. unfold req. cbn [fst snd] in *.
    unfold wsize, req. cbn [fst snd]. lia.
  - inversion H; subst p'; clear H;
      cbn [p_files p_checkers p_workers]; rewrite ?SET, !map_app, !total_app;
      cbn [map total pweight fst length]; lia.
  - inversion H; subst p'; clear H;
      cbn [p_files p_checkers p_workers]; rewrite ?SET, !map_app, !total_app;
      cbn [map total pweight fst length]; lia.
Qed.

Lemma measure_run sched : forall p p', inv p -> run p sched = Some p' ->
  length sched + measure p' <= measure p.
Proof.
  induction sched as [|i sched IH]; intros p p' I H; simpl in H.
  - inversion H; subst. simpl. lia.
  - destruct (step p i) as [q|] eqn:E; [|easy].
    specialize (IH q p' (inv_step _ _ _ I E) H). pose proof (measure_step _ _ _ I E). simpl. lia.
Qed.

Lemma step_none p i : step p i = None ->
  forall ph w, nth_error (p_workers p) i = Some (ph, w) -> ph = Done.
Proof.
  intros H ph w E. unfold p_step in H. rewrite E in H.
  destruct ph as [|c|c f [|d ds]|]; auto; try easy;
    [destruct (p_checkers p)|destruct (p_files p)]; easy.
Qed.

Lemma returned_none (p : pool) : all_returned p -> forall i, step p i = None.
Proof.
  intros H i. unfold p_step. destruct (nth_error (p_workers p) i) as [[ph w]|] eqn:E; [|reflexivity].
  rewrite (H _ _ _ E). reflexivity.
Qed.

Lemma decide_stuck (p : pool) : all_returned p \/ exists i p', step p i = Some p'.
Proof.
  assert (H : forall n, (forall i, i < n -> step p i = None) \/ exists i p', step p i = Some p').
  { induction n as [|n [IH|IH]]; [left; lia| |now right].
    destruct (step p n) as [q|] eqn:E; [right; eauto|].
    left. intros i Hi. assert (i < n \/ i = n) by lia. destruct H as [H| ->]; auto. }
  destruct (H (length (p_workers p))) as [N|N]; [left|now right].
  intros i ph w E. refine (step_none p i _ ph w E).
  apply N. apply nth_error_Some. congruence.
Qed.

Lemma can_finish : forall n p, inv p -> measure p <= n ->
  exists sched p', run p sched = Some p' /\ all_returned p'.
Proof.
  induction n as [|n IH]; intros p I M; destruct (decide_stuck p) as [A|(i & q & E)];
    try (exists [], p; now split).
  - pose proof (measure_step _ _ _ I E). lia.
  - pose proof (measure_step _ _ _ I E).
    destruct (IH q (inv_step _ _ _ I E)) as (s & p' & R1 & R2); [lia|].
    exists (i :: s), p'. simpl. now rewrite E.
Qed.

Lemma workers_len_step p i p' : step p i = Some p' -> length (p_workers p') = length (p_workers p).
Proof.
  assert (L : forall (x : phase * wst) j l, length (set_nth j x l) = length l).
  { intros x j l. revert j. induction l; intros [|j]; simpl; auto. }
  unfold p_step. intros H.
  destruct (nth_error (p_workers p) i) as [[ph w]|]; [|easy].
  destruct ph as [|c|c f [|d ds]|]; try easy;
    [destruct (p_checkers p)|destruct (p_files p)| |];
    inversion H; subst; cbn [p_workers]; apply L.
Qed.

Lemma workers_len_run sched : forall p p', run p sched = Some p' ->
  length (p_workers p') = length (p_workers p).
Proof.
  induction sched as [|i sched IH]; intros p p' H; simpl in H.
  - now inversion H; subst.
  - destruct (step p i) as [q|] eqn:E; [|easy]. rewrite (IH _ _ H). eapply workers_len_step; eauto.
Qed.

Lemma finished n p sched : 1 <= n -> cq <> [] ->
  run (p_init files0 cq n) sched = Some p -> all_returned p ->
  p_files p = [] /\ p_checkers p = [] /\
  flat_map inprog (p_workers p) = [] /\ flat_map pend (p_workers p) = [].
Proof.
  intros N C H R0.
  pose proof (inv_run _ _ _ (inv_init n) H) as [F O G S A D].
  pose proof (workers_len_run _ _ _ H) as LN. simpl in LN. rewrite repeat_length in LN.
  assert (AD : forall x, In x (p_workers p) -> fst x = Done).
  { intros [ph w] I. apply In_nth_error in I. destruct I as (i & I). exact (R0 _ _ _ I). }
  assert (Z : forall (B : Type) (g : phase * wst -> list B), (forall w, g (Done, w) = []) ->
              flat_map g (p_workers p) = []).
  { intros B g Hg. clear - AD Hg. induction (p_workers p) as [|[ph w] l IH]; [reflexivity|].
    simpl. assert (ph = Done) by (apply (AD (ph, w)); now left). subst. rewrite Hg.
    apply IH. intros x I. apply AD. now right. }
  assert (EC : p_checkers p = []).
  { destruct (p_workers p) as [|x l] eqn:EW; [simpl in LN; lia|].
    apply (D x); [now left|apply AD; now left]. }
  repeat split; auto.
  destruct (p_files p) as [|f fs]; [reflexivity|].
  exfalso. assert (Hx : f :: fs <> []) by easy. specialize (A Hx).
  rewrite (Z _ held) in A by reflexivity. rewrite EC in A. simpl in A.
  apply Permutation_nil in A. congruence.
Qed.

End PoolProofs.

Lemma agree_required {File Checker R St : Type} (rules_for : File -> list (@rule File Checker R St)) events :
  checkers_agree rules_for events -> forall c c' f,
  required (rules_for f) c f (events f) = required (rules_for f) c' f (events f).
Proof.
  intros AG c c' f. unfold required. 
  assert (X : forall rs, (forall r, In r rs -> In r (rules_for f)) ->
    flat_map (fun r => map (sign r f) (start_reports r c f)) rs =
    flat_map (fun r => map (sign r f) (start_reports r c' f)) rs).
  { induction rs as [|r rs IH]; intros H; [reflexivity|]. simpl.
    destruct (AG f r c c' (H r (or_introl eq_refl))) as [-> _].
    now rewrite IH by (intros; apply H; now right). }
  f_equal; [now apply X|].
  apply flat_map_ext. intros j.
  assert (Y : forall rs, (forall r, In r rs -> In r (rules_for f)) ->
    flat_map (fun r => map (sign r f) (nth j (alone r (table r c f) (start_state r c f) (events f)) [])) rs =
    flat_map (fun r => map (sign r f) (nth j (alone r (table r c' f) (start_state r c' f) (events f)) [])) rs).
  { induction rs as [|r rs IH]; intros H; [reflexivity|]. simpl.
    destruct (AG f r c c' (H r (or_introl eq_refl))) as [_ ->].
    now rewrite IH by (intros; apply H; now right). }
  now apply Y.
Qed.
