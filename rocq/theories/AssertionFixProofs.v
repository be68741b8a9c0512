From Coq Require Import Bool Arith ZArith Ascii String List Lia.
From Verif Require Import Base EngineProofs Fixer.
From Verif Require Import AssertionFix AssertionFixSpec.
Import ListNotations.
Open Scope nat_scope.

Lemma byte_white c : byte_space c = true <-> white_byte c.
Proof.
  unfold byte_space, white_byte. generalize (nat_of_ascii c). intros n. split.
  - do 161 (destruct n as [|n]; [try discriminate; cbn; tauto|]). discriminate.
  - cbn. intros H. repeat (destruct H as [<-|H]; [reflexivity|]). contradiction.
Qed.
Lemma back_space x gap y : (forall g c, gap = g ++ [c] -> ~ white_byte c) -> forall space, Forall white_byte space ->
  back (x ++ gap ++ space ++ y) (length x) (length x + length gap + length space) = length x + length gap.
Proof.
  intros G space. revert y. induction space as [|c space IH] using rev_ind; intros y F.
  - cbn [length app]. rewrite Nat.add_0_r. destruct gap as [|c gap _] using rev_ind.
    + cbn [length app]. rewrite Nat.add_0_r. destruct (length x) as [|q] eqn:L; cbn [back]; auto. rewrite (proj2 (Nat.ltb_lt q (S q))) by lia. auto.
    + rewrite app_length. cbn [length]. replace (length x + (length gap + 1)) with (S (length x + length gap)) by lia. cbn [back].
      replace (Nat.ltb (length x + length gap) (length x)) with false by (symmetry; apply Nat.ltb_ge; lia).
      replace (nth (length x + length gap) (x ++ (gap ++ [c]) ++ y) " "%char) with c.
      * specialize (G gap c eq_refl). rewrite <- byte_white in G. destruct (byte_space c); congruence.
      * rewrite app_nth2_plus, <- app_assoc, app_nth2, Nat.sub_diag by lia. auto.
  - apply Forall_app in F as [F C]. inversion C as [|? ? W _]; subst. rewrite app_length. cbn [length]. replace (length x + length gap + (length space + 1)) with (S (length x + length gap + length space)) by lia. cbn [back].
    replace (Nat.ltb (length x + length gap + length space) (length x)) with false by (symmetry; apply Nat.ltb_ge; lia).
    replace (nth (length x + length gap + length space) (x ++ gap ++ (space ++ [c]) ++ y) " "%char) with c.
    + apply byte_white in W. rewrite W. rewrite <- app_assoc. apply IH. auto.
    + rewrite <- !Nat.add_assoc, app_nth2_plus, app_nth2_plus, <- app_assoc, app_nth2, Nat.sub_diag by lia. auto.
Qed.
Lemma slice_mid x m y : slice (x ++ m ++ y) (length x) (length x + length m) = m.
Proof.
  unfold slice. rewrite skipn_app, skipn_all, Nat.sub_diag. cbn [skipn app]. replace (length x + length m - length x) with (length m) by lia.
  rewrite firstn_app, firstn_all, Nat.sub_diag. cbn. apply app_nil_r.
Qed.
Lemma prefix_iff pat : forall t, prefix pat t = true <-> exists v, t = pat ++ v.
Proof.
  induction pat as [|p pat IH]; intros t; cbn; [split; eauto|]. destruct t as [|c t]; [split; [discriminate|intros (v & E); discriminate]|].
  rewrite andb_true_iff, IH. split.
  - intros [E (v & ->)]. apply Ascii.eqb_eq in E. subst. eauto.
  - intros (v & [= -> ->]). split; eauto. apply Ascii.eqb_refl.
Qed.
Lemma stands_cons pat c t i : stands pat (c :: t) (S i) <-> stands pat t i.
Proof.
  split.
  - intros (u & v & E & L). destruct u as [|d u]; [discriminate|]. injection E as -> ->. injection L as L. exists u, v. auto.
  - intros (u & v & -> & L). exists (c :: u), v. cbn. auto.
Qed.
Lemma stands_0 pat t : stands pat t 0 <-> prefix pat t = true.
Proof.
  rewrite prefix_iff. split.
  - intros (u & v & -> & L). destruct u; [|discriminate]. exists v. auto.
  - intros (v & ->). exists [], v. auto.
Qed.
Lemma last_index_spec pat t : match last_index pat t with
  | Some i => stands pat t i /\ forall j, stands pat t j -> j <= i
  | None => forall j, ~ stands pat t j end.
Proof.
  induction t as [|c t IH]; cbn [last_index].
  - destruct (prefix pat []) eqn:P.
    + split; [apply stands_0; auto|]. intros j (u & v & E & L). destruct u; [cbn in L; lia|discriminate].
    + intros j (u & v & E & L). destruct u; [|discriminate]. cbn in L. subst. assert (prefix pat [] = true) by (apply stands_0; exists [], v; auto). congruence.
  - destruct (last_index pat t) as [i|].
    + destruct IH as [SS B]. split; [apply stands_cons; auto|]. intros [|j] J; [lia|]. apply (proj1 (stands_cons pat c t j)) in J. specialize (B j J). lia.
    + destruct (prefix pat (c :: t)) eqn:P.
      * split; [apply stands_0; auto|]. intros [|j] J; auto. apply (proj1 (stands_cons pat c t j)) in J. destruct (IH j J).
      * intros [|j] J; [apply stands_0 in J; congruence|]. apply (proj1 (stands_cons pat c t j)) in J. exact (IH j J).
Qed.
Lemma last_index_eq pat t i : stands pat t i -> (forall j, stands pat t j -> j <= i) -> last_index pat t = Some i.
Proof.
  intros S B. pose proof (last_index_spec pat t) as H. destruct (last_index pat t) as [k|].
  - destruct H as [K C]. f_equal. apply Nat.le_antisymm; auto.
  - destruct (H i S).
Qed.
Lemma spaces_eq w rest : Forall white_byte w -> (forall c r, rest = c :: r -> ~ white_byte c) -> spaces (w ++ rest) = length w.
Proof.
  intros F N. induction F as [|c w W _ IH]; cbn.
  - destruct rest as [|c rest]; auto. cbn. specialize (N c rest eq_refl). rewrite <- byte_white in N. destruct (byte_space c); congruence.
  - apply byte_white in W. rewrite W, IH. auto.
Qed.
