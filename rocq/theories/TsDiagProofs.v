From Coq Require Import String Ascii Bool List ZArith Sorted Lia.
From Verif Require Import Base TsDiag TsDiagSpec EngineProofs.
Import ListNotations.
Open Scope Z_scope.

Lemma digit_dchar z : 0 <= z < 10 -> dchar (digit z) z.
Proof.
  intros H. assert (C : z = 0 \/ z = 1 \/ z = 2 \/ z = 3 \/ z = 4 \/ z = 5 \/ z = 6 \/ z = 7 \/ z = 8 \/ z = 9) by lia.
  assert (X : forall n, nth_error (b "0123456789") n = Some (digit (Z.of_nat n)) -> dchar (digit (Z.of_nat n)) (Z.of_nat n))
    by (intros; constructor; auto).
  destruct C as [->|[->|[->|[->|[->|[->|[->|[->|[->| ->]]]]]]]]].
  - apply (X 0%nat). reflexivity.
  - apply (X 1%nat). reflexivity.
  - apply (X 2%nat). reflexivity.
  - apply (X 3%nat). reflexivity.
  - apply (X 4%nat). reflexivity.
  - apply (X 5%nat). reflexivity.
  - apply (X 6%nat). reflexivity.
  - apply (X 7%nat). reflexivity.
  - apply (X 8%nat). reflexivity.
  - apply (X 9%nat). reflexivity.
Qed.

Lemma digit_zero z : 0 <= z < 10 -> digit z = "0"%char -> z = 0.
Proof.
  intros H E. assert (C : z = 0 \/ z = 1 \/ z = 2 \/ z = 3 \/ z = 4 \/ z = 5 \/ z = 6 \/ z = 7 \/ z = 8 \/ z = 9) by lia.
  destruct C as [->|[->|[->|[->|[->|[->|[->|[->|[->| ->]]]]]]]]]; [reflexivity|..]; vm_compute in E; discriminate.
Qed.

Lemma digits_ok fuel : forall z, 0 <= z < 2 ^ Z.of_nat fuel -> (fuel > 0)%nat ->
  dvalue (digits fuel z) z /\ canonical (digits fuel z) /\ (0 < z -> forall s, digits fuel z <> "0"%char :: s).
Proof.
  induction fuel as [|fuel IH]; intros z H F; [lia|]. cbn [digits].
  destruct (Z.ltb_spec z 10) as [L|L].
  - assert (D : dchar (digit z) z) by (apply digit_dchar; lia).
    split; [now constructor|]. destruct (Z.eq_dec z 0) as [->|N].
    + split; [left; reflexivity|lia].
    + assert (X : forall s, [digit z] <> "0"%char :: s).
      { intros s [= E _]. apply digit_zero in E; lia. }
      split; [right; exact X|auto].
  - assert (Hf : (fuel > 0)%nat). { destruct fuel; [|lia]. simpl in H. lia. }
    assert (Q : 0 <= z / 10 < 2 ^ Z.of_nat fuel).
    { split; [apply Z.div_pos; lia|]. apply Z.div_lt_upper_bound; [lia|].
      rewrite Nat2Z.inj_succ, Z.pow_succ_r in H by lia. lia. }
    assert (P : 0 < z / 10) by (apply Z.div_str_pos; lia).
    destruct (IH _ Q Hf) as (A & B & C). specialize (C P).
    assert (X : forall s, digits fuel (z / 10) ++ [digit (z mod 10)] <> "0"%char :: s).
    { intros s E. destruct (digits fuel (z / 10)) as [|c l] eqn:D.
      - remember (@nil ascii) as nl eqn:En in A. destruct A; [discriminate|]. destruct s0; discriminate.
      - injection E as -> _. apply (C l eq_refl). }
    split; [|split; [right; exact X|auto]].
    rewrite (Z.div_mod z 10) at 3 by lia. constructor; [auto|].
    apply digit_dchar. apply Z.mod_pos_bound. lia.
Qed.

Lemma log2_bound z : 0 <= z -> z < 2 ^ Z.of_nat (S (Z.to_nat (Z.log2 z))).
Proof.
  intros H. rewrite Nat2Z.inj_succ, Z2Nat.id by apply Z.log2_nonneg.
  destruct (Z.eq_dec z 0) as [->|N]; [reflexivity|]. apply Z.log2_spec. lia.
Qed.

Lemma itoa_ok z : decimal (itoa z) z.
Proof.
  unfold itoa, decimal. destruct (Z.ltb_spec z 0) as [L|L].
  - right. split; [auto|]. eexists. split; [reflexivity|].
    destruct (digits_ok (S (Z.to_nat (Z.log2 (- z)))) (- z)) as (A & B & _); [|lia|auto].
    split; [lia|apply log2_bound; lia].
  - left. split; [auto|].
    destruct (digits_ok (S (Z.to_nat (Z.log2 z))) z) as (A & B & _); [|lia|auto].
    split; [lia|apply log2_bound; lia].
Qed.

Lemma to_internal_ok name d : reports name d (to_internal name d).
Proof. repeat split. exists (itoa (t_code d)). split; [apply itoa_ok|reflexivity]. Qed.

Lemma same_file_spec d name : same_file d name = true <-> t_file d = Some name.
Proof.
  unfold same_file. destruct (t_file d) as [f|]; [|split; easy]. rewrite beqb_eq.
  split; [intros ->; auto|intros [= ->]; auto].
Qed.

Lemma filter_located name l : located name l (filter (fun d => same_file d name) l).
Proof.
  induction l as [|d l IH]; cbn [filter]; [constructor|].
  destruct (same_file d name) eqn:E.
  - apply same_file_spec in E. now constructor.
  - constructor; [|auto]. intros X. apply same_file_spec in X. congruence.
Qed.

Lemma Forall2_map {A B} (R : A -> B -> Prop) f (l : list A) : (forall x, R x (f x)) -> Forall2 R l (map f l).
Proof. induction l; constructor; auto. Qed.

Lemma sorted_filter {A} (lt : A -> A -> Prop) p l : StronglySorted lt l -> StronglySorted lt (filter p l).
Proof.
  induction 1 as [|x l S IH F]; cbn [filter]; [constructor|]. destruct (p x); [|auto].
  constructor; [auto|]. rewrite Forall_forall in *. intros y I. apply filter_In in I. now apply F.
Qed.

Section R.
Context {SF : Type}.
Variable sf_name : SF -> bstr.
Variables syn sem incl : SF -> list tsd.
Variables no_emit sort_dedup : list tsd -> list tsd.
Variable lt : tsd -> tsd -> Prop.
Hypothesis Hs : sorts_and_dedups lt sort_dedup.

Lemma sem_ok sf : sem_part sf_name sem incl no_emit lt true sf (semantic sf_name sem incl no_emit sort_dedup sf).
Proof.
  unfold sem_part, semantic.
  assert (G : forall l, StronglySorted lt l -> NoDup l ->
    (forall d, In d l <-> In d (no_emit (sem sf) ++ incl sf)) ->
    exists ds, StronglySorted lt ds /\ NoDup ds /\
      (forall d, In d ds <-> t_file d = Some (sf_name sf) /\ (In d (no_emit (sem sf)) \/ In d (incl sf))) /\
      Forall2 (reports (sf_name sf)) ds (emit sf_name sf l)).
  { intros l S N I. exists (filter (fun d => same_file d (sf_name sf)) l).
    split; [now apply sorted_filter|]. split; [now apply NoDup_filter|]. split.
    - intros d. rewrite filter_In, I, in_app_iff, same_file_spec. tauto.
    - apply Forall2_map. intros x. apply to_internal_ok. }
  set (all := no_emit (sem sf) ++ incl sf) in *.
  assert (E : (match no_emit (sem sf), incl sf with
     | [], [] => []
     | _, _ => emit sf_name sf (if (1 <? List.length all)%nat then sort_dedup all else all) end)
     = emit sf_name sf (if (1 <? List.length all)%nat then sort_dedup all else all)).
  { unfold all. destruct (no_emit (sem sf)), (incl sf); reflexivity. }
  cbv zeta. rewrite E.
  destruct (Nat.ltb_spec 1 (List.length all)) as [L|L].
  - destruct (Hs all) as (A & B & C). apply G; auto.
  - apply G; [| |tauto].
    + destruct all as [|x [|y r]]; [constructor| |simpl in L; lia]. repeat constructor.
    + destruct all as [|x [|y r]]; [constructor| |simpl in L; lia]. repeat constructor. easy.
Qed.

Lemma report_ok rs rm files : exists a c,
  Forall2 (syn_part sf_name syn rs) files a /\
  Forall2 (sem_part sf_name sem incl no_emit lt rm) files c /\
  report_ts sf_name syn sem incl no_emit sort_dedup rs rm files = concat a ++ concat c.
Proof.
  unfold report_ts.
  exists (map (fun sf => if rs then emit sf_name sf (syn sf) else []) files),
         (map (fun sf => if rm then semantic sf_name sem incl no_emit sort_dedup sf else []) files).
  split; [|split].
  - apply Forall2_map. intros sf. unfold syn_part. destruct rs; [|auto].
    eexists. split; [apply filter_located|]. apply Forall2_map. apply to_internal_ok.
  - apply Forall2_map. intros sf. destruct rm; [apply sem_ok|reflexivity].
  - f_equal.
    + destruct rs; [now rewrite flat_map_concat_map|]. induction files; simpl; auto.
    + destruct rm; [now rewrite flat_map_concat_map|]. induction files; simpl; auto.
Qed.
End R.

Lemma located_in name l l' : located name l l' -> forall d, In d l' <-> In d l /\ t_file d = Some name.
Proof.
  induction 1 as [|d l l' E L IH|d l l' E L IH]; intros x; simpl; [tauto| |]; rewrite IH.
  - intuition (subst; auto).
  - intuition (subst; tauto).
Qed.

Lemma has_prefix_spec p : forall s, has_prefix p s = true <-> exists c, s = p ++ c.
Proof.
  induction p as [|x p IH]; intros s; cbn [has_prefix].
  - split; [intros _; exists s; auto|auto].
  - destruct s as [|y s]; [split; [easy|intros (c & ?); discriminate]|].
    rewrite andb_true_iff, Ascii.eqb_eq, IH. split.
    + intros [-> (c & ->)]. exists c. reflexivity.
    + intros (c & [= -> ->]). split; [auto|]. exists c. auto.
Qed.

Lemma contains_spec sub s : contains sub s = true <-> occurs sub s.
Proof.
  unfold occurs. induction s as [|x s IH]; cbn [contains]; rewrite orb_true_iff, has_prefix_spec.
  - split.
    + intros [(c & E)|E]; [|easy]. exists [], c. auto.
    + intros (a & c & E). left. destruct a; [|discriminate]. exists c. auto.
  - rewrite IH. split.
    + intros [(c & E)|(a & c & ->)]; [exists [], c; auto|]. exists (x :: a), c. auto.
    + intros (a & c & E). destruct a as [|y a]; [left; exists c; auto|].
      injection E as -> ->. right. exists a, c. auto.
Qed.

Lemma enhance_ok m : help_for m (enhance m).
Proof.
  unfold enhance, help_for. fold removed_option.
  destruct (contains removed_option m) eqn:E.
  - left. split; [now apply contains_spec|]. reflexivity.
  - right. split; [|auto]. intros X. apply contains_spec in X. congruence.
Qed.

Lemma config_diag_ok h cfg d : explains cfg d (config_diag h cfg d) /\ n_help (config_diag h cfg d) = h (t_msg d).
Proof.
  split; [|reflexivity]. repeat split. destruct d as [[[|c f]|] ? ? ? ?]; cbn [t_file config_diag n_file].
  - exists cfg. auto.
  - exists (c :: f). split; [auto|]. left. split; easy.
  - exists cfg. auto.
Qed.
