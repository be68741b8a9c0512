(** The fixes of several messages that stay clear of each other, applied in one pass by internal/linter/source_code_fixer.go
    (Fixer.v).  Unlike in FixerDisjoint.v a text may be inserted where a replaced range starts. *)
From Coq Require Import Bool List ZArith Lia Permutation Sorted.
From Verif Require Import Base Fixer FixerSpec FixerProofs.
Import ListNotations.
Open Scope Z_scope.

Section Many.
Context {byte : Type}.
Notation fx := (fix_ byte).
Notation mg := (msg byte).
Implicit Types (code out : list byte) (l r : list fx) (ds : list mg).

Lemma disjoint_ge l : forall lo hi, disjoint_from lo hi l -> lo <= hi /\ Forall (fun f => lo <= fpos f /\ fpos f <= fend f /\ fend f <= hi) l.
Proof.
  induction l as [|f l IH]; intros lo hi D; cbn [disjoint_from] in D; [split; [exact D|constructor]|].
  destruct D as (A & B & D). destruct (IH _ _ D) as [C F]. split; [lia|]. constructor; [lia|]. eapply Forall_impl; [|exact F]. cbn beta. intros g. lia.
Qed.
Lemma disjoint_sorted l : forall lo hi, disjoint_from lo hi l -> StronglySorted (fun x y : fx => key_le (fix_key x) (fix_key y)) l.
Proof.
  induction l as [|f l IH]; intros lo hi D; [constructor|]. destruct D as (A & B & D). constructor; [eapply IH; eauto|]. apply disjoint_ge in D. destruct D as [_ D].
  eapply Forall_impl; [|exact D]. intros g G. unfold key_le, fix_key. cbn beta in *. cbn [fst snd]. lia.
Qed.
Lemma disjoint_app l r : forall lo hi, disjoint_from lo hi (l ++ r) -> exists m, disjoint_from lo m l /\ disjoint_from m hi r.
Proof.
  induction l as [|f l IH]; intros lo hi D; cbn [app disjoint_from] in *; [exists lo; split; [lia|exact D]|].
  destruct D as (A & B & D). destruct (IH _ _ D) as (m & X & Y). exists m. auto.
Qed.
Lemma NoDup_app_l {A} (x y : list A) : NoDup (x ++ y) -> NoDup x /\ NoDup y /\ forall a, In a x -> In a y -> False.
Proof.
  induction x as [|a x IH]; intros N; cbn [app] in N; [repeat split; [constructor|exact N|intros ? []]|]. inversion N as [|? ? H N']; subst. destruct (IH N') as (P & Q & R). rewrite in_app_iff in H. repeat split; auto.
  - constructor; auto.
  - intros c [->|I] J; [auto|eapply R; eauto].
Qed.
(** The messages, each with its fixes in order. *)
Definition arranged ds := Forall (fun d => mfixes d <> []) ds.
Definition all_fixes ds : list fx := concat (map mfixes ds).
Lemma arranged_sorted ds : forall lo hi, arranged ds -> disjoint_from lo hi (all_fixes ds) -> StronglySorted (fun x y : mg => key_le (msg_key x) (msg_key y)) ds.
Proof.
  induction ds as [|d ds IH]; intros lo hi A D; [constructor|]. inversion A as [|? ? NE A']; subst. unfold all_fixes in D. cbn [map concat] in D.
  destruct (disjoint_app _ _ _ _ D) as (m & D1 & D2). constructor; [eapply IH; eauto|].
  destruct (disjoint_ge _ _ _ D1) as [_ F1]. destruct (disjoint_ge _ _ _ D2) as [_ F2]. apply Forall_forall. intros e E. unfold msg_key.
  assert (NE2 : mfixes e <> []) by (unfold arranged in A'; rewrite Forall_forall in A'; auto).
  destruct (mfixes d) as [|f fs] eqn:ED; [now destruct NE|]. destruct (mfixes e) as [|g gs] eqn:EE; [now destruct NE2|].
  assert (IN : forall h, In h (g :: gs) -> m <= fpos h /\ fpos h <= fend h). { intros h H. rewrite Forall_forall in F2. assert (X : In h (concat (map mfixes ds))) by (apply in_concat; exists (mfixes e); split; [now apply in_map|now rewrite EE]). apply F2 in X. lia. }
  assert (L : forall (x : fx) xs, In (last xs x) (x :: xs)). { clear. intros x xs. destruct xs as [|y xs]; [now left|]. right. revert y. induction xs as [|z xs IH]; intros y; [now left|]. right. apply IH. }
  rewrite Forall_forall in F1. pose proof (F1 _ (L f fs)). pose proof (F1 f (or_introl eq_refl)). pose proof (IN _ (L g gs)). pose proof (IN g (or_introl eq_refl)).
  unfold key_le. cbn [fst snd]. lia.
Qed.
Lemma arranged_nodup ds : forall lo hi, arranged ds -> disjoint_from lo hi (all_fixes ds) -> NoDup (map fix_key (all_fixes ds)) -> NoDup (map (@msg_key byte) ds).
Proof.
  induction ds as [|d ds IH]; intros lo hi A D N; [constructor|]. inversion A as [|? ? NE A']; subst. unfold all_fixes in D, N. cbn [map concat] in D, N.
  destruct (disjoint_app _ _ _ _ D) as (m & D1 & D2). rewrite map_app in N. destruct (NoDup_app_l _ _ N) as (N1 & N2 & N3). cbn [map]. constructor; [|eapply IH; eauto].
  destruct (disjoint_ge _ _ _ D1) as [_ F1]. destruct (disjoint_ge _ _ _ D2) as [_ F2]. intros I. apply in_map_iff in I. destruct I as (e & K & E).
  assert (NE2 : mfixes e <> []) by (unfold arranged in A'; rewrite Forall_forall in A'; auto). unfold msg_key in K.
  destruct (mfixes d) as [|f fs] eqn:ED; [now destruct NE|]. destruct (mfixes e) as [|g gs] eqn:EE; [now destruct NE2|].
  assert (IN : forall h, In h (g :: gs) -> In h (concat (map mfixes ds))) by (intros h H; apply in_concat; exists (mfixes e); split; [now apply in_map|now rewrite EE]).
  assert (L : forall (x : fx) xs, In (last xs x) (x :: xs)). { clear. intros x xs. destruct xs as [|y xs]; [now left|]. right. revert y. induction xs as [|z xs IH]; intros y; [now left|]. right. apply IH. }
  rewrite Forall_forall in F1, F2. pose proof (F1 _ (L f fs)). pose proof (F1 f (or_introl eq_refl)). pose proof (F2 _ (IN _ (L g gs))). pose proof (F2 _ (IN g (or_introl eq_refl))).
  injection K as K1 K2. apply (N3 (fix_key f)); [now left|]. assert (X : fix_key f = fix_key g). { 
    assert (G : fend g <= fend (last gs g)). { assert (DG : exists lo' hi', disjoint_from lo' hi' (g :: gs)). { clear -D2 E EE. revert m D2 E. induction ds as [|x ds IH]; intros m D2 E; [destruct E|]. cbn [map concat] in D2. destruct (disjoint_app _ _ _ _ D2) as (k & X & Y). destruct E as [->|E]; [rewrite EE in X; eauto|eauto]. }
      destruct DG as (lo' & hi' & G1 & G2 & G3). destruct gs as [|h gs]; [cbn; lia|]. apply disjoint_ge in G3. destruct G3 as [_ G3]. rewrite Forall_forall in G3. specialize (L h gs). rewrite last_cons. apply G3 in L. lia. }
    unfold fix_key. f_equal; lia. }
  rewrite X. apply in_map. apply IN. now left.
Qed.
Lemma strict_sort (sf : list fx -> list fx) l r lo hi : correct_sort cmp_fix sf -> Permutation r l -> disjoint_from lo hi l -> NoDup (map fix_key l) -> sf r = l.
Proof.
  intros C P D N. apply correct_fix_sort in C. destruct (C r) as [C1 C2]. symmetry. apply (sorted_unique _ fix_key); auto.
  - eapply Permutation_trans; [apply Permutation_sym; exact P|exact C1].
  - eapply disjoint_sorted; eauto.
Qed.
Lemma loop_all code : forall ds last hi, arranged ds -> 0 <= last -> disjoint_from last hi (all_fixes ds) -> hi <= zlen code ->
  exists o e fx, apply_loop code last ds = Ok (o, e, [], fx) /\ write_fixes code last (all_fixes ds) = Ok (o, e) /\ (ds <> [] -> fx = true).
Proof.
  induction ds as [|d ds IH]; intros last hi A L D H.
  - exists [], last, false. repeat split; auto.
  - inversion A as [|? ? NE A']; subst. unfold all_fixes in *. cbn [map concat] in *. destruct (disjoint_app _ _ _ _ D) as (m & D1 & D2).
    destruct (disjoint_ge _ _ _ D2) as [LM _]. cbn [apply_loop]. destruct (mfixes d) as [|f fs] eqn:ED; [now destruct NE|]. rewrite (proj2 (Z.ltb_ge _ _)) by (destruct D1; lia).
    assert (W : exists o1 e1, write_fixes code last (f :: fs) = Ok (o1, e1) /\ last <= e1 <= m).
    { clear - L D1 LM H. revert last L D1. generalize (f :: fs) as l. induction l as [|g l IH]; intros last L D1; cbn [disjoint_from] in D1; [exists [], last; split; [reflexivity|lia]|].
      destruct D1 as (A & B & D1). destruct (IH (fend g)) as (o & e & W & E); [lia|exact D1|]. destruct (disjoint_ge _ _ _ D1) as [M _]. cbn [write_fixes]. rewrite slice_ok by lia. cbn [rbind]. rewrite W. cbn [rbind]. eexists. eexists. split; [reflexivity|lia]. }
    destruct W as (o1 & e1 & W & E). rewrite W. cbn [rbind].
    assert (D3 : disjoint_from e1 hi (concat (map mfixes ds))) by (destruct (concat (map mfixes ds)) as [|g gs]; cbn [disjoint_from] in *; [lia|destruct D2 as (? & ? & ?); repeat split; auto; lia]).
    destruct (IH e1 hi A') as (o2 & e2 & x2 & R & R2 & _); [lia|exact D3|exact H|]. rewrite R. cbn [rbind]. exists (o1 ++ o2), e2, true. repeat split; auto.
    clear -W R2. revert last o1 W. generalize (f :: fs) as l. induction l as [|g l IH]; intros last o1 W; cbn [write_fixes app] in *; [injection W as <- <-; exact R2|].
    destruct (slice code last (fpos g)) as [k|]; [|discriminate]. cbn [rbind] in *. destruct (write_fixes code (fend g) l) as [[o e]|] eqn:E; [|discriminate]. cbn [rbind] in W. injection W as <- <-. rewrite (IH _ _ E). cbn [rbind]. now rewrite <- !app_assoc.
Qed.
Theorem many (sf : list fx -> list fx) (sm : list mg -> list mg) code out given ordered given' : correct_sort cmp_fix sf -> correct_sort cmp_msg sm ->
  Forall2 (fun d c => Permutation (mfixes d) c) given ordered -> Forall (fun c => c <> []) ordered -> given <> [] ->
  disjoint_from 0 (zlen code) (concat ordered) -> NoDup (map fix_key (concat ordered)) -> rewrites 0 code (concat ordered) out -> Permutation given given' ->
  apply_rule_fixes sf sm code given' = Ok (out, [], true).
Proof.
  intros C CM F NE G0 D N R P.
  set (W := map (fun d => mkMsg (mid d) (sf (mfixes d))) given).
  assert (WO : map mfixes W = ordered /\ Forall (fun d => mfixes d <> []) given).
  { assert (SUB : exists lo hi, disjoint_from lo hi (concat ordered)) by eauto. clear D. destruct SUB as (lo & hi & D). clear G0 P R. subst W. revert lo hi D N NE. induction F as [|d c given ordered PD F IH]; intros lo hi D N NE; [split; [reflexivity|constructor]|].
    cbn [concat] in D, N. destruct (disjoint_app _ _ _ _ D) as (m & D1 & D2). rewrite map_app in N. destruct (NoDup_app_l _ _ N) as (N1 & N2 & _). inversion NE as [|? ? NC NE']; subst.
    destruct (IH _ _ D2 N2 NE') as [E1 E2]. cbn [map mfixes]. split; [|constructor; auto; intros Z; rewrite Z in PD; apply Permutation_nil in PD; auto]. rewrite E1. f_equal. eapply strict_sort; eauto. }
  destruct WO as [WO GNE]. assert (AW : arranged W). { unfold arranged. apply Forall_forall. intros d I. rewrite Forall_forall in NE. apply NE. rewrite <- WO. now apply in_map. }
  assert (AF : all_fixes W = concat ordered) by (unfold all_fixes; now rewrite WO). unfold apply_rule_fixes.
  assert (SP : forall ds, Forall (fun d => mfixes d <> []) ds -> split_msgs sf ds = (map (fun d => mkMsg (mid d) (sf (mfixes d))) ds, [])).
  { clear. induction ds as [|d ds IH]; intros H; [reflexivity|]. inversion H as [|? ? H1 H2]; subst. cbn [split_msgs map]. rewrite (IH H2). destruct (mfixes d); [now destruct H1|reflexivity]. }
  rewrite SP by (eapply perm_forall; eauto). cbn [rbind].
  assert (SW : sm (map (fun d => mkMsg (mid d) (sf (mfixes d))) given') = W).
  { symmetry. apply correct_msg_sort in CM. apply (sorted_unique _ (@msg_key byte)).
    - eapply Permutation_trans; [|apply CM]. unfold W. now apply Permutation_map.
    - eapply arranged_sorted; eauto. rewrite AF. exact D.
    - apply CM.
    - eapply arranged_nodup; eauto; rewrite AF; eauto. }
  rewrite SW. destruct (loop_all code W 0 (zlen code) AW (Z.le_refl 0)) as (o & e & x & E1 & E2 & E3); [rewrite AF; exact D|lia|]. rewrite E1. cbn [rbind].
  assert (WNE : W <> []) by (unfold W; destruct given; [now destruct G0|discriminate]). rewrite (E3 WNE).
  rewrite AF in E2. destruct (disjoint_ge _ _ _ D) as [_ WF]. assert (WFR : Forall well_formed_range (concat ordered)) by (eapply Forall_impl; [|exact WF]; intros f X; red; cbn beta in X; lia).
  destruct (write_fixes_total code (concat ordered) 0 (Z.le_refl 0) D) as (o' & e' & E4 & E5 & E6). rewrite E2 in E4. injection E4 as <- <-.
  unfold slice_from. rewrite slice_ok by lia. cbn [rbind]. f_equal. f_equal. f_equal.
  pose proof (write_fixes_rewrites code _ 0 o e [] (skipn (Z.to_nat e) code) WFR E2 E6 (rw_done _ _)) as RW. rewrite app_nil_r in RW. change (skipn (Z.to_nat 0) code) with code in RW.
  rewrite firstn_all2 by (rewrite skipn_length; unfold zlen; lia). eapply rewrites_fun; eauto.
Qed.
End Many.
