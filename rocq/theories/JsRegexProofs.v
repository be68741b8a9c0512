(** What literal patterns match. *)
From Coq Require Import Bool List ZArith Lia.
From Verif Require Import JsText JsRegex.
Import ListNotations.
Open Scope Z_scope.

Lemma lit_app u v x : lit (u ++ v) x = lit u (lit v x).
Proof. unfold lit. apply fold_right_app. Qed.

Lemma matches_le eqv s x i j : matches eqv s x i j -> (i <= j <= List.length s)%nat.
Proof.
  induction 1 as [i H|i u v N E|i v N E| | |x y i j k A IHA B IHB]; try lia.
  - assert (i < List.length s)%nat by (apply nth_error_Some; congruence). lia.
  - assert (i < List.length s)%nat by (apply nth_error_Some; congruence). lia.
Qed.

(** [v] stands in [s] at position [i]. *)
Definition at_pos (s v : list Z) (i : nat) : Prop := exists a t, s = a ++ v ++ t /\ List.length a = i.

Lemma lit_matches s x v : forall i k,
  matches eq s (lit v x) i k <-> at_pos s v i /\ matches eq s x (i + List.length v) k.
Proof.
  induction v as [|u v IH]; intros i k.
  - cbn [lit fold_right List.length]. rewrite Nat.add_0_r. split; [|tauto].
    intros M. split; [|auto]. pose proof (matches_le _ _ _ _ _ M) as L.
    exists (firstn i s), (skipn i s). split; [cbn [app]; now rewrite firstn_skipn|]. rewrite firstn_length. lia.
  - cbn [lit fold_right]. fold (lit v x). split.
    + intros M. inversion M as [| | | | |? ? ? j ? M1 M2]; subst. inversion M1 as [|? ? w N E| | | |]; subst.
      apply IH in M2. destruct M2 as [(a & t & -> & L) M2]. split.
      * exists (firstn i a), t. split.
        -- assert (NA : nth_error a i = Some w) by (rewrite nth_error_app1 in N by lia; auto).
           rewrite <- (firstn_skipn i a) at 1. assert (SK : skipn i a = [w]).
           { assert (LS : List.length (skipn i a) = 1%nat) by (rewrite skipn_length; lia).
             destruct (skipn i a) as [|w' [|? ?]] eqn:SK; try discriminate. f_equal.
             assert (H : nth_error (firstn i a ++ skipn i a) i = Some w) by (rewrite firstn_skipn; auto).
             rewrite nth_error_app2 in H by (rewrite firstn_length; lia).
             replace (i - List.length (firstn i a))%nat with 0%nat in H by (rewrite firstn_length; lia).
             rewrite SK in H. cbn in H. congruence. }
           rewrite SK, <- app_assoc. reflexivity.
        -- rewrite firstn_length. lia.
      * cbn [List.length]. replace (i + S (List.length v))%nat with (S i + List.length v)%nat by lia. auto.
    + intros [(a & t & -> & L) M]. cbn [List.length] in M. econstructor.
      * apply (m_unit _ _ i u u); [|auto]. rewrite nth_error_app2 by lia. replace (i - List.length a)%nat with 0%nat by lia. reflexivity.
      * apply IH. split.
        -- exists (a ++ [u]), t. split; [rewrite <- app_assoc; reflexivity|]. rewrite app_length. cbn [List.length]. lia.
        -- replace (S i + List.length v)%nat with (i + S (List.length v))%nat by lia. auto.
Qed.

Lemma test_contains v s : test (lit v REmpty) s <-> exists a t, s = a ++ v ++ t.
Proof.
  unfold test, test_with. split.
  - intros (i & j & M). apply lit_matches in M. destruct M as [(a & t & -> & _) _]. eauto.
  - intros (a & t & E). exists (List.length a), (List.length a + List.length v)%nat. apply lit_matches.
    split; [exists a, t; auto|]. constructor. rewrite E, !app_length. lia.
Qed.
Lemma test_starts v s : test (RSeq RStart (lit v REmpty)) s <-> exists t, s = v ++ t.
Proof.
  unfold test, test_with. split.
  - intros (i & j & M). inversion M as [| | | | |? ? ? k ? M1 M2]; subst. inversion M1; subst.
    apply lit_matches in M2. destruct M2 as [(a & t & -> & L) _]. destruct a; [|discriminate]. exists t. reflexivity.
  - intros (t & ->). exists 0%nat, (List.length v). econstructor; [constructor|]. apply lit_matches.
    split; [exists [], t; auto|]. cbn [Nat.add]. constructor. rewrite app_length. lia.
Qed.
Lemma test_ends v s : test (lit v (RSeq REnd REmpty)) s <-> exists a, s = a ++ v.
Proof.
  unfold test, test_with. split.
  - intros (i & j & M). apply lit_matches in M. destruct M as [(a & t & -> & L) M].
    inversion M as [| | | | |? ? ? k ? M1 M2]. assert (LE : (List.length a + List.length v)%nat = List.length (a ++ v ++ t)) by (rewrite L; inversion M1; congruence).
    rewrite !app_length in LE. assert (List.length t = 0%nat) by lia. destruct t; [|discriminate].
    rewrite app_nil_r. eauto.
  - intros (a & ->). exists (List.length a), (List.length a + List.length v)%nat. apply lit_matches.
    split; [exists a, []; rewrite app_nil_r; auto|]. rewrite <- app_length. econstructor; [constructor|]. constructor. lia.
Qed.

(** UTF-16. *)
Ltac zdm := Z.to_euclidean_division_equations; lia.
Lemma units_cases c : scalar c ->
  (units c = [c] /\ 0 <= c < 65536 /\ ~ 55296 <= c <= 57343) \/
  (exists h l, units c = [h; l] /\ 55296 <= h <= 56319 /\ 56320 <= l <= 57343 /\ c = (h - 55296) * 1024 + (l - 56320) + 65536).
Proof.
  intros H. unfold units. destruct (Z.ltb_spec c 65536); [left; destruct H; split; auto; lia|right].
  eexists _, _. split; [reflexivity|]. destruct H; zdm.
Qed.
Lemma cp_not_low u l r : ~ 56320 <= l <= 57343 -> code_points (u :: l :: r) = u :: code_points (l :: r).
Proof.
  intros N. cbn [code_points]. replace ((55296 <=? u) && (u <=? 56319) && (56320 <=? l) && (l <=? 57343)) with false; [auto|].
  symmetry. rewrite !andb_false_iff, !Z.leb_gt. lia.
Qed.
Lemma cp_not_high u r : ~ 55296 <= u <= 56319 -> code_points (u :: r) = u :: code_points r.
Proof.
  intros N. destruct r as [|l r]; [reflexivity|]. cbn [code_points].
  replace ((55296 <=? u) && (u <=? 56319) && (56320 <=? l) && (l <=? 57343)) with false; [auto|].
  symmetry. rewrite !andb_false_iff, !Z.leb_gt. lia.
Qed.
Lemma cp_units c r : scalar c -> code_points (units c ++ r) = c :: code_points r.
Proof.
  intros H. destruct (units_cases c H) as [(-> & _ & N)|(h & l & -> & Hh & Hl & ->)].
  - cbn [app]. apply cp_not_high. lia.
  - cbn [app code_points]. now rewrite !(proj2 (Z.leb_le _ _)) by lia.
Qed.
Lemma cp_all w r : Forall scalar w -> code_points (flat_map units w ++ r) = w ++ code_points r.
Proof.
  induction 1 as [|c w H F IH]; [reflexivity|]. cbn [flat_map app]. rewrite <- app_assoc, cp_units by auto. now rewrite IH.
Qed.
Lemma cp_app n : forall s u r, (List.length s <= n)%nat -> ~ 56320 <= u <= 57343 -> code_points (s ++ u :: r) = code_points s ++ code_points (u :: r).
Proof.
  induction n as [|n IH]; intros s u r L N; [destruct s; [reflexivity|simpl in L; lia]|].
  destruct s as [|h s]; [reflexivity|]. simpl in L. destruct s as [|l s].
  - cbn [app]. now rewrite cp_not_low.
  - change ((h :: l :: s) ++ u :: r) with (h :: l :: (s ++ u :: r)). cbn [code_points].
    destruct ((55296 <=? h) && (h <=? 56319) && (56320 <=? l) && (l <=? 57343)).
    + cbn [app]. f_equal. apply IH; [simpl in L; lia|auto].
    + cbn [app]. f_equal. apply (IH (l :: s)); [simpl in *; lia|auto].
Qed.
Lemma flat_units_cp s : Forall (fun u => 0 <= u < 65536) s -> flat_map units (code_points s) = s.
Proof.
  intros F. remember (List.length s) as n eqn:Hn. assert (L : (List.length s <= n)%nat) by lia. clear Hn. revert s F L.
  induction n as [|n IH]; intros s F L; [destruct s; [reflexivity|simpl in L; lia]|].
  assert (U1 : forall u, 0 <= u < 65536 -> units u = [u]).
  { intros u Hu. unfold units. now rewrite (proj2 (Z.ltb_lt _ _)) by lia. }
  destruct s as [|h [|l s]]; [reflexivity| |].
  - inversion F; subst. cbn [code_points flat_map]. now rewrite U1.
  - inversion F as [|? ? F1 F2]; subst. inversion F2 as [|? ? F3 F4]; subst. cbn [code_points].
    destruct ((55296 <=? h) && (h <=? 56319) && (56320 <=? l) && (l <=? 57343)) eqn:E.
    + rewrite !andb_true_iff, !Z.leb_le in E. cbn [flat_map]. rewrite IH by (simpl in L; auto; lia).
      unfold units. destruct (Z.ltb_spec ((h - 55296) * 1024 + (l - 56320) + 65536) 65536); [lia|].
      cbn [app]. f_equal; [zdm|]. f_equal. zdm.
    + cbn [flat_map]. rewrite U1 by auto. cbn [app]. f_equal. apply (IH (l :: s)); [auto|simpl in *; lia].
Qed.

(** Comparing code points or code units makes no difference for the start and the end. *)
Lemma cp_starts w s : Forall scalar w -> Forall (fun u => 0 <= u < 65536) s ->
  ((exists t, code_points s = w ++ t) <-> exists t, s = flat_map units w ++ t).
Proof.
  intros F B. split.
  - intros (t & E). exists (flat_map units t). rewrite <- flat_map_app, <- E. symmetry. now apply flat_units_cp.
  - intros (t & ->). exists (code_points t). now apply cp_all.
Qed.
Lemma cp_ends w s : Forall scalar w -> Forall (fun u => 0 <= u < 65536) s ->
  ((exists a, code_points s = a ++ w) <-> exists a, s = a ++ flat_map units w).
Proof.
  intros F B. split.
  - intros (t & E). exists (flat_map units t). rewrite <- flat_map_app, <- E. symmetry. now apply flat_units_cp.
  - intros (a & ->). exists (code_points a). destruct F as [|c w H F].
    + cbn [flat_map]. now rewrite !app_nil_r.
    + assert (G : exists u r, flat_map units (c :: w) = u :: r /\ ~ 56320 <= u <= 57343).
      { cbn [flat_map]. destruct (units_cases c H) as [(-> & _ & N)|(h & l & -> & Hh & Hl & _)];
          cbn [app]; eexists _, _; split; try reflexivity; lia. }
      destruct G as (u & r & E & N). rewrite E, (cp_app (List.length a)) by auto. f_equal. rewrite <- E.
      rewrite <- (app_nil_r (flat_map units (c :: w))). rewrite cp_all by (constructor; auto). now rewrite app_nil_r.
Qed.
