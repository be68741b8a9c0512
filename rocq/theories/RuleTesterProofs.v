(** Lemmas for C113 (RuleTester.v, RuleTesterSpec.v). *)
From Coq Require Import Bool Arith Ascii String List Lia.
From Verif Require Import Base.
From Verif Require Import RuleTester RuleTesterSpec.
Import ListNotations.
Local Open Scope list_scope.

Lemma beqb_iff x y : beqb x y = true <-> x = y.
Proof.
  revert y. induction x as [|c x IH]; intros [|d y]; cbn [beqb]; split; intros H; try discriminate; try reflexivity.
  - apply andb_true_iff in H as [H K]. apply Ascii.eqb_eq in H. apply IH in K. congruence.
  - injection H as -> ->. rewrite Ascii.eqb_refl. apply IH. reflexivity.
Qed.
Lemma same_outputs_iff l : forall k, same_outputs l k = true <-> l = k.
Proof.
  induction l as [|x l IH]; intros [|y k]; cbn [same_outputs]; try (split; congruence). rewrite andb_true_iff, beqb_iff, IH. split; [intros [-> ->]; reflexivity|intros H; injection H; auto].
Qed.
Lemma place_iff g a : place_ok g (S a) = true <-> at_place g a.
Proof. unfold place_ok, at_place. rewrite orb_true_iff, !Nat.eqb_eq. lia. Qed.
Lemma suggestions_iff ap text l : forall k, suggestions_ok ap text l k = true <-> Forall2 (fun p s => fst p = s_id s /\ snd p = ap text s) l k.
Proof.
  induction l as [|[id out] l IH]; intros [|s k]; cbn [suggestions_ok]; try (split; [discriminate|intros H; inversion H]); [split; [constructor|reflexivity]|].
  rewrite !andb_true_iff, !beqb_iff, IH. split.
  - intros [[A B] C]. constructor; auto.
  - intros H. inversion H as [|? ? ? ? [A B] C]; subst. auto.
Qed.
Lemma error_iff ap pos text e d : error_ok ap pos text e d = true <-> agrees ap pos text e d.
Proof.
  unfold error_ok, agrees. destruct (pos text (d_pos d)) as [l c], (pos text (d_end d)) as [l' c']. cbn [fst snd].
  rewrite !andb_true_iff, !place_iff, beqb_iff, suggestions_iff. split.
  - intros [[[[[A B] C] D] E] F]. repeat (split; [now auto|]). exists (match d_suggestions d with Some l => l | None => [] end). split; [destruct (d_suggestions d); auto|exact F].
  - intros [A [B [C [D [E [ss [F G]]]]]]]. repeat split; auto. destruct F as [->|[-> ->]]; exact G.
Qed.
Lemma errors_iff ap pos text l : forall k, errors_ok ap pos text l k = true <-> Forall2 (agrees ap pos text) l k.
Proof.
  induction l as [|e l IH]; intros [|d k]; cbn [errors_ok]; try (split; [discriminate|intros H; inversion H]); [split; [constructor|reflexivity]|].
  rewrite andb_true_iff, error_iff, IH. split; [intros [A B]; constructor; auto|intros H; inversion H; auto].
Qed.
Lemma skipped_iff valid invalid t : skipped (only_mode valid invalid) t = true <-> left_out valid invalid t.
Proof.
  unfold skipped, only_mode, left_out. rewrite orb_true_iff, andb_true_iff, negb_true_iff, orb_true_iff, !existsb_exists. tauto.
Qed.

Section Tester.
Variable resolve : bstr -> bstr.
Variable default_config : bstr.
Variable lint : (bstr -> option bstr) -> bstr -> bstr -> option (list diag).
Variable apply_fixes : bstr -> list diag -> bstr * bool.
Notation linted t := (run_linter resolve default_config lint t).
Notation rounds n t x := (rounds resolve default_config lint apply_fixes n t x).

Lemma rounds_iff t n : forall x l, rounds n t x = Some l <->
  exists z, chain (linted t) apply_fixes x l z /\ ((List.length l < n /\ settled (linted t) apply_fixes z) \/ List.length l = n).
Proof.
  induction n as [|n IH]; intros x l.
  - cbn [RuleTester.rounds]. split.
    + intros H. injection H as <-. exists x. split; [constructor|]. right. reflexivity.
    + intros [z [C [[H _]|H]]]; [lia|]. destruct l; [reflexivity|discriminate].
  - change (rounds (S n) t x) with (match linted t x with None => None | Some ds => let (x', fixed) := apply_fixes x ds in if fixed then match rounds n t x' with Some l => Some (x' :: l) | None => None end else Some [] end).
    destruct (linted t x) as [ds|] eqn:L.
    + destruct (apply_fixes x ds) as [y fixed] eqn:A. destruct fixed.
      * split.
        -- destruct (rounds n t y) as [l'|] eqn:R; [|discriminate]. intros H. injection H as <-. apply IH in R as [z [C D]]. exists z. split; [apply (chain_more _ _ x y l' z); [exists ds; auto|exact C]|]. cbn [List.length]. destruct D as [[D S1]|D]; [left; split; [lia|exact S1]|right; lia].
        -- intros [z [C D]]. inversion C as [x0 E F G|x0 y0 l0 z0 [ds' [L' A']] C' E F G]; subst.
           ++ cbn [List.length] in D. destruct D as [[_ [ds' [y' [L' A']]]]|D]; [|discriminate]. rewrite L' in L. injection L as <-. congruence.
           ++ rewrite L' in L. injection L as <-. rewrite A' in A. injection A as <-. cbn [List.length] in D.
              assert (R : rounds n t y0 = Some l0); [apply IH; exists z; split; [exact C'|]; destruct D as [[D S1]|D]; [left; split; [lia|exact S1]|right; lia]|]. rewrite R. reflexivity.
      * split.
        -- intros H. injection H as <-. exists x. split; [constructor|]. left. split; [cbn; lia|]. exists ds, y. auto.
        -- intros [z [C D]]. inversion C as [x0 E F G|x0 y0 l0 z0 [ds' [L' A']] C' E F G]; subst; [reflexivity|]. rewrite L' in L. injection L as <-. congruence.
    + split; [discriminate|]. intros [z [C D]]. inversion C as [x0 E F G|x0 y0 l0 z0 [ds' [L' A']] C' E F G]; subst; [|congruence].
      cbn [List.length] in D. destruct D as [[_ [ds' [y' [L' A']]]]|D]; [congruence|discriminate].
Qed.
Lemma overlay_other t text p : (forall e, In e (extra t) -> resolve (fst e) <> p) -> overlay resolve t text p = if beqb (resolve (name_of t)) p then Some text else None.
Proof.
  intros H. unfold overlay. revert H. generalize (if beqb (resolve (name_of t)) p then Some text else None). induction (extra t) as [|e l IH]; intros o H; cbn [fold_left]; [reflexivity|].
  destruct (beqb (resolve (fst e)) p) eqn:E; [apply beqb_iff in E; destruct (H e (or_introl eq_refl) E)|]. apply IH. intros e' I. apply H. right. exact I.
Qed.
Lemma overlay_last t text p x e y : extra t = x ++ e :: y -> resolve (fst e) = p -> (forall e', In e' y -> resolve (fst e') <> p) -> overlay resolve t text p = Some (snd e).
Proof.
  intros E R H. unfold overlay. rewrite E, fold_left_app. cbn [fold_left]. assert (B : beqb (resolve (fst e)) p = true) by (apply beqb_iff; exact R). rewrite B.
  clear E B R. induction y as [|e' y IH]; cbn [fold_left]; [reflexivity|]. destruct (beqb (resolve (fst e')) p) eqn:Q; [apply beqb_iff in Q; destruct (H e' (or_introl eq_refl) Q)|]. apply IH. intros e2 I. apply H. right. exact I.
Qed.
End Tester.
