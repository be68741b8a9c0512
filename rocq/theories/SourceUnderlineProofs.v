(** Lemmas for C114 (SourceUnderline.v, SourceUnderlineSpec.v). *)
From Coq Require Import Bool Arith Ascii String List Lia.
From Verif Require Import Base.
From Verif Require Import SourceUnderline SourceUnderlineSpec.
Import ListNotations.
Local Open Scope list_scope.

Lemma adjust_0 l : adjust l 0 = 0.
Proof. destruct l; reflexivity. Qed.
Lemma adjust_nil n : adjust [] n = 0.
Proof. destruct n; reflexivity. Qed.
Lemma adjust_step l : forall i, adjust l i <= adjust l (S i) /\ (i < List.length l -> adjust l i < adjust l (S i)) /\ (List.length l <= i -> adjust l (S i) = adjust l i).
Proof.
  induction l as [|c l IH]; intros i; [rewrite !adjust_nil; cbn [List.length]; lia|].
  destruct i as [|i]; cbn [adjust List.length].
  - rewrite ?adjust_0. destruct (Ascii.eqb c tab); lia.
  - specialize (IH i). cbn [adjust] in IH. destruct l as [|d l]; [rewrite ?adjust_nil in *; destruct i; cbn [adjust List.length] in *; lia|]. cbn [List.length] in *. lia.
Qed.
Lemma adjust_mono l i j : i <= j -> adjust l i <= adjust l j.
Proof. induction 1 as [|j H IH]; [lia|]. pose proof (adjust_step l j). lia. Qed.
Lemma covers_iff l : forall i k, covers l i k <-> i < List.length l /\ adjust l i <= k < adjust l (S i).
Proof.
  induction l as [|c l IH]; intros i k.
  - split; [intros H; inversion H|cbn [List.length]; lia].
  - destruct i as [|i]; cbn [adjust List.length].
    + rewrite adjust_0. split.
      * intros H. inversion H; subst; [destruct (Ascii.eqb c tab); lia|]. rewrite Ascii.eqb_refl. lia.
      * destruct (Ascii.eqb_spec c tab) as [->|N]; intros H; [constructor; lia|]. replace k with 0 by lia. constructor.
    + change (match l with [] => 0 | c0 :: line => (if Ascii.eqb c0 tab then 4 else 1) + adjust line i end) with (adjust l (S i)). split.
      * intros H. inversion H as [| |l' i' k' C|c' l' i' k' N C]; subst.
        -- apply IH in C. rewrite Ascii.eqb_refl. lia.
        -- apply IH in C. destruct (Ascii.eqb_spec c tab); [contradiction|]. lia.
      * destruct (Ascii.eqb_spec c tab) as [->|N]; intros H.
        -- replace k with (4 + (k - 4)) by lia. constructor. apply IH. lia.
        -- replace k with (1 + (k - 1)) by lia. constructor; [exact N|]. apply IH. lia.
Qed.
Lemma covered_range l a e : forall k, (exists i, a <= i < e /\ covers l i k) <-> adjust l a <= k < adjust l e.
Proof.
  intros k. split.
  - intros [i [R C]]. apply covers_iff in C as [_ C]. pose proof (adjust_mono l a i). pose proof (adjust_mono l (S i) e). lia.
  - induction e as [|e IH]; [rewrite adjust_0; lia|]. intros H. destruct (Nat.lt_ge_cases k (adjust l e)) as [L|L].
    + destruct IH as [i [R C]]; [lia|]. exists i. split; [lia|exact C].
    + pose proof (adjust_step l e) as [_ [_ P]]. assert (e < List.length l) by (destruct (Nat.lt_ge_cases e (List.length l)); [assumption|specialize (P H0); lia]).
      exists e. split; [|apply covers_iff; lia]. split; [|lia]. destruct (Nat.le_gt_cases a e); [assumption|]. pose proof (adjust_mono l (S e) a). lia.
Qed.
Lemma covers_unique l i j k : covers l i k -> covers l j k -> i = j.
Proof.
  intros C D. apply covers_iff in C as [_ C]. apply covers_iff in D as [_ D].
  destruct (Nat.lt_trichotomy i j) as [H|[H|H]]; [pose proof (adjust_mono l (S i) j); lia|exact H|pose proof (adjust_mono l (S j) i); lia].
Qed.
Lemma expand_length l : List.length (expand l) = adjust l (List.length l).
Proof. induction l as [|c l IH]; [reflexivity|]. cbn [expand adjust List.length]. rewrite app_length, IH. destruct (Ascii.eqb c tab); reflexivity. Qed.
Lemma expand_nth l i k : covers l i k -> exists c, nth_error l i = Some c /\ nth_error (expand l) k = Some (if Ascii.eqb c tab then " "%char else c).
Proof.
  induction 1 as [c l|l k H|l i k C [d [N E]]|c l i k T C [d [N E]]].
  - exists c. split; [reflexivity|]. cbn [expand]. destruct (Ascii.eqb c tab); reflexivity.
  - exists tab. split; [reflexivity|]. cbn [expand]. rewrite Ascii.eqb_refl. do 4 (destruct k as [|k]; [reflexivity|]). lia.
  - exists d. split; [exact N|]. cbn [expand]. rewrite Ascii.eqb_refl. exact E.
  - exists d. split; [exact N|]. cbn [expand]. destruct (Ascii.eqb_spec c tab); [contradiction|]. exact E.
Qed.

(** ** The marked columns *)
Lemma mark_nth m from to : forall k, nth_error (repeat " "%char from ++ repeat m (to - from)) k = if k <? from then Some " "%char else if k <? to then Some m else None.
Proof.
  intros k. destruct (Nat.ltb_spec k from) as [L|L].
  - rewrite nth_error_app1 by (rewrite repeat_length; exact L). rewrite nth_error_repeat by exact L. reflexivity.
  - rewrite nth_error_app2 by (rewrite repeat_length; exact L). rewrite repeat_length. destruct (Nat.ltb_spec k to) as [T|T].
    + apply nth_error_repeat. lia.
    + apply nth_error_None. rewrite repeat_length. lia.
Qed.
Lemma rev_repeat {A} (x : A) n : rev (repeat x n) = repeat x n.
Proof. induction n as [|n IH]; [reflexivity|]. cbn [repeat rev]. rewrite IH. symmetry. apply repeat_cons. Qed.
Lemma trim_mark m from to : m <> " "%char -> from < to -> trim_right (repeat " "%char from ++ repeat m (to - from)) = repeat " "%char from ++ repeat m (to - from).
Proof.
  intros M H. unfold trim_right. rewrite rev_app_distr, !rev_repeat. replace (to - from) with (S (to - from - 1)) by lia.
  cbn [repeat app trim_left]. destruct (Ascii.eqb_spec m " "); [contradiction|]. change (m :: repeat m (to - from - 1) ++ repeat " "%char from) with (repeat m (S (to - from - 1)) ++ repeat " "%char from).
  rewrite rev_app_distr, !rev_repeat. reflexivity.
Qed.

(** ** Numbers *)
Lemma digits_mono : forall f n g m, n < f -> m < g -> n <= m -> List.length (digits f n) <= List.length (digits g m).
Proof.
  induction f as [|f IH]; intros n g m F G L; [lia|]. destruct g as [|g]; [lia|]. cbn [digits]. rewrite !app_length. cbn [List.length].
  destruct (Nat.ltb_spec n 10); [cbn [List.length]; lia|]. destruct (Nat.ltb_spec m 10); [lia|].
  assert (n / 10 < n) by (apply Nat.div_lt; lia). assert (m / 10 < m) by (apply Nat.div_lt; lia).
  assert (n / 10 <= m / 10) by (apply Nat.div_le_mono; lia). specialize (IH (n / 10) g (m / 10)). lia.
Qed.
Lemma itoa_mono n m : n <= m -> List.length (itoa n) <= List.length (itoa m).
Proof. intros H. apply digits_mono; lia. Qed.
Lemma pad_length w s : List.length s <= w -> List.length (pad w s) = w.
Proof. intros H. unfold pad. rewrite app_length, repeat_length. lia. Qed.

(** ** Lines and places *)
Lemma split_lines_ok s : lines s (split_lines s).
Proof.
  induction s as [|c s IH]; cbn [split_lines].
  - constructor. intros [].
  - destruct (Ascii.eqb_spec c newline) as [->|N].
    + apply (lines_more [] s (split_lines s)); [intros []|exact IH].
    + inversion IH as [l A E F|l t ls A B E F]; subst.
      * constructor. intros [X|X]; [congruence|exact (A X)].
      * apply (lines_more (c :: l) t ls); [intros [X|X]; [congruence|exact (A X)]|exact B].
Qed.
Lemma located_in s : forall p i j, located s p (i, j) -> p <= List.length s.
Proof.
  intros p i j H. remember (i, j) as q eqn:Q. clear i j Q. induction H; cbn [List.length]; lia.
Qed.
Lemma located_before s p q : located s p q -> forall p' q', located s p' q' -> p < p' -> before q q'.
Proof.
  unfold before. induction 1 as [s|s p i j H IH|c s p j N H IH|c s p i j N H IH]; intros p' q' D L.
  - inversion D; subst; cbn [fst snd]; try lia.
  - inversion D as [|? ? i' j' D'|? ? ? j' N' D'|? ? ? i' j' N' D']; subst; [lia| |contradiction|contradiction]. specialize (IH _ _ D'). cbn [fst snd] in *. lia.
  - inversion D as [|? ? i' j' D'|? ? ? j' N' D'|? ? ? i' j' N' D']; subst; [lia|contradiction| |]; specialize (IH _ _ D'); cbn [fst snd] in *; lia.
  - inversion D as [|? ? i' j' D'|? ? ? j' N' D'|? ? ? i' j' N' D']; subst; [lia|contradiction| |]; specialize (IH _ _ D'); cbn [fst snd] in *; lia.
Qed.
Lemma located_unique s p q : located s p q -> forall q', located s p q' -> q = q'.
Proof.
  induction 1 as [s|s p i j H IH|c s p j N H IH|c s p i j N H IH]; intros q' D; inversion D; subst; try contradiction; try reflexivity;
    match goal with X : located s p _ |- _ => match type of X with located _ _ ?z => try (specialize (IH _ X)) end end; try congruence.
Qed.
Lemma located_char s p q : located s p q -> forall c, nth_error s p = Some c -> c <> newline -> nth_error (nth (fst q) (split_lines s) []) (snd q) = Some c.
Proof.
  induction 1 as [s|s p i j H IH|d s p j N H IH|d s p i j N H IH]; intros c E C; cbn [fst snd] in *.
  - destruct s as [|d s]; [discriminate|]. cbn [nth_error] in E. injection E as ->. cbn [split_lines]. destruct (Ascii.eqb_spec c newline); [contradiction|]. destruct (split_lines s); reflexivity.
  - cbn [split_lines]. rewrite Ascii.eqb_refl. exact (IH c E C).
  - cbn [split_lines]. destruct (Ascii.eqb_spec d newline); [contradiction|]. specialize (IH c E C). destruct (split_lines s) as [|l ls]; [destruct j; discriminate|exact IH].
  - cbn [split_lines]. destruct (Ascii.eqb_spec d newline); [contradiction|]. specialize (IH c E C). destruct (split_lines s) as [|l ls]; [destruct j; discriminate|exact IH].
Qed.
Lemma located_exists s : forall p, p <= List.length s -> exists q, located s p q.
Proof.
  induction s as [|c s IH]; intros p L; cbn [List.length] in L; [replace p with 0 by lia; eexists; constructor|].
  destruct p as [|p]; [eexists; constructor|]. destruct (IH p) as [[i j] H]; [lia|]. destruct (ascii_dec c newline) as [->|N]; [eexists; constructor; exact H|].
  destruct i as [|i]; eexists; [apply located_same|apply located_later]; eassumption.
Qed.

(** ** The start *)
Lemma is_blank_iff c : is_blank c = true <-> white c.
Proof. unfold is_blank, white. rewrite !orb_true_iff, !Ascii.eqb_eq. tauto. Qed.
Lemma blanks_ok s : forall n, blanks s n <= n /\ (forall p, p < blanks s n -> exists c, nth_error s p = Some c /\ white c) /\ (blanks s n < n -> forall c, nth_error s (blanks s n) = Some c -> ~ white c).
Proof.
  induction s as [|c s IH]; intros n; [destruct n; cbn [blanks]; (split; [lia|split; [intros p H; lia|intros _ d H; discriminate]])|].
  destruct n as [|n]; cbn [blanks]; [split; [lia|split; [intros p H; lia|lia]]|]. destruct (is_blank c) eqn:B.
  - destruct (IH n) as [A [D E]]. split; [lia|]. split.
    + intros [|p] H; [exists c; split; [reflexivity|apply is_blank_iff; exact B]|]. apply D. lia.
    + intros H d. cbn [nth_error]. apply E. lia.
  - split; [lia|]. split; [intros p H; lia|]. intros _ d H. injection H as <-. intros W. apply is_blank_iff in W. congruence.
Qed.
Lemma nth_error_skipn {A} (l : list A) : forall n p, nth_error (skipn n l) p = nth_error l (n + p).
Proof. induction l as [|x l IH]; intros [|n] p; cbn [skipn]; try reflexivity; [destruct p; reflexivity|]. exact (IH n p). Qed.
Lemma digits_numeral : forall f n, n < f -> numeral (digits f n) n.
Proof.
  induction f as [|f IH]; intros n H; [lia|]. cbn [digits]. destruct (Nat.ltb_spec n 10) as [L|L].
  - rewrite Nat.mod_small by exact L. apply numeral_digit. exact L.
  - rewrite (Nat.div_mod n 10) at 3 by lia. apply numeral_more.
    + apply IH. assert (n / 10 < n) by (apply Nat.div_lt; lia). lia.
    + apply Nat.div_str_pos. lia.
    + apply Nat.mod_upper_bound. lia.
Qed.
