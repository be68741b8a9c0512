(** Proofs about the rows of Print.v. *)
From Coq Require Import String Ascii Bool List ZArith Lia.
From Verif Require Import Base Utf8 JsText Utf8Proofs Print PrintSpec PrintProofs PrintBoxProofs.
Import ListNotations.
Open Scope Z_scope.

(** ** Line numbers *)
Lemma itoa_reads fuel : forall n, 0 <= n -> (Z.to_nat n < fuel)%nat -> reads (itoa_fuel fuel n) n.
Proof.
  induction fuel as [|fuel IH]; intros n N F; [lia|]. cbn [itoa_fuel]. destruct (Z.ltb_spec n 10) as [L|L]; [now constructor|].
  assert (D : n = 10 * (n / 10) + n mod 10 /\ 0 <= n mod 10 < 10 /\ 0 < n / 10 < n) by (Z.to_euclidean_division_equations; lia). destruct D as (D & M & Q).
  rewrite D at 3. constructor; [apply IH; lia|lia|lia].
Qed.
Lemma reads_bound s n : reads s n -> (0 < List.length s)%nat /\ n < 10 ^ Z.of_nat (List.length s) /\ (0 < n -> 10 ^ (Z.of_nat (List.length s) - 1) <= n) /\ 0 <= n.
Proof.
  induction 1 as [d D|s n d R (L & U & V & N) P D].
  - cbn [List.length]. change (Z.of_nat 1) with 1. change (10 ^ 1) with 10. change (10 ^ (1 - 1)) with 1. repeat split; lia.
  - rewrite app_length. cbn [List.length]. replace (Z.of_nat (List.length s + 1)) with (Z.of_nat (List.length s) + 1) by lia. rewrite Z.pow_add_r by lia. change (10 ^ 1) with 10.
    specialize (V P). replace (Z.of_nat (List.length s) + 1 - 1) with (Z.of_nat (List.length s) - 1 + 1) by lia. rewrite Z.pow_add_r by lia. change (10 ^ 1) with 10. repeat split; try lia.
Qed.
Lemma reads_mono s n s' n' : reads s n -> reads s' n' -> 0 < n -> n <= n' -> (List.length s <= List.length s')%nat.
Proof.
  intros R R' P L. apply reads_bound in R, R'. destruct R as (A & B & C & _), R' as (A' & B' & C' & _). destruct (Nat.le_gt_cases (List.length s) (List.length s')) as [H|H]; [exact H|].
  specialize (C P). assert (10 ^ Z.of_nat (List.length s') <= 10 ^ (Z.of_nat (List.length s) - 1)) by (apply Z.pow_le_mono_r; lia). lia.
Qed.
Lemma reads_near s n s' n' : reads s n -> reads s' n' -> 0 < n -> n <= n' -> n' <= n + 12 -> (List.length s' <= S (List.length s))%nat.
Proof.
  intros R R' P L M. apply reads_bound in R, R'. destruct R as (A & B & C & _), R' as (A' & B' & C' & _). destruct (Nat.le_gt_cases (List.length s') (S (List.length s))) as [H|H]; [exact H|].
  assert (P' : 0 < n') by lia. specialize (C' P'). assert (10 ^ (Z.of_nat (List.length s) + 1) <= 10 ^ (Z.of_nat (List.length s') - 1)) by (apply Z.pow_le_mono_r; lia).
  rewrite Z.pow_add_r in * by lia. change (10 ^ 1) with 10 in *. assert (10 ^ 1 <= 10 ^ Z.of_nat (List.length s)) by (apply Z.pow_le_mono_r; lia). change (10 ^ 1) with 10 in *. lia.
Qed.
Lemma itoa_ok n : 0 <= n -> reads (itoa n) n.
Proof. intros H. unfold itoa. apply itoa_reads; lia. Qed.
Lemma row_number_ok ce k : 0 <= k -> k <= ce -> ce <= k + 12 -> numbered (List.length (itoa (ce + 1))) (k + 1) (row_number ce k).
Proof.
  intros K L M. unfold row_number. destruct (Z.eqb_spec k ce) as [->|N].
  - exists [], (itoa (ce + 1)). split; [reflexivity|]. split; [apply itoa_ok; lia|auto].
  - pose proof (itoa_ok (k + 1) ltac:(lia)) as R. pose proof (itoa_ok (ce + 1) ltac:(lia)) as R'.
    pose proof (reads_mono _ _ _ _ R R' ltac:(lia) ltac:(lia)). pose proof (reads_near _ _ _ _ R R' ltac:(lia) ltac:(lia) ltac:(lia)). unfold zlen.
    destruct (Z.ltb_spec (Z.of_nat (List.length (itoa (k + 1)))) (Z.of_nat (List.length (itoa (ce + 1))))).
    + exists (b " "), (itoa (k + 1)). split; [reflexivity|]. split; [auto|]. split; [auto|]. rewrite app_length. cbn [List.length b list_ascii_of_string]. lia.
    + exists [], (itoa (k + 1)). split; [reflexivity|]. split; [auto|]. split; [auto|]. rewrite app_length. cbn [List.length b list_ascii_of_string]. lia.
Qed.

(** ** One row *)
Lemma found_bounds l p : find vis (runes_at 0 l) = Some p -> 0 <= fst p /\ fst p < last_visible 0 (runes_at 0 l) <= zlen l.
Proof.
  intros F. destruct (last_cut (runes_at 0 l) 0) as (xs & [j r] & ys & E & V & N & LV); [congruence|]. pose proof (find_some _ _ F) as [I _]. destruct p as [f q]. cbn [fst].
  pose proof (runes_at_bounds _ _ _ _ I) as B. assert (J : In (j, r) (runes_at 0 l)) by (rewrite E; apply in_app_iff; right; now left). pose proof (runes_at_bounds _ _ _ _ J) as B'. rewrite LV. cbn [fst]. split; [lia|]. split; [|lia].
  assert (f <= j); [|lia]. destruct (find_cut _ _ F) as (xs' & ys' & E' & V' & N').
  (* positions increase *)
  assert (INC : forall n l i, (List.length l <= n)%nat -> forall x y xs ys, runes_at i l = xs ++ x :: ys -> In y ys -> fst x < fst y).
  { clear. induction n as [|n IH]; intros [|c l] i L x y xs ys E I; try (destruct xs; discriminate); [cbn in L; lia|]. rewrite runes_at_first in E. destruct xs as [|x0 xs]; cbn [app] in E.
    - injection E as <- <-. destruct y as [j r]. apply runes_at_bounds in I. cbn [fst]. lia.
    - injection E as _ E. eapply IH; [|exact E|exact I]. rewrite skipn_length. cbn in L. lia. }
  assert (J' : In (j, r) (xs' ++ (f, q) :: ys')) by (now rewrite <- E'). apply in_app_iff in J'. destruct J' as [J'|[J'|J']].
  - apply N' in J'. congruence.
  - injection J' as -> _. lia.
  - pose proof (INC (List.length l) l 0 (le_n _) (f, q) (j, r) xs' ys' E' J'). cbn [fst] in *. lia.
Qed.
Lemma wrap_small z : 0 <= z < 9223372036854775808 -> wrap z = z.
Proof. intros H. unfold wrap. rewrite Z.mod_small by lia. lia. Qed.
Lemma on_line_unique ls k i pos l : nth_error ls k = Some l -> on_line ls i pos -> (k = i <-> offset ls k <= pos <= offset ls k + zlen l).
Proof.
  intros E (m & M & H). split.
  - intros ->. rewrite E in M. injection M as <-. exact H.
  - intros K. destruct (Nat.lt_trichotomy k i) as [L|[L|L]]; [|exact L|].
    + pose proof (offset_lt _ _ _ _ E L). lia.
    + pose proof (offset_lt _ _ _ _ M L). lia.
Qed.
Lemma here_ok ls k l i pos : nth_error ls k = Some l -> on_line ls i pos ->
  (if offset ls k <=? pos then if Z.of_nat k =? zlen (starts_from 0 ls) - 1 then Ok true else let! next := at_line (starts_from 0 ls) (Z.of_nat k + 1) in Ok (pos <? next) else Ok false) = Ok (Nat.eqb k i).
Proof.
  intros E O. pose proof (on_line_unique _ _ _ _ _ E O) as U. assert (K : (k < List.length ls)%nat) by (apply nth_error_Some; congruence). destruct O as (m & M & H).
  assert (I : (i < List.length ls)%nat) by (apply nth_error_Some; congruence).
  destruct (Z.leb_spec (offset ls k) pos) as [L|L].
  - unfold zlen. rewrite starts_length. destruct (Z.eqb_spec (Z.of_nat k) (Z.of_nat (List.length ls) - 1)) as [X|X].
    + f_equal. symmetry. apply Nat.eqb_eq. destruct (Nat.lt_trichotomy k i) as [Y|[Y|Y]]; [lia|auto|]. pose proof (offset_lt _ _ _ _ M Y). lia.
    + replace (Z.of_nat k + 1) with (Z.of_nat (S k)) by lia. rewrite at_line_starts by lia. cbn [rbind]. f_equal. rewrite (offset_step _ _ _ E). destruct (Z.ltb_spec pos (offset ls k + zlen l + 1)) as [Y|Y]; symmetry.
      * apply Nat.eqb_eq. apply U. lia.
      * apply Nat.eqb_neq. intros Z0. apply U in Z0. lia.
  - f_equal. symmetry. apply Nat.eqb_neq. intros Z0. apply U in Z0. lia.
Qed.

Lemma lines_order ls i j ds de : ds <= de -> on_line ls i ds -> on_line ls j de -> (i <= j)%nat.
Proof.
  intros DE (l & L & H) (m & M & G). destruct (Nat.le_gt_cases i j) as [X|X]; [exact X|]. pose proof (offset_lt _ _ _ _ M X). lia.
Qed.
Section Rows.
Variables (ls : list bstr) (a z i j : nat) (ds de n : Z) (s : scan).
Hypothesis SIZE : zlen (text_of ls) < 4611686018427387904.
Hypothesis DE : ds <= de.
Hypothesis OI : on_line ls i ds.
Hypothesis OJ : on_line ls j de.
Hypothesis IND : indent s = n /\ 0 <= n < 4611686018427387904.
Hypothesis AZ : (a <= z < List.length ls)%nat.
Hypothesis SMALL : (z - a < 13)%nat.
Hypothesis FOUND : forall k l, (a <= k <= z)%nat -> nth_error ls k = Some l -> starts s (Z.of_nat k - Z.of_nat a) = start_found l /\ ends s (Z.of_nat k - Z.of_nat a) = end_found (offset ls k - offset ls a) l.
Hypothesis LEAST : forall k l p, (a <= k <= z)%nat -> nth_error ls k = Some l -> find vis (runes_at 0 l) = Some p -> n <= fst p.

Lemma print_row_ok k l : (a <= k <= z)%nat -> nth_error ls k = Some l ->
  exists x y w, print_row (text_of ls) (starts_from 0 ls) (Z.of_nat a) (Z.of_nat z) ds de s (Nat.ltb i k && Nat.leb k j) (Z.of_nat k) =
    Ok (Row (row_number (Z.of_nat z) (Z.of_nat k)) x y w, Nat.leb i k && Nat.ltb k j) /\ shown n ds de (offset ls k) (k = i) l x y w.
Proof.
  intros K E. destruct (FOUND k l K E) as [FS FE]. destruct IND as [IN NB]. pose proof (lines_order ls i j ds de DE OI OJ) as IJ. pose proof (text_length _ _ _ E) as [TL _]. pose proof (offset_nonneg ls k) as ON. pose proof (zlen_nonneg l) as LN.
  pose proof (on_line_unique _ _ _ _ _ E OI) as UI. pose proof (on_line_unique _ _ _ _ _ E OJ) as UJ.
  assert (OIK : (i < k)%nat -> ds < offset ls k) by (intros X; destruct OI as (m & M & G); pose proof (offset_lt _ _ _ _ M X); lia).
  assert (OKI : (k < i)%nat -> offset ls k + zlen l < ds) by (intros X; pose proof (offset_lt _ _ _ _ E X); destruct OI as (m & M & G); lia).
  assert (OJK : (j < k)%nat -> de < offset ls k) by (intros X; destruct OJ as (m & M & G); pose proof (offset_lt _ _ _ _ M X); lia).
  assert (OKJ : (k < j)%nat -> offset ls k + zlen l < de) by (intros X; pose proof (offset_lt _ _ _ _ E X); destruct OJ as (m & M & G); lia).
  unfold print_row, row_marks. rewrite at_line_starts by lia. cbn [rbind]. unfold get, arr_len. rewrite (proj2 (Z.leb_le _ _)) by lia. rewrite (proj2 (Z.ltb_lt _ _)) by lia. cbn [andb rbind].
  rewrite FS, FE, IN, wrap_small by lia. cbv zeta beta. rewrite (here_ok ls k l j de E OJ), (here_ok ls k l i ds E OI). cbn [rbind].
  pose proof (offset_mono ls a k ltac:(lia)) as OA. set (o := offset ls k) in *. set (num := row_number (Z.of_nat z) (Z.of_nat k)).
  unfold start_found, end_found. destruct (find vis (runes_at 0 l)) as [p|] eqn:F.
  - (* some text *)
    destruct (found_bounds l p F) as [F0 FB]. pose proof (LEAST k l p K E F) as NL. set (f := fst p) in *. assert (LV : last_visible 0 (runes_at 0 l) = last_visible 0 (runes_at 0 l)) by reflexivity. set (e := last_visible 0 (runes_at 0 l)) in *.
    assert (FA : first_at l f) by now apply line_first. assert (LA : last_at l e) by (apply line_last; congruence).
    (* whatever the marks are *)
    assert (GO : forall us ue (act : bool), o + n <= us -> us <= ue -> ue <= o + e -> (forall q, n <= q < e -> (us <= o + q < ue <-> ds <= o + q < de /\ (k = i \/ f <= q))) ->
      exists x y w, (if negb (us =? ue) then let! x := slice (text_of ls) (o + n) us in let! y := slice (text_of ls) us ue in let! z0 := slice (text_of ls) ue (o + e) in Ok (Row num x y z0, act)
         else if negb (o + n =? o + e) then let! x := slice (text_of ls) (o + n) (o + e) in Ok (Row num x [] [], act) else Ok (Row num [] [] [], act)) = Ok (Row num x y w, act) /\ shown n ds de o (k = i) l x y w).
    { intros us ue act A1 A2 A3 A4. replace us with (o + (us - o)) in * by lia. replace ue with (o + (ue - o)) in * by lia. set (u := us - o) in *. set (v := ue - o) in *. destruct (Z.eqb_spec (o + u) (o + v)) as [X|X]; cbn [negb].
      - destruct (Z.eqb_spec (o + n) (o + e)) as [Y|Y]; [lia|]. cbn [negb]. rewrite (slice_line ls k l) by (auto; lia). cbn [rbind]. exists (cut l n e), [], []. split; [reflexivity|].
        replace (@nil ascii) with (cut l e e) by (unfold cut; replace (e - e) with 0 by lia; reflexivity). apply (sh_text n ds de o (k = i) l f e e e); auto; try lia. intros q Q. specialize (A4 q Q). lia.
      - rewrite !(slice_line ls k l) by (auto; lia). cbn [rbind]. do 3 eexists. split; [reflexivity|]. apply (sh_text n ds de o (k = i) l f e u v); auto; try lia. intros q Q. specialize (A4 q Q). lia. }
    replace (Z.max (o + n) (o + f)) with (o + f) by lia. replace (Z.max (o + e) (o + n)) with (o + e) by lia.
    assert (ACT : (Nat.ltb i k && Nat.leb k j = true /\ (i < k)%nat /\ (k <= j)%nat) \/ (Nat.ltb i k && Nat.leb k j = false /\ ~ ((i < k)%nat /\ (k <= j)%nat))).
    { destruct (Nat.ltb_spec i k), (Nat.leb_spec k j); cbn; auto; right; split; auto; lia. }
    destruct ACT as [(-> & A1 & A2)|(-> & A)].
    + (* the range goes on *)
      cbn [rbind]. destruct (Nat.eqb_spec k j) as [KJ|KJ]; cbn [rbind].
      * replace (Nat.leb i k && Nat.ltb k j) with false by (symmetry; apply andb_false_iff; right; apply Nat.ltb_ge; lia). apply GO; try lia.
      * replace (Nat.leb i k && Nat.ltb k j) with true by (symmetry; apply andb_true_iff; split; [apply Nat.leb_le; lia|apply Nat.ltb_lt; lia]). apply GO; try lia.
    + destruct (Nat.eqb_spec k i) as [KI|KI]; cbn [rbind].
      * destruct (Nat.eqb_spec k j) as [KJ|KJ]; cbn [rbind].
        -- replace (Nat.leb i k && Nat.ltb k j) with false by (symmetry; apply andb_false_iff; right; apply Nat.ltb_ge; lia). apply GO; try lia.
        -- replace (Nat.leb i k && Nat.ltb k j) with true by (symmetry; apply andb_true_iff; split; [apply Nat.leb_le; lia|apply Nat.ltb_lt; lia]). apply GO; try lia.
      * destruct (Nat.eqb_spec k j) as [KJ|KJ]; cbn [rbind].
        -- exfalso. lia.
        -- replace (Nat.leb i k && Nat.ltb k j) with false by (symmetry; apply andb_false_iff; destruct (Nat.leb_spec i k); [right; apply Nat.ltb_ge; lia|auto]). apply GO; try lia.
  - (* blank *)
    assert (BL : blank l) by now apply line_blank. exists [], [], []. split; [|now constructor].
    replace (Z.max (o + n) (o + 0)) with (o + n) by lia. replace (Z.max (o + (-1 - (o - offset ls a))) (o + n)) with (o + n) by (pose proof (offset_nonneg ls a); lia).
    assert (M : forall q : Z, Z.min (Z.max (o + n) q) (o + n) = o + n) by (intros q; lia). rewrite !M.
    destruct (Nat.ltb i k && Nat.leb k j) eqn:ACT; cbn [rbind].
    + apply andb_true_iff in ACT. destruct ACT as [A1 A2]. apply Nat.ltb_lt in A1. apply Nat.leb_le in A2. destruct (Nat.eqb_spec k j) as [KJ|KJ]; cbn [rbind]; rewrite ?M, ?Z.eqb_refl; cbn [negb]; f_equal; f_equal; symmetry.
      * apply andb_false_iff. right. apply Nat.ltb_ge. lia.
      * apply andb_true_iff. split; [apply Nat.leb_le; lia|apply Nat.ltb_lt; lia].
    + assert (A : ~ ((i < k)%nat /\ (k <= j)%nat)) by (intros [A1 A2]; apply Nat.ltb_lt in A1; apply Nat.leb_le in A2; rewrite A1, A2 in ACT; discriminate).
      destruct (Nat.eqb_spec k i) as [KI|KI]; destruct (Nat.eqb_spec k j) as [KJ|KJ]; cbn [rbind]; rewrite ?M, ?Z.eqb_refl; cbn [negb]; f_equal; f_equal; symmetry.
      * apply andb_false_iff. right. apply Nat.ltb_ge. lia.
      * apply andb_true_iff. split; [apply Nat.leb_le; lia|apply Nat.ltb_lt; lia].
      * apply andb_false_iff. right. apply Nat.ltb_ge. lia.
      * apply andb_false_iff. destruct (Nat.leb_spec i k); [right; apply Nat.ltb_ge; lia|auto].
Qed.
Definition row_of (k : nat) (l : bstr) (r : row) : Prop :=
  numbered (List.length (itoa (Z.of_nat z + 1))) (Z.of_nat k + 1) (number r) /\ shown n ds de (offset ls k) (k = i) l (before r) (under r) (after r).
Lemma print_rows_ok count : forall k, (a <= k)%nat -> (k + count = S z)%nat ->
  exists rows, print_rows (text_of ls) (starts_from 0 ls) (Z.of_nat a) (Z.of_nat z) ds de s (Nat.ltb i k && Nat.leb k j) (Z.of_nat k) count = Ok rows /\ List.length rows = count /\
    forall t l r, nth_error rows t = Some r -> nth_error ls (k + t) = Some l -> row_of (k + t) l r.
Proof.
  induction count as [|count IH]; intros k A C; [exists []; split; [reflexivity|]; split; [reflexivity|]; intros [|t] l r H; discriminate|].
  destruct (nth_error ls k) as [l|] eqn:E; [|apply nth_error_None in E; lia]. destruct (print_row_ok k l ltac:(lia) E) as (x & y & w & P & SH). cbn [print_rows]. rewrite P. cbn [rbind].
  destruct (IH (S k) ltac:(lia) ltac:(lia)) as (rows & R & L & F). replace (Z.of_nat k + 1) with (Z.of_nat (Datatypes.S k)) by lia.
  replace (Nat.leb i k && Nat.ltb k j) with (Nat.ltb i (Datatypes.S k) && Nat.leb (Datatypes.S k) j) by reflexivity. rewrite R. cbn [rbind]. eexists. split; [reflexivity|]. split; [cbn; now rewrite L|].
  intros [|t] l' r' H G; cbn [nth_error] in H.
  - injection H as <-. rewrite Nat.add_0_r in *. rewrite E in G. injection G as <-. split; [|exact SH]. cbn [number]. apply row_number_ok; lia.
  - rewrite <- Nat.add_succ_comm in *. apply (F t); auto.
Qed.
End Rows.
