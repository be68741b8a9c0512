(** C46: the code box printed below a diagnostic (cmd/tsgolint/main.go 232-362). *)
From Coq Require Import String Ascii Bool List ZArith Lia.
From Verif Require Import Base Utf8 JsText Utf8Proofs EngineProofs Print PrintSpec PrintProofs PrintBoxProofs PrintRowProofs.
Import ListNotations.
Open Scope Z_scope.

(** ** Line breaks *)
Lemma quiet_no_10 l : quiet l -> Forall (fun c => bz c <> 10) l.
Proof.
  intros Q. apply Forall_forall. intros c I E. apply in_split in I. destruct I as (p & q & ->). destruct (Q 10); [|congruence]. rewrite <- (runes_at_runes _ 0), runes_at_ascii by (rewrite E; lia).
  rewrite map_app. apply in_app_iff. right. left. exact E.
Qed.
Lemma ordinary_ended ls l : ordinary ls -> In l ls -> ended l.
Proof. induction 1 as [m Q|m ls E O IH]; intros [<-|I]; auto; [left; auto|destruct I]. Qed.
Lemma ordinary_last ls : ordinary ls -> forall k l, nth_error ls k = Some l -> S k = List.length ls -> quiet l.
Proof.
  induction 1 as [m Q|m ls E O IH]; intros [|k] l N L; cbn [nth_error List.length] in *.
  - injection N as <-. auto.
  - destruct k; discriminate.
  - destruct ls; [inversion O|discriminate].
  - apply (IH k); auto.
Qed.
Lemma ended_no_10 l : ended l -> Forall (fun c => bz c <> 10) l.
Proof.
  intros [Q|(m & -> & Q)]; [now apply quiet_no_10|]. apply Forall_app. split; [now apply quiet_no_10|]. constructor; [|constructor]. vm_compute. discriminate.
Qed.
Lemma break_spec r : line_break r = true <-> r = 10 \/ r = 13 \/ r = 8232 \/ r = 8233.
Proof. unfold line_break. cbn [existsb]. rewrite !orb_true_iff, !Z.eqb_eq. intuition discriminate. Qed.
Lemma quiet_find m i : quiet m -> find (fun p => line_break (snd p)) (runes_at i m) = None.
Proof.
  intros Q. destruct (find _ _) as [p|] eqn:F; [|reflexivity]. apply find_some in F. destruct F as [I B]. apply break_spec in B. destruct (Q (snd p)); [|lia]. rewrite <- (runes_at_runes m i). now apply in_map.
Qed.
Lemma find_app {A} f (l m : list A) : find f (l ++ m) = match find f l with Some x => Some x | None => find f m end.
Proof. induction l as [|x l IH]; [reflexivity|]. cbn. destruct (f x); auto. Qed.
Lemma find_break m i d r : quiet m -> d = "010"%char \/ d = "013"%char -> find (fun p => line_break (snd p)) (runes_at i (m ++ d :: r)) = Some (i + zlen m, bz d).
Proof.
  intros Q D. rewrite runes_at_ascii by (destruct D; subst; vm_compute; reflexivity). rewrite find_app, quiet_find by auto. cbn [find snd]. destruct D; subst; reflexivity.
Qed.
(** Where the box ends. *)
Lemma box_end past ls z l : ordinary ls -> nth_error ls z = Some l ->
  exists n, end_line_position past (text_of ls) (offset ls z) + 1 = (if Nat.eqb (S z) (List.length ls) then past + 1 else offset ls z + zlen l + Z.of_nat n) /\
    (n = 0%nat \/ (n = 1%nat /\ (S z < List.length ls)%nat)).
Proof.
  intros O E. unfold end_line_position. destruct (text_at _ _ _ E) as (rest & -> & R). destruct (Nat.eqb_spec (S z) (List.length ls)) as [X|X].
  - destruct R as [[_ ->]|[Y _]]; [|lia]. rewrite app_nil_r. rewrite quiet_find by (eapply ordinary_last; eauto). exists 0%nat. auto.
  - destruct R as [[Y _]|[Y ->]]; [lia|]. destruct (ordinary_ended _ l O) as [Q|(m & -> & Q)]; [eapply nth_error_In; eauto| |].
    + rewrite find_break by auto. exists 1%nat. split; [cbn [fst]; lia|auto].
    + rewrite <- app_assoc. cbn [app]. rewrite find_break by auto. exists 0%nat. split; [cbn [fst]; rewrite zlen_app; change (zlen ["013"%char]) with 1; lia|auto].
Qed.

(** ** Indentation *)
Lemma fold_indent ls : forall d, fold_left indent_found ls d <= d /\ (forall l p, In l ls -> find vis (runes_at 0 l) = Some p -> fold_left indent_found ls d <= fst p) /\
  (fold_left indent_found ls d = d \/ exists l p, In l ls /\ find vis (runes_at 0 l) = Some p /\ fold_left indent_found ls d = fst p).
Proof.
  induction ls as [|m ls IH]; intros d; cbn [fold_left]; [split; [lia|]; split; [intros l p []|auto]|]. destruct (IH (indent_found d m)) as (A & B & C).
  assert (D : indent_found d m <= d) by (unfold indent_found; destruct (find vis (runes_at 0 m)); lia). split; [lia|]. split.
  - intros l p [<-|I] F; [|eauto]. assert (indent_found d m <= fst p) by (unfold indent_found; rewrite F; lia). lia.
  - destruct C as [C|(l & p & I & F & C)]; [|right; exists l, p; split; [now right|auto]]. rewrite C. unfold indent_found. destruct (find vis (runes_at 0 m)) as [p|] eqn:F; [|auto].
    destruct (Z.min_spec d (fst p)) as [[_ M]|[_ M]]; rewrite M; [auto|]. right. exists m, p. split; [now left|auto].
Qed.
Lemma fold_blank ls : (forall l, In l ls -> blank l) -> forall d, fold_left indent_found ls d = d.
Proof.
  intros B d. destruct (fold_indent ls d) as (_ & _ & [C|(l & p & I & F & _)]); [auto|]. apply B, line_blank in I. congruence.
Qed.

Lemma offset_0 ls : offset ls 0 = 0.
Proof. destruct ls; reflexivity. Qed.
Lemma offset_pos ls k l : nth_error ls k = Some l -> (0 < k)%nat -> 0 < offset ls k.
Proof.
  intros E K. destruct ls as [|x ls]; [destruct k; discriminate|]. destruct k as [|k]; [lia|]. cbn [offset]. pose proof (zlen_nonneg x). pose proof (offset_nonneg ls k). lia.
Qed.

(** ** The box *)
Section Box.
Variables (past : Z) (ls : list bstr) (ds de : Z) (i j : nat).
Hypothesis ORD : ordinary ls.
Hypothesis SIZE : zlen (text_of ls) < 4611686018427387904.
Hypothesis DE : ds <= de.
Hypothesis OI : on_line ls i ds.
Hypothesis OJ : on_line ls j de.
Let a := Nat.pred i.
Let z := Nat.min (S j) (Nat.pred (List.length ls)).
Lemma bounds : (i <= j)%nat /\ (j < List.length ls)%nat /\ (a <= z)%nat /\ (z < List.length ls)%nat.
Proof.
  pose proof (lines_order ls i j ds de DE OI OJ). destruct OJ as (l & L & _). assert (j < List.length ls)%nat by (apply nth_error_Some; congruence). unfold a, z. repeat split; lia.
Qed.
Lemma first_line : Z.max (line_of (starts_from 0 ls) ds - 1) 0 = Z.of_nat a.
Proof. rewrite (line_of_on ls i) by auto. unfold a. lia. Qed.
Lemma last_line : Z.min (line_of (starts_from 0 ls) de + 1) (zlen (starts_from 0 ls) - 1) = Z.of_nat z.
Proof. pose proof bounds. rewrite (line_of_on ls j) by auto. unfold zlen. rewrite starts_length. unfold z. lia. Qed.
Lemma too_big : (13 <= z - a)%nat -> print_box past (text_of ls) (starts_from 0 ls) ds de = Ok None.
Proof.
  intros B. pose proof bounds. unfold print_box. rewrite first_line, last_line, !at_line_starts by lia. cbn [rbind]. unfold arr_len. now rewrite (proj2 (Z.leb_le _ _)) by lia.
Qed.
Hypothesis SMALL : (z - a < 13)%nat.
Lemma off_the_end : S z = List.length ls -> zlen (text_of ls) <= past -> print_box past (text_of ls) (starts_from 0 ls) ds de = Panic.
Proof.
  intros E P. pose proof bounds. unfold print_box. rewrite first_line, last_line, !at_line_starts by lia. cbn [rbind]. unfold arr_len. rewrite (proj2 (Z.leb_gt _ _)) by lia.
  destruct (nth_error ls z) as [l|] eqn:N; [|apply nth_error_None in N; lia]. destruct (box_end past ls z l ORD N) as (n & -> & _). rewrite E, Nat.eqb_refl. unfold slice.
  rewrite (proj2 (Z.leb_gt (past + 1) _)) by lia. rewrite andb_false_r. reflexivity.
Qed.
Hypothesis LASTLINE : S z = List.length ls -> past + 1 = zlen (text_of ls).
Lemma scanned : exists s, indent s = fold_left indent_found (between_lines ls a z) max_int /\
  (forall k l, (a <= k <= z)%nat -> nth_error ls k = Some l -> starts s (Z.of_nat k - Z.of_nat a) = start_found l /\ ends s (Z.of_nat k - Z.of_nat a) = end_found (offset ls k - offset ls a) l) /\
  print_box past (text_of ls) (starts_from 0 ls) ds de =
  let! l := print_rows (text_of ls) (starts_from 0 ls) (Z.of_nat a) (Z.of_nat z) ds de s false (Z.of_nat a) (S z - a) in Ok (Some l).
Proof.
  pose proof bounds as (B1 & B2 & B3 & B4). unfold print_box. rewrite first_line, last_line, !at_line_starts by lia. cbn [rbind]. unfold arr_len. rewrite (proj2 (Z.leb_gt _ _)) by lia.
  destruct (nth_error ls z) as [l|] eqn:N; [|apply nth_error_None in N; lia]. destruct (box_end past ls z l ORD N) as (n & -> & NN).
  assert (CE : exists m, (if Nat.eqb (S z) (List.length ls) then past + 1 else offset ls z + zlen l + Z.of_nat n) = offset ls z + zlen l + Z.of_nat m /\ (m = 0%nat \/ (m = 1%nat /\ (S z < List.length ls)%nat))).
  { destruct (Nat.eqb_spec (S z) (List.length ls)) as [X|X]; [|eauto]. exists 0%nat. split; [|auto]. rewrite LASTLINE by auto. destruct (text_length _ _ _ N) as [_ T]. rewrite T by auto. lia. }
  destruct CE as (m & -> & M). rewrite (slice_box ls a z l m) by auto. cbn [rbind].
  destruct (scan_box_lines (starts_from 0 ls) (Z.of_nat a) (Z.of_nat z) (offset ls a) (between_lines ls a z) m) as (s & S1 & S2 & S3).
  - intros X. pose proof (box_length ls a z B3 B4) as Y. rewrite X in Y. cbn [List.length] in Y. lia.
  - rewrite box_length by auto. intros t T. rewrite box_offset by lia. replace (Z.of_nat a + Z.of_nat t) with (Z.of_nat (a + t)) by lia. rewrite at_line_starts by lia. f_equal. lia.
  - unfold zlen. rewrite box_length by auto. lia.
  - unfold zlen. rewrite box_length by auto. lia.
  - intros x X. apply ended_no_10. apply (ordinary_ended ls); auto. unfold between_lines in X. apply In_nth_error in X. destruct X as [t X]. assert (T : (t < S z - a)%nat) by (rewrite <- (box_length ls a z) by auto; apply nth_error_Some; unfold between_lines; congruence).
    fold (between_lines ls a z) in X. rewrite box_nth in X by lia. eapply nth_error_In; eauto.
  - exists s. rewrite S1. cbn [rbind]. split; [exact S2|]. split.
    + intros k x K E. specialize (S3 (k - a)%nat x). rewrite box_nth, box_offset in S3 by lia. replace (a + (k - a))%nat with k in S3 by lia. replace (Z.of_nat k - Z.of_nat a) with (Z.of_nat (k - a)) by lia. auto.
    + replace (Z.to_nat (Z.of_nat z - Z.of_nat a + 1)) with (S z - a)%nat by lia. reflexivity.
Qed.
Lemma in_box l : In l (between_lines ls a z) -> exists k, (a <= k <= z)%nat /\ nth_error ls k = Some l.
Proof.
  pose proof bounds as (B1 & B2 & B3 & B4). intros X. apply In_nth_error in X. destruct X as [t X]. assert (T : (t < S z - a)%nat) by (rewrite <- (box_length ls a z) by auto; apply nth_error_Some; congruence).
  rewrite box_nth in X by lia. exists (a + t)%nat. split; [lia|auto].
Qed.
Lemma box_in k l : (a <= k <= z)%nat -> nth_error ls k = Some l -> In l (between_lines ls a z).
Proof. intros K E. apply (nth_error_In _ (k - a)%nat). rewrite box_nth by lia. now replace (a + (k - a))%nat with k by lia. Qed.
(** A box with some text. *)
Lemma box_rows : (exists l, In l (between_lines ls a z) /\ ~ blank l) ->
  exists n rows, indentation (between_lines ls a z) n /\ print_box past (text_of ls) (starts_from 0 ls) ds de = Ok (Some rows) /\ List.length rows = (S z - a)%nat /\
    exists width, forall t l r, nth_error rows t = Some r -> nth_error ls (a + t) = Some l ->
      numbered width (Z.of_nat (a + t) + 1) (number r) /\ shown n ds de (offset ls (a + t)) ((a + t)%nat = i) l (before r) (under r) (after r).
Proof.
  intros (l0 & I0 & NB). pose proof bounds as (B1 & B2 & B3 & B4). destruct scanned as (s & S1 & S2 & ->). destruct (fold_indent (between_lines ls a z) max_int) as (F1 & F2 & F3).
  assert (VIS : exists l p, In l (between_lines ls a z) /\ find vis (runes_at 0 l) = Some p /\ fold_left indent_found (between_lines ls a z) max_int = fst p).
  { destruct F3 as [F3|F3]; [|exact F3]. exfalso. destruct (find vis (runes_at 0 l0)) as [p|] eqn:F; [|now apply NB, line_blank]. pose proof (F2 _ _ I0 F) as F4. pose proof (found_bounds _ _ F) as F5.
    destruct (in_box _ I0) as (k & _ & E). pose proof (text_length _ _ _ E) as [T _]. pose proof (offset_nonneg ls k). unfold max_int in *. lia. }
  destruct VIS as (l1 & p1 & I1 & V1 & V2). set (n := fold_left indent_found (between_lines ls a z) max_int) in *. exists n.
  assert (NB' : 0 <= n < 4611686018427387904).
  { pose proof (found_bounds _ _ V1) as F5. destruct (in_box _ I1) as (k & _ & E). pose proof (text_length _ _ _ E) as [T _]. pose proof (offset_nonneg ls k). lia. }
  destruct (print_rows_ok ls a z i j ds de n s SIZE DE OI OJ (conj S1 NB') (conj B3 B4) SMALL S2 (fun k l p K E F => F2 l p (box_in k l K E) F) (S z - a)%nat a) as (rows & R & L & W); [lia|lia|].
  exists rows. split.
  - split; [exists l1; split; [auto|]; rewrite V2; now apply line_first|]. intros l f I F. apply first_unique in F. destruct F as [r F]. apply (F2 l (f, r)); auto.
  - split.
    + replace (Nat.ltb i a) with false in R by (symmetry; apply Nat.ltb_ge; unfold a; lia). cbn [andb] in R. rewrite R. reflexivity.
    + split; [exact L|]. exists (List.length (itoa (Z.of_nat z + 1))). intros t l r H G. exact (W t l r H G).
Qed.
(** A box without text. *)
Lemma wrapped o : 0 < o < 4611686018427387904 -> wrap (o + max_int) < 0 /\ wrap (o + max_int) < -1.
Proof.
  intros O. unfold wrap, max_int. replace (o + 9223372036854775807 + 9223372036854775808) with (o - 1 + 1 * 18446744073709551616) by lia. rewrite Z.mod_add by lia. rewrite Z.mod_small by lia. lia.
Qed.
Lemma slice_neg (t : bstr) x y : x < 0 -> slice t x y = Panic.
Proof. intros X. unfold slice. rewrite (proj2 (Z.leb_gt 0 x)) by lia. reflexivity. Qed.
Lemma blank_row s act k l : (forall k l, (a <= k <= z)%nat -> nth_error ls k = Some l -> starts s (Z.of_nat k - Z.of_nat a) = start_found l /\ ends s (Z.of_nat k - Z.of_nat a) = end_found (offset ls k - offset ls a) l) ->
  indent s = max_int -> (a <= k <= z)%nat -> nth_error ls k = Some l -> blank l ->
  if Nat.eqb k 0 then exists act', print_row (text_of ls) (starts_from 0 ls) (Z.of_nat a) (Z.of_nat z) ds de s act (Z.of_nat k) = Ok (Row (row_number (Z.of_nat z) (Z.of_nat k)) [] [] [], act')
  else print_row (text_of ls) (starts_from 0 ls) (Z.of_nat a) (Z.of_nat z) ds de s act (Z.of_nat k) = Panic.
Proof.
  intros S2 S1 K E BL. pose proof bounds as (B1 & B2 & B3 & B4). destruct (S2 k l K E) as [FS FE]. pose proof (text_length _ _ _ E) as [TL _]. pose proof (offset_nonneg ls k) as ON. pose proof (zlen_nonneg l) as LN. pose proof (offset_nonneg ls a) as OA.
  unfold print_row, row_marks. rewrite at_line_starts by lia. cbn [rbind]. unfold get, arr_len. rewrite (proj2 (Z.leb_le _ _)) by lia. rewrite (proj2 (Z.ltb_lt _ _)) by lia. cbn [andb rbind]. cbv zeta beta.
  rewrite FS, FE, S1, (here_ok ls k l j de E OJ), (here_ok ls k l i ds E OI). cbn [rbind]. unfold start_found, end_found. apply line_blank in BL. rewrite BL. assert (DSN : 0 <= ds) by (destruct OI as (m & M & H); pose proof (offset_nonneg ls i); lia).
  destruct (Nat.eqb_spec k 0) as [->|K0].
  - replace (offset ls 0) with 0 in * by (symmetry; apply offset_0). change (wrap (0 + max_int)) with max_int. replace (Z.max max_int (0 + 0)) with max_int by reflexivity.
    replace (Z.max (0 + (-1 - (0 - offset ls a))) max_int) with max_int by (replace (offset ls a) with 0 by (replace a with 0%nat by lia; symmetry; apply offset_0); reflexivity).
    assert (M : forall q, Z.min (Z.max max_int q) max_int = max_int) by (intros q; lia). rewrite !M.
    destruct act, (Nat.eqb 0 i), (Nat.eqb 0 j); cbn [rbind]; rewrite ?M, ?Z.eqb_refl; cbn [negb]; eauto.
  - assert (OP : 0 < offset ls k) by (eapply offset_pos; eauto; lia).
    pose proof (wrapped (offset ls k) ltac:(lia)) as [W1 W2]. set (w := wrap (offset ls k + max_int)) in *. set (o := offset ls k) in *.
    assert (ONE : forall us ue te (act' : bool), w <> te -> (if negb (us =? ue) then let! x := slice (text_of ls) w us in let! y := slice (text_of ls) us ue in let! q := slice (text_of ls) ue te in Ok (Row (row_number (Z.of_nat z) (Z.of_nat k)) x y q, act')
       else if negb (w =? te) then let! x := slice (text_of ls) w te in Ok (Row (row_number (Z.of_nat z) (Z.of_nat k)) x [] [], act') else Ok (Row (row_number (Z.of_nat z) (Z.of_nat k)) [] [] [], act') : res (row * bool)) = Panic).
    { intros us ue te act' T. rewrite (proj2 (Z.eqb_neq w te)) by exact T. cbn [negb]. rewrite !(slice_neg _ w) by lia. destruct (us =? ue); reflexivity. }
    destruct act, (Nat.eqb k i), (Nat.eqb k j); cbn [rbind]; apply ONE; lia.
Qed.
Lemma box_blank : (forall l, In l (between_lines ls a z) -> blank l) ->
  print_box past (text_of ls) (starts_from 0 ls) ds de = if Nat.eqb (List.length ls) 1 then Ok (Some [Row (itoa 1) [] [] []]) else Panic.
Proof.
  intros BL. pose proof bounds as (B1 & B2 & B3 & B4). destruct scanned as (s & S1 & S2 & ->). rewrite fold_blank in S1 by auto.
  assert (ROW : forall k (act : bool), (a <= k <= z)%nat -> exists l, nth_error ls k = Some l /\ blank l).
  { intros k _ K. destruct (nth_error ls k) as [l|] eqn:E; [|apply nth_error_None in E; lia]. exists l. split; [auto|]. apply BL. eapply box_in; eauto. }
  destruct (Nat.eqb_spec (List.length ls) 1) as [L|L].
  - assert (a = 0 /\ z = 0)%nat as [A0 Z0] by (unfold z in *; lia). replace (S z - a)%nat with 1%nat by lia. destruct (ROW a false ltac:(lia)) as (l & E & Bl). pose proof (blank_row s false a l S2 S1 ltac:(lia) E Bl) as R.
    rewrite A0 in R. cbn [Nat.eqb] in R. destruct R as [act' R]. rewrite A0 in *. cbn [print_rows]. rewrite R. cbn [rbind]. unfold row_number. rewrite Z0. reflexivity.
  - assert (ZP : (0 < z)%nat) by (unfold z; lia). destruct (Nat.eq_dec a 0) as [A0|A0].
    + replace (S z - a)%nat with (S (S (z - 1)))%nat by lia. destruct (ROW a false ltac:(lia)) as (l & E & Bl). pose proof (blank_row s false a l S2 S1 ltac:(lia) E Bl) as R. rewrite (proj2 (Nat.eqb_eq a 0) A0) in R. destruct R as [act' R].
      cbn [print_rows]. rewrite R. cbn [rbind]. destruct (ROW (S a) false ltac:(lia)) as (l' & E' & Bl'). pose proof (blank_row s act' (S a) l' S2 S1 ltac:(lia) E' Bl') as R'. cbn [Nat.eqb] in R'. replace (Z.of_nat a + 1) with (Z.of_nat (S a)) by lia. rewrite R'. reflexivity.
    + replace (S z - a)%nat with (S (z - a))%nat by lia. destruct (ROW a false ltac:(lia)) as (l & E & Bl). pose proof (blank_row s false a l S2 S1 ltac:(lia) E Bl) as R. rewrite (proj2 (Nat.eqb_neq a 0) A0) in R. cbn [print_rows]. rewrite R. reflexivity.
Qed.
End Box.

(** ** The claims *)
(** The box has the lines of the range, one more on either side where there is one.  Every row has the number of its
    line, all equally wide, and the text of its line without the indentation common to the box and without the white
    space at its end; underlined is the part of it in the range.  Premises: the line breaks are \n or \r\n, at most
    13 lines, not all of them blank; when the last line of the text is in the box, typescript-go gives the position of
    the last byte as the end of this line. *)
Theorem C46_box past ls ds de i j : ordinary ls -> zlen (text_of ls) < 4611686018427387904 -> ds <= de -> on_line ls i ds -> on_line ls j de ->
  let a := Nat.pred i in let z := Nat.min (S j) (Nat.pred (List.length ls)) in
  (z - a < 13)%nat -> (S z = List.length ls -> past + 1 = zlen (text_of ls)) -> (exists l, In l (between_lines ls a z) /\ ~ blank l) ->
  exists n rows, indentation (between_lines ls a z) n /\ print_box past (text_of ls) (starts_from 0 ls) ds de = Ok (Some rows) /\ List.length rows = (S z - a)%nat /\
    exists width, forall t l r, nth_error rows t = Some r -> nth_error ls (a + t) = Some l ->
      numbered width (Z.of_nat (a + t) + 1) (number r) /\ shown n ds de (offset ls (a + t)) ((a + t)%nat = i) l (before r) (under r) (after r).
Proof. intros. apply box_rows with (j := j); auto. Qed.
Print Assumptions C46_box.

(** More lines are not shown. *)
Theorem C46_too_big past ls ds de i j : ds <= de -> on_line ls i ds -> on_line ls j de ->
  (13 <= Nat.min (S j) (Nat.pred (List.length ls)) - Nat.pred i)%nat -> print_box past (text_of ls) (starts_from 0 ls) ds de = Ok None.
Proof. intros. apply too_big with (i := i) (j := j); auto. Qed.
Print Assumptions C46_too_big.

(** The texts of a row are the line from the common indentation to its last character; within one line, the underlined
    one is the text of the range. *)
Lemma cut_app l x y w : 0 <= x -> x <= y -> y <= w -> cut l x y ++ cut l y w = cut l x w.
Proof.
  intros X Y W. unfold cut. replace (Z.to_nat (w - x)) with (Z.to_nat (y - x) + Z.to_nat (w - y))%nat by lia. replace (Z.to_nat y) with (Z.to_nat (y - x) + Z.to_nat x)%nat by lia. rewrite <- skipn_skipn.
  generalize (skipn (Z.to_nat x) l). intros m. generalize (Z.to_nat (y - x)) (Z.to_nat (w - y)). clear. intros p q. revert m. induction p as [|p IH]; intros m; [reflexivity|]. destruct m as [|c m]; [cbn; now rewrite firstn_nil|]. cbn. f_equal. apply IH.
Qed.
Theorem C46_text n ds de o first l x y w : 0 <= n -> shown n ds de o first l x y w -> (blank l /\ x ++ y ++ w = []) \/ exists e, last_at l e /\ x ++ y ++ w = cut l n e.
Proof.
  intros N S. destruct S as [B|f e u v F E U V W H]; [left; auto|]. right. exists e. split; [auto|]. rewrite !cut_app by lia. reflexivity.
Qed.
Print Assumptions C46_text.
Theorem C46_underlined ls i n ds de l x y w : nth_error ls i = Some l -> ~ blank l -> 0 <= n -> shown n ds de (offset ls i) True l x y w ->
  offset ls i + n <= ds -> ds < de -> (forall e, last_at l e -> de <= offset ls i + e) ->
  slice (text_of ls) (offset ls i + n) ds = Ok x /\ slice (text_of ls) ds de = Ok y /\ exists e, last_at l e /\ slice (text_of ls) de (offset ls i + e) = Ok w.
Proof.
  intros E NB N S L1 L2 L3. destruct S as [B|f e u v F LA U V W H]; [contradiction|]. specialize (L3 e LA).
  assert (L4 : e <= zlen l) by (destruct LA as (p & m & r & rs & -> & P & _ & M & _); destruct m; [discriminate|]; rewrite zlen_app, zlen_cons; pose proof (zlen_nonneg m); lia).
  set (o := offset ls i) in *. assert (HH : forall p, n <= p < e -> (u <= p < v <-> ds <= o + p < de)) by (intros p P; specialize (H p P); tauto). clear H.
  assert (U0 : o + u = ds). { pose proof (HH (ds - o) ltac:(lia)) as A. destruct (Z.eq_dec u (ds - o)) as [X|X]; [lia|]. pose proof (HH u). lia. }
  assert (V0 : o + v = de). { pose proof (HH (de - o - 1) ltac:(lia)) as A. destruct (Z.eq_dec v (de - o)) as [X|X]; [lia|]. pose proof (HH (de - o)). lia. }
  rewrite <- U0, <- V0. unfold o in *. rewrite !(slice_line ls i l) by (auto; lia). split; [auto|]. split; [auto|]. exists e. rewrite (slice_line ls i l) by (auto; lia). auto.
Qed.
Print Assumptions C46_underlined.

(** Nothing else can go wrong: what happens without the last two premises of [C46_box]. *)
Theorem C46_last_line past ls ds de i j : ordinary ls -> zlen (text_of ls) < 4611686018427387904 -> ds <= de -> on_line ls i ds -> on_line ls j de ->
  let a := Nat.pred i in let z := Nat.min (S j) (Nat.pred (List.length ls)) in
  (z - a < 13)%nat -> S z = List.length ls -> zlen (text_of ls) <= past -> print_box past (text_of ls) (starts_from 0 ls) ds de = Panic.
Proof. intros. apply off_the_end with (i := i) (j := j); auto. Qed.
Print Assumptions C46_last_line.
Theorem C46_blank_box past ls ds de i j : ordinary ls -> zlen (text_of ls) < 4611686018427387904 -> ds <= de -> on_line ls i ds -> on_line ls j de ->
  let a := Nat.pred i in let z := Nat.min (S j) (Nat.pred (List.length ls)) in
  (z - a < 13)%nat -> (S z = List.length ls -> past + 1 = zlen (text_of ls)) -> (forall l, In l (between_lines ls a z) -> blank l) ->
  print_box past (text_of ls) (starts_from 0 ls) ds de = if Nat.eqb (List.length ls) 1 then Ok (Some [Row (b "1") [] [] []]) else Panic.
Proof. intros. apply box_blank with (i := i) (j := j); auto. Qed.
Print Assumptions C46_blank_box.

(** The message: every line after the first gets the bar and as many spaces as the rule name has bytes, and one more. *)
Fixpoint joined (sep : bstr) (ls : list bstr) : bstr :=
  match ls with [] => [] | [l] => l | l :: ls' => l ++ sep ++ joined sep ls' end.
Definition no_nl (l : bstr) : Prop := ~ In "010"%char l.
Lemma message_line rule l r : no_nl l -> print_message rule (l ++ r) = let! m := print_message rule r in Ok (l ++ m).
Proof.
  induction l as [|c l IH]; intros N; cbn [app print_message]; [destruct (print_message rule r); reflexivity|]. destruct (Ascii.eqb_spec c "010"%char) as [->|X]; [destruct N; now left|].
  rewrite IH by (intros I; apply N; now right). destruct (print_message rule r); reflexivity.
Qed.
Theorem C46_message rule ls : Forall no_nl ls -> ls <> [] ->
  print_message rule (text_of ls) =
  if (List.length ls =? 1)%nat || (List.length rule <=? 99)%nat then Ok (joined ("010"%char :: b "    |" ++ repeat " "%char (S (List.length rule))) ls) else Panic.
Proof.
  intros F. induction F as [|l ls N F IH]; intros NE; [now destruct NE|]. destruct ls as [|l' ls'].
  - cbn [text_of joined List.length Nat.eqb orb]. rewrite <- (app_nil_r l) at 1. rewrite message_line by auto. cbn [print_message rbind]. now rewrite app_nil_r.
  - rewrite text_of_cons by discriminate. rewrite message_line by auto. set (rest := l' :: ls') in *. cbn [print_message]. change (Ascii.eqb "010" "010") with true. cbn iota.
    assert (NR : rest <> []) by discriminate. replace (List.length (l :: rest) =? 1)%nat with false by (symmetry; apply Nat.eqb_neq; unfold rest; cbn; lia). cbn [orb].
    unfold slice. change (zlen spaces) with 100. destruct (Nat.leb_spec (List.length rule) 99) as [L|L].
    + rewrite !(proj2 (Z.leb_le _ _)) by (unfold zlen; lia). cbn [andb rbind]. rewrite IH by auto. rewrite orb_true_r. cbn [rbind]. f_equal. change (joined ?s (l :: rest)) with (l ++ s ++ joined s rest).
      f_equal. cbn [app]. f_equal. unfold bar. rewrite <- !app_assoc. f_equal. f_equal. change (Z.to_nat 0) with 0%nat. cbn [skipn]. unfold spaces.
      replace (Z.to_nat (zlen rule + 1 - 0)) with (S (List.length rule)) by (unfold zlen; lia). assert (L' : (S (List.length rule) <= 100)%nat) by lia. revert L'. clear. generalize (S (List.length rule)) 100%nat. intros x y. revert y.
      induction x as [|x IH]; intros [|y] H; cbn; try reflexivity; try lia. f_equal. apply IH. lia.
    + rewrite (proj2 (Z.leb_gt _ 100)) by (unfold zlen; lia). rewrite andb_false_r. reflexivity.
Qed.
Print Assumptions C46_message.

(** ** Examples and boundaries *)
(** A row as text: number, text, underlined text in brackets. *)
Definition plain (r : row) : bstr := number r ++ b "|" ++ before r ++ b "[" ++ under r ++ b "]" ++ after r.
Definition sample : list bstr := map b ["  if (x) {"; "    foo(await y);  "; "  }"; ""; "end"; ""]%string.
Lemma quiet_plain l : forallb (fun r => (32 <=? r) && (r <? 127)) (runes l) = true -> quiet l.
Proof. intros H r I. rewrite forallb_forall in H. apply H in I. apply andb_true_iff in I. destruct I as [A B]. apply Z.leb_le in A. apply Z.ltb_lt in B. lia. Qed.
Lemma ordinary_quiet ls : ls <> [] -> Forall quiet ls -> ordinary ls.
Proof. intros NE F. induction F as [|l ls Q F IH]; [now destruct NE|]. destruct ls as [|m ls]; [now constructor|]. constructor; [now left|]. apply IH. discriminate. Qed.
Ltac plain_text := apply ordinary_quiet; [discriminate|repeat (constructor; [apply quiet_plain; reflexivity|]); constructor].
Ltac on_its_line := eexists; split; [reflexivity|vm_compute; split; discriminate].
Example C46_sample : ordinary sample /\ on_line sample 1 19 /\ on_line sample 1 26 /\
  exists rows, print_box 0 (text_of sample) (starts_from 0 sample) 19 26 = Ok (Some rows) /\ map plain rows = map b ["1|if (x) {[]"; "2|  foo([await y]);"; "3|}[]"]%string.
Proof.
  split; [plain_text|]. split; [on_its_line|]. split; [on_its_line|].
  eexists. split; [vm_compute; reflexivity|reflexivity].
Qed.
(** Over several lines. *)
Example C46_sample_lines : exists rows, print_box 0 (text_of sample) (starts_from 0 sample) 2 34 = Ok (Some rows) /\
  map plain rows = map b ["1|[if (x) {]"; "2|  [foo(await y);]"; "3|[}]"; "4|[]"]%string.
Proof. eexists. split; [vm_compute; reflexivity|reflexivity]. Qed.
(** Numbers of different width. *)
Definition tall : list bstr := repeat (b "a") 12.
Example C46_sample_width : exists rows, print_box 0 (text_of tall) (starts_from 0 tall) 16 17 = Ok (Some rows) /\ map plain rows = map b [" 8|a[]"; " 9|[a]"; "10|a[]"]%string.
Proof. eexists. split; [vm_compute; reflexivity|reflexivity]. Qed.
Example C46_sample_big : print_box 0 (text_of (repeat (b "a") 20)) (starts_from 0 (repeat (b "a") 20)) 2 30 = Ok None.
Proof. reflexivity. Qed.
Example C46_sample_message : print_message (b "ab") (text_of (map b ["x"; "y"]%string)) = Ok (b "x" ++ "010"%char :: b "    |   y").
Proof. reflexivity. Qed.

(** Not every range gets a box: above, blank lines around the range are enough. *)
Theorem C46_crash_refuted : exists ls past ds de i j, ordinary ls /\ ds <= de /\ on_line ls i ds /\ on_line ls j de /\ (Nat.min (S j) (Nat.pred (List.length ls)) - Nat.pred i < 13)%nat /\
  (S (Nat.min (S j) (Nat.pred (List.length ls))) < List.length ls)%nat /\ print_box past (text_of ls) (starts_from 0 ls) ds de = Panic.
Proof.
  exists (map b [""; ""; "x"]%string), 0, 0, 0, 0%nat, 0%nat. split; [plain_text|]. split; [lia|]. split; [on_its_line|]. split; [on_its_line|]. split; [cbn; lia|]. split; [cbn; lia|]. reflexivity.
Qed.
Print Assumptions C46_crash_refuted.
(** The text of a range within one line is not always underlined: of a multi-byte character at the end of a line only
    the first byte is shown. *)
Definition e_acute : bstr := [zb 195; zb 169].
Lemma quiet_bytes l : forallb (fun r => negb (existsb (Z.eqb r) [10; 13; 8232; 8233])) (runes l) = true -> quiet l.
Proof.
  intros H r I. rewrite forallb_forall in H. apply H in I. apply negb_true_iff in I. cbn [existsb] in I. rewrite !orb_false_iff, !Z.eqb_neq in I. tauto.
Qed.
Ltac quiet_text := apply ordinary_quiet; [discriminate|repeat (constructor; [apply quiet_bytes; vm_compute; reflexivity|]); constructor].
Theorem C46_last_character_refuted : exists ls past ds de i rows r, ordinary ls /\ ds < de /\ on_line ls i ds /\ on_line ls i de /\
  print_box past (text_of ls) (starts_from 0 ls) ds de = Ok (Some rows) /\ nth_error rows (i - Nat.pred i) = Some r /\ slice (text_of ls) ds de = Ok (b "x" ++ e_acute) /\ under r = b "x" ++ [zb 195].
Proof.
  exists [b ""; b "x" ++ e_acute; b ""; b ""], 0, 1, 4, 1%nat. eexists. eexists. split; [quiet_text|]. split; [lia|]. split; [on_its_line|]. split; [on_its_line|]. split; [vm_compute; reflexivity|]. split; [reflexivity|]. split; reflexivity.
Qed.
Print Assumptions C46_last_character_refuted.
(** A row does not always begin with a whole character: the common indentation counts bytes. *)
Definition nbsp : bstr := [zb 194; zb 160].
Theorem C46_indentation_refuted : exists ls past ds de i rows r, ordinary ls /\ ds < de /\ on_line ls i ds /\ on_line ls i de /\
  print_box past (text_of ls) (starts_from 0 ls) ds de = Ok (Some rows) /\ nth_error rows (i - Nat.pred i) = Some r /\ ~ In 65533 (runes (text_of ls)) /\ In 65533 (runes (before r)).
Proof.
  exists [b " if (x)"; nbsp ++ b "foo"; b ""; b ""], 0, 10, 13, 1%nat. eexists. eexists. split; [quiet_text|]. split; [lia|]. split; [on_its_line|]. split; [on_its_line|]. split; [vm_compute; reflexivity|]. split; [reflexivity|].
  split; [vm_compute; intuition discriminate|vm_compute; auto].
Qed.
Print Assumptions C46_indentation_refuted.
(** Where a lone \r ends the lines, no code is shown; the text is "a\r b();\rc\rd", and [0; 2; 8; 10] its line starts. *)
Theorem C46_carriage_return_refuted : exists text lm past ds de rows, lm = 0 :: map (fun p => fst p + 1) (filter (fun p => line_break (snd p)) (runes_at 0 text)) /\
  slice text ds de = Ok (b "b()") /\ print_box past text lm ds de = Ok (Some rows) /\ map plain rows = map b ["1|[]"; "2|[]"; "3|[]"]%string.
Proof.
  exists (b "a" ++ "013"%char :: b " b();" ++ "013"%char :: b "c" ++ "013"%char :: b "d"), [0; 2; 8; 10], 0, 3, 6. eexists. split; [vm_compute; reflexivity|]. split; [reflexivity|]. split; [vm_compute; reflexivity|]. reflexivity.
Qed.
Print Assumptions C46_carriage_return_refuted.
