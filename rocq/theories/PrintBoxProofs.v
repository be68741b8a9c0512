(** Proofs about Print.v: lines, the box as a list of lines, and its rows. *)
From Coq Require Import String Ascii Bool List ZArith Lia.
From Verif Require Import Base Utf8 JsText Utf8Proofs Print PrintSpec PrintProofs.
Import ListNotations.
Open Scope Z_scope.

(** ** Lines *)
Notation NL := ("010"%char).
Lemma bz_nl : bz NL = 10.
Proof. reflexivity. Qed.
Lemma text_of_cons l ls : ls <> [] -> text_of (l :: ls) = l ++ NL :: text_of ls.
Proof. destruct ls; [now intros []|reflexivity]. Qed.
Lemma zlen_nonneg {A} (l : list A) : 0 <= zlen l.
Proof. unfold zlen. lia. Qed.
Lemma zlen_app {A} (l m : list A) : zlen (l ++ m) = zlen l + zlen m.
Proof. unfold zlen. rewrite app_length. lia. Qed.
Lemma zlen_cons {A} (x : A) l : zlen (x :: l) = zlen l + 1.
Proof. unfold zlen. cbn [List.length]. lia. Qed.
Lemma offset_nonneg ls : forall k, 0 <= offset ls k.
Proof. induction ls as [|l ls IH]; intros [|k]; cbn [offset]; try lia. specialize (IH k). pose proof (zlen_nonneg l). lia. Qed.
Lemma starts_nth ls : forall s k, (k < List.length ls)%nat -> nth_error (starts_from s ls) k = Some (s + offset ls k).
Proof.
  induction ls as [|l ls IH]; intros s [|k] H; cbn [starts_from nth_error offset List.length] in *; try lia; [f_equal; lia|]. rewrite IH by lia. f_equal. lia.
Qed.
Lemma starts_length ls : forall s, List.length (starts_from s ls) = List.length ls.
Proof. induction ls as [|l ls IH]; intros s; cbn; auto. Qed.
Lemma at_line_starts ls k : (k < List.length ls)%nat -> at_line (starts_from 0 ls) (Z.of_nat k) = Ok (offset ls k).
Proof. intros H. unfold at_line. rewrite (proj2 (Z.ltb_ge _ _)) by lia. rewrite Nat2Z.id, starts_nth by auto. reflexivity. Qed.
Lemma offset_step ls : forall k l, nth_error ls k = Some l -> offset ls (S k) = offset ls k + zlen l + 1.
Proof.
  induction ls as [|x ls IH]; intros [|k] l E; try discriminate; cbn [nth_error] in E.
  - injection E as ->. cbn [offset]. destruct ls; cbn [offset]; lia.
  - change (offset (x :: ls) (S (S k))) with (zlen x + 1 + offset ls (S k)). cbn [offset]. rewrite (IH _ _ E). lia.
Qed.
Lemma offset_mono ls : forall k k', (k <= k')%nat -> offset ls k <= offset ls k'.
Proof.
  induction ls as [|x ls IH]; intros [|k] [|k'] H; cbn [offset]; try lia.
  - pose proof (zlen_nonneg x). pose proof (offset_nonneg ls k'). lia.
  - specialize (IH k k'). lia.
Qed.
Lemma offset_lt ls k k' l : nth_error ls k = Some l -> (k < k')%nat -> offset ls k + zlen l + 1 <= offset ls k'.
Proof. intros E H. rewrite <- (offset_step _ _ _ E). apply offset_mono. lia. Qed.
Lemma skipn_line ls : forall k, (k < List.length ls)%nat -> skipn (Z.to_nat (offset ls k)) (text_of ls) = text_of (skipn k ls).
Proof.
  induction ls as [|l ls IH]; intros [|k] H; cbn [List.length] in H; try lia; [reflexivity|]. cbn [offset skipn].
  assert (NE : ls <> []) by (destruct ls; [cbn in H; lia|discriminate]). rewrite text_of_cons by auto. rewrite <- IH by lia. pose proof (offset_nonneg ls k).
  replace (Z.to_nat (zlen l + 1 + offset ls k)) with (List.length l + S (Z.to_nat (offset ls k)))%nat by (unfold zlen; lia).
  rewrite skipn_app. rewrite skipn_all2 by lia. replace (List.length l + S (Z.to_nat (offset ls k)) - List.length l)%nat with (S (Z.to_nat (offset ls k))) by lia. reflexivity.
Qed.
Lemma skipn_nth {A} (ls : list A) : forall k l, nth_error ls k = Some l -> skipn k ls = l :: skipn (S k) ls.
Proof. induction ls as [|x ls IH]; intros [|k] l E; try discriminate; cbn in *; [now injection E as ->|auto]. Qed.
Lemma text_at ls k l : nth_error ls k = Some l -> exists rest, skipn (Z.to_nat (offset ls k)) (text_of ls) = l ++ rest /\
  ((S k = List.length ls /\ rest = []) \/ ((S k < List.length ls)%nat /\ rest = NL :: text_of (skipn (S k) ls))).
Proof.
  intros E. assert (K : (k < List.length ls)%nat) by (apply nth_error_Some; congruence). rewrite skipn_line by auto. rewrite (skipn_nth _ _ _ E).
  destruct (Nat.eq_dec (S k) (List.length ls)) as [X|X].
  - exists []. rewrite (skipn_all2 ls) by lia. split; [cbn; now rewrite app_nil_r|auto].
  - exists (NL :: text_of (skipn (S k) ls)). split; [|right; split; [lia|auto]]. apply text_of_cons. intros Y. apply (f_equal (@List.length bstr)) in Y. rewrite skipn_length in Y. cbn in Y. lia.
Qed.
Lemma text_length ls k l : nth_error ls k = Some l -> offset ls k + zlen l <= zlen (text_of ls) /\ (S k = List.length ls -> zlen (text_of ls) = offset ls k + zlen l).
Proof.
  intros E. destruct (text_at _ _ _ E) as (rest & T & R). pose proof (offset_nonneg ls k) as O. assert (LE : offset ls k + zlen l <= zlen (text_of ls) \/ zlen l = 0).
  { apply (f_equal (@List.length ascii)) in T. rewrite skipn_length, app_length in T. unfold zlen. lia. }
  assert (M : offset ls k <= zlen (text_of ls)).
  { clear - E. revert k E. induction ls as [|x ls IH]; intros [|k] E; try discriminate; cbn [offset]; [apply zlen_nonneg|]. cbn in E.
    assert (NE : ls <> []) by (destruct ls; [destruct k; discriminate|discriminate]). rewrite text_of_cons, zlen_app, zlen_cons by auto. specialize (IH _ E). lia. }
  apply (f_equal (@List.length ascii)) in T. rewrite skipn_length, app_length in T. unfold zlen in *. split; [lia|]. intros K. destruct R as [[_ ->]|[R _]]; [|lia]. cbn in T. lia.
Qed.
Lemma filter_none ls : forall s pos, pos < s -> filter (fun x => x <=? pos) (starts_from s ls) = [].
Proof.
  induction ls as [|l ls IH]; intros s pos H; [reflexivity|]. cbn [starts_from filter]. rewrite (proj2 (Z.leb_gt _ _)) by lia. apply IH. pose proof (zlen_nonneg l). lia.
Qed.
Lemma line_count ls : forall s k l pos, nth_error ls k = Some l -> s + offset ls k <= pos <= s + offset ls k + zlen l -> zlen (filter (fun x => x <=? pos) (starts_from s ls)) = Z.of_nat k + 1.
Proof.
  induction ls as [|x ls IH]; intros s [|k] l pos E H; try discriminate; cbn [nth_error offset] in *.
  - injection E as ->. cbn [starts_from filter]. rewrite (proj2 (Z.leb_le _ _)) by lia. rewrite filter_none by lia. reflexivity.
  - cbn [starts_from filter]. pose proof (zlen_nonneg x). pose proof (offset_nonneg ls k). rewrite (proj2 (Z.leb_le _ _)) by lia. rewrite zlen_cons, (IH _ _ _ _ E) by lia. lia.
Qed.
Lemma line_of_on ls k pos : on_line ls k pos -> line_of (starts_from 0 ls) pos = Z.of_nat k.
Proof. intros (l & E & H). unfold line_of. rewrite (line_count _ _ _ _ _ E) by lia. lia. Qed.
Lemma skipn_skipn {A} (l : list A) : forall x y, skipn x (skipn y l) = skipn (x + y) l.
Proof. induction l as [|c l IH]; intros x [|y]; rewrite ?Nat.add_0_r, ?skipn_nil; try reflexivity. rewrite Nat.add_succ_r. cbn [skipn]. apply IH. Qed.
Lemma slice_line ls k l x y : nth_error ls k = Some l -> 0 <= x -> x <= y -> y <= zlen l -> slice (text_of ls) (offset ls k + x) (offset ls k + y) = Ok (cut l x y).
Proof.
  intros E X Y L. pose proof (offset_nonneg ls k) as O. destruct (text_length _ _ _ E) as [T _]. unfold slice. rewrite !(proj2 (Z.leb_le _ _)) by lia. cbn [andb]. f_equal. unfold cut.
  destruct (text_at _ _ _ E) as (rest & S & _). replace (Z.to_nat (offset ls k + x)) with (Z.to_nat x + Z.to_nat (offset ls k))%nat by lia.
  rewrite <- skipn_skipn, S. unfold zlen in L. rewrite skipn_app_le by lia. replace (offset ls k + y - (offset ls k + x)) with (y - x) by lia. apply firstn_app_le. rewrite skipn_length. lia.
Qed.
Lemma text_of_firstn ls : forall n, (0 < n)%nat -> (n < List.length ls)%nat -> text_of ls = text_of (firstn n ls) ++ NL :: text_of (skipn n ls).
Proof.
  induction ls as [|l ls IH]; intros [|n] P H; cbn [List.length] in H; try lia. assert (NE : ls <> []) by (destruct ls; [cbn in H; lia|discriminate]). rewrite text_of_cons by auto. cbn [firstn skipn].
  destruct n as [|n]; [cbn; reflexivity|]. rewrite text_of_cons by (destruct ls; [now destruct NE|discriminate]). rewrite <- app_assoc. cbn [app]. f_equal. f_equal. apply IH; lia.
Qed.
Lemma skipn_offset ls : forall a t, (a + t <= List.length ls)%nat -> offset (skipn a ls) t = offset ls (a + t) - offset ls a.
Proof.
  induction ls as [|l ls IH]; intros [|a] t H.
  - cbn. destruct t; lia.
  - cbn in H. lia.
  - cbn [skipn Nat.add]. change (offset (l :: ls) 0) with 0. lia.
  - cbn [skipn Nat.add offset]. rewrite IH by (cbn in H; lia). lia.
Qed.
Lemma firstn_offset ls : forall n t, (t <= n)%nat -> offset (firstn n ls) t = offset ls t.
Proof. induction ls as [|l ls IH]; intros [|n] [|t] H; cbn [firstn offset]; try lia. now rewrite IH by lia. Qed.
Lemma nth_error_firstn {A} (l : list A) : forall n k, (k < n)%nat -> nth_error (firstn n l) k = nth_error l k.
Proof. induction l as [|x l IH]; intros [|n] [|k] H; try lia; try reflexivity. cbn. apply IH. lia. Qed.
Lemma nth_error_skipn {A} (l : list A) : forall n k, nth_error (skipn n l) k = nth_error l (n + k).
Proof. induction l as [|x l IH]; intros [|n] k; try reflexivity; [destruct k; reflexivity|]. cbn. apply IH. Qed.

(** ** The box *)
Lemma box_nth ls a z t : (a + t <= z)%nat -> nth_error (between_lines ls a z) t = nth_error ls (a + t).
Proof. intros H. unfold between_lines. rewrite nth_error_firstn by lia. apply nth_error_skipn. Qed.
Lemma box_length ls a z : (a <= z)%nat -> (z < List.length ls)%nat -> List.length (between_lines ls a z) = (S z - a)%nat.
Proof. intros H Z. unfold between_lines. rewrite firstn_length, skipn_length. lia. Qed.
Lemma box_offset ls a z t : (a + t <= z)%nat -> (z < List.length ls)%nat -> offset (between_lines ls a z) t = offset ls (a + t) - offset ls a.
Proof. intros H Z. unfold between_lines. rewrite firstn_offset by lia. apply skipn_offset. lia. Qed.
Lemma box_text ls a z l : (a <= z)%nat -> nth_error ls z = Some l -> exists rest, text_of (skipn a ls) = text_of (between_lines ls a z) ++ rest /\
  ((S z = List.length ls /\ rest = []) \/ ((S z < List.length ls)%nat /\ rest = NL :: text_of (skipn (S z) ls))).
Proof.
  intros H E. assert (Z : (z < List.length ls)%nat) by (apply nth_error_Some; congruence). destruct (Nat.eq_dec (S z) (List.length ls)) as [X|X].
  - exists []. rewrite app_nil_r. split; [|auto]. unfold between_lines. rewrite firstn_all2; [reflexivity|]. rewrite skipn_length. lia.
  - exists (NL :: text_of (skipn (S z) ls)). split; [|right; split; [lia|auto]]. rewrite (text_of_firstn (skipn a ls) (S z - a)) by (try rewrite skipn_length; lia). rewrite skipn_skipn. replace (S z - a + a)%nat with (S z) by lia. reflexivity.
Qed.
Lemma slice_box ls a z l n : (a <= z)%nat -> nth_error ls z = Some l -> (n = 0%nat \/ (n = 1%nat /\ (S z < List.length ls)%nat)) ->
  slice (text_of ls) (offset ls a) (offset ls z + zlen l + Z.of_nat n) = Ok (text_of (between_lines ls a z) ++ repeat NL n).
Proof.
  intros H E N. assert (Z : (z < List.length ls)%nat) by (apply nth_error_Some; congruence). pose proof (offset_nonneg ls a) as OA. pose proof (offset_mono ls _ _ H) as OM. pose proof (zlen_nonneg l) as LN.
  destruct (text_length _ _ _ E) as [T _]. destruct (box_text ls a z l H E) as (rest & B & R).
  assert (T1 : n = 1%nat -> offset ls z + zlen l + 1 <= zlen (text_of ls)).
  { intros ->. destruct N as [N|[_ N]]; [discriminate|]. destruct (nth_error ls (S z)) as [m|] eqn:M; [|apply nth_error_None in M; lia]. destruct (text_length _ _ _ M) as [T' _]. rewrite (offset_step _ _ _ E) in T'. pose proof (zlen_nonneg m). lia. }
  assert (TN : offset ls z + zlen l + Z.of_nat n <= zlen (text_of ls)) by (destruct N as [->|[-> _]]; [lia|specialize (T1 eq_refl); lia]).
  unfold slice. rewrite !(proj2 (Z.leb_le _ _)) by lia. cbn [andb]. f_equal. rewrite skipn_line by lia. rewrite B.
  assert (LB : zlen (text_of (between_lines ls a z)) = offset ls z + zlen l - offset ls a).
  { destruct (text_length (between_lines ls a z) (z - a) l) as [_ TB]; [rewrite box_nth by lia; now replace (a + (z - a))%nat with z by lia|]. rewrite TB by (rewrite box_length by auto; lia).
    rewrite box_offset by lia. replace (a + (z - a))%nat with z by lia. lia. }
  replace (Z.to_nat (offset ls z + zlen l + Z.of_nat n - offset ls a)) with (List.length (text_of (between_lines ls a z)) + n)%nat by (unfold zlen in LB at 1; lia).
  rewrite firstn_app_2. f_equal. destruct N as [->|[-> N]]; [reflexivity|]. destruct R as [[R _]|[_ ->]]; [lia|reflexivity].
Qed.

(** What is found in a line that starts [o] bytes into the box. *)
Definition start_found (l : bstr) : Z := match find vis (runes_at 0 l) with Some p => fst p | None => 0 end.
Definition end_found (o : Z) (l : bstr) : Z := match find vis (runes_at 0 l) with Some _ => last_visible 0 (runes_at 0 l) | None => -1 - o end.
Definition indent_found (d : Z) (l : bstr) : Z := match find vis (runes_at 0 l) with Some p => Z.min d (fst p) | None => d end.
Lemma last_found o l : last_visible (-1) (runes_at o l) - o = end_found o l.
Proof.
  rewrite runes_at_shift. unfold end_found. replace (-1) with (-1 - o + o) at 1 by lia. rewrite last_visible_shift. destruct (find vis (runes_at 0 l)) as [p|] eqn:F.
  - rewrite (last_visible_some (-1 - o) 0) by congruence. lia.
  - rewrite last_visible_none by auto. lia.
Qed.

Section Box.
Variables (lm : list Z) (cs ce cstart : Z).
Lemma scan_one l o s : found s = false -> last s = -1 -> at_line lm (line s) = Ok (cstart + o) -> 0 <= line s - cs < 13 -> Forall (fun c => bz c <> 10) l ->
  exists s', scan_runes lm cs ce cstart s (runes_at o l) = Ok s' /\ indent s' = indent_found (indent s) l /\ line s' = line s /\ last s' - o = end_found o l /\ ends s' = ends s /\
    starts s' (line s - cs) = (match find vis (runes_at 0 l) with Some p => fst p | None => starts s (line s - cs) end) /\ forall j, j <> line s - cs -> starts s' j = starts s j.
Proof.
  intros F L A B N. rewrite (scan_line lm cs ce cstart _ o) by (auto; intros [i r] I; eapply runes_at_no_10; eauto). eexists. split; [reflexivity|].
  pose proof (last_found o l) as LF. rewrite runes_at_shift in *. rewrite find_shift. unfold indent_found, end_found in *. destruct (find vis (runes_at 0 l)) as [p|] eqn:E.
  - cbn [indent line last ends starts fst]. replace (fst p + o - o) with (fst p) by lia. repeat split; auto.
    + unfold upd. now rewrite Z.eqb_refl.
    + intros j J. unfold upd. apply Z.eqb_neq in J. now rewrite J.
  - rewrite L. repeat split; auto.
Qed.
Lemma scan_lines : forall sub s o n, sub <> [] -> found s = false -> last s = -1 -> (forall t, (t < List.length sub)%nat -> at_line lm (line s + Z.of_nat t) = Ok (cstart + o + offset sub t)) ->
  0 <= line s - cs -> line s - cs + zlen sub <= 13 -> line s + zlen sub - 1 = ce -> (forall l, In l sub -> Forall (fun c => bz c <> 10) l) ->
  exists s', scan_runes lm cs ce cstart s (runes_at o (text_of sub ++ repeat NL n)) = Ok s' /\ line s' = ce /\ indent s' = fold_left indent_found sub (indent s) /\
    (forall t l, nth_error sub t = Some l -> (forall j, line s - cs <= j -> starts s j = 0) -> starts s' (line s - cs + Z.of_nat t) = start_found l) /\
    (forall t l, nth_error sub t = Some l -> (S t < List.length sub)%nat -> ends s' (line s - cs + Z.of_nat t) = end_found (o + offset sub t) l) /\
    (forall t l, nth_error sub t = Some l -> S t = List.length sub -> last s' - (o + offset sub t) = end_found (o + offset sub t) l) /\
    (forall j, j < line s - cs -> starts s' j = starts s j /\ ends s' j = ends s j).
Proof.
  induction sub as [|l sub IH]; intros s o n NE F L A B1 B2 C N; [now destruct NE|].
  assert (A0 : at_line lm (line s) = Ok (cstart + o)) by (specialize (A 0%nat); cbn [List.length offset Z.of_nat] in A; rewrite !Z.add_0_r in A; apply A; lia).
  rewrite zlen_cons in *. pose proof (zlen_nonneg sub) as ZN. destruct (scan_one l o s F L A0) as (s1 & R1 & I1 & L1 & E1 & EN1 & S1 & SO1); [lia|apply N; now left|].
  destruct sub as [|l2 sub].
  - (* the last line *)
    exists s1. cbn [text_of]. assert (TAIL : forall k i, scan_runes lm cs ce cstart s1 (runes_at i (repeat NL k)) = Ok s1).
    { induction k as [|k IHk]; intros i; [reflexivity|]. cbn [repeat]. rewrite runes_at_first. cbn [first_rune]. change (first_rune NL (repeat NL k)) with (10, 0%nat). cbn [fst snd skipn scan_runes]. unfold scan_rune. cbn [Z.eqb Pos.eqb].
      rewrite L1. replace (line s =? ce) with true by (symmetry; apply Z.eqb_eq; unfold zlen in C; cbn in C; lia). cbn [rbind]. apply IHk. }
    assert (RUN : scan_runes lm cs ce cstart s (runes_at o (l ++ repeat NL n)) = Ok s1).
    { destruct n as [|n]; [now rewrite app_nil_r|]. cbn [repeat]. rewrite runes_at_ascii by (rewrite bz_nl; lia). rewrite scan_runes_app, R1. cbn [rbind].
      specialize (TAIL (S n) (o + zlen l)). cbn [repeat] in TAIL. rewrite runes_at_first in TAIL. change (first_rune NL (repeat NL n)) with (10, 0%nat) in TAIL. cbn [fst snd skipn] in TAIL. rewrite bz_nl. replace (o + zlen l + 1) with (o + zlen l + 1 + Z.of_nat 0) by lia. exact TAIL. }
    split; [exact RUN|]. unfold zlen in C. cbn in C. split; [lia|]. split; [cbn; auto|]. split; [|split; [|split]].
    + intros [|t] x X Z0; [|destruct t; discriminate]. injection X as <-. rewrite Z.add_0_r, S1. unfold start_found. destruct (find vis (runes_at 0 l)); [reflexivity|]. apply Z0. lia.
    + intros t x X Y. cbn in Y. lia.
    + intros [|t] x X Y; [|destruct t; discriminate]. injection X as <-. cbn [offset]. now rewrite Z.add_0_r.
    + intros j J. split; [apply SO1; lia|now rewrite EN1].
  - (* another line follows *)
    set (sub' := l2 :: sub) in *. assert (NE' : sub' <> []) by discriminate. rewrite text_of_cons, <- app_assoc by auto. cbn [app]. rewrite runes_at_ascii by (rewrite bz_nl; lia). rewrite scan_runes_app, R1. cbn [rbind scan_runes].
    assert (LEN : zlen sub' >= 1) by (unfold sub'; rewrite zlen_cons; pose proof (zlen_nonneg sub); lia).
    unfold scan_rune at 1. rewrite bz_nl. cbn [Z.eqb Pos.eqb]. rewrite L1. replace (line s =? ce) with false by (symmetry; apply Z.eqb_neq; lia).
    rewrite A0. cbn [rbind]. unfold put, arr_len. rewrite (proj2 (Z.leb_le _ _)) by lia. rewrite (proj2 (Z.ltb_lt _ _)) by lia. cbn [andb rbind].
    match goal with |- context [scan_runes lm cs ce cstart ?st _] => set (s2 := st) end.
    destruct (IH s2 (o + zlen l + 1) n) as (s3 & R3 & L3 & I3 & S3 & E3 & T3 & K3).
    + discriminate.
    + reflexivity.
    + reflexivity.
    + intros t Ht. cbn [s2 line]. specialize (A (S t)). cbn [offset List.length] in A. rewrite <- Z.add_assoc. replace (1 + Z.of_nat t) with (Z.of_nat (S t)) by lia. rewrite A by lia. f_equal. lia.
    + cbn [s2 line]. lia.
    + cbn [s2 line]. lia.
    + cbn [s2 line]. lia.
    + intros x X. apply N. now right.
    + exists s3. split; [exact R3|]. split; [exact L3|]. split; [rewrite I3; cbn [s2 indent fold_left]; now rewrite I1|]. split; [|split; [|split]].
      * intros [|t] x X Z0.
        -- injection X as <-. rewrite Z.add_0_r. destruct (K3 (line s - cs)) as [KA _]; [cbn [s2 line]; lia|]. rewrite KA. cbn [s2 starts]. rewrite S1. unfold start_found. destruct (find vis (runes_at 0 l)); [reflexivity|]. apply Z0. lia.
        -- specialize (S3 t x X). cbn [s2 line starts] in S3. replace (line s - cs + Z.of_nat (S t)) with (line s + 1 - cs + Z.of_nat t) by lia. apply S3. intros j J. rewrite SO1 by lia. apply Z0. lia.
      * intros [|t] x X Y.
        -- injection X as <-. cbn [offset]. rewrite !Z.add_0_r. destruct (K3 (line s - cs)) as [_ KB]; [cbn [s2 line]; lia|]. rewrite KB. cbn [s2 ends]. rewrite Z.eqb_refl. rewrite <- E1. lia.
        -- specialize (E3 t x X). cbn [s2 line] in E3. replace (line s - cs + Z.of_nat (S t)) with (line s + 1 - cs + Z.of_nat t) by lia. cbn [List.length] in Y. rewrite E3 by lia. f_equal. cbn [offset]. lia.
      * intros [|t] x X Y; [cbn in Y; unfold sub' in Y; cbn in Y; lia|]. specialize (T3 t x X). cbn [List.length] in Y. replace (o + offset (l :: sub') (S t)) with (o + zlen l + 1 + offset sub' t) by (cbn [offset]; lia). apply T3. lia.
      * intros j J. destruct (K3 j) as [KA KB]; [cbn [s2 line]; lia|]. rewrite KA, KB. cbn [s2 starts ends]. split; [apply SO1; lia|]. replace (j =? line s - cs) with false by (symmetry; apply Z.eqb_neq; lia). now rewrite EN1.
Qed.
Lemma scan_box_lines sub n : sub <> [] -> (forall t, (t < List.length sub)%nat -> at_line lm (cs + Z.of_nat t) = Ok (cstart + offset sub t)) ->
  zlen sub <= 13 -> cs + zlen sub - 1 = ce -> (forall l, In l sub -> Forall (fun c => bz c <> 10) l) ->
  exists s', scan_box lm cs ce cstart (text_of sub ++ repeat NL n) = Ok s' /\ indent s' = fold_left indent_found sub max_int /\
    (forall t l, nth_error sub t = Some l -> starts s' (Z.of_nat t) = start_found l /\ ends s' (Z.of_nat t) = end_found (offset sub t) l).
Proof.
  intros NE A B C N. unfold scan_box. set (s0 := Scan max_int cs false (-1) (fun _ => 0) (fun _ => 0)).
  assert (LEN : (0 < List.length sub)%nat) by (destruct sub; [now destruct NE|cbn; lia]).
  destruct (scan_lines sub s0 0 n) as (s1 & R & L & I & S & E & T & _); auto; try (cbn [s0 line]; lia).
  { intros t Ht. cbn [s0 line]. rewrite A by auto. f_equal. lia. }
  rewrite R. cbn [rbind]. rewrite L, Z.eqb_refl. assert (AL : at_line lm ce = Ok (cstart + offset sub (List.length sub - 1))).
  { rewrite <- (A (List.length sub - 1)%nat) by lia. f_equal. unfold zlen in C. lia. }
  rewrite AL. cbn [rbind]. unfold put, arr_len, zlen in *. rewrite (proj2 (Z.leb_le _ _)) by lia. rewrite (proj2 (Z.ltb_lt _ _)) by lia. cbn [andb rbind].
  eexists. split; [reflexivity|]. cbn [indent starts ends]. split; [exact I|]. intros t l H. assert (Ht : (t < List.length sub)%nat) by (apply nth_error_Some; congruence). split.
  - specialize (S t l H). cbn [s0 line starts] in S. replace (cs - cs + Z.of_nat t) with (Z.of_nat t) in S by lia. now apply S.
  - destruct (Nat.eq_dec (Datatypes.S t) (List.length sub)) as [X|X].
    + replace (Z.of_nat t =? ce - cs) with true by (symmetry; apply Z.eqb_eq; lia). specialize (T t l H X). replace (List.length sub - 1)%nat with t by lia. rewrite !Z.add_0_l in T. lia.
    + replace (Z.of_nat t =? ce - cs) with false by (symmetry; apply Z.eqb_neq; lia). specialize (E t l H). cbn [s0 line] in E. replace (cs - cs + Z.of_nat t) with (Z.of_nat t) in E by lia. rewrite E by lia. reflexivity.
Qed.
End Box.
