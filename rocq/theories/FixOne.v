(** The fixes of one message, applied by internal/linter/source_code_fixer.go (Fixer.v) with a stable sort.

    [slices.SortFunc] promises no order for fixes with the same range; for the few fixes of a message Go sorts by
    insertion, which is stable.  [stable] says so. *)
From Coq Require Import Bool List ZArith Lia Permutation Sorted.
From Verif Require Import Base Fixer FixerSpec FixerProofs.
Import ListNotations.
Open Scope Z_scope.

Definition same_range {byte} (f g : fix_ byte) : bool := (fpos f =? fpos g) && (fend f =? fend g).
Definition stable {byte} (s : list (fix_ byte) -> list (fix_ byte)) : Prop :=
  forall l f, filter (same_range f) (s l) = filter (same_range f) l.

Section One.
Context {byte : Type}.
Notation fx := (fix_ byte).
Implicit Types (pre mid post text code out : list byte) (bs rs : list (list byte)) (fs gs l m : list fx).
Definition le_range (f g : fx) : Prop := fpos f < fpos g \/ (fpos f = fpos g /\ fend f <= fend g).
Lemma cmp_le f g : cmp_fix f g <= 0 <-> le_range f g.
Proof. unfold cmp_fix, le_range. destruct (Z.eqb_spec (fpos f - fpos g) 0); lia. Qed.
Lemma same_spec (f g : fx) : same_range f g = true <-> fpos f = fpos g /\ fend f = fend g.
Proof. unfold same_range. rewrite andb_true_iff, !Z.eqb_eq. reflexivity. Qed.
(** A sorted list is determined by the order of the fixes with the same range. *)
Lemma range_unique : forall l m : list fx, StronglySorted le_range l -> StronglySorted le_range m -> (forall f, filter (same_range f) l = filter (same_range f) m) -> l = m.
Proof.
  induction l as [|f l IH]; intros m L M E.
  - destruct m as [|g m]; [reflexivity|]. specialize (E g). cbn in E. assert (R : same_range g g = true) by now apply same_spec. rewrite R in E. discriminate.
  - destruct m as [|g m]; [specialize (E f); cbn in E; assert (R : same_range f f = true) by (now apply same_spec); rewrite R in E; discriminate|].
    inversion L as [|? ? L1 L2]; inversion M as [|? ? M1 M2]; subst. rewrite Forall_forall in L2, M2.
    assert (RF : same_range f f = true) by now apply same_spec. assert (RG : same_range g g = true) by now apply same_spec.
    assert (FG : le_range g f). { assert (I : In f (g :: m)). { assert (X : In f (filter (same_range f) (g :: m))) by (rewrite <- E; apply filter_In; split; [now left|auto]). now apply filter_In in X. } destruct I as [->|I]; [red; lia|auto]. }
    assert (GF : le_range f g). { assert (I : In g (f :: l)). { assert (X : In g (filter (same_range g) (f :: l))) by (rewrite E; apply filter_In; split; [now left|auto]). now apply filter_In in X. } destruct I as [->|I]; [red; lia|auto]. }
    assert (S : same_range f g = true) by (apply same_spec; unfold le_range in *; lia).
    pose proof (E f) as H. cbn in H. rewrite RF, S in H. injection H as -> _. f_equal. apply IH; auto. intros h. specialize (E h). cbn in E. destruct (same_range h g); [now injection E|auto].
Qed.
Lemma stable_sort (s : list fx -> list fx) l m : correct_sort cmp_fix s -> stable s -> StronglySorted le_range m -> (forall f, filter (same_range f) l = filter (same_range f) m) -> s l = m.
Proof.
  intros C S M E. apply range_unique; auto.
  - destruct (C l) as [_ H]. eapply sorted_weaken; [|exact H]. intros x y. cbn beta. now rewrite cmp_le.
  - intros f. now rewrite S.
Qed.
(** One message. *)
Lemma apply_one (sf : list fx -> list fx) (sm : list (msg byte) -> list (msg byte)) code n l m out : correct_sort cmp_fix sf -> correct_sort cmp_msg sm -> stable sf ->
  StronglySorted le_range m -> (forall f, filter (same_range f) l = filter (same_range f) m) -> (forall f r, m = f :: r -> 0 <= fpos f) -> m <> [] ->
  (let! w := write_fixes code 0 m in let! t := slice_from code (snd w) in Ok (fst w ++ t)) = Ok out ->
  apply_rule_fixes sf sm code [mkMsg n l] = Ok (out, [], true).
Proof.
  intros C CM S M E P NE W. unfold apply_rule_fixes. cbn [split_msgs mfixes mid]. pose proof (stable_sort sf l m C S M E) as H.
  destruct l as [|f l']; [destruct m as [|g m']; [now destruct NE|]; specialize (E g); cbn in E; assert (R : same_range g g = true) by (now apply same_spec); rewrite R in E; discriminate|]. rewrite H.
  destruct (CM [mkMsg n m]) as [CP _]. apply Permutation_length_1_inv in CP. rewrite CP. cbn [apply_loop mfixes]. destruct m as [|g m']; [now destruct NE|]. rewrite (proj2 (Z.ltb_ge _ _)) by eauto.
  destruct (write_fixes code 0 (g :: m')) as [[o last]|]; [|discriminate]. cbn [rbind fst snd] in *. destruct (slice_from code last) as [t|]; [|discriminate]. injection W as <-. cbn [rbind]. now rewrite app_nil_r.
Qed.

(** Text before, in and after a replaced range. *)
Lemma write_at : forall fs code last p, Forall (fun f : fx => fpos f = p /\ fend f = p) fs -> fs <> [] ->
  forall keep, slice code last p = Ok keep -> slice code p p = Ok [] -> write_fixes code last fs = Ok (keep ++ concat (map ftext fs), p).
Proof.
  induction fs as [|f fs IH]; intros code last p F NE keep K Z; [now destruct NE|]. inversion F as [|? ? [P Q] F']; subst. cbn [write_fixes]. rewrite K. cbn [rbind]. destruct fs as [|g fs].
  - cbn [write_fixes rbind map concat]. now rewrite Q.
  - rewrite (IH code (fend f) (fpos f) F' ltac:(discriminate) []); [|rewrite Q; auto|auto]. cbn [rbind map concat app]. reflexivity.
Qed.
Lemma write_app : forall fs gs code last o1 e1 o2 e2, write_fixes code last fs = Ok (o1, e1) -> write_fixes code e1 gs = Ok (o2, e2) -> write_fixes code last (fs ++ gs) = Ok (o1 ++ o2, e2).
Proof.
  induction fs as [|f fs IH]; intros gs code last o1 e1 o2 e2 A B; cbn [write_fixes app] in *; [injection A as <- <-; exact B|].
  destruct (slice code last (fpos f)) as [k|]; [|discriminate]. cbn [rbind] in *. destruct (write_fixes code (fend f) fs) as [[o e]|] eqn:W; [|discriminate]. cbn [rbind] in A. injection A as <- <-. rewrite (IH gs _ _ _ _ _ _ W B). cbn [rbind]. now rewrite <- !app_assoc.
Qed.
Lemma slice_mid (x y z : list byte) : slice (x ++ y ++ z) (zlen x) (zlen x + zlen y) = Ok y.
Proof.
  unfold slice, zlen. rewrite !app_length. rewrite !(proj2 (Z.leb_le _ _)) by lia. cbn [andb]. f_equal. rewrite Nat2Z.id. rewrite skipn_app, skipn_all, Nat.sub_diag. cbn [skipn app].
  replace (Z.to_nat (Z.of_nat (length x) + Z.of_nat (length y) - Z.of_nat (length x))) with (length y) by lia. rewrite firstn_app, firstn_all, Nat.sub_diag. cbn. apply app_nil_r.
Qed.
(** One range replaced, with texts inserted at both ends. *)
Theorem replaced (sf : list fx -> list fx) (sm : list (msg byte) -> list (msg byte)) n pre mid post text bs rs l : correct_sort cmp_fix sf -> correct_sort cmp_msg sm -> stable sf -> mid <> [] ->
  let p := zlen pre in let q := zlen pre + zlen mid in
  filter (same_range (mkFix [] p p)) l = map (fun t => mkFix t p p) bs -> filter (same_range (mkFix [] q q)) l = map (fun t => mkFix t q q) rs ->
  filter (same_range (mkFix [] p q)) l = [mkFix text p q] ->
  (forall f, In f l -> same_range (mkFix [] p p) f = true \/ same_range (mkFix [] q q) f = true \/ same_range (mkFix [] p q) f = true) ->
  apply_rule_fixes sf sm (pre ++ mid ++ post) [mkMsg n l] = Ok (pre ++ concat bs ++ text ++ concat rs ++ post, [], true).
Proof.
  intros C CM S NE p q FB FR FT ALL. assert (PQ : p < q) by (unfold p, q, zlen; destruct mid; [now destruct NE|cbn; lia]). assert (P0 : 0 <= p) by (unfold p, zlen; lia).
  set (m := map (fun t => mkFix t p p) bs ++ [mkFix text p q] ++ map (fun t => mkFix t q q) rs).
  assert (IN : forall f, In f m -> (exists t, f = mkFix t p p) \/ f = mkFix text p q \/ exists t, f = mkFix t q q).
  { intros f I. unfold m in I. rewrite !in_app_iff, !in_map_iff in I. destruct I as [(t & <- & _)|[[<-|[]]|(t & <- & _)]]; eauto. }
  apply apply_one with (m := m); auto.
  - assert (EQ : forall (x y : Z) (l : list (list byte)), StronglySorted le_range (map (fun t => mkFix t x y) l)).
    { intros x y r. induction r as [|t r IH]; [constructor|]. cbn. constructor; [exact IH|]. apply Forall_forall. intros f I. apply in_map_iff in I. destruct I as (u & <- & _). red. cbn. lia. }
    assert (AP : forall r1 r2 : list fx, StronglySorted le_range r1 -> StronglySorted le_range r2 -> (forall f g, In f r1 -> In g r2 -> le_range f g) -> StronglySorted le_range (r1 ++ r2)).
    { clear. induction r1 as [|f r1 IH]; intros r2 A B H; [exact B|]. inversion A as [|? ? A1 A2]; subst. cbn. constructor; [apply IH; auto; intros; apply H; [now right|auto]|]. apply Forall_app. split; [exact A2|]. apply Forall_forall. intros g I. apply H; [now left|auto]. }
    unfold m. apply AP; [apply EQ| |].
    + apply AP; [repeat constructor|apply EQ|]. intros f g [<-|[]] I. apply in_map_iff in I. destruct I as (t & <- & _). red. cbn. lia.
    + intros f g I J. apply in_map_iff in I. destruct I as (t & <- & _). rewrite in_app_iff, in_map_iff in J. destruct J as [[<-|[]]|(u & <- & _)]; red; cbn; lia.
  - intros f. assert (CL : forall g, In g l \/ In g m -> same_range f g = true -> (fpos f, fend f) = (p, p) \/ (fpos f, fend f) = (q, q) \/ (fpos f, fend f) = (p, q)).
    { intros g [I|I] R; apply same_spec in R.
      - apply ALL in I. rewrite !same_spec in I. cbn in I. destruct R as [-> ->]. intuition congruence.
      - apply IN in I. destruct R as [-> ->]. destruct I as [(t & ->)|[->|(t & ->)]]; cbn; auto. }
    assert (SF : forall x y, (fpos f, fend f) = (x, y) -> forall g, same_range f g = same_range (mkFix [] x y) g) by (intros x y [= <- <-] g; reflexivity).
    assert (NONE : forall g : list byte, same_range (mkFix [] p p) (mkFix g p q) = false /\ same_range (mkFix [] p p) (mkFix g q q) = false /\ same_range (mkFix [] p q) (mkFix g p p) = false /\ same_range (mkFix [] p q) (mkFix g q q) = false /\ same_range (mkFix [] q q) (mkFix g p p) = false /\ same_range (mkFix [] q q) (mkFix g p q) = false).
    { intros g. unfold same_range. cbn. repeat split; rewrite ?andb_false_iff, ?Z.eqb_neq; lia. }
    assert (KEEP : forall x y r, filter (same_range (mkFix [] x y)) (map (fun t => mkFix t x y) r) = map (fun t : list byte => mkFix t x y) r).
    { intros x y r. induction r as [|t r IH]; [reflexivity|]. cbn. assert (R : same_range (mkFix [] x y) (mkFix t x y) = true) by (apply same_spec; auto). now rewrite R, IH. }
    assert (DROP : forall x y x' y' r, (forall g : list byte, same_range (mkFix [] x y) (mkFix g x' y') = false) -> filter (same_range (mkFix [] x y)) (map (fun t => mkFix t x' y') r) = @nil fx).
    { intros x y x' y' r H. induction r as [|t r IH]; [reflexivity|]. cbn. now rewrite H. }
    destruct (existsb (same_range f) (l ++ m)) eqn:X.
    + apply existsb_exists in X. destruct X as (g & I & R). apply in_app_iff in I. destruct (CL g I R) as [K|[K|K]]; rewrite !(filter_ext _ _ (SF _ _ K)).
      * rewrite FB. unfold m. rewrite !filter_app, KEEP. cbn [filter]. rewrite (proj1 (NONE text)). rewrite DROP by (intros; apply NONE). now rewrite app_nil_r.
      * rewrite FR. unfold m. rewrite !filter_app, KEEP. cbn [filter]. destruct (NONE text) as (_ & _ & _ & _ & _ & ->). rewrite DROP by (intros; apply NONE). reflexivity.
      * rewrite FT. unfold m. rewrite !filter_app. cbn [filter]. assert (R' : same_range (mkFix [] p q) (mkFix text p q) = true) by (apply same_spec; auto). rewrite R'. rewrite !DROP by (intros; apply NONE). reflexivity.
    + assert (N : forall g, In g (l ++ m) -> same_range f g = false) by (intros g I; destruct (same_range f g) eqn:R; [|auto]; assert (T : existsb (same_range f) (l ++ m) = true) by (apply existsb_exists; eauto); congruence).
      assert (Z : forall r : list fx, (forall g, In g r -> same_range f g = false) -> filter (same_range f) r = []) by (clear; induction r as [|g r IH]; intros H; [reflexivity|]; cbn; rewrite H by (now left); apply IH; intros; apply H; now right).
      rewrite !Z; auto; intros; apply N; apply in_app_iff; auto.
  - intros f r E. assert (I : In f m) by (rewrite E; now left). apply IN in I. destruct I as [(t & ->)|[->|(t & ->)]]; cbn; lia.
  - unfold m. destruct bs; discriminate.
  - assert (S0 : slice (pre ++ mid ++ post) 0 p = Ok pre) by (pose proof (slice_mid [] pre (mid ++ post)) as H; cbn [app] in H; exact H).
    assert (SP : forall x, 0 <= x <= zlen (pre ++ mid ++ post) -> slice (pre ++ mid ++ post) x x = Ok []). { intros x X. unfold slice. rewrite !(proj2 (Z.leb_le _ _)) by lia. cbn [andb]. now rewrite Z.sub_diag. }
    assert (BD : q <= zlen (pre ++ mid ++ post)) by (unfold q, zlen; rewrite !app_length; lia).
    assert (W1 : exists last, write_fixes (pre ++ mid ++ post) 0 (map (fun t => mkFix t p p) bs ++ [mkFix text p q]) = Ok (last, q) /\ last = pre ++ concat bs ++ text).
    { destruct bs as [|t0 bs].
      - cbn [map app write_fixes fpos fend ftext]. rewrite S0. cbn [rbind]. eexists. split; [reflexivity|]. cbn. now rewrite app_nil_r.
      - rewrite (write_app _ _ _ _ (pre ++ concat (t0 :: bs)) p (text) q).
        + eexists. split; [reflexivity|]. now rewrite <- app_assoc.
        + rewrite (write_at _ _ _ p) with (keep := pre); [|apply Forall_forall; intros f I; apply in_map_iff in I; destruct I as (t & <- & _); auto|discriminate|exact S0|apply SP; lia]. rewrite map_map. cbn [ftext]. now rewrite map_id.
        + cbn [write_fixes fpos fend ftext]. rewrite SP by lia. cbn [rbind]. now rewrite app_nil_r. }
    destruct W1 as (o & W1 & ->). assert (W2 : write_fixes (pre ++ mid ++ post) q (map (fun t => mkFix t q q) rs) = Ok (concat rs, q)).
    { destruct rs as [|t0 rs]; [reflexivity|]. rewrite (write_at _ _ _ q) with (keep := []); [|apply Forall_forall; intros f I; apply in_map_iff in I; destruct I as (t & <- & _); auto|discriminate|apply SP; lia|apply SP; lia]. rewrite map_map. cbn [ftext app]. now rewrite map_id. }
    unfold m. rewrite (app_assoc (map _ bs)). rewrite (write_app _ _ _ _ _ _ _ _ W1 W2). cbn [rbind fst snd]. assert (T : slice_from (pre ++ mid ++ post) q = Ok post).
    { unfold slice_from. pose proof (slice_mid (pre ++ mid) post []) as H. rewrite app_nil_r, <- app_assoc in H. replace (zlen (pre ++ mid)) with q in H by (unfold q, zlen; rewrite app_length; lia). replace (zlen (pre ++ mid ++ post)) with (q + zlen post) by (unfold q, zlen; rewrite !app_length; lia). exact H. }
    rewrite T. cbn [rbind]. now rewrite <- !app_assoc.
Qed.
End One.
(** Such a sort exists. *)
Lemma fsort_stable byte : stable (@fsort byte).
Proof.
  intros l f. unfold fsort. induction l as [|g l IH]; [reflexivity|]. cbn [isort filter].
  assert (I : forall g m, filter (same_range f) (insert fix_key g m) = if same_range f g then g :: filter (same_range f) m else filter (same_range f) m).
  { clear. intros g m. induction m as [|h m IH]; [reflexivity|]. cbn [insert]. destruct (key_leb (fix_key g) (fix_key h)) eqn:K; [reflexivity|]. cbn [filter]. rewrite IH. destruct (same_range f h) eqn:H; [|reflexivity]. destruct (same_range f g) eqn:G; [|reflexivity].
    exfalso. apply same_spec in H, G. unfold key_leb, fix_key in K. cbn in K. rewrite orb_false_iff, andb_false_iff, Z.ltb_ge, Z.eqb_neq, Z.leb_gt in K. lia. }
  rewrite I, IH. reflexivity.
Qed.
(** A single fix, in any order of sorting. *)
Theorem replaced1 {byte} (sf : list (fix_ byte) -> list (fix_ byte)) (sm : list (msg byte) -> list (msg byte)) n pre old post text : correct_sort cmp_fix sf -> correct_sort cmp_msg sm ->
  apply_rule_fixes sf sm (pre ++ old ++ post) [mkMsg n [mkFix text (zlen pre) (zlen pre + zlen old)]] = Ok (pre ++ text ++ post, [], true).
Proof.
  intros C CM. set (f := mkFix text (zlen pre) (zlen pre + zlen old)). unfold apply_rule_fixes. cbn [split_msgs mfixes Fixer.mid]. destruct (C [f]) as [CP _]. apply Permutation_length_1_inv in CP. rewrite CP.
  destruct (CM [mkMsg n [f]]) as [MP _]. apply Permutation_length_1_inv in MP. rewrite MP. cbn [apply_loop mfixes]. rewrite (proj2 (Z.ltb_ge _ _)) by (cbn; unfold zlen; lia). cbn [write_fixes]. unfold f. cbn [fpos fend ftext].
  assert (S0 : slice (pre ++ old ++ post) 0 (zlen pre) = Ok pre) by (pose proof (slice_mid [] pre (old ++ post)) as H; cbn [app] in H; exact H). rewrite S0. cbn [rbind].
  assert (T : slice_from (pre ++ old ++ post) (zlen pre + zlen old) = Ok post).
  { unfold slice_from. pose proof (slice_mid (pre ++ old) post []) as H. rewrite app_nil_r, <- app_assoc in H. replace (zlen (pre ++ old)) with (zlen pre + zlen old) in H by (unfold zlen; rewrite app_length; lia). replace (zlen (pre ++ old ++ post)) with (zlen pre + zlen old + zlen post) by (unfold zlen; rewrite !app_length; lia). exact H. }
  cbn [rbind]. cbn [fst snd]. rewrite T. cbn [rbind]. now rewrite ?app_nil_r, <- ?app_assoc.
Qed.
