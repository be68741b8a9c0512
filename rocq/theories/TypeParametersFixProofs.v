From Coq Require Import Bool List Arith Ascii Lia.
From Verif Require Import TypeParametersFix TypeParametersFixSpec.
Import ListNotations.

Lemma find_char_none : forall c a u k, ~ In c u -> find_char c (a ++ u) (length a) k = None.
Proof.
  intros c a u k. revert a u. induction k as [|k IH]; intros a u N; [reflexivity|]. cbn [find_char]. rewrite nth_error_app2, Nat.sub_diag by lia. destruct u as [|d u]; [reflexivity|]. cbn [nth_error].
  destruct (Ascii.eqb d c) eqn:E; [apply Ascii.eqb_eq in E; subst; exfalso; apply N; now left|]. replace (a ++ d :: u) with ((a ++ [d]) ++ u) by now rewrite <- app_assoc. replace (S (length a)) with (length (a ++ [d])) by (rewrite app_length; cbn; lia). apply IH. intros I'. apply N. now right.
Qed.
Lemma find_char_some : forall c a u v k, ~ In c u -> length u < k -> find_char c (a ++ u ++ c :: v) (length a) k = Some (length a + length u).
Proof.
  intros c a u v k. revert a u. induction k as [|k IH]; intros a u N L; [lia|]. cbn [find_char]. rewrite nth_error_app2, Nat.sub_diag by lia. destruct u as [|d u]; cbn [app nth_error length].
  - rewrite Ascii.eqb_refl. f_equal. lia.
  - destruct (Ascii.eqb d c) eqn:E; [apply Ascii.eqb_eq in E; subst; exfalso; apply N; now left|]. replace (a ++ d :: u ++ c :: v) with ((a ++ [d]) ++ u ++ c :: v) by now rewrite <- app_assoc. replace (S (length a)) with (length (a ++ [d])) by (rewrite app_length; cbn; lia).
    rewrite IH; [rewrite app_length; cbn; f_equal; lia| |cbn in L; lia]. intros I'. apply N. now right.
Qed.
Lemma cut_app : forall (a m z : text) x y, length a = x -> length (a ++ m) = y -> cut (a ++ m ++ z) (x, y) = a ++ z.
Proof.
  intros a m z x y <- <-. unfold cut. cbn [fst snd]. rewrite firstn_app, Nat.sub_diag, firstn_all. cbn [firstn]. rewrite app_nil_r. f_equal. rewrite app_assoc, skipn_app, Nat.sub_diag, skipn_all. reflexivity.
Qed.
Lemma ranges_length : forall l n, length (ranges n l) = length l.
Proof. induction l as [|p l IH]; intros n; cbn [ranges length]; auto. Qed.
Lemma ranges_nth : forall l1 p l2 n, nth (length l1) (ranges n (l1 ++ p :: l2)) (0, 0) = (n + length (flat_map (fun q => written q ++ [","%char]) l1), n + length (flat_map (fun q => written q ++ [","%char]) l1) + length (lead p) + length (body p)).
Proof.
  induction l1 as [|q l1 IH]; intros p l2 n; cbn [app ranges length nth flat_map].
  - rewrite Nat.add_0_r. reflexivity.
  - rewrite IH. rewrite !app_length. cbn [length]. f_equal; lia.
Qed.
Lemma listed_app : forall l1 p l2, listed (l1 ++ p :: l2) = flat_map (fun q => written q ++ [","%char]) l1 ++ listed (p :: l2).
Proof.
  induction l1 as [|q l1 IH]; intros p l2; [reflexivity|]. cbn [app flat_map]. rewrite <- !app_assoc. cbn [app]. rewrite <- IH. cbn [listed]. destruct (l1 ++ p :: l2) eqn:E; [destruct l1; discriminate|]. reflexivity.
Qed.

Lemma removal_only : forall before p after ts, ~ In ">"%char (trail p) -> cut (source before [p] after) (removal (source before [p] after) ts (ranges (S (length before)) [p]) 0) = before ++ after.
Proof.
  intros before p after ts N. unfold removal, source. cbn [ranges length nth fst snd]. change (1 =? 1) with true. cbn iota. change (S (length before) =? 0) with false. cbn iota. cbn [listed]. unfold written.
  set (t := before ++ "<"%char :: (lead p ++ body p ++ trail p) ++ ">"%char :: after).
  assert (t = (before ++ "<"%char :: lead p ++ body p) ++ trail p ++ ">"%char :: after) as E by (unfold t; rewrite <- !app_assoc; cbn [app]; rewrite <- !app_assoc; reflexivity).
  assert (S (length before) + length (lead p) + length (body p) = length (before ++ "<"%char :: lead p ++ body p)) as L by (rewrite app_length; cbn [length]; rewrite app_length; lia).
  assert (length t = length (before ++ "<"%char :: lead p ++ body p) + length (trail p) + S (length after)) as Lt by (rewrite E, !app_length; cbn [length]; lia).
  rewrite Lt, L, E, find_char_some; [|exact N|lia]. cbv zeta. set (x := length (before ++ "<"%char :: lead p ++ body p)) in *. assert (S (x + length (trail p)) <=? S (length before) - 1 = false) as -> by (apply Nat.leb_gt; lia).
  replace ((before ++ "<"%char :: lead p ++ body p) ++ trail p ++ ">"%char :: after) with (before ++ ("<"%char :: lead p ++ body p ++ trail p ++ [">"%char]) ++ after) by (rewrite <- !app_assoc; cbn [app]; rewrite <- !app_assoc; reflexivity).
  apply cut_app; [lia|]. rewrite !app_length. cbn [length]. rewrite !app_length. cbn [length]. lia.
Qed.
Lemma removal_first : forall before p q l after ts, ts (S (length before) + length (written p) + 1) = S (length before) + length (written p) + 1 + length (lead q) ->
  cut (source before (p :: q :: l) after) (removal (source before (p :: q :: l) after) ts (ranges (S (length before)) (p :: q :: l)) 0) = source before ({| lead := []; body := body q; trail := trail q |} :: l) after.
Proof.
  intros before p q l after ts T. unfold removal. rewrite ranges_length. cbn [length]. change (S (S (length l)) =? 1) with false. change (0 =? 0) with true. cbn iota. cbn [ranges nth fst].
  replace (S (S (length before) + length (written p))) with (S (length before) + length (written p) + 1) by lia. rewrite T. assert (S (length before) <? S (length before) + length (written p) + 1 + length (lead q) = true) as -> by (apply Nat.ltb_lt; lia).
  unfold source. assert (exists r, listed (q :: l) = lead q ++ r /\ listed ({| lead := []; body := body q; trail := trail q |} :: l) = r) as [r [E1 E2]].
  { destruct l as [|q' l]; cbn [listed]; unfold written; cbn [lead body trail]; eexists; (split; [|reflexivity]); [reflexivity|]. now rewrite <- !app_assoc. }
  cbn [listed] in *. rewrite E1, E2.
  replace (before ++ "<"%char :: (written p ++ ","%char :: lead q ++ r) ++ ">"%char :: after) with ((before ++ ["<"%char]) ++ (written p ++ ","%char :: lead q) ++ r ++ ">"%char :: after) by (repeat (rewrite <- ?app_assoc; cbn [app]); reflexivity).
  rewrite cut_app; [now rewrite <- app_assoc|rewrite app_length; cbn; lia|]. rewrite !app_length. cbn [length]. lia.
Qed.
Lemma removal_later : forall before l1 p q l2 after ts, ~ In ","%char (trail p) ->
  cut (source before (l1 ++ p :: q :: l2) after) (removal (source before (l1 ++ p :: q :: l2) after) ts (ranges (S (length before)) (l1 ++ p :: q :: l2)) (S (length l1)))
  = source before (l1 ++ {| lead := lead p; body := body p; trail := trail p ++ trail q |} :: l2) after.
Proof.
  intros before l1 p q l2 after ts N. unfold removal. rewrite ranges_length. assert (length (l1 ++ p :: q :: l2) =? 1 = false) as -> by (apply Nat.eqb_neq; rewrite app_length; cbn; lia). cbn iota. change (S (length l1) =? 0) with false. cbn iota.
  replace (S (length l1) - 1) with (length l1) by lia. rewrite ranges_nth.
  pose proof (ranges_nth (l1 ++ [p]) q l2 (S (length before))) as Rq. rewrite <- app_assoc in Rq. cbn [app] in Rq. replace (length (l1 ++ [p])) with (S (length l1)) in Rq by (rewrite app_length; cbn; lia). rewrite Rq. clear Rq. cbv zeta. cbn [fst snd].
  rewrite flat_map_app. cbn [flat_map]. rewrite app_nil_r. set (F := flat_map (fun q => written q ++ [","%char]) l1).
  unfold source. rewrite !listed_app. fold F.
  assert (exists r, listed (q :: l2) = lead q ++ body q ++ trail q ++ r /\ listed ({| lead := lead p; body := body p; trail := trail p ++ trail q |} :: l2) = lead p ++ body p ++ trail p ++ trail q ++ r) as [r [E1 E2]].
  { destruct l2 as [|q' l]; [exists []; cbn [listed]; unfold written; cbn [lead body trail]; now rewrite !app_nil_r, <- ?app_assoc|]. exists (","%char :: listed (q' :: l)). remember (q' :: l) as l2 eqn:El. cbn [listed]. rewrite El. cbv iota. rewrite <- El. unfold written. cbn [lead body trail].
    split; now rewrite <- ?app_assoc. }
  rewrite E2. change (listed (p :: q :: l2)) with (written p ++ ","%char :: listed (q :: l2)). rewrite E1.
  set (t := before ++ "<"%char :: (F ++ written p ++ ","%char :: lead q ++ body q ++ trail q ++ r) ++ ">"%char :: after).
  assert (t = (before ++ "<"%char :: F ++ lead p ++ body p) ++ trail p ++ ","%char :: lead q ++ body q ++ trail q ++ r ++ ">"%char :: after) as E by (unfold t, written; repeat (rewrite <- ?app_assoc; cbn [app]); reflexivity).
  set (a := before ++ "<"%char :: F ++ lead p ++ body p) in *.
  assert (S (length before) + length F + length (lead p) + length (body p) = length a) as L by (unfold a; rewrite app_length; cbn [length]; rewrite !app_length; lia). rewrite L, E.
  rewrite find_char_some; [|exact N|rewrite !app_length; cbn [length]; unfold written; rewrite !app_length; lia].
  replace (a ++ trail p ++ ","%char :: lead q ++ body q ++ trail q ++ r ++ ">"%char :: after) with ((a ++ trail p) ++ (","%char :: lead q ++ body q) ++ trail q ++ r ++ ">"%char :: after) by (repeat (rewrite <- ?app_assoc; cbn [app]); reflexivity).
  rewrite cut_app.
  - unfold a. repeat (rewrite <- ?app_assoc; cbn [app]). reflexivity.
  - rewrite app_length. lia.
  - unfold written. rewrite !app_length. cbn [length]. rewrite !app_length. cbn [length]. lia.
Qed.

(** * Replacing *)
Lemma replace_tight : forall x c t m, tight (replace x c m t) = match t with TName n => if n =? x then if complex c && m then 4 else tight c else 4 | _ => tight t end.
Proof. intros x c [] m; cbn [replace tight]; try reflexivity. destruct (n =? x); [|reflexivity]. destruct (complex c && m); reflexivity. Qed.
Lemma complex_bracketed : forall c, complex c = true <-> bracketed c.
Proof. intros []; cbn; intuition discriminate. Qed.
Lemma place : forall x c t k, k <= tight t -> (k <= tight (replace x c true t) <-> no x t (bracketed c \/ k <= tight c)) /\ (k <= tight (replace x c false t) <-> no x t (k <= tight c)).
Proof.
  intros x c t k K. rewrite !replace_tight. unfold no. rewrite <- complex_bracketed. assert (tight t <= 4) as L by (destruct t; cbn; lia). destruct t as [n| | | | | | | | |]; try (split; split; [intros _ [=]|intros _; exact K|intros _ [=]|intros _; exact K]).
  destruct (n =? x) eqn:E.
  - apply Nat.eqb_eq in E. subst n. rewrite andb_false_r. split.
    + destruct (complex c); cbn [andb].
      * cbn [tight] in K. split; [intros _ _; now left|intros _; exact K].
      * split; [intros H _; now right|]. intros H. destruct (H eq_refl) as [H'|H']; [discriminate|exact H'].
    + split; auto.
  - apply Nat.eqb_neq in E. cbn [tight] in K. split; split; auto; intros _ [=]; contradiction.
Qed.
Lemma replace_readable : forall x c t m, readable c -> readable t -> (readable (replace x c m t) <-> fits x c t).
Proof.
  intros x c t m C. revert m. induction t as [n|t IH|o IHo i IHi|t IH|l IHl r IHr|l IHl r IHr|a IHa e IHe t IHt f IHf|p IHp r IHr|n a IH|t IH]; intros m R; cbn [replace readable fits] in *.
  - destruct (n =? x); [|tauto]. destruct (complex c && m); cbn [readable]; tauto.
  - destruct R as [R T]. rewrite (IH true R). pose proof (proj1 (place x c t 4 T)). tauto.
  - destruct R as [R [T R']]. rewrite (IHo true R), (IHi true R'). pose proof (proj1 (place x c o 4 T)). tauto.
  - destruct R as [R T]. rewrite (IH false R). pose proof (proj2 (place x c t 3 T)). tauto.
  - destruct R as [R [T [R' T']]]. rewrite (IHl true R), (IHr true R'). pose proof (proj1 (place x c l 2 T)). pose proof (proj1 (place x c r 3 T')). tauto.
  - destruct R as [R [T [R' T']]]. rewrite (IHl true R), (IHr true R'). pose proof (proj1 (place x c l 1 T)). pose proof (proj1 (place x c r 2 T')). tauto.
  - destruct R as [R [T [R' [T' [Rt Rf]]]]]. rewrite (IHa false R), (IHe false R'), (IHt false Rt), (IHf false Rf). pose proof (proj2 (place x c a 1 T)). pose proof (proj2 (place x c e 1 T')). tauto.
  - destruct R as [R R']. rewrite (IHp false R), (IHr false R'). tauto.
  - exact (IH false R).
  - exact (IH false R).
Qed.
Lemma replace_bare : forall x c t m, bare (replace x c m t) = bare (substituted x c t).
Proof.
  intros x c. induction t as [n|t IH|o IHo i IHi|t IH|l IHl r IHr|l IHl r IHr|a IHa e IHe t IHt f IHf|p IHp r IHr|n a IH|t IH]; intros m; cbn [replace substituted bare]; try congruence.
  destruct (n =? x); [|reflexivity]. destruct (complex c && m); reflexivity.
Qed.
