From Coq Require Import String Bool List ZArith NArith Ascii Permutation Sorted Lia.
From Verif Require Import Base Engine EngineSpec EngineProofs Timing TimingSpec.
Import ListNotations.
Open Scope Z_scope.

(** ** Order *)
Lemma bltb_before x : forall y, bltb x y = true <-> before x y.
Proof.
  induction x as [|c x IH]; intros [|d y]; simpl.
  - split; [easy|inversion 1].
  - split; [constructor|easy].
  - split; [easy|inversion 1].
  - rewrite orb_true_iff, andb_true_iff, N.ltb_lt, N.eqb_eq, IH. split.
    + intros [H|[H H']]; [now constructor|].
      assert (c = d).
      { rewrite <- (ascii_N_embedding c), <- (ascii_N_embedding d). now f_equal. }
      subst. now constructor.
    + inversion 1; subst; [left|right]; auto.
Qed.

Lemma before_irrefl x : ~ before x x.
Proof. induction x; inversion 1; subst; [lia|auto]. Qed.

Lemma before_trans x : forall y z, before x y -> before y z -> before x z.
Proof.
  induction x as [|c x IH]; intros y z H1 H2.
  - inversion H1; subst. inversion H2; subst; constructor.
  - inversion H1; subst; inversion H2; subst; try (constructor; lia); try (constructor; eauto; fail).
Qed.

Lemma before_total x : forall y, before x y \/ x = y \/ before y x.
Proof.
  induction x as [|c x IH]; intros [|d y].
  - auto.
  - left. constructor.
  - right. right. constructor.
  - destruct (N.lt_trichotomy (N_of_ascii c) (N_of_ascii d)) as [H|[H|H]].
    + left. now constructor.
    + assert (c = d).
      { rewrite <- (ascii_N_embedding c), <- (ascii_N_embedding d). now f_equal. }
      subst. destruct (IH y) as [H'|[->|H']]; [left|right;left|right;right]; auto; now constructor.
    + right. right. now constructor.
Qed.

Lemma less_precedes a c : less a c = true <-> precedes a c.
Proof.
  unfold less, precedes. destruct (tr_dur a =? tr_dur c) eqn:E; simpl.
  - apply Z.eqb_eq in E. rewrite bltb_before. intuition; lia.
  - apply Z.eqb_neq in E. rewrite Z.gtb_lt. intuition; lia.
Qed.

Lemma precedes_irrefl a : ~ precedes a a.
Proof. intros [H|[_ H]]; [lia|]. now apply before_irrefl in H. Qed.

Lemma precedes_trans a c e : precedes a c -> precedes c e -> precedes a e.
Proof.
  unfold precedes. intros [H|[H1 H2]] [H'|[H1' H2']]; try (left; lia).
  right. split; [lia|]. now apply before_trans with (tr_name c).
Qed.

Lemma precedes_total a c : tr_name a <> tr_name c -> precedes a c \/ precedes c a.
Proof.
  intros N. unfold precedes.
  destruct (Z.lt_trichotomy (tr_dur a) (tr_dur c)) as [H|[H|H]]; [right; left; lia| |left; left; lia].
  destruct (before_total (tr_name a) (tr_name c)) as [H'|[H'|H']]; [left; right|easy|right; right]; auto.
Qed.

(** ** Store contents *)
Definition add_all (it store : list (bstr * stat)) : list (bstr * stat) :=
  fold_left (fun m e => tm_set m (fst e) (stat_add (tm_get m (fst e)) (snd e))) it store.

Lemma merge_add store it : merge store it = add_all it store.
Proof. unfold merge, add_all. destruct it; reflexivity. Qed.

Definition of_name (n : bstr) (l : list (bstr * stat)) : list stat :=
  map snd (filter (fun e => beqb (fst e) n) l).

Lemma add_all_get it : forall store n,
  tm_get (add_all it store) n =
  (fst (tm_get store n) + sum_dur (of_name n it), (snd (tm_get store n) + sum_calls (of_name n it))%N).
Proof.
  induction it as [|[m s] it IH]; intros store n; cbn [add_all fold_left].
  - unfold of_name. simpl. destruct (tm_get store n) as [d c]. cbn [fst snd]. f_equal; lia.
  - fold (add_all it). change (fold_left _ it ?x) with (add_all it x).
    rewrite IH, tm_get_set. cbn [fst snd]. unfold of_name. cbn [filter fst].
    destruct (beqb m n) eqn:E.
    + apply beqb_eq in E. subst m. cbn [map sum_dur sum_calls fold_right].
      unfold stat_add. cbn [fst snd]. unfold sum_dur, sum_calls. f_equal; lia.
    + reflexivity.
Qed.

Lemma add_all_keys it : forall store n,
  In n (map fst (add_all it store)) <-> In n (map fst store) \/ In n (map fst it).
Proof.
  induction it as [|[m s] it IH]; intros store n; cbn [add_all fold_left map].
  - simpl. tauto.
  - change (fold_left _ it ?x) with (add_all it x). rewrite IH, tm_set_keys. cbn [In fst]. intuition.
Qed.

Lemma add_all_nodup it : forall store, NoDup (map fst store) -> NoDup (map fst (add_all it store)).
Proof.
  induction it as [|[m s] it IH]; intros store ND; [exact ND|].
  cbn [add_all fold_left]. change (fold_left _ it ?x) with (add_all it x).
  apply IH, tm_set_nodup, ND.
Qed.

Lemma add_all_app it it' store : add_all (it ++ it') store = add_all it' (add_all it store).
Proof. unfold add_all. apply fold_left_app. Qed.

Lemma merges_concat vs : forall store, fold_left merge vs store = add_all (concat vs) store.
Proof.
  induction vs as [|v vs IH]; intros store; [reflexivity|].
  cbn [fold_left concat]. now rewrite IH, merge_add, add_all_app.
Qed.

Lemma of_name_perm n l l' : Permutation l l' -> Permutation (of_name n l) (of_name n l').
Proof.
  intros P. unfold of_name. apply Permutation_map.
  induction P; simpl.
  - constructor.
  - destruct (beqb (fst x) n); [now constructor|auto].
  - destruct (beqb (fst x) n), (beqb (fst y) n); try reflexivity. constructor.
  - etransitivity; eauto.
Qed.

Lemma sum_dur_perm l l' : Permutation l l' -> sum_dur l = sum_dur l'.
Proof. induction 1; simpl in *; lia. Qed.
Lemma sum_calls_perm l l' : Permutation l l' -> sum_calls l = sum_calls l'.
Proof. induction 1; simpl in *; lia. Qed.

Lemma concat_perm2 {A : Type} (o v : list (list A)) :
  Forall2 (fun t v => Permutation v t) o v -> Permutation (concat v) (concat o).
Proof. induction 1; simpl; [constructor|]. now apply Permutation_app. Qed.

Lemma concat_perm {A : Type} (o v : list (list A)) :
  Permutation o v -> Permutation (concat o) (concat v).
Proof.
  induction 1; simpl.
  - constructor.
  - now apply Permutation_app_head.
  - rewrite !app_assoc. apply Permutation_app_tail, Permutation_app_comm.
  - etransitivity; eauto.
Qed.

Lemma tm_get_in m : NoDup (map fst m) -> forall n s, In (n, s) m <-> In n (map fst m) /\ tm_get m n = s.
Proof.
  induction m as [|[n0 s0] m IH]; intros ND n s; simpl; [tauto|].
  inversion ND as [|? ? N1 N2]; subst. destruct (beqb n0 n) eqn:E.
  - apply beqb_eq in E; subst. split.
    + intros [H|H]; [inversion H; auto|]. exfalso. apply N1.
      apply (in_map fst) in H. exact H.
    + intros [_ ->]. now left.
  - split.
    + intros [H|H]; [inversion H; subst; now rewrite beqb_refl in E|].
      apply IH in H; auto. tauto.
    + intros [[H|H] G]; [subst; now rewrite beqb_refl in E|].
      right. apply IH; auto.
Qed.

Lemma of_name_nonempty n l : of_name n l <> [] <-> In n (map fst l).
Proof.
  induction l as [|[m s] l IH]; simpl; [intuition|].
  unfold of_name in *. simpl. destruct (beqb m n) eqn:E; simpl.
  - apply beqb_eq in E. split; [auto|easy].
  - rewrite IH. split; [auto|]. intros [->|H]; [now rewrite beqb_refl in E|exact H].
Qed.

Lemma merged_contents tables store : merged tables store ->
  NoDup (map fst store) /\
  forall n d c, In (n, (d, c)) store <->
    entries tables n <> [] /\ d = sum_dur (entries tables n) /\ c = sum_calls (entries tables n).
Proof.
  intros (order & visited & it & PO & PV & -> & PS).
  rewrite merges_concat in PS.
  assert (PC : Permutation (concat visited) (concat tables)).
  { rewrite (concat_perm2 _ _ PV). now apply concat_perm. }
  assert (ND : NoDup (map fst (add_all (concat visited) []))) by (apply add_all_nodup; constructor).
  split.
  - apply (Permutation_NoDup (l := map fst (add_all (concat visited) []))); auto.
    apply Permutation_map. now symmetry.
  - intros n d c.
    assert (X : In (n, (d, c)) store <-> In (n, (d, c)) (add_all (concat visited) [])).
    { split; apply Permutation_in; auto using Permutation_sym. }
    rewrite X, tm_get_in by exact ND. rewrite add_all_keys, add_all_get.
    change (entries tables n) with (of_name n (concat tables)).
    pose proof (of_name_perm n _ _ PC) as PN.
    rewrite (sum_dur_perm _ _ PN), (sum_calls_perm _ _ PN).
    rewrite of_name_nonempty.
    assert (K : In n (map fst (concat visited)) <-> In n (map fst (concat tables))).
    { split; apply Permutation_in; apply Permutation_map; auto using Permutation_sym. }
    rewrite K. cbn [map In tm_get fst snd stat0]. unfold stat0. cbn [fst snd].
    rewrite Z.add_0_l, N.add_0_l. split.
    + intros [[[]|H] E]. inversion E; auto.
    + intros (H & -> & ->). auto.
Qed.

(** ** Sorting *)
Lemma sorted_strict l :
  StronglySorted (fun a c => less c a = false) l -> NoDup (map tr_name l) ->
  StronglySorted precedes l.
Proof.
  induction 1 as [|a l S IH F]; simpl; intros ND; constructor.
  - inversion ND; auto.
  - inversion ND as [|? ? N1 N2]; subst. rewrite Forall_forall in *. intros c I.
    destruct (precedes_total a c) as [P|P]; auto.
    + intros E. apply N1. rewrite E. now apply in_map.
    + apply less_precedes in P. rewrite (F c I) in P. easy.
Qed.

Lemma report_of_collect tables store sorter :
  merged tables store -> a_sort less sorter -> is_report tables (collect sorter store).
Proof.
  intros M S. destruct (merged_contents _ _ M) as (ND & C).
  set (l := map (fun e : bstr * stat => mkTR (fst e) (fst (snd e)) (snd (snd e))) store).
  change (collect sorter store) with (sorter l). destruct (S l) as (P & SS).
  assert (NL : map tr_name l = map fst store) by (unfold l; rewrite map_map; reflexivity).
  assert (ND' : NoDup (map tr_name (sorter l))).
  { apply (Permutation_NoDup (l := map tr_name l)); [|now rewrite NL].
    apply Permutation_map. now symmetry. }
  split; [now apply sorted_strict|]. split; [exact ND'|].
  intros r. rewrite <- C.
  assert (X : In r (sorter l) <-> In r l) by (split; apply Permutation_in; auto using Permutation_sym).
  rewrite X. unfold l. rewrite in_map_iff. split.
  - intros ((n & d & c) & <- & I). exact I.
  - intros I. exists (tr_name r, (tr_dur r, tr_calls r)). split; [|exact I]. now destruct r.
Qed.

Lemma report_unique tables l : forall l',
  is_report tables l -> is_report tables l' -> l = l'.
Proof.
  intros l' (S & _ & C) (S' & _ & C').
  assert (E : forall r, In r l <-> In r l') by (intros r; rewrite C, C'; reflexivity).
  clear C C'. revert l' S' E. induction S as [|a l S IH F]; intros l' S' E.
  - destruct l' as [|c l']; [reflexivity|]. exfalso. apply (E c). now left.
  - destruct S' as [|c l' S' F']. { exfalso. apply (E a). now left. }
    rewrite Forall_forall in F, F'.
    assert (a = c).
    { destruct (proj1 (E a) (or_introl eq_refl)) as [H|H]; [easy|].
      destruct (proj2 (E c) (or_introl eq_refl)) as [H'|H']; [easy|].
      exfalso. apply (precedes_irrefl a). eapply precedes_trans; eauto. }
    subst c. f_equal. apply IH; [exact S'|].
    intros r. split; intros I.
    + destruct (proj1 (E r) (or_intror I)) as [<-|H]; [|exact H].
      exfalso. apply (precedes_irrefl a). auto.
    + destruct (proj2 (E r) (or_intror I)) as [<-|H]; [|exact H].
      exfalso. apply (precedes_irrefl a). auto.
Qed.

(** ** Call counts of a whole run *)
Section Run.
Context {File Checker R St : Type}.
Notation rule := (@rule File Checker R St).
Variable rules_for : File -> list rule.
Variable events : File -> list (Z * nat).
Hypothesis TABLES : forall f, tables_ok (rules_for f).

Lemma sum_calls_app l l' : sum_calls (l ++ l') = (sum_calls l + sum_calls l')%N.
Proof. induction l; simpl; lia. Qed.

Lemma nodup_of_name m : NoDup (map fst m) -> forall n, sum_calls (of_name n m) = snd (tm_get m n).
Proof.
  induction m as [|[n0 s0] m IH]; intros ND n; [reflexivity|].
  inversion ND as [|? ? N1 N2]; subst. unfold of_name in *. cbn [filter fst tm_get].
  destruct (beqb n0 n) eqn:E; [|now apply IH].
  apply beqb_eq in E; subst. cbn [map sum_calls fold_right].
  replace (filter (fun e : bstr * stat => beqb (fst e) n) m) with (@nil (bstr * stat)); [simpl; lia|].
  clear - N1. induction m as [|[n1 s1] m IH]; [reflexivity|]. cbn [filter fst].
  destruct (beqb n1 n) eqn:E; [apply beqb_eq in E; subst; exfalso; apply N1; now left|].
  apply IH. intros I. apply N1. now right.
Qed.

Lemma total_calls_app l l' n :
  total_calls rules_for events (l ++ l') n =
  (total_calls rules_for events l n + total_calls rules_for events l' n)%N.
Proof. unfold total_calls. rewrite flat_map_app. apply sumN_app. Qed.

Lemma run_calls (ws : list ((nat -> list Z -> list Z) * (nat -> Z) * list (Checker * File))) n :
  (forall w, In w ws -> any_order (fst (fst w))) ->
  sum_calls (entries (map (fun w => t_local (t_worker (fst (fst w)) rules_for events (snd (fst w)) (snd w))) ws) n) =
  total_calls rules_for events (concat (map snd ws)) n.
Proof.
  induction ws as [|[[it el] cfs] ws IH]; intros A; [reflexivity|].
  unfold entries. cbn [map concat fst snd].
  rewrite filter_app, map_app, sum_calls_app, total_calls_app.
  f_equal.
  - destruct (timed_counts it rules_for events el (A _ (or_introl eq_refl)) TABLES cfs) as (ND & _ & C).
    change (sum_calls (of_name n (t_local (t_worker it rules_for events el cfs))) =
            total_calls rules_for events cfs n).
    rewrite nodup_of_name by exact ND. apply C.
  - apply IH. intros w I. apply A. now right.
Qed.

Lemma sumN_perm l l' : Permutation l l' -> sumN l = sumN l'.
Proof. induction 1; simpl in *; lia. Qed.

Lemma total_calls_perm l l' n : Permutation l l' ->
  total_calls rules_for events l n = total_calls rules_for events l' n.
Proof. intros P. unfold total_calls. apply sumN_perm. now apply Permutation_flat_map. Qed.

End Run.

(** A sort exists: insertion sort. *)
Fixpoint insert (a : trec) (l : list trec) : list trec :=
  match l with
  | [] => [a]
  | c :: l' => if less c a then c :: insert a l' else a :: l
  end.
Definition isort (l : list trec) : list trec := fold_right insert [] l.

Lemma insert_perm a l : Permutation (insert a l) (a :: l).
Proof.
  induction l as [|c l IH]; simpl; [reflexivity|].
  destruct (less c a); [|reflexivity]. rewrite IH. constructor.
Qed.

Lemma not_less a c : less c a = false -> precedes a c \/ (tr_dur a = tr_dur c /\ tr_name a = tr_name c).
Proof.
  intros H. unfold precedes.
  assert (N : ~ precedes c a) by (rewrite <- less_precedes, H; easy).
  unfold precedes in N.
  destruct (Z.lt_trichotomy (tr_dur a) (tr_dur c)) as [L|[L|L]]; [exfalso; apply N; left; lia| |left; left; lia].
  destruct (before_total (tr_name a) (tr_name c)) as [B|[B|B]]; auto.
  exfalso. apply N. auto.
Qed.

Lemma not_less_trans a c e : less c a = false -> less e c = false -> less e a = false.
Proof.
  intros H H'. destruct (less e a) eqn:E; [|reflexivity]. apply less_precedes in E.
  apply not_less in H, H'.
  assert (X : precedes e c).
  { destruct H as [H|[H1 H2]]; [now apply precedes_trans with a|].
    unfold precedes in *. rewrite <- H1, <- H2. exact E. }
  destruct H' as [H'|[H1 H2]].
  - exfalso. apply (precedes_irrefl e). now apply precedes_trans with c.
  - exfalso. apply (precedes_irrefl e). unfold precedes in *. rewrite H1, H2 in X.
    rewrite H1, H2 in X || idtac. destruct X as [X|[_ X]]; [lia|now apply before_irrefl in X].
Qed.

Lemma isort_ok : a_sort less isort.
Proof.
  intros l. split.
  - induction l as [|a l IH]; simpl; [reflexivity|]. rewrite insert_perm. now constructor.
  - induction l as [|a l IH]; simpl; [constructor|].
    remember (isort l) as s eqn:Es. clear Es. fold isort. 
    induction IH as [|c s S IHs F]; simpl; [repeat constructor|].
    destruct (less c a) eqn:E.
    + constructor; [exact IHs|]. rewrite Forall_forall in *. intros x I.
      apply (Permutation_in _ (insert_perm a s)) in I. destruct I as [<-|I]; [|auto].
      destruct (less a c) eqn:E'; [|reflexivity].
      apply less_precedes in E, E'. exfalso. apply (precedes_irrefl a). eapply precedes_trans; eauto.
    + constructor; [now constructor|]. constructor; [exact E|].
      rewrite Forall_forall in *. intros x I. apply not_less_trans with c; auto.
Qed.
