(** C34, second part: snapshot files and runs of the tests. *)
From Coq Require Import Bool List ZArith Lia Permutation Sorting.Sorted.
From Verif Require Import Snapshot PropsSnapshotOrder.
Import ListNotations.
Open Scope Z_scope.

(** ** Specification *)
Definition occurs (p s : list Z) : Prop := exists x y, s = x ++ p ++ y.
Definition ends (p s : list Z) : Prop := exists x, s = x ++ p.
(** A key: in brackets, on one line.  (snapshot.go line 45: the test's name, in which Go's testing package leaves no newline) *)
Definition good_key (k : list Z) : Prop := ~ In 10 k /\ exists m, k = [91] ++ m ++ [93].
(** A content that can be stored: it does not end in a newline, and no line of it ends in three dashes. *)
Definition good_content (c : list Z) : Prop := ~ ends [10] c /\ ~ occurs [45; 45; 45; 10] (c ++ [10]).
Definition keys (es : list (list Z * list Z)) : list (list Z) := map fst es.
(** [sort.Slice] with a comparison that is a strict weak order gives a sorted permutation. *)
Definition sorts (sort : list (list Z) -> list (list Z)) : Prop :=
  forall l, Permutation l (sort l) /\ StronglySorted (fun x y => compare_keys y x <> Some (-1)) (sort l).

(** ** Cutting *)
Lemma same_spec x y : same x y = true <-> x = y.
Proof. unfold same. destruct (list_eq_dec Z.eq_dec x y); split; congruence. Qed.
Lemma same_refl x : same x x = true.
Proof. now apply same_spec. Qed.
Lemma strip_spec p : forall s r, strip p s = Some r <-> s = p ++ r.
Proof.
  induction p as [|c p IH]; intros s r; cbn; [split; congruence|]. destruct s as [|d s]; [split; [discriminate|intros [=]]|].
  destruct (Z.eqb_spec c d) as [->|N]; [rewrite IH; split; congruence|split; [discriminate|congruence]].
Qed.
Lemma strip_none p s : strip p s = None <-> forall r, s <> p ++ r.
Proof.
  split.
  - intros H r E. apply strip_spec in E. congruence.
  - intros H. destruct (strip p s) as [r|] eqn:E; [|auto]. apply strip_spec in E. destruct (H r E).
Qed.
Lemma cut_none p s : p <> [] -> (cut p s = None <-> ~ occurs p s).
Proof.
  intros NP. induction s as [|c s IH].
  - cbn. destruct (strip p []) as [r|] eqn:E.
    + split; [discriminate|]. intros H. destruct H. apply strip_spec in E. exists [], r. auto.
    + split; [|auto]. intros _ (x & y & X). symmetry in X. apply app_eq_nil in X. destruct X as [_ X]. apply app_eq_nil in X. tauto.
  - cbn [cut]. destruct (strip p (c :: s)) as [r|] eqn:E.
    + split; [discriminate|]. intros H. destruct H. apply strip_spec in E. exists [], r. auto.
    + assert (X : ~ occurs p (c :: s) <-> ~ occurs p s).
      { split; intros H (x & y & O); apply H; [exists (c :: x), y; cbn; congruence|]. destruct x as [|d x]; [apply (proj1 (strip_none p (c :: s)) E) in O; destruct O|]. injection O as _ O. exists x, y. auto. }
      rewrite X, <- IH. destruct (cut p s) as [[x y]|]; split; congruence.
Qed.
Lemma cut_some p : forall s x y, cut p s = Some (x, y) -> s = x ++ p ++ y.
Proof.
  induction s as [|c s IH]; intros x y; cbn [cut].
  - destruct (strip p []) as [r|] eqn:E; [|discriminate]. intros [= <- <-]. apply strip_spec in E. auto.
  - destruct (strip p (c :: s)) as [r|] eqn:E; [intros [= <- <-]; now apply strip_spec in E|]. destruct (cut p s) as [[x' y']|] eqn:C; [|discriminate]. intros [= <- <-]. cbn. f_equal. auto.
Qed.
Lemma cut_some_first p : forall s x y, p <> [] -> cut p s = Some (x, y) -> ~ occurs p x.
Proof.
  induction s as [|c s IH]; intros x y NP; cbn [cut].
  - destruct (strip p []) as [r|] eqn:E; [|discriminate]. intros [= <- <-]. apply cut_none; [auto|]. cbn. destruct p; [contradiction|reflexivity].
  - destruct (strip p (c :: s)) as [r|] eqn:E; [intros [= <- <-]; apply cut_none; [auto|]; destruct p; [contradiction|reflexivity]|].
    destruct (cut p s) as [[x' y']|] eqn:C; [|discriminate]. intros [= <- <-]. intros (u & v & O). destruct u as [|d u].
    + apply (proj1 (strip_none p (c :: s)) E (v ++ p ++ y')). cbn [app] in O. apply cut_some in C. rewrite C. change (c :: x' ++ p ++ y') with ((c :: x') ++ p ++ y'). rewrite O. now rewrite <- !app_assoc.
    + injection O as _ O. apply (IH x' y' NP eq_refl). exists u, v. auto.
Qed.
Lemma cut_newline k r : ~ In 10 k -> cut [10] (k ++ 10 :: r) = Some (k, r).
Proof.
  induction k as [|c k IH]; intros N; [reflexivity|]. cbn [app cut strip]. destruct (Z.eqb_spec 10 c) as [<-|X]; [destruct N; now left|]. rewrite IH; [reflexivity|]. intros I. apply N. now right.
Qed.
Lemma cut_block w r : cut separator (w ++ dashes) = None -> cut separator (w ++ separator ++ r) = Some (w, r).
Proof.
  induction w as [|c w IH]; [reflexivity|]. cbn [app cut]. destruct (strip separator (c :: w ++ dashes)) as [q|] eqn:E; [discriminate|]. intros H.
  assert (H' : cut separator (w ++ dashes) = None) by (destruct (cut separator (w ++ dashes)) as [[? ?]|]; congruence).
  destruct (strip separator (c :: w ++ separator ++ r)) as [q|] eqn:E2; [|now rewrite (IH H')]. exfalso.
  apply strip_spec in E2. pose proof (proj1 (strip_none _ _) E) as N. unfold separator, dashes in *. 
  destruct w as [|w1 [|w2 [|w3 w]]]; cbn [app] in E2, N; [discriminate E2| discriminate E2|discriminate E2|].
  injection E2 as -> -> -> -> _. apply (N (w ++ [45; 45; 45])). reflexivity.
Qed.
Lemma cut_line u v : ~ In 10 u -> ~ ends dashes u -> cut separator v = None -> cut separator (u ++ 10 :: v) = None.
Proof.
  intros N D C. induction u as [|c u IH]; [cbn; now rewrite C|]. cbn [app cut].
  destruct (strip separator (c :: u ++ 10 :: v)) as [q|] eqn:E.
  - exfalso. apply strip_spec in E. unfold separator in E. cbn in N.
    destruct u as [|w1 [|w2 [|w3 w]]]; cbn [app] in E; [discriminate E|discriminate E| |].
    + injection E as -> -> -> _. apply D. exists []. reflexivity.
    + injection E as -> -> -> -> _. apply N. cbn. auto.
  - rewrite IH; [reflexivity| |]; [intros I; apply N; now right|]. intros [x ->]. apply D. exists (c :: x). reflexivity.
Qed.
Lemma cut_tail w : cut separator (w ++ [10]) = None -> cut separator (w ++ 10 :: dashes) = None.
Proof.
  induction w as [|c w IH]; [reflexivity|]. cbn [app cut]. destruct (strip separator (c :: w ++ [10])) as [q|] eqn:E; [discriminate|]. intros H.
  assert (H' : cut separator (w ++ [10]) = None) by (destruct (cut separator (w ++ [10])) as [[? ?]|]; congruence). rewrite (IH H').
  destruct (strip separator (c :: w ++ 10 :: dashes)) as [q|] eqn:E2; [|reflexivity]. exfalso. apply strip_spec in E2. pose proof (proj1 (strip_none _ _) E) as N. unfold separator, dashes in *.
  destruct w as [|w1 [|w2 [|w3 w]]]; cbn [app] in E2, N; [discriminate E2|discriminate E2| |].
  - injection E2 as -> -> -> _. apply (N []). reflexivity.
  - injection E2 as -> -> -> -> _. apply (N (w ++ [10])). reflexivity.
Qed.
Lemma nl_after s : ~ ends dashes s -> ~ occurs separator s -> ~ occurs separator (s ++ [10]).
Proof.
  intros D O (x & y & E). destruct (rev y) as [|z r] eqn:R.
  - apply (f_equal (@rev Z)) in R. rewrite rev_involutive in R. cbn in R. subst y. unfold separator in E. rewrite app_nil_r in E.
    change [45; 45; 45; 10] with (dashes ++ [10]) in E. rewrite app_assoc in E. apply app_inj_tail in E. destruct E as [E _]. apply D. exists x. auto.
  - apply (f_equal (@rev Z)) in R. rewrite rev_involutive in R. cbn in R. subst y. rewrite !app_assoc in E. apply app_inj_tail in E. destruct E as [E _]. apply O. exists x, (rev r). now rewrite E, <- app_assoc.
Qed.

(** ** Trimming *)
Lemma trim_left_spec c s : exists n, s = repeat c n ++ trim_left c s.
Proof.
  induction s as [|d s [n IH]]; [exists 0%nat; reflexivity|]. cbn. destruct (Z.eqb_spec d c) as [->|N]; [exists (S n); cbn; now rewrite <- IH|exists 0%nat; reflexivity].
Qed.
Lemma trim_right_spec c s : (exists n, s = trim_right c s ++ repeat c n) /\ ~ ends [c] (trim_right c s).
Proof.
  unfold trim_right. split.
  - destruct (trim_left_spec c (rev s)) as [n E]. exists n. rewrite <- (rev_involutive s) at 1. rewrite E at 1. rewrite rev_app_distr. f_equal.
    clear. induction n as [|n IH]; [reflexivity|]. cbn. rewrite IH. clear. induction n; [reflexivity|]. cbn. f_equal. auto.
  - intros [x E]. apply (f_equal (@rev Z)) in E. rewrite rev_involutive, rev_app_distr in E. cbn in E. apply trim_left_head in E. auto.
Qed.
Lemma trim_right_id c s : ~ ends [c] s -> trim_right c s = s.
Proof.
  intros N. unfold trim_right. destruct (rev s) as [|d r] eqn:R; [apply (f_equal (@rev Z)) in R; rewrite rev_involutive in R; subst; reflexivity|].
  cbn [trim_left]. destruct (Z.eqb_spec d c) as [->|X]; [|rewrite <- R; apply rev_involutive]. destruct N. exists (rev r). apply (f_equal (@rev Z)) in R. now rewrite rev_involutive in R.
Qed.
Lemma trim_right_nl c s : ~ ends [c] s -> trim_right c (s ++ [c]) = s.
Proof. intros N. unfold trim_right. rewrite rev_app_distr. cbn. rewrite Z.eqb_refl. now apply trim_right_id. Qed.

(** ** Maps *)
Lemma get_set k c k' es : get k' (set k c es) = if same k k' then Some c else get k' es.
Proof.
  induction es as [|[a x] es IH]; cbn; [destruct (same k k'); reflexivity|]. destruct (same a k) eqn:E; cbn.
  - apply same_spec in E. subst a. destruct (same k k'); reflexivity.
  - rewrite IH. destruct (same a k') eqn:E2; [|reflexivity]. apply same_spec in E2. subst a. destruct (same k k') eqn:E3; [|reflexivity]. apply same_spec in E3. subst. rewrite same_refl in E. discriminate.
Qed.
Lemma in_keys_set k c es x : In x (keys (set k c es)) <-> x = k \/ In x (keys es).
Proof.
  induction es as [|[a y] es IH]; cbn; [intuition|]. destruct (same a k) eqn:E; cbn; [apply same_spec in E; subst; intuition|]. unfold keys in IH. rewrite IH. intuition.
Qed.
Lemma nodup_set k c es : NoDup (keys es) -> NoDup (keys (set k c es)).
Proof.
  induction es as [|[a y] es IH]; cbn; intros N; [repeat constructor; auto|]. inversion N as [|? ? NI N']; subst. destruct (same a k) eqn:E; cbn; [apply same_spec in E; subst; auto|].
  constructor; [|auto]. change (~ In a (keys (set k c es))). rewrite in_keys_set. intros [->|I]; [rewrite same_refl in E; discriminate|auto].
Qed.
Lemma get_in k c es : get k es = Some c -> In (k, c) es.
Proof. induction es as [|[a y] es IH]; cbn; [discriminate|]. destruct (same a k) eqn:E; [apply same_spec in E; intros [= ->]; subst; auto|auto]. Qed.
Lemma get_none k es : get k es = None <-> ~ In k (keys es).
Proof.
  induction es as [|[a y] es IH]; cbn; [intuition|]. destruct (same a k) eqn:E; [apply same_spec in E; subst; split; [discriminate|intuition]|].
  rewrite IH. unfold keys. split; [intros H [->|I]; [rewrite same_refl in E; discriminate|auto]|auto].
Qed.
Lemma in_get k c es : NoDup (keys es) -> In (k, c) es -> get k es = Some c.
Proof.
  induction es as [|[a y] es IH]; cbn; [contradiction|]. intros N [[= -> ->]|I]; [now rewrite same_refl|]. inversion N as [|? ? NI N']; subst. destruct (same a k) eqn:E; [|auto].
  apply same_spec in E. subst. destruct NI. apply (in_map fst) in I. exact I.
Qed.
Lemma set_Forall (P : list Z * list Z -> Prop) k c es : P (k, c) -> Forall P es -> Forall P (set k c es).
Proof. intros H F. induction F as [|[a y] es X F IH]; cbn; [constructor; auto|]. destruct (same a k); constructor; auto. Qed.

(** ** Blocks *)
Definition semi (c : list Z) : Prop := ~ ends [10] c /\ ~ occurs separator c.
Definition reread (c : list Z) : list Z := match strip dashes (rev c) with Some r => trim_right 10 (rev r) | None => c end.
Definition blocks (s : list Z) := split (S (length s)) separator s.
Lemma sep_ne : separator <> [].
Proof. discriminate. Qed.
Lemma split_fuel n : forall m s, (length s < n)%nat -> (length s < m)%nat -> split n separator s = split m separator s.
Proof.
  induction n as [|n IH]; intros m s A B; [lia|]. destruct m as [|m]; [lia|]. cbn [split]. destruct (cut separator s) as [[x y]|] eqn:C; [|reflexivity].
  apply cut_some in C. f_equal. subst s. rewrite !app_length in A, B. cbn [separator length] in A, B. apply IH; lia.
Qed.
Lemma blocks_step s x y : cut separator s = Some (x, y) -> blocks s = x :: blocks y.
Proof.
  intros C. unfold blocks at 1. cbn [split]. rewrite C. f_equal. apply cut_some in C. subst s. apply split_fuel; [rewrite !app_length; cbn [separator length]; lia|lia].
Qed.
Lemma key_not_dashes k : good_key k -> ~ ends dashes k.
Proof.
  intros [_ [m ->]] [x E]. change dashes with ([45; 45] ++ [45]) in E. rewrite !app_assoc in E. apply app_inj_tail in E. destruct E as [_ E]. discriminate.
Qed.
Lemma cut_body k v : good_key k -> cut separator v = None -> cut separator ([10] ++ k ++ [10] ++ v) = None.
Proof.
  intros G C. apply (cut_line []); [intros []|intros [x X]; destruct x; discriminate|]. change (k ++ [10] ++ v) with (k ++ 10 :: v). apply cut_line; [apply G|now apply key_not_dashes|auto].
Qed.
Lemma strip_dashes c r : strip dashes (rev c) = Some r -> c = rev r ++ dashes.
Proof. intros E. apply strip_spec in E. apply (f_equal (@rev Z)) in E. rewrite rev_involutive, rev_app_distr in E. exact E. Qed.
Lemma strip_dashes_none c : strip dashes (rev c) = None -> ~ ends dashes c.
Proof. intros E [x ->]. rewrite rev_app_distr in E. apply (proj1 (strip_none _ _) E (rev x)). reflexivity. Qed.
Lemma parse_block_spec es k v : good_key k -> parse_block es ([10] ++ k ++ [10] ++ v) = set k (trim_right 10 v) es.
Proof.
  intros [N [m E]]. unfold parse_block. cbn [app trim_left Z.eqb Pos.eqb]. assert (T : trim_left 10 (k ++ 10 :: v) = k ++ 10 :: v) by (subst k; reflexivity). rewrite T.
  destruct (k ++ 10 :: v) as [|z w] eqn:Q; [destruct k; discriminate|]. rewrite <- Q, cut_newline by auto.
  assert (S1 : strip [91] k = Some (m ++ [93])) by (now apply strip_spec). assert (S2 : strip [93] (rev k) = Some (rev m ++ [91])).
  { apply strip_spec. subst k. cbn [app]. change (91 :: m ++ [93]) with ([91] ++ m ++ [93]). rewrite !rev_app_distr. cbn. reflexivity. }
  now rewrite S1, S2.
Qed.
Lemma entry_blocks k c rest es : good_key k -> semi c ->
  fold_left parse_block (blocks (print_entry k c ++ rest)) es = fold_left parse_block (blocks rest) (set k (reread c) es).
Proof.
  intros G [NE NO]. unfold reread. destruct (strip dashes (rev c)) as [r|] eqn:S.
  - apply strip_dashes in S. set (d := rev r) in *. clearbody d. subst c.
    replace (print_entry k (d ++ dashes) ++ rest) with (([10] ++ k ++ [10] ++ d) ++ separator ++ (separator ++ rest)).
    2:{ unfold print_entry, separator, dashes. rewrite <- !app_assoc. cbn [app]. reflexivity. }
    rewrite (blocks_step _ ([10] ++ k ++ [10] ++ d) (separator ++ rest)).
    2:{ apply cut_block. rewrite <- !app_assoc. apply cut_body; [auto|]. now apply cut_none. }
    rewrite (blocks_step (separator ++ rest) [] rest) by reflexivity. cbn [fold_left]. rewrite parse_block_spec by auto. reflexivity.
  - apply strip_dashes_none in S. replace (print_entry k c ++ rest) with (([10] ++ k ++ [10] ++ c ++ [10]) ++ separator ++ rest).
    2:{ unfold print_entry. rewrite <- !app_assoc. reflexivity. }
    rewrite (blocks_step _ ([10] ++ k ++ [10] ++ c ++ [10]) rest).
    2:{ apply cut_block. rewrite <- !app_assoc. apply cut_body; [auto|]. change ([10] ++ dashes) with (10 :: dashes). apply cut_tail. apply cut_none; [discriminate|]. now apply nl_after. }
    cbn [fold_left]. rewrite parse_block_spec by auto. now rewrite trim_right_nl.
Qed.
Definition print (l : entries) : list Z := flat_map (fun kc => print_entry (fst kc) (snd kc)) l.
Lemma print_blocks l : forall es, Forall (fun kc => good_key (fst kc) /\ semi (snd kc)) l ->
  fold_left parse_block (blocks (print l)) es = fold_left (fun es kc => set (fst kc) (reread (snd kc)) es) l es.
Proof.
  induction l as [|[k c] l IH]; intros es F; [reflexivity|]. inversion F as [|? ? [G S] F']; subst. cbn [print flat_map fst snd fold_left]. rewrite entry_blocks by auto. apply IH; auto.
Qed.
Lemma fold_set_get l : forall es k, NoDup (keys l) ->
  get k (fold_left (fun es kc => set (fst kc) (reread (snd kc)) es) l es) = match get k l with Some c => Some (reread c) | None => get k es end.
Proof.
  induction l as [|[a c] l IH]; intros es k N; [reflexivity|]. inversion N as [|? ? NI N']; subst. cbn [fold_left fst snd get]. rewrite IH by auto.
  destruct (same a k) eqn:E.
  - apply same_spec in E. subst a. rewrite (proj2 (get_none k l) NI), get_set, same_refl. reflexivity.
  - destruct (get k l); [reflexivity|]. now rewrite get_set, E.
Qed.
Lemma semi_norm c : good_content c -> reread c = c /\ semi c.
Proof.
  intros [NE NO]. split.
  - unfold reread. destruct (strip dashes (rev c)) as [r|] eqn:S; [|reflexivity]. apply strip_dashes in S. destruct NO. exists (rev r), []. rewrite S, app_nil_r. unfold dashes. now rewrite <- app_assoc.
  - split; [auto|]. intros (x & y & E). apply NO. exists x, (y ++ [10]). rewrite E, <- !app_assoc. reflexivity.
Qed.

Definition fine (es : entries) : Prop := NoDup (keys es) /\ Forall (fun kc => good_key (fst kc) /\ semi (snd kc)) es.
Lemma parse_written sort es k : sorts sort -> fine es -> get k (parse (written sort es)) = option_map reread (get k es).
Proof.
  intros SO [N F]. destruct (SO (keys es)) as [P _]. set (l := map (fun k => (k, match get k es with Some c => c | None => [] end)) (sort (keys es))).
  assert (W : written sort es = print l).
  { unfold written, print, l. fold (keys es). rewrite !flat_map_concat_map, map_map. reflexivity. }
  assert (KL : keys l = sort (keys es)). { unfold l, keys. rewrite map_map. cbn. apply map_id. }
  assert (NL : NoDup (keys l)) by (rewrite KL; eapply Permutation_NoDup; eauto).
  assert (GL : forall k, get k l = get k es).
  { intros x. destruct (get x es) as [c|] eqn:G.
    - apply in_get; [auto|]. unfold l. apply in_map_iff. exists x. rewrite G. split; [auto|]. eapply Permutation_in; [exact P|]. apply get_in, (in_map fst) in G. exact G.
    - apply get_none. rewrite KL. intros I. apply Permutation_sym in P. apply (Permutation_in _ P) in I. apply get_none in G. auto. }
  assert (FL : Forall (fun kc => good_key (fst kc) /\ semi (snd kc)) l).
  { apply Forall_forall. intros [x c] I. apply in_get in I; [|auto]. rewrite GL in I. apply get_in in I. rewrite Forall_forall in F. apply (F _ I). }
  unfold parse. fold (blocks (written sort es)). rewrite W, print_blocks, fold_set_get, GL by auto. cbn. destruct (get k es); reflexivity.
Qed.

(** What is read from any file. *)
Lemma split_no_sep n : forall s x, In x (split n separator s) -> ~ occurs separator x.
Proof.
  induction n as [|n IH]; intros s x; [intros []|]. cbn [split]. destruct (cut separator s) as [[u v]|] eqn:C.
  - intros [<-|I]; [eapply cut_some_first; [apply sep_ne|eauto]|eauto].
  - intros [<-|[]]. apply cut_none; [apply sep_ne|auto].
Qed.
Lemma parse_block_fine es block : ~ occurs separator block -> fine es -> fine (parse_block es block).
Proof.
  intros NO [N F]. unfold parse_block. destruct (trim_left_spec 10 block) as [n E]. destruct (trim_left 10 block) as [|z w]; [split; auto|].
  destruct (cut [10] (z :: w)) as [[k after]|] eqn:C; [|split; auto]. destruct (strip [91] k) as [m|] eqn:S1; [|split; auto]. destruct (strip [93] (rev k)) as [m'|] eqn:S2; [|split; auto].
  pose proof (cut_some _ _ _ _ C) as CS. pose proof (cut_some_first [10] _ _ _ ltac:(discriminate) C) as CF.
  split; [now apply nodup_set|]. apply set_Forall; [|auto]. cbn [fst snd]. split; [split|split].
  - intros I. apply in_split in I. destruct I as (p & q & ->). apply CF. exists p, q. reflexivity.
  - apply strip_spec in S1, S2. apply (f_equal (@rev Z)) in S2. rewrite rev_involutive, rev_app_distr in S2. cbn [rev app] in S2.
    destruct m as [|y m] using rev_ind; [subst k; destruct (rev m') as [|? [|? ?]]; discriminate|]. rewrite S1 in S2. rewrite app_assoc in S2. apply app_inj_tail in S2. destruct S2 as [_ ->]. exists m. auto.
  - apply trim_right_spec.
  - intros (x & y & O). destruct (proj1 (trim_right_spec 10 after)) as [n' E']. apply NO. exists (repeat 10 n ++ k ++ [10] ++ x), (y ++ repeat 10 n').
    rewrite E, CS, E', O. now rewrite <- !app_assoc.
Qed.
Lemma parse_fine d : fine (parse d).
Proof.
  unfold parse. assert (X : forall l es, Forall (fun x => ~ occurs separator x) l -> fine es -> fine (fold_left parse_block l es)).
  { induction l as [|x l IH]; intros es F H; [auto|]. inversion F; subst. cbn. apply IH; [auto|]. now apply parse_block_fine. }
  apply X; [apply Forall_forall; intros x I; eapply split_no_sep; eauto|]. split; constructor.
Qed.

(** ** Theorems *)

(** What is written is read back, whatever the order of iteration over the map. *)
Theorem C34_round_trip :
  forall sort es, sorts sort -> NoDup (keys es) -> (forall k c, In (k, c) es -> good_key k /\ good_content c) ->
    forall k, get k (parse (written sort es)) = get k es.
Proof.
  intros sort es SO N G k. rewrite parse_written; [|auto|split; [auto|]].
  - destruct (get k es) as [c|] eqn:E; [|reflexivity]. cbn. apply get_in in E. destruct (G k c E) as [_ GC]. now rewrite (proj1 (semi_norm c GC)).
  - apply Forall_forall. intros [x c] I. destruct (G x c I) as [GK GC]. split; [auto|]. now apply semi_norm.
Qed.
Print Assumptions C34_round_trip.

(** The condition on contents is exact. *)
Lemma skip_more (x y : list Z) m : skipn (length x + m) (x ++ y) = skipn m y.
Proof. induction x; cbn; auto. Qed.
Lemma piece_short n : forall s x, In x (split n separator s) -> (length x <= length s)%nat /\ (occurs separator s -> (length x + 4 <= length s)%nat).
Proof.
  induction n as [|n IH]; intros s x; [intros []|]. cbn [split]. destruct (cut separator s) as [[u v]|] eqn:C.
  - apply cut_some in C. assert (L : length s = (length u + (4 + length v))%nat) by (subst; rewrite !app_length; reflexivity).
    intros [<-|I]; [split; lia|]. destruct (IH v x I). split; lia.
  - intros [<-|[]]. split; [lia|]. intros O. apply cut_none in C; [contradiction|apply sep_ne].
Qed.
Lemma parse_origin l : forall es k v, get k (fold_left parse_block l es) = Some v -> get k es = Some v \/ exists x, In x l /\ (length k + 1 + length v <= length x)%nat.
Proof.
  induction l as [|x l IH]; intros es k v H; [auto|]. cbn [fold_left] in H. destruct (IH _ _ _ H) as [E|(y & I & L)]; [|right; exists y; split; [now right|auto]].
  unfold parse_block in E. destruct (trim_left_spec 10 x) as [n T]. destruct (trim_left 10 x) as [|z w]; [auto|]. destruct (cut [10] (z :: w)) as [[a after]|] eqn:C; [|auto].
  destruct (strip [91] a); [|auto]. destruct (strip [93] (rev a)); [|auto]. rewrite get_set in E. destruct (same a k) eqn:Q; [|auto]. apply same_spec in Q. subst a. injection E as <-.
  right. exists x. split; [now left|]. apply cut_some in C. destruct (proj1 (trim_right_spec 10 after)) as [n' T'].
  assert (LX : length x = (n + (length k + (1 + length after)))%nat) by (rewrite T, C, !app_length, repeat_length; reflexivity).
  assert (LA : length after = (length (trim_right 10 after) + n')%nat) by (rewrite T' at 1; rewrite app_length, repeat_length; reflexivity). lia.
Qed.
Lemma first_cut p s x y x' y' : p <> [] -> cut p s = Some (x, y) -> s = x' ++ p ++ y' -> (length x <= length x')%nat.
Proof.
  intros NP. revert x y x'. induction s as [|c s IH]; intros x y x' C E.
  - symmetry in E. apply app_eq_nil in E. destruct E as [_ E]. apply app_eq_nil in E. tauto.
  - cbn [cut] in C. destruct (strip p (c :: s)) as [r|] eqn:S; [injection C as <- <-; cbn; lia|]. destruct (cut p s) as [[u v]|] eqn:C'; [|discriminate]. injection C as <- <-.
    destruct x' as [|d x']; [apply (proj1 (strip_none _ _) S) in E; destruct E|]. injection E as _ E. cbn. specialize (IH u v x' eq_refl E). lia.
Qed.
Theorem C34_content_condition_exact :
  forall k c, good_key k -> (get k (parse (print_entry k c)) = Some c <-> good_content c).
Proof.
  intros k c G. split.
  - intros H. split.
    + intros [x E]. assert (F : fine (parse (print_entry k c))) by apply parse_fine. apply get_in in H. destruct F as [_ F]. rewrite Forall_forall in F. destruct (F _ H) as [_ [N _]]. apply N. exists x. auto.
    + intros (x & y & E). unfold parse in H. set (data := print_entry k c) in *.
      set (lead := [10] ++ k ++ [10] ++ x).
      assert (D : data = lead ++ separator ++ (y ++ separator)).
      { unfold lead. unfold data, print_entry. replace (c ++ [10] ++ separator) with ((c ++ [10]) ++ separator) by now rewrite <- app_assoc. rewrite E. unfold separator. now rewrite <- !app_assoc. }
      assert (LD : length data = (length k + length c + 7)%nat). { unfold data, print_entry. rewrite !app_length. cbn [length separator]. lia. }
      destruct (parse_origin _ _ _ _ H) as [Q|(b & I & L)]; [discriminate|].
      assert (X : (length b + 8 <= length data)%nat); [|lia].
      cbn [split] in I. destruct (cut separator data) as [[u v]|] eqn:C.
      * pose proof (first_cut _ _ _ _ _ _ sep_ne C D) as FC. pose proof (cut_some _ _ _ _ C) as CS.
        assert (LV : length data = (length u + (4 + length v))%nat) by (rewrite CS, !app_length; reflexivity).
        assert (LW : length data = (length lead + (4 + (length y + 4)))%nat) by (rewrite D, !app_length; reflexivity).
        destruct I as [<-|I]; [lia|]. assert (OV : occurs separator v).
        { exists (firstn (length v - 4) v), []. rewrite app_nil_r. rewrite <- (firstn_skipn (length v - 4) v) at 1. f_equal.
          transitivity (skipn (length data - 4) data).
          - rewrite CS at 2. rewrite app_assoc. replace (length data - 4)%nat with (length (u ++ separator) + (length v - 4))%nat by (rewrite app_length; cbn [length separator]; lia). now rewrite skip_more.
          - rewrite D at 2. replace (lead ++ separator ++ y ++ separator) with ((lead ++ separator ++ y) ++ separator) by now rewrite <- !app_assoc.
            replace (length data - 4)%nat with (length (lead ++ separator ++ y) + 0)%nat by (rewrite !app_length; cbn [length separator]; lia). now rewrite skip_more. }
        destruct (piece_short _ _ _ I) as [_ PS]. specialize (PS OV). lia.
      * destruct (proj1 (cut_none _ _ sep_ne) C). rewrite D. exists lead, (y ++ separator). reflexivity.
  - intros GC. unfold parse. fold (blocks (print_entry k c)). rewrite <- (app_nil_r (print_entry k c)). destruct (semi_norm c GC) as [E S]. rewrite entry_blocks by auto. cbn. rewrite E, same_refl. reflexivity.
Qed.
Print Assumptions C34_content_condition_exact.

(** The text written does not depend on the order of iteration over the map nor on the sorting algorithm. *)
Theorem C34_written_deterministic :
  forall sort sort' es es', sorts sort -> sorts sort' -> NoDup (keys es) -> NoDup (keys es') -> (forall k, get k es = get k es') ->
    written sort es = written sort' es'.
Proof.
  intros sort sort' es es' SO SO' N N' G. unfold written.
  assert (P : Permutation (keys es) (keys es')).
  { apply NoDup_Permutation; auto. intros k. destruct (in_dec (list_eq_dec Z.eq_dec) k (keys es)) as [I|I], (in_dec (list_eq_dec Z.eq_dec) k (keys es')) as [I'|I']; try tauto.
    - apply get_none in I'. rewrite <- G in I'. apply get_none in I'. tauto.
    - apply get_none in I. rewrite G in I. apply get_none in I. tauto. }
  destruct (SO (keys es)) as [P1 S1], (SO' (keys es')) as [P2 S2].
  assert (E : sort (keys es) = sort' (keys es')).
  { assert (P3 : Permutation (sort (keys es)) (sort' (keys es'))) by exact (Permutation_trans (Permutation_sym P1) (Permutation_trans P P2)).
    clear - S1 S2 P3. revert P3 S2. generalize (sort' (keys es')). induction S1 as [|x l S IH F]; intros l' P S2; [apply Permutation_nil in P; auto|].
    destruct l' as [|y l']; [apply Permutation_sym, Permutation_nil in P; discriminate|]. inversion S2 as [|? ? S2' F2]; subst.
    assert (E : x = y).
    { assert (I : In y (x :: l)) by (eapply Permutation_in; [apply Permutation_sym; exact P|now left]). assert (J : In x (y :: l')) by (eapply Permutation_in; [exact P|now left]).
      destruct I as [->|I]; [auto|]. destruct J as [->|J]; [auto|]. rewrite Forall_forall in F, F2. specialize (F y I). specialize (F2 x J).
      destruct C34_total_order as (T1 & T2 & T3 & _). destruct (T1 x y) as [H|[H|H]]; [contradiction|now apply T2|]. apply T3 in H. contradiction. }
    subst y. f_equal. apply IH; [|auto]. eapply Permutation_cons_inv; eauto. }
  unfold keys in E. rewrite E. apply flat_map_ext. intros k. now rewrite G.
Qed.
Print Assumptions C34_written_deterministic.

(** ** Runs *)
Lemma fine_set k c es : good_key k -> semi c -> fine es -> fine (set k c es).
Proof. intros G S [N F]. split; [now apply nodup_set|]. apply set_Forall; auto. Qed.
(** The entries that a file stands for. *)
Definition view (f : file) : entries := if loaded f then cache f else match disk f with Some d => parse d | None => cache f end.
Definition state_ok (f : file) : Prop := fine (view f).
Lemma view_load f : cache (if loaded f then f else load f) = view f /\ disk (if loaded f then f else load f) = disk f /\ loaded (if loaded f then f else load f) = true.
Proof. unfold view, load. destruct f as [[d|] c []]; cbn; auto. Qed.
Lemma match_update sort f k c update : update = true \/ get k (view f) = None ->
  match_snapshot sort f k c update = (File (Some (written sort (set k c (view f)))) (set k c (view f)) true, true).
Proof.
  intros H. unfold match_snapshot. destruct (view_load f) as (V & _ & _). cbn zeta. rewrite V. destruct (get k (view f)) as [e|] eqn:E; [|reflexivity]. destruct H as [->|H]; [reflexivity|discriminate].
Qed.
Lemma match_compare sort f k c e : get k (view f) = Some e ->
  exists f', match_snapshot sort f k c false = (f', same e c) /\ disk f' = disk f /\ view f' = view f.
Proof.
  intros H. unfold match_snapshot. destruct (view_load f) as (V & D & L). cbn zeta. rewrite V, H. exists (if loaded f then f else load f). split; [reflexivity|]. split; [auto|].
  unfold view at 1. rewrite L. auto.
Qed.

(** After a run that updates, a new run without updating passes: in any order, for any part of the tests,
    whatever was in the file before; and it leaves the file alone. *)
Theorem C34_update_then_pass :
  forall sort old calls, sorts sort -> NoDup (keys calls) -> (forall k c, In (k, c) calls -> good_key k /\ good_content c) ->
    forall again, incl again calls ->
    let d := disk (fst (run sort (fresh old) true calls)) in
    disk (fst (run sort (fresh d) false again)) = d /\ forall p, In p (snd (run sort (fresh d) false again)) -> p = true.
Proof.
  intros sort old calls SO N G again I.
  assert (A : forall l f, NoDup (keys l) -> (forall k c, In (k, c) l -> good_key k /\ good_content c) -> fine (view f) ->
     let f' := fst (run sort f true l) in (l = [] /\ f' = f \/ disk f' = Some (written sort (view f')) /\ l <> []) /\ fine (view f') /\ (forall k, get k (view f') = match get k l with Some c => Some c | None => get k (view f) end)).
  { clear - SO. induction l as [|[k c] l IH]; intros f N G F; [cbn; auto|]. cbn [run]. rewrite match_update by auto.
    set (f1 := File (Some (written sort (set k c (view f)))) (set k c (view f)) true). inversion N as [|? ? NI N']; subst. destruct (G k c (or_introl eq_refl)) as [GK GC].
    destruct (IH f1 N') as (A1 & A2 & A3); [intros; apply G; now right|apply fine_set; auto; now apply semi_norm|]. destruct (run sort f1 true l) as [f2 ps]. cbn [fst] in *.
    split; [right; split; [|discriminate]|split; [auto|]].
    - destruct A1 as [[-> ->]|[A1 _]]; [reflexivity|auto].
    - intros x. rewrite A3. cbn [get]. destruct (get x l) as [e|] eqn:E.
      + destruct (same k x) eqn:Q; [|reflexivity]. apply same_spec in Q. subst x. apply get_in, (in_map fst) in E. destruct (NI E).
      + unfold f1, view at 1. cbn [loaded cache]. rewrite get_set. destruct (same k x); reflexivity. }
  assert (FO : fine (view (fresh old))). { unfold view, fresh. cbn. destruct old; [apply parse_fine|split; constructor]. }
  destruct (A calls (fresh old) N G FO) as (A1 & A2 & A3). cbn zeta. set (f' := fst (run sort (fresh old) true calls)) in *. clearbody f'.
  assert (B : forall l f, (forall k c, In (k, c) l -> get k (view f) = Some c) -> disk (fst (run sort f false l)) = disk f /\ forall p, In p (snd (run sort f false l)) -> p = true).
  { clear. induction l as [|[k c] l IH]; intros f H; [cbn; split; [auto|intros p []]|]. cbn [run]. destruct (match_compare sort f k c c (H k c (or_introl eq_refl))) as (f1 & E & D & V). rewrite E, same_refl.
    destruct (IH f1) as [I1 I2]; [intros; rewrite V; apply H; now right|]. destruct (run sort f1 false l) as [f2 ps]. cbn [fst snd] in *. split; [congruence|]. intros p [<-|J]; auto. }
  destruct (B again (fresh (disk f'))) as [B1 B2]; [|split; auto].
  intros k c J. apply I in J. destruct A1 as [[-> _]|[A1 _]]; [destruct J|]. unfold view, fresh. cbn [loaded disk]. rewrite A1, parse_written by auto. rewrite A3, (in_get k c calls N J). cbn. f_equal. destruct (G k c J) as [_ GC]. apply (semi_norm c GC).
Qed.
Print Assumptions C34_update_then_pass.

(** Without updating, an entry that exists is never changed, and a test passes exactly when its content is the
    entry's; the file itself is not even written when the entry exists. *)
Theorem C34_without_update :
  forall sort f k c, match get k (view f) with
    | Some e => disk (fst (match_snapshot sort f k c false)) = disk f /\ (snd (match_snapshot sort f k c false) = true <-> e = c)
    | None => snd (match_snapshot sort f k c false) = true
    end /\ forall k' e, get k' (view f) = Some e -> get k' (view (fst (match_snapshot sort f k c false))) = Some e.
Proof.
  intros sort f k c. destruct (get k (view f)) as [e|] eqn:E.
  - destruct (match_compare sort f k c e E) as (f' & H & D & V). rewrite H. cbn [fst snd]. split; [split; [auto|apply same_spec]|]. intros k' e' H'. now rewrite V.
  - rewrite match_update by auto. cbn [fst snd]. split; [auto|]. intros k' e' H'. unfold view at 1. cbn [loaded cache]. rewrite get_set. destruct (same k k') eqn:Q; [|auto]. apply same_spec in Q. congruence.
Qed.
Print Assumptions C34_without_update.

(** A run keeps the entries of the tests that did not take part, if their contents can be stored. *)
Theorem C34_others_kept :
  forall sort d update calls, sorts sort -> (forall k c, In (k, c) (parse d) -> good_content c) -> (forall k c, In (k, c) calls -> good_key k /\ good_content c) ->
    exists d', disk (fst (run sort (fresh (Some d)) update calls)) = Some d' /\
      forall k, ~ In k (keys calls) -> get k (parse d') = get k (parse d).
Proof.
  intros sort d update calls SO GD G.
  assert (A : forall l f d, disk f = Some d -> (forall k, get k (parse d) = get k (view f)) -> fine (view f) -> (forall k c, In (k, c) (view f) -> good_content c) -> (forall k c, In (k, c) l -> good_key k /\ good_content c) ->
     exists d', disk (fst (run sort f update l)) = Some d' /\ forall k, ~ In k (keys l) -> get k (parse d') = get k (parse d)).
  { clear - SO. induction l as [|[k c] l IH]; intros f d D V F GV G; [cbn; eauto|]. cbn [run].
    assert (W : (update = true \/ get k (view f) = None) \/ (update = false /\ exists e, get k (view f) = Some e)).
    { destruct update; [auto|]. destruct (get k (view f)) as [e|]; [right; split; eauto|auto]. }
    destruct W as [W|[-> [e W]]].
    - rewrite match_update by auto. set (es := set k c (view f)). set (f1 := File (Some (written sort es)) es true). destruct (G k c (or_introl eq_refl)) as [GK GC].
      assert (FE : fine es) by (apply fine_set; auto; now apply semi_norm).
      assert (GE : forall x y, In (x, y) es -> good_content y).
      { intros x y I. destruct FE as [NE _]. apply (in_get x y es NE) in I. unfold es in I. rewrite get_set in I. destruct (same k x); [congruence|]. apply get_in in I. eauto. }
      assert (PE : forall x, get x (parse (written sort es)) = get x es).
      { intros x. rewrite parse_written by auto. destruct (get x es) as [y|] eqn:E; [|auto]. cbn. f_equal. apply (semi_norm y). apply get_in in E. eauto. }
      destruct (IH f1 (written sort es)) as (d' & D' & K); [reflexivity|exact PE|exact FE|exact GE|intros; apply G; now right|].
      exists d'. destruct (run sort f1 update l) as [f2 ps]. cbn [fst] in *. split; [auto|]. intros x NI. rewrite K by (intros I; apply NI; now right). rewrite PE. unfold es. rewrite get_set.
      destruct (same k x) eqn:Q; [apply same_spec in Q; destruct NI; left; auto|auto].
    - destruct (match_compare sort f k c e W) as (f1 & H & D1 & V1). rewrite H. destruct (IH f1 d) as (d' & D' & K); try (rewrite V1; auto); [congruence|intros; apply G; now right|].
      exists d'. destruct (run sort f1 false l) as [f2 ps]. cbn [fst] in *. split; [auto|]. intros x NI. apply K. intros I. apply NI. now right. }
  apply A; auto. apply parse_fine.
Qed.
Print Assumptions C34_others_kept.

(** A sorting function, to run the examples. *)
Fixpoint insert (x : list Z) (l : list (list Z)) : list (list Z) :=
  match l with y :: l' => match compare_keys y x with Some (-1) => y :: insert x l' | _ => x :: l end | [] => [x] end.
Definition isort (l : list (list Z)) : list (list Z) := fold_right insert [] l.
Lemma isort_sorts : sorts isort.
Proof.
  destruct C34_total_order as (T1 & T2 & T3 & T4).
  assert (NT : forall x y z, compare_keys y x <> Some (-1) -> compare_keys z y <> Some (-1) -> compare_keys z x <> Some (-1)).
  { intros x y z A B C. destruct (T1 y x) as [E|[E|E]]; [contradiction|apply T2 in E; subst; contradiction|]. apply T3 in E. apply B. eapply T4; eauto. }
  assert (P : forall x l, Permutation (x :: l) (insert x l)).
  { intros x. induction l as [|y l IH]; [constructor; constructor|]. cbn [insert]. destruct (T1 y x) as [E|[E|E]]; rewrite E; [|apply Permutation_refl|apply Permutation_refl]. eapply Permutation_trans; [apply perm_swap|]. now constructor. }
  assert (S : forall x l, StronglySorted (fun x y => compare_keys y x <> Some (-1)) l -> StronglySorted (fun x y => compare_keys y x <> Some (-1)) (insert x l)).
  { intros x l H. induction H as [|y l H IH F]; [repeat constructor|]. cbn [insert]. destruct (T1 y x) as [E|E].
    - rewrite E. constructor; [auto|]. apply Forall_forall. intros z I. eapply Permutation_in in I; [|apply Permutation_sym, P]. destruct I as [<-|I].
      + apply T3 in E. congruence.
      + rewrite Forall_forall in F. auto.
    - assert (NE : compare_keys y x <> Some (-1)) by (destruct E as [E|E]; congruence).
      assert (X : match compare_keys y x with Some (-1) => y :: insert x l | _ => x :: y :: l end = x :: y :: l) by (destruct E as [E|E]; rewrite E; reflexivity). rewrite X.
      constructor; [constructor; auto|]. constructor; [auto|]. apply Forall_forall. intros z I. rewrite Forall_forall in F. eapply NT; eauto. }
  intros l. induction l as [|x l [I1 I2]]; [split; constructor|]. cbn [isort fold_right]. split; [|apply S; exact I2].
  eapply Permutation_trans; [|apply P]. now constructor.
Qed.
(** A snapshot of code with a line that ends in three dashes is lost: the code [// ---] as
    [formatDiagnosticsSnapshot] shows it, [  1 | // ---], followed by another line.  The next run, with the same
    content, reports a mismatch. *)
Definition ex_key : list Z := [91; 97; 93].
Definition ex_bad : list Z := [49; 32; 124; 32; 47; 47; 32; 45; 45; 45; 10; 50; 32; 124; 32; 120].
Theorem C34_separator_in_content_refuted :
  exists sort k c, sorts sort /\ good_key k /\ ~ ends [10] c /\
    let d := disk (fst (run sort (fresh None) true [(k, c)])) in snd (run sort (fresh d) false [(k, c)]) = [false].
Proof.
  exists isort, ex_key, ex_bad. split; [apply isort_sorts|]. split; [split; [cbn; intuition discriminate|exists [97]; reflexivity]|]. split; [|reflexivity].
  intros [x E]. apply (f_equal (@rev Z)) in E. rewrite rev_app_distr in E. discriminate.
Qed.
Print Assumptions C34_separator_in_content_refuted.

(** An entry of another test can be changed by a run that never touches it: a file in which a content ends in six
    dashes loses three of them when it is read, and the other three when another test writes the file. *)
Theorem C34_others_kept_refuted :
  exists sort d k c k2 c2, sorts sort /\ good_key k /\ good_content c /\ k2 <> k /\ get k2 (parse d) = Some c2 /\
    exists d', disk (fst (run sort (fresh (Some d)) false [(k, c)])) = Some d' /\ get k2 (parse d') <> Some c2.
Proof.
  exists isort, ([10] ++ [91; 98; 93] ++ [10] ++ [120; 45; 45; 45] ++ separator), ex_key, [121], [91; 98; 93], [120; 45; 45; 45].
  split; [apply isort_sorts|]. split; [split; [cbn; intuition discriminate|exists [97]; reflexivity]|]. split; [split|].
  - intros [[|? [|? ?]] E]; discriminate.
  - change ([121] ++ [10]) with [121; 10]. apply cut_none; [discriminate|reflexivity].
  - split; [discriminate|]. split; [reflexivity|]. eexists. split; [reflexivity|]. cbn. discriminate.
Qed.
Print Assumptions C34_others_kept_refuted.

(** ** Examples *)
Example C34_ex_file :
  let es := [([91; 98; 93], [120; 10; 121]); ([91; 97; 93], [])] in
  parse (written isort es) = rev es /\ good_key [91; 97; 93] /\ good_content [120; 10; 121].
Proof.
  cbn zeta. split; [reflexivity|]. split; [split; [cbn; intuition discriminate|exists [97]; reflexivity]|]. split.
  - intros [x E]. apply (f_equal (@rev Z)) in E. rewrite rev_app_distr in E. discriminate.
  - apply cut_none; [discriminate|reflexivity].
Qed.
Example C34_ex_run :
  let f := fst (run isort (fresh None) false [(ex_key, [120])]) in
  snd (run isort f false [(ex_key, [120]); (ex_key, [121]); ([91; 98; 93], [121])]) = [true; false; true].
Proof. reflexivity. Qed.
