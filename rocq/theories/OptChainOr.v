From Coq Require Import String Ascii Bool List ZArith Lia Sorted.
From Verif Require Import Base EngineProofs OptChain OptChainSpec OptChainProofs OptChainReport OptChainOrSpec.
Import ListNotations.
Open Scope nat_scope.

(** ** Operands joined by || *)
Definition or2 (x y : out) : out := match x with Val v => if truthy v then x else y | _ => x end.
Lemma or2_assoc x y z : or2 (or2 x y) z = or2 x (or2 y z).
Proof. destruct x as [v| |]; cbn; try easy. destruct (truthy v) eqn:T; [cbn; now rewrite T|easy]. Qed.
Lemma result_or w l r : result w (Bin Or l r) = or2 (result w l) (result w r).
Proof.
  unfold result. cbn [eval fst]. unfold after. destruct (close (fst (eval w l))) as [v| |] eqn:C; cbn; try easy.
  - destruct (truthy v); [easy|]. destruct (fst (eval w r)); easy.
  - now destruct (fst (eval w l)).
Qed.
Definition seq_or (w : world) (x : out) (l : list expr) : out := fold_left (fun y e => or2 y (result w e)) l x.
Lemma or_joined w x l : result w (joined Or x l) = seq_or w (result w x) l.
Proof.
  induction l as [|y l IH] using rev_ind; [easy|]. rewrite joined_snoc, result_or, IH. unfold seq_or. now rewrite fold_left_app.
Qed.
Lemma seq_or2 w l : forall x y, seq_or w (or2 x y) l = or2 x (seq_or w y l).
Proof. induction l as [|e l IH]; intros; [easy|]. cbn. rewrite or2_assoc. apply IH. Qed.
Lemma or_join_app w a c : a <> [] -> c <> [] -> result w (join Or (a ++ c)) = or2 (result w (join Or a)) (result w (join Or c)).
Proof.
  destruct a as [|x a], c as [|y c]; try easy. intros _ _. cbn [app join]. rewrite !or_joined. unfold seq_or at 1. rewrite fold_left_app. fold (seq_or w (result w x) a).
  cbn [fold_left]. fold (seq_or w (or2 (seq_or w (result w x) a) (result w y)) c). apply seq_or2.
Qed.
Lemma or_between w before s r news : s <> [] -> news <> [] ->
  (result w (join Or s) <> Throw -> result w (join Or s) = result w (join Or news)) ->
  result w (join Or (before ++ s ++ r)) <> Throw -> result w (join Or (before ++ s ++ r)) = result w (join Or (before ++ news ++ r)).
Proof.
  intros S N H.
  assert (R : forall l, l <> [] -> result w (join Or (l ++ r)) = match r with [] => result w (join Or l) | _ => or2 (result w (join Or l)) (result w (join Or r)) end).
  { intros l L. destruct r; [now rewrite app_nil_r|]. now apply or_join_app. }
  assert (M : result w (join Or (s ++ r)) <> Throw -> result w (join Or (s ++ r)) = result w (join Or (news ++ r))).
  { rewrite !R by easy. destruct r as [|y r]; [easy|]. intro T.
    assert (Ts : result w (join Or s) <> Throw) by (intro E; rewrite E in T; now apply T). now rewrite (H Ts). }
  destruct before as [|x before]; [exact M|]. assert (S' : s ++ r <> []) by now destruct s. assert (N' : news ++ r <> []) by now destruct news.
  rewrite (or_join_app w (x :: before) (s ++ r)), (or_join_app w (x :: before) (news ++ r)) by easy. intro T. destruct (result w (join Or (x :: before))) as [v| |]; cbn in *; try easy.
  destruct (truthy v); [easy|]. now rewrite M.
Qed.
Definition or_good (e : expr) : Prop := fits e /\ 3 < level e.
Lemma or_single_level e : single Or e -> 3 <= level e -> 3 < level e.
Proof.
  intros S L. destruct e; try solve [cbn in *; lia].
  - destruct o; try solve [cbn [level op_level] in *; lia]. exfalso. apply (S e1 e2). reflexivity.
  - destruct parens; cbn; lia.
  - destruct k; cbn in *; lia.
Qed.
Lemma or_good_mixes e : 3 < level e -> mixes Or e = false.
Proof. destruct e; cbn [level mixes]; try easy. destruct o; cbn [op_level]; easy || lia. Qed.
Lemma or_join_fits : forall l, Forall or_good l -> l <> [] -> fits (join Or l) /\ 3 <= level (join Or l) /\ mixes Or (join Or l) = false.
Proof.
  intros l F. induction l as [|y l IH] using rev_ind; [easy|]. intros _. apply Forall_app in F as [F Fy]. inversion Fy as [|? ? [Gy Ly] _]; subst.
  destruct l as [|x l].
  - cbn. split; [easy|]. split; [lia|now apply or_good_mixes].
  - cbn [app join]. rewrite joined_snoc. destruct (IH F) as (A & B & C); [easy|]. cbn [join] in A, B, C.
    split; [|split; [cbn; lia|easy]]. split; [exact A|]. split; [exact Gy|]. split; [exact C|]. split; [exact (or_good_mixes y Ly)|]. cbn. lia.
Qed.
Lemma or_joined_good : forall r x, Forall (single Or) (x :: r) -> r <> [] -> fits (joined Or x r) -> Forall or_good (x :: r).
Proof.
  induction r as [|y r IH] using rev_ind; intros x S N F; [easy|]. rewrite joined_snoc in F. cbn in F. destruct F as (F1 & F2 & _ & _ & L1 & L2).
  change (x :: r ++ [y]) with ((x :: r) ++ [y]) in *. apply Forall_app in S as [S1 S2]. apply Forall_app. split; [|constructor; [split; [easy|lia]|constructor]].
  destruct r as [|z r]; [|now apply IH]. cbn in F1, L1. constructor; [|constructor]. split; [easy|]. inversion S1; subst. now apply or_single_level.
Qed.
Lemma or_join_good l : Forall (single Or) l -> 2 <= length l -> fits (join Or l) -> Forall or_good l.
Proof. destruct l as [|x [|y r]]; cbn [length]; try lia. intros S _ F. now apply or_joined_good. Qed.

(** ** Operands by position *)
Definition or_ops (n : nat) (l : list expr) : list operand := map (fun p => parse false (fst p) (snd p)) (combine (seq n (length l)) l).
Lemma or_ops_app n a c : or_ops n (a ++ c) = or_ops n a ++ or_ops (n + length a) c.
Proof.
  unfold or_ops. revert n. induction a as [|x a IH]; intro n; cbn; [now rewrite Nat.add_0_r|]. f_equal. rewrite IH. now rewrite Nat.add_succ_r.
Qed.
Lemma or_ops_length n l : length (or_ops n l) = length l.
Proof. unfold or_ops. rewrite map_length, combine_length, seq_length. lia. Qed.
Lemma or_operands_join l : l <> [] -> Forall (single Or) l -> operands Or (join Or l) = or_ops 0 l.
Proof.
  intros N S. destruct l as [|x r]; [easy|]. unfold operands. cbn [join]. rewrite spine_joined by easy. cbn [leaves]. rewrite leaves_spread. easy.
Qed.
Lemma or_ops_idx n l : map idx (or_ops n l) = seq n (length l).
Proof.
  unfold or_ops. revert n. induction l as [|x l IH]; intro n; cbn; [easy|]. rewrite parse_idx. f_equal. apply IH.
Qed.
Lemma or_ops_nodes n l : map node (or_ops n l) = l.
Proof. unfold or_ops. revert n. induction l as [|x l IH]; intro n; cbn; [easy|]. rewrite parse_node. f_equal. apply IH. Qed.
Lemma or_ops_run all p c q : or_ops 0 all = p ++ c ++ q -> exists a m z, all = a ++ m ++ z /\ length p = length a /\ c = or_ops (length a) m.
Proof.
  intro E. pose proof (or_ops_length 0 all) as L. rewrite E, !app_length in L.
  exists (firstn (length p) all), (firstn (length c) (skipn (length p) all)), (skipn (length c) (skipn (length p) all)).
  assert (A : all = firstn (length p) all ++ firstn (length c) (skipn (length p) all) ++ skipn (length c) (skipn (length p) all)) by (rewrite !firstn_skipn; easy).
  assert (P : length (firstn (length p) all) = length p) by (rewrite firstn_length; lia). split; [exact A|]. split; [easy|].
  rewrite A in E. rewrite !or_ops_app in E. apply app_inv_len in E as [_ E]; [|now rewrite or_ops_length]. apply app_inv_len in E as [E _]; [easy|].
  rewrite or_ops_length, firstn_length, skipn_length. lia.
Qed.

(** ** Chains are runs of operands *)
Fixpoint or_linked (c : list operand) : Prop := match c with o :: ((o' :: _) as c) => prefix (compared o) (compared o') = true /\ or_linked c | _ => True end.
Lemma or_linked_snoc c o : or_linked c -> (c = [] \/ prefix (compared (final c)) (compared o) = true) -> or_linked (c ++ [o]).
Proof.
  induction c as [|x c IH]; [easy|]. intros L [C|C]; [easy|]. destruct c as [|y c]; [cbn; auto|]. destruct L as [L1 L2]. cbn [app]. split; [easy|]. apply IH; [easy|]. now right.
Qed.
Lemma or_linked_prefix c d : or_linked (c ++ d) -> or_linked c.
Proof. induction c as [|x c IH]; [easy|]. destruct c as [|y c]; [easy|]. cbn [app]. intros [H L]. split; [easy|]. now apply IH. Qed.
Section Loop.
Variable opts : options.
Lemma or_extended cur o : match cmp_extended opts false cur o with Subset | Equal => prefix (compared (final cur)) (compared o) = true | _ => True end.
Proof.
  unfold cmp_extended. pose proof (compare_prefix (compared (final cur)) (compared o)) as C. destruct (compare _ _); try easy.
  destruct (call_extension _ _ _ _ && extends _ _ _ _) eqn:E; [|easy]. apply andb_true_iff in E as [_ E]. unfold extends in E. now apply andb_true_iff in E as [_ E].
Qed.
Definition or_fine (full c : list operand) : Prop := (exists p q, full = p ++ c ++ q) /\ Forall (fun o => or_operand (typ o) = true) c /\ or_linked c.
Lemma or_loop_fine full : forall ops p cur, full = p ++ cur ++ ops -> Forall (fun o => or_operand (typ o) = true) cur -> or_linked cur -> or_fine full (or_loop opts cur ops).
Proof.
  induction ops as [|o ops IH]; intros p cur E F L; cbn [or_loop].
  - split; [|easy]. now exists p, [].
  - assert (Now : or_fine full cur) by (split; [now exists p, (o :: ops)|easy]).
    assert (Drop : or_fine full (or_loop opts [] ops)).
    { apply (IH (p ++ cur ++ [o]) []); [|constructor|easy]. rewrite E. cbn. now rewrite <- !app_assoc. }
    destruct (or_operand (typ o)) eqn:OT; cbn [negb].
    2: { destruct (Nat.leb 2 (length cur)); easy. }
    assert (Fresh : or_fine full (or_loop opts [o] ops)).
    { apply (IH (p ++ cur) [o]); [|now constructor|easy]. rewrite E. now rewrite <- app_assoc. }
    assert (Next : (cur = [] \/ prefix (compared (final cur)) (compared o) = true) -> or_fine full (or_loop opts (cur ++ [o]) ops)).
    { intro C. apply (IH p); [rewrite E; now rewrite <- app_assoc|apply Forall_app; split; [easy|now constructor]|now apply or_linked_snoc]. }
    destruct cur as [|c cur]; [destruct (bad_or_start o); easy|].
    pose proof (or_extended (c :: cur) o) as X. destruct (cmp_extended opts false (c :: cur) o); try (now destruct (Nat.leb 2 (length (c :: cur))));
      repeat match goal with |- context [if ?b then _ else _] => destruct b end; auto.
Qed.
End Loop.
Lemma truncate_prefix type_at c : exists d, c = truncate type_at c ++ d.
Proof.
  induction c as [|o c (d & IH)]; [now exists []|]. destruct c as [|o' c]; [now exists []|]. cbn [truncate]. destruct (half_checked type_at o); [now exists (o' :: c)|]. exists d. cbn [app]. now f_equal.
Qed.
Lemma or_checks_prefix opts type_at c c' : or_checks opts type_at c = Some c' -> exists d, c = c' ++ d.
Proof.
  unfold or_checks. destruct (unsafe opts); [intro H; injection H as <-; exists []; now rewrite app_nil_r|]. cbv zeta.
  repeat match goal with |- context [if ?b then _ else _] => destruct b end; try easy; intro H; injection H as <-; apply truncate_prefix.
Qed.
Lemma or_reported_prefix opts type_at c c' : or_reported opts type_at c = Some c' -> exists d, c = c' ++ d.
Proof.
  unfold or_reported. repeat match goal with |- context [if ?b then _ else _] => destruct b end; try easy.
  destruct (or_checks opts type_at c) as [c''|] eqn:O; [|easy]. repeat match goal with |- context [if ?b then _ else _] => destruct b end; try easy. intro H; injection H as <-. now apply or_checks_prefix in O.
Qed.


(** ** The text of the new access *)
Definition stripped (parts : list part) (lengths : list nat) (co : bool) (i : nat) (p : part) : part :=
  if Nat.ltb i (length parts - 1) && opt_at parts lengths co (S i) && non_null p && Nat.ltb i (fold_right Nat.max 0 lengths)
  then (if bang p then Part (what p) false (cut p) (optional p) (non_null p) else Part (what p) false true (optional p) (non_null p)) else p.
Definition strip_all (parts : list part) (lengths : list nat) (co : bool) : list part := map (fun x => stripped parts lengths co (fst x) (snd x)) (number parts).
Lemma stripped_same parts lengths co i p : let q := stripped parts lengths co i p in what q = what p /\ optional q = optional p.
Proof. unfold stripped. repeat match goal with |- context [if ?b then _ else _] => destruct b end; easy. Qed.
Lemma stripped_tidy parts lengths co i p : tidy p -> (non_null p = true -> bang p = true) -> tidy (stripped parts lengths co i p).
Proof.
  intros [T1 T2] B. unfold stripped. destruct (_ && non_null p && _) eqn:E; [|easy]. apply andb_true_iff in E as [E _]. apply andb_true_iff in E as [_ E]. rewrite (B E). now split.
Qed.
Lemma number_map {A B} (f : nat * A -> B) l : number (map f (number l)) = map (fun x => (fst x, f x)) (number l).
Proof.
  unfold number. rewrite map_length, combine_length, seq_length, Nat.min_id. generalize 0 as s. induction l as [|x l IH]; intro s; cbn; [easy|]. f_equal. apply IH.
Qed.
Lemma strip_length parts lengths co : length (strip_all parts lengths co) = length parts.
Proof. unfold strip_all, number. rewrite map_length, combine_length, seq_length. lia. Qed.
Lemma nth_strip parts lengths co i : nth_error (strip_all parts lengths co) i = option_map (fun p => stripped parts lengths co i p) (nth_error parts i).
Proof. unfold strip_all. rewrite nth_error_map, nth_number. now destruct (nth_error parts i). Qed.
Lemma strip_opt parts lengths co i : opt_at (strip_all parts lengths co) lengths co i = opt_at parts lengths co i.
Proof.
  unfold opt_at. destruct i as [|i]; [easy|]. rewrite nth_strip, strip_length. destruct (nth_error parts (S i)) as [p|]; [|easy]. cbn [option_map].
  destruct (stripped_same parts lengths co (S i) p) as [E1 E2]. unfold call_part. now rewrite E1, E2.
Qed.
Lemma strip_build parts lengths co code : build parts lengths co true = Some code -> build (strip_all parts lengths co) lengths co false = Some code.
Proof.
  unfold build. cbv zeta. rewrite (number_map (fun x => stripped parts lengths co (fst x) (snd x)) parts : number (strip_all parts lengths co) = _).
  assert (E : existsb (fun x : nat * part => opt_at (strip_all parts lengths co) lengths co (fst x) && private_part (snd x)) (map (fun x => (fst x, stripped parts lengths co (fst x) (snd x))) (number parts))
    = existsb (fun x : nat * part => opt_at parts lengths co (fst x) && private_part (snd x)) (number parts)).
  { induction (number parts) as [|[i p] l IH]; [easy|]. cbn [map existsb fst snd]. rewrite IH, strip_opt. f_equal. unfold private_part. now rewrite (proj1 (stripped_same parts lengths co i p)). }
  rewrite E.
  match goal with |- (if ?c then _ else _) = _ -> _ => destruct c end; [easy|]. intro H. injection H as <-. f_equal. clear E. generalize (number parts) as m. induction m as [|[i p] l IH]; [easy|]. cbn [map flat_map fst snd]. rewrite IH. f_equal. rewrite !strip_opt. reflexivity.
Qed.
Lemma flatten_bang : forall e x ls above, access_of e = Some (x, ls) -> (root_asserted above e = false \/ exists n, x = Id n) -> Forall (fun p => non_null p = true -> bang p = true) (flatten_ above e).
Proof.
  assert (B : forall e x (ls : list (link * bool)) p above, (if simple_base e then Some (e, []) else None) = Some (x, ls) -> (above = false \/ exists n, x = Id n) -> non_null p = above -> (is_id e = true -> above = true -> bang p = true) ->
    Forall (fun p => non_null p = true -> bang p = true) [p]).
  { intros e x ls p above H R N I. destruct (simple_base e); [|easy]. injection H as <- <-. constructor; [|constructor]. rewrite N. intros ->. destruct R as [R|[n ->]]; [easy|]. now apply I. }
  induction e; intros y ls above H R; cbn [access_of] in H; cbn [flatten_]; cbn [root_asserted] in R;
    try solve [match type of H with (if simple_base ?e then _ else _) = _ => refine (B e _ _ _ above H R _ _) end; [reflexivity|cbn; try easy; now intros _ ->]].
  - destruct (access_of e) as [[z m]|] eqn:A; [|easy]. injection H as <- <-. apply Forall_app. split; [now apply (IHe z m)|]. constructor; [easy|constructor].
  - destruct (access_of e1) as [[z m]|] eqn:A; [|easy]. injection H as <- <-. apply Forall_app. split; [now apply (IHe1 z m)|]. constructor; [easy|constructor].
  - destruct (access_of e) as [[z m]|] eqn:A; [|easy]. injection H as <- <-. apply Forall_app. split; [now apply (IHe z m)|]. constructor; [easy|constructor].
  - now apply (IHe y ls).
  - destruct e; try (now apply (IHe y ls)); easy.
Qed.
Lemma or_code_spec a x ll lengths co code : access_of a = Some (x, ll) -> plain_root a -> build (flatten a) lengths co true = Some code ->
  exists e' qs, code = text e' /\ (fits x -> fits e') /\ 17 <= level e' /\ length qs = length ll /\ (forall w, eval w e' = walk w (eval w x) (combine (map fst ll) qs))
    /\ (forall i, nth i (map snd ll) false = true -> nth i qs false = true) /\ (forall i, i < length ll -> member (S i) lengths = true -> nth i qs false = true).
Proof.
  intros A R H. pose proof (flatten_shaped a x ll false A) as Sh. pose proof (shaped_length _ _ _ Sh) as Lp. destruct Sh as (W & O & T). fold (flatten a) in *.
  set (ps := flatten a) in *.
  assert (B : Forall (fun p => non_null p = true -> bang p = true) ps).
  { apply (flatten_bang a x ll false A). destruct R as [R|(n & l & R)]; [now left|]. right. rewrite A in R. injection R as -> _. now exists n. }
  apply strip_build in H. set (ps' := strip_all ps lengths co) in *.
  assert (W' : map what ps' = PBase x (wraps x) :: map link_piece (map fst ll)).
  { unfold ps', strip_all. rewrite (map_number_what (fun x => stripped ps lengths co (fst x) (snd x)) what) by (intros; apply stripped_same). rewrite W. now rewrite map_map. }
  assert (T' : Forall tidy ps').
  { unfold ps', strip_all. clear - T B. unfold number. generalize 0 as s. revert T B. generalize ps at 1 2 4 5 as l. induction l as [|p l IH]; intros T B s; cbn; constructor.
    - apply stripped_tidy; [exact (Forall_inv T)|exact (Forall_inv B)].
    - apply IH; [exact (Forall_inv_tail T)|exact (Forall_inv_tail B)]. }
  pose proof (build_text ps' lengths co code x (map fst ll) W' T' H) as TX. rewrite map_length in TX. set (qs := map (opt_at ps' lengths co) (seq 1 (length ll))) in *.
  destruct (access_simple a x ll A) as [SB _].
  exists (built ps' qs), qs. split; [easy|].
  assert (BS : forall w, eval w (built ps' qs) = walk w (eval w x) (combine (map fst ll) qs) /\ 17 <= level (built ps' qs) /\ (fits x -> fits (built ps' qs))) by (intro w; now apply built_spec).
  assert (w0 : world) by (apply World; intros; try exact None; try exact Undef; try exact false; exact []).
  split; [apply (BS w0)|]. split; [apply (BS w0)|]. split; [unfold qs; now rewrite map_length, seq_length|]. split; [intro w; apply BS|].
  assert (Q : forall i, i < length ll -> nth i qs false = opt_at ps lengths co (S i)).
  { intros i Hi. unfold qs. rewrite nth_flags by easy. unfold ps'. apply strip_opt. }
  assert (P : forall i, i < length ll -> exists p, nth_error ps (S i) = Some p).
  { intros i Hi. destruct (nth_error ps (S i)) as [p|] eqn:E; [now exists p|]. apply nth_error_None in E. lia. }
  split.
  - intros i Hi. assert (Li : i < length ll). { destruct (Nat.ltb_spec i (length ll)); [easy|]. rewrite nth_overflow in Hi by (rewrite map_length; lia). easy. }
    rewrite Q by easy. destruct (P i Li) as [p E]. unfold opt_at. rewrite E. assert (OP : optional p = true).
    { rewrite <- O in Hi. destruct ps as [|p0 r]; [easy|]. cbn [tl] in Hi. cbn in E. rewrite (nth_error_nth (map optional r) i false (x := optional p)) in Hi; [easy|]. now rewrite nth_error_map, E. }
    rewrite OP. now rewrite orb_true_r.
  - intros i Hi M. rewrite Q by easy. destruct (P i Hi) as [p E]. unfold opt_at. rewrite E, M. easy.
Qed.

(** ** What the operands are *)
Lemma or_check_comparison k e v at_ ty_at : bare e -> parse_check false k e v at_ ty_at = if is_null v || is_undefined v then Some (Comparison, e, at_) else None.
Proof.
  intro B. destruct (bare_access e B) as (Ia & Sk & _). unfold parse_check. rewrite Sk.
  assert (T : match e, v with Typeof y, Str s => if beqb s (b "undefined") && match k with Ne3 | Ne2 => false | Eq3 | Eq2 => negb false | _ => false end then Some (TypeofCheck, y, ty_at) else None | _, _ => None end = None)
    by now destruct e.
  rewrite T, Ia. reflexivity.
Qed.
Lemma or_check_guard k e v at_ ty_at x ls : access_of e = Some (x, ls) -> nothing v -> (k = Eq2 \/ k = Eq3) ->
  exists t, parse_check false k e v at_ ty_at = Some (t, skip e, at_) /\ match t with NotNull | NotUndef | NotBoth | Comparison => True | _ => False end.
Proof.
  intros A N K. unfold parse_check. assert (S : access_of (skip e) = Some (x, ls)) by now rewrite access_skip.
  assert (T : match skip e, v with Typeof y, Str s => if beqb s (b "undefined") && match k with Ne3 | Ne2 => false | Eq3 | Eq2 => negb false | _ => false end then Some (TypeofCheck, y, ty_at) else None | _, _ => None end = None)
    by (destruct N as [->| ->]; now destruct (skip e)).
  rewrite T. destruct (is_access (skip e)); destruct N as [->| ->], K as [->| ->]; eexists; (split; [reflexivity|easy]).
Qed.
Lemma or_parse_guard i g a t x ls : or_guard g a t -> access_of a = Some (x, ls) -> or_operand (typ (parse false i g)) = true ->
  let o := parse false i g in
  is_plain o = false /\ access_of (compared o) = Some (x, ls) /\ match typ o with Neg | NotNull | NotUndef | NotBoth | Comparison => True | _ => False end /\ otype_eqb (typ o) Neg = t.
Proof.
  intros G A. destruct G as [a|k a v K N|k a v K N].
  - unfold parse. cbn [unwrap is_this]. change (strip_base (Pre Not a)) with (Pre Not a). cbv iota. destruct (is_this a); [easy|]. cbn. auto.
  - assert (P : exists t, parse false i (Bin k a v) = Operand i t (Bin k a v) (skip a) OnLeft /\ match t with NotNull | NotUndef | NotBoth | Comparison => True | _ => False end).
    { destruct (or_check_guard k a v OnLeft TypeofLeft x ls A N K) as (t & E & T). exists t. split; [|easy]. unfold parse. cbn [unwrap is_this]. change (strip_base (Bin k a v)) with (Bin k a v). rewrite (nothing_nullish v N). cbn [orb].
      rewrite E. destruct K as [->| ->]; reflexivity. }
    destruct P as (t & -> & T). intros _. unfold is_plain. cbn. rewrite access_skip. destruct t; easy.
  - assert (P : exists t, parse false i (Bin k v a) = Operand i t (Bin k v a) (skip a) OnRight /\ match t with NotNull | NotUndef | NotBoth | Comparison => True | _ => False end).
    { destruct (or_check_guard k a v OnRight TypeofRight x ls A N K) as (t & E & T). exists t. split; [|easy]. unfold parse. cbn [unwrap is_this]. change (strip_base (Bin k v a)) with (Bin k v a). rewrite (access_not_nullish a x ls A), (nothing_nullish v N). cbn [orb].
      rewrite E. destruct K as [->| ->]; reflexivity. }
    destruct P as (t & -> & T). intros _. unfold is_plain. cbn. rewrite access_skip. destruct t; easy.
Qed.
Lemma or_parse_finish i s a fin x ls : or_finish s a fin -> access_of a = Some (x, ls) -> (fin <> None -> bare a) -> or_operand (typ (parse false i s)) = true ->
  let o := parse false i s in
  match fin with
  | None => o = Operand i Neg s a Negated
  | Some (k, v) => equality k /\ no_access v /\ ((o = Operand i Comparison s a OnLeft /\ s = Bin k a v) \/ (o = Operand i Comparison s a OnRight /\ s = Bin k v a /\ 8 < level v))
  end.
Proof.
  intros F A B. destruct F as [a|k a v K N|k a v K N L].
  - unfold parse. cbn [unwrap is_this]. change (strip_base (Pre Not a)) with (Pre Not a). cbv iota. destruct (is_this a); [easy|]. cbn. auto.
  - intros _. specialize (B ltac:(easy)). destruct (bare_access a B) as (Ia & Sa & _). pose proof (no_access_skip v N) as Iv. split; [easy|]. split; [easy|]. left. split; [|easy].
    unfold parse. cbn [unwrap is_this]. change (strip_base (Bin k a v)) with (Bin k a v). rewrite (access_not_nullish a x ls A).
    assert (D : forall (T : Type) (p q : T), match Bin k a v with Bin And _ _ | Bin Or _ _ => p | _ => q end = q) by (intros; destruct K as [->|[->|[->| ->]]]; reflexivity).
    rewrite D. rewrite (or_check_comparison k a v _ _ B).
    assert (CP : parse_comparison k a v = Some (Comparison, a, OnLeft)) by (unfold parse_comparison; rewrite Sa, Ia, Iv; destruct K as [->|[->|[->| ->]]]; reflexivity).
    rewrite CP. destruct (is_nullish v || is_str v); [|reflexivity]. destruct (is_null v || is_undefined v); reflexivity.
  - intros _. specialize (B ltac:(easy)). destruct (bare_access a B) as (Ia & Sa & _). pose proof (no_access_skip v N) as Iv. split; [easy|]. split; [easy|]. right. split; [|easy].
    unfold parse. cbn [unwrap is_this]. change (strip_base (Bin k v a)) with (Bin k v a). rewrite (access_not_nullish a x ls A).
    assert (D : forall (T : Type) (p q : T), match Bin k v a with Bin And _ _ | Bin Or _ _ => p | _ => q end = q) by (intros; destruct K as [->|[->|[->| ->]]]; reflexivity).
    rewrite D. rewrite (or_check_comparison k a v _ _ B).
    assert (CP : parse_comparison k v a = Some (Comparison, a, OnRight)) by (unfold parse_comparison; rewrite Sa, Ia, Iv; destruct K as [->|[->|[->| ->]]]; reflexivity).
    rewrite CP. destruct (is_nullish v || is_str v); [|reflexivity]. destruct (is_null v || is_undefined v); reflexivity.
Qed.

(** ** Meaning *)
Lemma result_not w e : result w (Pre Not e) = after (result w e) (fun v => Val (Boolean (negb (truthy v)))).
Proof. unfold result. cbn [eval fst]. unfold after. destruct (fst (eval w e)); easy. Qed.
Lemma or_guard_result w g a t : or_guard g a t -> result w g <> Throw ->
  fst (eval w a) <> Throw
  /\ exists c, result w g = Val (Boolean c) /\ (c = true -> (t = true -> forall v, result w a = Val v -> ~ falsy_only v) -> exists u, result w a = Val u /\ nullishb u = true).
Proof.
  intros G T.
  assert (R : forall e, result w e <> Throw -> fst (eval w e) <> Throw) by (intros e H E; apply H; unfold result; now rewrite E).
  assert (V : forall e, result w e <> Throw -> exists v, result w e = Val v).
  { intros e H. unfold result in *. destruct (fst (eval w e)) as [v| |]; cbn in *; [now exists v|now exists Undef|easy]. }
  destruct G as [a|k a v K N|k a v K N].
  - rewrite result_not in *. assert (A : result w a <> Throw) by (intro E; rewrite E in T; now apply T). split; [auto|]. destruct (V a A) as [u U]. rewrite U. cbn. eexists. split; [reflexivity|].
    intros F H. exists u. split; [easy|]. apply negb_true_iff in F. specialize (H eq_refl u eq_refl). unfold falsy_only, nullish in H. destruct u; cbn in *; try easy; exfalso; apply H; intuition; easy.
  - assert (Ek : equality k) by (unfold equality; tauto). rewrite result_bin in T |- * by easy. destruct (nothing_value w v N) as (u & E & U & _).
    assert (A : result w a <> Throw) by (intro A; rewrite A in T; now apply T). split; [auto|]. destruct (V a A) as [y Y]. rewrite Y, E. unfold after. cbn [close]. destruct K as [->| ->]; cbn [binary_out]; eexists; (split; [reflexivity|]); intros F _; exists y; (split; [easy|]).
    + now rewrite (proj1 (loose_nothing w y u U)) in F.
    + destruct y, u; cbn in *; easy.
  - assert (Ek : equality k) by (unfold equality; tauto). rewrite result_bin in T |- * by easy. destruct (nothing_value w v N) as (u & E & U & _). rewrite E in *. unfold after in *. cbn [close] in *.
    assert (A : result w a <> Throw) by (intro A; rewrite A in T; now apply T). split; [auto|]. destruct (V a A) as [y Y]. rewrite Y. cbn [close]. destruct K as [->| ->]; cbn [binary_out]; eexists; (split; [reflexivity|]); intros F _; exists y; (split; [easy|]).
    + now rewrite (proj2 (loose_nothing w y u U)) in F.
    + destruct y, u; cbn in *; easy.
Qed.
Definition or_finish_with (e : expr) (fin : option (op * expr)) : expr := match fin with None => Pre Not e | Some (k, v) => Bin k e v end.
Record or_piece (w : world) (x : expr) (L : list link) (Q : list bool) (g : expr) (ls : list (link * bool)) : Prop := {
  op_guard : exists a t, or_guard g a t /\ access_of a = Some (x, ls) /\ (t = true -> forall v, result w a = Val v -> ~ falsy_only v);
  op_prefix : exists m more, L = map fst ls ++ m :: more;
  op_marks : forall i, nth i (map snd ls) false = true -> nth i Q false = true }.
Definition fin_holds (w : world) (fin : option (op * expr)) : Prop := match fin with None => True | Some (k, v) => exists u, result w v = Val u /\ holds_for_undefined k u end.
Lemma holds_true w k u : equality k -> holds_for_undefined k u -> binary_out w k Undef u = Val (Boolean true).
Proof.
  intros [->|[->|[->| ->]]] H; cbn in *.
  - unfold loose. cbn. destruct H as [-> | ->]; easy.
  - unfold loose. cbn. destruct u; cbn; try easy; exfalso; apply H; unfold nullish; auto.
  - now subst.
  - destruct u; easy.
Qed.
Lemma swap_result w k l r : symmetric w -> equality k -> result w (Bin k l r) <> Throw -> result w (Bin k l r) = result w (Bin k r l).
Proof.
  intros [S1 S2] K. rewrite !result_bin by easy.
  assert (C : forall e, result w e <> Short) by (intro e; unfold result; destruct (fst (eval w e)); easy).
  pose proof (C l) as Cl. pose proof (C r) as Cr. destruct (result w l) as [u| |]; try easy.
  destruct (result w r) as [v| |]; try easy. cbn. intros _.
  assert (E : strict w u v = strict w v u) by (unfold strict; destruct u, v; easy). assert (E' : loose w u v = loose w v u) by (unfold loose; destruct (nullishb u), (nullishb v); easy).
  destruct K as [->|[->|[->| ->]]]; cbn; now rewrite ?E, ?E'.
Qed.
Lemma or_segment w x L : forall gs lss s a ls fin qs e', Forall2 (or_piece w x L qs) gs lss ->
  (s = or_finish_with a fin \/ (symmetric w /\ exists k v, fin = Some (k, v) /\ s = Bin k v a)) -> (match fin with Some (k, _) => equality k | None => True end) -> access_of a = Some (x, ls) -> map fst ls = L ->
  eval w e' = walk w (eval w x) (combine L qs) -> length qs = length L -> (forall i, nth i (map snd ls) false = true -> nth i qs false = true) -> Forall (fun l => nth (length l) qs false = true) lss ->
  fin_holds w fin -> result w (join Or (gs ++ [s])) <> Throw -> result w (join Or (gs ++ [s])) = result w (or_finish_with e' fin).
Proof.
  intros gs lss s a ls fin qs e' FG Es Eq Aa EL Ee Lq FM FT Fs.
  assert (KP : forall Q : list (list bool), (forall q, In q Q -> forall i, nth i q false = true -> nth i qs false = true) -> kept qs Q).
  { intros Q H i (q & I & C) A. apply (H q I). now apply A. }
  assert (G : forall gs2 lss2 gs1 lss1, gs = gs1 ++ gs2 -> lss = lss1 ++ lss2 -> Forall2 (or_piece w x L qs) gs2 lss2 ->
    (forall q, In q (map (map snd) lss1) -> length q <= length L /\ fst (walk w (eval w x) (combine L q)) <> Throw /\ forall i, nth i q false = true -> nth i qs false = true) ->
    result w (join Or (gs2 ++ [s])) <> Throw -> result w (join Or (gs2 ++ [s])) = result w (or_finish_with e' fin)).
  2: { intro T. apply (G gs lss [] []); auto. easy. }
  induction gs2 as [|g gs2 IH]; intros lss2 gs1 lss1 E1 E2 F2 Q T.
  - inversion F2; subst lss2. rewrite app_nil_r in E2. subst lss1. cbn [app join joined fold_left] in T |- *.
    assert (Sw : result w s = result w (or_finish_with a fin)).
    { destruct Es as [->|(Sy & k & v & -> & ->)]; [easy|]. cbn [or_finish_with]. now apply swap_result. }
    rewrite Sw in T |- *.
    assert (Ta : fst (eval w a) <> Throw).
    { intro C. apply T. unfold or_finish_with. destruct fin as [[k v]|].
      - rewrite result_bin by easy. unfold result at 1. now rewrite C.
      - rewrite result_not. unfold result. now rewrite C. }
    destruct (sim_result w a x ls Aa Ta) as [W R].
    assert (K : fst (eval w e') = fst (walk w (eval w x) ls)).
    { rewrite Ee. destruct (walk_core w L (eval w x) qs (map (map snd) (lss ++ [ls])) Lq) as [C _].
      - intros q I. rewrite map_app in I. apply in_app_or in I as [I|[<-|[]]]; [destruct (Q q I) as (Q1 & Q2 & _); auto|]. rewrite map_length, <- EL, map_length. split; [lia|].
        pose proof (combine_prefix ls []) as CP. rewrite app_nil_r in CP. now rewrite CP.
      - apply KP. intros q I. rewrite map_app in I. apply in_app_or in I as [I|[<-|[]]]; [destruct (Q q I) as (_ & _ & Q3); auto|exact FM].
      - rewrite (C (map snd ls)).
        + rewrite <- EL. pose proof (combine_prefix ls []) as CP. rewrite app_nil_r in CP. now rewrite CP.
        + rewrite map_app. apply in_or_app. right. now left.
        + rewrite map_length, <- EL. now rewrite map_length. }
    assert (R2 : result w e' = result w a) by (unfold result at 1; now rewrite K, R).
    unfold or_finish_with. destruct fin as [[k v]|]; [rewrite !result_bin by easy|rewrite !result_not]; now rewrite R2.
  - inversion F2 as [|? ls2 ? lss2' P F2']; subst. destruct P as [(ga & t & Gg & Ag & Fo) (m & more & Pm) MM].
    assert (NE : gs2 ++ [s] <> []) by now destruct gs2.
    assert (J : result w (join Or ((g :: gs2) ++ [s])) = or2 (result w g) (result w (join Or (gs2 ++ [s])))).
    { change ((g :: gs2) ++ [s]) with ([g] ++ (gs2 ++ [s])). now rewrite or_join_app. }
    rewrite J in T |- *. assert (Tg : result w g <> Throw) by (intro C; rewrite C in T; now apply T).
    destruct (or_guard_result w g ga t Gg Tg) as [Ta (c & V & N)]. destruct (sim_result w ga x ls2 Ag Ta) as [W R].
    assert (Q' : forall q, In q (map (map snd) (lss1 ++ [ls2])) -> length q <= length (map fst ls) /\ fst (walk w (eval w x) (combine (map fst ls) q)) <> Throw /\ forall i, nth i q false = true -> nth i qs false = true).
    { intros q I. rewrite map_app in I. apply in_app_or in I as [I|[<-|[]]]; [now apply Q|]. rewrite Pm. rewrite combine_prefix. split; [|easy]. rewrite app_length, !map_length. lia. }
    rewrite V in T |- *. destruct c.
    + destruct (N eq_refl Fo) as (u & U & NU).
      assert (K : fst (eval w e') = Short).
      { rewrite Ee. destruct (walk_core w (map fst ls) (eval w x) qs (map (map snd) (lss1 ++ [ls2])) Lq) as [_ C].
        - intros q I. destruct (Q' q I) as (Q1 & Q2 & _). auto.
        - apply KP. intros q I. destruct (Q' q I) as (_ & _ & Q3). auto.
        - apply (C (map snd ls2)).
          + rewrite map_app. apply in_or_app. right. now left.
          + rewrite map_length, Pm, app_length, map_length. cbn. lia.
          + rewrite Pm, combine_prefix. rewrite R in U. destruct (fst (walk w (eval w x) ls2)) as [z| |]; cbn in *; [injection U as ->; easy|easy|easy].
          + rewrite map_length. rewrite Forall_forall in FT. apply FT. apply in_or_app. right. now left. }
      assert (Re : result w e' = Val Undef) by (unfold result; now rewrite K). cbn [or2 truthy].
      unfold or_finish_with. destruct fin as [[k' v']|].
      * destruct Fs as (u' & V' & B). rewrite result_bin by easy. rewrite Re, V'. cbn. now rewrite (holds_true w k' u').
      * rewrite result_not, Re. easy.
    + cbn [or2 truthy] in T |- *. apply (IH lss2' (gs1 ++ [g]) (lss1 ++ [ls2])); auto; now rewrite <- app_assoc.
Qed.
Lemma flat_spine o e all : flat o e all -> all = leaves (spine o e).
Proof.
  assert (LA : forall a c, leaves (a ++ c) = leaves a ++ leaves c) by (induction a as [|[] a IH]; intro c; cbn; auto; now rewrite IH).
  induction 1 as [l r ls rs H1 IH1 H2 IH2|e ls a c E H IH|e S].
  - cbn [spine]. rewrite op_eqb_refl, LA. cbn [leaves]. now subst.
  - cbn [spine]. rewrite E, op_eqb_refl. cbn [leaves]. rewrite LA. cbn [leaves]. now rewrite app_nil_r.
  - destruct e; try reflexivity.
    + cbn [spine]. destruct (skip e) eqn:K; try reflexivity. destruct (op_eqb o0 o) eqn:Q; [|reflexivity]. exfalso. apply op_eqb_eq in Q. subst. eapply S. cbn [skip]. exact K.
    + cbn [spine]. destruct (op_eqb o0 o) eqn:Q; [|reflexivity]. exfalso. apply op_eqb_eq in Q. subst. eapply S. reflexivity.
Qed.
Section OrFixes.
Variables (opts : options) (type_at : nat -> expr -> ty).
Lemma or_fixes_chain e f : In f (or_fixes opts type_at e) -> let all := leaves (spine Or e) in
  exists a m rest z, all = a ++ m ++ rest ++ z /\ 2 <= length m /\ let c := or_ops (length a) m in let c0 := or_ops (length a) (m ++ rest) in
    Forall (fun o => or_operand (typ o) = true) c0 /\ or_linked c0 /\ valid_chain opts type_at false c0 = true /\ or_reported opts type_at c0 = Some c
    /\ or_fix opts type_at (spine Or e) (length all) c = Some f
    /\ first f = length a /\ last_ f = length a + length m - 1 /\ whole f = Nat.eqb (length m) (length all).
Proof.
  intros I all. unfold or_fixes in I. change (operands Or e) with (or_ops 0 all) in I. destruct (Nat.ltb _ 2); [easy|]. apply in_flat_map in I as (c0 & Ic & If).
  destruct (valid_chain opts type_at false c0) eqn:V; [|easy]. rewrite or_ops_length in If.
  destruct (or_reported opts type_at c0) as [c|] eqn:R; [|easy].
  unfold or_chains in Ic. destruct (Nat.ltb _ 2); [easy|]. destruct Ic as [<-|[]]. set (c0 := or_loop opts [] (or_ops 0 all)) in *.
  destruct (or_loop_fine opts (or_ops 0 all) (or_ops 0 all) [] []) as ((p & q & E) & T & L); [easy|constructor|easy|]. fold c0 in E, T, L.
  destruct (or_ops_run all p c0 q E) as (a & m0 & z & Ea & La & Em).
  destruct (or_reported_prefix _ _ _ _ R) as (d & Ed).
  assert (Em' : or_ops (length a) m0 = c ++ d) by congruence.
  set (m := firstn (length c) m0). set (rest := skipn (length c) m0).
  assert (Emr : m0 = m ++ rest) by (unfold m, rest; now rewrite firstn_skipn).
  assert (Lc : length c <= length m0) by (apply (f_equal (@length _)) in Em'; rewrite or_ops_length, app_length in Em'; lia).
  assert (Lm : length m = length c) by (unfold m; rewrite firstn_length; lia).
  assert (Ec : c = or_ops (length a) m).
  { rewrite Emr, or_ops_app in Em'. apply app_inv_len in Em' as [Em' _]; [easy|]. now rewrite or_ops_length. }
  exists a, m, rest, z. split; [rewrite Ea, Emr; now rewrite <- app_assoc|].
  assert (V2 : 2 <= length m).
  { unfold or_reported in R. repeat match type of R with context [if ?b then _ else _] => destruct b end; try easy.
    destruct (or_checks _ _ _) as [c'|]; [|easy]. destruct (Nat.ltb_spec (length c') 2); [easy|]. repeat match type of R with context [if ?b then _ else _] => destruct b end; try easy. injection R as ->. lia. }
  split; [easy|]. cbv zeta. rewrite <- Emr, <- Em, <- Ec. split; [easy|]. split; [easy|]. split; [easy|]. split; [easy|].
  destruct (or_fix _ _ _ _ _) as [f'|] eqn:AF; [|easy]. destruct If as [<-|[]]. split; [easy|].
  assert (F : first f' = idx (start c) /\ last_ f' = idx (final c) /\ whole f' = Nat.eqb (length c) (length all)).
  { unfold or_fix in AF. destruct (_ && _ && _); [easy|]. destruct (build _ _ _ _); [|easy]. injection AF as <-. cbn. easy. }
  destruct F as (F1 & F2 & F3). rewrite F1, F2, F3, Ec, or_ops_length. split; [|split; [|easy]].
  - destruct m as [|e0 m']; [cbn in V2; lia|]. cbn. apply parse_idx.
  - destruct m as [|e0 m'] using rev_ind; [cbn in V2; lia|]. rewrite or_ops_app. unfold final. cbn [or_ops length seq combine map fst snd]. rewrite last_last, parse_idx, app_length. cbn. lia.
Qed.
Lemma or_joined_spine all : Forall (single Or) all -> all <> [] -> leaves (spine Or (join Or all)) = all.
Proof. intros S N. destruct all as [|x r]; [easy|]. cbn [join]. rewrite spine_joined by easy. cbn [leaves]. now rewrite leaves_spread. Qed.
Theorem or_fix_right all before gs s after gas a fin f :
  all = before ++ gs ++ s :: after -> Forall (single Or) all -> fits (join Or all) -> In f (or_fixes opts type_at (join Or all)) ->
  first f = length before -> last_ f = length before + length gs ->
  Forall2 (fun g p => or_guard g (fst p) (snd p)) gs gas -> or_finish s a fin -> Forall (fun p => shorter (fst p) a /\ marked_in (fst p) a) gas -> (fin <> None -> bare a) -> plain_root a ->
  exists s', text (join Or (before ++ s' :: after)) = fixed Or (join Or all) f /\ fits (join Or (before ++ s' :: after))
    /\ forall w, Forall (fun p => snd p = true -> forall v, result w (fst p) = Val v -> ~ falsy_only v) gas -> (forall k v, fin = Some (k, v) -> s = Bin k v a -> symmetric w) ->
         match fin with Some (k, v) => exists u, result w v = Val u /\ holds_for_undefined k u | None => True end ->
         result w (join Or all) <> Throw -> result w (join Or all) = result w (join Or (before ++ s' :: after)).
Proof.
  intros Ea Sg Fi If F1 F2 FG FN SH BA PR.
  assert (SN : fin = None -> s = Pre Not a) by (intros ->; now inversion FN).
  assert (Nall : all <> []) by (rewrite Ea; destruct before, gs; easy).
  pose proof (or_fixes_chain (join Or all) f If) as C. cbv zeta in C. rewrite (or_joined_spine all Sg Nall) in C. destruct C as (a0 & m & rest & z & Em & Lm & CT & CL & CV & CR & CF & C1 & C2 & C3).
  assert (Lb : length a0 = length before) by congruence. assert (Lg : length m = S (length gs)) by (rewrite C2 in F2; lia).
  assert (E1 : a0 = before /\ m ++ rest ++ z = gs ++ s :: after) by (apply app_inv_len; [congruence|easy]). destruct E1 as [-> E1].
  assert (E2 : m = gs ++ [s] /\ rest ++ z = after).
  { apply app_inv_len; [rewrite <- app_assoc; exact E1|]. rewrite app_length. cbn. lia. }
  destruct E2 as [-> Ez]. clear E1 Lb C1. set (n := length before) in *.
  assert (La : 2 <= length all) by (rewrite Ea, !app_length; rewrite app_length in Lm; cbn in *; lia).
  pose proof (or_join_good all Sg La Fi) as GA.
  assert (Ec : or_ops n (gs ++ [s]) = or_ops n gs ++ [parse false (n + length gs) s]) by (now rewrite or_ops_app).
  set (cg := or_ops n gs) in *. set (l := parse false (n + length gs) s) in *.
  rewrite or_ops_app, Ec in CT. apply Forall_app in CT as [CT _]. apply Forall_app in CT as [CTg CTl]. apply Forall_inv in CTl. rewrite Ec in CF.
  assert (Ngs : gs <> []) by (intros ->; cbn in Lm; lia).
  assert (AA : exists x ll, access_of a = Some (x, ll)).
  { destruct gas as [|q gas]; [inversion FG; now subst|]. apply Forall_inv in SH. destruct SH as [(x & ls & ll & _ & A & _) _]. now exists x, ll. }
  destruct AA as (x & ll & AA).
  assert (Fs : fits s /\ 3 < level s). { assert (I : In s all) by (rewrite Ea; apply in_or_app; right; apply in_or_app; right; now left). rewrite Forall_forall in GA. exact (GA s I). }
  pose proof (or_parse_finish (n + length gs) s a fin x ll FN AA BA CTl) as PF. fold l in PF. cbv zeta in PF.
  assert (Fa : fits a). { destruct FN as [a|k a v K Nv|k a v K Nv Lv]; cbn [fits] in Fs; tauto. }
  assert (Fx : fits x) by (destruct (access_simple a x ll AA) as [_ FX]; now apply FX).
  assert (Cl : compared l = a /\ is_plain l = false).
  { destruct fin as [[k v]|]; [|now rewrite PF]. destruct PF as (_ & _ & [[-> _]|[-> _]]); easy. }
  destruct Cl as [Cl Pl].
  (* the guards *)
  assert (GO : Forall2 (fun p o => or_guard (node o) (fst p) (snd p) /\ access_of (compared o) = access_of (fst p) /\ is_plain o = false) gas cg).
  { clear - FG SH CTg. unfold cg in *. clear cg. clearbody n. revert n CTg. induction FG as [|g p gs gas G FG IH]; intros n CT; [constructor|]. inversion SH as [|? ? [(x & ls & ll & A & _) _] SH']; subst.
    cbn in CT. inversion CT; subst. cbn. constructor; [|now apply IH]. destruct (or_parse_guard n g (fst p) (snd p) x ls G A H1) as (P1 & P2 & _). rewrite parse_node. split; [easy|]. split; [|easy]. now rewrite P2, A. }
  (* the new access *)
  unfold or_fix in CF. destruct (_ && _ && _); [easy|].
  assert (Fl : final (cg ++ [l]) = l) by (unfold final; now rewrite last_last).
  assert (Tail : or_trailing_plain opts (cg ++ [l]) = false) by (unfold or_trailing_plain; rewrite Fl, Pl; now rewrite andb_false_r). rewrite Tail in CF. rewrite Fl in CF. rewrite Pl, Cl in CF.
  set (lengths := map (fun o => depth (compared o)) (cg ++ [l])) in *. destruct (build _ lengths _ true) as [code|] eqn:HB; [|easy].
  destruct (or_code_spec a x ll lengths _ code AA PR HB) as (e' & qs & Tx & Ft & Lv & Lq & Ev & QM & QL).
  specialize (Ft Fx). set (s' := or_finish_with e' fin). exists s'.
  assert (New : new f = text s').
  { injection CF as <-. cbn [new]. rewrite app_nil_r. unfold or_around, s'. destruct fin as [[k v]|].
    - destruct PF as (K & Nv & [[-> ->]|(-> & -> & _)]); cbn [typ comparison_or_null node place_of or_finish_with text].
      + destruct (bare_access a) as (_ & _ & -> & _); [now apply BA|]. cbn [Nat.eqb negb]. now rewrite Tx.
      + now rewrite Tx.
    - rewrite PF. cbn. now rewrite Tx. }
  assert (Good : or_good s').
  { unfold s'. destruct fin as [[k v]|]; [|split; [split; [lia|easy]|cbn; lia]].
    assert (K : equality k) by apply PF. assert (fits v /\ 8 < level v).
    { destruct PF as (_ & _ & [[_ ->]|(_ & -> & Lv8)]); cbn [fits] in Fs; [|tauto]. destruct K as [->|[->|[->| ->]]]; cbn [op_level] in Fs; tauto. }
    unfold or_good. cbn [or_finish_with fits level]. assert (M : forall e, mixes k e = false) by (intro e; destruct K as [->|[->|[->| ->]]]; reflexivity). rewrite !M.
    assert (O8 : op_level k = 8) by (destruct K as [->|[->|[->| ->]]]; reflexivity). rewrite O8. split; [|lia]. split; [easy|]. split; [tauto|]. split; [easy|]. split; [easy|].
    destruct K as [->|[->|[->| ->]]]; lia. }
  split; [|split].
  - unfold fixed. rewrite C3. destruct (Nat.eqb_spec (length (gs ++ [s])) (length all)) as [W|W].
    + rewrite Ea in W. rewrite !app_length in W. cbn in W. destruct before; [|cbn in W; lia]. destruct after; [|cbn in W; lia]. cbn [app join joined fold_left]. now rewrite New.
    + rewrite F1, F2. unfold n. rewrite Ea. destruct gs as [|g gs']; [easy|].
      assert (SS : before ++ (g :: gs') ++ s :: after = before ++ g :: (gs' ++ [s]) ++ after) by (cbn; now rewrite <- app_assoc). rewrite SS.
      replace (length before + length (g :: gs')) with (length before + length (gs' ++ [s])) by (rewrite app_length; cbn; lia).
      rewrite (replace_joined Or before g (gs' ++ [s]) after (new f) s' []); [easy| |]; [rewrite <- SS, <- Ea; exact Sg|]. cbn. now rewrite app_nil_r.
  - apply or_join_fits; [|destruct before; easy]. rewrite Ea in GA. apply Forall_app in GA as [G1 G2]. apply Forall_app in G2 as [_ G3]. apply Forall_inv_tail in G3.
    apply Forall_app. split; [easy|]. now constructor.
  - intros w HG HS HF T. assert (EE : all = before ++ (gs ++ [s]) ++ after) by (rewrite Ea; now rewrite <- app_assoc). rewrite EE in T |- *.
    change (before ++ s' :: after) with (before ++ [s'] ++ after). apply or_between; auto; [now destruct gs|easy|]. clear T. intro T. cbn [join joined fold_left].
    set (lss := map (fun p : expr * bool => match access_of (fst p) with Some (_, l) => l | None => [] end) gas).
    apply (or_segment w x (map fst ll) gs lss s a ll fin qs e'); auto.
    + unfold lss. clear - FG SH HG AA QM. induction FG as [|g p gs gas G FG IH]; [constructor|]. inversion SH as [|? ? [(y & ls & ll' & A & A' & m & more & M) MI] SH']; subst. inversion HG; subst. cbn [map]. constructor; [|now apply IH].
      rewrite AA in A'. injection A' as <- <-. rewrite A. constructor; [now exists (fst p), (snd p)|now exists m, more|]. intros i Hi. apply QM. unfold marked_in, marks in MI. rewrite A, AA in MI. now apply MI.
    + destruct fin as [[k v]|]; [|left; now apply SN]. destruct PF as (_ & _ & [[_ ->]|(_ & -> & _)]); [now left|]. right. split; [eapply HS; reflexivity|]. now exists k, v.
    + destruct fin as [[k v]|]; [apply PF|easy].
    + now rewrite map_length.
    + unfold lss. clear - GO SH QL AA. apply Forall_map. rewrite Forall_forall in *. intros p Ip. destruct (SH p Ip) as [(y & ls & ll' & A & A' & m & more & M) _]. rewrite AA in A'. injection A' as <- <-. rewrite A. apply QL.
      * apply (f_equal (@length _)) in M. rewrite app_length, !map_length in M. cbn in M. lia.
      * unfold member, lengths. apply existsb_exists. exists (S (length ls)). split; [|apply Nat.eqb_refl].
        assert (I : exists o, In o cg /\ access_of (compared o) = access_of (fst p)). { clear - GO Ip. induction GO as [|q o ? ? (H1 & H2 & H3)]; [easy|]. destruct Ip as [->|Ip]; [exists o; split; [now left|easy]|]. destruct IHGO as (o' & I & E); [easy|]. exists o'. split; [now right|easy]. }
        destruct I as (o & Io & Eo). apply in_map_iff. exists o. split; [|apply in_or_app; now left]. apply (shaped_depth _ x ls). now rewrite Eo.
Qed.
(** ** A chain that begins with a negation *)
Fixpoint neg_go (between_ : bool) (l : list operand) : bool :=
  match l with
  | [] => false
  | o :: rest =>
      let last_one := match rest with [] => true | _ => false end in
      let comparison := otype_eqb (typ o) Comparison in
      let middle := comparison && nullish_comparison o && negb last_one in
      let between_ := between_ || middle in
      if negb (otype_eqb (typ o) Neg) && negb (comparison && or_safe o) && negb middle && negb (nullish_check (typ o)) && negb (is_plain o && last_one && between_)
      then true else neg_go between_ rest
  end.
Lemma neg_go_eq c : or_skip_negated opts c =
  let f := start c in
  if otype_eqb (typ f) Neg && negb (unsafe opts) then
    if negb (is_access (skip (compared f))) then neg_go false (tl c)
    else existsb (fun o => otype_eqb (typ o) Comparison && negb (or_safe o)) (tl c)
  else false.
Proof. reflexivity. Qed.
Lemma neg_go_last l : typ l = Comparison -> forall xs m, neg_go m (xs ++ [l]) = false -> or_safe l = true.
Proof.
  intros T. induction xs as [|x xs IH]; intros m H; cbn [app neg_go] in H.
  - rewrite T in H. cbn [otype_eqb negb andb] in H. rewrite andb_false_r in H. unfold is_plain in H. rewrite T in H. destruct (or_safe l); [easy|]. cbn in H. discriminate.
  - match type of H with (if ?b then _ else _) = _ => destruct b; [discriminate|] end. now apply IH in H.
Qed.
Lemma neg_last c f l : otype_eqb (typ f) Neg = true -> unsafe opts = false -> typ l = Comparison -> or_skip_negated opts (f :: c ++ [l]) = false -> or_safe l = true.
Proof.
  intros N U T. rewrite neg_go_eq. cbv zeta. cbn [start hd tl]. rewrite N, U. cbn [negb andb]. destruct (negb (is_access _)); [now apply neg_go_last|]. intro H.
  rewrite existsb_app in H. apply orb_false_iff in H as [_ H]. cbn [existsb] in H. rewrite T, orb_false_r in H. cbn [otype_eqb andb] in H. now apply negb_false_iff in H.
Qed.
Lemma result_skip w e : result w (skip e) = result w e.
Proof. unfold result. induction e; cbn [skip]; try easy. rewrite IHe. cbn [eval fst]. now destruct (fst (eval w e)). Qed.
Lemma safe_value w k v u : literals_exist w -> equality k -> result w v = Val u ->
  (match k with Ne3 => is_literal (skip v) || is_null (skip v) | Eq3 => is_undefined (skip v)
    | Ne2 => negb (is_null (skip v) || is_undefined (skip v)) && negb (is_id (skip v) && negb (is_literal (skip v))) && is_literal (skip v)
    | Eq2 => is_null (skip v) || is_undefined (skip v) | Rel _ => false | _ => true end) = true -> holds_for_undefined k u.
Proof.
  intros LE K R. rewrite <- result_skip in R. revert R. generalize (skip v). clear v. intros v R.
  assert (L : is_literal v = true -> ~ nullish u).
  { intro L. destruct v; try discriminate L; unfold result in R; cbn [eval fst close] in R.
    - injection R as <-. intros [X|X]; discriminate.
    - injection R as <-. intros [X|X]; discriminate.
    - injection R as <-. intros [X|X]; discriminate.
    - apply (LE (Num s)); [easy|]. destruct (const w (Num s)); [|easy]. now injection R as ->.
    - destruct k0; try discriminate L. match type of R with context [const w ?e] => apply (LE e); [easy|]; destruct (const w e); [|easy] end. now injection R as ->. }
  assert (N : is_null v = true -> u = Nul). { destruct v; try discriminate. cbn in R. now injection R as <-. }
  assert (D : is_undefined v = true -> u = Undef).
  { destruct v; try discriminate; unfold is_undefined; cbn [is_undefined_id orb].
    - rewrite orb_false_r. intro X. unfold result in R. cbn [eval fst] in R. unfold undefined_name in R. rewrite X in R. now injection R as <-.
    - intros _. unfold result in R. cbn [eval fst] in R. unfold after in R. destruct (close (fst (eval w v))); try easy; now injection R as <-. }
  destruct K as [->|[->|[->| ->]]]; cbn [holds_for_undefined]; intro H.
  - apply orb_true_iff in H as [H|H]; [right|left]; auto.
  - apply andb_true_iff in H as [_ H]. auto.
  - auto.
  - apply orb_true_iff in H as [H|H]; [|rewrite N; easy]. intros ->. apply (L H). now left.
Qed.
Theorem or_fix_negated all before a0 gs s gas a fin f :
  unsafe opts = false -> all = before ++ (Pre Not a0 :: gs) ++ [s] -> Forall (single Or) all -> fits (join Or all) -> In f (or_fixes opts type_at (join Or all)) ->
  first f = length before -> S (last_ f) = length all ->
  Forall2 (fun g p => or_guard g (fst p) (snd p)) gs gas -> or_finish s a fin -> Forall (fun p => shorter (fst p) a /\ marked_in (fst p) a) ((a0, true) :: gas) -> (fin <> None -> bare a) -> plain_root a ->
  exists s', text (join Or (before ++ [s'])) = fixed Or (join Or all) f /\ fits (join Or (before ++ [s']))
    /\ forall w, literals_exist w -> Forall (fun p => snd p = true -> forall v, result w (fst p) = Val v -> ~ falsy_only v) ((a0, true) :: gas) -> (forall k v, fin = Some (k, v) -> s = Bin k v a -> symmetric w) ->
         (forall k v, fin = Some (k, v) -> result w v <> Throw) ->
         result w (join Or all) <> Throw -> result w (join Or all) = result w (join Or (before ++ [s'])).
Proof.
  intros U Ea Sg Fi If F1 F2 FG FN SH BA PR.
  assert (Hlast : last_ f = length before + length (Pre Not a0 :: gs)). { rewrite Ea, !app_length in F2. cbn [length] in F2 |- *. lia. }
  destruct (or_fix_right all before (Pre Not a0 :: gs) s [] ((a0, true) :: gas) a fin f) as (s' & T & Ft & M); auto; [constructor; [constructor|easy]|].
  exists s'. split; [exact T|]. split; [exact Ft|]. intros w LE HG HS HT NT. apply M; auto. destruct fin as [[k v]|]; [|easy].
  assert (Nall : all <> []) by (rewrite Ea; destruct before; easy).
  pose proof (or_fixes_chain (join Or all) f If) as C. cbv zeta in C. rewrite (or_joined_spine all Sg Nall) in C. destruct C as (b0 & m & rest & z & Em & Lm & CT & CL & CV & CR & CF & C1 & C2 & C3).
  assert (Lb : length b0 = length before) by congruence.
  assert (E1 : b0 = before /\ m ++ rest ++ z = (Pre Not a0 :: gs) ++ [s]) by (apply app_inv_len; [congruence|easy]). destruct E1 as [-> E1].
  assert (E2 : m = (Pre Not a0 :: gs) ++ [s] /\ rest ++ z = []).
  { apply app_inv_len; [rewrite app_nil_r; exact E1|]. rewrite app_length. cbn [length] in *. lia. }
  destruct E2 as [-> Ez]. apply app_eq_nil in Ez as [-> ->]. rewrite app_nil_r in *. set (n := length before) in *.
  assert (Ec : or_ops n ((Pre Not a0 :: gs) ++ [s]) = parse false n (Pre Not a0) :: or_ops (S n) gs ++ [parse false (n + S (length gs)) s]).
  { rewrite or_ops_app. reflexivity. }
  rewrite Ec in CT, CR. set (l := parse false (n + S (length gs)) s) in *.
  assert (Hneg : otype_eqb (typ (parse false n (Pre Not a0))) Neg = true).
  { apply Forall_inv in CT. unfold parse in CT |- *. cbn [unwrap is_this] in *. change (strip_base (Pre Not a0)) with (Pre Not a0) in *. cbv iota in *. destruct (is_this a0); [discriminate CT|]. reflexivity. }
  assert (CTl : or_operand (typ l) = true). { apply Forall_inv_tail in CT. apply Forall_app in CT as [_ CT]. now apply Forall_inv in CT. }
  destruct (Forall_inv SH) as [(x & ls & ll & _ & AA & _) _].
  pose proof (or_parse_finish (n + S (length gs)) s a (Some (k, v)) x ll FN AA BA CTl) as (K & Nv & PF). fold l in PF.
  assert (Tl : typ l = Comparison) by (destruct PF as [[-> _]|[-> _]]; reflexivity).
  assert (Safe : or_safe l = true).
  { apply (neg_last (or_ops (S n) gs) _ l Hneg U Tl). unfold or_reported in CR. destruct (forallb _ _); [easy|]. destruct (or_skip_optimal _ _); [easy|]. destruct (all_same _); [easy|]. destruct (or_skip_chained _ _); [easy|].
    destruct (or_skip_negated _ _); [easy|reflexivity]. }
  assert (Ba : bare a) by (apply BA; discriminate). destruct (bare_access a Ba) as (Ia & Sk & _). pose proof (no_access_skip v Nv) as Iv.
  specialize (HT k v eq_refl). destruct (result w v) as [u| |] eqn:Rv; [|unfold result in Rv; destruct (fst (eval w v)); discriminate|easy]. exists u. split; [reflexivity|].
  apply (safe_value w k v u LE K Rv). unfold or_safe in Safe. rewrite Tl in Safe.
  assert (Nl : node l = s) by apply parse_node. rewrite Nl in Safe.
  destruct PF as [[_ ->]|(_ & -> & _)]; unfold binary in Safe; cbn [skip] in Safe; rewrite ?Sk, ?Ia, ?Iv in Safe; exact Safe.
Qed.
(** ** Any fix *)
Definition or_inner (i : nat) (n u : expr) : operand :=
  let invalid := Operand i Invalid n n Whole in
  let of r := match r with Some (t, e, p) => Operand i t n e p | None => invalid end in
  match u with
  | Bin o l r =>
      let check :=
        if is_nullish r || is_str r then parse_check false o l r OnLeft TypeofLeft
        else if is_nullish l || is_str l then parse_check false o r l OnRight TypeofRight
        else None in
      match check with Some c => of (Some c) | None => of (parse_comparison o l r) end
  | Pre Not e => if is_this e then invalid else Operand i Neg n e Negated
  | _ => Operand i Plain n u Whole
  end.
Lemma or_parse_inner i n : parse false i n = or_inner i n (unwrap n) \/ typ (parse false i n) = Invalid.
Proof.
  unfold parse. destruct (is_this _); [now right|]. fold (or_inner i n (unwrap n)).
  destruct (strip_base (unwrap n)); try (now left). match goal with |- context[match ?o with And => _ | _ => _ end] => destruct o end; (now left) || (now right).
Qed.
Lemma or_inner_about i n : or_operand (typ (or_inner i n (unwrap n))) = true -> or_about n (compared (or_inner i n (unwrap n))).
Proof.
  pose proof (ab_self n) as AS. unfold or_inner, or_about. destruct (unwrap n) eqn:U; try (intros _; left; exact AS).
  - set (c := if is_nullish _ || _ then _ else _). destruct c as [[[t a] p]|] eqn:C; unfold c in C; clear c.
    + intros _. left. cbn [compared]. destruct (_ || _); [eapply check_about; [left; reflexivity|exact U|exact C]|]. destruct (_ || _); [|discriminate]. eapply check_about; [right; reflexivity|exact U|exact C].
    + unfold parse_comparison. destruct o; try easy; (destruct (_ && _); [easy|]; destruct (is_access (skip e2)); [intros _; left; eapply ab_right; exact U|]; destruct (is_access (skip e1)); [intros _; left; eapply ab_left; exact U|easy]).
  - destruct p; try (intros _; left; exact AS). destruct (is_this e); [easy|]. intros _. now right.
Qed.
Lemma or_parse_about i n : or_operand (typ (parse false i n)) = true -> or_about n (compared (parse false i n)).
Proof. destruct (or_parse_inner i n) as [-> | ->]; [apply or_inner_about|easy]. Qed.
Lemma or_consecutive c : or_linked c -> consecutive reads_first (map compared c).
Proof. induction c as [|o c IH]; [easy|]. destruct c as [|o' c]; [easy|]. intros [P L]. cbn [map consecutive]. split; [now apply prefix_iff|]. now apply IH. Qed.
Theorem or_fix_run e f : In f (or_fixes opts type_at e) ->
  exists all before run after accesses, flat Or e all /\ all = before ++ run ++ after /\ 2 <= length run /\ Forall2 or_about run accesses /\ consecutive reads_first accesses
    /\ first f = length before /\ S (last_ f) = length before + length run.
Proof.
  intro I. destruct (or_fixes_chain e f I) as (a & m & rest & z & Em & Lm & CT & CL & _ & _ & _ & F1 & F2 & _).
  exists (leaves (spine Or e)), a, m, (rest ++ z), (map compared (or_ops (length a) m)). split; [apply spine_flat|]. split; [exact Em|]. split; [exact Lm|].
  rewrite or_ops_app in CT, CL. apply Forall_app in CT as [CT _]. apply or_linked_prefix in CL. split; [|split; [now apply or_consecutive|split; [exact F1|lia]]].
  clear - CT. unfold or_ops in *. revert CT. generalize (length a). induction m as [|x m IH]; intros n T; cbn in *; [constructor|]. inversion T; subst. constructor; [now apply or_parse_about|]. now apply IH.
Qed.
(** ** Types and options *)
Theorem or_fix_literal e f : unsafe opts = false -> In f (or_fixes opts type_at e) -> forall all, flat Or e all ->
  forall i n a, first f <= i <= last_ f -> nth_error all i = Some n -> n = Pre Not a -> (exists q, In q (type_at i a) /\ literal q) -> In ANull (type_at i a) \/ In AUndef (type_at i a).
Proof.
  intros U I all FL i n a Hi N -> LI. apply flat_spine in FL. subst all. destruct (or_fixes_chain e f I) as (b0 & m & rest & z & Em & Lm & CT & CL & CV & CR & _ & F1 & F2 & _).
  assert (Io : In (parse false i (Pre Not a)) (or_ops (length b0) m)).
  { rewrite Em, nth_error_app2 in N by lia. rewrite nth_error_app1 in N by lia. replace i with (length b0 + (i - length b0)) by lia. revert N. generalize (i - length b0). generalize (length b0). clear.
    induction m as [|x m IH]; intros k [|j] H; try discriminate; cbn in H; unfold or_ops; cbn.
    - injection H as ->. left. now rewrite Nat.add_0_r.
    - right. specialize (IH (S k) j H). now replace (k + S j) with (S k + j) by lia. }
  assert (T : exists p, parse false i (Pre Not a) = Operand i Neg (Pre Not a) a p).
  { rewrite or_ops_app in CT. apply Forall_app in CT as [CT _]. rewrite Forall_forall in CT. specialize (CT _ Io). unfold parse in CT |- *. cbn [unwrap is_this] in *. change (strip_base (Pre Not a)) with (Pre Not a) in *. cbv iota in *. destruct (is_this a); [discriminate CT|]. eauto. }
  destruct T as [p T]. rewrite T in Io. unfold or_reported in CR. rewrite U in CR. repeat match type of CR with (if ?b then None else _) = _ => destruct b; [discriminate|] end.
  destruct (or_checks _ _ _) as [c'|]; [|discriminate]. repeat match type of CR with (if ?b then None else _) = _ => let E := fresh "E" in destruct b eqn:E; [discriminate|] end. injection CR as ->.
  cbn [negb andb] in *. match goal with H : existsb _ _ = false |- _ => rename H into EX end.
  assert (CT2 : (is_plain (Operand i Neg (Pre Not a) a p) || otype_eqb (typ (Operand i Neg (Pre Not a) a p)) Neg) && changes_type (type_of type_at (Operand i Neg (Pre Not a) a p)) = false).
  { apply not_true_is_false. intro X. assert (Y := proj2 (existsb_exists (fun o => (is_plain o || otype_eqb (typ o) Neg) && changes_type (type_of type_at o)) _) (ex_intro _ _ (conj Io X))). congruence. }
  unfold type_of in CT2. cbn in CT2. unfold changes_type in CT2. apply andb_false_iff in CT2 as [C|C].
  - destruct LI as (q & Iq & Lq). unfold has_literal in C. rewrite has_false in C. apply C in Iq. now destruct q.
  - apply negb_false_iff in C. unfold explicit_nullish in C. now rewrite orb_true_iff, null_iff, undef_iff in C.
Qed.
Theorem or_fix_nullish e f all a : require_nullish opts = true -> In f (or_fixes opts type_at e) -> flat Or e all -> nth_error all (first f) <> Some (Pre Not a).
Proof.
  intros Q I FL N. apply flat_spine in FL. subst all. destruct (or_fixes_chain e f I) as (b0 & m & rest & z & Em & Lm & CT & CL & CV & CR & _ & F1 & F2 & _).
  rewrite Em, F1, nth_error_app2, Nat.sub_diag in N by lia. destruct m as [|x m]; [cbn in Lm; lia|]. cbn [app nth_error] in N. injection N as ->.
  unfold valid_chain in CV. apply andb_true_iff in CV as [_ V]. apply negb_true_iff in V. unfold skip_require_nullish in V. rewrite Q in V. cbn [app] in V, CT. unfold or_ops in V, CT. cbn [length seq combine map fst snd start hd] in V, CT.
  apply Forall_inv in CT. unfold parse at 1 in V. unfold parse in CT. cbn [unwrap is_this] in *. change (strip_base (Pre Not a)) with (Pre Not a) in *. cbv iota in *. destruct (is_this a); [discriminate CT|]. cbn in V. discriminate.
Qed.
(** ** Negations of names after names *)
Definition neg_op (o : operand) : Prop := typ o = Neg /\ place_of o = Negated /\ node o = Pre Not (compared o) /\ dotted (compared o).
Lemma neg_parse i e : dotted e -> parse false i (Pre Not e) = Operand i Neg (Pre Not e) e Negated.
Proof. intro D. unfold parse. cbn [unwrap is_this]. change (strip_base (Pre Not e)) with (Pre Not e). cbv iota. assert (is_this e = false) as -> by (now destruct e). reflexivity. Qed.
Lemma neg_loop : forall ops cur, cur <> [] -> Forall neg_op (cur ++ ops) -> consecutive (fun o o' => shorter (compared o) (compared o')) (cur ++ ops) -> or_loop opts cur ops = cur ++ ops.
Proof.
  induction ops as [|o ops IH]; intros cur N F C; cbn [or_loop]; [now rewrite app_nil_r|].
  assert (Fo : neg_op o) by (apply Forall_app in F as [_ F]; now apply Forall_inv in F). destruct Fo as (T & _ & No & D). rewrite T. cbn [or_operand negb].
  destruct cur as [|x cur]; [easy|]. set (cc := x :: cur) in *. destruct cc as [|l c' _] eqn:Ecc using rev_ind; [easy|].
  assert (Fl : neg_op l) by (apply Forall_app in F as [F _]; apply Forall_app in F as [_ F]; now apply Forall_inv in F). destruct Fl as (Tl & _ & Nl & Dl).
  assert (Sh : shorter (compared l) (compared o)).
  { clear - C. rewrite <- app_assoc in C. cbn [app] in C. induction c' as [|y c' IH]; [apply C|]. apply IH. cbn [app consecutive] in C. destruct (c' ++ l :: o :: ops) eqn:E; [easy|]. apply C. }
  unfold cmp_extended, final. rewrite last_last, (dotted_compare _ _ Dl D Sh). cbn [andb]. rewrite IH; [now rewrite <- app_assoc|now destruct c'| |]; rewrite <- app_assoc; easy.
Qed.
Lemma neg_truncate c : Forall neg_op c -> truncate type_at c = c.
Proof.
  induction c as [|o c IH]; [easy|]. intro F. destruct c as [|o' c]; [easy|]. change (truncate type_at (o :: o' :: c)) with (if half_checked type_at o then [o] else o :: truncate type_at (o' :: c)). pose proof (Forall_inv F) as (T & _). unfold half_checked. rewrite T, andb_false_r. now rewrite IH by now apply Forall_inv_tail in F.
Qed.
Lemma no_pair f c : (forall g o, In g c -> In o c -> f g o = false) -> pair_exists f c = false.
Proof.
  induction c as [|g c IH]; [easy|]. intro H. cbn [pair_exists]. rewrite IH by (intros; apply H; now right). rewrite orb_false_r. apply not_true_is_false. intro X. apply existsb_exists in X as (o & Io & X). rewrite H in X; [easy|now left|now right].
Qed.
Theorem or_dotted_reported accs : require_nullish opts = false -> Forall dotted accs -> consecutive shorter accs -> 2 <= length accs ->
  (unsafe opts = false -> forall i e, nth_error accs i = Some e -> (exists a, In a (type_at i e) /\ literal a) -> In ANull (type_at i e) \/ In AUndef (type_at i e)) ->
  exists f, In f (or_fixes opts type_at (join Or (map (Pre Not) accs))) /\ first f = 0 /\ S (last_ f) = length accs /\ suggestion f = false.
Proof.
  intros Q D C L LI. set (all := map (Pre Not) accs).
  assert (NE : all <> []) by (unfold all; destruct accs; [cbn in L; lia|easy]).
  assert (Sg : Forall (single Or) all) by (unfold all; apply Forall_map, Forall_forall; intros x _ l r; cbn [skip]; discriminate).
  set (c := or_ops 0 all).
  assert (OC : forall l n, Forall dotted l -> or_ops n (map (Pre Not) l) = map (fun p => Operand (fst p) Neg (Pre Not (snd p)) (snd p) Negated) (combine (seq n (length l)) l)).
  { unfold or_ops. induction l as [|x l IH]; intros n F; [easy|]. inversion F; subst. cbn [map length seq combine fst snd]. rewrite neg_parse by easy. f_equal. now apply IH. }
  assert (FC : Forall neg_op c).
  { unfold c, all. rewrite OC by easy. apply Forall_map, Forall_forall. intros [i x] I. apply in_combine_r in I. rewrite Forall_forall in D. repeat split; now apply D. }
  assert (MC : map compared c = accs).
  { unfold c, all. rewrite OC by easy. rewrite map_map. cbn [compared]. clear. generalize 0. induction accs as [|x all IH]; intro n; cbn; [easy|]. f_equal. apply IH. }
  assert (TC : forall o, In o c -> nth_error accs (idx o) = Some (compared o)).
  { unfold c, all. rewrite OC by easy. intros o I. apply in_map_iff in I as ([i x] & <- & I). cbn [idx compared fst snd].
    assert (G : forall l n, In (i, x) (combine (seq n (length l)) l) -> n <= i /\ nth_error l (i - n) = Some x).
    { clear. induction l as [|y l IH]; intros n I; [easy|]. cbn in I. destruct I as [I|I].
      - injection I as <- <-. split; [lia|]. now rewrite Nat.sub_diag.
      - destruct (IH (S n) I) as [Ln H]. split; [lia|]. replace (i - n) with (S (i - S n)) by lia. exact H. }
    destruct (G accs 0 I) as [_ H]. now rewrite Nat.sub_0_r in H. }
  assert (CC : consecutive (fun o o' => shorter (compared o) (compared o')) c) by (rewrite <- MC in C; now apply (consecutive_map shorter compared)).
  assert (La : length all = length accs) by (unfold all; now rewrite map_length).
  assert (Lc : length c = length accs) by (unfold c; now rewrite or_ops_length).
  assert (CH : or_chains opts c = [c]).
  { unfold or_chains. assert (AL2 : or_loop opts [] c = c).
    { destruct c as [|o r] eqn:Ec; [cbn in Lc; lia|]. cbn [or_loop]. pose proof (Forall_inv FC) as (To & _). rewrite To. cbn [or_operand negb]. unfold bad_or_start. rewrite To. apply (neg_loop r [o]); easy. }
    rewrite AL2. destruct (Nat.ltb_spec (length c) 2); [lia|easy]. }
  assert (Hc : exists o1 o2 r, c = o1 :: o2 :: r) by (destruct c as [|o1 [|o2 r]]; [cbn in Lc; lia|cbn in Lc; lia|eauto]). destruct Hc as (o1 & o2 & r & Hc).
  assert (F1 : neg_op o1) by (rewrite Hc in FC; now apply Forall_inv in FC). assert (F2 : neg_op o2) by (rewrite Hc in FC; now apply Forall_inv_tail, Forall_inv in FC).
  assert (S12 : shorter (compared o1) (compared o2)) by (rewrite Hc in CC; apply CC).
  destruct F1 as (T1 & _ & N1 & D1). destruct F2 as (T2 & _ & N2 & D2). destruct (dotted_facts _ D1) as (_ & _ & _ & H1 & _). destruct (dotted_facts _ D2) as (_ & _ & _ & H2 & _).
  assert (TY : forall o, In o c -> typ o = Neg) by (rewrite Forall_forall in FC; intros o I; now apply FC).
  assert (Bs : forall o, In o c -> exists ls, access_of (compared o) = Some (base (compared o1), ls) /\ exists x, base (compared o1) = Id x).
  { assert (B0 : exists ls, access_of (compared o1) = Some (base (compared o1), ls) /\ exists x, base (compared o1) = Id x).
    { destruct (dotted_access _ D1) as (x & ls & A & _). rewrite (base_of _ _ _ A I). eauto. }
    rewrite Hc in *. clear - B0 CC. set (q := base (compared o1)) in *. clearbody q. revert o1 B0 CC. generalize (o2 :: r). induction l as [|o l IH]; intros o1 B CC o' I.
    - destruct I as [<-|[]]. exact B.
    - destruct I as [<-|I]; [exact B|]. apply (IH o); [|apply CC|exact I]. destruct CC as [(x & ls & ll & A & A' & _) _]. destruct B as (l1 & B & Bx). rewrite A in B. injection B as -> ->. eauto. }
  assert (S0 : start c = o1) by now rewrite Hc.
  assert (V0 : valid_chain opts type_at false c = true).
  { unfold valid_chain. apply andb_true_iff. split; [apply andb_true_iff; split; [apply andb_true_iff; split; [apply Nat.leb_le; lia|]|]|].
    - unfold same_base. apply forallb_forall. intros o I. rewrite Hc in I. cbn [tl] in I.
      destruct (Bs o1) as (l1 & A1 & x & Bx); [rewrite Hc; now left|]. destruct (Bs o) as (lo & Ao & _); [rewrite Hc; now right|].
      rewrite S0, (base_of _ _ _ Ao) by now rewrite Bx. rewrite Bx. cbn. apply beqb_refl.
    - unfold has_access. apply existsb_exists. exists o2. split; [rewrite Hc; right; now left|]. destruct (dotted_facts _ D2) as (_ & -> & _). destruct S12 as (x & ls & ll & _ & A & m & more & M). destruct (compared o2); try easy. cbn in A. destruct (negb _); [|easy]. injection A as _ <-. now destruct (map fst ls).
    - unfold skip_require_nullish. now rewrite Q. }
  assert (ALS : forall f (l m : list part), length l <> length m -> all2 f l m = false).
  { intros f. induction l as [|x l IH]; intros [|y m] NL; cbn in *; try easy. rewrite IH; [apply andb_false_r|lia]. }
  assert (Len : depth (compared o1) < depth (compared o2)).
  { destruct S12 as (x & ls & ll & A & A' & m & more & M). rewrite (shaped_depth _ _ _ A), (shaped_depth _ _ _ A'), <- (map_length fst ls), <- (map_length fst ll), M, app_length. cbn. lia. }
  assert (RC : rest_chained c = false) by (unfold rest_chained; rewrite Hc; cbn [tl forallb]; now rewrite H2).
  assert (EX : forall f : operand -> bool, (forall o, typ o = Neg -> f o = false) -> existsb f c = false /\ existsb f (tl c) = false).
  { intros f Hf. split; apply not_true_is_false; intro X; apply existsb_exists in X as (o & Io & X); rewrite Hf in X; try easy; apply TY; [easy|]. rewrite Hc in *. now right. }
  assert (CK : or_checks opts type_at c = Some c).
  { unfold or_checks. destruct (unsafe opts) eqn:U; [easy|]. cbv zeta. assert (AB : a_both (analyze true c) = true) by (rewrite Hc; cbn; unfold analyze1; now rewrite T1). rewrite AB. cbn [negb andb]. rewrite neg_truncate by easy.
    destruct (Nat.ltb_spec (length c) 2); [lia|]. rewrite S0, T1. cbn [andb]. unfold only_null. rewrite AB. cbn [negb]. rewrite ?andb_false_r, ?andb_false_l. cbn [andb].
    unfold nullish_comparison, comparison_against. rewrite T1. now destruct (a_null (analyze true c)). }
  assert (R0 : or_reported opts type_at c = Some c).
  { unfold or_reported.
    assert (P0 : forallb is_plain c = false) by (rewrite Hc; cbn [forallb]; unfold is_plain at 1; now rewrite T1). rewrite P0.
    unfold or_skip_optimal, or_skip_chained. rewrite RC. cbn [andb].
    assert (A2 : all_same c = false). { unfold all_same. rewrite Hc. cbn [start hd tl forallb]. unfold depth in Len. rewrite ALS; [easy|lia]. } rewrite A2.
    assert (NG : forall l m, Forall neg_op l -> neg_go m l = false).
    { induction l as [|x l IH]; intros m F; [easy|]. cbn [neg_go]. pose proof (Forall_inv F) as (Tx & _). rewrite Tx. cbn [otype_eqb negb andb]. apply IH. now apply Forall_inv_tail in F. }
    assert (A3 : or_skip_negated opts c = false).
    { rewrite neg_go_eq. cbv zeta. destruct (_ && _); [|easy]. destruct (negb (is_access _)); [apply NG; rewrite Hc in *; now apply Forall_inv_tail in FC|]. apply EX. intros o ->. reflexivity. }
    assert (A4 : or_skip_checked opts type_at c = false) by (unfold or_skip_checked; rewrite S0, T1; now rewrite andb_false_r).
    assert (A5 : or_skip_plain opts c = false) by (unfold or_skip_plain; rewrite S0; unfold is_plain at 1; now rewrite T1).
    rewrite A3, A4, A5, CK. cbn [orb]. destruct (Nat.ltb_spec (length c) 2); [lia|].
    assert (A6 : guard_negated type_at c = false) by (apply no_pair; intros g o Ig Io; now rewrite (TY g Ig)).
    assert (A7 : negated_call c = false) by (apply no_pair; intros g o Ig Io; rewrite (TY o Io); cbn [otype_eqb negb]; now rewrite andb_false_r).
    rewrite A6, A7, andb_false_r. destruct (negb (unsafe opts) && _) eqn:X; [|easy]. exfalso. apply andb_true_iff in X as [U X]. apply negb_true_iff in U. apply existsb_exists in X as (o & Io & X). apply andb_true_iff in X as [_ X].
    unfold changes_type, type_of in X. apply andb_true_iff in X as [X1 X2]. unfold has_literal in X1. apply has_in in X1 as (q & Iq & Lq). apply negb_true_iff in X2. unfold explicit_nullish in X2. apply orb_false_iff in X2 as [X2 X3].
    destruct (LI U (idx o) (compared o) (TC o Io)) as [Y|Y]; [exists q; split; [easy|]; now destruct q|apply null_iff in Y; congruence|apply undef_iff in Y; congruence]. }
  assert (Fo : neg_op (final c)).
  { clear - FC Hc. destruct c as [|l c _] using rev_ind; [easy|]. unfold final. rewrite last_last. apply Forall_app in FC as [_ FC]. now apply Forall_inv in FC. }
  destruct Fo as (Tf & _ & _ & Df).
  assert (B0 : exists f, or_fix opts type_at (spine Or (join Or all)) (length c) c = Some f /\ suggestion f = false).
  { unfold or_fix. assert (NT : or_trailing_plain opts c = false) by (unfold or_trailing_plain, is_plain; rewrite Tf; cbn [otype_eqb]; now rewrite andb_false_r). rewrite NT, S0, H1, N1. cbn [has_chain]. rewrite ?H1. cbn [orb]. rewrite andb_false_r.
    unfold is_plain. rewrite Tf. cbn [otype_eqb].
    assert (NP : Forall (fun p => private_part p = false) (flatten (compared (final c)))) by (apply Forall_forall; intros s I; destruct (dotted_facts _ Df) as (_ & _ & _ & _ & _ & _ & _ & P); now apply P).
    destruct (build _ _ _ _) eqn:BB.
    - eexists. split; [reflexivity|]. cbn [suggestion]. unfold or_suggestion. rewrite Tf. now destruct (unsafe opts).
    - exfalso. unfold build in BB. destruct (existsb _ _) eqn:X; [|easy]. apply existsb_exists in X as ([i p] & Ip & X). apply andb_true_iff in X as [_ X]. cbn [snd] in X. unfold number in Ip. apply in_combine_r in Ip. rewrite Forall_forall in NP. rewrite (NP p Ip) in X. easy. }
  destruct B0 as (f & B0 & SF). exists f. assert (I : In f (or_fixes opts type_at (join Or all))).
  { unfold or_fixes. rewrite or_operands_join by easy. fold c. destruct (Nat.ltb_spec (length c) 2); [lia|]. rewrite CH. cbn [flat_map]. rewrite V0, R0, app_nil_r, B0. now left. }
  split; [exact I|].
  assert (FE : first f = idx o1 /\ last_ f = idx (final c)). { unfold or_fix in B0. destruct (_ && _ && _); [easy|]. destruct (build _ _ _ _); [|easy]. injection B0 as <-. cbn. now rewrite S0. }
  destruct FE as [E1 E2]. rewrite E1, E2. split; [|split; [|easy]].
  - clear - Hc NE. unfold c in Hc. destruct all; [easy|]. unfold or_ops in Hc. cbn in Hc. injection Hc as <- _. apply parse_idx.
  - rewrite <- La. unfold c. clear - NE. destruct all as [|s all _] using rev_ind; [easy|]. rewrite or_ops_app, app_length. unfold final. cbn [or_ops length seq combine map fst snd]. rewrite last_last, parse_idx. cbn. lia.
Qed.
End OrFixes.
