From Coq Require Import String Ascii Bool List ZArith Lia Sorted.
From Verif Require Import Base EngineProofs OptChain OptChainSpec.
Import ListNotations.
Open Scope nat_scope.

Scheme expr_mut := Induction for expr Sort Prop with exprs_mut := Induction for exprs Sort Prop.
Combined Scheme expr_both from expr_mut, exprs_mut.

(** Equality of texts is reflexive. *)
Lemma all2_refl {A} (f : A -> A -> bool) l : (forall x, f x x = true) -> all2 f l l = true.
Proof. intro H; induction l; cbn; [easy|]. now rewrite H. Qed.
Lemma op_eqb_refl o : op_eqb o o = true.
Proof. destruct o; cbn; rewrite ?beqb_refl, ?Nat.eqb_refl; easy. Qed.
Lemma pre_eqb_refl o : pre_eqb o o = true.
Proof. destruct o; cbn; rewrite ?beqb_refl; easy. Qed.
Lemma ty_eqb_refl o : ty_eqb o o = true.
Proof. destruct o; cbn; rewrite ?beqb_refl; easy. Qed.
Lemma kind_eqb_refl o : kind_eqb o o = true.
Proof. now destruct o. Qed.
Lemma tys_eqb_refl t : opt2 (all2 ty_eqb) t t = true.
Proof. destruct t; cbn; [|easy]. apply all2_refl, ty_eqb_refl. Qed.
Lemma eqb_refl_both : (forall e, expr_eqb e e = true) /\ (forall es, exprs_eqb es es = true).
Proof.
  apply expr_both; intros; cbn; rewrite ?beqb_refl, ?Bool.eqb_reflx, ?op_eqb_refl, ?pre_eqb_refl, ?tys_eqb_refl, ?Z.eqb_refl, ?kind_eqb_refl; cbn;
    repeat match goal with H : _ = true |- _ => rewrite H; clear H end; cbn; rewrite ?Bool.eqb_reflx; try easy.
  apply all2_refl, beqb_refl.
Qed.
Lemma expr_eqb_refl e : expr_eqb e e = true.
Proof. apply eqb_refl_both. Qed.
Lemma piece_eqb_refl p : piece_eqb p p = true.
Proof.
  destruct p; cbn; rewrite ?expr_eqb_refl, ?Bool.eqb_reflx, ?beqb_refl, ?tys_eqb_refl; cbn; try easy. apply eqb_refl_both.
Qed.

(** ** Chains are runs of operands *)
Lemma same_prefix s l : same s l = true -> prefix s l = true.
Proof. intro H. destruct l; cbn [prefix]; rewrite H; easy. Qed.
Lemma compare_prefix l r : match compare l r with Subset | Equal => prefix l r = true | _ => True end.
Proof.
  unfold compare. destruct (_ || _); [easy|]. destruct (_ && _); [easy|]. destruct (existsb _ _); [easy|].
  destruct (same l r) eqn:S; [now apply same_prefix|]. destruct (prefix l r) eqn:P; [easy|]. now destruct (prefix r l).
Qed.
Definition chain_type (t : otype) : Prop := match t with Invalid | NegAnd | EqBoth | IsNull | IsUndef => False | _ => True end.
(** Each access is a prefix of the next. *)
Definition related (o o' : operand) : Prop := (is_plain o = true /\ is_plain o' = true) \/ compare (compared o) (compared o') = Subset \/ compare (compared o) (compared o') = Equal.
Section Linked.
Variable opts : options.
Definition next (o o' : operand) : Prop := prefix (compared o) (compared o') = true /\ (unsafe opts = false -> related o o').
Fixpoint linked (c : list operand) : Prop := match c with o :: ((o' :: _) as c) => next o o' /\ linked c | _ => True end.
Lemma linked_snoc c o : linked c -> (c = [] \/ next (final c) o) -> linked (c ++ [o]).
Proof.
  induction c as [|x c IH]; intros L H; [easy|]. destruct c as [|y c].
  - cbn in *. destruct H as [H|H]; easy.
  - cbn [app linked] in *. destruct L as [L1 L2]. split; [easy|]. apply IH; [easy|]. right. destruct H as [H|H]; [easy|]. exact H.
Qed.
Lemma linked_removelast c : linked c -> linked (removelast c).
Proof.
  induction c as [|x [|y c] IH]; intro L; [easy|easy|]. cbn [removelast] in *. destruct L as [L1 L2]. specialize (IH L2). destruct c; [easy|].
  cbn [removelast linked] in *. easy.
Qed.
End Linked.

Section Segments.
Variables (opts : options) (type_at : nat -> expr -> ty).
Definition run (full c : list operand) : Prop := exists p q, full = p ++ c ++ q.
Definition fine (full c : list operand) : Prop := run full c /\ Forall (fun o => chain_type (typ o)) c /\ linked opts c.
Lemma keep_fine full all cur : Forall (fine full) all -> fine full cur -> Forall (fine full) (keep all cur).
Proof. intros H R. unfold keep. destruct (Nat.leb 2 (length cur)); [|easy]. apply Forall_app. split; [easy|]. now constructor. Qed.
Lemma complementary_spec o o2 : complementary o o2 = true -> chain_type (typ o) /\ chain_type (typ o2) /\ next opts o o2.
Proof.
  unfold complementary, next, related. pose proof (compare_prefix (compared o) (compared o2)) as P. destruct (compare _ _); try easy.
  intro H. split; [destruct (typ o); cbn in *; easy|]. split; [destruct (typ o2); cbn in *; try easy; destruct (typ o); easy|]. auto.
Qed.
Lemma extended_prefix cur o : match cmp_extended opts true cur o with Subset | Equal => next opts (final cur) o | _ => True end.
Proof.
  unfold cmp_extended, next, related. pose proof (compare_prefix (compared (final cur)) (compared o)) as P. destruct (compare _ _); try (now auto).
  destruct (_ && _) eqn:E; [|easy]. apply andb_true_iff in E as [E1 E]. unfold extends in E. apply andb_true_iff in E as [_ E]. split; [exact E|].
  intro U. unfold call_extension in E1. rewrite U in E1. apply andb_true_iff in E1. auto.
Qed.
Lemma loop_fine : forall n ops full all p cur lt complete, length ops <= n -> Forall (fine full) all -> full = p ++ cur ++ ops ->
  Forall (fun o => chain_type (typ o)) cur -> linked opts cur -> Forall (fine full) (and_loop opts type_at all cur lt complete ops).
Proof.
  induction n as [|n IH]; intros [|o rest] full all p cur lt complete L G E T LK; cbn in L; try lia.
  1, 2: cbn; apply keep_fine; [easy|]; split; [exists p, []; easy|easy].
  assert (F : fine full cur) by (split; [exists p, (o :: rest); easy|easy]).
  assert (K : Forall (fine full) (keep all cur)) by now apply keep_fine.
  assert (E2 : full = (p ++ cur) ++ [o] ++ rest) by (now rewrite <- app_assoc).
  assert (E3 : full = (p ++ cur ++ [o]) ++ [] ++ rest) by (cbn; rewrite E; now rewrite <- !app_assoc).
  assert (E4 : full = p ++ (cur ++ [o]) ++ rest) by (now rewrite <- !app_assoc).
  cbn [and_loop].
  destruct (match typ o with Invalid | NegAnd | EqBoth | IsNull | IsUndef => true | _ => false end) eqn:B.
  { eapply IH; [lia|exact K|exact E3|constructor|easy]. }
  assert (To : chain_type (typ o)) by (destruct (typ o); easy).
  assert (N : forall all' lt' c', Forall (fine full) all' -> Forall (fine full) (and_loop opts type_at all' [o] lt' c' rest)).
  { intros. eapply IH; [lia|easy|exact E2|now repeat constructor|easy]. }
  destruct cur as [|x cur].
  { destruct (other_comparison o); [|now apply N]. eapply IH; [lia|exact G|exact E3|constructor|easy]. }
  destruct complete; [now apply N|]. destruct (should_stop _ _ _); [exact K|].
  pose proof (extended_prefix (x :: cur) o) as P.
  assert (S : match cmp_extended opts true (x :: cur) o with Subset | Equal => forall lt' c', Forall (fine full) (and_loop opts type_at all ((x :: cur) ++ [o]) lt' c' rest) | _ => True end).
  { destruct (cmp_extended _ _ _ _); try easy; intros; (eapply IH; [lia|exact G|exact E4|apply Forall_app; split; [exact T|now repeat constructor]|apply linked_snoc; auto]). }
  destruct (cmp_extended opts true (x :: cur) o) eqn:C; [destruct rest as [|o2 rest]| | |].
  - destruct (_ && _); [exact K|apply S].
  - destruct (complementary o o2) eqn:Q.
    + apply complementary_spec in Q as (Q1 & Q2 & Q3).
      cbn in L. eapply IH; [lia|exact G| | |].
      * rewrite E. instantiate (1 := p). now rewrite <- !app_assoc.
      * change (x :: cur ++ [o; o2]) with ((x :: cur) ++ [o; o2]). apply Forall_app. split; [exact T|now repeat constructor].
      * change (x :: cur ++ [o; o2]) with ((x :: cur) ++ [o; o2]). replace [o; o2] with ([o] ++ [o2]) by easy. rewrite app_assoc. apply linked_snoc.
        -- apply linked_snoc; auto.
        -- right. unfold final at 1. now rewrite last_last.
    + destruct (_ && _); [exact K|apply S].
  - destruct (_ && _); [exact K|apply S].
  - destruct (_ && _); [exact K|now apply N].
  - destruct (_ && _); [exact K|now apply N].
Qed.
Lemma trim_fine full : forall c, fine full (rev c) -> fine full (rev (trim c)).
Proof.
  induction c as [|l c IH]; intro F; [easy|]. cbn [trim]. destruct c as [|p c]; [easy|]. destruct (_ && _ && _); [|easy].
  apply IH. destruct F as ((a & z & E) & T & K). cbn [rev] in *. split; [|split].
  - exists a, ([l] ++ z). rewrite E. now rewrite <- !app_assoc.
  - apply Forall_app in T. easy.
  - apply linked_removelast in K. now rewrite removelast_last in K.
Qed.
Lemma chains_fine ops : Forall (fine ops) (and_chains opts type_at ops).
Proof.
  unfold and_chains. apply Forall_map. eapply Forall_impl; [|apply (loop_fine (length ops) ops ops [] [] []); easy].
  intros c F. apply trim_fine. now rewrite rev_involutive.
Qed.
End Segments.

(** ** Operands joined by && *)
Lemma op_eqb_eq a c : op_eqb a c = true -> a = c.
Proof.
  destruct a, c; cbn; try easy; intro H; try (apply beqb_eq in H; now subst).
  apply andb_true_iff in H as [H1 H2]. apply beqb_eq in H1. apply Nat.eqb_eq in H2. now subst.
Qed.
Lemma spine_single o e : single o e -> spine o e = [SLeaf e].
Proof.
  intro S. destruct e; cbn [spine]; try easy.
  - destruct (skip e) eqn:K; try easy. destruct (op_eqb o0 o) eqn:Q; [|easy]. apply op_eqb_eq in Q. subst. exfalso. exact (S _ _ K).
  - destruct (op_eqb o0 o) eqn:Q; [|easy]. apply op_eqb_eq in Q. subst. exfalso. exact (S _ _ eq_refl).
Qed.
Definition spread (l : list expr) : list spine_item := flat_map (fun e => [SOp; SLeaf e]) l.
Definition more_text (o : op) (l : list expr) : list tok := flat_map (fun e => TOp o :: text e) l.
Lemma joined_snoc o x r y : joined o x (r ++ [y]) = Bin o (joined o x r) y.
Proof. unfold joined. now rewrite fold_left_app. Qed.
Lemma spine_joined o x r : Forall (single o) (x :: r) -> spine o (joined o x r) = SLeaf x :: spread r.
Proof.
  induction r as [|y r IH] using rev_ind; intro F.
  - cbn. inversion F; subst. now apply spine_single.
  - rewrite joined_snoc. cbn [spine]. rewrite op_eqb_refl. inversion F; subst. apply Forall_app in H2 as [H2 H3]. inversion H3; subst.
    rewrite IH by now constructor. rewrite (spine_single o y) by easy. cbn. unfold spread. now rewrite flat_map_app.
Qed.
Lemma leaves_spread r : leaves (spread r) = r.
Proof. induction r as [|x r IH]; [easy|]. cbn. now f_equal. Qed.
Lemma text_joined o x r : text (joined o x r) = text x ++ more_text o r.
Proof.
  induction r as [|y r IH] using rev_ind; [cbn; now rewrite app_nil_r|].
  rewrite joined_snoc. cbn [text]. rewrite IH. unfold more_text. rewrite flat_map_app. cbn. rewrite app_nil_r. now rewrite <- app_assoc.
Qed.
Lemma replace_after o from upto new : from <= upto -> forall r i, upto < i -> replace o from upto i new (spread r) = more_text o r.
Proof.
  intro FU. induction r as [|y r IH]; intros i H; [easy|]. cbn [spread flat_map app replace].
  assert (A : Nat.ltb from i && Nat.leb i upto = false) by (apply andb_false_iff; right; apply Nat.leb_gt; lia). rewrite A.
  destruct (Nat.eqb_spec i from); [lia|]. cbn. fold (spread r). rewrite IH by lia. easy.
Qed.
Lemma replace_inside o from upto new : forall seg r i, from < i -> i + length seg = S upto -> replace o from upto i new (spread (seg ++ r)) = more_text o r.
Proof.
  induction seg as [|y seg IH]; intros r i H E.
  - cbn in E. apply replace_after; lia.
  - cbn in E. cbn [spread flat_map app replace].
    assert (A : Nat.ltb from i && Nat.leb i upto = true) by (apply andb_true_iff; split; [apply Nat.ltb_lt|apply Nat.leb_le]; lia). rewrite A.
    destruct (Nat.eqb_spec i from); [lia|]. cbn. fold (spread (seg ++ r)). apply IH; lia.
Qed.
Lemma replace_before o upto new : forall before s seg r i, i + length before + length seg = upto ->
  replace o (i + length before) upto i new (spread (before ++ s :: seg ++ r)) = more_text o before ++ TOp o :: new ++ more_text o r.
Proof.
  induction before as [|y before IH]; intros s seg r i E.
  - cbn in E. cbn [length app spread flat_map replace]. rewrite Nat.add_0_r.
    assert (A : Nat.ltb i i && Nat.leb i upto = false) by (rewrite Nat.ltb_irrefl; easy). rewrite A, Nat.eqb_refl. cbn. f_equal. f_equal.
    fold (spread (seg ++ r)). apply replace_inside; lia.
  - cbn in E. cbn [length app spread flat_map replace].
    assert (A : Nat.ltb (i + S (length before)) i && Nat.leb i upto = false) by (apply andb_false_iff; left; apply Nat.ltb_ge; lia). rewrite A.
    destruct (Nat.eqb_spec i (i + S (length before))); [lia|]. cbn [app]. fold (spread (before ++ s :: seg ++ r)).
    replace (i + S (length before)) with (S i + length before) by lia. rewrite IH by lia. cbn. now rewrite <- app_assoc.
Qed.
Lemma replace_joined o before s seg r new n ns : Forall (single o) (before ++ s :: seg ++ r) -> new = text n ++ more_text o ns ->
  replace o (length before) (length before + length seg) 0 new (spine o (join o (before ++ s :: seg ++ r))) = text (join o (before ++ n :: ns ++ r)).
Proof.
  intros F ->. destruct before as [|x before].
  - cbn [join app]. rewrite spine_joined by exact F. rewrite text_joined. cbn [length Nat.add replace Nat.eqb app]. rewrite replace_inside by lia.
    unfold more_text. now rewrite flat_map_app, app_assoc.
  - cbn [join app]. rewrite spine_joined by exact F. rewrite text_joined. cbn [length Nat.add replace].
    destruct (Nat.eqb_spec 0 (S (length before))); [lia|].
    assert (A : Nat.ltb (S (length before)) 0 && Nat.leb 0 (S (length before + length seg)) = false) by easy. rewrite A.
    f_equal. replace (S (length before)) with (1 + length before) by easy. rewrite replace_before by lia.
    unfold more_text. rewrite flat_map_app. cbn. rewrite flat_map_app. now rewrite <- app_assoc.
Qed.

(** The meaning of operands joined by &&. *)
Definition and2 (x y : out) : out := match x with Val v => if truthy v then y else x | _ => x end.
Lemma and2_assoc x y z : and2 (and2 x y) z = and2 x (and2 y z).
Proof. destruct x as [v| |]; cbn; try easy. destruct (truthy v) eqn:T; [easy|]. cbn. now rewrite T. Qed.
Lemma result_and w l r : result w (Bin And l r) = and2 (result w l) (result w r).
Proof.
  unfold result. cbn [eval fst]. unfold after. destruct (close (fst (eval w l))) as [v| |] eqn:C; cbn; try easy.
  - destruct (truthy v); [|easy]. destruct (fst (eval w r)); easy.
  - now destruct (fst (eval w l)).
Qed.
Definition seq_and (w : world) (x : out) (l : list expr) : out := fold_left (fun y e => and2 y (result w e)) l x.
Lemma result_joined w x l : result w (joined And x l) = seq_and w (result w x) l.
Proof.
  induction l as [|y l IH] using rev_ind; [easy|]. rewrite joined_snoc, result_and, IH. unfold seq_and. now rewrite fold_left_app.
Qed.
Lemma seq_and2 w l : forall x y, seq_and w (and2 x y) l = and2 x (seq_and w y l).
Proof. induction l as [|e l IH]; intros; [easy|]. cbn. rewrite and2_assoc. apply IH. Qed.
Lemma result_join_app w a c : a <> [] -> c <> [] -> result w (join And (a ++ c)) = and2 (result w (join And a)) (result w (join And c)).
Proof.
  destruct a as [|x a], c as [|y c]; try easy. intros _ _. cbn [app join]. rewrite !result_joined. unfold seq_and at 1. rewrite fold_left_app. fold (seq_and w (result w x) a).
  cbn [fold_left]. fold (seq_and w (and2 (seq_and w (result w x) a) (result w y)) c). apply seq_and2.
Qed.
Lemma agrees_refl x : agrees x x.
Proof. now left. Qed.
Lemma agrees_between w before s r news : s <> [] -> news <> [] ->
  (result w (join And s) <> Throw -> agrees (result w (join And s)) (result w (join And news))) ->
  result w (join And (before ++ s ++ r)) <> Throw -> agrees (result w (join And (before ++ s ++ r))) (result w (join And (before ++ news ++ r))).
Proof.
  intros S N H.
  assert (R : forall l, l <> [] -> result w (join And (l ++ r)) = match r with [] => result w (join And l) | _ => and2 (result w (join And l)) (result w (join And r)) end).
  { intros l L. destruct r; [now rewrite app_nil_r|]. now apply result_join_app. }
  assert (M : result w (join And (s ++ r)) <> Throw -> agrees (result w (join And (s ++ r))) (result w (join And (news ++ r)))).
  { rewrite !R by easy. destruct r as [|y r]; [easy|]. intro T.
    assert (Ts : result w (join And s) <> Throw) by (intro E; rewrite E in T; now apply T).
    destruct (H Ts) as [->|(u & v & E1 & E2 & F1 & F2)]; [apply agrees_refl|]. rewrite E1, E2. cbn. rewrite F1, F2. right. now exists u, v. }
  destruct before as [|x before]; [exact M|]. assert (S' : s ++ r <> []) by now destruct s. assert (N' : news ++ r <> []) by now destruct news.
  rewrite (result_join_app w (x :: before) (s ++ r)), (result_join_app w (x :: before) (news ++ r)) by easy. intro T. destruct (result w (join And (x :: before))) as [v| |]; cbn in *; try apply agrees_refl.
  destruct (truthy v); [now apply M|apply agrees_refl].
Qed.

(** ** Accesses, step by step *)
Definition recv (x : out) : value := match x with Val v => v | _ => Undef end.
Definition do_link (w : world) (x : out * value) (s : link * bool) : out * value :=
  match fst s with
  | LName p n => (link_step (fst x) (snd s) (fun v => of_option (prop w v p n)), recv (fst x))
  | LIndex i => (link_step (fst x) (snd s) (fun v => after (fst (eval w i)) (fun k => of_option (index w v k))), recv (fst x))
  | LArgs _ args => (link_step (fst x) (snd s) (fun v => match evals w args with Some vs => of_option (call w v (snd x) vs) | None => Throw end), Undef)
  end.
Definition walk (w : world) (x : out * value) (ls : list (link * bool)) : out * value := fold_left (do_link w) ls x.
Definition sim (x y : out * value) : Prop := fst x = Throw \/ x = y \/ (fst x = Val Undef /\ fst y = Short).
Lemma sim_step w x y s : sim x y -> sim (do_link w x s) (do_link w y s).
Proof.
  intros [T|[->|[U S]]]; [left|right; now left|].
  - unfold do_link. destruct (fst s); cbn; rewrite T; easy.
  - destruct s as [l q]. destruct q; [right; left|left]; unfold do_link; destruct l; cbn; rewrite U; cbn; try easy; rewrite S; easy.
Qed.
Lemma walk_snoc w x ls s : walk w x (ls ++ [s]) = do_link w (walk w x ls) s.
Proof. unfold walk. now rewrite fold_left_app. Qed.
Lemma access_walk w : forall e x ls, access_of e = Some (x, ls) -> sim (eval w e) (walk w (eval w x) ls).
Proof.
  assert (B : forall e x ls, (if simple_base e then Some (e, []) else None) = Some (x, ls) -> sim (eval w e) (walk w (eval w x) ls)).
  { intros e x ls H. destruct (simple_base e); [|easy]. injection H as <- <-. right. now left. }
  induction e; intros y ls H; cbn [access_of] in H; try (now apply B).
  - destruct (access_of e) as [[z m]|] eqn:A; [|easy]. injection H as <- <-. rewrite walk_snoc. apply (sim_step w _ _ (LName private name, q)). now apply IHe.
  - destruct (access_of e1) as [[z m]|] eqn:A; [|easy]. injection H as <- <-. rewrite walk_snoc. apply (sim_step w _ _ (LIndex e2, q)). now apply IHe1.
  - destruct (access_of e) as [[z m]|] eqn:A; [|easy]. injection H as <- <-. rewrite walk_snoc. apply (sim_step w _ _ (LArgs types args, q)). now apply IHe.
  - now apply IHe.
  - destruct (IHe _ _ H) as [T|[E|[U S]]].
    + left. cbn. now rewrite T.
    + cbn [eval]. rewrite <- E. destruct (eval w e) as [[v| |] r]; cbn; [right; now left|right; now right|now left].
    + right. right. cbn. now rewrite U.
Qed.
Lemma not_short w : forall e, chained e = false -> fst (eval w e) <> Short.
Proof.
  assert (O : forall o, of_option o <> Short) by (now intros []).
  assert (AF : forall x k, (forall v, k v <> Short) -> after x k <> Short) by (intros x k K; unfold after; destruct x; cbn; auto; easy).
  assert (L : forall x k, x <> Short -> (forall v, k v <> Short) -> link_step x false k <> Short) by (intros x k X K; destruct x as [v| |]; cbn; auto; destruct (nullishb v); easy || auto).
  assert (C : forall x, close x <> Short) by (now intros []).
  induction e; intros H; cbn [chained] in H; cbn [eval fst]; try apply orb_false_iff in H as [H1 H2]; subst; try easy; auto.
  - destruct (undefined_name x); easy || auto.
  - apply L; auto. intro v. destruct (evals w args); easy || auto.
  - assert (BO : forall o v u, binary_out w o v u <> Short) by (intros [] v u; cbn; easy || auto).
    destruct o; cbn [fst]; apply AF; intro v; try (apply AF; intro u; apply BO).
    1, 2: destruct (truthy v); easy || auto.
    destruct (nullishb v); easy || auto.
  - destruct p; apply AF; auto. easy.
  - assert (N : after (fst (eval w e)) (fun v => Val (String_ (type_name w v))) <> Short) by (apply AF; easy).
    destruct (unwrap e); try easy. destruct (undefined_name x); [easy|]. destruct (var w x); easy.
  - now apply AF.
  - destruct (evals w spans); easy || auto.
Qed.
Lemma base_not_short w e : simple_base e = true -> fst (eval w e) <> Short.
Proof. intro H. apply not_short. destruct e; cbn in *; try easy; now apply negb_true_iff in H. Qed.

(** The new access does as much as what was evaluated before. *)
Lemma do_link_throw w x s : fst x = Throw -> fst (do_link w x s) = Throw.
Proof. intro T. unfold do_link. destruct (fst s); cbn; now rewrite T. Qed.
Lemma do_link_short w x s : fst x = Short -> fst (do_link w x s) = Short.
Proof. intro T. unfold do_link. destruct (fst s); cbn; now rewrite T. Qed.
Lemma walk_throw w ls : forall x, fst x = Throw -> fst (walk w x ls) = Throw.
Proof. induction ls; intros x T; [easy|]. cbn. apply IHls. now apply do_link_throw. Qed.
Lemma walk_short w ls : forall x, fst x = Short -> fst (walk w x ls) = Short.
Proof. induction ls; intros x T; [easy|]. cbn. apply IHls. now apply do_link_short. Qed.
Definition null_out (x : out) : bool := match x with Val v => nullishb v | Short => true | Throw => false end.
(** On an object the flag makes no difference. *)
Lemma do_link_flag w x l q q' : match fst x with Val v => nullishb v = false | _ => True end -> do_link w x (l, q) = do_link w x (l, q').
Proof. intro H. unfold do_link. cbn. destruct (fst x); try easy. cbn. rewrite H. easy. Qed.
Lemma do_link_null w x l q v : fst x = Val v -> nullishb v = true -> fst (do_link w x (l, q)) = if q then Short else Throw.
Proof. intros E N. unfold do_link. destruct l; cbn; rewrite E; cbn; rewrite N; easy. Qed.
Definition covers (i : nat) (Q : list (list bool)) : Prop := exists q, In q Q /\ i < length q.
Definition kept (qs : list bool) (Q : list (list bool)) : Prop :=
  forall i, covers i Q -> (forall q, In q Q -> i < length q -> nth i q false = true) -> nth i qs false = true.
Definition tails (Q : list (list bool)) : list (list bool) := flat_map (fun q => match q with [] => [] | _ :: q => [q] end) Q.
Lemma in_tails q Q : In q (tails Q) <-> exists h, In (h :: q) Q.
Proof.
  unfold tails. rewrite in_flat_map. split.
  - intros ([|h r] & I & H); [easy|]. cbn in H. destruct H as [<-|[]]. now exists h.
  - intros [h I]. exists (h :: q). split; [easy|]. now left.
Qed.
Lemma kept_tail h qs Q : kept (h :: qs) Q -> kept qs (tails Q).
Proof.
  intros K i (q & I & L) A. apply (K (S i)).
  - apply in_tails in I as [g I]. exists (g :: q). cbn. split; [easy|lia].
  - intros q' I' L'. destruct q' as [|g q']; [cbn in L'; lia|]. cbn in L' |- *. apply A; [apply in_tails; now exists g|lia].
Qed.
Lemma walk_core w : forall L x qs Q, length qs = length L ->
  (forall q, In q Q -> length q <= length L /\ fst (walk w x (combine L q)) <> Throw) -> kept qs Q ->
  (forall q, In q Q -> length q = length L -> fst (walk w x (combine L qs)) = fst (walk w x (combine L q)))
  /\ (forall q, In q Q -> length q < length L -> null_out (fst (walk w x (combine L q))) = true -> nth (length q) qs false = true -> fst (walk w x (combine L qs)) = Short).
Proof.
  induction L as [|l L IH]; intros x qs Q E H K; split; intros q I Lq.
  - destruct q; [|easy]. now destruct qs.
  - cbn in Lq. lia.
  - destruct q as [|g q]; [easy|]. destruct qs as [|h qs]; [easy|]. cbn [combine walk fold_left].
    assert (HT : forall y, (forall g' q', In (g' :: q') Q -> y = do_link w x (l, g')) -> y = do_link w x (l, h) ->
      fst (walk w (do_link w x (l, h)) (combine L qs)) = fst (walk w (do_link w x (l, g)) (combine L q))).
    { intros y Y1 Y2. rewrite <- (Y1 g q I), <- Y2. eapply (IH y qs (tails Q)).
      - cbn in E. lia.
      - intros q' I'. apply in_tails in I' as [g' I']. specialize (H _ I') as [H1 H2]. cbn in H1, H2. split; [lia|]. unfold walk. rewrite (Y1 _ _ I'). exact H2.
      - eapply kept_tail; exact K.
      - apply in_tails. now exists g.
      - cbn in Lq. lia. }
    destruct (fst x) as [v| |] eqn:X.
    + destruct (nullishb v) eqn:N.
      * assert (G : forall g' q', In (g' :: q') Q -> g' = true).
        { intros g' q' I'. destruct (H _ I') as [_ H2]. cbn in H2. destruct g'; [easy|]. exfalso. apply H2. apply walk_throw. now rewrite (do_link_null w x l false v). }
        assert (h = true) as ->.
        { apply (K 0); [exists (g :: q); cbn; split; [easy|lia]|]. intros [|g' q'] I' L'; [cbn in L'; lia|]. cbn. now apply (G g' q'). }
        apply (HT (do_link w x (l, true))); [|easy]. intros g' q' I'. now rewrite (G _ _ I').
      * apply (HT (do_link w x (l, true))); [intros|]; apply do_link_flag; now rewrite X.
    + apply (HT (do_link w x (l, true))); [intros|]; apply do_link_flag; now rewrite X.
    + apply (HT (do_link w x (l, true))); [intros|]; apply do_link_flag; now rewrite X.
  - intros NO NT. destruct qs as [|h qs]; [easy|]. cbn [combine walk fold_left].
    destruct q as [|g q].
    + cbn in NT, NO. subst h. destruct (fst x) as [v| |] eqn:X; [|now apply walk_short, do_link_short|easy].
      apply walk_short. now rewrite (do_link_null w x l true v).
    + assert (HT : forall y, (forall g' q', In (g' :: q') Q -> y = do_link w x (l, g')) -> y = do_link w x (l, h) ->
        fst (walk w (do_link w x (l, h)) (combine L qs)) = Short).
      { intros y Y1 Y2. rewrite <- Y2. eapply (IH y qs (tails Q)) with (q := q).
        - cbn in E. lia.
        - intros q' I'. apply in_tails in I' as [g' I']. specialize (H _ I') as [H1 H2]. cbn in H1, H2. split; [lia|]. unfold walk. rewrite (Y1 _ _ I'). exact H2.
        - eapply kept_tail; exact K.
        - apply in_tails. now exists g.
        - cbn in Lq. lia.
        - cbn in NO. unfold walk. rewrite (Y1 _ _ I). exact NO.
        - exact NT. }
      destruct (fst x) as [v| |] eqn:X.
      * destruct (nullishb v) eqn:N.
        -- assert (G : forall g' q', In (g' :: q') Q -> g' = true).
           { intros g' q' I'. destruct (H _ I') as [_ H2]. cbn in H2. destruct g'; [easy|]. exfalso. apply H2. apply walk_throw. now rewrite (do_link_null w x l false v). }
           assert (h = true) as ->.
           { apply (K 0); [exists (g :: q); cbn; split; [easy|lia]|]. intros [|g' q'] I' L'; [cbn in L'; lia|]. cbn. now apply (G g' q'). }
           apply (HT (do_link w x (l, true))); [|easy]. intros g' q' I'. now rewrite (G _ _ I').
        -- apply (HT (do_link w x (l, true))); [intros|]; apply do_link_flag; now rewrite X.
      * apply (HT (do_link w x (l, true))); [intros|]; apply do_link_flag; now rewrite X.
      * apply (HT (do_link w x (l, true))); [intros|]; apply do_link_flag; now rewrite X.
Qed.

(** ** The parts of an access *)
Definition link_piece (l : link) : piece := match l with LName p n => PName p n | LIndex i => PIndex i | LArgs t x => PArgs t x end.
Definition wraps (e : expr) : bool := match e with As _ _ | Cast _ _ => true | _ => false end.
Definition tidy (p : part) : Prop := cut p = false /\ (bang p = true -> non_null p = true).
Definition shaped (x : expr) (ls : list (link * bool)) (ps : list part) : Prop :=
  map what ps = PBase x (wraps x) :: map (fun s => link_piece (fst s)) ls /\ map optional (tl ps) = map snd ls /\ Forall tidy ps.
Lemma shaped_snoc x ls ps l q p : shaped x ls ps -> what p = link_piece l -> optional p = q -> tidy p -> shaped x (ls ++ [(l, q)]) (ps ++ [p]).
Proof.
  intros (A & B & C) W O T. split; [|split].
  - rewrite !map_app, A. cbn. now rewrite W.
  - destruct ps as [|p0 ps]; [easy|]. cbn [app tl] in *. rewrite !map_app, B. cbn. now rewrite O.
  - apply Forall_app. split; [easy|]. constructor; [easy|constructor].
Qed.
Lemma flatten_shaped : forall e x ls above, access_of e = Some (x, ls) -> shaped x ls (flatten_ above e).
Proof.
  assert (B : forall e x ls p, (if simple_base e then Some (e, []) else None) = Some (x, ls) -> what p = PBase e (wraps e) -> tidy p -> shaped x ls [p]).
  { intros e x ls p H W T. destruct (simple_base e); [|easy]. injection H as <- <-. split; [cbn; now rewrite W|]. split; [easy|]. constructor; [easy|constructor]. }
  assert (T1 : forall w a q, tidy (Part w a false q a)) by (now split). assert (T2 : forall w q n, tidy (Part w false false q n)) by (now split).
  assert (T3 : forall w a i q, tidy (Part w (a && i) false q a)) by (intros w a i q; split; [easy|]; cbn; now intros [->]%andb_true_iff).
  induction e; intros y ls above H; cbn [access_of] in H; cbn [flatten_];
    try solve [match type of H with (if simple_base ?e then _ else _) = _ => refine (B e _ _ _ H _ _) end; [reflexivity|first [exact (T3 _ above _ _)|apply T2]]].
  - destruct (access_of e) as [[z m]|] eqn:A; [|easy]. injection H as <- <-. apply shaped_snoc; auto.
  - destruct (access_of e1) as [[z m]|] eqn:A; [|easy]. injection H as <- <-. apply shaped_snoc; auto.
  - destruct (access_of e) as [[z m]|] eqn:A; [|easy]. injection H as <- <-. apply shaped_snoc; auto.
  - now apply IHe.
  - destruct e; try (now apply IHe); easy.
Qed.
Lemma shaped_length x ls ps : shaped x ls ps -> length ps = S (length ls).
Proof. intros (A & _). apply (f_equal (@length _)) in A. cbn in A. now rewrite !map_length in A. Qed.
Lemma shaped_depth e x ls : access_of e = Some (x, ls) -> depth e = S (length ls).
Proof. intro H. apply (flatten_shaped e x ls false) in H. now apply shaped_length in H. Qed.
Lemma base_text_what a c : tidy a -> tidy c -> what a = what c -> base_text_eqb a c = true.
Proof.
  intros [_ A] [_ C] W. unfold base_text_eqb. rewrite W, piece_eqb_refl. cbn.
  assert (bang a && negb (non_null a) = false) as -> by (destruct (bang a); [rewrite A|]; easy).
  assert (bang c && negb (non_null c) = false) as -> by (destruct (bang c); [rewrite C|]; easy). easy.
Qed.
Lemma all2_what : forall a c, Forall tidy a -> Forall tidy c -> map what a = map what c -> all2 base_text_eqb a c = true.
Proof.
  induction a as [|x a IH]; intros [|y c] A C E; try easy. cbn in E |- *. injection E as E1 E2. inversion A; inversion C; subst.
  rewrite base_text_what by easy. now apply IH.
Qed.
Lemma Forall_firstn {A} (P : A -> Prop) n l : Forall P l -> Forall P (firstn n l).
Proof. intro H. revert n. induction H; intros [|n]; cbn; auto. Qed.
Lemma map_firstn {A B} (f : A -> B) n l : map f (firstn n l) = firstn n (map f l).
Proof. revert n. induction l; intros [|n]; cbn; auto. now f_equal. Qed.
(** An access with the first steps of another. *)
Lemma shaped_starts x ls ps (ls' : list (link * bool)) ps' more : shaped x ls ps -> map what ps' = PBase x (wraps x) :: map (fun s => link_piece (fst s)) ls' -> Forall tidy ps' ->
  map fst ls' = map fst ls ++ more -> starts_with base_text_eqb ps ps' && Nat.leb (length ps) (length ps') = true.
Proof.
  intros S W' T' E. pose proof (shaped_length _ _ _ S) as LS. destruct S as (W & _ & T).
  assert (W2 : map what ps' = map what ps ++ map link_piece more).
  { rewrite W, W'. cbn. f_equal. rewrite <- (map_map fst link_piece ls'), E, map_app, map_map. easy. }
  apply andb_true_iff. split.
  - unfold starts_with. apply all2_what; [easy|now apply Forall_firstn|]. rewrite map_firstn, W2. rewrite <- (map_length what ps). rewrite firstn_app, Nat.sub_diag, firstn_all. cbn. now rewrite app_nil_r.
  - apply Nat.leb_le. apply (f_equal (@length _)) in W2. rewrite app_length, !map_length in W2. lia.
Qed.
Lemma nth_number {A} (l : list A) : forall i, nth_error (number l) i = option_map (fun x => (i, x)) (nth_error l i).
Proof.
  unfold number. assert (G : forall (l : list A) s i, nth_error (combine (seq s (length l)) l) i = option_map (fun x => (s + i, x)) (nth_error l i)).
  { clear. induction l as [|x l IH]; intros s [|i]; cbn; try easy. - now rewrite Nat.add_0_r. - rewrite IH. destruct (nth_error l i); cbn; [|easy]. now rewrite Nat.add_succ_r. }
  intro i. apply G.
Qed.
Lemma map_number_what {A B} (f : nat * A -> A) (g : A -> B) l : (forall i x, g (f (i, x)) = g x) -> map g (map f (number l)) = map g l.
Proof.
  intro H. unfold number. generalize 0. induction l as [|x l IH]; intro s; cbn; [easy|]. rewrite H. f_equal. apply IH.
Qed.
Lemma Forall_number {A} (P : A -> Prop) (f : nat * A -> A) l : (forall i x, P x -> P (f (i, x))) -> Forall P l -> Forall P (map f (number l)).
Proof.
  intros H F. unfold number. generalize 0. induction F; intro s; cbn; constructor; auto.
Qed.
(** The first that reaches far enough. *)
Lemma shortest_first i : forall l, StronglySorted (fun a c => length a <= length c) l ->
  match shortest i l with
  | Some x => exists l1 l2, l = l1 ++ x :: l2 /\ Forall (fun y => length y <= i) l1 /\ i < length x
  | None => Forall (fun y => length y <= i) l
  end.
Proof.
  induction l as [|x l IH]; intro S; [constructor|]. cbn [shortest]. inversion S; subst. specialize (IH H1).
  destruct (Nat.ltb_spec i (length x)) as [L|L].
  - assert (F : exists l1 l2, x :: l = l1 ++ x :: l2 /\ Forall (fun y : list part => length y <= i) l1 /\ i < length x) by (now exists [], l).
    destruct (shortest i l) as [y|]; [|exact F]. destruct IH as (l1 & l2 & -> & _ & _).
    assert (length x <= length y) by (rewrite Forall_forall in H2; apply H2, in_or_app; right; now left).
    destruct (Nat.ltb_spec (length y) (length x)); [lia|exact F].
  - destruct (shortest i l) as [y|]; [|now constructor]. destruct IH as (l1 & l2 & -> & F & G). exists (x :: l1), l2. split; [easy|]. split; [now constructor|easy].
Qed.
Definition seen_expr (o : operand) : expr := if is_plain o then node o else compared o.

Section Parts.
Variable width : part -> nat.
Lemma parts_shaped chain x ls (links : operand -> list (link * bool)) :
  access_of (seen_expr (source chain)) = Some (x, ls) ->
  (is_plain (start chain) = true -> exists l0, access_of (node (start chain)) = Some (x, l0)) ->
  (forall o, In o (checks chain) -> access_of (seen_expr o) = Some (x, links o) /\ (exists more, map fst ls = map fst (links o) ++ more)
     /\ (idx o = idx (source chain) -> is_plain o = false -> links o = ls)) ->
  StronglySorted (fun a c => length (links a) <= length (links c)) (checks chain) ->
  map what (and_parts width chain) = PBase x (wraps x) :: map (fun s => link_piece (fst s)) ls /\ Forall tidy (and_parts width chain)
  /\ forall i p, nth_error (and_parts width chain) (S i) = Some p ->
     (Forall (fun o => length (links o) <= i) (checks chain) /\ optional p = nth i (map snd ls) false)
     \/ exists c1 o c2, checks chain = c1 ++ o :: c2 /\ Forall (fun o => length (links o) <= i) c1 /\ i < length (links o) /\ optional p = nth i (map snd (links o)) false.
Proof.
  intros Hs H0 Hc Srt. unfold and_parts. fold (seen_expr (source chain)). set (src := source chain) in *. set (cs := checks chain) in *.
  pose proof (flatten_shaped _ _ _ false Hs) as S. fold (flatten (seen_expr src)) in S. set (ps := flatten (seen_expr src)) in *.
  set (ps1 := match (if is_plain (start chain) then flatten (node (start chain)) else []), ps with [f], p :: ps => if Nat.ltb (width p) (width f) then f :: ps else p :: ps | _, ps => ps end).
  assert (S1 : shaped x ls ps1).
  { unfold ps1. destruct (is_plain (start chain)) eqn:P; [|easy]. destruct (H0 eq_refl) as [l0 E0].
    pose proof (flatten_shaped _ _ _ false E0) as F0. fold (flatten (node (start chain))) in F0. destruct (flatten (node (start chain))) as [|f [|f2 fr]] eqn:FE; [easy| |easy].
    destruct ps as [|p pr]; [easy|]. destruct (Nat.ltb _ _); [|easy]. destruct F0 as (A & _ & T), S as (A1 & B1 & T1). cbn in A, A1, B1.
    inversion T; inversion T1; subst. injection A as A A'. injection A1 as A1 A2. split; [|split]; cbn; [now rewrite A, A2|easy|now constructor]. }
  clearbody ps1. clear S ps. pose proof (shaped_length _ _ _ S1) as Len.
  assert (Own : forall i p, nth_error ps1 (Datatypes.S i) = Some p -> optional p = nth i (map snd ls) false).
  { intros i p E. destruct S1 as (_ & B & _). destruct ps1 as [|p0 pr]; [easy|]. cbn in E, B. rewrite <- B.
    rewrite (nth_error_nth (map optional pr) i false (x := optional p)); [easy|]. now apply map_nth_error. }
  destruct (Nat.ltb 0 (length cs) && Nat.ltb 1 (length ps1)) eqn:G.
  2: { destruct S1 as (A & B & T). split; [easy|]. split; [easy|]. intros i p E. left. split; [|now apply Own].
       assert (L1 : Datatypes.S i < length ps1) by (apply nth_error_Some; now rewrite E).
       apply andb_false_iff in G as [G|G]; apply Nat.ltb_ge in G; [destruct cs; [constructor|cbn in G; lia]|lia]. }
  set (reach := fold_right Nat.max 0 _). set (ps2 := map (fun y => if Nat.ltb (fst y) reach then strip_bang (snd y) else snd y) (number ps1)).
  assert (S2 : shaped x ls ps2).
  { destruct S1 as (A & B & T). split; [|split].
    - unfold ps2. rewrite map_number_what; [easy|]. intros i p. cbn [fst snd]. destruct (Nat.ltb i reach); [|easy]. unfold strip_bang. now destruct (non_null p).
    - assert (E : map optional ps2 = map optional ps1).
      { unfold ps2. apply map_number_what. intros i p. cbn [fst snd]. destruct (Nat.ltb i reach); [|easy]. unfold strip_bang. now destruct (non_null p). }
      destruct ps1 as [|p1 r1]; [easy|]. destruct ps2 as [|p2 r2]; [easy|]. cbn in E, B |- *. injection E as _ E. now rewrite E.
    - unfold ps2. apply Forall_number; [|easy]. intros i p [T1 T2]. cbn [fst snd]. destruct (Nat.ltb i reach); [|easy]. unfold strip_bang. destruct (non_null p) eqn:NN; [split; [exact T1|cbn; discriminate]|split; [exact T1|rewrite NN; exact T2]]. }
  assert (Own2 : forall i p, nth_error ps2 (Datatypes.S i) = Some p -> optional p = nth i (map snd ls) false).
  { intros i p E. destruct S2 as (_ & B & _). destruct ps2 as [|p0 pr]; [easy|]. cbn in E, B. rewrite <- B.
    rewrite (nth_error_nth (map optional pr) i false (x := optional p)); [easy|]. now apply map_nth_error. }
  clearbody ps2. clear Own S1 Len G reach.
  set (seen := fun o => if Nat.eqb (idx o) (idx src) && negb (is_plain o) then ps2 else flatten (if is_plain o then node o else compared o)).
  assert (Seen : forall o, In o cs -> shaped x (links o) (seen o)).
  { intros o I. destruct (Hc o I) as (A & _ & E). unfold seen. destruct (Nat.eqb_spec (idx o) (idx src)) as [Q|Q]; cbn [andb].
    - destruct (is_plain o) eqn:P; cbn [negb]; [|now rewrite E]. apply flatten_shaped. unfold seen_expr in A. now rewrite P in A.
    - apply flatten_shaped. exact A. }
  assert (Flt : filter (fun qs => starts_with base_text_eqb qs ps2 && Nat.leb (length qs) (length ps2)) (map seen cs) = map seen cs).
  { assert (FA : forall l : list operand, incl l cs -> filter (fun qs => starts_with base_text_eqb qs ps2 && Nat.leb (length qs) (length ps2)) (map seen l) = map seen l).
    { induction l as [|o l IH]; intro I; [easy|]. cbn. assert (Io : In o cs) by (apply I; now left). destruct (Hc o Io) as (_ & (more & M) & _). destruct S2 as (A2 & _ & T2).
      rewrite (shaped_starts _ _ _ _ _ more (Seen o Io) A2 T2 M). f_equal. apply IH. intros z Z. apply I. now right. }
    apply FA. apply incl_refl. }
  rewrite Flt.
  assert (Srt2 : StronglySorted (fun a c => length a <= length c) (map seen cs)).
  { assert (FA : forall l : list operand, incl l cs -> StronglySorted (fun a c => length (links a) <= length (links c)) l -> StronglySorted (fun a c : list part => length a <= length c) (map seen l)).
    { induction l as [|o l IH]; intros I Q; [constructor|]. apply StronglySorted_inv in Q as [Q1 Q2]. cbn [map]. constructor; [apply IH; [intros z Z; apply I; now right|easy]|].
      apply Forall_map. apply Forall_forall. intros z Z. rewrite Forall_forall in Q2. specialize (Q2 z Z).
      rewrite (shaped_length _ _ _ (Seen o (I o (or_introl eq_refl)))), (shaped_length _ _ _ (Seen z (I z (or_intror Z)))). lia. }
    apply FA; [apply incl_refl|easy]. }
  split; [|split].
  - destruct S2 as (A & _). rewrite <- A. apply map_number_what. intros i p. destruct (shortest i (map seen cs)); [|easy]. now destruct (nth_error l i).
  - destruct S2 as (_ & _ & T). apply Forall_number; [|easy]. intros i p [T1 T2]. pose proof (shortest_first i _ Srt2) as SF. destruct (shortest i (map seen cs)) as [qs|]; [|easy].
    destruct (nth_error qs i) as [r|]; [|easy]. split; [easy|]. cbn. destruct (bang p) eqn:BP; cbn; [now rewrite T2|]. destruct (non_null r); cbn; [now rewrite orb_true_r|easy].
  - intros i p E. rewrite nth_error_map, nth_number in E. destruct (nth_error ps2 (Datatypes.S i)) as [p2|] eqn:E2; [|easy]. cbn [option_map] in E. injection E as E.
    pose proof (shortest_first (Datatypes.S i) _ Srt2) as SF. destruct (shortest (Datatypes.S i) (map seen cs)) as [qs|].
    + right. destruct SF as (l1 & l2 & E3 & F & G). apply map_eq_app in E3 as (c1 & c2' & C1 & C2 & C3). apply map_eq_cons in C3 as (o & c2 & -> & C4 & C5).
      exists c1, o, c2. split; [easy|]. assert (Io : In o cs) by (rewrite C1; apply in_or_app; right; now left). subst qs l1.
      rewrite (shaped_length _ _ _ (Seen o Io)) in G. split; [|split].
      * apply Forall_map in F. rewrite Forall_forall in F |- *. intros z Z. specialize (F z Z). assert (Iz : In z cs) by (rewrite C1; apply in_or_app; now left).
        rewrite (shaped_length _ _ _ (Seen z Iz)) in F. lia.
      * lia.
      * destruct (Seen o Io) as (W & B & _). destruct (seen o) as [|q0 qr]; [easy|]. cbn in E, B.
        destruct (nth_error qr i) as [r|] eqn:ER; [|exfalso; apply nth_error_None in ER; rewrite <- (map_length optional), B, map_length in ER; lia].
        subst p. cbn. rewrite <- B. rewrite (nth_error_nth (map optional qr) i false (x := optional r)); [easy|]. now apply map_nth_error.
    + left. split; [|subst p; now apply Own2]. apply Forall_map in SF. rewrite Forall_forall in SF |- *. intros z Z. specialize (SF z Z). rewrite (shaped_length _ _ _ (Seen z Z)) in SF. lia.
Qed.
End Parts.

(** ** The access that is written *)
Definition banged (p : part) (e : expr) : expr := if bang p then NonNull e else e.
Definition grow1 (acc : expr) (x : part * bool) : expr :=
  banged (fst x) (match what (fst x) with PName pr n => Dot acc pr n (snd x) | PIndex i => Elem acc i (snd x) | PArgs t y => Call acc t y (snd x) | PBase _ _ => acc end).
Definition base_expr (p : part) : expr := banged p (match what p with PBase e w => if w then Paren e else e | _ => Null end).
Definition built (ps : list part) (flags : list bool) : expr := match ps with p :: r => fold_left grow1 (combine r flags) (base_expr p) | [] => Null end.
Lemma grow_text : forall r flags ls acc, map what r = map link_piece ls -> Forall tidy r ->
  text (fold_left grow1 (combine r flags) acc) = text acc ++ flat_map (fun x => part_text (fst x) (snd x)) (combine r flags).
Proof.
  induction r as [|p r IH]; intros [|q flags] [|l ls] acc E T; try easy; cbn; try (now rewrite app_nil_r). injection E as E1 E2. inversion T as [|? ? [T1 _] T2]; subst.
  rewrite (IH flags ls) by easy. rewrite app_assoc. f_equal. unfold grow1, banged, part_text. cbn. rewrite T1, E1.
  destruct l; cbn; destruct (bang p); cbn; now rewrite <- ?app_assoc.
Qed.
Lemma grow_eval w : forall r flags ls acc, map what r = map link_piece ls -> eval w (fold_left grow1 (combine r flags) acc) = walk w (eval w acc) (combine ls flags).
Proof.
  induction r as [|p r IH]; intros flags [|l ls] acc E; try easy. destruct flags as [|q flags]; [easy|]. injection E as E1 E2. cbn. rewrite (IH flags ls) by easy.
  unfold walk. f_equal. unfold grow1, banged. cbn. rewrite E1. destruct l; cbn; destruct (bang p); easy.
Qed.
Lemma grow_level : forall r flags ls acc, map what r = map link_piece ls -> 17 <= level acc -> 17 <= level (fold_left grow1 (combine r flags) acc).
Proof.
  induction r as [|p r IH]; intros flags [|l ls] acc E L; try easy. destruct flags as [|q flags]; [easy|]. injection E as E1 E2. cbn.
  apply (IH flags ls); [easy|]; unfold grow1, banged; cbn; rewrite E1; destruct l; cbn; destruct (bang p); cbn; lia.
Qed.
Lemma grow_fits : forall r flags ls acc, map what r = map link_piece ls -> 17 <= level acc -> fits acc -> fits (fold_left grow1 (combine r flags) acc).
Proof.
  induction r as [|p r IH]; intros flags [|l ls] acc E L F; try easy. destruct flags as [|q flags]; [easy|]. injection E as E1 E2. cbn.
  apply (IH flags ls); [easy| |]; unfold grow1, banged; cbn; rewrite E1; destruct l; cbn; destruct (bang p); cbn; auto; lia.
Qed.
Lemma access_simple : forall e x ls, access_of e = Some (x, ls) -> simple_base x = true /\ (fits e -> fits x).
Proof.
  assert (B : forall e x ls, (if simple_base e then Some (e, @nil (link * bool)) else None) = Some (x, ls) -> simple_base x = true /\ (fits e -> fits x)).
  { intros e x ls H. destruct (simple_base e) eqn:S; [|easy]. now injection H as <- <-. }
  induction e; intros y ls H; cbn [access_of] in H; try (match type of H with (if simple_base ?e then _ else _) = _ => exact (B e _ _ H) end).
  - destruct (access_of e) as [[z m]|] eqn:A; [|easy]. injection H as <- <-. destruct (IHe _ _ eq_refl). split; [easy|]. cbn. tauto.
  - destruct (access_of e1) as [[z m]|] eqn:A; [|easy]. injection H as <- <-. destruct (IHe1 _ _ eq_refl). split; [easy|]. cbn. tauto.
  - destruct (access_of e) as [[z m]|] eqn:A; [|easy]. injection H as <- <-. destruct (IHe _ _ eq_refl). split; [easy|]. cbn. tauto.
  - destruct (IHe _ _ H). split; [easy|]. cbn. tauto.
  - destruct (IHe _ _ H). split; [easy|]. cbn. tauto.
Qed.
Lemma base_expr_spec p x w : simple_base x = true -> what p = PBase x (wraps x) -> eval w (base_expr p) = eval w x /\ 17 <= level (base_expr p) /\ (fits x -> fits (base_expr p)).
Proof.
  intros S W. unfold base_expr, banged. rewrite W.
  assert (C : (close (fst (eval w x)), snd (eval w x)) = eval w x) by (pose proof (base_not_short w x S); destruct (eval w x) as [[] ?]; easy).
  destruct x; try easy; cbn [wraps]; destruct (bang p); cbn [eval level fits] in *; (split; [first [exact C|easy]|split; [lia|intuition lia]]).
Qed.
Lemma number_tail {A} (p : A) r : number (p :: r) = (0, p) :: combine (seq 1 (length r)) r.
Proof. easy. Qed.
Lemma build_text ps lengths co code x (ls : list link) : map what ps = PBase x (wraps x) :: map link_piece ls -> Forall tidy ps ->
  build ps lengths co false = Some code -> code = text (built ps (map (opt_at ps lengths co) (seq 1 (length ls)))).
Proof.
  intros W T. unfold build. destruct (existsb _ _); [easy|]. intro H. injection H as <-. cbn [andb]. destruct ps as [|p r]; [easy|]. injection W as W0 W. inversion T as [|? ? [T1 _] T2]; subst.
  cbn [built]. rewrite (grow_text r _ ls) by easy. rewrite number_tail. cbn [flat_map]. f_equal.
  - unfold part_text, base_expr, banged. rewrite T1, W0. destruct (wraps x), (bang p); cbn; now rewrite ?app_nil_r, <- ?app_assoc.
  - assert (E : length ls = length r) by (apply (f_equal (@length _)) in W; now rewrite !map_length in W). rewrite E. generalize (opt_at (p :: r) lengths co) as f. intro f. generalize 1.
    clear. induction r as [|q r IH]; intro s; cbn; [easy|]. f_equal. apply IH.
Qed.
Lemma built_spec ps flags x (ls : list link) w : simple_base x = true -> map what ps = PBase x (wraps x) :: map link_piece ls ->
  eval w (built ps flags) = walk w (eval w x) (combine ls flags) /\ 17 <= level (built ps flags) /\ (fits x -> fits (built ps flags)).
Proof.
  intros S W. destruct ps as [|p r]; [easy|]. injection W as W0 W. destruct (base_expr_spec p x w S W0) as (A & C & D). cbn [built].
  split; [now rewrite (grow_eval w r flags ls), A|]. split; [now apply (grow_level r flags ls)|]. intro F. apply (grow_fits r flags ls); auto.
Qed.

(** ** What the operands ask and what the new access gives *)
Lemma combine_prefix (l : list (link * bool)) more : combine (map fst l ++ more) (map snd l) = l.
Proof. induction l as [|[] l IH]; cbn; [now destruct more|]. now rewrite IH. Qed.
Definition first_flag (qs : list bool) (Q : list (list bool)) : Prop :=
  forall i c1 q c2, Q = c1 ++ q :: c2 -> Forall (fun q => length q <= i) c1 -> i < length q -> nth i q false = true -> nth i qs false = true.
Lemma first_cover i Q : covers i Q -> exists c1 q c2, Q = c1 ++ q :: c2 /\ Forall (fun q : list bool => length q <= i) c1 /\ i < length q.
Proof.
  intros (q & I & L). induction Q as [|x Q IH]; [easy|]. destruct (Nat.ltb_spec i (length x)) as [H|H]; [now exists [], x, Q|].
  destruct I as [->|I]; [lia|]. destruct (IH I) as (c1 & r & c2 & -> & F & G). exists (x :: c1), r, c2. split; [easy|]. split; [now constructor|easy].
Qed.
Lemma first_kept qs Q1 Q2 : first_flag qs (Q1 ++ Q2) -> kept qs Q1.
Proof.
  intros F i C A. destruct (first_cover i Q1 C) as (c1 & q & c2 & -> & G & L). apply (F i c1 q (c2 ++ Q2)); [now rewrite <- app_assoc|easy|easy|].
  apply A; [apply in_or_app; right; now left|easy].
Qed.
Lemma loose_nothing w u v : nullishb v = true -> loose w u v = nullishb u /\ loose w v u = nullishb u.
Proof. intro N. unfold loose. rewrite N. now destruct (nullishb u). Qed.
Lemma nothing_value w v : nothing v -> exists u, result w v = Val u /\ nullishb u = true /\ (v = Null /\ u = Nul \/ v = Id (b "undefined") /\ u = Undef).
Proof. intros [->| ->]; unfold result; cbn; [exists Nul|exists Undef]; intuition. Qed.
Lemma result_bin w k l r : equality k -> result w (Bin k l r) = after (result w l) (fun v => after (result w r) (fun u => binary_out w k v u)).
Proof.
  unfold result. intro E. assert (fst (eval w (Bin k l r)) = after (fst (eval w l)) (fun v => after (fst (eval w r)) (fun u => binary_out w k v u))) as -> by (destruct E as [->|[->|[->| ->]]]; easy).
  unfold after. destruct (fst (eval w l)) as [v| |]; cbn; try easy; destruct (fst (eval w r)) as [u| |]; cbn; try easy; destruct E as [->|[->|[->| ->]]]; easy.
Qed.
(** What a guard that is evaluated says of its access. *)
Lemma guard_result w g a k : guard g a k -> result w g <> Throw ->
  fst (eval w a) <> Throw
  /\ exists v, result w g = Val v /\ (truthy v = false -> (k = Truth -> ~ falsy_only v) -> exists u, result w a = Val u /\ nullishb u = true).
Proof.
  intros G T.
  assert (R : forall e, result w e <> Throw -> fst (eval w e) <> Throw) by (intros e H E; apply H; unfold result; now rewrite E).
  assert (V : forall e, result w e <> Throw -> exists v, result w e = Val v).
  { intros e H. unfold result in *. destruct (fst (eval w e)) as [v| |]; cbn in *; [now exists v|now exists Undef|easy]. }
  destruct G as [g|a v N|a v N|a v N|a v N].
  - split; [auto|]. destruct (V g T) as [v E]. exists v. split; [easy|]. intros F H. exists v. split; [easy|]. specialize (H eq_refl). unfold falsy_only, nullish in H.
    destruct v; cbn in *; try easy; exfalso; apply H; intuition; easy.
  - destruct (nothing_value w v N) as (u & E & U & _). rewrite result_bin in T |- * by (unfold equality; auto).
    assert (A : result w a <> Throw) by (intro A; rewrite A in T; now apply T). destruct (V a A) as [x X]. split; [auto|]. rewrite X, E. cbn. eexists. split; [reflexivity|].
    intros F _. exists x. split; [easy|]. cbn in F. destruct (loose_nothing w x u U) as [L _]. rewrite L in F. now apply negb_false_iff in F.
  - destruct (nothing_value w v N) as (u & E & U & _). rewrite result_bin in T |- * by (unfold equality; auto). rewrite E in T |- *. cbn in T |- *.
    assert (A : result w a <> Throw) by (intro A; rewrite A in T; now apply T). destruct (V a A) as [x X]. split; [auto|]. rewrite X. cbn. eexists. split; [reflexivity|].
    intros F _. exists x. split; [easy|]. cbn in F. destruct (loose_nothing w x u U) as [_ L]. rewrite L in F. now apply negb_false_iff in F.
  - destruct (nothing_value w v N) as (u & E & U & _). rewrite result_bin in T |- * by (unfold equality; auto).
    assert (A : result w a <> Throw) by (intro A; rewrite A in T; now apply T). destruct (V a A) as [x X]. split; [auto|]. rewrite X, E. cbn. eexists. split; [reflexivity|].
    intros F _. exists x. split; [easy|]. cbn in F. apply negb_false_iff in F. destruct x, u; cbn in *; easy.
  - destruct (nothing_value w v N) as (u & E & U & _). rewrite result_bin in T |- * by (unfold equality; auto). rewrite E in T |- *. cbn in T |- *.
    assert (A : result w a <> Throw) by (intro A; rewrite A in T; now apply T). destruct (V a A) as [x X]. split; [auto|]. rewrite X. cbn. eexists. split; [reflexivity|].
    intros F _. exists x. split; [easy|]. cbn in F. apply negb_false_iff in F. destruct x, u; cbn in *; easy.
Qed.
(** The end with another access in it. *)
Definition finish_with (s e : expr) (fin : option (op * expr)) (on_left : bool) : expr :=
  match fin with None => e | Some (k, v) => if on_left then Bin k e v else Bin k v e end.
(** Against undefined the comparison fails. *)
Definition fails (w : world) (fin : option (op * expr)) : Prop :=
  match fin with None => True | Some (k, v) => exists u, result w v = Val u /\ binary_out w k Undef u = Val (Boolean false) /\ binary_out w k u Undef = Val (Boolean false) end.
Record piece_of (w : world) (x : expr) (L : list link) (g : expr) (ls : list (link * bool)) : Prop := {
  pc_guard : exists a k, guard g a k /\ access_of a = Some (x, ls) /\ (k = Truth -> forall v, result w g = Val v -> ~ falsy_only v);
  pc_prefix : exists m more, L = map fst ls ++ m :: more }.
Lemma sim_result w e x ls : access_of e = Some (x, ls) -> fst (eval w e) <> Throw ->
  fst (walk w (eval w x) ls) <> Throw /\ result w e = close (fst (walk w (eval w x) ls)).
Proof.
  intros A T. unfold result. destruct (access_walk w e x ls A) as [S|[E|[U S]]]; [now rewrite S in T|rewrite <- E; now split|]. rewrite S, U. easy.
Qed.
Lemma segment w x L : forall gs lss s a ls fin side qs e', Forall2 (piece_of w x L) gs lss ->
  s = finish_with s a fin side -> (match fin with Some (k, _) => equality k | None => True end) -> access_of a = Some (x, ls) -> map fst ls = L ->
  eval w e' = walk w (eval w x) (combine L qs) -> length qs = length L -> first_flag qs (map (map snd) (lss ++ [ls])) -> Forall (fun l => nth (length l) qs false = true) lss ->
  fails w fin -> result w (join And (gs ++ [s])) <> Throw -> agrees (result w (join And (gs ++ [s]))) (result w (finish_with s e' fin side)).
Proof.
  intros gs lss s a ls fin side qs e' FG Es Eq Aa EL Ee Lq FF FT Fs.
  (* what is evaluated so far *)
  assert (G : forall gs2 lss2 gs1 lss1, gs = gs1 ++ gs2 -> lss = lss1 ++ lss2 -> Forall2 (piece_of w x L) gs2 lss2 ->
    (forall q, In q (map (map snd) lss1) -> length q <= length L /\ fst (walk w (eval w x) (combine L q)) <> Throw) ->
    result w (join And (gs2 ++ [s])) <> Throw -> agrees (result w (join And (gs2 ++ [s]))) (result w (finish_with s e' fin side))).
  2: { intro T. apply (G gs lss [] []); auto. easy. }
  induction gs2 as [|g gs2 IH]; intros lss2 gs1 lss1 E1 E2 F2 Q T.
  - inversion F2; subst lss2. rewrite app_nil_r in E2. subst lss1. cbn [app join joined fold_left] in T |- *.
    assert (Ta : fst (eval w a) <> Throw).
    { intro C. apply T. rewrite Es. unfold finish_with. destruct fin as [[k v]|]; [|unfold result; now rewrite C]. destruct Fs as (u & V & _).
      destruct side; rewrite result_bin by easy; unfold result at 1; rewrite ?C; cbn; [easy|]. fold (result w v). rewrite V. cbn. unfold result. now rewrite C. }
    destruct (sim_result w a x ls Aa Ta) as [W R].
    assert (K : fst (eval w e') = fst (walk w (eval w x) ls)).
    { rewrite Ee. destruct (walk_core w L (eval w x) qs (map (map snd) (lss ++ [ls])) Lq) as [C _].
      - intros q I. rewrite map_app in I. apply in_app_or in I as [I|[<-|[]]]; [now apply Q|]. rewrite map_length, <- EL, map_length. split; [lia|]. 
        pose proof (combine_prefix ls []) as CP. rewrite app_nil_r in CP. now rewrite CP.
      - apply (first_kept qs _ []). now rewrite app_nil_r.
      - rewrite (C (map snd ls)).
        + rewrite <- EL. pose proof (combine_prefix ls []) as CP. rewrite app_nil_r in CP. now rewrite CP.
        + rewrite map_app. apply in_or_app. right. now left.
        + rewrite map_length, <- EL. now rewrite map_length. }
    assert (R2 : result w e' = result w a) by (unfold result at 1; now rewrite K, R). left. rewrite Es at 1. unfold finish_with. destruct fin as [[k v]|]; [|easy].
    destruct side; rewrite !result_bin by easy; now rewrite R2.
  - inversion F2 as [|? ls2 ? lss2' P F2']; subst. destruct P as [(ga & k & Gg & Ag & Fo) (m & more & Pm)].
    assert (NE : gs2 ++ [s] <> []) by now destruct gs2.
    assert (J : result w (join And ((g :: gs2) ++ [s])) = and2 (result w g) (result w (join And (gs2 ++ [s])))).
    { change ((g :: gs2) ++ [s]) with ([g] ++ (gs2 ++ [s])). now rewrite result_join_app. }
    rewrite J in T |- *. assert (Tg : result w g <> Throw) by (intro C; rewrite C in T; now apply T).
    destruct (guard_result w g ga k Gg Tg) as [Ta (v & V & N)]. destruct (sim_result w ga x ls2 Ag Ta) as [W R].
    assert (Q' : forall q, In q (map (map snd) (lss1 ++ [ls2])) -> length q <= length (map fst ls) /\ fst (walk w (eval w x) (combine (map fst ls) q)) <> Throw).
    { intros q I. rewrite map_app in I. apply in_app_or in I as [I|[<-|[]]]; [now apply Q|]. rewrite Pm. rewrite combine_prefix. split; [|easy]. rewrite app_length, !map_length. lia. }
    destruct (truthy v) eqn:TV.
    + rewrite V in T |- *. unfold and2 in T |- *. rewrite TV in T |- *. apply (IH lss2' (gs1 ++ [g]) (lss1 ++ [ls2])); auto; now rewrite <- app_assoc.
    + destruct (N eq_refl) as (u & U & NU). { intro Ek. now apply Fo. }
      assert (K : fst (eval w e') = Short).
      { rewrite Ee. destruct (walk_core w (map fst ls) (eval w x) qs (map (map snd) (lss1 ++ [ls2])) Lq Q') as [_ C].
        - apply (first_kept qs _ (map (map snd) (lss2' ++ [ls]))). rewrite <- map_app. rewrite <- !app_assoc in *. exact FF.
        - apply (C (map snd ls2)).
          + rewrite map_app. apply in_or_app. right. now left.
          + rewrite map_length, Pm, app_length, map_length. cbn. lia.
          + rewrite Pm, combine_prefix. rewrite R in U. destruct (fst (walk w (eval w x) ls2)) as [z| |]; cbn in *; [injection U as ->; easy|easy|easy].
          + rewrite map_length. rewrite Forall_forall in FT. apply FT. apply in_or_app. right. now left. }
      rewrite V. unfold and2. rewrite TV. right. assert (Re : result w e' = Val Undef) by (unfold result; now rewrite K).
      unfold finish_with. destruct fin as [[k' v']|].
      * destruct Fs as (u' & V' & B1 & B2). exists v, (Boolean false). split; [easy|]. destruct side; rewrite result_bin by easy; rewrite Re, V'; cbn; [rewrite B1|rewrite B2]; easy.
      * exists v, Undef. now rewrite Re.
Qed.

(** ** How operands are read *)
Lemma access_skip e : access_of (skip e) = access_of e.
Proof. induction e; cbn [skip access_of]; auto. Qed.
Lemma access_unwrap e : access_of (unwrap e) = access_of e.
Proof. induction e; cbn [unwrap access_of]; auto. Qed.
Lemma unwrap_idem e : unwrap (unwrap e) = unwrap e.
Proof. induction e; cbn; auto. Qed.
Definition ask_type (k : asks) : otype := match k with Truth => Plain | NotNothing => NotBoth | NotThis Null => NotNull | NotThis _ => NotUndef end.
Lemma nothing_nullish v : nothing v -> is_nullish v = true.
Proof. intros [->| ->]; reflexivity. Qed.
Lemma access_not_nullish a x ls : access_of a = Some (x, ls) -> is_nullish a || is_str a = false.
Proof.
  destruct a; cbn [access_of]; intro H; try easy. cbn [simple_base] in H. destruct (undefined_name x0) eqn:U; [easy|]. unfold is_nullish, is_undefined, is_undefined_id. cbn [is_null is_str orb].
  unfold undefined_name in U. rewrite U. easy.
Qed.
Lemma check_guard k e v at_ ty_at x ls : access_of e = Some (x, ls) -> nothing v -> (k = Ne2 \/ k = Ne3) ->
  parse_check true k e v at_ ty_at = Some ((match k, v with Ne2, _ => NotBoth | _, Null => NotNull | _, _ => NotUndef end), skip e, at_).
Proof.
  intros A N K. unfold parse_check. assert (S : access_of (skip e) = Some (x, ls)) by now rewrite access_skip.
  assert (T : match skip e, v with Typeof y, Str s => if beqb s (b "undefined") && match k with Ne3 | Ne2 => true | Eq3 | Eq2 => negb true | _ => false end then Some (TypeofCheck, y, ty_at) else None | _, _ => None end = None)
    by (destruct N as [->| ->]; now destruct (skip e)).
  rewrite T. destruct N as [->| ->], K as [->| ->]; reflexivity.
Qed.
Lemma parse_guard i g a k x ls : guard g a k -> access_of a = Some (x, ls) -> chain_type (typ (parse true i g)) ->
  let o := parse true i g in
  idx o = i /\ node o = g /\ typ o = ask_type k /\ access_of (compared o) = Some (x, ls) /\ access_of (seen_expr o) = Some (x, ls)
  /\ (k <> Truth -> compared o = skip a /\ exists l r v, g = Bin (match k with NotNothing => Ne2 | _ => Ne3 end) l r /\ nothing v /\ (k = NotNothing \/ k = NotThis v)
        /\ ((place_of o = OnLeft /\ l = a /\ r = v) \/ (place_of o = OnRight /\ l = v /\ r = a))).
Proof.
  intros G A. destruct G as [g|a v N|a v N|a v N|a v N].
  - unfold parse. assert (U : access_of (unwrap g) = Some (x, ls)) by now rewrite access_unwrap.
    destruct (is_this (unwrap g)) eqn:TH; [easy|]. set (sb := strip_base (unwrap g)).
    assert (R : match unwrap g with Bin _ _ _ | Pre _ _ => False | _ => True end) by (destruct (unwrap g); easy).
    assert (E : forall o, o = Operand i Plain g (unwrap g) Whole -> idx o = i /\ node o = g /\ typ o = ask_type Truth /\ access_of (compared o) = Some (x, ls) /\ access_of (seen_expr o) = Some (x, ls)
      /\ (Truth <> Truth -> compared o = skip g /\ exists l r v, g = Bin (match Truth with NotNothing => Ne2 | _ => Ne3 end) l r /\ nothing v /\ (Truth = NotNothing \/ Truth = NotThis v)
        /\ ((place_of o = OnLeft /\ l = g /\ r = v) \/ (place_of o = OnRight /\ l = v /\ r = g)))).
    { intros o ->. cbn. unfold seen_expr. cbn. repeat split; easy. }
    intro C. apply E. clear E. destruct sb as [| | | | | | | | | | | | | | | | |[]| | | | | | | | | |]; try easy; destruct (unwrap g); easy.
  - intros _. unfold parse. cbn [unwrap is_this]. change (strip_base (Bin Ne2 a v)) with (Bin Ne2 a v). cbv iota. rewrite (nothing_nullish v N). cbn [orb].
    rewrite (check_guard Ne2 a v _ _ x ls A N) by auto. unfold seen_expr, is_plain. cbn. rewrite access_skip. repeat split; try easy.
    exists a, v, v. auto 10.
  - intros _. unfold parse. cbn [unwrap is_this]. change (strip_base (Bin Ne2 v a)) with (Bin Ne2 v a). cbv iota. rewrite (access_not_nullish a x ls A), (nothing_nullish v N). cbn [orb].
    rewrite (check_guard Ne2 a v _ _ x ls A N) by auto. unfold seen_expr, is_plain. cbn. rewrite access_skip. repeat split; try easy.
    exists v, a, v. auto 10.
  - intros _. unfold parse. cbn [unwrap is_this]. change (strip_base (Bin Ne3 a v)) with (Bin Ne3 a v). cbv iota. rewrite (nothing_nullish v N). cbn [orb].
    rewrite (check_guard Ne3 a v _ _ x ls A N) by auto. unfold seen_expr, is_plain. cbn. assert (E : otype_eqb match v with Null => NotNull | _ => NotUndef end Plain = false) by now destruct v. rewrite E, access_skip.
    repeat split; try easy; try (now destruct N as [->| ->]). exists a, v, v. auto 10.
  - intros _. unfold parse. cbn [unwrap is_this]. change (strip_base (Bin Ne3 v a)) with (Bin Ne3 v a). cbv iota. rewrite (access_not_nullish a x ls A), (nothing_nullish v N). cbn [orb].
    rewrite (check_guard Ne3 a v _ _ x ls A N) by auto. unfold seen_expr, is_plain. cbn. assert (E : otype_eqb match v with Null => NotNull | _ => NotUndef end Plain = false) by now destruct v. rewrite E, access_skip.
    repeat split; try easy; try (now destruct N as [->| ->]). exists v, a, v. auto 10.
Qed.
Lemma bare_access a : bare a -> is_access a = true /\ skip a = a /\ parens a = 0 /\ unwrap a = a.
Proof. now destruct a. Qed.
Lemma no_access_skip v : no_access v -> is_access (skip v) = false.
Proof.
  unfold no_access. induction v; cbn [skip unwrap is_access] in *; auto.
Qed.
Lemma check_finish k a v at_ ty_at t : bare a -> parse_check true k a v at_ ty_at = Some t -> equality k -> chain_type (fst (fst t)) ->
  match fst (fst t) with NotNull | NotUndef | NotBoth => True | _ => False end /\ snd (fst t) = a /\ snd t = at_.
Proof.
  intros B H K C. destruct (bare_access a B) as (_ & Sk & _). unfold parse_check in H. rewrite Sk in H.
  assert (T : match a, v with Typeof y, Str s => if beqb s (b "undefined") && match k with Ne3 | Ne2 => true | Eq3 | Eq2 => negb true | _ => false end then Some (TypeofCheck, y, ty_at) else None | _, _ => None end = None)
    by now destruct a.
  rewrite T in H. destruct K as [->|[->|[->| ->]]]; cbn zeta iota in H; repeat match type of H with (if ?c then _ else _) = _ => destruct c end; try easy; injection H as <-; easy.
Qed.
Lemma parse_finish i s a k v x ls side : s = finish_with s a (Some (k, v)) side -> equality k -> no_access v -> bare a -> access_of a = Some (x, ls) -> chain_type (typ (parse true i s)) ->
  let o := parse true i s in
  idx o = i /\ node o = s /\ match typ o with NotNull | NotUndef | NotBoth | Comparison => True | _ => False end /\ compared o = a /\ place_of o = if side then OnLeft else OnRight.
Proof.
  intros Es K N B A. destruct (bare_access a B) as (Ia & Sa & _). pose proof (no_access_skip v N) as Iv.
  assert (CP : forall l r, Bin k l r = Bin k l r -> parse_comparison k l r = if is_access (skip l) && is_access (skip r) then None else if is_access (skip r) then Some (Comparison, skip r, OnRight) else if is_access (skip l) then Some (Comparison, skip l, OnLeft) else None)
    by (intros; unfold parse_comparison; destruct K as [->|[->|[->| ->]]]; reflexivity).
  destruct side.
  - assert (P : parse true i (Bin k a v) = match (if is_nullish v || is_str v then parse_check true k a v OnLeft TypeofLeft else None) with
        | Some (t, e, p) => Operand i t (Bin k a v) e p | None => Operand i Comparison (Bin k a v) a OnLeft end).
    { unfold parse. cbn [unwrap is_this]. assert (S : strip_base (Bin k a v) = Bin k a v) by easy. rewrite S. rewrite (access_not_nullish a x ls A).
      rewrite (CP a v eq_refl), Sa, Ia, Iv. cbn [andb].
      assert (D : forall (T : Type) (p q : T), match Bin k a v with Bin And _ _ | Bin Or _ _ => p | _ => q end = q) by (intros; destruct K as [->|[->|[->| ->]]]; reflexivity).
      rewrite D. destruct (is_nullish v || is_str v); [|reflexivity]. destruct (parse_check true k a v OnLeft TypeofLeft) as [[[t e] p]|]; reflexivity. }
    rewrite Es. cbn [finish_with]. rewrite P. destruct (if is_nullish v || is_str v then _ else None) as [[[t e] p]|] eqn:Q; [|intros _; cbn; repeat split; easy].
    destruct (is_nullish v || is_str v); [|easy]. intro C. cbn in C. destruct (check_finish k a v _ _ _ B Q K C) as (Q1 & Q2 & Q3). cbn in Q1, Q2, Q3. cbn. subst. repeat split; try easy. now destruct t.
  - assert (P : parse true i (Bin k v a) = match (if is_nullish v || is_str v then parse_check true k a v OnRight TypeofRight else None) with
        | Some (t, e, p) => Operand i t (Bin k v a) e p | None => Operand i Comparison (Bin k v a) a OnRight end).
    { unfold parse. cbn [unwrap is_this]. assert (S : strip_base (Bin k v a) = Bin k v a) by easy. rewrite S. rewrite (access_not_nullish a x ls A).
      rewrite (CP v a eq_refl), Sa, Ia, Iv. cbn [andb].
      assert (D : forall (T : Type) (p q : T), match Bin k v a with Bin And _ _ | Bin Or _ _ => p | _ => q end = q) by (intros; destruct K as [->|[->|[->| ->]]]; reflexivity).
      rewrite D. destruct (is_nullish v || is_str v); [|reflexivity]. destruct (parse_check true k a v OnRight TypeofRight) as [[[t e] p]|]; reflexivity. }
    rewrite Es. cbn [finish_with]. rewrite P. destruct (if is_nullish v || is_str v then _ else None) as [[[t e] p]|] eqn:Q; [|intros _; cbn; repeat split; easy].
    destruct (is_nullish v || is_str v); [|easy]. intro C. cbn in C. destruct (check_finish k a v _ _ _ B Q K C) as (Q1 & Q2 & Q3). cbn in Q1, Q2, Q3. cbn. subst. repeat split; try easy. now destruct t.
Qed.

(** ** The code of a chain *)
Definition links (o : operand) : list (link * bool) := match access_of (seen_expr o) with Some (_, l) => l | None => [] end.
Definition reads (x : expr) (o : operand) : Prop := access_of (compared o) = Some (x, links o) /\ access_of (seen_expr o) = Some (x, links o).
Lemma links_eq o x l : access_of (seen_expr o) = Some (x, l) -> links o = l.
Proof. intro H. unfold links. now rewrite H. Qed.
Lemma nth_flags (f : nat -> bool) n j : j < n -> nth j (map f (seq 1 n)) false = f (S j).
Proof.
  intro H. rewrite (nth_indep _ false (f 0)) by (now rewrite map_length, seq_length). rewrite map_nth. now rewrite seq_nth.
Qed.
Lemma filled_in chain n : In n (lengths_of chain) -> member n (filled chain) = true.
Proof.
  intro H. unfold member. apply existsb_exists. exists n. split; [|apply Nat.eqb_refl]. unfold filled.
  destruct (nodup Nat.eq_dec (lengths_of chain)) as [|[|[|k]] [|y l]]; auto. apply in_or_app. now left.
Qed.
Lemma lengths_in chain o : In o (checks chain) -> otype_eqb (typ o) TypeofCheck = false -> In (depth (compared o)) (lengths_of chain).
Proof.
  intros I T. unfold lengths_of. apply (in_map (fun o => depth (compared o))). apply filter_In. split; [easy|]. now rewrite T.
Qed.
Lemma code_spec width chain x cg ex co code : let src := source chain in
  (checks chain = cg ++ ex) -> (ex = [] \/ exists ex', ex = src :: ex') -> cg <> [] -> In (start chain) cg ->
  Forall (reads x) (cg ++ src :: ex) -> Forall (fun o => otype_eqb (typ o) TypeofCheck = false) cg ->
  Forall (fun o => exists m more, map fst (links src) = map fst (links o) ++ m :: more) cg -> Forall (fun o => map fst (links src) = map fst (links o)) ex ->
  (forall o, In o (checks chain) -> idx o = idx src -> links o = links src) -> StronglySorted (fun a c => length (links a) <= length (links c)) (checks chain) ->
  build (and_parts width chain) (filled chain) co false = Some code ->
  exists e' qs, code = text e' /\ (fits x -> fits e') /\ 17 <= level e' /\ length qs = length (map fst (links src)) /\ (forall w, eval w e' = walk w (eval w x) (combine (map fst (links src)) qs))
    /\ first_flag qs (map (map snd) (map links cg ++ [links src])) /\ Forall (fun l => nth (length l) qs false = true) (map links cg).
Proof.
  intros src HC HE NE HS R NT PG PE IX SO HB. set (L := links src).
  assert (Rall : forall o, In o (cg ++ src :: ex) -> reads x o) by (now apply Forall_forall).
  assert (Rsrc : reads x src) by (apply Rall, in_or_app; right; now left).
  assert (Rc : forall o, In o (checks chain) -> reads x o).
  { intros o I. apply Rall. rewrite HC in I. apply in_app_or in I as [I|I]; apply in_or_app; [now left|right; now right]. }
  assert (Pc : forall o, In o (checks chain) -> exists more, map fst L = map fst (links o) ++ more).
  { intros o I. rewrite HC in I. apply in_app_or in I as [I|I].
    - rewrite Forall_forall in PG. destruct (PG o I) as (m & more & E). now exists (m :: more).
    - rewrite Forall_forall in PE. exists []. rewrite app_nil_r. now apply PE. }
  destruct (parts_shaped width chain x L links) as (W & T & O).
  - exact (proj2 Rsrc).
  - intro P. assert (Rs : reads x (start chain)) by (apply Rall, in_or_app; now left). destruct Rs as [_ Rs]. unfold seen_expr in Rs. rewrite P in Rs. now exists (links (start chain)).
  - intros o I. split; [exact (proj2 (Rc o I))|]. split; [now apply Pc|]. intros E _. now apply IX.
  - exact SO.
  - set (ps := and_parts width chain) in *. destruct (access_simple _ _ _ (proj2 Rsrc)) as [SB _].
    assert (W' : map what ps = PBase x (wraps x) :: map link_piece (map fst L)) by (now rewrite map_map).
    set (flags := map (opt_at ps (filled chain) co) (seq 1 (length (map fst L)))).
    assert (Lp : length ps = S (length L)) by (apply (f_equal (@length _)) in W; cbn in W; now rewrite !map_length in W).
    exists (built ps flags), flags. split; [exact (build_text _ _ _ _ x (map fst L) W' T HB)|].
    pose proof (fun w => built_spec ps flags x (map fst L) w SB W') as BS. destruct (BS (World (fun _ => None) Nul Nul (fun _ => None) (fun _ _ _ => None) (fun _ _ => None) (fun _ _ _ => None) (fun _ _ => None) (fun _ _ => None) (fun _ => None) (fun _ => None) (fun _ _ _ => None) (fun _ => []) (fun _ _ => false) (fun _ _ => false) (fun _ _ _ => None))) as (_ & B2 & B3).
    split; [exact B3|]. split; [exact B2|]. split; [unfold flags; now rewrite map_length, seq_length|]. split; [intro w; apply BS|].
    assert (Own : forall i p, i < length L -> nth_error ps (S i) = Some p -> optional p = true -> nth i flags false = true).
    { intros i p Li E Op. unfold flags. rewrite nth_flags by (now rewrite map_length). unfold opt_at. rewrite E, Op. now rewrite orb_true_r. }
    split.
    + intros i c1 q c2 E F Lq N.
      assert (Li : i < length L).
      { assert (I : In q (map (map snd) (map links cg ++ [L]))) by (rewrite E; apply in_or_app; right; now left). apply in_map_iff in I as (l & <- & I). rewrite map_length in Lq.
        apply in_app_or in I as [I|[<-|[]]]; [|easy]. apply in_map_iff in I as (o & <- & I). destruct (Pc o) as [more M]; [rewrite HC; apply in_or_app; now left|].
        apply (f_equal (@length _)) in M. rewrite app_length, !map_length in M. lia. }
      destruct (nth_error ps (S i)) as [p|] eqn:Ep; [|exfalso; apply nth_error_None in Ep; lia]. apply (Own i p Li Ep).
      (* the first that reaches step i among cg and src *)
      assert (U : forall d1 q1 d2, map (map snd) (map links cg ++ [L]) = d1 ++ q1 :: d2 -> Forall (fun q => length q <= i) d1 -> i < length q1 -> q1 = q).
      { intros d1 q1 d2 E' F' L'. rewrite E in E'. clear - E' F F' Lq L'. revert d1 E' F'. induction c1 as [|y c1 IH]; intros [|z d1] E' F'.
        - now injection E'.
        - injection E' as -> _. inversion F'; subst. lia.
        - injection E' as -> _. inversion F; subst. lia.
        - injection E' as -> E'. inversion F; inversion F'; subst. now apply (IH H2 d1). }
      destruct (O i p Ep) as [(FA & Op)|(d1 & o & d2 & E1 & F1 & L1 & Op)].
      * rewrite Op. rewrite <- (U (map (map snd) (map links cg)) (map snd L) []) in N; [easy| | |now rewrite map_length].
        -- now rewrite map_app.
        -- rewrite Forall_map, Forall_map. rewrite HC in FA. apply Forall_app in FA as [FA _]. eapply Forall_impl; [|exact FA]. intros o H. cbn. now rewrite map_length.
      * rewrite Op. rewrite HC in E1.
        assert (Q : exists d2', map (map snd) (map links cg ++ [L]) = map (map snd) (map links d1) ++ map snd (links o) :: d2' ).
        { clear - E1 HE F1 L1 PG PE Li. revert d1 E1 F1. induction cg as [|g cg IH]; intros d1 E1 F1.
          - cbn in E1. destruct HE as [->|[ex' ->]]; [now destruct d1|]. destruct d1 as [|y d1].
            + cbn in E1. injection E1 as <- _. now exists [].
            + cbn in E1. injection E1 as <- _. inversion F1; subst. fold L in H1. lia.
          - destruct d1 as [|y d1]; cbn in E1; injection E1 as <- E1.
            + eexists. cbn. reflexivity.
            + inversion F1; subst. inversion PG; subst. destruct (IH H4 d1 E1 H2) as [d2' D]. exists d2'. cbn. f_equal. exact D. }
        destruct Q as [d2' Q]. rewrite (U _ _ _ Q); [exact N| |now rewrite map_length].
        rewrite Forall_map, Forall_map. eapply Forall_impl; [|exact F1]. intros z H. cbn. now rewrite map_length.
    + apply Forall_map. rewrite Forall_forall in *. intros o I. destruct (PG o I) as (m & more & E).
      assert (Lo : length (links o) < length L) by (apply (f_equal (@length _)) in E; fold L in E; rewrite app_length, !map_length in E; cbn in E; lia).
      unfold flags. rewrite nth_flags by (now rewrite map_length). unfold opt_at.
      destruct (nth_error ps (S (length (links o)))) as [p|] eqn:Ep; [|exfalso; apply nth_error_None in Ep; lia].
      rewrite filled_in; [easy|]. assert (Io : In o (checks chain)) by (rewrite HC; apply in_or_app; now left).
      rewrite <- (shaped_depth _ _ _ (proj1 (Rc o Io))). apply lengths_in; [easy|]. now apply NT.
Qed.

(** ** Longer and shorter accesses *)
Fixpoint cnt (e : expr) : nat := match e with Dot o _ _ _ | Elem o _ _ => S (cnt o) | Call f _ _ _ => S (cnt f) | NonNull e | Paren e => cnt e | _ => 0 end.
Lemma cnt_unwrap e : cnt (unwrap e) = cnt e.
Proof. induction e; cbn; auto. Qed.
Lemma same_cnt : forall a c, same a c = true -> cnt a = cnt c.
Proof.
  induction a; intros c H; rewrite <- (cnt_unwrap c); cbn [same] in H;
    try (destruct (unwrap c) eqn:U; easy || (cbn; auto); fail).
  - destruct (unwrap c) eqn:U; try easy. apply andb_true_iff in H as [_ H]. cbn. f_equal. now apply IHa.
  - destruct (unwrap c) eqn:U; try easy. apply andb_true_iff in H as [_ H]. cbn. f_equal. now apply IHa1.
  - destruct (unwrap c) eqn:U; try easy. apply andb_true_iff in H as [H _]. apply andb_true_iff in H as [H _]. cbn. f_equal. now apply IHa.
  - rewrite cnt_unwrap. cbn. now apply IHa.
  - rewrite cnt_unwrap. cbn. now apply IHa.
Qed.
Lemma prefix_cnt : forall l s, prefix s l = true -> cnt s <= cnt l.
Proof.
  induction l; intros sh H; cbn [prefix] in H; apply orb_true_iff in H as [H|H]; try (apply same_cnt in H; lia); try easy; cbn [cnt].
  - specialize (IHl _ H). lia.
  - specialize (IHl1 _ H). lia.
  - specialize (IHl _ H). lia.
  - now apply IHl.
  - now apply IHl.
Qed.
Lemma access_cnt : forall e x ls, access_of e = Some (x, ls) -> cnt e = length ls.
Proof.
  assert (B : forall e x ls, (if simple_base e then Some (e, @nil (link * bool)) else None) = Some (x, ls) -> 0 = length ls).
  { intros e x ls H. destruct (simple_base e) eqn:S; [|easy]. now injection H as <- <-. }
  induction e; intros y ls H; cbn [access_of] in H; try (match type of H with (if simple_base ?e then _ else _) = _ => exact (B e _ _ H) end); cbn [cnt].
  - destruct (access_of e) as [[z m]|] eqn:A; [|easy]. injection H as <- <-. rewrite app_length, (IHe _ _ eq_refl). cbn. lia.
  - destruct (access_of e1) as [[z m]|] eqn:A; [|easy]. injection H as <- <-. rewrite app_length, (IHe1 _ _ eq_refl). cbn. lia.
  - destruct (access_of e) as [[z m]|] eqn:A; [|easy]. injection H as <- <-. rewrite app_length, (IHe _ _ eq_refl). cbn. lia.
  - exact (IHe _ _ H).
  - exact (IHe _ _ H).
Qed.
Lemma linked_sorted opts x c : linked opts c -> Forall (reads x) c -> StronglySorted (fun a c => length (links a) <= length (links c)) c.
Proof.
  intros L R. apply Sorted_StronglySorted; [intros p q r; lia|]. induction c as [|o c IH]; [constructor|]. pose proof (Forall_inv R) as [R1 _]. apply Forall_inv_tail in R. constructor.
  - apply IH; [|easy]. destruct c; [easy|]. now destruct L.
  - destruct c as [|p c]; [constructor|]. constructor. destruct L as [[L _] _]. pose proof (Forall_inv R) as [R2 _]. apply prefix_cnt in L.
    now rewrite (access_cnt _ _ _ R1), (access_cnt _ _ _ R2) in L.
Qed.

(** ** Operands that can be joined *)
Definition good (e : expr) : Prop := fits e /\ 4 < level e.
Lemma single_level e : single And e -> 4 <= level e -> 4 < level e.
Proof.
  intros S L. destruct e; try solve [cbn in *; lia].
  - destruct o; try solve [cbn [level op_level] in *; lia]. exfalso. apply (S e1 e2). reflexivity.
  - destruct parens; cbn; lia.
  - destruct k; cbn in *; lia.
Qed.
Lemma good_mixes e : 4 < level e -> mixes And e = false.
Proof. destruct e; cbn [level mixes]; try easy. destruct o; cbn [op_level]; easy || lia. Qed.
Lemma join_fits : forall l, Forall good l -> l <> [] -> fits (join And l) /\ 4 <= level (join And l) /\ mixes And (join And l) = false.
Proof.
  intros l F. induction l as [|y l IH] using rev_ind; [easy|]. intros _. apply Forall_app in F as [F Fy]. inversion Fy as [|? ? [Gy Ly] _]; subst.
  destruct l as [|x l].
  - cbn. split; [easy|]. split; [lia|now apply good_mixes].
  - cbn [app join]. rewrite joined_snoc. destruct (IH F) as (A & B & C); [easy|]. cbn [join] in A, B, C.
    split; [|split; [cbn; lia|easy]]. split; [exact A|]. split; [exact Gy|]. split; [exact C|]. split; [exact (good_mixes y Ly)|]. cbn. lia.
Qed.
Lemma joined_good : forall r x, Forall (single And) (x :: r) -> r <> [] -> fits (joined And x r) -> Forall good (x :: r).
Proof.
  induction r as [|y r IH] using rev_ind; intros x S N F; [easy|]. rewrite joined_snoc in F. cbn in F. destruct F as (F1 & F2 & _ & _ & L1 & L2).
  change (x :: r ++ [y]) with ((x :: r) ++ [y]) in *. apply Forall_app in S as [S1 S2]. apply Forall_app. split; [|constructor; [split; [easy|lia]|constructor]].
  destruct r as [|z r]; [|now apply IH]. cbn in F1, L1. constructor; [|constructor]. split; [easy|]. inversion S1; subst. now apply single_level.
Qed.
Lemma join_good l : Forall (single And) l -> 2 <= length l -> fits (join And l) -> Forall good l.
Proof. destruct l as [|x [|y r]]; cbn [length]; try lia. intros S _ F. now apply joined_good. Qed.

(** ** Operands by position *)
Definition ops_from (n : nat) (l : list expr) : list operand := map (fun p => parse true (fst p) (snd p)) (combine (seq n (length l)) l).
Lemma ops_app n a c : ops_from n (a ++ c) = ops_from n a ++ ops_from (n + length a) c.
Proof.
  unfold ops_from. revert n. induction a as [|x a IH]; intro n; cbn; [now rewrite Nat.add_0_r|]. f_equal. rewrite IH. now rewrite Nat.add_succ_r.
Qed.
Lemma ops_length n l : length (ops_from n l) = length l.
Proof. unfold ops_from. rewrite map_length, combine_length, seq_length. lia. Qed.
Lemma operands_join l : l <> [] -> Forall (single And) l -> operands And (join And l) = ops_from 0 l.
Proof.
  intros N S. destruct l as [|x r]; [easy|]. unfold operands. cbn [join]. rewrite spine_joined by easy. cbn [leaves]. rewrite leaves_spread. easy.
Qed.
Lemma parse_both k i e : idx (parse k i e) = i /\ node (parse k i e) = e.
Proof.
  unfold parse. destruct (is_this (unwrap e)); [easy|].
  assert (S : forall (x : expr) (u v : operand), idx u = i /\ node u = e -> idx v = i /\ node v = e ->
    idx (match x with Bin And _ _ | Bin Or _ _ => u | _ => v end) = i /\ node (match x with Bin And _ _ | Bin Or _ _ => u | _ => v end) = e).
  { intros x u v U V. destruct x; try easy. now destruct o. }
  apply S; [easy|]. destruct (unwrap e); try easy.
  - match goal with |- context [match ?c with Some _ => _ | None => _ end] => destruct c as [[[]]|] end; [easy|]. destruct (parse_comparison _ _ _) as [[[]]|]; easy.
  - destruct p; try easy. destruct (is_this _); easy.
Qed.
Lemma parse_idx k i e : idx (parse k i e) = i.
Proof. apply parse_both. Qed.
Lemma parse_node k i e : node (parse k i e) = e.
Proof. apply parse_both. Qed.
Lemma ops_idx n l : map idx (ops_from n l) = seq n (length l).
Proof.
  unfold ops_from. revert n. induction l as [|x l IH]; intro n; cbn; [easy|]. rewrite parse_idx. f_equal. apply IH.
Qed.
Lemma app_inv_len {A} (a c a' c' : list A) : a ++ c = a' ++ c' -> length a = length a' -> a = a' /\ c = c'.
Proof.
  revert a'. induction a as [|x a IH]; intros [|y a'] E L; try easy. cbn in *. injection E as -> E. injection L as L. now destruct (IH a' E L) as [-> ->].
Qed.
Lemma ops_run all p c q : ops_from 0 all = p ++ c ++ q -> exists a m z, all = a ++ m ++ z /\ length p = length a /\ c = ops_from (length a) m.
Proof.
  intro E. pose proof (ops_length 0 all) as L. rewrite E, !app_length in L.
  exists (firstn (length p) all), (firstn (length c) (skipn (length p) all)), (skipn (length c) (skipn (length p) all)).
  assert (A : all = firstn (length p) all ++ firstn (length c) (skipn (length p) all) ++ skipn (length c) (skipn (length p) all)) by (rewrite !firstn_skipn; easy).
  assert (P : length (firstn (length p) all) = length p) by (rewrite firstn_length; lia). split; [exact A|]. split; [easy|].
  rewrite A in E. rewrite !ops_app in E. apply app_inv_len in E as [_ E]; [|now rewrite ops_length]. apply app_inv_len in E as [E _]; [easy|].
  rewrite ops_length, firstn_length, skipn_length. lia.
Qed.

(** ** Fixes of && expressions *)
Lemma value_fails w k v t u : equality k -> result w v = Val u -> of_type u t -> ~ hides t -> safe_value k t = true -> fails w (Some (k, v)).
Proof.
  intros K V (a & I & C) H S. exists u. split; [exact V|].
  assert (HP : a <> AParam) by (intros ->; now apply H).
  assert (HN : has (fun a => match a with ANever => false | _ => true end) t = true) by (apply existsb_exists; exists a; split; [easy|]; now destruct a).
  assert (EX : forall f, has f t = false -> f a = false).
  { intros f E. destruct (f a) eqn:F; [|easy]. exfalso. assert (has f t = true) by (apply existsb_exists; now exists a). congruence. }
  assert (FA : forall f, forallb f t = true -> f a = true) by (intros f E; rewrite forallb_forall in E; now apply E).
  destruct K as [->|[->|[->| ->]]]; cbn [safe_value binary_out] in *.
  - apply negb_true_iff in S. unfold can_nullish in S. apply orb_false_iff in S as [S S5]. apply orb_false_iff in S as [S S4]. apply orb_false_iff in S as [S S3]. apply orb_false_iff in S as [S1 S2].
    apply orb_false_iff in S5 as [S5 S6]. apply EX in S2, S3, S4, S5, S6.
    assert (N : nullishb u = false) by (destruct a, u; cbn in *; easy). unfold loose. rewrite N. easy.
  - unfold always_nullish in S. apply andb_true_iff in S as [_ S]. apply FA in S.
    assert (N : nullishb u = true) by (destruct a, u; cbn in *; easy). unfold loose. rewrite N. easy.
  - apply negb_true_iff in S. unfold can_undef in S. apply orb_false_iff in S as [S S4]. apply orb_false_iff in S as [S S3]. apply orb_false_iff in S as [S1 S2].
    apply orb_false_iff in S4 as [S4 S5]. apply EX in S2, S3, S4, S5.
    assert (N : u <> Undef) by (intros ->; destruct a; cbn in *; easy). destruct u; easy.
  - unfold always_undef in S. apply andb_true_iff in S as [_ S]. apply FA in S.
    assert (N : u = Undef) by (destruct a, u; cbn in *; easy). now subst u.
Qed.
Lemma undefined_fails w : fails w (Some (Ne3, Id (b "undefined"))).
Proof. exists Undef. unfold result. now cbn. Qed.
Lemma between_joined : forall r x i, i < length r -> between And i (SLeaf x :: spread r) = [TOp And].
Proof.
  induction r as [|y r IH]; intros x i H; [cbn in H; lia|]. destruct i as [|i]; [easy|]. cbn in H. cbn [between spread flat_map app]. change (flat_map _ r) with (spread r). apply (IH y i). lia.
Qed.
Lemma same_other a v : bare a -> no_access v -> same a (skip v) = false.
Proof.
  intros B N. assert (U : unwrap (skip v) = unwrap v) by (clear; induction v; cbn; auto). unfold no_access in N. destruct a; try easy; cbn [same]; rewrite U; destruct (unwrap v); easy.
Qed.
Record guard_op (x : expr) (L : list link) (p : expr * asks) (o : operand) : Prop := {
  go_guard : guard (node o) (fst p) (snd p); go_type : typ o = ask_type (snd p); go_access : access_of (fst p) = Some (x, links o);
  go_reads : reads x o; go_prefix : exists m more, L = map fst (links o) ++ m :: more;
  go_place : snd p <> Truth -> compared o = skip (fst p) /\ exists l r v, node o = Bin (match snd p with NotNothing => Ne2 | _ => Ne3 end) l r /\ nothing v /\ (snd p = NotNothing \/ snd p = NotThis v)
        /\ ((place_of o = OnLeft /\ l = fst p /\ r = v) \/ (place_of o = OnRight /\ l = v /\ r = fst p)) }.
Lemma guards_ops a x ll : access_of a = Some (x, ll) -> forall gs gas n, Forall2 (fun g p => guard g (fst p) (snd p)) gs gas -> Forall (fun p => shorter (fst p) a) gas ->
  Forall (fun o => chain_type (typ o)) (ops_from n gs) -> Forall2 (guard_op x (map fst ll)) gas (ops_from n gs).
Proof.
  intros A gs gas n F. revert n. induction F as [|g p gs gas G F IH]; intros n S C; [constructor|]. cbn in C |- *. inversion S as [|? ? (x' & ls & ll' & A1 & A2 & m & more & E) S2]; subst.
  inversion C as [|? ? C1 C2]; subst. rewrite A in A2. injection A2 as <- <-. constructor; [|now apply IH].
  destruct (parse_guard n g _ _ x ls G A1 C1) as (P1 & P2 & P3 & P4 & P5 & P6). pose proof (links_eq _ _ _ P5) as LE.
  constructor; rewrite ?P2; auto; rewrite ?LE; auto; [split; now rewrite LE|now exists m, more].
Qed.
Lemma ops_nodes n l : map node (ops_from n l) = l.
Proof. unfold ops_from. revert n. induction l as [|e l IH]; intro n; cbn; [easy|]. rewrite parse_node. f_equal. apply IH. Qed.
Lemma pieces w x L gs gas ops : map node ops = gs -> Forall2 (guard_op x L) gas ops ->
  Forall2 (fun g p => snd p = Truth -> forall v, result w g = Val v -> ~ falsy_only v) gs gas -> Forall2 (piece_of w x L) gs (map links ops).
Proof.
  intros <- F. induction F as [|p o gas ops G F IH]; cbn; intro H; [constructor|]. inversion H; subst. constructor; [|now apply IH].
  destruct G. split; [|easy]. exists (fst p), (snd p). auto.
Qed.

Section AndFixes.
Variables (opts : options) (type_at : nat -> expr -> ty) (undeclared : nat -> bool) (width : part -> nat).
Hypothesis Declared : forall i, undeclared i = false.
Hypothesis Safe : unsafe opts = false.
Lemma and_fixes_chain all f : Forall (single And) all -> all <> [] -> In f (and_fixes opts type_at undeclared width (join And all)) ->
  exists a m z, all = a ++ m ++ z /\ 2 <= length m /\ let c := ops_from (length a) m in
    Forall (fun o => chain_type (typ o)) c /\ linked opts c /\ and_reported opts type_at c = true /\ and_fix opts type_at undeclared width (spine And (join And all)) (length all) c = Some f
    /\ first f = length a /\ last_ f = length a + length m - 1 /\ whole f = Nat.eqb (length m) (length all).
Proof.
  intros S N I. unfold and_fixes in I. rewrite operands_join in I by easy. destruct (Nat.ltb _ 2); [easy|]. apply in_flat_map in I as (c & Ic & If).
  destruct (valid_chain opts type_at true c && and_reported opts type_at c) eqn:V; [|easy]. apply andb_true_iff in V as [V R]. rewrite ops_length in If.
  pose proof (chains_fine opts type_at (ops_from 0 all)) as FA. rewrite Forall_forall in FA. destruct (FA c Ic) as ((p & q & E) & T & L).
  destruct (ops_run all p c q E) as (a & m & z & Ea & La & ->). exists a, m, z. split; [easy|].
  assert (V2 : 2 <= length m). { unfold valid_chain in V. apply andb_true_iff in V as [V _]. apply andb_true_iff in V as [V _]. apply andb_true_iff in V as [V _]. apply Nat.leb_le in V. now rewrite ops_length in V. }
  split; [easy|]. split; [easy|]. split; [easy|]. split; [easy|].
  destruct (and_fix _ _ _ _ _ _ _) as [f'|] eqn:AF; [|easy]. destruct If as [<-|[]]. split; [easy|].
  unfold and_fix in AF. destruct (build _ _ _ _); [|easy]. injection AF as <-. rewrite Declared, andb_false_r. cbn [first last_ whole Nat.eqb andb]. rewrite ops_length. split; [|split; [|easy]].
  - destruct m as [|e m]; [cbn in V2; lia|]. cbn. apply parse_idx.
  - destruct m as [|e m] using rev_ind; [cbn in V2; lia|]. clear IHm. rewrite ops_app. unfold final. cbn [ops_from length seq combine map fst snd]. rewrite last_last, parse_idx, app_length. cbn. lia.
Qed.

Lemma around_text o a k v side code e' : node o = finish_with (node o) a (Some (k, v)) side -> place_of o = (if side then OnLeft else OnRight) -> parens a = 0 -> code = text e' ->
  around o code = text (finish_with (node o) e' (Some (k, v)) side).
Proof.
  intros N P Z ->. unfold around. rewrite N. cbn [finish_with]. destruct side; rewrite P; [now rewrite Z|]. unfold opens. now rewrite Z.
Qed.
Lemma loose_strict_false gas x L cg l : Forall2 (guard_op x L) gas cg -> guards_ok gas -> loose_strict (cg ++ [l]) = true ->
  exists gas' cg' pa p, gas = gas' ++ [(pa, NotThis (Id (b "undefined")))] /\ cg = cg' ++ [p] /\ cg' <> [] /\ bare pa /\ Forall (fun q => shorter (fst q) pa) gas'
    /\ Forall2 (guard_op x L) gas' cg' /\ guard_op x L (pa, NotThis (Id (b "undefined"))) p.
Proof.
  intros F G LS. unfold loose_strict in LS. unfold previous in LS. rewrite removelast_last in LS. rewrite app_length in LS. cbn [length] in LS.
  destruct cg as [|p cg' _] using rev_ind; [easy|]. apply Forall2_app_inv_r in F as (gas' & ga & F1 & F2 & ->). inversion F2 as [|[pa k] ? ? ? Gp F3]; subst. inversion F3; subst.
  unfold final in LS. rewrite removelast_last, !last_last in LS.
  apply andb_true_iff in LS as [LS FD]. apply andb_true_iff in LS as [LS _]. apply andb_true_iff in LS as [LS ST]. apply andb_true_iff in LS as [LN _].
  assert (NE : cg' <> []) by (intros ->; cbn in LN; easy).
  destruct (find (fun o => loose_check (typ o)) (rev cg')) as [o|] eqn:FO; [|easy]. apply find_some in FO as [Io Lo]. apply in_rev in Io.
  assert (K : exists v, k = NotThis v). { rewrite (go_type _ _ _ _ Gp) in ST. cbn in ST. destruct k as [| |v]; try easy. now exists v. }
  destruct K as [v ->].
  assert (NN : exists q, In q gas' /\ snd q = NotNothing).
  { clear - F1 Io Lo. induction F1 as [|q o' gs os Q F1 IH]; [easy|]. destruct Io as [->|Io].
    - exists q. split; [now left|]. rewrite (go_type _ _ _ _ Q) in Lo. destruct (snd q) as [| |[]]; easy.
    - destruct (IH Io) as (q' & I & E). exists q'. split; [now right|easy]. }
  destruct (G gas' pa v eq_refl) as [H|(-> & B & H)].
  - exfalso. destruct NN as (q & I & E). rewrite Forall_forall in H. exact (H q I E).
  - exists gas', cg', pa, p. do 6 (split; [easy|]). exact Gp.
Qed.
Lemma not_complementary x cg p l : reads x p -> reads x l -> length (links p) < length (links l) -> ends_complementary ((cg ++ [p]) ++ [l]) = false.
Proof.
  intros [Rp _] [Rl _] Le. unfold ends_complementary, previous. rewrite removelast_last. unfold final. rewrite !last_last. apply andb_false_iff. right.
  unfold compare. destruct (_ || _); [easy|]. destruct (_ && _); [easy|]. destruct (existsb _ _); [easy|]. destruct (same (compared l) (compared p)) eqn:S; [|destruct (prefix (compared l) (compared p)); [easy|]; now destruct (prefix (compared p) (compared l))].
  apply same_cnt in S. rewrite (access_cnt _ _ _ Rp), (access_cnt _ _ _ Rl) in S. lia.
Qed.
Lemma trailing_safe c l (Hl : final c = l) x k v a side p cg : c = (cg ++ [p]) ++ [l] -> and_reported opts type_at c = true -> node l = finish_with (node l) a (Some (k, v)) side -> equality k -> no_access v -> bare a ->
  match typ l with NotNull | NotUndef | NotBoth | Comparison => True | _ => False end -> compared l = a -> reads x p -> reads x l -> length (links p) < length (links l) ->
  safe_value k (type_at (idx l) (skip v)) = true.
Proof.
  intros Ec R Nl K Nv B T Cl [Rp _] [Rl _] Le. destruct (bare_access a B) as (Ia & Sa & _ & _).
  assert (U : unsafe_trailing opts type_at c = false).
  { unfold and_reported in R. repeat match type of R with (if ?b then _ else _) = _ => destruct b; [easy|] end. now apply negb_true_iff in R. }
  unfold unsafe_trailing in U. rewrite Hl in U. rewrite Cl in U.
  assert (TR : otype_eqb (typ l) Comparison || (match typ l with NotNull | NotUndef | NotBoth => true | _ => false end && Nat.ltb (depth (compared (previous c))) (depth a)) = true).
  { assert (D : Nat.ltb (depth (compared (previous c))) (depth a) = true).
    { subst c. unfold previous. rewrite removelast_last. unfold final. rewrite last_last, (shaped_depth _ _ _ Rp). rewrite Cl in Rl. rewrite (shaped_depth _ _ _ Rl). apply Nat.ltb_lt. lia. }
    rewrite D. destruct (typ l); easy. }
  rewrite TR in U. cbn [andb] in U. rewrite Safe in U. cbn [negb] in U.
  assert (SV : match binary (node l) with Some (k, l0, r) => (if same a l0 then Some r else if same a r then Some l0 else if is_access l0 then Some r else if is_access r then Some l0 else None) = Some (skip v) /\ k = k | None => False end
    /\ exists l0 r, binary (node l) = Some (k, l0, r)).
  { rewrite Nl. cbn [finish_with]. pose proof (same_other a v B Nv) as SO. pose proof (no_access_skip v Nv) as Iv. destruct side; cbn [binary skip]; (split; [|now eexists; eexists]); rewrite Sa.
    - destruct (same a a); [easy|]. rewrite SO, Ia. easy.
    - rewrite SO, Iv, Ia. now destruct (same a a). }
  destruct SV as [SV (l0 & r & E)]. rewrite E in U, SV. destruct SV as [SV _]. rewrite SV in U. rewrite andb_true_r in U. now apply negb_false_iff in U.
Qed.
Theorem and_fix_right all before gs s after gas a fin f :
  all = before ++ gs ++ s :: after -> Forall (single And) all -> fits (join And all) -> In f (and_fixes opts type_at undeclared width (join And all)) ->
  first f = length before -> last_ f = length before + length gs ->
  Forall2 (fun g p => guard g (fst p) (snd p)) gs gas -> finish s a fin -> Forall (fun p => shorter (fst p) a) gas -> (fin <> None -> bare a) -> (fin = None -> guards_ok gas) ->
  exists news, text (join And (before ++ news ++ after)) = fixed And (join And all) f /\ fits (join And (before ++ news ++ after))
    /\ forall w, Forall2 (fun g p => snd p = Truth -> forall v, result w g = Val v -> ~ falsy_only v) gs gas ->
         match fin with
         | Some (k, v) => exists u, result w v = Val u /\ let t := type_at (length before + length gs) (skip v) in of_type u t /\ ~ hides t
         | None => True
         end ->
         result w (join And all) <> Throw -> agrees (result w (join And all)) (result w (join And (before ++ news ++ after))).
Proof.
  intros Ea Sg Fi If F1 F2 FG FN SH BA GO.
  assert (Nall : all <> []) by (rewrite Ea; destruct before, gs; easy).
  destruct (and_fixes_chain all f Sg Nall If) as (a0 & m & z & Em & Lm & C). cbv zeta in C. destruct C as (CT & CL & CR & CF & C1 & C2 & C3).
  assert (Lb : length a0 = length before) by congruence. assert (Lg : length m = S (length gs)) by (rewrite C2 in F2; lia).
  assert (E1 : a0 = before /\ m ++ z = gs ++ s :: after) by (apply app_inv_len; [congruence|easy]). destruct E1 as [-> E1].
  assert (E2 : m = gs ++ [s] /\ z = after).
  { apply app_inv_len; [rewrite <- app_assoc; exact E1|]. rewrite app_length. cbn. lia. }
  destruct E2 as [-> ->]. clear E1 Lb C1. set (n := length before) in *.
  assert (La : 2 <= length all) by (rewrite Ea, !app_length; rewrite app_length in Lm; cbn in *; lia).
  pose proof (join_good all Sg La Fi) as GA.
  set (cg := ops_from n gs) in *. set (l := parse true (n + length gs) s) in *.
  assert (Ec : ops_from n (gs ++ [s]) = cg ++ [l]) by (now rewrite ops_app). rewrite Ec in *.
  apply Forall_app in CT as [CTg CTl]. apply Forall_inv in CTl.
  assert (Ngs : gs <> []) by (intros ->; cbn in Lm; lia).
  (* the access at the end *)
  assert (AA : exists x ll, access_of a = Some (x, ll)).
  { destruct gas as [|q gas]; [inversion FG; now subst|]. apply Forall_inv in SH. destruct SH as (x & ls & ll & _ & A & _). now exists x, ll. }
  destruct AA as (x & ll & AA).
  pose proof (guards_ops a x ll AA gs gas n FG SH CTg) as GOP. fold cg in GOP.
  assert (Ncg : cg <> []) by (intro H; apply Ngs; apply (f_equal (@length _)) in H; unfold cg in H; rewrite ops_length in H; now destruct gs).
  assert (Rcg : Forall (reads x) cg) by (clear - GOP; induction GOP; constructor; auto; now destruct H).
  assert (Tcg : Forall (fun o => otype_eqb (typ o) TypeofCheck = false) cg).
  { clear - GOP. induction GOP as [|q o ? ? Q]; constructor; auto. destruct Q as [_ T _ _ _ _]. rewrite T. destruct (snd q) as [| |[]]; reflexivity. }
  assert (Pcg : Forall (fun o => exists m more, map fst ll = map fst (links o) ++ m :: more) cg) by (clear - GOP; induction GOP; constructor; auto; now destruct H).
  assert (Nodes : map node cg = gs) by apply ops_nodes.
  assert (Fx : fits x).
  { assert (Fs : fits s). { assert (I : In s all) by (rewrite Ea; apply in_or_app; right; apply in_or_app; right; now left). rewrite Forall_forall in GA. exact (proj1 (GA s I)). }
    destruct (access_simple a x ll AA) as [_ FX]. apply FX. destruct FN as [s|k a v K Nv|k a v K Nv]; [easy| |]; cbn in Fs; tauto. }
  assert (Start : In (start (cg ++ [l])) cg) by (destruct cg; [easy|]; now left).
  (* the new list is joined as well *)
  assert (Join : forall news, news <> [] -> Forall good news -> fits (join And (before ++ news ++ after))).
  { intros news Nn Gn. apply join_fits; [|destruct before, news; easy]. rewrite Ea in GA. apply Forall_app in GA as [G1 G2]. apply Forall_app in G2 as [_ G3]. apply Forall_inv_tail in G3.
    apply Forall_app. split; [easy|]. now apply Forall_app. }
  assert (Txt : forall y ys, new f = text y ++ more_text And ys -> text (join And (before ++ (y :: ys) ++ after)) = fixed And (join And all) f).
  { intros y ys Nf. unfold fixed. rewrite C3. destruct (Nat.eqb_spec (length (gs ++ [s])) (length all)) as [W|W].
    - rewrite Ea in W. rewrite !app_length in W. cbn in W. destruct before; [|cbn in W; lia]. destruct after; [|cbn in W; lia]. cbn [app]. rewrite app_nil_r. cbn [join]. now rewrite text_joined, Nf.
    - rewrite F1, F2. unfold n. rewrite Ea. destruct gs as [|g gs']; [easy|].
      assert (SS : before ++ (g :: gs') ++ s :: after = before ++ g :: (gs' ++ [s]) ++ after) by (cbn; now rewrite <- app_assoc). rewrite SS.
      replace (length before + length (g :: gs')) with (length before + length (gs' ++ [s])) by (rewrite app_length; cbn; lia).
      rewrite (replace_joined And before g (gs' ++ [s]) after (new f) y ys); [easy| |easy]. rewrite <- SS, <- Ea. exact Sg. }
  assert (Sem : forall w news, news <> [] -> (result w (join And (gs ++ [s])) <> Throw -> agrees (result w (join And (gs ++ [s]))) (result w (join And news))) ->
    result w (join And all) <> Throw -> agrees (result w (join And all)) (result w (join And (before ++ news ++ after)))).
  { intros w news Nn H T. assert (EE : all = before ++ (gs ++ [s]) ++ after) by (rewrite Ea; now rewrite <- app_assoc). rewrite EE in T |- *. apply agrees_between; auto. destruct gs; easy. }
  assert (IX : forall o, In o (cg ++ [l]) -> idx o = n + length gs -> o = l).
  { intros o I E. apply in_app_or in I as [I|[<-|[]]]; [|easy]. exfalso. apply (in_map idx) in I. unfold cg in I. rewrite ops_idx in I. apply in_seq in I. lia. }
  assert (Il : idx l = n + length gs) by apply parse_idx.
  assert (Nl : node l = s) by apply parse_node.
  (* the guard before the end *)
  assert (PV : exists cg' p, cg = cg' ++ [p]) by (destruct (exists_last Ncg) as (c' & p & E); now exists c', p).
  destruct fin as [[k v]|].
  - (* a comparison at the end *)
    assert (B : bare a) by (apply BA; easy).
    assert (KS : equality k /\ no_access v /\ exists side, s = finish_with s a (Some (k, v)) side).
    { clear - FN. inversion FN; subst; (split; [easy|split; [easy|]]); [now exists true|now exists false]. }
    destruct KS as (K & Nv & side & Es).
    destruct (parse_finish (n + length gs) s a k v x ll side Es K Nv B AA CTl) as (_ & _ & Tl & Cl & Pl). fold l in Tl, Cl, Pl.
    assert (PLl : is_plain l = false) by (unfold is_plain; destruct (typ l); easy).
    assert (Rl : reads x l) by (unfold reads, links, seen_expr; rewrite PLl, Cl, AA; easy).
    assert (LL : links l = ll) by (unfold links, seen_expr; now rewrite PLl, Cl, AA).
    destruct PV as (cg' & p & Ep).
    assert (Rp : reads x p) by (rewrite Forall_forall in Rcg; apply Rcg; rewrite Ep; apply in_or_app; right; now left).
    assert (Lp : length (links p) < length (links l)).
    { rewrite Forall_forall in Pcg. destruct (Pcg p) as (m & more & E); [rewrite Ep; apply in_or_app; right; now left|]. apply (f_equal (@length _)) in E. rewrite app_length, !map_length in E. cbn in E. rewrite LL. lia. }
    assert (EN : ending_of (cg ++ [l]) = ETrailing).
    { unfold ending_of. rewrite Ep, (not_complementary x cg' p l Rp Rl Lp). unfold loose_strict. assert (FL : final ((cg' ++ [p]) ++ [l]) = l) by apply last_last. rewrite FL, PLl. rewrite andb_false_r. easy. }
    assert (Src : source (cg ++ [l]) = l) by (unfold source; rewrite EN; unfold final; now rewrite last_last).
    assert (Chk : checks (cg ++ [l]) = cg ++ [l]) by (unfold checks, final; now rewrite last_last, PLl).
    unfold and_fix in CF. destruct (build _ _ _ _) as [code|] eqn:HB; [|easy]. rewrite EN in CF.
    destruct (code_spec width (cg ++ [l]) x cg [l] (call_optional (cg ++ [l]) (and_parts width (cg ++ [l]))) code) as (e' & qs & Tx & Ft & Lv & Lq & Ev & FF & FT); rewrite ?Src; auto.
    { right. now exists []. }
    { apply Forall_app. split; [easy|]. constructor; [easy|]. constructor; [easy|constructor]. }
    { now rewrite LL. }
    { rewrite Chk. intros o I E. f_equal. apply IX; [easy|]. now rewrite E. }
    { rewrite Chk. apply (linked_sorted opts x); [easy|]. apply Forall_app. split; [easy|]. constructor; [easy|constructor]. }
    rewrite Src in Lq, Ev, FF. rewrite LL in *.
    set (s' := finish_with s e' (Some (k, v)) side). exists [s']. split; [|split].
    + apply Txt. injection CF as <-. cbn [new more_text flat_map]. rewrite app_nil_r. unfold final. rewrite last_last. unfold s'.
      rewrite (around_text l a k v side code e'); [now rewrite Nl|now rewrite Nl|easy|exact (proj1 (proj2 (proj2 (bare_access a B))))|easy].
    + apply Join; [easy|]. constructor; [|constructor].
      assert (Gs : good s). { rewrite Forall_forall in GA. apply GA. rewrite Ea. apply in_or_app. right. apply in_or_app. right. now left. }
      assert (MX : forall e, mixes k e = false) by (intro e; destruct K as [->|[->|[->| ->]]]; reflexivity).
      assert (OL : op_level k = 8) by (destruct K as [->|[->|[->| ->]]]; reflexivity).
      unfold s'. rewrite Es in Gs. destruct Gs as [Gf _]. unfold good. specialize (Ft Fx). destruct side; cbn [finish_with fits level] in *; rewrite OL; (split; [|lia]); rewrite !MX in *;
        destruct Gf as (G1 & G2 & _ & _ & G3); repeat (split; [assumption || easy|]); destruct K as [->|[->|[->| ->]]]; cbn in *; lia.
    + intros w HF HV T. apply Sem; [easy| |easy]. intro T2. cbn [join joined fold_left]. unfold s'.
      destruct HV as (u & Vu & Tu & Hu).
      apply (segment w x (map fst ll) gs (map links cg) s a ll (Some (k, v)) side qs e'); auto.
      * eapply pieces; eassumption.
      * eapply value_fails; eauto. rewrite <- Il.
        apply (trailing_safe (cg ++ [l]) l (last_last cg l nobody) x k v a side p cg'); auto; try (now rewrite Ep); try (now rewrite Nl); now rewrite LL.
  - (* the access itself *)
    assert (Es : s = a) by (now inversion FN). subst a.
    destruct (parse_guard (n + length gs) s s Truth x ll (g_truth s) AA CTl) as (_ & _ & Tl & A1 & A2 & _). fold l in Tl, A1, A2. cbn in Tl.
    assert (PLl : is_plain l = true) by (unfold is_plain; now rewrite Tl).
    assert (LL : links l = ll) by (now apply (links_eq l x)).
    assert (Rl : reads x l) by (split; now rewrite LL).
    destruct PV as (cg' & p & Ep).
    assert (Rp : reads x p) by (rewrite Forall_forall in Rcg; apply Rcg; rewrite Ep; apply in_or_app; right; now left).
    assert (Lp : length (links p) < length (links l)).
    { rewrite Forall_forall in Pcg. destruct (Pcg p) as (m & more & E); [rewrite Ep; apply in_or_app; right; now left|]. apply (f_equal (@length _)) in E. rewrite app_length, !map_length in E. cbn in E. rewrite LL. lia. }
    assert (Chk : checks (cg ++ [l]) = cg) by (unfold checks, final; now rewrite last_last, PLl, removelast_last).
    assert (CLg : linked opts cg) by (apply linked_removelast in CL; now rewrite removelast_last in CL).
    unfold and_fix in CF. destruct (build _ _ _ _) as [code|] eqn:HB; [|easy].
    destruct (loose_strict (cg ++ [l])) eqn:LS.
    + assert (EN : ending_of (cg ++ [l]) = ELooseStrict) by (unfold ending_of; rewrite LS, Ep, (not_complementary x cg' p l Rp Rl Lp); easy).
      rewrite EN in CF.
      destruct (loose_strict_false gas x (map fst ll) cg l GOP (GO eq_refl) LS) as (gas' & cg2 & pa & p2 & Eg & Ep2 & Ncg' & Bp & SHp & GOP' & Gp).
      rewrite Ep in Ep2. apply app_inj_tail in Ep2 as [<- <-].
      assert (Prev : previous (cg ++ [l]) = p) by (unfold previous; rewrite removelast_last, Ep; unfold final; now rewrite last_last).
      assert (Src : source (cg ++ [l]) = p) by (unfold source; now rewrite EN).
      assert (Ap : access_of pa = Some (x, links p)) by apply (go_access _ _ _ _ Gp).
      assert (PP : Forall (fun o => exists m more, map fst (links p) = map fst (links o) ++ m :: more) cg').
      { clear - SHp GOP' Ap. induction GOP' as [|q o gs os Q GOP' IH]; [constructor|]. inversion SHp as [|? ? (x' & ls & ll' & B1 & B2 & m & more & E) S2]; subst. constructor; [|now apply IH].
        rewrite (go_access _ _ _ _ Q) in B1. injection B1 as <- <-. rewrite Ap in B2. injection B2 as <-. now exists m, more. }
      assert (Rcg' : Forall (reads x) cg') by (rewrite Ep in Rcg; now apply Forall_app in Rcg).
      assert (Tcg' : Forall (fun o => otype_eqb (typ o) TypeofCheck = false) cg') by (rewrite Ep in Tcg; now apply Forall_app in Tcg).
      destruct (code_spec width (cg ++ [l]) x cg' [p] (call_optional (cg ++ [l]) (and_parts width (cg ++ [l]))) code) as (e' & qs & Tx & Ft & Lv & Lq & Ev & FF & FT); rewrite ?Src; auto.
      { now rewrite Chk. }
      { right. now exists []. }
      { rewrite Ep. destruct cg' as [|o1 cg']; [easy|]. now left. }
      { apply Forall_app. split; [easy|]. constructor; [easy|]. constructor; [easy|constructor]. }
      { rewrite Chk, Ep. intros o I E. apply in_app_or in I as [I|[<-|[]]]; [|easy]. exfalso.
        assert (ND : NoDup (map idx cg)) by (unfold cg; rewrite ops_idx; apply seq_NoDup). rewrite Ep, map_app in ND. cbn in ND. apply NoDup_remove_2 in ND. apply ND. rewrite app_nil_r.
        rewrite <- E. now apply in_map. }
      { rewrite Chk. now apply (linked_sorted opts x). }
      rewrite Src in Lq, Ev, FF.
      destruct (go_place _ _ _ _ Gp) as (Cp & l0 & r0 & v0 & Np & _ & Kv & Pl); [easy|]. cbn [fst snd] in *. destruct Kv as [Kv|Kv]; [easy|]. injection Kv as <-.
      assert (SD : exists side, node p = finish_with (node p) pa (Some (Ne3, Id (b "undefined"))) side /\ place_of p = if side then OnLeft else OnRight).
      { destruct Pl as [(P1 & -> & ->)|(P1 & -> & ->)]; [exists true|exists false]; cbn [finish_with]; auto. }
      destruct SD as (side & Nd & Pp).
      set (p' := finish_with (node p) e' (Some (Ne3, Id (b "undefined"))) side). exists [p'; s].
      assert (Gsp : good s /\ good (node p)).
      { rewrite Forall_forall in GA. split; apply GA; rewrite Ea; apply in_or_app; right; apply in_or_app; [right; now left|left]. rewrite <- Nodes, Ep, map_app. apply in_or_app. right. now left. }
      split; [|split].
      * apply Txt. injection CF as <-. cbn [new more_text flat_map]. rewrite app_nil_r, Prev. unfold final. rewrite last_last, Nl.
        rewrite (around_text p pa Ne3 (Id (b "undefined")) side code e' Nd Pp (proj1 (proj2 (proj2 (bare_access pa Bp)))) Tx). fold p'. f_equal.
        assert (Ip : idx p < length all - 1).
        { assert (I : In (idx p) (map idx cg)) by (apply in_map; rewrite Ep; apply in_or_app; right; now left). unfold cg in I. rewrite ops_idx in I. apply in_seq in I. rewrite Ea, !app_length. cbn [length]. unfold n in I. lia. }
        destruct all as [|e0 all]; [easy|]. cbn [join]. rewrite spine_joined by easy. rewrite between_joined by (cbn in Ip; lia). easy.
      * apply Join; [easy|]. destruct Gsp as [G1 [G2 _]]. constructor; [|constructor; [easy|constructor]]. unfold p', good. rewrite Nd in G2. specialize (Ft Fx).
        destruct side; cbn in *; intuition lia.
      * intros w HF _ T. apply Sem; [easy| |easy]. intro T2.
        assert (EG : gs = map node cg' ++ [node p]) by (rewrite <- Nodes, Ep, map_app; easy).
        assert (NE' : map node cg' <> []) by (destruct cg'; easy).
        rewrite EG in T2 |- *. apply (agrees_between w [] (map node cg' ++ [node p]) [s] [p']); try easy; [destruct (map node cg'); easy|].
        intro T3. cbn [join joined fold_left]. unfold p'.
        apply (segment w x (map fst (links p)) (map node cg') (map links cg') (node p) pa (links p) (Some (Ne3, Id (b "undefined"))) side qs e'); auto.
        -- eapply (pieces w x (map fst (links p)) _ gas' cg'); [easy| |].
           ++ clear - GOP' PP. induction GOP' as [|q o gs os Q GOP' IH]; [constructor|]. inversion PP; subst. constructor; [|now apply IH]. destruct Q. now constructor.
           ++ rewrite EG, Eg in HF. clear - HF GOP'. apply Forall2_app_inv_l in HF as (h1 & h2 & H1 & H2 & E). inversion H2; subst. inversion H5; subst. apply app_inj_tail in E as [-> _]. exact H1.
        -- unfold equality. auto.
        -- apply undefined_fails.
    + assert (EN : ending_of (cg ++ [l]) = EPlain) by (unfold ending_of; rewrite LS, Ep, (not_complementary x cg' p l Rp Rl Lp); unfold final; now rewrite last_last, PLl).
      assert (Src : source (cg ++ [l]) = l) by (unfold source; rewrite EN; unfold final; now rewrite last_last). rewrite EN in CF.
      destruct (code_spec width (cg ++ [l]) x cg [] (call_optional (cg ++ [l]) (and_parts width (cg ++ [l]))) code) as (e' & qs & Tx & Ft & Lv & Lq & Ev & FF & FT); rewrite ?Src; auto.
      { now rewrite Chk, app_nil_r. }
      { apply Forall_app. split; [easy|]. constructor; [easy|constructor]. }
      { now rewrite LL. }
      { rewrite Chk. intros o I E. exfalso. apply (in_map idx) in I. unfold cg in I. rewrite ops_idx in I. apply in_seq in I. lia. }
      { rewrite Chk. now apply (linked_sorted opts x). }
      rewrite Src in Lq, Ev, FF. rewrite LL in *. exists [e']. split; [|split].
      * apply Txt. injection CF as <-. cbn [new more_text flat_map]. now rewrite app_nil_r.
      * apply Join; [easy|]. constructor; [|constructor]. split; [auto|lia].
      * intros w HF _ T. apply Sem; [easy| |easy]. intro T2. cbn [join joined fold_left].
        apply (segment w x (map fst ll) gs (map links cg) s s ll None true qs e'); auto; [|easy].
        eapply pieces; eassumption.
Qed.

Lemma prefix_self e : bare e -> prefix e e = true -> same e e = true.
Proof.
  intros B P. assert (N : forall s l, cnt l < cnt s -> prefix s l = false) by (intros sh l H; destruct (prefix sh l) eqn:E; [apply prefix_cnt in E; lia|easy]).
  destruct e; try easy; cbn [prefix] in P; apply orb_true_iff in P as [P|P]; auto; rewrite N in P; try easy; cbn; lia.
Qed.
Lemma linked_last c p l : linked opts (c ++ [p; l]) -> next opts p l.
Proof.
  induction c as [|x c IH]; intro L; [now destruct L|]. apply IH. cbn [app] in L. destruct (c ++ [p; l]) eqn:E; [easy|]. now destruct L.
Qed.
Theorem and_fix_complementary all before gs p s after gas a f :
  all = before ++ gs ++ p :: s :: after -> gs <> [] -> Forall (single And) all -> fits (join And all) -> In f (and_fixes opts type_at undeclared width (join And all)) ->
  first f = length before -> last_ f = length before + length gs + 1 ->
  Forall2 (fun g p => guard g (fst p) (snd p)) gs gas -> guard p a (NotThis (Id (b "undefined"))) -> guard s a (NotThis Null) -> bare a -> Forall (fun p => shorter (fst p) a) gas ->
  exists p', text (join And (before ++ p' :: s :: after)) = fixed And (join And all) f /\ fits (join And (before ++ p' :: s :: after))
    /\ forall w, Forall2 (fun g p => snd p = Truth -> forall v, result w g = Val v -> ~ falsy_only v) gs gas ->
         result w (join And all) <> Throw -> agrees (result w (join And all)) (result w (join And (before ++ p' :: s :: after))).
Proof.
  intros Ea Ngs Sg Fi If F1 F2 FG GP GS B SH.
  assert (Nall : all <> []) by (rewrite Ea; destruct before, gs; easy).
  destruct (and_fixes_chain all f Sg Nall If) as (a0 & m & z & Em & Lm & C). cbv zeta in C. destruct C as (CT & CL & CR & CF & C1 & C2 & C3).
  assert (Lb : length a0 = length before) by congruence. assert (Lg : length m = S (S (length gs))) by (rewrite C2 in F2; lia).
  assert (E1 : a0 = before /\ m ++ z = gs ++ p :: s :: after) by (apply app_inv_len; [congruence|easy]). destruct E1 as [-> E1].
  assert (E2 : m = gs ++ [p; s] /\ z = after).
  { apply app_inv_len; [rewrite <- app_assoc; exact E1|]. rewrite app_length. cbn. lia. }
  destruct E2 as [-> ->]. clear E1 Lb C1. set (n := length before) in *.
  assert (La : 2 <= length all) by (rewrite Ea, !app_length; rewrite app_length in Lm; cbn in *; lia).
  pose proof (join_good all Sg La Fi) as GA.
  set (cg := ops_from n gs) in *. set (po := parse true (n + length gs) p) in *. set (l := parse true (S (n + length gs)) s) in *.
  assert (Ec : ops_from n (gs ++ [p; s]) = cg ++ [po; l]) by (now rewrite ops_app). rewrite Ec in *.
  apply Forall_app in CT as [CTg CTl]. pose proof (Forall_inv CTl) as CTp. apply Forall_inv_tail, Forall_inv in CTl.
  assert (AA : exists x ll, access_of a = Some (x, ll)).
  { destruct gas as [|q gas]; [inversion FG; now subst|]. apply Forall_inv in SH. destruct SH as (x & ls & ll & _ & A & _). now exists x, ll. }
  destruct AA as (x & ll & AA).
  pose proof (guards_ops a x ll AA gs gas n FG SH CTg) as GOP. fold cg in GOP.
  assert (Ncg : cg <> []) by (intro H; apply Ngs; apply (f_equal (@length _)) in H; unfold cg in H; rewrite ops_length in H; now destruct gs).
  assert (Rcg : Forall (reads x) cg) by (clear - GOP; induction GOP; constructor; auto; now destruct H).
  assert (Tcg : Forall (fun o => otype_eqb (typ o) TypeofCheck = false) cg).
  { clear - GOP. induction GOP as [|q o ? ? Q]; constructor; auto. destruct Q as [_ T _ _ _ _]. rewrite T. destruct (snd q) as [| |[]]; reflexivity. }
  assert (Pcg : Forall (fun o => exists m more, map fst ll = map fst (links o) ++ m :: more) cg) by (clear - GOP; induction GOP; constructor; auto; now destruct H).
  assert (Nodes : map node cg = gs) by apply ops_nodes.
  assert (Ip : idx po = n + length gs) by apply parse_idx. assert (Il : idx l = S (n + length gs)) by apply parse_idx.
  assert (Np : node po = p) by apply parse_node. assert (Nl : node l = s) by apply parse_node.
  destruct (bare_access a B) as (_ & Sa & Pa & _).
  destruct (parse_guard (n + length gs) p a _ x ll GP AA CTp) as (_ & _ & Tp & _ & A2p & Plp). fold po in Tp, A2p, Plp. cbn in Tp.
  destruct (parse_guard (S (n + length gs)) s a _ x ll GS AA CTl) as (_ & _ & Tl & _ & A2l & Pll). fold l in Tl, A2l, Pll. cbn in Tl.
  destruct (Plp ltac:(discriminate)) as (Cp & l0 & r0 & v0 & Bp & _ & Kv & Pl). destruct (Pll ltac:(discriminate)) as (Cl & _). rewrite Sa in Cp, Cl. destruct Kv as [Kv|Kv]; [easy|]. injection Kv as <-.
  pose proof (links_eq _ _ _ A2p) as LP. pose proof (links_eq _ _ _ A2l) as LL.
  assert (Rp : reads x po) by (unfold reads; rewrite Cp, LP; easy). assert (Rl : reads x l) by (unfold reads; rewrite Cl, LL; easy).
  assert (Rall : Forall (reads x) (cg ++ [po; l])) by (apply Forall_app; split; [easy|]; constructor; [easy|]; constructor; [easy|constructor]).
  assert (Cmp : compare a a = Equal).
  { pose proof (linked_last cg po l CL) as [_ Rel]. specialize (Rel Safe). unfold related, is_plain in Rel. rewrite Tp, Cp, Cl in Rel. destruct Rel as [[Q _]|[Q|Q]]; [easy| |easy].
    exfalso. pose proof (compare_prefix a a) as CPR. rewrite Q in CPR. apply (prefix_self a B) in CPR. unfold compare in Q. rewrite CPR in Q. repeat match type of Q with (if ?b then _ else _) = _ => destruct b end; easy. }
  assert (SPL : cg ++ [po; l] = (cg ++ [po]) ++ [l]) by now rewrite <- app_assoc.
  assert (Fin : final (cg ++ [po; l]) = l) by (rewrite SPL; apply last_last).
  assert (Prev : previous (cg ++ [po; l]) = po) by (unfold previous; rewrite SPL, removelast_last; apply last_last).
  assert (EN : ending_of (cg ++ [po; l]) = EComplementary).
  { unfold ending_of, ends_complementary. rewrite Fin, Prev, Cp, Cl, Cmp, Tp, Tl. rewrite app_length. cbn [length]. rewrite Nat.add_comm. easy. }
  assert (PLl : is_plain l = false) by (unfold is_plain; now rewrite Tl).
  assert (Src : source (cg ++ [po; l]) = po) by (unfold source; now rewrite EN).
  assert (Chk : checks (cg ++ [po; l]) = cg ++ [po; l]) by (unfold checks; now rewrite Fin, PLl).
  assert (Fp : good p /\ good s) by (rewrite Forall_forall in GA; split; apply GA; rewrite Ea; apply in_or_app; right; apply in_or_app; right; [now left|right; now left]).
  assert (Fx : fits x).
  { destruct (access_simple a x ll AA) as [_ FX]. apply FX. destruct Fp as [[Fp _] _]. rewrite Bp in Fp. destruct Pl as [(_ & -> & ->)|(_ & -> & ->)]; cbn in Fp; tauto. }
  assert (Start : In (start (cg ++ [po; l])) cg) by (destruct cg; [easy|]; now left).
  unfold and_fix in CF. destruct (build _ _ _ _) as [code|] eqn:HB; [|easy]. rewrite EN in CF.
  destruct (code_spec width (cg ++ [po; l]) x cg [po; l] (call_optional (cg ++ [po; l]) (and_parts width (cg ++ [po; l]))) code) as (e' & qs & Tx & Ft & Lv & Lq & Ev & FF & FT); rewrite ?Src; auto.
  { right. now exists [l]. }
  { apply Forall_app. split; [easy|]. constructor; [easy|]. constructor; [easy|]. constructor; [easy|constructor]. }
  { now rewrite LP. }
  { constructor; [easy|]. constructor; [now rewrite LP, LL|constructor]. }
  { rewrite Chk. intros o I E. apply in_app_or in I as [I|[<-|[<-|[]]]]; [|easy|now rewrite LP, LL]. exfalso. apply (in_map idx) in I. unfold cg in I. rewrite ops_idx in I. apply in_seq in I. lia. }
  { rewrite Chk. now apply (linked_sorted opts x). }
  rewrite Src in Lq, Ev, FF. rewrite LP in *.
  assert (SD : exists side, node po = finish_with (node po) a (Some (Ne3, Id (b "undefined"))) side /\ place_of po = if side then OnLeft else OnRight).
  { rewrite Np, Bp. destruct Pl as [(P1 & -> & ->)|(P1 & -> & ->)]; [exists true|exists false]; cbn [finish_with]; auto. }
  destruct SD as (side & Nd & Pp).
  set (p' := finish_with (node po) e' (Some (Ne3, Id (b "undefined"))) side). exists p'. split; [|split].
  - assert (Nf : new f = text p' ++ more_text And [s]).
    { injection CF as <-. cbn [new more_text flat_map]. rewrite app_nil_r, Prev, Fin, Nl.
      rewrite (around_text po a Ne3 (Id (b "undefined")) side code e' Nd Pp Pa Tx). fold p'. f_equal. rewrite Ip.
      assert (LA : length all = S (S (n + length gs + length after))) by (rewrite Ea, !app_length; cbn [length]; unfold n; lia).
      destruct all as [|e0 all]; [easy|]. cbn [join]. rewrite spine_joined by easy. rewrite between_joined by (cbn in LA; lia). easy. }
    unfold fixed. rewrite C3. destruct (Nat.eqb_spec (length (gs ++ [p; s])) (length all)) as [W|W].
    + rewrite Ea in W. rewrite !app_length in W. cbn in W. destruct before; [|cbn in W; lia]. destruct after; [|cbn in W; lia]. cbn [app join]. now rewrite text_joined, Nf.
    + rewrite F1, F2. unfold n. rewrite Ea. destruct gs as [|g gs']; [easy|].
      assert (SS : before ++ (g :: gs') ++ p :: s :: after = before ++ g :: (gs' ++ [p; s]) ++ after) by (cbn; now rewrite <- app_assoc). rewrite SS.
      replace (length before + length (g :: gs') + 1) with (length before + length (gs' ++ [p; s])) by (rewrite app_length; cbn; lia).
      rewrite (replace_joined And before g (gs' ++ [p; s]) after (new f) p' [s]); [easy| |easy]. rewrite <- SS, <- Ea. exact Sg.
  - apply join_fits; [|destruct before; easy]. rewrite Ea in GA. apply Forall_app in GA as [G1 G2]. apply Forall_app in G2 as [_ G3]. apply Forall_inv_tail in G3. apply Forall_app. split; [easy|].
    constructor; [|exact G3]. unfold p', good. destruct Fp as [[Fp _] _]. assert (Fq : fits (node po)) by (rewrite Np; exact Fp). clear Fp. rename Fq into Fp. rewrite Nd in Fp. specialize (Ft Fx). destruct side; cbn in *; intuition lia.
  - intros w HF T. assert (EE : all = before ++ (gs ++ [p]) ++ s :: after) by (rewrite Ea; now rewrite <- app_assoc). rewrite EE in T |- *.
    apply (agrees_between w before (gs ++ [p]) (s :: after) [p']); try easy; [destruct gs; easy|]. intro T2. cbn [join joined fold_left]. unfold p'. rewrite Np.
    apply (segment w x (map fst ll) gs (map links cg) p a ll (Some (Ne3, Id (b "undefined"))) side qs e'); auto.
    + eapply pieces; eassumption.
    + now rewrite Np in Nd.
    + unfold equality. auto.
    + apply undefined_fails.
Qed.
End AndFixes.
