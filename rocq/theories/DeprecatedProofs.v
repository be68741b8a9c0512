(** Proofs on what is deprecated. *)
From Coq Require Import Bool Arith Ascii String List Lia.
From Verif Require Import Base EngineProofs.
From Verif Require Import Deprecated DeprecatedSpec.
Import ListNotations.
Open Scope nat_scope.

Lemma tag_reason_spec : forall l,
  match tag_reason l with
  | Some r => exists pre c post, l = pre ++ Deprecated_tag c :: post /\ (forall x, In x pre -> x = Other_tag) /\ r = concat c
  | None => forall x, In x l -> x = Other_tag
  end.
Proof.
  induction l as [|[c |] l IH]; cbn [tag_reason].
  - intros x [].
  - exists [], c, l. split; [reflexivity|]. split; [intros x [] | reflexivity].
  - destruct (tag_reason l) as [r|].
    + destruct IH as [pre [c [post [E [P R]]]]]. exists (Other_tag :: pre), c, post. split; [rewrite E; reflexivity|].
      split; [|exact R]. intros x [<- | X]; [reflexivity | apply P, X].
    + intros x [<- | X]; [reflexivity | apply IH, X].
Qed.
Lemma doc_reason_spec : forall docs, reason docs (doc_reason docs).
Proof.
  unfold reason. induction docs as [|[tags|] docs IH]; cbn [doc_reason map tags_of concat].
  - right. split; [intros x [] | reflexivity].
  - assert (T := tag_reason_spec tags). destruct (tag_reason tags) as [r|].
    + left. destruct T as [pre [c [post [E [P R]]]]]. exists pre, c, (post ++ concat (map tags_of docs)).
      split; [rewrite E, <- app_assoc; reflexivity | split; assumption].
    + destruct IH as [[pre [c [post [E [P R]]]]] | [P R]].
      * left. exists (tags ++ pre), c, post. split; [rewrite E, app_assoc; reflexivity|]. split; [|exact R].
        intros x X. apply in_app_iff in X as [X | X]; [apply T, X | apply P, X].
      * right. split; [|exact R]. intros x X. apply in_app_iff in X as [X | X]; [apply T, X | apply P, X].
  - cbn [app]. exact IH.
Qed.
Lemma split_unique : forall (A : Type) (P : A -> Prop) (l pre pre' : list A) x x' post post',
  l = pre ++ x :: post -> l = pre' ++ x' :: post' -> (forall y, In y pre -> P y) -> (forall y, In y pre' -> P y) -> ~ P x -> ~ P x' -> x = x'.
Proof.
  intros A P l pre. revert l. induction pre as [|y pre IH]; intros l pre' x x' post post' E E' H H' N N'; destruct pre' as [|y' pre']; cbn [app] in *; subst l.
  - congruence.
  - injection E' as <- _. destruct N. apply H'. left. reflexivity.
  - injection E' as <- _. destruct N'. apply H. left. reflexivity.
  - injection E' as <- E'. eapply (IH _ pre' x x' post post' eq_refl E'); try assumption.
    + intros z Z. apply H. right. exact Z.
    + intros z Z. apply H'. right. exact Z.
Qed.
Lemma reason_unique : forall docs r q, reason docs r -> reason docs q -> r = q.
Proof.
  intros docs r q [[pre [c [post [E [P R]]]]] | [P R]] [[pre' [c' [post' [E' [P' R']]]]] | [P' R']].
  - assert (X : Deprecated_tag c = Deprecated_tag c').
    { apply (split_unique tag (fun x => x = Other_tag) _ pre pre' _ _ post post' E E' P P'); discriminate. }
    injection X as <-. congruence.
  - assert (X : Deprecated_tag c = Other_tag) by (apply P'; rewrite E; apply in_app_iff; right; left; reflexivity). discriminate.
  - assert (X : Deprecated_tag c' = Other_tag) by (apply P; rewrite E'; apply in_app_iff; right; left; reflexivity). discriminate.
  - congruence.
Qed.

Section Symbols.
Context (info : nat -> symbol).
Lemma declared_unique : forall s r q, declared info s r -> declared info s q -> r = q.
Proof.
  intros s r q [pre [d [post [E [P [D R]]]]]] [pre' [d' [post' [E' [P' [D' R']]]]]].
  assert (X : d = d') by (apply (split_unique decl (fun x => deprecated x = false) _ pre pre' _ _ post post' E E' P P'); congruence).
  subst d'. exact (reason_unique _ _ _ R R').
Qed.
Lemma jsdoc_spec : forall s, match jsdoc info (Some s) with Some r => declared info s r | None => undeprecated info s end.
Proof.
  intros s. cbn [jsdoc]. unfold declared, undeprecated. induction (decls (info s)) as [|d l IH]; cbn [first_deprecated]; [intros d [] |].
  destruct (deprecated d) eqn:D.
  - exists [], d, l. repeat split; [intros x [] | exact D | apply doc_reason_spec].
  - destruct (first_deprecated l) as [r|].
    + destruct IH as [pre [x [post [-> [P [X R]]]]]]. exists (d :: pre), x, post. repeat split; try assumption.
      intros y [<- | Y]; [exact D | apply P, Y].
    + intros y [<- | Y]; [exact D | apply IH, Y].
Qed.
Lemma undeprecated_no : forall s r, undeprecated info s -> ~ declared info s r.
Proof. intros s r U [pre [d [post [E [_ [D _]]]]]]. rewrite (U d) in D; [discriminate|]. rewrite E. apply in_app_iff. right. left. reflexivity. Qed.
Lemma jsdoc_iff : forall s r, jsdoc info (Some s) = Some r <-> declared info s r.
Proof.
  intros s r. assert (J := jsdoc_spec s). destruct (jsdoc info (Some s)) as [q|]; split.
  - intros E. injection E as <-. exact J.
  - intros D. rewrite (declared_unique s r q D J). reflexivity.
  - discriminate.
  - intros D. destruct (undeprecated_no s r J D).
Qed.
Lemma jsdoc_none : forall s, jsdoc info (Some s) = None <-> undeprecated info s.
Proof.
  intros s. assert (J := jsdoc_spec s). destruct (jsdoc info (Some s)) as [q|]; split; try discriminate; try trivial.
  intros U. destruct (undeprecated_no s q U J).
Qed.
Lemma maybe_iff : forall s r, jsdoc info s = Some r <-> maybe info s r.
Proof.
  intros [s|] r; unfold maybe.
  - rewrite jsdoc_iff. split; [intros D; exists s; split; [reflexivity | exact D] | intros [u [E D]]; injection E as <-; exact D].
  - split; [discriminate | intros [u [E _]]; discriminate].
Qed.
Lemma finds_unfold : forall check target s r,
  finds info check target s r <->
  alias (info s) = true /\ declared info s r
  \/ check = true /\ next info s target /\ undeprecated info s /\ declared info target r
  \/ exists v, next info s v /\ undeprecated info s /\ ~ (check = true /\ v = target) /\ finds info check target v r.
Proof.
  intros check target s r. unfold finds. split.
  - intros [u [P F]]. destruct P as [s | s v u N U C P].
    + destruct F as [F | F]; [left; exact F | right; left; exact F].
    + right. right. exists v. repeat split; try assumption; try apply N. exists u. split; assumption.
  - intros [F | [F | [v [N [U [C [u [P F]]]]]]]].
    + exists s. split; [constructor | left; exact F].
    + exists s. split; [constructor | right; exact F].
    + exists u. split; [|exact F]. apply Ps_on with (v := v); assumption.
Qed.
Lemma next_unique : forall s u v, next info s u -> next info s v -> u = v.
Proof. intros s u v [_ [_ E]] [_ [_ F]]. congruence. Qed.
Lemma chain_spec : forall n check target s x, chain info n check target s = Some x -> forall r, x = Some r <-> finds info check target s r.
Proof.
  induction n as [|n IH]; intros check target s x; cbn [chain]; [discriminate|].
  destruct (alias (info s)) eqn:A; cbn [negb].
  2:{ intros E. injection E as <-. intros r. rewrite finds_unfold. split; [discriminate|].
      intros [[F _] | [[_ [[F _] _]] | [v [[F _] _]]]]; congruence. }
  assert (J := jsdoc_spec s). destruct (jsdoc info (Some s)) as [q|].
  { intros E. injection E as <-. intros r. rewrite finds_unfold. split.
    - intros E. injection E as <-. left. split; [exact A | exact J].
    - intros [[_ F] | [[_ [_ [U _]]] | [v [_ [U _]]]]]; [rewrite (declared_unique s r q F J); reflexivity | |]; destruct (undeprecated_no s q U J). }
  assert (Stop : forall r, ~ (exists u, next info s u) -> (@None bstr = Some r <-> finds info check target s r)).
  { intros r N. rewrite finds_unfold. split; [discriminate|]. intros [[_ F] | [[_ [F _]] | [v [F _]]]].
    - destruct (undeprecated_no s r J F).
    - destruct N. exists target. exact F.
    - destruct N. exists v. exact F. }
  destruct (alias_declared (info s)) eqn:D; cbn [negb].
  2:{ intros E. injection E as <-. intros r. apply Stop. intros [u [_ [F _]]]. congruence. }
  destruct (immediate (info s)) as [u|] eqn:I0.
  2:{ intros E. injection E as <-. intros r. apply Stop. intros [u [_ [_ F]]]. congruence. }
  assert (N : next info s u) by (repeat split; assumption).
  destruct (check && Nat.eqb u target) eqn:C.
  - apply andb_true_iff in C as [C T]. apply Nat.eqb_eq in T. subst u. intros E. injection E as <-. intros r.
    change (first_deprecated (decls (info target))) with (jsdoc info (Some target)). rewrite jsdoc_iff, finds_unfold. split.
    + intros F. right. left. repeat split; try assumption.
    + intros [[_ F] | [[_ [_ [_ F]]] | [v [V [_ [F _]]]]]]; [destruct (undeprecated_no s r J F) | exact F|].
      destruct F. split; [exact C | exact (next_unique s v target V N)].
  - intros E r. rewrite (IH _ _ _ _ E r), (finds_unfold check target s r). split.
    + intros F. right. right. exists u. split; [exact N|]. split; [exact J|]. split; [|exact F].
      intros [Ck T]. rewrite Ck in C. rewrite (proj2 (Nat.eqb_eq u target) T) in C. discriminate.
    + intros [[_ F] | [[Ck [T _]] | [v [V [_ [_ F]]]]]]; [destruct (undeprecated_no s r J F) | |].
      * rewrite Ck, (next_unique s u target N T), Nat.eqb_refl in C. discriminate.
      * rewrite (next_unique s u v N V). exact F.
Qed.
Lemma search_spec : forall n s check x, search info n s check = Some x -> forall r, x = Some r <-> searched info s check r.
Proof.
  intros n [s|] check x; unfold search, searched.
  2:{ intros E. injection E as <-. intros r. split; [discriminate | intros [u [F _]]; discriminate]. }
  destruct (alias (info s)) eqn:A; cbn [negb].
  - intros E r. rewrite (chain_spec _ _ _ _ _ E r). split.
    + intros F. exists s. split; [reflexivity|]. right. split; assumption.
    + intros [u [U [[F _] | [_ F]]]]; injection U as <-; [congruence | exact F].
  - intros E r. injection E as <-. destruct check.
    + rewrite (jsdoc_iff s r). split.
      * intros F. exists s. split; [reflexivity|]. left. repeat split; assumption.
      * intros [u [U [[_ [_ F]] | [F _]]]]; injection U as <-; [exact F | congruence].
    + split; [discriminate|]. intros [u [U [[_ [F _]] | [F _]]]]; injection U as <-; congruence.
Qed.
Lemma chain_grows : forall n m check target s x, n <= m -> chain info n check target s = Some x -> chain info m check target s = Some x.
Proof.
  induction n as [|n IH]; intros m check target s x L; [discriminate|]. destruct m as [|m]; [lia|]. cbn [chain].
  destruct (negb (alias (info s))); [trivial|]. destruct (jsdoc info (Some s)); [trivial|].
  destruct (negb (alias_declared (info s))); [trivial|]. destruct (immediate (info s)) as [u|]; [|trivial].
  destruct (check && Nat.eqb u target); [trivial|]. apply IH. lia.
Qed.
Lemma search_ends : well_founded (fun u s => next info s u) -> forall s check, exists n, search info n s check <> None.
Proof.
  intros W [s|] check; [|exists 0; discriminate]. unfold search.
  destruct (alias (info s)) eqn:A0; cbn [negb]; [|exists 0; discriminate].
  generalize (aliased (info s)). intros target. clear A0. induction (W s) as [s _ IH].
  destruct (alias (info s)) eqn:A; [|exists 1; cbn [chain]; rewrite A; discriminate].
  destruct (alias_declared (info s)) eqn:D; [|exists 1; cbn [chain]; rewrite A, D; cbn [negb]; destruct (jsdoc info (Some s)); discriminate].
  destruct (immediate (info s)) as [u|] eqn:E; [|exists 1; cbn [chain]; rewrite A, D, E; cbn [negb]; destruct (jsdoc info (Some s)); discriminate].
  destruct (IH u) as [n N]; [repeat split; assumption|]. exists (S n). cbn [chain]. rewrite A, D, E. cbn [negb].
  destruct (jsdoc info (Some s)); [discriminate|]. destruct (check && Nat.eqb u target); [discriminate | exact N].
Qed.
(** Along a chain *)
Lemma first_cons_no : forall s l r, undeprecated info s -> (first_in info (s :: l) r <-> first_in info l r).
Proof.
  intros s l r U. split.
  - intros [pre [u [post [E [P D]]]]]. destruct pre as [|y pre]; cbn [app] in E; injection E as -> E.
    + destruct (undeprecated_no u r U D).
    + exists pre, u, post. repeat split; try assumption. intros x X. apply P. right. exact X.
  - intros [pre [u [post [-> [P D]]]]]. exists (s :: pre), u, post. repeat split; try assumption.
    intros x [<- | X]; [exact U | apply P, X].
Qed.
Lemma first_cons_yes : forall s l q, declared info s q -> forall r, (first_in info (s :: l) r <-> r = q).
Proof.
  intros s l q D r. split.
  - intros [pre [u [post [E [P D']]]]]. destruct pre as [|y pre]; cbn [app] in E; injection E as -> E.
    + exact (declared_unique u r q D' D).
    + destruct (undeprecated_no y q (P y (or_introl eq_refl)) D).
  - intros ->. exists [], s, l. repeat split; [intros x [] | exact D].
Qed.
Lemma chain_path : forall s l t, path info s l t -> l <> [] -> ~ In t l -> forall n, length l <= n ->
  exists x, chain info n true t s = Some x /\ forall r, x = Some r <-> first_in info (l ++ [t]) r.
Proof.
  intros s l t P. induction P as [t | s u l t N P IH]; [intros F; destruct F; reflexivity|]. intros _ T n L.
  destruct n as [|n]; [cbn in L; lia|]. cbn [length] in L. destruct N as [A [D I0]]. cbn [chain]. rewrite A, D, I0. cbn [negb andb].
  assert (J := jsdoc_spec s). destruct (jsdoc info (Some s)) as [q|].
  { exists (Some q). split; [reflexivity|]. intros r. cbn [app]. rewrite (first_cons_yes s (l ++ [t]) q J r). split; congruence. }
  cbn [app]. inversion P as [t' | s' v l' t' N' P']; subst.
  - rewrite Nat.eqb_refl. eexists. split; [reflexivity|]. intros r. rewrite first_cons_no by exact J. change (first_deprecated (decls (info t))) with (jsdoc info (Some t)). rewrite jsdoc_iff. cbn [app]. split.
    + intros F. exists [], t, []. repeat split; [intros x [] | exact F].
    + intros [pre [y [post [E [_ F]]]]]. destruct pre as [|z pre]; cbn [app] in E; injection E as -> E; [exact F | destruct pre; discriminate].
  - destruct (Nat.eqb_spec u t) as [-> | _]; [destruct T; right; left; reflexivity|].
    destruct (IH ltac:(discriminate) ltac:(intros F; apply T; right; exact F) n ltac:(cbn [length] in *; lia)) as [x [E F]].
    exists x. split; [exact E|]. intros r. rewrite first_cons_no by exact J. apply F.
Qed.
Lemma chain_path_off : forall s l t, path info s l t -> alias (info t) = false -> forall n target, length l < n ->
  exists x, chain info n false target s = Some x /\ forall r, x = Some r <-> first_in info l r.
Proof.
  intros s l t P At. induction P as [t | s u l t N P IH]; intros n target L; destruct n as [|n]; try (cbn in L; lia).
  - exists None. cbn [chain]. rewrite At. split; [reflexivity|]. intros r. split; [discriminate|].
    intros [pre [y [post [E _]]]]. destruct pre; discriminate.
  - destruct N as [A [D I0]]. cbn [chain length] in *. rewrite A, D, I0. cbn [negb andb].
    assert (J := jsdoc_spec s). destruct (jsdoc info (Some s)) as [q|].
    { exists (Some q). split; [reflexivity|]. intros r. rewrite (first_cons_yes s l q J r). split; congruence. }
    destruct (IH At n target ltac:(lia)) as [x [E F]]. exists x. split; [exact E|]. intros r. rewrite first_cons_no by exact J. apply F.
Qed.
Lemma searched_no : forall n s check, search info n s check = Some None -> forall q, ~ searched info s check q.
Proof. intros n s check E q F. apply (search_spec _ _ _ _ E) in F. discriminate. Qed.
Lemma stands : forall s t, stands_for info s t <-> t = (if alias (info s) then aliased (info s) else s).
Proof.
  intros s t. unfold stands_for. destruct (alias (info s)); split.
  - intros [[_ F] | [F _]]; [exact F | discriminate].
  - intros F. left. split; [reflexivity | exact F].
  - intros [[F _] | [_ F]]; [discriminate | exact F].
  - intros F. right. split; [reflexivity | exact F].
Qed.
Lemma call_spec : forall n d s x, call_deprecation info n (Some d) s = Some x -> forall r, x = Some r <-> call_says info d s r.
Proof.
  intros n d s x. unfold call_deprecation, call_says. intros E r.
  assert (Yes : forall y, d = Some y -> deprecated y = true -> x = Some (doc_reason (docs y)) ->
    (x = Some r <-> (exists x0, d = Some x0 /\ deprecated x0 = true /\ reason (docs x0) r) \/ (forall x0, d = Some x0 -> deprecated x0 = false) /\ exists u, s = Some u /\ (~ is_function info u /\ searched info s true r \/ is_function info u /\ (searched info s false r \/ (forall q, ~ searched info s false q) /\ d = None /\ exists t, stands_for info u t /\ declared info t r)))).
  { intros y Dy Yd ->. split.
    - intros F. injection F as <-. left. exists y. repeat split; [exact Dy | exact Yd | apply doc_reason_spec].
    - intros [[z [Dz [_ R]]] | [N _]]; [|rewrite (N y Dy) in Yd; discriminate].
      rewrite Dy in Dz. injection Dz as <-. rewrite (reason_unique _ _ _ R (doc_reason_spec (docs y))). reflexivity. }
  assert (No : forall P : Prop, (forall y, d = Some y -> deprecated y = false) ->
    ((exists x0, d = Some x0 /\ deprecated x0 = true /\ reason (docs x0) r) \/ (forall x0, d = Some x0 -> deprecated x0 = false) /\ P <-> P)).
  { intros P N. split; [|intros p; right; split; assumption]. intros [[z [Dz [Z _]]] | [_ p]]; [rewrite (N z Dz) in Z; discriminate | exact p]. }
  destruct (match d with Some d => if deprecated d then Some (doc_reason (docs d)) else None | None => None end) as [q|] eqn:Q.
  { injection E as <-. destruct d as [y|]; [|discriminate]. destruct (deprecated y) eqn:Y; [|discriminate]. injection Q as <-.
    apply (Yes y); (exact Y || reflexivity). }
  assert (ND : forall y, d = Some y -> deprecated y = false).
  { intros y ->. destruct (deprecated y); [discriminate | reflexivity]. }
  rewrite No by exact ND. clear Yes No Q.
  destruct s as [s|]; [|injection E as <-; split; [discriminate | intros [u [F _]]; discriminate]].
  set (final := if alias (info s) then aliased (info s) else s) in *.
  assert (IF : match decls (info final) with d :: _ => function_like d | [] => false end = true <-> is_function info s).
  { unfold is_function. split.
    - intros F. destruct (decls (info final)) as [|d0 l] eqn:Dl; [discriminate|]. exists final, d0, l.
      split; [apply stands; reflexivity|]. split; assumption.
    - intros [t [d0 [l [St [Dl F]]]]]. apply stands in St. change (t = final) in St. subst t. rewrite Dl. exact F. }
  destruct (match decls (info final) with d :: _ => function_like d | [] => false end) eqn:FL.
  - assert (Fs := proj1 IF eq_refl). destruct (search info n (Some s) false) as [[q|]|] eqn:Sr; [| |discriminate].
    + injection E as <-. split.
      * intros F. exists s. split; [reflexivity|]. right. split; [exact Fs|]. left. apply (search_spec _ _ _ _ Sr), F.
      * intros [u [U [[F _] | [_ [F | [F _]]]]]]; injection U as <-; [destruct (F Fs) | apply (search_spec _ _ _ _ Sr), F|].
        destruct (F q). apply (search_spec _ _ _ _ Sr). reflexivity.
    + assert (Ns := searched_no _ _ _ Sr). destruct d as [y|]; [injection E as <- | assert (Ex : x = jsdoc info (Some final)) by congruence; subst x; clear E].
      * split; [discriminate|]. intros [u [U [[F _] | [_ [F | [_ [F _]]]]]]]; injection U as <-; [destruct (F Fs) | destruct (Ns r F) | discriminate].
      * rewrite jsdoc_iff. split.
        -- intros F. exists s. split; [reflexivity|]. right. split; [exact Fs|]. right. split; [exact Ns|]. split; [reflexivity|].
           exists final. split; [apply stands; reflexivity | exact F].
        -- intros [u [U [[F _] | [_ [F | [_ [_ [t [St F]]]]]]]]]; injection U as <-; [destruct (F Fs) | destruct (Ns r F)|].
           apply stands in St. change (t = final) in St. subst t. exact F.
  - assert (Fs : ~ is_function info s) by (intros F; apply IF in F; discriminate).
    rewrite (search_spec _ _ _ _ E r). split.
    + intros F. exists s. split; [reflexivity|]. left. split; assumption.
    + intros [u [U [[_ F] | [F _]]]]; injection U as <-; [exact F | destruct (Fs F)].
Qed.
Lemma read_spec : forall n p s v x, read_deprecation info n p s v = Some x -> forall r, x = Some r <-> read_says info p s v r.
Proof.
  intros n p s v x. unfold read_deprecation, read_says. destruct (search info n s true) as [[q|]|] eqn:Sr; [| |discriminate]; intros E; injection E as <-; intros r.
  - rewrite (search_spec _ _ _ _ Sr r). split; [intros F; left; exact F|]. intros [F | [F _]]; [exact F|].
    destruct (F q). apply (search_spec _ _ _ _ Sr). reflexivity.
  - assert (Ns := searched_no _ _ _ Sr).
    assert (O1 : forall y z P, (forall q, z = Some q -> True) -> ((z = Some r <-> P) -> (or_else (jsdoc info y) z = Some r <-> maybe info y r \/ (forall q, ~ maybe info y q) /\ P))).
    { intros y z P _ H. unfold or_else. destruct (jsdoc info y) as [q|] eqn:J.
      - split.
        + intros F. left. apply maybe_iff. congruence.
        + intros [F | [F _]]; [apply maybe_iff in F; congruence | destruct (F q); apply maybe_iff, J].
      - rewrite H. split.
        + intros F. right. split; [|exact F]. intros q M. apply maybe_iff in M. congruence.
        + intros [F | [_ F]]; [apply maybe_iff in F; congruence | exact F]. }
    rewrite (O1 p _ (maybe info s r \/ (forall q, ~ maybe info s q) /\ maybe info v r)); [|trivial | apply O1; [trivial | apply maybe_iff]].
    split; [intros F; right; split; assumption | intros [F | [_ F]]; [destruct (Ns r F) | exact F]].
Qed.
Lemma deprecation_spec : forall n p x, deprecation info n p = Some x -> forall r, x = Some r <-> says info p r.
Proof.
  intros n p x E r. destruct p as [sig s | p | renamed text [ps|] s v | [] p s v | s]; cbn [deprecation] in E.
  - destruct sig as [d|].
    + rewrite (call_spec _ _ _ _ E r). split; [constructor; assumption | intros F; inversion F; subst; assumption].
    + injection E as <-. split; [discriminate | intros F; inversion F].
  - injection E as <-. rewrite maybe_iff. split; [constructor; assumption | intros F; inversion F; subst; assumption].
  - destruct renamed as [[name|]|].
    + rewrite (read_spec _ _ _ _ _ E r). split.
      * intros F. apply Sa_bound with (name := name); [constructor | exact F].
      * intros F. inversion F as [| |ren tx ps' nm s' v' r' Pr Rd | | | |]; subst. inversion Pr; subst. exact Rd.
    + injection E as <-. split; [discriminate|]. intros F. inversion F as [| |ren tx ps' nm s' v' r' Pr Rd | | | |]; subst. inversion Pr.
    + rewrite (read_spec _ _ _ _ _ E r). split.
      * intros F. apply Sa_bound with (name := text); [constructor | exact F].
      * intros F. inversion F as [| |ren tx ps' nm s' v' r' Pr Rd | | | |]; subst. inversion Pr; subst. exact Rd.
  - rewrite (search_spec _ _ _ _ E r). split; [constructor; assumption | intros F; inversion F; subst; assumption].
  - rewrite (read_spec _ _ _ _ _ E r). split; [constructor; assumption | intros F; inversion F; subst; assumption].
  - rewrite (search_spec _ _ _ _ E r). split; [constructor; assumption | intros F; inversion F; subst; assumption].
  - rewrite (search_spec _ _ _ _ E r). split; [constructor; assumption | intros F; inversion F; subst; assumption].
Qed.
Lemma deprecation_ends : well_founded (fun u s => next info s u) -> forall p, exists n, deprecation info n p <> None.
Proof.
  intros W p.
  assert (Rd : forall p s v, exists n, read_deprecation info n p s v <> None).
  { intros q s v. destruct (search_ends W s true) as [n N]. exists n. unfold read_deprecation.
    destruct (search info n s true) as [[r|]|]; [discriminate | discriminate | destruct N; reflexivity]. }
  destruct p as [sig s | p | renamed text [ps|] s v | [] p s v | s]; cbn [deprecation].
  - unfold call_deprecation. destruct sig as [d|]; [|exists 0; discriminate].
    destruct (match d with Some d => if deprecated d then Some (doc_reason (docs d)) else None | None => None end); [exists 0; discriminate|].
    destruct s as [s|]; [|exists 0; discriminate]. cbv zeta.
    destruct (match decls (info (if alias (info s) then aliased (info s) else s)) with d :: _ => function_like d | [] => false end).
    + destruct (search_ends W (Some s) false) as [n N]. exists n.
      destruct (search info n (Some s) false) as [[r|]|]; [discriminate | destruct d; discriminate | destruct N; reflexivity].
    + apply (search_ends W).
  - exists 0. discriminate.
  - destruct renamed as [[name|]|]; [apply Rd | exists 0; discriminate | apply Rd].
  - apply (search_ends W).
  - apply Rd.
  - apply (search_ends W).
  - apply (search_ends W).
Qed.
End Symbols.

Lemma call_like_spec : forall l, call_like l = true <-> exists k post, l = repeat Access_name k ++ Callee :: post.
Proof.
  induction l as [|[] l IH]; cbn [call_like].
  - split; [discriminate | intros [[|k] [post E]]; discriminate].
  - rewrite IH. split.
    + intros [k [post ->]]. exists (S k), post. reflexivity.
    + intros [[|k] [post E]]; [discriminate|]. injection E as E. exists k, post. exact E.
  - split; [intros _; exists 0, l; reflexivity | reflexivity].
  - split; [discriminate | intros [[|k] [post E]]; discriminate].
Qed.
Lemma declaration_spec : forall p r g, is_declaration p r g = true <-> declares p r g.
Proof.
  intros p r g. split.
  - destruct p; cbn [is_declaration]; intros E;
      try (apply De_any; cbn [In]; tauto); try discriminate;
      try (destruct r; try discriminate; apply De_named; cbn [In]; tauto).
    + destruct g; try discriminate. destruct r; try discriminate. constructor.
    + destruct r; try discriminate; destruct g; try discriminate; apply De_key; discriminate.
  - intros [ | q g' I0 | r' N | q r' g' I0].
    + reflexivity.
    + cbn [In] in I0. decompose [or] I0; try subst q; try reflexivity; contradiction.
    + destruct r'; try reflexivity. destruct N. reflexivity.
    + cbn [In] in I0. decompose [or] I0; try subst q; try reflexivity; contradiction.
Qed.
Lemma import_spec : forall l, inside_import l = true <-> in_import l.
Proof.
  unfold in_import. induction l as [|[] l IH]; cbn [inside_import].
  - split; [discriminate | intros [[|x pre] [post [E _]]]; discriminate].
  - split; [intros _; exists [], l; split; [reflexivity | intros x []] | reflexivity].
  - split; [discriminate|]. intros [[|x pre] [post [E P]]]; [discriminate|]. injection E as <- _. assert (X := P A_boundary (or_introl eq_refl)). discriminate.
  - rewrite IH. split.
    + intros [pre [post [-> P]]]. exists (A_rest :: pre), post. split; [reflexivity|]. intros x [<- | X]; [reflexivity | apply P, X].
    + intros [[|x pre] [post [E P]]]; [discriminate|]. injection E as <- E. exists pre, post. split; [exact E|]. intros x X. apply P. right. exact X.
Qed.
Lemma is_space_spec : forall c, is_space c = true <-> blank c.
Proof.
  intros c. unfold is_space, blank. cbv zeta. generalize (nat_of_ascii c). intros k. rewrite orb_true_iff, andb_true_iff, Nat.eqb_eq, !Nat.leb_le. cbn [In]. lia.
Qed.
Lemma trim_left_spec : forall s, exists pre, s = pre ++ trim_left s /\ space_only pre /\ forall c r, trim_left s = c :: r -> ~ blank c.
Proof.
  induction s as [|c s [pre [E [P H]]]]; cbn [trim_left].
  - exists []. split; [reflexivity|]. split; [intros c [] | discriminate].
  - destruct (is_space c) eqn:C.
    + exists (c :: pre). split; [cbn [app]; rewrite <- E; reflexivity|]. split; [|exact H]. intros d [<- | D]; [apply is_space_spec, C | apply P, D].
    + exists []. split; [reflexivity|]. split; [intros d [] |]. intros d r F. injection F as <- _. intros B. apply is_space_spec in B. congruence.
Qed.
Lemma trim_spec : forall s, trimmed s (trim s).
Proof.
  intros s. unfold trim. destruct (trim_left_spec s) as [pre [E [P H]]]. set (u := trim_left s) in *.
  destruct (trim_left_spec (rev u)) as [post [E' [P' H']]]. set (v := trim_left (rev u)) in *.
  assert (U : u = rev v ++ rev post) by (rewrite <- rev_app_distr, <- E', rev_involutive; reflexivity).
  apply Trimmed with (pre := pre) (post := rev post).
  - rewrite <- U. exact E.
  - exact P.
  - intros c C. apply P', in_rev, C.
  - intros c r F. apply H with (r := r ++ rev post). rewrite U, F. reflexivity.
  - intros r c F. apply H' with (r := rev r). rewrite <- (rev_involutive v), F, rev_app_distr. reflexivity.
Qed.
Lemma message_spec : forall name r, text_of name r (message name r).
Proof.
  intros name r. unfold message. destruct r as [|c0 r0]; [constructor; reflexivity|].
  apply To_reason; [discriminate | apply trim_spec].
Qed.
