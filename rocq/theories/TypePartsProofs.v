(** Proofs on the parts of types. *)
From Coq Require Import Bool Arith Ascii String List Lia.
From Verif Require Import Base EngineProofs.
From Verif Require Import TypeParts TypePartsSpec.
Import ListNotations.
Open Scope nat_scope.

Lemma flag_eqb_eq : forall x y, flag_eqb x y = true <-> x = y.
Proof. intros [] []; split; (reflexivity || discriminate). Qed.
Lemma set_spec : forall l w, set l w = true <-> exists f, In f l /\ In f w.
Proof.
  intros l w. unfold set. rewrite existsb_exists. split.
  - intros [f [L E]]. apply existsb_exists in E as [g [G F]]. apply flag_eqb_eq in F. subst g. exists f. split; assumption.
  - intros [f [L W]]. exists f. split; [exact L|]. apply existsb_exists. exists f. split; [exact W | apply flag_eqb_eq; reflexivity].
Qed.
Lemma some_true : forall f l, some_of f l = Some true -> exists x, In x l /\ f x = Some true.
Proof.
  induction l as [|x l IH]; cbn [some_of]; [discriminate|].
  destruct (f x) as [[]|] eqn:F; intros E; try discriminate.
  - exists x. split; [left; reflexivity | exact F].
  - destruct (IH E) as [y [Y G]]. exists y. split; [right; exact Y | exact G].
Qed.
Lemma some_false : forall f l, some_of f l = Some false -> forall x, In x l -> f x = Some false.
Proof.
  induction l as [|x l IH]; cbn [some_of]; [intros _ x []|].
  destruct (f x) as [[]|] eqn:F; intros E; try discriminate.
  intros y [<- | Y]; [exact F | apply IH; assumption].
Qed.
Lemma every_true : forall f l, every_of f l = Some true -> forall x, In x l -> f x = Some true.
Proof.
  induction l as [|x l IH]; cbn [every_of]; [intros _ x []|].
  destruct (f x) as [[]|] eqn:F; intros E; try discriminate.
  intros y [<- | Y]; [exact F | apply IH; assumption].
Qed.
Lemma every_false : forall f l, every_of f l = Some false -> exists x, In x l /\ f x = Some false.
Proof.
  induction l as [|x l IH]; cbn [every_of]; [discriminate|].
  destruct (f x) as [[]|] eqn:F; intros E; try discriminate.
  - destruct (IH E) as [y [Y G]]. exists y. split; [right; exact Y | exact G].
  - exists x. split; [left; reflexivity | exact F].
Qed.
(** More steps change no answer. *)
Definition grows (f g : nat -> option bool) : Prop := forall x r, f x = Some r -> g x = Some r.
Lemma some_grows : forall f g, grows f g -> forall l r, some_of f l = Some r -> some_of g l = Some r.
Proof.
  intros f g G. induction l as [|x l IH]; cbn [some_of]; [trivial|]. intros r.
  destruct (f x) as [[]|] eqn:F; try discriminate; rewrite (G _ _ F); [trivial | apply IH].
Qed.
Lemma every_grows : forall f g, grows f g -> forall l r, every_of f l = Some r -> every_of g l = Some r.
Proof.
  intros f g G. induction l as [|x l IH]; cbn [every_of]; [trivial|]. intros r.
  destruct (f x) as [[]|] eqn:F; try discriminate; rewrite (G _ _ F); [apply IH | trivial].
Qed.
(** With enough steps for each there are enough for all. *)
Definition steady (f : nat -> nat -> option bool) : Prop := forall n m, n <= m -> grows (f n) (f m).
Lemma some_ends : forall f, steady f -> forall l, (forall x, In x l -> exists n, f n x <> None) -> exists n, some_of (f n) l <> None.
Proof.
  intros f St. induction l as [|x l IH]; intros H; [exists 0; discriminate|].
  destruct (H x (or_introl eq_refl)) as [n N]. destruct IH as [m M]; [intros y Y; apply H; right; exact Y|].
  exists (n + m). cbn [some_of]. destruct (f n x) as [r|] eqn:F; [|destruct N; reflexivity].
  rewrite (St n (n + m) (Nat.le_add_r n m) _ _ F). destruct r; [discriminate|].
  destruct (some_of (f m) l) as [r|] eqn:G; [|destruct M; reflexivity].
  rewrite (some_grows (f m) (f (n + m)) (St m (n + m) ltac:(lia)) _ _ G). discriminate.
Qed.
Lemma every_ends : forall f, steady f -> forall l, (forall x, In x l -> exists n, f n x <> None) -> exists n, every_of (f n) l <> None.
Proof.
  intros f St. induction l as [|x l IH]; intros H; [exists 0; discriminate|].
  destruct (H x (or_introl eq_refl)) as [n N]. destruct IH as [m M]; [intros y Y; apply H; right; exact Y|].
  exists (n + m). cbn [every_of]. destruct (f n x) as [r|] eqn:F; [|destruct N; reflexivity].
  rewrite (St n (n + m) (Nat.le_add_r n m) _ _ F). destruct r; [|discriminate].
  destruct (every_of (f m) l) as [r|] eqn:G; [|destruct M; reflexivity].
  rewrite (every_grows (f m) (f (n + m)) (St m (n + m) ltac:(lia)) _ _ G). discriminate.
Qed.

Section Types.
Context (info : nat -> type_info).
Lemma union_parts_spec : forall t p, In p (union_parts info t) <-> union_part info t p.
Proof.
  intros t p. unfold union_parts. destruct (union (info t)) as [l|] eqn:U; split.
  - intros P. apply Up_union with (l := l); assumption.
  - intros [l' p' E P | E]; congruence.
  - intros [<- | []]. apply Up_self, U.
  - intros [l' p' E P | E]; [congruence | left; reflexivity].
Qed.
Lemma intersection_parts_spec : forall t p, In p (intersection_parts info t) <-> intersection_part info t p.
Proof.
  intros t p. unfold intersection_parts. destruct (intersection (info t)) as [l|] eqn:U; split.
  - intros P. apply Ip_intersection with (l := l); assumption.
  - intros [l' p' E P | E]; congruence.
  - intros [<- | []]. apply Ip_self, U.
  - intros [l' p' E P | E]; [congruence | left; reflexivity].
Qed.
Lemma matches_true : forall n t, matches info n t = Some true -> exists u, derives info t u /\ specified (info u) = true.
Proof.
  induction n as [|n IH]; intros t; cbn [matches]; [discriminate|].
  destruct (specified (info t)) eqn:Sp.
  - intros _. exists t. split; [constructor | exact Sp].
  - intros E. apply some_true in E as [x [X E]]. apply IH in E as [u [D U]].
    exists u. split; [|exact U]. apply D_base with (u := x); assumption.
Qed.
Lemma matches_false : forall n t u, matches info n t = Some false -> derives info t u -> specified (info u) = false.
Proof.
  induction n as [|n IH]; intros t u; cbn [matches]; [discriminate|].
  destruct (specified (info t)) eqn:Sp; [discriminate|].
  intros E D. destruct D as [t | t x u X D]; [exact Sp|].
  apply IH with (t := x); [|exact D]. exact (some_false _ _ E x X).
Qed.
Lemma matches_steady : steady (matches info).
Proof.
  intros n. induction n as [|n IH]; intros m L t r E; [discriminate|].
  destruct m as [|m]; [lia|]. cbn [matches] in *. destruct (specified (info t)); [exact E|].
  apply (some_grows (matches info n)); [apply IH; lia | exact E].
Qed.
Lemma matches_ends : forall t, Acc (base_of info) t -> exists n, matches info n t <> None.
Proof.
  intros t A. induction A as [t _ IH].
  destruct (some_ends (matches info) matches_steady (bases (info t))) as [n N]; [intros x X; apply IH, X|].
  exists (S n). cbn [matches]. destruct (specified (info t)); [discriminate | exact N].
Qed.

Context (o : options).
Lemma flags_spec : forall f, In f (allowed_flags o) <-> flag_allowed o f.
Proof.
  intros f. unfold allowed_flags. rewrite !in_app_iff. split.
  - intros H.
    destruct H as [[<- | []] | H]; [constructor|].
    destruct H as [H | H]; [destruct (allow_any o) eqn:E; [destruct H as [<- | []]; constructor; exact E | destruct H]|].
    destruct H as [H | H]; [destruct (allow_boolean o) eqn:E; [destruct H as [<- | []]; constructor; exact E | destruct H]|].
    destruct H as [H | H]; [destruct (allow_nullish o) eqn:E; [destruct H as [<- | []]; constructor; exact E | destruct H]|].
    destruct H as [H | H]; [destruct (allow_number o) eqn:E; [destruct H as [<- | [<- | []]]; constructor; exact E | destruct H]|].
    destruct (allow_never o) eqn:E; [destruct H as [<- | []]; constructor; exact E | destruct H].
  - intros [ | E | E | E | E | E | E]; try rewrite E; cbn [In]; tauto.
Qed.
Lemma set_allowed : forall q, set (flags (info q)) (allowed_flags o) = true <-> exists f, one_of f (info q) /\ flag_allowed o f.
Proof.
  intros q. rewrite set_spec. split; intros [f [L A]]; exists f; (split; [exact L | apply flags_spec, A]).
Qed.
(** One part. *)
Definition part (n q : nat) : option bool :=
  if set (flags (info q)) (allowed_flags o) then Some true
  else match matches info n q with
       | Some false =>
           match (if allow_array o then element (info q) else None) with
           | Some e => match type_allowed info o n e with Some false => Some (allow_regexp o && regexp (info q)) | r => r end
           | None => Some (allow_regexp o && regexp (info q))
           end
       | r => r
       end.
Lemma type_allowed_S : forall n t, type_allowed info o (S n) t = every_of (fun p => some_of (part n) (intersection_parts info p)) (union_parts info t).
Proof. reflexivity. Qed.
Lemma part_true : forall n q, (forall t, type_allowed info o n t = Some true -> allowed info o t) -> part n q = Some true -> part_allowed info o q.
Proof.
  intros n q IH. unfold part. destruct (set (flags (info q)) (allowed_flags o)) eqn:F.
  { intros _. apply set_allowed in F as [f [O A]]. apply Pa_flag with (f := f); assumption. }
  destruct (matches info n q) as [[]|] eqn:M; try discriminate.
  { intros _. apply matches_true in M as [u [D U]]. apply Pa_specified with (u := u); assumption. }
  assert (G : allow_regexp o && regexp (info q) = true -> part_allowed info o q).
  { intros E. apply andb_true_iff in E as [E E']. apply Pa_regexp; assumption. }
  destruct (allow_array o) eqn:A; [destruct (element (info q)) as [e|] eqn:El|].
  - destruct (type_allowed info o n e) as [[]|] eqn:T; try discriminate.
    + intros _. apply Pa_array with (e := e); [exact A | exact El | apply IH, T].
    + intros E. injection E as E. apply G, E.
  - intros E. injection E as E. apply G, E.
  - intros E. injection E as E. apply G, E.
Qed.
Lemma part_false : forall n q, (forall t, type_allowed info o n t = Some false -> ~ allowed info o t) -> part n q = Some false -> ~ part_allowed info o q.
Proof.
  intros n q IH. unfold part. destruct (set (flags (info q)) (allowed_flags o)) eqn:F; [discriminate|].
  destruct (matches info n q) as [[]|] eqn:M; try discriminate.
  intros E P. destruct P as [f O A | u D U | e A El T | A R].
  - assert (X : set (flags (info q)) (allowed_flags o) = true) by (apply set_allowed; exists f; split; assumption). congruence.
  - rewrite (matches_false n q u M D) in U. discriminate.
  - rewrite A, El in E. destruct (type_allowed info o n e) as [[]|] eqn:T'; try discriminate. exact (IH e T' T).
  - assert (X : allow_regexp o && regexp (info q) = false).
    { destruct (if allow_array o then element (info q) else None) as [e|]; [|congruence].
      destruct (type_allowed info o n e) as [[]|]; congruence. }
    rewrite A, R in X. discriminate.
Qed.
Lemma type_allowed_spec : forall n t,
  (type_allowed info o n t = Some true -> allowed info o t) /\ (type_allowed info o n t = Some false -> ~ allowed info o t).
Proof.
  induction n as [|n IH]; intros t; [split; discriminate|]. rewrite type_allowed_S. split.
  - intros E. constructor. intros p P. apply union_parts_spec in P.
    destruct (some_true (part n) (intersection_parts info p) (every_true _ _ E p P)) as [q [Q T]].
    exists q. split; [apply intersection_parts_spec, Q | apply (part_true n q (fun t => proj1 (IH t))), T].
  - intros E A. apply every_false in E as [p [P E]]. destruct A as [A].
    destruct (A p) as [q [Q B]]; [apply union_parts_spec, P|].
    apply intersection_parts_spec in Q.
    apply (part_false n q (fun t => proj2 (IH t))); [exact (some_false _ _ E q Q) | exact B].
Qed.
Lemma part_grows : forall n m, n <= m -> grows (type_allowed info o n) (type_allowed info o m) -> grows (part n) (part m).
Proof.
  intros n m L G q r. unfold part. destruct (set (flags (info q)) (allowed_flags o)); [trivial|].
  destruct (matches info n q) as [[]|] eqn:M; try discriminate; rewrite (matches_steady n m L _ _ M); [trivial|].
  destruct (if allow_array o then element (info q) else None) as [e|]; [|trivial].
  destruct (type_allowed info o n e) as [[]|] eqn:T; try discriminate; rewrite (G _ _ T); trivial.
Qed.
Lemma type_allowed_steady : steady (type_allowed info o).
Proof.
  intros n. induction n as [|n IH]; intros m L t r; [discriminate|].
  destruct m as [|m]; [lia|]. rewrite !type_allowed_S. apply every_grows.
  intros p r'. apply some_grows, part_grows; [lia | apply IH; lia].
Qed.
Lemma part_steady : steady part.
Proof. intros n m L. apply part_grows; [exact L | apply type_allowed_steady, L]. Qed.
Lemma parts_steady : steady (fun n p => some_of (part n) (intersection_parts info p)).
Proof. intros n m L p r. apply some_grows, part_steady, L. Qed.
Lemma type_allowed_ends : well_founded (base_of info) -> forall t, Acc (goes_on info) t -> exists n, type_allowed info o n t <> None.
Proof.
  intros W t A. induction A as [t _ IH].
  destruct (every_ends _ parts_steady (union_parts info t)) as [n N].
  - intros p P. apply (some_ends _ part_steady). intros q Q.
    destruct (matches_ends q (W q)) as [n N].
    assert (El : exists m, forall e, element (info q) = Some e -> type_allowed info o m e <> None).
    { destruct (element (info q)) as [e|] eqn:El.
      - destruct (IH e) as [m M].
        { exists p, q. split; [apply union_parts_spec, P|]. split; [apply intersection_parts_spec, Q | exact El]. }
        exists m. intros e' E. injection E as <-. exact M.
      - exists 0. discriminate. }
    destruct El as [m M]. exists (n + m). unfold part.
    destruct (set (flags (info q)) (allowed_flags o)); [discriminate|].
    destruct (matches info n q) as [r|] eqn:F; [|destruct N; reflexivity].
    rewrite (matches_steady n (n + m) (Nat.le_add_r n m) _ _ F). destruct r; [discriminate|].
    destruct (allow_array o); [|discriminate].
    destruct (element (info q)) as [e|]; [|discriminate].
    specialize (M e eq_refl). destruct (type_allowed info o m e) as [r|] eqn:T; [|destruct M; reflexivity].
    rewrite (type_allowed_steady m (n + m) ltac:(lia) _ _ T). destruct r; discriminate.
  - exists (S n). exact N.
Qed.
Lemma check_spans_spec : forall n spans l, check_spans info o n spans = Some l -> reports info o spans l.
Proof.
  intros n. induction spans as [|[at_ t] spans IH]; intros l; cbn [check_spans].
  - intros E. injection E as <-. constructor.
  - destruct (type_allowed info o n t) as [a|] eqn:T; [|discriminate].
    destruct (check_spans info o n spans) as [l'|]; [|discriminate].
    intros E. injection E as <-. destruct a.
    + constructor; [apply (type_allowed_spec n t), T | apply IH; reflexivity].
    + apply R_not; [apply (type_allowed_spec n t), T | apply IH; reflexivity].
Qed.
Lemma check_spans_grows : forall n m spans l, n <= m -> check_spans info o n spans = Some l -> check_spans info o m spans = Some l.
Proof.
  intros n m spans l L. revert l. induction spans as [|[at_ t] spans IH]; intros l; cbn [check_spans]; [trivial|].
  destruct (type_allowed info o n t) as [a|] eqn:T; [|discriminate]. rewrite (type_allowed_steady n m L _ _ T).
  destruct (check_spans info o n spans) as [l'|]; [|discriminate]. rewrite (IH l' eq_refl). trivial.
Qed.
Lemma check_spans_ends : well_founded (base_of info) -> well_founded (goes_on info) -> forall spans, exists n, check_spans info o n spans <> None.
Proof.
  intros W G. induction spans as [|[at_ t] spans [m M]]; [exists 0; discriminate|].
  destruct (type_allowed_ends W t (G t)) as [n N]. exists (n + m). cbn [check_spans].
  destruct (type_allowed info o n t) as [a|] eqn:T; [|destruct N; reflexivity].
  rewrite (type_allowed_steady n (n + m) (Nat.le_add_r n m) _ _ T).
  destruct (check_spans info o m spans) as [l|] eqn:C; [|destruct M; reflexivity].
  rewrite (check_spans_grows m (n + m) spans l ltac:(lia) C). discriminate.
Qed.

(** Names of types *)
Lemma set_string : forall t, set (flags (info t)) [String_like] = true <-> one_of String_like (info t).
Proof.
  intros t. rewrite set_spec. split.
  - intros [f [L [<- | []]]]. exact L.
  - intros L. exists String_like. split; [exact L | left; reflexivity].
Qed.
Definition union_string (n t : nat) : option bool := match union (info t) with Some l => every_of (name_is_string info n) l | None => Some false end.
Definition intersection_string (n t : nat) : option bool := match intersection (info t) with Some l => some_of (name_is_string info n) l | None => Some false end.
Lemma name_S : forall n t, name_is_string info (S n) t =
  if set (flags (info t)) [String_like] then Some true
  else match constraint (info t) with
       | Some c => name_is_string info n c
       | None => match union_string n t with
                 | Some false => match intersection_string n t with Some false => Some (beqb (shown (info t)) (b "string")) | r => r end
                 | r => r
                 end
       end.
Proof. reflexivity. Qed.
Lemma name_spec : forall n t,
  (name_is_string info n t = Some true -> stringy info t) /\ (name_is_string info n t = Some false -> ~ stringy info t).
Proof.
  induction n as [|n IH]; intros t; [split; discriminate|]. rewrite name_S.
  destruct (set (flags (info t)) [String_like]) eqn:F.
  { split; [intros _; apply Sy_flag, set_string, F | discriminate]. }
  assert (NF : ~ one_of String_like (info t)) by (intros X; apply set_string in X; congruence).
  destruct (constraint (info t)) as [c|] eqn:C.
  { split.
    - intros E. apply Sy_constraint with (c := c); [exact C | apply IH, E].
    - intros E Sy. destruct Sy as [X | c' C' X | l X | l p X | X]; try congruence.
      rewrite C in C'. injection C' as <-. exact (proj2 (IH c) E X). }
  destruct (union_string n t) as [[]|] eqn:U; unfold union_string in U; [| | split; discriminate].
  { split; [intros _ | discriminate]. destruct (union (info t)) as [l|] eqn:Ut; [|discriminate].
    apply Sy_union with (l := l); [exact C | exact Ut|]. intros p P. apply IH, (every_true _ _ U p P). }
  assert (NU : forall l, union (info t) = Some l -> ~ forall p, In p l -> stringy info p).
  { intros l Ul X. rewrite Ul in U. apply every_false in U as [p [P N]]. exact (proj2 (IH p) N (X p P)). }
  destruct (intersection_string n t) as [[]|] eqn:V; unfold intersection_string in V; [| | split; discriminate].
  { split; [intros _ | discriminate]. destruct (intersection (info t)) as [l|] eqn:It; [|discriminate].
    apply some_true in V as [p [P N]]. apply Sy_intersection with (l := l) (p := p); [exact C | exact It | exact P | apply IH, N]. }
  split.
  - intros E. injection E as E. apply Sy_shown; [exact C | apply beqb_eq, E].
  - intros E Sy. injection E as E. destruct Sy as [X | c' C' X | l C' X Y | l p C' X P Y | C' X]; try congruence.
    + exact (NU l X Y).
    + rewrite X in V. exact (proj2 (IH p) (some_false _ _ V p P) Y).
    + rewrite X, beqb_refl in E. discriminate.
Qed.
Lemma name_steady : steady (name_is_string info).
Proof.
  intros n. induction n as [|n IH]; intros m L t r; [discriminate|].
  destruct m as [|m]; [lia|]. assert (G : grows (name_is_string info n) (name_is_string info m)) by (apply IH; lia).
  rewrite !name_S. destruct (set (flags (info t)) [String_like]); [trivial|].
  destruct (constraint (info t)) as [c|]; [apply G|].
  unfold union_string, intersection_string.
  destruct (union (info t)) as [l|].
  - destruct (every_of (name_is_string info n) l) as [[]|] eqn:U; try discriminate; rewrite (every_grows _ _ G _ _ U); [trivial|].
    destruct (intersection (info t)) as [k|]; [|trivial].
    destruct (some_of (name_is_string info n) k) as [[]|] eqn:V; try discriminate; rewrite (some_grows _ _ G _ _ V); trivial.
  - destruct (intersection (info t)) as [k|]; [|trivial].
    destruct (some_of (name_is_string info n) k) as [[]|] eqn:V; try discriminate; rewrite (some_grows _ _ G _ _ V); trivial.
Qed.
Lemma name_ends : forall t, Acc (named_by info) t -> exists n, name_is_string info n t <> None.
Proof.
  intros t A. induction A as [t _ IH].
  assert (Ec : exists n, forall c, constraint (info t) = Some c -> name_is_string info n c <> None).
  { destruct (constraint (info t)) as [c|] eqn:C; [|exists 0; discriminate].
    destruct (IH c (or_introl C)) as [n N]. exists n. intros c' E. injection E as <-. exact N. }
  assert (Eu : exists n, union_string n t <> None).
  { unfold union_string. destruct (union (info t)) as [l|] eqn:U; [|exists 0; discriminate].
    apply (every_ends _ name_steady). intros x X. apply IH. right. left. exists l. split; assumption. }
  assert (Ei : exists n, intersection_string n t <> None).
  { unfold intersection_string. destruct (intersection (info t)) as [l|] eqn:U; [|exists 0; discriminate].
    apply (some_ends _ name_steady). intros x X. apply IH. right. right. exists l. split; assumption. }
  destruct Ec as [nc Nc], Eu as [nu Nu], Ei as [ni Ni]. exists (S (nc + nu + ni)). rewrite name_S.
  destruct (set (flags (info t)) [String_like]); [discriminate|].
  destruct (constraint (info t)) as [c|].
  { specialize (Nc c eq_refl). destruct (name_is_string info nc c) as [r|] eqn:F; [|destruct Nc; reflexivity].
    rewrite (name_steady nc (nc + nu + ni) ltac:(lia) _ _ F). discriminate. }
  assert (Nu' : union_string (nc + nu + ni) t <> None).
  { unfold union_string in *. destruct (union (info t)) as [l|]; [|discriminate].
    destruct (every_of (name_is_string info nu) l) as [r|] eqn:F; [|destruct Nu; reflexivity].
    rewrite (every_grows _ _ (name_steady nu (nc + nu + ni) ltac:(lia)) _ _ F). discriminate. }
  assert (Ni' : intersection_string (nc + nu + ni) t <> None).
  { unfold intersection_string in *. destruct (intersection (info t)) as [l|]; [|discriminate].
    destruct (some_of (name_is_string info ni) l) as [r|] eqn:F; [|destruct Ni; reflexivity].
    rewrite (some_grows _ _ (name_steady ni (nc + nu + ni) ltac:(lia)) _ _ F). discriminate. }
  destruct (union_string (nc + nu + ni) t) as [[]|]; [discriminate | | destruct Nu'; reflexivity].
  destruct (intersection_string (nc + nu + ni) t) as [[]|]; [discriminate | discriminate | destruct Ni'; reflexivity].
Qed.
Lemma is_array_spec : forall t, is_array info t = true <-> array info t.
Proof. intros t. unfold is_array, array. destruct (element (info t)); split; (discriminate || congruence). Qed.
Lemma all_arrays : forall t, forallb (is_array info) (union_parts info t) = true <-> forall p, union_part info t p -> array info p.
Proof.
  intros t. rewrite forallb_forall. split.
  - intros H p P. apply is_array_spec, H, union_parts_spec, P.
  - intros H p P. apply is_array_spec, H, union_parts_spec, P.
Qed.
Lemma set_negatable : forall t, set (flags (info t)) [Any; Never; Bigint_like; Number_like] = true <-> negatable info t.
Proof.
  intros t. rewrite set_spec. unfold negatable, one_of. split.
  - intros [f [L [<- | [<- | [<- | [<- | []]]]]]]; tauto.
  - intros [L | [L | [L | L]]]; eexists; (split; [exact L | cbn [In]; tauto]).
Qed.
End Types.

Lemma tree_ind' : forall P : tree -> Prop, (forall x, P (Leaf x)) -> (forall l, (forall t, In t l -> P t) -> P (Group l)) -> forall t, P t.
Proof.
  intros P L G. fix IH 1. intros [l | x]; [|apply L]. apply G.
  induction l as [|t l IHl]; intros u; [intros [] |]. intros [<- | U]; [apply IH | apply IHl, U].
Qed.
Lemma recurse_spec : forall p t, recurse p t = true <-> exists x, inside x t /\ p x = true.
Proof.
  intros p. apply (tree_ind' (fun t => recurse p t = true <-> exists x, inside x t /\ p x = true)).
  - intros x. cbn [recurse]. split; [intros E; exists x; split; [constructor | exact E] | intros [y [I0 E]]; inversion I0; subst; exact E].
  - intros l IH. cbn [recurse]. rewrite existsb_exists. split.
    + intros [t [T E]]. apply (IH t T) in E as [x [X E]]. exists x. split; [apply In_group with (t := t); assumption | exact E].
    + intros [x [X E]]. inversion X as [|l' t T I0]; subst. exists t. split; [exact T|]. apply (IH t T). exists x. split; assumption.
Qed.
