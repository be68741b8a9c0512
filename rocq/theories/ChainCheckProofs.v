From Coq Require Import Bool Arith ZArith Ascii String List Lia.
From Verif Require Import Base Types Condition.
From Verif Require Import ChainCheck ChainCheckSpec.
Import ListNotations.
Open Scope Z_scope.

Lemma set_iff t l : is_set t l = true <-> has t l.
Proof.
  unfold is_set, has. rewrite existsb_exists. split; intros [f [I H]]; exists f; (split; [exact I|]).
  - apply existsb_exists in H as [g [G E]]. unfold flag_eqb in E. destruct (flag_eq_dec f g); [subst; exact G|discriminate].
  - apply existsb_exists. exists f. split; [exact H|]. unfold flag_eqb. destruct (flag_eq_dec f f); [reflexivity|contradiction].
Qed.
Lemma set_false t l : is_set t l = false <-> ~ has t l.
Proof. rewrite <- set_iff. destruct (is_set t l); split; intros; congruence. Qed.
Lemma union_iff t : is_union t = true <-> union t.
Proof. unfold is_union. rewrite set_iff. unfold has, union. split; [intros [f [I [<-|[]]]]; exact I|intros I; exists FUnion; split; [exact I|left; reflexivity]]. Qed.
Lemma union_false t : is_union t = false <-> ~ union t.
Proof. rewrite <- union_iff. destruct (is_union t); split; intros; congruence. Qed.
Lemma parts_iff t l : parts t l <-> l = union_parts t.
Proof.
  unfold parts, union_parts. destruct (is_union t) eqn:U; [apply union_iff in U|apply union_false in U]; split; auto; intros [[H E]|[H E]]; tauto.
Qed.

Fixpoint size (t : ty) : nat := let 'Ty _ _ _ _ l := t in S (list_sum (map size l)).
Lemma size_in p l : In p l -> (size p <= list_sum (map size l))%nat.
Proof. induction l as [|x l IH]; intros H; [destruct H|]. cbn [map list_sum fold_right]. unfold list_sum in *. destruct H as [->|H]; [lia|]. specialize (IH H). cbn [fold_right]. lia. Qed.
Lemma size_part p t : In p (t_parts t) -> (size p < size t)%nat.
Proof. destruct t as [i f x s l]. cbn [t_parts size]. intros H. apply size_in in H. lia. Qed.
Lemma ty_ind2 (P : ty -> Prop) : (forall t, (forall p, In p (t_parts t) -> P p) -> P t) -> forall t, P t.
Proof.
  intros H t. remember (size t) as n eqn:E. revert t E. induction n as [n IH] using lt_wf_ind. intros t ->. apply H. intros p I. apply (IH (size p)); [apply size_part; exact I|reflexivity].
Qed.

Lemma nullish_unfold t : is_nullish t = if is_union t then existsb is_nullish (t_parts t) else is_set t Nullish.
Proof.
  destruct t as [i f x s l]. cbn [is_nullish t_parts]. destruct (is_union (Ty i f x s l)); [|reflexivity]. induction l as [|y l IH]; [reflexivity|]. cbn [existsb]. rewrite IH. reflexivity.
Qed.
Lemma nullish_iff : forall t, is_nullish t = true <-> can_be_nullish t.
Proof.
  apply ty_ind2. intros t IH. rewrite nullish_unfold. destruct (is_union t) eqn:U.
  - apply union_iff in U. rewrite existsb_exists. split.
    + intros [p [I N]]. apply IH in N as [a [A F]]; [|exact I]. exists a. split; [|exact F]. eapply a_part; eassumption.
    + intros [a [A F]]. inversion A as [t' N|t' p a' U' I A']; subst; [contradiction|]. exists p. split; [exact I|]. apply IH; [exact I|]. exists a. auto.
  - apply union_false in U. rewrite set_iff. split.
    + intros F. exists t. split; [apply a_itself; exact U|exact F].
    + intros [a [A F]]. inversion A; subst; [exact F|contradiction].
Qed.
Lemma nullish_false t : is_nullish t = false <-> ~ can_be_nullish t.
Proof. rewrite <- nullish_iff. destruct (is_nullish t); split; intros; congruence. Qed.
Lemma nullish_dec t : can_be_nullish t \/ ~ can_be_nullish t.
Proof. destruct (is_nullish t) eqn:E; [left; apply nullish_iff; exact E|right; apply nullish_false; exact E]. Qed.

Lemma first_iff l p : hd_error (filter (fun p => negb (is_nullish p)) l) = Some p <-> exists before after, l = before ++ p :: after /\ Forall can_be_nullish before /\ ~ can_be_nullish p.
Proof.
  induction l as [|x l IH]; cbn [filter].
  - split; [discriminate|]. intros [[|y bf] [af [E _]]]; discriminate.
  - destruct (is_nullish x) eqn:N; cbn [negb hd_error].
    + rewrite IH. apply nullish_iff in N. split.
      * intros [bf [af [-> [F K]]]]. exists (x :: bf), af. repeat split; auto.
      * intros [[|y bf] [af [E [F K]]]]; injection E as <- E; [contradiction|]. inversion F; subst. eauto.
    + apply nullish_false in N. split.
      * intros E. injection E as <-. exists [], l. auto.
      * intros [[|y bf] [af [E [F K]]]]; injection E as <- E; [reflexivity|]. inversion F; subst. contradiction.
Qed.
Lemma remove_unfold t : remove_nullish t = hd_error (filter (fun p => negb (is_nullish p)) (union_parts t)).
Proof.
  unfold remove_nullish, union_parts. destruct (is_union t) eqn:U; cbn [negb]; [reflexivity|]. cbn [filter]. rewrite nullish_unfold, U. destruct (is_set t Nullish); reflexivity.
Qed.
Lemma kept_iff t p : remove_nullish t = Some p <-> kept t p.
Proof.
  rewrite remove_unfold, first_iff. unfold kept. split.
  - intros [bf [af [E H]]]. exists (union_parts t), bf, af. rewrite parts_iff. auto.
  - intros [l [bf [af [P [E H]]]]]. apply parts_iff in P. subst l. eauto.
Qed.
Lemma kept_none t : remove_nullish t = None <-> forall p, ~ kept t p.
Proof. split; [intros E p K; apply kept_iff in K; congruence|]. intros H. destruct (remove_nullish t) as [p|] eqn:E; [|reflexivity]. apply kept_iff in E. destruct (H p E). Qed.
Lemma kept_fun t p q : kept t p -> kept t q -> p = q.
Proof. rewrite <- !kept_iff. congruence. Qed.

Lemma peel_iff e x : peeled e x <-> skip e = x.
Proof.
  split.
  - induction 1 as [e H|e x H IH]; [|exact IH]. destruct e; try reflexivity. destruct (H e eq_refl).
  - revert x. induction e; intros z0 <-; try (apply pe_itself; discriminate). apply pe_paren. apply IHe. reflexivity.
Qed.
Lemma skip_peeled e : peeled e (skip e).
Proof. apply peel_iff. reflexivity. Qed.
Lemma skip_not_paren e x : skip e <> Paren x.
Proof. induction e; try discriminate. exact IHe. Qed.

Lemma open_iff t : always_necessary t = true <-> open_type t.
Proof.
  unfold always_necessary, open_type. rewrite existsb_exists. split.
  - intros [p [I H]]. exists (union_parts t), p. rewrite parts_iff. rewrite set_iff in H. auto.
  - intros [l [p [P [I H]]]]. apply parts_iff in P. subst l. exists p. rewrite set_iff. auto.
Qed.
Lemma vague_iff t : indeterminate t || (is_union t && existsb indeterminate (t_parts t)) = true <-> vague t.
Proof.
  unfold vague. rewrite orb_true_iff, andb_true_iff, existsb_exists, union_iff. unfold indeterminate. setoid_rewrite set_iff. split.
  - intros [H|[U [p [I H]]]]; [exists t|exists p]; auto.
  - intros [p [[->|[U I]] H]]; [left; exact H|right; split; [exact U|exists p; auto]].
Qed.

Lemma eq_text_iff x y : eq_text x y = true <-> x = y.
Proof.
  revert y. induction x as [|a x IH]; intros [|c y]; cbn [eq_text]; try (split; congruence). rewrite andb_true_iff, Z.eqb_eq, IH. split; [intros [-> ->]; reflexivity|intros E; injection E as -> ->; auto].
Qed.
Lemma eq_text_false x y : eq_text x y = false <-> x <> y.
Proof. rewrite <- eq_text_iff. destruct (eq_text x y); split; intros; congruence. Qed.

Section Checker.
Context (c : checker).

(** ** What is let off *)
Lemma digits_iff i : (exists n, peeled i (Digits n)) <-> match skip i with Digits _ => True | _ => False end.
Proof. split; [intros [n P]; apply peel_iff in P; rewrite P; exact I|]. intros H. destruct (skip i) eqn:E; try destruct H. eexists. apply peel_iff. exact E. Qed.
Lemma safe_iff y i : safe_tuple c y i = true <-> (exists n, peeled i (Digits n)) /\ exists t, resolved c y = Some t /\ tuple c t = true.
Proof.
  rewrite digits_iff. unfold safe_tuple. split.
  - intros H. destruct (skip i); try discriminate. destruct (resolved c y) as [t|]; [|discriminate]. split; [exact I|]. eauto.
  - intros [D [t [R T]]]. destruct (skip i); try destruct D. rewrite R. exact T.
Qed.
Lemma risky_elem y o i : risky c (Elem y o i) <-> negb o && negb (unchecked c) && negb (safe_tuple c y i) = true.
Proof.
  unfold risky. rewrite !andb_true_iff, !negb_true_iff. split.
  - intros [U [y' [i' [E N]]]]. injection E as <- -> <-. repeat split; auto. destruct (safe_tuple c y i) eqn:S; [|reflexivity]. apply safe_iff in S. contradiction.
  - intros [[-> U] S]. split; [exact U|]. exists y, i. split; [reflexivity|]. intros H. apply safe_iff in H. congruence.
Qed.
Lemma here_iff e : unsafe_here c e = true <-> exists x, peeled e x /\ risky c x.
Proof.
  unfold unsafe_here. split.
  - intros H. exists (skip e). split; [apply skip_peeled|]. destruct (skip e) eqn:E; try discriminate. apply risky_elem. rewrite (andb_comm (negb _) (negb (unchecked c))). exact H.
  - intros [x [P R]]. apply peel_iff in P. subst x. destruct (skip e) eqn:E; try (destruct R as [_ [? [? [? _]]]]; discriminate). apply risky_elem in R. rewrite (andb_comm (negb (unchecked c))). exact R.
Qed.
Lemma through_paren e z : through (Paren e) z <-> through e z.
Proof.
  split.
  - intros H. inversion H as [e' x P|e' x y o z' P L T]; subst; apply peel_iff in P; cbn [skip] in P.
    + apply th_here. apply peel_iff. exact P.
    + eapply th_link; [apply peel_iff; exact P|exact L|exact T].
  - intros H. inversion H as [e' x P|e' x y o z' P L T]; subst; [apply th_here; apply pe_paren; exact P|eapply th_link; [apply pe_paren; exact P|exact L|exact T]].
Qed.
Lemma through_link e y o z : link e y o -> (through e z <-> z = e \/ through y z).
Proof.
  intros L. assert (N : skip e = e) by (destruct L; reflexivity). split.
  - intros H. inversion H as [e' x P|e' x y' o' z' P L' T]; subst; apply peel_iff in P; rewrite N in P; [left; symmetry; exact P|]. subst x. right. destruct L; inversion L'; subst; exact T.
  - intros [->|H]; [apply th_here; apply peel_iff; exact N|]. eapply th_link; [apply peel_iff; exact N|exact L|exact H].
Qed.
Lemma through_end e z : skip e = e -> (forall y o, ~ link e y o) -> through e z -> z = e.
Proof.
  intros N L H. inversion H as [e' x P|e' x y' o' z' P L' T]; subst; apply peel_iff in P; rewrite N in P; [symmetry; exact P|]. subst x. destruct (L _ _ L').
Qed.
Lemma risky_is z : risky c z -> exists y i, z = Elem y false i.
Proof. intros [_ [y [i [E _]]]]. eauto. Qed.
Lemma below_iff e : unsafe_below c e = true <-> exists z, through e z /\ risky c z.
Proof.
  induction e; cbn [unsafe_below];
    try (split; [discriminate|intros [z [T R]]; apply through_end in T; [subst z; apply risky_is in R as [? [? ?]]; discriminate|reflexivity|intros y0 o0 L0; inversion L0]]).
  - rewrite IHe. split; intros [z [T R]]; exists z; (split; [apply through_paren; exact T|exact R]).
  - rewrite IHe. split; intros [z [T R]]; exists z; (split; [|exact R]).
    + apply (through_link _ _ _ z (li_prop e opt name)). right. exact T.
    + apply (through_link _ _ _ z (li_prop e opt name)) in T as [->|T]; [|exact T]. apply risky_is in R as [? [? ?]]; discriminate.
  - destruct (negb opt && negb (unchecked c) && negb (safe_tuple c e1 e2)) eqn:K.
    + split; [intros _|reflexivity]. exists (Elem e1 opt e2). split; [apply th_here; apply peel_iff; reflexivity|apply risky_elem; exact K].
    + rewrite IHe1. split; intros [z [T R]].
      * exists z. split; [|exact R]. apply (through_link _ _ _ z (li_elem e1 opt e2)). right. exact T.
      * apply (through_link _ _ _ z (li_elem e1 opt e2)) in T as [->|T]; [|eauto]. apply risky_elem in R. congruence.
  - rewrite IHe1. split; intros [z [T R]]; exists z; (split; [|exact R]).
    + apply (through_link _ _ _ z (li_call e1 opt e2)). right. exact T.
    + apply (through_link _ _ _ z (li_call e1 opt e2)) in T as [->|T]; [|exact T]. apply risky_is in R as [? [? ?]]; discriminate.
Qed.
Lemma uses_iff e : uses_optional e = true <-> exists x y, peeled e x /\ link x y true.
Proof.
  unfold uses_optional. split.
  - intros H. exists (skip e). pose proof (skip_peeled e) as P. destruct (skip e); try discriminate; subst; eexists; (split; [exact P|constructor]).
  - intros [x [y [P L]]]. apply peel_iff in P. rewrite P. inversion L; reflexivity.
Qed.
Lemma let_off_iff e : unsafe_here c e || (uses_optional e && unsafe_below c e) = true <-> let_off c e.
Proof. unfold let_off. rewrite orb_true_iff, andb_true_iff, here_iff, uses_iff, below_iff. reflexivity. Qed.

(** ** What is needed *)
Lemma key_unfold p k : nullable_property (property c) (fun t => map fst (indexes c t)) (key_name c) p k =
  if is_union k then existsb (nullable_property (property c) (fun t => map fst (indexes c t)) (key_name c) p) (t_parts k)
  else let named := existsb (eq_text (key_name c k)) (map fst (indexes c p)) in
    if is_set k [FStringLiteral; FNumberLiteral] then match property c p (t_text k) with Some t => is_nullish t | None => named end else named.
Proof.
  destruct k as [i f x s l]. cbn [nullable_property t_parts]. destruct (is_union (Ty i f x s l)); [|reflexivity]. induction l as [|y l IH]; [reflexivity|]. cbn [existsb]. rewrite IH. reflexivity.
Qed.
Lemma named_iff a p : existsb (eq_text (key_name c a)) (map fst (indexes c p)) = true <-> exists v, In (key_name c a, v) (indexes c p).
Proof.
  rewrite existsb_exists. split.
  - intros [x [I E]]. apply eq_text_iff in E. subst x. apply in_map_iff in I as [[k v] [E I]]. cbn [fst] in E. subst k. eauto.
  - intros [v I]. exists (key_name c a). split; [|apply eq_text_iff; reflexivity]. apply in_map_iff. exists (key_name c a, v). auto.
Qed.
Lemma key_iff p : forall k, nullable_property (property c) (fun t => map fst (indexes c t)) (key_name c) p k = true <-> nullish_key c p k.
Proof.
  apply (ty_ind2 (fun k => nullable_property (property c) (fun t => map fst (indexes c t)) (key_name c) p k = true <-> nullish_key c p k)). intros k IH. rewrite key_unfold. destruct (is_union k) eqn:U.
  - apply union_iff in U. rewrite existsb_exists. split.
    + intros [q [I H]]. apply IH in H as [a [A H]]; [|exact I]. exists a. split; [eapply a_part; eassumption|exact H].
    + intros [a [A H]]. inversion A as [t' N|t' q a' U' I A']; subst; [contradiction|]. exists q. split; [exact I|]. apply IH; [exact I|]. exists a. auto.
  - apply union_false in U. cbv zeta. assert (W : nullish_key c p k <-> (literal k /\ exists t, property c p (t_text k) = Some t /\ can_be_nullish t) \/ ((~ literal k \/ property c p (t_text k) = None) /\ exists v, In (key_name c k, v) (indexes c p))).
    { split; [intros [a [A H]]; inversion A; subst; [exact H|contradiction]|intros H; exists k; split; [apply a_itself; exact U|exact H]]. }
    rewrite W. clear W. destruct (is_set k [FStringLiteral; FNumberLiteral]) eqn:L.
    + apply set_iff in L. destruct (property c p (t_text k)) as [t|] eqn:T.
      * rewrite nullish_iff. split; [intros N; left; split; [exact L|eauto]|]. intros [[_ [t' [E N]]]|[[H|H] _]]; [injection E as <-; exact N|contradiction|discriminate].
      * rewrite named_iff. split; [intros H; right; auto|]. intros [[_ [t' [E N]]]|[_ H]]; [discriminate|exact H].
    + apply set_false in L. rewrite named_iff. split; [intros H; right; auto|]. intros [[H _]|[_ H]]; [contradiction|exact H].
Qed.
Lemma own_name_iff name p : own_name c name p = true <-> nullish_name c p name.
Proof.
  unfold own_name, nullish_name. destruct name as [|a name]; [split; [discriminate|intros [H _]; destruct (H eq_refl)]|].
  destruct (property c p (text (a :: name))) as [t|] eqn:T.
  - rewrite nullish_iff. split; [intros N; split; [discriminate|left; eauto]|]. intros [_ [[t' [E N]]|[E _]]]; [injection E as <-; exact N|discriminate].
  - rewrite existsb_exists. split.
    + intros [[k v] [I H]]. apply andb_true_iff in H as [K H]. cbn [fst snd] in K, H. apply eq_text_iff in K. subst k. split; [discriminate|]. right. split; [reflexivity|]. exists v. split; [exact I|]. apply orb_true_iff in H. rewrite nullish_iff in H. exact H.
    + intros [_ [[t' [E N]]|[_ [v [I H]]]]]; [discriminate|]. exists (text (b "string"), v). split; [exact I|]. apply andb_true_iff. split; [apply eq_text_iff; reflexivity|]. apply orb_true_iff. rewrite nullish_iff. exact H.
Qed.
Lemma origin_iff (x y : expr) o (own : ty -> bool) : link x y o -> (forall p, own p = true <-> own_nullish c x p) ->
  (match resolved c y with None => false | Some t => is_union t && negb (existsb own (t_parts t)) && is_nullish t end = true <-> inherited c x).
Proof.
  intros L W. unfold inherited. split.
  - destruct (resolved c y) as [t|] eqn:T; [|discriminate]. rewrite !andb_true_iff, negb_true_iff, union_iff, nullish_iff. intros [[U N] K]. exists y, o, t. repeat (split; [assumption|]). intros p I O. apply W in O. assert (X : existsb own (t_parts t) = true) by (apply existsb_exists; exists p; auto). congruence.
  - intros [y' [o' [t [L' [T [U [K N]]]]]]]. assert (y' = y) by (destruct L; inversion L'; reflexivity). subst y'. rewrite T, !andb_true_iff, negb_true_iff, union_iff, nullish_iff. repeat split; auto.
    destruct (existsb own (t_parts t)) eqn:X; [|reflexivity]. apply existsb_exists in X as [p [I O]]. apply W in O. destruct (N p I O).
Qed.
Lemma callee_iff f o a : callee_origin c f = true <-> inherited c (Call f o a).
Proof.
  apply (origin_iff _ _ _ (fun p => existsb is_nullish (returns c p)) (li_call f o a)). intros p. rewrite existsb_exists. split.
  - intros [r [I N]]. apply nullish_iff in N. eapply on_call; eassumption.
  - intros H. inversion H; subst. exists r. rewrite nullish_iff. auto.
Qed.
Lemma prop_iff y o name : object_origin c y (own_name c name) = true <-> inherited c (Prop_ y o name).
Proof.
  apply (origin_iff _ _ _ (fun p => negb (is_nullish p) && own_name c name p) (li_prop y o name)). intros p. rewrite andb_true_iff, negb_true_iff, nullish_false, own_name_iff. split.
  - intros [N H]. apply on_name; assumption.
  - intros H. inversion H; subst. auto.
Qed.
Lemma elem_iff y o i : object_origin c y (own_key c i) = true <-> inherited c (Elem y o i).
Proof.
  apply (origin_iff _ _ _ (fun p => negb (is_nullish p) && own_key c i p) (li_elem y o i)). intros p. rewrite andb_true_iff, negb_true_iff, nullish_false. unfold own_key. split.
  - intros [N H]. destruct (resolved c i) as [k|] eqn:K; [|discriminate]. eapply on_key; [exact N|exact K|apply key_iff; exact H].
  - intros H. inversion H as [ |? ? ? ? k N K H'|]; subst. rewrite K. split; [exact N|apply key_iff; exact H'].
Qed.
Lemma not_inherited x : (forall y o, ~ link x y o) -> ~ inherited c x.
Proof. intros H [y [o [t [L _]]]]. exact (H y o L). Qed.
Lemma negb_iff (x : bool) P : (x = true <-> P) -> (negb x = true <-> ~ P).
Proof. intros <-. destruct x; cbn; split; intros; congruence. Qed.
Lemma needed_iff e : optionable c e = true <-> needed c e.
Proof.
  unfold optionable, needed. cbv zeta. split.
  - intros H. exists (skip e). destruct (resolved c (skip e)) as [t|] eqn:T; [|discriminate]. exists t. split; [apply skip_peeled|]. split; [reflexivity|]. apply orb_true_iff in H as [H|H]; [left; apply open_iff; exact H|right]. apply andb_true_iff in H as [O N]. split; [apply nullish_iff; exact N|].
    destruct (skip e); try solve [apply not_inherited; intros y0 o0 L0; inversion L0]; revert O; apply negb_iff; [apply prop_iff|apply elem_iff|apply callee_iff].
  - intros [x [t [P [T H]]]]. apply peel_iff in P. subst x. rewrite T. apply orb_true_iff. destruct H as [H|[N H]]; [left; apply open_iff; exact H|right]. apply andb_true_iff. split; [|apply nullish_iff; exact N].
    destruct (skip e); try reflexivity; revert H; apply negb_iff; [apply prop_iff|apply elem_iff|apply callee_iff].
Qed.

(** ** What a call gives *)
Lemma optional_iff e : has_optional e = true <-> optional_in e.
Proof.
  assert (W : forall e y o, link e y o -> (optional_in e <-> o = true \/ optional_in y)).
  { intros x y o L. assert (N : skip x = x) by (destruct L; reflexivity). split.
    - intros H. inversion H as [x' z y' P L'|x' z y' o' P L' H']; subst; apply peel_iff in P; rewrite N in P; subst z; [left|right]; destruct L; inversion L'; subst; auto.
    - intros [->|H]; [eapply oi_here|eapply oi_below]; try (apply peel_iff; exact N); eassumption. }
  assert (N : forall e, skip e = e -> (forall y o, ~ link e y o) -> ~ optional_in e).
  { intros x S L H. inversion H as [x' z y' P L'|x' z y' o' P L' H']; subst; apply peel_iff in P; rewrite S in P; subst z; destruct (L _ _ L'). }
  induction e; cbn [has_optional]; try (split; [discriminate|intros H; exfalso; revert H; apply N; [reflexivity|intros y0 o0 L0; inversion L0]]).
  - rewrite IHe. split; intros H; inversion H as [x' z y' P L'|x' z y' o' P L' H']; subst.
    + eapply oi_here; [apply pe_paren; exact P|exact L'].
    + eapply oi_below; [apply pe_paren; exact P|exact L'|exact H'].
    + apply peel_iff in P. cbn [skip] in P. eapply oi_here; [apply peel_iff; exact P|exact L'].
    + apply peel_iff in P. cbn [skip] in P. eapply oi_below; [apply peel_iff; exact P|exact L'|exact H'].
  - rewrite (W _ _ _ (li_prop e opt name)), orb_true_iff, IHe. reflexivity.
  - rewrite (W _ _ _ (li_elem e1 opt e2)), orb_true_iff, IHe1. reflexivity.
  - rewrite (W _ _ _ (li_call e1 opt e2)), orb_true_iff, IHe1. reflexivity.
Qed.
Lemma plainly_some e f o t : (if negb o && negb (has_optional f) then resolved c e else None) = Some t <-> plainly_typed c e f o /\ resolved c e = Some t.
Proof.
  unfold plainly_typed. split.
  - destruct (negb o && negb (has_optional f)) eqn:B; [|discriminate]. apply andb_true_iff in B as [O H]. apply negb_true_iff in O, H. intros R. repeat split; auto; [|congruence]. intros X. apply optional_iff in X. congruence.
  - intros [[-> [N _]] R]. destruct (has_optional f) eqn:H; [apply optional_iff in H; contradiction|]. exact R.
Qed.
Lemma plainly_none e f o : (if negb o && negb (has_optional f) then resolved c e else None) = None <-> ~ plainly_typed c e f o.
Proof.
  destruct (if negb o && negb (has_optional f) then resolved c e else None) as [t|] eqn:E.
  - apply plainly_some in E as [P _]. split; [discriminate|contradiction].
  - split; [|reflexivity]. intros _ P. destruct (resolved c e) as [t|] eqn:R; [|destruct P as [_ [_ H]]; contradiction].
    assert (X : (if negb o && negb (has_optional f) then resolved c e else None) = Some t) by (apply plainly_some; auto). rewrite R in X. congruence.
Qed.
Lemma parts_nullish n : is_union n && existsb (fun p => match returns c p with t :: _ => is_nullish t | [] => false end) (t_parts n) = true <-> union n /\ exists p r l, In p (t_parts n) /\ returns c p = r :: l /\ can_be_nullish r.
Proof.
  rewrite andb_true_iff, union_iff, existsb_exists. split; (intros [U H]; split; [exact U|]).
  - destruct H as [p [I H]]. destruct (returns c p) as [|r l] eqn:R; [discriminate|]. exists p, r, l. rewrite nullish_iff in H. auto.
  - destruct H as [p [r [l [I [R H]]]]]. exists p. rewrite R, nullish_iff. auto.
Qed.
Lemma call_iff f o a t : call_return c (Call f o a) f o = Some t <-> call_type c (Call f o a) t.
Proof.
  unfold call_return. split.
  - destruct (if negb o && negb (has_optional f) then resolved c (Call f o a) else None) as [u|] eqn:E.
    + apply plainly_some in E as [P R]. intros X. injection X as <-. apply ct_plain; assumption.
    + apply plainly_none in E. destruct (signature_return c (Call f o a)) as [u|] eqn:S; [intros X; injection X as <-; apply ct_signature; assumption|].
      destruct (resolved c f) as [ft|] eqn:F; [|discriminate]. destruct (remove_nullish ft) as [n|] eqn:K; [|discriminate]. apply kept_iff in K.
      destruct (is_union n && existsb (fun p => match returns c p with t :: _ => is_nullish t | [] => false end) (t_parts n)) eqn:B.
      * apply parts_nullish in B as [U [p [r [l [I [R N]]]]]]. intros X. eapply ct_union; eassumption.
      * intros X. destruct (returns c n) as [|r l] eqn:R; [discriminate|]. injection X as ->. eapply ct_first; try eassumption. intros p q m U I Q N. assert (Y : is_union n && existsb (fun p => match returns c p with t :: _ => is_nullish t | [] => false end) (t_parts n) = true) by (apply parts_nullish; split; [exact U|exists p, q, m; auto]). congruence.
  - intros H. inversion H as [f' o' a' t' P R|f' o' a' t' P S|f' o' a' ft n p r l t' P S F K U I R N X|f' o' a' ft n t' l P S F K N R]; subst.
    + assert (X : (if negb o && negb (has_optional f) then resolved c (Call f o a) else None) = Some t) by (apply plainly_some; auto). rewrite X. reflexivity.
    + apply plainly_none in P. rewrite P, S. reflexivity.
    + apply plainly_none in P. rewrite P, S, F. apply kept_iff in K. rewrite K. assert (Y : is_union n && existsb (fun p => match returns c p with t :: _ => is_nullish t | [] => false end) (t_parts n) = true) by (apply parts_nullish; split; [exact U|exists p, r, l; auto]). rewrite Y. exact X.
    + apply plainly_none in P. rewrite P, S, F. apply kept_iff in K. rewrite K.
      destruct (is_union n && existsb (fun p => match returns c p with t :: _ => is_nullish t | [] => false end) (t_parts n)) eqn:B; [apply parts_nullish in B as [U [p [r [m [I [Q Z]]]]]]; destruct (N p r m U I Q Z)|]. rewrite R. reflexivity.
Qed.
Lemma call_none f o a : call_return c (Call f o a) f o = None <-> forall t, ~ call_type c (Call f o a) t.
Proof.
  split; [intros E t H; apply call_iff in H; congruence|]. intros H. destruct (call_return c (Call f o a) f o) as [t|] eqn:E; [|reflexivity]. apply call_iff in E. destruct (H t E).
Qed.

(** ** What reading a name gives *)
Definition declared_of (n : ty) (name : bstr) : option ty :=
  match property c n (text name) with Some t => Some t | None => match apparent c n with Some a => property c a (text name) | None => None end end.
Lemma declared_iff n name t : declared_of n name = Some t <-> declared c n name t.
Proof.
  unfold declared_of, declared. destruct (property c n (text name)) as [u|] eqn:P.
  - split; [intros E; left; exact E|intros [E|[E _]]; [exact E|discriminate]].
  - split.
    + intros E. right. split; [reflexivity|]. destruct (apparent c n) as [a|]; [exists a; auto|discriminate].
    + intros [E|[_ [a [A E]]]]; [discriminate|]. rewrite A. exact E.
Qed.
Lemma declared_none n name : declared_of n name = None <-> forall t, ~ declared c n name t.
Proof. split; [intros E t H; apply declared_iff in H; congruence|]. intros H. destruct (declared_of n name) as [t|] eqn:E; [|reflexivity]. apply declared_iff in E. destruct (H t E). Qed.
Definition indexed_of (n : ty) : option ty := match string_index c n with Some t => Some t | None => match apparent c n with Some a => string_index c a | None => None end end.
Lemma indexed_iff n t : indexed_of n = Some t <-> indexed c n t.
Proof.
  unfold indexed_of, indexed. destruct (string_index c n) as [u|] eqn:P.
  - split; [intros E; left; exact E|intros [E|[E _]]; [exact E|discriminate]].
  - split.
    + intros E. right. split; [reflexivity|]. destruct (apparent c n) as [a|]; [exists a; auto|discriminate].
    + intros [E|[_ [a [A E]]]]; [discriminate|]. rewrite A. exact E.
Qed.
Lemma indexed_none n : indexed_of n = None <-> forall t, ~ indexed c n t.
Proof. split; [intros E t H; apply indexed_iff in H; congruence|]. intros H. destruct (indexed_of n) as [t|] eqn:E; [|reflexivity]. apply indexed_iff in E. destruct (H t E). Qed.
Lemma find_first (l : list (list Z * bool * ty)) x q : find (fun p => eq_text (fst (fst p)) x) l = Some q <-> exists before after, l = before ++ q :: after /\ fst (fst q) = x /\ forall p, In p before -> fst (fst p) <> x.
Proof.
  induction l as [|y l IH]; cbn [find].
  - split; [discriminate|]. intros [[|z bf] [af [E _]]]; discriminate.
  - destruct (eq_text (fst (fst y)) x) eqn:T.
    + apply eq_text_iff in T. split.
      * intros E. injection E as <-. exists [], l. repeat split; auto.
      * intros [[|z bf] [af [E [F N]]]]; injection E as <- E; [reflexivity|]. destruct (N y (or_introl eq_refl) T).
    + apply eq_text_false in T. rewrite IH. split.
      * intros [bf [af [-> [F N]]]]. exists (y :: bf), af. repeat split; auto. intros p [<-|I]; [exact T|apply N; exact I].
      * intros [[|z bf] [af [E [F N]]]]; injection E as <- E; [contradiction|]. exists bf, af. repeat split; auto. intros p I. apply N. right. exact I.
Qed.
Lemma property_unfold base e name : property_from c base e name =
  match remove_nullish base with
  | None => None
  | Some n =>
      match name with
      | [] => raw c e
      | _ => match declared_of n name with
             | Some t => Some t
             | None => match indexed_of n with
                       | Some t => if unchecked c then None else Some t
                       | None => if mapped c n then match find (fun p => eq_text (fst (fst p)) (text name)) (mapped_properties c n) with Some (_, optional, t) => if optional then None else Some t | None => None end else raw c e
                       end
             end
      end
  end.
Proof.
  unfold property_from, declared_of, indexed_of. destruct (remove_nullish base) as [n|]; [|reflexivity]. destruct name as [|x name]; [reflexivity|]. destruct (property c n (text (x :: name))); reflexivity.
Qed.
Lemma name_iff base e name t : property_from c base e name = Some t <-> name_type c base e name t.
Proof.
  rewrite property_unfold. split.
  - destruct (remove_nullish base) as [n|] eqn:K; [|discriminate]. apply kept_iff in K. destruct name as [|x name]; [intros R; eapply nt_none; eassumption|]. destruct (declared_of n (x :: name)) as [u|] eqn:D.
    + intros E. injection E as ->. apply declared_iff in D. eapply nt_declared; [exact K|discriminate|exact D].
    + rewrite declared_none in D. destruct (indexed_of n) as [u|] eqn:X.
      * destruct (unchecked c) eqn:U; [discriminate|]. intros E. injection E as ->. apply indexed_iff in X. eapply nt_index; try eassumption. discriminate.
      * rewrite indexed_none in X. destruct (mapped c n) eqn:M; [|intros R; eapply nt_else; try eassumption; discriminate].
        destruct (find _ _) as [[[k o] u]|] eqn:F; [|discriminate]. destruct o; [discriminate|]. intros E. injection E as ->. apply find_first in F as [bf [af [L [N W]]]]. cbn [fst] in N. subst k. eapply nt_mapped; try eassumption. discriminate.
  - intros H. inversion H as [b0 n e0 t0 K R|b0 n e0 nm t0 K NE D|b0 n e0 nm t0 K NE D X U|b0 n e0 nm bf af t0 K NE D X M L W|b0 n e0 nm t0 K NE D X M R]; subst; apply kept_iff in K; rewrite K; [exact R| | | |];
      (destruct name as [|x name]; [contradiction|]).
    + apply declared_iff in D. rewrite D. reflexivity.
    + rewrite <- declared_none in D. rewrite D. apply indexed_iff in X. rewrite X, U. reflexivity.
    + rewrite <- declared_none in D. rewrite D. rewrite <- indexed_none in X. rewrite X, M.
      assert (F : find (fun p => eq_text (fst (fst p)) (text (x :: name))) (mapped_properties c n) = Some (text (x :: name), false, t)) by (apply find_first; exists bf, af; auto). rewrite F. reflexivity.
    + rewrite <- declared_none in D. rewrite D. rewrite <- indexed_none in X. rewrite X, M. exact R.
Qed.
Lemma name_none base e name : property_from c base e name = None <-> forall t, ~ name_type c base e name t.
Proof. split; [intros E t H; apply name_iff in H; congruence|]. intros H. destruct (property_from c base e name) as [t|] eqn:E; [|reflexivity]. apply name_iff in E. destruct (H t E). Qed.

(** ** Literal keys *)
Lemma keys_iff k keys : literal_keys k = Some keys /\ keys <> [] <-> keys_of k keys.
Proof.
  unfold literal_keys. destruct (is_set k [FStringLiteral]) eqn:S.
  - apply set_iff in S. split; [intros [E _]; injection E as <-; apply ko_one; exact S|]. intros H. inversion H; subst; [split; [reflexivity|discriminate]|contradiction].
  - apply set_false in S. destruct (is_union k && forallb (fun p => is_set p [FStringLiteral]) (t_parts k)) eqn:B.
    + apply andb_true_iff in B as [U F]. apply union_iff in U. rewrite forallb_forall in F. split.
      * intros [E N]. injection E as <-. apply ko_union; auto; [intros X; rewrite X in N; apply N; reflexivity|]. intros p I. apply set_iff. apply F. exact I.
      * intros H. inversion H as [k' X|k' N U' P A]; subst; [contradiction|]. split; [reflexivity|]. destruct (t_parts k); [contradiction|discriminate].
    + split; [intros [E _]; discriminate|]. intros H. inversion H as [k' X|k' N U' P A]; subst; [contradiction|]. apply andb_false_iff in B as [B|B]; [apply union_false in B; contradiction|].
      assert (F : forallb (fun p => is_set p [FStringLiteral]) (t_parts k) = true) by (apply forallb_forall; intros p I; apply set_iff; apply A; exact I). congruence.
Qed.
Lemma solid_iff n keys ts : solid_properties c n keys = Some ts <-> Forall2 (fun x t => property c n x = Some t /\ ~ can_be_nullish t) keys ts.
Proof.
  revert ts. induction keys as [|k keys IH]; intros ts; cbn [solid_properties].
  - split; [intros E; injection E as <-; constructor|intros H; inversion H; reflexivity].
  - destruct (property c n k) as [t|] eqn:P.
    + destruct (is_nullish t) eqn:N.
      * apply nullish_iff in N. split; [discriminate|]. intros H. inversion H as [|? t' ? ? [Q M]]; subst. rewrite P in Q. injection Q as <-. contradiction.
      * apply nullish_false in N. destruct (solid_properties c n keys) as [l|] eqn:E.
        -- split; [intros X; injection X as <-; constructor; [auto|apply IH; reflexivity]|]. intros H. inversion H as [|? t' ? l' [Q M] F]; subst. rewrite P in Q. injection Q as <-. apply IH in F. congruence.
        -- split; [discriminate|]. intros H. inversion H as [|? t' ? l' [Q M] F]; subst. apply IH in F. discriminate.
    + split; [discriminate|]. intros H. inversion H as [|? t' ? ? [Q M]]; subst. congruence.
Qed.
Definition keys_part (n : ty) (i : expr) : option (list ty) :=
  match (match raw c i with Some k => literal_keys k | None => None end) with
  | Some (k :: keys) => solid_properties c n (k :: keys)
  | _ => None
  end.
Lemma keys_part_iff n i ts : keys_part n i = Some ts <-> solid_keys c n i ts.
Proof.
  unfold keys_part, solid_keys. split.
  - destruct (raw c i) as [k|] eqn:R; [|discriminate]. destruct (literal_keys k) as [[|x keys]|] eqn:L; try discriminate. intros S. exists k, (x :: keys). split; [reflexivity|]. split; [apply keys_iff; split; [exact L|discriminate]|apply solid_iff; exact S].
  - intros [k [keys [R [K F]]]]. rewrite R. apply keys_iff in K as [L N]. rewrite L. destruct keys as [|x keys]; [contradiction|]. apply solid_iff. exact F.
Qed.
Lemma keys_part_cons n i ts : keys_part n i = Some ts -> ts <> [].
Proof.
  intros H. apply keys_part_iff in H as [k [keys [_ [K F]]]]. apply keys_iff in K as [_ N]. destruct F; [contradiction|discriminate].
Qed.

(** ** Names *)
Lemma short_is x : truncate x = short x.
Proof.
  unfold truncate, short. destruct (120 <? List.length x)%nat eqn:A; destruct (List.length x <=? 120)%nat eqn:B; try reflexivity; [apply Nat.ltb_lt in A; apply Nat.leb_le in B; lia|apply Nat.ltb_ge in A; apply Nat.leb_gt in B; lia].
Qed.
Lemma join_is l : join l = between (text (b " | ")) l.
Proof.
  destruct l as [|x l]; [reflexivity|]. unfold between. revert x. induction l as [|y l IH]; intros x.
  - cbn [join map concat]. rewrite app_nil_r. reflexivity.
  - change (join (x :: y :: l)) with (x ++ text (b " | ") ++ join (y :: l)). rewrite IH. cbn [map concat]. rewrite <- app_assoc. reflexivity.
Qed.
Lemma filter_comm (A : Type) (f g : A -> bool) l : filter f (filter g l) = filter g (filter f l).
Proof. induction l as [|x l IH]; [reflexivity|]. cbn [filter]. destruct (f x) eqn:F; destruct (g x) eqn:G; cbn [filter]; rewrite ?F, ?G, IH; reflexivity. Qed.
Lemma add_is l acc : fold_left add_name l acc = acc ++ filter (fun y => negb (existsb (eq_text y) acc)) (firsts l).
Proof.
  revert acc. induction l as [|x l IH]; intros acc; cbn [fold_left firsts filter]; [rewrite app_nil_r; reflexivity|]. rewrite IH. unfold add_name at 1 2. destruct (existsb (eq_text x) acc) eqn:X; cbn [negb].
  - clear IH. f_equal. induction (firsts l) as [|y m IHm]; [reflexivity|]. cbn [filter]. destruct (list_eq_dec Z.eq_dec y x) as [->|N].
    + rewrite X. cbn [negb]. exact IHm.
    + cbn [filter]. destruct (negb (existsb (eq_text y) acc)); [f_equal|]; exact IHm.
  - rewrite <- app_assoc. f_equal. cbn [app]. f_equal. clear IH. induction (firsts l) as [|y m IHm]; [reflexivity|]. cbn [filter]. rewrite existsb_app. cbn [existsb]. rewrite orb_false_r. destruct (list_eq_dec Z.eq_dec y x) as [->|N].
    + assert (E : eq_text x x = true) by (apply eq_text_iff; reflexivity). rewrite E, orb_true_r. cbn [negb]. exact IHm.
    + apply eq_text_false in N. rewrite N, orb_false_r. cbn [filter]. destruct (negb (existsb (eq_text y) acc)); [f_equal|]; exact IHm.
Qed.
Lemma names_is l : fold_left add_name l [] = firsts l.
Proof.
  rewrite add_is. cbn [app existsb negb]. induction (firsts l) as [|x m IH]; [reflexivity|]. cbn [filter]. f_equal. exact IH.
Qed.

(** ** The type before the question mark *)
Lemma base_iff y n : match resolved c y with Some t => remove_nullish t | None => None end = Some n <-> base_of c y n.
Proof.
  unfold base_of. split.
  - destruct (resolved c y) as [t|]; [|discriminate]. intros K. apply kept_iff in K. eauto.
  - intros [t [-> K]]. apply kept_iff. exact K.
Qed.
Lemma base_fun y n m : base_of c y n -> base_of c y m -> n = m.
Proof. rewrite <- !base_iff. congruence. Qed.
Lemma of_call_iff f o a u : match call_return c (Call f o a) f o with Some t => Some t | None => raw c (Call f o a) end = Some u <-> of_call c (Call f o a) u.
Proof.
  split.
  - destruct (call_return c (Call f o a) f o) as [t|] eqn:E; [intros X; injection X as <-; apply oc_type; apply call_iff; exact E|]. intros R. apply oc_raw; [apply call_none; exact E|exact R].
  - intros H. inversion H as [e t C|e t N R]; subst.
    + apply call_iff in C. rewrite C. reflexivity.
    + rewrite <- call_none in N. rewrite N. exact R.
Qed.
Lemma effective_elem y i : effective c (Elem y true i) =
  match (match resolved c y with Some t => remove_nullish t | None => None end) with
  | None => None
  | Some n => match keys_part n i with
              | Some (t :: l) => Some (t, truncate (join (fold_left add_name (map (written c) (t :: l)) [])))
              | _ => match raw c (Elem y true i) with Some t => Some (t, []) | None => None end
              end
  end.
Proof.
  unfold keys_part. cbn [effective]. destruct (match resolved c y with Some t => remove_nullish t | None => None end) as [n|]; [|reflexivity]. destruct (match raw c i with Some k => literal_keys k | None => None end) as [[|k keys]|]; reflexivity.
Qed.
Lemma some_pair (A B : Type) (x u : A) (y v : B) : Some (x, y) = Some (u, v) -> x = u /\ y = v.
Proof. intros E. injection E as -> ->. auto. Qed.
Lemma plain_iff (o : option ty) t (name : list Z) : match o with Some t => Some (t, []) | None => None end = Some (t, name) <-> name = [] /\ o = Some t.
Proof. destruct o as [u|]; split; [intros E; injection E as <- <-; auto|intros [-> E]; injection E as ->; reflexivity|discriminate|intros [_ E]; discriminate]. Qed.
Lemma called_iff f o a t : match call_return c (Call f o a) f o with Some t => Some t | None => resolved c (Call f o a) end = Some t <-> call_type c (Call f o a) t \/ (forall t, ~ call_type c (Call f o a) t) /\ resolved c (Call f o a) = Some t.
Proof.
  rewrite <- call_iff, <- call_none. destruct (call_return c (Call f o a) f o) as [u|]; split; auto; [intros [E|[E _]]; [exact E|discriminate]|intros [E|[_ E]]; [discriminate|exact E]].
Qed.
Lemma effect_other e t name : (forall y, ~ link e y true) -> (forall f o a y, e <> Call f o a /\ (link e y false -> y <> Call f o a)) -> (effect c e t name <-> name = [] /\ resolved c e = Some t).
Proof.
  intros H1 H2. split; [|intros [-> R]; apply ef_other; assumption].
  intros H. destruct H; try (match goal with H : forall y, ~ link (?k ?a true ?d) y true |- _ => exfalso; eapply (H a); constructor end); try (exfalso; match goal with H : forall f o a y, _ <> _ /\ _ |- _ => destruct (H f o a f) as [X Y] end; congruence); auto.
  - exfalso. destruct (H2 f o a (Call f o a)) as [_ Y]. apply Y; [constructor|reflexivity].
  - exfalso. destruct (H2 f o a (Call f o a)) as [_ Y]. apply Y; [constructor|reflexivity].
Qed.
Lemma effect_iff e t name : effective c e = Some (t, name) <-> effect c e t name.
Proof.
  assert (O : forall e, (forall y, ~ link e y true) -> (forall f o a y, e <> Call f o a /\ (link e y false -> y <> Call f o a)) -> effective c e = match resolved c e with Some t => Some (t, []) | None => None end -> (effective c e = Some (t, name) <-> effect c e t name)).
  { intros x H1 H2 E. rewrite E, plain_iff, effect_other; [reflexivity|exact H1|exact H2]. }
  assert (C : forall f o a, effect c (Call f o a) t name <-> name = [] /\ (o = true -> exists n, base_of c f n) /\ (call_type c (Call f o a) t \/ (forall t, ~ call_type c (Call f o a) t) /\ resolved c (Call f o a) = Some t)).
  { intros f o a. split.
    - intros H. inversion H as [| | | | |f' o' a' t' B K|f' o' a' t' B K R| | |e' t' H1 H2 R]; subst; auto. exfalso. destruct (H2 f o a f) as [X _]. congruence.
    - intros [-> [B [K|[K R]]]]; [apply ef_call|apply ef_call_else]; assumption. }
  destruct e; try (apply O; [intros y0 L0; inversion L0|intros f0 o0 a0 y0; split; [discriminate|intros L0; inversion L0]|reflexivity]).
  - destruct opt.
    + cbn [effective]. split.
      * destruct (match resolved c e with Some t => remove_nullish t | None => None end) as [n|] eqn:B; [|discriminate]. apply base_iff in B. rewrite plain_iff. intros [-> E].
        destruct (property_from c n (Prop_ e true name0) name0) as [u|] eqn:P.
        -- injection E as ->. apply name_iff in P. eapply ef_name; eassumption.
        -- rewrite name_none in P. destruct (raw c (Prop_ e true name0)) as [u|] eqn:R; [|discriminate]. destruct (negb (unchecked c) && mapped c n && negb (mapped_optional c n)) eqn:M.
           ++ rewrite !andb_true_iff, !negb_true_iff in M. destruct M as [[U M] N]. apply kept_iff in E. eapply ef_mapped; eassumption.
           ++ injection E as ->. eapply ef_raw; try eassumption. rewrite !andb_false_iff, !negb_false_iff in M. tauto.
      * intros H. inversion H as [y nm n u B P|y nm n v u B P R U M N K|y nm n u B P R M| | | | | | |e' t' H1 H2 R]; subst.
        -- apply base_iff in B. rewrite B. apply name_iff in P. rewrite P. reflexivity.
        -- apply base_iff in B. rewrite B. rewrite <- name_none in P. rewrite P, R, U, M, N. apply kept_iff in K. cbn [negb andb]. rewrite K. reflexivity.
        -- apply base_iff in B. rewrite B. rewrite <- name_none in P. rewrite P, R. assert (X : negb (unchecked c) && mapped c n && negb (mapped_optional c n) = false) by (rewrite !andb_false_iff, !negb_false_iff; tauto). rewrite X. reflexivity.
        -- destruct (H1 e (li_prop e true name0)).
    + assert (K : (exists f o a, e = Call f o a) \/ forall f o a, e <> Call f o a) by (destruct e; try (right; discriminate); left; eauto). destruct K as [[f [o [a ->]]]|N].
      * cbn [effective]. rewrite plain_iff. unfold call_property. split.
        -- intros [-> E]. destruct (match call_return c (Call f o a) f o with Some t => Some t | None => raw c (Call f o a) end) as [u|] eqn:F; [|discriminate]. apply of_call_iff in F. destruct (remove_nullish u) as [n|] eqn:K; [|discriminate]. apply kept_iff in K. apply name_iff in E. eapply ef_result_name; eassumption.
        -- intros H. inversion H as [| | | | | | |f' o' a' nm u n t' F K P| |e' t' H1 H2 R]; subst.
           ++ split; [reflexivity|]. apply of_call_iff in F. rewrite F. apply kept_iff in K. rewrite K. apply name_iff. exact P.
           ++ exfalso. destruct (H2 f o a (Call f o a)) as [_ Y]. apply Y; [constructor|reflexivity].
      * apply O; [intros y0 L0; inversion L0|intros f0 o0 a0 y0; split; [discriminate|intros L0; inversion L0; subst; apply N]|]. destruct e; try reflexivity. destruct (N e1 opt e2 eq_refl).
  - destruct opt.
    + rewrite effective_elem. split.
      * destruct (match resolved c e1 with Some t => remove_nullish t | None => None end) as [n|] eqn:B; [|discriminate]. apply base_iff in B. destruct (keys_part n e2) as [[|u l]|] eqn:K.
        -- destruct (keys_part_cons n e2 [] K eq_refl).
        -- rewrite short_is, join_is, names_is. intros E. apply some_pair in E as [-> <-]. apply keys_part_iff in K. eapply ef_keys; eassumption.
        -- rewrite plain_iff. intros [-> R]. eapply ef_element; [exact B| |exact R]. intros ts S. apply keys_part_iff in S. congruence.
      * intros H. inversion H as [| | |y i n u ts B S|y i n u B S R| | | | |e' t' H1 H2 R]; subst.
        -- apply base_iff in B. rewrite B. apply keys_part_iff in S. rewrite S, short_is, join_is, names_is. reflexivity.
        -- apply base_iff in B. rewrite B. destruct (keys_part n e2) as [ts|] eqn:K; [apply keys_part_iff in K; destruct (S ts K)|]. rewrite R. reflexivity.
        -- destruct (H1 e1 (li_elem e1 true e2)).
    + assert (K : (exists f o a, e1 = Call f o a) \/ forall f o a, e1 <> Call f o a) by (destruct e1; try (right; discriminate); left; eauto). destruct K as [[f [o [a ->]]]|N].
      * cbn [effective]. rewrite plain_iff. unfold call_property. split.
        -- intros [-> E]. destruct (match call_return c (Call f o a) f o with Some t => Some t | None => raw c (Call f o a) end) as [u|] eqn:F; [|discriminate]. apply of_call_iff in F. destruct (remove_nullish u) as [n|] eqn:K; [|discriminate]. apply kept_iff in K. eapply ef_result_element; eassumption.
        -- intros H. inversion H as [| | | | | | | |f' o' a' i u n t' F K R|e' t' H1 H2 R]; subst.
           ++ split; [reflexivity|]. apply of_call_iff in F. rewrite F. apply kept_iff in K. rewrite K. exact R.
           ++ exfalso. destruct (H2 f o a (Call f o a)) as [_ Y]. apply Y; [constructor|reflexivity].
      * apply O; [intros y0 L0; inversion L0|intros f0 o0 a0 y0; split; [discriminate|intros L0; inversion L0; subst; apply N]|]. destruct e1; try reflexivity. destruct (N e1_1 opt e1_2 eq_refl).
  - rewrite C, <- called_iff. destruct opt; cbn [effective].
    + split.
      * destruct (match resolved c e1 with Some t => remove_nullish t | None => None end) as [n|] eqn:B; [|discriminate]. apply base_iff in B. rewrite plain_iff. intros [-> E]. repeat split; auto. intros _. exists n. exact B.
      * intros [-> [B E]]. destruct (B eq_refl) as [n B']. apply base_iff in B'. rewrite B'. apply plain_iff. auto.
    + rewrite plain_iff. split; [intros [-> E]; repeat split; auto; discriminate|tauto].
Qed.
Lemma effect_none e : effective c e = None -> forall t name, ~ effect c e t name.
Proof. intros E t name H. apply effect_iff in H. congruence. Qed.

Lemma inherited_call_dec f o a : inherited c (Call f o a) \/ ~ inherited c (Call f o a).
Proof. rewrite <- callee_iff. destruct (callee_origin c f); [left; reflexivity|right; discriminate]. Qed.
Lemma settled_iff e t u : without_callee c e t = Some u <-> settled c e t u.
Proof.
  unfold without_callee, settled.
  assert (N : (forall f o a, e <> Call f o a) -> (Some t = Some u <-> ((exists f o a, e = Call f o a) /\ inherited c e /\ kept t u) \/ (~ ((exists f o a, e = Call f o a) /\ inherited c e) /\ u = t))).
  { intros N. split; [intros E; injection E as ->; right; split; [|reflexivity]; intros [[f [o [a E]]] _]; exact (N f o a E)|]. intros [[[f [o [a E]]] _]|[_ ->]]; [destruct (N f o a E)|reflexivity]. }
  destruct e; try (apply N; discriminate). clear N. destruct (callee_origin c e1) eqn:K.
  - assert (J : inherited c (Call e1 opt e2)) by (apply callee_iff; exact K). rewrite kept_iff. split; [intros X; left; repeat split; eauto|]. intros [[_ [_ X]]|[X _]]; [exact X|exfalso; apply X; split; eauto].
  - assert (J : ~ inherited c (Call e1 opt e2)) by (intros X; apply callee_iff in X; congruence). split; [intros E; injection E as ->; right; split; [|reflexivity]; intros [_ X]; contradiction|]. intros [[_ [X _]]|[_ ->]]; [contradiction|reflexivity].
Qed.
Lemma gives_iff e : returns_nullish c e = true <-> gives_nullish c e.
Proof.
  unfold returns_nullish, gives_nullish. split.
  - intros H. destruct e; try discriminate. destruct (resolved c e1) as [t|] eqn:T; [|discriminate]. apply existsb_exists in H as [p [I H]]. apply andb_true_iff in H as [N H]. apply negb_true_iff in N. apply set_false in N. destruct (returns c p) as [|r rs] eqn:R; [discriminate|]. apply nullish_iff in H.
    exists e1, opt, e2, t, (union_parts t), p, r, rs. rewrite parts_iff. auto 10.
  - intros [f [o [a [t [l [p [r [rs [-> [T [P [I [N [R K]]]]]]]]]]]]]]. rewrite T. apply parts_iff in P. subst l. apply existsb_exists. exists p. split; [exact I|]. rewrite R. apply andb_true_iff. split; [apply negb_true_iff; apply set_false; exact N|apply nullish_iff; exact K].
Qed.
Lemma word_iff e : self_explanatory e = true <-> exists x, peeled e x /\ literal_word x.
Proof.
  unfold self_explanatory, literal_word. split.
  - intros H. exists (skip e). split; [apply skip_peeled|]. destruct (skip e); try discriminate; eauto 10.
  - intros [x [P H]]. apply peel_iff in P. rewrite P. destruct H as [->|[->|[->|[s [->|[->| ->]]]]]]; reflexivity.
Qed.
Lemma called_name e t name n : (match name with [] => name_for_node (written c) t e | _ => name end) = n <-> called c e t name n.
Proof.
  unfold called, name_for_node. rewrite short_is. destruct name as [|z name].
  - split.
    + intros <-. right. split; [reflexivity|]. destruct (self_explanatory e) eqn:W.
      * apply word_iff in W as [x [P W]]. exists x. auto.
      * exists (skip e). split; [apply skip_peeled|]. right. split; [|reflexivity]. intros X. assert (Y : self_explanatory e = true) by (apply word_iff; exists (skip e); split; [apply skip_peeled|exact X]). congruence.
    + intros [[X _]|[_ [x [P [[W ->]|[W ->]]]]]]; [contradiction| |].
      * assert (Y : self_explanatory e = true) by (apply word_iff; eauto). rewrite Y. reflexivity.
      * destruct (self_explanatory e) eqn:Y; [|reflexivity]. apply word_iff in Y as [x' [P' W']]. apply peel_iff in P, P'. subst. contradiction.
  - split; [intros <-; left; split; [discriminate|reflexivity]|]. intros [[_ ->]|[X _]]; [reflexivity|discriminate].
Qed.
Lemma check_iff node r : In r (check_chain c node) <-> reported c node r.
Proof.
  assert (W : forall e, In r (check_before c node e) <-> exists t name u n, ~ let_off c e /\ ~ needed c e /\ effect c e t name /\ settled c e t u /\ ~ gives_nullish c e /\ ~ vague u /\ ~ can_be_nullish u /\
    called c e u name n /\ at_ r = node /\ id r = b "neverOptionalChain" /\ message r = b "Unnecessary optional chain on a non-nullish value." /\ labelled e n (label r)).
  { intros e. unfold check_before. split.
    - destruct (unsafe_here c e) eqn:A; [intros []|]. destruct (uses_optional e && unsafe_below c e) eqn:B; [intros []|]. destruct (optionable c e) eqn:O; [intros []|]. destruct (effective c e) as [[t name]|] eqn:E; [|intros []]. destruct (without_callee c e t) as [u|] eqn:S; [|intros []].
      destruct (returns_nullish c e) eqn:G; [intros []|]. destruct (indeterminate u) eqn:V1; [intros []|]. destruct (is_union u && existsb indeterminate (t_parts u)) eqn:V2; [intros []|]. destruct (is_nullish u) eqn:N; [intros []|]. cbn [negb]. intros [<-|[]].
      exists t, name, u. eexists. split; [intros X; apply let_off_iff in X; rewrite A, B in X; discriminate|]. split; [intros X; apply needed_iff in X; congruence|]. split; [apply effect_iff; exact E|]. split; [apply settled_iff; exact S|]. split; [intros X; apply gives_iff in X; congruence|].
      split; [intros X; apply vague_iff in X; rewrite V1, V2 in X; discriminate|]. split; [apply nullish_false; exact N|]. split; [apply called_name; reflexivity|]. unfold never_chain. cbn [at_ id message label]. repeat (split; [reflexivity|]). unfold labelled. destruct (match name with [] => name_for_node (written c) u e | _ => name end); [left; auto|right; split; [discriminate|reflexivity]].
    - intros [t [name [u [n [L [D [E [S [G [V [N [K [A1 [A2 [A3 A4]]]]]]]]]]]]]]].
      destruct (unsafe_here c e) eqn:A; [exfalso; apply L; apply let_off_iff; rewrite A; reflexivity|]. destruct (uses_optional e && unsafe_below c e) eqn:B; [exfalso; apply L; apply let_off_iff; rewrite B, orb_true_r; reflexivity|].
      destruct (optionable c e) eqn:O; [apply needed_iff in O; contradiction|]. apply effect_iff in E. rewrite E. apply settled_iff in S. rewrite S. destruct (returns_nullish c e) eqn:H; [apply gives_iff in H; contradiction|].
      destruct (indeterminate u) eqn:V1; [exfalso; apply V; apply vague_iff; rewrite V1; reflexivity|]. destruct (is_union u && existsb indeterminate (t_parts u)) eqn:V2; [exfalso; apply V; apply vague_iff; rewrite V2, orb_true_r; reflexivity|].
      apply nullish_false in N. rewrite N. left. apply called_name in K. unfold never_chain. rewrite K. destruct r as [r1 r2 r3 r4]. cbn [at_ id message label] in *. subst r1 r2 r3. f_equal. destruct A4 as [[-> ->]|[Q ->]]; [reflexivity|]. destruct n; [contradiction|reflexivity]. }
  unfold reported. split.
  - intros H. assert (X : exists e, link node e true /\ In r (check_before c node e)).
    { destruct node; try destruct H; destruct opt; try destruct H; eexists; (split; [constructor|exact H]). }
    destruct X as [e [L X]]. apply W in X as [t [name [u [n X]]]]. exists e, t, name, u, n. split; [exact L|exact X].
  - intros [e [t [name [u [n [L X]]]]]]. assert (Y : In r (check_before c node e)) by (apply W; exists t, name, u, n; exact X). inversion L; subst; exact Y.
Qed.
Lemma at_most_one node : (List.length (check_chain c node) <= 1)%nat.
Proof.
  assert (W : forall e, (List.length (check_before c node e) <= 1)%nat).
  { intros e. unfold check_before. destruct (unsafe_here c e); [auto|]. destruct (uses_optional e && unsafe_below c e); [auto|]. destruct (optionable c e); [auto|]. destruct (effective c e) as [[t name]|]; [|auto]. destruct (without_callee c e t) as [u|]; [|auto]. destruct (returns_nullish c e); [auto|]. destruct (indeterminate u); [auto|]. destruct (is_union u && existsb indeterminate (t_parts u)); [auto|]. destruct (negb (is_nullish u)); auto. }
  unfold check_chain. destruct node; auto; destruct opt; auto.
Qed.
End Checker.
