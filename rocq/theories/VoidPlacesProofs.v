From Coq Require Import Bool Arith Ascii String List Lia.
From Verif Require Import Base EngineProofs VoidArgs VoidArgsSpec VoidArgsProofs.
From Verif Require Import VoidPlaces VoidPlacesSpec.
Import ListNotations.

Lemma look_up_in : forall n t l, look_up n l = Some t -> In (n, t) l.
Proof.
  intros n t. induction l as [|[m u] l IH]; cbn [look_up]; [discriminate|]. destruct (beqb n m) eqn:E; intros H.
  - apply beqb_eq in E. subst m. injection H as <-. left. reflexivity.
  - right. auto.
Qed.
Lemma look_up_none : forall n l, look_up n l = None -> ~ exists t, In (n, t) l.
Proof.
  intros n. induction l as [|[m u] l IH]; cbn [look_up]; [intros _ [t []]|]. destruct (beqb n m) eqn:E; [discriminate|]. intros H [t [K|K]].
  - injection K as -> ->. rewrite beqb_refl in E. discriminate.
  - apply (IH H). eauto.
Qed.
Lemma look_up_of : forall n t l, NoDup (map fst l) -> In (n, t) l -> look_up n l = Some t.
Proof.
  intros n t. induction l as [|[m u] l IH]; cbn [map fst look_up]; intros D I; [destruct I|]. inversion D; subst. destruct I as [I|I].
  - injection I as -> ->. rewrite beqb_refl. reflexivity.
  - destruct (beqb n m) eqn:E; auto. apply beqb_eq in E. subst m. exfalso. match goal with H : ~ In n _ |- _ => apply H end. apply (in_map fst) in I. exact I.
Qed.
Lemma get_member_iff : forall h n e, NoDup (map fst (table h)) -> NoDup (map fst (properties h)) ->
  (get_member h n = Some e <-> In (n, e) (table h) \/ (~ (exists t, In (n, t) (table h)) /\ In (n, e) (properties h))).
Proof.
  intros h n e D1 D2. unfold get_member. destruct (look_up n (table h)) as [t|] eqn:E.
  - pose proof (look_up_in _ _ _ E) as I. split.
    + intros H. injection H as <-. left. exact I.
    + intros [H|[H _]]; [|exfalso; eauto]. rewrite (look_up_of _ _ _ D1 H) in E. congruence.
  - apply look_up_none in E. split.
    + intros H. right. split; auto. apply look_up_in. exact H.
    + intros [H|[_ H]]; [exfalso; eauto|]. apply look_up_of; auto.
Qed.

Lemma mismatch_iff : forall c v, mismatch c v = true <-> exists e, c = Some e /\ takes_void e /\ takes_promise v.
Proof.
  intros [e|] v; cbn [mismatch].
  - rewrite andb_true_iff, void_iff, thenable_iff. split; [intros [A B]; eauto|]. intros [x [E [A B]]]. injection E as <-. auto.
  - split; [discriminate|]. intros [x [E _]]. discriminate.
Qed.
Lemma in_if_message : forall (m m' : message) (c : bool), In m (if c then [m'] else []) <-> c = true /\ m = m'.
Proof. intros m m' [|]; cbn [In]; split; [intros [->|[]]; auto|intros [_ ->]; auto|intros []|intros [H _]; discriminate]. Qed.
Lemma negb_if : forall {A} (c : bool) (x y : A), (if negb c then x else y) = if c then y else x.
Proof. intros A [|]; reflexivity. Qed.

Lemma in_heritages : forall m i n hs j, In m (check_heritages i j hs n) <->
  exists k h t, nth_error hs k = Some h /\ get_member h n = Some t /\ void_returning t = true /\ m = MInherited i (j + k).
Proof.
  intros m i n. induction hs as [|h hs IH]; intros j; cbn [check_heritages].
  - split; [intros []|]. intros [k [h [t [N _]]]]. destruct k; discriminate.
  - rewrite in_app_iff, IH. split.
    + intros [H|[k [h' [t [N [G [V M]]]]]]].
      * unfold check_heritage in H. destruct (get_member h n) as [t|] eqn:G; [|destruct H]. rewrite negb_if in H. apply in_if_message in H. destruct H as [V ->].
        exists 0, h, t. rewrite Nat.add_0_r. auto.
      * exists (S k), h', t. rewrite Nat.add_succ_r. auto.
    + intros [k [h' [t [N [G [V M]]]]]]. destruct k as [|k]; cbn [nth_error] in N.
      * injection N as <-. left. unfold check_heritage. rewrite G, V. cbn [negb]. rewrite Nat.add_0_r in M. left. auto.
      * right. exists k, h', t. rewrite Nat.add_succ_r in M. auto.
Qed.
Lemma in_members : forall x hs ms i, In x (check_members i hs ms) <->
  exists k m, nth_error ms k = Some m /\ In x (check_member (i + k) hs m).
Proof.
  intros x hs. induction ms as [|m ms IH]; intros i; cbn [check_members].
  - split; [intros []|]. intros [k [m [N _]]]. destruct k; discriminate.
  - rewrite in_app_iff, IH. split.
    + intros [H|[k [m' [N H]]]]; [exists 0, m; rewrite Nat.add_0_r; auto|]. exists (S k), m'. rewrite Nat.add_succ_r. auto.
    + intros [k [m' [N H]]]. destruct k as [|k]; cbn [nth_error] in N; [injection N as <-; rewrite Nat.add_0_r in H; auto|]. right. exists k, m'. rewrite Nat.add_succ_r in H. auto.
Qed.
Lemma in_class : forall x hs ms, (forall h, In h hs -> NoDup (map fst (table h)) /\ NoDup (map fst (properties h))) ->
  (In x (check_class hs ms) <-> exists e v, expects (ClassLike hs ms) x e v /\ takes_void e /\ takes_promise v).
Proof.
  intros x hs ms D. assert (Q : In x (check_class hs ms) <-> In x (check_members 0 hs ms)).
  { destruct hs as [|h hs]; [|reflexivity]. cbn [check_class]. split; [intros []|]. rewrite in_members. intros [k [m [N H]]]. unfold check_member in H. destruct (name m); try destruct H.
    destruct (static m); [destruct H|]. destruct (negb _); [destruct H|]. destruct H. }
  rewrite Q, in_members. cbn [Nat.add]. split.
  - intros [i [m [N H]]]. unfold check_member in H. destruct (name m) as [|n|] eqn:M; try (destruct H; fail). destruct (static m) eqn:S0; [destruct H|]. destruct (returns_thenable (own m)) eqn:R; cbn [negb] in H; [|destruct H].
    apply in_heritages in H. destruct H as [j [h [t [NH [G [V ->]]]]]]. cbn [Nat.add]. exists t, (own m). split; [|split; [apply void_iff; exact V|apply thenable_iff; exact R]].
    destruct (D h (nth_error_In _ _ NH)) as [D1 D2]. apply (e_member hs ms i j m h n t); auto. apply get_member_iff; auto.
  - intros [e [v [X [V P]]]]. inversion X as [| | | | | | |hs0 ms0 i j m h n e0 N NH M S0 L]; subst. exists i, m. split; auto. unfold check_member. rewrite M, S0. apply thenable_iff in P. rewrite P. cbn [negb].
    apply in_heritages. exists j, h, e. cbn [Nat.add]. destruct (D h (nth_error_In _ _ NH)) as [D1 D2]. split; auto. split; [apply get_member_iff; auto|]. split; auto. apply void_iff. exact V.
Qed.

(** What the annotation rules out. *)
Definition ruled_out (p : place) : Prop := exists a, decides p a /\ possibly_function a = false.
Lemma function_node_iff : forall l f, function_node l = Some f <-> exists x y, l = x ++ f :: y /\ Forall (fun z => function_like z = false) x /\ function_like f = true.
Proof.
  induction l as [|g l IH]; intros f; cbn [function_node].
  - split; [discriminate|]. intros [[|z x] [y [E _]]]; discriminate.
  - destruct (function_like g) eqn:G.
    + split; [intros H; injection H as <-; exists [], l; repeat split; auto|]. intros [[|z x] [y [E [F L]]]]; cbn [app] in E; injection E as -> ->; auto. inversion F; subst. congruence.
    + rewrite IH. split.
      * intros [x [y [-> [F L]]]]. exists (g :: x), y. repeat split; auto.
      * intros [[|z x] [y [E [F L]]]]; cbn [app] in E; injection E as -> ->; [congruence|]. inversion F; subst. exists x, y. auto.
Qed.
Lemma in_return : forall m v c above, In m (check_return v c above) <->
  ~ ruled_out (Return v c above) /\ exists e w, expects (Return v c above) m e w /\ takes_void e /\ takes_promise w.
Proof.
  intros m v c above. unfold check_return. destruct v as [v|].
  2:{ split; [intros []|]. intros [_ [e [w [X _]]]]. inversion X. }
  set (g := match function_node above with Some f => _ | None => false end).
  assert (G : g = true <-> ruled_out (Return (Some v) c above)).
  { unfold g. split.
    - destruct (function_node above) as [f|] eqn:F; [|discriminate]. destruct (annotation f) as [a|] eqn:A; [|discriminate]. intros H. apply negb_true_iff in H. apply function_node_iff in F. destruct F as [x [y [-> [FF L]]]].
      exists a. split; auto. apply d_return; auto.
    - intros [a [Dc P]]. inversion Dc as [|v0 e0 l f r a0 FF L A]; subst. replace (function_node (l ++ f :: r)) with (Some f) by (symmetry; apply function_node_iff; eauto). rewrite A, P. reflexivity. }
  destruct g.
  - split; [intros []|]. intros [H _]. exfalso. apply H, G. reflexivity.
  - rewrite in_if_message, mismatch_iff. split.
    + intros [[e [-> [V P]]] ->]. split; [rewrite <- G; discriminate|]. exists e, v. split; [constructor|]. auto.
    + intros [_ [e [w [X [V P]]]]]. inversion X; subst. split; eauto.
Qed.
Lemma in_variable : forall m a v t, In m (check_variable a v t) <->
  ~ ruled_out (Declared a v t) /\ exists e w, expects (Declared a v t) m e w /\ takes_void e /\ takes_promise w.
Proof.
  intros m a v t. unfold check_variable. destruct v as [v|]; [destruct a as [a|]|].
  2,3: split; [intros []|]; intros [_ [e [w [X _]]]]; inversion X.
  rewrite !negb_if. destruct (possibly_function a) eqn:P.
  - assert (NR : ~ ruled_out (Declared (Some a) (Some v) t)) by (intros [x [Dc Q]]; inversion Dc; subst; congruence). destruct (void_returning t) eqn:V.
    + rewrite in_if_message, thenable_iff. split; [intros [T ->]; split; auto; exists t, v; split; [constructor|]; split; auto; apply void_iff; exact V|]. intros [_ [e [w [X [_ T]]]]]. inversion X; subst. auto.
    + split; [intros []|]. intros [_ [e [w [X [T _]]]]]. inversion X; subst. apply void_iff in T. congruence.
  - split; [intros []|]. intros [H _]. exfalso. apply H. exists a. split; [constructor|exact P].
Qed.
Lemma not_ruled : forall p, (forall a, ~ decides p a) -> ~ ruled_out p.
Proof. intros p H [a [Dc _]]. apply (H a Dc). Qed.
Lemma bare_possible : forall a, can_call a -> bare a -> possibly_function a = true.
Proof.
  intros a C B. destruct C; try reflexivity.
  - cbn [possibly_function]. apply existsb_exists. exists CallSig. auto.
  - exfalso. apply (B a). reflexivity.
Qed.

Lemma in_checked : forall o m p, tidy p -> (forall b0, p <> Spread b0) ->
  (In m (match p with
   | Attribute e c => with_option (Some o) o_attributes (check_attribute e c)
   | Assigned c t | Shorthand c t => with_option (Some o) o_properties (if mismatch c t then [MProperty] else [])
   | Method computed i t q => with_option (Some o) o_properties (check_method computed i t q)
   | Return e c above => with_option (Some o) o_returns (check_return e c above)
   | Assignment l r => with_option (Some o) o_variables (check_assignment l r)
   | Declared a i t => with_option (Some o) o_variables (check_variable a i t)
   | ClassLike hs ms => with_option (Some o) o_inherited (check_class hs ms)
   | Spread t => []
   | Unheard _ _ => []
   end) <-> option_of o p = true /\ ~ ruled_out p /\ exists e v, expects p m e v /\ takes_void e /\ takes_promise v).
Proof.
  intros o m p T NS. assert (W : forall f (l : list message), In m (with_option (Some o) f l) <-> f o = true /\ In m l).
  { intros f l. cbn [with_option]. destruct (f o); split; [auto|intros [_ H]; exact H|intros []|intros [H _]; discriminate]. }
  destruct p as [v c|c v|c v|cm io v q|v c above|l r|a v t|hs ms|pr|c v]; cbn [option_of]; rewrite ?W.
  - assert (R : ~ ruled_out (Attribute v c)) by (apply not_ruled; intros a Dc; inversion Dc). unfold check_attribute. destruct v as [v|].
    + rewrite in_if_message, mismatch_iff. split.
      * intros [O [[e [-> [V P]]] ->]]. repeat split; auto. exists e, v. split; [constructor|auto].
      * intros [O [_ [e [w [X [V P]]]]]]. inversion X; subst. split; auto. split; eauto.
    + split; [intros [_ []]|]. intros [_ [_ [e [w [X _]]]]]. inversion X.
  - assert (R : ~ ruled_out (Assigned c v)) by (apply not_ruled; intros a Dc; inversion Dc). rewrite in_if_message, mismatch_iff. split.
    + intros [O [[e [-> [V P]]] ->]]. repeat split; auto. exists e, v. split; [constructor|auto].
    + intros [O [_ [e [w [X [V P]]]]]]. inversion X; subst. split; auto. split; eauto.
  - assert (R : ~ ruled_out (Shorthand c v)) by (apply not_ruled; intros a Dc; inversion Dc). rewrite in_if_message, mismatch_iff. split.
    + intros [O [[e [-> [V P]]] ->]]. repeat split; auto. exists e, v. split; [constructor|auto].
    + intros [O [_ [e [w [X [V P]]]]]]. inversion X; subst. split; auto. split; eauto.
  - assert (R : ~ ruled_out (Method cm io v q)) by (apply not_ruled; intros a Dc; inversion Dc). unfold check_method. split.
    + intros [O H]. destruct cm; [destruct H|]. destruct io; cbn [negb] in H; [|destruct H]. destruct (returns_thenable v) eqn:RT; cbn [negb] in H; [|destruct H]. destruct q as [q|]; [|destruct H].
      apply in_if_message in H. destruct H as [V ->]. repeat split; auto. exists q, v. split; [constructor|]. split; [apply void_iff; exact V|apply thenable_iff; exact RT].
    + intros [O [_ [e [w [X [V P]]]]]]. inversion X; subst. split; auto. cbn [negb]. apply thenable_iff in P. rewrite P. cbn [negb]. apply void_iff in V. rewrite V. left. reflexivity.
  - rewrite in_return. tauto.
  - assert (R : ~ ruled_out (Assignment l r)) by (apply not_ruled; intros a Dc; inversion Dc). unfold check_assignment. rewrite negb_if. split.
    + intros [O H]. destruct (void_returning l) eqn:V; [|destruct H]. apply in_if_message in H. destruct H as [RT ->]. repeat split; auto. exists l, r. split; [constructor|]. split; [apply void_iff; exact V|apply thenable_iff; exact RT].
    + intros [O [_ [e [w [X [V P]]]]]]. inversion X; subst. split; auto. apply void_iff in V. rewrite V. apply thenable_iff in P. rewrite P. left. reflexivity.
  - rewrite in_variable. tauto.
  - assert (R : ~ ruled_out (ClassLike hs ms)) by (apply not_ruled; intros a Dc; inversion Dc). rewrite in_class by exact T. tauto.
  - exfalso. apply (NS pr). reflexivity.
  - split; [intros []|]. intros [H _]. discriminate.
Qed.
