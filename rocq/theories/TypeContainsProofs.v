From Coq Require Import Bool Arith Ascii String List Lia.
From Verif Require Import Base EngineProofs.
From Verif Require Import TypeContains TypeContainsSpec.
Import ListNotations.

Lemma mem_in x l : mem x l = true <-> In x l.
Proof. unfold mem. rewrite existsb_exists. split; [intros (y & I & E); apply Nat.eqb_eq in E; congruence|]. intros I. exists x. split; auto. apply Nat.eqb_refl. Qed.
Lemma mem_out x l : mem x l = false <-> ~ In x l.
Proof. rewrite <- mem_in. destruct (mem x l); split; congruence. Qed.
Lemma origin_identity : forall g, origin g (identity g).
Proof. fix IH 1. intros [n [g|] l r]; cbn; [apply g_target, IH|constructor]. Qed.
Lemma origin_unique g k : origin g k -> k = identity g.
Proof. induction 1; auto. Qed.
Lemma types_of_in g v : In v (types_of g) <-> of_signature g v.
Proof.
  destruct g as [n target l r]. cbn. rewrite in_app_iff. split.
  - intros [I|[<-|[]]]; [apply s_param; auto|apply s_returned].
  - intros H. inversion H; subst; cbn; auto.
Qed.

Section Proofs.
Context (info : nat -> type_info) (predicate : nat -> bool).
Notation contains := (contains info predicate).
Notation plain := (plain info).
Notation within := (within info).

Lemma arguments_in t u : In u (type_arguments info t) <-> argument info t u.
Proof.
  unfold type_arguments. split.
  - destruct (alias_arguments (info t)) as [[|a l]|] eqn:A.
    + destruct (reference (info t)) eqn:R; [|intros []]. intros I. apply a_reference; auto.
    + intros I. eapply a_alias; eauto.
    + destruct (reference (info t)) eqn:R; [|intros []]. intros I. apply a_reference; auto.
  - intros [l A I|A R I].
    + rewrite A. destruct l; [destruct I|auto].
    + destruct A as [-> | ->]; rewrite R; auto.
Qed.
Definition kids (t : nat) : list nat :=
  let other := filter (fun u => negb (Nat.eqb u t)) in other (union_parts (info t)) ++ other (intersection_parts (info t)) ++ type_arguments info t.
Lemma kids_plain t u : In u (kids t) -> plain t u.
Proof.
  unfold kids. rewrite !in_app_iff, !filter_In. intros [[I _]|[[I _]|I]]; [apply p_union|apply p_intersection|apply p_argument, arguments_in]; auto.
Qed.
Lemma plain_kids t u : plain t u -> u = t \/ In u (kids t).
Proof.
  intros P. destruct (Nat.eq_dec u t) as [->|N]; auto. right. unfold kids. rewrite !in_app_iff, !filter_In.
  assert (E : negb (Nat.eqb u t) = true) by (apply negb_true_iff, Nat.eqb_neq; auto).
  destruct P as [I|I|A]; auto. apply arguments_in in A. auto.
Qed.
Lemma contains_unfold n t s : contains (S n) t s =
  if mem t (seen s) then Some (false, s)
  else if predicate t then Some (true, {| seen := t :: seen s; active := active s |})
  else match any_of (contains n) (kids t) {| seen := t :: seen s; active := active s |} with
       | Some (false, s) => any_signature (contains n) (signatures (info t)) s
       | r => r
       end.
Proof. reflexivity. Qed.

Definition good (S : list nat) (u : nat) : Prop :=
  predicate u = false /\ (forall v, plain u v -> In v S) /\ (forall g v, In g (signatures (info u)) -> of_signature g v -> In v S).
Lemma good_mono S S' u : incl S S' -> good S u -> good S' u.
Proof. intros I (P & A & B). repeat split; auto. intros g v G V. apply I. eapply B; eauto. Qed.
Definition inv (s s' : state) (l : list nat) : Prop :=
  incl (seen s) (seen s') /\ incl l (seen s') /\ active s' = active s /\ forall u, In u (seen s') -> In u (seen s) \/ good (seen s') u.
Lemma inv_trans s1 s2 s3 l m : inv s1 s2 l -> inv s2 s3 m -> inv s1 s3 (l ++ m).
Proof.
  intros (A1 & B1 & C1 & D1) (A2 & B2 & C2 & D2). repeat split.
  - eapply incl_tran; eauto.
  - apply incl_app; auto. eapply incl_tran; eauto.
  - congruence.
  - intros u U. destruct (D2 u U) as [H|H]; auto. destruct (D1 u H) as [K|K]; auto. right. apply (good_mono (seen s2)); auto.
Qed.
Lemma inv_self s : inv s s [].
Proof. repeat split; auto; try (intros u []); apply incl_refl. Qed.
Definition keeps (f : nat -> state -> option (bool * state)) : Prop := forall t s s', f t s = Some (false, s') -> inv s s' [t].
Lemma any_inv f l : keeps f -> forall s s', any_of f l s = Some (false, s') -> inv s s' l.
Proof.
  intros F. induction l as [|t l IH]; cbn; intros s s'.
  - intros [= <-]. apply inv_self.
  - destruct (f t s) as [[[] s1]|] eqn:E; try discriminate. intros H. apply (inv_trans s s1 s' [t] l); auto.
Qed.
Lemma remove_absent k l : ~ In k l -> filter (fun x => negb (Nat.eqb x k)) (k :: l) = l.
Proof.
  intros N. cbn. rewrite Nat.eqb_refl. cbn. induction l as [|x l IH]; cbn; auto.
  destruct (Nat.eqb_spec x k); [subst; cbn in N; tauto|]. cbn. f_equal. apply IH. cbn in N. tauto.
Qed.
Lemma sig_inv f l : keeps f -> forall s s', any_signature f l s = Some (false, s') -> inv s s' (flat_map types_of l).
Proof.
  intros F. induction l as [|g l IH]; cbn; intros s s'.
  - intros [= <-]. apply inv_self.
  - destruct (mem (identity g) (active s)) eqn:M; [discriminate|]. apply mem_out in M.
    destruct (any_of f (types_of g) _) as [[[] s1]|] eqn:E; try discriminate. apply (any_inv f _ F) in E. destruct E as (A & B & C & D). cbn in A, C, D. rewrite C.
    rewrite remove_absent by auto. intros H. apply IH in H. eapply inv_trans; [|exact H]. repeat split; cbn; auto.
Qed.
Lemma contains_inv n : keeps (contains n).
Proof.
  induction n as [|n IH]; intros t s s'; [discriminate|]. rewrite contains_unfold. destruct (mem t (seen s)) eqn:M.
  - intros [= <-]. apply mem_in in M. repeat split; auto; try apply incl_refl. intros u [<-|[]]. auto.
  - destruct (predicate t) eqn:P; [discriminate|]. destruct (any_of _ _ _) as [[[] s1]|] eqn:E; try discriminate. intros H.
    apply (any_inv _ _ IH) in E. apply (sig_inv _ _ IH) in H. pose proof (inv_trans _ _ _ _ _ E H) as (A & B & C & D). cbn in A, C, D.
    assert (T : In t (seen s')) by (apply A; left; auto).
    repeat split; auto.
    + intros u U. apply A. right. auto.
    + intros u [<-|[]]. auto.
    + intros u U. destruct (D u U) as [[<-|K]|K]; auto. right. repeat split; auto.
      * intros v V. apply plain_kids in V as [->|V]; auto. apply B, in_or_app. auto.
      * intros g v G V. apply B, in_or_app. right. apply in_flat_map. exists g. split; auto. apply types_of_in. auto.
Qed.
Lemma contains_false n t s' : contains n t {| seen := []; active := [] |} = Some (false, s') -> forall u, within t u -> predicate u = false.
Proof.
  intros E. apply contains_inv in E as (_ & T & _ & D). cbn in D.
  assert (W : forall r u, within r u -> r = t -> In u (seen s')).
  { induction 1 as [r|r u v _ IH P|r u g v _ IH G V]; intros ->.
    - apply T. left. auto.
    - specialize (IH eq_refl). destruct (D u IH) as [[]|(_ & K & _)]. auto.
    - specialize (IH eq_refl). destruct (D u IH) as [[]|(_ & _ & K)]. eauto. }
  intros u U. destruct (D u (W t u U eq_refl)) as [[]|(K & _)]. auto.
Qed.

Section True.
Context (root : nat).
Definition goal := (exists u, within root u /\ predicate u = true) \/ nested info root.
(* each signature that is being looked at has the type within *)
Definition tracked (s : state) (t : nat) := within root t /\ forall k, In k (active s) -> exists u g v, within root u /\ In g (signatures (info u)) /\ origin g k /\ of_signature g v /\ within v t.
Lemma any_true n l : (forall t s s', tracked s t -> contains n t s = Some (true, s') -> goal) ->
  forall s s', (forall t, In t l -> tracked s t) -> any_of (contains n) l s = Some (true, s') -> goal.
Proof.
  intros F. induction l as [|t l IH]; cbn; intros s s' H; [discriminate|]. destruct (contains n t s) as [[[] s1]|] eqn:E; try discriminate.
  - intros _. eapply F; eauto.
  - intros K. apply (IH s1 s'); auto. intros u U. apply contains_inv in E as (_ & _ & C & _). destruct (H u (or_intror U)) as [W A]. split; auto. rewrite C. auto.
Qed.
Lemma sig_true n u l : (forall t s s', tracked s t -> contains n t s = Some (true, s') -> goal) ->
  (forall g, In g l -> In g (signatures (info u))) ->
  forall s s', tracked s u -> any_signature (contains n) l s = Some (true, s') -> goal.
Proof.
  intros F. induction l as [|g l IH]; cbn; intros L s s' [W A]; [discriminate|]. pose proof (L g (or_introl eq_refl)) as G. destruct (mem (identity g) (active s)) eqn:M.
  - intros _. apply mem_in in M. destruct (A _ M) as (x & h & v & X & H & O & V & R). right. exists x, h, v, u, g, (identity g). repeat split; auto. apply origin_identity.
  - destruct (any_of _ _ _) as [[[] s1]|] eqn:E; try discriminate.
    + intros _. eapply any_true; [apply F| |exact E]. intros t T. apply types_of_in in T. split.
      * eapply w_signature; eauto.
      * cbn. intros k [<-|K].
        -- exists u, g, t. repeat split; auto; [apply origin_identity|constructor].
        -- destruct (A k K) as (x & h & v & X & H & O & V & R). exists x, h, v. repeat split; auto. eapply w_signature; eauto.
    + apply (any_inv _ _ (contains_inv n)) in E as (_ & _ & C & _). cbn in C. apply mem_out in M. rewrite C, remove_absent by auto.
      intros K. eapply IH; [intros h H; apply L; right; auto| |exact K]. split; auto.
Qed.
Lemma contains_true n : forall t s s', tracked s t -> contains n t s = Some (true, s') -> goal.
Proof.
  induction n as [|n IH]; intros t s s' T; [discriminate|]. rewrite contains_unfold. destruct (mem t (seen s)); [discriminate|].
  destruct (predicate t) eqn:P; [intros _; left; exists t; split; auto; apply T|].
  destruct T as [W A]. destruct (any_of _ _ _) as [[[] s1]|] eqn:E; try discriminate; intros H.
  - eapply any_true; [exact IH| |exact E]. intros u U. apply kids_plain in U. split; [eapply w_plain; eauto|]. cbn. intros k K. destruct (A k K) as (x & h & v & X & HH & O & V & R). exists x, h, v. repeat split; auto. eapply w_plain; eauto.
  - apply (any_inv _ _ (contains_inv n)) in E as (_ & _ & C & _). cbn in C. apply (sig_true n t (signatures (info t)) IH (fun g G => G) s1 s'); auto. split; auto. rewrite C. auto.
Qed.
End True.

(* the end *)
Lemma any_mono (f g : nat -> state -> option (bool * state)) l : (forall t s r, f t s = Some r -> g t s = Some r) -> forall s r, any_of f l s = Some r -> any_of g l s = Some r.
Proof. intros M. induction l as [|t l IH]; cbn; intros s r; auto. destruct (f t s) as [[[] s1]|] eqn:E; try discriminate; rewrite (M _ _ _ E); auto. Qed.
Lemma sig_mono (f g : nat -> state -> option (bool * state)) l : (forall t s r, f t s = Some r -> g t s = Some r) -> forall s r, any_signature f l s = Some r -> any_signature g l s = Some r.
Proof.
  intros M. induction l as [|h l IH]; cbn; intros s r; auto. destruct (mem (identity h) (active s)); auto.
  destruct (any_of f _ _) as [[[] s1]|] eqn:E; try discriminate; rewrite (any_mono f g _ M _ _ E); auto.
Qed.
Lemma contains_mono n : forall m t s r, n <= m -> contains n t s = Some r -> contains m t s = Some r.
Proof.
  induction n as [|n IH]; intros [|m] t s r L; try discriminate; [lia|]. rewrite !contains_unfold. destruct (mem t (seen s)); auto. destruct (predicate t); auto.
  assert (M : forall t s r, contains n t s = Some r -> contains m t s = Some r) by (intros; apply IH; auto; lia).
  destruct (any_of (contains n) _ _) as [[[] s1]|] eqn:E; try discriminate; rewrite (any_mono _ _ _ M _ _ E); auto. apply sig_mono. auto.
Qed.
(* the lists, if each of their calls ends *)
Lemma any_ends l : forall s,
  (forall s', incl (seen s) (seen s') -> active s' = active s -> forall t, In t l -> exists n r, contains n t s' = Some r) -> exists n r, any_of (contains n) l s = Some r.
Proof.
  induction l as [|t l IH]; intros s H; [exists 0, (false, s); auto|].
  destruct (H s (incl_refl _) eq_refl t (or_introl eq_refl)) as (n & [[] s1] & E).
  - exists n, (true, s1). cbn. rewrite E. auto.
  - pose proof (contains_inv n t s s1 E) as (A & _ & C & _). destruct (IH s1) as (m & r & M).
    + intros s' I K u U. apply H; auto; [eapply incl_tran; eauto|congruence|right; auto].
    + exists (Nat.max n m), r. cbn. rewrite (contains_mono n (Nat.max n m) t s _ (Nat.le_max_l _ _) E). eapply any_mono; [|exact M]. intros u s' r'. apply contains_mono, Nat.le_max_r.
Qed.
Lemma sig_ends l : forall s,
  (forall g s', In g l -> incl (seen s) (seen s') -> active s' = identity g :: active s -> ~ In (identity g) (active s) -> forall t, In t (types_of g) -> exists n r, contains n t s' = Some r) ->
  exists n r, any_signature (contains n) l s = Some r.
Proof.
  induction l as [|g l IH]; intros s H; [exists 0, (false, s); auto|]. cbn. destruct (mem (identity g) (active s)) eqn:M; [exists 0, (true, s); auto|]. apply mem_out in M.
  destruct (any_ends (types_of g) {| seen := seen s; active := identity g :: active s |}) as (n & [[] s1] & E).
  - cbn. intros s' I A t T. apply (H g s'); auto. left. auto.
  - exists n, (true, s1). rewrite E. auto.
  - pose proof (any_inv _ _ (contains_inv n) _ _ E) as (A & _ & C & _). cbn in A, C.
    destruct (IH {| seen := seen s1; active := active s |}) as (m & r & R).
    + cbn. intros h s' I J K N t T. apply (H h s'); auto; [right; auto|eapply incl_tran; eauto].
    + exists (Nat.max n m), r. rewrite (any_mono _ (contains (Nat.max n m)) _ (fun t s r => contains_mono n _ t s r (Nat.le_max_l _ _)) _ _ E), C, remove_absent by auto.
      eapply sig_mono; [|exact R]. intros u s' r'. apply contains_mono, Nat.le_max_r.
Qed.
Definition missing (all l : list nat) : nat := List.length (filter (fun x => negb (mem x l)) all).
Lemma missing_mono all l m : incl l m -> missing all m <= missing all l.
Proof.
  intros I. unfold missing. induction all as [|x all IH]; cbn; auto. destruct (mem x l) eqn:A; cbn.
  - apply mem_in in A. apply I, mem_in in A. rewrite A. cbn. auto.
  - destruct (mem x m); cbn; lia.
Qed.
Lemma missing_less all l m x : incl l m -> In x all -> ~ In x l -> In x m -> missing all m < missing all l.
Proof.
  intros I X N M. induction all as [|y all IH]; [destruct X|]. pose proof (missing_mono all l m I) as Le. unfold missing in *. cbn. destruct X as [->|X].
  - apply mem_out in N. apply mem_in in M. rewrite N, M. cbn. lia.
  - specialize (IH X). destruct (mem y l) eqn:A; cbn.
    + apply mem_in in A. apply I, mem_in in A. rewrite A. cbn. auto.
    + destruct (mem y m); cbn; lia.
Qed.
Lemma contains_ends (ids : list nat) :
  (forall t g k, In g (signatures (info t)) -> origin g k -> In k ids) ->
  (forall t, exists L, In t L /\ forall u v, In u L -> plain u v -> In v L) ->
  forall t s, exists n r, contains n t s = Some r.
Proof.
  intros Ids Fin. enough (E : forall k t s, missing ids (active s) < k -> exists n r, contains n t s = Some r) by (intros t s; apply (E (S (missing ids (active s)))); lia).
  induction k as [|k IHk]; intros t0 s0; [lia|]. destruct (Fin t0) as (L & T0 & Closed). revert T0. revert t0.
  enough (E : forall j t s, In t L -> missing L (seen s) < j -> missing ids (active s) < S k -> exists n r, contains n t s = Some r) by (intros t T; apply (E (S (missing L (seen s0)))); auto; lia).
  induction j as [|j IHj]; intros t s T J K; [lia|].
  destruct (mem t (seen s)) eqn:M; [exists 1, (false, s); rewrite contains_unfold, M; auto|]. apply mem_out in M.
  destruct (predicate t) eqn:P; [exists 1, (true, {| seen := t :: seen s; active := active s |}); rewrite contains_unfold; apply mem_out in M; rewrite M, P; auto|].
  set (s1 := {| seen := t :: seen s; active := active s |}).
  destruct (any_ends (kids t) s1) as (n & [[] s2] & E).
  - intros s' I A u U. apply IHj.
    + apply kids_plain in U. eapply Closed; eauto.
    + assert (Less : missing L (t :: seen s) < missing L (seen s)) by (apply (missing_less L _ _ t); auto; [intros x; right; auto|left; auto]).
      pose proof (missing_mono L _ _ I). cbn in *. lia.
    + rewrite A. auto.
  - exists (S n), (true, s2). rewrite contains_unfold. apply mem_out in M. rewrite M, P. fold s1. rewrite E. auto.
  - pose proof (any_inv _ _ (contains_inv n) _ _ E) as (A & _ & C & _). cbn in C.
    destruct (sig_ends (signatures (info t)) s2) as (m & r & R).
    + intros g s' G I B N u U. apply IHk. rewrite B, C.
      assert (Less : missing ids (identity g :: active s) < missing ids (active s)) by (apply (missing_less ids _ _ (identity g)); [intros x; right; auto|eapply Ids; eauto; apply origin_identity|rewrite <- C; auto|left; auto]). lia.
    + exists (S (Nat.max n m)), r. rewrite contains_unfold. apply mem_out in M. rewrite M, P. fold s1.
      rewrite (any_mono _ (contains (Nat.max n m)) _ (fun t s r => contains_mono n _ t s r (Nat.le_max_l _ _)) _ _ E). eapply sig_mono; [|exact R]. intros u s' r'. apply contains_mono, Nat.le_max_r.
Qed.

Lemma same_list_eq l : forall m, same_list l m = true <-> l = m.
Proof.
  induction l as [|x l IH]; intros [|y m]; cbn; try (split; congruence). rewrite andb_true_iff, Nat.eqb_eq, IH. split; [intros [-> ->]; auto|]. intros [= -> ->]. auto.
Qed.
Context (undefined : nat -> bool).
Lemma set_spec l : forall acc, NoDup acc -> let r := fold_left (fun acc x => if negb (undefined x) then add x acc else acc) l acc in
  NoDup r /\ forall x, In x r <-> In x acc \/ (In x l /\ undefined x = false).
Proof.
  induction l as [|y l IH]; intros acc D; cbn; [split; auto; tauto|].
  destruct (undefined y) eqn:U; cbn.
  - destruct (IH acc D) as [A B]. split; auto. intros x. rewrite B. split; [tauto|]. intros [H|[[<-|H] V]]; auto; congruence.
  - unfold add. destruct (mem y acc) eqn:M.
    + apply mem_in in M. destruct (IH acc D) as [A B]. split; auto. intros x. rewrite B. split; [tauto|]. intros [H|[[<-|H] V]]; auto.
    + apply mem_out in M. destruct (IH (y :: acc)) as [A B]; [constructor; auto|]. split; auto. intros x. rewrite B. cbn. split; [intros [[<-|H]|H]; tauto|]. tauto.
Qed.
Lemma count_spec set l : forall k, match count_cast undefined set l k with
  | None => exists x, In x l /\ undefined x = false /\ ~ In x set
  | Some r => (forall x, In x l -> undefined x = false -> In x set) /\ r = k + List.length (filter (fun x => negb (undefined x)) l) end.
Proof.
  induction l as [|x l IH]; intros k; cbn; [split; [intros ? []|lia]|]. destruct (undefined x) eqn:U.
  - specialize (IH k). destruct (count_cast undefined set l k).
    + destruct IH as [A ->]. split; [|cbn; lia]. intros y [<-|Y] V; auto; congruence.
    + destruct IH as (y & Y & V & N). exists y. auto.
  - destruct (mem x set) eqn:M.
    + apply mem_in in M. specialize (IH (S k)). destruct (count_cast undefined set l (S k)).
      * destruct IH as [A ->]. split; [|cbn; lia]. intros y [<-|Y] V; auto.
      * destruct IH as (y & Y & V & N). exists y. auto.
    + apply mem_out in M. exists x. auto.
Qed.
Lemma same_parts_exact uncast cast : NoDup (union_parts (info cast)) ->
  (same_parts info undefined uncast cast = true <-> forall x, undefined x = false -> (In x (union_parts (info uncast)) <-> In x (union_parts (info cast)))).
Proof.
  intros D. unfold same_parts, uncast_set. destruct (set_spec (union_parts (info uncast)) [] (NoDup_nil _)) as [N S]. cbn zeta in *. set (set := fold_left _ _ _) in *.
  pose proof (count_spec set (union_parts (info cast)) 0) as C. assert (DF : NoDup (filter (fun x => negb (undefined x)) (union_parts (info cast)))) by (apply NoDup_filter; auto).
  destruct (count_cast undefined set (union_parts (info cast)) 0) as [r|].
  - destruct C as [A ->]. cbn. rewrite Nat.eqb_eq. split.
    + intros L x U. split; intros I.
      * assert (J : In x (filter (fun x => negb (undefined x)) (union_parts (info cast)))).
        { apply (NoDup_length_incl DF (l' := set)); [lia| |apply S; auto]. intros y Y. apply filter_In in Y as [Y V]. apply A; auto. apply negb_true_iff; auto. }
        apply filter_In in J. tauto.
      * specialize (A x I U). apply S in A as [[]|[K _]]. auto.
    + intros H. apply Nat.le_antisymm; apply NoDup_incl_length; auto; intros y Y.
      * apply S in Y as [[]|[Y V]]. apply filter_In. split; [apply H; auto|]. rewrite V. auto.
      * apply filter_In in Y as [Y V]. apply A; auto. apply negb_true_iff; auto.
  - split; [discriminate|]. intros H. destruct C as (x & X & U & M). destruct M. apply S. right. split; auto. apply H; auto.
Qed.
End Proofs.

Lemma by_name_in l name p : by_name l name = Some p -> In p l /\ pname p = name.
Proof.
  induction l as [|q l IH]; cbn; [discriminate|]. destruct (by_name l name) as [r|].
  - intros [= ->]. destruct (IH eq_refl). auto.
  - destruct (beqb (pname q) name) eqn:E; [|discriminate]. intros [= ->]. apply beqb_eq in E. auto.
Qed.
Lemma by_name_some l p : In p l -> exists q, by_name l (pname p) = Some q.
Proof.
  induction l as [|q l IH]; cbn; [intros []|]. intros [->|I].
  - destruct (by_name l (pname p)); eauto. rewrite beqb_refl. eauto.
  - destruct (IH I) as [r ->]. eauto.
Qed.
Lemma same_name l p q : NoDup (map pname l) -> In p l -> In q l -> pname p = pname q -> p = q.
Proof.
  induction l as [|x l IH]; cbn; [intros _ []|]. intros D. inversion D as [|? ? N D']; subst. intros [->|P] [->|Q] E; auto.
  - destruct N. rewrite E. apply in_map. auto.
  - destruct N. rewrite <- E. apply in_map. auto.
Qed.
Lemma same_properties_exact l m : NoDup (map pname l) -> NoDup (map pname m) -> (same_properties l m = true <-> forall p, In p l <-> In p m).
Proof.
  intros DL DM. unfold same_properties. rewrite andb_true_iff, Nat.eqb_eq, forallb_forall.
  assert (NL : NoDup l) by (eapply NoDup_map_inv; eauto). assert (NM : NoDup m) by (eapply NoDup_map_inv; eauto).
  split.
  - intros [L F]. assert (I : incl l m).
    { intros p P. specialize (F p P). destruct (by_name m (pname p)) as [q|] eqn:B; [|discriminate]. apply by_name_in in B as [Q E]. apply Bool.eqb_prop in F.
      replace p with q; auto. destruct p, q. cbn in *. congruence. }
    intros p. split; auto. apply (NoDup_length_incl NL); auto. lia.
  - intros H. split.
    + apply Nat.le_antisymm; apply NoDup_incl_length; auto; intros p P; apply H; auto.
    + intros p P. apply H in P. destruct (by_name_some m p P) as [q B]. rewrite B. apply by_name_in in B as [Q E]. rewrite (same_name m p q); auto. destruct (readonly q); auto.
Qed.
