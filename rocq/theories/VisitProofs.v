(** Proofs about the lint traversal. *)
From Coq Require Import Bool List ZArith Lia.
From Verif Require Import Visit VisitSpec.
Import ListNotations.
Open Scope Z_scope.

(** ** Induction over trees *)

Lemma node_children_ind : forall P : node -> Prop,
  (forall n, (forall c, In c (children n) -> P c) -> P n) -> forall n, P n.
Proof.
  intros P H.
  fix IH 1. intro n. apply H.
  assert (forall l : list node, (fix all (l : list node) : Prop :=
            match l with [] => True | x :: l' => P x /\ all l' end) l ->
          forall c, In c l -> P c) as A.
  { induction l as [|x l IHl]; cbn; intros Hl c Hc; [destruct Hc|].
    destruct Hc as [<-|Hc]; [apply Hl|apply IHl; [apply Hl|exact Hc]]. }
  destruct n as [i k cs|i es|i ps|i a e|i h e|i l o r]; cbn.
  - apply A. induction cs as [|x cs IHl]; [exact I|split; [apply IH|exact IHl]].
  - apply A. induction es as [|x es IHl]; [exact I|split; [apply IH|exact IHl]].
  - apply A. induction ps as [|x ps IHl]; [exact I|split; [apply IH|exact IHl]].
  - intros c [<-|[]]. apply IH.
  - intros c Hc. apply in_app_or in Hc. destruct Hc as [Hc|[<-|[]]]; [|apply IH].
    revert c Hc. apply A. induction h as [|x h IHl]; [exact I|split; [apply IH|exact IHl]].
  - intros c [<-|[<-|[<-|[]]]]; apply IH.
Qed.

Lemma ids_eq : forall n, ids n = id_of n :: flat_map ids (children n).
Proof.
  destruct n; cbn; rewrite ?app_nil_r; auto.
  rewrite flat_map_app. cbn. rewrite app_nil_r. reflexivity.
Qed.

Lemma sub_ids : forall n m, sub n m -> In (id_of m) (ids n).
Proof.
  induction 1; rewrite ids_eq.
  - left; auto.
  - right. apply in_flat_map. eauto.
Qed.

Lemma below_ids : forall n x z, sub n x -> In z (children x) ->
  In (id_of z) (flat_map ids (children n)).
Proof.
  intros n x z H Hz. induction H.
  - apply in_flat_map. exists z. split; auto. rewrite ids_eq. left; auto.
  - apply in_flat_map. exists c. split; auto. rewrite ids_eq. right. auto.
Qed.

Lemma NoDup_app_inv : forall (A : Type) (l1 l2 : list A), NoDup (l1 ++ l2) ->
  NoDup l1 /\ NoDup l2 /\ (forall x, In x l1 -> In x l2 -> False).
Proof.
  induction l1 as [|a l1 IH]; cbn; intros l2 H.
  - repeat split; auto. constructor.
  - inversion H; subst. destruct (IH _ H3) as (A1 & A2 & A3). repeat split; auto.
    + constructor; auto. intro. apply H2. apply in_or_app; auto.
    + intros x [->|Hx] Hy; [apply H2; apply in_or_app; auto|eauto].
Qed.

Lemma flat_map_owner : forall (A B : Type) (f : A -> list B) l c c' x,
  NoDup (flat_map f l) -> In c l -> In c' l -> In x (f c) -> In x (f c') -> c = c'.
Proof.
  induction l as [|a l IH]; cbn; intros c c' x N Hc Hc' Hx Hx'; [destruct Hc|].
  apply NoDup_app_inv in N. destruct N as (N1 & N2 & N3).
  destruct Hc as [->|Hc], Hc' as [->|Hc']; auto.
  - exfalso. apply (N3 x); auto. apply in_flat_map. eauto.
  - exfalso. apply (N3 x); auto. apply in_flat_map. eauto.
  - eapply IH; eauto.
Qed.

Lemma flat_map_NoDup_in : forall (A B : Type) (f : A -> list B) l c,
  NoDup (flat_map f l) -> In c l -> NoDup (f c).
Proof.
  induction l as [|a l IH]; cbn; intros c N Hc; [destruct Hc|].
  apply NoDup_app_inv in N. destruct N as (N1 & N2 & N3).
  destruct Hc as [->|Hc]; auto.
Qed.

Lemma id_inj : forall n, NoDup (ids n) -> forall m m', sub n m -> sub n m' ->
  id_of m = id_of m' -> m = m'.
Proof.
  induction n as [n IH] using node_children_ind. intros N m m' H H' E.
  rewrite ids_eq in N. inversion N; subst.
  inversion H; subst; inversion H'; subst; auto.
  - exfalso. apply H2. rewrite E. apply in_flat_map. exists c. split; auto. apply sub_ids; auto.
  - exfalso. apply H2. rewrite <- E. apply in_flat_map. exists c. split; auto. apply sub_ids; auto.
  - assert (c = c0) as <-.
    { eapply flat_map_owner with (f := ids) (x := id_of m); eauto.
      - apply sub_ids; auto.
      - rewrite E. apply sub_ids; auto. }
    eapply IH; eauto. eapply flat_map_NoDup_in; eauto.
Qed.

(** ** Sublists *)

Inductive sublist {A : Type} : list A -> list A -> Prop :=
| sl_nil l : sublist [] l
| sl_skip x l l' : sublist l l' -> sublist l (x :: l')
| sl_take x l l' : sublist l l' -> sublist (x :: l) (x :: l').

Lemma sublist_refl : forall (A : Type) (l : list A), sublist l l.
Proof. induction l; [apply sl_nil|apply sl_take; auto]. Qed.

Lemma sublist_app : forall (A : Type) (l1 l1' l2 l2' : list A),
  sublist l1 l1' -> sublist l2 l2' -> sublist (l1 ++ l2) (l1' ++ l2').
Proof.
  intros A l1 l1' l2 l2' H H2. induction H; cbn.
  - induction l; cbn; auto. apply sl_skip; auto.
  - apply sl_skip; auto.
  - apply sl_take; auto.
Qed.

Lemma sublist_in : forall (A : Type) (l l' : list A) x, sublist l l' -> In x l -> In x l'.
Proof. induction 1; cbn; intros; intuition. Qed.

Lemma sublist_NoDup : forall (A : Type) (l l' : list A), sublist l l' -> NoDup l' -> NoDup l.
Proof.
  induction 1; intro N; [constructor| |]; inversion N; subst; auto.
  constructor; auto. intro. apply H2. eapply sublist_in; eauto.
Qed.

Lemma sublist_app_r : forall (A : Type) (l1 l2 : list A), sublist l2 (l1 ++ l2).
Proof. induction l1; cbn; intros; [apply sublist_refl|apply sl_skip; auto]. Qed.

Section Proofs.
Variables k_arr k_obj k_spread_el k_spread_as k_prop k_bin k_eq : Z.
Variable is_lhs : node -> bool.
Notation kind_of := (kind_of k_arr k_obj k_spread_el k_spread_as k_prop k_bin).
Notation is_assignment := (is_assignment k_arr k_obj k_spread_el k_spread_as k_prop k_bin k_eq is_lhs).
Notation visit := (visit k_arr k_obj k_spread_el k_spread_as k_prop k_bin k_eq is_lhs).
Notation visit_lint_nodes := (visit_lint_nodes k_arr k_obj k_spread_el k_spread_as k_prop k_bin k_eq is_lhs).
Notation nested := (nested k_arr k_obj k_spread_el k_spread_as k_prop k_bin).
Notation forest := (forest k_arr k_obj k_spread_el k_spread_as k_prop k_bin).
Notation kinds_ok := (kinds_ok k_arr k_obj k_spread_el k_spread_as k_prop k_bin).
Notation position := (position k_arr k_obj k_spread_el k_spread_as k_prop k_bin k_eq is_lhs).

Notation assigns := (assigns k_arr k_obj k_spread_el k_spread_as k_prop k_bin k_eq is_lhs).

Lemma assigns_true : forall l o, is_assignment l o = true <-> assigns l o.
Proof.
  intros l o. unfold Visit.is_assignment, VisitSpec.assigns. rewrite andb_true_iff, Z.eqb_eq. tauto.
Qed.

Lemma assigns_false : forall l o, is_assignment l o = false <-> ~ assigns l o.
Proof.
  intros l o. rewrite <- assigns_true. destruct (is_assignment l o); intuition discriminate.
Qed.

(** The sub-visits of a visit. *)
Definition subs (b : bool) (n : node) : list (bool * node) :=
  match n with
  | NArr _ es => map (pair b) es
  | NObj _ ps => map (pair b) ps
  | NSpread _ _ e => [(b, e)]
  | NProp _ h e => if b then [(true, e)] else map (pair false) (h ++ [e])
  | NGen _ _ cs => map (pair false) cs
  | NBin _ l o r =>
      [((if b then false else is_assignment l o), l); (false, o); (false, r)]
  end.

Definition is_literal (n : node) : bool :=
  match n with NArr _ _ | NObj _ _ => true | _ => false end.

Definition mark (b : bool) (n : node) : option Z :=
  if b then Some 2000 else if is_literal n then Some 4000 else None.

Definition opens (b : bool) (n : node) : list event :=
  (kind_of n, id_of n) :: match mark b n with Some m => [(kind_of n + m, id_of n)] | None => [] end.
Definition closes (b : bool) (n : node) : list event :=
  match mark b n with Some m => [(kind_of n + m + 1000, id_of n)] | None => [] end
  ++ [(kind_of n + 1000, id_of n)].

Definition visit2 (p : bool * node) : list event := visit (fst p) (snd p).

Lemma flat_map_pair : forall b l, flat_map visit2 (map (pair b) l) = flat_map (visit b) l.
Proof. intros b l. induction l as [|x l IH]; cbn; auto. rewrite IH. reflexivity. Qed.

Lemma visit_eq : forall b n,
  visit b n = opens b n ++ flat_map visit2 (subs b n) ++ closes b n.
Proof.
  intros b n. destruct b; destruct n as [i k cs|i es|i ps|i a e|i h e|i l o r];
    unfold opens, closes, mark; cbn -[Z.add];
    unfold listener_on_exit, listener_on_allow_pattern, listener_on_not_allow_pattern,
      last_on_exit_token_kind, last_on_allow_pattern_on_exit_token_kind;
    rewrite ?flat_map_pair, ?flat_map_app, ?app_nil_r; cbn -[Z.add];
    rewrite <- ?app_assoc; cbn [app]; rewrite ?app_nil_r; try reflexivity.
  destruct (is_assignment l o); unfold visit2; cbn [fst snd]; rewrite <- ?app_assoc; reflexivity.
Qed.

Lemma subs_children : forall b n, sublist (map snd (subs b n)) (children n).
Proof.
  intros b n. destruct n as [i k cs|i es|i ps|i a e|i h e|i l o r]; cbn;
    rewrite ?map_map; cbn; rewrite ?map_id; try apply sublist_refl.
  destruct b; cbn.
  - apply sublist_app_r.
  - rewrite map_map. cbn. rewrite map_id. apply sublist_refl.
Qed.

(** ** Bracketing *)

Lemma visit_nested : forall n b, nested n (visit b n).
Proof.
  induction n as [n IH] using node_children_ind. intro b. rewrite visit_eq.
  assert (forest (children n) (flat_map visit2 (subs b n))) as F.
  { assert (forall cs (ps : list (bool * node)), sublist (map snd ps) cs ->
      (forall c, In c cs -> forall b, nested c (visit b c)) -> forest cs (flat_map visit2 ps)) as X.
    { intros cs ps Hs. remember (map snd ps) as qs eqn:E. revert ps E.
      induction Hs; intros ps E HF; cbn in *.
      - destruct ps; [|discriminate]. cbn. clear HF. induction l; [apply forest_nil|apply forest_skip; auto].
      - apply forest_skip. apply IHHs; auto.
      - destruct ps as [|[b' q] ps]; [discriminate|]. cbn in E. inversion E; subst.
        cbn. apply forest_take.
        + apply HF; left; auto.
        + apply IHHs; auto. }
    apply X; [apply subs_children|exact IH]. }
  unfold opens, closes. unfold mark. destruct b; [|destruct (is_literal n)]; cbn -[Z.add].
  - apply nested_marked; auto.
  - apply nested_marked; auto.
  - apply nested_plain; auto.
Qed.

Lemma visit_all_forest : forall root, forest (children root) (visit_lint_nodes root).
Proof.
  intro root. unfold Visit.visit_lint_nodes. induction (children root) as [|c cs IH]; cbn; [apply forest_nil|apply forest_take; auto].
  apply visit_nested.
Qed.

Definition is_enter (e : event) : bool := fst e <? 1000.

Scheme nested_mind := Induction for VisitSpec.nested Sort Prop
  with forest_mind := Induction for VisitSpec.forest Sort Prop.

Lemma forest_enters : forall cs es, forest cs es ->
  (forall c, In c cs -> kinds_ok c) ->
  sublist (map snd (filter is_enter es)) (flat_map ids cs).
Proof.
  intros cs es H. induction H using forest_mind with
    (P := fun n es _ => kinds_ok n -> sublist (map snd (filter is_enter es)) (ids n)).
  - intro K. rewrite ids_eq. pose proof (K _ (sub_refl _)) as Kn.
    assert (is_enter (kind_of n, id_of n) = true) as E1 by (apply Z.ltb_lt; cbn; lia).
    assert (is_enter (kind_of n + 1000, id_of n) = false) as E2 by (apply Z.ltb_ge; cbn; lia).
    cbn [filter map]. rewrite filter_app. cbn [filter map]. rewrite E1, E2.
    rewrite app_nil_r. cbn [map snd]. apply sl_take. apply IHforest.
    intros c Hc x Hx. apply K. econstructor; eauto.
  - intro K. rewrite ids_eq. pose proof (K _ (sub_refl _)) as Kn.
    assert (is_enter (kind_of n, id_of n) = true) as E1 by (apply Z.ltb_lt; cbn; lia).
    assert (is_enter (kind_of n + 1000, id_of n) = false) as E2 by (apply Z.ltb_ge; cbn; lia).
    assert (is_enter (kind_of n + mark0, id_of n) = false) as E3 by (apply Z.ltb_ge; cbn; lia).
    assert (is_enter (kind_of n + mark0 + 1000, id_of n) = false) as E4 by (apply Z.ltb_ge; cbn; lia).
    cbn [filter map]. rewrite filter_app. cbn [filter map]. rewrite E1, E2, E3, E4.
    rewrite app_nil_r. cbn [map snd]. apply sl_take. apply IHforest.
    intros c Hc x Hx. apply K. econstructor; eauto.
  - intros _. constructor.
  - intro K. cbn. rewrite <- (app_nil_l (map _ _)). apply sublist_app; [constructor|].
    apply IHforest. intros; apply K; right; auto.
  - intro K. cbn. rewrite filter_app, map_app. apply sublist_app.
    + apply IHforest. apply K. left; auto.
    + apply IHforest0. intros; apply K; right; auto.
Qed.

Lemma enters_once : forall root, kinds_ok root -> NoDup (ids root) ->
  NoDup (map snd (filter is_enter (visit_lint_nodes root))).
Proof.
  intros root K N. rewrite ids_eq in N. inversion N; subst.
  eapply sublist_NoDup; [|exact H2]. apply forest_enters; [apply visit_all_forest|].
  intros c Hc x Hx. apply K. econstructor; eauto.
Qed.

(** ** Which nodes are visited, and how *)

Definition place_of (b : bool) : place := if b then Target else Plain.

Lemma position_sub : forall root m p, position root m p -> sub root m.
Proof.
  assert (forall n m, sub n m -> forall c, In c (children m) -> sub n c) as X.
  { induction 1; intros d Hd; econstructor; eauto. constructor. }
  induction 1; try (eapply X; [eassumption|cbn; auto]).
  - econstructor; eauto. constructor.
  - apply in_or_app. right. left. reflexivity.
Qed.

Lemma position_subs : forall root b n b' c,
  position root n (place_of b) -> In (b', c) (subs b n) -> position root c (place_of b').
Proof.
  intros root b n b' c H Hin.
  destruct n as [i k cs|i es|i ps|i a e|i h e|i l o r]; cbn in Hin.
  - apply in_map_iff in Hin. destruct Hin as (x & E & Hx). inversion E; subst. cbn.
    destruct b; cbn in H.
    + eapply pos_below_target; [exact H|exact I|exact Hx].
    + eapply pos_plain; [exact H|discriminate|exact Hx].
  - apply in_map_iff in Hin. destruct Hin as (x & E & Hx). inversion E; subst.
    destruct b'; cbn in *.
    + eapply pos_element; eauto.
    + eapply pos_plain; [exact H|discriminate|exact Hx].
  - apply in_map_iff in Hin. destruct Hin as (x & E & Hx). inversion E; subst.
    destruct b'; cbn in *.
    + eapply pos_property; eauto.
    + eapply pos_plain; [exact H|discriminate|exact Hx].
  - destruct Hin as [E|[]]. inversion E; subst. destruct b'; cbn in *.
    + eapply pos_spread; eauto.
    + eapply pos_plain; [exact H|discriminate|left; auto].
  - destruct b.
    + destruct Hin as [E|[]]. inversion E; subst. cbn in *. eapply pos_value; eauto.
    + apply in_map_iff in Hin. destruct Hin as (x & E & Hx). inversion E; subst. cbn in *.
      eapply pos_plain; [exact H|discriminate|exact Hx].
  - destruct b.
    + cbn in H. destruct Hin as [E|[E|[E|[]]]]; inversion E; subst;
        (eapply pos_below_target; [exact H|exact I|cbn; auto]).
    + cbn in H. destruct (is_assignment l o) eqn:Ea;
        [pose proof (proj1 (assigns_true _ _) Ea)|pose proof (proj1 (assigns_false _ _) Ea)].
      * destruct Hin as [E|[E|[E|[]]]]; inversion E; subst; cbn.
        -- eapply pos_assign_left; eauto.
        -- eapply pos_assign_op; eauto.
        -- eapply pos_assign_right; eauto.
      * destruct Hin as [E|[E|[E|[]]]]; inversion E; subst; cbn;
          (eapply pos_plain; [exact H| |cbn; auto]; intros ? ? ? ? Eq; inversion Eq; subst; auto).
Qed.

Lemma visit_events_sound : forall root n b, position root n (place_of b) ->
  forall ev, In ev (visit b n) ->
  exists m b', position root m (place_of b') /\ In ev (opens b' m ++ closes b' m).
Proof.
  intros root n. induction n as [n IH] using node_children_ind. intros b H ev Hin.
  rewrite visit_eq in Hin. apply in_app_or in Hin. destruct Hin as [Hin|Hin].
  { exists n, b. split; auto. apply in_or_app; auto. }
  apply in_app_or in Hin. destruct Hin as [Hin|Hin].
  2:{ exists n, b. split; auto. apply in_or_app; auto. }
  apply in_flat_map in Hin. destruct Hin as ([b' c] & Hc & Hev).
  apply (IH c) with (b := b'); auto.
  - eapply sublist_in; [apply (subs_children b)|]. apply in_map_iff. exists (b', c). auto.
  - eapply position_subs; eauto.
Qed.

Lemma events_sound : forall root ev, In ev (visit_lint_nodes root) ->
  exists m b, position root m (place_of b) /\ In ev (opens b m ++ closes b m).
Proof.
  intros root ev Hin. unfold Visit.visit_lint_nodes in Hin. apply in_flat_map in Hin.
  destruct Hin as (c & Hc & Hev).
  eapply visit_events_sound with (b := false); eauto. constructor; auto.
Qed.

(** [reaches root m b]: the traversal of [root] contains a visit of [m]. *)
Definition contains (es part : list event) : Prop := exists l r, es = l ++ part ++ r.

Lemma contains_trans : forall a b c, contains a b -> contains b c -> contains a c.
Proof.
  intros a b' c (l & r & ->) (l' & r' & ->). exists (l ++ l'), (r' ++ r).
  rewrite <- !app_assoc. reflexivity.
Qed.

Lemma contains_flat_map : forall (A : Type) (f : A -> list event) l x,
  In x l -> contains (flat_map f l) (f x).
Proof.
  induction l as [|a l IH]; intros x H; [destruct H|]. cbn. destruct H as [->|H].
  - exists [], (flat_map f l). reflexivity.
  - destruct (IH _ H) as (p & q & E). exists (f a ++ p), q. rewrite E, <- app_assoc. reflexivity.
Qed.

Lemma visit_contains_subs : forall b n b' c, In (b', c) (subs b n) ->
  contains (visit b n) (visit b' c).
Proof.
  intros b n b' c H. rewrite visit_eq.
  destruct (contains_flat_map _ visit2 _ _ H) as (p & q & E). rewrite E.
  exists (opens b n ++ p), (q ++ closes b n). unfold visit2. cbn. rewrite <- !app_assoc. reflexivity.
Qed.

Lemma position_contains : forall root m p, position root m p ->
  contains (visit_lint_nodes root) (visit (match p with Target => true | Plain => false end) m).
Proof.
  induction 1.
  - apply contains_flat_map. exact H.
  - eapply contains_trans; [eassumption|]. apply visit_contains_subs. cbn. rewrite (proj2 (assigns_true _ _) H0). auto.
  - eapply contains_trans; [eassumption|]. apply visit_contains_subs. cbn. auto.
  - eapply contains_trans; [eassumption|]. apply visit_contains_subs. cbn. auto.
  - eapply contains_trans; [eassumption|]. apply visit_contains_subs. cbn. apply in_map. auto.
  - eapply contains_trans; [eassumption|]. apply visit_contains_subs. cbn. apply in_map. auto.
  - eapply contains_trans; [eassumption|]. apply visit_contains_subs. cbn. auto.
  - eapply contains_trans; [eassumption|]. apply visit_contains_subs. cbn. auto.
  - eapply contains_trans; [eassumption|]. apply visit_contains_subs.
    destruct n as [i k cs|i es|i ps|i a e|i h e|i l o r]; cbn in *; try (apply in_map; auto; fail).
    + destruct H1 as [->|[]]. auto.
    + rewrite (proj2 (assigns_false _ _) (H0 _ _ _ _ eq_refl)). destruct H1 as [<-|[<-|[<-|[]]]]; auto.
  - eapply contains_trans; [eassumption|]. apply visit_contains_subs.
    destruct n as [i k cs|i es|i ps|i a e|i h e|i l o r]; try destruct H0; cbn in *.
    + apply in_map; auto.
    + destruct H1 as [<-|[<-|[<-|[]]]]; auto.
Qed.

Lemma contains_in : forall es part x, contains es part -> In x part -> In x es.
Proof. intros es part x (l & r & ->) H. apply in_or_app. right. apply in_or_app. auto. Qed.

Lemma position_events : forall root m b, position root m (place_of b) ->
  forall ev, In ev (opens b m ++ closes b m) -> In ev (visit_lint_nodes root).
Proof.
  intros root m b H ev Hev. eapply contains_in; [apply position_contains; exact H|].
  replace (match place_of b with Target => true | Plain => false end) with b by (destruct b; auto).
  rewrite visit_eq. apply in_app_or in Hev. apply in_or_app.
  destruct Hev as [Hev|Hev]; auto. right. apply in_or_app. auto.
Qed.

Lemma own_id : forall b m ev, In ev (opens b m ++ closes b m) -> snd ev = id_of m.
Proof.
  intros b m ev H. unfold opens, closes in H. destruct (mark b m); cbn in H;
    repeat destruct H as [<-|H]; auto; destruct H.
Qed.

Lemma event_owner : forall root m code, NoDup (ids root) -> sub root m ->
  In (code, id_of m) (visit_lint_nodes root) ->
  exists b, position root m (place_of b) /\ In (code, id_of m) (opens b m ++ closes b m).
Proof.
  intros root m code N Hm Hin. destruct (events_sound _ _ Hin) as (m' & b & Hp & Hev).
  assert (m = m') as <-.
  { eapply id_inj; eauto.
    - eapply position_sub; eauto.
    - apply own_id in Hev. exact Hev. }
  eauto.
Qed.

Lemma visited_iff : forall root m, kinds_ok root -> NoDup (ids root) -> sub root m ->
  (In (kind_of m, id_of m) (visit_lint_nodes root) <-> exists p, position root m p) /\
  (In (kind_of m + 1000, id_of m) (visit_lint_nodes root) <-> exists p, position root m p).
Proof.
  intros root m K N Hm.
  assert (forall p, position root m p -> exists b, position root m (place_of b)) as X.
  { intros [] H; [exists true|exists false]; auto. }
  split; split; intro H.
  - destruct (event_owner _ _ _ N Hm H) as (b & Hp & _). eauto.
  - destruct H as [p H]. destruct (X _ H) as [b Hb]. eapply position_events; eauto.
    unfold opens. cbn. auto.
  - destruct (event_owner _ _ _ N Hm H) as (b & Hp & _). eauto.
  - destruct H as [p H]. destruct (X _ H) as [b Hb]. eapply position_events; eauto.
    apply in_or_app. right. unfold closes. apply in_or_app. right. cbn. auto.
Qed.

Lemma allow_pattern_iff : forall root m, kinds_ok root -> NoDup (ids root) -> sub root m ->
  (In (kind_of m + 2000, id_of m) (visit_lint_nodes root) <-> position root m Target).
Proof.
  intros root m K N Hm. split; intro H.
  - destruct (event_owner _ _ _ N Hm H) as (b & Hp & Hev).
    destruct b; auto. exfalso. pose proof (K _ Hm) as Hk.
    unfold opens, closes, mark in Hev. destruct (is_literal m); cbn -[Z.add] in Hev;
      repeat (destruct Hev as [Hev|Hev]; [inversion Hev; lia|]); destruct Hev.
  - eapply (position_events root m true); eauto. unfold opens, mark. cbn -[Z.add]. auto.
Qed.

Lemma not_allow_pattern_iff : forall root m, kinds_ok root -> NoDup (ids root) -> sub root m ->
  literal m ->
  (In (kind_of m + 4000, id_of m) (visit_lint_nodes root) <-> position root m Plain).
Proof.
  intros root m K N Hm Hl. split; intro H.
  - destruct (event_owner _ _ _ N Hm H) as (b & Hp & Hev).
    destruct b; auto. exfalso. pose proof (K _ Hm) as Hk.
    unfold opens, closes, mark in Hev. cbn -[Z.add] in Hev.
    repeat (destruct Hev as [Hev|Hev]; [inversion Hev; lia|]). destruct Hev.
  - eapply (position_events root m false); eauto. unfold opens, mark.
    destruct m; cbn in Hl; try tauto; cbn -[Z.add]; auto.
Qed.


(** A node has one place only. *)
Lemma position_fun : forall root m, NoDup (ids root) -> kinds_ok root ->
  position root m Target -> position root m Plain -> False.
Proof.
  intros root m N K H1 H2.
  assert (sub root m) as Hm by (eapply position_sub; eauto).
  (* follow both derivations to the parent *)
  assert (forall p m, position root m p ->
            exists q n, (n = root /\ p = Plain \/ position root n q /\
              In ((match p with Target => true | Plain => false end), m)
                 (subs (match q with Target => true | Plain => false end) n)) /\ In m (children n)) as P.
  { clear - k_arr k_obj k_spread_el k_spread_as k_prop k_bin k_eq is_lhs.
    intros p m H. inversion H; subst.
    - exists Plain, root. auto.
    - exists Plain, (NBin i m o r). cbn. rewrite (proj2 (assigns_true _ _) H1). auto 10.
    - exists Plain, (NBin i l m r). cbn. auto 10.
    - exists Plain, (NBin i l o m). cbn. auto 10.
    - exists Target, (NArr i es). cbn. split; auto. right. split; auto. apply in_map; auto.
    - exists Target, (NObj i ps). cbn. split; auto. right. split; auto. apply in_map; auto.
    - exists Target, (NSpread i a m). cbn. auto 10.
    - exists Target, (NProp i h m). cbn. split; auto. apply in_or_app; cbn; auto.
    - exists Plain, n. split; auto. right. split; auto.
      destruct n as [i k cs|i es|i ps|i a e|i h e|i l o r]; cbn in *; try (apply in_map; auto; fail).
      + destruct H2 as [->|[]]. auto.
      + rewrite (proj2 (assigns_false _ _) (H1 _ _ _ _ eq_refl)). destruct H2 as [<-|[<-|[<-|[]]]]; auto.
    - exists Target, n. split; auto. right. split; auto.
      destruct n as [i k cs|i es|i ps|i a e|i h e|i l o r]; try destruct H1; cbn in *.
      + apply in_map; auto.
      + destruct H2 as [<-|[<-|[<-|[]]]]; auto. }
  (* parents are equal because identities are unique *)
  assert (forall n n' m, sub root n -> sub root n' -> In m (children n) -> In m (children n') -> n = n') as Par.
  { clear - N. revert N. induction root as [root IH] using node_children_ind. intros N n n' m Hn Hn' Hm Hm'.
    rewrite ids_eq in N. inversion N; subst.
    assert (forall c n m, In c (children root) -> sub c n -> In m (children n) -> In (id_of m) (ids c)) as Y.
    { intros c n0 m0 _ Hs Hc. apply sub_ids.
      clear - Hs Hc. induction Hs; econstructor; eauto. constructor. }
    assert (forall c, In c (children root) -> ~ In (id_of c) (flat_map ids (children c))) as Z.
    { intros c Hc Hin. apply (flat_map_NoDup_in _ _ ids _ c) in H2; auto.
      rewrite ids_eq in H2. inversion H2; auto. }
    assert (forall c c0 n m, In c (children root) -> sub c n -> In m (children n) ->
              In c0 (children root) -> m = c0 -> False) as W.
    { intros c c0 n0 m0 Hc Hs Hmc Hc0 ->.
      assert (In (id_of c0) (flat_map ids (children c))) as Hx.
      { eapply below_ids; eauto. }
      assert (c = c0) as <-.
      { apply (flat_map_owner _ _ ids (children root) c c0 (id_of c0)); auto.
        - rewrite (ids_eq c). right. exact Hx.
        - rewrite (ids_eq c0). left. reflexivity. }
      apply (Z c); auto. }
    inversion Hn; subst; inversion Hn'; subst; auto.
    - exfalso. eapply (W c m n' m); eauto.
    - exfalso. eapply (W c m n m); eauto.
    - assert (c = c0) as <-.
      { eapply (flat_map_owner _ _ ids) with (x := id_of m); eauto. }
      eapply IH; eauto. eapply flat_map_NoDup_in; eauto. }
  (* occurrences of a child among the sub-visits of one node *)
  assert (forall n, sub root n -> forall b m, In (true, m) (subs b n) -> In (false, m) (subs b n) -> False) as U.
  { intros n Hn b m0 Ht Hf.
    assert (NoDup (ids n)) as Nn.
    { clear - N Hn. induction Hn; auto. apply IHHn. rewrite ids_eq in N. inversion N; subst.
      eapply flat_map_NoDup_in; eauto. }
    rewrite ids_eq in Nn. inversion Nn as [|? ? _ Nc]; subst.
    destruct n as [i k cs|i es|i ps|i a e|i h e|i l o r]; cbn in Ht, Hf, Nc;
      try (apply in_map_iff in Ht; destruct Ht as (x & E & Hx); inversion E; subst;
           try (apply in_map_iff in Hf; destruct Hf as (y & E' & Hy); inversion E'; subst)).
    - destruct Ht as [E|[]]; inversion E; subst. destruct Hf as [E'|[]]; inversion E'.
    - destruct b.
      + destruct Hf as [E'|[]]; inversion E'.
      + apply in_map_iff in Ht; destruct Ht as (x & E & Hx); inversion E.
    - destruct Ht as [E|[E|[E|[]]]]; inversion E; subst.
      apply NoDup_app_inv in Nc. destruct Nc as (_ & _ & Nc). rewrite app_nil_r in Nc.
      destruct Hf as [E'|[E'|[E'|[]]]]; inversion E'; subst.
      + destruct b; congruence.
      + apply (Nc (id_of m0)); [rewrite ids_eq; left; auto|apply in_or_app; left; rewrite ids_eq; left; auto].
      + apply (Nc (id_of m0)); [rewrite ids_eq; left; auto|apply in_or_app; right; rewrite ids_eq; left; auto]. }
  (* induction on depth: size of derivation replaced by well-foundedness of subtrees *)
  revert H1 H2.
  assert (forall m, sub root m -> position root m Target -> position root m Plain -> False) as Main.
  { assert (forall n, sub root n -> (position root n Target -> position root n Plain -> False) ->
              forall c, In c (children n) -> position root c Target -> position root c Plain -> False) as Step.
    { intros n Hn IHn c Hc T F.
      destruct (P _ _ T) as (q1 & n1 & [[-> E]|[Hp1 Hs1]] & Hc1); [discriminate|].
      destruct (P _ _ F) as (q2 & n2 & D2 & Hc2).
      assert (sub root n1) as S1 by (eapply position_sub; eauto).
      assert (n1 = n) as -> by (eapply Par; eauto).
      destruct D2 as [[-> _]|[Hp2 Hs2]].
      - assert (root = n) as <- by (eapply Par; eauto; constructor).
        assert (forall p, position root root p -> False) as NR.
        { intros p Hp. destruct (P _ _ Hp) as (q3 & n3 & D3 & Hc3).
          assert (sub root n3) as S3.
          { destruct D3 as [[-> _]|[Hp3 _]]; [constructor|eapply position_sub; eauto]. }
          rewrite ids_eq in N. inversion N as [|? ? Hno _]; subst. apply Hno.
          eapply below_ids; eauto. }
        eapply NR; eauto.
      - assert (sub root n2) as S2 by (eapply position_sub; eauto).
        assert (n2 = n) as -> by (eapply Par; eauto).
        destruct q1, q2; try (eapply IHn; eauto; fail); eapply U; eauto. }
    assert (forall n m, sub n m -> sub root n ->
              (position root n Target -> position root n Plain -> False) ->
              position root m Target -> position root m Plain -> False) as Down.
    { induction 1; intros Hr Hn; auto. apply IHsub.
      - clear - Hr H. induction Hr; econstructor; eauto. constructor.
      - eapply Step; eauto. }
    intros m0 Hm0. eapply Down; [exact Hm0|constructor|].
    intros T _. destruct (P _ _ T) as (q3 & n3 & [[-> E]|[Hp3 _]] & Hc3); [discriminate|].
    assert (sub root n3) as S3 by (eapply position_sub; eauto).
    rewrite ids_eq in N. inversion N as [|? ? Hno _]; subst. apply Hno.
    eapply below_ids; eauto. }
  intros H1 H2. eapply Main; eauto.
Qed.

(** ** What is not visited *)

Lemma position_or_key : forall root n m, sub n m -> forall p, position root n p ->
  (exists q, position root m q) \/
  exists i h e c, position root (NProp i h e) Target /\ In c h /\ sub c m.
Proof.
  intros root n m H. induction H as [n|n c m Hc Hs IH]; intros p Hp.
  - left; eauto.
  - destruct p.
    + destruct n as [i k cs|i es|i ps|i a e|i h e|i l o r]; cbn in Hc.
      * eapply IH. eapply pos_below_target; [exact Hp|exact I|exact Hc].
      * eapply IH. eapply pos_element; eauto.
      * eapply IH. eapply pos_property; eauto.
      * destruct Hc as [<-|[]]. eapply IH. eapply pos_spread; eauto.
      * apply in_app_or in Hc. destruct Hc as [Hc|[<-|[]]].
        -- right. exists i, h, e, c. auto.
        -- eapply IH. eapply pos_value; eauto.
      * eapply IH. eapply pos_below_target; [exact Hp|exact I|exact Hc].
    + destruct n as [i k cs|i es|i ps|i a e|i h e|i l o r];
        try (eapply IH; eapply pos_plain; [exact Hp|discriminate|exact Hc]).
      destruct (is_assignment l o) eqn:Ea;
        [pose proof (proj1 (assigns_true _ _) Ea)|pose proof (proj1 (assigns_false _ _) Ea)].
      * cbn in Hc. destruct Hc as [<-|[<-|[<-|[]]]]; eapply IH;
          [eapply pos_assign_left|eapply pos_assign_op|eapply pos_assign_right]; eauto.
      * eapply IH. eapply pos_plain; [exact Hp| |exact Hc].
        intros ? ? ? ? E; inversion E; subst; auto.
Qed.

Lemma reached_or_key : forall root m, sub root m -> m <> root ->
  (exists q, position root m q) \/
  exists i h e c, position root (NProp i h e) Target /\ In c h /\ sub c m.
Proof.
  intros root m H Hn. inversion H; subst; [congruence|].
  eapply position_or_key; [exact H1|]. constructor. exact H0.
Qed.

Variable is_for_in_of : Z -> bool.
Notation target := (target k_arr k_obj k_spread_el k_spread_as k_prop k_bin k_eq is_lhs is_for_in_of).

Lemma position_target : forall root m p, position root m p ->
  match p with Target => target root m | Plain => True end.
Proof.
  induction 1; auto.
  - eapply tg_left; eauto. eapply position_sub; eauto.
  - eapply tg_element; eauto.
  - eapply tg_property; eauto.
  - eapply tg_spread; eauto.
  - eapply tg_value; eauto.
Qed.

End Proofs.

(** ** Event codes *)

Lemma codes_distinct : forall e1 k1 e2 k2,
  0 <= k1 < 1000 -> 0 <= k2 < 1000 -> code e1 k1 = code e2 k2 -> e1 = e2 /\ k1 = k2.
Proof.
  intros e1 k1 e2 k2 H1 H2 H.
  destruct e1, e2; cbn in H;
    unfold listener_on_exit, listener_on_allow_pattern, listener_on_not_allow_pattern,
      last_on_exit_token_kind, last_on_allow_pattern_on_exit_token_kind in H;
    try lia; split; auto; lia.
Qed.

Lemma codes_int16 : forall e k, 0 <= k < 1000 -> 0 <= code e k < 32768.
Proof.
  intros e k H. destruct e; cbn;
    unfold listener_on_exit, listener_on_allow_pattern, listener_on_not_allow_pattern,
      last_on_exit_token_kind, last_on_allow_pattern_on_exit_token_kind; lia.
Qed.

(** All nodes of a tree, for concrete cases. *)
Fixpoint nodes (n : node) : list node :=
  n :: match n with
       | NGen _ _ cs => flat_map nodes cs
       | NArr _ es => flat_map nodes es
       | NObj _ ps => flat_map nodes ps
       | NSpread _ _ e => nodes e
       | NProp _ head init => flat_map nodes head ++ nodes init
       | NBin _ l o r => nodes l ++ nodes o ++ nodes r
       end.

Lemma sub_nodes : forall n m, sub n m -> In m (nodes n).
Proof.
  assert (forall n, nodes n = n :: flat_map nodes (children n)) as E.
  { destruct n; cbn; rewrite ?app_nil_r; auto.
    rewrite flat_map_app. cbn. rewrite app_nil_r. reflexivity. }
  induction 1; rewrite E; [left; auto|right]. apply in_flat_map. eauto.
Qed.
