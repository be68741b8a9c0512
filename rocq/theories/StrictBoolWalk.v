(** Which nodes the traversal of strict-boolean-expressions checks. *)
From Coq Require Import Bool List ZArith Lia Permutation.
From Verif Require Import Base Types StrictBool.
Import ListNotations.
Open Scope Z_scope.

(** ** Specification *)

(** The children of a node. *)
Definition kids (t : tree) : list tree :=
  match t with
  | Logical _ l r => [l; r]
  | Paren _ e => [e]
  | Other _ bf c af => bf ++ match c with Some c => [c] | None => [] end ++ af
  end.
(** [inside t u]: [u] occurs in [t]. *)
Inductive inside : tree -> tree -> Prop :=
| in_self t : inside t t
| in_kid t c u : In c (kids t) -> inside c u -> inside t u.
(** [tested t i]: when [t] is used as a condition, the value of node [i] is tested for truth. *)
Inductive tested : tree -> Z -> Prop :=
| t_other i bf c af : tested (Other i bf c af) i
| t_paren i e j : tested e j -> tested (Paren i e) j
| t_left i l r j : tested l j -> tested (Logical i l r) j
| t_right i l r j : tested r j -> tested (Logical i l r) j.
(** [tests p c]: node [p] tests [c] for truth, whatever becomes of its own value. *)
Inductive tests : tree -> tree -> Prop :=
| ts_logical i l r : tests (Logical i l r) l
| ts_other i bf c af : tests (Other i bf (Some c) af) c.
(** The conditions of a file. *)
Definition condition (t0 : tree) (i : Z) : Prop := exists p c, inside t0 p /\ tests p c /\ tested c i.

(** The numbers of all nodes. *)
Fixpoint ids (t : tree) : list Z :=
  match t with
  | Logical i l r => i :: ids l ++ ids r
  | Paren i e => i :: ids e
  | Other i bf c af => i :: flat_map ids bf ++ match c with Some c => ids c | None => [] end ++ flat_map ids af
  end.
(** Visits in which a node comes after its parent; nodes may be visited several times. *)
Definition parents_first (t0 : tree) (visits : list tree) : Prop :=
  forall a u c, visits = a ++ u :: c -> inside t0 u /\ forall p, inside t0 p -> In u (kids p) -> In p a.
(** The order in which the linter walks over a file. *)
Fixpoint preorder (t : tree) : list tree :=
  t :: match t with
       | Logical _ l r => preorder l ++ preorder r
       | Paren _ e => preorder e
       | Other _ bf c af => flat_map preorder bf ++ match c with Some c => preorder c | None => [] end ++ flat_map preorder af
       end.

(** ** Trees *)
Fixpoint size (t : tree) : nat :=
  S match t with
    | Logical _ l r => size l + size r
    | Paren _ e => size e
    | Other _ bf c af => list_sum (map size bf) + match c with Some c => size c | None => 0 end + list_sum (map size af)
    end.
Lemma list_sum_in t l : In t l -> (size t <= list_sum (map size l))%nat.
Proof. induction l as [|x l IH]; intros []; [subst|apply IH in H]; cbn [map list_sum fold_right]; fold (list_sum (map size l)); lia. Qed.
Lemma kids_size t c : In c (kids t) -> (size c < size t)%nat.
Proof.
  destruct t as [i l r|i e|i bf c0 af]; cbn [kids size].
  - intros [<-|[<-|[]]]; lia.
  - intros [<-|[]]; lia.
  - rewrite !in_app_iff. intros [X|[X|X]]; [apply list_sum_in in X; lia| |apply list_sum_in in X; lia].
    destruct c0 as [c0|]; [|destruct X]. destruct X as [<-|[]]. lia.
Qed.
Lemma tree_ind2 (P : tree -> Prop) : (forall t, (forall c, In c (kids t) -> P c) -> P t) -> forall t, P t.
Proof.
  intros H t. remember (size t) as n eqn:E. assert (L : (size t <= n)%nat) by lia. clear E. revert t L.
  induction n as [|n IH]; intros t L; [destruct t; cbn in L; lia|]. apply H. intros c C. apply IH. apply kids_size in C. lia.
Qed.
Lemma ids_kids t : ids t = node_id t :: flat_map ids (kids t).
Proof.
  destruct t as [i l r|i e|i bf c af]; cbn [ids node_id kids flat_map]; rewrite ?app_nil_r; auto.
  rewrite !flat_map_app. destruct c; cbn [flat_map]; rewrite ?app_nil_r; auto.
Qed.
Lemma preorder_kids t : preorder t = t :: flat_map preorder (kids t).
Proof.
  destruct t as [i l r|i e|i bf c af]; cbn [preorder kids flat_map]; rewrite ?app_nil_r; auto.
  rewrite !flat_map_app. destruct c; cbn [flat_map]; rewrite ?app_nil_r; auto.
Qed.
Lemma inside_ids t u : inside t u -> In (node_id u) (ids t).
Proof.
  induction 1 as [t|t c u I _ IH]; rewrite ids_kids; [now left|]. right. apply in_flat_map. eauto.
Qed.
Lemma inside_trans a c d : inside a c -> inside c d -> inside a d.
Proof. induction 1; intros D; [auto|]. eapply in_kid; eauto. Qed.
Lemma flat_ids_nth (l : list tree) : forall j j' c c' i, NoDup (flat_map ids l) -> nth_error l j = Some c -> nth_error l j' = Some c' ->
  In i (ids c) -> In i (ids c') -> j = j'.
Proof.
  induction l as [|x l IH]; intros j j' c c' i ND N N' I I'; [destruct j; discriminate|].
  cbn [flat_map] in ND. assert (D : forall i, In i (ids x) -> In i (flat_map ids l) -> False).
  { clear - ND. induction (ids x) as [|y r IHr]; [easy|]. cbn [app] in ND. inversion ND; subst. intros i [<-|X] Y; [|eauto].
    apply H1. apply in_or_app. auto. }
  assert (ND2 : NoDup (flat_map ids l)).
  { clear - ND. induction (ids x); [auto|]. inversion ND; auto. }
  destruct j as [|j], j' as [|j']; cbn [nth_error] in N, N'; auto.
  - injection N as ->. exfalso. apply (D i I). apply in_flat_map. exists c'. split; [eapply nth_error_In; eauto|auto].
  - injection N' as ->. exfalso. apply (D i I'). apply in_flat_map. exists c. split; [eapply nth_error_In; eauto|auto].
  - f_equal. eapply IH; eauto.
Qed.
Lemma nodup_kids t : NoDup (ids t) -> NoDup (flat_map ids (kids t)) /\ forall c, In c (kids t) -> NoDup (ids c) /\ ~ In (node_id t) (ids c).
Proof.
  rewrite ids_kids. inversion 1 as [|? ? A B]; subst. split; [auto|]. intros c I. split.
  - clear A H. induction (kids t) as [|x l IH]; [easy|]. cbn [flat_map] in B. destruct I as [->|I].
    + clear IH. induction (ids c) as [|y r IHr]; [constructor|]. cbn [app] in B. inversion B; subst. constructor; [|auto].
      intros Z. apply H1. apply in_or_app. auto.
    + apply IH; auto. clear - B. induction (ids x); [auto|]. inversion B; auto.
  - intros X. apply A. apply in_flat_map. eauto.
Qed.
(** A node is determined by its number. *)
Lemma unique_node t u v : NoDup (ids t) -> inside t u -> inside t v -> node_id u = node_id v -> u = v.
Proof.
  induction t as [t IH] using tree_ind2. intros ND U V E. destruct (nodup_kids t ND) as [ND1 ND2].
  inversion U as [|? c ? C Cu]; subst; inversion V as [|? d ? D Dv]; subst; auto.
  - exfalso. apply (ND2 d D). rewrite E. now apply inside_ids.
  - exfalso. apply (ND2 c C). rewrite <- E. now apply inside_ids.
  - apply In_nth_error in C as N. apply In_nth_error in D as N'. destruct N as [j N], N' as [j' N'].
    assert (j = j') as <-.
    { eapply flat_ids_nth with (i := node_id u); eauto; [now apply inside_ids|rewrite E; now apply inside_ids]. }
    rewrite N in N'. injection N' as ->. eapply IH; eauto. now apply ND2.
Qed.
(** Its parent, and its place among the children, as well. *)
Lemma unique_parent t p p' k k' u u' : NoDup (ids t) -> inside t p -> inside t p' ->
  nth_error (kids p) k = Some u -> nth_error (kids p') k' = Some u' -> node_id u = node_id u' -> p = p' /\ k = k'.
Proof.
  induction t as [t IH] using tree_ind2. intros ND P P' K K' E. destruct (nodup_kids t ND) as [ND1 ND2].
  assert (IN : forall q c j, inside c q -> nth_error (kids q) j = Some u \/ nth_error (kids q) j = Some u' -> In (node_id u) (ids c)).
  { intros q c j Q [X|X]; [|rewrite E]; apply inside_ids; (eapply inside_trans; [exact Q|]); (eapply in_kid; [eapply nth_error_In; eauto|constructor]). }
  inversion P as [|? c ? C Cp]; subst; inversion P' as [|? d ? D Dp]; subst.
  - split; [auto|]. eapply flat_ids_nth with (i := node_id u); eauto; rewrite ids_kids; left; auto.
  - exfalso. apply In_nth_error in D as N. destruct N as [j N].
    assert (j = k) as ->.
    { eapply flat_ids_nth with (i := node_id u); eauto. rewrite ids_kids. now left. }
    rewrite K in N. injection N as <-.
    destruct (nodup_kids u (proj1 (ND2 u (nth_error_In _ _ K)))) as [_ X].
    inversion Dp as [|? e ? Ee Ep]; subst; [apply (X u'); [eapply nth_error_In; eauto|]; rewrite E, ids_kids; now left|].
    apply (X e Ee). eapply IN; eauto.
  - exfalso. apply In_nth_error in C as N. destruct N as [j N].
    assert (j = k') as ->.
    { eapply flat_ids_nth with (i := node_id u); eauto. rewrite ids_kids. now left. }
    rewrite K' in N. injection N as <-.
    destruct (nodup_kids u' (proj1 (ND2 u' (nth_error_In _ _ K')))) as [_ X].
    inversion Cp as [|? e ? Ee Ep]; subst; [apply (X u); [eapply nth_error_In; eauto|]; rewrite <- E, ids_kids; now left|].
    apply (X e Ee). rewrite <- E. eapply IN; eauto.
  - apply In_nth_error in C as N. apply In_nth_error in D as N'. destruct N as [j N], N' as [j' N'].
    assert (j = j') as <- by (eapply flat_ids_nth with (i := node_id u); eauto).
    rewrite N in N'. injection N' as <-. eapply IH; eauto. now apply ND2.
Qed.

(** ** The nodes of a condition *)
Inductive under : tree -> tree -> Prop :=
| u_self t : under t t
| u_paren i e n : under e n -> under (Paren i e) n
| u_left i l r n : under l n -> under (Logical i l r) n
| u_right i l r n : under r n -> under (Logical i l r) n.
Lemma under_inside t n : under t n -> inside t n.
Proof.
  induction 1; [constructor|..]; (eapply in_kid; [|eassumption]); cbn; auto.
Qed.
Lemma under_trans a c d : under a c -> under c d -> under a d.
Proof. induction 1; intros D; auto; [apply u_paren|apply u_left|apply u_right]; auto. Qed.
Definition leaf (t : tree) : Prop := exists i bf c af, t = Other i bf c af.
Lemma tested_under t i : tested t i <-> exists n, under t n /\ leaf n /\ node_id n = i.
Proof.
  split.
  - induction 1 as [i bf c af|i e j _ (n & A & B)|i l r j _ (n & A & B)|i l r j _ (n & A & B)].
    + exists (Other i bf c af). split; [constructor|]. split; [repeat eexists|reflexivity].
    + exists n. split; [now apply u_paren|auto].
    + exists n. split; [now apply u_left|auto].
    + exists n. split; [now apply u_right|auto].
  - intros (n & A & B & <-). induction A; [destruct B as (? & ? & ? & ? & ->); constructor|constructor; auto|apply t_left; auto|apply t_right; auto].
Qed.

(** ** Steps *)
Definition tr (s : state) (n : tree) : Prop := In (node_id n) (traversed s).
Definition ck (s : state) (i : Z) : Prop := In i (nodes_checked s).
Definition done (s : state) (n : tree) : Prop := forall m, under n m -> tr s m /\ (leaf m -> ck s (node_id m)).
Definition grows (s s' : state) : Prop := incl (traversed s) (traversed s') /\ incl (nodes_checked s) (nodes_checked s').
Lemma grows_refl s : grows s s.
Proof. split; apply incl_refl. Qed.
Lemma grows_trans a c d : grows a c -> grows c d -> grows a d.
Proof. intros [A1 A2] [B1 B2]. split; eapply incl_tran; eauto. Qed.
Lemma done_mono s s' n : grows s s' -> done s n -> done s' n.
Proof. intros [A B] D m M. destruct (D m M) as [X Y]. split; [now apply A|]. intros L. now apply B, Y. Qed.
Lemma existsb_id t l : existsb (Z.eqb (node_id t)) l = true <-> In (node_id t) l.
Proof.
  rewrite existsb_exists. split.
  - intros (x & I & E). apply Z.eqb_eq in E. now rewrite E.
  - intros I. exists (node_id t). split; [auto|apply Z.eqb_refl].
Qed.
Lemma traverse_grows t : forall c s, grows s (traverse t c s).
Proof.
  assert (M : forall s i, grows s (State (i :: traversed s) (nodes_checked s))).
  { intros s i. split; cbn; [apply incl_tl, incl_refl|apply incl_refl]. }
  induction t as [t IH] using tree_ind2. intros c s.
  destruct t as [i l r|i e|i bf c0 af]; cbn [traverse]; destruct (existsb _ _); try apply grows_refl.
  - eapply grows_trans; [apply M|]. eapply grows_trans; [apply (IH l); now left|apply (IH r); right; now left].
  - eapply grows_trans; [apply M|]. apply (IH e). now left.
  - eapply grows_trans; [apply M|]. destruct c; [|apply grows_refl]. split; cbn; [apply incl_refl|apply incl_tl, incl_refl].
Qed.

Lemma traverse_true t : forall s, NoDup (ids t) -> (forall m, under t m -> tr s m -> done s m) ->
  let s' := traverse t true s in
  done s' t /\
  (forall i, In i (traversed s') -> In i (traversed s) \/ exists m, under t m /\ node_id m = i) /\
  (forall i, ck s' i -> ck s i \/ tested t i).
Proof.
  induction t as [t IH] using tree_ind2. intros s ND PRE. cbn zeta.
  destruct (existsb (Z.eqb (node_id t)) (traversed s)) eqn:E.
  - assert (T : traverse t true s = s) by (destruct t; cbn [traverse]; rewrite E; reflexivity). rewrite T.
    split; [|auto]. apply PRE; [constructor|]. now apply existsb_id.
  - destruct (nodup_kids t ND) as [ND1 ND2]. set (s1 := State (node_id t :: traversed s) (nodes_checked s)).
    assert (G1 : grows s s1) by (split; cbn; [apply incl_tl, incl_refl|apply incl_refl]).
    assert (PRE1 : forall c, In c (kids t) -> (forall m, under c m -> under t m) -> forall m, under c m -> tr s1 m -> done s1 m).
    { intros c C U m M [X|X].
      - exfalso. apply (proj2 (ND2 c C)). rewrite X. now apply inside_ids, under_inside.
      - eapply done_mono; [exact G1|]. auto. }
    destruct t as [i l r|i e|i bf c af]; cbn [traverse]; rewrite E; fold s1.
    + destruct (IH l (or_introl eq_refl) s1) as (L1 & L2 & L3).
      { apply ND2. now left. }
      { apply PRE1; [now left|]. intros m. apply u_left. }
      set (s2 := traverse l true s1) in *.
      destruct (IH r (or_intror (or_introl eq_refl)) s2) as (R1 & R2 & R3).
      { apply ND2. right; now left. }
      { intros m M X. apply L2 in X. destruct X as [X|(m' & M' & X)].
        - eapply done_mono; [apply traverse_grows|]. apply (PRE1 r); [right; now left|intros z; apply u_right|auto|exact X].
        - exfalso. cbn [kids flat_map] in ND1. rewrite app_nil_r in ND1.
          assert (0%nat = 1%nat); [|discriminate].
          apply (flat_ids_nth [l; r] 0 1 l r (node_id m)); [cbn [flat_map]; now rewrite app_nil_r|reflexivity|reflexivity| |].
          + rewrite <- X. now apply inside_ids, under_inside.
          + now apply inside_ids, under_inside. }
      set (s3 := traverse r true s2) in *.
      assert (G3 : grows s2 s3) by apply traverse_grows.
      split; [|split].
      * intros m M. inversion M; subst.
        -- split; [|intros (? & ? & ? & ? & [=])]. apply G3, (traverse_grows l true s1). now left.
        -- apply (done_mono _ _ _ G3 L1). auto.
        -- apply R1. auto.
      * intros j J. apply R2 in J. destruct J as [J|(m & M & J)]; [|right; exists m; split; [now apply u_right|auto]].
        apply L2 in J. destruct J as [[J|J]|(m & M & J)]; [|auto|right; exists m; split; [now apply u_left|auto]].
        right. exists (Logical i l r). split; [constructor|exact J].
      * intros j J. apply R3 in J. destruct J as [J|J]; [|right; now apply t_right]. apply L3 in J. destruct J as [J|J]; [auto|right; now apply t_left].
    + destruct (IH e (or_introl eq_refl) s1) as (L1 & L2 & L3).
      { apply ND2. now left. }
      { apply PRE1; [now left|]. intros m. apply u_paren. }
      set (s2 := traverse e true s1) in *. split; [|split].
      * intros m M. inversion M; subst; [|now apply L1]. split; [|intros (? & ? & ? & ? & [=])].
        apply (traverse_grows e true s1). now left.
      * intros j J. apply L2 in J. destruct J as [[J|J]|(m & M & J)]; [|auto|right; exists m; split; [now apply u_paren|auto]].
        right. exists (Paren i e). split; [constructor|exact J].
      * intros j J. apply L3 in J. destruct J as [J|J]; [auto|right; now apply t_paren].
    + split; [|split].
      * intros m M. inversion M; subst. split; [now left|]. intros _. now left.
      * intros j [J|J]; [|auto]. right. exists (Other i bf c af). split; [constructor|exact J].
      * intros j [J|J]; [|auto]. right. subst j. constructor.
Qed.

(** ** Whole runs *)
Section Whole.
Variable t0 : tree.
Hypothesis ND : NoDup (ids t0).

Definition spot (n : tree) : Prop := exists p c, inside t0 p /\ tests p c /\ under c n.
Definition inv (s : state) : Prop :=
  (forall n, inside t0 n -> tr s n -> spot n -> done s n) /\ (forall i, ck s i -> condition t0 i).

Lemma nodup_inside t u : NoDup (ids t) -> inside t u -> NoDup (ids u).
Proof. intros N I. induction I as [|t c u C _ IH]; [auto|]. apply IH. now apply (nodup_kids t N). Qed.
Lemma tests_kid p c : tests p c -> In c (kids p).
Proof. destruct 1; cbn; [now left|]. apply in_or_app. right. now left. Qed.
Lemma tests_inside p c : inside t0 p -> tests p c -> inside t0 c.
Proof. intros P T. eapply inside_trans; [exact P|]. eapply in_kid; [apply tests_kid; exact T|constructor]. Qed.

Lemma true_inv p c s : inside t0 p -> tests p c -> inv s -> inv (traverse c true s) /\ done (traverse c true s) c.
Proof.
  intros P T [I1 I2]. pose proof (tests_inside p c P T) as C.
  destruct (traverse_true c s) as (A & B & D).
  - eapply nodup_inside; eauto.
  - intros m M X. apply I1; [|auto|exists p, c; auto]. eapply inside_trans; [exact C|]. now apply under_inside.
  - split; [|exact A]. split.
    + intros n N X S. apply B in X. destruct X as [X|(m & M & X)].
      * eapply done_mono; [apply traverse_grows|]. auto.
      * assert (m = n) as -> by (apply (unique_node t0); auto; eapply inside_trans; [exact C|now apply under_inside]).
        intros k K. apply A. eapply under_trans; eauto.
    + intros i X. apply D in X. destruct X as [X|X]; [auto|]. exists p, c. auto.
Qed.

(** A spot has its parent as a spot, or is what its parent tests. *)
Lemma under_last c n : under c n -> c = n \/ exists q, under c q /\
  ((exists i, q = Paren i n) \/ (exists i r, q = Logical i n r) \/ (exists i l, q = Logical i l n)).
Proof.
  induction 1 as [t|i e n U IH|i l r n U IH|i l r n U IH]; [now left|right..].
  - destruct IH as [->|(q & Q & X)]; [exists (Paren i n); split; [constructor|eauto]|exists q; split; [now constructor|auto]].
  - destruct IH as [->|(q & Q & X)]; [exists (Logical i n r); split; [constructor|eauto]|exists q; split; [now apply u_left|auto]].
  - destruct IH as [->|(q & Q & X)]; [exists (Logical i l n); split; [constructor|eauto]|exists q; split; [now apply u_right|auto]].
Qed.
Lemma spot_paren i e : inside t0 (Paren i e) -> spot e -> spot (Paren i e).
Proof.
  intros I (p & c & P & T & U).
  assert (NK : nth_error (kids (Paren i e)) 0 = Some e) by reflexivity.
  apply under_last in U. destruct U as [->|(q & Q & X)].
  - exfalso. destruct (In_nth_error _ _ (tests_kid _ _ T)) as [k K].
    destruct (unique_parent t0 _ _ _ _ _ _ ND I P NK K eq_refl) as [<- _]. inversion T.
  - assert (Qi : inside t0 q) by (eapply inside_trans; [eapply tests_inside; eauto|now apply under_inside]).
    assert (exists k, nth_error (kids q) k = Some e) as [k K].
    { destruct X as [(j & ->)|[(j & r & ->)|(j & l & ->)]]; [exists 0%nat|exists 0%nat|exists 1%nat]; reflexivity. }
    destruct (unique_parent t0 _ _ _ _ _ _ ND I Qi NK K eq_refl) as [<- _]. exists p, c. auto.
Qed.
Lemma spot_right i l r : inside t0 (Logical i l r) -> spot r -> spot (Logical i l r).
Proof.
  intros I (p & c & P & T & U).
  assert (NK : nth_error (kids (Logical i l r)) 1 = Some r) by reflexivity.
  apply under_last in U. destruct U as [->|(q & Q & X)].
  - exfalso. inversion T as [j l0 r0|j bf c0 af]; subst.
    + destruct (unique_parent t0 _ _ 1%nat 0%nat _ _ ND I P NK eq_refl eq_refl) as [_ K]. discriminate.
    + destruct (In_nth_error _ _ (tests_kid _ _ T)) as [k K].
      destruct (unique_parent t0 _ _ _ _ _ _ ND I P NK K eq_refl) as [X _]. discriminate.
  - assert (Qi : inside t0 q) by (eapply inside_trans; [eapply tests_inside; eauto|now apply under_inside]).
    assert (exists k, nth_error (kids q) k = Some r) as [k K].
    { destruct X as [(j & ->)|[(j & r' & ->)|(j & l' & ->)]]; [exists 0%nat|exists 0%nat|exists 1%nat]; reflexivity. }
    destruct (unique_parent t0 _ _ _ _ _ _ ND I Qi NK K eq_refl) as [<- _]. exists p, c. auto.
Qed.

Lemma false_inv t : forall s, inside t0 t -> ~ spot t -> inv s -> inv (traverse t false s).
Proof.
  induction t as [t IH] using tree_ind2. intros s IT NS IV.
  destruct (existsb (Z.eqb (node_id t)) (traversed s)) eqn:E.
  - assert (T : traverse t false s = s) by (destruct t; cbn [traverse]; rewrite E; reflexivity). now rewrite T.
  - set (s1 := State (node_id t :: traversed s) (nodes_checked s)).
    assert (IV1 : inv s1).
    { destruct IV as [I1 I2]. split; [|auto]. intros n N [X|X] S.
      - exfalso. apply NS. now rewrite (unique_node t0 t n ND IT N X).
      - eapply done_mono; [|eauto]. split; cbn; [apply incl_tl, incl_refl|apply incl_refl]. }
    assert (KI : forall c, In c (kids t) -> inside t0 c).
    { intros c C. eapply inside_trans; [exact IT|]. eapply in_kid; [exact C|constructor]. }
    destruct t as [i l r|i e|i bf c af]; cbn [traverse]; rewrite E; fold s1.
    + apply IH; [right; now left|apply KI; right; now left| |].
      * intros S. apply NS. now apply spot_right.
      * apply (true_inv (Logical i l r) l); [auto|constructor|auto].
    + apply IH; [now left|apply KI; now left| |auto]. intros S. apply NS. now apply spot_paren.
    + exact IV1.
Qed.

Lemma ancestors (A : list tree) u : (forall v, In v A -> forall p, inside t0 p -> In v (kids p) -> In p A) ->
  (forall p, inside t0 p -> In u (kids p) -> In p A) -> forall q, inside t0 q -> inside q u -> q = u \/ In q A.
Proof.
  intros CL PU q Q I. revert PU. induction I as [|q c u C I IH]; intros PU; [now left|]. right.
  assert (Ci : inside t0 c) by (eapply inside_trans; [exact Q|]; eapply in_kid; [exact C|constructor]).
  destruct (IH Ci PU) as [->|X]; [now apply PU|]. now apply (CL c).
Qed.

Definition full (A : list tree) (s : state) : Prop := forall p c, In p A -> tests p c -> done s c.
Lemma full_mono A s s' : grows s s' -> full A s -> full A s'.
Proof. intros G F p c P T. eapply done_mono; eauto. Qed.

Lemma listener_inv A u s : inside t0 u ->
  (forall v, In v A -> inside t0 v) ->
  (forall v, In v A -> forall p, inside t0 p -> In v (kids p) -> In p A) ->
  (forall p, inside t0 p -> In u (kids p) -> In p A) ->
  inv s -> full A s -> inv (listener u s) /\ full (A ++ [u]) (listener u s).
Proof.
  intros IU IA CL PU IV F. destruct u as [i l r|i e|i bf [c|] af]; cbn [listener].
  - destruct (true_inv (Logical i l r) l s IU (ts_logical i l r) IV) as [IV1 D1].
    set (s1 := traverse l true s) in *. assert (G1 : grows s s1) by apply traverse_grows.
    assert (IR : inside t0 r) by (eapply inside_trans; [exact IU|]; eapply in_kid; [right; now left|constructor]).
    assert (RES : inv (traverse r false s1)).
    { destruct (existsb (Z.eqb (node_id r)) (traversed s1)) eqn:E.
      - assert (T : traverse r false s1 = s1) by (destruct r; cbn [traverse]; rewrite E; reflexivity). now rewrite T.
      - apply false_inv; auto. intros S. apply (spot_right i l r IU) in S. destruct S as (q & c & Q & T & U).
        assert (QA : In q A).
        { destruct (ancestors A (Logical i l r) CL PU q Q) as [->|X]; auto.
          - eapply in_kid; [apply tests_kid; exact T|now apply under_inside].
          - exfalso. inversion T; subst. apply under_inside in U.
            destruct (nodup_kids (Logical i c r)) as [_ X]; [eapply nodup_inside; eauto|].
            apply (proj2 (X c (or_introl eq_refl))). now apply inside_ids. }
        destruct (F q c QA T r) as [X _]; [eapply under_trans; [exact U|apply u_right; constructor]|].
        apply G1 in X. apply existsb_id in X. congruence. }
    split; [exact RES|]. intros p c P T. apply in_app_or in P. destruct P as [P|[<-|[]]].
    + eapply done_mono; [|apply (F p c P T)]. eapply grows_trans; [exact G1|apply traverse_grows].
    + inversion T; subst. eapply done_mono; [apply traverse_grows|exact D1].
  - split; [auto|]. intros p c P T. apply in_app_or in P. destruct P as [P|[<-|[]]]; [eauto|inversion T].
  - destruct (true_inv (Other i bf (Some c) af) c s IU (ts_other i bf c af) IV) as [IV1 D1]. split; [auto|].
    intros p d P T. apply in_app_or in P. destruct P as [P|[<-|[]]].
    + eapply done_mono; [apply traverse_grows|eauto].
    + inversion T; subst. exact D1.
  - split; [auto|]. intros p d P T. apply in_app_or in P. destruct P as [P|[<-|[]]]; [eauto|inversion T].
Qed.

Lemma run_inv visits : parents_first t0 visits ->
  inv (run visits) /\ full visits (run visits).
Proof.
  intros PF. unfold run.
  assert (G : forall rest A s, visits = A ++ rest -> inv s -> full A s ->
    inv (fold_left (fun s t => listener t s) rest s) /\ full visits (fold_left (fun s t => listener t s) rest s)).
  { induction rest as [|u rest IH]; intros A s E IV F; cbn [fold_left].
    - rewrite app_nil_r in E. subst A. auto.
    - destruct (PF A u rest E) as [IU PU].
      assert (IA : forall v, In v A -> inside t0 v /\ forall p, inside t0 p -> In v (kids p) -> In p A).
      { intros v V. apply in_split in V. destruct V as (a & c & ->). rewrite <- app_assoc in E. cbn [app] in E.
        destruct (PF a v (c ++ u :: rest) E) as [X Y]. split; [auto|]. intros p P K. apply in_or_app. left. eauto. }
      destruct (listener_inv A u s IU (fun v V => proj1 (IA v V)) (fun v V => proj2 (IA v V)) PU IV F) as [IV1 F1].
      apply (IH (A ++ [u])); auto. rewrite <- app_assoc. exact E. }
  apply (G visits []); [reflexivity| |intros p c []].
  split; [intros n _ []|intros i []].
Qed.
End Whole.

Lemma once_inv t : forall c s, NoDup (nodes_checked s) -> incl (nodes_checked s) (traversed s) ->
  NoDup (nodes_checked (traverse t c s)) /\ incl (nodes_checked (traverse t c s)) (traversed (traverse t c s)).
Proof.
  assert (M : forall s i, incl (nodes_checked s) (traversed s) -> incl (nodes_checked s) (i :: traversed s)).
  { intros s i I. now apply incl_tl. }
  induction t as [t IH] using tree_ind2. intros c s N I.
  destruct t as [i l r|i e|i bf c0 af]; cbn [traverse node_id]; destruct (existsb _ _) eqn:E; auto.
  - destruct (IH l (or_introl eq_refl) true (State (i :: traversed s) (nodes_checked s)) N (M s i I)) as [N1 I1].
    apply (IH r (or_intror (or_introl eq_refl)) c _ N1 I1).
  - apply (IH e (or_introl eq_refl) c); [exact N|exact (M s i I)].
  - destruct c; cbn [nodes_checked traversed]; [|auto]. split.
    + constructor; [|auto]. intros X. apply I in X. rewrite <- Bool.not_true_iff_false in E. apply E.
      apply existsb_exists. exists i. split; [auto|apply Z.eqb_refl].
    + intros x [<-|X]; [now left|]. right. auto.
Qed.

Lemma preorder_inside t u : In u (preorder t) <-> inside t u.
Proof.
  revert u. induction t as [t IH] using tree_ind2. intros u. rewrite preorder_kids. split.
  - intros [<-|X]; [constructor|]. apply in_flat_map in X. destruct X as (c & C & X). eapply in_kid; [exact C|]. now apply (IH c).
  - intros I. inversion I; subst; [now left|]. right. apply in_flat_map. exists c. split; [auto|]. now apply (IH c).
Qed.
Lemma inside_size t u : inside t u -> (size u <= size t)%nat.
Proof. induction 1 as [|t c u C _ IH]; [lia|]. apply kids_size in C. lia. Qed.
Lemma flat_map_split {A B} (f : A -> list B) l : forall a u c, flat_map f l = a ++ u :: c ->
  exists l1 e l2 y z, l = l1 ++ e :: l2 /\ f e = y ++ u :: z /\ a = flat_map f l1 ++ y.
Proof.
  induction l as [|x l IH]; intros a u c E; [destruct a; discriminate|]. cbn [flat_map] in E.
  apply app_eq_app in E. destruct E as (m & [[E1 E2]|[E1 E2]]).
  - destruct m as [|v m].
    + rewrite app_nil_r in E1. cbn [app] in E2. symmetry in E2. destruct (IH [] u c E2) as (l1 & e & l2 & y & z & -> & X & Y).
      exists (x :: l1), e, l2, y, z. split; [auto|]. split; [auto|]. cbn [flat_map]. rewrite <- app_assoc, <- Y, app_nil_r. auto.
    + injection E2 as <- E2. exists [], x, l, a, m. auto.
  - destruct (IH m u c E2) as (l1 & e & l2 & y & z & -> & X & Y).
    exists (x :: l1), e, l2, y, z. split; [auto|]. split; [auto|]. cbn [flat_map]. rewrite <- app_assoc, <- Y. auto.
Qed.
Lemma parents_first_preorder t : NoDup (ids t) -> parents_first t (preorder t).
Proof.
  intros ND a u c E. split; [apply preorder_inside; rewrite E; apply in_elt|].
  revert a u c ND E. induction t as [t IH] using tree_ind2. intros a u c ND E p P K.
  destruct (nodup_kids t ND) as [ND1 ND2]. rewrite preorder_kids in E.
  destruct a as [|x a].
  - exfalso. injection E as <- _. apply inside_size in P. apply kids_size in K. lia.
  - cbn [app] in E. injection E as <- E. inversion P as [|? d ? D Dp]; subst; [now left|]. right.
    destruct (flat_map_split preorder (kids t) a u c E) as (k1 & e & k2 & y & z & EK & EP & EA).
    assert (Ue : inside e u) by (apply preorder_inside; rewrite EP; apply in_elt).
    assert (Ud : inside d u) by (eapply inside_trans; [exact Dp|]; eapply in_kid; [exact K|constructor]).
    apply In_nth_error in D as N. destruct N as [j N].
    assert (N' : nth_error (kids t) (List.length k1) = Some e) by (rewrite EK, nth_error_app2, Nat.sub_diag; [reflexivity|lia]).
    assert (j = List.length k1) as ->.
    { eapply flat_ids_nth with (i := node_id u); eauto; now apply inside_ids. }
    rewrite N in N'. injection N' as <-. rewrite EA. apply in_or_app. right.
    eapply (IH d D y u z); eauto. now apply ND2.
Qed.
