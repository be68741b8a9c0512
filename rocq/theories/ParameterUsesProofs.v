From Coq Require Import Bool Arith Ascii String List Lia Sorted Permutation.
From Verif Require Import Base TypeParameters TypeParametersSpec TypeParametersProofs PropsTypeParameters.
From Verif Require Import ParameterUses ParameterUsesSpec.
Import ListNotations.
Open Scope nat_scope.

Fixpoint tree_ind' (P : tree -> Prop) (H : forall n k s r children, Forall P children -> P (Tree n k s r children)) (t : tree) : P t :=
  match t with Tree n k s r children => H n k s r children ((fix go l := match l return Forall P l with [] => Forall_nil P | x :: l => Forall_cons x (tree_ind' P H x) (go l) end) children) end.
Lemma ranges_app : forall a d xs l ys m, ranges a d xs l -> ranges a d ys m -> ranges a d (xs ++ ys) (l ++ m).
Proof. intros a d xs l ys m H K. induction H; cbn [app]; [exact K|apply g_take; auto|apply g_skip; auto]. Qed.
Lemma collect_ranges : forall a d t in_type, ranges a d (nodes in_type t) (collect a d in_type t).
Proof.
  intros a d t. induction t as [n k s r children IH] using tree_ind'; intros in_type. cbn [nodes collect].
  assert (T : forall i, ranges a d (flat_map (nodes i) children) (flat_map (collect a d i) children)).
  { intros i. induction IH as [|x l X _ IHl]; cbn [flat_map]; [constructor|]. apply ranges_app; auto. }
  assert (skip : ~ refers a d (in_type, Tree n k s r children) -> ranges a d ((in_type, Tree n k s r children) :: flat_map (nodes (match k with Type_node => true | _ => false end)) children) (flat_map (collect a d (match k with Type_node => true | _ => false end)) children)) by (intros N; apply g_skip; auto).
  destruct k; cbn [app]; try (apply skip; intros [_ [n' [r' [c' [E _]]]]]; cbn [snd] in E; discriminate).
  destruct (Nat.eqb n d) eqn:N; cbn [negb andb app].
  { apply skip. intros [_ [n' [r' [c' [E D]]]]]. cbn [snd] in E. injection E as -> _ _ _. apply Nat.eqb_eq in N. contradiction. }
  destruct in_type; cbn [andb app]; [|apply skip; intros [K _]; cbn [fst] in K; discriminate].
  destruct s as [x|]; [|apply skip; intros [_ [n' [r' [c' [E _]]]]]; cbn [snd] in E; discriminate].
  destruct (Nat.eqb x a) eqn:X; cbn [app].
  - apply (g_take a d (true, Tree n Identifier (Some x) r children)); auto. split; [reflexivity|]. apply Nat.eqb_eq in X. apply Nat.eqb_neq in N. subst x. exists n, r, children. auto.
  - apply skip. intros [_ [n' [r' [c' [E _]]]]]. cbn [snd] in E. injection E as _ -> _ _. rewrite Nat.eqb_refl in X. discriminate.
Qed.
Lemma insert_perm : forall r l, Permutation (insert r l) (r :: l).
Proof. intros r. induction l as [|x l IH]; cbn [insert]; [apply Permutation_refl|]. destruct (fst r <=? fst x); [apply Permutation_refl|]. eapply perm_trans; [apply perm_skip, IH|apply perm_swap]. Qed.
Lemma insert_sorted : forall r l, StronglySorted (fun x y : nat * nat => fst x <= fst y) l -> StronglySorted (fun x y : nat * nat => fst x <= fst y) (insert r l).
Proof.
  intros r. induction l as [|x l IH]; cbn [insert]; intros H; [repeat constructor|]. inversion H as [|x' l' Hs Hf]; subst. destruct (fst r <=? fst x) eqn:L.
  - apply Nat.leb_le in L. constructor; auto. constructor; auto. apply Forall_forall. intros y Y. rewrite Forall_forall in Hf. specialize (Hf y Y). cbn beta in Hf. lia.
  - apply Nat.leb_gt in L. constructor; auto. apply Forall_forall. intros y Y. apply (Permutation_in _ (insert_perm r l)) in Y. destruct Y as [<-|Y]; [lia|]. rewrite Forall_forall in Hf. apply Hf. exact Y.
Qed.
Lemma sort_perm : forall l, Permutation (fold_right insert [] l) l.
Proof. induction l as [|x l IH]; cbn [fold_right]; [constructor|]. eapply perm_trans; [apply insert_perm|apply perm_skip, IH]. Qed.
Lemma sort_sorted : forall l, StronglySorted (fun x y : nat * nat => fst x <= fst y) (fold_right insert [] l).
Proof. induction l as [|x l IH]; cbn [fold_right]; [constructor|apply insert_sorted; exact IH]. Qed.
Lemma references_in : forall a d t r, In r (references a d t) <-> exists x, In x (nodes false t) /\ refers a d x /\ range_of x = r.
Proof.
  intros a d t r. unfold references. assert (E : In r (fold_right insert [] (collect a d false t)) <-> In r (collect a d false t)) by (split; apply Permutation_in; [|apply Permutation_sym]; apply sort_perm).
  rewrite E. pose proof (collect_ranges a d t false) as C. generalize dependent (collect a d false t). intros l _ C. induction C as [|x xs l R C IH|x xs l R C IH]; cbn [In].
  - split; [intros []|intros [x [[] _]]].
  - rewrite IH. split.
    + intros [<-|[y [Y [F G]]]]; [exists x|exists y]; auto.
    + intros [y [[<-|Y] [F G]]]; [left; exact G|right; exists y; auto].
  - rewrite IH. split.
    + intros [y [Y [F G]]]. exists y. auto.
    + intros [y [[<-|Y] [F G]]]; [contradiction|exists y; auto].
Qed.
Lemma picks_perm : forall (A : Type) (P : A -> Prop) l m, Permutation l m -> forall n, picks P n l -> picks P n m.
Proof.
  intros A P l m H. induction H as [|x l m H IH|x y l|l m o H IH K IK]; intros n Q; auto.
  - inversion Q; subst; [constructor|apply PSkip; auto|apply PTake; auto].
  - inversion Q as [|n1 x1 l1 Q1|n1 x1 l1 Px Q1]; subst; [constructor| |].
    + inversion Q1 as [|n2 x2 l2 Q2|n2 x2 l2 Px2 Q2]; subst; [constructor|apply PSkip; apply PSkip; auto|apply PTake; [auto|apply PSkip; auto]].
    + inversion Q1 as [|n2 x2 l2 Q2|n2 x2 l2 Px2 Q2]; subst.
      * apply PSkip. apply PTake; auto. constructor.
      * apply PSkip. apply PTake; auto.
      * apply PTake; auto. apply PTake; auto.
Qed.
Lemma picks_ranges : forall a d (P : nat * nat -> Prop) xs l, ranges a d xs l -> forall n, picks P n l <-> picks (fun y => refers a d y /\ P (range_of y)) n xs.
Proof.
  intros a d P xs l H. induction H as [|x xs l R H IH|x xs l R H IH]; intros n.
  - split; intros Q; inversion Q; constructor.
  - split; intros Q; inversion Q as [|n1 x1 l1 Q1|n1 x1 l1 Px Q1]; subst.
    + apply PNone.
    + apply PSkip. apply IH. exact Q1.
    + apply PTake; [split; assumption|]. apply IH. exact Q1.
    + apply PNone.
    + apply PSkip. apply IH. exact Q1.
    + apply PTake; [tauto|]. apply IH. exact Q1.
  - split; intros Q.
    + apply PSkip. apply IH. exact Q.
    + inversion Q as [|n1 x1 l1 Q1|n1 x1 l1 Px Q1]; subst; [constructor|apply IH; exact Q1|]. destruct Px; contradiction.
Qed.
Lemma repeated_twice : forall p x body t, repeated (prange p) (references x (name_node p) t) body = true <-> twice p x body t.
Proof.
  intros p x body t. rewrite C71_repeated. unfold twice. rewrite <- (picks_ranges x (name_node p) (counted (prange p) body) _ _ (collect_ranges x (name_node p) t false)).
  split; apply picks_perm; [|apply Permutation_sym]; apply sort_perm.
Qed.
Lemma candidate_iff : forall s t ps c, In c (candidates s t ps) <->
  exists p x, In p ps /\ psymbol p = Some x /\ ~ twice p x (start_of_body s) t /\ c = (p, x, references x (name_node p) t).
Proof.
  intros s t ps c. unfold candidates. rewrite in_flat_map. split.
  - intros [p [I H]]. destruct (psymbol p) as [x|] eqn:X; [|destruct H]. cbv zeta in H. destruct (repeated (prange p) (references x (name_node p) t) (start_of_body s)) eqn:R; [destruct H|]. destruct H as [<-|[]]. exists p, x. rewrite <- repeated_twice, R. split; [exact I|]. split; [exact X|]. split; [discriminate|reflexivity].
  - intros [p [x [I [X [T ->]]]]]. exists p. split; auto. rewrite X. cbv zeta. rewrite <- repeated_twice in T. destruct (repeated (prange p) (references x (name_node p) t) (start_of_body s)); [exfalso; apply T; reflexivity|]. left. reflexivity.
Qed.
